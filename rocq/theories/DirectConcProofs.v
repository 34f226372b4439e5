(** Proofs about the direct search for concrete lattices (C47, C48, C57). *)
From Verif Require Import LinAlg Hom GroupModel GroupSpec GroupProofs DistSpec DistProofs VecGenModel VecGenSpec VecGenProofs
  VecGenTotal DirectSpec DirectProofs DirectConcrete DirectConcSpec.
Local Open Scope Z_scope.

Lemma reshape_IZR n l : reshape n (map IZR l) = RZ (reshape n l).
Proof.
  unfold RZ, reshape. rewrite (mmap_mk IZR). apply mk_ext. intros i j Hi Hj. apply (map_nth IZR l 0).
Qed.
Lemma len2_IZR l : len2 (map IZR l) = IZR (norm2 l).
Proof.
  unfold len2. rewrite map_length. induction l as [|x l IH]; [reflexivity|].
  cbn [length norm2]. rewrite plus_IZR, mult_IZR, <- IH.
  change (S (length l)) with (1 + length l)%nat. rewrite sumn_app_R. f_equal. cbn. ring.
Qed.

Section Conc.
  Variable n : nat.
  Variables EA EM : mat R.
  Variables LG_A LG_M : list (mat Z).
  Hypothesis HP : lattice_pair n EA EM LG_A LG_M.
  Let Hd : dim23 n := proj1 HP.
  Let Hn : (0 < n)%nat := dim23_pos n Hd.

  Lemma lat_dist_inv l l' : length l = (n * n)%nat -> length l' = (n * n)%nat ->
    equivalent n LG_A LG_M l l' -> lat_dist EA EM l = lat_dist EA EM l'.
  Proof.
    pose proof HP as (_ & WA & WM & DA & DM & GA & GM & IA & IM).
    intros Hl Hl' (M1 & M2 & I1 & I2 & E). symmetry.
    apply (Cauchy_sym n _ _ EA EM (RZ M1) (RZ M2)); auto.
    rewrite !reshape_IZR, <- !RZ_mmul. now rewrite E.
  Qed.

  Lemma lat_dist_finite alpha d0 : quartic_bound n EA EM alpha ->
    exists S, forall l, length l = (n * n)%nat -> (lat_dist EA EM l <= d0)%R -> In l S.
  Proof.
    pose proof HP as (_ & WA & WM & DA & DM & _). intros [Pa Ba].
    destruct (gen_fresh (rmax alpha d0) (n * n)) as (S & _ & _ & _ & HS); [apply sqrt_pos|nia|].
    exists S. intros l Hl Hle. apply HS. split; [exact Hl|]. rewrite <- len2_IZR.
    assert (n <= 3)%nat by (destruct Hd; lia).
    apply (radius_sound n EA (minv EM)); auto; [now apply wf_minv|now rewrite map_length].
  Qed.

  Lemma ball_gen_total alpha d x : length x = (n * n)%nat ->
    exists g, ball_gen n alpha (Some d) x = Ok g /\ Forall (fun l => length l = n * n)%nat g.
  Proof. intros Hx. apply gen_total; [apply sqrt_pos|nia|exact Hx]. Qed.

  Variable nsol : nat.
  Hypothesis Hnsol : (1 <= nsol)%nat.
  Notation hist := (history n LG_A LG_M (lat_dist EA EM) nsol).

  Lemma conc_init vol_th stream : (vol_th <= 1)%R -> Forall (wf n n) stream ->
    direct_init n EA EM LG_A LG_M nsol vol_th stream = NoFuel \/
    exists st seen, direct_init n EA EM LG_A LG_M nsol vol_th stream = Ok st /\ hist seen st /\
      (nsol <= length (fst (fst st)))%nat.
  Proof.
    pose proof HP as (_ & WA & WM & DA & DM & GA & GM & IA & IM). intros Hv Hs.
    assert (V0 : vol_ok vol_th 0 = false).
    { unfold vol_ok. apply andb_false_iff. left. apply Rltb_false. lra. }
    assert (W0 : wf n n (guess EA EM)).
    { apply (wf_mmap Rfloor). apply (wf_mmul n n n); auto. now apply wf_minv. }
    destruct (init_ok n LG_A LG_M (lat_dist EA EM) nsol Hd GA GM lat_dist_inv Hnsol (vol_ok vol_th) V0
                (guess EA EM) W0 (20 * nsol) stream [] ([], [], None) Hs
                (h_start n LG_A LG_M (lat_dist EA EM) nsol)) as [E|(st & dr & E & H & _ & _ & L)]; [now left|].
    right. exists st, (dr ++ []). split; [exact E|]. split; [exact H|]. cbn in L. lia.
  Qed.

  Lemma conc_search alpha slice_sz seen st : quartic_bound n EA EM alpha -> (1 <= slice_sz)%nat ->
    hist seen st -> (nsol <= length (fst (fst st)))%nat ->
    exists fuel0, forall fuel, (fuel0 <= fuel)%nat ->
      match direct_search n EA EM LG_A LG_M nsol alpha slice_sz fuel st with
      | Ok st' => exists seen' y g, hist seen' st' /\ incl seen seen' /\
          ball_gen n alpha (snd st') y = Ok g /\ incl g seen' /\ (nsol <= length (fst (fst st')))%nat
      | Raise e => e = StopIteration
      | NoFuel => False
      end.
  Proof.
    pose proof HP as (_ & WA & WM & DA & DM & GA & GM & IA & IM). intros Ha Hs HI Hlen.
    destruct (hist_dmax n LG_A LG_M (lat_dist EA EM) nsol Hd GA GM lat_dist_inv Hnsol slice_sz Hs seen st HI Hlen)
      as (d & _ & Ed & _).
    destruct (lat_dist_finite alpha d Ha) as (S & HS).
    exists (Datatypes.S (length (filter (fun l => dlt (lat_dist EA EM l) d) S))). intros fuel Hf.
    pose proof (outer_terminates n LG_A LG_M (lat_dist EA EM) nsol Hd GA GM lat_dist_inv Hnsol slice_sz Hs
                  (ball_gen n alpha) (ball_gen_total alpha) S d
                  (fun l Hl Hle => HS l Hl (proj1 (Rleb_spec _ _) Hle))
                  fuel (repeat 0 (n * n)) seen st d HI Hlen (repeat_length _ _) Ed (dle_refl d)
                  ltac:(unfold lt; exact Hf)) as NF.
    pose proof (outer_ok n LG_A LG_M (lat_dist EA EM) nsol Hd GA GM lat_dist_inv Hnsol slice_sz Hs
                  (ball_gen n alpha) (ball_gen_total alpha) fuel (repeat 0 (n * n)) seen st HI Hlen
                  (repeat_length _ _)) as OK.
    unfold direct_search, search.
    destruct (DirectModel.outer n LG_A LG_M (lat_dist EA EM) nsol slice_sz (ball_gen n alpha) fuel _ st) as [st'|e|].
    - destruct OK as (seen' & y & g & H1 & H2 & H3 & H4 & H5). exists seen', y, g. auto.
    - exact OK.
    - now apply NF.
  Qed.
End Conc.
