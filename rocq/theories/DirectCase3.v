(** A case for C84 and C123 in three dimensions: lat_cor_direct on the cubic lattice with edge 1 and itself. *)
From Verif Require Import LinAlg Hom Eig RMat GroupModel GroupSpec GroupProofs LatticeModel LatticeSpec LatticeProofs LatticeLaue LatticeGroups
  BravaisModel BravaisSpec BravaisProofs DistModel DistSpec DistProofs VecGenModel VecGenProofs DirectSpec DirectProofs DirectTransfer
  DirectConcrete DirectConcSpec DirectConcProofs DirectExample DirectGlobal
  OutputModel OutputProofs PropOutput PropLattice PropBravais LatCorProofs LatCorCase DirectCorModel DirectCorSpec DirectCorProofs DirectCorCase.
Local Open Scope R_scope.

Definition G48 : list (mat Z) := CUBIC_LAUE_GROUP ++ map mopp CUBIC_LAUE_GROUP.
Lemma base_eye : base 3 (@eye R _ 3).
Proof. split; [now right|]. split; [apply wf_eye|]. rewrite det_eye by (now right). lra. Qed.
Lemma keep_eye : forall T, incl T CUBIC_LAUE_GROUP -> keep (@eye R _ 3) (map IntArr T) = Ok (map RZ T).
Proof.
  induction T as [|M T IH]; intros HT; [reflexivity|]. cbn [map keep].
  assert (HM : In M CUBIC_LAUE_GROUP) by (apply HT; now left).
  pose proof (proj2 CUBIC_good (RZ M) (in_map RZ _ _ HM)) as (OM & _).
  assert (WM : wf 3 3 M) by (apply wfb_spec; clear -HM; revert M HM; apply forallb_forall; reflexivity).
  rewrite (inpoint_preserves 3 _ base_eye (IntArr M)).
  - cbn [bind]. rewrite IH by (intros x Hx; apply HT; now right). reflexivity.
  - apply (proj2 cubic_T). unfold cubic_arr. now apply in_map.
  - cbn [values]. apply (preserves_iff 3 _ base_eye); [exact OM|]. exists M. split; [exact WM|]. rewrite (mmul_eye_l 3 3), (mmul_eye_r 3 3) by (try lia; now apply wf_RZ). reflexivity.
Qed.
Lemma laue_eye : Laue_group (@eye R _ 3) = Ok (map RZ CUBIC_LAUE_GROUP).
Proof.
  unfold Laue_group. change (length (@eye R _ 3)) with 3%nat. cbv iota. unfold pick_group, cubic_arr. rewrite keep_eye by apply incl_refl. cbn [bind].
  rewrite map_length. change (length CUBIC_LAUE_GROUP =? 4)%nat with false. reflexivity.
Qed.
Lemma group_eye : lattice_group (@eye R _ 3) = Ok G48.
Proof.
  unfold lattice_group, point_group. change (length (@eye R _ 3)) with 3%nat. cbv iota. rewrite laue_eye. cbn [bind].
  rewrite (to_integer_rep_ok 3 _ base_eye). f_equal.
  assert (E : map RZ CUBIC_LAUE_GROUP ++ map mopp (map RZ CUBIC_LAUE_GROUP) = map RZ G48).
  { unfold G48. rewrite map_app, !map_map. f_equal. apply map_ext_in. intros M HM.
    assert (WM : wf 3 3 M) by (apply wfb_spec; clear -HM; revert M HM; apply forallb_forall; reflexivity).
    destruct (wf3_inv M WM) as (a & b & c & d & e & f & g & h & i & ->). unfold RZ, mmap. cbn. now rewrite !opp_IZR. }
  rewrite E, map_map. rewrite <- (map_id G48) at 2. apply map_ext_in. intros M HM.
  assert (WM : wf 3 3 M) by (apply wfb_spec; clear -HM; revert M HM; apply forallb_forall; reflexivity). unfold irep.
  rewrite minv_eye by (now right). rewrite (mmul_eye_r 3 3), (mmul_eye_l 3 3) by (try lia; now apply wf_RZ). apply rintm_RZ.
Qed.
Lemma G48_ok : ztable_ok 3 G48 = true.
Proof. vm_compute. reflexivity. Qed.

(** ** Distances and the quartic form *)
Definition zdist3 (l : list Z) : Z :=
  let L := reshape 3 l in
  let v := flatten (msub (mmul L (tr L)) (eye 3)) in dot v v.
Lemma dist_eye l : length l = 9%nat -> lat_dist (eye 3) (eye 3) l = IZR (zdist3 l).
Proof.
  destruct l as [|a [|b [|c [|d [|e [|f [|g [|h [|i [|]]]]]]]]]]; try discriminate. intros _.
  unfold lat_dist, Cauchy_dist. rewrite minv_eye by (now right).
  unfold zdist3. cbn. repeat rewrite ?plus_IZR, ?mult_IZR, ?minus_IZR, ?opp_IZR. ring.
Qed.
Lemma guess_eye : guess (eye 3) (eye 3) = eye 3.
Proof.
  unfold guess. rewrite minv_eye by (now right). rewrite (mmul_eye_l 3 3) by (try lia; apply wf_eye).
  cbn. change 0%R with (IZR 0). change 1%R with (IZR 1). now rewrite !Rfloor_IZR.
Qed.
Lemma bound_eye : quartic_bound 3 (eye 3) (eye 3) (1 / 3).
Proof.
  split; [lra|]. intros u Lu Hu. rewrite minv_eye by (now right).
  rewrite (quartic_is_fro 3) by (try lia; apply wf_eye). cbn zeta. unfold Finv_of.
  set (L := reshape 3 u). assert (WL : wf 3 3 L) by apply wf_reshape.
  rewrite (mmul_eye_l 3 3), (mmul_eye_r 3 3) by (try lia; try exact WL).
  pose proof (fro2_gram_lower 3 L ltac:(lia) WL) as G.
  rewrite (len2_fro 3) in Hu by exact Lu. fold L in Hu. rewrite Hu, pow1 in G. replace (INR 3) with 3%R in G by (cbn; lra). lra.
Qed.

(** an environment: scipy finds the minimum; the first random matrix is zero, the others give the shear I + e1 (x) e2 *)
Definition third9 : vec R := [/ sqrt 3; 0; 0; 0; / sqrt 3; 0; 0; 0; / sqrt 3].
Definition draws3 : list (mat Z) := [[0; 0; 0]; [0; 0; 0]; [0; 0; 0]]%Z :: repeat [[0; 1; 0]; [0; 0; 0]; [0; 0; 0]]%Z 19.
Definition world3 (eig : mat R -> list R * mat R) : world :=
  {| w_eig := eig; w_min := Scipy (fun _ => third9); w_draws := fun _ => [1; 0; 0; 0; 0; 0; 0; 0; 0]; w_shifts := draws3; w_order := fun l => l |}.
Lemma quart_eye eig : quart_min (world3 eig) (3 * 3) (quartic_D 3 (eye 3) (minv (eye 3))) = Ok (Some (1 / 3)).
Proof.
  unfold quart_min. cbn [w_min world3 w_draws]. unfold quart_min_scipy.
  assert (S1 : exists v, start [1; 0; 0; 0; 0; 0; 0; 0; 0] = Ok v).
  { unfold start, normalize. destruct (Reqb _ _) eqn:E; [|eauto]. exfalso. apply Reqb_spec in E. revert E. unfold vnorm. cbn.
    match goal with |- sqrt ?x = _ -> _ => replace x with 1 by ring end. rewrite sqrt_1. lra. }
  destruct S1 as (v & S1).
  rewrite (mapM_same _ third9).
  2:{ intros x Hx. apply in_map_iff in Hx. destruct Hx as (i & <- & _). rewrite S1. reflexivity. }
  cbn [bind]. rewrite map_length, seq_length. rewrite (map_same _ (quartic_form (3 * 3) (quartic_D 3 (eye 3) (minv (eye 3))) third9)) by (intros x Hx; now rewrite (repeat_spec _ _ _ Hx)). rewrite repeat_length.
  change 100%nat with (S 99). rewrite min_of_same. do 2 f_equal. rewrite minv_eye by (now right).
  rewrite (quartic_is_fro 3) by (try lia; apply wf_eye). cbn zeta. unfold Finv_of. rewrite (mmul_eye_l 3 3), (mmul_eye_r 3 3) by (try lia; apply wf_reshape).
  assert (H3 : / sqrt 3 * / sqrt 3 = 1 / 3). { rewrite <- Rinv_mult, sqrt_sqrt by lra. lra. }
  unfold third9. set (s := / sqrt 3) in *. clearbody s. unfold fro2. cbn.
  transitivity (3 * (s * s) * (s * s)); [ring|]. rewrite H3. field.
Qed.
Lemma draws3_wf : Forall (wf 3 3) draws3.
Proof. apply Forall_forall. intros M HM. apply wfb_spec. revert M HM. apply forallb_forall. reflexivity. Qed.

(** ** Initialisation *)
Definition ext3 : list (list Z) := eqlatcor 3 G48 G48 [1; 0; 0; 0; 1; 0; 0; 0; 1]%Z.
Definition z3 : @state Z := ([([1; 0; 0; 0; 1; 0; 0; 0; 1]%Z, 0%Z)], ext3, Some 0%Z).
Definition shear3 : list Z := [1; 1; 0; 0; 1; 0; 0; 0; 1]%Z.
Lemma shear_new : mem_vec shear3 ext3 = false.
Proof. vm_cast_no_check (eq_refl false). Qed.
Lemma shear_apart : (let N := eqlatcor 3 G48 G48 shear3 in forallb (fun l => negb (mem_vec l N)) ext3) = true.
Proof. vm_cast_no_check (eq_refl true). Qed.
Lemma filter_all {X} (p : X -> bool) l : forallb p l = true -> filter p l = l.
Proof. induction l as [|x l IH]; cbn; [reflexivity|]. intros H. apply andb_true_iff in H. destruct H as [-> H]. now rewrite IH. Qed.
Lemma filter_own N : filter (fun l => negb (mem_vec l N)) N = [].
Proof.
  assert (K : forall S, incl S N -> filter (fun l => negb (mem_vec l N)) S = []).
  { induction S as [|x S IH]; intros I; [reflexivity|]. cbn. assert (mem_vec x N = true) as ->.
    { apply mem_vec_In, I. now left. }
    apply IH. intros y Hy. apply I. now right. }
  apply K, incl_refl.
Qed.
Lemma add_back G l dl d0 l0 ext : mem_vec l ext = false -> det (reshape 3 l) = 1%Z -> (d0 < dl)%Z ->
  forallb (fun x => negb (mem_vec x (eqlatcor 3 G G l))) ext = true ->
  DirectModel.add_sol 3 G G 1 (l, dl) [(l0, d0)] ext = Ok ([(l0, d0)], ext, d0).
Proof.
  intros M D L A.
  assert (DL : dlt d0 dl = true) by (unfold dlt; cbn; apply negb_true_iff, Z.leb_gt; exact L).
  assert (DD : dlt d0 d0 = false) by (unfold dlt; cbn; apply negb_false_iff, Z.leb_refl).
  assert (PL : pop_loop 3 G G 1 2 [(l0, d0); (l, dl)] (ext ++ eqlatcor 3 G G l) = Ok ([(l0, d0)], ext)).
  { cbn [pop_loop map last nth_error Nat.sub]. cbn [snd fst]. rewrite DL. cbn [removelast]. rewrite filter_app, (filter_all _ _ A), filter_own, app_nil_r.
    cbn [pop_loop map last nth_error Nat.sub]. cbn [snd]. rewrite DD. reflexivity. }
  unfold DirectModel.add_sol. cbn [fst snd]. rewrite M, D. change (1 =? 0)%Z with false. cbv iota.
  assert (SS : searchsorted [(l0, d0)] dl = 1%nat) by (cbn [searchsorted snd]; now rewrite DL). rewrite SS.
  change (DirectModel.insert_at 1 (l, dl) [(l0, d0)]) with [(l0, d0); (l, dl)]. change (length [(l0, d0); (l, dl)]) with 2%nat. change (1 <? 2)%nat with true. cbv iota.
  rewrite PL. reflexivity.
Qed.
Lemma init_steps (sols : list (list Z * Z)) ext d0 l (sh : mat Z) : madd (eye 3) sh = reshape 3 l -> length l = 9%nat -> det (reshape 3 l) = 1%Z ->
  mem_vec l ext = false -> DirectModel.add_sol 3 G48 G48 1 (l, zdist3 l) sols ext = Ok (sols, ext, d0) ->
  forall k, init_loop 3 G48 G48 zdist3 1 (Z.eqb 1) (eye 3) k (repeat sh k) (sols, ext, Some d0) = Ok (sols, ext, Some d0).
Proof.
  intros E L D N A. induction k as [|k IH]; [reflexivity|]. cbn [repeat init_loop draw]. rewrite E, D.
  assert (F : flatten (reshape 3 l) = l). { destruct l as [|a [|b [|c [|d [|e [|f [|g [|h [|i [|]]]]]]]]]]; try discriminate. reflexivity. }
  rewrite F, N. cbn [orb negb Z.eqb Pos.eqb bind]. rewrite A. cbn [bind]. exact IH.
Qed.
Lemma init_first stream rest l k (sols sols' : list (list Z * Z)) ext ext' dm d' : draw (Z.eqb 1) (eye 3) stream ext = Ok (l, rest) ->
  DirectModel.add_sol 3 G48 G48 1 (l, zdist3 l) sols ext = Ok (sols', ext', d') ->
  init_loop 3 G48 G48 zdist3 1 (Z.eqb 1) (eye 3) (S k) stream (sols, ext, dm) = init_loop 3 G48 G48 zdist3 1 (Z.eqb 1) (eye 3) k rest (sols', ext', Some d').
Proof. intros E A. cbn [init_loop]. rewrite E. cbn [bind]. rewrite A. reflexivity. Qed.
Definition one3 : list Z := [1; 0; 0; 0; 1; 0; 0; 0; 1]%Z.
Definition sols3 : list (list Z * Z) := [(one3, 0%Z)].
Lemma one_add : DirectModel.add_sol 3 G48 G48 1 (one3, zdist3 one3) [] [] = Ok (sols3, ext3, 0%Z).
Proof. vm_cast_no_check (@eq_refl (res (list (list Z * Z) * list (list Z) * Z)) (Ok (sols3, ext3, 0%Z))). Qed.
Opaque ext3.
Lemma shear_add : DirectModel.add_sol 3 G48 G48 1 (shear3, zdist3 shear3) sols3 ext3 = Ok (sols3, ext3, 0%Z).
Proof. exact (add_back G48 shear3 (zdist3 shear3) 0%Z one3 ext3 shear_new eq_refl eq_refl shear_apart). Qed.
Lemma zinit3 : init_search 3 G48 G48 zdist3 1 (Z.eqb 1) (eye 3) draws3 = Ok z3.
Proof.
  unfold init_search. change (20 * 1)%nat with (S 19).
  refine (eq_trans (init_first draws3 (repeat [[0; 1; 0]; [0; 0; 0]; [0; 0; 0]]%Z 19) one3 19 [] sols3 [] ext3 None 0%Z eq_refl one_add) _).
  exact (init_steps sols3 ext3 0%Z shear3 [[0; 1; 0]; [0; 0; 0]; [0; 0; 0]]%Z eq_refl eq_refl eq_refl shear_new shear_add 19).
Qed.
Lemma init_transfer G (z : @state Z) : init_search 3 G G zdist3 1 (Z.eqb 1) (eye 3) draws3 = Ok z ->
  direct_init 3 (eye 3) (eye 3) G G 1 (1 / 10) draws3 = Ok (fst_ IZR z).
Proof.
  intros E. unfold direct_init. rewrite guess_eye, vol_ok_tenth. unfold init_search in *. set (m := (20 * 1)%nat) in *. clearbody m.
  change ([], [], None) with (fst_ IZR ([], [], None)) at 1.
  rewrite (init_loop_f IZR IZR_order 3 G G zdist3 _ dist_eye 1 (Z.eqb 1) (eye 3) ltac:(lia) (wf_eye 3) _ _ _ draws3_wf).
  rewrite E. reflexivity.
Qed.
Definition r3 : @state R := fst_ IZR z3.
Lemma rinit3 : direct_init 3 (eye 3) (eye 3) G48 G48 1 (1 / 10) draws3 = Ok r3.
Proof. exact (init_transfer G48 z3 zinit3). Qed.

(** ** The search: the ball of radius sqrt 3, in slices of 100 *)
Definition ball3 : list (list Z) := match vec_generator_sq 3 9 (Some (repeat 0%Z 9)) with Ok l => l | _ => [] end.
Lemma ball3_ok : vec_generator_sq 3 9 (Some (repeat 0%Z 9)) = Ok ball3.
Proof. vm_cast_no_check (@eq_refl (res (list (list Z))) (Ok ball3)). Qed.
Lemma ball3_flat : Forall (fun l => length l = 9%nat) ball3.
Proof. apply Forall_forall. intros l Hl. apply Nat.eqb_eq. revert l Hl. apply forallb_forall. vm_cast_no_check (eq_refl true). Qed.
Opaque ball3.
Lemma ball_eye : ball_gen 3 (1 / 3) (Some 0) (repeat 0%Z 9) = Ok ball3.
Proof.
  cbn [ball_gen].
  assert (E : (rmax (1 / 3) 0 * rmax (1 / 3) 0 = 3)%R).
  { unfold rmax. rewrite sqrt_sqrt by apply sqrt_pos. unfold gamma.
    replace (3 * 0)%R with 0%R by ring. rewrite sqrt_0. replace ((3 + 2 * 0 + 0) / (1 / 3))%R with (3 ^ 2)%R by field. apply sqrt_pow2. lra. }
  assert (P : (0 <= rmax (1 / 3) 0)%R) by apply sqrt_pos. change (3 * 3)%nat with 9%nat.
  rewrite (vec_gen_rel _ _ _ _ (rel_floor _ P)). rewrite E. rewrite Rfloor_IZR. exact ball3_ok.
Qed.
Lemma inner3 : inner 3 G48 G48 zdist3 1 100 (length ball3) ball3 z3 = Ok (z3, None).
Proof. vm_cast_no_check (@eq_refl (res (@state Z * option (list Z))) (Ok (z3, None))). Qed.
Lemma search_transfer G (z : @state Z) : snd z = Some 0%Z -> inner 3 G G zdist3 1 100 (length ball3) ball3 z = Ok (z, None) ->
  direct_search 3 (eye 3) (eye 3) G G 1 (1 / 3) 100 1 (fst_ IZR z) = Ok (fst_ IZR z).
Proof.
  destruct z as [[so ex] dm]. cbn [snd]. intros -> E.
  unfold direct_search, DirectModel.search. cbn [DirectModel.outer]. change (3 * 3)%nat with 9%nat.
  change (snd (fst_ IZR (so, ex, Some 0%Z))) with (Some 0). cbn [bind].
  match goal with |- bind ?x _ = _ => replace x with (Ok ball3) by (symmetry; exact ball_eye) end. cbn [bind].
  rewrite (inner_f IZR IZR_order 3 G G zdist3 _ dist_eye) by exact ball3_flat. rewrite E. reflexivity.
Qed.
Lemma search3 : direct_search 3 (eye 3) (eye 3) G48 G48 1 (1 / 3) 100 1 r3 = Ok r3.
Proof. exact (search_transfer G48 z3 eq_refl inner3). Qed.

(** ** The whole call *)
Definition request3 : drequest := {| d_nsol := 1; d_vol_th := 1/10; d_dim := 3; d_slice_sz := 100; d_dist := Cauchy |}.
Lemma G48_dets : forall M, In M G48 -> wf 3 3 M /\ (det M = 1 \/ det M = -1)%Z.
Proof.
  intros M HM. assert (K : forallb (fun M => wfb 3 3 M && ((det M =? 1)%Z || (det M =? -1)%Z)) G48 = true) by (vm_compute; reflexivity).
  rewrite forallb_forall in K. specialize (K M HM). apply andb_true_iff in K. destruct K as [K1 K2]. split; [now apply wfb_spec|].
  apply orb_true_iff in K2. rewrite !Z.eqb_eq in K2. exact K2.
Qed.
Lemma Etet_eye : Etet 1 = eye 3.
Proof. reflexivity. Qed.
Lemma run3 eig : eig_correct 3 eig -> exists o, lat_cor_direct (world3 eig) request3 1 1 [1] 1 [1] = Ok [(0, o)].
Proof.
  intros He. destruct case_admissible as (T1 & A1 & _). destruct case_bases as ((A & HA & EA) & _). rewrite Etet_eye in EA.
  assert (RA : resolved 3 (b_base A)) by (rewrite EA, <- Etet_eye; apply resolved_tet; now left).
  destruct (bravais_cell_n _ _ _ _ _ _ _ T1 A1 HA) as (BA & _ & WCA & DCA & _).
  assert (HU := run_unfold (world3 eig) request3 1 1 [1] [1] Cubic Cubic P P _ _ T1 A1 T1 A1 A A HA HA RA RA).
  destruct HU as (GA & GM & CA & CM & EGA & EGM & -> & -> & EU). rewrite EU. clear EU.
  rewrite EA, group_eye in EGA, EGM. injection EGA as <-. injection EGM as <-. rewrite EA.
  change (Z.to_nat (d_dim request3)) with 3%nat. rewrite quart_eye. cbn [bind]. change (w_shifts (world3 eig)) with draws3. change (d_nsol request3) with 1%nat. change (d_vol_th request3) with (1/10). change (d_slice_sz request3) with 100%nat.
  rewrite rinit3. cbn [bind]. assert (Rleb (1/3) 0 = false) as -> by (apply Rleb_false; lra). rewrite search3. cbn [bind].
  change (fst (fst r3)) with [(one3, 0)]. change (w_order (world3 eig)) with (fun l : list (list Z) => l). change (w_eig (world3 eig)) with eig. cbn [mapM fst snd].
  destruct base_eye as (_ & WE & DE).
  destruct (C56_direct 3 (eye 3) (eye 3) (conventional_trans A) (conventional_trans A) eig G48 G48 one3 (eqlatcor 3 G48 G48 one3)) as (o & Hr & _); auto.
  { now right. } { cbn. lia. } { intros M [H|H]; now apply G48_dets. } { reflexivity. }
  exists o. rewrite Hr. reflexivity.
Qed.
