(** Counterexample for C83: a rectangular lattice with edges 1 and 1.000001 against itself.  The tolerance of == accepts the
    quarter turn as a symmetry, so the correspondence that is reported is not the one whose distance is reported. *)
From Coq Require Import Psatz.
From Verif Require Import LinAlg Hom Eig RMat GroupModel GroupSpec GroupProofs LatticeModel LatticeSpec LatticeProofs LatticeLaue LatticeGroups LatticeComplete
  BravaisModel BravaisSpec BravaisProofs DistModel DistSpec DistProofs VecGenModel VecGenProofs DirectSpec DirectProofs DirectTransfer
  DirectConcrete DirectConcSpec DirectConcProofs DirectExample DirectGlobal
  OutputModel OutputProofs PropOutput PropLattice PropBravais LatCorProofs DirectCorModel DirectCorSpec DirectCorProofs DirectCorCase DirectCorMiss.
Local Open Scope R_scope.

Definition tt_ : R := 1000001 / 1000000.
Definition Et : mat R := M2 1 0 0 tt_.
Lemma base_t : base 2 Et. Proof. apply base2. unfold tt_. lra. Qed.
Lemma minv_t : minv Et = M2 1 0 0 (1 / tt_).
Proof. apply minv_unique; [apply base_t|apply wfM2|]. unfold Et, tt_. mat_eq ltac:(lra). Qed.
Lemma accept_t M : In M SQUARE_EXT_GROUP -> inpointgroup Et (IntArr M) = Ok true /\ rintm (mmul (minv Et) (mmul (RZ M) Et)) = M.
Proof.
  intros HM. pose proof base_t as B.
  assert (OM : orth_arr 2 (IntArr M)) by (apply (proj2 square_ext_T); unfold square_ext_arr; now apply in_map).
  rewrite (inpoint_red 2 _ B) by exact OM. cbn [values].
  cbn in HM. repeat (destruct HM as [<-|HM]; [
    match goal with |- context [RZ [[?a; ?b]; [?c; ?d]]] =>
      apply (lat_eq_true 2 _ B _ (M2 (IZR a) (IZR b * tt_) (IZR c / tt_) (IZR d)) [[a; b]; [c; d]]) end;
    [apply wfM2|apply wfZ2|unfold Et, tt_, RZ, mmap; mat_eq ltac:(lra)
    |intros i j Hi Hj; destruct i as [|[|]]; [| |lia]; (destruct j as [|[|]]; [| |lia]); unfold M2, tt_; cbn; split; rabs; lra]|]).
  destruct HM.
Qed.
Lemma group_t : lattice_group Et = Ok SQUARE_EXT_GROUP.
Proof.
  pose proof base_t as B.
  assert (K : forall T, incl T SQUARE_EXT_GROUP -> keep Et (map IntArr T) = Ok (map RZ T)).
  { induction T as [|M T IH]; intros HT; [reflexivity|]. cbn [map keep].
    rewrite (proj1 (accept_t M (HT M (or_introl eq_refl)))). cbn [bind]. rewrite IH by (intros x Hx; apply HT; now right). reflexivity. }
  unfold lattice_group, point_group. rewrite (len_base 2 _ B). unfold pick_group, square_ext_arr. rewrite K by apply incl_refl. cbn [bind].
  rewrite map_length. change (length SQUARE_EXT_GROUP =? 4)%nat with false. cbn iota. cbn [bind]. rewrite (to_integer_rep_ok 2 _ B). f_equal.
  rewrite map_map. rewrite <- (map_id SQUARE_EXT_GROUP) at 2. apply map_ext_in. intros M HM. unfold irep. apply (proj2 (accept_t M HM)).
Qed.
Lemma bravais_t : exists A, new_bravais 2 [1; tt_] 2 = Ok A /\ b_base A = Et.
Proof.
  destruct (C17_conventional_cell 2 2 _ _ _ _ (eq_refl : bravais_type 2 2 = Some (Rectangular, P)) (adm_rect 1 tt_ ltac:(lra) ltac:(unfold tt_; lra))) as (b & H & _).
  exists b. split; [exact H|]. revert H. unfold new_bravais. destruct (existsb _ _); [discriminate|]. cbn [Z.eqb Pos.eqb]. cbn -[inv new_lattice].
  intros H. apply bindOk in H. destruct H as (C & _ & H).
  change (fst (base2D (Pos.to_nat 2) [1; tt_])) with Et in H.
  rewrite (new_lattice_ok 2 Et) in H; [|apply base_t|apply wfM2|apply base_t].
  cbn [bind] in H. injection H as <-. reflexivity.
Qed.
Lemma Finv_t p q r s : Finv_of Et (M2 p q r s) (minv Et) = M2 p (q / tt_) (r * tt_) s.
Proof. rewrite minv_t. unfold Finv_of, Et, tt_. mat_eq ltac:(lra). Qed.

(** the equivalent correspondences, those whose first entry is zero first *)
Definition zero_first (l : list (list Z)) : list (list Z) :=
  filter (fun e => (hd 1 e =? 0)%Z) l ++ filter (fun e => negb (hd 1 e =? 0)%Z) l.
Lemma zero_first_perm l e : In e (zero_first l) <-> In e l.
Proof. unfold zero_first. rewrite in_app_iff, !filter_In. destruct (hd 1 e =? 0)%Z; cbn; intuition congruence. Qed.
(** the quartic form: its minimum is 1 / (t^4 + t^-4), at (0, t^2, t^-2, 0) / sqrt (t^4 + t^-4) *)
Definition ta : R := tt_ ^ 4 + / tt_ ^ 4.
Definition tal : R := / ta.
Lemma ta_pos : 0 < ta /\ 2 <= ta < 3.
Proof. unfold ta, tt_. split; [|split]; lra. Qed.
Lemma bound_t : quartic_bound 2 Et Et tal.
Proof.
  pose proof ta_pos as (Pa & _). split; [now apply Rinv_0_lt_compat|]. intros u Lu Hu. pose proof base_t as (Hd & W & D).
  rewrite (quartic_is_fro 2) by (try lia; auto; now apply wf_minv). cbn zeta.
  destruct u as [|p [|q [|r [|s [|]]]]]; try discriminate. change (reshape 2 [p; q; r; s]) with (M2 p q r s). rewrite Finv_t.
  assert (H : p*p+q*q+r*r+s*s = 1) by (rewrite <- Hu; unfold len2; cbn; ring).
  set (x := p). set (y := q / tt_). set (z := r * tt_). set (w := s).
  set (m := (tt_ ^ 2 + / tt_ ^ 2) / 2). set (dl := (tt_ ^ 2 - / tt_ ^ 2) / 2).
  set (T := x*x+y*y+z*z+w*w). set (De := x*w-y*z). set (Di := y*y-z*z).
  assert (F : fro2 2 2 (mmul (M2 x y z w) (tr (M2 x y z w))) = T*T - 2*(De*De)) by (unfold fro2, T, De; cbn; ring).
  assert (G : 1 = x*x + w*w + m*(y*y+z*z) + dl*Di) by (rewrite <- H; unfold m, dl, Di, x, y, z, w, tt_; field).
  assert (B : Di*Di <= T*T - 4*(De*De)).
  { replace (T*T - 4*(De*De)) with (((x-w)^2+(y+z)^2)*((x+w)^2+(y-z)^2)) by (unfold T, De; ring).
    replace (Di*Di) with ((y+z)^2*(y-z)^2) by (unfold Di; ring).
    pose proof (pow2_ge_0 (x-w)). pose proof (pow2_ge_0 (x+w)). pose proof (pow2_ge_0 (y+z)). pose proof (pow2_ge_0 (y-z)). nra. }
  assert (A : ta = 2 * (m*m+dl*dl)) by (unfold ta, m, dl, tt_; field).
  assert (M1 : 1 <= m) by (unfold m, tt_; lra). assert (D1 : 0 <= dl) by (unfold dl, tt_; lra).
  change (tal <= fro2 2 2 (mmul (M2 x y z w) (tr (M2 x y z w)))). rewrite F. unfold tal.
  apply Rmult_le_reg_l with ta; [exact Pa|]. rewrite Rinv_r by lra. rewrite A.
  clearbody m dl. assert (K : 1 <= m * T + dl * Di) by (unfold T; nra).
  assert (K2 : 1 <= (m * T + dl * Di) * (m * T + dl * Di)) by nra.
  assert (K3 : (m * T + dl * Di) * (m * T + dl * Di) <= (m*m+dl*dl) * (T*T+Di*Di)).
  { assert (E : (m*m+dl*dl) * (T*T+Di*Di) - (m * T + dl * Di) * (m * T + dl * Di) = (m*Di-dl*T)^2) by ring. pose proof (pow2_ge_0 (m*Di-dl*T)). lra. }
  assert (K4 : 0 <= m*m+dl*dl) by nra. clearbody T De Di. clear -K2 K3 K4 B. nra.
Qed.
Definition tmin : list R := [0; tt_ ^ 2 / sqrt ta; / tt_ ^ 2 / sqrt ta; 0].
Definition tol_world (eig : mat R -> list R * mat R) : world :=
  {| w_eig := eig; w_min := Scipy (fun _ => tmin); w_draws := fun _ => [1; 0; 0; 0];
     w_shifts := draws2; w_order := zero_first |}.
Lemma tmin_unit : len2 tmin = 1.
Proof.
  pose proof ta_pos as (Pa & _). assert (S : sqrt ta <> 0) by (apply Rgt_not_eq, sqrt_lt_R0; exact Pa).
  assert (X : / sqrt ta * / sqrt ta = / ta) by (rewrite <- Rinv_mult, sqrt_sqrt; lra).
  unfold len2, tmin, Rdiv. set (s := / sqrt ta) in *. clearbody s. cbn. transitivity (ta * (s * s)); [unfold ta, tt_; field|]. rewrite X. field. lra.
Qed.
Lemma quart_t eig : quart_min (tol_world eig) (2 * 2) (quartic_D 2 Et (minv Et)) = Ok (Some tal).
Proof.
  unfold quart_min. cbn [w_min tol_world w_draws]. unfold quart_min_scipy.
  assert (S1 : exists v, start [1; 0; 0; 0] = Ok v).
  { unfold start, normalize. destruct (Reqb _ _) eqn:E; [|eauto]. exfalso. apply Reqb_spec in E. revert E. unfold vnorm. cbn.
    replace (0 + 1 * 1 + 0 * 0 + 0 * 0 + 0 * 0) with 1 by ring. rewrite sqrt_1. lra. }
  destruct S1 as (v & S1).
  rewrite (mapM_same _ tmin).
  2:{ intros x Hx. apply in_map_iff in Hx. destruct Hx as (i & <- & _). rewrite S1. reflexivity. }
  cbn [bind]. rewrite map_length, seq_length. rewrite (map_same _ (quartic_form (2 * 2) (quartic_D 2 Et (minv Et)) tmin)) by (intros x Hx; now rewrite (repeat_spec _ _ _ Hx)). rewrite repeat_length.
  change 100%nat with (S 99). rewrite min_of_same. do 2 f_equal.
  pose proof base_t as (Hd & W & D). pose proof ta_pos as (Pa & _).
  rewrite (quartic_is_fro 2) by (try lia; auto; now apply wf_minv). cbn zeta.
  assert (X : / sqrt ta * / sqrt ta = / ta) by (rewrite <- Rinv_mult, sqrt_sqrt; lra).
  unfold tmin, Rdiv. set (s := / sqrt ta) in *. clearbody s.
  change (reshape 2 [0; tt_ ^ 2 * s; / tt_ ^ 2 * s; 0]) with (M2 0 (tt_ ^ 2 * s) (/ tt_ ^ 2 * s) 0). rewrite Finv_t.
  transitivity (ta * ((s * s) * (s * s))); [unfold fro2, ta, tt_; cbn; field|]. rewrite X. unfold tal. field. lra.
Qed.

(** ** distances, the first list and the search *)
Definition tN : Z := 1000000.
Definition tdist (l : list Z) : Z :=
  match l with
  | [p; q; r; s] =>
    let k := (tN * (tN + 1))%Z in
    let W := [[p * k; q * (tN * tN)]; [r * ((tN + 1) * (tN + 1)); s * k]] in
    let v := flatten (msub (mmul W (tr W)) (mscale (k * k) (eye 2))) in dot v v
  | _ => 0
  end%Z.
Definition ftd (z : Z) : R := IZR z / IZR ((tN * (tN + 1)) ^ 4).
Lemma ftd_dist l : length l = 4%nat -> lat_dist Et Et l = ftd (tdist l).
Proof.
  destruct l as [|a [|b [|c [|d [|]]]]]; try discriminate. intros _.
  unfold lat_dist, Cauchy_dist, ftd, tdist, tN. rewrite minv_t. unfold Et, tt_.
  cbn -[Z.mul Z.add Z.sub Z.opp Z.pow IZR]. repeat rewrite ?plus_IZR, ?mult_IZR, ?minus_IZR, ?opp_IZR.
  change ((1000000 * (1000000 + 1)) ^ 4)%Z with 1000004000006000004000001000000000000000000000000%Z. field.
Qed.
Lemma ftd_order a b : dle (ftd a) (ftd b) = dle a b.
Proof.
  unfold ftd. set (K := IZR ((tN * (tN + 1)) ^ 4)). assert (P : 0 < / K) by (apply Rinv_0_lt_compat; unfold K; apply IZR_lt; reflexivity).
  unfold Rdiv. cbn. destruct (Z.leb_spec a b) as [H|H].
  - apply Rleb_spec. apply IZR_le in H. nra.
  - apply Rleb_false. apply IZR_lt in H. nra.
Qed.
Lemma guess_t : guess Et Et = eye 2.
Proof.
  unfold guess. rewrite (minv_l 2); [|apply base_t..]. cbn. change 0%R with (IZR 0). change 1%R with (IZR 1). now rewrite !Rfloor_IZR.
Qed.
Definition tinit : @state Z := Eval vm_compute in
  match init_search 2 SQUARE_EXT_GROUP SQUARE_EXT_GROUP tdist 1 (Z.eqb 1) (eye 2) draws2 with Ok st => st | _ => ([], [], None) end.
Lemma tinit_ok : init_search 2 SQUARE_EXT_GROUP SQUARE_EXT_GROUP tdist 1 (Z.eqb 1) (eye 2) draws2 = Ok tinit.
Proof. vm_compute. reflexivity. Qed.
Lemma trinit_ok : direct_init 2 Et Et SQUARE_EXT_GROUP SQUARE_EXT_GROUP 1 (1 / 10) draws2 = Ok (fst_ ftd tinit).
Proof.
  unfold direct_init, init_search. rewrite guess_t, vol_ok_tenth.
  change ([], [], None) with (fst_ ftd ([], [], None)) at 1.
  rewrite (init_loop_f ftd ftd_order 2 SQUARE_EXT_GROUP SQUARE_EXT_GROUP tdist _ ftd_dist 1 (Z.eqb 1) (eye 2)
             ltac:(lia) (wf_eye 2) _ _ _ draws2_wf).
  pose proof tinit_ok as E. unfold init_search in E. rewrite E. reflexivity.
Qed.
Lemma ftd_0 : ftd 0 = 0.
Proof. unfold ftd, Rdiv. apply Rmult_0_l. Qed.
Lemma tol_search fuel : exists ext,
  direct_search 2 Et Et SQUARE_EXT_GROUP SQUARE_EXT_GROUP 1 tal 100 (S fuel) (fst_ ftd tinit) = Ok ([([1; 0; 0; 1]%Z, 0)], ext, Some 0).
Proof.
  unfold direct_search, DirectModel.search. cbn [DirectModel.outer]. change (2 * 2)%nat with 4%nat.
  assert (EB : ball_gen 2 tal (snd (fst_ ftd tinit)) (repeat 0%Z 4) = Ok zball2).
  { cbn [fst_ tinit snd option_map ball_gen]. rewrite ftd_0. pose proof ta_pos as (Pa & B1 & B2).
    assert (E : rmax tal 0 * rmax tal 0 = sqrt (3 * ta)).
    { unfold rmax. rewrite sqrt_sqrt by apply sqrt_pos. f_equal. unfold gamma, tal. replace (3 * 0) with 0 by ring. rewrite ?sqrt_0. field. lra. }
    assert (P : 0 <= rmax tal 0) by apply sqrt_pos.
    rewrite (vec_gen_rel _ _ _ _ (rel_floor _ P)). rewrite E.
    assert (F : Rfloor (sqrt (3 * ta)) = 2%Z).
    { apply Rfloor_unique. split.
      - replace (IZR 2) with (sqrt (2 ^ 2)) by (rewrite sqrt_pow2; lra). apply sqrt_le_1; lra.
      - replace (IZR 2 + 1) with (sqrt (3 ^ 2)) by (rewrite sqrt_pow2; lra). apply sqrt_lt_1; lra. }
    rewrite F. vm_compute. reflexivity. }
  rewrite EB. cbn [bind].
  rewrite (inner_f ftd ftd_order 2 SQUARE_EXT_GROUP SQUARE_EXT_GROUP tdist _ ftd_dist).
  - set (r := inner _ _ _ _ _ _ _ _ _).
    assert (X : exists ext, r = Ok ([([1; 0; 0; 1], 0)], ext, Some 0, None)%Z) by (eexists; vm_compute; reflexivity).
    destruct X as (ext & ->). cbn. unfold fs. cbn [fst snd]. rewrite ftd_0. eexists. reflexivity.
  - apply Forall_forall. intros l Hl. apply Nat.eqb_eq. revert l Hl. apply forallb_forall. vm_compute. reflexivity.
Qed.

(** ** the whole call *)
Definition Q90 : mat Z := [[0; -1]; [1; 0]]%Z.
Lemma report_l n EA EM CA CM eig l eqls o : report_direct n EA EM CA CM eig l eqls = Ok o -> o_l o = pick_positive n (reshape n l) eqls.
Proof.
  unfold report_direct, report. intros H. apply bindOk in H. destruct H as (? & _ & H). apply bindOk in H. destruct H as (? & _ & H).
  destruct (eig _) as [lam V]. apply bindOk in H. destruct H as (? & _ & H). injection H as <-. reflexivity.
Qed.
Lemma tol_run eig : eig_correct 2 eig -> exists o, o_l o = Q90 /\ forall fuel,
  lat_cor_direct (tol_world eig) (sq_request Cauchy) (S fuel) 2 [1; tt_] 2 [1; tt_] = Ok [(0, o)].
Proof.
  intros He. destruct bravais_t as (L1 & N1 & E1).
  pose proof (adm_rect 1 tt_ ltac:(lra) ltac:(unfold tt_; lra)) as A1.
  assert (T1 : bravais_type 2 2 = Some (Rectangular, P)) by reflexivity.
  destruct (bravais_cell_n _ _ _ _ _ _ _ T1 A1 N1) as (_ & _ & WCA & DCA & _).
  change (Z.to_nat 2) with 2%nat in *. pose proof base_t as (Hd & WM & DM).
  destruct (C56_direct 2 Et Et (conventional_trans L1) (conventional_trans L1) eig SQUARE_EXT_GROUP SQUARE_EXT_GROUP [1;0;0;1]%Z
    (zero_first (eqlatcor 2 SQUARE_EXT_GROUP SQUARE_EXT_GROUP [1;0;0;1]%Z))) as (o & Hr & _); auto.
  { cbn. lia. }
  { intros M HM. assert (HM' : In M SQUARE_EXT_GROUP) by tauto. split; [apply square_ext_iff in HM'; apply HM'|]. cbn in HM'. repeat (destruct HM' as [<-|HM']; [cbn; lia|]). destruct HM'. }
  { intros e. apply zero_first_perm. }
  exists o. split; [rewrite (report_l _ _ _ _ _ _ _ _ _ Hr); vm_compute; reflexivity|].
  intros fuel. unfold lat_cor_direct. cbn [d_dim sq_request d_nsol d_vol_th d_slice_sz w_shifts tol_world w_eig w_order].
  rewrite N1. cbn [bind]. rewrite E1.
  rewrite (inv_Ok 2) by auto. cbn [bind]. rewrite group_t. cbn [bind]. change (Z.to_nat 2) with 2%nat.
  rewrite quart_t. cbn [bind]. rewrite trinit_ok. cbn [bind].
  assert (Rleb tal 0 = false) as -> by (apply Rleb_false; apply bound_t). destruct (tol_search fuel) as (ext & ->). cbn [bind fst mapM snd].
  rewrite Hr. reflexivity.
Qed.
