(** A monoclinic pair of variants of the cubic lattice whose two laminates both fit to the parent. *)
From Verif Require Import LinAlg GroupSpec GroupModel GroupProofs LatticeModel LatticeSpec LatticeProofs LatticeGroups LatticeLaue LatticeComplete PropMart BravaisHex.
From Verif Require Export TwinMono.
Local Open Scope R_scope.

Definition Ub : mat R := [[17/20; 3/10; 0]; [3/10; 9/20; 0]; [0; 0; 4/5]].
Definition Vb : mat R := [[17/20; -3/10; 0]; [-3/10; 9/20; 0]; [0; 0; 4/5]].
Definition UbZ : mat Z := [[17; 6; 0]; [6; 9; 0]; [0; 0; 16]]%Z.
Definition UbiZ : mat Z := [[144; -96; 0]; [-96; 272; 0]; [0; 0; 117]]%Z.

Lemma pd_Ub : positive_definite Ub.
Proof.
  assert (S : MartSpec.symmetric Ub) by (split; [now apply wfb_spec|reflexivity]). apply (posdef_minors _ S). unfold Ub. rewrite det3. cbv [get nth]. lra.
Qed.
Lemma pd_Vb : positive_definite Vb.
Proof.
  assert (S : MartSpec.symmetric Vb) by (split; [now apply wfb_spec|reflexivity]). apply (posdef_minors _ S). unfold Vb. rewrite det3. cbv [get nth]. lra.
Qed.
Lemma Ub_base : base 3 Ub.
Proof. split; [now right|]. split; [now apply wfb_spec|]. pose proof (posdef_det _ pd_Ub). lra. Qed.

(** * V is a variant of U *)
Definition keepb (Q : mat Z) : bool := (get (mmul (mmul UbiZ Q) UbZ) 0 0 mod 1872 =? 0)%Z.
Lemma far1872 k z : (Z.abs k <= 18720)%Z -> (k mod 1872 <> 0)%Z -> Rabs (IZR k / 1872 - IZR z) <= 1/2 ->
  1 / 100000000 + 1 / 100000 * Rabs (IZR z) < Rabs (IZR k / 1872 - IZR z).
Proof.
  intros B N H.
  assert (K : (1 <= Z.abs (k - 1872 * z))%Z).
  { destruct (Z.eq_dec (k - 1872 * z) 0) as [E|E]; [|lia]. elim N. replace k with (z * 1872)%Z by lia. apply Z.mod_mul. lia. }
  assert (E : Rabs (IZR k / 1872 - IZR z) = IZR (Z.abs (k - 1872 * z)) / 1872).
  { rewrite abs_IZR. replace (IZR k / 1872 - IZR z) with (IZR (k - 1872 * z) / 1872) by (rewrite minus_IZR, mult_IZR; field).
    unfold Rdiv. rewrite Rabs_mult, (Rabs_pos_eq (/ 1872)) by lra. reflexivity. }
  rewrite E in *. apply IZR_le in K.
  assert (Z1 : (Z.abs z <= 11)%Z).
  { assert (X : IZR (Z.abs (k - 1872 * z)) <= 936) by lra. apply le_IZR in X. lia. }
  apply IZR_le in Z1. rewrite abs_IZR in Z1. lra.
Qed.
Lemma Ub_table Q : In Q CUBIC_LAUE_GROUP -> inpointgroup Ub (IntArr Q) = Ok (keepb Q).
Proof.
  intros HQ. pose proof Ub_base as B. assert (WQ : wf 3 3 Q) by (apply cubic_iff in HQ; apply HQ).
  rewrite (inpoint_red 3 _ B) by (apply cubic_iff in HQ; apply HQ). cbn [values].
  pose (Z := mmul (mmul UbiZ Q) UbZ). pose (A := mscale (1/1872) (RZ Z)).
  assert (WZ : wf 3 3 Z) by (apply (wf_mmul 3 3 3); [apply (wf_mmul 3 3 3); [now apply wfb_spec|exact WQ|lia]|now apply wfb_spec|lia]).
  assert (WA : wf 3 3 A) by (apply wf_mscale; [lia|now apply wf_RZ]).
  assert (EA : mmul (RZ Q) Ub = mmul Ub A).
  { unfold A, Z. destruct (wf3_inv Q WQ) as (a & b & c & d & e & g & h & i & j & ->). unfold Ub, UbiZ, UbZ.
    unfold RZ, mmap. mat_eq ltac:(repeat (rewrite plus_IZR || rewrite mult_IZR); field). }
  assert (G : forall i j, (i < 3)%nat -> (j < 3)%nat -> get A i j = IZR (get Z i j) / 1872).
  { intros i j Hi Hj. unfold A. rewrite (get_mscale 3 3), get_RZ by (auto; now apply wf_RZ). cbn [mul R_ops]. field. }
  destruct (keepb Q) eqn:K.
  - assert (EZ : Z = mscale 1872%Z Q).
    { revert K. unfold keepb, Z. clear - HQ. unfold CUBIC_LAUE_GROUP in HQ. cbn [In] in HQ.
      repeat match type of HQ with _ \/ _ => destruct HQ as [HQ|HQ] end; try contradiction; subst Q; vm_compute; intros; (reflexivity || discriminate). }
    apply (lat_eq_true 3 _ B _ A Q WA WQ EA). intros i j Hi Hj. rewrite (G i j Hi Hj), EZ, (get_mscale 3 3) by auto.
    cbn [mul Z_ops]. rewrite mult_IZR.
    replace (1872 * IZR (get Q i j) / 1872 - IZR (get Q i j)) with 0 by field. rewrite Rabs_R0.
    pose proof (Rabs_pos (IZR (get Q i j))). lra.
  - apply (lat_eq_false2 3 _ B _ A 0 0 WA EA); [lia|lia|]. intros z. rewrite (G 0 0)%nat by lia. apply far1872.
    + unfold Z. clear - HQ. unfold CUBIC_LAUE_GROUP in HQ. cbn [In] in HQ.
      repeat match type of HQ with _ \/ _ => destruct HQ as [HQ|HQ] end; try contradiction; subst Q; vm_compute; discriminate.
    + unfold keepb in K. apply Z.eqb_neq in K. exact K.
Qed.
Lemma Ub_Laue : Laue_group Ub = Ok (map RZ (filter keepb CUBIC_LAUE_GROUP)).
Proof.
  unfold Laue_group. change (length Ub) with 3%nat. unfold pick_group, cubic_arr. rewrite (PropMart.keep_filter Ub keepb) by exact Ub_table.
  cbn [bind]. rewrite map_length. replace (length (filter keepb CUBIC_LAUE_GROUP)) with 2%nat by (vm_compute; reflexivity). reflexivity.
Qed.
Lemma Ub_reversible : isreversible (new_mart (Some Ub) None) = Ok true.
Proof.
  unfold isreversible. cbn [getU m_U new_mart bind]. rewrite (new_lattice_base _ Ub_base). cbn [bind]. rewrite Ub_Laue. cbn [bind].
  change (getLaue (new_mart (Some Ub) None)) with (map RZ CUBIC_LAUE_GROUP). rewrite !map_length.
  replace (length (filter keepb CUBIC_LAUE_GROUP)) with 2%nat by (vm_compute; reflexivity). change (length CUBIC_LAUE_GROUP) with 24%nat.
  cbn [Nat.leb]. apply hassubgroup_iff; [discriminate|]. rewrite !map_length.
  replace (length (filter keepb CUBIC_LAUE_GROUP)) with 2%nat by (vm_compute; reflexivity). change (length CUBIC_LAUE_GROUP) with 24%nat.
  split; [split; [lia|exists 12%nat; reflexivity]|]. intros m1 H. apply in_map_iff in H. destruct H as (Q & <- & HQ). apply filter_In in HQ.
  exists (RZ Q). split; [apply in_map; apply HQ|apply allclose_refl].
Qed.
Lemma rotate_twentieths Q : wf 3 3 Q -> rotate (RZ Q) Ub = mscale (1/20) (RZ (mmul (mmul Q UbZ) (tr Q))).
Proof.
  intros WQ. destruct (wf3_inv Q WQ) as (a & b & c & d & e & g & h & i & j & ->). unfold rotate, Ub, UbZ, RZ, mmap.
  mat_eq ltac:(repeat (rewrite plus_IZR || rewrite mult_IZR); field).
Qed.
Lemma Ub_separated : separated Ub (map RZ CUBIC_LAUE_GROUP).
Proof.
  intros P' Q' HP HQ H. apply in_map_iff in HP as (P & <- & HP). apply in_map_iff in HQ as (Q & <- & HQ).
  assert (WP : wf 3 3 P) by (apply cubic_iff in HP; apply HP). assert (WQ : wf 3 3 Q) by (apply cubic_iff in HQ; apply HQ).
  rewrite !rotate_twentieths in * by auto.
  assert (W : forall X, wf 3 3 X -> wf 3 3 (mmul (mmul X UbZ) (tr X))).
  { intros X WX. apply (wf_mmul 3 3 3); [apply (wf_mmul 3 3 3); [exact WX|now apply wfb_spec|lia]|apply wf_tr'; auto; lia|lia]. }
  assert (B : forall X, In X CUBIC_LAUE_GROUP -> forall i j, (i < 3)%nat -> (j < 3)%nat -> (Z.abs (get (mmul (mmul X UbZ) (tr X)) i j) <= 17)%Z).
  { intros X HX. unfold CUBIC_LAUE_GROUP in HX. cbn [In] in HX.
    repeat match type of HX with _ \/ _ => destruct HX as [HX|HX] end; try contradiction; subst X; intros i j Hi Hj;
      destruct i as [|[|[|i]]]; destruct j as [|[|[|j]]]; try lia; vm_compute; discriminate. }
  pose proof (W P WP) as W1. pose proof (W Q WQ) as W2. specialize (B Q HQ).
  set (X := mmul (mmul P UbZ) (tr P)) in *. set (Y := mmul (mmul Q UbZ) (tr Q)) in *. clearbody X Y.
  f_equal. f_equal. apply (mat_ext 3 3); auto; try lia. intros i j Hi Hj.
  assert (WX : wf 3 3 (mscale (1/20) (RZ X))) by (apply wf_mscale; [lia|now apply wf_RZ]).
  pose proof (proj1 (allclose_spec 2 3 _ _ WX) H i j Hi Hj) as K. unfold atol0, rtol0 in K.
  rewrite !(get_mscale 3 3), !get_RZ in K by (auto; now apply wf_RZ). cbn [mul R_ops] in K. specialize (B i j Hi Hj).
  destruct (Z.eq_dec (get X i j) (get Y i j)) as [E|E]; [exact E|exfalso].
  assert (1 <= Z.abs (get X i j - get Y i j))%Z by lia. apply IZR_le in H0. rewrite abs_IZR, minus_IZR in H0. apply IZR_le in B. rewrite abs_IZR in B.
  replace (1 / 20 * IZR (get X i j) - 1 / 20 * IZR (get Y i j)) with (1/20 * (IZR (get X i j) - IZR (get Y i j))) in K by ring.
  rewrite !Rabs_mult, (Rabs_pos_eq (1/20)) in K by lra. lra.
Qed.
Definition Qb : mat Z := [[1; 0; 0]; [0; -1; 0]; [0; 0; -1]]%Z.
Lemma Qb_rotates : rotate (RZ Qb) Ub = Vb.
Proof. unfold rotate, Qb, Ub, Vb, RZ, mmap. mat_eq ltac:(field). Qed.
Lemma Ub_isvariant : isvariant Ub Vb = Ok true.
Proof.
  assert (RG : rotation_group (getLaue (new_mart (Some Ub) None))).
  { change (getLaue (new_mart (Some Ub) None)) with (map RZ CUBIC_LAUE_GROUP). split; [apply CUBIC_good|]. intros Q HQ. apply CUBIC_good. exact HQ. }
  destruct (C27_orbit_partial (new_mart (Some Ub) None) Ub (r_new _ _) eq_refl (proj1 (proj2 Ub_base)) RG Ub_separated Ub_reversible) as (Us & idx & m' & E & _ & O).
  unfold isvariant. rewrite E. cbn [bind fst]. f_equal. apply existsb_exists. exists Vb. split.
  - apply (exact _ _ _ _ O). exists (RZ Qb). split; [|now rewrite Qb_rotates]. change (getLaue (new_mart (Some Ub) None)) with (map RZ CUBIC_LAUE_GROUP).
    apply in_map. unfold CUBIC_LAUE_GROUP, Qb. cbn [In]. tauto.
  - apply Rltb_spec. replace (fro2 3 3 (msub Vb Vb)) with 0; [rewrite sqrt_0; apply small_pos|]. unfold fro2, Vb. mat_unfold_goal. ring.
Qed.

(** * The twin matrix and the axes *)
Lemma minv_Ub : minv Ub = [[20/13; -40/39; 0]; [-40/39; 340/117; 0]; [0; 0; 5/4]].
Proof. symmetry; apply (inv_unique 3 Ub); [now right|now apply wfb_spec|now apply wfb_spec|]. unfold Ub. mat_eq ltac:(lra). Qed.
Lemma twin_Ub : twin_matrix Ub Vb = [[45/13; -56/13; 0]; [-56/13; 661/117; 0]; [0; 0; 1]].
Proof. unfold twin_matrix. rewrite minv_Ub. unfold Vb. mat_eq ltac:(lra). Qed.
Lemma ev_Ub : eigenvalues (twin_matrix Ub Vb) (1/9) 1 9.
Proof.
  rewrite twin_Ub. split; [lra|]. exists [[9; 0; 7]; [7; 0; -9]; [0; 1; 0]].
  split; [now apply wfb_spec|]. split; [now apply wfb_spec|]. split; [reflexivity|]. split; [rewrite det3; cbv [get nth]; lra|]. mat_eq ltac:(lra).
Qed.
Lemma distinct_Ub : distinct Ub Vb.
Proof. exists 0%nat, 1%nat. split; [lia|]. split; [lia|]. cbv [get nth Ub Vb]. rewrite Rabs_pos_eq; unfold tolerance, SMALL; lra. Qed.
Lemma variants_Ub : variants Ub Vb.
Proof.
  exists (RZ Qb). split; [|apply Qb_rotates]. split; [now apply wfb_spec|]. unfold Qb, RZ, mmap. mat_eq ltac:(lra).
Qed.
Lemma axisb_1 : half_turn_axis Ub Vb [1; 0; 0].
Proof. split; [reflexivity|]. split; [mat_unfold_goal; ring|]. unfold rotate, half_turn, Ub, Vb. mat_eq ltac:(lra). Qed.
Lemma axisb_2 : half_turn_axis Ub Vb [0; 1; 0].
Proof. split; [reflexivity|]. split; [mat_unfold_goal; ring|]. unfold rotate, half_turn, Ub, Vb. mat_eq ltac:(lra). Qed.
Lemma monob_case e a1 a2 n2 rho : half_turn_axis Ub Vb e ->
  (let p := mvmul (minv Ub) e in dot p p <> 0 /\ vscale 2 (vsub (map (fun x => x / dot p p) p) (mvmul Ub e)) = a1) ->
  (let y := mvmul Ub e in dot y y <> 0 /\ vscale 2 (vsub e (map (fun x => x / dot y y) (mvmul Ub y))) = vscale rho n2 /\ vscale rho y = a2) ->
  0 < rho -> length n2 = 3%nat -> dot n2 n2 = 1 -> vround a1 = a1 -> vround e = e -> vround a2 = a2 -> vround n2 = n2 ->
  exists Q1 Q2, solvetwin_axis Ub e = Ok (Some ((Q1, a1, e), (Q2, a2, n2))).
Proof.
  intros (Le & De & R) (D1 & E1) (D2 & E2 & E3) Hr Ln Dn R1 R2 R3 R4. rewrite (solvetwin_axis_eq Ub e pd_Ub Le De). rewrite R, Ub_isvariant. cbn [bind].
  rewrite (vdiv_ok _ _ D1). cbn [bind]. rewrite E1. rewrite (unit_norm e De), scale_one. rewrite (vdiv_ok e 1) by lra. cbn [bind]. rewrite div_one, R1, R2.
  rewrite (inv_posdef _ pd_Vb). cbn [bind]. rewrite (vdiv_ok _ _ D2). cbn [bind]. rewrite E2.
  assert (VN : vnorm (vscale rho n2) = rho).
  { unfold vnorm. replace (dot (vscale rho n2) (vscale rho n2)) with (rho * rho * dot n2 n2); [rewrite Dn, Rmult_1_r; apply sqrt_square; lra|].
    v3 Ln. unfold vscale. mat_unfold_goal. ring. }
  rewrite VN, (vdiv_ok _ rho) by lra. cbn [bind].
  replace (map (fun x => x / rho) (vscale rho n2)) with n2 by (v3 Ln; unfold vscale; cbn [map]; apply list3_eq; field; lra).
  rewrite R4, E3, R3. eauto.
Qed.
Ltac dec z := apply (round10_dec _ z); lra.
Definition typeI (a n : vec R) : Prop := (a = [-4/5; -6/5; 0] /\ n = [1; 0; 0]) \/ (a = [4/5; 6/5; 0] /\ n = [-1; 0; 0]).
Definition typeII (a n : vec R) : Prop := (a = [102/125; 36/125; 0] /\ n = [0; -1; 0]) \/ (a = [-102/125; -36/125; 0] /\ n = [0; 1; 0]).
Ltac cas := rewrite ?minv_Ub; unfold Ub, vscale, vsub; mat_unfold_goal; repeat split; try lra; apply list3_eq; lra.
Lemma monob_axes e : In e [[1; 0; 0]; [-1; 0; 0]; [0; 1; 0]; [0; -1; 0]] -> exists t1 t2, solvetwin_axis Ub e = Ok (Some (t1, t2)) /\
  ((typeI (twin_a t1) (twin_n t1) /\ typeII (twin_a t2) (twin_n t2)) \/ (typeII (twin_a t1) (twin_n t1) /\ typeI (twin_a t2) (twin_n t2))).
Proof.
  assert (M : forall e, half_turn_axis Ub Vb e -> half_turn_axis Ub Vb (vscale (-1) e)).
  { intros x (L & D & R). split; [now rewrite len_vscale|]. v3 L. split.
    - rewrite <- D. unfold vscale. mat_unfold_goal. ring.
    - rewrite <- R. f_equal. unfold half_turn, vscale. mat_eq ltac:(ring). }
  assert (M1 : vscale (-1) [1; 0; 0] = [-1; 0; 0]) by (unfold vscale; cbn [map]; apply list3_eq; ring).
  assert (M2 : vscale (-1) [0; 1; 0] = [0; -1; 0]) by (unfold vscale; cbn [map]; apply list3_eq; ring).
  pose proof (M _ axisb_1) as A1. pose proof (M _ axisb_2) as A2. rewrite M1 in A1. rewrite M2 in A2.
  assert (C : forall e a1 a2 n2 rho, half_turn_axis Ub Vb e -> 
  (let p := mvmul (minv Ub) e in dot p p <> 0 /\ vscale 2 (vsub (map (fun x => x / dot p p) p) (mvmul Ub e)) = a1) ->
  (let y := mvmul Ub e in dot y y <> 0 /\ vscale 2 (vsub e (map (fun x => x / dot y y) (mvmul Ub y))) = vscale rho n2 /\ vscale rho y = a2) ->
  0 < rho -> length n2 = 3%nat -> dot n2 n2 = 1 -> vround a1 = a1 /\ vround e = e /\ vround a2 = a2 /\ vround n2 = n2 ->
    (typeI a1 e /\ typeII a2 n2) \/ (typeII a1 e /\ typeI a2 n2) ->
    exists t1 t2, solvetwin_axis Ub e = Ok (Some (t1, t2)) /\
  ((typeI (twin_a t1) (twin_n t1) /\ typeII (twin_a t2) (twin_n t2)) \/ (typeII (twin_a t1) (twin_n t1) /\ typeI (twin_a t2) (twin_n t2)))).
  { intros x a1 a2 n2 rho H1 H2 H3 H4 H5 H6 (H7 & H8 & H9 & H10) K. destruct (monob_case x a1 a2 n2 rho H1 H2 H3 H4 H5 H6 H7 H8 H9 H10) as (Q1 & Q2 & E).
    exists (Q1, a1, x), (Q2, a2, n2). split; [exact E|exact K]. }
  clear M M1 M2.
  assert (r0 : round10 0 = 0) by dec 0%Z. assert (r1 : round10 1 = 1) by dec 10000000000%Z. assert (rm1 : round10 (-1) = -1) by dec (-10000000000)%Z.
  assert (r3 : round10 (4/5) = 4/5) by dec 8000000000%Z. assert (rm3 : round10 (-4/5) = -4/5) by dec (-8000000000)%Z.
  assert (r6 : round10 (6/5) = 6/5) by dec 12000000000%Z. assert (rm6 : round10 (-6/5) = -6/5) by dec (-12000000000)%Z.
  assert (r66 : round10 (102/125) = 102/125) by dec 8160000000%Z. assert (rm66 : round10 (-102/125) = -102/125) by dec (-8160000000)%Z.
  assert (r12 : round10 (36/125) = 36/125) by dec 2880000000%Z. assert (rm12 : round10 (-36/125) = -36/125) by dec (-2880000000)%Z.
  assert (RR : forall x y z, round10 x = x -> round10 y = y -> round10 z = z -> vround [x; y; z] = [x; y; z]) by (intros; cbn [vround map]; now f_equal; [|f_equal; [|f_equal]]).
  intros [<-|[<-|[<-|[<-|[]]]]].
  - apply (C [1; 0; 0] [-4/5; -6/5; 0] [102/125; 36/125; 0] [0; -1; 0] (24/25) axisb_1);
    [cas|cas|lra|reflexivity|mat_unfold_goal; lra|repeat split; apply RR; auto|left; split; left; auto].
  - apply (C [-1; 0; 0] [4/5; 6/5; 0] [-102/125; -36/125; 0] [0; 1; 0] (24/25) A1);
    [cas|cas|lra|reflexivity|mat_unfold_goal; lra|repeat split; apply RR; auto|left; split; right; auto].
  - apply (C [0; 1; 0] [-102/125; -36/125; 0] [4/5; 6/5; 0] [-1; 0; 0] (8/3) axisb_2);
    [cas|cas|lra|reflexivity|mat_unfold_goal; lra|repeat split; apply RR; auto|right; split; right; auto].
  - apply (C [0; -1; 0] [102/125; 36/125; 0] [-4/5; -6/5; 0] [1; 0; 0] (8/3) A2);
    [cas|cas|lra|reflexivity|mat_unfold_goal; lra|repeat split; apply RR; auto|right; split; left; auto].
Qed.

(** * The volume fractions *)
Lemma solve_typeI a n : typeI a n -> solve_f Ub a n = Ok (Some (1/2 + sqrt (80089/332800))).
Proof.
  intros K. assert (M : 2 * dot (mvmul Ub a) (mvmul (brute_cof (msub (mmul Ub Ub) (eye 3))) n) = -468/625).
  { destruct K as [(-> & ->)|(-> & ->)]; unfold Ub; cbv [brute_cof drop]; mat_unfold_goal; cbn [pow Nat.add]; lra. }
  assert (D : det (msub (mmul Ub Ub) (eye 3)) = 27999/4000000) by (unfold Ub; mat_unfold_goal; lra).
  unfold solve_f. rewrite M, D. replace ((27999/4000000 + -468/625/4) / (-468/625)) with (80089/332800) by field.
  rewrite (proj2 (Rltb_false _ _)) by (rewrite Rabs_left by lra; unfold tolerance, SMALL; lra). rewrite (proj2 (Rltb_spec _ _)) by lra.
  rewrite math_sqrt_ok by lra. cbn [bind].
  assert (S : 49/100 < sqrt (80089/332800) < 4991/10000).
  { pose proof (sqrt_pos (80089/332800)). pose proof (sqrt_sqrt (80089/332800) ltac:(lra)). split; nra. }
  rewrite (proj2 (Rltb_false _ _)) by (rewrite Rabs_pos_eq; lra). rewrite (proj2 (Rltb_false _ _)) by (rewrite Rabs_pos_eq; lra).
  rewrite !(proj2 (Rltb_spec _ _)) by lra. reflexivity.
Qed.
Lemma solve_typeII a n : typeII a n -> solve_f Ub a n = Ok (Some (1/2 + sqrt (8947/39936))).
Proof.
  intros K. assert (M : 2 * dot (mvmul Ub a) (mvmul (brute_cof (msub (mmul Ub Ub) (eye 3))) n) = -4212/15625).
  { destruct K as [(-> & ->)|(-> & ->)]; unfold Ub; cbv [brute_cof drop]; mat_unfold_goal; cbn [pow Nat.add]; lra. }
  assert (D : det (msub (mmul Ub Ub) (eye 3)) = 27999/4000000) by (unfold Ub; mat_unfold_goal; lra).
  unfold solve_f. rewrite M, D. replace ((27999/4000000 + -4212/15625/4) / (-4212/15625)) with (8947/39936) by field.
  rewrite (proj2 (Rltb_false _ _)) by (rewrite Rabs_left by lra; unfold tolerance, SMALL; lra). rewrite (proj2 (Rltb_spec _ _)) by lra.
  rewrite math_sqrt_ok by lra. cbn [bind].
  assert (S : 47/100 < sqrt (8947/39936) < 48/100).
  { pose proof (sqrt_pos (8947/39936)). pose proof (sqrt_sqrt (8947/39936) ltac:(lra)). split; nra. }
  rewrite (proj2 (Rltb_false _ _)) by (rewrite Rabs_pos_eq; lra). rewrite (proj2 (Rltb_false _ _)) by (rewrite Rabs_pos_eq; lra).
  rewrite !(proj2 (Rltb_spec _ _)) by lra. reflexivity.
Qed.
