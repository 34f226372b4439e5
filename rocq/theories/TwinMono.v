(** A monoclinic pair of variants of the cubic lattice whose type I laminate fits to the parent and whose type II
    laminate does not. *)
From Verif Require Import LinAlg GroupSpec GroupModel GroupProofs LatticeModel LatticeSpec LatticeProofs LatticeGroups LatticeLaue LatticeComplete PropMart BravaisHex.
From Verif Require Export PropTwin3.
Local Open Scope R_scope.

Definition Um : mat R := [[11/10; 1/5; 0]; [1/5; 2/5; 0]; [0; 0; 1/2]].
Definition Vm : mat R := [[11/10; -1/5; 0]; [-1/5; 2/5; 0]; [0; 0; 1/2]].
Definition UmZ : mat Z := [[11; 2; 0]; [2; 4; 0]; [0; 0; 5]]%Z.
Definition UmiZ : mat Z := [[4; -2; 0]; [-2; 11; 0]; [0; 0; 8]]%Z.

Lemma pd_Um : positive_definite Um.
Proof.
  assert (S : MartSpec.symmetric Um) by (split; [now apply wfb_spec|reflexivity]). apply (posdef_minors _ S). unfold Um. rewrite det3. cbv [get nth]. lra.
Qed.
Lemma pd_Vm : positive_definite Vm.
Proof.
  assert (S : MartSpec.symmetric Vm) by (split; [now apply wfb_spec|reflexivity]). apply (posdef_minors _ S). unfold Vm. rewrite det3. cbv [get nth]. lra.
Qed.
Lemma Um_base : base 3 Um.
Proof. split; [now right|]. split; [now apply wfb_spec|]. pose proof (posdef_det _ pd_Um). lra. Qed.

(** * V is a variant of U *)
Definition keepm (Q : mat Z) : bool := (get (mmul (mmul UmiZ Q) UmZ) 0 0 mod 40 =? 0)%Z.
Lemma far40 k z : (Z.abs k <= 400)%Z -> (k mod 40 <> 0)%Z -> Rabs (IZR k / 40 - IZR z) <= 1/2 ->
  1 / 100000000 + 1 / 100000 * Rabs (IZR z) < Rabs (IZR k / 40 - IZR z).
Proof.
  intros B N H.
  assert (K : (1 <= Z.abs (k - 40 * z))%Z).
  { destruct (Z.eq_dec (k - 40 * z) 0) as [E|E]; [|lia]. elim N. replace k with (z * 40)%Z by lia. apply Z.mod_mul. lia. }
  assert (E : Rabs (IZR k / 40 - IZR z) = IZR (Z.abs (k - 40 * z)) / 40).
  { rewrite abs_IZR. replace (IZR k / 40 - IZR z) with (IZR (k - 40 * z) / 40) by (rewrite minus_IZR, mult_IZR; field).
    unfold Rdiv. rewrite Rabs_mult, (Rabs_pos_eq (/ 40)) by lra. reflexivity. }
  rewrite E in *. apply IZR_le in K.
  assert (Z1 : (Z.abs z <= 20)%Z).
  { assert (X : IZR (Z.abs (k - 40 * z)) <= 20) by lra. apply le_IZR in X. lia. }
  apply IZR_le in Z1. rewrite abs_IZR in Z1. lra.
Qed.
Lemma Um_table Q : In Q CUBIC_LAUE_GROUP -> inpointgroup Um (IntArr Q) = Ok (keepm Q).
Proof.
  intros HQ. pose proof Um_base as B. assert (WQ : wf 3 3 Q) by (apply cubic_iff in HQ; apply HQ).
  rewrite (inpoint_red 3 _ B) by (apply cubic_iff in HQ; apply HQ). cbn [values].
  pose (Z := mmul (mmul UmiZ Q) UmZ). pose (A := mscale (1/40) (RZ Z)).
  assert (WZ : wf 3 3 Z) by (apply (wf_mmul 3 3 3); [apply (wf_mmul 3 3 3); [now apply wfb_spec|exact WQ|lia]|now apply wfb_spec|lia]).
  assert (WA : wf 3 3 A) by (apply wf_mscale; [lia|now apply wf_RZ]).
  assert (EA : mmul (RZ Q) Um = mmul Um A).
  { unfold A, Z. destruct (wf3_inv Q WQ) as (a & b & c & d & e & g & h & i & j & ->). unfold Um, UmiZ, UmZ.
    unfold RZ, mmap. mat_eq ltac:(repeat (rewrite plus_IZR || rewrite mult_IZR); field). }
  assert (G : forall i j, (i < 3)%nat -> (j < 3)%nat -> get A i j = IZR (get Z i j) / 40).
  { intros i j Hi Hj. unfold A. rewrite (get_mscale 3 3), get_RZ by (auto; now apply wf_RZ). cbn [mul R_ops]. field. }
  destruct (keepm Q) eqn:K.
  - assert (EZ : Z = mscale 40%Z Q).
    { revert K. unfold keepm, Z. clear - HQ. unfold CUBIC_LAUE_GROUP in HQ. cbn [In] in HQ.
      repeat match type of HQ with _ \/ _ => destruct HQ as [HQ|HQ] end; try contradiction; subst Q; vm_compute; intros; (reflexivity || discriminate). }
    apply (lat_eq_true 3 _ B _ A Q WA WQ EA). intros i j Hi Hj. rewrite (G i j Hi Hj), EZ, (get_mscale 3 3) by auto.
    cbn [mul Z_ops]. rewrite mult_IZR.
    replace (40 * IZR (get Q i j) / 40 - IZR (get Q i j)) with 0 by field. rewrite Rabs_R0.
    pose proof (Rabs_pos (IZR (get Q i j))). lra.
  - apply (lat_eq_false2 3 _ B _ A 0 0 WA EA); [lia|lia|]. intros z. rewrite (G 0 0)%nat by lia. apply far40.
    + unfold Z. clear - HQ. unfold CUBIC_LAUE_GROUP in HQ. cbn [In] in HQ.
      repeat match type of HQ with _ \/ _ => destruct HQ as [HQ|HQ] end; try contradiction; subst Q; vm_compute; discriminate.
    + unfold keepm in K. apply Z.eqb_neq in K. exact K.
Qed.
Lemma Um_Laue : Laue_group Um = Ok (map RZ (filter keepm CUBIC_LAUE_GROUP)).
Proof.
  unfold Laue_group. change (length Um) with 3%nat. unfold pick_group, cubic_arr. rewrite (PropMart.keep_filter Um keepm) by exact Um_table.
  cbn [bind]. rewrite map_length. replace (length (filter keepm CUBIC_LAUE_GROUP)) with 2%nat by (vm_compute; reflexivity). reflexivity.
Qed.
Lemma Um_reversible : isreversible (new_mart (Some Um) None) = Ok true.
Proof.
  unfold isreversible. cbn [getU m_U new_mart bind]. rewrite (new_lattice_base _ Um_base). cbn [bind]. rewrite Um_Laue. cbn [bind].
  change (getLaue (new_mart (Some Um) None)) with (map RZ CUBIC_LAUE_GROUP). rewrite !map_length.
  replace (length (filter keepm CUBIC_LAUE_GROUP)) with 2%nat by (vm_compute; reflexivity). change (length CUBIC_LAUE_GROUP) with 24%nat.
  cbn [Nat.leb]. apply hassubgroup_iff; [discriminate|]. rewrite !map_length.
  replace (length (filter keepm CUBIC_LAUE_GROUP)) with 2%nat by (vm_compute; reflexivity). change (length CUBIC_LAUE_GROUP) with 24%nat.
  split; [split; [lia|exists 12%nat; reflexivity]|]. intros m1 H. apply in_map_iff in H. destruct H as (Q & <- & HQ). apply filter_In in HQ.
  exists (RZ Q). split; [apply in_map; apply HQ|apply allclose_refl].
Qed.
Lemma rotate_tenths Q : wf 3 3 Q -> rotate (RZ Q) Um = mscale (1/10) (RZ (mmul (mmul Q UmZ) (tr Q))).
Proof.
  intros WQ. destruct (wf3_inv Q WQ) as (a & b & c & d & e & g & h & i & j & ->). unfold rotate, Um, UmZ, RZ, mmap.
  mat_eq ltac:(repeat (rewrite plus_IZR || rewrite mult_IZR); field).
Qed.
Lemma Um_separated : separated Um (map RZ CUBIC_LAUE_GROUP).
Proof.
  intros P' Q' HP HQ H. apply in_map_iff in HP as (P & <- & HP). apply in_map_iff in HQ as (Q & <- & HQ).
  assert (WP : wf 3 3 P) by (apply cubic_iff in HP; apply HP). assert (WQ : wf 3 3 Q) by (apply cubic_iff in HQ; apply HQ).
  rewrite !rotate_tenths in * by auto.
  assert (W : forall X, wf 3 3 X -> wf 3 3 (mmul (mmul X UmZ) (tr X))).
  { intros X WX. apply (wf_mmul 3 3 3); [apply (wf_mmul 3 3 3); [exact WX|now apply wfb_spec|lia]|apply wf_tr'; auto; lia|lia]. }
  assert (B : forall X, In X CUBIC_LAUE_GROUP -> forall i j, (i < 3)%nat -> (j < 3)%nat -> (Z.abs (get (mmul (mmul X UmZ) (tr X)) i j) <= 11)%Z).
  { intros X HX. unfold CUBIC_LAUE_GROUP in HX. cbn [In] in HX.
    repeat match type of HX with _ \/ _ => destruct HX as [HX|HX] end; try contradiction; subst X; intros i j Hi Hj;
      destruct i as [|[|[|i]]]; destruct j as [|[|[|j]]]; try lia; vm_compute; discriminate. }
  pose proof (W P WP) as W1. pose proof (W Q WQ) as W2. specialize (B Q HQ).
  set (X := mmul (mmul P UmZ) (tr P)) in *. set (Y := mmul (mmul Q UmZ) (tr Q)) in *. clearbody X Y.
  f_equal. f_equal. apply (mat_ext 3 3); auto; try lia. intros i j Hi Hj.
  assert (WX : wf 3 3 (mscale (1/10) (RZ X))) by (apply wf_mscale; [lia|now apply wf_RZ]).
  pose proof (proj1 (allclose_spec 2 3 _ _ WX) H i j Hi Hj) as K. unfold atol0, rtol0 in K.
  rewrite !(get_mscale 3 3), !get_RZ in K by (auto; now apply wf_RZ). cbn [mul R_ops] in K. specialize (B i j Hi Hj).
  destruct (Z.eq_dec (get X i j) (get Y i j)) as [E|E]; [exact E|exfalso].
  assert (1 <= Z.abs (get X i j - get Y i j))%Z by lia. apply IZR_le in H0. rewrite abs_IZR, minus_IZR in H0. apply IZR_le in B. rewrite abs_IZR in B.
  replace (1 / 10 * IZR (get X i j) - 1 / 10 * IZR (get Y i j)) with (1/10 * (IZR (get X i j) - IZR (get Y i j))) in K by ring.
  rewrite !Rabs_mult, (Rabs_pos_eq (1/10)) in K by lra. lra.
Qed.
Definition Qm : mat Z := [[1; 0; 0]; [0; -1; 0]; [0; 0; -1]]%Z.
Lemma Qm_rotates : rotate (RZ Qm) Um = Vm.
Proof. unfold rotate, Qm, Um, Vm, RZ, mmap. mat_eq ltac:(field). Qed.
Lemma Um_isvariant : isvariant Um Vm = Ok true.
Proof.
  assert (RG : rotation_group (getLaue (new_mart (Some Um) None))).
  { change (getLaue (new_mart (Some Um) None)) with (map RZ CUBIC_LAUE_GROUP). split; [apply CUBIC_good|]. intros Q HQ. apply CUBIC_good. exact HQ. }
  destruct (C27_orbit_partial (new_mart (Some Um) None) Um (r_new _ _) eq_refl (proj1 (proj2 Um_base)) RG Um_separated Um_reversible) as (Us & idx & m' & E & _ & O).
  unfold isvariant. rewrite E. cbn [bind fst]. f_equal. apply existsb_exists. exists Vm. split.
  - apply (exact _ _ _ _ O). exists (RZ Qm). split; [|now rewrite Qm_rotates]. change (getLaue (new_mart (Some Um) None)) with (map RZ CUBIC_LAUE_GROUP).
    apply in_map. unfold CUBIC_LAUE_GROUP, Qm. cbn [In]. tauto.
  - apply Rltb_spec. replace (fro2 3 3 (msub Vm Vm)) with 0; [rewrite sqrt_0; apply small_pos|]. unfold fro2, Vm. mat_unfold_goal. ring.
Qed.

(** * The twin matrix and the axes *)
Lemma minv_Um : minv Um = [[1; -1/2; 0]; [-1/2; 11/4; 0]; [0; 0; 2]].
Proof. symmetry; apply (inv_unique 3 Um); [now right|now apply wfb_spec|now apply wfb_spec|]. unfold Um. mat_eq ltac:(lra). Qed.
Lemma twin_Um : twin_matrix Um Vm = [[8/5; -9/5; 0]; [-9/5; 53/20; 0]; [0; 0; 1]].
Proof. unfold twin_matrix. rewrite minv_Um. unfold Vm. mat_eq ltac:(lra). Qed.
Lemma ev_Um : eigenvalues (twin_matrix Um Vm) (1/4) 1 4.
Proof.
  rewrite twin_Um. split; [lra|]. exists [[4/5; 0; 3/5]; [3/5; 0; -4/5]; [0; 1; 0]].
  split; [now apply wfb_spec|]. split; [now apply wfb_spec|]. split; [reflexivity|]. split; [rewrite det3; cbv [get nth]; lra|]. mat_eq ltac:(lra).
Qed.
Lemma distinct_Um : distinct Um Vm.
Proof. exists 0%nat, 1%nat. split; [lia|]. split; [lia|]. cbv [get nth Um Vm]. rewrite Rabs_pos_eq; unfold tolerance, SMALL; lra. Qed.
Lemma variants_Um : variants Um Vm.
Proof.
  exists (RZ Qm). split; [|apply Qm_rotates]. split; [now apply wfb_spec|]. unfold Qm, RZ, mmap. mat_eq ltac:(lra).
Qed.
Lemma axis_1 : half_turn_axis Um Vm [1; 0; 0].
Proof. split; [reflexivity|]. split; [mat_unfold_goal; ring|]. unfold rotate, half_turn, Um, Vm. mat_eq ltac:(lra). Qed.
Lemma axis_2 : half_turn_axis Um Vm [0; 1; 0].
Proof. split; [reflexivity|]. split; [mat_unfold_goal; ring|]. unfold rotate, half_turn, Um, Vm. mat_eq ltac:(lra). Qed.
Lemma round10_dec x z : x * 10 ^ 10 = IZR z -> round10 x = x.
Proof. intros E. unfold round10. rewrite E, rint_IZR, <- E. field. Qed.

Lemma mono_case e a1 a2 n2 rho : half_turn_axis Um Vm e ->
  (let p := mvmul (minv Um) e in dot p p <> 0 /\ vscale 2 (vsub (map (fun x => x / dot p p) p) (mvmul Um e)) = a1) ->
  (let y := mvmul Um e in dot y y <> 0 /\ vscale 2 (vsub e (map (fun x => x / dot y y) (mvmul Um y))) = vscale rho n2 /\ vscale rho y = a2) ->
  0 < rho -> length n2 = 3%nat -> dot n2 n2 = 1 -> vround a1 = a1 -> vround e = e -> vround a2 = a2 -> vround n2 = n2 ->
  exists Q1 Q2, solvetwin_axis Um e = Ok (Some ((Q1, a1, e), (Q2, a2, n2))).
Proof.
  intros (Le & De & R) (D1 & E1) (D2 & E2 & E3) Hr Ln Dn R1 R2 R3 R4. rewrite (solvetwin_axis_eq Um e pd_Um Le De). rewrite R, Um_isvariant. cbn [bind].
  rewrite (vdiv_ok _ _ D1). cbn [bind]. rewrite E1. rewrite (unit_norm e De), scale_one. rewrite (vdiv_ok e 1) by lra. cbn [bind]. rewrite div_one, R1, R2.
  rewrite (inv_posdef _ pd_Vm). cbn [bind]. rewrite (vdiv_ok _ _ D2). cbn [bind]. rewrite E2.
  assert (VN : vnorm (vscale rho n2) = rho).
  { unfold vnorm. replace (dot (vscale rho n2) (vscale rho n2)) with (rho * rho * dot n2 n2); [rewrite Dn, Rmult_1_r; apply sqrt_square; lra|].
    v3 Ln. unfold vscale. mat_unfold_goal. ring. }
  rewrite VN, (vdiv_ok _ rho) by lra. cbn [bind].
  replace (map (fun x => x / rho) (vscale rho n2)) with n2 by (v3 Ln; unfold vscale; cbn [map]; apply list3_eq; field; lra).
  rewrite R4, E3, R3. eauto.
Qed.
Ltac dec z := apply (round10_dec _ z); lra.
Definition kept (a n : vec R) : Prop := (a = [-3/5; -6/5; 0] /\ n = [1; 0; 0]) \/ (a = [3/5; 6/5; 0] /\ n = [-1; 0; 0]).
Definition lost (a n : vec R) : Prop := (a = [66/125; 12/125; 0] /\ n = [0; -1; 0]) \/ (a = [-66/125; -12/125; 0] /\ n = [0; 1; 0]).
Ltac cas := rewrite ?minv_Um; unfold Um, vscale, vsub; mat_unfold_goal; repeat split; try lra; apply list3_eq; lra.
Lemma mono_axes e : In e [[1; 0; 0]; [-1; 0; 0]; [0; 1; 0]; [0; -1; 0]] -> exists t1 t2, solvetwin_axis Um e = Ok (Some (t1, t2)) /\
  ((kept (twin_a t1) (twin_n t1) /\ lost (twin_a t2) (twin_n t2)) \/ (lost (twin_a t1) (twin_n t1) /\ kept (twin_a t2) (twin_n t2))).
Proof.
  assert (M : forall e, half_turn_axis Um Vm e -> half_turn_axis Um Vm (vscale (-1) e)).
  { intros x (L & D & R). split; [now rewrite len_vscale|]. v3 L. split.
    - rewrite <- D. unfold vscale. mat_unfold_goal. ring.
    - rewrite <- R. f_equal. unfold half_turn, vscale. mat_eq ltac:(ring). }
  assert (M1 : vscale (-1) [1; 0; 0] = [-1; 0; 0]) by (unfold vscale; cbn [map]; apply list3_eq; ring).
  assert (M2 : vscale (-1) [0; 1; 0] = [0; -1; 0]) by (unfold vscale; cbn [map]; apply list3_eq; ring).
  pose proof (M _ axis_1) as A1. pose proof (M _ axis_2) as A2. rewrite M1 in A1. rewrite M2 in A2.
  assert (C : forall e a1 a2 n2 rho, half_turn_axis Um Vm e -> 
  (let p := mvmul (minv Um) e in dot p p <> 0 /\ vscale 2 (vsub (map (fun x => x / dot p p) p) (mvmul Um e)) = a1) ->
  (let y := mvmul Um e in dot y y <> 0 /\ vscale 2 (vsub e (map (fun x => x / dot y y) (mvmul Um y))) = vscale rho n2 /\ vscale rho y = a2) ->
  0 < rho -> length n2 = 3%nat -> dot n2 n2 = 1 -> vround a1 = a1 /\ vround e = e /\ vround a2 = a2 /\ vround n2 = n2 ->
    (kept a1 e /\ lost a2 n2) \/ (lost a1 e /\ kept a2 n2) ->
    exists t1 t2, solvetwin_axis Um e = Ok (Some (t1, t2)) /\
  ((kept (twin_a t1) (twin_n t1) /\ lost (twin_a t2) (twin_n t2)) \/ (lost (twin_a t1) (twin_n t1) /\ kept (twin_a t2) (twin_n t2)))).
  { intros x a1 a2 n2 rho H1 H2 H3 H4 H5 H6 (H7 & H8 & H9 & H10) K. destruct (mono_case x a1 a2 n2 rho H1 H2 H3 H4 H5 H6 H7 H8 H9 H10) as (Q1 & Q2 & E).
    exists (Q1, a1, x), (Q2, a2, n2). split; [exact E|exact K]. }
  clear M M1 M2.
  assert (r0 : round10 0 = 0) by dec 0%Z. assert (r1 : round10 1 = 1) by dec 10000000000%Z. assert (rm1 : round10 (-1) = -1) by dec (-10000000000)%Z.
  assert (r3 : round10 (3/5) = 3/5) by dec 6000000000%Z. assert (rm3 : round10 (-3/5) = -3/5) by dec (-6000000000)%Z.
  assert (r6 : round10 (6/5) = 6/5) by dec 12000000000%Z. assert (rm6 : round10 (-6/5) = -6/5) by dec (-12000000000)%Z.
  assert (r66 : round10 (66/125) = 66/125) by dec 5280000000%Z. assert (rm66 : round10 (-66/125) = -66/125) by dec (-5280000000)%Z.
  assert (r12 : round10 (12/125) = 12/125) by dec 960000000%Z. assert (rm12 : round10 (-12/125) = -12/125) by dec (-960000000)%Z.
  assert (RR : forall x y z, round10 x = x -> round10 y = y -> round10 z = z -> vround [x; y; z] = [x; y; z]) by (intros; cbn [vround map]; now f_equal; [|f_equal; [|f_equal]]).
  intros [<-|[<-|[<-|[<-|[]]]]].
  - apply (C [1; 0; 0] [-3/5; -6/5; 0] [66/125; 12/125; 0] [0; -1; 0] (12/25) axis_1);
    [cas|cas|lra|reflexivity|mat_unfold_goal; lra|repeat split; apply RR; auto|left; split; left; auto].
  - apply (C [-1; 0; 0] [3/5; 6/5; 0] [-66/125; -12/125; 0] [0; 1; 0] (12/25) A1);
    [cas|cas|lra|reflexivity|mat_unfold_goal; lra|repeat split; apply RR; auto|left; split; right; auto].
  - apply (C [0; 1; 0] [-66/125; -12/125; 0] [3/5; 6/5; 0] [-1; 0; 0] 3 axis_2);
    [cas|cas|lra|reflexivity|mat_unfold_goal; lra|repeat split; apply RR; auto|right; split; right; auto].
  - apply (C [0; -1; 0] [66/125; 12/125; 0] [-3/5; -6/5; 0] [1; 0; 0] 3 A2);
    [cas|cas|lra|reflexivity|mat_unfold_goal; lra|repeat split; apply RR; auto|right; split; left; auto].
Qed.

(** * The volume fractions *)
Lemma solve_kept a n : kept a n -> solve_f Um a n = Ok (Some (1/2 + sqrt (4/45))).
Proof.
  intros K. assert (M : 2 * dot (mvmul Um a) (mvmul (brute_cof (msub (mmul Um Um) (eye 3))) n) = -27/20).
  { destruct K as [(-> & ->)|(-> & ->)]; unfold Um; cbv [brute_cof drop]; mat_unfold_goal; cbn [pow Nat.add]; lra. }
  assert (D : det (msub (mmul Um Um) (eye 3)) = 87/400) by (unfold Um; mat_unfold_goal; lra).
  unfold solve_f. rewrite M, D. replace ((87/400 + -27/20/4) / (-27/20)) with (4/45) by field.
  rewrite (proj2 (Rltb_false _ _)) by (rewrite Rabs_left by lra; unfold tolerance, SMALL; lra). rewrite (proj2 (Rltb_spec _ _)) by lra.
  rewrite math_sqrt_ok by lra. cbn [bind].
  assert (S : 1/4 < sqrt (4/45) < 1/3).
  { pose proof (sqrt_pos (4/45)). pose proof (sqrt_sqrt (4/45) ltac:(lra)). split; nra. }
  rewrite (proj2 (Rltb_false _ _)) by (rewrite Rabs_pos_eq; lra). rewrite (proj2 (Rltb_false _ _)) by (rewrite Rabs_pos_eq; lra).
  rewrite !(proj2 (Rltb_spec _ _)) by lra. reflexivity.
Qed.
Lemma solve_lost a n : lost a n -> solve_f Um a n = Ok None.
Proof.
  intros K. assert (M : 2 * dot (mvmul Um a) (mvmul (brute_cof (msub (mmul Um Um) (eye 3))) n) = -27/125).
  { destruct K as [(-> & ->)|(-> & ->)]; unfold Um; cbv [brute_cof drop]; mat_unfold_goal; cbn [pow Nat.add]; lra. }
  assert (D : det (msub (mmul Um Um) (eye 3)) = 87/400) by (unfold Um; mat_unfold_goal; lra).
  unfold solve_f. rewrite M, D. replace ((87/400 + -27/125/4) / (-27/125)) with (-109/144) by field.
  rewrite (proj2 (Rltb_false _ _)) by (rewrite Rabs_left by lra; unfold tolerance, SMALL; lra). rewrite (proj2 (Rltb_false _ _)) by lra. reflexivity.
Qed.
