(** The pair of TwinMono2 stretched along the third axis: the stretch of each laminate has middle eigenvalue one. *)
From Verif Require Import LinAlg GroupSpec GroupModel GroupProofs LatticeModel LatticeSpec LatticeProofs LatticeGroups LatticeLaue LatticeComplete PropMart BravaisHex.
From Verif Require Export TwinMono2.
Local Open Scope R_scope.

Definition Ud : mat R := [[17/20; 3/10; 0]; [3/10; 9/20; 0]; [0; 0; 5/4]].
Definition Vd : mat R := [[17/20; -3/10; 0]; [-3/10; 9/20; 0]; [0; 0; 5/4]].
Definition UdZ : mat Z := [[17; 6; 0]; [6; 9; 0]; [0; 0; 25]]%Z.
Definition UdiZ : mat Z := [[225; -150; 0]; [-150; 425; 0]; [0; 0; 117]]%Z.

Lemma pd_Ud : positive_definite Ud.
Proof.
  assert (S : MartSpec.symmetric Ud) by (split; [now apply wfb_spec|reflexivity]). apply (posdef_minors _ S). unfold Ud. rewrite det3. cbv [get nth]. lra.
Qed.
Lemma pd_Vd : positive_definite Vd.
Proof.
  assert (S : MartSpec.symmetric Vd) by (split; [now apply wfb_spec|reflexivity]). apply (posdef_minors _ S). unfold Vd. rewrite det3. cbv [get nth]. lra.
Qed.
Lemma Ud_base : base 3 Ud.
Proof. split; [now right|]. split; [now apply wfb_spec|]. pose proof (posdef_det _ pd_Ud). lra. Qed.

(** * V is a variant of U *)
Definition keepd (Q : mat Z) : bool := (get (mmul (mmul UdiZ Q) UdZ) 0 0 mod 2925 =? 0)%Z.
Lemma far2925 k z : (Z.abs k <= 29250)%Z -> (k mod 2925 <> 0)%Z -> Rabs (IZR k / 2925 - IZR z) <= 1/2 ->
  1 / 100000000 + 1 / 100000 * Rabs (IZR z) < Rabs (IZR k / 2925 - IZR z).
Proof.
  intros B N H.
  assert (K : (1 <= Z.abs (k - 2925 * z))%Z).
  { destruct (Z.eq_dec (k - 2925 * z) 0) as [E|E]; [|lia]. elim N. replace k with (z * 2925)%Z by lia. apply Z.mod_mul. lia. }
  assert (E : Rabs (IZR k / 2925 - IZR z) = IZR (Z.abs (k - 2925 * z)) / 2925).
  { rewrite abs_IZR. replace (IZR k / 2925 - IZR z) with (IZR (k - 2925 * z) / 2925) by (rewrite minus_IZR, mult_IZR; field).
    unfold Rdiv. rewrite Rabs_mult, (Rabs_pos_eq (/ 2925)) by lra. reflexivity. }
  rewrite E in *. apply IZR_le in K.
  assert (Z1 : (Z.abs z <= 11)%Z).
  { assert (X : IZR (Z.abs (k - 2925 * z)) <= 1463) by lra. apply le_IZR in X. lia. }
  apply IZR_le in Z1. rewrite abs_IZR in Z1. lra.
Qed.
Lemma Ud_table Q : In Q CUBIC_LAUE_GROUP -> inpointgroup Ud (IntArr Q) = Ok (keepd Q).
Proof.
  intros HQ. pose proof Ud_base as B. assert (WQ : wf 3 3 Q) by (apply cubic_iff in HQ; apply HQ).
  rewrite (inpoint_red 3 _ B) by (apply cubic_iff in HQ; apply HQ). cbn [values].
  pose (Z := mmul (mmul UdiZ Q) UdZ). pose (A := mscale (1/2925) (RZ Z)).
  assert (WZ : wf 3 3 Z) by (apply (wf_mmul 3 3 3); [apply (wf_mmul 3 3 3); [now apply wfb_spec|exact WQ|lia]|now apply wfb_spec|lia]).
  assert (WA : wf 3 3 A) by (apply wf_mscale; [lia|now apply wf_RZ]).
  assert (EA : mmul (RZ Q) Ud = mmul Ud A).
  { unfold A, Z. destruct (wf3_inv Q WQ) as (a & b & c & d & e & g & h & i & j & ->). unfold Ud, UdiZ, UdZ.
    unfold RZ, mmap. mat_eq ltac:(repeat (rewrite plus_IZR || rewrite mult_IZR); field). }
  assert (G : forall i j, (i < 3)%nat -> (j < 3)%nat -> get A i j = IZR (get Z i j) / 2925).
  { intros i j Hi Hj. unfold A. rewrite (get_mscale 3 3), get_RZ by (auto; now apply wf_RZ). cbn [mul R_ops]. field. }
  destruct (keepd Q) eqn:K.
  - assert (EZ : Z = mscale 2925%Z Q).
    { revert K. unfold keepd, Z. clear - HQ. unfold CUBIC_LAUE_GROUP in HQ. cbn [In] in HQ.
      repeat match type of HQ with _ \/ _ => destruct HQ as [HQ|HQ] end; try contradiction; subst Q; vm_compute; intros; (reflexivity || discriminate). }
    apply (lat_eq_true 3 _ B _ A Q WA WQ EA). intros i j Hi Hj. rewrite (G i j Hi Hj), EZ, (get_mscale 3 3) by auto.
    cbn [mul Z_ops]. rewrite mult_IZR.
    replace (2925 * IZR (get Q i j) / 2925 - IZR (get Q i j)) with 0 by field. rewrite Rabs_R0.
    pose proof (Rabs_pos (IZR (get Q i j))). lra.
  - apply (lat_eq_false2 3 _ B _ A 0 0 WA EA); [lia|lia|]. intros z. rewrite (G 0 0)%nat by lia. apply far2925.
    + unfold Z. clear - HQ. unfold CUBIC_LAUE_GROUP in HQ. cbn [In] in HQ.
      repeat match type of HQ with _ \/ _ => destruct HQ as [HQ|HQ] end; try contradiction; subst Q; vm_compute; discriminate.
    + unfold keepd in K. apply Z.eqb_neq in K. exact K.
Qed.
Lemma Ud_Laue : Laue_group Ud = Ok (map RZ (filter keepd CUBIC_LAUE_GROUP)).
Proof.
  unfold Laue_group. change (length Ud) with 3%nat. unfold pick_group, cubic_arr. rewrite (PropMart.keep_filter Ud keepd) by exact Ud_table.
  cbn [bind]. rewrite map_length. replace (length (filter keepd CUBIC_LAUE_GROUP)) with 2%nat by (vm_compute; reflexivity). reflexivity.
Qed.
Lemma Ud_reversible : isreversible (new_mart (Some Ud) None) = Ok true.
Proof.
  unfold isreversible. cbn [getU m_U new_mart bind]. rewrite (new_lattice_base _ Ud_base). cbn [bind]. rewrite Ud_Laue. cbn [bind].
  change (getLaue (new_mart (Some Ud) None)) with (map RZ CUBIC_LAUE_GROUP). rewrite !map_length.
  replace (length (filter keepd CUBIC_LAUE_GROUP)) with 2%nat by (vm_compute; reflexivity). change (length CUBIC_LAUE_GROUP) with 24%nat.
  cbn [Nat.leb]. apply hassubgroup_iff; [discriminate|]. rewrite !map_length.
  replace (length (filter keepd CUBIC_LAUE_GROUP)) with 2%nat by (vm_compute; reflexivity). change (length CUBIC_LAUE_GROUP) with 24%nat.
  split; [split; [lia|exists 12%nat; reflexivity]|]. intros m1 H. apply in_map_iff in H. destruct H as (Q & <- & HQ). apply filter_In in HQ.
  exists (RZ Q). split; [apply in_map; apply HQ|apply allclose_refl].
Qed.
Lemma rotate_twentieths Q : wf 3 3 Q -> rotate (RZ Q) Ud = mscale (1/20) (RZ (mmul (mmul Q UdZ) (tr Q))).
Proof.
  intros WQ. destruct (wf3_inv Q WQ) as (a & b & c & d & e & g & h & i & j & ->). unfold rotate, Ud, UdZ, RZ, mmap.
  mat_eq ltac:(repeat (rewrite plus_IZR || rewrite mult_IZR); field).
Qed.
Lemma Ud_separated : separated Ud (map RZ CUBIC_LAUE_GROUP).
Proof.
  intros P' Q' HP HQ H. apply in_map_iff in HP as (P & <- & HP). apply in_map_iff in HQ as (Q & <- & HQ).
  assert (WP : wf 3 3 P) by (apply cubic_iff in HP; apply HP). assert (WQ : wf 3 3 Q) by (apply cubic_iff in HQ; apply HQ).
  rewrite !rotate_twentieths in * by auto.
  assert (W : forall X, wf 3 3 X -> wf 3 3 (mmul (mmul X UdZ) (tr X))).
  { intros X WX. apply (wf_mmul 3 3 3); [apply (wf_mmul 3 3 3); [exact WX|now apply wfb_spec|lia]|apply wf_tr'; auto; lia|lia]. }
  assert (B : forall X, In X CUBIC_LAUE_GROUP -> forall i j, (i < 3)%nat -> (j < 3)%nat -> (Z.abs (get (mmul (mmul X UdZ) (tr X)) i j) <= 25)%Z).
  { intros X HX. unfold CUBIC_LAUE_GROUP in HX. cbn [In] in HX.
    repeat match type of HX with _ \/ _ => destruct HX as [HX|HX] end; try contradiction; subst X; intros i j Hi Hj;
      destruct i as [|[|[|i]]]; destruct j as [|[|[|j]]]; try lia; vm_compute; discriminate. }
  pose proof (W P WP) as W1. pose proof (W Q WQ) as W2. specialize (B Q HQ).
  set (X := mmul (mmul P UdZ) (tr P)) in *. set (Y := mmul (mmul Q UdZ) (tr Q)) in *. clearbody X Y.
  f_equal. f_equal. apply (mat_ext 3 3); auto; try lia. intros i j Hi Hj.
  assert (WX : wf 3 3 (mscale (1/20) (RZ X))) by (apply wf_mscale; [lia|now apply wf_RZ]).
  pose proof (proj1 (allclose_spec 2 3 _ _ WX) H i j Hi Hj) as K. unfold atol0, rtol0 in K.
  rewrite !(get_mscale 3 3), !get_RZ in K by (auto; now apply wf_RZ). cbn [mul R_ops] in K. specialize (B i j Hi Hj).
  destruct (Z.eq_dec (get X i j) (get Y i j)) as [E|E]; [exact E|exfalso].
  assert (1 <= Z.abs (get X i j - get Y i j))%Z by lia. apply IZR_le in H0. rewrite abs_IZR, minus_IZR in H0. apply IZR_le in B. rewrite abs_IZR in B.
  replace (1 / 20 * IZR (get X i j) - 1 / 20 * IZR (get Y i j)) with (1/20 * (IZR (get X i j) - IZR (get Y i j))) in K by ring.
  rewrite !Rabs_mult, (Rabs_pos_eq (1/20)) in K by lra. lra.
Qed.
Definition Qd : mat Z := [[1; 0; 0]; [0; -1; 0]; [0; 0; -1]]%Z.
Lemma Qd_rotates : rotate (RZ Qd) Ud = Vd.
Proof. unfold rotate, Qd, Ud, Vd, RZ, mmap. mat_eq ltac:(field). Qed.
Lemma Ud_isvariant : isvariant Ud Vd = Ok true.
Proof.
  assert (RG : rotation_group (getLaue (new_mart (Some Ud) None))).
  { change (getLaue (new_mart (Some Ud) None)) with (map RZ CUBIC_LAUE_GROUP). split; [apply CUBIC_good|]. intros Q HQ. apply CUBIC_good. exact HQ. }
  destruct (C27_orbit_partial (new_mart (Some Ud) None) Ud (r_new _ _) eq_refl (proj1 (proj2 Ud_base)) RG Ud_separated Ud_reversible) as (Us & idx & m' & E & _ & O).
  unfold isvariant. rewrite E. cbn [bind fst]. f_equal. apply existsb_exists. exists Vd. split.
  - apply (exact _ _ _ _ O). exists (RZ Qd). split; [|now rewrite Qd_rotates]. change (getLaue (new_mart (Some Ud) None)) with (map RZ CUBIC_LAUE_GROUP).
    apply in_map. unfold CUBIC_LAUE_GROUP, Qd. cbn [In]. tauto.
  - apply Rltb_spec. replace (fro2 3 3 (msub Vd Vd)) with 0; [rewrite sqrt_0; apply small_pos|]. unfold fro2, Vd. mat_unfold_goal. ring.
Qed.

(** * The twin matrix and the axes *)
Lemma minv_Ud : minv Ud = [[20/13; -40/39; 0]; [-40/39; 340/117; 0]; [0; 0; 4/5]].
Proof. symmetry; apply (inv_unique 3 Ud); [now right|now apply wfb_spec|now apply wfb_spec|]. unfold Ud. mat_eq ltac:(lra). Qed.
Lemma twin_Ud : twin_matrix Ud Vd = [[45/13; -56/13; 0]; [-56/13; 661/117; 0]; [0; 0; 1]].
Proof. unfold twin_matrix. rewrite minv_Ud. unfold Vd. mat_eq ltac:(lra). Qed.
Lemma ev_Ud : eigenvalues (twin_matrix Ud Vd) (1/9) 1 9.
Proof.
  rewrite twin_Ud. split; [lra|]. exists [[9; 0; 7]; [7; 0; -9]; [0; 1; 0]].
  split; [now apply wfb_spec|]. split; [now apply wfb_spec|]. split; [reflexivity|]. split; [rewrite det3; cbv [get nth]; lra|]. mat_eq ltac:(lra).
Qed.
Lemma distinct_Ud : distinct Ud Vd.
Proof. exists 0%nat, 1%nat. split; [lia|]. split; [lia|]. cbv [get nth Ud Vd]. rewrite Rabs_pos_eq; unfold tolerance, SMALL; lra. Qed.
Lemma variants_Ud : variants Ud Vd.
Proof.
  exists (RZ Qd). split; [|apply Qd_rotates]. split; [now apply wfb_spec|]. unfold Qd, RZ, mmap. mat_eq ltac:(lra).
Qed.
Lemma axisd_1 : half_turn_axis Ud Vd [1; 0; 0].
Proof. split; [reflexivity|]. split; [mat_unfold_goal; ring|]. unfold rotate, half_turn, Ud, Vd. mat_eq ltac:(lra). Qed.
Lemma axisd_2 : half_turn_axis Ud Vd [0; 1; 0].
Proof. split; [reflexivity|]. split; [mat_unfold_goal; ring|]. unfold rotate, half_turn, Ud, Vd. mat_eq ltac:(lra). Qed.
Lemma monod_case e a1 a2 n2 rho : half_turn_axis Ud Vd e ->
  (let p := mvmul (minv Ud) e in dot p p <> 0 /\ vscale 2 (vsub (map (fun x => x / dot p p) p) (mvmul Ud e)) = a1) ->
  (let y := mvmul Ud e in dot y y <> 0 /\ vscale 2 (vsub e (map (fun x => x / dot y y) (mvmul Ud y))) = vscale rho n2 /\ vscale rho y = a2) ->
  0 < rho -> length n2 = 3%nat -> dot n2 n2 = 1 -> vround a1 = a1 -> vround e = e -> vround a2 = a2 -> vround n2 = n2 ->
  exists Q1 Q2, solvetwin_axis Ud e = Ok (Some ((Q1, a1, e), (Q2, a2, n2))).
Proof.
  intros (Le & De & R) (D1 & E1) (D2 & E2 & E3) Hr Ln Dn R1 R2 R3 R4. rewrite (solvetwin_axis_eq Ud e pd_Ud Le De). rewrite R, Ud_isvariant. cbn [bind].
  rewrite (vdiv_ok _ _ D1). cbn [bind]. rewrite E1. rewrite (unit_norm e De), scale_one. rewrite (vdiv_ok e 1) by lra. cbn [bind]. rewrite div_one, R1, R2.
  rewrite (inv_posdef _ pd_Vd). cbn [bind]. rewrite (vdiv_ok _ _ D2). cbn [bind]. rewrite E2.
  assert (VN : vnorm (vscale rho n2) = rho).
  { unfold vnorm. replace (dot (vscale rho n2) (vscale rho n2)) with (rho * rho * dot n2 n2); [rewrite Dn, Rmult_1_r; apply sqrt_square; lra|].
    v3 Ln. unfold vscale. mat_unfold_goal. ring. }
  rewrite VN, (vdiv_ok _ rho) by lra. cbn [bind].
  replace (map (fun x => x / rho) (vscale rho n2)) with n2 by (v3 Ln; unfold vscale; cbn [map]; apply list3_eq; field; lra).
  rewrite R4, E3, R3. eauto.
Qed.
Ltac cas := rewrite ?minv_Ud; unfold Ud, vscale, vsub; mat_unfold_goal; repeat split; try lra; apply list3_eq; lra.
Lemma monod_axes e : In e [[1; 0; 0]; [-1; 0; 0]; [0; 1; 0]; [0; -1; 0]] -> exists t1 t2, solvetwin_axis Ud e = Ok (Some (t1, t2)) /\
  ((typeI (twin_a t1) (twin_n t1) /\ typeII (twin_a t2) (twin_n t2)) \/ (typeII (twin_a t1) (twin_n t1) /\ typeI (twin_a t2) (twin_n t2))).
Proof.
  assert (M : forall e, half_turn_axis Ud Vd e -> half_turn_axis Ud Vd (vscale (-1) e)).
  { intros x (L & D & R). split; [now rewrite len_vscale|]. v3 L. split.
    - rewrite <- D. unfold vscale. mat_unfold_goal. ring.
    - rewrite <- R. f_equal. unfold half_turn, vscale. mat_eq ltac:(ring). }
  assert (M1 : vscale (-1) [1; 0; 0] = [-1; 0; 0]) by (unfold vscale; cbn [map]; apply list3_eq; ring).
  assert (M2 : vscale (-1) [0; 1; 0] = [0; -1; 0]) by (unfold vscale; cbn [map]; apply list3_eq; ring).
  pose proof (M _ axisd_1) as A1. pose proof (M _ axisd_2) as A2. rewrite M1 in A1. rewrite M2 in A2.
  assert (C : forall e a1 a2 n2 rho, half_turn_axis Ud Vd e -> 
  (let p := mvmul (minv Ud) e in dot p p <> 0 /\ vscale 2 (vsub (map (fun x => x / dot p p) p) (mvmul Ud e)) = a1) ->
  (let y := mvmul Ud e in dot y y <> 0 /\ vscale 2 (vsub e (map (fun x => x / dot y y) (mvmul Ud y))) = vscale rho n2 /\ vscale rho y = a2) ->
  0 < rho -> length n2 = 3%nat -> dot n2 n2 = 1 -> vround a1 = a1 /\ vround e = e /\ vround a2 = a2 /\ vround n2 = n2 ->
    (typeI a1 e /\ typeII a2 n2) \/ (typeII a1 e /\ typeI a2 n2) ->
    exists t1 t2, solvetwin_axis Ud e = Ok (Some (t1, t2)) /\
  ((typeI (twin_a t1) (twin_n t1) /\ typeII (twin_a t2) (twin_n t2)) \/ (typeII (twin_a t1) (twin_n t1) /\ typeI (twin_a t2) (twin_n t2)))).
  { intros x a1 a2 n2 rho H1 H2 H3 H4 H5 H6 (H7 & H8 & H9 & H10) K. destruct (monod_case x a1 a2 n2 rho H1 H2 H3 H4 H5 H6 H7 H8 H9 H10) as (Q1 & Q2 & E).
    exists (Q1, a1, x), (Q2, a2, n2). split; [exact E|exact K]. }
  clear M M1 M2.
  assert (r0 : round10 0 = 0) by dec 0%Z. assert (r1 : round10 1 = 1) by dec 10000000000%Z. assert (rm1 : round10 (-1) = -1) by dec (-10000000000)%Z.
  assert (r3 : round10 (4/5) = 4/5) by dec 8000000000%Z. assert (rm3 : round10 (-4/5) = -4/5) by dec (-8000000000)%Z.
  assert (r6 : round10 (6/5) = 6/5) by dec 12000000000%Z. assert (rm6 : round10 (-6/5) = -6/5) by dec (-12000000000)%Z.
  assert (r66 : round10 (102/125) = 102/125) by dec 8160000000%Z. assert (rm66 : round10 (-102/125) = -102/125) by dec (-8160000000)%Z.
  assert (r12 : round10 (36/125) = 36/125) by dec 2880000000%Z. assert (rm12 : round10 (-36/125) = -36/125) by dec (-2880000000)%Z.
  assert (RR : forall x y z, round10 x = x -> round10 y = y -> round10 z = z -> vround [x; y; z] = [x; y; z]) by (intros; cbn [vround map]; now f_equal; [|f_equal; [|f_equal]]).
  intros [<-|[<-|[<-|[<-|[]]]]].
  - apply (C [1; 0; 0] [-4/5; -6/5; 0] [102/125; 36/125; 0] [0; -1; 0] (24/25) axisd_1);
    [cas|cas|lra|reflexivity|mat_unfold_goal; lra|repeat split; apply RR; auto|left; split; left; auto].
  - apply (C [-1; 0; 0] [4/5; 6/5; 0] [-102/125; -36/125; 0] [0; 1; 0] (24/25) A1);
    [cas|cas|lra|reflexivity|mat_unfold_goal; lra|repeat split; apply RR; auto|left; split; right; auto].
  - apply (C [0; 1; 0] [-102/125; -36/125; 0] [4/5; 6/5; 0] [-1; 0; 0] (8/3) axisd_2);
    [cas|cas|lra|reflexivity|mat_unfold_goal; lra|repeat split; apply RR; auto|right; split; right; auto].
  - apply (C [0; -1; 0] [102/125; 36/125; 0] [-4/5; -6/5; 0] [1; 0; 0] (8/3) A2);
    [cas|cas|lra|reflexivity|mat_unfold_goal; lra|repeat split; apply RR; auto|right; split; left; auto].
Qed.

(** * The volume fractions *)
Lemma solved_typeI a n : typeI a n -> solve_f Ud a n = Ok (Some (1/2 + sqrt (80089/332800))).
Proof.
  intros K. assert (M : 2 * dot (mvmul Ud a) (mvmul (brute_cof (msub (mmul Ud Ud) (eye 3))) n) = 117/100).
  { destruct K as [(-> & ->)|(-> & ->)]; unfold Ud; cbv [brute_cof drop]; mat_unfold_goal; cbn [pow Nat.add]; lra. }
  assert (D : det (msub (mmul Ud Ud) (eye 3)) = -27999/2560000) by (unfold Ud; mat_unfold_goal; lra).
  unfold solve_f. rewrite M, D. replace ((-27999/2560000 + 117/100/4) / (117/100)) with (80089/332800) by field.
  rewrite (proj2 (Rltb_false _ _)) by (rewrite Rabs_pos_eq by lra; unfold tolerance, SMALL; lra). rewrite (proj2 (Rltb_spec _ _)) by lra.
  rewrite math_sqrt_ok by lra. cbn [bind].
  assert (S : 49/100 < sqrt (80089/332800) < 4991/10000).
  { pose proof (sqrt_pos (80089/332800)). pose proof (sqrt_sqrt (80089/332800) ltac:(lra)). split; nra. }
  rewrite (proj2 (Rltb_false _ _)) by (rewrite Rabs_pos_eq; lra). rewrite (proj2 (Rltb_false _ _)) by (rewrite Rabs_pos_eq; lra).
  rewrite !(proj2 (Rltb_spec _ _)) by lra. reflexivity.
Qed.
Lemma solved_typeII a n : typeII a n -> solve_f Ud a n = Ok (Some (1/2 + sqrt (8947/39936))).
Proof.
  intros K. assert (M : 2 * dot (mvmul Ud a) (mvmul (brute_cof (msub (mmul Ud Ud) (eye 3))) n) = 1053/2500).
  { destruct K as [(-> & ->)|(-> & ->)]; unfold Ud; cbv [brute_cof drop]; mat_unfold_goal; cbn [pow Nat.add]; lra. }
  assert (D : det (msub (mmul Ud Ud) (eye 3)) = -27999/2560000) by (unfold Ud; mat_unfold_goal; lra).
  unfold solve_f. rewrite M, D. replace ((-27999/2560000 + 1053/2500/4) / (1053/2500)) with (8947/39936) by field.
  rewrite (proj2 (Rltb_false _ _)) by (rewrite Rabs_pos_eq by lra; unfold tolerance, SMALL; lra). rewrite (proj2 (Rltb_spec _ _)) by lra.
  rewrite math_sqrt_ok by lra. cbn [bind].
  assert (S : 47/100 < sqrt (8947/39936) < 48/100).
  { pose proof (sqrt_pos (8947/39936)). pose proof (sqrt_sqrt (8947/39936) ltac:(lra)). split; nra. }
  rewrite (proj2 (Rltb_false _ _)) by (rewrite Rabs_pos_eq; lra). rewrite (proj2 (Rltb_false _ _)) by (rewrite Rabs_pos_eq; lra).
  rewrite !(proj2 (Rltb_spec _ _)) by lra. reflexivity.
Qed.
