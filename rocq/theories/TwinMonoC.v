(** The pair of TwinMono2.v scaled to middle eigenvalue one. *)
From Verif Require Import LinAlg GroupSpec GroupModel GroupProofs LatticeModel LatticeSpec LatticeProofs LatticeGroups LatticeLaue LatticeComplete PropMart BravaisHex.
From Verif Require Export TwinMono2.
Local Open Scope R_scope.

Definition Uc : mat R := [[17/16; 3/8; 0]; [3/8; 9/16; 0]; [0; 0; 1]].
Definition Vc : mat R := [[17/16; -3/8; 0]; [-3/8; 9/16; 0]; [0; 0; 1]].
Lemma pd_Uc : positive_definite Uc.
Proof.
  assert (S : MartSpec.symmetric Uc) by (split; [now apply wfb_spec|reflexivity]). apply (posdef_minors _ S). unfold Uc. rewrite det3. cbv [get nth]. lra.
Qed.
Lemma pd_Vc : positive_definite Vc.
Proof.
  assert (S : MartSpec.symmetric Vc) by (split; [now apply wfb_spec|reflexivity]). apply (posdef_minors _ S). unfold Vc. rewrite det3. cbv [get nth]. lra.
Qed.
Lemma Uc_base : base 3 Uc.
Proof. split; [now right|]. split; [now apply wfb_spec|]. pose proof (posdef_det _ pd_Uc). lra. Qed.

(** * V is a variant of U *)
Lemma Uc_table Q : In Q CUBIC_LAUE_GROUP -> inpointgroup Uc (IntArr Q) = Ok (keepb Q).
Proof.
  intros HQ. pose proof Uc_base as B. assert (WQ : wf 3 3 Q) by (apply cubic_iff in HQ; apply HQ).
  rewrite (inpoint_red 3 _ B) by (apply cubic_iff in HQ; apply HQ). cbn [values].
  pose (Z := mmul (mmul UbiZ Q) UbZ). pose (A := mscale (1/1872) (RZ Z)).
  assert (WZ : wf 3 3 Z) by (apply (wf_mmul 3 3 3); [apply (wf_mmul 3 3 3); [now apply wfb_spec|exact WQ|lia]|now apply wfb_spec|lia]).
  assert (WA : wf 3 3 A) by (apply wf_mscale; [lia|now apply wf_RZ]).
  assert (EA : mmul (RZ Q) Uc = mmul Uc A).
  { unfold A, Z. destruct (wf3_inv Q WQ) as (a & b & c & d & e & g & h & i & j & ->). unfold Uc, UbiZ, UbZ.
    unfold RZ, mmap. mat_eq ltac:(repeat (rewrite plus_IZR || rewrite mult_IZR); field). }
  assert (G : forall i j, (i < 3)%nat -> (j < 3)%nat -> get A i j = IZR (get Z i j) / 1872).
  { intros i j Hi Hj. unfold A. rewrite (get_mscale 3 3), get_RZ by (auto; now apply wf_RZ). cbn [mul R_ops]. field. }
  destruct (keepb Q) eqn:K.
  - assert (EZ : Z = mscale 1872%Z Q).
    { revert K. unfold keepb, Z. clear - HQ. unfold CUBIC_LAUE_GROUP in HQ. cbn [In] in HQ.
      repeat match type of HQ with _ \/ _ => destruct HQ as [HQ|HQ] end; try contradiction; subst Q; vm_compute; intros; (reflexivity || discriminate). }
    apply (lat_eq_true 3 _ B _ A Q WA WQ EA). intros i j Hi Hj. rewrite (G i j Hi Hj), EZ, (get_mscale 3 3) by auto.
    cbn [mul Z_ops]. rewrite mult_IZR.
    replace (1872 * IZR (get Q i j) / 1872 - IZR (get Q i j)) with 0 by field. rewrite Rabs_R0.
    pose proof (Rabs_pos (IZR (get Q i j))). lra.
  - apply (lat_eq_false2 3 _ B _ A 0 0 WA EA); [lia|lia|]. intros z. rewrite (G 0 0)%nat by lia. apply far1872.
    + unfold Z. clear - HQ. unfold CUBIC_LAUE_GROUP in HQ. cbn [In] in HQ.
      repeat match type of HQ with _ \/ _ => destruct HQ as [HQ|HQ] end; try contradiction; subst Q; vm_compute; discriminate.
    + unfold keepb in K. apply Z.eqb_neq in K. exact K.
Qed.
Lemma Uc_Laue : Laue_group Uc = Ok (map RZ (filter keepb CUBIC_LAUE_GROUP)).
Proof.
  unfold Laue_group. change (length Uc) with 3%nat. unfold pick_group, cubic_arr. rewrite (PropMart.keep_filter Uc keepb) by exact Uc_table.
  cbn [bind]. rewrite map_length. replace (length (filter keepb CUBIC_LAUE_GROUP)) with 2%nat by (vm_compute; reflexivity). reflexivity.
Qed.
Lemma Uc_reversible : isreversible (new_mart (Some Uc) None) = Ok true.
Proof.
  unfold isreversible. cbn [getU m_U new_mart bind]. rewrite (new_lattice_base _ Uc_base). cbn [bind]. rewrite Uc_Laue. cbn [bind].
  change (getLaue (new_mart (Some Uc) None)) with (map RZ CUBIC_LAUE_GROUP). rewrite !map_length.
  replace (length (filter keepb CUBIC_LAUE_GROUP)) with 2%nat by (vm_compute; reflexivity). change (length CUBIC_LAUE_GROUP) with 24%nat.
  cbn [Nat.leb]. apply hassubgroup_iff; [discriminate|]. rewrite !map_length.
  replace (length (filter keepb CUBIC_LAUE_GROUP)) with 2%nat by (vm_compute; reflexivity). change (length CUBIC_LAUE_GROUP) with 24%nat.
  split; [split; [lia|exists 12%nat; reflexivity]|]. intros m1 H. apply in_map_iff in H. destruct H as (Q & <- & HQ). apply filter_In in HQ.
  exists (RZ Q). split; [apply in_map; apply HQ|apply allclose_refl].
Qed.
Lemma rotate_sixteenths Q : wf 3 3 Q -> rotate (RZ Q) Uc = mscale (1/16) (RZ (mmul (mmul Q UbZ) (tr Q))).
Proof.
  intros WQ. destruct (wf3_inv Q WQ) as (a & b & c & d & e & g & h & i & j & ->). unfold rotate, Uc, UbZ, RZ, mmap.
  mat_eq ltac:(repeat (rewrite plus_IZR || rewrite mult_IZR); field).
Qed.
Lemma Uc_separated : separated Uc (map RZ CUBIC_LAUE_GROUP).
Proof.
  intros P' Q' HP HQ H. apply in_map_iff in HP as (P & <- & HP). apply in_map_iff in HQ as (Q & <- & HQ).
  assert (WP : wf 3 3 P) by (apply cubic_iff in HP; apply HP). assert (WQ : wf 3 3 Q) by (apply cubic_iff in HQ; apply HQ).
  rewrite !rotate_sixteenths in * by auto.
  assert (W : forall X, wf 3 3 X -> wf 3 3 (mmul (mmul X UbZ) (tr X))).
  { intros X WX. apply (wf_mmul 3 3 3); [apply (wf_mmul 3 3 3); [exact WX|now apply wfb_spec|lia]|apply wf_tr'; auto; lia|lia]. }
  assert (B : forall X, In X CUBIC_LAUE_GROUP -> forall i j, (i < 3)%nat -> (j < 3)%nat -> (Z.abs (get (mmul (mmul X UbZ) (tr X)) i j) <= 17)%Z).
  { intros X HX. unfold CUBIC_LAUE_GROUP in HX. cbn [In] in HX.
    repeat match type of HX with _ \/ _ => destruct HX as [HX|HX] end; try contradiction; subst X; intros i j Hi Hj;
      destruct i as [|[|[|i]]]; destruct j as [|[|[|j]]]; try lia; vm_compute; discriminate. }
  pose proof (W P WP) as W1. pose proof (W Q WQ) as W2. specialize (B Q HQ).
  set (X := mmul (mmul P UbZ) (tr P)) in *. set (Y := mmul (mmul Q UbZ) (tr Q)) in *. clearbody X Y.
  f_equal. f_equal. apply (mat_ext 3 3); auto; try lia. intros i j Hi Hj.
  assert (WX : wf 3 3 (mscale (1/16) (RZ X))) by (apply wf_mscale; [lia|now apply wf_RZ]).
  pose proof (proj1 (allclose_spec 2 3 _ _ WX) H i j Hi Hj) as K. unfold atol0, rtol0 in K.
  rewrite !(get_mscale 3 3), !get_RZ in K by (auto; now apply wf_RZ). cbn [mul R_ops] in K. specialize (B i j Hi Hj).
  destruct (Z.eq_dec (get X i j) (get Y i j)) as [E|E]; [exact E|exfalso].
  assert (1 <= Z.abs (get X i j - get Y i j))%Z by lia. apply IZR_le in H0. rewrite abs_IZR, minus_IZR in H0. apply IZR_le in B. rewrite abs_IZR in B.
  replace (1 / 16 * IZR (get X i j) - 1 / 16 * IZR (get Y i j)) with (1/16 * (IZR (get X i j) - IZR (get Y i j))) in K by ring.
  rewrite !Rabs_mult, (Rabs_pos_eq (1/16)) in K by lra. lra.
Qed.
Lemma Qc_rotates : rotate (RZ Qb) Uc = Vc.
Proof. unfold rotate, Qb, Uc, Vc, RZ, mmap. mat_eq ltac:(field). Qed.
Lemma Uc_isvariant : isvariant Uc Vc = Ok true.
Proof.
  assert (RG : rotation_group (getLaue (new_mart (Some Uc) None))).
  { change (getLaue (new_mart (Some Uc) None)) with (map RZ CUBIC_LAUE_GROUP). split; [apply CUBIC_good|]. intros Q HQ. apply CUBIC_good. exact HQ. }
  destruct (C27_orbit_partial (new_mart (Some Uc) None) Uc (r_new _ _) eq_refl (proj1 (proj2 Uc_base)) RG Uc_separated Uc_reversible) as (Us & idx & m' & E & _ & O).
  unfold isvariant. rewrite E. cbn [bind fst]. f_equal. apply existsb_exists. exists Vc. split.
  - apply (exact _ _ _ _ O). exists (RZ Qb). split; [|now rewrite Qc_rotates]. change (getLaue (new_mart (Some Uc) None)) with (map RZ CUBIC_LAUE_GROUP).
    apply in_map. unfold CUBIC_LAUE_GROUP, Qb. cbn [In]. tauto.
  - apply Rltb_spec. replace (fro2 3 3 (msub Vc Vc)) with 0; [rewrite sqrt_0; apply small_pos|]. unfold fro2, Vc. mat_unfold_goal. ring.
Qed.

(** * The twin matrix and the axes *)
Lemma minv_Uc : minv Uc = [[16/13; -32/39; 0]; [-32/39; 272/117; 0]; [0; 0; 1]].
Proof. symmetry; apply (inv_unique 3 Uc); [now right|now apply wfb_spec|now apply wfb_spec|]. unfold Uc. mat_eq ltac:(lra). Qed.
Lemma twin_Uc : twin_matrix Uc Vc = [[45/13; -56/13; 0]; [-56/13; 661/117; 0]; [0; 0; 1]].
Proof. unfold twin_matrix. rewrite minv_Uc. unfold Vc. mat_eq ltac:(lra). Qed.
Lemma ev_Uc : eigenvalues (twin_matrix Uc Vc) (1/9) 1 9.
Proof.
  rewrite twin_Uc. split; [lra|]. exists [[9; 0; 7]; [7; 0; -9]; [0; 1; 0]].
  split; [now apply wfb_spec|]. split; [now apply wfb_spec|]. split; [reflexivity|]. split; [rewrite det3; cbv [get nth]; lra|]. mat_eq ltac:(lra).
Qed.
Lemma distinct_Uc : distinct Uc Vc.
Proof. exists 0%nat, 1%nat. split; [lia|]. split; [lia|]. cbv [get nth Uc Vc]. rewrite Rabs_pos_eq; unfold tolerance, SMALL; lra. Qed.
Lemma variants_Uc : variants Uc Vc.
Proof.
  exists (RZ Qb). split; [|apply Qc_rotates]. split; [now apply wfb_spec|]. unfold Qb, RZ, mmap. mat_eq ltac:(lra).
Qed.
Lemma clear_Uc : clear_pair Uc Vc.
Proof.
  intros l w0 w1 Hl L0 L1 N0 N1 H0 H1. left. rewrite twin_Uc in H0, H1. revert N0 N1 H0 H1. v3 L0. v3 L1. unfold Uc, vscale. cbn [map]. mat_unfold_goal. intros N0 N1 H0 H1.
  injection H0 as A1 A2 A3. injection H1 as A4 A5 A6. assert (Z3 : x2 = 0) by lra. assert (Z4 : x3 = 0) by lra. assert (Z1 : x1 = 0) by nra. subst. ring.
Qed.
Lemma middle_Uc : eigenvalues Uc ((13 - 2 * sqrt 13) / 16) 1 ((13 + 2 * sqrt 13) / 16).
Proof.
  assert (P : 0 < sqrt 13) by (apply sqrt_lt_R0; lra). assert (S : sqrt 13 * sqrt 13 = 13) by (apply sqrt_sqrt; lra). split; [split; nra|].
  exists [[3; 0; 3]; [-2 - sqrt 13; 0; -2 + sqrt 13]; [0; 1; 0]]. split; [now apply wfb_spec|]. split; [now apply wfb_spec|]. split; [reflexivity|].
  split; [rewrite det3; cbv [get nth]; nra|]. unfold Uc. mat_eq ltac:(try lra; nra).
Qed.
