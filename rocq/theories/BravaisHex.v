(** Which tabled rotations the hexagonal and planar lattices reject, for C20. *)
From Verif Require Import LinAlg GroupSpec GroupModel GroupProofs ReduceModel ReduceProofs LatticeModel LatticeSpec LatticeProofs LatticeGroups
  LatticeLaue LatticeComplete BravaisModel BravaisSpec BravaisProofs BravaisLaue.
Local Open Scope R_scope.

Lemma lat_eq_false2 n E (B : base n E) E2 A i j : wf n n A -> E2 = mmul E A -> (i < n)%nat -> (j < n)%nat ->
  (forall z, Rabs (get A i j - IZR z) <= 1/2 -> 1 / 100000000 + 1 / 100000 * Rabs (IZR z) < Rabs (get A i j - IZR z)) ->
  lat_eq E E2 = Ok false.
Proof.
  intros WA EA Hi Hj H2. pose proof (dim23_pos n (proj1 B)) as Hn. pose proof (proj1 (proj2 B)) as WE.
  assert (W2 : wf n n E2) by (subst; now apply (wf_mmul n n n)).
  destruct (lat_eq_total n E B E2 W2) as [[|] Hb]; [|exact Hb]. exfalso.
  apply (lat_eq_near n E B) in Hb; [|assumption]. rewrite (proj1 (solve_left n E B A E2 W2 WA) EA) in Hb.
  specialize (Hb i j Hi Hj). unfold rintm in Hb. rewrite (get_mmap rint rint_0) in Hb.
  specialize (H2 (rint (get A i j))). assert (Rabs (get A i j - IZR (rint (get A i j))) <= 1/2); [|lra].
  apply rint_close.
Qed.
(** a real number between -2 and 2 and at least 1/10 away from every integer is never near its rounding *)
Lemma far x : -2 < x < 2 -> (forall z, -3 <= IZR z <= 3 -> 1/10 <= Rabs (x - IZR z)) ->
  forall z, Rabs (x - IZR z) <= 1/2 -> 1 / 100000000 + 1 / 100000 * Rabs (IZR z) < Rabs (x - IZR z).
Proof.
  intros H1 H2 z Hz. assert (Hz2 := Rle_trans _ _ _ (Rle_abs _) Hz). pose proof (Rle_abs (- (x - IZR z))) as Hz3. rewrite Rabs_Ropp in Hz3. assert (-3 <= IZR z <= 3) as Hb by lra. specialize (H2 z Hb).
  assert (Rabs (IZR z) <= 3) by (apply Rabs_le; lra). lra.
Qed.
Lemma small_z z : -3 <= IZR z <= 3 -> (z = -3 \/ z = -2 \/ z = -1 \/ z = 0 \/ z = 1 \/ z = 2 \/ z = 3)%Z.
Proof. intros [H1 H2]. apply le_IZR in H1, H2. lia. Qed.
Lemma sqrt3_bounds : 17/10 < sqrt 3 < 18/10.
Proof. pose proof s33. assert (0 < sqrt 3) by (apply sqrt_lt_R0; lra). nra. Qed.
Ltac farz := apply far; [lra|]; intros z Hz; apply small_z in Hz;
  destruct Hz as [->|[->|[->|[->|[->|[->| ->]]]]]];
  match goal with |- _ <= Rabs ?y => first [rewrite (Rabs_right y) by lra; lra | rewrite (Rabs_left y) by lra; lra] end.

(** the in-plane block of Q in the hexagonal base *)
Definition Ehexi (a c : R) : mat R := M3 (/ a) (- (/ a * / sqrt 3)) 0 0 (/ a * (2 / sqrt 3)) 0 0 0 (/ c).
Lemma Ehexi_r a c : 0 < a -> 0 < c -> mmul (Ehex a c) (Ehexi a c) = eye 3.
Proof.
  intros. pose proof sqrt3_bounds. unfold Ehex, Ehexi. mat_eq ltac:(field; lra).
Qed.
Lemma hex_block a c (Q : mat Z) : 0 < a -> 0 < c -> wf 3 3 Q ->
  let A := mmul (Ehexi a c) (mmul (RZ Q) (Ehex a c)) in
  wf 3 3 A /\ mmul (RZ Q) (Ehex a c) = mmul (Ehex a c) A /\
  get A 1 0 = 2 / 3 * sqrt 3 * IZR (get Q 1 0) /\
  get A 0 1 = (IZR (get Q 0 0) - IZR (get Q 1 1)) / 2 + IZR (get Q 0 1) * (sqrt 3 / 2) - IZR (get Q 1 0) * (sqrt 3 / 6).
Proof.
  intros Ha Hc W A. pose proof (wf_RZ 3 3 Q W) as WR. assert (WE : wf 3 3 (Ehex a c)) by apply w33. assert (WI : wf 3 3 (Ehexi a c)) by apply w33.
  assert (W2 : wf 3 3 (mmul (RZ Q) (Ehex a c))) by (apply (wf_mmul 3 3 3); auto; lia).
  split; [apply (wf_mmul 3 3 3); auto; lia|]. split.
  - unfold A. rewrite <- (mmul_assoc 3 3 3 3), Ehexi_r, (mmul_eye_l 3 3) by (auto; lia). reflexivity.
  - destruct (wf3_inv Q W) as (q1&q2&q3&q4&q5&q6&q7&q8&q9&->). unfold A. cbn.
    pose proof s33 as H3. pose proof sqrt3_bounds. assert (K : / sqrt 3 = sqrt 3 / 3) by (apply (Rmult_eq_reg_l (sqrt 3)); [rewrite Rinv_r by lra; lra|lra]).
    unfold Rdiv. rewrite K. unfold Rdiv in *. split.
    + transitivity (/ a * a * (2 * (sqrt 3 * / 3)) * IZR q4); [ring|]. rewrite (Rinv_l a) by lra. lra.
    + transitivity (/ a * a * (IZR q1 * / 2 + IZR q2 * (sqrt 3 * / 2) - (sqrt 3 * / 3) * (IZR q4 * / 2) - (sqrt 3 * sqrt 3) * / 3 * / 2 * IZR q5)); [ring|].
      rewrite (Rinv_l a), H3 by lra. lra.
Qed.
Definition two_foldsZ : list (mat Z) :=
  [[[1;0;0];[0;1;0];[0;0;1]]; [[1;0;0];[0;-1;0];[0;0;-1]]; [[-1;0;0];[0;1;0];[0;0;-1]]; [[-1;0;0];[0;-1;0];[0;0;1]]]%Z.
Definition reject_case (Q : mat Z) : bool :=
  let p := get Q 0 0 in let q := get Q 0 1 in let r := get Q 1 0 in let t := get Q 1 1 in
  (Z.abs r =? 1)%Z
  || ((r =? 0) && (Z.abs q =? 1) && (p =? 0) && (Z.abs t <=? 1))%Z
  || ((r =? 0) && (q =? 0) && (Z.abs (p - t) =? 1))%Z
  || existsb (mat_eqb Q) two_foldsZ.
Lemma reject_table : forallb reject_case CUBIC_LAUE_GROUP = true.
Proof. vm_compute. reflexivity. Qed.
Lemma hex_rejects a c Q : 0 < a -> 0 < c -> wf 3 3 Q -> reject_case Q = true ->
  lat_eq (Ehex a c) (mmul (RZ Q) (Ehex a c)) = Ok false \/ In Q two_foldsZ.
Proof.
  intros Ha Hc W H. pose proof (Ehex_base a c Ha Hc) as B. destruct (hex_block a c Q Ha Hc W) as (WA & EA & E10 & E01).
  pose proof sqrt3_bounds as S3.
  unfold reject_case in H. rewrite !orb_true_iff, !andb_true_iff, !Z.eqb_eq, Z.leb_le in H.
  destruct H as [[[H|[[[H1 H2] H3] H4]]|[[H1 H2] H3]]|H].
  - left. apply (lat_eq_false2 3 _ B _ _ 1 0 WA EA); [lia|lia|]. rewrite E10.
    assert (get Q 1 0 = 1 \/ get Q 1 0 = -1)%Z as [->| ->] by lia; farz.
  - left. apply (lat_eq_false2 3 _ B _ _ 0 1 WA EA); [lia|lia|]. rewrite E01, H1, H3.
    assert (get Q 0 1 = 1 \/ get Q 0 1 = -1)%Z as [->| ->] by lia;
    assert (get Q 1 1 = 1 \/ get Q 1 1 = 0 \/ get Q 1 1 = -1)%Z as [->|[->| ->]] by lia; farz.
  - left. apply (lat_eq_false2 3 _ B _ _ 0 1 WA EA); [lia|lia|]. rewrite E01, H1, H2.
    rewrite <- minus_IZR. assert (get Q 0 0 - get Q 1 1 = 1 \/ get Q 0 0 - get Q 1 1 = -1)%Z as [->| ->] by lia; farz.
  - right. apply existsb_exists in H. destruct H as (X & HX & EX). apply mat_eqb_eq in EX. now subst.
Qed.

Lemma HEX_len : length HEX_LAUE_GROUP = 12%nat. Proof. reflexivity. Qed.
Lemma laue_hex a c : 0 < a -> 0 < c -> exists G, Laue_group (Ehex a c) = Ok G /\ length G = 12%nat /\ point_group (Ehex a c) = Ok (G ++ map mopp G) /\
  forall Q, In Q G <-> In Q HEX_LAUE_GROUP.
Proof.
  intros Ha Hc. pose proof (Ehex_base a c Ha Hc) as B. remember (Ehex a c) as E eqn:EE.
  pose proof (keep_kept 3 E B cubic_arr (proj2 cubic_T)) as K1. pose proof (keep_kept 3 E B hex_arr (proj2 hex_T)) as K2.
  assert (I2 : forall X, In X (kept E hex_arr) <-> In X HEX_LAUE_GROUP).
  { intros X. rewrite (in_kept 3 E B hex_arr (proj2 hex_T)). unfold hex_arr at 1. rewrite map_values_flt. split; [tauto|]. intros A1. split; [exact A1|].
    apply (inpoint_preserves 3 E B); [exact (proj1 (proj2 HEX_group X A1))|]. rewrite EE. now apply hex_preserved. }
  assert (N2 : NoDup (kept E hex_arr)) by (apply (kept_NoDup 3); apply hex_T).
  assert (L2 : length (kept E hex_arr) = 12%nat).
  { apply Nat.le_antisymm.
    - exact (NoDup_incl_length N2 (fun X => proj1 (I2 X))).
    - pose proof HEX_group as HG. exact (NoDup_incl_length (proj1 (proj2 (proj1 HG))) (fun X => proj2 (I2 X))). }
  assert (N1 : NoDup (kept E cubic_arr)) by (apply (kept_NoDup 3); apply cubic_T).
  assert (I1 : incl (kept E cubic_arr) (map RZ two_foldsZ)).
  { intros X HX. apply (in_kept 3 E B cubic_arr (proj2 cubic_T)) in HX. destruct HX as [HX HY].
    unfold cubic_arr in HX. rewrite map_values_int in HX. apply in_map_iff in HX. destruct HX as (Q & <- & HQ).
    assert (OQ : orthogonal 3 Q) by now apply cubic_iff.
    pose proof (proj1 (forallb_forall _ _) reject_table Q HQ) as HR.
    destruct (hex_rejects a c Q Ha Hc (proj1 OQ) HR) as [HF|HF]; [|now apply in_map]. rewrite <- EE in HF.
    rewrite (inpoint_red 3 E B) in HY by exact (orth_arr_values 3 (IntArr Q) OQ). cbn [values] in HY. rewrite HF in HY. discriminate. }
  assert (I1' : incl (map RZ two_foldsZ) (kept E cubic_arr)).
  { assert (TP : forall Q, In Q two_foldsZ -> preserves 3 (RZ Q) E).
    { intros Q HQ. rewrite EE. apply hex_preserved; auto. unfold two_foldsZ in HQ. cbn [In] in HQ.
      destruct HQ as [<-|[<-|[<-|[<-|[]]]]]; unfold HEX_LAUE_GROUP; cbn; auto 20. }
    assert (TC : forall Q, In Q two_foldsZ -> In Q CUBIC_LAUE_GROUP).
    { intros Q HQ. unfold two_foldsZ in HQ. cbn [In] in HQ. destruct HQ as [<-|[<-|[<-|[<-|[]]]]]; unfold CUBIC_LAUE_GROUP; cbn; auto 40. }
    intros X HX. apply in_map_iff in HX. destruct HX as (Q & <- & HQ).
    assert (OQ : orthogonal 3 Q) by (now apply cubic_iff, TC).
    apply (in_kept 3 E B cubic_arr (proj2 cubic_T)). unfold cubic_arr. rewrite map_values_int. split; [now apply in_map, TC|].
    apply (inpoint_preserves 3 E B); [exact (orth_arr_values 3 (IntArr Q) OQ)|now apply TP]. }
  assert (L1 : length (kept E cubic_arr) = 4%nat).
  { apply Nat.le_antisymm.
    - exact (NoDup_incl_length N1 I1).
    - assert (NT : NoDup (map RZ two_foldsZ)) by (apply RZ_NoDup; repeat constructor; cbn; intuition discriminate).
      exact (NoDup_incl_length NT I1'). }
  pose proof (len_base 3 E B) as Hl. exists (kept E hex_arr). unfold point_group, Laue_group, pick_group. rewrite Hl, K1, K2. cbn [bind].
  rewrite L1, L2. cbn [Nat.eqb Nat.ltb Nat.leb bind]. repeat split; auto; apply I2.
Qed.
