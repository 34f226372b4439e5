(** Every symmetric 2x2 or 3x3 real matrix has an orthonormal eigenbasis; in particular the
    eigendecomposition that the la.eig oracle is assumed to return exists. *)
From Verif Require Import LinAlg Eig Spectral GroupSpec.
Local Open Scope R_scope.

Lemma unit2 p q : p <> 0 \/ q <> 0 -> exists x y k, x * x + y * y = 1 /\ x = k * p /\ y = k * q.
Proof.
  intros H. assert (0 < p * p + q * q) by (destruct H; nra). set (r := sqrt (p * p + q * q)).
  assert (0 < r) by (apply sqrt_lt_R0; lra). assert (r * r = p * p + q * q) by (apply sqrt_sqrt; lra).
  exists (/ r * p), (/ r * q), (/ r). repeat split. transitivity ((p * p + q * q) / (r * r)); [field; lra|].
  rewrite H2. field. lra.
Qed.
Lemma unit3 p q s : p <> 0 \/ q <> 0 \/ s <> 0 ->
  exists x y z k, x * x + y * y + z * z = 1 /\ x = k * p /\ y = k * q /\ z = k * s.
Proof.
  intros H. assert (0 < p * p + q * q + s * s) by (destruct H as [|[|]]; nra). set (r := sqrt (p * p + q * q + s * s)).
  assert (0 < r) by (apply sqrt_lt_R0; lra). assert (r * r = p * p + q * q + s * s) by (apply sqrt_sqrt; lra).
  exists (/ r * p), (/ r * q), (/ r * s), (/ r). repeat split.
  transitivity ((p * p + q * q + s * s) / (r * r)); [field; lra|]. rewrite H2. field. lra.
Qed.

(** the rotation that diagonalises [[a b] [b d]] *)
Lemma jacobi a b d : exists c s, c * c + s * s = 1 /\ c * s * (d - a) + (c * c - s * s) * b = 0.
Proof.
  destruct (Req_dec b 0) as [->|Hb]. { exists 1, 0. split; ring. }
  set (q := sqrt (((a - d) / 2) * ((a - d) / 2) + b * b)).
  assert (Hq : q * q = ((a - d) / 2) * ((a - d) / 2) + b * b) by (apply sqrt_sqrt; pose proof (Rle_0_sqr ((a - d) / 2)); pose proof (Rle_0_sqr b); unfold Rsqr in *; lra).
  destruct (unit2 b ((d - a) / 2 + q) (or_introl Hb)) as (c & s & k & H1 & -> & ->).
  exists (k * b), (k * ((d - a) / 2 + q)). split; [exact H1|].
  transitivity (k * k * b * ((((a - d) / 2) * ((a - d) / 2) + b * b) - q * q)); [field|].
  rewrite Hq. ring.
Qed.

Lemma spectral2 a b d : exists c s l1 l2, c * c + s * s = 1 /\
  c * a + s * b = l1 * c /\ c * b + s * d = l1 * s /\ - s * a + c * b = l2 * - s /\ - s * b + c * d = l2 * c.
Proof.
  destruct (jacobi a b d) as (c & s & H1 & H2). exists c, s, (a * c * c + 2 * b * c * s + d * s * s), (a * s * s - 2 * b * c * s + d * c * c).
  split; [exact H1|]. assert (Ec : c * c = 1 - s * s) by lra.
  repeat split.
  - transitivity (c * a + s * b + s * (c * s * (d - a) + (c * c - s * s) * b)); [rewrite H2; ring|].
    transitivity (a * c * (1 - s * s) + s * b * (1 + c * c - s * s) + d * c * s * s); [ring|].
    replace (1 - s * s) with (c * c) by lra. replace (1 + c * c - s * s) with (2 * (c * c)) by lra. ring.
  - transitivity (c * b + s * d - c * (c * s * (d - a) + (c * c - s * s) * b)); [rewrite H2; ring|].
    transitivity (d * s * (1 - c * c) + c * b * (1 - c * c + s * s) + a * s * c * c); [ring|].
    replace (1 - c * c) with (s * s) by lra. replace (s * s + s * s) with (2 * (s * s)) by lra. ring.
  - transitivity (- s * a + c * b - c * (c * s * (d - a) + (c * c - s * s) * b)); [rewrite H2; ring|].
    transitivity (- a * s * (1 - c * c) + c * b * (1 - c * c + s * s) - d * s * c * c); [ring|].
    replace (1 - c * c) with (s * s) by lra. replace (s * s + s * s) with (2 * (s * s)) by lra. ring.
  - transitivity (- s * b + c * d - s * (c * s * (d - a) + (c * c - s * s) * b)); [rewrite H2; ring|].
    transitivity (d * c * (1 - s * s) - s * b * (1 + c * c - s * s) + a * c * s * s); [ring|].
    replace (1 - s * s) with (c * c) by lra. replace (1 + c * c - s * s) with (2 * (c * c)) by lra. ring.
Qed.

(** a real root of a cubic *)
Lemma cubic_root c2 c1 c0 : exists t, t * t * t + c2 * (t * t) + c1 * t + c0 = 0.
Proof.
  set (f := fun t => t * t * t + c2 * (t * t) + c1 * t + c0).
  assert (Cf : continuity f) by (unfold f; reg).
  set (B := 1 + Rabs c2 + Rabs c1 + Rabs c0).
  assert (A2 := Rabs_pos c2). assert (A1 := Rabs_pos c1). assert (A0 := Rabs_pos c0).
  assert (HB : 1 <= B) by (unfold B; lra).
  assert (L : forall x, - Rabs x <= x <= Rabs x) by (intros x; unfold Rabs; destruct (Rcase_abs x); lra).
  pose proof (L c2) as L2. pose proof (L c1) as L1. pose proof (L c0) as L0.
  assert (BB : 1 <= B * B) by nra.
  assert (U : Rabs c2 * (B * B) + Rabs c1 * B + Rabs c0 < B * B * B).
  { assert (Rabs c1 * B <= Rabs c1 * (B * B)) by (apply Rmult_le_compat_l; nra).
    assert (Rabs c0 <= Rabs c0 * (B * B)) by nra.
    assert (B * B * B = (B * B) + Rabs c2 * (B * B) + Rabs c1 * (B * B) + Rabs c0 * (B * B)) by (unfold B at 3; ring). lra. }
  destruct (IVT f (- B) B Cf) as (z & _ & Hz).
  - lra.
  - unfold f. assert (c2 * (B * B) <= Rabs c2 * (B * B)) by (apply Rmult_le_compat_r; lra).
    assert (- c1 * B <= Rabs c1 * B) by (apply Rmult_le_compat_r; lra). nra.
  - unfold f. assert (- c2 * (B * B) <= Rabs c2 * (B * B)) by (apply Rmult_le_compat_r; lra).
    assert (- c1 * B <= Rabs c1 * B) by (apply Rmult_le_compat_r; lra). nra.
  - exists z. exact Hz.
Qed.

(** a singular symmetric 3x3 matrix has a nonzero kernel vector *)
Lemma kernel3 a b c d e f : a * (d * f - e * e) - b * (b * f - e * c) + c * (b * e - d * c) = 0 ->
  exists x y z, (x <> 0 \/ y <> 0 \/ z <> 0) /\ a * x + b * y + c * z = 0 /\ b * x + d * y + e * z = 0 /\ c * x + e * y + f * z = 0.
Proof.
  intros D.
  (* columns of the adjugate *)
  destruct (Req_dec (d * f - e * e) 0) as [A1|A1].
  2: { exists (d * f - e * e), (c * e - b * f), (b * e - c * d). split; [now left|]. repeat split; nra. }
  destruct (Req_dec (a * f - c * c) 0) as [A2|A2].
  2: { exists (c * e - b * f), (a * f - c * c), (b * c - a * e). split; [now right; left|]. repeat split; nra. }
  destruct (Req_dec (a * d - b * b) 0) as [A3|A3].
  2: { exists (b * e - c * d), (b * c - a * e), (a * d - b * b). split; [now right; right|]. repeat split; nra. }
  destruct (Req_dec (b * e - c * d) 0) as [A4|A4].
  2: { exists (d * f - e * e), (c * e - b * f), (b * e - c * d). split; [now right; right|]. repeat split; nra. }
  destruct (Req_dec (c * e - b * f) 0) as [A5|A5].
  2: { exists (d * f - e * e), (c * e - b * f), (b * e - c * d). split; [now right; left|]. repeat split; nra. }
  destruct (Req_dec (b * c - a * e) 0) as [A6|A6].
  2: { exists (c * e - b * f), (a * f - c * c), (b * c - a * e). split; [now right; right|]. repeat split; nra. }
  (* rank at most one *)
  destruct (Req_dec a 0) as [->|Ha].
  - assert (b = 0) by nra. assert (c = 0) by nra. subst. exists 1, 0, 0. split; [left; lra|]. repeat split; ring.
  - exists (- b), a, 0. split; [now right; left|]. repeat split; nra.
Qed.

Lemma unit_eigvec3 a b c d e f : exists t x y z, x * x + y * y + z * z = 1 /\
  a * x + b * y + c * z = t * x /\ b * x + d * y + e * z = t * y /\ c * x + e * y + f * z = t * z.
Proof.
  destruct (cubic_root (- (a + d + f)) (a * d + a * f + d * f - b * b - c * c - e * e)
    (- (a * (d * f - e * e) - b * (b * f - e * c) + c * (b * e - d * c)))) as [t Ht].
  destruct (kernel3 (a - t) b c (d - t) e (f - t)) as (p & q & s & Hne & K1 & K2 & K3); [nra|].
  destruct (unit3 p q s Hne) as (x & y & z & k & H1 & -> & -> & ->).
  exists t, (k * p), (k * q), (k * s). split; [exact H1|].
  repeat split.
  - apply Rminus_diag_uniq. transitivity (k * ((a - t) * p + b * q + c * s)); [ring|]. rewrite K1. ring.
  - apply Rminus_diag_uniq. transitivity (k * (b * p + (d - t) * q + e * s)); [ring|]. rewrite K2. ring.
  - apply Rminus_diag_uniq. transitivity (k * (c * p + e * q + (f - t) * s)); [ring|]. rewrite K3. ring.
Qed.

(** a unit vector is the first row of an orthogonal matrix *)
Lemma complete_basis x y z : x * x + y * y + z * z = 1 ->
  exists Q, orthogonal 3 Q /\ get Q 0 0 = x /\ get Q 0 1 = y /\ get Q 0 2 = z.
Proof.
  intros H. destruct (Req_dec x 0) as [->|Hx]; [destruct (Req_dec y 0) as [->|Hy]|].
  - exists (M3 0 0 z 1 0 0 0 1 0). split; [|repeat split; reflexivity].
    split; [apply wfb_spec; reflexivity|]. unfold M3. mat_eq ltac:(try lra).
  - destruct (unit2 0 y (or_intror Hy)) as (p & q & k & H1 & -> & ->).
    exists (M3 0 y z (- (k * y)) (k * 0) 0 (- (z * (k * 0))) (- (z * (k * y))) (0 * (k * 0) + y * (k * y))).
    split; [|repeat split; reflexivity]. split; [apply wfb_spec; reflexivity|]. unfold M3.
    assert (K : k * y * (k * y) = 1) by lra.
    mat_unfold_goal.
    replace 0 with (0 * 1) by ring.
    repeat (f_equal; try solve [nra | ring]).
  - destruct (unit2 x y (or_introl Hx)) as (p & q & k & H1 & -> & ->).
    exists (M3 x y z (- (k * y)) (k * x) 0 (- (z * (k * x))) (- (z * (k * y))) (x * (k * x) + y * (k * y))).
    split; [|repeat split; reflexivity]. split; [apply wfb_spec; reflexivity|]. unfold M3.
    assert (K : k * k * (x * x + y * y) = 1) by lra.
    assert (Z2 : z * z = 1 - (x * x + y * y)) by lra.
    mat_unfold_goal. repeat (f_equal; try solve [nra | ring]).
Qed.

Definition orthonormal_eigenbasis (n : nat) (C : mat R) (lam : list R) (Q : mat R) : Prop :=
  orthogonal n Q /\ eigen n C lam Q.

Theorem spectral_theorem : forall n C, dim23 n -> wf n n C -> symmetric C ->
  exists lam Q, orthonormal_eigenbasis n C lam Q.
Proof.
  intros n C [->| ->] WC S.
  - apply wf2_inv in WC. destruct WC as (a & b & b' & d & ->). unfold symmetric in S. cbv in S. assert (Eb : b' = b) by congruence. clear S. subst b'.
    destruct (spectral2 a b d) as (c & s & l1 & l2 & H1 & E1 & E2 & E3 & E4).
    exists [l1; l2], (M2 c (- s) s c).
    assert (O : orthogonal 2 (M2 c (- s) s c)).
    { split; [apply wfb_spec; reflexivity|]. mat_eq ltac:(lra). }
    split; [exact O|]. destruct (orth_inv 2 _ (or_introl eq_refl) O) as [_ D].
    split; [apply wfb_spec; reflexivity|]. split; [apply O|]. split; [reflexivity|]. split; [exact D|].
    mat_eq ltac:(lra).
  - pose proof WC as WC'. apply wf3_inv in WC'. destruct WC' as (a & b & c & b' & d & e & c' & e' & f & E).
    assert (H3 : dim23 3) by now right.
    pose proof S as S'. unfold symmetric in S'. rewrite E in S'. cbv in S'. assert (Eb : b' = b) by congruence. assert (Ec : c' = c) by congruence. assert (Ee : e' = e) by congruence. clear S'. subst b' c' e'.
    destruct (unit_eigvec3 a b c d e f) as (t & x & y & z & H1 & K1 & K2 & K3).
    destruct (complete_basis x y z H1) as (R & HR & R0 & R1 & R2).
    pose proof (orth_tr 3 R H3 HR) as HQ. pose proof (proj1 HR) as WR. pose proof (proj1 HQ) as WQ.
    pose proof (proj2 HR) as RR. pose proof (orth_l 3 R H3 HR) as RL.
    assert (WB : wf 3 3 (mmul (mmul R C) (tr R))) by (apply (wf_mmul 3 3 3); auto; apply (wf_mmul 3 3 3); auto).
    assert (SB : tr (mmul (mmul R C) (tr R)) = mmul (mmul R C) (tr R)).
    { rewrite !(tr_mmul 3 3 3), (tr_tr 3 3), S by (auto; apply (wf_mmul 3 3 3); auto).
      rewrite (mmul_assoc 3 3 3 3) by auto. reflexivity. }
    assert (C0 : mmul C (tr R) = mmul (mmul (tr R) (mmul (mmul R C) (tr R))) (eye 3)).
    { rewrite (mmul_eye_r 3 3) by (auto; apply (wf_mmul 3 3 3); auto).
      rewrite (mmul_assoc 3 3 3 3 R), <- (mmul_assoc 3 3 3 3 (tr R) R) by (auto; apply (wf_mmul 3 3 3); auto).
      rewrite RL, (mmul_eye_l 3 3) by (auto; apply (wf_mmul 3 3 3); auto). reflexivity. }
    assert (CX : forall i, (i < 3)%nat -> get (mmul C (tr R)) i 0 = t * get R 0 i).
    { intros i Hi. rewrite (get_mmul 3 3 3) by auto. cbn [sumn]. rewrite !(get_tr' 3 3) by (auto; lia).
      rewrite R0, R1, R2. rewrite E. destruct i as [|[|[|]]]; [| | |lia]; cbn; rewrite ?R0, ?R1, ?R2; lra. }
    assert (BX : forall i, (i < 3)%nat -> get (mmul (mmul R C) (tr R)) i 0 = if (i =? 0)%nat then t else 0).
    { intros i Hi. rewrite (mmul_assoc 3 3 3 3), (get_mmul 3 3 3) by (auto; try lia; apply (wf_mmul 3 3 3); auto).
      transitivity (t * get (mmul R (tr R)) i 0).
      - rewrite (get_mmul 3 3 3) by (auto; lia). rewrite <- sumn_mult. apply sumn_ext. intros j Hj.
        rewrite CX, (get_tr' 3 3) by (auto; lia). cbn. ring.
      - rewrite RR, get_eye by lia. destruct (i =? 0)%nat; cbn; ring. }
    set (B := mmul (mmul R C) (tr R)) in *.
    pose proof WB as WB'. apply wf3_inv in WB'. destruct WB' as (p & q & s & q' & u & v & s' & v' & w & EB).
    rewrite EB in SB. cbv in SB. assert (Eq : q' = q) by congruence. assert (Es : s' = s) by congruence. assert (Ev : v' = v) by congruence. clear SB. subst q' s' v'.
    pose proof (BX 0%nat ltac:(lia)) as B0. pose proof (BX 1%nat ltac:(lia)) as B1. pose proof (BX 2%nat ltac:(lia)) as B2.
    rewrite EB in B0, B1, B2. cbn in B0, B1, B2. subst p q s.
    destruct (spectral2 u v w) as (co & si & l1 & l2 & G1 & E1 & E2 & E3 & E4).
    set (P := M3 1 0 0 0 co (- si) 0 si co).
    assert (OP : orthogonal 3 P).
    { split; [apply wfb_spec; reflexivity|]. unfold P. mat_eq ltac:(lra). }
    pose proof (proj1 OP) as WP.
    assert (EP : mmul B P = mmul P (diag [t; l1; l2])).
    { rewrite EB. unfold P. mat_eq ltac:(lra). }
    exists [t; l1; l2], (mmul (tr R) P).
    assert (O : orthogonal 3 (mmul (tr R) P)) by (apply orth_mmul; auto; lia).
    split; [exact O|]. destruct (orth_inv 3 _ H3 O) as [_ D].
    split; [exact WC|]. split; [apply O|]. split; [reflexivity|]. split; [exact D|].
    rewrite (mmul_eye_r 3 3) in C0 by (auto; apply (wf_mmul 3 3 3); auto).
    rewrite <- (mmul_assoc 3 3 3 3), C0 by auto. rewrite (mmul_assoc 3 3 3 3), EP by auto.
    rewrite <- (mmul_assoc 3 3 3 3) by (auto; apply wf_diag; reflexivity). reflexivity.
Qed.
