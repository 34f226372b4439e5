From Coq Require Import Nsatz.
From Verif Require Import LinAlg LatticeProofs BravaisProofs RotModel RotSpec.
Local Open Scope R_scope.

Lemma cs2 t : cos t * cos t + sin t * sin t = 1.
Proof. pose proof (sin2_cos2 t). unfold Rsqr in *. lra. Qed.
Ltac rod := unfold rodrigues; cbv zeta; unfold M3; mat_eq ltac:(nsatz).

Section Rodrigues.
  Variables x y z : R.
  Hypothesis U : x * x + y * y + z * z = 1.
  Lemma rod_wf t : wf 3 3 (rodrigues t x y z). Proof. apply w33. Qed.
  Lemma rod_add s t : rodrigues (s + t) x y z = mmul (rodrigues s x y z) (rodrigues t x y z).
  Proof. unfold rodrigues. rewrite cos_plus, sin_plus. set (cs := cos s). set (ct := cos t). set (ss := sin s). set (st := sin t). clearbody cs ct ss st. rod. Qed.
  Lemma rod_0 : rodrigues 0 x y z = eye 3.
  Proof. unfold rodrigues. rewrite cos_0, sin_0. mat_eq ltac:(ring). Qed.
  Lemma rod_tr t : tr (rodrigues t x y z) = rodrigues (- t) x y z.
  Proof. unfold rodrigues. rewrite cos_neg, sin_neg. mat_eq ltac:(ring). Qed.
  Lemma rod_orth t : orthogonal 3 (rodrigues t x y z).
  Proof.
    split; [apply rod_wf|]. rewrite rod_tr, <- rod_add. replace (t + - t) with 0 by ring. apply rod_0.
  Qed.
  Lemma rod_det t : det (rodrigues t x y z) = 1.
  Proof.
    pose proof (cs2 t). unfold rodrigues. rewrite det3. cbv zeta. set (c := cos t) in *. set (s := sin t) in *. clearbody c s. nsatz.
  Qed.
  Lemma rod_axis t : mvmul (rodrigues t x y z) [x; y; z] = [x; y; z].
  Proof. unfold rodrigues. set (c := cos t) in *. set (s := sin t) in *. clearbody c s. mat_eq ltac:(nsatz). Qed.
End Rodrigues.

Lemma rotX_about t : rotX t = about AX t. Proof. unfold rotX, about, rodrigues. mat_eq ltac:(ring). Qed.
Lemma rotY_about t : rotY t = about AY t. Proof. unfold rotY, about, rodrigues. mat_eq ltac:(ring). Qed.
Lemma rotZ_about t : rotZ t = about AZ t. Proof. unfold rotZ, about, rodrigues. mat_eq ltac:(ring). Qed.

Lemma about_rot a t : rotation_matrix 3 (about a t).
Proof. destruct a; (split; [apply rod_orth; ring|apply rod_det; ring]). Qed.
Lemma about_neg a t : mmul (about a (- t)) (about a t) = eye 3.
Proof.
  destruct a; unfold about; rewrite <- rod_add by ring; replace (- t + t) with 0 by ring; apply rod_0.
Qed.
Lemma rot_mmul Q S : rotation_matrix 3 Q -> rotation_matrix 3 S -> rotation_matrix 3 (mmul Q S).
Proof.
  intros [O1 D1] [O2 D2]. split; [apply orth_mmul; auto; lia|]. rewrite (det_mmul 3), D1, D2; [ring|now right|apply O1|apply O2].
Qed.

(** ** rotation *)
Lemma dot3 a b c d e f : dot [a; b; c] [d; e; f] = a * d + b * e + c * f.
Proof. cbn. ring. Qed.
Lemma normalize3 a b c : let n := sqrt (a * a + b * b + c * c) in
  n <> 0 -> normalize [a; b; c] = Ok [a / n; b / n; c / n] /\ n * n = a * a + b * b + c * c.
Proof.
  intros n Hn. unfold normalize, vnorm. rewrite dot3. fold n. rewrite (proj2 (Reqb_false _ _)) by assumption. split; [reflexivity|].
  apply sqrt_sqrt. pose proof (Rle_0_sqr a). pose proof (Rle_0_sqr b). pose proof (Rle_0_sqr c). unfold Rsqr in *. lra.
Qed.
Lemma ss_pos a b c : a * a + b * b + c * c <> 0 -> 0 < a * a + b * b + c * c.
Proof. pose proof (Rle_0_sqr a). pose proof (Rle_0_sqr b). pose proof (Rle_0_sqr c). unfold Rsqr in *. lra. Qed.

(** the frame (u, z x u) for a unit z and any u perpendicular to it *)
Lemma frame_rotation t x y z a b c : x * x + y * y + z * z = 1 -> x * a + y * b + z * c = 0 -> a * a + b * b + c * c <> 0 ->
  exists z1 z2, normalize [a; b; c] = Ok z1 /\ normalize (cross [x; y; z] [a; b; c]) = Ok z2 /\
    madd (madd (mscale (cos t) (madd (outer z1 z1) (outer z2 z2))) (mscale (sin t) (msub (outer z2 z1) (outer z1 z2)))) (outer [x; y; z] [x; y; z])
    = rodrigues t x y z.
Proof.
  intros U P N.
  assert (E : (y * c - z * b) * (y * c - z * b) + (z * a - x * c) * (z * a - x * c) + (x * b - y * a) * (x * b - y * a) = a * a + b * b + c * c).
  { transitivity ((x * x + y * y + z * z) * (a * a + b * b + c * c) - (x * a + y * b + z * c) * (x * a + y * b + z * c)); [ring|]. rewrite U, P. ring. }
  pose proof (ss_pos _ _ _ N) as Np. set (n := sqrt (a * a + b * b + c * c)).
  assert (N0 : 0 < n) by now apply sqrt_lt_R0. destruct (normalize3 a b c) as [H1 H2]; [fold n; lra|]. fold n in H1, H2.
  cbn [cross vget nth]. set (a' := y * c - z * b). set (b' := z * a - x * c). set (c' := x * b - y * a).
  change (a' * a' + b' * b' + c' * c' = a * a + b * b + c * c) in E.
  destruct (normalize3 a' b' c') as [H3 _]; [rewrite E; fold n; lra|]. rewrite E in H3. fold n in H3.
  change (cross [x; y; z] [a; b; c]) with [a'; b'; c']. exists [a / n; b / n; c / n], [a' / n; b' / n; c' / n]. split; [exact H1|]. split; [exact H3|].
  set (k := / n). assert (K : k * k * (a * a + b * b + c * c) = 1) by (unfold k; rewrite <- H2; field; lra).
  unfold Rdiv. fold k. unfold rodrigues. set (ct := cos t). set (st := sin t). unfold a', b', c'. clearbody ct st k.
  clear H1 H3 E N0 Np N H2. clear n a' b' c'.
  mat_eq ltac:(nsatz).
Qed.
