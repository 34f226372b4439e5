(** Every rotation is a product of three rotations about coordinate axes, and a rotation about one axis (C114). *)
From Coq Require Import Nsatz.
From Verif Require Import LinAlg LatticeProofs BravaisProofs RotModel RotSpec RotProofs RankOneModel PropMatMath.
Local Open Scope R_scope.

(** ** angles *)
Lemma circle x y : x * x + y * y = 1 -> exists t, cos t = x /\ sin t = y.
Proof.
  intros H. assert (B : -1 <= x <= 1) by nra.
  destruct (Rle_lt_dec 0 y) as [Hy|Hy]; [exists (acos x)|exists (- acos x)]; rewrite ?cos_neg, ?sin_neg, cos_acos, sin_acos by exact B;
    (split; [reflexivity|]); unfold Rsqr; [|rewrite <- (Ropp_involutive y); f_equal]; apply sqrt_lem_1; nra.
Qed.
Lemma sphere x y z : x * x + y * y + z * z = 1 -> exists t s, x = cos t /\ y = sin t * cos s /\ z = sin t * sin s.
Proof.
  intros H. set (q := sqrt (y * y + z * z)). assert (Q : q * q = y * y + z * z) by (apply sqrt_sqrt; nra).
  destruct (circle x q ltac:(lra)) as (t & C & S).
  destruct (Req_dec q 0) as [Z|Z].
  - exists t, 0. rewrite Z in Q, S. assert (y = 0) by nra. assert (z = 0) by nra. rewrite C, S. split; [reflexivity|]. subst. split; ring.
  - destruct (circle (y / q) (z / q)) as (s & C' & S').
    { transitivity ((y * y + z * z) / (q * q)); [field; exact Z|]. rewrite Q. field. rewrite <- Q. nra. }
    exists t, s. rewrite C, S, C', S'. split; [reflexivity|]. split; field; exact Z.
Qed.

(** ** the equations of a rotation matrix *)
Definition rot_eqs (a b c d e f g h i : R) : Prop :=
  (a*a + b*b + c*c = 1 /\ d*d + e*e + f*f = 1 /\ g*g + h*h + i*i = 1 /\ a*d + b*e + c*f = 0 /\ a*g + b*h + c*i = 0 /\ d*g + e*h + f*i = 0) /\
  (a*a + d*d + g*g = 1 /\ b*b + e*e + h*h = 1 /\ c*c + f*f + i*i = 1 /\ a*b + d*e + g*h = 0 /\ a*c + d*f + g*i = 0 /\ b*c + e*f + h*i = 0) /\
  (a = e*i - f*h /\ b = f*g - d*i /\ c = d*h - e*g) /\ (d = c*h - b*i /\ e = a*i - c*g /\ f = b*g - a*h) /\ (g = b*f - c*e /\ h = c*d - a*f /\ i = a*e - b*d).
Lemma mat33_inj {X} (a b c d e f g h i a' b' c' d' e' f' g' h' i' : X) :
  [[a; b; c]; [d; e; f]; [g; h; i]] = [[a'; b'; c']; [d'; e'; f']; [g'; h'; i']] ->
  a = a' /\ b = b' /\ c = c' /\ d = d' /\ e = e' /\ f = f' /\ g = g' /\ h = h' /\ i = i'.
Proof. intros [=]. repeat split; assumption. Qed.
Lemma rot_entries a b c d e f g h i : rotation_matrix 3 [[a; b; c]; [d; e; f]; [g; h; i]] -> rot_eqs a b c d e f g h i.
Proof.
  intros [O D]. set (Q := [[a; b; c]; [d; e; f]; [g; h; i]]) in *.
  assert (W : wf 3 3 Q) by apply O. assert (L : dim23 3) by now right.
  assert (E1 : mmul Q (tr Q) = eye 3) by apply O.
  assert (E2 : mmul (tr Q) Q = eye 3) by now apply orth_l.
  assert (WC : wf 3 3 (brute_cof Q)) by apply wf_mk. assert (L0 : (0 < 3)%nat) by lia.
  assert (WT : wf 3 3 (tr (brute_cof Q))) by (apply wf_tr'; auto). assert (WQ : wf 3 3 (tr Q)) by (apply wf_tr'; auto).
  assert (E3 : brute_cof Q = Q).
  { rewrite <- (tr_tr 3 3 (brute_cof Q)) by auto. transitivity (tr (tr Q)); [f_equal|now apply (tr_tr 3 3)].
    pose proof (cof_identity Q W) as C. rewrite D in C.
    assert (S1 : mscale 1 (eye 3) = @eye R _ 3) by (mat_eq ltac:(ring)). rewrite S1 in C.
    rewrite <- (mmul_eye_l 3 3 (tr (brute_cof Q))) by auto. rewrite <- E2, (mmul_assoc 3 3 3 3) by auto.
    rewrite C. now apply (mmul_eye_r 3 3). }
  unfold Q in E1, E2, E3. clear -E1 E2 E3. unfold rot_eqs.
  cbv [brute_cof drop] in E3. revert E1 E2 E3. mat_unfold_goal. cbn [pow Nat.add]. intros E1 E2 E3.
  apply mat33_inj in E1, E2, E3.
  repeat match goal with H : _ /\ _ |- _ => destruct H end. repeat split; lra.
Qed.

(** ** three coordinate axes *)
Definition ix (A : axis) : nat := match A with AX => 0 | AY => 1 | AZ => 2 end.
Definition ev (A : axis) : list R := match A with AX => [1; 0; 0] | AY => [0; 1; 0] | AZ => [0; 0; 1] end.
Lemma vec3_eq (a b c a' b' c' : R) : a = a' -> b = b' -> c = c' -> [a; b; c] = [a'; b'; c'].
Proof. congruence. Qed.

(** a rotation whose row of index A is the unit row is a rotation about that axis *)
Lemma fix_about A (M : mat R) : rotation_matrix 3 M -> nth (ix A) M [] = ev A -> exists t, M = about A t.
Proof.
  intros H. pose proof (wf3_inv M (proj1 (proj1 H))) as (a & b & c & d & e & f & g & h & i & ->). apply rot_entries in H.
  destruct H as ((E1 & E2 & E3 & E4 & E5 & E6) & _ & (C1 & C2 & C3) & (C4 & C5 & C6) & (C7 & C8 & C9)).
  destruct A; cbn [ix nth ev]; intros K; injection K as K1 K2 K3; rewrite K1, K2, K3 in *.
  - assert (U : d = 0) by lra. assert (V : g = 0) by lra. rewrite U, V in *. destruct (circle e h) as (t & C & S); [nra|]. exists t.
    unfold about, rodrigues. rewrite C, S. mat_eq ltac:(lra).
  - assert (U : b = 0) by lra. assert (V : h = 0) by lra. rewrite U, V in *. destruct (circle a c) as (t & C & S); [nra|]. exists t.
    unfold about, rodrigues. rewrite C, S. mat_eq ltac:(lra).
  - assert (U : c = 0) by lra. assert (V : f = 0) by lra. rewrite U, V in *. destruct (circle a d) as (t & C & S); [nra|]. exists t.
    unfold about, rodrigues. rewrite C, S. mat_eq ltac:(lra).
Qed.

Ltac try_angles X Y Z :=
  let t := fresh "t" in let s := fresh "s" in let A := fresh "A" in let B := fresh "B" in let C := fresh "C" in
  destruct (sphere X Y Z ltac:(lra)) as (t & s & A & B & C);
  first [ exists s, t; unfold about, rodrigues; cbn; apply vec3_eq; lra
        | exists (PI / 2 - s), (PI / 2 - t); unfold about, rodrigues; rewrite !cos_shift, !sin_shift; cbn; apply vec3_eq; lra
        | exists s, (PI / 2 - t); unfold about, rodrigues; rewrite !cos_shift, !sin_shift; cbn; apply vec3_eq; lra ].
Ltac try_signs X Y Z :=
  first [ try_angles X Y Z | try_angles X Y (- Z) | try_angles X (- Y) Z | try_angles X (- Y) (- Z)
        | try_angles (- X) Y Z | try_angles (- X) Y (- Z) | try_angles (- X) (- Y) Z | try_angles (- X) (- Y) (- Z) ].
Lemma row_reach A1 A2 A3 x y z : A1 <> A2 -> A2 <> A3 -> x * x + y * y + z * z = 1 ->
  exists t1 t2, nth (ix A3) (mmul (about A2 t2) (about A1 t1)) [] = [x; y; z].
Proof.
  intros N1 N2 H. destruct A1, A2, A3; try congruence; clear N1 N2; cbn [ix];
    first [try_signs x y z | try_signs y z x | try_signs z x y | try_signs x z y | try_signs y x z | try_signs z y x].
Qed.

Lemma rot_tr Q : rotation_matrix 3 Q -> rotation_matrix 3 (tr Q).
Proof. intros [O D]. split; [apply orth_tr; [now right|exact O]|]. rewrite <- D. apply (det_tr 3); [now right|apply O]. Qed.
Lemma rot_unit_row A a b c d e f g h i : rot_eqs a b c d e f g h i -> exists x y z, nth (ix A) [[a; b; c]; [d; e; f]; [g; h; i]] [] = [x; y; z] /\ x * x + y * y + z * z = 1.
Proof. intros ((E1 & E2 & E3 & _) & _). destruct A; cbn [ix nth]; do 3 eexists; (split; [reflexivity|assumption]). Qed.

Lemma euler_onto A1 A2 A3 Q : A1 <> A2 -> A2 <> A3 -> rotation_matrix 3 Q ->
  exists t1 t2 t3, Q = mmul (about A3 t3) (mmul (about A2 t2) (about A1 t1)).
Proof.
  intros N1 N2 H. assert (L : (0 < 3)%nat) by lia.
  pose proof (wf3_inv Q (proj1 (proj1 H))) as (a & b & c & d & e & f & g & h & i & E).
  assert (RE : rot_eqs a b c d e f g h i) by (apply rot_entries; now rewrite <- E).
  destruct (rot_unit_row A3 _ _ _ _ _ _ _ _ _ RE) as (x & y & z & Ew & U). destruct (row_reach A1 A2 A3 x y z N1 N2 U) as (t1 & t2 & Er).
  set (P := mmul (about A2 t2) (about A1 t1)) in *.
  assert (RP : rotation_matrix 3 P) by (apply rot_mmul; apply about_rot).
  assert (M : nth (ix A3) (mmul Q (tr P)) [] = ev A3).
  { assert (EP : mmul P (tr P) = eye 3) by apply RP. assert (Eq : nth (ix A3) (mmul Q (tr P)) [] = nth (ix A3) (mmul P (tr P)) []).
    { pose proof (wf3_inv P (proj1 (proj1 RP))) as (a' & b' & c' & d' & e' & f' & g' & h' & i' & E'). rewrite E, E' in *. rewrite <- Er in Ew.
      destruct A3; cbn [ix nth] in *; injection Ew as -> -> ->; reflexivity. }
    rewrite Eq, EP. destruct A3; reflexivity. }
  destruct (fix_about A3 _ (rot_mmul _ _ H (rot_tr _ RP)) M) as (t3 & Et). exists t1, t2, t3. fold P. rewrite <- Et.
  assert (WQ : wf 3 3 Q) by apply H. assert (WP : wf 3 3 P) by apply RP. assert (WT : wf 3 3 (tr P)) by (apply wf_tr'; auto).
  rewrite (mmul_assoc 3 3 3 3) by auto. rewrite (orth_l 3); [|now right|apply RP]. now rewrite (mmul_eye_r 3 3).
Qed.

(** ** one axis *)
Lemma unit_of x y z : (x, y, z) <> (0, 0, 0) -> exists k, k <> 0 /\ (x / k) * (x / k) + (y / k) * (y / k) + (z / k) * (z / k) = 1.
Proof.
  intros H. assert (P : 0 < x * x + y * y + z * z).
  { destruct (Req_dec x 0) as [->|X]; [|nra]. destruct (Req_dec y 0) as [->|Y]; [|nra]. destruct (Req_dec z 0) as [->|Z]; [congruence|nra]. }
  pose proof (sqrt_lt_R0 _ P) as S. exists (sqrt (x * x + y * y + z * z)). split; [lra|].
  set (k := sqrt _) in *. assert (K : k * k = x * x + y * y + z * z) by (apply sqrt_sqrt; lra).
  transitivity ((x * x + y * y + z * z) / (k * k)); [field; lra|]. rewrite K. field. lra.
Qed.
Lemma axis_vector a b c d e f g h i : rot_eqs a b c d e f g h i -> exists x y z, (x, y, z) <> (0, 0, 0) /\
  a * x + b * y + c * z = x /\ d * x + e * y + f * z = y /\ g * x + h * y + i * z = z.
Proof.
  intros ((E1 & E2 & E3 & E4 & E5 & E6) & (F1 & F2 & F3 & F4 & F5 & F6) & (C1 & C2 & C3) & (C4 & C5 & C6) & (C7 & C8 & C9)).
  destruct (Req_dec (h - f) 0) as [Z1|Z1]; [destruct (Req_dec (c - g) 0) as [Z2|Z2]; [destruct (Req_dec (d - b) 0) as [Z3|Z3]|]|].
  2,3,4: exists (h - f), (c - g), (d - b); split; [congruence|]; repeat split; lra.
  assert (X1 : h = f) by lra. assert (X2 : c = g) by lra. assert (X3 : d = b) by lra. rewrite X1, X2, X3 in *. clear Z1 Z2 Z3.
  destruct (Req_dec (a + 1) 0) as [A|A]; [destruct (Req_dec (e + 1) 0) as [B|B]; [destruct (Req_dec (i + 1) 0) as [D|D]|]|].
  - exfalso. assert (A' : a = -1) by lra. assert (B' : e = -1) by lra. assert (D' : i = -1) by lra. rewrite A', B', D' in *.
    pose proof (Rle_0_sqr b). pose proof (Rle_0_sqr f). unfold Rsqr in *. lra.
  - exists g, f, (i + 1). split; [congruence|]. repeat split; lra.
  - exists b, (e + 1), f. split; [congruence|]. repeat split; lra.
  - exists (a + 1), b, g. split; [congruence|]. repeat split; lra.
Qed.

(** P^T (rotation about e3) P is the rotation about the third row of P *)
Lemma conj_rod t a b c d e f g h i : rot_eqs a b c d e f g h i -> let P := [[a; b; c]; [d; e; f]; [g; h; i]] in
  mmul (tr P) (mmul (about AZ t) P) = rodrigues t g h i.
Proof.
  intros (_ & (F1 & F2 & F3 & F4 & F5 & F6) & _ & _ & (C7 & C8 & C9)) P. unfold P, about, rodrigues. set (k := cos t). set (s := sin t). clearbody k s.
  mat_unfold_goal. apply l3; apply l3.
  - transitivity (k * (a*a + d*d + g*g) + (1 - k) * (g * g)); [ring|rewrite F1; ring].
  - transitivity (k * (a*b + d*e + g*h) + (1 - k) * (g * h) - s * (a*e - b*d)); [ring|rewrite F4, <- C9; ring].
  - transitivity (k * (a*c + d*f + g*i) + (1 - k) * (g * i) + s * (c*d - a*f)); [ring|rewrite F5, <- C8; ring].
  - transitivity (k * (a*b + d*e + g*h) + (1 - k) * (g * h) + s * (a*e - b*d)); [ring|rewrite F4, <- C9; ring].
  - transitivity (k * (b*b + e*e + h*h) + (1 - k) * (h * h)); [ring|rewrite F2; ring].
  - transitivity (k * (b*c + e*f + h*i) + (1 - k) * (h * i) - s * (b*f - c*e)); [ring|rewrite F6, <- C7; ring].
  - transitivity (k * (a*c + d*f + g*i) + (1 - k) * (g * i) - s * (c*d - a*f)); [ring|rewrite F5, <- C8; ring].
  - transitivity (k * (b*c + e*f + h*i) + (1 - k) * (h * i) + s * (b*f - c*e)); [ring|rewrite F6, <- C7; ring].
  - transitivity (k * (c*c + f*f + i*i) + (1 - k) * (i * i)); [ring|rewrite F3; ring].
Qed.

Lemma axis_angle Q : rotation_matrix 3 Q -> exists t x y z, x * x + y * y + z * z = 1 /\ ~ (x < 0 /\ y = 0 /\ z = 0) /\ Q = rodrigues t x y z.
Proof.
  intros H. assert (L : (0 < 3)%nat) by lia.
  pose proof (wf3_inv Q (proj1 (proj1 H))) as (a & b & c & d & e & f & g & h & i & E).
  assert (RE : rot_eqs a b c d e f g h i) by (apply rot_entries; now rewrite <- E).
  assert (V : exists x y z, (x * x + y * y + z * z = 1 /\ ~ (x < 0 /\ y = 0 /\ z = 0)) /\ a * x + b * y + c * z = x /\ d * x + e * y + f * z = y /\ g * x + h * y + i * z = z).
  { destruct (axis_vector _ _ _ _ _ _ _ _ _ RE) as (x & y & z & N & V1 & V2 & V3). destruct (unit_of x y z N) as (k & K & U).
    assert (G : forall m, m <> 0 -> (a * (x / m) + b * (y / m) + c * (z / m) = x / m /\ d * (x / m) + e * (y / m) + f * (z / m) = y / m /\ g * (x / m) + h * (y / m) + i * (z / m) = z / m)).
    { intros m M. split; [|split].
      - transitivity ((a * x + b * y + c * z) / m); [field; exact M|now rewrite V1].
      - transitivity ((d * x + e * y + f * z) / m); [field; exact M|now rewrite V2].
      - transitivity ((g * x + h * y + i * z) / m); [field; exact M|now rewrite V3]. }
    destruct (Rlt_dec (x / k) 0) as [S|S].
    - exists (x / - k), (y / - k), (z / - k). split; [|apply G; lra].
      assert (Op : forall w, w / - k = - (w / k)) by (intros; field; exact K). rewrite !Op. split; [lra|]. lra.
    - exists (x / k), (y / k), (z / k). split; [split; [exact U|lra]|now apply G]. }
  destruct V as (x & y & z & (U & Ng) & V1 & V2 & V3).
  destruct (row_reach AZ AX AZ x y z ltac:(discriminate) ltac:(discriminate) U) as (t1 & t2 & Er).
  set (P := mmul (about AX t2) (about AZ t1)) in *.
  assert (RP : rotation_matrix 3 P) by (apply rot_mmul; apply about_rot). clearbody P.
  pose proof (wf3_inv P (proj1 (proj1 RP))) as (a' & b' & c' & d' & e' & f' & g' & h' & i' & E').
  assert (RE' : rot_eqs a' b' c' d' e' f' g' h' i') by (apply rot_entries; now rewrite <- E').
  assert (Er' : [g'; h'; i'] = [x; y; z]) by (rewrite E' in Er; exact Er). injection Er' as -> -> ->.
  assert (WQ : wf 3 3 Q) by apply H. assert (WP : wf 3 3 P) by apply RP. assert (WT : wf 3 3 (tr P)) by (apply wf_tr'; auto).
  assert (WPQ : wf 3 3 (mmul P Q)) by (apply (wf_mmul 3 3 3); auto).
  assert (M : nth (ix AZ) (mmul (mmul P Q) (tr P)) [] = ev AZ).
  { cbn [ix ev]. rewrite E, E'.
    destruct RE as (_ & (F1 & F2 & F3 & F4 & F5 & F6) & _). destruct RE' as ((G1 & G2 & G3 & G4 & G5 & G6) & _).
    assert (X1 : x * a + y * d + z * g = x) by (transitivity ((a*x + b*y + c*z) * a + (d*x + e*y + f*z) * d + (g*x + h*y + i*z) * g); [now rewrite V1, V2, V3|];
      transitivity (x * (a*a + d*d + g*g) + y * (a*b + d*e + g*h) + z * (a*c + d*f + g*i)); [ring|rewrite F1, F4, F5; ring]).
    assert (X2 : x * b + y * e + z * h = y) by (transitivity ((a*x + b*y + c*z) * b + (d*x + e*y + f*z) * e + (g*x + h*y + i*z) * h); [now rewrite V1, V2, V3|];
      transitivity (x * (a*b + d*e + g*h) + y * (b*b + e*e + h*h) + z * (b*c + e*f + h*i)); [ring|rewrite F4, F2, F6; ring]).
    assert (X3 : x * c + y * f + z * i = z) by (transitivity ((a*x + b*y + c*z) * c + (d*x + e*y + f*z) * f + (g*x + h*y + i*z) * i); [now rewrite V1, V2, V3|];
      transitivity (x * (a*c + d*f + g*i) + y * (b*c + e*f + h*i) + z * (c*c + f*f + i*i)); [ring|rewrite F5, F6, F3; ring]).
    clear E E' Er. mat_unfold_goal. cbn [nth].
    apply vec3_eq.
    - transitivity ((x * a + y * d + z * g) * a' + (x * b + y * e + z * h) * b' + (x * c + y * f + z * i) * c'); [ring|]. rewrite X1, X2, X3. lra.
    - transitivity ((x * a + y * d + z * g) * d' + (x * b + y * e + z * h) * e' + (x * c + y * f + z * i) * f'); [ring|]. rewrite X1, X2, X3. lra.
    - transitivity ((x * a + y * d + z * g) * x + (x * b + y * e + z * h) * y + (x * c + y * f + z * i) * z); [ring|]. rewrite X1, X2, X3. lra. }
  destruct (fix_about AZ _ (rot_mmul _ _ (rot_mmul _ _ RP H) (rot_tr _ RP)) M) as (t & Et).
  exists t, x, y, z. split; [exact U|]. split; [exact Ng|].
  rewrite <- (conj_rod t _ _ _ _ _ _ _ _ _ RE'). cbv zeta. rewrite <- E', <- Et.
  assert (I : mmul (tr P) P = eye 3) by (apply (orth_l 3); [now right|apply RP]).
  rewrite (mmul_assoc 3 3 3 3) by auto. rewrite I, (mmul_eye_r 3 3) by auto. rewrite <- (mmul_assoc 3 3 3 3) by auto. now rewrite I, (mmul_eye_l 3 3).
Qed.
