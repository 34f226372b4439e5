(** Property C130: axis and angle identify a rotation, and the axis turns with the frame.  Specification: RotSpec.v (rodrigues);
    model: RotModel.v. *)
From Coq Require Import Nsatz.
From Verif Require Import LinAlg LatticeProofs BravaisProofs DistProofs RotModel RotSpec RotProofs PropRot EulerProofs.
Local Open Scope R_scope.

Lemma cross_frame a b c d e f g h i x y z : rot_eqs a b c d e f g h i ->
  let X := a*x+b*y+c*z in let Y := d*x+e*y+f*z in let Z := g*x+h*y+i*z in
  (Y*g - Z*d = b*z - c*y /\ Y*h - Z*e = c*x - a*z /\ Y*i - Z*f = a*y - b*x) /\
  (Z*a - X*g = e*z - f*y /\ Z*b - X*h = f*x - d*z /\ Z*c - X*i = d*y - e*x) /\
  (X*d - Y*a = h*z - i*y /\ X*e - Y*b = i*x - g*z /\ X*f - Y*c = g*y - h*x) /\
  X*a + Y*d + Z*g = x /\ X*b + Y*e + Z*h = y /\ X*c + Y*f + Z*i = z /\ X*X + Y*Y + Z*Z = x*x + y*y + z*z.
Proof.
  intros H X Y Z. unfold X, Y, Z. clear X Y Z. unfold rot_eqs in H. repeat match goal with H : _ /\ _ |- _ => destruct H end.
  repeat split; nsatz.
Qed.

(** ** Specification *)
(** the unit vector in the direction of (a, b, c) *)
Definition unit (a b c : R) : vec R := let n := sqrt (a * a + b * b + c * c) in [a / n; b / n; c / n].
(** the same angle up to whole turns *)
Definition same_angle (s t : R) : Prop := cos s = cos t /\ sin s = sin t.
(** the angle is a number of whole turns *)
Definition whole_turns (s : R) : Prop := cos s = 1.
(** the two descriptions differ only by whole turns and by reversing both the axis and the angle *)
Definition same_description (s : R) (u : vec R) (t : R) (w : vec R) : Prop :=
  (u = w /\ same_angle s t) \/ (u = vscale (-1) w /\ same_angle s (- t)).

Lemma rotation_Ok t a b c deg M : rotation t [a; b; c] deg = Ok M ->
  (a, b, c) <> (0, 0, 0) /\ ~ (a < 0 /\ b = 0 /\ c = 0).
Proof.
  intros H. split.
  - intros [= -> -> ->]. revert H. unfold rotation, normalize, vnorm. rewrite dot3. replace (0 * 0 + 0 * 0 + 0 * 0) with 0 by ring.
    rewrite sqrt_0, (proj2 (Reqb_spec _ _)) by reflexivity. discriminate.
  - intros (A & -> & ->). rewrite C24_negative_e1_refuted in H by exact A. discriminate.
Qed.
Lemma rod_eq s t x y z u v w : x * x + y * y + z * z = 1 -> u * u + v * v + w * w = 1 ->
  rodrigues s x y z = rodrigues t u v w <-> (whole_turns s /\ whole_turns t) \/ same_description s [x; y; z] t [u; v; w].
Proof.
  intros U1 U2. pose proof (cs2 s) as K1. pose proof (cs2 t) as K2. unfold whole_turns, same_description, same_angle, vscale. rewrite cos_neg, sin_neg. unfold rodrigues. cbv zeta.
  set (c := cos s) in *. set (p := sin s) in *. set (d := cos t) in *. set (q := sin t) in *. clearbody c p d q. cbn [map]. split.
  - intros E. apply mat33_inj in E. destruct E as (E1 & E2 & E3 & E4 & E5 & E6 & E7 & E8 & E9).
    assert (C : c = d) by nsatz. subst d.
    assert (X1 : p * x = q * u) by lra. assert (Y1 : p * y = q * v) by lra. assert (Z1 : p * z = q * w) by lra.
    destruct (Req_dec c 1) as [C1|C1]; [left; auto|right].
    assert (XX : x * x = u * u) by (apply (Rmult_eq_reg_l (1 - c)); lra). assert (XY : x * y = u * v) by (apply (Rmult_eq_reg_l (1 - c)); lra).
    assert (XZ : x * z = u * w) by (apply (Rmult_eq_reg_l (1 - c)); lra). assert (YY : y * y = v * v) by (apply (Rmult_eq_reg_l (1 - c)); lra).
    assert (YZ : y * z = v * w) by (apply (Rmult_eq_reg_l (1 - c)); lra). assert (ZZ : z * z = w * w) by (apply (Rmult_eq_reg_l (1 - c)); lra).
    set (k := x * u + y * v + z * w). assert (KX : x = k * u) by (unfold k; nsatz). assert (KY : y = k * v) by (unfold k; nsatz). assert (KZ : z = k * w) by (unfold k; nsatz).
    assert (KK : k * k = 1) by nsatz. assert (KS : k = 1 \/ k = -1) by (assert (H : (k - 1) * (k + 1) = 0) by lra; apply Rmult_integral in H as [H|H]; [left|right]; lra).
    clearbody k. destruct KS as [-> | ->].
    + left. rewrite KX, KY, KZ. split; [apply vec3_eq; ring|]. split; [reflexivity|]. nsatz.
    + right. rewrite KX, KY, KZ. split; [apply vec3_eq; reflexivity|]. split; [reflexivity|]. nsatz.
  - intros [[C1 C2]|[(E & C & S)|(E & C & S)]].
    + subst c d. assert (p = 0) by nra. assert (q = 0) by nra. subst p q. mat_eq ltac:(ring).
    + injection E as -> -> ->. subst. reflexivity.
    + injection E as -> -> ->. subst. mat_eq ltac:(ring).
Qed.

(** ** Theorems *)
(** Two calls give the same matrix exactly when both angles are whole turns or the descriptions are the same. *)
Theorem C130_identified : forall deg s a b c t a' b' c' M N,
  rotation s [a; b; c] deg = Ok M -> rotation t [a'; b'; c'] deg = Ok N ->
  (M = N <-> (whole_turns (in_radians deg s) /\ whole_turns (in_radians deg t)) \/
             same_description (in_radians deg s) (unit a b c) (in_radians deg t) (unit a' b' c')).
Proof.
  intros deg s a b c t a' b' c' M N HM HN. destruct (rotation_Ok _ _ _ _ _ _ HM) as (A1 & A2). destruct (rotation_Ok _ _ _ _ _ _ HN) as (B1 & B2).
  rewrite C24_rodrigues_partial in HM, HN by assumption. injection HM as <-. injection HN as <-.
  destruct (unit_axis a b c A1) as (_ & U1). destruct (unit_axis a' b' c' B1) as (_ & U2). unfold unit. now apply rod_eq.
Qed.
Print Assumptions C130_identified.

(** The length of the axis does not matter. *)
Theorem C130_length : forall deg t a b c k, 0 < k -> rotation t [k * a; k * b; k * c] deg = rotation t [a; b; c] deg.
Proof.
  intros deg t a b c k K. unfold rotation. replace (normalize [k * a; k * b; k * c]) with (normalize [a; b; c]); [reflexivity|].
  unfold normalize, vnorm. rewrite !dot3. replace (k * a * (k * a) + k * b * (k * b) + k * c * (k * c)) with (k * k * (a * a + b * b + c * c)) by ring.
  rewrite sqrt_mult_alt, sqrt_square by nra. set (n := sqrt (a * a + b * b + c * c)). destruct (Reqb n 0) eqn:E.
  - apply Reqb_spec in E. rewrite E, (proj2 (Reqb_spec (k * 0) 0)) by ring. reflexivity.
  - assert (N : n <> 0) by (intros Z; apply Reqb_spec in Z; congruence). destruct (Reqb (k * n) 0) eqn:E'; [apply Reqb_spec in E'; apply Rmult_integral in E'; lra|].
    f_equal. cbn [map]. apply vec3_eq; field; split; lra.
Qed.
Print Assumptions C130_length.

(** Turning the axis by a rotation Q turns the matrix: M becomes Q M Q^T. *)
Theorem C130_frame : forall deg t a b c Q M N, rotation_matrix 3 Q ->
  rotation t [a; b; c] deg = Ok M -> rotation t (mvmul Q [a; b; c]) deg = Ok N -> N = mmul (mmul Q M) (tr Q).
Proof.
  intros deg t a b c Q M N HQ HM HN. pose proof HQ as [O D]. pose proof (orth_wf _ _ O) as WQ. assert (WT : wf 3 3 (tr Q)) by (apply wf_tr'; auto; lia).
  destruct (rotation_Ok _ _ _ _ _ _ HM) as (A1 & A2). destruct (unit_axis a b c A1) as (NP & U1). rewrite C24_rodrigues_partial in HM by assumption. injection HM as <-.
  assert (E : mmul N Q = mmul Q (rodrigues (in_radians deg t) (a / sqrt (a * a + b * b + c * c)) (b / sqrt (a * a + b * b + c * c)) (c / sqrt (a * a + b * b + c * c)))).
  { apply wf3_inv in WQ. destruct WQ as (q1 & q2 & q3 & q4 & q5 & q6 & q7 & q8 & q9 & ->). pose proof (rot_entries _ _ _ _ _ _ _ _ _ HQ) as R.
    assert (EV : mvmul [[q1; q2; q3]; [q4; q5; q6]; [q7; q8; q9]] [a; b; c] = [q1 * a + q2 * b + q3 * c; q4 * a + q5 * b + q6 * c; q7 * a + q8 * b + q9 * c]) by (mat_eq ltac:(ring)).
    rewrite EV in HN. destruct (rotation_Ok _ _ _ _ _ _ HN) as (B1 & B2). rewrite C24_rodrigues_partial in HN by assumption.
    pose proof (cross_frame _ _ _ _ _ _ _ _ _ a b c R) as CF. cbv zeta in CF. rewrite (proj2 (proj2 (proj2 (proj2 (proj2 (proj2 CF)))))) in HN. clear CF.
    set (n := sqrt (a * a + b * b + c * c)) in *. injection HN as <-.
    replace ((q1 * a + q2 * b + q3 * c) / n) with (q1 * (a / n) + q2 * (b / n) + q3 * (c / n)) by (field; lra).
    replace ((q4 * a + q5 * b + q6 * c) / n) with (q4 * (a / n) + q5 * (b / n) + q6 * (c / n)) by (field; lra).
    replace ((q7 * a + q8 * b + q9 * c) / n) with (q7 * (a / n) + q8 * (b / n) + q9 * (c / n)) by (field; lra).
    set (x := a / n) in *. set (y := b / n) in *. set (z := c / n) in *. clearbody x y z. clear - R.
    pose proof (cross_frame _ _ _ _ _ _ _ _ _ x y z R) as CF. cbv zeta in CF. clear R.
    set (X := q1 * x + q2 * y + q3 * z) in *. set (Y := q4 * x + q5 * y + q6 * z) in *. set (Z := q7 * x + q8 * y + q9 * z) in *.
    assert (HX : q1 * x + q2 * y + q3 * z = X) by reflexivity. assert (HY : q4 * x + q5 * y + q6 * z = Y) by reflexivity. assert (HZ : q7 * x + q8 * y + q9 * z = Z) by reflexivity.
    clearbody X Y Z. unfold rodrigues. set (co := cos _). set (si := sin _). clearbody co si. repeat match goal with H : _ /\ _ |- _ => destruct H end.
    mat_eq ltac:(nsatz). }
  assert (WN : wf 3 3 N). { assert (EV : exists x y z, mvmul Q [a; b; c] = [x; y; z]).
    { clear - WQ. apply wf3_inv in WQ. destruct WQ as (? & ? & ? & ? & ? & ? & ? & ? & ? & ->). mat_unfold_goal. eexists _, _, _. reflexivity. }
    destruct EV as (x & y & z & EV). rewrite EV in HN. destruct (rotation_Ok _ _ _ _ _ _ HN) as (B1 & B2).
    rewrite C24_rodrigues_partial in HN by assumption. injection HN as <-. apply rod_wf. }
  rewrite <- E, (mmul_assoc 3 3 3 3), (proj2 O), (mmul_eye_r 3 3) by (auto; lia). reflexivity.
Qed.
Print Assumptions C130_frame.

(** Reversing the axis, or the angle, gives the inverse rotation. *)
Theorem C130_reversed : forall deg t a b c M N, rotation t [a; b; c] deg = Ok M ->
  rotation (- t) [a; b; c] deg = Ok (tr M) /\ (rotation t [- a; - b; - c] deg = Ok N -> N = tr M).
Proof.
  intros deg t a b c M N HM. destruct (rotation_Ok _ _ _ _ _ _ HM) as (A1 & A2). destruct (unit_axis a b c A1) as (NP & U1). rewrite C24_rodrigues_partial in HM by assumption. injection HM as <-.
  assert (IN : in_radians deg (- t) = - in_radians deg t) by (destruct deg; cbn; [field|reflexivity]). split.
  - rewrite C24_rodrigues_partial by assumption. rewrite rod_tr, IN. reflexivity.
  - intros HN. destruct (rotation_Ok _ _ _ _ _ _ HN) as (B1 & B2). rewrite C24_rodrigues_partial in HN by assumption. injection HN as <-. rewrite rod_tr.
    replace (- a * - a + - b * - b + - c * - c) with (a * a + b * b + c * c) by ring. set (n := sqrt (a * a + b * b + c * c)) in *.
    replace (- a / n) with (- (a / n)) by (field; lra). replace (- b / n) with (- (b / n)) by (field; lra). replace (- c / n) with (- (c / n)) by (field; lra).
    unfold rodrigues. rewrite cos_neg, sin_neg. mat_eq ltac:(ring).
Qed.
Print Assumptions C130_reversed.

(** The angle can be read off the trace. *)
Theorem C130_trace : forall deg t a b c M, rotation t [a; b; c] deg = Ok M ->
  get M 0 0 + get M 1 1 + get M 2 2 = 1 + 2 * cos (in_radians deg t).
Proof.
  intros deg t a b c M HM. destruct (rotation_Ok _ _ _ _ _ _ HM) as (A1 & A2). destruct (unit_axis a b c A1) as (NP & U1). rewrite C24_rodrigues_partial in HM by assumption. injection HM as <-.
  revert U1. set (n := sqrt (a * a + b * b + c * c)). generalize (a / n) (b / n) (c / n). intros x y z U. unfold rodrigues, get. cbn [nth]. cbv zeta. set (k := cos _). clearbody k. nsatz.
Qed.
Print Assumptions C130_trace.

(** A quarter turn about (0, 0, 2), the same one about (0, 0, -1) backwards, and about the axis turned to (0, 2, 0). *)
Example C130_case : exists M N P, rotation 90 [0; 0; 2] true = Ok M /\ rotation (- 90) [0; 0; -1] true = Ok M /\ rotation 90 [0; 2; 0] true = Ok N /\ M <> N /\
  rotation_matrix 3 [[1; 0; 0]; [0; 0; 1]; [0; -1; 0]] /\ mvmul [[1; 0; 0]; [0; 0; 1]; [0; -1; 0]] [0; 0; 2] = [0; 2; 0] /\ P = N /\
  P = mmul (mmul [[1; 0; 0]; [0; 0; 1]; [0; -1; 0]] M) (tr [[1; 0; 0]; [0; 0; 1]; [0; -1; 0]]).
Proof.
  destruct (C24_is_rotation_partial 90 0 0 2 true) as (M & EM & _); [intros [=]; lra|lra|].
  destruct (C24_is_rotation_partial (- 90) 0 0 (-1) true) as (M' & EM' & _); [intros [=]; lra|lra|].
  destruct (C24_is_rotation_partial 90 0 2 0 true) as (N & EN & _); [intros [=]; lra|lra|].
  assert (S4 : sqrt (0 * 0 + 0 * 0 + 2 * 2) = 2) by (replace (0 * 0 + 0 * 0 + 2 * 2) with (2 * 2) by ring; apply sqrt_square; lra).
  assert (S4' : sqrt (0 * 0 + 2 * 2 + 0 * 0) = 2) by (replace (0 * 0 + 2 * 2 + 0 * 0) with (2 * 2) by ring; apply sqrt_square; lra).
  assert (S1 : sqrt (0 * 0 + 0 * 0 + -1 * -1) = 1) by (replace (0 * 0 + 0 * 0 + -1 * -1) with (1 * 1) by ring; apply sqrt_square; lra).
  assert (R : in_radians true (- 90) = - in_radians true 90) by (cbn; field). assert (RQ : in_radians true 90 = PI / 2) by (cbn; field).
  assert (EQ : M = M').
  { apply (C130_identified true 90 0 0 2 (- 90) 0 0 (-1) M M' EM EM'). right. right. unfold unit. rewrite S4, S1, R. split; [unfold vscale; cbn [map]; apply vec3_eq; field|].
    rewrite Ropp_involutive. split; reflexivity. }
  subst M'. assert (RM : rotation_matrix 3 [[1; 0; 0]; [0; 0; 1]; [0; -1; 0]]).
  { split; [split; [now apply wfb_spec|mat_eq ltac:(ring)]|]. rewrite det3. ring. }
  assert (EV : mvmul [[1; 0; 0]; [0; 0; 1]; [0; -1; 0]] [0; 0; 2] = [0; 2; 0]) by (mat_eq ltac:(ring)).
  exists M, N, N. do 3 (split; [assumption|]). split.
  - intros Z. apply (C130_identified true 90 0 0 2 90 0 2 0 M N EM EN) in Z. rewrite RQ in Z. unfold whole_turns, same_description, unit in Z. rewrite S4, S4', cos_PI2 in Z.
    destruct Z as [(Z & _)|[(Z & _)|(Z & _)]]; [lra| |]; unfold vscale in Z; cbn [map] in Z; injection Z; lra.
  - split; [exact RM|]. split; [exact EV|]. split; [reflexivity|]. apply (C130_frame true 90 0 0 2 _ M N RM EM). now rewrite EV.
Qed.
