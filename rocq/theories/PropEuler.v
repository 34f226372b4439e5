(** C114: every rotation matrix is a result of Euler and of rotation.  Model: RotModel.v; the letters and the rotations about the
    axes are those of RotSpec.v and PropRot.v (C23, C24). *)
From Coq Require Import Ascii String.
From Verif Require Import LinAlg LatticeProofs RotModel RotSpec RotProofs EulerProofs PropRot.
Local Open Scope R_scope.

Definition order (a1 a2 a3 : ascii) : string := String a1 (String a2 (String a3 EmptyString)).
Lemma from_radians deg t : exists u, in_radians deg u = t.
Proof. destruct deg; [exists (t / (PI / 180))|now exists t]. cbn. field. pose proof PI_RGT_0. lra. Qed.

(** Any order in which no axis follows itself gives every rotation. *)
Theorem C114_euler : forall a1 a2 a3 A1 A2 A3 deg Q, letter a1 = Some A1 -> letter a2 = Some A2 -> letter a3 = Some A3 ->
  A1 <> A2 -> A2 <> A3 -> rotation_matrix 3 Q -> exists t1 t2 t3, Euler [t1; t2; t3] (order a1 a2 a3) deg = Ok Q.
Proof.
  intros a1 a2 a3 A1 A2 A3 deg Q L1 L2 L3 N1 N2 H. destruct (euler_onto A1 A2 A3 Q N1 N2 H) as (s1 & s2 & s3 & E).
  destruct (from_radians deg s1) as (t1 & T1), (from_radians deg s2) as (t2 & T2), (from_radians deg s3) as (t3 & T3). exists t1, t2, t3.
  unfold order. rewrite (C23_value t1 t2 t3 a1 a2 a3 A1 A2 A3 deg L1 L2 L3), T1, T2, T3. now rewrite E.
Qed.
Print Assumptions C114_euler.

Ltac solve_entry := split; [lia|]; split; [lia|]; intros s1 s2 s3; unfold about, rodrigues; rewrite cos_PI2, sin_PI2; cbn; lra.
(** The other orders do not: some rotation is not reached. *)
Theorem C114_other_orders : forall a1 a2 a3 A1 A2 A3 deg, letter a1 = Some A1 -> letter a2 = Some A2 -> letter a3 = Some A3 ->
  A1 = A2 \/ A2 = A3 -> exists Q, rotation_matrix 3 Q /\ forall t1 t2 t3, Euler [t1; t2; t3] (order a1 a2 a3) deg <> Ok Q.
Proof.
  intros a1 a2 a3 A1 A2 A3 deg L1 L2 L3 H.
  assert (G : exists B, forall s1 s2 s3, mmul (about A3 s3) (mmul (about A2 s2) (about A1 s1)) <> about B (PI / 2)).
  { assert (K : exists B i j, (i < 3)%nat /\ (j < 3)%nat /\ forall s1 s2 s3,
        get (mmul (about A3 s3) (mmul (about A2 s2) (about A1 s1))) i j <> get (about B (PI / 2)) i j).
    { clear L1 L2 L3. destruct A1, A2, A3; (destruct H; try discriminate);
        first [exists AX, 1%nat, 1%nat; solve_entry|exists AX, 2%nat, 2%nat; solve_entry|exists AY, O, O; solve_entry
              |exists AX, 1%nat, 2%nat; solve_entry|exists AX, 2%nat, 1%nat; solve_entry|exists AY, O, 2%nat; solve_entry
              |exists AY, 2%nat, O; solve_entry|exists AZ, O, 1%nat; solve_entry|exists AZ, 1%nat, O; solve_entry]. }
    destruct K as (B & i & j & _ & _ & K). exists B. intros s1 s2 s3 E. apply (K s1 s2 s3). now rewrite E. }
  destruct G as (B & G). exists (about B (PI / 2)). split; [apply about_rot|]. intros t1 t2 t3. unfold order.
  rewrite (C23_value t1 t2 t3 a1 a2 a3 A1 A2 A3 deg L1 L2 L3). intros [= E]. exact (G _ _ _ E).
Qed.
Print Assumptions C114_other_orders.

(** Every rotation is a rotation about some axis that the function accepts. *)
Theorem C114_rotation : forall deg Q, rotation_matrix 3 Q -> exists angle axis, rotation angle axis deg = Ok Q.
Proof.
  intros deg Q H. destruct (axis_angle Q H) as (t & x & y & z & U & N & E). destruct (from_radians deg t) as (u & T). exists u, [x; y; z].
  rewrite C24_rodrigues_partial; [|intros [=]; subst; lra|exact N]. rewrite U, sqrt_1, T. unfold Rdiv. now rewrite Rinv_1, !Rmult_1_r, E.
Qed.
Print Assumptions C114_rotation.

(** The exchange of the three axes is a rotation; the two kinds of order are met. *)
Example C114_case : rotation_matrix 3 [[0; 0; 1]; [1; 0; 0]; [0; 1; 0]] /\ letter "z" = Some AZ /\ letter "X" = Some AX /\
  rotation 120 [1; 1; 1] true = Ok (rodrigues (2 * PI / 3) (1 / sqrt 3) (1 / sqrt 3) (1 / sqrt 3)).
Proof.
  split; [|split; [reflexivity|split; [reflexivity|]]].
  - split; [split; [now apply wfb_spec|mat_eq ltac:(ring)]|]. rewrite det3. ring.
  - rewrite C24_rodrigues_partial; [|intros [=]; lra|lra]. replace (1 * 1 + 1 * 1 + 1 * 1) with 3 by ring. do 2 f_equal. cbn. field.
Qed.
