(** Specification vocabulary for rank-one connections; independent of the code. *)
From Verif Require Export RankOneModel MartSpec.
Local Open Scope R_scope.

(** the tolerance of the package, 1e-12 *)
Definition tolerance : R := 1 / 1000000000000.

(** what numpy.linalg.eig returns for a diagonalisable matrix: a decomposition C V = V diag(lam), V invertible,
    every column of V of unit length.  The columns need not be orthogonal when eigenvalues repeat. *)
Definition is_eig (C : mat R) (eg : list R * mat R) : Prop :=
  eigen 3 C (fst eg) (snd eg) /\ forall j, (j < 3)%nat -> dot (col (snd eg) j) (col (snd eg) j) = 1.

(** the eigenvalues of C in ascending order *)
Definition eigenvalues (C : mat R) (l1 l2 l3 : R) : Prop :=
  (l1 <= l2 /\ l2 <= l3) /\ exists V, eigen 3 C [l1; l2; l3] V.

(** C = (I + m (x) b)(I + b (x) m), |m| = 1 *)
Definition rank_one_solution (C : mat R) (b m : vec R) : Prop :=
  length b = 3%nat /\ length m = 3%nat /\ dot m m = 1 /\
  mmul (madd (eye 3) (outer m b)) (madd (eye 3) (outer b m)) = C.

(** ... with det (I + b (x) m) > 0, as for a deformation *)
Definition solves (C : mat R) (b m : vec R) : Prop :=
  rank_one_solution C b m /\ 0 < det (madd (eye 3) (outer b m)).
(** every solution is one of the two given ones, up to the sign of the pair (b, m) *)
Definition only_solutions (C : mat R) (b1 m1 b2 m2 : vec R) : Prop :=
  forall b m, solves C b m -> exists k, (k = 1 \/ k = -1) /\
    ((b = vscale k b1 /\ m = vscale k m1) \/ (b = vscale k b2 /\ m = vscale k m2)).

(** R is a rotation, R S = I + b (x) m for the positive definite square root S of C *)
Definition rotation_part (C R0 : mat R) (b m : vec R) : Prop :=
  orthogonal 3 R0 /\ det R0 = 1 /\
  exists S, positive_definite S /\ mmul S S = C /\ mmul R0 S = madd (eye 3) (outer b m).

(** some rotation Q makes Q A - B rank one (or zero) *)
Definition rank_one_connected (A B : mat R) : Prop :=
  exists Q a n, orthogonal 3 Q /\ det Q = 1 /\ length a = 3%nat /\ length n = 3%nat /\ msub (mmul Q A) B = outer a n.
