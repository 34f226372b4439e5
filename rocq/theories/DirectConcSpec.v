(** Specification vocabulary for the direct search on concrete lattices (C47, C48, C57). *)
From Verif Require Export RMat GroupModel DistModel DistSpec ReduceSpec.
Local Open Scope Z_scope.

(** the two lattices and their lattice groups, as lat_cor_direct sets them up *)
Definition lattice_pair (n : nat) (EA EM : mat R) (LG_A LG_M : list (mat Z)) : Prop :=
  dim23 n /\ wf n n EA /\ wf n n EM /\ det EA <> 0%R /\ det EM <> 0%R /\
  matrix_group n LG_A /\ matrix_group n LG_M /\
  (forall M, In M LG_A -> isometry_of n EA (RZ M)) /\ (forall M, In M LG_M -> isometry_of n EM (RZ M)).

(** what quart_min has to deliver: a positive lower bound of the quartic form on unit vectors *)
Definition quartic_bound (n : nat) (EA EM : mat R) (alpha : R) : Prop :=
  (0 < alpha)%R /\ forall u, length u = (n * n)%nat -> len2 u = 1%R ->
    (alpha <= quartic_form (n * n) (quartic_D n EA (minv EM)) u)%R.

