(** Specification vocabulary for the Hermite-normal-form properties (C01-C09).
    Nothing here refers to the model of the code; only the matrix notation of
    Mat.v ([get M i j], [mmul], [eye], [wf n n M] = "M is an n x n list of rows")
    is used. *)
From Verif Require Import Mat.
Local Open Scope Z_scope.

(** Hermite normal form in the convention of the library: lower triangular,
    positive diagonal, entries left of the diagonal in (-H_ii, 0]. *)
Definition is_hnf (n : nat) (H : mat Z) : Prop :=
  wf n n H /\
  (forall i j, (i < j < n)%nat -> get H i j = 0) /\
  (forall i, (i < n)%nat -> 0 < get H i i) /\
  (forall i j, (j < i < n)%nat -> - get H i i < get H i j <= 0).

(** Invertible over the integers. *)
Definition unimodular (n : nat) (W : mat Z) : Prop :=
  wf n n W /\ exists V, wf n n V /\ mmul W V = eye n /\ mmul V W = eye n.

(** Full rank: the rows are linearly independent. *)
Definition full_rank (n : nat) (M : mat Z) : Prop :=
  wf n n M /\
  forall y : nat -> Z,
    (forall j, (j < n)%nat -> sumn n (fun i => y i * get M i j) = 0) ->
    forall i, (i < n)%nat -> y i = 0.

(** Product of the diagonal. *)
Fixpoint diag_prod (n : nat) (H : mat Z) : Z :=
  match n with O => 1 | S k => diag_prod k H * get H k k end.
