(** Specification vocabulary for C44/C45. *)
From Coq Require Import List ZArith.
Import ListNotations.
Local Open Scope Z_scope.

(** squared Euclidean length of an integer vector *)
Fixpoint norm2 (v : list Z) : Z := match v with [] => 0 | x :: v' => x * x + norm2 v' end.

(** checkpoints from which the generator resumes correctly: to the right of a positive
    entry there are only zeros *)
Fixpoint clean (x : list Z) : Prop :=
  match x with
  | [] => True
  | f :: xs => if 0 <? f then (forall y, In y xs -> y = 0) else clean xs
  end.
