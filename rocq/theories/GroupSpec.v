(** Specification vocabulary for finite matrix groups. *)
From Verif Require Export Mat.

Section Spec.
  Context {A : Type} {O : Ops A}.
  (** A finite group of n x n matrices listed without repetition. *)
  Definition is_group (n : nat) (G : list (mat A)) : Prop :=
    (forall g, In g G -> wf n n g) /\
    NoDup G /\
    In (eye n) G /\
    (forall g h, In g G -> In h G -> In (mmul g h) G) /\
    (forall g, In g G -> exists h, In h G /\ mmul g h = eye n /\ mmul h g = eye n).
  Definition orthogonal (n : nat) (Q : mat A) : Prop := wf n n Q /\ mmul Q (tr Q) = eye n.
End Spec.
