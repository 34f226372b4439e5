(** Specification vocabulary for C08/C09. *)
From Verif Require Import Mat HnfSpec.

(** A finite group of unimodular n x n integer matrices, given as a list. *)
Definition matrix_group (n : nat) (G : list (mat Z)) : Prop :=
  (forall g, In g G -> wf n n g) /\
  In (eye n) G /\
  (forall g h, In g G -> In h G -> In (mmul g h) G) /\
  (forall g, In g G -> exists h, In h G /\ mmul g h = eye n /\ mmul h g = eye n).

(** H1 and H2 generate symmetry-related sublattices: some symmetry g maps the column
    lattice of H1 onto that of H2. *)
Definition sym_equiv (n : nat) (G : list (mat Z)) (H1 H2 : mat Z) : Prop :=
  exists g A, In g G /\ unimodular n A /\ mmul g H1 = mmul H2 A.

(** [r] is obtained from [l] by deleting elements. *)
Inductive sublist {A} : list A -> list A -> Prop :=
| sub_nil : sublist [] []
| sub_skip x l1 l2 : sublist l1 l2 -> sublist l1 (x :: l2)
| sub_keep x l1 l2 : sublist l1 l2 -> sublist (x :: l1) (x :: l2).

(** [r] is a transversal of [l] modulo [E]. *)
Definition transversal {A} (E : A -> A -> Prop) (l r : list A) : Prop :=
  sublist r l /\
  (forall x, In x l -> exists y, In y r /\ E x y) /\
  (forall i j x y, nth_error r i = Some x -> nth_error r j = Some y -> i <> j -> ~ E x y).
