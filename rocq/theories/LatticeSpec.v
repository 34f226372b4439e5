(** Specification vocabulary for lattices. *)
From Verif Require Export LinAlg GroupModel GroupSpec.
Local Open Scope R_scope.

(** the lattice generated by the columns of E: all E z with z integer *)
Definition in_lattice (n : nat) (E : mat R) (x : list R) : Prop :=
  exists z : list Z, length z = n /\ x = mvmul E (map IZR z).
Definition sub_lattice (n : nat) (E1 E2 : mat R) : Prop := forall x, in_lattice n E1 x -> in_lattice n E2 x.
Definition same_lattice (n : nat) (E1 E2 : mat R) : Prop := forall x, in_lattice n E1 x <-> in_lattice n E2 x.

(** Q maps the lattice of E onto itself *)
Definition preserves (n : nat) (Q E : mat R) : Prop :=
  (forall x, in_lattice n E x -> in_lattice n E (mvmul Q x)) /\
  (forall y, in_lattice n E y -> exists x, in_lattice n E x /\ y = mvmul Q x).

(** a base of dimension 2 or 3 *)
Definition base (n : nat) (E : mat R) : Prop := dim23 n /\ wf n n E /\ det E <> 0.

Definition rotation_matrix (n : nat) (Q : mat R) : Prop := orthogonal n Q /\ det Q = 1.
