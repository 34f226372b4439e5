(** Specification vocabulary for the distances (C41-C43, C46). *)
From Verif Require Export LinAlg.
Local Open Scope R_scope.

(** M maps the lattice with basis E (columns) onto itself by an isometry Q:
    E M = Q E. *)
Definition isometry_of (n : nat) (E M : mat R) : Prop :=
  wf n n M /\ exists Q, orthogonal n Q /\ mmul E M = mmul Q E.

(** E1 L = Q E2 with Q orthogonal: the correspondence L carries one lattice onto the
    other without strain. *)
Definition strain_free (n : nat) (E1 L E2 : mat R) : Prop :=
  exists Q, orthogonal n Q /\ mmul E1 L = mmul Q E2.

(** squared Euclidean length of a flat vector *)
Definition len2 (x : list R) : R := sumn (length x) (fun k => nth k x 0 * nth k x 0).
