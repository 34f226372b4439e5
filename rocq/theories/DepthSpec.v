(** Specification vocabulary for the depth of the tree search (C100). *)
From Verif Require Import TreeSpec.

(** E' is at most d shears away from E *)
Inductive within (E : mat Z) : nat -> mat Z -> Prop :=
| within_same d : within E d E
| within_step d X E' : within E d X -> neighbour X E' -> within E (S d) E'.

(** lat_opt.py:35: the documented default of maxiter *)
Definition documented_depth : nat := 3.
