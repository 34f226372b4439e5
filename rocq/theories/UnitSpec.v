(** Changing the unit of length, independently of the code. *)
From Verif Require Import LinAlg RMat.
Local Open Scope R_scope.

(** How many of the parameters of a lattice type, the first ones, are lengths; the others are angles.  The types are numbered
    as in the documentation.  In three dimensions: cubic P, F, I; hexagonal; trigonal (a, alpha); tetragonal P, I;
    orthorhombic P, C, F, I; monoclinic P, C (a, b, c, beta); triclinic (a, b, c, alpha, beta, gamma).  In two: square,
    rectangular P, I; hexagonal; oblique (a, b, gamma). *)
Definition number_of_lengths (dim id : Z) : nat :=
  if (dim =? 3)%Z then
    match id with
    | 1%Z | 2%Z | 3%Z | 5%Z => 1%nat
    | 4%Z | 6%Z | 7%Z => 2%nat
    | _ => 3%nat
    end
  else
    match id with
    | 1%Z | 4%Z => 1%nat
    | _ => 2%nat
    end.
(** The parameters p in a unit of length c times smaller *)
Definition in_unit (dim : Z) (c : R) (id : Z) (p : list R) : list R :=
  map (Rmult c) (firstn (number_of_lengths dim id) p) ++ skipn (number_of_lengths dim id) p.

(** S is a similarity of the space: it preserves angles and multiplies all lengths by sqrt kap. *)
Definition similarity (n : nat) (kap : R) (S : mat R) : Prop := wf n n S /\ 0 < kap /\ mmul (tr S) S = mscale kap (eye n).
