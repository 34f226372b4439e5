(** Specification vocabulary for C83 and C84: what a solution of lat_cor_direct has to be, in two or three dimensions. *)
From Coq Require Import Permutation Sorted.
From Verif Require Export LinAlg Eig Spectral BravaisSpec GroupModel.
Local Open Scope R_scope.

(** E is a base of the n-dimensional lattice whose conventional cell, spanned by the columns of B, has the edges and angles
    of c and holds [points_per_cell ce] lattice points *)
Definition lattice_of_cell (n : nat) (ce : centring) (c : cell) (E B : mat R) : Prop :=
  wf n n E /\ det E <> 0 /\ has_cell n B c /\
  exists C : mat Z, wf n n C /\ det C = points_per_cell ce /\ B = mmul E (RZ C).

(** A solution: integer matrix l, distance d, the correspondence of conventional cells cor, stretch U and its eigenvalues lams *)
Record genuine_direct (n : nat) (EA EM BA BM : mat R) (d : R) (l : mat Z) (cor U : mat R) (lams : list R) : Prop := {
  gd_l : wf n n l /\ det l <> 0%Z;
  (* a deformation F carries the base EA l of a sublattice of the parent onto the base EM *)
  gd_F : exists F Finv, wf n n F /\ wf n n Finv /\ mmul F Finv = eye n /\ mmul Finv F = eye n /\
    mmul F (mmul EA (RZ l)) = EM /\
    (* in conventional cells it carries BA cor onto BM *)
    mmul F (mmul BA cor) = BM /\
    (* U is the stretch of F *)
    symmetric U /\ posdef n U /\ mmul U U = mmul (tr F) F /\
    (* d is the Cauchy distance: the sum of the squares of the entries of Finv Finv^T - I *)
    d = fro2 n n (msub (mmul Finv (tr Finv)) (eye n));
  gd_lams : StronglySorted Rle lams /\ exists mu V, eigen n U mu V /\ Permutation lams mu
}.

(** l' is l seen through symmetries of the two lattices *)
Definition same_up_to (GA GM : list (mat Z)) (l l' : mat Z) : Prop :=
  exists M1 M2, In M1 GA /\ In M2 GM /\ l' = mmul (mmul M1 l) M2.

(** d is the Cauchy distance of the integer matrix l *)
Definition cauchy_distance (n : nat) (EA EM : mat R) (l : mat Z) (d : R) : Prop :=
  exists Finv, wf n n Finv /\ mmul Finv EM = mmul EA (RZ l) /\ d = fro2 n n (msub (mmul Finv (tr Finv)) (eye n)).
