(** Specification vocabulary for C78: what a solution of lat_cor has to be. *)
From Coq Require Import Permutation Sorted.
From Verif Require Export LinAlg Eig Spectral HnfSpec TreeSpec BravaisSpec.
Local Open Scope R_scope.

(** EA is a base of the lattice whose conventional cell, spanned by the columns of BA, has the edges
    and angles of c and holds [points_per_cell ce] lattice points *)
Definition lattice_with_cell (ce : centring) (c : cell) (E B : mat R) : Prop :=
  wf 3 3 E /\ det E <> 0 /\ has_cell 3 B c /\
  exists C : mat Z, wf 3 3 C /\ det C = points_per_cell ce /\ B = mmul E (RZ C).

(** the sublattice sizes for a volume ratio r: those within the threshold, or the nearest integer if
    there is none *)
Definition within_threshold (r vol_th : R) (k : Z) : Prop := (1 - vol_th) * r <= IZR k <= (1 + vol_th) * r.
Definition allowed_size (r vol_th : R) (k : Z) : Prop :=
  within_threshold r vol_th k \/
  (~ (exists k', within_threshold r vol_th k') /\ Rabs (r - IZR k) <= 1/2).

(** The three distances of a deformation F that carries the base E1 onto E2; [Finv] is its inverse.
    [fro2 3 3 M] is the sum of the squares of the entries of M. *)
Inductive distance := dCauchy | dEricksen | dStrain.
Definition has_distance (which : distance) (E1 E2 Finv : mat R) (d : R) : Prop :=
  match which with
  | dCauchy => d = fro2 3 3 (msub (mmul Finv (tr Finv)) (eye 3))
  | dEricksen => d * fro2 3 3 (mmul (tr E2) E2) = fro2 3 3 (msub (mmul (tr E1) E1) (mmul (tr E2) E2))
  | dStrain => exists l1 l2 l3 V, eigen 3 (mmul Finv (tr Finv)) [l1; l2; l3] V /\
      d = (sqrt l1 - 1) ^ 2 + (sqrt l2 - 1) ^ 2 + (sqrt l3 - 1) ^ 2
  end.

(** A solution: sublattice h of the parent lattice EA, correspondence l, distance d, the correspondence
    of conventional cells cor, stretch U and its eigenvalues lams *)
Record genuine (which : distance) (vol_th : R) (EA EM BA BM : mat R)
    (d : R) (h l : mat Z) (cor U : mat R) (lams : list R) : Prop := {
  g_hnf : is_hnf 3 h;
  g_size : allowed_size (det EM / det EA) vol_th (det h);
  g_l : SL3 l;
  (* a deformation F carries the base EA h l of the sublattice onto the base EM *)
  g_F : exists F Finv, wf 3 3 F /\ wf 3 3 Finv /\ mmul F Finv = eye 3 /\ mmul Finv F = eye 3 /\
    mmul F (mmul EA (RZ (mmul h l))) = EM /\
    (* in conventional cells it carries BA cor onto BM *)
    mmul F (mmul BA cor) = BM /\
    (* U is the stretch of F *)
    symmetric U /\ posdef 3 U /\ mmul U U = mmul (tr F) F /\
    has_distance which (mmul EA (RZ (mmul h l))) EM Finv d;
  g_lams : StronglySorted Rle lams /\ exists mu V, eigen 3 U mu V /\ Permutation lams mu
}.

(** d is the distance of the correspondence N: the base EA N is carried onto EM *)
Definition measures (which : distance) (EA EM : mat R) (N : mat Z) (d : R) : Prop :=
  let X := mmul EA (RZ N) in has_distance which X EM (mmul X (minv EM)) d.

(** the sizes that must be searched: as [allowed_size], but of two integers equally near one will do *)
Definition required_size (r vol_th : R) (k : Z) : Prop :=
  within_threshold r vol_th k \/
  (~ (exists k', within_threshold r vol_th k') /\ Rabs (r - IZR k) < 1/2).
