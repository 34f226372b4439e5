(** Lattice reduction, independently of the algorithm. *)
From Verif Require Export LinAlg RMat RankOneModel LatticeSpec.
Local Open Scope R_scope.

(** B is a base of the lattice spanned by the columns of E, of the same orientation. *)
Definition same_lattice (n : nat) (E B : mat R) : Prop :=
  exists W : mat Z, wf n n W /\ det W = 1%Z /\ B = mmul E (RZ W).

(** The linear combination of the vectors [vs] with coefficients [cs] *)
Fixpoint lincomb (n : nat) (cs : list R) (vs : list (vec R)) : vec R :=
  match cs, vs with
  | c :: cs', v :: vs' => vadd (vscale c v) (lincomb n cs' vs')
  | _, _ => repeat 0 n
  end.
(** y is the component of x orthogonal to the vectors [vs]: x - y is a combination of them, and y is orthogonal to
    them. *)
Definition orth_part (n : nat) (vs : list (vec R)) (x y : vec R) : Prop :=
  length y = n /\ (exists cs, length cs = length vs /\ x = vadd y (lincomb n cs vs)) /\ forall v, In v vs -> dot y v = 0.

(** The columns of B before the i-th *)
Definition before (B : mat R) (i : nat) : list (vec R) := map (col B) (seq 0 i).

(** The condition of Lovasz with the constant of the code: the part of column i orthogonal to the columns before it is at
    most sqrt(4/3) times as long as that of the next column orthogonal to the same columns. *)
Definition lovasz (n : nat) (B : mat R) : Prop :=
  forall i x y, (i + 1 < n)%nat -> orth_part n (before B i) (col B i) x -> orth_part n (before B i) (col B (i + 1)) y ->
  dot x x <= 4 / 3 * dot y y.

(** |mu_ij| <= 1/2: the coefficient of column i along the orthogonal part of column j *)
Definition coefficient_small (n : nat) (B : mat R) (i j : nat) : Prop :=
  forall c, orth_part n (before B j) (col B j) c -> Rabs (dot (col B i) c) <= 1 / 2 * dot c c.
Definition size_reduced (n : nat) (B : mat R) : Prop :=
  forall i j, (j < i)%nat -> (i < n)%nat -> coefficient_small n B i j.

(** How far a base is from a cube: invariant under rotations and scaling of the space.  [fro2 n n M] is the sum of the
    squares of the entries of M and [minv E] the inverse of E. *)
Definition distortion (n : nat) (E : mat R) : R :=
  match n with
  | 2%nat => fro2 2 2 E * fro2 2 2 (minv E)
  | _ => fro2 3 3 E ^ 4 * fro2 3 3 (minv E) / (det E * det E)
  end.

(** The point of the lattice of E with integer coordinates z *)
Definition lattice_vector (E : mat R) (z : list Z) : vec R := mvmul E (map IZR z).
