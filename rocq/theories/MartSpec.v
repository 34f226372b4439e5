(** Specification vocabulary for martensite variants: independent of martensite.py. *)
From Coq Require Export Permutation.
From Verif Require Export LatticeSpec MartModel.
Local Open Scope R_scope.

Definition symmetric (U : mat R) : Prop := wf 3 3 U /\ tr U = U.
(** x . U x > 0 for every vector x except zero *)
Definition positive_definite (U : mat R) : Prop :=
  symmetric U /\ forall x y z, (x, y, z) <> (0, 0, 0) -> 0 < dot [x; y; z] (mvmul U [x; y; z]).

(** the stretch tensor the argument list of setU stands for *)
Definition documented (args : list marg) : option (mat R) :=
  match args with
  | Seq (Some M) :: _ => if wfb 3 3 M then Some M else None
  | [Num a] => Some (M3 a 0 0  0 a 0  0 0 a)
  | [Num a; Num c] => Some (M3 a 0 0  0 a 0  0 0 c)
  | [Num a; Num b; Num c] => Some (M3 a b 0  b a 0  0 0 c)
  | [Num a; Num b; Num d; Num c] => Some (M3 a b 0  b d 0  0 0 c)
  | _ => None
  end.

(** Q U Q^T *)
Definition rotate (Q U : mat R) : mat R := mmul (mmul Q U) (tr Q).

(** a finite group of orthogonal 3 x 3 matrices *)
Definition rotation_group (G : list (mat R)) : Prop := is_group 3 G /\ forall Q, In Q G -> orthogonal 3 Q.

(** different images of U under the group differ by more than the comparison tolerance *)
Definition separated (U : mat R) (G : list (mat R)) : Prop :=
  forall P Q, In P G -> In Q G -> allclose (rotate P U) (rotate Q U) = true -> rotate P U = rotate Q U.

(** the objects a program can hold: built by the constructor and changed by any calls *)
Inductive reachable : mart -> Prop :=
| r_new U g : reachable (new_mart U g)
| r_setU m args m' : reachable m -> setU m args = Ok m' -> reachable m'
| r_setLaue m a m' : reachable m -> setLaue m a = Ok m' -> reachable m'
| r_variants m l m' : reachable m -> getvariants m = Ok (l, m') -> reachable m'
| r_variant m n U m' : reachable m -> getvariant m n = Ok (U, m') -> reachable m'
| r_idx m l m' : reachable m -> getLaueidx m = Ok (l, m') -> reachable m'.

(** The list of variants with, for each, the indices of the group elements that produce it. *)
Record is_orbit (U : mat R) (G : list (mat R)) (Us : list (mat R)) (idx : list (list nat)) : Prop := {
  first : hd_error Us = Some U;
  once : NoDup Us;
  exact : forall V, In V Us <-> exists Q, In Q G /\ V = rotate Q U;
  blocks : length idx = length Us;
  partition : Permutation (concat idx) (seq 0 (length G));
  belongs : forall j i, (j < length Us)%nat ->
    (In i (nth j idx []) <-> exists Q, nth_error G i = Some Q /\ rotate Q U = nth j Us []);
  equal_size : exists k, (forall b, In b idx -> length b = k) /\ length G = (length Us * k)%nat
}.
