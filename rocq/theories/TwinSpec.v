(** Specification vocabulary for twins; independent of the code. *)
From Verif Require Export TwinModel RankOneSpec.
Local Open Scope R_scope.

(** the rotation by 180 degrees about the unit vector e: it keeps e and reverses everything orthogonal to e
    (TwinProofs.half_turn_fixes, half_turn_reverses) *)
Definition half_turn (e : vec R) : mat R :=
  mk 3 3 (fun i j => 2 * vget e i * vget e j - (if (i =? j)%nat then 1 else 0)).

(** Q V = U + a (x) n with a rotation Q and a unit vector n *)
Definition twinning (U V Q : mat R) (a n : vec R) : Prop :=
  orthogonal 3 Q /\ det Q = 1 /\ length a = 3%nat /\ length n = 3%nat /\ dot n n = 1 /\
  mmul Q V = madd U (outer a n).

(** componentwise distance at most 5e-11: the effect of rounding to ten decimals *)
Definition rounded (v v' : vec R) : Prop :=
  length v = length v' /\ forall i, (i < length v)%nat -> Rabs (vget v i - vget v' i) <= 1 / 2 / 10 ^ 10.

(** U^-1 V^2 U^-1 *)
Definition twin_matrix (U V : mat R) : mat R := mmul (mmul (minv U) V) (mmul V (minv U)).

(** V = Q U Q^T for an orthogonal Q *)
Definition variants (U V : mat R) : Prop := exists Q, orthogonal 3 Q /\ rotate Q U = V.

(** some entry differs by at least tolerance, and the middle eigenvalue of U^-1 V^2 U^-1 is within 0.005 of one *)
Definition distinct (U V : mat R) : Prop := exists i j, (i < 3)%nat /\ (j < 3)%nat /\ tolerance <= Rabs (get U i j - get V i j).
Definition nearly_twinned (U V : mat R) : Prop :=
  distinct U V /\ exists l1 l2 l3, eigenvalues (twin_matrix U V) l1 l2 l3 /\ Rabs (l2 - 1) < 5 / 1000.

(** some element of G maps U to V, up to tolerance in every entry *)
Definition conventional (G : list (mat R)) (U V : mat R) : Prop :=
  exists Q, In Q G /\ forall i j, (i < 3)%nat -> (j < 3)%nat -> Rabs (get (rotate Q U) i j - get V i j) < tolerance.

(** the off-diagonal coefficient of U^2 between the eigenvectors of U^-1 V^2 U^-1 for the smallest eigenvalue and
    for 1 is zero, or at least tolerance / 2 *)
Definition clear_pair (U V : mat R) : Prop := forall l v0 v1, l < 1 -> length v0 = 3%nat -> length v1 = 3%nat ->
  dot v0 v0 = 1 -> dot v1 v1 = 1 -> mvmul (twin_matrix U V) v0 = vscale l v0 -> mvmul (twin_matrix U V) v1 = v1 ->
  dot v1 (mvmul (mmul U U) v0) = 0 \/ tolerance / 2 <= Rabs (dot v1 (mvmul (mmul U U) v0)).

(** an object as it can be found after any calls of its methods *)
Definition pair_after (eig : mat R -> list R * mat R) (npnew skip : bool) (U V : mat R) (h : list pair_op) (p : tp) : Prop :=
  exists p0, new_pair eig skip U V = Ok p0 /\ p = pair_run eig npnew h p0.

(** lexicographic order of index pairs *)
Definition lex (x y : nat * nat) : Prop := (fst x < fst y)%nat \/ (fst x = fst y /\ (snd x < snd y)%nat).

(** e is a unit vector and the half turn about e maps U to V *)
Definition half_turn_axis (U V : mat R) (e : vec R) : Prop :=
  length e = 3%nat /\ dot e e = 1 /\ rotate (half_turn e) U = V.
