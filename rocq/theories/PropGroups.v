(** Property theorems C10, C11.  Specification: GroupSpec.v; model: GroupModel.v. *)
From Verif Require Import RMat Hom GroupModel GroupSpec GroupProofs.

(** C10: CUBIC_LAUE_GROUP is exactly the set of integer rotation matrices. *)
Theorem C10_cubic_table : NoDup CUBIC_LAUE_GROUP /\
  forall Q : mat Z, In Q CUBIC_LAUE_GROUP <-> orthogonal 3 Q /\ det Q = 1%Z.
Proof. exact (conj cubic_NoDup cubic_iff). Qed.
Print Assumptions C10_cubic_table.

(** C10: SQUARE_EXT_GROUP is exactly the set of orthogonal integer 2 x 2 matrices,
    SQUARE_GROUP those of determinant 1. *)
Theorem C10_square_tables :
  NoDup SQUARE_EXT_GROUP /\ NoDup SQUARE_GROUP /\
  (forall Q : mat Z, In Q SQUARE_EXT_GROUP <-> orthogonal 2 Q) /\
  (forall Q : mat Z, In Q SQUARE_GROUP <-> orthogonal 2 Q /\ det Q = 1%Z).
Proof. exact (conj square_ext_NoDup (conj square_NoDup (conj square_ext_iff square_iff))). Qed.
Print Assumptions C10_square_tables.

(** C10: the three hexagonal tables are groups of distinct orthogonal matrices. *)
Theorem C10_hexagonal_tables :
  (is_group 3 HEX_LAUE_GROUP /\ forall Q, In Q HEX_LAUE_GROUP -> orthogonal 3 Q /\ det Q = 1%R) /\
  (is_group 2 HEX2D_GROUP /\ forall Q, In Q HEX2D_GROUP -> orthogonal 2 Q /\ det Q = 1%R) /\
  (is_group 2 HEX2D_EXT_GROUP /\ forall Q, In Q HEX2D_EXT_GROUP -> orthogonal 2 Q).
Proof.
  exact (conj (conj (proj1 HEX_group) (fun Q H => conj (proj1 (proj2 HEX_group Q H)) (HEX_det Q H)))
        (conj (conj (proj1 HEX2D_good) (fun Q H => conj (proj1 (proj2 HEX2D_good Q H)) (HEX2D_det Q H)))
              (conj (proj1 HEX2D_EXT_good) (fun Q H => proj1 (proj2 HEX2D_EXT_good Q H))))).
Qed.
Print Assumptions C10_hexagonal_tables.
Example C10_orders : length CUBIC_LAUE_GROUP = 24 /\ length HEX_LAUE_GROUP = 12 /\
  length SQUARE_EXT_GROUP = 8 /\ length SQUARE_GROUP = 4 /\
  length HEX2D_EXT_GROUP = 12 /\ length HEX2D_GROUP = 6.
Proof. now repeat split. Qed.

(** C10: the integer tables are groups too (as the real matrices numpy uses). *)
Theorem C10_integer_tables_are_groups :
  is_group 3 (map RZ CUBIC_LAUE_GROUP) /\ is_group 2 (map RZ SQUARE_EXT_GROUP) /\
  is_group 2 (map RZ SQUARE_GROUP).
Proof. exact (conj (proj1 CUBIC_good) (conj (proj1 SQUARE_EXT_good) (proj1 SQUARE_good))). Qed.
Print Assumptions C10_integer_tables_are_groups.

(** C11: what G.hassubgroup(g) decides, for all lists of matrices. *)
Theorem C11_hassubgroup_decides : forall G g, G <> [] ->
  hassubgroup G (Some g) = Ok true <->
  ((0 < length g)%nat /\ Nat.divide (length g) (length G)) /\
  (forall m1, In m1 g -> exists m2, In m2 G /\ allclose m1 m2 = true).
Proof. exact hassubgroup_iff. Qed.
Print Assumptions C11_hassubgroup_decides.

(** the boundary cases: empty lists, wrong argument type, no other exception *)
Theorem C11_hassubgroup_rest :
  (forall g, hassubgroup [] (Some g) = Ok true <-> g = []) /\
  (forall G, hassubgroup G None = Raise TypeError) /\
  (forall G g, exists b, hassubgroup G (Some g) = Ok b).
Proof. exact (conj hassubgroup_empty (conj (fun _ => eq_refl) hassubgroup_total)). Qed.
Print Assumptions C11_hassubgroup_rest.

Theorem C11_reflexive : forall G, hassubgroup G (Some G) = Ok true.
Proof. exact hassubgroup_refl. Qed.
Print Assumptions C11_reflexive.

(** C11: on true groups whose elements are further apart than the tolerance it is the
    subgroup relation (the order test is implied, by Lagrange's theorem). *)
Theorem C11_on_groups : forall n G g, (0 < n)%nat -> is_group n G -> is_group n g ->
  (forall m1 m2, In m1 g -> In m2 G -> allclose m1 m2 = true -> m1 = m2) ->
  (hassubgroup G (Some g) = Ok true <-> incl g G).
Proof. exact hassubgroup_groups. Qed.
Print Assumptions C11_on_groups.

(** the separation hypothesis holds for integer matrices of moderate size *)
Theorem C11_integers_are_separated : forall n (M N : mat Z), wf (S n) (S n) M -> wf (S n) (S n) N ->
  (forall i j, (i < S n)%nat -> (j < S n)%nat -> (Z.abs (get N i j) < 90000)%Z) ->
  allclose (RZ M) (RZ N) = true -> M = N.
Proof. exact allclose_integers. Qed.
Print Assumptions C11_integers_are_separated.

Example C11_case : is_group 2 (map RZ SQUARE_EXT_GROUP) /\ is_group 2 (map RZ SQUARE_GROUP) /\
  incl (map RZ SQUARE_GROUP) (map RZ SQUARE_EXT_GROUP).
Proof.
  split; [apply SQUARE_EXT_good|]. split; [apply SQUARE_good|].
  intros x Hx. apply in_map_iff in Hx. destruct Hx as [M [<- HM]]. apply in_map.
  apply square_ext_iff. now apply square_iff in HM.
Qed.
