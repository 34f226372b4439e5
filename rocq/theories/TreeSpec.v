(** Specification vocabulary for the tree search (C49-C51, C55). *)
From Verif Require Export BestSpec TreeModel ReduceSpec.
Local Open Scope Z_scope.

(** the nodes reached from a root matrix by the children relation *)
Inductive reached (R0 : mat Z) : node -> Prop :=
| reached_root : reached R0 (Node R0 None None)
| reached_child nd i E : reached R0 nd -> In i (child_indices 3 (parent nd) (grandpa nd)) ->
    np_dot (elem nd) (nth i T_ (eye 3)) = Ok E -> reached R0 (Node E (Some i) (parent nd)).

(** the elementary shear I + k e_i (x) e_j *)
Definition shear (i j : nat) (k : Z) : mat Z :=
  mk 3 3 (fun a b => if (a =? b)%nat then 1 else if (a =? i)%nat && (b =? j)%nat then k else 0).

Definition SL3 (P : mat Z) : Prop := wf 3 3 P /\ det P = 1.

(** E2 is a symmetry-equivalent way of writing the correspondence E1 *)
Definition equiv_mat (LG1 LG2 : list (mat Z)) (E1 E2 : mat Z) : Prop :=
  exists q1 q2, In q1 LG1 /\ In q2 LG2 /\ E2 = mmul (mmul q1 E1) q2.

(** the matrices one shear away *)
Definition neighbour (E E' : mat Z) : Prop :=
  exists i j s, (i < 3)%nat /\ (j < 3)%nat /\ i <> j /\ (s = 1 \/ s = -1) /\ E' = mmul E (shear i j s).

(** only finitely many matrices are closer than any given distance *)
Definition finitely_many_closer (dist : mat Z -> R) : Prop :=
  forall d, exists S, forall E, wf 3 3 E -> (dist E <= d)%R -> In E S.

(** the dfs caches that arise from calls of dfs for one distance function, starting from
    the dictionary [c0] *)
Inductive cache_history (dist : mat Z -> R) (c0 : dfs_cache) : dfs_cache -> Prop :=
| cache_start : cache_history dist c0 c0
| cache_call c fuel start m c' : cache_history dist c0 c -> wf 3 3 (elem start) ->
    dfs dist fuel start c = Ok (m, c') -> cache_history dist c0 c'.

(** E is a local minimum: no matrix one shear away is closer *)
Definition local_min (dist : mat Z -> R) (E : mat Z) : Prop :=
  forall E', neighbour E E' -> (dist E <= dist E')%R.

(** the solution list after visiting some matrices in order *)
Definition visit (dist : mat Z -> R) (LG1 SOLG2 : list (mat Z)) (nsol : nat) (st : sol_state) (E : mat Z) : sol_state :=
  snd (update_solutions dist LG1 SOLG2 nsol E st).
Definition visits dist LG1 SOLG2 nsol (Es : list (mat Z)) : sol_state :=
  fold_left (visit dist LG1 SOLG2 nsol) Es ([], []).

(** the distance does not tell equivalent correspondences apart *)
Definition symmetric_dist (n : nat) (LG1 LG2 : list (mat Z)) (dist : mat Z -> R) : Prop :=
  forall E E', wf n n E -> wf n n E' -> equiv_mat LG1 LG2 E E' -> dist E = dist E'.
