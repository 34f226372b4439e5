(** Specification vocabulary for C52-C54. *)
From Verif Require Export BestSpec HnfSearchModel TreeSpec.
Local Open Scope Z_scope.

(** the correspondence of a solution: the sublattice h times the correspondence l of the sublattice *)
Definition total (s : hsol) : mat Z := mmul (hh s) (hl s).

(** a per-sublattice result as lat_opt delivers it: distances belong to the
    correspondences h l, ascending *)
Definition sorted_result (n : nat) (dist : mat Z -> R) (new : list hsol) : Prop :=
  (forall s, In s new -> wf n n (total s) /\ hd_ s = dist (total s)) /\
  (forall i j s t, (i < j)%nat -> nth_error new i = Some s -> nth_error new j = Some t -> (hd_ s <= hd_ t)%R).

(** it offers at least k pairwise inequivalent solutions *)
Definition offers (LG_A LG_M : list (mat Z)) (k : nat) (new : list hsol) : Prop :=
  exists l, length l = k /\ (forall s, In s l -> In s new) /\
    forall i j s t, i <> j -> nth_error l i = Some s -> nth_error l j = Some t ->
      ~ equiv_mat LG_A LG_M (total s) (total t).

(** the events of a run *)
Definition submitted (log : list event) : list nat :=
  flat_map (fun e => match e with Submit i => [i] | Merge _ => [] end) log.
Definition merged (log : list event) : list nat :=
  flat_map (fun e => match e with Merge i => [i] | Submit _ => [] end) log.

(** every task, once ready, stays ready, and becomes ready at some time *)
Definition eventually_ready (N : nat) (ready : nat -> nat -> bool) : Prop :=
  forall i, (i < N)%nat -> exists t0, forall t, (t0 <= t)%nat -> ready t i = true.
