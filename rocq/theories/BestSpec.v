(** Specification vocabulary for lists of best solutions (C51, C52). *)
From Verif Require Export Ord.

Section Best.
  Context {X D : Type} {T : TotalOrder D}.
  Variable equiv : X -> X -> Prop.   (* symmetry equivalence *)
  Variable dist : X -> D.
  Variable nsol : nat.

  (** [sols] lists the best of [seen], one per equivalence class, with its distance *)
  Definition best_list (seen : list X) (sols : list (X * D)) : Prop :=
    (* sorted by distance *)
    (forall i j s t, (i < j)%nat -> nth_error sols i = Some s -> nth_error sols j = Some t ->
       dle (snd s) (snd t) = true) /\
    (* pairwise inequivalent *)
    (forall i j s t, i <> j -> nth_error sols i = Some s -> nth_error sols j = Some t ->
       ~ equiv (fst s) (fst t)) /\
    (* each entry was seen and carries its own distance *)
    (forall s, In s sols -> In (fst s) seen /\ snd s = dist (fst s)) /\
    (* entries beyond the nsol-th tie with the nsol-th *)
    (forall i s t, (nsol <= S i)%nat -> nth_error sols i = Some s -> nth_error sols (nsol - 1) = Some t ->
       snd s = snd t) /\
    (* nothing seen was lost: it is listed up to equivalence, or the list is full and it
       is strictly worse than all of it *)
    (forall x, In x seen ->
       (exists s, In s sols /\ equiv x (fst s)) \/
       ((nsol <= length sols)%nat /\ forall s, In s sols -> dlt (snd s) (dist x) = true)).
End Best.
