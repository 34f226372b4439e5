(** Specification vocabulary for the direct search (C47, C48, C57). *)
From Verif Require Export Ord Flat DirectModel ReduceSpec.
Local Open Scope Z_scope.

Section Spec.
  Context {D : Type} {T : TotalOrder D}.
  Variable n : nat.
  Variables LG_A LG_M : list (mat Z).
  Variable dist : list Z -> D.
  Variable nsol : nat.

  (** l' is a symmetry-equivalent way of writing the correspondence l: L' = M1 L M2. *)
  Definition equivalent (l l' : list Z) : Prop :=
    exists M1 M2, In M1 LG_A /\ In M2 LG_M /\ reshape n l' = mmul (mmul M1 (reshape n l)) M2.

  Definition nonsingular (l : list Z) : Prop := det (reshape n l) <> 0.

  (** [sols] is the list of the best correspondences among [seen], up to equivalence. *)
  Definition best_so_far (seen : list (list Z)) (sols : list (list Z * D)) : Prop :=
    (* sorted by distance *)
    (forall i j s t, (i < j)%nat -> nth_error sols i = Some s -> nth_error sols j = Some t ->
       dle (snd s) (snd t) = true) /\
    (* pairwise inequivalent *)
    (forall i j s t, i <> j -> nth_error sols i = Some s -> nth_error sols j = Some t ->
       ~ equivalent (fst s) (fst t)) /\
    (* each entry is a nonsingular correspondence that was seen, with its distance *)
    (forall s, In s sols -> In (fst s) seen /\ nonsingular (fst s) /\ snd s = dist (fst s)) /\
    (* entries beyond the nsol-th tie with the nsol-th *)
    (forall i s t, (nsol <= S i)%nat -> nth_error sols i = Some s -> nth_error sols (nsol - 1) = Some t ->
       snd s = snd t) /\
    (* nothing seen was lost *)
    (forall l, In l seen -> nonsingular l ->
       (exists s, In s sols /\ equivalent l (fst s)) \/
       ((nsol <= length sols)%nat /\ forall s, In s sols -> dlt (snd s) (dist l) = true)).

  (** a slice [a] tested against the bound [dmax] in force when the round started is
      accounted for by the candidates [seen]: every vector of it is no better than some
      vector of the same slice that was processed, or all of it was beyond dmax *)
  Definition covered (seen : list (list Z)) (dmax : option D) (a : list (list Z)) : Prop :=
    forall l, In l a -> exists m, In m a /\ dle (dist m) (dist l) = true /\
      (In m seen \/ exists d, dmax = Some d /\ dlt d (dist m) = true).

  (** The states of the search, with the list of candidates processed so far: add_sol on
      single nonsingular candidates (initialisation), then update_sol on arbitrary
      batches. *)
  Inductive history : list (list Z) -> @state D -> Prop :=
  | h_start : history [] ([], [], None)
  | h_add seen sols ext dmax l sols' ext' d' :
      history seen (sols, ext, dmax) -> length l = (n * n)%nat -> nonsingular l ->
      add_sol n LG_A LG_M nsol (l, dist l) sols ext = Ok (sols', ext', d') ->
      history (l :: seen) (sols', ext', Some d')
  | h_batch seen st ls b st' :
      history seen st -> (nsol <= length (fst (fst st)))%nat ->
      Forall (fun l => length l = n * n)%nat ls ->
      update_sol n LG_A LG_M dist nsol ls st = Ok (b, st') ->
      history (ls ++ seen) st'.
End Spec.
