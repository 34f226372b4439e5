(** Property theorems C49, C50, C51, C55, C70.  Specification: TreeSpec.v (reached, SL3,
    shear, neighbour, local_min, cache_history, visits), BestSpec.v (best_list),
    DirectConcSpec.v (lattice_pair); model: TreeModel.v, tree_dist in TreeConc.v. *)
From Verif Require Import LinAlg GroupModel ReduceSpec DirectConcSpec TreeSpec TreeProofs TreeDfs TreeSols TreeLatOpt TreeConc.
Local Open Scope Z_scope.

(** C49, first half: every node differs from the root by a matrix of SL(3,Z). *)
Theorem C49_stays_in_SL3 : forall R0 nd, wf 3 3 R0 -> reached R0 nd -> exists P, SL3 P /\ elem nd = mmul R0 P.
Proof. exact reached_SL. Qed.
Print Assumptions C49_stays_in_SL3.

(** What is reached, exactly: the products of powers of the six shears in one fixed order,
    with no exponent above 1. *)
Theorem C49_reached_exactly_partial : forall R0 E, wf 3 3 R0 ->
  (exists nd, reached R0 nd /\ elem nd = E) <->
  (exists a b c d e f, a <= 1 /\ b <= 1 /\ c <= 1 /\ d <= 1 /\ e <= 1 /\ f <= 1 /\
     E = mmul R0 (mmul (mmul (mmul (mmul (mmul (shear 2 1 a) (shear 2 0 b)) (shear 1 2 c)) (shear 1 0 d))
                         (shear 0 2 e)) (shear 0 1 f))).
Proof. exact reached_exactly. Qed.
Print Assumptions C49_reached_exactly_partial.

(** Second half refuted: not all of SL(3,Z) is reached. *)
Theorem C49_refuted : SL3 (shear 0 1 2) /\ ~ exists nd, reached (eye 3) nd /\ elem nd = shear 0 1 2.
Proof. exact (conj (conj (wf_shear 0 1 2) eq_refl) not_reached). Qed.
Print Assumptions C49_refuted.

(** a node three generations down *)
Example C49_case : exists nd, reached (eye 3) nd /\ elem nd = [[1; 0; -2]; [0; 1; 0]; [1; 0; -1]].
Proof.
  apply C49_reached_exactly_partial; [apply wf_eye|]. exists 0, 1, 0, 0, (-2), 0. repeat (split; [lia|]). reflexivity.
Qed.

(** C50: for every history of the cache, dfs ends; the result is no farther than the
    start, is a local minimum, differs by an element of SL(3,Z), and is the one found
    without cache. *)
Theorem C50_local_minimum_partial : forall E1 E2 LG1 LG2 c start,
  lattice_pair 3 E1 E2 LG1 LG2 -> wf 3 3 (elem start) -> cache_history (tree_dist E1 E2) (Some 0, []) c ->
  exists fuel, forall f, (fuel <= f)%nat -> exists m c', dfs (tree_dist E1 E2) f start c = Ok (m, c') /\
    cache_history (tree_dist E1 E2) (Some 0, []) c' /\
    (tree_dist E1 E2 (elem m) <= tree_dist E1 E2 (elem start))%R /\ local_min (tree_dist E1 E2) (elem m) /\
    (exists P, SL3 P /\ elem m = mmul (elem start) P) /\
    exists m0 c0, dfs (tree_dist E1 E2) f start (Some 0, []) = Ok (m0, c0) /\ elem m0 = elem m.
Proof.
  exact (fun E1 E2 LG1 LG2 c start HP => dfs_correct (tree_dist E1 E2) c start (tree_dist_finite E1 E2 LG1 LG2 HP)).
Qed.
Print Assumptions C50_local_minimum_partial.

(** the same for any distance with finitely many matrices below each level *)
Theorem C50_any_distance_partial : forall dist c start,
  finitely_many_closer dist -> wf 3 3 (elem start) -> cache_history dist (Some 0, []) c ->
  exists fuel, forall f, (fuel <= f)%nat -> exists m c', dfs dist f start c = Ok (m, c') /\
    cache_history dist (Some 0, []) c' /\
    (dist (elem m) <= dist (elem start))%R /\ local_min dist (elem m) /\
    (exists P, SL3 P /\ elem m = mmul (elem start) P) /\
    exists m0 c0, dfs dist f start (Some 0, []) = Ok (m0, c0) /\ elem m0 = elem m.
Proof. exact dfs_correct. Qed.
Print Assumptions C50_any_distance_partial.

(** Refuted for the default cache, the empty dictionary: the second of two equal calls
    always raises KeyError. *)
Theorem C50_refuted : forall dist fuel fuel' start m c,
  dfs dist fuel start (None, []) = Ok (m, c) -> dfs dist fuel' start c = Raise KeyError.
Proof. exact dfs_default_raises. Qed.
Print Assumptions C50_refuted.
Theorem C50_refuted_reachable : forall dist start, finitely_many_closer dist -> wf 3 3 (elem start) ->
  exists fuel m c, dfs dist fuel start (None, []) = Ok (m, c).
Proof. exact dfs_default_first. Qed.
Print Assumptions C50_refuted_reachable.

Example C50_case : lattice_pair 3 (eye 3) (eye 3) CUBIC_LAUE_GROUP CUBIC_LAUE_GROUP /\ wf 3 3 (shear 0 1 2) /\
  ~ local_min (tree_dist (eye 3) (eye 3)) (shear 0 1 2).
Proof. exact (conj cubic_pair cubic_start). Qed.

(** C51: after any sequence of visited matrices the solution list is the best of them. *)
Theorem C51_best_visited : forall n E1 E2 LG1 LG2 nsol Es, lattice_pair n E1 E2 LG1 LG2 -> (1 <= nsol)%nat ->
  Forall (wf n n) Es ->
  best_list (equiv_mat LG1 LG2) (tree_dist E1 E2) nsol Es (fst (visits (tree_dist E1 E2) LG1 LG2 nsol Es)).
Proof.
  exact (fun n E1 E2 LG1 LG2 nsol Es HP Hs =>
    let '(conj Hd (conj _ (conj _ (conj _ (conj _ (conj A (conj B _))))))) := HP in
    visits_best n (dim23_pos n Hd) LG1 LG2 A B (tree_dist E1 E2) (tree_dist_symmetric n E1 E2 LG1 LG2 HP) nsol Hs Es).
Qed.
Print Assumptions C51_best_visited.
Theorem C51_any_distance : forall n LG1 LG2 dist nsol Es, (0 < n)%nat -> matrix_group n LG1 -> matrix_group n LG2 ->
  symmetric_dist n LG1 LG2 dist -> (1 <= nsol)%nat -> Forall (wf n n) Es ->
  best_list (equiv_mat LG1 LG2) dist nsol Es (fst (visits dist LG1 LG2 nsol Es)).
Proof. exact (fun n LG1 LG2 dist nsol Es Hn A B Hd Hs => visits_best n Hn LG1 LG2 A B dist Hd nsol Hs Es). Qed.
Print Assumptions C51_any_distance.

(** two visits, one equivalent to the other, one better: one solution each *)
Example C51_case : Forall (wf 3 3) [shear 0 1 1; shear 0 2 1; eye 3] /\
  map fst (fst (visits (tree_dist (eye 3) (eye 3)) CUBIC_LAUE_GROUP CUBIC_LAUE_GROUP 2 [shear 0 1 1; shear 0 2 1; eye 3])) =
  [eye 3; shear 0 1 1].
Proof. exact cubic_visits. Qed.

(** C70: lat_opt ends for every pair of lattices and start; what it returns is the best of
    the matrices it visited, all in the coset lo SL(3,Z); among them is a local minimum
    no farther than the start, with all its children. *)
Theorem C70_lat_opt_ends : forall E1 E2 LG1 LG2 nsol miniter maxiter lo, lattice_pair 3 E1 E2 LG1 LG2 ->
  (1 <= nsol)%nat -> wf 3 3 lo ->
  exists k0 f0 sols, (forall k f, (k0 <= k)%nat -> (f0 <= f)%nat ->
    lat_opt_core 3 (tree_dist E1 E2) LG1 LG2 nsol miniter maxiter k f lo = Ok sols) /\
  exists m seen, best_list (equiv_mat LG1 LG2) (tree_dist E1 E2) nsol seen sols /\
    Forall (fun E => exists P, SL3 P /\ E = mmul lo P) seen /\
    In (elem m) seen /\ local_min (tree_dist E1 E2) (elem m) /\
    (tree_dist E1 E2 (elem m) <= tree_dist E1 E2 lo)%R /\
    ((0 < miniter)%nat -> forall i, In i (child_indices 3 (parent m) (grandpa m)) ->
       In (mmul (elem m) (nth i T_ (eye 3))) seen).
Proof.
  exact (fun E1 E2 LG1 LG2 nsol miniter maxiter lo HP Hs Wlo =>
    let '(conj _ (conj _ (conj _ (conj _ (conj _ (conj A (conj B _))))))) := HP in
    lat_opt_total (tree_dist E1 E2) LG1 LG2 A B (tree_dist_symmetric 3 E1 E2 LG1 LG2 HP) (tree_dist_finite E1 E2 LG1 LG2 HP)
      nsol Hs miniter maxiter lo Wlo).
Qed.
Print Assumptions C70_lat_opt_ends.

(** consequence: the list is not empty and its head is at least as close as the start *)
Theorem C70_head_no_worse : forall E1 E2 LG1 LG2 nsol miniter maxiter lo, lattice_pair 3 E1 E2 LG1 LG2 ->
  (1 <= nsol)%nat -> wf 3 3 lo ->
  exists k f L d rest, lat_opt_core 3 (tree_dist E1 E2) LG1 LG2 nsol miniter maxiter k f lo = Ok ((L, d) :: rest) /\
    d = tree_dist E1 E2 L /\ (d <= tree_dist E1 E2 lo)%R /\ exists P, SL3 P /\ L = mmul lo P.
Proof.
  intros E1 E2 LG1 LG2 nsol miniter maxiter lo HP Hs Wlo. pose proof HP as (Hd & _).
  destruct (C70_lat_opt_ends E1 E2 LG1 LG2 nsol miniter maxiter lo HP Hs Wlo)
    as (k & f & sols & Run & m & seen & (B1 & _ & B3 & _ & B5) & HF & Hm & _ & Hle & _).
  specialize (Run k f (le_n _) (le_n _)). exists k, f. rewrite Forall_forall in HF.
  destruct sols as [|[L d] rest].
  - exfalso. destruct (B5 _ Hm) as [(s & [] & _)|[Hl _]]. cbn in Hl. lia.
  - exists L, d, rest. split; [exact Run|]. destruct (B3 (L, d) (or_introl eq_refl)) as [Hin Ed]. cbn in Hin, Ed.
    split; [exact Ed|]. split; [|now apply HF].
    destruct (B5 _ Hm) as [(s & Hs' & Eq)|[_ Hl]].
    + apply In_nth_error in Hs'. destruct Hs' as [i Hi].
      assert (Es : snd s = tree_dist E1 E2 (elem m)).
      { pose proof (nth_error_In _ _ Hi) as Hin'. destruct (B3 s Hin') as [Hi2 ->]. symmetry.
        apply (tree_dist_symmetric 3 E1 E2 LG1 LG2 HP); auto.
        - destruct (HF _ Hm) as (P & [W _] & ->). apply (wf_mmul 3 3 3); auto; lia.
        - destruct (HF _ Hi2) as (P & [W _] & ->). apply (wf_mmul 3 3 3); auto; lia. }
      destruct i as [|i]; [cbn in Hi; injection Hi as <-; cbn in Es; lra|].
      pose proof (B1 0%nat (S i) (L, d) s ltac:(lia) eq_refl Hi) as Lt. apply Rleb_spec in Lt. cbn in Lt. lra.
    + specialize (Hl (L, d) (or_introl eq_refl)). apply Ord.dlt_spec, Rleb_false in Hl. cbn in Hl. lra.
Qed.
Print Assumptions C70_head_no_worse.

(** C55 refuted for all 2D inputs: the search raises at once. *)
Theorem C55_refuted : forall dist LG1 LG2 nsol miniter maxiter k fuel lo, wf 2 2 lo ->
  lat_opt_core 2 dist LG1 LG2 nsol miniter maxiter (S k) (S fuel) lo = Raise ValueError.
Proof.
  intros dist LG1 LG2 nsol miniter maxiter k fuel lo W. unfold lat_opt_core. cbn [restarts].
  rewrite dfs_dim2_raises; [reflexivity|exact W|reflexivity].
Qed.
Print Assumptions C55_refuted.
Example C55_case : wf 2 2 [[1; 0]; [0; 1]]. Proof. now apply wfb_spec. Qed.
