(** Property theorems C52, C53, C54.  Specification: HnfSearchSpec.v (sorted_result, offers,
    submitted, merged, eventually_ready), BestSpec.v (best_list), TreeSpec.v (equiv_mat,
    symmetric_dist); model: HnfSearchModel.v. *)
From Verif Require Import LinAlg GroupModel ReduceSpec ReduceProofs DirectConcSpec TreeSpec TreeConc
  HnfSearchSpec HnfSearchProofs HnfMergeExact HnfSearchAsync HnfSearchConc.
From Coq Require Import Permutation.
Local Open Scope Z_scope.

(** C52 as stated fails: with room for two solutions, a result that is worse than the only
    one found so far is dropped although the list is not full. *)
Theorem C52_refuted : exists results results',
  lattice_pair 3 (eye 3) (eye 3) CUBIC_LAUE_GROUP CUBIC_LAUE_GROUP /\
  Forall (sorted_result 3 (tree_dist (eye 3) (eye 3))) results /\ Permutation results results' /\
  map hd_ (fst (merge_all CUBIC_LAUE_GROUP CUBIC_LAUE_GROUP 2 results)) = [0%R] /\
  map hd_ (fst (merge_all CUBIC_LAUE_GROUP CUBIC_LAUE_GROUP 2 results')) = [0%R; 3%R].
Proof.
  exact (ex_intro _ [[s_eye]; [s_sh]] (ex_intro _ [[s_sh]; [s_eye]] (conj cubic_pair
    (conj (Forall_cons _ cube_eye_res (Forall_cons _ cube_sh_res (Forall_nil _))) (conj (perm_swap _ _ []) order_matters))))).
Qed.
Print Assumptions C52_refuted.

(** It holds when every result offers nsol inequivalent solutions: the final list is the
    best of all candidates, and its distances do not depend on the order. *)
Theorem C52_best_of_all_partial : forall n LG_A LG_M dist nsol results, (0 < n)%nat ->
  matrix_group n LG_A -> matrix_group n LG_M -> symmetric_dist n LG_A LG_M dist -> (1 <= nsol)%nat ->
  (forall new, In new results -> sorted_result n dist new /\ offers LG_A LG_M nsol new) ->
  best_list (equiv_mat LG_A LG_M) dist nsol (map total (concat results))
    (map (fun s => (total s, hd_ s)) (fst (merge_all LG_A LG_M nsol results))).
Proof. exact (fun n LG_A LG_M dist nsol results Hn A B Hd Hs => merge_all_best n Hn LG_A LG_M A B dist Hd nsol Hs results). Qed.
Print Assumptions C52_best_of_all_partial.
Theorem C52_order_partial : forall n LG_A LG_M dist nsol results results', (0 < n)%nat ->
  matrix_group n LG_A -> matrix_group n LG_M -> symmetric_dist n LG_A LG_M dist -> (1 <= nsol)%nat ->
  Permutation results results' ->
  (forall new, In new results -> sorted_result n dist new /\ offers LG_A LG_M nsol new) ->
  map hd_ (fst (merge_all LG_A LG_M nsol results)) = map hd_ (fst (merge_all LG_A LG_M nsol results')).
Proof.
  exact (fun n LG_A LG_M dist nsol results results' Hn A B Hd Hs => merge_all_perm n Hn LG_A LG_M A B dist Hd nsol Hs results results').
Qed.
Print Assumptions C52_order_partial.
(** Whatever the sizes of the results, the first solution is the best of all candidates. *)
Theorem C52_head_partial : forall n LG_A LG_M dist nsol results, (0 < n)%nat ->
  matrix_group n LG_A -> matrix_group n LG_M -> symmetric_dist n LG_A LG_M dist -> (1 <= nsol)%nat ->
  (forall new, In new results -> sorted_result n dist new) -> concat results <> [] ->
  exists s rest, fst (merge_all LG_A LG_M nsol results) = s :: rest /\
    (exists c, In c (concat results) /\ total c = total s /\ hd_ c = hd_ s) /\
    forall c, In c (concat results) -> (hd_ s <= hd_ c)%R.
Proof. exact (fun n LG_A LG_M dist nsol results Hn A B Hd Hs => merge_all_head n Hn LG_A LG_M A B dist Hd nsol Hs results). Qed.
Print Assumptions C52_head_partial.
(** What the list is in every case: the best of those candidates that are not worse than the worst solution of the first
    result that is not empty. *)
Theorem C52_exact_partial : forall n LG_A LG_M dist nsol empties first rest worst, (0 < n)%nat ->
  matrix_group n LG_A -> matrix_group n LG_M -> symmetric_dist n LG_A LG_M dist -> (1 <= nsol)%nat ->
  (forall r, In r empties -> r = []) -> (forall new, In new (first :: rest) -> sorted_result n dist new) ->
  In worst first -> (forall s, In s first -> (hd_ s <= hd_ worst)%R) ->
  let results := empties ++ first :: rest in
  best_list (equiv_mat LG_A LG_M) dist nsol (map total (filter (fun s => Rleb (hd_ s) (hd_ worst)) (concat results)))
    (map (fun s => (total s, hd_ s)) (fst (merge_all LG_A LG_M nsol results))).
Proof.
  exact (fun n LG_A LG_M dist nsol empties first rest worst Hn A B Hd Hs => merge_all_exact n Hn LG_A LG_M A B dist Hd nsol Hs empties first rest worst).
Qed.
Print Assumptions C52_exact_partial.
Example C52_exact_case : let results := [[]] ++ [s_eye] :: [[s_sh]] in
  best_list (equiv_mat CUBIC_LAUE_GROUP CUBIC_LAUE_GROUP) (tree_dist (eye 3) (eye 3)) 2 (map total (filter (fun s => Rleb (hd_ s) (hd_ s_eye)) (concat results)))
    (map (fun s => (total s, hd_ s)) (fst (merge_all CUBIC_LAUE_GROUP CUBIC_LAUE_GROUP 2 results))) /\ (hd_ s_eye < hd_ s_sh)%R.
Proof.
  destruct cubic_pair as (Hd & _ & _ & _ & _ & A & B & _). split; [|cbn; lra].
  apply (C52_exact_partial 3 CUBIC_LAUE_GROUP CUBIC_LAUE_GROUP (tree_dist (eye 3) (eye 3)) 2 [[]] [s_eye] [[s_sh]] s_eye); auto; try lia.
  - exact (tree_dist_symmetric 3 (eye 3) (eye 3) _ _ cubic_pair).
  - intros r [<-|[]]. reflexivity.
  - intros new [<-|[<-|[]]]; [exact cube_eye_res|exact cube_sh_res].
  - now left.
  - intros s [<-|[]]. lra.
Qed.
(** For the Cauchy distance of two lattices, as lat_cor uses it (its distance for the
    sublattice h depends on h l only). *)
Theorem C52_lattices_partial : forall n EA EM LG_A LG_M nsol results results', lattice_pair n EA EM LG_A LG_M -> (1 <= nsol)%nat ->
  Permutation results results' ->
  (forall new, In new results -> sorted_result n (tree_dist EA EM) new /\ offers LG_A LG_M nsol new) ->
  map hd_ (fst (merge_all LG_A LG_M nsol results)) = map hd_ (fst (merge_all LG_A LG_M nsol results')).
Proof.
  exact (fun n EA EM LG_A LG_M nsol results results' HP Hs =>
    let '(conj Hd (conj _ (conj _ (conj _ (conj _ (conj A (conj B _))))))) := HP in
    merge_all_perm n (dim23_pos n Hd) LG_A LG_M A B (tree_dist EA EM) (tree_dist_symmetric n EA EM LG_A LG_M HP) nsol Hs results results').
Qed.
Print Assumptions C52_lattices_partial.
Example C52_case : lattice_pair 3 (eye 3) (eye 3) CUBIC_LAUE_GROUP CUBIC_LAUE_GROUP /\
  (forall new, In new [[s_eye]; [s_sh]] -> sorted_result 3 (tree_dist (eye 3) (eye 3)) new /\ offers CUBIC_LAUE_GROUP CUBIC_LAUE_GROUP 1 new) /\
  (sorted_result 3 (tree_dist (eye 3) (eye 3)) [s_eye; s_sh] /\ offers CUBIC_LAUE_GROUP CUBIC_LAUE_GROUP 2 [s_eye; s_sh]).
Proof.
  split; [exact cubic_pair|]. split; [|exact (conj cube_both_res cube_both_offers)].
  intros new [<-|[<-|[]]]; (split; [exact cube_eye_res || exact cube_sh_res|apply single_offers]).
Qed.

(** C53: for every number of sublattices, pool size and schedule the loop ends; sublattices
    are submitted once each, in order; each result is merged once; at no moment is a result
    merged before its submission or are more than poolsize tasks pending; the final state is
    the one after merging in the order of the log. *)
Theorem C53_async_loop : forall (A : Type) N poolsize ready (merge : A -> nat -> A), (1 <= poolsize)%nat ->
  eventually_ready N ready ->
  exists log fuel0,
    submitted log = seq 0 N /\ Permutation (merged log) (seq 0 N) /\
    (forall k, let p := firstn k log in
       incl (merged p) (submitted p) /\ (length (submitted p) <= length (merged p) + poolsize)%nat) /\
    forall fuel acc, (fuel0 <= fuel)%nat ->
      async_loop N poolsize ready merge fuel acc = Ok (fold_left merge (merged log) acc, log).
Proof. exact (fun A N poolsize ready merge Hp => async_ok N poolsize Hp ready merge). Qed.
Print Assumptions C53_async_loop.
(** With C52: every schedule gives the distances of the serial run. *)
Theorem C53_any_schedule_is_serial : forall n LG_A LG_M dist nsol N poolsize ready (results : nat -> list hsol),
  (0 < n)%nat -> matrix_group n LG_A -> matrix_group n LG_M -> symmetric_dist n LG_A LG_M dist -> (1 <= nsol)%nat ->
  (1 <= poolsize)%nat -> eventually_ready N ready ->
  (forall i, (i < N)%nat -> sorted_result n dist (results i) /\ offers LG_A LG_M nsol (results i)) ->
  exists fuel0, forall fuel, (fuel0 <= fuel)%nat -> exists sols ext log,
    async_loop N poolsize ready (fun st i => merge_sols LG_A LG_M nsol st (results i)) fuel ([], []) = Ok ((sols, ext), log) /\
    map hd_ sols = map hd_ (fst (merge_all LG_A LG_M nsol (map results (seq 0 N)))).
Proof. exact async_serial. Qed.
Print Assumptions C53_any_schedule_is_serial.
(** the hypothesis on the pool size is needed: with poolsize = 0 nothing is solved *)
Theorem C53_no_pool : forall (A : Type) N ready (merge : A -> nat -> A) fuel acc, async_loop N 0 ready merge fuel acc = Ok (acc, []).
Proof. exact @async_no_pool. Qed.
Print Assumptions C53_no_pool.
(** three tasks, two at a time, task 0 slow *)
Example C53_case : eventually_ready 3 (fun t i => (4 * (1 - i) <=? t)%nat) /\
  async_loop 3 2 (fun t i => (4 * (1 - i) <=? t)%nat) (fun l i => l ++ [i]) 20 [] =
    Ok ([1; 2; 0]%nat, [Submit 0; Submit 1; Merge 1; Submit 2; Merge 2; Merge 0]).
Proof.
  split; [|reflexivity]. intros i Hi. exists 4%nat. intros t Ht. apply Nat.leb_le. lia.
Qed.

(** C54: the sizes are the integers within the threshold, once each, or the integer nearest
    to r if there is none. *)
Theorem C54_sizes : forall r vol_th, NoDup (vol_factors r vol_th) /\
  ((exists k, (1 - vol_th) * r <= IZR k <= (1 + vol_th) * r)%R ->
    forall k, In k (vol_factors r vol_th) <-> ((1 - vol_th) * r <= IZR k <= (1 + vol_th) * r)%R) /\
  (~ (exists k, (1 - vol_th) * r <= IZR k <= (1 + vol_th) * r)%R ->
    exists k, vol_factors r vol_th = [k] /\ (Rabs (r - IZR k) <= 1/2)%R).
Proof.
  intros r v. split; [apply vol_factors_nodup|].
  destruct (vol_factors_spec r v) as [[He H]|[Hn H]]; (split; [|]); intros Hx; try contradiction; try exact H.
  exists (rint r). split; [exact H|apply rint_close].
Qed.
Print Assumptions C54_sizes.
(** They need not be positive: the ratio 0.4 with threshold 0.1 gives the size 0, and any
    threshold >= 1 includes 0. *)
Theorem C54_refuted : (exists r vol_th, (0 < r)%R /\ (0 <= vol_th < 1)%R /\ vol_factors r vol_th = [0]) /\
  (exists r, (1 <= r)%R /\ In 0 (vol_factors r 1)).
Proof.
  split; [exists (2/5)%R, (1/10)%R; split; [lra|]; split; [lra|exact vol_zero]|].
  exists 1%R. split; [lra|exact vol_zero'].
Qed.
Print Assumptions C54_refuted.
Theorem C54_positive_partial : forall r vol_th, (1/2 < r)%R -> (vol_th < 1)%R ->
  vol_factors r vol_th <> [] /\ forall k, In k (vol_factors r vol_th) -> 0 < k.
Proof. exact vol_pos. Qed.
Print Assumptions C54_positive_partial.
Example C54_case : forall k, In k (vol_factors 2 (6/10)) <-> k = 1 \/ k = 2 \/ k = 3.
Proof. exact vol_case. Qed.
