(** Concrete cases and combinations for C52-C54. *)
From Verif Require Import LinAlg GroupModel ReduceSpec ReduceProofs DirectConcSpec TreeSpec TreeProofs TreeSols TreeConc
  HnfSearchSpec HnfSearchProofs HnfSearchAsync.
From Coq Require Import Permutation.
Local Open Scope Z_scope.

Definition sh : mat Z := shear 0 1 1.
Definition s_eye : hsol := HSol 0 (eye 3) (eye 3).
Definition s_sh : hsol := HSol 3 sh (eye 3).
Notation cube_d := (tree_dist (eye 3) (eye 3)).

Lemma ltot_eye : ltot s_eye = eye 3. Proof. vm_compute. reflexivity. Qed.
Lemma ltot_sh : ltot s_sh = sh. Proof. vm_compute. reflexivity. Qed.

Lemma cube_eye_res : sorted_result 3 cube_d [s_eye].
Proof.
  split.
  - intros s [<-|[]]. change (total s_eye) with (ltot s_eye). rewrite ltot_eye. split; [apply wf_eye|]. rewrite cubic_dist by apply wf_eye. reflexivity.
  - intros [|i] [|j] s t Hij Hi Hj; try lia; destruct j; discriminate.
Qed.
Lemma cube_sh_res : sorted_result 3 cube_d [s_sh].
Proof.
  split.
  - intros s [<-|[]]. change (total s_sh) with (ltot s_sh). rewrite ltot_sh. split; [apply wf_shear|]. rewrite cubic_dist by apply wf_shear. reflexivity.
  - intros [|i] [|j] s t Hij Hi Hj; try lia; destruct j; discriminate.
Qed.
Lemma cube_both_res : sorted_result 3 cube_d [s_eye; s_sh].
Proof.
  split.
  - intros s [<-|[<-|[]]]; [apply cube_eye_res; now left|apply cube_sh_res; now left].
  - intros [|[|i]] [|[|j]] s t Hij Hi Hj; try lia; try (destruct i; discriminate); try (destruct j; discriminate).
    cbn in Hi, Hj. injection Hi as <-. injection Hj as <-. cbn. lra.
Qed.
Lemma single_offers LG_A LG_M s : offers LG_A LG_M 1 [s].
Proof. exists [s]. split; [reflexivity|]. split; [auto|]. intros [|i] [|j] a b Hij Hi Hj; try congruence; try (destruct i; discriminate); destruct j; discriminate. Qed.
Lemma cube_both_offers : offers CUBIC_LAUE_GROUP CUBIC_LAUE_GROUP 2 [s_eye; s_sh].
Proof.
  assert (N : ~ equiv_mat CUBIC_LAUE_GROUP CUBIC_LAUE_GROUP (ltot s_eye) (ltot s_sh)).
  { intros H. apply (ext_sols_In CUBIC_LAUE_GROUP CUBIC_LAUE_GROUP), mem_mat_In in H. vm_compute in H. discriminate. }
  assert (N' : ~ equiv_mat CUBIC_LAUE_GROUP CUBIC_LAUE_GROUP (ltot s_sh) (ltot s_eye)).
  { intros H. apply (ext_sols_In CUBIC_LAUE_GROUP CUBIC_LAUE_GROUP), mem_mat_In in H. vm_compute in H. discriminate. }
  exists [s_eye; s_sh]. split; [reflexivity|]. split; [auto|].
  intros [|[|i]] [|[|j]] a b Hij Hi Hj; try congruence; try (destruct i; discriminate); try (destruct j; discriminate);
    cbn in Hi, Hj; injection Hi as <-; injection Hj as <-; assumption.
Qed.

(** two results of one solution each, two solutions wanted: the order matters *)
Lemma order_matters : let G := CUBIC_LAUE_GROUP in
  map hd_ (fst (merge_all G G 2 [[s_eye]; [s_sh]])) = [0%R] /\ map hd_ (fst (merge_all G G 2 [[s_sh]; [s_eye]])) = [0%R; 3%R].
Proof.
  set (G := CUBIC_LAUE_GROUP).
  assert (N1 : mem_mat (ltot s_eye) (ext_sols2 G G (ltot s_sh)) = false) by (vm_compute; reflexivity).
  split; unfold merge_all; cbn [fold_left merge_sols fst].
  - change (add_sol G G 2 ([], []) s_eye) with ([s_eye], ext_sols2 G G (ltot s_eye)).
    unfold merge_sols. cbn [fst merge_loop map last]. unfold s_sh at 1, s_eye at 1. cbn [hd_].
    rewrite (proj2 (Rleb_false 3 0)) by lra. reflexivity.
  - change (add_sol G G 2 ([], []) s_sh) with ([s_sh], ext_sols2 G G (ltot s_sh)).
    unfold merge_sols. cbn [fst merge_loop map last]. unfold s_sh at 1, s_eye at 1. cbn [hd_].
    rewrite (proj2 (Rleb_spec 0 3)) by lra. unfold add_sol. rewrite N1. cbn [insert_at].
    unfold s_sh at 1, s_eye at 1. cbn [hd_]. rewrite (proj2 (Rleb_spec 0 3)) by lra. reflexivity.
Qed.

Lemma fold_left_map {A B C} (f : A -> B -> A) (g : C -> B) l a : fold_left f (map g l) a = fold_left (fun x c => f x (g c)) l a.
Proof. revert a. induction l as [|c l IH]; intros a; cbn; auto. Qed.

(** any schedule delivers the distances of the serial run *)
Lemma async_serial n LG_A LG_M dist nsol N poolsize ready (results : nat -> list hsol) :
  (0 < n)%nat -> matrix_group n LG_A -> matrix_group n LG_M -> symmetric_dist n LG_A LG_M dist -> (1 <= nsol)%nat ->
  (1 <= poolsize)%nat -> eventually_ready N ready ->
  (forall i, (i < N)%nat -> sorted_result n dist (results i) /\ offers LG_A LG_M nsol (results i)) ->
  exists fuel0, forall fuel, (fuel0 <= fuel)%nat -> exists sols ext log,
    async_loop N poolsize ready (fun st i => merge_sols LG_A LG_M nsol st (results i)) fuel ([], []) = Ok ((sols, ext), log) /\
    map hd_ sols = map hd_ (fst (merge_all LG_A LG_M nsol (map results (seq 0 N)))).
Proof.
  intros Hn GA GM Hd Hs Hp He HR.
  destruct (async_ok N poolsize Hp ready (fun st i => merge_sols LG_A LG_M nsol st (results i)) He) as (log & fuel0 & _ & HP & _ & H).
  exists fuel0. intros fuel Hf. specialize (H fuel ([], []) Hf).
  rewrite <- (fold_left_map (merge_sols LG_A LG_M nsol) results) in H.
  fold (merge_all LG_A LG_M nsol (map results (merged log))) in H.
  destruct (merge_all LG_A LG_M nsol (map results (merged log))) as [sols ext] eqn:E.
  exists sols, ext, log. split; [exact H|]. change sols with (fst (sols, ext)). rewrite <- E.
  apply (merge_all_perm n Hn LG_A LG_M GA GM dist Hd nsol Hs); [now apply Permutation_map|].
  intros new Hi. apply in_map_iff in Hi. destruct Hi as (i & <- & Hi). apply HR.
  apply (Permutation_in _ HP) in Hi. apply in_seq in Hi. lia.
Qed.

(** with an empty pool nothing is ever done *)
Lemma async_no_pool {A} N ready (merge : A -> nat -> A) fuel acc : async_loop N 0 ready merge fuel acc = Ok (acc, []).
Proof.
  unfold async_loop. assert (E : fill N 0 N [] 0 [] = ([], 0%nat, [])).
  { destruct N; cbn [fill]; [reflexivity|]. now rewrite andb_false_r. }
  rewrite E. now destruct fuel.
Qed.

Lemma vol_pos r v : (1/2 < r)%R -> (v < 1)%R -> vol_factors r v <> [] /\ forall k, In k (vol_factors r v) -> 0 < k.
Proof.
  intros Hr Hv. destruct (vol_factors_spec r v) as [[[k0 H0] H]|[_ ->]].
  - split; [intros E; apply H in H0; rewrite E in H0; destruct H0|]. intros k Hk. apply H in Hk. destruct Hk as [Hk _].
    apply lt_IZR. assert (0 < (1 - v) * r)%R by (apply Rmult_lt_0_compat; lra). lra.
  - split; [discriminate|]. intros k [<-|[]]. now apply rint_pos.
Qed.
Lemma vol_zero : vol_factors (2/5) (1/10) = [0].
Proof.
  destruct (vol_factors_spec (2/5) (1/10)) as [[[k [H1 H2]] _]|[_ ->]].
  - exfalso. assert (0 < k) by (apply lt_IZR; lra). assert (k < 1) by (apply lt_IZR; lra). lia.
  - f_equal. apply rint_nearest. rewrite Rabs_pos_eq; lra.
Qed.
Lemma vol_zero' : In 0 (vol_factors 1 1).
Proof.
  destruct (vol_factors_spec 1 1) as [[_ H]|[H _]].
  - apply H. unfold within. lra.
  - exfalso. apply H. exists 0. unfold within. lra.
Qed.
Lemma vol_case : forall k, In k (vol_factors 2 (6/10)) <-> k = 1 \/ k = 2 \/ k = 3.
Proof.
  destruct (vol_factors_spec 2 (6/10)) as [[_ H]|[H _]].
  - intros k. rewrite H. unfold within. split.
    + intros [H1 H2]. assert (0 < k) by (apply lt_IZR; lra). assert (k < 4) by (apply lt_IZR; lra). lia.
    + intros [->|[->| ->]]; lra.
  - exfalso. apply H. exists 2. unfold within. lra.
Qed.
