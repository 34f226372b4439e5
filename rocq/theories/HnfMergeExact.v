(** What the merged list is, whatever the sizes of the results (C52). *)
From Verif Require Import LinAlg ReduceProofs BestProofs TreeSols HnfSearchSpec HnfSearchProofs.
From Coq Require Import Sorted.
Local Open Scope Z_scope.

Section Exact.
  Variable n : nat.
  Hypothesis Hn : (0 < n)%nat.
  Variables LG_A LG_M : list (mat Z).
  Hypothesis GA : matrix_group n LG_A.
  Hypothesis GM : matrix_group n LG_M.
  Variable dist : mat Z -> R.
  Hypothesis Hdist : symmetric_dist n LG_A LG_M dist.
  Variable nsol : nat.
  Hypothesis Hnsol : (1 <= nsol)%nat.
  Notation mok := (mok n LG_A LG_M dist nsol).
  Notation add := (add_sol LG_A LG_M nsol).
  Notation cand s := (wf n n (ltot s) /\ hd_ s = dist (ltot s)).
  Notation upto w := (fun s : hsol => Rleb (hd_ s) w).

  (** the list is full, or still ends with the worst solution [w] of the first result *)
  Definition reach (w : R) (st : mstate) : Prop := (nsol <= length (fst st))%nat \/ exists t, In t (fst st) /\ hd_ t = w.
  Definition inv (w : R) (seen : list (mat Z)) (st : mstate) : Prop := mok seen st /\ fst st <> [] /\ reach w st /\ forall t, In t (fst st) -> (hd_ t <= w)%R.

  Lemma add_short st s : StronglySorted le_sol (map phi (fst st)) -> (length (fst st) < nsol)%nat ->
    add st s = st \/ fst (add st s) = insert_at s (fst st).
  Proof.
    destruct st as [sols ext]. cbn [fst]. intros HS Hl. unfold add_sol. destruct (mem_mat _ _); [now left|right]. cbn [fst]. unfold truncate.
    assert (Li : length (insert_at s sols) = S (length sols)) by (rewrite <- (map_length phi), insert_at_phi, ins_length, map_length; reflexivity).
    rewrite Li. now rewrite (proj2 (Nat.ltb_ge nsol (S (length sols)))) by lia.
  Qed.
  Lemma add_incl st s t : In t (fst (add st s)) -> t = s \/ In t (fst st).
  Proof.
    destruct st as [sols ext]. cbn [fst]. unfold add_sol. destruct (mem_mat _ _); [now right|]. cbn [fst]. intros H. apply insert_at_in.
    unfold truncate in H. destruct (nsol <? _)%nat; [|exact H]. destruct (nth_error _ _); [|exact H]. rewrite <- (firstn_skipn (length (insert_at s sols) - count_tail (hd_ h) (length (insert_at s sols) - nsol) (rev (insert_at s sols)))).
    apply in_or_app. now left.
  Qed.
  Lemma add_inv w seen st s : inv w seen st -> cand s -> (hd_ s <= w)%R -> inv w (ltot s :: seen) (add st s).
  Proof.
    intros (HM & NE & HR & HB) Hc Hw. pose proof (proj1 (proj1 HM)) as SS. split; [now apply add_ok|]. destruct (Nat.le_gt_cases nsol (length (fst st))) as [L|L].
    - pose proof (add_length n Hn LG_A LG_M nsol Hnsol st s SS L) as L'. split; [|split; [now left|]].
      + intros E. rewrite E in L'. cbn in L'. lia.
      + intros t Ht. apply add_incl in Ht. destruct Ht as [->|Ht]; auto.
    - destruct HR as [HR|(t & Ht & Et)]; [lia|]. assert (I : In t (fst (add st s))).
      { destruct (add_short st s SS L) as [->| ->]; [exact Ht|]. apply insert_at_in. now right. }
      split; [intros E; rewrite E in I; destruct I|]. split; [right; eauto|]. intros u Hu. apply add_incl in Hu. destruct Hu as [->|Hu]; auto.
  Qed.
  Lemma loop_inv w new : sorted_result n dist new -> forall seen st, inv w seen st ->
    inv w (rev (map ltot (filter (upto w) new)) ++ seen) (merge_loop LG_A LG_M nsol st new).
  Proof.
    induction new as [|s new IH]; intros HS seen st HI; [exact HI|]. cbn [merge_loop]. rewrite (last_nth n Hn nsol Hnsol).
    destruct HI as (HM & NE & HR & HB). destruct (nth_error (fst st) (length (fst st) - 1)) as [t|] eqn:Et.
    2:{ apply nth_error_None in Et. destruct (fst st); [congruence|cbn in Et; lia]. }
    pose proof (sorted_tail n Hn dist nsol Hnsol s new HS) as [HS' Hle]. pose proof (proj1 HS s (or_introl eq_refl)) as Hc. pose proof (nth_error_In _ _ Et) as It.
    assert (Top : forall v, In v (fst st) -> (hd_ v <= hd_ t)%R).
    { intros v Hv. apply In_nth_error in Hv. destruct Hv as [i Hi]. pose proof (proj1 (nth_error_Some (fst st) i) ltac:(congruence)) as Li.
      pose proof (SS_nth nsol Hnsol _ i (length (fst st) - 1) (phi v) (phi t) (proj1 (proj1 HM)) ltac:(lia) (map_nth_error phi _ _ Hi) (map_nth_error phi _ _ Et)) as L.
      now apply Rleb_spec in L. }
    destruct (Rleb (hd_ s) (hd_ t)) eqn:C.
    - apply Rleb_spec in C. assert (Hw : (hd_ s <= w)%R) by (specialize (HB t It); lra). cbn [filter]. rewrite (proj2 (Rleb_spec _ _) Hw). cbn [map rev]. rewrite <- app_assoc.
      apply IH; [exact HS'|]. apply add_inv; auto. repeat (split; [assumption|]). assumption.
    - apply Rleb_false in C. split; [|repeat (split; [assumption|]); assumption].
      destruct HR as [Full|(u & Hu & Eu)].
      + apply skip_all; auto.
        * intros v Hv. apply filter_In in Hv. now apply HS.
        * intros v u Hv Hu. apply filter_In in Hv. specialize (Top u Hu). destruct Hv as [[<-|Hv] _]; [lra|]. specialize (Hle v Hv). lra.
      + specialize (Top u Hu). replace (filter (upto w) (s :: new)) with (@nil hsol); [exact HM|]. symmetry. 
        assert (K : forall v, In v (s :: new) -> Rleb (hd_ v) w = false).
        { intros v Hv. apply Rleb_false. destruct Hv as [<-|Hv]; [lra|]. specialize (Hle v Hv). lra. }
        clear -K. induction (s :: new) as [|a l IH]; [reflexivity|]. cbn. rewrite (K a) by now left. apply IH. intros; apply K; now right.
  Qed.
  Lemma all_inv w results : (forall new, In new results -> sorted_result n dist new) -> forall seen st, inv w seen st ->
    inv w (rev (map ltot (filter (upto w) (concat results))) ++ seen) (fold_left (merge_sols LG_A LG_M nsol) results st).
  Proof.
    induction results as [|new results IH]; intros HR seen st HI; [exact HI|]. cbn [fold_left concat].
    rewrite filter_app, map_app, rev_app_distr, <- app_assoc. apply IH; [intros; apply HR; now right|].
    replace (merge_sols LG_A LG_M nsol st new) with (merge_loop LG_A LG_M nsol st new); [apply loop_inv; [apply HR; now left|exact HI]|].
    unfold merge_sols. destruct HI as (_ & NE & _). now destruct (fst st).
  Qed.
  Lemma first_inv first worst : sorted_result n dist first -> In worst first -> (forall s, In s first -> (hd_ s <= hd_ worst)%R) ->
    inv (hd_ worst) (rev (map ltot first)) (fold_left add first ([], [])).
  Proof.
    intros [HC _] Hw Hb. pose proof (fold_ok n Hn LG_A LG_M GA GM dist Hdist nsol Hnsol first HC [] ([], []) (init_mok n LG_A LG_M dist nsol)) as HM. rewrite app_nil_r in HM.
    set (st := fold_left add first ([], [])) in *. pose proof (proj1 HM) as (_ & _ & G3 & _ & G5 & G6).
    assert (Iw : In (ltot worst) (rev (map ltot first))) by (apply in_rev; rewrite rev_involutive; now apply in_map).
    split; [exact HM|]. split; [|split].
    - intros E. destruct (G6 _ Iw) as [(s & Hs & _)|[L _]]; [rewrite E in Hs; destruct Hs|rewrite E in L; cbn in L; lia].
    - destruct (G6 _ Iw) as [(s & Hs & Es)|[L _]]; [right|left; now rewrite map_length in L]. pose proof (G3 s Hs) as [Is Ds]. apply in_map_iff in Hs. destruct Hs as (t & <- & Ht). exists t. split; [exact Ht|].
      cbn in Ds, Es. rewrite Ds. rewrite (proj2 (HC worst Hw)). symmetry. apply (Hdist' n LG_A LG_M dist Hdist); auto.
    - intros t Ht. destruct (G3 (phi t) (in_map phi _ _ Ht)) as [Is Ds]. apply in_rev, in_map_iff in Is. destruct Is as (u & Eu & Hu). cbn in Ds, Eu. rewrite Ds, <- Eu. change (ltot u) with (total u). rewrite <- (proj2 (HC u Hu)). now apply Hb.
  Qed.
  Theorem merge_all_exact empties first rest worst : (forall r, In r empties -> r = []) -> (forall new, In new (first :: rest) -> sorted_result n dist new) ->
    In worst first -> (forall s, In s first -> (hd_ s <= hd_ worst)%R) ->
    best_list (equiv_mat LG_A LG_M) dist nsol (map ltot (filter (upto (hd_ worst)) (concat (empties ++ first :: rest))))
      (map phi (fst (merge_all LG_A LG_M nsol (empties ++ first :: rest)))).
  Proof.
    intros HE HR Hw Hb. unfold merge_all. rewrite fold_left_app, concat_app. cbn [fold_left concat].
    replace (concat empties) with (@nil hsol) by (clear -HE; induction empties as [|r l IH]; [reflexivity|]; cbn; rewrite (HE r) by (now left); apply IH; intros; apply HE; now right).
    replace (fold_left (merge_sols LG_A LG_M nsol) empties ([], [])) with (@nil hsol, @nil (mat Z))
      by (clear -HE; induction empties as [|r l IH]; [reflexivity|]; cbn; rewrite (HE r) by (now left); cbn; apply IH; intros; apply HE; now right).
    change (merge_sols LG_A LG_M nsol ([], []) first) with (fold_left add first ([], [])). cbn [app].
    pose proof (all_inv (hd_ worst) rest (fun new H => HR new (or_intror H)) _ _ (first_inv first worst (HR first (or_introl eq_refl)) Hw Hb)) as (HM & _).
    eapply (mok_best n Hn LG_A LG_M GA GM dist nsol Hnsol); [|exact HM]. intros x. rewrite filter_app, map_app, !in_app_iff, <- !in_rev.
    replace (filter (upto (hd_ worst)) first) with first; [tauto|].
    clear -Hb. induction first as [|a l IH]; [reflexivity|]. cbn. rewrite (proj2 (Rleb_spec _ _) (Hb a (or_introl eq_refl))). f_equal. apply IH. intros; apply Hb; now right.
  Qed.
End Exact.
