(** Proofs about the list of solutions over all sublattices (C52). *)
From Verif Require Import LinAlg ReduceProofs BestProofs TreeSols HnfSearchSpec.
From Coq Require Import Sorted Permutation.
Local Open Scope Z_scope.

Definition phi (s : hsol) : mat Z * R := (ltot s, hd_ s).

Lemma insert_at_phi s sols : map phi (insert_at s sols) = ins (phi s) (map phi sols).
Proof. induction sols as [|t sols IH]; [reflexivity|]. cbn. destruct (Rleb (hd_ s) (hd_ t)); cbn; [reflexivity|]. now rewrite IH. Qed.
Lemma insert_at_in s sols x : In x (insert_at s sols) <-> x = s \/ In x sols.
Proof.
  induction sols as [|t sols IH]; cbn; [intuition|]. destruct (Rleb (hd_ s) (hd_ t)); cbn; [intuition|]. rewrite IH. intuition.
Qed.

Lemma count_tail_app b l1 l2 lim : (forall s, In s l1 -> (b < hd_ s)%R) -> (length l1 <= lim)%nat ->
  (forall s l, l2 = s :: l -> (hd_ s <= b)%R) -> count_tail b lim (l1 ++ l2) = length l1.
Proof.
  revert lim. induction l1 as [|s l1 IH]; intros lim H1 Hl H2; cbn.
  - destruct lim, l2 as [|s l2]; cbn; try reflexivity. rewrite (proj2 (Rltb_false _ _)); [reflexivity|]. eapply H2. reflexivity.
  - destruct lim as [|lim]; cbn in *; [lia|]. rewrite (proj2 (Rltb_spec _ _)) by (apply H1; now left).
    f_equal. apply IH; [intros; apply H1; now right|lia|exact H2].
Qed.

Lemma truncate_phi nsol sols : (1 <= nsol)%nat -> StronglySorted le_sol (map phi sols) ->
  map phi (truncate nsol sols) = trunc nsol (map phi sols) /\ exists rest, sols = truncate nsol sols ++ rest.
Proof.
  intros Hn HS. destruct (trunc_prefix nsol _ HS) as (rest & E & Ht & Hnn).
  unfold truncate. destruct (Nat.ltb_spec nsol (length sols)) as [L|L].
  - destruct (nth_error sols (nsol - 1)) as [b|] eqn:Eb; [|apply nth_error_None in Eb; lia].
    assert (Eb' : nth_error (map phi sols) (nsol - 1) = Some (phi b)) by now apply map_nth_error.
    destruct (Ht _ Eb') as (N & K & R').
    apply map_eq_app in E. destruct E as (l1 & l2 & Es & E1 & E2).
    assert (Lk : (nsol <= length l1)%nat).
    { rewrite <- E1 in N. assert (nth_error (map phi l1) (nsol - 1) <> None) as NN by congruence.
      apply nth_error_Some in NN. rewrite map_length in NN. lia. }
    assert (C : count_tail (hd_ b) (length sols - nsol) (rev sols) = length l2).
    { rewrite Es, rev_app_distr, <- (rev_length l2). apply count_tail_app.
      - intros s Hs. apply in_rev in Hs. assert (In (phi s) rest) as Hr by (rewrite <- E2; now apply in_map).
        specialize (R' _ Hr). apply dlt_spec in R'. now apply Rleb_false.
      - rewrite rev_length, app_length. lia.
      - intros s l El. assert (In s l1) as Hs by (apply in_rev; rewrite El; now left).
        assert (In (phi s) (trunc nsol (map phi sols))) as Hr by (rewrite <- E1; now apply in_map).
        specialize (K _ Hr). now apply Rleb_spec. }
    rewrite C. assert (F : firstn (length sols - length l2) sols = l1).
    { rewrite Es at 2. rewrite firstn_app. rewrite firstn_all2 by (rewrite Es, app_length; lia).
      replace (length sols - length l2 - length l1)%nat with 0%nat by (rewrite Es, app_length; lia). cbn. apply app_nil_r. }
    rewrite F. split; [exact E1|]. exists l2. exact Es.
  - split; [|exists []; now rewrite app_nil_r]. symmetry. apply (trunc_short 1 ltac:(lia) nsol Hn); try (rewrite map_length; exact L); assumption.
Qed.

Lemma concat_perm {A} (l l' : list (list A)) : Permutation l l' -> Permutation (concat l) (concat l').
Proof.
  induction 1; cbn; [reflexivity|now apply Permutation_app_head| |etransitivity; eassumption].
  rewrite !app_assoc. apply Permutation_app_tail, Permutation_app_comm.
Qed.

Section Merge.
  Variable n : nat.
  Hypothesis Hn : (0 < n)%nat.
  Variables LG_A LG_M : list (mat Z).
  Hypothesis GA : matrix_group n LG_A.
  Hypothesis GM : matrix_group n LG_M.
  Variable dist : mat Z -> R.
  Hypothesis Hdist : symmetric_dist n LG_A LG_M dist.
  Variable nsol : nat.
  Hypothesis Hnsol : (1 <= nsol)%nat.
  Notation eqv := (eqv n LG_A LG_M).
  Notation good := (good eqv dist nsol (wf n n)).
  Notation booked := (@booked (mat Z) R eqv (wf n n)).
  Notation add := (add_sol LG_A LG_M nsol).
  Notation cand s := (wf n n (ltot s) /\ hd_ s = dist (ltot s)).

  Definition mok (seen : list (mat Z)) (st : mstate) : Prop :=
    good seen (map phi (fst st)) /\ booked seen (map phi (fst st)) (snd st).

  Lemma add_ok seen st s : mok seen st -> cand s -> mok (ltot s :: seen) (add st s).
  Proof.
    intros [HG HB] [W D]. destruct st as [sols ext]. cbn [fst snd] in *. unfold add_sol.
    pose proof (Hdist' n LG_A LG_M dist Hdist) as HD.
    destruct (mem_mat (ltot s) ext) eqn:M.
    - apply mem_mat_In in M. split; cbn [fst snd]; [|now apply booked_keep].
      apply (known_good eqv dist nsol (eqv_trans n Hn LG_A LG_M GA GM) (wf n n) HD seen _ ext); auto.
    - assert (Nin : ~ In (ltot s) ext) by (intros H; apply mem_mat_In in H; congruence).
      pose proof (new_good eqv dist nsol Hnsol (eqv_refl n LG_A LG_M) (eqv_sym n Hn LG_A LG_M GA GM) (wf n n) HD seen _ ext _ HG HB W Nin) as NG.
      assert (SS : StronglySorted le_sol (map phi (insert_at s sols))) by (rewrite insert_at_phi; apply ins_sorted; apply HG).
      destruct (truncate_phi nsol _ Hnsol SS) as [ET _].
      rewrite insert_at_phi in ET. replace (phi s) with (ltot s, dist (ltot s)) in ET by (unfold phi; now rewrite D).
      split; cbn [fst snd]; rewrite ET; [exact NG|].
      apply (booked_app n Hn LG_A LG_M GA GM seen (map phi sols)); auto.
      intros u Hu. apply trunc_incl, ins_in in Hu. destruct Hu as [->|Hu]; auto.
  Qed.

  Lemma fold_ok new : (forall s, In s new -> cand s) -> forall seen st, mok seen st ->
    mok (rev (map ltot new) ++ seen) (fold_left add new st).
  Proof.
    induction new as [|s new IH]; intros Hc seen st Hok; [exact Hok|]. cbn [fold_left map rev].
    rewrite <- app_assoc. apply IH; [intros; apply Hc; now right|]. apply add_ok; [exact Hok|]. apply Hc. now left.
  Qed.

  Lemma skip_all new seen st : mok seen st -> (forall s, In s new -> cand s) -> (nsol <= length (fst st))%nat ->
    (forall s t, In s new -> In t (fst st) -> (hd_ t < hd_ s)%R) -> mok (rev (map ltot new) ++ seen) st.
  Proof.
    revert seen. induction new as [|s new IH]; intros seen [HG HB] Hc Hl Hlt; [split; assumption|]. cbn [map rev].
    rewrite <- app_assoc. apply IH; auto; [|intros; apply Hc; now right|intros; apply Hlt; [now right|assumption]].
    destruct (Hc s (or_introl eq_refl)) as [W D]. split; [|now apply booked_keep].
    apply skip_good; auto. right. split; [now rewrite map_length|]. intros u Hu. apply in_map_iff in Hu.
    destruct Hu as (t & <- & Hu). apply dlt_spec, Rleb_false. rewrite <- D. apply Hlt; [now left|exact Hu].
  Qed.

  Lemma add_length st s : StronglySorted le_sol (map phi (fst st)) -> (nsol <= length (fst st))%nat -> (nsol <= length (fst (add st s)))%nat.
  Proof.
    destruct st as [sols ext]. intros HS Hl. cbn [fst] in *. unfold add_sol. destruct (mem_mat _ _); [exact Hl|]. cbn [fst].
    assert (SS : StronglySorted le_sol (map phi (insert_at s sols))) by (rewrite insert_at_phi; now apply ins_sorted).
    assert (Li : length (insert_at s sols) = S (length sols)).
    { rewrite <- (map_length phi), insert_at_phi, ins_length, map_length. reflexivity. }
    destruct (truncate_phi nsol _ Hnsol SS) as [ET _]. rewrite <- (map_length phi), ET.
    destruct (trunc_prefix nsol _ SS) as (rest & E & Ht & _).
    destruct (nth_error (map phi (insert_at s sols)) (nsol - 1)) as [t|] eqn:Et.
    - destruct (Ht t eq_refl) as (N & _).
      assert (nth_error (trunc nsol (map phi (insert_at s sols))) (nsol - 1) <> None) as NN by congruence.
      apply nth_error_Some in NN. lia.
    - apply nth_error_None in Et. rewrite map_length in Et. lia.
  Qed.

  Lemma sorted_tail s new : sorted_result n dist (s :: new) -> sorted_result n dist new /\ forall t, In t new -> (hd_ s <= hd_ t)%R.
  Proof.
    intros [H1 H2]. split; [split|].
    - intros; apply H1; now right.
    - intros i j a b Hij Hi Hj. apply (H2 (S i) (S j) a b); auto. lia.
    - intros t Ht. apply In_nth_error in Ht. destruct Ht as [j Hj]. apply (H2 0%nat (S j) s t); auto. lia.
  Qed.

  Lemma merge_loop_ok new : sorted_result n dist new -> forall seen st, mok seen st -> (nsol <= length (fst st))%nat ->
    mok (rev (map ltot new) ++ seen) (merge_loop LG_A LG_M nsol st new) /\ (nsol <= length (fst (merge_loop LG_A LG_M nsol st new)))%nat.
  Proof.
    induction new as [|s new IH]; intros HS seen st Hok Hl; [split; assumption|]. cbn [merge_loop].
    rewrite (last_nth n Hn nsol Hnsol). destruct (nth_error (fst st) (length (fst st) - 1)) as [t|] eqn:Et.
    2:{ apply nth_error_None in Et. lia. }
    pose proof (sorted_tail s new HS) as [HS' Hle]. pose proof (proj1 HS s (or_introl eq_refl)) as Hc.
    destruct (Rleb (hd_ s) (hd_ t)) eqn:C.
    - cbn [map rev]. rewrite <- app_assoc. apply IH; [exact HS'|now apply add_ok|]. apply add_length; [apply Hok|exact Hl].
    - apply Rleb_false in C. split; [|exact Hl]. apply skip_all; auto; [apply HS|].
      intros u v Hu Hv. apply In_nth_error in Hv. destruct Hv as [i Hi].
      pose proof (proj1 (nth_error_Some (fst st) i) ltac:(congruence)) as Li.
      pose proof (SS_nth nsol Hnsol _ i (length (fst st) - 1) (phi v) (phi t) (proj1 (proj1 Hok)) ltac:(lia)
                   (map_nth_error phi _ _ Hi) (map_nth_error phi _ _ Et)) as L. apply Rleb_spec in L. cbn in L.
      destruct Hu as [<-|Hu]; [lra|]. specialize (Hle u Hu). lra.
  Qed.

  (** a batch with nsol inequivalent entries fills the list *)
  Lemma offers_full seen st l : mok seen st ->
    (forall s, In s l -> In (ltot s) seen) ->
    (forall i j s t, i <> j -> nth_error l i = Some s -> nth_error l j = Some t -> ~ equiv_mat LG_A LG_M (ltot s) (ltot t)) ->
    length l = nsol -> (nsol <= length (fst st))%nat.
  Proof.
    intros [HG _] Hin Hap Hl. destruct (Nat.le_gt_cases nsol (length (fst st))) as [H|H]; [exact H|exfalso].
    destruct HG as (G1 & G2 & G3 & G4 & G5 & G6).
    assert (R' : forall s, In s l -> exists u, In u (map phi (fst st)) /\ eqv (ltot s) (fst u)).
    { intros s Hs. destruct (G6 _ (Hin s Hs)) as [E|[L _]]; [exact E|]. rewrite map_length in L. lia. }
    (* pigeonhole *)
    set (B := map phi (fst st)) in *.
    assert (PH : forall (l : list hsol) (B : list (mat Z * R)),
              (forall s, In s l -> wf n n (ltot s)) ->
              (forall i j s t, i <> j -> nth_error l i = Some s -> nth_error l j = Some t -> ~ equiv_mat LG_A LG_M (ltot s) (ltot t)) ->
              (forall s, In s l -> exists u, In u B /\ eqv (ltot s) (fst u)) -> (length l <= length B)%nat).
    { clear - Hn GA GM. induction l as [|s l IH]; intros B Hw Hap Hr; [cbn; lia|].
      destruct (Hr s (or_introl eq_refl)) as (u & Hu & E). apply in_split in Hu. destruct Hu as (B1 & B2 & ->).
      rewrite app_length. cbn. assert (length l <= length (B1 ++ B2))%nat as L; [|rewrite app_length in L; lia].
      apply IH.
      - intros; apply Hw; now right.
      - intros i j a b Hij Hi Hj. apply (Hap (S i) (S j)); auto.
      - intros t Ht. destruct (Hr t (or_intror Ht)) as (v & Hv & E'). exists v. split; [|exact E'].
        apply in_app_or in Hv. apply in_or_app. destruct Hv as [Hv|[<-|Hv]]; auto. exfalso.
        apply In_nth_error in Ht. destruct Ht as [j Hj]. apply (Hap 0%nat (S j) s t); auto.
        apply (eqv_iff n Hn LG_A LG_M GA GM); [apply Hw; now left|].
        eapply (eqv_trans n Hn LG_A LG_M GA GM); [exact E|]. now apply (eqv_sym n Hn LG_A LG_M GA GM). }
    specialize (PH l B ltac:(intros; apply G5; auto) Hap R'). unfold B in PH. rewrite map_length in PH. lia.
  Qed.

  Lemma init_mok : mok [] ([], []).
  Proof. exact (init_sols_ok n LG_A LG_M dist nsol). Qed.

  Lemma merge_more results : (forall new, In new results -> sorted_result n dist new) -> forall seen st, mok seen st -> (nsol <= length (fst st))%nat ->
    mok (rev (map ltot (concat results)) ++ seen) (fold_left (merge_sols LG_A LG_M nsol) results st).
  Proof.
    induction results as [|new results IH]; intros HR seen st Hok Hl; [exact Hok|]. cbn [fold_left concat].
    rewrite map_app, rev_app_distr, <- app_assoc.
    assert (E : merge_sols LG_A LG_M nsol st new = merge_loop LG_A LG_M nsol st new).
    { unfold merge_sols. destruct (fst st); [cbn in Hl; lia|reflexivity]. }
    rewrite E. destruct (merge_loop_ok new (HR new (or_introl eq_refl)) seen st Hok Hl) as [A B].
    apply IH; auto. intros; apply HR; now right.
  Qed.

  (** if the first result fills the list, the final list is the best of all candidates *)
  Theorem merge_all_ok first results :
    (forall new, In new (first :: results) -> sorted_result n dist new) -> offers LG_A LG_M nsol first ->
    mok (rev (map ltot (concat (first :: results)))) (merge_all LG_A LG_M nsol (first :: results)).
  Proof.
    intros HR (l & Hl & Hin & Hap). unfold merge_all. cbn [fold_left concat]. rewrite map_app, rev_app_distr.
    change (merge_sols LG_A LG_M nsol ([], []) first) with (fold_left add first ([], [])).
    pose proof (fold_ok first (proj1 (HR first (or_introl eq_refl))) [] ([], []) init_mok) as Hok. rewrite app_nil_r in Hok.
    apply merge_more; auto; [intros; apply HR; now right|].
    apply (offers_full _ _ l Hok); auto. intros s Hs. apply in_rev. rewrite rev_involutive. apply in_map. auto.
  Qed.

  Lemma mok_best seen seen' st : (forall x, In x seen <-> In x seen') -> mok seen st ->
    best_list (equiv_mat LG_A LG_M) dist nsol seen' (map phi (fst st)).
  Proof.
    intros HI [HG _]. apply (good_best' n Hn LG_A LG_M GA GM dist nsol Hnsol).
    exact (good_perm n LG_A LG_M dist nsol _ _ _ HI HG).
  Qed.

  Theorem merge_all_best results :
    (forall new, In new results -> sorted_result n dist new /\ offers LG_A LG_M nsol new) ->
    best_list (equiv_mat LG_A LG_M) dist nsol (map ltot (concat results)) (map phi (fst (merge_all LG_A LG_M nsol results))).
  Proof.
    intros HR. destruct results as [|first results].
    - cbn. apply (mok_best [] [] ([], [])); [tauto|apply init_mok].
    - eapply mok_best; [|apply merge_all_ok; [intros; now apply HR|apply HR; now left]].
      intros x. symmetry. apply in_rev.
  Qed.

  Theorem merge_all_perm results results' : Permutation results results' ->
    (forall new, In new results -> sorted_result n dist new /\ offers LG_A LG_M nsol new) ->
    map hd_ (fst (merge_all LG_A LG_M nsol results)) = map hd_ (fst (merge_all LG_A LG_M nsol results')).
  Proof.
    intros HP HR.
    assert (E : forall l : list hsol, map hd_ l = map snd (map phi l)) by (intros; rewrite map_map; reflexivity).
    rewrite !E.
    destruct results as [|first results].
    - apply Permutation_nil in HP. subst. reflexivity.
    - destruct results' as [|first' results']; [apply Permutation_sym, Permutation_nil in HP; discriminate|].
      assert (HR' : forall new, In new (first' :: results') -> sorted_result n dist new /\ offers LG_A LG_M nsol new).
      { intros new Hi. apply HR. apply (Permutation_in _ (Permutation_sym HP)). exact Hi. }
      pose proof (merge_all_ok first results (fun x H => proj1 (HR x H)) (proj2 (HR first (or_introl eq_refl)))) as [A _].
      pose proof (merge_all_ok first' results' (fun x H => proj1 (HR' x H)) (proj2 (HR' first' (or_introl eq_refl)))) as [B _].
      assert (HC : Permutation (concat (first :: results)) (concat (first' :: results'))) by now apply concat_perm.
      apply (best_unique eqv dist nsol Hnsol (eqv_sym n Hn LG_A LG_M GA GM) (eqv_trans n Hn LG_A LG_M GA GM)
        (wf n n) (Hdist' n LG_A LG_M dist Hdist) _ _ _ A).
      refine (good_perm n LG_A LG_M dist nsol _ _ _ _ B). intros x. rewrite <- !in_rev.
      split; apply Permutation_in; apply Permutation_map; [apply Permutation_sym|]; exact HC.
  Qed.

  (** *** without assumptions on the sizes of the batches: the head is the best of all *)
  Definition hok (seen : list (mat Z)) (st : mstate) : Prop :=
    StronglySorted le_sol (map phi (fst st)) /\
    (forall x, In x seen -> wf n n x) /\
    (forall s, In s (fst st) -> In (ltot s) seen /\ hd_ s = dist (ltot s)) /\
    (forall x, In x seen -> exists s, In s (fst st) /\ (hd_ s <= dist x)%R) /\
    (forall y, wf n n y -> In y (snd st) -> exists x, In x seen /\ eqv y x).

  Lemma add_hok seen st s : hok seen st -> cand s -> hok (ltot s :: seen) (add st s).
  Proof.
    intros (H1 & H2 & H3 & H4 & H5) [W D]. destruct st as [sols ext]. cbn [fst snd] in *. unfold add_sol.
    destruct (mem_mat (ltot s) ext) eqn:M.
    - apply mem_mat_In in M. unfold hok. cbn [fst snd]. split; [exact H1|]. split; [intros x [<-|Hx]; auto|].
      split; [intros t Ht; destruct (H3 t Ht); split; [now right|assumption]|]. split.
      + intros x [<-|Hx]; auto. destruct (H5 _ W M) as (x & Hx & E). destruct (H4 x Hx) as (t & Ht & L).
        exists t. split; [exact Ht|]. rewrite (Hdist' n LG_A LG_M dist Hdist (ltot s) x); auto.
      + intros y Wy Hy. destruct (H5 y Wy Hy) as (x & Hx & E). exists x. split; [now right|exact E].
    - assert (SS : StronglySorted le_sol (map phi (insert_at s sols))) by (rewrite insert_at_phi; now apply ins_sorted).
      destruct (truncate_phi nsol _ Hnsol SS) as [ET (rest & ER)].
      destruct (trunc_prefix nsol _ SS) as (rest' & E & Ht & Hnn).
      assert (I : forall t, In t (truncate nsol (insert_at s sols)) -> t = s \/ In t sols).
      { intros t Hin. apply insert_at_in. rewrite ER. apply in_or_app. now left. }
      unfold hok. cbn [fst snd]. split; [rewrite ET; rewrite E in SS; now apply SS_app in SS|].
      split; [intros x [<-|Hx]; auto|].
      split; [intros t Hin; destruct (I t Hin) as [->|Hs]; [split; [now left|exact D]|destruct (H3 t Hs); split; [now right|assumption]]|].
      split.
      + (* every seen candidate is matched by an inserted entry; truncation keeps something at least as good *)
        assert (K : forall t, In t (insert_at s sols) -> exists u, In u (truncate nsol (insert_at s sols)) /\ (hd_ u <= hd_ t)%R).
        { intros t Hin. rewrite ER in Hin. apply in_app_or in Hin. destruct Hin as [Hin|Hin]; [exists t; split; [exact Hin|lra]|].
          assert (L : (0 < length (truncate nsol (insert_at s sols)))%nat).
          { rewrite <- (map_length phi), ET. destruct (nth_error (map phi (insert_at s sols)) (nsol - 1)) as [t0|] eqn:Et.
            - destruct (Ht t0 eq_refl) as (N & _). assert (nth_error (trunc nsol (map phi (insert_at s sols))) (nsol - 1) <> None) as NN by congruence.
              apply nth_error_Some in NN. lia.
            - pose proof (f_equal (@length _) E) as Ln. rewrite (Hnn eq_refl), app_nil_r in Ln. rewrite <- Ln, map_length.
              rewrite <- (map_length phi), insert_at_phi, ins_length. lia. }
          destruct (truncate nsol (insert_at s sols)) as [|u us] eqn:Eu; [cbn in L; lia|].
          exists u. split; [now left|]. rewrite ER, map_app in SS. apply SS_app in SS. destruct SS as (_ & _ & SS).
          specialize (SS (phi u) (phi t) ltac:(now left) ltac:(now apply in_map)). now apply Rleb_spec in SS. }
        intros x [<-|Hx].
        * destruct (K s) as (u & Hu & L); [apply insert_at_in; now left|]. exists u. split; [exact Hu|]. lra.
        * destruct (H4 x Hx) as (t & Hin & L). destruct (K t) as (u & Hu & L'); [apply insert_at_in; now right|].
          exists u. split; [exact Hu|]. lra.
      + intros y Wy Hy. apply in_app_or in Hy. destruct Hy as [Hy|Hy].
        * destruct (H5 y Wy Hy) as (x & Hx & Ex). exists x. split; [now right|exact Ex].
        * exists (ltot s). split; [now left|]. apply (ext_sols_In LG_A LG_M) in Hy. apply (eqv_sym n Hn LG_A LG_M GA GM). now right.
  Qed.

  Lemma fold_hok new : (forall s, In s new -> cand s) -> forall seen st, hok seen st ->
    hok (rev (map ltot new) ++ seen) (fold_left add new st).
  Proof.
    induction new as [|s new IH]; intros Hc seen st Hok; [exact Hok|]. cbn [fold_left map rev].
    rewrite <- app_assoc. apply IH; [intros; apply Hc; now right|]. apply add_hok; [exact Hok|]. apply Hc. now left.
  Qed.
  Lemma loop_hok new : sorted_result n dist new -> forall seen st, hok seen st -> fst st <> [] ->
    hok (rev (map ltot new) ++ seen) (merge_loop LG_A LG_M nsol st new).
  Proof.
    induction new as [|s new IH]; intros HS seen st Hok Hl; [exact Hok|]. cbn [merge_loop].
    rewrite (last_nth n Hn nsol Hnsol). destruct (nth_error (fst st) (length (fst st) - 1)) as [t|] eqn:Et.
    2:{ apply nth_error_None in Et. destruct (fst st); [congruence|cbn in Et; lia]. }
    pose proof (sorted_tail s new HS) as [HS' Hle]. pose proof (proj1 HS s (or_introl eq_refl)) as Hc.
    destruct (Rleb (hd_ s) (hd_ t)) eqn:C.
    - cbn [map rev]. rewrite <- app_assoc. pose proof (add_hok seen st s Hok Hc) as A. apply IH; [exact HS'|exact A|].
      destruct A as (_ & _ & _ & A & _). destruct (A (ltot s) (or_introl eq_refl)) as (u & Hu & _). intros E0. rewrite E0 in Hu. destruct Hu.
    - apply Rleb_false in C. destruct Hok as (H1 & H2 & H3 & H4 & H5). apply nth_error_In in Et.
      split; [exact H1|]. split; [intros x Hx; apply in_app_or in Hx; destruct Hx as [Hx|Hx]; auto|].
      { apply in_rev in Hx. apply in_map_iff in Hx. destruct Hx as (u & <- & Hu). now apply HS. }
      split; [intros u Hu; destruct (H3 u Hu); split; [apply in_or_app; now right|assumption]|].
      split.
      + intros x Hx. apply in_app_or in Hx. destruct Hx as [Hx|Hx]; auto.
        apply in_rev, in_map_iff in Hx. destruct Hx as (u & <- & Hu). exists t. split; [exact Et|].
        change (ltot u) with (total u).
        rewrite <- (proj2 (proj1 HS u Hu)). destruct Hu as [<-|Hu]; [lra|]. specialize (Hle u Hu). lra.
      + intros y Wy Hy. destruct (H5 y Wy Hy) as (x & Hx & E). exists x. split; [apply in_or_app; now right|exact E].
  Qed.
  Lemma all_hok results : (forall new, In new results -> sorted_result n dist new) -> forall seen st, hok seen st ->
    hok (rev (map ltot (concat results)) ++ seen) (fold_left (merge_sols LG_A LG_M nsol) results st).
  Proof.
    induction results as [|new results IH]; intros HR seen st Hok; [exact Hok|]. cbn [fold_left concat].
    rewrite map_app, rev_app_distr, <- app_assoc. apply IH; [intros; apply HR; now right|].
    pose proof (HR new (or_introl eq_refl)) as HN. unfold merge_sols. destruct (fst st) eqn:E.
    - apply fold_hok; [apply HN|exact Hok].
    - apply loop_hok; auto. congruence.
  Qed.
  Lemma init_hok : hok [] ([], []).
  Proof. split; [constructor|]. split; [intros ? []|]. split; [intros ? []|]. split; intros; contradiction. Qed.

  Theorem merge_all_head results : (forall new, In new results -> sorted_result n dist new) -> concat results <> [] ->
    exists s rest, fst (merge_all LG_A LG_M nsol results) = s :: rest /\
      (exists c, In c (concat results) /\ ltot c = ltot s /\ hd_ c = hd_ s) /\
      forall c, In c (concat results) -> (hd_ s <= hd_ c)%R.
  Proof.
    intros HR Hne. pose proof (all_hok results HR [] ([], []) init_hok) as Hok. fold (merge_all LG_A LG_M nsol results) in Hok.
    rewrite app_nil_r in Hok. destruct Hok as (H1 & H2 & H3 & H4 & _).
    assert (Hc : forall c, In c (concat results) -> hd_ c = dist (ltot c) /\ exists s, In s (fst (merge_all LG_A LG_M nsol results)) /\ (hd_ s <= hd_ c)%R).
    { intros c Hc. assert (D : hd_ c = dist (ltot c)).
      { apply in_concat in Hc. destruct Hc as (new & Hi & Hc). now apply (HR new Hi). }
      split; [exact D|]. rewrite D. apply H4. apply in_rev. rewrite rev_involutive. now apply in_map. }
    destruct (fst (merge_all LG_A LG_M nsol results)) as [|s rest] eqn:E.
    - destruct (concat results) as [|c cs]; [congruence|]. destruct (Hc c (or_introl eq_refl)) as (_ & u & [] & _).
    - exists s, rest. split; [reflexivity|]. split.
      + destruct (H3 s (or_introl eq_refl)) as [I D]. apply in_rev, in_map_iff in I. destruct I as (c & Ec & I).
        exists c. split; [exact I|]. split; [exact Ec|]. rewrite D, <- Ec. now apply Hc.
      + intros c Hin. destruct (Hc c Hin) as (_ & u & Hu & L). destruct Hu as [<-|Hu]; [exact L|].
        cbn in H1. apply StronglySorted_inv in H1. destruct H1 as [_ H1]. rewrite Forall_forall in H1.
        specialize (H1 (phi u) ltac:(now apply in_map)). apply Rleb_spec in H1. cbn in H1. lra.
  Qed.
End Merge.
