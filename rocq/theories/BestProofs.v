(** Sorted insertion with truncation keeps a best list; best lists of the same
    candidates have the same distances. *)
From Coq Require Import Permutation Sorted.
From Verif Require Import BestSpec.

Lemma F2_length {A B} (R : A -> B -> Prop) l l' : Forall2 R l l' -> length l = length l'.
Proof. induction 1; cbn; congruence. Qed.
Lemma nth_error_skip {A} (l : list A) k i : nth_error (skipn k l) i = nth_error l (k + i).
Proof. revert l. induction k as [|k IH]; intros [|a l]; cbn; auto. now destruct i. Qed.
Lemma filter_le {A} (p : A -> bool) l : (length (filter p l) <= length l)%nat.
Proof. induction l as [|a l IH]; cbn; [lia|]. destruct (p a); cbn; lia. Qed.

Section Best.
  Context {X D : Type} {T : TotalOrder D}.
  Variable equiv : X -> X -> Prop.
  Variable dist : X -> D.
  Variable nsol : nat.
  Hypothesis Hnsol : (1 <= nsol)%nat.
  Hypothesis Hrefl : forall x, equiv x x.
  Hypothesis Hsym : forall x y, equiv x y -> equiv y x.
  Hypothesis Htrans : forall x y z, equiv x y -> equiv y z -> equiv x z.
  (** [dom]: the candidates for which the distance is symmetric *)
  Variable dom : X -> Prop.
  Hypothesis Hdist : forall x y, dom x -> dom y -> equiv x y -> dist x = dist y.

  Definition le_sol (s t : X * D) : Prop := dle (snd s) (snd t) = true.
  Definition apart (s t : X * D) : Prop := ~ equiv (fst s) (fst t).

  Lemma apart_sym s t : apart s t -> apart t s.
  Proof. intros H E. apply H. now apply Hsym. Qed.

  Lemma SS_app l1 l2 : StronglySorted le_sol (l1 ++ l2) <->
    StronglySorted le_sol l1 /\ StronglySorted le_sol l2 /\ forall a b, In a l1 -> In b l2 -> le_sol a b.
  Proof.
    induction l1 as [|a l1 IH]; cbn.
    - split; [intros H|intros (_ & H & _); exact H]. split; [constructor|]. split; [exact H|]. intros ? ? [].
    - split.
      + intros H. apply StronglySorted_inv in H. destruct H as [H F]. apply IH in H. destruct H as (H1 & H2 & H3).
        rewrite Forall_app in F. destruct F as [F1 F2]. split; [now constructor|]. split; [exact H2|].
        intros c b [<-|Hc] Hb; [rewrite Forall_forall in F2; auto|auto].
      + intros (H1 & H2 & H3). apply StronglySorted_inv in H1. destruct H1 as [H1 F]. constructor.
        * apply IH. split; [exact H1|]. split; [exact H2|]. intros; apply H3; auto.
        * rewrite Forall_app. split; [exact F|]. rewrite Forall_forall. intros; apply H3; auto.
  Qed.
  Lemma FOP_app {A} (R : A -> A -> Prop) l1 l2 :
    ForallOrdPairs R (l1 ++ l2) <-> ForallOrdPairs R l1 /\ ForallOrdPairs R l2 /\
      (forall a b, In a l1 -> In b l2 -> R a b).
  Proof.
    induction l1 as [|a l1 IH]; cbn.
    - split; [intros H|intros (_ & H & _); exact H]. split; [constructor|]. split; [exact H|]. intros ? ? [].
    - split.
      + intros H. inversion H as [|x y Hf Hr]; subst. apply IH in Hr. destruct Hr as (H1 & H2 & H3).
        rewrite Forall_app in Hf. destruct Hf as [F1 F2]. split; [now constructor|]. split; [exact H2|].
        intros c b [<-|Hc] Hb; [rewrite Forall_forall in F2; auto|auto].
      + intros (H1 & H2 & H3). inversion H1 as [|x y Hf Hr]; subst. constructor.
        * rewrite Forall_app. split; [exact Hf|]. rewrite Forall_forall. intros; apply H3; auto.
        * apply IH. split; [exact Hr|]. split; [exact H2|]. intros; apply H3; auto.
  Qed.
  Lemma SS_nth l i j a b : StronglySorted le_sol l -> (i <= j)%nat -> nth_error l i = Some a -> nth_error l j = Some b ->
    le_sol a b.
  Proof.
    intros H. revert i j. induction H as [|x l Hs IH Hf]; intros i j Hij Hi Hj; [destruct i; discriminate|].
    destruct i as [|i], j as [|j]; cbn in *; try lia.
    - injection Hi as ->. injection Hj as ->. apply dle_refl.
    - injection Hi as ->. rewrite Forall_forall in Hf. apply Hf. eapply nth_error_In. exact Hj.
    - apply (IH i j); auto. lia.
  Qed.
  Lemma FOP_nth {A} (R : A -> A -> Prop) l i j a b : ForallOrdPairs R l -> (i < j)%nat ->
    nth_error l i = Some a -> nth_error l j = Some b -> R a b.
  Proof.
    intros H. revert i j. induction H as [|x l Hf Hr IH]; intros i j Hij Hi Hj; [destruct i; discriminate|].
    destruct i as [|i], j as [|j]; cbn in *; try lia.
    - injection Hi as ->. rewrite Forall_forall in Hf. apply Hf. eapply nth_error_In. exact Hj.
    - apply (IH i j); auto. lia.
  Qed.

  (** everything but the bookkeeping of equivalents *)
  Definition good (seen : list X) (sols : list (X * D)) : Prop :=
    StronglySorted le_sol sols /\ ForallOrdPairs apart sols /\
    (forall s, In s sols -> In (fst s) seen /\ snd s = dist (fst s)) /\
    (forall s t, In s sols -> nth_error sols (nsol - 1) = Some t -> dle (snd s) (snd t) = true) /\
    (forall x, In x seen -> dom x) /\
    (forall x, In x seen -> (exists s, In s sols /\ equiv x (fst s)) \/
       ((nsol <= length sols)%nat /\ forall s, In s sols -> dlt (snd s) (dist x) = true)).

  Lemma good_best seen sols : good seen sols -> best_list equiv dist nsol seen sols.
  Proof.
    intros (G1 & G2 & G3 & G4 & G5 & G6). split; [|split; [|split; [|split]]]; auto.
    - intros i j s t Hij Hi Hj. apply (SS_nth sols i j); auto. lia.
    - intros i j s t Hij Hi Hj. destruct (Nat.lt_ge_cases i j) as [H|H].
      + apply (FOP_nth apart sols i j s t); auto.
      + apply apart_sym. apply (FOP_nth apart sols j i t s); auto. lia.
    - intros i s t Hi Hs Ht. apply dle_antisym.
      + apply (G4 s t); auto. eapply nth_error_In. exact Hs.
      + apply (SS_nth sols (nsol - 1) i); auto. lia.
  Qed.

  Lemma best_good seen sols : (forall x, In x seen -> dom x) -> best_list equiv dist nsol seen sols -> good seen sols.
  Proof.
    intros Hd (B1 & B2 & B3 & B4 & B5). split; [|split; [|split; [|split; [|split]]]]; auto.
    - clear -B1. induction sols as [|a sols IH]; constructor.
      + apply IH. intros i j s t Hij Hi Hj. apply (B1 (S i) (S j) s t); auto. lia.
      + apply Forall_forall. intros b Hb. apply In_nth_error in Hb. destruct Hb as [j Hj].
        apply (B1 0%nat (S j) a b); auto. lia.
    - clear -B2. induction sols as [|a sols IH]; constructor.
      + apply Forall_forall. intros b Hb. apply In_nth_error in Hb. destruct Hb as [j Hj].
        apply (B2 0%nat (S j) a b); auto.
      + apply IH. intros i j s t Hij Hi Hj. apply (B2 (S i) (S j) s t); auto.
    - intros s t Hs Ht. apply In_nth_error in Hs. destruct Hs as [i Hi].
      destruct (Nat.lt_ge_cases i (nsol - 1)) as [H|H].
      + apply (B1 i (nsol - 1)%nat s t); auto.
      + rewrite (B4 i s t); auto; [apply dle_refl|lia].
  Qed.

  (** sorted insertion before the first entry that is not smaller *)
  Fixpoint ins (s : X * D) (sols : list (X * D)) : list (X * D) :=
    match sols with
    | [] => [s]
    | t :: sols' => if dle (snd s) (snd t) then s :: t :: sols' else t :: ins s sols'
    end.
  Lemma ins_perm s sols : Permutation (s :: sols) (ins s sols).
  Proof.
    induction sols as [|t sols IH]; cbn; [reflexivity|]. destruct (dle (snd s) (snd t)); [reflexivity|].
    rewrite perm_swap. now constructor.
  Qed.
  Lemma ins_in s sols x : In x (ins s sols) <-> x = s \/ In x sols.
  Proof.
    split.
    - intros H. apply (Permutation_in _ (Permutation_sym (ins_perm s sols))) in H. destruct H; auto.
    - intros H. apply (Permutation_in _ (ins_perm s sols)). destruct H; [left; congruence|now right].
  Qed.
  Lemma ins_length s sols : length (ins s sols) = S (length sols).
  Proof. rewrite <- (Permutation_length (ins_perm s sols)). reflexivity. Qed.
  Lemma ins_sorted s sols : StronglySorted le_sol sols -> StronglySorted le_sol (ins s sols).
  Proof.
    induction 1 as [|t sols Hs IH Hf]; cbn; [constructor; constructor|].
    destruct (dle (snd s) (snd t)) eqn:E.
    - constructor; [now constructor|]. constructor; [exact E|].
      rewrite Forall_forall in *. intros u Hu. unfold le_sol in *. eapply dle_trans; [exact E|auto].
    - constructor; [exact IH|]. rewrite Forall_forall in *. intros u Hu. apply ins_in in Hu.
      destruct Hu as [->|Hu]; [|auto]. unfold le_sol. destruct (dle_total (snd t) (snd s)); congruence.
  Qed.
  Lemma FOP_perm {A} (R : A -> A -> Prop) : (forall a b, R a b -> R b a) -> forall l l', Permutation l l' ->
    ForallOrdPairs R l -> ForallOrdPairs R l'.
  Proof.
    intros S l l' HP. induction HP as [|x l l' HP IH|x y l|l1 l2 l3 H1 IH1 H2 IH2]; intros H; auto.
    - inversion H as [|? ? Hf Hr]; subst. constructor; [|auto].
      rewrite Forall_forall in *. intros z Hz. apply Hf. eapply Permutation_in; [apply Permutation_sym; exact HP|exact Hz].
    - inversion H as [|? ? Hf Hr]; subst. inversion Hr as [|? ? Hf' Hr']; subst. inversion Hf; subst.
      constructor; [constructor; auto|]. constructor; auto.
  Qed.
  Lemma ins_apart s sols : ForallOrdPairs apart sols -> (forall t, In t sols -> ~ equiv (fst s) (fst t)) ->
    ForallOrdPairs apart (ins s sols).
  Proof.
    intros H Hs. apply (FOP_perm apart apart_sym _ _ (ins_perm s sols)). constructor; [|exact H].
    apply Forall_forall. exact Hs.
  Qed.

  (** what truncation does to a sorted list: drop the entries worse than the nsol-th *)
  Definition trunc (sols : list (X * D)) : list (X * D) :=
    match nth_error sols (nsol - 1) with
    | Some t => filter (fun s => dle (snd s) (snd t)) sols
    | None => sols
    end.

  Lemma sorted_filter_prefix d sols : StronglySorted le_sol sols ->
    exists sols2, sols = filter (fun s => dle (snd s) d) sols ++ sols2 /\
      forall s, In s sols2 -> dlt d (snd s) = true.
  Proof.
    induction 1 as [|t sols Hs IH Hf]; cbn; [exists []; split; [reflexivity|intros ? []]|].
    destruct (dle (snd t) d) eqn:E.
    - destruct IH as (s2 & E2 & H2). exists s2. split; [cbn; now rewrite <- E2|exact H2].
    - exists (t :: sols). rewrite Forall_forall in Hf.
      assert (H : forall s, In s (t :: sols) -> dlt d (snd s) = true).
      { intros s [<-|Hs']; [now apply dlt_spec|]. apply (dlt_le_trans _ (snd t)); [now apply dlt_spec|exact (Hf s Hs')]. }
      split; [|exact H].
      assert (forall l : list (X * D), (forall s, In s l -> dlt d (snd s) = true) -> filter (fun s => dle (snd s) d) l = []) as N.
      { clear. induction l as [|a l IH]; intros H; cbn; [reflexivity|].
        pose proof (H a (or_introl eq_refl)) as Ha. apply dlt_spec in Ha. rewrite Ha. apply IH. intros; apply H; now right. }
      rewrite N; [reflexivity|]. intros; apply H; now right.
  Qed.

  Lemma trunc_prefix sols : StronglySorted le_sol sols ->
    exists rest, sols = trunc sols ++ rest /\
      (forall t, nth_error sols (nsol - 1) = Some t -> nth_error (trunc sols) (nsol - 1) = Some t /\
         (forall s, In s (trunc sols) -> dle (snd s) (snd t) = true) /\
         (forall s, In s rest -> dlt (snd t) (snd s) = true)) /\
      (nth_error sols (nsol - 1) = None -> rest = []).
  Proof.
    intros HS. unfold trunc. destruct (nth_error sols (nsol - 1)) as [t|] eqn:E.
    - destruct (sorted_filter_prefix (snd t) sols HS) as (rest & E2 & H2).
      exists rest. split; [exact E2|]. split; [|discriminate]. intros t' Et. injection Et as <-.
      split; [|split; [intros s Hs; apply filter_In in Hs; tauto|exact H2]].
      assert (nsol - 1 < length (filter (fun s => dle (snd s) (snd t)) sols))%nat as L.
      { destruct (Nat.lt_ge_cases (nsol - 1) (length (filter (fun s => dle (snd s) (snd t)) sols))) as [H|H]; [exact H|].
        rewrite E2 in E. rewrite nth_error_app2 in E by exact H. apply nth_error_In in E.
        specialize (H2 t E). rewrite dlt_irrefl in H2. discriminate. }
      rewrite E2 in E. rewrite nth_error_app1 in E by exact L. exact E.
    - exists []. rewrite app_nil_r. split; [reflexivity|]. split; [discriminate|reflexivity].
  Qed.

  Lemma trunc_good seen sols :
    StronglySorted le_sol sols -> ForallOrdPairs apart sols ->
    (forall s, In s sols -> In (fst s) seen /\ snd s = dist (fst s)) ->
    (forall x, In x seen -> dom x) ->
    (forall x, In x seen -> (exists s, In s sols /\ equiv x (fst s)) \/
       ((nsol <= length sols)%nat /\ forall s, In s (trunc sols) -> dlt (snd s) (dist x) = true)) ->
    good seen (trunc sols).
  Proof.
    intros G1 G2 G3 G5 G6. destruct (trunc_prefix sols G1) as (rest & E & Ht & Hn).
    assert (I : forall s, In s (trunc sols) -> In s sols) by (intros s Hs; rewrite E; apply in_or_app; now left).
    split; [|split; [|split; [|split; [|split]]]].
    - rewrite E in G1. apply SS_app in G1. apply G1.
    - rewrite E in G2. apply FOP_app in G2. apply G2.
    - auto.
    - intros s t Hs Ht'. destruct (nth_error sols (nsol - 1)) as [t0|] eqn:E0.
      + destruct (Ht t0 eq_refl) as (H1 & H2 & _). assert (t0 = t) by congruence. subst. auto.
      + rewrite (Hn eq_refl), app_nil_r in E. rewrite <- E in Ht'. congruence.
    - exact G5.
    - intros x Hx. destruct (nth_error sols (nsol - 1)) as [t|] eqn:E0.
      + destruct (Ht t eq_refl) as (H1 & H2 & H3).
        assert (L : (nsol <= length (trunc sols))%nat).
        { assert (nth_error (trunc sols) (nsol - 1) <> None) as N by congruence. apply nth_error_Some in N. lia. }
        destruct (G6 x Hx) as [(s & Hs & Eq)|[_ H]]; [|right; auto].
        rewrite E in Hs. apply in_app_or in Hs. destruct Hs as [Hs|Hs]; [left; eauto|]. right. split; [exact L|].
        intros s' Hs'. apply (dle_lt_trans _ (snd t)); [auto|].
        assert (Is : In s sols) by (rewrite E; apply in_or_app; now right).
        destruct (G3 s Is) as [I1 I2].
        rewrite (Hdist x (fst s)) by auto. rewrite <- I2. auto.
      + rewrite (Hn eq_refl), app_nil_r in E. rewrite <- E in *.
        destruct (G6 x Hx) as [H|[H _]]; [now left|].
        exfalso. apply nth_error_None in E0. lia.
  Qed.

  (** inserting a new class *)
  Lemma ins_good seen sols x : good seen sols -> dom x -> (forall t, In t sols -> ~ equiv x (fst t)) ->
    good (x :: seen) (trunc (ins (x, dist x) sols)).
  Proof.
    intros (G1 & G2 & G3 & G4 & G5 & G6) Hx Hn. apply trunc_good.
    - now apply ins_sorted.
    - now apply ins_apart.
    - intros s Hs. apply ins_in in Hs. destruct Hs as [->|Hs]; [split; [now left|reflexivity]|].
      destruct (G3 s Hs). split; [now right|auto].
    - intros y [<-|Hy]; auto.
    - intros y [<-|Hy].
      + left. exists (x, dist x). split; [apply ins_in; now left|apply Hrefl].
      + destruct (G6 y Hy) as [(s & Hs & E)|[L H]].
        * left. exists s. split; [apply ins_in; now right|exact E].
        * right. rewrite ins_length. split; [lia|]. intros s Hs.
          destruct (trunc_prefix (ins (x, dist x) sols)) as (rest & E & Ht & _); [now apply ins_sorted|].
          assert (Is : In s (ins (x, dist x) sols)) by (rewrite E; apply in_or_app; now left).
          apply ins_in in Is. destruct Is as [->|Is]; [|auto].
          (* x survived truncation: it is no worse than the nsol-th, hence than an old entry *)
          destruct (nth_error (ins (x, dist x) sols) (nsol - 1)) as [t|] eqn:Et.
          -- destruct (Ht t eq_refl) as (_ & H2 & _). specialize (H2 _ Hs).
             pose proof (nth_error_In _ _ Et) as Hin. apply ins_in in Hin.
             destruct Hin as [->|Hin]; [|exact (dle_lt_trans _ _ _ H2 (H t Hin))].
             (* the nsol-th is x itself: one of the old entries comes after it *)
             assert (exists u, In u sols /\ dle (dist x) (snd u) = true) as (u & Hu & Lu).
             { assert (Lp : (nsol < length (ins (x, dist x) sols))%nat) by (rewrite ins_length; lia).
               destruct (nth_error (ins (x, dist x) sols) nsol) as [u|] eqn:Eu; [|apply nth_error_None in Eu; lia].
               pose proof (SS_nth _ (nsol - 1) nsol _ _ (ins_sorted (x, dist x) sols G1) ltac:(lia) Et Eu) as Le.
               assert (Ui := nth_error_In _ _ Eu). apply ins_in in Ui. destruct Ui as [->|Ui]; [|eauto].
               exfalso. (* x cannot occur twice *)
               pose proof (FOP_nth apart _ (nsol - 1) nsol _ _ (ins_apart (x, dist x) sols G2 Hn) ltac:(lia) Et Eu) as A.
               apply A. apply Hrefl. }
             exact (dle_lt_trans _ _ _ Lu (H u Hu)).
          -- apply nth_error_None in Et. rewrite ins_length in Et. lia.
  Qed.

  (** a candidate worse than every entry of a full list may be ignored *)
  Lemma skip_good seen sols x : good seen sols -> dom x ->
    (exists s, In s sols /\ equiv x (fst s)) \/
    ((nsol <= length sols)%nat /\ forall s, In s sols -> dlt (snd s) (dist x) = true) ->
    good (x :: seen) sols.
  Proof.
    intros (G1 & G2 & G3 & G4 & G5 & G6) Hx H. split; [exact G1|]. split; [exact G2|].
    split; [intros s Hs; destruct (G3 s Hs); split; [now right|auto]|]. split; [exact G4|].
    split; [intros y [<-|Hy]; auto|]. intros y [<-|Hy]; auto.
  Qed.

  (** inserting at the end of a full list and truncating is the same as ignoring *)
  Lemma ins_last s sols : (forall t, In t sols -> dlt (snd t) (snd s) = true) -> ins s sols = sols ++ [s].
  Proof.
    induction sols as [|t sols IH]; intros H; cbn; [reflexivity|].
    pose proof (H t (or_introl eq_refl)) as Ht. apply dlt_spec in Ht. rewrite Ht. f_equal. apply IH. intros; apply H; now right.
  Qed.

  (** bookkeeping of equivalents: everything recorded is equivalent to something seen,
      and all equivalents of listed entries are recorded *)
  Definition booked (seen : list X) (sols : list (X * D)) (ext : list X) : Prop :=
    (forall y, dom y -> In y ext -> exists x, In x seen /\ equiv y x) /\
    (forall s y, In s sols -> dom y -> equiv y (fst s) -> In y ext).

  Lemma known_good seen sols ext x : good seen sols -> booked seen sols ext -> dom x -> In x ext ->
    good (x :: seen) sols.
  Proof.
    intros HG [B1 _] Hx Hin. pose proof HG as (G1 & G2 & G3 & G4 & G5 & G6).
    apply skip_good; auto. destruct (B1 x Hx Hin) as (y & Hy & E).
    destruct (G6 y Hy) as [(s & Hs & E')|[L H]].
    - left. exists s. split; [exact Hs|]. eapply Htrans; eauto.
    - right. split; [exact L|]. intros s Hs. rewrite (Hdist x y); auto.
  Qed.
  Lemma new_good seen sols ext x : good seen sols -> booked seen sols ext -> dom x -> ~ In x ext ->
    good (x :: seen) (trunc (ins (x, dist x) sols)).
  Proof.
    intros HG [_ B2] Hx Hin. apply ins_good; auto. intros t Ht E. apply Hin. now apply (B2 t).
  Qed.

  (** *** Uniqueness: best lists of the same candidates carry the same distances *)
  Definition match_ (s t : X * D) : Prop := equiv (fst s) (fst t) /\ snd s = snd t.

  Lemma matching : forall A B, ForallOrdPairs apart A ->
    (forall a, In a A -> exists b, In b B /\ match_ a b) ->
    exists B1 B2, Permutation B (B1 ++ B2) /\ Forall2 match_ A B1.
  Proof.
    induction A as [|a A IH]; intros B HA H; [exists [], B; split; [reflexivity|constructor]|].
    inversion HA as [|? ? Hf Hr]; subst.
    destruct (H a (or_introl eq_refl)) as (b & Hb & M).
    apply in_split in Hb. destruct Hb as (l1 & l2 & ->).
    destruct (IH (l1 ++ l2) Hr) as (B1 & B2 & HP & HF).
    { intros a' Ha'. destruct (H a' (or_intror Ha')) as (b' & Hb' & M').
      exists b'. split; [|exact M']. apply in_app_or in Hb'. apply in_or_app.
      destruct Hb' as [?|[<-|?]]; auto. exfalso.
      rewrite Forall_forall in Hf. apply (Hf a' Ha'). destruct M, M'. eapply Htrans; [eassumption|now apply Hsym]. }
    exists (b :: B1), B2. split; [|now constructor]. cbn.
    rewrite <- Permutation_middle. now constructor.
  Qed.
  Lemma match_map A B : Forall2 match_ A B -> map snd A = map snd B.
  Proof. induction 1 as [|a b A B [_ E]]; cbn; congruence. Qed.

  Lemma sorted_perm_eq : forall l l', StronglySorted (fun a b => dle a b = true) l -> StronglySorted (fun a b => dle a b = true) l' ->
    Permutation l l' -> l = l'.
  Proof.
    induction l as [|a l IH]; intros l' H H' HP; [apply Permutation_nil in HP; now subst|].
    destruct l' as [|b l']; [apply Permutation_sym, Permutation_nil in HP; discriminate|].
    apply StronglySorted_inv in H, H'. destruct H as [H F], H' as [H' F']. rewrite Forall_forall in F, F'.
    assert (a = b) as ->.
    { apply dle_antisym.
      - assert (In b (a :: l)) as [->|Hb] by (eapply Permutation_in; [apply Permutation_sym; exact HP|now left]); [apply dle_refl|auto].
      - assert (In a (b :: l')) as [->|Ha] by (eapply Permutation_in; [exact HP|now left]); [apply dle_refl|auto]. }
    f_equal. apply IH; auto. eapply Permutation_cons_inv. exact HP.
  Qed.
  Lemma sorted_map sols : StronglySorted le_sol sols -> StronglySorted (fun a b => dle a b = true) (map snd sols).
  Proof.
    induction 1 as [|s sols H IH F]; cbn; constructor; auto.
    apply Forall_forall. intros d Hd. apply in_map_iff in Hd. destruct Hd as (t & <- & Ht). rewrite Forall_forall in F. now apply F.
  Qed.

  (** B does not miss anything of A that is no worse than B's worst *)
  Lemma no_miss seen A B : good seen A -> good seen B ->
    forall a, In a A -> (exists b, In b B /\ match_ a b) \/
      ((nsol <= length B)%nat /\ forall s, In s B -> dlt (snd s) (snd a) = true).
  Proof.
    intros (A1 & A2 & A3 & A4 & A5 & A6) (B1 & B2 & B3 & B4 & B5 & B6) a Ha.
    destruct (A3 a Ha) as [I E]. destruct (B6 _ I) as [(s & Hs & Eq)|[L H]].
    - left. exists s. split; [exact Hs|]. split; [exact Eq|]. destruct (B3 s Hs) as [I' E'].
      rewrite E, E'. apply Hdist; auto.
    - right. split; [exact L|]. intros s Hs. rewrite E. auto.
  Qed.

  Lemma full_no_worse seen A B : good seen A -> good seen B ->
    (forall a, In a A -> exists b, In b B /\ match_ a b).
  Proof.
    intros HA HB a Ha. destruct (no_miss seen A B HA HB a Ha) as [H|[L H]]; [exact H|]. exfalso.
    pose proof HA as (A1 & A2 & A3 & A4 & A5 & A6). pose proof HB as (B1 & B2 & B3 & B4 & B5 & B6).
    (* every b of B is strictly better than a, so it is listed in A, as is a: then A has
       more than nsol entries and a is strictly worse than the nsol-th *)
    assert (M : forall b, In b B -> exists a', In a' A /\ match_ b a').
    { intros b Hb. destruct (no_miss seen B A HB HA b Hb) as [M|[_ M]]; [exact M|]. exfalso.
      specialize (M a Ha). specialize (H b Hb). pose proof (dlt_trans _ _ _ M H) as Y. rewrite dlt_irrefl in Y. discriminate. }
    destruct (matching B A B2 M) as (A1' & A2' & HP & HF).
    assert (Hin : In a (A1' ++ A2')) by (eapply Permutation_in; eauto).
    assert (La : length A1' = length B) by (symmetry; eapply F2_length; exact HF).
    assert (HA1 : forall s, In s A1' -> dlt (snd s) (snd a) = true).
    { intros s Hs. clear -HF Hs H. induction HF as [|b c B A [_ E] HF IH]; [destruct Hs|].
      destruct Hs as [<-|Hs]; [rewrite <- E; apply H; now left|]. apply IH; auto. intros; apply H; now right. }
    (* the nsol-th entry of A is >= every entry of A (ties), in particular >= a *)
    assert (nsol - 1 < length A)%nat as LA by (rewrite (Permutation_length HP), app_length; lia).
    destruct (nth_error A (nsol - 1)) as [t|] eqn:Et; [|apply nth_error_None in Et; lia].
    pose proof (A4 a t Ha eq_refl) as Lat.
    (* entries strictly below t are among the first nsol - 1 *)
    assert (Cnt : (length (filter (fun s => dlt (snd s) (snd t)) A) <= nsol - 1)%nat).
    { rewrite <- (firstn_skipn (nsol - 1) A), filter_app, app_length.
      assert (filter (fun s => dlt (snd s) (snd t)) (skipn (nsol - 1) A) = []) as ->.
      { assert (forall s, In s (skipn (nsol - 1) A) -> dlt (snd s) (snd t) = false) as N.
        { intros s Hs. apply In_nth_error in Hs. destruct Hs as [i Hi].
          rewrite nth_error_skip in Hi. apply dlt_false. apply (SS_nth A (nsol - 1) (nsol - 1 + i)); auto. lia. }
        clear -N. induction (skipn (nsol - 1) A) as [|s l IH]; cbn; [reflexivity|].
        rewrite (N s) by (now left). apply IH. intros; apply N; now right. }
      cbn. rewrite Nat.add_0_r. etransitivity; [apply filter_le|]. apply firstn_le_length. }
    assert (Cnt2 : (length A1' <= length (filter (fun s => dlt (snd s) (snd t)) A))%nat).
    { assert (P2 : Permutation (filter (fun s => dlt (snd s) (snd t)) A) (filter (fun s => dlt (snd s) (snd t)) (A1' ++ A2'))).
      { clear -HP. induction HP; cbn; repeat (destruct (dlt _ _)); auto; [constructor|etransitivity; eauto]. }
      rewrite (Permutation_length P2), filter_app, app_length.
      assert (filter (fun s => dlt (snd s) (snd t)) A1' = A1') as ->; [|lia].
      clear -HA1 Lat. induction A1' as [|s l IH]; cbn; [reflexivity|].
      rewrite (dlt_le_trans _ (snd a)); auto using in_eq. f_equal. apply IH. intros; apply HA1; now right. }
    lia.
  Qed.

  Theorem best_unique seen A B : good seen A -> good seen B -> map snd A = map snd B.
  Proof.
    intros HA HB.
    destruct (matching A B (proj1 (proj2 HA)) (full_no_worse seen A B HA HB)) as (B1 & B2 & HP & HF).
    destruct (matching B A (proj1 (proj2 HB)) (full_no_worse seen B A HB HA)) as (A1 & A2 & HP' & HF').
    assert (B2 = []) as ->.
    { pose proof (Permutation_length HP) as L1. pose proof (Permutation_length HP') as L2.
      rewrite app_length in L1, L2. apply F2_length in HF, HF'. destruct B2; [reflexivity|cbn in L1; lia]. }
    rewrite app_nil_r in HP. apply sorted_perm_eq; [apply sorted_map, HA|apply sorted_map, HB|].
    rewrite (match_map A B1 HF). apply Permutation_map. now apply Permutation_sym.
  Qed.
End Best.
