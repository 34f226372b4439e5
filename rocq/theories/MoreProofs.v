(** Two runs of the tree search side by side: asking for more solutions, or allowing a larger depth, loses nothing (C104). *)
From Coq Require Import Sorted.
From Verif Require Import LinAlg ReduceProofs BestSpec BestProofs TreeSpec TreeProofs TreeDfs TreeSols TreeLatOpt LatCorTree StopProofs.
Local Open Scope Z_scope.

(** * Lists *)
Lemma pigeon {A} (R : A -> A -> Prop) : (forall x y, R x y -> R y x) -> (forall x y z, R x y -> R y z -> R x z) -> forall (l l' : list A),
  ForallOrdPairs (fun a b => ~ R a b) l -> (forall a, In a l -> exists b, In b l' /\ R a b) -> (length l <= length l')%nat.
Proof.
  intros Sy Tr. induction l as [|a l IH]; intros l' HF H; [cbn; lia|]. inversion HF as [|? ? Hf Hr]; subst.
  destruct (H a (or_introl eq_refl)) as (b & Hb & Rb). apply in_split in Hb. destruct Hb as (l1 & l2 & ->).
  assert (L : (length l <= length (l1 ++ l2))%nat).
  { apply IH; [exact Hr|]. intros a' Ha'. destruct (H a' (or_intror Ha')) as (b' & Hb' & R'). exists b'. split; [|exact R'].
    apply in_app_or in Hb'. apply in_or_app. destruct Hb' as [?|[<-|?]]; auto. exfalso. rewrite Forall_forall in Hf. apply (Hf a' Ha'). eauto. }
  rewrite !app_length in *. cbn. lia.
Qed.
Lemma FOP_weak {A} (R R' : A -> A -> Prop) l : (forall a b, In a l -> In b l -> R a b -> R' a b) -> ForallOrdPairs R l -> ForallOrdPairs R' l.
Proof.
  intros H HF. induction HF as [|a l Hf Hr IH]; constructor.
  - rewrite Forall_forall in *. intros b Hb. apply H; [now left|now right|auto].
  - apply IH. intros; apply H; auto; now right.
Qed.
Lemma FOP_firstn {A} (R : A -> A -> Prop) k : forall l, ForallOrdPairs R l -> ForallOrdPairs R (firstn k l).
Proof.
  induction k as [|k IH]; intros l H; [constructor|]. inversion H as [|a l' Hf Hr]; subst; [constructor|]. cbn. constructor; [|now apply IH].
  rewrite Forall_forall in *. intros b Hb. apply Hf. rewrite <- (firstn_skipn k l'). apply in_or_app. now left.
Qed.
Lemma In_firstn {A} (l : list A) k x : In x (firstn k l) -> exists i, (i < k)%nat /\ nth_error l i = Some x.
Proof.
  revert l. induction k as [|k IH]; intros l H; [destruct H|]. destruct l as [|a l]; [destruct H|]. cbn in H. destruct H as [->|H]; [exists 0%nat; split; [lia|reflexivity]|].
  destruct (IH l H) as (i & Hi & E). exists (S i). split; [lia|exact E].
Qed.
Lemma firstn_In {A} (l : list A) k i x : (i < k)%nat -> nth_error l i = Some x -> In x (firstn k l).
Proof.
  revert l i. induction k as [|k IH]; intros l i Hi H; [lia|]. destruct l as [|a l]; [destruct i; discriminate|]. destruct i as [|i]; cbn in *; [left; congruence|right].
  apply (IH l i); [lia|exact H].
Qed.

Lemma filter_none {A} (f : A -> bool) l : (forall x, In x l -> f x = false) -> filter f l = [].
Proof. induction l as [|a l IH]; intros H; cbn; [reflexivity|]. rewrite (H a) by now left. apply IH. intros; apply H; now right. Qed.

Section More.
  Variable dist : mat Z -> R.
  Variables LG1 LG2 : list (mat Z).
  Hypothesis G1 : matrix_group 3 LG1.
  Hypothesis G2 : matrix_group 3 LG2.
  Hypothesis Hdist : symmetric_dist 3 LG1 LG2 dist.
  Variables nsol nsol' : nat.
  Hypothesis Hn1 : (1 <= nsol)%nat.
  Hypothesis Hnn : (nsol <= nsol')%nat.
  Let Hn1' : (1 <= nsol')%nat := Nat.le_trans _ _ _ Hn1 Hnn.
  Let H3 : (0 < 3)%nat := Nat.lt_0_succ 2.
  Notation eqv := (eqv 3 LG1 LG2).
  Notation ok := (sols_ok 3 LG1 LG2 dist nsol).
  Notation ok' := (sols_ok 3 LG1 LG2 dist nsol').
  Notation esym := (eqv_sym 3 H3 LG1 LG2 G1 G2).
  Notation etrans := (eqv_trans 3 H3 LG1 LG2 G1 G2).
  Notation edist := (Hdist' 3 LG1 LG2 dist Hdist).

  Lemma apart_pigeon (l l' : list (mat Z * R)) : ForallOrdPairs (apart eqv) l -> (forall a, In a l -> exists b, In b l' /\ eqv (fst a) (fst b)) ->
    (length l <= length l')%nat.
  Proof.
    intros HF H. apply (pigeon (fun a b : mat Z * R => eqv (fst a) (fst b))); auto.
    - intros x y. apply esym.
    - intros x y z. apply etrans.
  Qed.

  (** the nsol-th entry bounds how many entries are closer *)
  Lemma closer_count (sols : list (mat Z * R)) t0 d : StronglySorted le_sol sols -> nth_error sols (nsol - 1) = Some t0 -> (d <= snd t0)%R ->
    (length (filter (fun s => Rltb (snd s) d) sols) <= nsol - 1)%nat.
  Proof.
    intros HS Ht Hd. rewrite <- (firstn_skipn (nsol - 1) sols), filter_app, app_length.
    replace (filter (fun s => Rltb (snd s) d) (skipn (nsol - 1) sols)) with (@nil (mat Z * R)).
    - cbn [length]. pose proof (filter_le (fun s => Rltb (snd s) d) (firstn (nsol - 1) sols)). pose proof (firstn_le_length (nsol - 1) sols). lia.
    - symmetry. apply filter_none. intros x Hx. apply In_nth_error in Hx. destruct Hx as [i Hi]. rewrite nth_error_skip in Hi.
      pose proof (SS_nth nsol Hn1 sols (nsol - 1) (nsol - 1 + i) t0 x HS ltac:(lia) Ht Hi) as L. apply Rleb_spec in L. apply Rltb_false. lra.
  Qed.

  (** what the shorter list takes, the longer one takes too *)
  Lemma flag_more seen st st' E u s1 u' s1' : ok seen st -> ok' seen st' -> wf 3 3 E ->
    update_solutions dist LG1 LG2 nsol E st = (u, s1) -> update_solutions dist LG1 LG2 nsol' E st' = (u', s1') -> u = true -> u' = true.
  Proof.
    intros [HG [B1 B2]] [HG' [B1' B2']] W H H' U. destruct st as [sols ext], st' as [sols' ext']. cbn [fst snd] in *.
    destruct HG as (A1 & A2 & A3 & A4 & A5 & A6). destruct HG' as (A1' & A2' & A3' & A4' & A5' & A6').
    unfold update_solutions in H, H'. destruct sols' as [|s0' l0'] eqn:Es'; [injection H' as <- _; reflexivity|]. rewrite <- Es' in *.
    assert (P : ~ In E ext /\ ((exists t, In t sols /\ (dist E <= snd t)%R) \/ (length sols < nsol)%nat)).
    { destruct sols as [|s0 l0] eqn:Es.
      - exfalso. assert (I0 : In s0' sols') by (rewrite Es'; now left). destruct (A3' s0' I0) as [I _].
        destruct (A6 _ I) as [(s & [] & _)|[L _]]. cbn in L. lia.
      - rewrite <- Es in *. destruct (mem_mat E ext) eqn:M; [congruence|]. split; [intros X; apply mem_mat_In in X; congruence|].
        destruct (insert_sol_ins (E, dist E) sols) as [[EI (t & Ht & Lt)]|[EI Hlt]]; rewrite EI in H; [left; eauto|].
        destruct (Nat.ltb_spec (length sols) nsol); [now right|congruence]. }
    destruct P as [Nin P].
    assert (Known : forall x, In x seen -> (dist x <= dist E)%R -> exists s, In s sols /\ eqv x (fst s)).
    { intros x Hx L. destruct (A6 x Hx) as [K|[K1 K2]]; [exact K|]. exfalso. destruct P as [(t & Ht & Lt)|P]; [|lia].
      specialize (K2 t Ht). apply dlt_spec, Rleb_false in K2. lra. }
    destruct (mem_mat E ext') eqn:M'.
    - exfalso. apply mem_mat_In in M'. destruct (B1' E W M') as (x & Hx & Ex).
      pose proof (edist E x W (A5 x Hx) Ex) as ED. destruct (Known x Hx ltac:(lra)) as (s & Hs & Es). apply Nin. apply (B2 s E Hs W). exact (etrans _ _ _ Ex Es).
    - destruct (insert_sol_ins (E, dist E) sols') as [[EI _]|[EI Hlt]]; rewrite EI in H'; [congruence|].
      destruct (Nat.ltb_spec (length sols') nsol') as [|L']; [congruence|]. exfalso.
      assert (C : (length sols' <= length (filter (fun s => Rltb (snd s) (dist E)) sols))%nat).
      { apply apart_pigeon; [exact A2'|]. intros a Ha. destruct (A3' a Ha) as [I D]. pose proof (Hlt a Ha) as La. cbn [snd] in La.
        destruct (Known (fst a) I ltac:(lra)) as (s & Hs & Es). exists s. split; [|exact Es]. apply filter_In. split; [exact Hs|]. apply Rltb_spec.
        destruct (A3 s Hs) as [I' D']. rewrite D', <- (edist (fst a) (fst s) (A5 _ I) (A5 _ I') Es). lra. }
      destruct P as [(t & Ht & Lt)|P]; [|pose proof (filter_le (fun s => Rltb (snd s) (dist E)) sols); lia].
      destruct (nth_error sols (nsol - 1)) as [t0|] eqn:Et.
      + pose proof (A4 t t0 Ht eq_refl) as L0. apply Rleb_spec in L0. pose proof (closer_count sols t0 (dist E) A1 Et ltac:(lra)). lia.
      + apply nth_error_None in Et. pose proof (filter_le (fun s => Rltb (snd s) (dist E)) sols).
        assert (LL : (length (filter (fun s => Rltb (snd s) (dist E)) sols) < length sols)%nat).
        { apply in_split in Ht. destruct Ht as (l1 & l2 & ->). rewrite filter_app. cbn [filter]. rewrite (proj2 (Rltb_false _ _) Lt).
          rewrite !app_length. cbn [length]. pose proof (filter_le (fun s => Rltb (snd s) (dist E)) l1). pose proof (filter_le (fun s => Rltb (snd s) (dist E)) l2). lia. }
        lia.
  Qed.

  (** lists of the best of more candidates *)
  Lemma best_more seen seen' sols sols' : incl seen seen' -> good eqv dist nsol (wf 3 3) seen sols -> good eqv dist nsol' (wf 3 3) seen' sols' ->
    forall i s, (i < nsol)%nat -> nth_error sols i = Some s -> exists s', nth_error sols' i = Some s' /\ (snd s' <= snd s)%R.
  Proof.
    intros HI (A1 & A2 & A3 & A4 & A5 & A6) (A1' & A2' & A3' & A4' & A5' & A6') i s Hi Hs.
    assert (Len : length (firstn (S i) sols) = S i) by (apply firstn_length_le; apply nth_error_Some; congruence).
    assert (Fst : forall a, In a (firstn (S i) sols) -> In a sols /\ (snd a <= snd s)%R).
    { intros a Ha. destruct (In_firstn _ _ _ Ha) as (j & Hj & E). split; [now apply nth_error_In in E|].
      apply Rleb_spec. apply (SS_nth nsol Hn1 sols j i a s A1); auto. lia. }
    assert (Short : (forall x, In x seen' -> (dist x <= snd s)%R -> exists b, In b (firstn i sols') /\ eqv x (fst b)) -> False).
    { intros K. pose proof (firstn_le_length i sols'). assert (C : (length (firstn (S i) sols) <= length (firstn i sols'))%nat).
      { apply apart_pigeon; [now apply FOP_firstn|]. intros a Ha. destruct (Fst a Ha) as [I L]. destruct (A3 a I) as [I' D]. apply K; [now apply HI|lra]. }
      lia. }
    destruct (nth_error sols' i) as [s'|] eqn:Es'.
    - exists s'. split; [reflexivity|]. destruct (Rle_or_lt (snd s') (snd s)) as [L|L]; [exact L|]. exfalso. apply Short. intros x Hx Lx.
      destruct (A6' x Hx) as [(b & Hb & Eb)|[_ K]].
      + exists b. split; [|exact Eb]. destruct (A3' b Hb) as [Ib Db]. rewrite <- (edist x (fst b) (A5' _ Hx) (A5' _ Ib) Eb) in Db.
        apply In_nth_error in Hb. destruct Hb as [q Hq]. apply (firstn_In _ _ q); [|exact Hq].
        destruct (Nat.lt_ge_cases q i) as [|Q]; [assumption|]. pose proof (SS_nth nsol Hn1 sols' i q s' b A1' Q Es' Hq) as LL. apply Rleb_spec in LL. lra.
      + specialize (K s' (nth_error_In _ _ Es')). apply dlt_spec, Rleb_false in K. lra.
    - exfalso. apply Short. apply nth_error_None in Es'. rewrite firstn_all2 by exact Es'. intros x Hx _.
      destruct (A6' x Hx) as [K|[K _]]; [exact K|lia].
  Qed.

  (** * The loops side by side *)
  Variable miniter : nat.
  Variable lo : mat Z.
  Hypothesis Wlo : wf 3 3 lo.
  Notation coset := (coset lo).
  Definition rel (seen : list (mat Z)) (b b' : bstate) : Prop :=
    ok seen (b_sols b) /\ ok' seen (b_sols b') /\ b_cache b' = b_cache b /\ b_explored b' = b_explored b /\ b_new b' = b_new b /\
    (b_upd b = true -> b_upd b' = true) /\ sound_cache dist (b_cache b) /\ Forall (fun nd => coset (elem nd)) (b_new b).
  Definition rel_stop (x x' : node * bstate) : Prop := fst x' = fst x /\ coset (elem (fst x)) /\ exists seen, rel seen (snd x) (snd x').

  Lemma rel_update seen b b' E c ex nw nw' u s1 u' s1' : rel seen b b' -> coset E -> sound_cache dist c -> nw' = nw -> Forall (fun nd => coset (elem nd)) nw ->
    update_solutions dist LG1 LG2 nsol E (b_sols b) = (u, s1) -> update_solutions dist LG1 LG2 nsol' E (b_sols b') = (u', s1') ->
    rel (E :: seen) (BState s1 c ex nw (b_upd b || u)) (BState s1' c ex nw' (b_upd b' || u')).
  Proof.
    intros (O & O' & _ & _ & _ & F & _ & _) CE Sc -> NW H H'. pose proof (coset_wf lo Wlo E CE) as W.
    pose proof (update_ok 3 H3 LG1 LG2 G1 G2 dist Hdist nsol Hn1 seen (b_sols b) E O W) as K. unfold visit in K. rewrite H in K.
    pose proof (update_ok 3 H3 LG1 LG2 G1 G2 dist Hdist nsol' Hn1' seen (b_sols b') E O' W) as K'. unfold visit in K'. rewrite H' in K'.
    split; [exact K|]. split; [exact K'|]. repeat (split; [reflexivity|]). cbn [b_upd b_cache b_new]. split; [|split; [exact Sc|exact NW]].
    intros U. apply orb_true_iff in U. apply orb_true_iff. destruct U as [U|U]; [left; auto|right].
    exact (flag_more seen (b_sols b) (b_sols b') E u s1 u' s1' O O' W H H' U).
  Qed.

  Lemma kids_rel fuel depth source root : coset (elem root) -> forall is_ seen b b' x, Forall (fun i => i < 12)%nat is_ -> rel seen b b' ->
    kids_loop dist LG1 LG2 nsol miniter fuel depth source root is_ b = Ok x ->
    exists x', kids_loop dist LG1 LG2 nsol' miniter fuel depth source root is_ b' = Ok x' /\
      match x, x' with inl n, inl n' => rel_stop n n' | inr b1, inr b1' => exists seen', rel seen' b1 b1' | _, _ => False end.
  Proof.
    intros HR. induction is_ as [|i is_ IH]; intros seen b b' x HF HB H.
    - cbn in H. injection H as <-. exists (inr b'). split; [reflexivity|]. eauto.
    - inversion HF as [|? ? Hi HF']; subst. cbn [kids_loop] in *.
      assert (ED : np_dot (elem root) (nth i T_ (eye 3)) = Ok (step_in (elem root) i))
        by (apply np_dot_3; [now apply (coset_wf lo Wlo)|now apply wf_T]).
      rewrite ED in *. cbn [bind] in *. pose proof (coset_step lo Wlo (elem root) i HR Hi) as CE. set (E := step_in (elem root) i) in *.
      pose proof HB as (O & O' & EC & EX & EN & F & CA & NW). rewrite EX. destruct (mem_mat E (b_explored b)); [exact (IH seen b b' x HF' HB H)|]. cbn zeta in *.
      assert (NW' : Forall (fun nd => coset (elem nd)) (b_new b ++ [Node E (Some i) (parent root)])).
      { apply Forall_app. split; [exact NW|]. constructor; [exact CE|constructor]. }
      destruct (depth <=? miniter)%nat; cbn [b_cache b_sols b_explored b_new b_upd] in *.
      + rewrite EC. destruct (dfs dist fuel (Node E (Some i) (parent root)) (b_cache b)) as [[m c']| |] eqn:D; cbn [bind] in *; try discriminate.
        destruct (dfs_coset dist lo Wlo fuel (Node E (Some i) (parent root)) (b_cache b) m c' CE CA D) as [Cm Sc].
        destruct (Rltb (dist (elem m)) (dist (elem source))).
        * injection H as <-. eexists. split; [reflexivity|]. split; [reflexivity|]. split; [exact Cm|]. exists seen. cbn [snd].
          rewrite EN. split; [exact O|]. split; [exact O'|]. repeat (split; [reflexivity|]). split; [exact F|]. split; [exact Sc|exact NW'].
        * destruct (update_solutions dist LG1 LG2 nsol E (b_sols b)) as [u s1] eqn:EU. destruct (update_solutions dist LG1 LG2 nsol' E (b_sols b')) as [u' s1'] eqn:EU'.
          refine (IH (E :: seen) _ _ x HF' _ H). apply (rel_update seen); auto. now rewrite EN.
      + rewrite EC. destruct (update_solutions dist LG1 LG2 nsol E (b_sols b)) as [u s1] eqn:EU. destruct (update_solutions dist LG1 LG2 nsol' E (b_sols b')) as [u' s1'] eqn:EU'.
        refine (IH (E :: seen) _ _ x HF' _ H). apply (rel_update seen); auto. now rewrite EN.
  Qed.
  Lemma roots_rel fuel depth source : forall roots seen b b' x, Forall (fun nd => coset (elem nd)) roots -> rel seen b b' ->
    roots_loop 3 dist LG1 LG2 nsol miniter fuel depth source roots b = Ok x ->
    exists x', roots_loop 3 dist LG1 LG2 nsol' miniter fuel depth source roots b' = Ok x' /\
      match x, x' with inl n, inl n' => rel_stop n n' | inr b1, inr b1' => exists seen', rel seen' b1 b1' | _, _ => False end.
  Proof.
    induction roots as [|r rs IH]; intros seen b b' x HF HB H; cbn [roots_loop] in *; [injection H as <-; exists (inr b'); split; [reflexivity|eauto]|].
    inversion HF as [|? ? Hr HF']; subst.
    destruct (kids_loop dist LG1 LG2 nsol miniter fuel depth source r (child_indices 3 (parent r) (grandpa r)) b) as [y| |] eqn:K; try discriminate.
    destruct (kids_rel fuel depth source r Hr _ seen b b' _ (child_idx_lt (parent r) (grandpa r)) HB K) as (y' & K' & P). rewrite K'. cbn [bind] in *.
    destruct y as [n|b1], y' as [n'|b1']; try destruct P.
    - injection H as <-. eexists. split; [reflexivity|]. now split.
    - match goal with R : rel ?s b1 b1' |- _ => exact (IH s b1 b1' x HF' R H) end.
  Qed.

  (** the second run alone *)
  Definition one (seen : list (mat Z)) (b : bstate) : Prop := ok' seen (b_sols b) /\ Forall (fun nd => coset (elem nd)) (b_new b).
  Lemma kids_one fuel depth source root : (miniter < depth)%nat -> coset (elem root) -> forall is_ seen b x, Forall (fun i => i < 12)%nat is_ -> one seen b ->
    kids_loop dist LG1 LG2 nsol' miniter fuel depth source root is_ b = Ok x -> exists b1 seen', x = inr b1 /\ incl seen seen' /\ one seen' b1.
  Proof.
    intros Hd HR. induction is_ as [|i is_ IH]; intros seen b x HF HB H.
    - cbn in H. injection H as <-. exists b, seen. split; [reflexivity|]. split; [apply incl_refl|exact HB].
    - inversion HF as [|? ? Hi HF']; subst. cbn [kids_loop] in *.
      assert (ED : np_dot (elem root) (nth i T_ (eye 3)) = Ok (step_in (elem root) i))
        by (apply np_dot_3; [now apply (coset_wf lo Wlo)|now apply wf_T]).
      rewrite ED in *. cbn [bind] in *. pose proof (coset_step lo Wlo (elem root) i HR Hi) as CE. set (E := step_in (elem root) i) in *.
      destruct (mem_mat E (b_explored b)); [exact (IH seen b x HF' HB H)|]. cbn zeta in *. destruct (Nat.leb_spec depth miniter); [lia|]. destruct HB as [O NW].
      cbn [b_cache b_sols b_explored b_new b_upd] in *. pose proof (update_ok 3 H3 LG1 LG2 G1 G2 dist Hdist nsol' Hn1' seen (b_sols b) E O (coset_wf lo Wlo _ CE)) as K'.
      unfold visit in K'. destruct (update_solutions dist LG1 LG2 nsol' E (b_sols b)) as [u s1]. cbn [snd] in K'.
      match type of H with kids_loop _ _ _ _ _ _ _ _ _ _ ?bb = _ => destruct (IH (E :: seen) bb x HF'
        ltac:(split; [exact K'|apply Forall_app; split; [exact NW|constructor; [exact CE|constructor]]]) H) as (b1 & seen' & Ex & I & P) end.
      exists b1, seen'. split; [exact Ex|]. split; [|exact P]. intros y Hy. apply I. now right.
  Qed.
  Lemma roots_one fuel depth source : (miniter < depth)%nat -> forall roots seen b x, Forall (fun nd => coset (elem nd)) roots -> one seen b ->
    roots_loop 3 dist LG1 LG2 nsol' miniter fuel depth source roots b = Ok x -> exists b1 seen', x = inr b1 /\ incl seen seen' /\ one seen' b1.
  Proof.
    intros Hd. induction roots as [|r rs IH]; intros seen b x HF HB H; cbn [roots_loop] in *; [injection H as <-; exists b, seen; split; [reflexivity|split; [apply incl_refl|exact HB]]|].
    inversion HF as [|? ? Hr HF']; subst.
    destruct (kids_loop dist LG1 LG2 nsol' miniter fuel depth source r (child_indices 3 (parent r) (grandpa r)) b) as [y| |] eqn:K; try discriminate.
    destruct (kids_one fuel depth source r Hd Hr _ seen b _ (child_idx_lt (parent r) (grandpa r)) HB K) as (b1 & seen1 & -> & I1 & P1). cbn [bind] in H.
    destruct (IH seen1 b1 x HF' P1 H) as (b2 & seen2 & E2 & I2 & P2). exists b2, seen2. split; [exact E2|]. split; [exact (incl_tran I1 I2)|exact P2].
  Qed.
  Variables maxiter maxiter' : nat.
  Hypothesis Hmm : (maxiter <= maxiter')%nat.
  Lemma levels_one fuel source : forall k depth roots seen b x, (miniter <= depth)%nat -> Forall (fun nd => coset (elem nd)) roots -> one seen b ->
    levels 3 dist LG1 LG2 nsol' miniter maxiter' k fuel depth source roots b = Ok x -> exists b1 seen', x = (None, b1) /\ incl seen seen' /\ one seen' b1.
  Proof.
    induction k as [|k IH]; intros depth roots seen b x Hd HF HB H; cbn [levels] in H;
      destruct ((depth <? miniter)%nat || b_upd b && (depth <? maxiter')%nat); try discriminate;
      try (injection H as <-; exists b, seen; split; [reflexivity|split; [apply incl_refl|exact HB]]).
    destruct (roots_loop 3 dist LG1 LG2 nsol' miniter fuel (S depth) source roots _) as [y| |] eqn:R; try discriminate. cbn [bind] in H.
    destruct (roots_one fuel (S depth) source ltac:(lia) roots seen (BState (b_sols b) (b_cache b) (b_explored b) [] false) y HF ltac:(split; [apply HB|constructor]) R) as (b1 & seen1 & -> & I1 & P1).
    destruct (IH (S depth) (b_new b1) seen1 b1 x ltac:(lia) (proj2 P1) P1 H) as (b2 & seen2 & E2 & I2 & P2).
    exists b2, seen2. split; [exact E2|]. split; [exact (incl_tran I1 I2)|exact P2].
  Qed.

  Definition ends (b b' : bstate) : Prop := exists seen seen', incl seen seen' /\ ok seen (b_sols b) /\ ok' seen' (b_sols b').
  Lemma levels_rel fuel source : forall k k' depth roots seen b b' x x', Forall (fun nd => coset (elem nd)) roots -> rel seen b b' ->
    levels 3 dist LG1 LG2 nsol miniter maxiter k fuel depth source roots b = Ok x ->
    levels 3 dist LG1 LG2 nsol' miniter maxiter' k' fuel depth source roots b' = Ok x' ->
    match x, x' with
    | (Some ns, b1), (Some ns', b1') => rel_stop (ns, b1) (ns', b1')
    | (None, b1), (None, b1') => ends b1 b1'
    | _, _ => False
    end.
  Proof.
    assert (Stop : forall k' depth roots seen b b' x x', ((depth <? miniter)%nat || b_upd b && (depth <? maxiter)%nat) = false ->
      Forall (fun nd => coset (elem nd)) roots -> rel seen b b' -> Ok (None, b) = Ok x -> levels 3 dist LG1 LG2 nsol' miniter maxiter' k' fuel depth source roots b' = Ok x' ->
      match x, x' with (Some ns, b1), (Some ns', b1') => rel_stop (ns, b1) (ns', b1') | (None, b1), (None, b1') => ends b1 b1' | _, _ => False end).
    { intros k' depth roots seen b b' x x' C HF HB H H'. injection H as <-. apply orb_false_iff in C. destruct C as [C1 C2]. apply Nat.ltb_ge in C1.
      assert (O1 : one seen b') by (split; [apply HB|]; destruct HB as (_ & _ & _ & _ & EN & _ & _ & NW); rewrite EN; exact NW).
      destruct (levels_one fuel source k' depth roots seen b' x' C1 HF O1 H') as (b1 & seen' & E & I & [P _]). rewrite E.
      exists seen, seen'. split; [exact I|]. split; [apply HB|exact P]. }
    induction k as [|k IH]; intros k' depth roots seen b b' x x' HF HB H H'; cbn [levels] in H;
      destruct ((depth <? miniter)%nat || b_upd b && (depth <? maxiter)%nat) eqn:C; try discriminate;
      try (exact (Stop k' depth roots seen b b' x x' C HF HB H H')).
    assert (C' : ((depth <? miniter)%nat || b_upd b' && (depth <? maxiter')%nat) = true).
    { apply orb_true_iff in C. apply orb_true_iff. destruct C as [C|C]; [now left|right]. apply andb_true_iff in C. destruct C as [C1 C2]. apply andb_true_iff.
      split; [now apply HB|]. apply Nat.ltb_lt in C2. apply Nat.ltb_lt. lia. }
    destruct k' as [|k']; cbn [levels] in H'; rewrite C' in H'; [discriminate|].
    destruct (roots_loop 3 dist LG1 LG2 nsol miniter fuel (S depth) source roots _) as [y| |] eqn:R; try discriminate. cbn [bind] in H.
    assert (HB0 : rel seen (BState (b_sols b) (b_cache b) (b_explored b) [] false) (BState (b_sols b') (b_cache b') (b_explored b') [] false)).
    { destruct HB as (O & O' & EC & EX & EN & F & CA & NW). split; [exact O|]. split; [exact O'|]. split; [exact EC|]. split; [exact EX|]. split; [reflexivity|].
      split; [discriminate|]. split; [exact CA|constructor]. }
    destruct (roots_rel fuel (S depth) source roots seen _ _ y HF HB0 R) as (y' & R' & P). rewrite R' in H'. cbn [bind] in H'.
    destruct y as [[ns b1]|b1], y' as [[ns' b1']|b1']; try (now destruct P).
    - injection H as <-. injection H' as <-. exact P.
    - destruct P as (seen1 & P). pose proof P as (_ & _ & _ & _ & EN & _ & _ & NW). rewrite EN in H'.
      exact (IH k' (S depth) (b_new b1) seen1 b1 b1' x x' NW P H H').
  Qed.
  Lemma restarts_rel fuel : forall k k' start s s' c st st' seen, coset (elem start) -> ok seen s -> ok' seen s' -> sound_cache dist c ->
    restarts 3 dist LG1 LG2 nsol miniter maxiter k fuel start s c = Ok st ->
    restarts 3 dist LG1 LG2 nsol' miniter maxiter' k' fuel start s' c = Ok st' ->
    exists sn sn', incl sn sn' /\ ok sn st /\ ok' sn' st'.
  Proof.
    induction k as [|k IH]; intros k' start s s' c st st' seen HC O O' CA H H'; [discriminate|]. destruct k' as [|k']; [discriminate|]. cbn [restarts] in *.
    destruct (dfs dist fuel start c) as [[m c']| |] eqn:D; try discriminate. cbn [bind] in *.
    destruct (dfs_coset dist lo Wlo _ _ _ _ _ HC CA D) as [Cm Sc]. unfold bfs in *. pose proof (coset_wf lo Wlo _ Cm) as W.
    pose proof (update_ok 3 H3 LG1 LG2 G1 G2 dist Hdist nsol Hn1 seen s (elem m) O W) as K.
    pose proof (update_ok 3 H3 LG1 LG2 G1 G2 dist Hdist nsol' Hn1' seen s' (elem m) O' W) as K'. unfold visit in K, K'.
    destruct (update_solutions dist LG1 LG2 nsol (elem m) s) as [u s1]. destruct (update_solutions dist LG1 LG2 nsol' (elem m) s') as [u' s1']. cbn [snd] in *.
    destruct (levels 3 dist LG1 LG2 nsol miniter maxiter _ fuel 0 m [m] _) as [x| |] eqn:L; cbn [bind] in H; try discriminate.
    destruct (levels 3 dist LG1 LG2 nsol' miniter maxiter' _ fuel 0 m [m] _) as [x'| |] eqn:L'; cbn [bind] in H'; try discriminate.
    pose proof (levels_rel fuel m _ _ 0%nat [m] (elem m :: seen) (BState s1 c' [elem m] [] true) (BState s1' c' [elem m] [] true) x x' ltac:(constructor; [exact Cm|constructor])
      ltac:(split; [exact K|split; [exact K'|split; [reflexivity|split; [reflexivity|split; [reflexivity|split; [reflexivity|split; [exact Sc|constructor]]]]]]]) L L') as P.
    destruct x as [[ns|] b], x' as [[ns'|] b']; try (now destruct P).
    - destruct P as (E & Cn & sn & (P1 & P2 & P3 & _ & _ & _ & P7 & _)). cbn [fst snd] in *. subst ns'. rewrite P3 in H'.
      exact (IH k' ns (b_sols b) (b_sols b') (b_cache b) st st' sn Cn P1 P2 P7 H H').
    - injection H as <-. injection H' as <-. exact P.
  Qed.

  Theorem lat_opt_more k f k' f' sols sols' :
    lat_opt_core 3 dist LG1 LG2 nsol miniter maxiter k f lo = Ok sols -> lat_opt_core 3 dist LG1 LG2 nsol' miniter maxiter' k' f' lo = Ok sols' ->
    forall i s, (i < nsol)%nat -> nth_error sols i = Some s -> exists s', nth_error sols' i = Some s' /\ (snd s' <= snd s)%R.
  Proof.
    intros H H'. unfold lat_opt_core in *.
    destruct (restarts 3 dist LG1 LG2 nsol miniter maxiter k f (Node lo None None) ([], []) (Some 0, [])) as [st| |] eqn:R; try discriminate. cbn [bind] in H.
    destruct (restarts 3 dist LG1 LG2 nsol' miniter maxiter' k' f' (Node lo None None) ([], []) (Some 0, [])) as [st'| |] eqn:R'; try discriminate. cbn [bind] in H'.
    injection H as <-. injection H' as <-.
    pose proof (restarts_mono dist LG1 LG2 nsol miniter Hn1 maxiter f (max f f') ltac:(lia) k k _ _ _ _ (le_n _) R) as R1.
    pose proof (restarts_mono dist LG1 LG2 nsol' miniter Hn1' maxiter' f' (max f f') ltac:(lia) k' k' _ _ _ _ (le_n _) R') as R1'.
    destruct (restarts_rel (max f f') k k' (Node lo None None) ([], []) ([], []) (Some 0, []) st st' [] (coset_lo lo Wlo)
      (init_sols_ok 3 LG1 LG2 dist nsol) (init_sols_ok 3 LG1 LG2 dist nsol') ltac:(intros ? ? []) R1 R1') as (sn & sn' & I & [P _] & [P' _]).
    exact (best_more sn sn' (fst st) (fst st') I P P').
  Qed.
End More.
