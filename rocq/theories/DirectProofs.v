From Coq Require Import Sorted Permutation.
From Verif Require Import Ord Flat DirectModel DirectSpec ReduceProofs ReduceSpec LinAlg.
Local Open Scope Z_scope.

Lemma det_mmul_Z n (M N : mat Z) : dim23 n -> wf n n M -> wf n n N -> det (mmul M N) = det M * det N.
Proof.
  intros Hd HM HN. destruct Hd as [->| ->].
  - apply wf2_inv in HM, HN. destruct HM as (a & b & c & d & ->). destruct HN as (a' & b' & c' & d' & ->).
    mat_unfold_goal. ring.
  - apply wf3_inv in HM, HN. destruct HM as (a & b & c & d & e & f & g & h & i & ->).
    destruct HN as (a' & b' & c' & d' & e' & f' & g' & h' & i' & ->).
    mat_unfold_goal. ring.
Qed.
Lemma det_eye_Z n : dim23 n -> det (@eye Z _ n) = 1.
Proof. intros [->| ->]; reflexivity. Qed.

Lemma mem_vec_In l s : mem_vec l s = true <-> In l s.
Proof.
  unfold mem_vec. rewrite existsb_exists. split.
  - intros (x & H & E). apply row_eqb_eq in E. now subst.
  - intros H. exists l. split; [exact H|]. now apply row_eqb_eq.
Qed.

Lemma last_Some {A} (l : list A) : l <> [] -> exists l' x, l = l' ++ [x] /\ last (map Some l) None = Some x.
Proof.
  intros H. destruct (exists_last H) as (l' & x & ->). exists l', x. split; [reflexivity|].
  rewrite map_app. cbn. apply last_last.
Qed.

Section Proofs.
  Context {D : Type} {T : TotalOrder D}.
  Variable n : nat.
  Variables LG_A LG_M : list (mat Z).
  Variable dist : list Z -> D.
  Variable nsol : nat.
  Hypothesis Hd : dim23 n.
  Hypothesis HA : matrix_group n LG_A.
  Hypothesis HM : matrix_group n LG_M.
  Hypothesis Hdist : forall l l', length l = (n * n)%nat -> length l' = (n * n)%nat ->
    equivalent n LG_A LG_M l l' -> dist l = dist l'.
  Hypothesis Hnsol : (1 <= nsol)%nat.

  Notation equiv := (equivalent n LG_A LG_M).
  Notation nonsing := (nonsingular n).
  Notation eqs := (eqlatcor n LG_A LG_M).
  Let Hn : (0 < n)%nat := dim23_pos n Hd.

  Lemma wfA M : In M LG_A -> wf n n M. Proof. apply HA. Qed.
  Lemma wfM M : In M LG_M -> wf n n M. Proof. apply HM. Qed.
  Lemma wfr l : wf n n (@reshape Z _ n l).
  Proof. apply wf_reshape. Qed.
  Lemma wfmm (M N : mat Z) : wf n n M -> wf n n N -> wf n n (mmul M N).
  Proof. intros. apply (wf_mmul n n n); auto. Qed.

  Lemma in_eqs l l' : In l' (eqs l) <-> length l' = (n * n)%nat /\ equiv l l'.
  Proof.
    unfold eqlatcor. rewrite in_flat_map. split.
    - intros (M1 & H1 & H). apply in_map_iff in H. destruct H as (M2 & <- & H2).
      assert (W : wf n n (mmul (mmul M1 (reshape n l)) M2)) by
        (apply wfmm; [apply wfmm; [now apply wfA|apply wf_reshape]|now apply wfM]).
      split; [now apply length_flatten|]. exists M1, M2. split; [exact H1|]. split; [exact H2|].
      now apply reshape_flatten.
    - intros (Hl & M1 & M2 & H1 & H2 & E). exists M1. split; [exact H1|]. apply in_map_iff.
      exists M2. split; [|exact H2]. rewrite <- E. now apply flatten_reshape.
  Qed.

  Lemma equiv_refl l : equiv l l.
  Proof.
    exists (eye n), (eye n). split; [apply HA|]. split; [apply HM|].
    rewrite (mmul_eye_l n n), (mmul_eye_r n n) by auto using wfr. reflexivity.
  Qed.
  Lemma equiv_sym l l' : equiv l l' -> equiv l' l.
  Proof.
    intros (M1 & M2 & H1 & H2 & E).
    destruct HA as (WA & _ & _ & IA). destruct HM as (WM & _ & _ & IM).
    destruct (IA M1 H1) as (K1 & HK1 & _ & E1). destruct (IM M2 H2) as (K2 & HK2 & E2 & _).
    exists K1, K2. split; [exact HK1|]. split; [exact HK2|]. rewrite E.
    assert (WL := wf_reshape n l). 
    assert (W1 : wf n n M1) by auto. assert (W2 : wf n n M2) by auto.
    assert (W3 : wf n n K1) by auto. assert (W4 : wf n n K2) by auto.
    assert (W5 : wf n n (mmul M1 (reshape n l))) by (now apply wfmm).
    rewrite <- (mmul_assoc n n n n K1) by auto.
    rewrite <- (mmul_assoc n n n n K1), E1, (mmul_eye_l n n) by auto.
    rewrite (mmul_assoc n n n n), E2, (mmul_eye_r n n) by auto. reflexivity.
  Qed.
  Lemma equiv_trans l l' l'' : equiv l l' -> equiv l' l'' -> equiv l l''.
  Proof.
    intros (M1 & M2 & H1 & H2 & E) (N1 & N2 & H3 & H4 & E').
    destruct HA as (WA & _ & CA & _). destruct HM as (WM & _ & CM & _).
    exists (mmul N1 M1), (mmul M2 N2). split; [auto|]. split; [auto|]. rewrite E', E.
    assert (WL := wf_reshape n l).
    assert (W1 : wf n n M1) by auto. assert (W2 : wf n n M2) by auto.
    assert (W3 : wf n n N1) by auto. assert (W4 : wf n n N2) by auto.
    rewrite !(mmul_assoc n n n n) by (auto using wfmm). reflexivity.
  Qed.

  Lemma det_A M : In M LG_A -> det M <> 0.
  Proof.
    intros H. destruct HA as (WA & _ & _ & IA). destruct (IA M H) as (K & HK & E & _).
    assert (X : det M * det K = 1) by (rewrite <- (det_mmul_Z n), E by auto; now apply det_eye_Z).
    intros Z. rewrite Z in X. lia.
  Qed.
  Lemma det_M M : In M LG_M -> det M <> 0.
  Proof.
    intros H. destruct HM as (WA & _ & _ & IA). destruct (IA M H) as (K & HK & E & _).
    assert (X : det M * det K = 1) by (rewrite <- (det_mmul_Z n), E by auto; now apply det_eye_Z).
    intros Z. rewrite Z in X. lia.
  Qed.
  Lemma equiv_nonsing l l' : equiv l l' -> nonsing l -> nonsing l'.
  Proof.
    intros (M1 & M2 & H1 & H2 & E) N. unfold nonsingular. rewrite E.
    assert (WL := wf_reshape n l).
    assert (W1 := wfA M1 H1). assert (W2 := wfM M2 H2).
    rewrite !(det_mmul_Z n) by (auto using wfmm).
    pose proof (det_A M1 H1). pose proof (det_M M2 H2). unfold nonsingular in N.
    apply Z.neq_mul_0. split; [apply Z.neq_mul_0; auto|auto].
  Qed.

  (** *** Sorted solution lists *)
  Definition le_sol (s t : list Z * D) : Prop := dle (snd s) (snd t) = true.
  Definition apart (s t : list Z * D) : Prop := ~ equiv (fst s) (fst t).

  Lemma nth_in_sorted sols i j s t : StronglySorted le_sol sols ->
    (i <= j)%nat -> nth_error sols i = Some s -> nth_error sols j = Some t -> dle (snd s) (snd t) = true.
  Proof.
    intros H. revert i j. induction H as [|a l Hs IH Hf]; intros i j Hij Hi Hj; [destruct i; discriminate|].
    destruct i as [|i], j as [|j]; cbn in *.
    - assert (s = t) as -> by congruence. apply dle_refl.
    - injection Hi as ->. rewrite Forall_forall in Hf. apply Hf. eapply nth_error_In. exact Hj.
    - lia.
    - apply (IH i j); auto. lia.
  Qed.

  (** state invariant, with the weaker "lost" clause that holds in the middle of add_sol *)
  Definition core (seen : list (list Z)) (sols : list (list Z * D)) (ext : list (list Z)) : Prop :=
    StronglySorted le_sol sols /\
    ForallOrdPairs apart sols /\
    (forall s, In s sols -> length (fst s) = (n * n)%nat /\ In (fst s) seen /\ nonsing (fst s) /\ snd s = dist (fst s)) /\
    (forall l, length l = (n * n)%nat -> nonsing l -> (In l ext <-> exists s, In s sols /\ equiv l (fst s))) /\
    (forall l, In l seen -> length l = (n * n)%nat) /\
    (forall l, In l seen -> nonsing l ->
       (exists s, In s sols /\ equiv l (fst s)) \/
       (exists t, nth_error sols (nsol - 1) = Some t /\ dlt (snd t) (dist l) = true)).
  Definition ties (sols : list (list Z * D)) : Prop :=
    forall s t, In s sols -> nth_error sols (nsol - 1) = Some t -> dle (snd s) (snd t) = true.

  Lemma FOP_app {A} (R : A -> A -> Prop) l1 l2 :
    ForallOrdPairs R (l1 ++ l2) <-> ForallOrdPairs R l1 /\ ForallOrdPairs R l2 /\
      (forall a b, In a l1 -> In b l2 -> R a b).
  Proof.
    induction l1 as [|a l1 IH]; cbn.
    - split; [intros H|intros (_ & H & _); exact H]. split; [constructor|]. split; [exact H|]. intros ? ? [].
    - split.
      + intros H. inversion H as [|x y Hf Hr]; subst. apply IH in Hr. destruct Hr as (H1 & H2 & H3).
        rewrite Forall_app in Hf. destruct Hf as [F1 F2]. split; [now constructor|]. split; [exact H2|].
        intros c b [<-|Hc] Hb; [rewrite Forall_forall in F2; auto|auto].
      + intros (H1 & H2 & H3). inversion H1 as [|x y Hf Hr]; subst. constructor.
        * rewrite Forall_app. split; [exact Hf|]. apply Forall_forall. intros b Hb. apply H3; auto.
        * apply IH. split; [exact Hr|]. split; [exact H2|]. intros; apply H3; auto.
  Qed.
  Lemma SS_app {A} (R : A -> A -> Prop) l1 l2 :
    StronglySorted R (l1 ++ l2) <-> StronglySorted R l1 /\ StronglySorted R l2 /\
      (forall a b, In a l1 -> In b l2 -> R a b).
  Proof.
    induction l1 as [|a l1 IH]; cbn.
    - split; [intros H|intros (_ & H & _); exact H]. split; [constructor|]. split; [exact H|]. intros ? ? [].
    - split.
      + intros H. inversion H as [|x y Hr Hf]; subst. apply IH in Hr. destruct Hr as (H1 & H2 & H3).
        rewrite Forall_app in Hf. destruct Hf as [F1 F2]. split; [now constructor|]. split; [exact H2|].
        intros c b [<-|Hc] Hb; [rewrite Forall_forall in F2; auto|auto].
      + intros (H1 & H2 & H3). inversion H1 as [|x y Hr Hf]; subst. constructor.
        * apply IH. split; [exact Hr|]. split; [exact H2|]. intros; apply H3; auto.
        * rewrite Forall_app. split; [exact Hf|]. apply Forall_forall. intros b Hb. apply H3; auto.
  Qed.

  Lemma removelast_snoc {A} (l : list A) x : removelast (l ++ [x]) = l.
  Proof. apply removelast_last. Qed.

  (** popping keeps [core] *)
  Lemma pop_ok : forall fuel seen sols ext, (length sols <= fuel)%nat -> (nsol <= length sols)%nat ->
    core seen sols ext ->
    exists sols' ext', pop_loop n LG_A LG_M nsol fuel sols ext = Ok (sols', ext') /\
      core seen sols' ext' /\ ties sols' /\ (nsol <= length sols')%nat /\
      nth_error sols' (nsol - 1) = nth_error sols (nsol - 1).
  Proof.
    induction fuel as [|fuel IH]; intros seen sols ext Hf Hlen HC; [lia|].
    assert (Hne : sols <> []) by (intros ->; cbn in Hlen; lia).
    destruct (last_Some sols Hne) as (l' & x & El & Ela).
    destruct (nth_error sols (nsol - 1)) as [t|] eqn:Et.
    2:{ apply nth_error_None in Et. lia. }
    cbn [pop_loop]. rewrite Ela, Et.
    destruct (dlt (snd t) (snd x)) eqn:Elt.
    - assert (Hlt : (nsol - 1 < length l')%nat).
      { destruct (Nat.lt_ge_cases (nsol - 1) (length l')) as [H|H]; [exact H|]. exfalso.
        subst sols. rewrite app_length in Hlen. cbn in Hlen.
        rewrite nth_error_app2 in Et by lia.
        destruct (nsol - 1 - length l')%nat as [|q] eqn:E0; cbn in Et.
        + injection Et as ->. rewrite dlt_irrefl in Elt. discriminate.
        + destruct q; discriminate. }
      subst sols. rewrite removelast_snoc. rewrite app_length in Hf, Hlen. cbn in Hf, Hlen.
      rewrite nth_error_app1 in Et by exact Hlt. rewrite <- Et.
      apply (IH seen); [lia|lia|].
      destruct HC as (C1 & C2 & C3 & C4 & C5 & C6).
      apply SS_app in C1. destruct C1 as (S1 & _ & S2).
      apply FOP_app in C2. destruct C2 as (P1 & _ & P2).
      destruct (C3 x ltac:(apply in_or_app; right; now left)) as (X1 & X2 & X3 & X4).
      split; [exact S1|]. split; [exact P1|].
      split; [intros s Hs; apply C3; apply in_or_app; now left|].
      split; [|split; [exact C5|]].
      + intros l Ll Nl. rewrite filter_In, negb_true_iff. split.
        * intros [Hin Hmem]. apply C4 in Hin; auto. destruct Hin as (s & Hs & Es).
          apply in_app_or in Hs. destruct Hs as [Hs|[<-|[]]]; [eauto|]. exfalso.
          assert (mem_vec l (eqs (fst x)) = true); [|congruence].
          apply mem_vec_In, in_eqs. split; [exact Ll|]. now apply equiv_sym.
        * intros (s & Hs & Es). split.
          -- apply C4; auto. exists s. split; [apply in_or_app; now left|exact Es].
          -- destruct (mem_vec l (eqs (fst x))) eqn:Em; [|reflexivity]. exfalso.
             apply mem_vec_In, in_eqs in Em. destruct Em as [_ Em].
             apply (P2 s x Hs (or_introl eq_refl)). unfold apart.
             eapply equiv_trans; [apply equiv_sym; exact Es|now apply equiv_sym].
      + intros l Hl Nl. destruct (C6 l Hl Nl) as [(s & Hs & Es)|(t' & Et' & Lt)].
        * apply in_app_or in Hs. destruct Hs as [Hs|[<-|[]]]; [left; eauto|]. right.
          exists t. split; [exact Et|]. rewrite (Hdist l (fst x)), <- X4 by auto. exact Elt.
        * right. rewrite nth_error_app1 in Et' by exact Hlt. eauto.
    - exists sols, ext. split; [reflexivity|]. split; [exact HC|]. split; [|split; [exact Hlen|exact Et]].
      intros s t' Hs Et'. assert (t' = t) as -> by congruence.
      apply dlt_false in Elt. eapply dle_trans; [|exact Elt].
      destruct HC as (C1 & _). subst sols. apply SS_app in C1. destruct C1 as (_ & _ & S2).
      apply in_app_or in Hs. destruct Hs as [Hs|[<-|[]]]; [|apply dle_refl].
      apply (S2 s x Hs). now left.
  Qed.

  Lemma insert_spec sols s : StronglySorted le_sol sols ->
    exists pre post, sols = pre ++ post /\ insert_at (searchsorted sols (snd s)) s sols = pre ++ s :: post /\
      (forall a, In a pre -> dlt (snd a) (snd s) = true) /\
      (forall a, In a post -> dle (snd s) (snd a) = true).
  Proof.
    intros H. induction H as [|a l Hs IH Hf]; cbn.
    - exists [], []. split; [reflexivity|]. split; [reflexivity|]. split; intros ? [].
    - destruct (dlt (snd a) (snd s)) eqn:E.
      + destruct IH as (pre & post & -> & E2 & H1 & H2). exists (a :: pre), post.
        split; [reflexivity|]. split; [|split; [intros b [<-|Hb]; auto|exact H2]].
        unfold insert_at in *. cbn. now f_equal.
      + exists [], (a :: l). split; [reflexivity|]. split; [reflexivity|]. split; [intros ? []|].
        apply dlt_false in E. intros b [<-|Hb]; [exact E|].
        rewrite Forall_forall in Hf. eapply dle_trans; [exact E|]. now apply Hf.
  Qed.

  Lemma insert_nth pre post s t : StronglySorted le_sol (pre ++ post) ->
    (forall a, In a post -> dle (snd s) (snd a) = true) ->
    nth_error (pre ++ post) (nsol - 1) = Some t ->
    exists t', nth_error (pre ++ s :: post) (nsol - 1) = Some t' /\ dle (snd t') (snd t) = true.
  Proof.
    intros S0 H2 Et. apply SS_app in S0. destruct S0 as (_ & S2 & _).
    destruct (Nat.lt_ge_cases (nsol - 1) (length pre)) as [H|H].
    - rewrite nth_error_app1 in Et by exact H. exists t. rewrite nth_error_app1 by exact H.
      split; [exact Et|apply dle_refl].
    - rewrite nth_error_app2 in Et by exact H. rewrite nth_error_app2 by exact H.
      destruct (nsol - 1 - length pre)%nat as [|j] eqn:Ej; cbn [nth_error].
      + exists s. split; [reflexivity|]. apply H2. eapply nth_error_In. exact Et.
      + destruct (nth_error post j) as [u|] eqn:Eu.
        * exists u. split; [reflexivity|]. apply (nth_in_sorted post j (S j)); auto.
        * apply nth_error_None in Eu. assert (H0 : nth_error post (S j) <> None) by congruence.
          apply nth_error_Some in H0. lia.
  Qed.

  (** adding a new nonsingular correspondence *)
  Lemma insert_core seen sols ext l : core seen sols ext -> length l = (n * n)%nat -> nonsing l -> ~ In l ext ->
    let sols1 := insert_at (searchsorted sols (dist l)) (l, dist l) sols in
    core (l :: seen) sols1 (ext ++ eqs l) /\ length sols1 = S (length sols) /\
    (forall t, nth_error sols (nsol - 1) = Some t ->
       exists t', nth_error sols1 (nsol - 1) = Some t' /\ dle (snd t') (snd t) = true).
  Proof.
    intros (C1 & C2 & C3 & C4 & C5 & C6) Ll Nl Hext. cbn zeta.
    destruct (insert_spec sols (l, dist l) C1) as (pre & post & Es & Ei & H1 & H2).
    cbn [snd] in Ei, H1, H2. rewrite Ei.
    assert (Hno : forall s, In s sols -> ~ equiv l (fst s)).
    { intros s Hs Eq. apply Hext. apply C4; auto. exists s. auto. }
    split; [|split; [|intros t Et; subst sols; now apply insert_nth]].
    2:{ rewrite Es, !app_length. cbn. lia. }
    subst sols. apply SS_app in C1. destruct C1 as (S1 & S2 & S3).
    apply FOP_app in C2. destruct C2 as (P1 & P2 & P3).
    assert (Hin : forall s, In s (pre ++ (l, dist l) :: post) <-> s = (l, dist l) \/ In s (pre ++ post)).
    { intros s. rewrite !in_app_iff. cbn. split; [intros [H|[H|H]]|intros [H|[H|H]]]; auto. }
    split.
    { apply SS_app. split; [exact S1|]. split.
      - constructor; [exact S2|]. apply Forall_forall. intros a Ha. unfold le_sol. cbn. auto.
      - intros a b Ha [<-|Hb]; [unfold le_sol; cbn; apply dlt_dle; auto|auto]. }
    split.
    { apply FOP_app. split; [exact P1|]. split.
      - constructor; [|exact P2]. apply Forall_forall. intros a Ha. unfold apart. cbn.
        apply Hno. apply in_or_app. now right.
      - intros a b Ha [<-|Hb]; [|auto]. unfold apart. cbn. intros Eq. apply (Hno a); [apply in_or_app; now left|].
        now apply equiv_sym. }
    split.
    { intros s Hs. apply Hin in Hs. destruct Hs as [->|Hs]; cbn; [auto|].
      destruct (C3 s Hs) as (X1 & X2 & X3 & X4). auto. }
    split.
    { intros k Lk Nk. rewrite in_app_iff, in_eqs, (C4 k Lk Nk). split.
      - intros [(s & Hs & Eq)|[_ Eq]].
        + exists s. split; [apply Hin; now right|exact Eq].
        + exists (l, dist l). split; [apply Hin; now left|]. now apply equiv_sym.
      - intros (s & Hs & Eq). apply Hin in Hs. destruct Hs as [->|Hs].
        + right. split; [exact Lk|]. now apply equiv_sym.
        + left. eauto. }
    split.
    { intros k [<-|Hk]; auto. }
    intros k Hk Nk.
    destruct Hk as [<-|Hk].
    { left. exists (l, dist l). split; [apply Hin; now left|apply equiv_refl]. }
    destruct (C6 k Hk Nk) as [(s & Hs & Eq)|(t & Et & Lt)].
    { left. exists s. split; [apply Hin; now right|exact Eq]. }
    right.
    destruct (insert_nth pre post (l, dist l) t ltac:(apply SS_app; auto) H2 Et) as (t' & Et' & Le).
    exists t'. split; [exact Et'|]. eapply dle_lt_trans; eauto.
  Qed.

  (** adding a correspondence that is already covered, or singular *)
  Lemma core_seen seen sols ext l : core seen sols ext -> length l = (n * n)%nat ->
    (nonsing l -> In l ext) -> core (l :: seen) sols ext.
  Proof.
    intros (C1 & C2 & C3 & C4 & C5 & C6) Ll H.
    split; [exact C1|]. split; [exact C2|]. split; [|split; [exact C4|split]].
    - intros s Hs. destruct (C3 s Hs) as (X1 & X2 & X3 & X4). split; [exact X1|]. split; [now right|auto].
    - intros k [<-|Hk]; auto.
    - intros k [<-|Hk] Nk; [|auto]. left. apply C4; auto.
  Qed.

  Lemma core_ext_singular seen sols ext l : core seen sols ext -> length l = (n * n)%nat -> ~ nonsing l ->
    core seen sols (ext ++ eqs l).
  Proof.
    intros (C1 & C2 & C3 & C4 & C5 & C6) Ll H.
    split; [exact C1|]. split; [exact C2|]. split; [exact C3|]. split; [|split; [exact C5|exact C6]].
    intros k Lk Nk. rewrite in_app_iff, (C4 k Lk Nk), in_eqs. split; [|auto].
    intros [X|[_ X]]; [exact X|]. exfalso. apply H. eapply equiv_nonsing; [|exact Nk]. now apply equiv_sym.
  Qed.

  Definition lastd (sols : list (list Z * D)) (d : D) : Prop :=
    exists l' x, sols = l' ++ [x] /\ d = snd x.

  Lemma ties_short seen sols ext : core seen sols ext -> (length sols <= nsol)%nat -> ties sols.
  Proof.
    intros (C1 & _) Hl s t Hs Ht. apply In_nth_error in Hs. destruct Hs as [i Hi].
    assert (i < length sols)%nat by (apply nth_error_Some; congruence).
    apply (nth_in_sorted sols i (nsol - 1)); auto. lia.
  Qed.

  Lemma add_sol_ok seen sols ext l :
    core seen sols ext -> ties sols -> length l = (n * n)%nat -> (nonsing l \/ sols <> []) ->
    exists sols' ext' d', add_sol n LG_A LG_M nsol (l, dist l) sols ext = Ok (sols', ext', d') /\
      core (l :: seen) sols' ext' /\ ties sols' /\ lastd sols' d' /\
      ((nsol <= length sols)%nat -> (nsol <= length sols')%nat) /\
      (nonsing l -> ~ In l ext -> (length sols < nsol)%nat -> length sols' = S (length sols)) /\
      (forall t, nth_error sols (nsol - 1) = Some t ->
         exists t', nth_error sols' (nsol - 1) = Some t' /\ dle (snd t') (snd t) = true).
  Proof.
    intros HC HT Ll Hne.
    assert (fin : forall sols' (ext' : list (list Z)), sols' <> [] -> exists d',
      match last (map Some sols') None with Some t => Ok (sols', ext', snd t) | None => Raise IndexError end
       = Ok (sols', ext', d') /\ lastd sols' d').
    { intros sols' ext' Hs. destruct (last_Some sols' Hs) as (l' & x & El & ->).
      exists (snd x). split; [reflexivity|]. exists l', x. auto. }
    unfold add_sol. cbn [fst snd].
    destruct (mem_vec l ext) eqn:Em.
    - apply mem_vec_In in Em. cbn [bind].
      assert (Hs : sols <> []).
      { destruct Hne as [Nl|Hs]; [|exact Hs]. destruct HC as (_ & _ & _ & C4 & _).
        apply C4 in Em; auto. destruct Em as (s & Hs & _). intros ->. destruct Hs. }
      destruct (fin sols ext Hs) as (d' & -> & Hl). exists sols, ext, d'.
      split; [reflexivity|]. split; [now apply core_seen|]. split; [exact HT|]. split; [exact Hl|].
      split; [auto|]. split; [intros _ Hno; contradiction|].
      intros t Et. exists t. split; [exact Et|apply dle_refl].
    - assert (Hext : ~ In l ext) by (intros H; apply mem_vec_In in H; congruence).
      destruct (Z.eqb_spec (det (reshape n l)) 0) as [Ez|Ez].
      + (* singular *)
        assert (Hs : sols <> []) by (destruct Hne as [Nl|Hs]; [contradiction|exact Hs]).
        assert (Nl : ~ nonsing l) by (intros X; contradiction).
        assert (HC' := core_ext_singular seen sols ext l HC Ll Nl).
        assert (HC'' : core (l :: seen) sols (ext ++ eqs l)) by (apply core_seen; auto; tauto).
        destruct (nsol <? length sols)%nat eqn:El.
        * apply Nat.ltb_lt in El.
          destruct (pop_ok (length sols) (l :: seen) sols (ext ++ eqs l) ltac:(lia) ltac:(lia) HC'')
            as (sols' & ext' & -> & HP & HT' & HL & HN).
          cbn [bind]. destruct (fin sols' ext') as (d' & -> & Hl); [intros ->; cbn in HL; lia|].
          exists sols', ext', d'. split; [reflexivity|]. split; [exact HP|]. split; [exact HT'|].
          split; [exact Hl|]. split; [intros; exact HL|]. split; [tauto|].
          intros t Et. exists t. split; [congruence|apply dle_refl].
        * cbn [bind]. destruct (fin sols (ext ++ eqs l) Hs) as (d' & -> & Hl).
          exists sols, (ext ++ eqs l), d'. split; [reflexivity|]. split; [exact HC''|]. split; [exact HT|].
          split; [exact Hl|]. split; [auto|]. split; [tauto|].
          intros t Et. exists t. split; [exact Et|apply dle_refl].
      + assert (Nl : nonsing l) by exact Ez.
        destruct (insert_core seen sols ext l HC Ll Nl Hext) as (HC' & HL & HN).
        set (sols1 := insert_at (searchsorted sols (dist l)) (l, dist l) sols) in *.
        destruct (nsol <? length sols1)%nat eqn:El.
        * apply Nat.ltb_lt in El.
          destruct (pop_ok (length sols1) (l :: seen) sols1 (ext ++ eqs l) ltac:(lia) ltac:(lia) HC')
            as (sols' & ext' & -> & HP & HT' & HL' & HN').
          cbn [bind]. destruct (fin sols' ext') as (d' & -> & Hl); [intros ->; cbn in HL'; lia|].
          exists sols', ext', d'. split; [reflexivity|]. split; [exact HP|]. split; [exact HT'|].
          split; [exact Hl|]. split; [intros; exact HL'|]. split; [intros _ _ Hlt; lia|].
          rewrite HN'. exact HN.
        * apply Nat.ltb_ge in El. cbn [bind].
          destruct (fin sols1 (ext ++ eqs l)) as (d' & -> & Hl); [intros E; rewrite E in HL; discriminate|].
          exists sols1, (ext ++ eqs l), d'. split; [reflexivity|]. split; [exact HC'|].
          split; [eapply ties_short; eauto|]. split; [exact Hl|]. split; [lia|]. split; [intros _ _ _; exact HL|exact HN].
  Qed.

  (** *** argmin *)
  Lemma argmin_spec ls : match argmin dist ls with
    | None => ls = []
    | Some (m, rest) => Permutation ls (m :: rest) /\ forall l, In l ls -> dle (dist m) (dist l) = true
    end.
  Proof.
    induction ls as [|l ls IH]; [reflexivity|]. cbn.
    destruct (argmin dist ls) as [[m rest]|].
    - destruct IH as [HP Hm]. destruct (dlt (dist m) (dist l)) eqn:E.
      + split; [eapply perm_trans; [apply perm_skip; exact HP|apply perm_swap]|].
        intros k [<-|Hk]; [now apply dlt_dle|auto].
      + split; [apply Permutation_refl|]. apply dlt_false in E.
        intros k [<-|Hk]; [apply dle_refl|]. eapply dle_trans; [exact E|auto].
    - subst ls. split; [apply Permutation_refl|]. intros k [<-|[]]. apply dle_refl.
  Qed.

  Definition full_inv (seen : list (list Z)) (st : @state D) : Prop :=
    let '(sols, ext, dmax) := st in
    core seen sols ext /\ ties sols /\
    match dmax with None => sols = [] | Some d => lastd sols d end.

  Lemma core_perm seen seen' sols ext : (forall l, In l seen <-> In l seen') ->
    core seen sols ext -> core seen' sols ext.
  Proof.
    intros H (C1 & C2 & C3 & C4 & C5 & C6).
    split; [exact C1|]. split; [exact C2|]. split; [|split; [exact C4|split]].
    - intros s Hs. destruct (C3 s Hs) as (X1 & X2 & X3 & X4). split; [exact X1|]. split; [now apply H|auto].
    - intros k Hk. apply C5. now apply H.
    - intros k Hk. apply C6. now apply H.
  Qed.

  Lemma lastd_nth seen sols ext d t : core seen sols ext -> ties sols -> (nsol <= length sols)%nat ->
    lastd sols d -> nth_error sols (nsol - 1) = Some t -> d = snd t.
  Proof.
    intros (C1 & _) HT Hl (l' & x & E & ->) Ht. apply dle_antisym.
    - apply (HT x t); auto. subst sols. apply in_or_app. right. now left.
    - apply (nth_in_sorted sols (nsol - 1) (length l')); auto.
      + subst sols. rewrite app_length in Hl. cbn in Hl. lia.
      + subst sols. rewrite nth_error_app2, Nat.sub_diag by lia. reflexivity.
  Qed.

  Lemma update_loop_ok : forall k ls seen sols ext dmax, (length ls <= k)%nat ->
    full_inv seen (sols, ext, dmax) -> (nsol <= length sols)%nat ->
    Forall (fun l => length l = n * n)%nat ls ->
    exists sols' ext' dmax', update_loop n LG_A LG_M dist nsol k ls (sols, ext, dmax) = Ok (sols', ext', dmax') /\
      full_inv (ls ++ seen) (sols', ext', dmax') /\ (nsol <= length sols')%nat /\
      match dmax, dmax' with Some d, Some d' => dle d' d = true | _, _ => False end.
  Proof.
    induction k as [|k IH]; intros ls seen sols ext dmax Hk (HC & HT & HD) Hlen Hls.
    - destruct ls; [|cbn in Hk; lia]. exists sols, ext, dmax. split; [reflexivity|].
      split; [now split|]. split; [exact Hlen|]. destruct dmax; [apply dle_refl|]. subst. cbn in Hlen. lia.
    - cbn. pose proof (argmin_spec ls) as Ha.
      destruct (argmin dist ls) as [[m rest]|].
      + destruct Ha as [HP Hm].
        assert (Hrest : Forall (fun l => length l = n * n)%nat (m :: rest)).
        { rewrite Forall_forall in *. intros l Hl. apply Hls. eapply Permutation_in; [symmetry; exact HP|exact Hl]. }
        inversion Hrest as [|? ? Lm Lrest]; subst.
        assert (Hsame : forall l, In l (rest ++ m :: seen) <-> In l (ls ++ seen)).
        { intros l. rewrite !in_app_iff. cbn. split.
          - intros [H|[<-|H]]; [left|left|now right].
            + eapply Permutation_in; [symmetry; exact HP|]. now right.
            + eapply Permutation_in; [symmetry; exact HP|]. now left.
          - intros [H|H]; [|now right; right]. eapply Permutation_in in H; [|exact HP].
            destruct H as [<-|H]; [right; now left|now left]. }
        destruct dmax as [dm|]; [|subst; cbn in Hlen; lia].
        cbn [dle_inf]. destruct (dle (dist m) dm) eqn:Edm.
        * assert (Hne : sols <> []) by (intros ->; cbn in Hlen; lia).
          destruct (add_sol_ok seen sols ext m HC HT Lm (or_intror Hne))
            as (sols1 & ext1 & d1 & -> & HC1 & HT1 & HD1 & HL1 & _ & HN).
          cbn [bind]. apply Permutation_length in HP. cbn in HP.
          destruct (IH rest (m :: seen) sols1 ext1 (Some d1) ltac:(lia)) as (s' & e' & d' & E & HI & HL & HDle);
            [now split|auto|auto|].
          exists s', e', d'. split; [exact E|]. split.
          { destruct HI as (I1 & I2 & I3). split; [|now split]. eapply core_perm; [exact Hsame|exact I1]. }
          split; [exact HL|]. destruct d' as [d'|]; [|contradiction].
          eapply dle_trans; [exact HDle|].
          (* d1 <= dm *)
          destruct (nth_error sols (nsol - 1)) as [t|] eqn:Ht; [|apply nth_error_None in Ht; lia].
          assert (Edt : dm = snd t) by (eapply (lastd_nth seen sols ext); eauto).
          destruct (HN t eq_refl) as (t1 & Ht1 & Le).
          assert (Ed1 : d1 = snd t1) by (eapply (lastd_nth (m :: seen) sols1 ext1); eauto).
          subst dm d1. exact Le.
        * (* stop: everything left is strictly worse *)
          exists sols, ext, (Some dm). split; [reflexivity|]. split; [|split; [exact Hlen|apply dle_refl]].
          split; [|now split].
          destruct HC as (C1 & C2 & C3 & C4 & C5 & C6).
          split; [exact C1|]. split; [exact C2|]. split; [|split; [exact C4|split]].
          -- intros s Hs. destruct (C3 s Hs) as (X1 & X2 & X3 & X4). split; [exact X1|].
             split; [apply in_or_app; now right|auto].
          -- intros l Hl. apply in_app_or in Hl. destruct Hl as [Hl|Hl]; [rewrite Forall_forall in Hls; auto|auto].
          -- intros l Hl Nl. apply in_app_or in Hl. destruct Hl as [Hl|Hl]; [|auto]. right.
             assert (Hx : exists t, nth_error sols (nsol - 1) = Some t).
             { destruct (nth_error sols (nsol - 1)) eqn:E0; [eauto|]. apply nth_error_None in E0. lia. }
             destruct Hx as [t Ht]. exists t. split; [exact Ht|].
             assert (Edt : dm = snd t) by (eapply (lastd_nth seen sols ext); eauto; repeat (split; auto)).
             subst dm. apply (dlt_le_trans (snd t) (dist m)); [now apply dlt_spec|auto].
      + subst ls. exists sols, ext, dmax. split; [reflexivity|]. split; [now split|]. split; [exact Hlen|].
        destruct dmax; [apply dle_refl|]. subst. cbn in Hlen. lia.
  Qed.

  Lemma update_sol_ok ls seen st : full_inv seen st -> (nsol <= length (fst (fst st)))%nat ->
    Forall (fun l => length l = n * n)%nat ls ->
    exists b st', update_sol n LG_A LG_M dist nsol ls st = Ok (b, st') /\
      full_inv (ls ++ seen) st' /\ (nsol <= length (fst (fst st')))%nat /\
      exists d d', snd st = Some d /\ snd st' = Some d' /\ dle d' d = true /\ b = dlt d' d.
  Proof.
    destruct st as [[sols ext] dmax]. intros HI Hlen Hls. cbn in Hlen.
    destruct (update_loop_ok (length ls) ls seen sols ext dmax (le_n _) HI Hlen Hls)
      as (sols' & ext' & dmax' & E & HI' & Hlen' & HD).
    unfold update_sol. rewrite E. cbn [bind].
    destruct dmax as [d|]; [|contradiction]. destruct dmax' as [d'|]; [|contradiction].
    eexists _, _. split; [reflexivity|]. split; [exact HI'|]. split; [exact Hlen'|].
    exists d, d'. cbn. auto.
  Qed.

  Lemma history_inv seen st : history n LG_A LG_M dist nsol seen st -> full_inv seen st.
  Proof.
    induction 1 as [|seen sols ext dmax l sols' ext' d' H IH Ll Nl E|seen st ls b st' H IH Hlen Hls E].
    - split; [|split; [|reflexivity]].
      + split; [constructor|]. split; [constructor|]. split; [intros ? []|]. split; [|split; intros ? []].
        intros l _ _. split; [intros []|intros (s & [] & _)].
      + intros s t [].
    - destruct IH as (HC & HT & HD).
      destruct (add_sol_ok seen sols ext l HC HT Ll (or_introl Nl))
        as (s1 & e1 & d1 & E1 & HC1 & HT1 & HL1 & _).
      rewrite E1 in E. injection E as -> -> ->. now split.
    - destruct (update_sol_ok ls seen st IH Hlen Hls) as (b1 & st1 & E1 & HI & _).
      rewrite E1 in E. injection E as -> ->. exact HI.
  Qed.

  Lemma FOP_nth {A} (R : A -> A -> Prop) l i j a b : ForallOrdPairs R l -> (i < j)%nat ->
    nth_error l i = Some a -> nth_error l j = Some b -> R a b.
  Proof.
    intros H. revert i j. induction H as [|x l Hf Hr IH]; intros i j Hij Hi Hj; [destruct i; discriminate|].
    destruct i as [|i], j as [|j]; cbn in *; try lia.
    - injection Hi as ->. rewrite Forall_forall in Hf. apply Hf. eapply nth_error_In. exact Hj.
    - apply (IH i j); auto. lia.
  Qed.

  Lemma inv_best seen sols ext dmax : full_inv seen (sols, ext, dmax) ->
    best_so_far n LG_A LG_M dist nsol seen sols.
  Proof.
    intros ((C1 & C2 & C3 & C4 & C5 & C6) & HT & HD).
    split; [|split; [|split; [|split]]].
    - intros i j s t Hij Hi Hj. apply (nth_in_sorted sols i j); auto. lia.
    - intros i j s t Hij Hi Hj Eq. destruct (Nat.lt_ge_cases i j) as [H|H].
      + exact (FOP_nth apart sols i j s t C2 H Hi Hj Eq).
      + apply (FOP_nth apart sols j i t s C2 ltac:(lia) Hj Hi). now apply equiv_sym.
    - intros s Hs. destruct (C3 s Hs) as (_ & X). exact X.
    - intros i s t Hi Hs Ht. apply dle_antisym.
      + apply (HT s t); auto. eapply nth_error_In. exact Hs.
      + apply (nth_in_sorted sols (nsol - 1) i); auto. lia.
    - intros l Hl Nl. destruct (C6 l Hl Nl) as [X|(t & Ht & Lt)]; [now left|]. right. split.
      + assert (nth_error sols (nsol - 1) <> None) as X by congruence. apply nth_error_Some in X. lia.
      + intros s Hs. eapply dle_lt_trans; [|exact Lt]. apply HT; auto.
  Qed.

  Theorem history_best seen sols ext dmax : history n LG_A LG_M dist nsol seen (sols, ext, dmax) ->
    best_so_far n LG_A LG_M dist nsol seen sols.
  Proof. intros H. eapply inv_best. apply history_inv. exact H. Qed.

  (** *** Initialisation *)
  Variable volok : Z -> bool.
  Hypothesis Hvol : volok 0 = false.
  Variable L0 : mat Z.
  Hypothesis HL0 : wf n n L0.

  Lemma draw_ok stream ext : Forall (wf n n) stream ->
    draw volok L0 stream ext = NoFuel \/
    exists shift l stream', draw volok L0 stream ext = Ok (l, stream') /\ In shift stream /\
      l = flatten (madd L0 shift) /\ volok (det (madd L0 shift)) = true /\ ~ In l ext /\
      (forall s, In s stream' -> In s stream).
  Proof.
    induction 1 as [|shift stream Hs Hf IH]; [now left|]. cbn.
    destruct (mem_vec (flatten (madd L0 shift)) ext || negb (volok (det (madd L0 shift)))) eqn:E.
    - destruct IH as [->|(sh & l & st & -> & H1 & H2 & H3 & H4 & H5)]; [now left|]. right.
      exists sh, l, st. split; [reflexivity|]. split; [now right|]. split; [exact H2|]. split; [exact H3|].
      split; [exact H4|]. intros s X. right. auto.
    - right. exists shift, (flatten (madd L0 shift)), stream. apply orb_false_iff in E. destruct E as [E1 E2].
      apply negb_false_iff in E2. split; [reflexivity|]. split; [now left|]. split; [reflexivity|].
      split; [exact E2|]. split; [|intros; now right].
      intros X. apply mem_vec_In in X. congruence.
  Qed.

  Lemma init_ok : forall k stream seen st, Forall (wf n n) stream ->
    history n LG_A LG_M dist nsol seen st ->
    init_loop n LG_A LG_M dist nsol volok L0 k stream st = NoFuel \/
    exists st' drawn, init_loop n LG_A LG_M dist nsol volok L0 k stream st = Ok st' /\
      history n LG_A LG_M dist nsol (drawn ++ seen) st' /\ length drawn = k /\
      (forall l, In l drawn -> exists shift, In shift stream /\ l = flatten (madd L0 shift) /\
                                 volok (det (madd L0 shift)) = true) /\
      (min nsol (length (fst (fst st)) + k) <= length (fst (fst st')))%nat.
  Proof.
    induction k as [|k IH]; intros stream seen st Hst HI.
    - right. exists st, []. split; [reflexivity|]. split; [exact HI|]. split; [reflexivity|].
      split; [intros ? []|]. lia.
    - destruct st as [[sols ext] dmax]. cbn.
      destruct (draw_ok stream ext Hst) as [->|(sh & l & stream' & -> & H1 & H2 & H3 & H4 & H5)]; [now left|].
      cbn [bind].
      assert (Wsh : wf n n (madd L0 sh)) by (apply wf_madd; auto).
      assert (Ll : length l = (n * n)%nat) by (subst l; now apply length_flatten).
      assert (Nl : nonsing l).
      { subst l. unfold nonsingular. rewrite reshape_flatten by exact Wsh.
        intros Z. rewrite Z in H3. congruence. }
      destruct (history_inv _ _ HI) as (HC & HT & HD).
      destruct (add_sol_ok seen sols ext l HC HT Ll (or_introl Nl))
        as (s1 & e1 & d1 & E1 & HC1 & HT1 & HL1 & HM1 & HM2 & _).
      rewrite E1. cbn [bind].
      assert (Hst' : Forall (wf n n) stream') by (rewrite Forall_forall in *; auto).
      pose proof (h_add n LG_A LG_M dist nsol seen sols ext dmax l s1 e1 d1 HI Ll Nl E1) as HI1.
      destruct (IH stream' (l :: seen) (s1, e1, Some d1) Hst' HI1) as [->|(st' & drawn & E & Hh & Hk & Hdr & Hmin)];
        [now left|]. right.
      exists st', (drawn ++ [l]). split; [exact E|]. rewrite <- app_assoc. split; [exact Hh|].
      split; [rewrite app_length; cbn; lia|]. split.
      + intros x Hx. apply in_app_or in Hx. destruct Hx as [Hx|[<-|[]]].
        * destruct (Hdr x Hx) as (s & X1 & X2 & X3). exists s. split; [auto|auto].
        * exists sh. auto.
      + cbn [fst] in *. destruct (Nat.lt_ge_cases (length sols) nsol) as [X|X].
        * rewrite HM2 in Hmin by auto. lia.
        * specialize (HM1 X). lia.
  Qed.

  (** *** The search loop *)
  Variable slice_sz : nat.
  Hypothesis Hslice : (1 <= slice_sz)%nat.
  Variable gen : option D -> list Z -> res (list (list Z)).
  Hypothesis Hgen : forall d x, length x = (n * n)%nat ->
    exists g, gen (Some d) x = Ok g /\ Forall (fun l => length l = n * n)%nat g.

  Notation hist := (history n LG_A LG_M dist nsol).
  Notation inner := (inner n LG_A LG_M dist nsol slice_sz).
  Notation outer := (DirectModel.outer n LG_A LG_M dist nsol slice_sz gen).

  Lemma inner_ok : forall fuel g seen st, (length g <= fuel)%nat -> hist seen st ->
    (nsol <= length (fst (fst st)))%nat -> Forall (fun l => length l = n * n)%nat g ->
    (exists st' seen', inner fuel g st = Ok (st', None) /\ hist seen' st' /\
       (nsol <= length (fst (fst st')))%nat /\ snd st' = snd st /\ (forall l, In l seen' <-> In l g \/ In l seen)) \/
    (exists st' x seen' d d', inner fuel g st = Ok (st', Some x) /\ hist seen' st' /\
       (nsol <= length (fst (fst st')))%nat /\ In x g /\ incl seen seen' /\
       snd st = Some d /\ snd st' = Some d' /\ dlt d' d = true) \/
    (exists st' seen' d d', inner fuel g st = Raise StopIteration /\ hist seen' st' /\ (forall l, In l seen' <-> In l g \/ In l seen) /\
       snd st = Some d /\ snd st' = Some d' /\ dlt d' d = true).
  Proof.
    induction fuel as [|fuel IH]; intros g seen st Hf HI Hlen Hg.
    { destruct g; [|cbn in Hf; lia]. left. exists st, seen. cbn. rewrite firstn_nil.
      split; [reflexivity|]. split; [exact HI|]. split; [exact Hlen|]. split; [reflexivity|].
      intros l. cbn. tauto. }
    cbn [DirectModel.inner].
    destruct (firstn slice_sz g) as [|a ary0] eqn:Ea.
    { assert (g = []) as ->.
      { destruct g as [|y g]; [reflexivity|]. destruct slice_sz; [lia|discriminate]. }
      left. exists st, seen. split; [reflexivity|]. split; [exact HI|]. split; [exact Hlen|]. split; [reflexivity|].
      intros l. cbn. tauto. }
    set (ary := a :: ary0) in *.
    assert (Hsplit : g = ary ++ skipn slice_sz g) by (rewrite <- Ea; symmetry; apply firstn_skipn).
    assert (Hary : Forall (fun l => length l = n * n)%nat ary) by (rewrite Hsplit in Hg; apply Forall_app in Hg; tauto).
    assert (Hrest : Forall (fun l => length l = n * n)%nat (skipn slice_sz g)) by (rewrite Hsplit in Hg; apply Forall_app in Hg; tauto).
    destruct (update_sol_ok ary seen st (history_inv _ _ HI) Hlen Hary)
      as (b & st1 & E1 & HI1 & Hlen1 & d & d1 & Ed & Ed1 & Hle & Eb).
    pose proof (h_batch n LG_A LG_M dist nsol seen st ary b st1 HI Hlen Hary E1) as Hh1.
    rewrite E1. cbn [bind].
    assert (Hsk : (length (skipn slice_sz g) <= fuel)%nat).
    { rewrite Hsplit, app_length in Hf. unfold ary in Hf. cbn in Hf. lia. }
    destruct b.
    - destruct (skipn slice_sz g) as [|x rest] eqn:Es.
      + right. right. exists st1, (ary ++ seen), d, d1. split; [reflexivity|]. split; [exact Hh1|].
        split; [|auto]. intros l. rewrite Hsplit, app_nil_r, in_app_iff. tauto.
      + right. left. exists st1, x, (ary ++ seen), d, d1. split; [reflexivity|]. split; [exact Hh1|].
        split; [exact Hlen1|]. split; [rewrite Hsplit; apply in_or_app; right; now left|].
        split; [intros y Hy; apply in_or_app; now right|]. auto.
    - assert (d1 = d) as ->.
      { apply dle_antisym; [exact Hle|]. apply dlt_false. now symmetry. }
      destruct (IH (skipn slice_sz g) (ary ++ seen) st1 Hsk Hh1 Hlen1 Hrest)
        as [(st' & seen' & E & H1 & H2 & H3 & H4)|[(st' & x & seen' & e & e' & E & H1 & H2 & H3 & H4 & H5 & H6 & H7)|
            (st' & seen' & e & e' & E & H1 & H2 & H5 & H6 & H7)]].
      + left. exists st', seen'. split; [exact E|]. split; [exact H1|]. split; [exact H2|].
        split; [congruence|]. intros l. rewrite H4. rewrite Hsplit at 2. rewrite !in_app_iff. tauto.
      + right. left. exists st', x, seen', e, e'. split; [exact E|]. split; [exact H1|]. split; [exact H2|].
        split; [rewrite Hsplit; apply in_or_app; now right|].
        split; [intros y Hy; apply H4; apply in_or_app; now right|].
        split; [congruence|]. auto.
      + right. right. exists st', seen', e, e'. split; [exact E|]. split; [exact H1|].
        split; [intros l; rewrite H2; rewrite Hsplit at 2; rewrite !in_app_iff; tauto|].
        split; [congruence|auto].
  Qed.


  Lemma hist_dmax seen st : hist seen st -> (nsol <= length (fst (fst st)))%nat ->
    exists d l, snd st = Some d /\ length l = (n * n)%nat /\ dist l = d.
  Proof.
    intros H Hlen. destruct st as [[sols ext] dmax]. cbn in *.
    destruct (history_inv _ _ H) as (HC & HT & HD). destruct dmax as [d|].
    - destruct HD as (l' & x & E & ->). destruct HC as (_ & _ & C3 & _).
      destruct (C3 x) as (X1 & _ & _ & X4); [subst sols; apply in_or_app; right; now left|].
      exists (snd x), (fst x). auto.
    - subst sols. cbn in Hlen. lia.
  Qed.

  (** what a finished search has processed: everything the last generator yields *)
  Lemma outer_ok : forall fuel x seen st, hist seen st -> (nsol <= length (fst (fst st)))%nat ->
    length x = (n * n)%nat ->
    match outer fuel x st with
    | Ok st' => exists seen' y g, hist seen' st' /\ incl seen seen' /\ (nsol <= length (fst (fst st')))%nat /\
        gen (snd st') y = Ok g /\ incl g seen'
    | Raise e => e = StopIteration
    | NoFuel => True
    end.
  Proof.
    induction fuel as [|fuel IH]; intros x seen st HI Hlen Hx; [exact Logic.I|].
    cbn [DirectModel.outer]. destruct (hist_dmax _ _ HI Hlen) as (dm & _ & Ed & _).
    destruct (Hgen dm x Hx) as (g & Eg & Hg). rewrite Ed, Eg. cbn [bind].
    destruct (inner_ok (length g) g seen st (le_n _) HI Hlen Hg)
      as [(st' & seen' & E & H1 & H2 & H3 & H4)|[(st' & y & seen' & d & d' & E & H1 & H2 & H3 & H4 & H5 & H6 & H7)|
          (st' & seen' & d & d' & E & _)]]; rewrite E; cbn [bind].
    - exists seen', x, g. split; [exact H1|]. split; [intros l Hl; apply H4; now right|]. split; [exact H2|].
      rewrite H3. split; [congruence|]. intros l Hl; apply H4; now left.
    - assert (Hy : length y = (n * n)%nat) by (rewrite Forall_forall in Hg; auto).
      pose proof (IH y seen' st' H1 H2 Hy) as R.
      destruct (outer fuel y st') as [st2|e|]; [|exact R|exact R].
      destruct R as (seen2 & z & g2 & R1 & R2 & R3 & R4 & R5).
      exists seen2, z, g2. split; [exact R1|]. split; [intros l Hl; auto|]. auto.
    - reflexivity.
  Qed.

  Lemma filter_shrink {A} (p q : A -> bool) S a : (forall x, q x = true -> p x = true) ->
    In a S -> p a = true -> q a = false -> (length (filter q S) < length (filter p S))%nat.
  Proof.
    intros H. assert (M : forall S', (length (filter q S') <= length (filter p S'))%nat).
    { induction S' as [|x S' IH]; [apply le_n|]. cbn. specialize (H x).
      destruct (q x); [rewrite H by reflexivity; cbn; lia|]. destruct (p x); cbn; lia. }
    induction S as [|x S IH]; [intros []|]. intros [->|Ha] Hp Hq.
    - cbn. rewrite Hp, Hq. cbn. specialize (M S). lia.
    - cbn. specialize (IH Ha Hp Hq). specialize (H x).
      destruct (q x); [rewrite H by reflexivity; cbn; lia|]. destruct (p x); cbn; lia.
  Qed.

  Lemma outer_terminates S d0 : (forall l, length l = (n * n)%nat -> dle (dist l) d0 = true -> In l S) ->
    forall fuel x seen st d, hist seen st -> (nsol <= length (fst (fst st)))%nat ->
    length x = (n * n)%nat -> snd st = Some d -> dle d d0 = true ->
    (length (filter (fun l => dlt (dist l) d) S) < fuel)%nat -> outer fuel x st <> NoFuel.
  Proof.
    intros HS. induction fuel as [|fuel IH]; intros x seen st d HI Hlen Hx Ed Hd0 Hm; [lia|].
    cbn [DirectModel.outer]. destruct (Hgen d x Hx) as (g & Eg & Hg). rewrite Ed, Eg. cbn [bind].
    destruct (inner_ok (length g) g seen st (le_n _) HI Hlen Hg)
      as [(st' & seen' & E & _)|[(st' & y & seen' & e & d' & E & H1 & H2 & H3 & H4 & H5 & H6 & H7)|
          (st' & seen' & e & d' & E & _)]]; rewrite E; cbn [bind]; try discriminate.
    assert (e = d) as -> by congruence.
    assert (Hy : length y = (n * n)%nat) by (rewrite Forall_forall in Hg; auto).
    assert (Hd' : dle d' d0 = true) by (eapply dle_trans; [apply dlt_dle; exact H7|exact Hd0]).
    apply (IH y seen' st' d' H1 H2 Hy H6 Hd').
    destruct (hist_dmax _ _ H1 H2) as (d2 & l & X1 & X2 & X3).
    assert (E2 : d2 = d') by congruence. rewrite E2 in X3.
    enough (length (filter (fun l => dlt (dist l) d') S) < length (filter (fun l => dlt (dist l) d) S))%nat by lia.
    apply (filter_shrink _ _ S l).
    - intros z Hz. eapply dlt_trans; eauto.
    - apply HS; [exact X2|]. now rewrite X3.
    - now rewrite X3.
    - rewrite X3. apply dlt_irrefl.
  Qed.

  (** *** The parallel loop *)
  Lemma slices_app : forall k g ss rest, slices slice_sz k g = (ss, rest) ->
    g = concat ss ++ rest /\ (rest <> [] -> forall a, In a ss -> a <> []) /\ (rest = [] -> length g <= k * slice_sz)%nat.
  Proof.
    induction k as [|k IH]; intros g ss rest E; cbn in E.
    - injection E as <- <-. split; [reflexivity|]. split; [intros _ a []|]. intros ->. cbn. lia.
    - destruct (slices slice_sz k (skipn slice_sz g)) as [ss' rest'] eqn:E'. injection E as <- <-.
      destruct (IH _ _ _ E') as (H1 & H2 & H3). split; [|split].
      + cbn. rewrite <- app_assoc, <- H1. symmetry. apply firstn_skipn.
      + intros Hr a [<-|Ha]; [|now apply H2]. intros X.
        assert (g = []) as ->. { destruct g; [reflexivity|]. destruct slice_sz; [lia|discriminate]. }
        rewrite skipn_nil in H1. destruct (concat ss'); [|discriminate]. cbn in H1. congruence.
      + intros Hr. specialize (H3 Hr). rewrite skipn_length in H3. lia.
  Qed.

  Lemma mapM_ok {A B} (h : A -> res B) (P : A -> B -> Prop) l : (forall a, In a l -> exists b, h a = Ok b /\ P a b) ->
    exists bs, mapM h l = Ok bs /\ Forall2 P l bs.
  Proof.
    induction l as [|a l IH]; intros H; [exists []; split; [reflexivity|constructor]|].
    destruct (H a (or_introl eq_refl)) as (b & Eb & Pb).
    destruct IH as (bs & Ebs & F); [intros; apply H; now right|].
    exists (b :: bs). cbn. rewrite Eb. cbn. rewrite Ebs. split; [reflexivity|now constructor].
  Qed.

  Lemma F2_concat {A} (P : list A -> list A -> Prop) ss cs : Forall2 P ss cs ->
    (forall s c, P s c -> incl c s) -> incl (concat cs) (concat ss) /\
    forall s, In s ss -> exists c, P s c /\ incl c (concat cs).
  Proof.
    intros H Hi. induction H as [|s c ss cs HP HF IH]; [split; [apply incl_refl|intros ? []]|].
    destruct IH as [I1 I2]. split.
    - cbn. intros x Hx. apply in_app_or in Hx. apply in_or_app. destruct Hx; [left; now apply (Hi s c)|right; auto].
    - intros t [<-|Ht].
      + exists c. split; [exact HP|]. cbn. intros x Hx. apply in_or_app. now left.
      + destruct (I2 t Ht) as (c' & P' & Ic). exists c'. split; [exact P'|]. cbn. intros x Hx. apply in_or_app. auto.
  Qed.

  Notation par_loop := (par_loop n LG_A LG_M dist nsol slice_sz gen).

  Notation covered := (covered dist).
  Lemma par_round nb y seen st g ss x rest : hist seen st -> (nsol <= length (fst (fst st)))%nat ->
    gen (snd st) y = Ok g -> Forall (fun l => length l = n * n)%nat g -> slices slice_sz nb g = (ss, x :: rest) ->
    exists seen' st', (forall k, par_loop (S k) nb y st = par_loop k nb x st') /\
      hist seen' st' /\ (nsol <= length (fst (fst st')))%nat /\ incl seen seen' /\
      incl seen' (concat ss ++ seen) /\ forall a, In a ss -> covered seen' (snd st) a.
  Proof.
    intros HI Hlen Eg Hg Es. destruct (slices_app _ _ _ _ Es) as (H1 & H2 & _).
    specialize (H2 ltac:(discriminate)).
    destruct (mapM_ok (fun a => calc_dist dist a (snd st))
      (fun a c => incl c a /\ forall l, In l a -> exists m, In m a /\ dle (dist m) (dist l) = true /\
         (In m c \/ exists d, snd st = Some d /\ dlt d (dist m) = true)) ss) as (cs & Ecs & F).
    { intros a Ha. unfold calc_dist.
      pose proof (argmin_spec a) as Sp.
      destruct (argmin dist a) as [[m r]|] eqn:Em.
      - destruct Sp as [Hp Ml].
        assert (Im : In m a) by (eapply Permutation_in; [apply Permutation_sym; exact Hp|now left]).
        destruct (dle_inf (dist m) (snd st)) eqn:Ed.
        + eexists. split; [reflexivity|]. split; [intros l Hl; apply filter_In in Hl; tauto|].
          intros l Hl. exists m. split; [exact Im|]. split; [auto|]. left. apply filter_In.
          split; [exact Im|apply dle_refl].
        + eexists. split; [reflexivity|]. split; [intros ? []|].
          intros l Hl. exists m. split; [exact Im|]. split; [auto|]. right. unfold dle_inf in Ed.
          destruct (snd st) as [d|]; [|discriminate]. exists d. split; [reflexivity|]. now apply dlt_spec.
      - exfalso. now apply (H2 a Ha). }
    destruct (F2_concat _ ss cs F) as [I1 I2]; [intros s c X; apply X|].
    assert (Hc : Forall (fun l => length l = n * n)%nat (concat cs)).
    { rewrite Forall_forall in *. intros l Hl. apply Hg. rewrite H1. apply in_or_app. left. auto. }
    assert (Cov : forall seen', incl (concat cs) seen' -> forall a, In a ss -> covered seen' (snd st) a).
    { intros seen' Hs a Ha l Hl. destruct (I2 a Ha) as (c & (_ & P) & Ic).
      destruct (P l Hl) as (m & X1 & X2 & X3). exists m. split; [exact X1|]. split; [exact X2|].
      destruct X3 as [X3|X3]; [left; auto|now right]. }
    destruct (concat cs) as [|c0 cc] eqn:Ec.
    - exists seen, st. split; [intros k; cbn; rewrite Eg; cbn; rewrite Es, Ecs; cbn; now rewrite Ec|].
      split; [exact HI|]. split; [exact Hlen|]. split; [apply incl_refl|].
      split; [apply incl_appr, incl_refl|]. apply Cov. intros ? [].
    - destruct (update_sol_ok (c0 :: cc) seen st (history_inv _ _ HI) Hlen Hc) as (b & st' & Eu & _ & Hl' & _).
      exists ((c0 :: cc) ++ seen), st'.
      split; [intros k; cbn [DirectModel.par_loop]; rewrite Eg; cbn [bind]; rewrite Es, Ecs; cbn [bind]; rewrite Ec, Eu; reflexivity|].
      split; [eapply h_batch; eauto|]. split; [exact Hl'|]. split; [apply incl_appr, incl_refl|].
      split; [apply incl_app; [apply incl_appl; exact I1|apply incl_appr, incl_refl]|].
      apply Cov. apply incl_appl, incl_refl.
  Qed.

  Lemma par_loop_ok : forall fuel nb y seen st, hist seen st -> (nsol <= length (fst (fst st)))%nat ->
    length y = (n * n)%nat ->
    match par_loop fuel nb y st with
    | Ok st' => exists seen' z g, hist seen' st' /\ incl seen seen' /\ gen (snd st') z = Ok g /\
                  (length g <= nb * slice_sz)%nat /\ length z = (n * n)%nat
    | Raise _ => False
    | NoFuel => True
    end.
  Proof.
    induction fuel as [|fuel IH]; intros nb y seen st HI Hlen Hy; [exact Logic.I|].
    destruct (hist_dmax _ _ HI Hlen) as (dm & _ & Ed & _).
    destruct (Hgen dm y Hy) as (g & Eg & Hg). rewrite <- Ed in Eg.
    destruct (slices slice_sz nb g) as [ss rest] eqn:Es.
    destruct (slices_app _ _ _ _ Es) as (H1 & _ & H3). destruct rest as [|x rest].
    - cbn. rewrite Eg. cbn. rewrite Es. exists seen, y, g.
      split; [exact HI|]. split; [apply incl_refl|]. split; [exact Eg|]. split; [auto|exact Hy].
    - destruct (par_round nb y seen st g ss x rest HI Hlen Eg Hg Es) as (seen' & st' & E & X1 & X2 & X3 & _).
      rewrite E. assert (Hx : length x = (n * n)%nat).
      { rewrite Forall_forall in Hg. apply Hg. rewrite H1. apply in_or_app. right. now left. }
      pose proof (IH nb x seen' st' X1 X2 Hx) as R. destruct (par_loop fuel nb x st'); auto.
      destruct R as (s2 & z & g2 & R1 & R2 & R3). exists s2, z, g2. split; [exact R1|].
      split; [intros l Hl; auto|exact R3].
  Qed.
End Proofs.
