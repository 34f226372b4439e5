(** What lat_opt returns, whatever the lattice groups it is given: partial correctness (C78). *)
From Coq Require Import Sorted.
From Verif Require Import LinAlg ReduceProofs TreeSpec TreeProofs TreeDfs TreeSols TreeLatOpt.
Local Open Scope Z_scope.

Section Sound.
  Variable dist : mat Z -> R.
  Variables LG1 LG2 : list (mat Z).
  Variable nsol : nat.
  Variables miniter maxiter : nat.
  Variable lo : mat Z.
  Hypothesis Wlo : wf 3 3 lo.
  Notation coset := (coset lo).

  Definition le_snd (s t : mat Z * R) : Prop := (snd s <= snd t)%R.
  Definition okl (sols : list (mat Z * R)) : Prop :=
    StronglySorted le_snd sols /\ Forall (fun s => coset (fst s) /\ snd s = dist (fst s)) sols.

  Lemma insert_forall P s : forall sols r, insert_sol s sols = Some r -> Forall P sols -> P s -> Forall P r.
  Proof.
    induction sols as [|t sols IH]; cbn; intros r H HF Hs; [discriminate|]. inversion HF; subst.
    destruct (Rleb (snd s) (snd t)); [injection H as <-; auto|].
    destruct (insert_sol s sols) as [r'|]; [|discriminate]. injection H as <-. constructor; auto.
  Qed.
  Lemma insert_sorted s : forall sols r, insert_sol s sols = Some r -> StronglySorted le_snd sols -> StronglySorted le_snd r.
  Proof.
    induction sols as [|t sols IH]; cbn; intros r H HS; [discriminate|]. inversion HS as [|? ? S1 F1]; subst.
    destruct (Rleb (snd s) (snd t)) eqn:C.
    - injection H as <-. apply Rleb_spec in C. constructor; [exact HS|]. constructor; [exact C|].
      eapply Forall_impl; [|exact F1]. intros u Hu. unfold le_snd in *. lra.
    - destruct (insert_sol s sols) as [r'|] eqn:E; [|discriminate]. injection H as <-. constructor; [now apply IH|].
      apply (insert_forall _ s sols r' E F1). apply Rleb_false in C. unfold le_snd. lra.
  Qed.
  Lemma insert_none s : forall sols, insert_sol s sols = None -> Forall (fun t => le_snd t s) sols.
  Proof.
    induction sols as [|t sols IH]; cbn; intros H; [constructor|]. destruct (Rleb (snd s) (snd t)) eqn:C; [discriminate|].
    apply Rleb_false in C. destruct (insert_sol s sols); [discriminate|]. constructor; [unfold le_snd; lra|auto].
  Qed.
  Lemma sorted_snoc s : forall sols, StronglySorted le_snd sols -> Forall (fun t => le_snd t s) sols -> StronglySorted le_snd (sols ++ [s]).
  Proof.
    induction sols as [|t sols IH]; cbn; intros HS HF; [repeat constructor|]. inversion HS; inversion HF; subst.
    constructor; [now apply IH|]. apply Forall_app. split; [assumption|]. constructor; [assumption|constructor].
  Qed.
  Lemma prefix_sorted (a b : list (mat Z * R)) : StronglySorted le_snd (a ++ b) -> StronglySorted le_snd a.
  Proof.
    induction a as [|x a IH]; cbn; intros H; [constructor|]. inversion H as [|? ? S1 F1]; subst. constructor; [auto|].
    apply Forall_app in F1. apply F1.
  Qed.
  Lemma truncate_prefix : forall fuel sols, exists tl, sols = truncate_sols nsol fuel sols ++ tl.
  Proof.
    induction fuel as [|fuel IH]; intros sols; cbn [truncate_sols]; [exists []; symmetry; apply app_nil_r|].
    destruct (last (map Some sols) None) as [s|] eqn:L; [|exists []; symmetry; apply app_nil_r].
    destruct (nth_error sols (nsol - 1)) as [t|]; [|exists []; symmetry; apply app_nil_r].
    destruct ((nsol <? length sols)%nat && Rltb (snd t) (snd s)); [|exists []; symmetry; apply app_nil_r].
    destruct (IH (removelast sols)) as [tl H]. exists (tl ++ [s]). rewrite app_assoc, <- H.
    apply (removelast_split 1 (le_n 1) 1 (le_n 1)). rewrite <- (last_nth 1 (le_n 1) 1 (le_n 1)). exact L.
  Qed.

  Lemma update_sound E st : okl (fst st) -> coset E -> okl (fst (snd (update_solutions dist LG1 LG2 nsol E st))).
  Proof.
    destruct st as [sols ext]. intros [HS HF] HC. unfold update_solutions.
    assert (HE : coset (fst (E, dist E)) /\ snd (E, dist E) = dist (fst (E, dist E))) by (split; [exact HC|reflexivity]).
    destruct sols as [|s sols]; [cbn; split; [repeat constructor|constructor; [exact HE|constructor]]|].
    destruct (mem_mat E ext); [split; assumption|]. remember (s :: sols) as l.
    destruct (insert_sol (E, dist E) l) as [r|] eqn:I.
    - cbn [snd fst]. destruct (truncate_prefix (length r) r) as [tl H].
      pose proof (insert_sorted _ _ _ I HS) as RS. pose proof (insert_forall _ _ _ _ I HF HE) as RF. rewrite H in RS, RF. split.
      + now apply prefix_sorted in RS.
      + now apply Forall_app in RF.
    - destruct (length l <? nsol)%nat; [|split; assumption]. cbn [snd fst]. split; [apply sorted_snoc; [exact HS|now apply insert_none]|].
      apply Forall_app. split; [exact HF|constructor; [exact HE|constructor]].
  Qed.

  Definition inv (b : bstate) : Prop :=
    okl (fst (b_sols b)) /\ sound_cache dist (b_cache b) /\ Forall (fun nd => coset (elem nd)) (b_new b).
  Definition stop_ok (ns : node) (b : bstate) : Prop := coset (elem ns) /\ okl (fst (b_sols b)) /\ sound_cache dist (b_cache b).

  Lemma dfs_coset fuel t c m c' : coset (elem t) -> sound_cache dist c -> dfs dist fuel t c = Ok (m, c') ->
    coset (elem m) /\ sound_cache dist c'.
  Proof.
    intros HC HS D. destruct (dfs_sound dist fuel t c m c' (coset_wf lo Wlo _ HC) HS D) as (G & S & _).
    split; [exact (coset_goes dist lo Wlo _ _ HC G)|exact S].
  Qed.

  Lemma kids_sound fuel depth source root : coset (elem root) -> forall is_ b x, Forall (fun i => i < 12)%nat is_ -> inv b ->
    kids_loop dist LG1 LG2 nsol miniter fuel depth source root is_ b = Ok x ->
    match x with inl (ns, b') => stop_ok ns b' | inr b' => inv b' end.
  Proof.
    intros HR. induction is_ as [|i is_ IH]; intros b x HF HB H.
    - cbn in H. injection H as <-. exact HB.
    - inversion HF as [|? ? Hi HF']; subst. cbn [kids_loop] in H.
      assert (ED : np_dot (elem root) (nth i T_ (eye 3)) = Ok (step_in (elem root) i))
        by (apply np_dot_3; [now apply (coset_wf lo Wlo)|now apply wf_T]).
      rewrite ED in H. cbn [bind] in H. pose proof (coset_step lo Wlo (elem root) i HR Hi) as CE. set (E := step_in (elem root) i) in *.
      destruct (mem_mat E (b_explored b)); [exact (IH b x HF' HB H)|]. destruct HB as (OK & CA & NW). cbn zeta in H.
      assert (NW' : Forall (fun nd => coset (elem nd)) (b_new b ++ [Node E (Some i) (parent root)])).
      { apply Forall_app. split; [exact NW|]. constructor; [exact CE|constructor]. }
      destruct (depth <=? miniter)%nat.
      + cbn [b_cache b_sols b_explored b_new b_upd] in H.
        destruct (dfs dist fuel (Node E (Some i) (parent root)) (b_cache b)) as [[m c']| |] eqn:D; cbn [bind] in H; try discriminate.
        destruct (dfs_coset fuel (Node E (Some i) (parent root)) (b_cache b) m c' CE CA D) as [Cm Sc].
        destruct (Rltb (dist (elem m)) (dist (elem source))).
        * injection H as <-. split; [exact Cm|]. split; [exact OK|exact Sc].
        * pose proof (update_sound E (b_sols b) OK CE) as U.
          destruct (update_solutions dist LG1 LG2 nsol E (b_sols b)) as [u s'] eqn:EU. cbn [snd] in U.
          refine (IH _ x HF' _ H). split; [exact U|]. split; [exact Sc|exact NW'].
      + cbn [b_cache b_sols b_explored b_new b_upd] in H. pose proof (update_sound E (b_sols b) OK CE) as U.
        destruct (update_solutions dist LG1 LG2 nsol E (b_sols b)) as [u s'] eqn:EU. cbn [snd] in U.
        refine (IH _ x HF' _ H). split; [exact U|]. split; [exact CA|exact NW'].
  Qed.
  Lemma roots_sound fuel depth source : forall roots b x, Forall (fun nd => coset (elem nd)) roots -> inv b ->
    roots_loop 3 dist LG1 LG2 nsol miniter fuel depth source roots b = Ok x ->
    match x with inl (ns, b') => stop_ok ns b' | inr b' => inv b' end.
  Proof.
    induction roots as [|r rs IH]; intros b x HF HB H; cbn [roots_loop] in H; [injection H as <-; exact HB|]. inversion HF as [|? ? Hr HF']; subst.
    destruct (kids_loop dist LG1 LG2 nsol miniter fuel depth source r (child_indices 3 (parent r) (grandpa r)) b) as [y| |] eqn:K; try discriminate.
    pose proof (kids_sound fuel depth source r Hr _ _ _ (child_idx_lt (parent r) (grandpa r)) HB K) as KS.
    cbn [bind] in H. destruct y as [[ns b']|b']; [injection H as <-; exact KS|exact (IH b' x HF' KS H)].
  Qed.
  Lemma levels_sound fuel source : forall k depth roots b x, Forall (fun nd => coset (elem nd)) roots -> inv b ->
    levels 3 dist LG1 LG2 nsol miniter maxiter k fuel depth source roots b = Ok x ->
    match x with (Some ns, b') => stop_ok ns b' | (None, b') => inv b' end.
  Proof.
    induction k as [|k IH]; intros depth roots b x HF HB H; cbn [levels] in H;
      destruct ((depth <? miniter)%nat || b_upd b && (depth <? maxiter)%nat); try discriminate;
      try (injection H as <-; exact HB).
    destruct (roots_loop 3 dist LG1 LG2 nsol miniter fuel (S depth) source roots _) as [y| |] eqn:R; try discriminate. cbn [bind] in H.
    assert (HB' : inv (BState (b_sols b) (b_cache b) (b_explored b) [] false)) by (split; [apply HB|split; [apply HB|constructor]]).
    pose proof (roots_sound _ _ _ _ _ _ HF HB' R) as RS.
    destruct y as [[ns b']|b']; [injection H as <-; exact RS|]. refine (IH _ _ b' x _ RS H). apply RS.
  Qed.
  Lemma bfs_sound fuel source s c x : coset (elem source) -> okl (fst s) -> sound_cache dist c ->
    bfs 3 dist LG1 LG2 nsol miniter maxiter fuel source s c = Ok x ->
    match x with (Some ns, b') => stop_ok ns b' | (None, b') => inv b' end.
  Proof.
    intros HC OK CA H. unfold bfs in H. pose proof (update_sound (elem source) s OK HC) as U.
    destruct (update_solutions dist LG1 LG2 nsol (elem source) s) as [u s']. cbn [snd] in U.
    refine (levels_sound _ _ _ _ _ _ _ _ _ H); [constructor; [exact HC|constructor]|].
    split; [exact U|]. split; [exact CA|constructor].
  Qed.
  Lemma restarts_sound fuel : forall k start s c st, coset (elem start) -> okl (fst s) -> sound_cache dist c ->
    restarts 3 dist LG1 LG2 nsol miniter maxiter k fuel start s c = Ok st -> okl (fst st).
  Proof.
    induction k as [|k IH]; intros start s c st HC OK CA H; cbn [restarts] in H; [discriminate|].
    destruct (dfs dist fuel start c) as [[m c']| |] eqn:D; try discriminate. cbn [bind] in H.
    destruct (dfs_coset _ _ _ _ _ HC CA D) as [Cm Sc].
    destruct (bfs 3 dist LG1 LG2 nsol miniter maxiter fuel m s c') as [x| |] eqn:B; try discriminate. cbn [bind] in H.
    pose proof (bfs_sound _ _ _ _ _ Cm OK Sc B) as BS. destruct x as [[ns|] b].
    - destruct BS as (B1 & B2 & B3). exact (IH _ _ _ _ B1 B2 B3 H).
    - injection H as <-. apply BS.
  Qed.
  Theorem lat_opt_sound k fuel sols : lat_opt_core 3 dist LG1 LG2 nsol miniter maxiter k fuel lo = Ok sols -> okl sols.
  Proof.
    intros H. unfold lat_opt_core in H.
    destruct (restarts 3 dist LG1 LG2 nsol miniter maxiter k fuel (Node lo None None) ([], []) (Some 0, [])) as [st| |] eqn:R; try discriminate.
    injection H as <-. refine (restarts_sound _ _ _ _ _ _ _ _ _ R).
    - exact (coset_lo lo Wlo).
    - split; constructor.
    - intros ? ? [].
  Qed.
End Sound.
