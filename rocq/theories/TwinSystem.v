(** Histories of TwinSystem objects, and the meaning of istwinnable. *)
From Verif Require Export TwinState.
From Coq Require Export Sorted.
Local Open Scope R_scope.

(** * max_abs *)
Lemma max_abs_lt M c : wf 3 3 M -> 0 < c -> (max_abs M < c <-> forall i j, (i < 3)%nat -> (j < 3)%nat -> Rabs (get M i j) < c).
Proof.
  intros W C. apply wf3_inv in W. destruct W as (m1 & m2 & m3 & m4 & m5 & m6 & m7 & m8 & m9 & ->). unfold max_abs, M3. cbn [concat app map fold_right]. split.
  - intros H i j Hi Hj. repeat (apply Rmax_Rlt in H; let H' := fresh "H" in destruct H as [H' H]).
    destruct i as [|[|[|i]]]; try lia; destruct j as [|[|[|j]]]; try lia; cbv [get nth]; assumption.
  - intros H. pose proof (H 0 0 ltac:(lia) ltac:(lia))%nat. pose proof (H 0 1 ltac:(lia) ltac:(lia))%nat. pose proof (H 0 2 ltac:(lia) ltac:(lia))%nat.
    pose proof (H 1 0 ltac:(lia) ltac:(lia))%nat. pose proof (H 1 1 ltac:(lia) ltac:(lia))%nat. pose proof (H 1 2 ltac:(lia) ltac:(lia))%nat.
    pose proof (H 2 0 ltac:(lia) ltac:(lia))%nat. pose proof (H 2 1 ltac:(lia) ltac:(lia))%nat. pose proof (H 2 2 ltac:(lia) ltac:(lia))%nat.
    repeat (apply Rmax_Rlt; split; [assumption|]). assumption.
Qed.
Lemma small_pos : 0 < SMALL. Proof. unfold SMALL. lra. Qed.
Lemma distinct_spec U V : wf 3 3 U -> wf 3 3 V -> Rltb (max_abs (msub U V)) SMALL = false <-> distinct U V.
Proof.
  intros WU WV. assert (W : wf 3 3 (msub U V)) by (apply wf_msub; auto; lia). pose proof (max_abs_lt _ SMALL W small_pos) as M.
  split.
  - intros H. apply Rltb_false in H. destruct (Rlt_dec (max_abs (msub U V)) SMALL) as [L|N]; [lra|].
    assert (D : forall i j, (i < 3)%nat -> (j < 3)%nat -> distinct U V \/ Rabs (get (msub U V) i j) < SMALL).
    { intros i j Hi Hj. destruct (Rlt_dec (Rabs (get (msub U V) i j)) SMALL) as [X|X]; [now right|]. left. exists i, j. repeat split; auto.
      rewrite (get_msub 3 3) in X by auto. cbn [sub R_ops] in X. change tolerance with SMALL. lra. }
    destruct (D 0 0 ltac:(lia) ltac:(lia))%nat; [assumption|]. destruct (D 0 1 ltac:(lia) ltac:(lia))%nat; [assumption|]. destruct (D 0 2 ltac:(lia) ltac:(lia))%nat; [assumption|].
    destruct (D 1 0 ltac:(lia) ltac:(lia))%nat; [assumption|]. destruct (D 1 1 ltac:(lia) ltac:(lia))%nat; [assumption|]. destruct (D 1 2 ltac:(lia) ltac:(lia))%nat; [assumption|].
    destruct (D 2 0 ltac:(lia) ltac:(lia))%nat; [assumption|]. destruct (D 2 1 ltac:(lia) ltac:(lia))%nat; [assumption|]. destruct (D 2 2 ltac:(lia) ltac:(lia))%nat; [assumption|].
    exfalso. apply N. apply M. intros i j Hi Hj. destruct i as [|[|[|i]]]; try lia; destruct j as [|[|[|j]]]; try lia; assumption.
  - intros (i & j & Hi & Hj & H). apply Rltb_false. destruct (Rlt_le_dec (max_abs (msub U V)) SMALL) as [L|L]; [|exact L]. exfalso. rewrite M in L. specialize (L i j Hi Hj).
    rewrite (get_msub 3 3) in L by auto. cbn [sub R_ops] in L. change tolerance with SMALL in H. lra.
Qed.

(** * istwinnable of a new pair *)
Lemma inv_posdef U : positive_definite U -> inv U = Ok (minv U).
Proof. intros P. apply (inv_Ok 3); [now right|apply P|]. pose proof (posdef_det U P). lra. Qed.
Lemma new_pair_ok eig U V l1 l2 l3 : positive_definite U -> is_eig (twin_matrix U V) (eig (twin_matrix U V)) ->
  eigenvalues (twin_matrix U V) l1 l2 l3 -> exists v0 v1 v2 p,
  eigsys (twin_matrix U V) l1 l2 l3 v0 v1 v2 /\ new_pair eig true U V = Ok p /\ p_Ui p = U /\ p_Uj p = V /\
  p_e p = [l1; l2; l3] /\ p_v p = [v0; v1; v2] /\ fresh p /\ p_twinnable p = istwinnable p.
Proof.
  intros PU E EV. destruct (sort_eig_eigenvalues _ _ _ _ _ E EV) as (v0 & v1 & v2 & SE & ES & _).
  unfold new_pair. cbn [negb andb]. rewrite inv_posdef by auto. cbn [bind]. fold (twin_matrix U V). rewrite SE.
  eexists v0, v1, v2, _. split; [exact ES|]. split; [reflexivity|]. repeat (split; [reflexivity|]). split; [|reflexivity]. repeat (split; [reflexivity|]). reflexivity.
Qed.
Lemma eigenvalues_unique C l1 l2 l3 m1 m2 m3 : eigenvalues C l1 l2 l3 -> eigenvalues C m1 m2 m3 -> l1 = m1 /\ l2 = m2 /\ l3 = m3.
Proof.
  intros ((A & B) & W & E) ((A' & B') & W' & E'). pose proof (eigen_perm 3 C _ _ _ _ (or_intror eq_refl) E E') as P. now apply sorted_perm3.
Qed.
Lemma twinnable_spec U V l1 l2 l3 : wf 3 3 U -> wf 3 3 V -> eigenvalues (twin_matrix U V) l1 l2 l3 ->
  twinnable U V [l1; l2; l3] = true <-> nearly_twinned U V.
Proof.
  intros WU WV EV. unfold twinnable. cbv [vget nth]. destruct (Rltb (max_abs (msub U V)) SMALL) eqn:E.
  - split; [discriminate|]. intros (D & _). apply distinct_spec in D; auto. congruence.
  - apply distinct_spec in E; auto. rewrite Rltb_spec. unfold tol. replace (5 * (1 / 1000)) with (5 / 1000) by lra. split.
    + intros H. split; [exact E|]. eauto.
    + intros (_ & m1 & m2 & m3 & EM & H). destruct (eigenvalues_unique _ _ _ _ _ _ _ EV EM) as (_ & <- & _). exact H.
Qed.

(** * The index pairs *)
Lemma in_index_pairs N i j : In (i, j) (index_pairs N) <-> (i < j /\ j < N)%nat.
Proof.
  unfold index_pairs. rewrite in_flat_map. split.
  - intros (k & Hk & H). apply in_map_iff in H. destruct H as (l & [= -> ->] & H). apply in_seq in Hk. apply in_seq in H. lia.
  - intros H. exists i. split; [apply in_seq; lia|]. apply in_map_iff. exists j. split; [reflexivity|]. apply in_seq. lia.
Qed.
Lemma sorted_app {A} (R : A -> A -> Prop) l l' : StronglySorted R l -> StronglySorted R l' -> (forall x y, In x l -> In y l' -> R x y) ->
  StronglySorted R (l ++ l').
Proof.
  induction 1 as [|a l S IH Fa]; intros S' H; [exact S'|]. cbn [app]. constructor.
  - apply IH; auto. intros x y Hx Hy. apply H; auto. now right.
  - apply Forall_forall. intros x Hx. apply in_app_iff in Hx. destruct Hx as [Hx|Hx]; [rewrite Forall_forall in Fa; auto|]. apply H; auto. now left.
Qed.
Lemma sorted_seq n : forall a, StronglySorted lt (seq a n).
Proof.
  induction n as [|n IH]; intros a; cbn [seq]; constructor; auto. apply Forall_forall. intros x Hx. apply in_seq in Hx. lia.
Qed.
Lemma sorted_index_pairs N : StronglySorted lex (index_pairs N).
Proof.
  unfold index_pairs. assert (G : forall n a, StronglySorted lex (flat_map (fun i => map (fun j => (i, j)) (seq (i + 1) (N - (i + 1)))) (seq a n))); [|apply G].
  induction n as [|n IH]; intros a; cbn [seq flat_map]; [constructor|]. apply sorted_app; auto.
  - generalize (sorted_seq (N - (a + 1)) (a + 1)). generalize (seq (a + 1) (N - (a + 1))). intros l S.
    induction S as [|x l S IHS Fx]; cbn [map]; constructor; auto. apply Forall_forall. intros y Hy. apply in_map_iff in Hy. destruct Hy as (z & <- & Hz).
    rewrite Forall_forall in Fx. right. cbn. auto.
  - intros x y Hx Hy. apply in_map_iff in Hx. destruct Hx as (j & <- & _). apply in_flat_map in Hy. destruct Hy as (i & Hi & Hy).
    apply in_map_iff in Hy. destruct Hy as (j' & <- & _). apply in_seq in Hi. left. cbn. lia.
Qed.
Lemma sorted_filter {A} (R : A -> A -> Prop) f l : StronglySorted R l -> StronglySorted R (filter f l).
Proof.
  induction 1 as [|a l S IH Fa]; cbn [filter]; [constructor|]. destruct (f a); auto. constructor; auto.
  apply Forall_forall. intros x Hx. apply filter_In in Hx. rewrite Forall_forall in Fa. now apply Fa.
Qed.

(** * The loop *)
Section Loop.
  Variable eig : mat R -> list R * mat R.
  Variable npnew : bool.
  Variable Us : list (mat R).
  Let idx := index_pairs (length Us).
  Lemma table_loop_ok (build : nat * nat -> tp) l : forall tab prs,
    (forall ij, In ij l -> new_pair eig true (nth (fst ij) Us []) (nth (snd ij) Us []) = Ok (build ij)) ->
    let good := filter (fun ij => istwinnable (build ij)) l in
    table_loop eig Us l tab prs = (Ok tt, (tab ++ good, prs ++ map build good)).
  Proof.
    induction l as [|[i j] l IH]; intros tab prs H; cbn [table_loop filter map].
    - now rewrite !app_nil_r.
    - pose proof (H (i, j) (or_introl eq_refl)) as Hij. cbn [fst snd] in Hij. rewrite Hij. assert (H' : forall ij, In ij l -> new_pair eig true (nth (fst ij) Us []) (nth (snd ij) Us []) = Ok (build ij)) by (intros; apply H; now right).
      destruct (istwinnable (build (i, j))); rewrite IH by exact H'; cbn [map]; now rewrite <- ?app_assoc.
  Qed.
  Lemma table_loop_fresh l : forall tab prs, Forall fresh prs -> Forall fresh (snd (snd (table_loop eig Us l tab prs))).
  Proof.
    induction l as [|[i j] l IH]; intros tab prs H; cbn [table_loop]; [exact H|].
    destruct (new_pair eig true _ _) as [p| |] eqn:E; [|exact H|exact H]. destruct (istwinnable p); apply IH; auto.
    apply Forall_app. split; [exact H|]. constructor; [|constructor]. now apply (new_fresh eig true) in E.
  Qed.

  Variable L : option (list (mat R)).
  Definition SInv (s : ts) : Prop := s_Ulist s = Us /\ s_Laue s = L /\
    ((s_table s = None /\ s_pairs s = None) \/
     exists prs, s_table s = Some (fst (snd (table_loop eig Us idx [] []))) /\ s_pairs s = Some prs /\
       Forall2 (Inv eig npnew) (snd (snd (table_loop eig Us idx [] []))) prs).
  Let prs0 := snd (snd (table_loop eig Us idx [] [])).
  Let F0 : Forall fresh prs0. Proof. apply table_loop_fresh. constructor. Qed.
  Lemma refl_pairs l : Forall fresh l -> Forall2 (Inv eig npnew) l l.
  Proof. induction 1; constructor; auto. now apply Inv_refl. Qed.
  Lemma SInv_fresh : SInv (fresh_system Us L).
  Proof. split; [reflexivity|]. split; [reflexivity|]. now left. Qed.
  Lemma SInv_table s : SInv s -> SInv (snd (TwinTable eig s)).
  Proof.
    intros I. pose proof I as (EU & EL & J). unfold TwinTable. destruct (s_table s) eqn:ET; [exact I|]. clear I. rename J into I.
    destruct I as [(_ & EP)|(prs & [=] & _)]. rewrite EU. fold idx. destruct (table_loop eig Us idx [] []) as [r [tab prs]] eqn:E. cbn [snd].
    split; [exact EU|]. split; [exact EL|]. right. exists prs. rewrite E. cbn [snd fst set_lists s_table s_pairs]. repeat split; auto.
    apply refl_pairs. exact F0.
  Qed.
  Lemma SInv_pairs s : SInv s -> SInv (snd (getTwinpairs eig s)).
  Proof.
    intros I. unfold getTwinpairs. destruct (s_pairs s); [exact I|]. pose proof (SInv_table s I) as I'. destruct (TwinTable eig s) as [[t| |] s']; exact I'.
  Qed.
  Lemma table_value s : SInv s -> fst (TwinTable eig s) = match s_table s with Some t => Ok t | None =>
    (let* _ := fst (table_loop eig Us idx [] []) in Ok (fst (snd (table_loop eig Us idx [] [])))) end.
  Proof.
    intros (EU & _). unfold TwinTable. destruct (s_table s); [reflexivity|]. rewrite EU. fold idx. now destruct (table_loop eig Us idx [] []) as [r [tab prs]].
  Qed.
  (** after a call that does not raise the pairs are there *)
  Lemma pairs_value s : SInv s -> fst (table_loop eig Us idx [] []) = Ok tt ->
    exists prs, getTwinpairs eig s = (Ok prs, snd (getTwinpairs eig s)) /\ s_pairs (snd (getTwinpairs eig s)) = Some prs /\ Forall2 (Inv eig npnew) prs0 prs.
  Proof.
    intros I OK. pose proof (SInv_pairs s I) as I'. unfold getTwinpairs in *. destruct (s_pairs s) as [prs|] eqn:EP.
    - exists prs. split; [reflexivity|]. split; [exact EP|]. destruct I as (_ & _ & [(_ & N)|(prs' & _ & P & FF)]); [congruence|].
      rewrite EP in P. injection P as <-. exact FF.
    - assert (ET : s_table s = None) by (destruct I as (_ & _ & [(N & _)|(prs' & _ & P & _)]); congruence).
      clear I'. destruct I as (EU & _). unfold TwinTable. rewrite ET, EU. fold idx. fold prs0 in F0.
      destruct (table_loop eig Us idx [] []) as [r [tab prs]] eqn:TL. cbn [fst] in OK. subst r. cbn [bind snd fst set_lists s_pairs].
      exists prs. split; [reflexivity|]. split; [reflexivity|]. apply refl_pairs. exact F0.
  Qed.

  (** sweeps *)
  Lemma sweep_keeps f l : (forall q p, fresh q -> Inv eig npnew q p -> Inv eig npnew q (snd (f p))) ->
    forall prs, Forall fresh l -> Forall2 (Inv eig npnew) l prs -> forall i, Forall2 (Inv eig npnew) l (snd (sweep f i prs)).
  Proof.
    intros K. induction l as [|q l IH]; intros prs FR H i; inversion H; subst; cbn [sweep]; [constructor|]. inversion FR; subst.
    match goal with I : Inv _ _ q ?p |- _ => pose proof (K q p ltac:(assumption) I) as I'; destruct (f p) as [[b| |] p'] end;
      cbn [snd] in *; [|constructor; auto|constructor; auto].
    match goal with |- context [sweep f (S i) ?l'] => specialize (IH l' ltac:(assumption) ltac:(assumption) (S i)); destruct (sweep f (S i) l') as [r l''] end.
    cbn [snd] in *. constructor; auto.
  Qed.
  Lemma sweep_value f l : (forall q, fresh q -> stable eig npnew q f) -> forall prs, Forall fresh l -> Forall2 (Inv eig npnew) l prs ->
    forall i, fst (sweep f i prs) = fst (sweep f i l).
  Proof.
    intros K. induction l as [|q l IH]; intros prs FR H i; inversion H; subst; cbn [sweep]; [reflexivity|]. inversion FR; subst.
    match goal with I : Inv _ _ q ?p |- _ => destruct (K q ltac:(assumption) p I) as (E & _); destruct (f p) as [r p'], (f q) as [r0 q'] end.
    cbn [fst] in E. subst r0. destruct r as [b| |]; try reflexivity.
    match goal with H : Forall2 _ l ?l' |- _ => specialize (IH l' ltac:(assumption) H (S i)); destruct (sweep f (S i) l') as [r l1], (sweep f (S i) l) as [r' l2] end.
    cbn [fst] in *. now subst.
  Qed.
  Lemma SInv_select f s : (forall q p, fresh q -> Inv eig npnew q p -> Inv eig npnew q (snd (f p))) -> SInv s -> SInv (snd (select eig f s)).
  Proof.
    intros K I. pose proof (SInv_pairs s I) as I'. unfold select. unfold getTwinpairs in *.
    destruct (s_pairs s) as [prs|] eqn:EP.
    - destruct I as (EU & EL & [(_ & N)|(prs' & T & P & FF)]); [congruence|]. rewrite EP in P. injection P as <-.
      pose proof (sweep_keeps f prs0 K prs F0 FF 0%nat) as SK. destruct (sweep f 0 prs) as [r l']. cbn [snd] in *.
      split; [exact EU|]. split; [exact EL|]. right. exists l'. auto.
    - destruct (TwinTable eig s) as [[t| |] s'] eqn:TT; [|exact I'|exact I']. cbn [snd] in I'.
      destruct I' as (EU & EL & [(T & P)|(prs' & T & P & FF)]).
      + rewrite P. cbn [snd]. split; [exact EU|]. split; [exact EL|]. now left.
      + rewrite P. pose proof (sweep_keeps f prs0 K prs' F0 FF 0%nat) as SK. destruct (sweep f 0 prs') as [r l']. cbn [snd] in *.
        split; [exact EU|]. split; [exact EL|]. right. exists l'. auto.
  Qed.
  Lemma stable_keeps {A} (f : st A) : (forall q, fresh q -> stable eig npnew q f) -> forall q p, fresh q -> Inv eig npnew q p -> Inv eig npnew q (snd (f p)).
  Proof. intros K q p Fq I. now apply (K q Fq p I). Qed.
  Lemma select_value f s : (forall q, fresh q -> stable eig npnew q f) -> SInv s -> fst (table_loop eig Us idx [] []) = Ok tt ->
    fst (select eig f s) = fst (sweep f 0 prs0).
  Proof.
    intros K I OK. destruct (pairs_value s I OK) as (prs & E & _ & FF). unfold select. rewrite E.
    pose proof (sweep_value f prs0 K prs F0 FF 0%nat) as SV. now destruct (sweep f 0 prs) as [r l'].
  Qed.
  Lemma update_keeps (f : tp -> tp) l : (forall q p, fresh q -> Inv eig npnew q p -> Inv eig npnew q (f p)) ->
    forall prs, Forall fresh l -> Forall2 (Inv eig npnew) l prs -> forall k, Forall2 (Inv eig npnew) l (update k f prs).
  Proof.
    intros K. induction l as [|q l IH]; intros prs FR H k; inversion H; subst; [destruct k; constructor|]. inversion FR; subst.
    destruct k as [|k]; cbn [update]; constructor; auto.
  Qed.
  Lemma SInv_step o s : SInv s -> SInv (sys_step eig npnew o s).
  Proof.
    intros I. destruct o; cbn [sys_step].
    - now apply SInv_table. - now apply SInv_pairs.
    - apply SInv_select; auto. intros q p Fq Ip. unfold bindS, lift. destruct (Laue s); cbn [snd]; auto. now apply conventional_keeps.
    - apply SInv_select; auto. apply stable_keeps. intros q Fq. now apply compound_stable.
    - apply SInv_select; auto. apply stable_keeps. intros q Fq. now apply typeI_stable.
    - apply SInv_select; auto. apply stable_keeps. intros q Fq. now apply typeI_stable.
    - destruct (s_pairs s) as [l|] eqn:EP; [|exact I]. destruct I as (EU & EL & [(T & N)|(prs' & T & P & FF)]); [congruence|].
      rewrite EP in P. injection P as <-. split; [exact EU|]. split; [exact EL|]. right. eexists. split; [exact T|]. split; [reflexivity|].
      apply update_keeps; auto. intros q p Fq Ip. now apply step_keeps.
  Qed.
  Lemma SInv_run h : forall s, SInv s -> SInv (sys_run eig npnew h s).
  Proof. induction h as [|o h IH]; intros s I; [exact I|]. apply IH. now apply SInv_step. Qed.
End Loop.

(** complementary sweeps *)
Definition between (i n k : nat) : Prop := (i <= k < i + n)%nat.
Lemma sweep_complement l : forall i, match fst (sweep iscompound i l) with
  | Ok c => exists t, fst (sweep istypeI i l) = Ok t /\ Forall (between i (length l)) c /\ Forall (between i (length l)) t /\ StronglySorted lt c /\ StronglySorted lt t /\ forall k, between i (length l) k -> (In k c <-> ~ In k t)
  | Raise e => fst (sweep istypeI i l) = Raise e
  | NoFuel => fst (sweep istypeI i l) = NoFuel
  end.
Proof.
  induction l as [|p l IH]; intros i; cbn [sweep].
  - exists []. cbn. repeat split; try constructor; unfold between in *; cbn in *; intros; lia.
  - assert (T : istypeI p = match iscompound p with (Ok b, p') => (Ok (negb b), p') | (Raise e, p') => (Raise e, p') | (NoFuel, p') => (NoFuel, p') end) by reflexivity.
    rewrite T. clear T. destruct (iscompound p) as [[b| |] p'] eqn:E; cbn [fst]; try reflexivity.
    specialize (IH (S i)). destruct (sweep iscompound (S i) l) as [r l1], (sweep istypeI (S i) l) as [r' l2]. cbn [fst] in IH |- *.
    destruct r as [c|e|]; cbn [bind]; [|now rewrite IH|now rewrite IH]. destruct IH as (t & -> & FC & FT & SC & ST & X). cbn [bind length].
    exists (if negb b then i :: t else t). split; [reflexivity|].
    assert (FC' : Forall (between i (S (length l))) c) by (eapply Forall_impl; [|exact FC]; unfold between in *; cbn; lia).
    assert (FT' : Forall (between i (S (length l))) t) by (eapply Forall_impl; [|exact FT]; unfold between in *; cbn; lia).
    assert (Ni : ~ In i c /\ ~ In i t).
    { rewrite Forall_forall in FC, FT. split; intros H; [specialize (FC i H)|specialize (FT i H)]; unfold between in *; cbn in *; lia. }
    destruct b; cbn [negb].
    + split; [constructor; [unfold between in *; cbn; lia|exact FC']|]. split; [exact FT'|]. split; [constructor; auto; eapply Forall_impl; [|exact FC]; unfold between in *; cbn; lia|]. split; [exact ST|].
      intros k Hk. destruct (Nat.eq_dec k i) as [->|N]; [cbn; tauto|]. cbn. rewrite <- (X k) by (unfold between in *; lia). split; [intros [?|?]; [lia|auto]|auto].
    + split; [exact FC'|]. split; [constructor; [unfold between in *; cbn; lia|exact FT']|]. split; [exact SC|]. split; [constructor; auto; eapply Forall_impl; [|exact FT]; unfold between in *; cbn; lia|].
      intros k Hk. destruct (Nat.eq_dec k i) as [->|N]; [cbn; tauto|]. cbn. rewrite (X k) by (unfold between in *; lia). split; [intros ? [?|?]; [lia|auto]|tauto].
Qed.
