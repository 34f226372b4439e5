(** Properties C33 - C35: the twin table, symmetry of twinnability, conventional twins. *)
From Verif Require Import GroupProofs ReduceProofs PropRankOne TwinSystem TwinExamples.
Local Open Scope R_scope.

(** ** Oracles for the examples: for finitely many symmetric matrices a decomposition function exists. *)
Lemma eig_for (l : list (mat R)) : (forall C, In C l -> MartSpec.symmetric C) -> exists eig, forall C, In C l -> is_eig C (eig C).
Proof.
  induction l as [|C l IH]; intros H; [exists (fun _ => ([], [])); intros C []|].
  destruct IH as (eig & E); [intros; apply H; now right|]. destruct (eig_exists C (H C (or_introl eq_refl))) as (eg & EG).
  exists (fun X => if meqb X C then eg else eig X). intros X HX. destruct (meqb X C) eqn:M; [apply meqb_iff in M; now subst|].
  apply E. destruct HX as [<-|HX]; [|exact HX]. exfalso. assert (M' : meqb C C = true) by now apply meqb_iff. congruence.
Qed.
Lemma eig_for_pairs (Us : list (mat R)) : (forall U, In U Us -> positive_definite U) ->
  exists eig, forall U V, In U Us -> In V Us -> is_eig (twin_matrix U V) (eig (twin_matrix U V)).
Proof.
  intros P. destruct (eig_for (flat_map (fun U => map (twin_matrix U) Us) Us)) as (eig & E).
  - intros C H. apply in_flat_map in H. destruct H as (U & HU & H). apply in_map_iff in H. destruct H as (V & <- & HV).
    apply twin_posdef; auto.
  - exists eig. intros U V HU HV. apply E. apply in_flat_map. exists U. split; [exact HU|]. now apply in_map.
Qed.

Lemma Forall2_len {A B} (R : A -> B -> Prop) l l' : Forall2 R l l' -> length l = length l'.
Proof. induction 1; cbn; congruence. Qed.

(** ** C33 *)
Theorem C33_table : forall eig npnew Us L,
  (forall U, In U Us -> positive_definite U) ->
  (forall U V, In U Us -> In V Us -> is_eig (twin_matrix U V) (eig (twin_matrix U V))) ->
  exists tab, StronglySorted lex tab /\
    (forall i j, In (i, j) tab <-> (i < j /\ j < length Us)%nat /\ nearly_twinned (nth i Us []) (nth j Us [])) /\
    forall h, let s := sys_run eig npnew h (fresh_system Us L) in
      fst (TwinTable eig s) = Ok tab /\
      exists prs, fst (getTwinpairs eig s) = Ok prs /\ length prs = length tab /\
        forall k i j, nth_error tab k = Some (i, j) -> exists p, nth_error prs k = Some p /\
          p_Ui p = nth i Us [] /\ p_Uj p = nth j Us [] /\ istwinnable p = true.
Proof.
  intros eig npnew Us L P E.
  set (build := fun ij : nat * nat => match new_pair eig true (nth (fst ij) Us []) (nth (snd ij) Us []) with Ok p => p | _ => 
     {| p_Ui := []; p_Uj := []; p_e := []; p_v := []; p_twinnable := false; p_conventional := None; p_ax := None; p_XI := None; p_XII := None; p_twinparam := None |} end).
  assert (B : forall ij, In ij (index_pairs (length Us)) -> new_pair eig true (nth (fst ij) Us []) (nth (snd ij) Us []) = Ok (build ij) /\
    p_Ui (build ij) = nth (fst ij) Us [] /\ p_Uj (build ij) = nth (snd ij) Us [] /\ (istwinnable (build ij) = true <-> nearly_twinned (nth (fst ij) Us []) (nth (snd ij) Us []))).
  { intros [i j] H. apply in_index_pairs in H. cbn [fst snd]. assert (Hi : In (nth i Us []) Us) by (apply nth_In; lia). assert (Hj : In (nth j Us []) Us) by (apply nth_In; lia).
    destruct (eigenvalues_exist (twin_matrix (nth i Us []) (nth j Us []))) as (l1 & l2 & l3 & EV); [apply twin_posdef; auto|].
    destruct (new_pair_ok eig _ _ l1 l2 l3 (P _ Hi) (E _ _ Hi Hj) EV) as (v0 & v1 & v2 & p & _ & N & U1 & U2 & Ee & _).
    unfold build. cbn [fst snd]. rewrite N. split; [reflexivity|]. split; [exact U1|]. split; [exact U2|]. unfold istwinnable. rewrite U1, U2, Ee.
    apply twinnable_spec; auto; apply P; auto. }
  pose proof (table_loop_ok eig Us build (index_pairs (length Us)) [] [] (fun ij H => proj1 (B ij H))) as TL. cbn zeta in TL. cbn [app] in TL.
  set (tab := filter (fun ij => istwinnable (build ij)) (index_pairs (length Us))) in *.
  exists tab. split; [apply sorted_filter, sorted_index_pairs|]. split.
  - intros i j. unfold tab. rewrite filter_In, in_index_pairs. split; intros (H & X); (split; [exact H|]);
      apply (B (i, j)); auto; now apply in_index_pairs.
  - intros h s. pose proof (SInv_run eig npnew Us L h _ (SInv_fresh eig npnew Us L)) as I. fold s in I.
    assert (OK : fst (table_loop eig Us (index_pairs (length Us)) [] []) = Ok tt) by now rewrite TL.
    split.
    + rewrite (table_value eig npnew Us L s I), TL. cbn [fst snd bind]. destruct (s_table s) as [t|] eqn:ET; [|reflexivity].
      destruct I as (_ & _ & [(N & _)|(prs & T & _)]); [congruence|]. rewrite TL in T. cbn [fst snd] in T. congruence.
    + destruct (pairs_value eig npnew Us L s I OK) as (prs & G & _ & FF). rewrite TL in FF. cbn [snd] in FF.
      exists prs. rewrite G. split; [reflexivity|]. split; [rewrite <- (Forall2_len _ _ _ FF); apply map_length|].
      intros k i j Hk. assert (Hm : nth_error (map build tab) k = Some (build (i, j))) by (rewrite nth_error_map, Hk; reflexivity).
      assert (Hin : In (i, j) tab) by (eapply nth_error_In; eauto). unfold tab in Hin. apply filter_In in Hin. destruct Hin as (Hin & Ht).
      destruct (B _ Hin) as (_ & B1 & B2 & _). clear - FF Hm B1 B2 Ht. revert k Hm.
      induction FF as [|q p l l' I FF IH]; intros [|k] Hm; cbn in *; try discriminate.
      * injection Hm as ->. exists p. split; [reflexivity|]. rewrite (i_Ui _ _ _ _ I), (i_Uj _ _ _ _ I), (istwinnable_stable _ _ _ _ I). auto.
      * now apply IH.
Qed.
Print Assumptions C33_table.

(** The index lists of compound and of type I/II twins: the same at every point of a history, complementary, in
    ascending order; and one raises exactly when the other does. *)
Theorem C33_partition : forall eig npnew Us L,
  (forall U, In U Us -> positive_definite U) ->
  (forall U V, In U Us -> In V Us -> is_eig (twin_matrix U V) (eig (twin_matrix U V))) ->
  exists rc rt, (forall h, let s := sys_run eig npnew h (fresh_system Us L) in
      fst (getCompound eig s) = rc /\ fst (getTypeI eig s) = rt /\ fst (getTypeII eig s) = rt) /\
    match rc, rt with
    | Ok c, Ok t => StronglySorted lt c /\ StronglySorted lt t /\
        exists tab, fst (TwinTable eig (fresh_system Us L)) = Ok tab /\
          forall k, ((k < length tab)%nat -> (In k c <-> ~ In k t)) /\ (In k c \/ In k t -> (k < length tab)%nat)
    | Raise e, Raise e' => e = e'
    | _, _ => False
    end.
Proof.
  intros eig npnew Us L P E. destruct (C33_table eig npnew Us L P E) as (tab & _ & _ & H).
  destruct (H []) as (T0 & prs0 & G0 & Len & _). cbn [sys_run fold_left] in T0, G0.
  assert (OK : fst (table_loop eig Us (index_pairs (length Us)) [] []) = Ok tt).
  { revert T0. unfold TwinTable. cbn [fresh_system s_table s_Ulist]. destruct (table_loop eig Us _ [] []) as [[[]| |] [tb ps]]; cbn; congruence. }
  pose proof (fun h => SInv_run eig npnew Us L h _ (SInv_fresh eig npnew Us L)) as I.
  set (q0 := snd (snd (table_loop eig Us (index_pairs (length Us)) [] []))).
  assert (Lq : length q0 = length tab).
  { destruct (pairs_value eig npnew Us L _ (I []) OK) as (prs & G & _ & FF). cbn [sys_run fold_left] in G. rewrite G in G0. injection G0 as <-.
    rewrite <- Len. exact (Forall2_len _ _ _ FF). }
  exists (fst (sweep iscompound 0 q0)), (fst (sweep istypeI 0 q0)). split.
  - intros h s. unfold s. repeat split; unfold getTypeII, getTypeI, getCompound; apply (select_value eig npnew Us L); auto; intros q Fq;
      first [now apply compound_stable|now apply typeI_stable].
  - pose proof (sweep_complement q0 0) as SC.
    assert (NF : fst (sweep iscompound 0 q0) <> NoFuel).
    { assert (NS : forall l i, fst (sweep iscompound i l) <> NoFuel).
      { assert (NX : forall p, fst (iscompound p) <> NoFuel).
        { assert (NA : forall p, fst (ax p) <> NoFuel).
          { intros p. unfold ax. destruct (p_ax p); [discriminate|]. destruct (negb (istwinnable p)); [discriminate|].
            assert (NL : forall U v e a b c d ss, ax_loop U v e a b c d ss <> NoFuel).
            { intros U v e a b c d. induction ss as [|s ss IH]; cbn [ax_loop]; [discriminate|]. unfold math_sqrt. destruct (Rltb _ 0); cbn [bind]; [discriminate|].
              destruct (Rltb _ SMALL); [|exact IH]. destruct (Rltb _ 0); cbn [bind]; [discriminate|]. unfold normalize. destruct (Reqb _ 0); cbn [bind]; [discriminate|].
              destruct (ax_loop U v e a b c d ss); cbn [bind]; congruence. }
            unfold axes. match goal with |- context [ax_loop ?a ?b ?c ?d ?e ?f ?g ?h] => specialize (NL a b c d e f g h); destruct (ax_loop a b c d e f g h) end; cbn; congruence. }
          intros p. unfold iscompound, bindS. specialize (NA p). destruct (ax p) as [[a| |] p']; cbn in *; congruence. }
        induction l as [|p l IH]; intros i; cbn [sweep]; [discriminate|]. specialize (NX p). destruct (iscompound p) as [[b| |] p']; cbn [fst] in *; try congruence.
        specialize (IH (S i)). destruct (sweep iscompound (S i) l) as [[t| |] l']; cbn in *; congruence. }
      apply NS. }
    destruct (fst (sweep iscompound 0 q0)) as [c|e|]; [|now rewrite SC|congruence].
    destruct SC as (t & -> & FC & FT & S1 & S2 & X). split; [exact S1|]. split; [exact S2|]. exists tab. split; [exact T0|].
    intros k. rewrite Lq in *. split.
    + intros Hk. apply X. unfold between. lia.
    + rewrite Forall_forall in FC, FT. intros [K|K]; [specialize (FC k K)|specialize (FT k K)]; unfold between in *; lia.
Qed.
Print Assumptions C33_partition.

(** For lists that are not variants: when TwinPair raises, the half-built table stays and the next call returns it. *)
Theorem C33_after_error : exists Us, forall eig L,
  let s := fresh_system Us L in
  fst (TwinTable eig s) = Raise LinAlgError /\ fst (TwinTable eig (snd (TwinTable eig s))) = Ok [].
Proof.
  exists [diag [0; 1; 1]; eye 3]. intros eig L. cbn [TwinTable fresh_system s_table s_Ulist length index_pairs].
  assert (D : inv (diag [0; 1; 1]) = Raise LinAlgError).
  { unfold inv. replace (Reqb (det (diag [0; 1; 1])) 0) with true; [reflexivity|]. symmetry. apply Reqb_spec. mat_unfold_goal. ring. }
  cbv [index_pairs flat_map map seq Nat.sub Nat.add app table_loop nth]. unfold new_pair. cbn [negb andb]. rewrite D. cbn [bind fst snd]. split; reflexivity.
Qed.
Print Assumptions C33_after_error.

(** three tetragonal variants and the identity *)
Definition t1 : mat R := diag [9/10; 9/10; 11/10].
Definition t2 : mat R := diag [9/10; 11/10; 9/10].
Definition t3 : mat R := diag [11/10; 9/10; 9/10].
Lemma pd_t1 : positive_definite t1. Proof. apply posdef_diag; lra. Qed.
Lemma pd_t2 : positive_definite t2. Proof. apply posdef_diag; lra. Qed.
Lemma pd_t3 : positive_definite t3. Proof. apply posdef_diag; lra. Qed.
Lemma eye_diag : @eye R _ 3 = diag [1; 1; 1]. Proof. reflexivity. Qed.
Lemma t12_distinct : distinct t1 t2.
Proof. apply distinct_diag. right. right. rewrite Rabs_pos_eq; unfold tolerance, SMALL; lra. Qed.
Lemma t12_twinned : nearly_twinned t1 t2.
Proof.
  apply (nearly_diag _ _ _ _ _ _ ((9/10 / (11/10)) * (9/10 / (11/10))) 1 ((11/10 / (9/10)) * (11/10 / (9/10)))); try lra; [apply t12_distinct| |].
  - replace (9 / 10 / (9 / 10) * (9 / 10 / (9 / 10))) with 1 by field.
    eapply perm_trans; [apply perm_skip, perm_swap|]. apply perm_swap.
  - replace (1 - 1) with 0 by ring. rewrite Rabs_R0. lra.
Qed.
Example C33_case : exists eig Us,
  (forall U, In U Us -> positive_definite U) /\
  (forall U V, In U Us -> In V Us -> is_eig (twin_matrix U V) (eig (twin_matrix U V))) /\
  length Us = 4%nat /\ nearly_twinned (nth 0 Us []) (nth 1 Us []) /\ ~ nearly_twinned (nth 0 Us []) (nth 3 Us []).
Proof.
  set (Us := [t1; t2; t3; eye 3]). assert (P : forall U, In U Us -> positive_definite U).
  { intros U [<-|[<-|[<-|[<-|[]]]]]; [apply pd_t1|apply pd_t2|apply pd_t3|]. rewrite eye_diag. apply posdef_diag; lra. }
  destruct (eig_for_pairs Us P) as (eig & E). exists eig, Us. split; [exact P|]. split; [exact E|]. split; [reflexivity|]. split; [exact t12_twinned|].
  unfold Us; cbn [nth]. rewrite eye_diag. unfold t1. rewrite (nearly_diag _ _ _ _ _ _ ((1 / (11/10)) * (1 / (11/10))) ((1 / (9/10)) * (1 / (9/10))) ((1 / (9/10)) * (1 / (9/10)))); try lra.
  - rewrite Rabs_pos_eq; lra.
  - apply distinct_diag. right. right. rewrite Rabs_pos_eq; unfold tolerance, SMALL; lra.
  - eapply perm_trans; [apply perm_skip, perm_swap|]. apply perm_swap.
Qed.

(** ** C34 *)
(** the outcome of TwinPair(U, V).istwinnable() *)
Lemma pair_after_facts eig npnew skip U V h p l1 l2 l3 : positive_definite U -> positive_definite V ->
  is_eig (twin_matrix U V) (eig (twin_matrix U V)) -> eigenvalues (twin_matrix U V) l1 l2 l3 -> pair_after eig npnew skip U V h p ->
  exists v0 v1 v2 p0, new_pair eig true U V = Ok p0 /\ p = pair_run eig npnew h p0 /\ fresh p0 /\ Inv eig npnew p0 p /\
    eigsys (twin_matrix U V) l1 l2 l3 v0 v1 v2 /\ p_Ui p0 = U /\ p_Uj p0 = V /\ p_e p0 = [l1; l2; l3] /\ p_v p0 = [v0; v1; v2] /\ p_twinnable p0 = istwinnable p0.
Proof.
  intros PU PV E EV (p0 & N & ->). destruct (new_pair_ok eig U V l1 l2 l3 PU E EV) as (v0 & v1 & v2 & q & ES & N1 & U1 & U2 & Ee & Ev & F & T).
  assert (Eq : q = p0).
  { revert N N1. unfold new_pair. destruct (negb skip && _); [discriminate|]. cbn [negb andb]. intros N N1. rewrite N in N1. now injection N1. }
  subst q. exists v0, v1, v2, p0. repeat (split; [assumption || reflexivity|]). split; [|auto 10].
  apply run_keeps; auto. now apply Inv_refl.
Qed.
Lemma twinnable_after eig npnew skip U V h p : positive_definite U -> positive_definite V ->
  is_eig (twin_matrix U V) (eig (twin_matrix U V)) -> pair_after eig npnew skip U V h p ->
  (istwinnable p = true <-> nearly_twinned U V).
Proof.
  intros PU PV E PA. destruct (eigenvalues_exist (twin_matrix U V)) as (l1 & l2 & l3 & EV); [now apply twin_posdef|].
  destruct (pair_after_facts eig npnew skip U V h p l1 l2 l3 PU PV E EV PA) as (v0 & v1 & v2 & p0 & N & Ep & F & I & ES & U1 & U2 & Ee & Ev & T).
  rewrite (istwinnable_stable _ _ _ _ I). unfold istwinnable. rewrite U1, U2, Ee. apply twinnable_spec; auto; [apply PU|apply PV].
Qed.

(** The two answers agree unless the middle eigenvalue is close to 1 +- 0.005: 0.005 / 1.005 <= |l2 - 1| < 0.005 / 0.995. *)
Theorem C34_symmetric_partial : forall eig npnew skip skip' U V l1 l2 l3 h h' p q,
  positive_definite U -> positive_definite V ->
  is_eig (twin_matrix U V) (eig (twin_matrix U V)) -> is_eig (twin_matrix V U) (eig (twin_matrix V U)) ->
  eigenvalues (twin_matrix U V) l1 l2 l3 ->
  Rabs (l2 - 1) < 5 / 1000 / (1 + 5 / 1000) \/ 5 / 1000 / (1 - 5 / 1000) <= Rabs (l2 - 1) ->
  pair_after eig npnew skip U V h p -> pair_after eig npnew skip' V U h' q ->
  istwinnable p = istwinnable q.
Proof.
  intros eig npnew skip skip' U V l1 l2 l3 h h' p q PU PV E1 E2 EV G Pp Pq.
  pose proof (twinnable_after _ _ _ _ _ _ _ PU PV E1 Pp) as T1. pose proof (twinnable_after _ _ _ _ _ _ _ PV PU E2 Pq) as T2.
  pose proof (twin_swap U V PU PV _ _ _ EV) as EV'. pose proof (posdef_eig _ _ _ _ (twin_posdef U V PU PV) EV) as P1. assert (P2 : 0 < l2) by (destruct EV as ((O1 & O2) & _); lra).
  assert (X : Rabs (/ l2 - 1) < 5 / 1000 <-> Rabs (l2 - 1) < 5 / 1000).
  { assert (Y : Rabs (/ l2 - 1) = Rabs (l2 - 1) / l2).
    { replace (/ l2 - 1) with (- ((l2 - 1) / l2)) by (field; lra). rewrite Rabs_Ropp. unfold Rdiv. rewrite Rabs_mult, (Rabs_pos_eq (/ l2)); [reflexivity|]. apply Rlt_le, Rinv_0_lt_compat; lra. }
    rewrite Y. pose proof (Rabs_pos (l2 - 1)) as Pd. assert (Z : Rabs (l2 - 1) / l2 < 5 / 1000 <-> Rabs (l2 - 1) < 5 / 1000 * l2).
    { split; intros H.
      - apply (Rmult_lt_compat_r l2) in H; [|lra]. replace (Rabs (l2 - 1) / l2 * l2) with (Rabs (l2 - 1)) in H by (field; lra). lra.
      - apply (Rmult_lt_reg_r l2); [lra|]. replace (Rabs (l2 - 1) / l2 * l2) with (Rabs (l2 - 1)) by (field; lra). lra. }
    rewrite Z. clear Z Y. unfold Rabs in *. destruct (Rcase_abs (l2 - 1)); lra. }
  assert (S : nearly_twinned U V <-> nearly_twinned V U).
  { assert (D : distinct U V <-> distinct V U) by (split; intros (i & j & Hi & Hj & H); exists i, j; rewrite Rabs_minus_sym in H; auto).
    split; intros (Hd & m1 & m2 & m3 & EM & H).
    - split; [now apply D|]. exists (/ l3), (/ l2), (/ l1). split; [exact EV'|]. apply X. destruct (eigenvalues_unique _ _ _ _ _ _ _ EV EM) as (_ & -> & _). exact H.
    - split; [now apply D|]. exists l1, l2, l3. split; [exact EV|]. apply X. destruct (eigenvalues_unique _ _ _ _ _ _ _ EV' EM) as (_ & -> & _). exact H. }
  destruct (istwinnable p), (istwinnable q); auto; exfalso.
  - assert (false = true) by (apply T2, S, T1; reflexivity). discriminate.
  - assert (false = true) by (apply T1, S, T2; reflexivity). discriminate.
Qed.
Print Assumptions C34_symmetric_partial.

(** The eigenvalues for the exchanged pair are the reciprocals; in particular the middle one is 1 for both or for none. *)
Theorem C34_reciprocal : forall U V l1 l2 l3, positive_definite U -> positive_definite V ->
  eigenvalues (twin_matrix U V) l1 l2 l3 -> eigenvalues (twin_matrix V U) (/ l3) (/ l2) (/ l1).
Proof. exact (fun U V l1 l2 l3 PU PV => twin_swap U V PU PV l1 l2 l3). Qed.
Print Assumptions C34_reciprocal.

Theorem C34_refuted : exists U V eig p q, positive_definite U /\ positive_definite V /\
  is_eig (twin_matrix U V) (eig (twin_matrix U V)) /\ is_eig (twin_matrix V U) (eig (twin_matrix V U)) /\
  new_pair eig true U V = Ok p /\ new_pair eig true V U = Ok q /\ istwinnable p = false /\ istwinnable q = true.
Proof.
  set (U := diag [1; 1; 1]). set (V := diag [1/2; 10025/10000; 2]).
  assert (PU : positive_definite U) by (apply posdef_diag; lra). assert (PV : positive_definite V) by (apply posdef_diag; lra).
  destruct (eig_for_pairs [U; V]) as (eig & E); [intros X [<-|[<-|[]]]; auto|].
  assert (E1 : is_eig (twin_matrix U V) (eig (twin_matrix U V))) by (apply E; cbn; auto). assert (E2 : is_eig (twin_matrix V U) (eig (twin_matrix V U))) by (apply E; cbn; auto).
  destruct (eigenvalues_exist (twin_matrix U V)) as (l1 & l2 & l3 & EV); [now apply twin_posdef|].
  destruct (eigenvalues_exist (twin_matrix V U)) as (m1 & m2 & m3 & EW); [now apply twin_posdef|].
  destruct (new_pair_ok eig U V _ _ _ PU E1 EV) as (v0 & v1 & v2 & p & _ & Np & U1 & U2 & Ee & _).
  destruct (new_pair_ok eig V U _ _ _ PV E2 EW) as (w0 & w1 & w2 & q & _ & Nq & V1 & V2 & Ef & _).
  exists U, V, eig, p, q. repeat (split; [assumption|]).
  assert (D : distinct U V) by (apply distinct_diag; right; right; rewrite Rabs_left; unfold tolerance, SMALL; lra).
  assert (D' : distinct V U) by (apply distinct_diag; right; right; rewrite Rabs_pos_eq; unfold tolerance, SMALL; lra).
  split.
  - unfold istwinnable. rewrite U1, U2, Ee. destruct (twinnable U V [l1; l2; l3]) eqn:X; [|reflexivity]. exfalso.
    apply twinnable_spec in X; [|apply PU|apply PV|exact EV].
    apply (nearly_diag _ _ _ _ _ _ (1/2 / 1 * (1/2 / 1)) (10025/10000 / 1 * (10025/10000 / 1)) (2 / 1 * (2 / 1))) in X; try lra; [|exact D|reflexivity].
    rewrite Rabs_pos_eq in X; lra.
  - unfold istwinnable. rewrite V1, V2, Ef. apply twinnable_spec; [apply PV|apply PU|exact EW|].
    apply (nearly_diag _ _ _ _ _ _ (1 / 2 * (1 / 2)) (1 / (10025/10000) * (1 / (10025/10000))) (1 / (1/2) * (1 / (1/2)))); try lra; [exact D'| |].
    + eapply perm_trans; [apply perm_skip, perm_swap|]. eapply perm_trans; [apply perm_swap|]. apply perm_skip, perm_swap.
    + rewrite Rabs_left; lra.
Qed.
Print Assumptions C34_refuted.
Example C34_case : exists eig p q, new_pair eig true t1 t2 = Ok p /\ new_pair eig true t2 t1 = Ok q /\ istwinnable p = true /\ istwinnable q = true.
Proof.
  destruct (eig_for_pairs [t1; t2]) as (eig & E); [intros X [<-|[<-|[]]]; [apply pd_t1|apply pd_t2]|].
  assert (EV : eigenvalues (twin_matrix t1 t2) ((9/10 / (11/10)) * (9/10 / (11/10))) 1 ((11/10 / (9/10)) * (11/10 / (9/10)))).
  { unfold t1, t2. rewrite twin_diag by lra. apply eigenvalues_of_diag; try lra.
    replace (9 / 10 / (9 / 10) * (9 / 10 / (9 / 10))) with 1 by field. eapply perm_trans; [apply perm_skip, perm_swap|]. apply perm_swap. }
  pose proof (C34_reciprocal _ _ _ _ _ pd_t1 pd_t2 EV) as EW.
  assert (E1 : is_eig (twin_matrix t1 t2) (eig (twin_matrix t1 t2))) by (apply E; cbn; auto). assert (E2 : is_eig (twin_matrix t2 t1) (eig (twin_matrix t2 t1))) by (apply E; cbn; auto).
  destruct (new_pair_ok eig t1 t2 _ _ _ pd_t1 E1 EV) as (v0 & v1 & v2 & p & _ & Np & _).
  destruct (new_pair_ok eig t2 t1 _ _ _ pd_t2 E2 EW) as (w0 & w1 & w2 & q & _ & Nq & _).
  assert (Pp : pair_after eig false true t1 t2 [] p) by (exists p; auto). assert (Pq : pair_after eig false true t2 t1 [] q) by (exists q; auto).
  assert (Tp : istwinnable p = true) by (apply (twinnable_after _ _ _ _ _ _ _ pd_t1 pd_t2 E1 Pp), t12_twinned).
  exists eig, p, q. repeat (split; [assumption|]).
  rewrite <- (C34_symmetric_partial eig false true true t1 t2 _ _ _ [] [] p q pd_t1 pd_t2 E1 E2 EV); auto.
  left. replace (1 - 1) with 0 by ring. rewrite Rabs_R0. lra.
Qed.

(** ** C35 *)
(** only isconventional writes the flag *)
Definition keeps_conv {A} (m : st A) : Prop := forall p, p_conventional (snd (m p)) = p_conventional p.
Lemma kc_bind {A B} (m : st A) (f : A -> st B) : keeps_conv m -> (forall a, keeps_conv (f a)) -> keeps_conv (bindS m f).
Proof. intros H1 H2 p. unfold bindS. specialize (H1 p). destruct (m p) as [[a|x|] q]; cbn [snd] in *; auto. rewrite <- H1. apply H2. Qed.
Lemma kc_ret {A} (a : A) : keeps_conv (ret a). Proof. intros p. reflexivity. Qed.
Lemma kc_lift {A} (r : res A) : keeps_conv (lift r). Proof. intros p. reflexivity. Qed.
Lemma kc_ax : keeps_conv ax.
Proof. intros p. unfold ax. destruct (p_ax p); auto. destruct (negb _); auto. destruct (axes _ _ _); auto. Qed.
Lemma kc_compound : keeps_conv iscompound. Proof. apply kc_bind; [apply kc_ax|intros a; apply kc_ret]. Qed.
Lemma kc_XI : keeps_conv XI.
Proof.
  apply kc_bind; [apply kc_compound|]. intros [|]; [apply kc_lift|]. intros p. destruct (p_XI p); [reflexivity|]. revert p.
  intros p. apply (kc_bind ax); [apply kc_ax|]. intros a. apply kc_bind; [apply kc_lift|]. intros t. apply kc_bind; [apply kc_lift|]. intros Ui q. reflexivity.
Qed.
Lemma kc_XII : keeps_conv XII.
Proof.
  apply kc_bind; [apply kc_compound|]. intros [|]; [apply kc_lift|]. intros p. destruct (p_XII p); [reflexivity|].
  apply (kc_bind ax); [apply kc_ax|]. intros a. apply kc_bind; [apply kc_lift|]. intros t q. reflexivity.
Qed.
Lemma kc_param eig npnew : keeps_conv (twinparam eig npnew).
Proof.
  intros p. unfold twinparam. destruct (negb _); [reflexivity|]. destruct (p_twinparam p); [reflexivity|].
  apply (kc_bind ax); [apply kc_ax|]. intros a. apply kc_bind; [apply kc_lift|]. intros t q. reflexivity.
Qed.
Lemma kc_some eig npnew : keeps_conv (some_param eig npnew).
Proof. apply kc_bind; [apply kc_param|]. intros [t|]; [apply kc_ret|apply kc_lift]. Qed.
Lemma kc_direct eig npnew : keeps_conv (direct_cof eig npnew).
Proof. intros p. unfold direct_cof. apply (kc_bind (some_param eig npnew)); [apply kc_some|]. intros t. apply kc_ret. Qed.
Lemma kc_volume eig npnew : keeps_conv (volumefrac eig npnew).
Proof.
  intros p. unfold volumefrac. apply (kc_bind (some_param eig npnew)); [apply kc_some|]. intros t. apply kc_bind; [apply kc_lift|]. intros f.
  apply kc_bind; [apply kc_lift|]. intros g. apply kc_ret.
Qed.
Lemma kc_compatible eig npnew t : keeps_conv (iscompatible eig npnew t).
Proof.
  destruct t; try apply kc_lift; (apply kc_bind; [apply kc_volume|intros f]); try apply kc_ret. destruct (some (fst f)); [apply kc_ret|].
  apply kc_bind; [apply kc_volume|]. intros g. apply kc_ret.
Qed.
Lemma kc_habit eig npnew t : keeps_conv (habitplanes eig npnew t).
Proof.
  assert (H : keeps_conv (habitplanes eig npnew TC)); [|destruct t; auto; apply kc_lift].
  apply kc_bind; [apply kc_compatible|]. intros [|]; [|apply kc_lift]. cbn [negb]. apply kc_bind; [apply kc_some|]. intros a.
  apply kc_bind; [apply kc_volume|]. intros fs p. reflexivity.
Qed.
Definition asks_conventional (o : pair_op) : Prop := match o with PConventional _ => True | _ => False end.
Lemma kc_run eig npnew h : (forall o, In o h -> ~ asks_conventional o) -> forall p, p_conventional (pair_run eig npnew h p) = p_conventional p.
Proof.
  induction h as [|o h IH]; intros H p; [reflexivity|]. unfold pair_run in *. cbn [fold_left]. rewrite IH by (intros x Hx; apply H; now right).
  specialize (H o (or_introl eq_refl)).
  destruct o; cbn [pair_step]; [reflexivity|exfalso; now apply H|apply kc_ax|apply kc_compound| |apply kc_XI|apply kc_XII|apply kc_direct|apply kc_param|apply kc_compatible|apply kc_volume|apply kc_habit].
  unfold istypeI. apply (kc_bind iscompound); [apply kc_compound|intros a; apply kc_ret].
Qed.
Lemma kc_step eig npnew o p : ~ asks_conventional o -> p_conventional (pair_step eig npnew o p) = p_conventional p.
Proof. intros H. apply (kc_run eig npnew [o]). now intros x [<-|[]]. Qed.
Lemma conv_spec G U V : MartSpec.symmetric U -> wf 3 3 V -> (forall Q, In Q G -> wf 3 3 Q) ->
  (existsb (fun Q => Rltb (max_abs (msub (mmul (mmul Q U) (tr Q)) V)) SMALL) G = true <-> conventional G U V).
Proof.
  intros [WU _] WV WG. rewrite existsb_exists. unfold conventional.
  assert (H : forall Q, In Q G -> (Rltb (max_abs (msub (mmul (mmul Q U) (tr Q)) V)) SMALL = true <->
    forall i j, (i < 3)%nat -> (j < 3)%nat -> Rabs (get (rotate Q U) i j - get V i j) < SMALL)).
  { intros Q HQ. assert (WR : wf 3 3 (rotate Q U)).
    { unfold rotate. apply (wf_mmul 3 3 3); [apply (wf_mmul 3 3 3); auto|apply wf_tr'; auto|lia]. }
    rewrite Rltb_spec. fold (rotate Q U). rewrite max_abs_lt; [|apply wf_msub; auto; lia|exact small_pos].
    split; intros X i j Hi Hj; specialize (X i j Hi Hj); rewrite (get_msub 3 3) in * by auto; exact X. }
  split; intros (Q & HQ & X); exists Q; (split; [exact HQ|]); now apply H.
Qed.

(** The first time it is asked, after any calls of other methods, isconventional(G) is right for G. *)
Theorem C35_first_call_partial : forall eig npnew skip U V h p G,
  positive_definite U -> positive_definite V -> is_eig (twin_matrix U V) (eig (twin_matrix U V)) -> (forall Q, In Q G -> wf 3 3 Q) ->
  pair_after eig npnew skip U V h p -> (forall o, In o h -> ~ asks_conventional o) ->
  exists b, fst (isconventional (Some G) p) = Ok b /\ (b = true <-> nearly_twinned U V /\ conventional G U V).
Proof.
  intros eig npnew skip U V h p G PU PV E WG PA Hh. pose proof (twinnable_after _ _ _ _ _ _ _ PU PV E PA) as T.
  destruct (eigenvalues_exist (twin_matrix U V)) as (l1 & l2 & l3 & EV); [now apply twin_posdef|].
  destruct (pair_after_facts eig npnew skip U V h p l1 l2 l3 PU PV E EV PA) as (v0 & v1 & v2 & p0 & N & Ep & F & I & ES & U1 & U2 & Ee & Ev & Tw).
  assert (Ec : p_conventional p = None) by (rewrite Ep, kc_run by auto; apply F).
  assert (Et : p_twinnable p = istwinnable p) by (rewrite (istwinnable_stable _ _ _ _ I), <- Tw; apply I).
  assert (EU : p_Ui p = U /\ p_Uj p = V) by (rewrite <- U1, <- U2; split; apply I). destruct EU as [EU1 EU2].
  unfold isconventional. rewrite Ec, Et, EU1, EU2. destruct (istwinnable p); cbn [negb fst].
  - eexists. split; [reflexivity|]. rewrite conv_spec; [|apply PU|apply PV|exact WG]. split; [intros H; split; [now apply T|exact H]|tauto].
  - exists false. split; [reflexivity|]. split; [discriminate|]. intros [H _]. apply T in H. discriminate.
Qed.
Print Assumptions C35_first_call_partial.

(** For a pair that is not twinnable the answer is False, whatever was asked before. *)
Theorem C35_not_twinnable : forall eig npnew skip U V h p G,
  positive_definite U -> positive_definite V -> is_eig (twin_matrix U V) (eig (twin_matrix U V)) ->
  pair_after eig npnew skip U V h p -> ~ nearly_twinned U V -> fst (isconventional G p) = Ok false.
Proof.
  intros eig npnew skip U V h p G PU PV E PA NT.
  destruct (eigenvalues_exist (twin_matrix U V)) as (l1 & l2 & l3 & EV); [now apply twin_posdef|].
  destruct (pair_after_facts eig npnew skip U V h p l1 l2 l3 PU PV E EV PA) as (v0 & v1 & v2 & p0 & N & -> & F & _ & ES & U1 & U2 & Ee & Ev & Tw).
  assert (T0 : p_twinnable p0 = false).
  { rewrite Tw. unfold istwinnable. rewrite U1, U2, Ee. destruct (twinnable U V [l1; l2; l3]) eqn:X; [|reflexivity].
    apply twinnable_spec in X; [contradiction|apply PU|apply PV|exact EV]. }
  assert (K : forall h p, Inv eig npnew p0 p -> p_conventional p = None -> Inv eig npnew p0 (pair_run eig npnew h p) /\ p_conventional (pair_run eig npnew h p) = None).
  { clear h PA. induction h as [|o h IH]; intros p I C; [auto|]. unfold pair_run in *. cbn [fold_left]. apply IH; [now apply step_keeps|].
    destruct o as [|g| | | | | | | | | |]; try (rewrite <- C; apply kc_step; exact (fun f => f)).
    cbn [pair_step]. unfold isconventional. rewrite C. assert (Ep : p_twinnable p = false) by (rewrite <- T0; apply I). rewrite Ep. exact C. }
  destruct (K h p0 (Inv_refl _ _ _ F)) as [I C]; [apply F|]. unfold isconventional. rewrite C.
  assert (Ep : p_twinnable (pair_run eig npnew h p0) = false) by (rewrite <- T0; apply I). rewrite Ep. reflexivity.
Qed.
Print Assumptions C35_not_twinnable.

(** For a twinnable pair the first answer is repeated, whatever group is asked about later. *)
Lemma kc_stuck eig npnew b h : forall p, p_conventional p = Some b -> p_conventional (pair_run eig npnew h p) = Some b.
Proof.
  induction h as [|o h IH]; intros p C; [exact C|]. unfold pair_run in *. cbn [fold_left]. apply IH.
  destruct o as [|g| | | | | | | | | |]; try (rewrite <- C; apply kc_step; exact (fun f => f)).
  cbn [pair_step]. unfold isconventional. rewrite C. exact C.
Qed.
Theorem C35_first_answer_stays : forall eig npnew skip U V h p g b p' h' g',
  positive_definite U -> positive_definite V -> is_eig (twin_matrix U V) (eig (twin_matrix U V)) ->
  pair_after eig npnew skip U V h p -> nearly_twinned U V ->
  isconventional g p = (Ok b, p') -> fst (isconventional g' (pair_run eig npnew h' p')) = Ok b.
Proof.
  intros eig npnew skip U V h p g b p' h' g' PU PV E PA NT H. pose proof (proj2 (twinnable_after _ _ _ _ _ _ _ PU PV E PA) NT) as T.
  destruct (eigenvalues_exist (twin_matrix U V)) as (l1 & l2 & l3 & EV); [now apply twin_posdef|].
  destruct (pair_after_facts eig npnew skip U V h p l1 l2 l3 PU PV E EV PA) as (v0 & v1 & v2 & p0 & N & Ep & F & I & ES & U1 & U2 & Ee & Ev & Tw).
  assert (Et : p_twinnable p = true) by (rewrite <- T, (istwinnable_stable _ _ _ _ I), <- Tw; apply I).
  assert (C : p_conventional p' = Some b).
  { revert H. unfold isconventional. destruct (p_conventional p) as [c|] eqn:C; [intros [= <- <-]; exact C|]. rewrite Et. cbn [negb]. intros [= Hb <-]. cbn. now rewrite Hb. }
  unfold isconventional. rewrite (kc_stuck _ _ _ _ _ C). reflexivity.
Qed.
Print Assumptions C35_first_answer_stays.

Definition quarter : mat R := [[1; 0; 0]; [0; 0; -1]; [0; 1; 0]].
Lemma quarter_in : In quarter (map RZ CUBIC_LAUE_GROUP).
Proof.
  apply in_map_iff. exists [[1; 0; 0]; [0; 0; -1]; [0; 1; 0]]%Z. split; [reflexivity|]. apply mem_mat_In. vm_compute. reflexivity.
Qed.
Lemma quarter_t12 : rotate quarter t1 = t2.
Proof. unfold rotate, quarter, t1, t2. mat_eq ltac:(lra). Qed.
Theorem C35_refuted : exists U V eig p, positive_definite U /\ positive_definite V /\ is_eig (twin_matrix U V) (eig (twin_matrix U V)) /\
  pair_after eig false false U V [PConventional (Some [eye 3])] p /\ nearly_twinned U V /\
  conventional (map RZ CUBIC_LAUE_GROUP) U V /\ fst (isconventional (Some (map RZ CUBIC_LAUE_GROUP)) p) = Ok false.
Proof.
  destruct (eig_for_pairs [t1; t2]) as (eig & E); [intros X [<-|[<-|[]]]; [apply pd_t1|apply pd_t2]|].
  assert (E1 : is_eig (twin_matrix t1 t2) (eig (twin_matrix t1 t2))) by (apply E; cbn; auto).
  destruct (eigenvalues_exist (twin_matrix t1 t2)) as (l1 & l2 & l3 & EV); [apply twin_posdef; [apply pd_t1|apply pd_t2]|].
  destruct (new_pair_ok eig t1 t2 _ _ _ pd_t1 E1 EV) as (v0 & v1 & v2 & p & _ & Np & _).
  assert (N2 : new_pair eig false t1 t2 = Ok p).
  { revert Np. unfold new_pair. cbn [negb andb]. assert (A : forall U, positive_definite U -> pos_def_sym U = true).
    { intros U PU. apply C32_accepts_partial. exact PU. }
    rewrite (A t1 pd_t1), (A t2 pd_t2). cbn [negb orb]. auto. }
  exists t1, t2, eig, (pair_run eig false [PConventional (Some [eye 3])] p).
  split; [apply pd_t1|]. split; [apply pd_t2|]. split; [exact E1|]. split; [exists p; auto|]. split; [apply t12_twinned|]. split.
  { exists quarter. split; [apply quarter_in|]. intros i j Hi Hj. rewrite quarter_t12, Rminus_diag_eq by reflexivity. rewrite Rabs_R0. exact small_pos. }
  assert (Pp : pair_after eig false true t1 t2 [] p) by (exists p; auto).
  assert (W : forall Q, In Q [@eye R _ 3] -> wf 3 3 Q) by (intros Q [<-|[]]; apply wf_eye).
  destruct (C35_first_call_partial eig false true t1 t2 [] p [eye 3] pd_t1 pd_t2 E1 W Pp (fun o H => match H with end)) as (b & Hb & Sb).
  destruct (isconventional (Some [eye 3]) p) as [r p'] eqn:Ei. cbn [fst] in Hb. subst r.
  assert (b = false).
  { destruct b; [|reflexivity]. destruct Sb as [Sb _]. destruct (Sb eq_refl) as [_ (Q & [<-|[]] & H)]. specialize (H 1%nat 1%nat ltac:(lia) ltac:(lia)).
    unfold rotate in H. assert (W1 : wf 3 3 t1) by apply pd_t1. rewrite tr_eye, (mmul_eye_l 3 3), (mmul_eye_r 3 3) in H by (exact W1 || lia). unfold t1, t2 in H.
    mat_unfold. rewrite Rabs_left in H by lra. unfold tolerance, SMALL in H. lra. }
  subst b.
  pose proof (C35_first_answer_stays eig false true t1 t2 [] p _ _ _ [] (Some (map RZ CUBIC_LAUE_GROUP)) pd_t1 pd_t2 E1 Pp t12_twinned Ei) as S.
  unfold pair_run in *. cbn [fold_left pair_step] in *. rewrite Ei. exact S.
Qed.
Print Assumptions C35_refuted.

(** Without argument the group consists of the nine rotations by 180 degrees of the cube. *)
Theorem C35_default_group : forall p, isconventional None p = isconventional (Some (firstn 9 (skipn 1 (map RZ CUBIC_LAUE_GROUP)))) p /\
  forall Q, In Q (firstn 9 (skipn 1 (map RZ CUBIC_LAUE_GROUP))) <-> In Q (map RZ CUBIC_LAUE_GROUP) /\ mmul Q Q = eye 3 /\ Q <> eye 3.
Proof.
  intros p. split; [reflexivity|]. intros Q. rewrite skipn_map, firstn_map, !in_map_iff.
  assert (Z : forall M, In M (firstn 9 (skipn 1 CUBIC_LAUE_GROUP)) <-> In M CUBIC_LAUE_GROUP /\ mmul M M = eye 3 /\ M <> eye 3).
  { intros M. split.
    - intros H. repeat (destruct H as [<-|H]; [split; [apply mem_mat_In; vm_compute; reflexivity|split; [reflexivity|discriminate]]|]). destruct H.
    - intros (H & S & N). repeat (destruct H as [<-|H]; [first [now elim N|apply mem_mat_In; vm_compute; reflexivity|discriminate S]|]). destruct H. }
  assert (SQ : forall M, In M CUBIC_LAUE_GROUP -> (mmul (RZ M) (RZ M) = eye 3 <-> mmul M M = eye 3)).
  { intros M _. rewrite <- RZ_mmul, <- RZ_eye. split; [apply RZ_inj|now intros ->]. }
  split.
  - intros (M & <- & H). apply Z in H as (H & S & N). split; [exists M; auto|]. split; [now apply SQ|]. rewrite <- RZ_eye. intros X. apply RZ_inj in X. contradiction.
  - intros ((M & <- & H) & S & N). exists M. split; [reflexivity|]. apply Z. split; [exact H|]. split; [now apply SQ|]. intros ->. apply N. apply RZ_eye.
Qed.
Print Assumptions C35_default_group.
Example C35_case : exists eig p, pair_after eig false false t1 t2 [PAx; PTwinparam] p /\
  is_eig (twin_matrix t1 t2) (eig (twin_matrix t1 t2)) /\ fst (isconventional (Some (map RZ CUBIC_LAUE_GROUP)) p) = Ok true.
Proof.
  destruct (eig_for_pairs [t1; t2]) as (eig & E); [intros X [<-|[<-|[]]]; [apply pd_t1|apply pd_t2]|].
  assert (E1 : is_eig (twin_matrix t1 t2) (eig (twin_matrix t1 t2))) by (apply E; cbn; auto).
  destruct (eigenvalues_exist (twin_matrix t1 t2)) as (l1 & l2 & l3 & EV); [apply twin_posdef; [apply pd_t1|apply pd_t2]|].
  destruct (new_pair_ok eig t1 t2 _ _ _ pd_t1 E1 EV) as (v0 & v1 & v2 & p & _ & Np & _).
  assert (N2 : new_pair eig false t1 t2 = Ok p).
  { revert Np. unfold new_pair. cbn [negb andb]. assert (A : forall U, positive_definite U -> pos_def_sym U = true).
    { intros U PU. apply C32_accepts_partial. exact PU. }
    rewrite (A t1 pd_t1), (A t2 pd_t2). cbn [negb orb]. auto. }
  exists eig, (pair_run eig false [PAx; PTwinparam] p). assert (PA : pair_after eig false false t1 t2 [PAx; PTwinparam] (pair_run eig false [PAx; PTwinparam] p)) by (exists p; auto).
  split; [exact PA|]. split; [exact E1|].
  assert (W : forall Q, In Q (map RZ CUBIC_LAUE_GROUP) -> wf 3 3 Q).
  { intros Q H. apply in_map_iff in H as (M & <- & H). apply wf_RZ, wfb_spec. revert M H. apply forallb_forall. vm_compute. reflexivity. }
  destruct (C35_first_call_partial eig false false t1 t2 _ _ _ pd_t1 pd_t2 E1 W PA) as (b & -> & Sb).
  { intros o [<-|[<-|[]]] []. }
  f_equal. apply Sb. split; [apply t12_twinned|]. exists quarter. split; [apply quarter_in|]. intros i j Hi Hj. rewrite quarter_t12, Rminus_diag_eq by reflexivity. rewrite Rabs_R0. exact small_pos.
Qed.
