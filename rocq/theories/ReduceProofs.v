(** Proofs for C08/C09. *)
From Verif Require Import ReduceModel ReduceSpec HnfSpec HnfEnum HnfProofs HnfCanon.
Local Open Scope Z_scope.

Lemma row_eqb_eq r s : row_eqb r s = true <-> r = s.
Proof.
  unfold row_eqb. rewrite andb_true_iff, Nat.eqb_eq. split.
  - revert s. induction r as [|x r IH]; intros [|y s]; cbn; intros [Hl H]; try discriminate; [reflexivity|].
    apply andb_true_iff in H. destruct H as [H1 H2]. apply Z.eqb_eq in H1. subst.
    f_equal. apply IH. split; [lia|assumption].
  - intros <-. split; [reflexivity|]. induction r; cbn; [reflexivity|]. now rewrite Z.eqb_refl.
Qed.

Lemma mat_eqb_eq M N : mat_eqb M N = true <-> M = N.
Proof.
  unfold mat_eqb. rewrite andb_true_iff, Nat.eqb_eq. split.
  - revert N. induction M as [|x M IH]; intros [|y N]; cbn; intros [Hl H]; try discriminate; [reflexivity|].
    apply andb_true_iff in H. destruct H as [H1 H2]. apply row_eqb_eq in H1. subst.
    f_equal. apply IH. split; [lia|assumption].
  - intros <-. split; [reflexivity|]. induction M as [|r M IH]; cbn; [reflexivity|].
    rewrite IH, andb_true_r. now apply row_eqb_eq.
Qed.

Lemma mem_mat_In M l : mem_mat M l = true <-> In M l.
Proof.
  unfold mem_mat. rewrite existsb_exists. split.
  - intros [N [H1 H2]]. apply mat_eqb_eq in H2. now subst.
  - intros H. exists M. split; [assumption|]. now apply mat_eqb_eq.
Qed.

(** ** Greedy deduplication modulo a boolean relation *)
Section Dedup.
  Context {A : Type} (e : A -> A -> bool).
  (** elements newly kept when [acc] is already there *)
  Fixpoint dd (acc l : list A) : list A :=
    match l with
    | [] => []
    | h :: t => if existsb (e h) acc then dd acc t else h :: dd (acc ++ [h]) t
    end.

  Lemma dd_app acc l1 l2 : dd acc (l1 ++ l2) = dd acc l1 ++ dd (acc ++ dd acc l1) l2.
  Proof.
    revert acc. induction l1 as [|h t IH]; intros acc; cbn [dd app].
    - now rewrite app_nil_r.
    - destruct (existsb (e h) acc); [apply IH|]. rewrite IH. cbn. f_equal.
      now rewrite <- app_assoc.
  Qed.

  Lemma dd_sublist acc l : sublist (dd acc l) l.
  Proof.
    revert acc. induction l as [|h t IH]; intros acc; cbn; [constructor|].
    destruct (existsb (e h) acc); [apply sub_skip|apply sub_keep]; apply IH.
  Qed.

  Lemma sublist_In (l1 l2 : list A) x : sublist l1 l2 -> In x l1 -> In x l2.
  Proof.
    induction 1 as [|y l1 l2 H IH|y l1 l2 H IH]; cbn; [auto| |]; intros Hx.
    - right. auto.
    - destruct Hx; auto.
  Qed.

  Lemma dd_cover acc l x : In x l -> e x x = true -> exists y, In y (acc ++ dd acc l) /\ e x y = true.
  Proof.
    revert acc. induction l as [|h t IH]; intros acc Hx Hr; [destruct Hx|]. cbn [dd]. destruct Hx as [Hx|Hx].
    - subst h. destruct (existsb (e x) acc) eqn:E.
      + apply existsb_exists in E. destruct E as [y [H1 H2]]. exists y. rewrite in_app_iff. auto.
      + exists x. rewrite in_app_iff. split; [right; now left|assumption].
    - destruct (existsb (e h) acc); [now apply IH|].
      destruct (IH (acc ++ [h]) Hx Hr) as [y [H1 H2]]. exists y. split; [|assumption].
      rewrite <- app_assoc in H1. exact H1.
  Qed.

  Lemma dd_later acc l x : In x (dd acc l) -> forall y, In y acc -> e x y = false.
  Proof.
    revert acc. induction l as [|h t IH]; intros acc; cbn [dd]; [intros []|].
    destruct (existsb (e h) acc) eqn:E; [apply IH|].
    intros [<-|Hx] y Hy.
    - destruct (e h y) eqn:F; [|reflexivity].
      rewrite <- E. symmetry. apply existsb_exists. eauto.
    - apply (IH (acc ++ [h])); [assumption|]. rewrite in_app_iff. now left.
  Qed.

  Lemma dd_pairwise acc l i j x y :
    nth_error (dd acc l) i = Some x -> nth_error (dd acc l) j = Some y -> (i < j)%nat -> e y x = false.
  Proof.
    revert acc i j. induction l as [|h t IH]; intros acc i j; cbn [dd]; [destruct i; discriminate|].
    destruct (existsb (e h) acc); [apply IH|]. destruct j as [|j]; [lia|].
    destruct i as [|i]; cbn [nth_error].
    - intros [= <-] Hy _. apply nth_error_In in Hy. apply (dd_later (acc ++ [h]) t); [assumption|].
      rewrite in_app_iff. right. now left.
    - intros Hx Hy Hij. apply (IH (acc ++ [h]) i j); auto. lia.
  Qed.

  Variable P : A -> Prop.
  Hypothesis e_trans : forall x y z, P x -> P y -> P z -> e x y = true -> e y z = true -> e x z = true.

  Lemma dd_dd : forall l B acc,
    (forall x, In x l -> P x) -> (forall x, In x B -> P x) -> (forall x, In x acc -> P x) ->
    (forall x, P x -> e x x = true) ->
    (forall b, In b B -> exists a, In a acc /\ e b a = true) ->
    dd acc (dd B l) = dd acc l.
  Proof.
    induction l as [|h t IH]; intros B acc Pl PB Pa Refl Hcov; cbn [dd]; [reflexivity|].
    assert (Ph : P h) by (apply Pl; now left).
    assert (Pt : forall x, In x t -> P x) by (intros; apply Pl; now right).
    assert (PBh : forall x, In x (B ++ [h]) -> P x).
    { intros x Hx. apply in_app_iff in Hx. destruct Hx as [Hx|[<-|[]]]; auto. }
    assert (Pah : forall x, In x (acc ++ [h]) -> P x).
    { intros x Hx. apply in_app_iff in Hx. destruct Hx as [Hx|[<-|[]]]; auto. }
    destruct (existsb (e h) B) eqn:EB.
    - apply existsb_exists in EB. destruct EB as [b [Hb E1]].
      destruct (Hcov b Hb) as [a [Ha E2]].
      replace (existsb (e h) acc) with true.
      + apply IH; auto.
      + symmetry. apply existsb_exists. exists a. split; [assumption|]. apply (e_trans h b a); auto.
    - cbn [dd]. destruct (existsb (e h) acc) eqn:EA.
      + apply IH; auto. intros b Hb. apply in_app_iff in Hb. destruct Hb as [Hb|[<-|[]]]; [auto|].
        apply existsb_exists in EA. destruct EA as [a [Ha E]]. eauto.
      + f_equal. apply IH; auto. intros b Hb. apply in_app_iff in Hb. destruct Hb as [Hb|[<-|[]]].
        * destruct (Hcov b Hb) as [a [Ha E]]. exists a. rewrite in_app_iff. auto.
        * exists h. rewrite in_app_iff. split; [right; now left|auto].
  Qed.

  Lemma dd_concat chunks : forall acc,
    (forall x, In x (concat chunks) -> P x) -> (forall x, In x acc -> P x) ->
    (forall x, P x -> e x x = true) ->
    dd acc (concat (map (dd []) chunks)) = dd acc (concat chunks).
  Proof.
    induction chunks as [|c cs IH]; intros acc Pc Pa Refl; [reflexivity|]. cbn [map concat].
    cbn [concat] in Pc.
    assert (Pc1 : forall x, In x c -> P x) by (intros; apply Pc, in_app_iff; now left).
    rewrite !dd_app. rewrite (dd_dd c [] acc) by (auto; intros ? []). f_equal.
    apply IH; auto.
    - intros x Hx. apply Pc, in_app_iff. now right.
    - intros x Hx. apply in_app_iff in Hx. destruct Hx as [Hx|Hx]; [auto|].
      apply Pc1. eapply sublist_In; [apply dd_sublist|eassumption].
  Qed.
End Dedup.

(** ** reduce_hnfs is greedy deduplication *)
Section Reduce.
  Variable n : nat.
  Hypothesis Hn : (0 < n)%nat.
  Variable G : list (mat Z).
  Hypothesis HG : matrix_group n G.

  Let G_wf : forall g, In g G -> wf n n g := proj1 HG.

  Lemma group_unimodular g : In g G -> unimodular n g.
  Proof.
    intros Hg. pose proof HG as [Hw [_ [_ Hi]]]. destruct (Hi g Hg) as [h [Hh [E1 E2]]].
    split; [auto|]. exists h. auto.
  Qed.

  Definition Hof (M : mat Z) : mat Z := match hnf_H py3 n M with Ok H => H | _ => [] end.

  Lemma full_rank_left g M : unimodular n g -> full_rank n M -> full_rank n (mmul g M).
  Proof.
    intros [Hg [V [HV [E1 E2]]]] [HM HF].
    split; [now apply (wf_mmul n n n)|]. intros y Hy.
    (* z = y g is zero because z M = 0; then y = z V = 0 *)
    set (z := fun k => sumn n (fun i => y i * get g i k)).
    assert (Hz : forall k, (k < n)%nat -> z k = 0).
    { apply HF. intros j Hj. rewrite <- (Hy j Hj). unfold z.
      rewrite (sumn_ext n _ (fun k => sumn n (fun i => mul (mul (y i) (get g i k)) (get M k j)))).
      2:{ intros k Hk. rewrite sumn_scale_r. reflexivity. }
      rewrite sumn_swap. apply sumn_ext. intros i Hi. rewrite (get_mmul n n n) by assumption.
      change (y i * ?s) with (mul (y i) s).
      rewrite <- (sumn_scale n (y i)). apply sumn_ext. intros k Hk. cbn. ring. }
    intros i Hi.
    assert (E : y i = sumn n (fun k => z k * get V k i)).
    { unfold z.
      rewrite (sumn_ext n _ (fun k => sumn n (fun l => mul (mul (y l) (get g l k)) (get V k i)))).
      2:{ intros k Hk. rewrite sumn_scale_r. reflexivity. }
      rewrite sumn_swap.
      rewrite (sumn_ext n _ (fun l => y l * (if (l =? i)%nat then 1 else 0))).
      - symmetry. now apply sum_delta.
      - intros l Hl.
        assert (Eg : get (mmul g V) l i = if (l =? i)%nat then 1 else 0) by (rewrite E1; now rewrite get_eye).
        rewrite (get_mmul n n n) in Eg by assumption. rewrite <- Eg.
        change (y l * ?s) with (mul (y l) s).
        rewrite <- (sumn_scale n (y l)). apply sumn_ext. intros k Hk. cbn. ring. }
    rewrite E. apply sumZ_zero. intros k Hk. rewrite Hz by assumption. reflexivity.
  Qed.

  Lemma hnf_H_py3 M : full_rank n M ->
    exists H, hnf_H py3 n M = Ok H /\ requiv n M H /\ is_hnf n H.
  Proof.
    intros HF. destruct n as [|m]; [lia|].
    exact (hnf_H_ok py3 (fun d h => - d < h <= 0) py3_floor py3_ceil (fun _ _ _ H => H) m M HF).
  Qed.

  Definition eqvb (h h' : mat Z) : bool := existsb (fun g => mat_eqb (Hof (mmul g h)) h') G.

  Lemma Hof_iff g h h' : In g G -> is_hnf n h -> is_hnf n h' ->
    (Hof (mmul g h) = h' <-> exists A, unimodular n A /\ mmul g h = mmul h' A).
  Proof.
    intros Hg Hh Hh'.
    assert (HF : full_rank n (mmul g h)).
    { apply full_rank_left; [now apply group_unimodular|]. now apply is_hnf_full_rank. }
    destruct (hnf_H_py3 _ HF) as [H [E [R I]]]. unfold Hof. rewrite E. split.
    - intros <-. apply requiv_unimodular. now apply requiv_sym.
    - intros [A [HA EA]]. apply (hnf_unique n); auto.
      apply (requiv_trans n H (mmul g h)); auto using requiv_sym.
      rewrite EA. apply requiv_sym; [assumption|]. apply requiv_mmul; [apply Hh'|assumption].
  Qed.

  Lemma eqvb_spec h h' : is_hnf n h -> is_hnf n h' -> (eqvb h h' = true <-> sym_equiv n G h h').
  Proof.
    intros Hh Hh'. unfold eqvb, sym_equiv. rewrite existsb_exists. split.
    - intros [g [Hg E]]. apply mat_eqb_eq in E. apply Hof_iff in E; auto.
      destruct E as [A [HA E]]. eauto.
    - intros [g [A [Hg [HA E]]]]. exists g. split; [assumption|]. apply mat_eqb_eq.
      apply Hof_iff; eauto.
  Qed.

  Lemma eye_unimodular : unimodular n (eye n).
  Proof. split; [apply wf_eye|]. exists (eye n). rewrite (mmul_eye_r n n) by auto using wf_eye. auto using wf_eye. Qed.

  Lemma unimodular_mul A B : unimodular n A -> unimodular n B -> unimodular n (mmul A B).
  Proof.
    intros [HA [VA [HVA [A1 A2]]]] [HB [VB [HVB [B1 B2]]]].
    split; [now apply (wf_mmul n n n)|]. exists (mmul VB VA).
    split; [now apply (wf_mmul n n n)|]. split.
    - rewrite (mmul_assoc n n n n) by auto using (wf_mmul n n n).
      rewrite <- (mmul_assoc n n n n B) by auto. rewrite B1, (mmul_eye_l n n) by auto. assumption.
    - rewrite (mmul_assoc n n n n) by auto using (wf_mmul n n n).
      rewrite <- (mmul_assoc n n n n VA) by auto. rewrite A2, (mmul_eye_l n n) by auto. assumption.
  Qed.

  Lemma sym_equiv_refl h : wf n n h -> sym_equiv n G h h.
  Proof.
    intros Hh. exists (eye n), (eye n). split; [apply HG|]. split; [apply eye_unimodular|].
    rewrite (mmul_eye_l n n), (mmul_eye_r n n) by assumption. reflexivity.
  Qed.

  Lemma sym_equiv_sym h h' : wf n n h -> wf n n h' -> sym_equiv n G h h' -> sym_equiv n G h' h.
  Proof.
    intros Hh Hh' [g [A [Hg [HA E]]]]. pose proof HG as [_ [_ [_ Hi]]].
    destruct (Hi g Hg) as [g' [Hg' [E1 E2]]]. destruct HA as [HA [V [HV [A1 A2]]]].
    exists g', V. split; [assumption|]. split; [split; [assumption|]; exists A; auto|].
    assert (F : mmul g' (mmul g h) = mmul g' (mmul h' A)) by now rewrite E.
    rewrite <- (mmul_assoc n n n n g') in F by auto. rewrite E2, (mmul_eye_l n n) in F by auto.
    rewrite F. rewrite <- (mmul_assoc n n n n g') by auto.
    rewrite (mmul_assoc n n n n) by auto using (wf_mmul n n n).
    rewrite A1. rewrite (mmul_eye_r n n) by auto using (wf_mmul n n n). reflexivity.
  Qed.

  Lemma sym_equiv_trans h1 h2 h3 : wf n n h1 -> wf n n h2 -> wf n n h3 ->
    sym_equiv n G h1 h2 -> sym_equiv n G h2 h3 -> sym_equiv n G h1 h3.
  Proof.
    intros H1 H2 H3 [g [A [Hg [HA E]]]] [g' [A' [Hg' [HA' E']]]].
    exists (mmul g' g), (mmul A' A). split; [now apply HG|]. split; [now apply unimodular_mul|].
    destruct HA as [HA _], HA' as [HA' _].
    rewrite (mmul_assoc n n n n) by auto. rewrite E.
    rewrite <- (mmul_assoc n n n n g') by auto. rewrite E'.
    now rewrite (mmul_assoc n n n n) by auto.
  Qed.

  Lemma ncols_prod g h : In g G -> wf n n h -> ncols (mmul g h) = n.
  Proof.
    intros Hg Hh. assert (W : wf n n (mmul g h)) by (apply (wf_mmul n n n); auto).
    destruct n; [lia|]. eapply ncols_wf; eassumption.
  Qed.

  Lemma orbit_hits_ok : forall lg h keys, (forall g, In g lg -> In g G) -> is_hnf n h ->
    orbit_hits py3 lg h keys = Ok (existsb (fun g => mem_mat (Hof (mmul g h)) keys) lg).
  Proof.
    induction lg as [|g lg IH]; intros h keys Hsub Hh; [reflexivity|]. cbn [orbit_hits existsb].
    assert (Hg : In g G) by (apply Hsub; now left).
    rewrite ncols_prod by (auto; apply Hh).
    destruct (hnf_H_py3 (mmul g h)) as [H [E [R I]]].
    { apply full_rank_left; [now apply group_unimodular|]. now apply is_hnf_full_rank. }
    unfold Hof at 1. rewrite E. cbn [bind]. destruct (mem_mat H keys); [reflexivity|].
    apply IH; [|assumption]. intros g' Hg'. apply Hsub. now right.
  Qed.

  Lemma existsb_swap {A B} (f : A -> B -> bool) l1 l2 :
    existsb (fun a => existsb (f a) l2) l1 = existsb (fun b => existsb (fun a => f a b) l1) l2.
  Proof.
    apply eq_true_iff_eq. rewrite !existsb_exists. split.
    - intros [a [Ha H]]. apply existsb_exists in H. destruct H as [b [Hb H]].
      exists b. split; [assumption|]. apply existsb_exists. eauto.
    - intros [b [Hb H]]. apply existsb_exists in H. destruct H as [a [Ha H]].
      exists a. split; [assumption|]. apply existsb_exists. eauto.
  Qed.

  Lemma reduce_loop_ok : forall hnfs keys, (forall h, In h hnfs -> is_hnf n h) ->
    reduce_loop py3 G hnfs keys = Ok (keys ++ dd eqvb keys hnfs).
  Proof.
    induction hnfs as [|h hs IH]; intros keys Hh; cbn [reduce_loop dd].
    - now rewrite app_nil_r.
    - assert (Ih : is_hnf n h) by (apply Hh; now left).
      rewrite orbit_hits_ok by auto. cbn [bind].
      replace (existsb (fun g => mem_mat (Hof (mmul g h)) keys) G) with (existsb (eqvb h) keys)
        by (unfold eqvb, mem_mat; symmetry; apply existsb_swap).
      destruct (existsb (eqvb h) keys) eqn:E.
      + apply IH. intros; apply Hh; now right.
      + replace (mem_mat h keys) with false.
        * rewrite IH by (intros; apply Hh; now right). now rewrite <- app_assoc.
        * destruct (mem_mat h keys) eqn:F; [|reflexivity]. apply mem_mat_In in F.
          rewrite <- E. apply existsb_exists. exists h. split; [assumption|].
          apply eqvb_spec; auto. apply sym_equiv_refl, Ih.
  Qed.

  Lemma reduce_hnfs_ok hnfs : (forall h, In h hnfs -> is_hnf n h) ->
    reduce_hnfs py3 hnfs G 3 = Ok (dd eqvb [] hnfs).
  Proof. intros Hh. unfold reduce_hnfs. cbn [Nat.leb]. now rewrite reduce_loop_ok. Qed.

  Lemma dd_transversal hnfs : (forall h, In h hnfs -> is_hnf n h) ->
    transversal (sym_equiv n G) hnfs (dd eqvb [] hnfs).
  Proof.
    intros Hh. assert (Hsub := dd_sublist eqvb [] hnfs). split; [assumption|]. split.
    - intros x Hx. destruct (dd_cover eqvb [] hnfs x Hx) as [y [Hy E]].
      + apply eqvb_spec; auto. apply sym_equiv_refl. now apply Hh.
      + exists y. split; [assumption|]. apply eqvb_spec; auto. apply Hh.
        eapply sublist_In; eassumption.
    - intros i j x y Hi Hj Hne HE.
      assert (Hx : is_hnf n x) by (apply Hh; eapply sublist_In; [eassumption|eapply nth_error_In; eassumption]).
      assert (Hy : is_hnf n y) by (apply Hh; eapply sublist_In; [eassumption|eapply nth_error_In; eassumption]).
      destruct (Nat.lt_ge_cases i j).
      + assert (E : eqvb y x = false) by (eapply dd_pairwise; eassumption).
        assert (eqvb y x = true); [|congruence]. apply eqvb_spec; auto.
        apply sym_equiv_sym; auto; [apply Hx|apply Hy].
      + assert (E : eqvb x y = false) by (eapply (dd_pairwise _ _ _ j i); [eassumption|eassumption|lia]).
        assert (eqvb x y = true); [|congruence]. now apply eqvb_spec.
  Qed.

  Lemma reduce_hnfs_transversal hnfs : (forall h, In h hnfs -> is_hnf n h) ->
    exists r, reduce_hnfs py3 hnfs G 3 = Ok r /\ transversal (sym_equiv n G) hnfs r.
  Proof. intros Hh. exists (dd eqvb [] hnfs). split; [now apply reduce_hnfs_ok|now apply dd_transversal]. Qed.

  Lemma mapM_reduce chunks : (forall h, In h (concat chunks) -> is_hnf n h) ->
    mapM (fun c => reduce_hnfs py3 c G 3) chunks = Ok (map (dd eqvb []) chunks).
  Proof.
    induction chunks as [|c cs IH]; intros Hh; cbn [mapM map]; [reflexivity|]. cbn [concat] in Hh.
    rewrite reduce_hnfs_ok by (intros; apply Hh, in_app_iff; now left). cbn [bind].
    rewrite IH by (intros; apply Hh, in_app_iff; now right). reflexivity.
  Qed.

  Lemma chunked_reduction chunks : (forall h, In h (concat chunks) -> is_hnf n h) ->
    (let* rs := mapM (fun c => reduce_hnfs py3 c G 3) chunks in reduce_hnfs py3 (concat rs) G 3)
    = reduce_hnfs py3 (concat chunks) G 3.
  Proof.
    intros Hh. rewrite mapM_reduce by assumption. cbn [bind].
    rewrite !reduce_hnfs_ok; auto.
    - f_equal. apply dd_concat with (P := is_hnf n); auto.
      + intros x y z Hx Hy Hz E1 E2. apply eqvb_spec in E1; auto. apply eqvb_spec in E2; auto.
        apply eqvb_spec; auto. apply (sym_equiv_trans x y z); auto; [apply Hx|apply Hy|apply Hz].
      + intros ? [].
      + intros x Hx. apply eqvb_spec; auto. apply sym_equiv_refl, Hx.
    - intros h Hin. apply Hh. apply in_concat in Hin. destruct Hin as [c [Hc Hin]].
      apply in_map_iff in Hc. destruct Hc as [c0 [<- Hc0]].
      apply in_concat. exists c0. split; [assumption|].
      eapply sublist_In; [apply dd_sublist|eassumption].
  Qed.
End Reduce.

(** ** divide_work *)
Lemma skipn_skipn' {A} (a b : nat) (l : list A) : skipn a (skipn b l) = skipn (a + b) l.
Proof.
  revert l. induction b as [|b IH]; intros l; [now rewrite Nat.add_0_r|].
  rewrite Nat.add_succ_r. destruct l; [now rewrite !skipn_nil|]. cbn [skipn]. apply IH.
Qed.

Lemma chunk_aux {A} size : (0 < size)%nat -> forall k g (W : list A),
  (length W <= k * size)%nat ->
  concat (map (fun i => firstn (min ((g + i + 1) * size) (g * size + length W) - (g + i) * size)
                               (skipn (i * size) W)) (seq 0 k)) = W.
Proof.
  intros Hs k. induction k as [|k IH]; intros g W Hl.
  - destruct W; [reflexivity|cbn in Hl; lia].
  - cbn [seq map concat]. rewrite <- seq_shift, map_map.
    replace (g + 0)%nat with g by lia. cbn [Nat.mul skipn].
    rewrite <- (firstn_skipn size W) at 3. f_equal.
    + replace (min ((g + 1) * size) (g * size + length W) - g * size)%nat with (min size (length W)) by nia.
      rewrite <- firstn_firstn. now rewrite firstn_all.
    + rewrite <- (IH (S g) (skipn size W)) at 1.
      * f_equal. apply map_ext. intros i. rewrite skipn_skipn'.
        replace (i * size + size)%nat with (S i * size)%nat by lia.
        rewrite skipn_length.
        destruct (Nat.le_gt_cases size (length W)).
        -- f_equal. replace (g + S i)%nat with (S g + i)%nat by lia.
           replace (g * size + length W)%nat with (S g * size + (length W - size))%nat by nia. reflexivity.
        -- rewrite !(skipn_all2 W) by (cbn [Nat.mul]; lia). now rewrite !firstn_nil.
      * rewrite skipn_length. nia.
Qed.

Lemma divide_work_concat {A} (W : list A) size : (0 < size)%nat ->
  exists gs, divide_work W size = Ok gs /\ concat gs = W /\
    forall g, In g gs -> (0 < length g <= size)%nat.
Proof.
  intros Hs. unfold divide_work. destruct size as [|s]; [lia|]. set (size := S s) in *.
  eexists. split; [reflexivity|].
  set (k := ((length W + size - 1) / size)%nat).
  assert (Hk : (length W <= k * size)%nat).
  { pose proof (Nat.div_mod (length W + size - 1) size ltac:(lia)) as E. fold k in E.
    pose proof (Nat.mod_upper_bound (length W + size - 1) size ltac:(lia)). nia. }
  assert (Hk2 : forall i, (i < k)%nat -> (i * size < length W)%nat).
  { intros i Hi. pose proof (Nat.div_mod (length W + size - 1) size ltac:(lia)) as E. fold k in E. nia. }
  split.
  - exact (chunk_aux size Hs k 0 W Hk).
  - intros g Hg. apply in_map_iff in Hg. destruct Hg as [i [<- Hi]]. apply in_seq in Hi.
    specialize (Hk2 i ltac:(lia)).
    rewrite firstn_length, skipn_length.
    rewrite Nat.mul_add_distr_r. lia.
Qed.

Lemma mapM_map {A B C} (f : B -> res C) (g : A -> B) l : mapM f (map g l) = mapM (fun x => f (g x)) l.
Proof. induction l as [|x l IH]; cbn; [reflexivity|]. now rewrite IH. Qed.

Lemma chunk_size_pos p len : (0 < p)%nat -> (p * 20 < len)%nat -> (0 < (len + p - 1) / p)%nat.
Proof. intros Hp Hl. apply Nat.div_str_pos. lia. Qed.

(** With workers that supply the third tuple element, the parallel path returns the
    very list the serial path returns. *)
Lemma reduce_parallel_serial n G : (0 < n)%nat -> matrix_group n G -> forall p hnfs, (0 < p)%nat ->
  (forall h, In h hnfs -> is_hnf n h) ->
  reduce_parallel py3 (mapM (fun a => reduce_hnfs py3 (fst a) (snd a) 3)) p hnfs G
  = reduce_hnfs py3 hnfs G 3.
Proof.
  intros Hn HG p hnfs Hp Hh. unfold reduce_parallel.
  destruct (Nat.ltb_spec (p * 20) (length hnfs)) as [Hl|Hl]; [|reflexivity].
  destruct (divide_work_concat hnfs ((length hnfs + p - 1) / p)) as [gs [E [Ec _]]].
  { now apply chunk_size_pos. }
  rewrite E. cbn [bind]. rewrite mapM_map. cbn [fst snd].
  rewrite <- Ec. rewrite <- (chunked_reduction n Hn G HG gs) by (now rewrite Ec).
  destruct (mapM _ gs); reflexivity.
Qed.

(** As written, a worker that is reduce_hnfs itself receives 2-tuples. *)
Lemma reduce_parallel_raises p hnfs lg : (0 < p)%nat -> (p * 20 < length hnfs)%nat ->
  reduce_parallel py3 (mapM (fun a => reduce_hnfs py3 (fst a) (snd a) 2)) p hnfs lg = Raise IndexError.
Proof.
  intros Hp Hl. unfold reduce_parallel. apply Nat.ltb_lt in Hl as Hl'. rewrite Hl'.
  destruct (divide_work_concat hnfs ((length hnfs + p - 1) / p)) as [gs [E [Ec _]]].
  { now apply chunk_size_pos. }
  rewrite E. cbn [bind]. rewrite mapM_map. destruct gs as [|g gs]; [|reflexivity].
  cbn in Ec. subst hnfs. cbn in Hl. lia.
Qed.
