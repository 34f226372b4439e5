From Coq Require Import Permutation Sorted.
From Verif Require Import LinAlg Eig Spectral GroupModel OutputModel.
Local Open Scope R_scope.

Lemma insert_R_perm x l : Permutation (insert_R x l) (x :: l).
Proof.
  induction l as [|y l IH]; cbn; [reflexivity|]. destruct (Rleb x y); [reflexivity|].
  rewrite IH. apply perm_swap.
Qed.
Lemma sort_R_perm l : Permutation (sort_R l) l.
Proof. induction l as [|x l IH]; cbn; [reflexivity|]. rewrite insert_R_perm. now constructor. Qed.
Lemma insert_R_sorted x l : StronglySorted Rle l -> StronglySorted Rle (insert_R x l).
Proof.
  induction l as [|y l IH]; intros H; cbn; [repeat constructor|]. destruct (Rleb x y) eqn:E.
  - apply Rleb_spec in E. constructor; [exact H|]. inversion H as [|? ? H1 H2]; subst. constructor; [exact E|].
    eapply Forall_impl; [|exact H2]. cbn. intros; lra.
  - apply Rleb_false in E. inversion H as [|? ? H1 H2]; subst. constructor; [now apply IH|].
    apply (Permutation_Forall (Permutation_sym (insert_R_perm x l))). constructor; [lra|exact H2].
Qed.
Lemma sort_R_sorted l : StronglySorted Rle (sort_R l).
Proof. induction l as [|x l IH]; cbn; [constructor|]. now apply insert_R_sorted. Qed.

Section Report.
  Variable n : nat.
  Hypothesis Hd : dim23 n.
  Let Hn : (0 < n)%nat := dim23_pos n Hd.
  Variables EA EM CA CM : mat R.
  Hypotheses (WEA : wf n n EA) (WEM : wf n n EM) (WCA : wf n n CA) (WCM : wf n n CM).
  Hypotheses (DEA : det EA <> 0) (DEM : det EM <> 0) (DCA : det CA <> 0).
  Variable eig : mat R -> list R * mat R.

  Theorem report_ok : forall l hl, wf n n hl -> det hl <> 0 ->
    (forall F, mmul F (mmul EA hl) = EM -> wf n n F ->
      eigen n (mmul (tr F) F) (fst (eig (mmul (tr F) F))) (snd (eig (mmul (tr F) F)))) ->
    exists o, report EA EM CA CM eig l hl = Ok o /\ o_l o = l /\ wf n n (o_F o) /\ wf n n (o_u o) /\
      mmul (o_F o) (mmul EA hl) = EM /\
      symmetric (o_u o) /\ mmul (o_u o) (o_u o) = mmul (tr (o_F o)) (o_F o) /\ posdef n (o_u o) /\
      StronglySorted Rle (o_lams o) /\ (exists mu V, eigen n (o_u o) mu V /\ Permutation (o_lams o) mu) /\
      mmul (mmul EA CA) (o_cor o) = mmul (mmul EA hl) CM.
  Proof.
    intros l hl Whl Dhl Heig. unfold report.
    assert (WE : wf n n (mmul EA hl)) by (apply (wf_mmul n n n); auto).
    assert (DE : det (mmul EA hl) <> 0) by (rewrite (det_mmul n) by auto; apply Rmult_integral_contrapositive_currified; auto).
    rewrite (inv_Ok n CA), (inv_Ok n (mmul EA hl)) by auto. cbn [bind].
    pose proof (wf_minv n CA Hd WCA) as WCi. pose proof (wf_minv n _ Hd WE) as WEi.
    set (F := mmul EM (minv (mmul EA hl))).
    assert (WF : wf n n F) by (apply (wf_mmul n n n); auto).
    assert (EF : mmul F (mmul EA hl) = EM).
    { unfold F. rewrite (mmul_assoc n n n n), (minv_l n), (mmul_eye_r n n) by auto. reflexivity. }
    assert (DF : det F <> 0).
    { intros Z. apply DEM. rewrite <- EF, (det_mmul n), Z by auto. ring. }
    specialize (Heig F EF WF). set (C := mmul (tr F) F) in *. destruct (eig C) as [lam V]. cbn [fst snd] in Heig.
    pose proof Heig as (WC & WV & Hl & DV & EV). rewrite (inv_Ok n V) by auto. cbn [bind].
    assert (CP : posdef n C) by (apply gram_posdef; auto).
    assert (CS : symmetric C) by (apply (gram_sym n); auto).
    assert (LP : forall i, (i < n)%nat -> 0 < nth i lam 0) by (intros i Hi; eapply (eig_pos n Hd C lam V Heig); auto).
    change (mmul (mmul V (diag (map sqrt lam))) (minv V)) with (matfun V lam sqrt).
    assert (WU : wf n n (matfun V lam sqrt)) by (eapply wf_matfun; eauto).
    eexists; split; [reflexivity|]. cbn [o_l o_F o_u o_lams o_cor].
    repeat match goal with |- _ /\ _ => split end.
    - reflexivity.
    - exact WF.
    - exact WU.
    - exact EF.
    - eapply matfun_sym; eauto.
    - change (mmul (tr F) F) with C. rewrite (matfun_mul n Hd C lam V Heig). rewrite <- (matfun_id n Hd C lam V Heig).
      eapply matfun_ext; eauto. intros i Hi. apply sqrt_sqrt, Rlt_le, LP, Hi.
    - set (S := matfun V lam (fun x => sqrt (sqrt x))).
      assert (WS : wf n n S) by (eapply wf_matfun; eauto).
      assert (SS : tr S = S) by (eapply matfun_sym; eauto).
      assert (E : matfun V lam sqrt = mmul (tr S) S).
      { rewrite SS. unfold S. rewrite (matfun_mul n Hd C lam V Heig). eapply matfun_ext; eauto.
        intros i Hi. symmetry. apply sqrt_sqrt, sqrt_pos. }
      rewrite E. apply gram_posdef; auto. intros Z.
      assert (E2 : det C = det S * det S * (det S * det S)).
      { rewrite <- !(det_mmul n) by (auto; apply (wf_mmul n n n); auto). f_equal.
        rewrite <- (matfun_id n Hd C lam V Heig). unfold S. rewrite !(matfun_mul n Hd C lam V Heig).
        eapply matfun_ext; eauto. intros i Hi. pose proof (LP i Hi).
        rewrite sqrt_sqrt by apply sqrt_pos. rewrite sqrt_sqrt by lra. reflexivity. }
      rewrite Z in E2. unfold C in E2. rewrite (det_mmul n), (det_tr n) in E2 by auto using wf_tr'.
      apply DF. nra.
    - apply sort_R_sorted.
    - assert (eigen n (matfun V lam sqrt) (map sqrt lam) V) as E1.
      { apply eigen_of_form; auto. now rewrite map_length. }
      exists (map sqrt lam), V. split; [exact E1|apply sort_R_perm].
    - rewrite <- (mmul_assoc n n n n (mmul EA CA)) by (auto; apply (wf_mmul n n n); auto).
      f_equal. rewrite (mmul_assoc n n n n EA) by (auto; apply (wf_mmul n n n); auto).
      f_equal. rewrite <- (mmul_assoc n n n n), (minv_r n), (mmul_eye_l n n) by auto. reflexivity.
  Qed.
End Report.

Lemma pick_positive_spec n l eqls :
  (exists e, In e eqls /\ (0 < det (reshape n e))%Z) ->
  exists e, In e eqls /\ pick_positive n l eqls = reshape n e /\ (0 < det (reshape n e))%Z.
Proof.
  induction eqls as [|e eqls IH]; intros (x & Hx & Dx); [destruct Hx|]. cbn [pick_positive]. cbv zeta.
  destruct (Z.ltb_spec 0 (det (reshape n e))).
  - exists e. split; [now left|]. now split.
  - destruct Hx as [->|Hx]; [lia|]. destruct IH as (e' & H1 & H2 & H3); [eauto|]. exists e'. split; [now right|]. now split.
Qed.
Lemma pick_positive_none n l eqls : (forall e, In e eqls -> (det (reshape n e) <= 0)%Z) -> pick_positive n l eqls = l.
Proof.
  induction eqls as [|e eqls IH]; intros H; cbn [pick_positive]; cbv zeta; [reflexivity|].
  destruct (Z.ltb_spec 0 (det (reshape n e))); [pose proof (H e (or_introl eq_refl)); lia|].
  apply IH. intros; apply H; now right.
Qed.
