(** reduce_hnfs under either meaning of the division sign (C08, C78). *)
From Verif Require Import HnfProofs HnfCanon HnfModel HnfSpec ReduceModel ReduceSpec ReduceProofs PropHnf.
Local Open Scope Z_scope.

Section AnyDivision.
  Variable D : division.
  Hypothesis HD : D = py3 \/ D = py2.
  Variable n : nat.
  Hypothesis Hn : (0 < n)%nat.
  Variable G : list (mat Z).
  Hypothesis HG : matrix_group n G.

  Lemma hnf_H_any M : full_rank n M -> exists H A, hnf_H D n M = Ok H /\ unimodular n A /\ M = mmul H A.
  Proof.
    intros HF. destruct n as [|m]; [lia|].
    assert (K : exists H, hnf_H D (S m) M = Ok H /\ requiv (S m) M H).
    { destruct HD as [-> | ->].
      - destruct (hnf_H_ok py3 (fun d h => - d < h <= 0) py3_floor py3_ceil (fun _ _ _ H => H) m M HF) as (H & E & R & _). eauto.
      - destruct (hnf_H_ok py2 (fun d h => - d < h < d) py2_floor py2_ceil ltac:(cbn; intros; lia) m M HF) as (H & E & R & _). eauto. }
    destruct K as (H & E & R). apply requiv_sym in R; [|lia]. destruct (requiv_unimodular _ _ _ R) as (A & UA & EA). eauto.
  Qed.
  Lemma orbit_hits_any : forall lg h keys, (forall g, In g lg -> In g G) -> is_hnf n h ->
    exists b, orbit_hits D lg h keys = Ok b /\ (b = true -> exists y, In y keys /\ sym_equiv n G h y).
  Proof.
    induction lg as [|g lg IH]; intros h keys Hsub Hh; [exists false; split; [reflexivity|discriminate]|]. cbn [orbit_hits].
    assert (Hg : In g G) by (apply Hsub; now left). rewrite (ncols_prod n Hn G HG) by (auto; apply Hh).
    destruct (hnf_H_any (mmul g h)) as (H & A & E & UA & EA).
    { apply (full_rank_left n Hn); [now apply (group_unimodular n G HG)|]. now apply is_hnf_full_rank. }
    rewrite E. cbn [bind]. destruct (mem_mat H keys) eqn:M.
    - exists true. split; [reflexivity|]. intros _. apply mem_mat_In in M. exists H. split; [exact M|]. exists g, A. auto.
    - apply IH; [|exact Hh]. intros g' Hg'. apply Hsub. now right.
  Qed.
  Lemma reduce_loop_any : forall hnfs keys, (forall h, In h hnfs -> is_hnf n h) ->
    exists r, reduce_loop D G hnfs keys = Ok (keys ++ r) /\ sublist r hnfs /\
      forall h, In h hnfs -> exists y, In y (keys ++ r) /\ sym_equiv n G h y.
  Proof.
    induction hnfs as [|h hs IH]; intros keys Hh; cbn [reduce_loop].
    - exists []. rewrite app_nil_r. split; [reflexivity|]. split; [constructor|intros ? []].
    - assert (Ih : is_hnf n h) by (apply Hh; now left).
      destruct (orbit_hits_any G h keys ltac:(auto) Ih) as (b & E & Hb). rewrite E. cbn [bind].
      assert (Hs : forall h', In h' hs -> is_hnf n h') by (intros; apply Hh; now right).
      assert (R : sym_equiv n G h h) by (apply (sym_equiv_refl n Hn G HG), Ih).
      destruct b; [|destruct (mem_mat h keys) eqn:M].
      + destruct (IH keys Hs) as (r & Er & Sr & Cr). exists r. split; [exact Er|]. split; [now constructor|].
        intros h' [<-|Hh']; [|now apply Cr]. destruct (Hb eq_refl) as (y & Hy & Ey). exists y. split; [apply in_or_app; now left|exact Ey].
      + destruct (IH keys Hs) as (r & Er & Sr & Cr). exists r. split; [exact Er|]. split; [now constructor|].
        intros h' [<-|Hh']; [|now apply Cr]. apply mem_mat_In in M. exists h. split; [apply in_or_app; now left|exact R].
      + destruct (IH (keys ++ [h]) Hs) as (r & Er & Sr & Cr). exists (h :: r). rewrite <- app_assoc in Er, Cr. split; [exact Er|]. split; [now constructor|].
        intros h' [<-|Hh']; [|now apply Cr]. exists h. split; [apply in_or_app; right; now left|exact R].
  Qed.
  Lemma reduce_hnfs_any hnfs : (forall h, In h hnfs -> is_hnf n h) ->
    exists r, reduce_hnfs D hnfs G 3 = Ok r /\ sublist r hnfs /\ forall h, In h hnfs -> exists y, In y r /\ sym_equiv n G h y.
  Proof. intros Hh. unfold reduce_hnfs. cbn [Nat.leb]. exact (reduce_loop_any hnfs [] Hh). Qed.
End AnyDivision.
