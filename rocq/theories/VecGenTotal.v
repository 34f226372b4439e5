(** The vector generator always finishes, from any checkpoint. *)
From Verif Require Import RMat VecGenModel VecGenSpec VecGenProofs.
Local Open Scope Z_scope.

Definition enough (m : Z) (k : nat) (f : Z) : Prop :=
  (0 <= f -> Z.sqrt m + 1 - f <= Z.of_nat k) /\ (f < 0 -> Z.sqrt m + 2 <= Z.of_nat k).

Lemma enough_next m k f : 0 <= m -> enough m (S k) f -> enough m k (Z.abs f + 1).
Proof. intros Hm [H1 H2]. pose proof (Z.sqrt_nonneg m). split; intros; lia. Qed.

Lemma loop1_total m : 0 <= m -> forall k f, enough m k f ->
  exists l, loop1 Z leZ k m f = Ok l /\ Forall (fun v => length v = 1%nat) l.
Proof.
  intros Hm. induction k as [|k IH]; intros f H.
  - unfold loop1. destruct (leZ f m) eqn:E; [|eauto]. unfold leZ in E. apply Z.leb_le in E.
    pose proof (Z.sqrt_nonneg m). destruct H. lia.
  - cbn [loop1]. destruct (leZ f m) eqn:E; [|eauto].
    destruct (IH (Z.abs f + 1) (enough_next m k f Hm H)) as (l & -> & Hl). cbn [bind].
    eexists. split; [reflexivity|]. constructor; [reflexivity|]. apply Forall_app. split; [|exact Hl].
    destruct (0 <? f); repeat constructor.
Qed.

Lemma loopN_total m d (sub : Z -> option (list Z) -> res (list (list Z))) : 0 <= m ->
  (forall m' x, 0 <= m' -> match x with None => True | Some x => length x = d end ->
     exists l, sub m' x = Ok l /\ Forall (fun v => length v = d) l) ->
  forall k f xs, enough m k f -> match xs with None => True | Some x => length x = d end ->
  exists l, loopN Z leZ shrinkZ sub k m f xs = Ok l /\ Forall (fun v => length v = S d) l.
Proof.
  intros Hm Hsub. induction k as [|k IH]; intros f xs H Hxs.
  - unfold loopN. destruct (leZ f m) eqn:E; [|eauto]. unfold leZ in E. apply Z.leb_le in E.
    pose proof (Z.sqrt_nonneg m). destruct H. lia.
  - cbn [loopN]. destruct (leZ f m) eqn:E; [|eauto].
    destruct (Hsub (shrinkZ m f) xs ltac:(unfold shrinkZ; lia) Hxs) as (a & -> & Ha). cbn [bind].
    destruct (IH (Z.abs f + 1) None (enough_next m k f Hm H) ltac:(constructor)) as (l & El & Hl).
    assert (Hmap : forall c, Forall (fun v => length v = S d) (map (cons c) a)).
    { intros c. apply Forall_forall. intros v Hv. apply in_map_iff in Hv. destruct Hv as (w & <- & Hw).
      rewrite Forall_forall in Ha. cbn. f_equal. auto. }
    destruct (0 <? f); cbn [bind]; rewrite El; cbn [bind]; eexists; (split; [reflexivity|]);
      rewrite !Forall_app; auto.
Qed.

Lemma gen_sq_total : forall d m x, 0 <= m -> (0 < d)%nat ->
  match x with None => True | Some x => length x = d end ->
  exists l, vec_generator_sq m d x = Ok l /\ Forall (fun v => length v = d) l.
Proof.
  induction d as [|d IH]; intros m x Hm Hd Hx; [lia|].
  unfold vec_generator_sq. cbn [vec_gen].
  set (y := match x with None => repeat 0 (S d) | Some x => x end).
  assert (Hy : length y = S d) by (unfold y; destruct x; [exact Hx|apply repeat_length]).
  destruct y as [|f0 xs]; [discriminate|]. cbn in Hy. injection Hy as Hy.
  assert (E : enough m (fuel Z Z.sqrt m) f0).
  { unfold fuel. pose proof (Z.sqrt_nonneg m). split; intros; lia. }
  destruct d as [|d]; [now apply loop1_total|].
  apply (loopN_total m (S d) (fun m' x => vec_gen Z leZ shrinkZ Z.sqrt (S d) m' x)); auto.
  intros m' x' Hm' Hx'. apply IH; [exact Hm'|lia|exact Hx'].
Qed.

Lemma gen_total r d x : (0 <= r)%R -> (0 < d)%nat ->
  match x with None => True | Some x => length x = d end ->
  exists l, vec_generator r d x = Ok l /\ Forall (fun v => length v = d) l.
Proof.
  intros Hr Hd Hx. rewrite (vec_gen_rel d r _ x (rel_floor r Hr)).
  apply gen_sq_total; auto. eapply rel_nonneg. apply rel_floor. exact Hr.
Qed.
