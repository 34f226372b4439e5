(** Property C92: SLNode.is_min.  Specification: TreeSpec.v (local_min, neighbour); model: IsMinModel.v, TreeModel.v. *)
From Coq Require Import Lra.
From Verif Require Import LinAlg ReduceProofs DirectProofs TreeSpec TreeProofs TreeDfs IsMinModel.
Local Open Scope R_scope.

Lemma mapM_total {A B} (f : A -> res B) (g : A -> B) l : (forall x, In x l -> f x = Ok (g x)) -> mapM f l = Ok (map g l).
Proof.
  induction l as [|x l IH]; intros H; [reflexivity|]. cbn. rewrite H by (now left). cbn. rewrite IH by (intros; apply H; now right). reflexivity.
Qed.

Lemma is_min_eq dist nd : wf 3 3 (elem nd) ->
  is_min dist nd = Ok (forallb (fun d => Rleb (dist (elem nd)) d) (map (fun t => dist (mmul (elem nd) t)) T_)).
Proof.
  intros W. unfold is_min. rewrite (mapM_total _ (fun t => dist (mmul (elem nd) t))); [reflexivity|].
  intros t Ht. destruct (In_nth _ _ (eye 3) Ht) as (i & Hi & <-). rewrite np_dot_3 by (try exact W; apply wf_T; exact Hi). reflexivity.
Qed.

(** For every distance function and every matrix: is_min tells whether no matrix one shear away is closer, and agrees with
    steepest_des, which finds no way down exactly there. *)
Theorem C92_is_min : forall dist nd, wf 3 3 (elem nd) ->
  exists b, is_min dist nd = Ok b /\ (b = true <-> local_min dist (elem nd)) /\ (b = true <-> steepest_des dist nd = Ok None).
Proof.
  intros dist nd W. rewrite is_min_eq by exact W.
  eexists. split; [reflexivity|].
  assert (K : forallb (fun d => Rleb (dist (elem nd)) d) (map (fun t => dist (mmul (elem nd) t)) T_) = true <-> local_min dist (elem nd)).
  { rewrite forallb_forall. split.
    - intros H E HE. apply neighbour_iff in HE. destruct HE as (i & Hi & ->). apply Rleb_spec. apply H.
      apply (in_map (fun t => dist (mmul (elem nd) t))). apply nth_In. exact Hi.
    - intros H d Hd. apply in_map_iff in Hd. destruct Hd as (t & <- & Ht). destruct (In_nth _ _ (eye 3) Ht) as (i & Hi & <-).
      apply Rleb_spec. apply H. apply neighbour_iff. exists i. split; [exact Hi|reflexivity]. }
  split; [exact K|]. rewrite K. destruct (steepest_ok dist nd W) as [[E L]|(i & Hi & E & Lt & _)].
  - tauto.
  - split; [|congruence]. intros L. exfalso. specialize (L (step_in (elem nd) i)).
    assert (neighbour (elem nd) (step_in (elem nd) i)) as X by (apply neighbour_iff; exists i; split; [exact Hi|reflexivity]). specialize (L X). lra.
Qed.
Print Assumptions C92_is_min.
(** the sum of the squares of the entries: the identity is a local minimum, a shear is not *)
Definition size2 (E : mat Z) : R := IZR (fold_right (fun r s => fold_right (fun x s => x * x + s) s r)%Z 0%Z E).
Example C92_case : is_min size2 (Node (eye 3) None None) = Ok true /\ is_min size2 (Node [[1;1;0];[0;1;0];[0;0;1]]%Z None None) = Ok false.
Proof.
  rewrite !is_min_eq by (now apply wfb_spec). cbn [elem]. split; f_equal.
  - apply forallb_forall. intros d Hd. apply in_map_iff in Hd. destruct Hd as (t & <- & Ht). apply Rleb_spec.
    unfold T_ in Ht. cbn in Ht. repeat (destruct Ht as [<-|Ht]; [apply IZR_le; vm_compute; discriminate|]). destruct Ht.
  - apply not_true_iff_false. rewrite forallb_forall. intros H.
    specialize (H (size2 (mmul [[1;1;0];[0;1;0];[0;0;1]]%Z (shear 0 1 (-1))))). rewrite Rleb_spec in H.
    assert (X : In (shear 0 1 (-1)) T_) by (destruct (shear_T 0 1 (-1)) as (i & Hi & <-); try lia; apply nth_In; exact Hi).
    specialize (H (in_map (fun t => size2 (mmul _ t)) _ _ X)). apply le_IZR in H. vm_compute in H. apply H. reflexivity.
Qed.
