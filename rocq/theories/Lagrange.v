(** Counting in finite groups given as duplicate-free lists. *)
From Coq Require Import List Arith Lia.
Import ListNotations.

Lemma filter_partition {A} (p : A -> bool) l :
  length l = length (filter p l) + length (filter (fun x => negb (p x)) l).
Proof. induction l as [|x l IH]; cbn; [reflexivity|]. destruct (p x); cbn; lia. Qed.

Section Count.
  Context {A : Type} (dec : forall x y : A, {x = y} + {x <> y}).

  Definition memb (l : list A) (x : A) : bool := if in_dec dec x l then true else false.
  Lemma memb_spec l x : memb l x = true <-> In x l.
  Proof. unfold memb. destruct (in_dec dec x l); split; intros; auto; discriminate. Qed.

  Lemma filter_mem_length C l : NoDup C -> NoDup l -> incl C l -> length (filter (memb C) l) = length C.
  Proof.
    intros HC Hl Hi. apply Nat.le_antisymm.
    - apply NoDup_incl_length; [now apply NoDup_filter|].
      intros x Hx. apply filter_In in Hx. now apply memb_spec.
    - apply NoDup_incl_length; [assumption|].
      intros x Hx. apply filter_In. split; [auto|now apply memb_spec].
  Qed.

  Lemma remove_length C l : NoDup C -> NoDup l -> incl C l ->
    length l = length C + length (filter (fun x => negb (memb C x)) l).
  Proof. intros. rewrite <- (filter_mem_length C l) by assumption. apply filter_partition. Qed.

  Lemma NoDup_map_inj_in {B} (f : A -> B) l :
    (forall x y, In x l -> In y l -> f x = f y -> x = y) -> NoDup l -> NoDup (map f l).
  Proof.
    intros Hf Hl. induction Hl as [|x l Hx Hl IH]; cbn; constructor.
    - intros Hin. apply in_map_iff in Hin. destruct Hin as [y [E Hy]].
      apply Hx. rewrite (Hf x y); cbn; auto.
    - apply IH. intros y z Hy Hz. apply Hf; now right.
  Qed.
End Count.

Section Lagrange.
  Context {A : Type} (dec : forall x y : A, {x = y} + {x <> y}).
  Variable op : A -> A -> A.
  Variables (G H : list A).
  Hypothesis HG : NoDup G.
  Hypothesis HH : NoDup H.
  Hypothesis assoc : forall x y z, In x G -> In y G -> In z G -> op x (op y z) = op (op x y) z.
  Hypothesis closedG : forall x y, In x G -> In y G -> In (op x y) G.
  Hypothesis cancel : forall x y z, In x G -> In y G -> In z G -> op x y = op x z -> y = z.
  Hypothesis sub : incl H G.
  Hypothesis closedH : forall x y, In x H -> In y H -> In (op x y) H.
  Variable e : A.
  Hypothesis He : In e H.
  Hypothesis e_r : forall x, In x G -> op x e = x.
  Hypothesis invH : forall h, In h H -> exists h', In h' H /\ op h h' = e.

  Lemma lagrange_aux : forall k rest, length rest <= k -> NoDup rest -> incl rest G ->
    (forall x h, In x rest -> In h H -> In (op x h) rest) ->
    Nat.divide (length H) (length rest).
  Proof.
    induction k as [|k IH]; intros rest Hk Hnd Hsub Hcl.
    - destruct rest; [|cbn in Hk; lia]. apply Nat.divide_0_r.
    - destruct rest as [|x r] eqn:Er; [apply Nat.divide_0_r|]. rewrite <- Er in *.
      assert (Hx : In x rest) by (rewrite Er; now left).
      set (C := map (op x) H).
      assert (HC : NoDup C).
      { apply NoDup_map_inj_in; [|assumption]. intros y z Hy Hz. apply cancel; auto. }
      assert (HCi : incl C rest).
      { intros y Hy. apply in_map_iff in Hy. destruct Hy as [h [<- Hh]]. auto. }
      rewrite (remove_length dec C rest HC Hnd HCi).
      assert (HlC : length C = length H) by apply map_length.
      assert (HlH : 0 < length H) by (destruct H; [destruct He|cbn; lia]).
      apply Nat.divide_add_r; [rewrite HlC; apply Nat.divide_refl|].
      pose proof (remove_length dec C rest HC Hnd HCi) as El.
      apply IH; [lia|now apply NoDup_filter| |].
      + intros y Hy. apply filter_In in Hy. apply Hsub, Hy.
      + intros y h Hy Hh. apply filter_In in Hy. destruct Hy as [Hy Hn].
        apply filter_In. split; [auto|]. apply Bool.negb_true_iff. apply Bool.negb_true_iff in Hn.
        destruct (memb dec C (op y h)) eqn:F; [|reflexivity]. rewrite <- Hn. symmetry.
        apply memb_spec. apply memb_spec in F. apply in_map_iff in F. destruct F as [h' [E Hh']].
        destruct (invH h Hh) as [i [Hi Ei]]. apply in_map_iff. exists (op h' i). split; [|auto].
        rewrite assoc by auto. rewrite E, <- assoc by auto. rewrite Ei. auto.
  Qed.

  Lemma lagrange : Nat.divide (length H) (length G).
  Proof. apply (lagrange_aux (length G)); auto; intros x Hx; auto. Qed.
End Lagrange.
