(** Burnside's lemma for lists: counting orbits by fixed points. *)
From Coq Require Import List Arith Lia Permutation.
Import ListNotations.

Lemma sum_ext {A} (f g : A -> nat) l : (forall x, In x l -> f x = g x) -> list_sum (map f l) = list_sum (map g l).
Proof. induction l as [|a l IH]; intros H; [reflexivity|]. cbn. unfold list_sum in IH. rewrite (H a), IH; cbn; auto. intros; apply H; cbn; auto. Qed.
Lemma sum_plus {A} (f g : A -> nat) l : list_sum (map (fun x => f x + g x) l) = list_sum (map f l) + list_sum (map g l).
Proof. induction l as [|a l IH]; [reflexivity|]. cbn. unfold list_sum in IH. rewrite IH. lia. Qed.
Lemma sum_zero {A} (f : A -> nat) l : (forall x, In x l -> f x = 0) -> list_sum (map f l) = 0.
Proof. intros H. rewrite (sum_ext f (fun _ => 0)) by exact H. induction l as [|a l IH]; [reflexivity|]. cbn. apply IH. intros; apply H; cbn; auto. Qed.
Lemma sum_swap {A B} (f : A -> B -> nat) l m : list_sum (map (fun x => list_sum (map (f x) m)) l) = list_sum (map (fun y => list_sum (map (fun x => f x y) l)) m).
Proof.
  induction l as [|a l IH]; cbn [map].
  - symmetry. apply sum_zero. reflexivity.
  - change (list_sum (map (f a) m) + list_sum (map (fun x => list_sum (map (f x) m)) l) = list_sum (map (fun y => f a y + list_sum (map (fun x => f x y) l)) m)).
    rewrite IH. symmetry. apply sum_plus.
Qed.
Lemma sum_const_one {A} (l : list A) : list_sum (map (fun _ => 1) l) = length l.
Proof. induction l as [|a l IH]; [reflexivity|]. cbn. unfold list_sum in IH. now rewrite IH. Qed.
Lemma count_sum {A} (p : A -> bool) l : length (filter p l) = list_sum (map (fun x => if p x then 1 else 0) l).
Proof. induction l as [|a l IH]; [reflexivity|]. cbn. destruct (p a); cbn; unfold list_sum in IH; lia. Qed.
Lemma sum_single {A} (f : A -> nat) l a : NoDup l -> In a l -> (forall x, In x l -> x <> a -> f x = 0) -> list_sum (map f l) = f a.
Proof.
  induction 1 as [|b l Nb Nl IH]; intros Ha Hz; [destruct Ha|]. cbn. destruct Ha as [->|Ha].
  - fold (list_sum (map f l)). rewrite sum_zero; [lia|]. intros x Hx. apply Hz; [now right|]. intros ->. contradiction.
  - fold (list_sum (map f l)). rewrite (IH Ha (fun x Hx => Hz x (or_intror Hx))). rewrite (Hz b); [reflexivity|now left|]. intros ->. contradiction.
Qed.
Lemma inj_length {A B} (f : A -> B) l m : NoDup l -> (forall x y, In x l -> In y l -> f x = f y -> x = y) -> (forall x, In x l -> In (f x) m) -> length l <= length m.
Proof.
  intros N I M. rewrite <- (map_length f l). apply NoDup_incl_length.
  - clear M. induction N as [|a l Na Nl IH]; cbn; constructor.
    + intros K. apply in_map_iff in K as (x & E & Hx). apply Na. rewrite (I a x); cbn; auto.
    + apply IH. intros; apply I; cbn; auto.
  - intros y Hy. apply in_map_iff in Hy as (x & <- & Hx). auto.
Qed.

Section Burnside.
  Context {A B : Type}.
  Variables (eqA : A -> A -> bool) (X reps : list A) (G : list B) (op : B -> B -> B) (e : B) (act : B -> A -> A).
  Hypothesis eqA_spec : forall x y, eqA x y = true <-> x = y.
  Hypothesis NX : NoDup X.
  Hypothesis NG : NoDup G.
  Hypothesis NR : NoDup reps.
  Hypothesis He : In e G.
  Hypothesis Hop : forall g k, In g G -> In k G -> In (op g k) G.
  Hypothesis Hinv : forall g, In g G -> exists k, In k G /\ op g k = e /\ op k g = e.
  Hypothesis Hassoc : forall a b c, In a G -> In b G -> In c G -> op (op a b) c = op a (op b c).
  Hypothesis Hunit : forall a, In a G -> op a e = a.
  Hypothesis Hact : forall g x, In g G -> In x X -> In (act g x) X.
  Hypothesis Hactop : forall g k x, In g G -> In k G -> In x X -> act (op g k) x = act g (act k x).
  Hypothesis Hacte : forall x, In x X -> act e x = x.
  Hypothesis HR : forall r, In r reps -> In r X.
  Hypothesis HC : forall x, In x X -> exists r g, In r reps /\ In g G /\ act g r = x.
  Hypothesis HD : forall r r' g, In r reps -> In r' reps -> In g G -> act g r = r' -> r = r'.

  Let tr (r x : A) : nat := length (filter (fun g => eqA (act g r) x) G).
  Lemma cancel_right a b g : In a G -> In b G -> In g G -> op a g = op b g -> a = b.
  Proof.
    intros Ha Hb Hg E. destruct (Hinv g Hg) as (k & Hk & E1 & _).
    rewrite <- (Hunit a Ha), <- (Hunit b Hb), <- E1, <- !Hassoc, E by assumption. reflexivity.
  Qed.
  Lemma tr_le r r' g0 x : In r X -> In r' X -> In g0 G -> act g0 r' = r -> tr r x <= tr r' x.
  Proof.
    intros Hr Hr' Hg E. apply (inj_length (fun g => op g g0)).
    - now apply NoDup_filter.
    - intros a b Ha Hb. apply filter_In in Ha, Hb. now apply cancel_right.
    - intros g K. apply filter_In in K as [K1 K2]. apply filter_In. split; [now apply Hop|]. now rewrite Hactop, E by assumption.
  Qed.
  Lemma back g x y : In g G -> In x X -> act g x = y -> exists k, In k G /\ act k y = x.
  Proof. intros Hg Hx <-. destruct (Hinv g Hg) as (k & Hk & _ & E). exists k. split; [exact Hk|]. rewrite <- Hactop, E by assumption. now apply Hacte. Qed.
  Lemma tr_stab r g0 x : In r X -> In g0 G -> act g0 r = x -> tr r x = tr x x.
  Proof.
    intros Hr Hg E. assert (Hx : In x X) by (rewrite <- E; now apply Hact). destruct (back _ _ _ Hg Hr E) as (k & Hk & Ek).
    apply Nat.le_antisymm; [apply (tr_le r x k x)|apply (tr_le x r g0 x)]; assumption.
  Qed.
  Theorem burnside : length reps * length G = list_sum (map (fun g => length (filter (fun x => eqA (act g x) x) X)) G).
  Proof.
    transitivity (list_sum (map (fun x => tr x x) X)).
    2:{ unfold tr. rewrite (sum_ext _ (fun x => list_sum (map (fun g => if eqA (act g x) x then 1 else 0) G))) by (intros; apply count_sum).
        rewrite sum_swap. apply sum_ext. intros g Hg. symmetry. apply count_sum. }
    transitivity (list_sum (map (fun x => list_sum (map (fun r => tr r x) reps)) X)).
    - rewrite sum_swap. rewrite (sum_ext _ (fun _ => length G)).
      + clear. induction reps as [|a l IH]; [reflexivity|]. cbn. unfold list_sum in IH. now rewrite IH.
      + intros r Hr. unfold tr. rewrite (sum_ext _ (fun x => list_sum (map (fun g => if eqA (act g r) x then 1 else 0) G))) by (intros; apply count_sum).
        rewrite sum_swap, <- (sum_const_one G). apply sum_ext. intros g Hg. rewrite (sum_single _ X (act g r)).
        * now rewrite (proj2 (eqA_spec _ _)).
        * exact NX.
        * auto.
        * intros x _ N. destruct (eqA (act g r) x) eqn:K; [|reflexivity]. apply eqA_spec in K. congruence.
    - apply sum_ext. intros x Hx. destruct (HC x Hx) as (r0 & g0 & Hr0 & Hg0 & E0).
      rewrite (sum_single _ reps r0); [apply (tr_stab r0 g0); auto|exact NR|exact Hr0|].
      intros r Hr N. unfold tr. destruct (filter _ G) as [|g l] eqn:K; [reflexivity|]. exfalso. apply N.
      assert (In g (filter (fun g => eqA (act g r) x) G)) as Kg by (rewrite K; now left). apply filter_In in Kg as [Hg Eg]. apply eqA_spec in Eg.
      destruct (back g0 r0 x Hg0 (HR _ Hr0) E0) as (k & Hk & Ek). apply (HD r r0 (op k g)); auto. rewrite Hactop, Eg by auto. exact Ek.
  Qed.
End Burnside.
