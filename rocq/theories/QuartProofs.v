(** Derivatives of the quartic form. *)
From Verif Require Import LinAlg DistModel QuartModel.
Local Open Scope R_scope.

Definition S4 (N : nat) (F : nat -> nat -> nat -> nat -> R) : R :=
  sumn N (fun p => sumn N (fun q => sumn N (fun r => sumn N (fun s => F p q r s)))).
Lemma S4_ext N F G : (forall p q r s, (p < N)%nat -> (q < N)%nat -> (r < N)%nat -> (s < N)%nat -> F p q r s = G p q r s) -> S4 N F = S4 N G.
Proof. intros H. unfold S4. do 4 (apply sumn_ext; intros ? ?). now apply H. Qed.
Lemma S4_plus N F G : S4 N (fun p q r s => F p q r s + G p q r s) = S4 N F + S4 N G.
Proof.
  unfold S4. rewrite <- sumn_plus. apply sumn_ext; intros. rewrite <- sumn_plus. apply sumn_ext; intros.
  rewrite <- sumn_plus. apply sumn_ext; intros. now rewrite <- sumn_plus.
Qed.
(** the sum does not depend on the order of the indices *)
Lemma S4_rot N F : S4 N (fun p q r s => F s p q r) = S4 N F.
Proof.
  unfold S4. symmetry. etransitivity; [apply sumn_swap|]. apply sumn_ext; intros p _.
  etransitivity; [apply sumn_swap|]. apply sumn_ext; intros q _. apply sumn_swap.
Qed.

Lemma scale_r n c (f : nat -> R) : sumn n (fun k => f k * c) = sumn n f * c.
Proof. exact (sumn_scale_r n c f). Qed.
Lemma nth_mkv n (f : nat -> R) k : (k < n)%nat -> nth k (mkv n f) 0 = f k.
Proof. exact (vget_mkv n f k). Qed.
Lemma form_S4 N T x : quartic_form N T x = S4 N (fun p q r s => T p q r s * nth s x 0 * nth r x 0 * nth q x 0 * nth p x 0).
Proof.
  unfold quartic_form, S4. apply sumn_ext; intros p _. rewrite <- scale_r. apply sumn_ext; intros q _.
  rewrite <- !scale_r. apply sumn_ext; intros r _. rewrite <- !scale_r. reflexivity.
Qed.
Lemma grad_S4 N T x h : sumn N (fun p => contract3 N T x p * nth p h 0) =
  S4 N (fun p q r s => T p q r s * nth s x 0 * nth r x 0 * nth q x 0 * nth p h 0).
Proof.
  unfold contract3, contract2, S4. apply sumn_ext; intros p _. rewrite <- scale_r. apply sumn_ext; intros q _.
  rewrite <- !scale_r. apply sumn_ext; intros r _. rewrite <- !scale_r. reflexivity.
Qed.
Lemma deriv_sumn n f l a : (forall k, (k < n)%nat -> derivable_pt_lim (f k) a (l k)) ->
  derivable_pt_lim (fun t => sumn n (fun k => f k t)) a (sumn n l).
Proof.
  induction n as [|n IH]; intros H; cbn [sumn]; [apply derivable_pt_lim_const|].
  apply (derivable_pt_lim_plus (fun t => sumn n (fun k => f k t)) (f n)); [apply IH; intros; apply H; lia|apply H; lia].
Qed.
Lemma deriv_S4 N F G a : (forall p q r s, (p < N)%nat -> (q < N)%nat -> (r < N)%nat -> (s < N)%nat -> derivable_pt_lim (F p q r s) a (G p q r s)) ->
  derivable_pt_lim (fun t => S4 N (fun p q r s => F p q r s t)) a (S4 N G).
Proof.
  intros H. unfold S4. apply (deriv_sumn N (fun p t => sumn N (fun q => sumn N (fun r => sumn N (fun s => F p q r s t))))). intros p Hp.
  apply (deriv_sumn N (fun q t => sumn N (fun r => sumn N (fun s => F p q r s t)))). intros q Hq.
  apply (deriv_sumn N (fun r t => sumn N (fun s => F p q r s t))). intros r Hr.
  apply (deriv_sumn N (fun s t => F p q r s t)). intros s Hs. now apply H.
Qed.
Lemma axpy_nth t x h k : (k < length x)%nat -> nth k (axpy t x h) 0 = nth k x 0 + t * nth k h 0.
Proof. intros H. unfold axpy. now rewrite nth_mkv. Qed.
Lemma deriv_ext f g a l : (forall t, f t = g t) -> derivable_pt_lim f a l -> derivable_pt_lim g a l.
Proof. intros E H e He. destruct (H e He) as (d & Hd). exists d. intros k K1 K2. rewrite <- !E. now apply Hd. Qed.
Lemma deriv_lin a b : derivable_pt_lim (fun t => a + t * b) 0 b.
Proof.
  intros e He. exists (mkposreal 1 Rlt_0_1). intros k Hk _. replace ((a + (0 + k) * b - (a + 0 * b)) / k - b) with 0 by (field; exact Hk).
  now rewrite Rabs_R0.
Qed.

Lemma form_gradient N T x h : length x = N -> length h = N ->
  derivable_pt_lim (fun t => quartic_form N T (axpy t x h)) 0 (dot (gradient N T x) h).
Proof.
  intros Lx Lh. 
  assert (E : dot (gradient N T x) h = S4 N (fun p q r s =>
    (((T p q r s * nth s h 0 * nth r x 0 + T p q r s * nth s x 0 * nth r h 0) * nth q x 0 + T p q r s * nth s x 0 * nth r x 0 * nth q h 0) * nth p x 0
     + T p q r s * nth s x 0 * nth r x 0 * nth q x 0 * nth p h 0))).
  { unfold dot, gradient. rewrite length_mkv.
    transitivity (sumn N (fun p => contract3 N (tr0123 T) x p * nth p h 0) + sumn N (fun p => contract3 N (tr1230 T) x p * nth p h 0) +
      sumn N (fun p => contract3 N (tr2301 T) x p * nth p h 0) + sumn N (fun p => contract3 N (tr3012 T) x p * nth p h 0)).
    { rewrite <- !sumn_plus. apply sumn_ext. intros k Hk. unfold vget. rewrite nth_mkv by exact Hk. cbn -[contract3]. ring. }
    rewrite !grad_S4. unfold tr0123, tr1230, tr2301, tr3012.
    rewrite (S4_rot N (fun a b c d => T a b c d * nth a x 0 * nth d x 0 * nth c x 0 * nth b h 0)).
    rewrite (S4_rot N (fun a b c d => T d a b c * nth a x 0 * nth d x 0 * nth c x 0 * nth b h 0)), (S4_rot N (fun a b c d => T a b c d * nth b x 0 * nth a x 0 * nth d x 0 * nth c h 0)).
    rewrite (S4_rot N (fun a b c d => T c d a b * nth a x 0 * nth d x 0 * nth c x 0 * nth b h 0)), (S4_rot N (fun a b c d => T d a b c * nth b x 0 * nth a x 0 * nth d x 0 * nth c h 0)), (S4_rot N (fun a b c d => T a b c d * nth c x 0 * nth b x 0 * nth a x 0 * nth d h 0)).
    rewrite <- !S4_plus. apply S4_ext. intros. ring. }
  rewrite E. apply (deriv_ext (fun t => S4 N (fun p q r s => T p q r s * (nth s x 0 + t * nth s h 0) * (nth r x 0 + t * nth r h 0) * (nth q x 0 + t * nth q h 0) * (nth p x 0 + t * nth p h 0)))).
  { intros t. rewrite form_S4. apply S4_ext. intros p q r s Hp Hq Hr Hs. now rewrite !axpy_nth by lia. }
  apply (deriv_S4 N (fun p q r s t => T p q r s * (nth s x 0 + t * nth s h 0) * (nth r x 0 + t * nth r h 0) * (nth q x 0 + t * nth q h 0) * (nth p x 0 + t * nth p h 0))).
  intros p q r s _ _ _ _. set (T0 := T p q r s).
  assert (P : forall f l a b, derivable_pt_lim f 0 l -> derivable_pt_lim (fun t => f t * (a + t * b)) 0 (l * a + f 0 * b)).
  { intros f l a b Hf. pose proof (derivable_pt_lim_mult f (fun t => a + t * b) 0 l b Hf (deriv_lin a b)) as K. cbv beta in K. replace (a + 0 * b) with a in K by lra. exact K. }
  pose proof (P (fun _ => T0) 0 (nth s x 0) (nth s h 0) (derivable_pt_lim_const T0 0)) as P1. cbv beta in P1.
  pose proof (P _ _ (nth r x 0) (nth r h 0) P1) as P2. pose proof (P _ _ (nth q x 0) (nth q h 0) P2) as P3.
  pose proof (P _ _ (nth p x 0) (nth p h 0) P3) as P4. cbv beta in P4.
  match type of P4 with derivable_pt_lim _ _ ?l => replace l with (((T0 * nth s h 0 * nth r x 0 + T0 * nth s x 0 * nth r h 0) * nth q x 0 + T0 * nth s x 0 * nth r x 0 * nth q h 0) * nth p x 0
     + T0 * nth s x 0 * nth r x 0 * nth q x 0 * nth p h 0) in P4 by ring end. exact P4.
Qed.
