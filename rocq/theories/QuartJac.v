(** The derivative of the equations solved by the iteration without scipy. *)
From Verif Require Import LinAlg LatticeProofs DistModel QuartModel QuartProofs.
Local Open Scope R_scope.

Definition S3 (N : nat) (F : nat -> nat -> nat -> R) : R := sumn N (fun q => sumn N (fun r => sumn N (fun s => F q r s))).
Lemma S3_ext N F G : (forall q r s, (q < N)%nat -> (r < N)%nat -> (s < N)%nat -> F q r s = G q r s) -> S3 N F = S3 N G.
Proof. intros H. unfold S3. do 3 (apply sumn_ext; intros ? ?). now apply H. Qed.
Lemma S3_plus N F G : S3 N (fun q r s => F q r s + G q r s) = S3 N F + S3 N G.
Proof.
  unfold S3. rewrite <- sumn_plus. apply sumn_ext; intros. rewrite <- sumn_plus. apply sumn_ext; intros. now rewrite <- sumn_plus.
Qed.
Lemma S3_rot N F : S3 N (fun q r s => F s q r) = S3 N F.
Proof. unfold S3. symmetry. etransitivity; [apply sumn_swap|]. apply sumn_ext; intros q _. apply sumn_swap. Qed.
Lemma contract3_S3 N U x p : contract3 N U x p = S3 N (fun q r s => U p q r s * nth s x 0 * nth r x 0 * nth q x 0).
Proof.
  unfold contract3, contract2, S3. apply sumn_ext; intros q _. rewrite <- scale_r. apply sumn_ext; intros r _. now rewrite <- !scale_r.
Qed.
Lemma contract2_S3 N U x h p : sumn N (fun q => contract2 N U x p q * nth q h 0) = S3 N (fun q r s => U p q r s * nth s x 0 * nth r x 0 * nth q h 0).
Proof.
  unfold contract2, S3. apply sumn_ext; intros q _. rewrite <- scale_r. apply sumn_ext; intros r _. now rewrite <- !scale_r.
Qed.
Lemma deriv_times f l a b : derivable_pt_lim f 0 l -> derivable_pt_lim (fun t => f t * (a + t * b)) 0 (l * a + f 0 * b).
Proof. intros Hf. pose proof (derivable_pt_lim_mult f (fun t => a + t * b) 0 l b Hf (deriv_lin a b)) as K. cbv beta in K. replace (a + 0 * b) with a in K by lra. exact K. Qed.
(** one of the four terms of the gradient gives three of the twelve terms of the matrix *)
Lemma contract3_deriv N (U : tensor4) x h p : length x = N -> length h = N ->
  derivable_pt_lim (fun t => contract3 N U (axpy t x h) p) 0
    (sumn N (fun q => (contract2 N U x p q + contract2 N (fun p q r s => U p s q r) x p q + contract2 N (fun p q r s => U p r s q) x p q) * nth q h 0)).
Proof.
  intros Lx Lh.
  assert (E : sumn N (fun q => (contract2 N U x p q + contract2 N (fun p q r s => U p s q r) x p q + contract2 N (fun p q r s => U p r s q) x p q) * nth q h 0) =
    S3 N (fun q r s => (U p q r s * nth s h 0 * nth r x 0 + U p q r s * nth s x 0 * nth r h 0) * nth q x 0 + U p q r s * nth s x 0 * nth r x 0 * nth q h 0)).
  { transitivity (sumn N (fun q => contract2 N U x p q * nth q h 0) + sumn N (fun q => contract2 N (fun p q r s => U p s q r) x p q * nth q h 0)
      + sumn N (fun q => contract2 N (fun p q r s => U p r s q) x p q * nth q h 0)).
    { rewrite <- !sumn_plus. apply sumn_ext. intros k Hk. cbn -[contract2]. ring. }
    rewrite !contract2_S3.
    rewrite (S3_rot N (fun a b c => U p a b c * nth a x 0 * nth c x 0 * nth b h 0)).
    rewrite (S3_rot N (fun a b c => U p c a b * nth a x 0 * nth c x 0 * nth b h 0)), (S3_rot N (fun a b c => U p a b c * nth b x 0 * nth a x 0 * nth c h 0)).
    rewrite <- !S3_plus. apply S3_ext. intros. ring. }
  rewrite E. apply (deriv_ext (fun t => S3 N (fun q r s => U p q r s * (nth s x 0 + t * nth s h 0) * (nth r x 0 + t * nth r h 0) * (nth q x 0 + t * nth q h 0)))).
  { intros t. rewrite contract3_S3. apply S3_ext. intros q r s Hq Hr Hs. now rewrite !axpy_nth by lia. }
  unfold S3.
  apply (deriv_sumn N (fun q t => sumn N (fun r => sumn N (fun s => U p q r s * (nth s x 0 + t * nth s h 0) * (nth r x 0 + t * nth r h 0) * (nth q x 0 + t * nth q h 0))))). intros q _.
  apply (deriv_sumn N (fun r t => sumn N (fun s => U p q r s * (nth s x 0 + t * nth s h 0) * (nth r x 0 + t * nth r h 0) * (nth q x 0 + t * nth q h 0)))). intros r _.
  apply (deriv_sumn N (fun s t => U p q r s * (nth s x 0 + t * nth s h 0) * (nth r x 0 + t * nth r h 0) * (nth q x 0 + t * nth q h 0))). intros s _.
  set (T0 := U p q r s). pose proof (deriv_times (fun _ => T0) 0 (nth s x 0) (nth s h 0) (derivable_pt_lim_const T0 0)) as P1. cbv beta in P1.
  pose proof (deriv_times _ _ (nth r x 0) (nth r h 0) P1) as P2. pose proof (deriv_times _ _ (nth q x 0) (nth q h 0) P2) as P3. cbv beta in P3.
  match type of P3 with derivable_pt_lim _ _ ?l => replace l with ((T0 * nth s h 0 * nth r x 0 + T0 * nth s x 0 * nth r h 0) * nth q x 0 + T0 * nth s x 0 * nth r x 0 * nth q h 0) in P3 by ring end.
  exact P3.
Qed.
Lemma dot_self_deriv N x h : length x = N -> length h = N -> derivable_pt_lim (fun t => dot (axpy t x h) (axpy t x h)) 0 (2 * sumn N (fun q => nth q x 0 * nth q h 0)).
Proof.
  intros Lx Lh. apply (deriv_ext (fun t => sumn N (fun q => 1 * (nth q x 0 + t * nth q h 0) * (nth q x 0 + t * nth q h 0)))).
  { intros t. unfold dot, axpy at 1. rewrite length_mkv, Lx. apply sumn_ext. intros q Hq. change (vget (axpy t x h) q) with (nth q (axpy t x h) 0). rewrite axpy_nth by lia. cbn. ring. }
  assert (E : 2 * sumn N (fun q => nth q x 0 * nth q h 0) = sumn N (fun q => (0 * nth q x 0 + 1 * nth q h 0) * nth q x 0 + 1 * nth q x 0 * nth q h 0)).
  { replace 2 with (1 + 1) by ring. rewrite Rmult_plus_distr_r, Rmult_1_l. rewrite <- (sumn_plus N). apply sumn_ext. intros q _. cbn. ring. }
  rewrite E. apply (deriv_sumn N (fun q t => 1 * (nth q x 0 + t * nth q h 0) * (nth q x 0 + t * nth q h 0))). intros q _.
  pose proof (deriv_times (fun _ => 1) 0 (nth q x 0) (nth q h 0) (derivable_pt_lim_const 1 0)) as P1. pose proof (deriv_times _ _ (nth q x 0) (nth q h 0) P1) as P2. cbv beta in P2.
  match type of P2 with derivable_pt_lim _ _ ?l => replace l with ((0 * nth q x 0 + 1 * nth q h 0) * nth q x 0 + 1 * nth q x 0 * nth q h 0) in P2 by ring end. exact P2.
Qed.

Lemma sumn_last N (f : nat -> R) : sumn (N + 1) f = sumn N f + f N.
Proof. rewrite Nat.add_1_r. reflexivity. Qed.
Lemma firstn_app_same {A} (x : list A) l : firstn (length x) (x ++ l) = x.
Proof. rewrite firstn_app, Nat.sub_diag, firstn_all. cbn. apply app_nil_r. Qed.
Lemma axpy_app t x lam h mu : length x = length h -> axpy t (x ++ [lam]) (h ++ [mu]) = axpy t x h ++ [lam + t * mu].
Proof.
  intros L. unfold axpy, mkv. rewrite app_length. cbn [length]. rewrite Nat.add_1_r, seq_S, map_app. cbn [map plus]. f_equal.
  - apply map_ext_in. intros i Hi%in_seq. rewrite !app_nth1 by lia. reflexivity.
  - rewrite !app_nth2 by lia. rewrite <- L, Nat.sub_diag. reflexivity.
Qed.
Lemma roots_func_app N T x lam : length x = N ->
  roots_func N T (x ++ [lam]) = mkv N (fun p => nth p (gradient N T x) 0 - 2 * lam * nth p x 0) ++ [1 - dot x x].
Proof. intros L. unfold roots_func. subst N. rewrite firstn_app_same, last_last. reflexivity. Qed.
Lemma roots_jac_app N T x lam : length x = N -> roots_jac N T (x ++ [lam]) = roots_jac N T x.
Proof. intros L. unfold roots_jac. subst N. rewrite firstn_app_same, firstn_all. reflexivity. Qed.
Lemma length_axpy t x h : length (axpy t x h) = length x.
Proof. apply length_mkv. Qed.

Lemma roots_deriv N T x lam h mu p : length x = N -> length h = N -> (p < N)%nat ->
  derivable_pt_lim (fun t => nth p (roots_func N T (axpy t (x ++ [lam]) (h ++ [mu]))) 0) 0
    (nth p (mvmul (roots_jac N T (x ++ [lam])) (h ++ [mu])) 0 - 2 * lam * nth p h 0).
Proof.
  intros Lx Lh Hp. rewrite roots_jac_app by exact Lx.
  assert (E : nth p (mvmul (roots_jac N T x) (h ++ [mu])) 0 =
    sumn N (fun q => (contract2 N (tr0123 T) x p q + contract2 N (tr0231 T) x p q + contract2 N (tr0312 T) x p q) * nth q h 0)
    + sumn N (fun q => (contract2 N (tr1230 T) x p q + contract2 N (tr1302 T) x p q + contract2 N (tr1023 T) x p q) * nth q h 0)
    + sumn N (fun q => (contract2 N (tr2301 T) x p q + contract2 N (tr2013 T) x p q + contract2 N (tr2130 T) x p q) * nth q h 0)
    + sumn N (fun q => (contract2 N (tr3012 T) x p q + contract2 N (tr3120 T) x p q + contract2 N (tr3201 T) x p q) * nth q h 0)
    + - 2 * nth p x 0 * mu).
  { change (nth p (mvmul (roots_jac N T x) (h ++ [mu])) 0) with (vget (mvmul (roots_jac N T x) (h ++ [mu])) p).
    rewrite (vget_mvmul (N + 1) (N + 1)) by (try apply wf_mk; lia). rewrite app_length, Lh. cbn [length]. rewrite sumn_last. f_equal.
    - rewrite <- !sumn_plus. apply sumn_ext. intros q Hq. unfold roots_jac. rewrite get_mk by lia.
      rewrite (proj2 (Nat.ltb_lt p N)), (proj2 (Nat.ltb_lt q N)) by lia. rewrite <- Lx at 1. rewrite <- Lx, firstn_all.
      unfold vget. rewrite app_nth1 by lia. cbn -[contract2]. ring.
    - unfold roots_jac. rewrite get_mk by lia. rewrite (proj2 (Nat.ltb_lt p N)) by lia. rewrite Nat.ltb_irrefl. rewrite <- Lx at 1. rewrite firstn_all.
      unfold vget. rewrite app_nth2, Lh, Nat.sub_diag by lia. reflexivity. }
  rewrite E. clear E.
  apply (deriv_ext (fun t => (contract3 N (tr0123 T) (axpy t x h) p + contract3 N (tr1230 T) (axpy t x h) p + contract3 N (tr2301 T) (axpy t x h) p + contract3 N (tr3012 T) (axpy t x h) p)
     + (- 2 * (lam + t * mu)) * (nth p x 0 + t * nth p h 0))).
  { intros t. rewrite axpy_app by congruence. rewrite roots_func_app by (rewrite length_axpy; exact Lx).
    rewrite app_nth1 by (rewrite length_mkv; lia). rewrite nth_mkv by lia. unfold gradient. rewrite nth_mkv by lia. rewrite axpy_nth by lia. ring. }
  set (A1 := sumn N _) at 1. set (A2 := sumn N (fun q => (contract2 N (tr1230 T) _ _ _ + _ + _) * _)).
  set (A3 := sumn N (fun q => (contract2 N (tr2301 T) _ _ _ + _ + _) * _)). set (A4 := sumn N (fun q => (contract2 N (tr3012 T) _ _ _ + _ + _) * _)).
  replace (A1 + A2 + A3 + A4 + - 2 * nth p x 0 * mu - 2 * lam * nth p h 0) with
    (A1 + A2 + A3 + A4 + ((0 * lam + - 2 * mu) * nth p x 0 + - 2 * (lam + 0 * mu) * nth p h 0)) by ring.
  apply (derivable_pt_lim_plus (fun t => _ + _ + _ + _) (fun t => _ * _)).
  - apply (derivable_pt_lim_plus (fun t => _ + _ + _) (fun t => _)); [|exact (contract3_deriv N (tr3012 T) x h p Lx Lh)].
    apply (derivable_pt_lim_plus (fun t => _ + _) (fun t => _)); [|exact (contract3_deriv N (tr2301 T) x h p Lx Lh)].
    apply (derivable_pt_lim_plus (fun t => _) (fun t => _)); [exact (contract3_deriv N (tr0123 T) x h p Lx Lh)|exact (contract3_deriv N (tr1230 T) x h p Lx Lh)].
  - exact (deriv_times (fun t => - 2 * (lam + t * mu)) _ _ _ (deriv_times (fun _ => - 2) 0 lam mu (derivable_pt_lim_const (-2) 0))).
Qed.
Lemma roots_deriv_last N T x lam h mu : length x = N -> length h = N ->
  derivable_pt_lim (fun t => nth N (roots_func N T (axpy t (x ++ [lam]) (h ++ [mu]))) 0) 0
    (nth N (mvmul (roots_jac N T (x ++ [lam])) (h ++ [mu])) 0).
Proof.
  intros Lx Lh. rewrite roots_jac_app by exact Lx.
  assert (E : nth N (mvmul (roots_jac N T x) (h ++ [mu])) 0 = 0 - 2 * sumn N (fun q => nth q x 0 * nth q h 0)).
  { change (nth N (mvmul (roots_jac N T x) (h ++ [mu])) 0) with (vget (mvmul (roots_jac N T x) (h ++ [mu])) N).
    rewrite (vget_mvmul (N + 1) (N + 1)) by (try apply wf_mk; lia). rewrite app_length, Lh. cbn [length]. rewrite sumn_last.
    unfold roots_jac at 2. rewrite get_mk by lia. rewrite Nat.ltb_irrefl.
    transitivity (sumn N (fun q => nth q x 0 * nth q h 0 * -2) + 0).
    - f_equal.
      + apply sumn_ext. intros q Hq. unfold roots_jac. rewrite get_mk by lia. rewrite Nat.ltb_irrefl, (proj2 (Nat.ltb_lt q N)) by lia.
        rewrite <- Lx at 1. rewrite firstn_all. unfold vget. rewrite app_nth1 by lia. cbn. ring.
      + cbn. ring.
    - rewrite scale_r. ring. }
  rewrite E. apply (deriv_ext (fun t => 1 - dot (axpy t x h) (axpy t x h))).
  { intros t. rewrite axpy_app by congruence. rewrite roots_func_app by (rewrite length_axpy; exact Lx). rewrite app_nth2; rewrite length_mkv; [|lia]. now rewrite Nat.sub_diag. }
  apply (derivable_pt_lim_minus (fun _ => 1) (fun t => dot (axpy t x h) (axpy t x h))); [apply derivable_pt_lim_const|now apply dot_self_deriv].
Qed.
