From Verif Require Import Flat LinAlg DistModel DistSpec.
Local Open Scope R_scope.

Lemma sumn_app_R n m (f : nat -> R) : sumn (n + m) f = sumn n f + sumn m (fun k => f (n + k)%nat).
Proof.
  induction m; cbn; [rewrite Nat.add_0_r; lra|].
  rewrite Nat.add_succ_r. cbn. rewrite IHm. cbn. ring.
Qed.

Lemma sumn_square n m (f : nat -> R) : sumn (n * m) f = sumn n (fun i => sumn m (fun j => f (i * m + j)%nat)).
Proof.
  induction n; [reflexivity|]. cbn [sumn]. rewrite <- IHn.
  replace (S n * m)%nat with (n * m + m)%nat by lia. rewrite sumn_app_R. reflexivity.
Qed.

Lemma divmod_idx n i j : (j < n)%nat -> ((i * n + j) / n = i /\ (i * n + j) mod n = j)%nat.
Proof.
  intros Hj. split.
  - rewrite Nat.div_add_l by lia. rewrite Nat.div_small by lia. lia.
  - rewrite Nat.add_comm, Nat.mod_add by lia. now apply Nat.mod_small.
Qed.

Lemma dot_flatten n m (M : mat R) : wf n m M -> dot (flatten M) (flatten M) = fro2 n m M.
Proof.
  intros H. unfold dot, fro2. rewrite (length_flatten n m) by exact H.
  rewrite sumn_square. apply sumn_ext. intros i Hi. apply sumn_ext. intros j Hj.
  unfold vget. now rewrite (nth_flatten n m).
Qed.

Lemma fro2_trace n m M : (0 < n)%nat -> (0 < m)%nat -> wf n m M -> fro2 n m M = trace (mmul (tr M) M).
Proof.
  intros Hn Hm H. unfold trace.
  assert (W : wf m m (mmul (tr M) M)) by (apply (wf_mmul m n m); auto using wf_tr').
  rewrite (nrows_wf _ _ _ W). unfold fro2. change (@sumn R R_ops) with (@sumn R R_ops).
  rewrite (sumn_swap n m (fun i j => get M i j * get M i j)).
  apply sumn_ext. intros j Hj. rewrite (get_mmul m n m) by auto using wf_tr'.
  apply sumn_ext. intros i Hi. rewrite (get_tr' n m) by auto. reflexivity.
Qed.

Lemma fro2_trace_r n m M : (0 < n)%nat -> (0 < m)%nat -> wf n m M -> fro2 n m M = trace (mmul M (tr M)).
Proof.
  intros Hn Hm H. unfold trace.
  assert (W : wf n n (mmul M (tr M))) by (apply (wf_mmul n m n); auto using wf_tr').
  rewrite (nrows_wf _ _ _ W). unfold fro2.
  apply sumn_ext. intros j Hj. rewrite (get_mmul n m n) by auto using wf_tr'.
  apply sumn_ext. intros i Hi. rewrite (get_tr' n m) by auto. reflexivity.
Qed.

Lemma fro2_orth_l n Q M : dim23 n -> orthogonal n Q -> wf n n M -> fro2 n n (mmul Q M) = fro2 n n M.
Proof.
  intros Hd HQ HM. pose proof (dim23_pos n Hd). assert (WQ := orth_wf n Q HQ).
  rewrite !(fro2_trace n n) by (auto; apply (wf_mmul n n n); auto).
  rewrite (tr_mmul n n n) by auto.
  rewrite (mmul_assoc n n n n), <- (mmul_assoc n n n n (tr Q)), (orth_l n), (mmul_eye_l n n)
    by (auto using wf_tr'; apply (wf_mmul n n n); auto using wf_tr').
  reflexivity.
Qed.
Lemma fro2_orth_r n Q M : dim23 n -> orthogonal n Q -> wf n n M -> fro2 n n (mmul M Q) = fro2 n n M.
Proof.
  intros Hd HQ HM. pose proof (dim23_pos n Hd). assert (WQ := orth_wf n Q HQ).
  rewrite !(fro2_trace_r n n) by (auto; apply (wf_mmul n n n); auto).
  rewrite (tr_mmul n n n) by auto.
  rewrite (mmul_assoc n n n n), <- (mmul_assoc n n n n Q) by
    (auto using wf_tr'; apply (wf_mmul n n n); auto using wf_tr').
  destruct HQ as [_ ->]. rewrite (mmul_eye_l n n) by auto using wf_tr'. reflexivity.
Qed.

(** the matrix measured by the Cauchy distance *)
Definition Finv_of (E1 L E2inv : mat R) : mat R := mmul (mmul E1 L) E2inv.

Lemma wf_Finv n E1 L E2 : (0 < n)%nat -> wf n n E1 -> wf n n L -> wf n n E2 -> wf n n (Finv_of E1 L E2).
Proof. intros. apply (wf_mmul n n n); auto. apply (wf_mmul n n n); auto. Qed.

Lemma Cauchy_fro n x E1 E2inv : (0 < n)%nat -> wf n n E1 -> wf n n E2inv ->
  Cauchy_dist x E1 E2inv =
  (let F := Finv_of E1 (reshape n x) E2inv in fro2 n n (msub (mmul F (tr F)) (eye n))).
Proof.
  intros Hn H1 H2. unfold Cauchy_dist. assert (length E1 = n) as -> by apply H1.
  cbn zeta. apply dot_flatten. fold (Finv_of E1 (reshape n x) E2inv).
  apply wf_msub; auto.
  assert (W := wf_Finv n E1 (reshape n x) E2inv Hn H1 (wf_reshape n x) H2).
  apply (wf_mmul n n n); auto using wf_tr'.
Qed.

Lemma msub_conj n Q C : dim23 n -> orthogonal n Q -> wf n n C ->
  msub (mmul (mmul Q C) (tr Q)) (eye n) = mmul (mmul Q (msub C (eye n))) (tr Q).
Proof.
  intros Hd HQ HC. pose proof (dim23_pos n Hd) as Hn. assert (WQ := orth_wf n Q HQ).
  assert (WT : wf n n (tr Q)) by (apply wf_tr'; auto).
  assert (W1 : wf n n (mmul Q C)) by (apply (wf_mmul n n n); auto).
  assert (W2 : wf n n (msub C (eye n))) by (apply wf_msub; auto).
  assert (W3 : wf n n (mmul Q (msub C (eye n)))) by (apply (wf_mmul n n n); auto).
  assert (E : eye n = mmul (mmul Q (eye n)) (tr Q)).
  { rewrite (mmul_eye_r n n) by auto. symmetry. apply HQ. }
  apply (mat_ext n n);
    [apply wf_msub; auto; apply (wf_mmul n n n); auto|apply (wf_mmul n n n); auto|].
  intros i j Hi Hj. rewrite (get_msub n n) by (auto; apply (wf_mmul n n n); auto).
  rewrite E at 1.
  assert (W4 : wf n n (mmul Q (eye n))) by (apply (wf_mmul n n n); auto using wf_eye).
  rewrite !(get_mmul n n n) by auto. cbn [sub R_ops]. rewrite <- sumn_minus.
  apply sumn_ext. intros k Hk. rewrite !(get_mmul n n n) by auto using wf_eye.
  cbn [mul R_ops]. rewrite <- Rmult_minus_distr_r. f_equal. rewrite <- sumn_minus.
  apply sumn_ext. intros l Hl. rewrite (get_msub n n) by auto. cbn [sub mul R_ops]. ring.
Qed.

Lemma isometry_inv n E M Q : dim23 n -> wf n n E -> wf n n M -> orthogonal n Q -> det E <> 0 ->
  mmul E M = mmul Q E -> mmul M (minv E) = mmul (minv E) Q.
Proof.
  intros Hd WE WM HQ D E0. pose proof (dim23_pos n Hd) as Hn.
  assert (WQ := orth_wf n Q HQ). assert (WI := wf_minv n E Hd WE).
  rewrite <- (mmul_eye_l n n (mmul M (minv E))) by (auto; apply (wf_mmul n n n); auto).
  rewrite <- (minv_l n E) by auto.
  rewrite (mmul_assoc n n n n), <- (mmul_assoc n n n n E) by (auto; apply (wf_mmul n n n); auto).
  rewrite E0, (mmul_assoc n n n n), (minv_r n) by auto.
  rewrite (mmul_eye_r n n) by auto. reflexivity.
Qed.

(** F transforms to Q1 F Q2 under symmetries of both lattices *)
Lemma Finv_sym n E1 E2 M1 M2 L : dim23 n -> wf n n E1 -> wf n n E2 -> wf n n L -> det E2 <> 0 ->
  isometry_of n E1 M1 -> isometry_of n E2 M2 ->
  exists Q1 Q2, orthogonal n Q1 /\ orthogonal n Q2 /\
    Finv_of E1 (mmul (mmul M1 L) M2) (minv E2) = mmul (mmul Q1 (Finv_of E1 L (minv E2))) Q2.
Proof.
  intros Hd W1 W2 WL D [WM1 (Q1 & HQ1 & EQ1)] [WM2 (Q2 & HQ2 & EQ2)].
  pose proof (dim23_pos n Hd) as Hn.
  exists Q1, Q2. split; [exact HQ1|]. split; [exact HQ2|].
  assert (WQ1 := orth_wf n Q1 HQ1). assert (WQ2 := orth_wf n Q2 HQ2). assert (WI := wf_minv n E2 Hd W2).
  assert (WM1L : wf n n (mmul M1 L)) by (apply (wf_mmul n n n); auto).
  assert (WE1L : wf n n (mmul E1 L)) by (apply (wf_mmul n n n); auto).
  unfold Finv_of.
  rewrite <- (mmul_assoc n n n n E1), <- (mmul_assoc n n n n E1), EQ1 by auto.
  rewrite (mmul_assoc n n n n (mmul (mmul Q1 E1) L)) by
    (auto; apply (wf_mmul n n n); auto; apply (wf_mmul n n n); auto).
  rewrite (isometry_inv n E2 M2 Q2) by auto.
  rewrite <- (mmul_assoc n n n n (mmul (mmul Q1 E1) L)) by
    (auto; apply (wf_mmul n n n); auto; apply (wf_mmul n n n); auto).
  rewrite (mmul_assoc n n n n Q1) by auto.
  rewrite (mmul_assoc n n n n Q1 (mmul E1 L)) by auto. reflexivity.
Qed.

Lemma Cinv_sym n E1 E2 M1 M2 L : dim23 n -> wf n n E1 -> wf n n E2 -> wf n n L -> det E2 <> 0 ->
  isometry_of n E1 M1 -> isometry_of n E2 M2 ->
  exists Q, orthogonal n Q /\
    (let F' := Finv_of E1 (mmul (mmul M1 L) M2) (minv E2) in
     let F := Finv_of E1 L (minv E2) in
     mmul F' (tr F') = mmul (mmul Q (mmul F (tr F))) (tr Q)).
Proof.
  intros Hd W1 W2 WL D I1 I2. pose proof (dim23_pos n Hd) as Hn.
  destruct (Finv_sym n E1 E2 M1 M2 L Hd W1 W2 WL D I1 I2) as (Q1 & Q2 & HQ1 & HQ2 & E).
  exists Q1. split; [exact HQ1|]. cbn zeta. rewrite E.
  assert (WF : wf n n (Finv_of E1 L (minv E2))) by (apply wf_Finv; auto using wf_minv).
  set (F := Finv_of E1 L (minv E2)) in *.
  assert (WQ1 := orth_wf n Q1 HQ1). assert (WQ2 := orth_wf n Q2 HQ2).
  assert (WT1 : wf n n (tr Q1)) by (apply wf_tr'; auto).
  assert (WT2 : wf n n (tr Q2)) by (apply wf_tr'; auto).
  assert (WTF : wf n n (tr F)) by (apply wf_tr'; auto).
  assert (WQF : wf n n (mmul Q1 F)) by (apply (wf_mmul n n n); auto).
  assert (WTT : wf n n (mmul (tr F) (tr Q1))) by (apply (wf_mmul n n n); auto).
  rewrite !(tr_mmul n n n) by auto.
  rewrite (mmul_assoc n n n n (mmul Q1 F)) by (auto; apply (wf_mmul n n n); auto).
  rewrite <- (mmul_assoc n n n n Q2) by auto. destruct HQ2 as [_ ->].
  rewrite (mmul_eye_l n n) by auto.
  rewrite (mmul_assoc n n n n Q1 F) by auto.
  rewrite <- (mmul_assoc n n n n F) by auto.
  rewrite <- (mmul_assoc n n n n Q1) by (auto; apply (wf_mmul n n n); auto). reflexivity.
Qed.

(** ** C41 *)
Lemma Cauchy_nonneg n x E1 E2inv : (0 < n)%nat -> wf n n E1 -> wf n n E2inv -> 0 <= Cauchy_dist x E1 E2inv.
Proof. intros. rewrite (Cauchy_fro n) by auto. apply fro2_nonneg. Qed.

Lemma Cauchy_zero n x E1 E2 : dim23 n -> wf n n E1 -> wf n n E2 -> det E2 <> 0 ->
  Cauchy_dist x E1 (minv E2) = 0 <-> strain_free n E1 (reshape n x) E2.
Proof.
  intros Hd W1 W2 D. pose proof (dim23_pos n Hd) as Hn. assert (WI := wf_minv n E2 Hd W2).
  rewrite (Cauchy_fro n) by auto. cbn zeta.
  assert (WL : wf n n (reshape n x)) by apply wf_reshape.
  assert (WF := wf_Finv n E1 (reshape n x) (minv E2) Hn W1 WL WI).
  assert (WEL : wf n n (mmul E1 (reshape n x))) by (apply (wf_mmul n n n); auto).
  set (F := Finv_of E1 (reshape n x) (minv E2)) in *.
  assert (WTF : wf n n (tr F)) by (apply wf_tr'; auto).
  assert (WC : wf n n (mmul F (tr F))) by (apply (wf_mmul n n n); auto).
  split.
  - intros H. exists F. split.
    + split; [exact WF|]. apply (mat_ext n n); auto using wf_eye.
      intros i j Hi Hj. pose proof (fro2_zero n n _ H i j Hi Hj) as Z.
      rewrite (get_msub n n) in Z by auto. cbn [sub R_ops] in Z. lra.
    + unfold F, Finv_of. rewrite (mmul_assoc n n n n), (minv_l n), (mmul_eye_r n n) by auto. reflexivity.
  - intros (Q & HQ & E).
    assert (EF : F = Q).
    { unfold F, Finv_of. rewrite E, (mmul_assoc n n n n), (minv_r n), (mmul_eye_r n n)
        by (auto using orth_wf). reflexivity. }
    rewrite EF. destruct HQ as [WQ ->]. unfold fro2.
    apply sumn_R0. intros i Hi. apply sumn_R0. intros j Hj.
    rewrite (get_msub n n) by auto using wf_eye. cbn [sub R_ops]. ring.
Qed.

Lemma Cauchy_sym n x x' E1 E2 M1 M2 : dim23 n -> wf n n E1 -> wf n n E2 -> det E2 <> 0 ->
  isometry_of n E1 M1 -> isometry_of n E2 M2 ->
  reshape n x' = mmul (mmul M1 (reshape n x)) M2 ->
  Cauchy_dist x' E1 (minv E2) = Cauchy_dist x E1 (minv E2).
Proof.
  intros Hd W1 W2 D I1 I2 E. pose proof (dim23_pos n Hd) as Hn. assert (WI := wf_minv n E2 Hd W2).
  rewrite !(Cauchy_fro n) by auto. cbn zeta. rewrite E.
  destruct (Cinv_sym n E1 E2 M1 M2 (reshape n x) Hd W1 W2 (wf_reshape n x) D I1 I2) as (Q & HQ & EC).
  cbn zeta in EC. rewrite EC.
  assert (WF := wf_Finv n E1 (reshape n x) (minv E2) Hn W1 (wf_reshape n x) WI).
  set (F := Finv_of E1 (reshape n x) (minv E2)) in *.
  assert (WC : wf n n (mmul F (tr F))) by (apply (wf_mmul n n n); auto using wf_tr').
  rewrite msub_conj by auto.
  assert (WQ := orth_wf n Q HQ).
  assert (WS : wf n n (msub (mmul F (tr F)) (eye n))) by (apply wf_msub; auto).
  rewrite fro2_orth_r, fro2_orth_l; auto using orth_tr. apply (wf_mmul n n n); auto.
Qed.

(** ** C42 *)
Lemma Cauchy_vec n xs E1 E2inv : (0 < n)%nat -> wf n n E1 -> wf n n E2inv ->
  Cauchy_dist_vec xs E1 E2inv = map (fun x => Cauchy_dist x E1 E2inv) xs.
Proof.
  intros Hn W1 W2. unfold Cauchy_dist_vec. destruct (length xs <? 100)%nat; [reflexivity|].
  assert (length E1 = n) as -> by apply W1. cbn zeta.
  apply (list_ext 0); [now rewrite !map_length, seq_length|].
  intros a Ha. rewrite map_length, seq_length in Ha.
  rewrite nth_map_seq by exact Ha.
  rewrite (nth_indep _ 0 (Cauchy_dist [] E1 E2inv)) by (now rewrite map_length).
  rewrite (map_nth (fun x => Cauchy_dist x E1 E2inv) xs [] a).
  rewrite (Cauchy_fro n) by auto. cbn zeta. set (x := nth a xs []).
  assert (WL := wf_reshape n x).
  assert (WEL : wf n n (mmul E1 (reshape n x))) by (apply (wf_mmul n n n); auto).
  assert (WF := wf_Finv n E1 (reshape n x) E2inv Hn W1 WL W2).
  assert (WC : wf n n (mmul (Finv_of E1 (reshape n x) E2inv) (tr (Finv_of E1 (reshape n x) E2inv))))
    by (apply (wf_mmul n n n); auto using wf_tr').
  unfold fro2. rewrite sumn_square. apply sumn_ext. intros i Hi. apply sumn_ext. intros j Hj.
  destruct (divmod_idx n i j Hj) as [-> ->].
  assert (G : forall u v, (u < n)%nat -> (v < n)%nat ->
    sumn n (fun i0 => sumn n (fun k => nth (i0 * n + k) x 0 * get E2inv k v) * get E1 u i0) =
    get (Finv_of E1 (reshape n x) E2inv) u v).
  { intros u v Hu Hv. unfold Finv_of. rewrite (get_mmul n n n) by auto.
    transitivity (sumn n (fun k => sumn n (fun i0 => get E1 u i0 * nth (i0 * n + k) x 0 * get E2inv k v))).
    - rewrite <- (sumn_swap n n (fun i0 k => get E1 u i0 * nth (i0 * n + k) x 0 * get E2inv k v)).
      apply sumn_ext. intros i0 _. rewrite Rmult_comm, <- sumn_mult. apply sumn_ext. intros. cbn. ring.
    - apply sumn_ext. intros k Hk. rewrite (get_mmul n n n) by auto.
      transitivity (get E2inv k v * sumn n (fun i0 => get E1 u i0 * nth (i0 * n + k) x 0)).
      + rewrite <- sumn_mult. apply sumn_ext. intros. ring.
      + rewrite Rmult_comm. cbn [mul R_ops]. f_equal. apply sumn_ext. intros i0 Hi0.
        rewrite get_reshape by auto. reflexivity. }
  rewrite (get_msub n n) by auto. rewrite (get_mmul n n n) by auto using wf_tr'.
  cbn [sub R_ops].
  assert (E : sumn n (fun j0 =>
     sumn n (fun i0 => sumn n (fun k => nth (i0 * n + k) x 0 * get E2inv k j0) * get E1 i i0) *
     sumn n (fun i0 => sumn n (fun k => nth (i0 * n + k) x 0 * get E2inv k j0) * get E1 j i0)) =
    sumn n (fun k => mul (get (Finv_of E1 (reshape n x) E2inv) i k)
                         (get (tr (Finv_of E1 (reshape n x) E2inv)) k j))).
  { apply sumn_ext. intros k Hk. rewrite !G by auto. rewrite (get_tr' n n) by auto. reflexivity. }
  rewrite E. reflexivity.
Qed.

(** ** C46 *)
Lemma sumn_swap_R n m (f : nat -> nat -> R) :
  sumn n (fun i => sumn m (fun j => f i j)) = sumn m (fun j => sumn n (fun i => f i j)).
Proof. apply sumn_swap. Qed.
Lemma sumn_mult_r n c (f : nat -> R) : sumn n (fun k => f k * c) = sumn n f * c.
Proof. rewrite Rmult_comm, <- sumn_mult. apply sumn_ext. intros. ring. Qed.

Lemma quartic_squares N K (c : nat -> nat -> nat -> R) x :
  quartic_form N (fun p q r s => sumn K (fun ii => c ii p q * c ii r s)) x =
  sumn K (fun ii => let b := sumn N (fun p => sumn N (fun q => c ii p q * nth p x 0 * nth q x 0)) in b * b).
Proof.
  unfold quartic_form. cbn zeta.
  transitivity (sumn N (fun p => sumn N (fun q => sumn K (fun ii => c ii p q *
     sumn N (fun r => sumn N (fun s => c ii r s * nth r x 0 * nth s x 0))) * nth q x 0) * nth p x 0)).
  - apply sumn_ext. intros p _. f_equal. apply sumn_ext. intros q _. f_equal.
    transitivity (sumn N (fun r => sumn N (fun s => sumn K (fun ii => c ii p q * (c ii r s * nth r x 0 * nth s x 0))))).
    + apply sumn_ext. intros r _. rewrite <- sumn_mult_r. apply sumn_ext. intros s _.
      rewrite <- !sumn_mult_r. apply sumn_ext. intros. ring.
    + transitivity (sumn N (fun r => sumn K (fun ii => c ii p q * sumn N (fun s => c ii r s * nth r x 0 * nth s x 0)))).
      * apply sumn_ext. intros r _. rewrite sumn_swap_R. apply sumn_ext. intros. now rewrite sumn_mult.
      * rewrite sumn_swap_R. apply sumn_ext. intros. now rewrite sumn_mult.
  - set (b := fun ii => sumn N (fun r => sumn N (fun s => c ii r s * nth r x 0 * nth s x 0))).
    transitivity (sumn N (fun p => sumn K (fun ii => b ii * sumn N (fun q => c ii p q * nth p x 0 * nth q x 0)))).
    + apply sumn_ext. intros p _. rewrite <- sumn_mult_r.
      transitivity (sumn N (fun q => sumn K (fun ii => b ii * (c ii p q * nth p x 0 * nth q x 0)))).
      * apply sumn_ext. intros q _. rewrite <- !sumn_mult_r. apply sumn_ext. intros. unfold b. ring.
      * rewrite sumn_swap_R. apply sumn_ext. intros. now rewrite sumn_mult.
    + rewrite sumn_swap_R. apply sumn_ext. intros ii _. rewrite sumn_mult. reflexivity.
Qed.

Lemma Finv_entry n EA EMi x i l : (0 < n)%nat -> wf n n EA -> wf n n EMi -> (i < n)%nat -> (l < n)%nat ->
  get (Finv_of EA (reshape n x) EMi) i l =
  sumn (n * n) (fun p => quartic_C1 EA EMi i l (p / n)%nat (p mod n)%nat * nth p x 0).
Proof.
  intros Hn WA WM Hi Hl. unfold Finv_of.
  assert (WEL : wf n n (mmul EA (reshape n x))) by (apply (wf_mmul n n n); auto using wf_reshape).
  rewrite (get_mmul n n n) by auto. rewrite sumn_square.
  transitivity (sumn n (fun k => sumn n (fun j => get EA i j * nth (j * n + k) x 0 * get EMi k l))).
  - apply sumn_ext. intros k Hk. rewrite (get_mmul n n n) by auto using wf_reshape.
    cbn [mul R_ops]. rewrite sumn_mult_r. f_equal. apply sumn_ext. intros j Hj.
    rewrite get_reshape by auto. reflexivity.
  - rewrite sumn_swap_R. apply sumn_ext. intros j Hj. apply sumn_ext. intros k Hk.
    destruct (divmod_idx n j k Hk) as [-> ->]. unfold quartic_C1. ring.
Qed.

Lemma quartic_is_fro n EA EMi x : (0 < n)%nat -> wf n n EA -> wf n n EMi ->
  quartic_form (n * n) (quartic_D n EA EMi) x =
  (let F := Finv_of EA (reshape n x) EMi in fro2 n n (mmul F (tr F))).
Proof.
  intros Hn WA WM. unfold quartic_D. rewrite (quartic_squares (n * n) (n * n) (quartic_C2 n EA EMi)).
  cbn zeta. unfold fro2. rewrite sumn_square. apply sumn_ext. intros i Hi. apply sumn_ext. intros i' Hi'.
  assert (WF := wf_Finv n EA (reshape n x) EMi Hn WA (wf_reshape n x) WM).
  assert (E : sumn (n * n) (fun p => sumn (n * n) (fun q => quartic_C2 n EA EMi (i * n + i') p q * nth p x 0 * nth q x 0))
    = get (mmul (Finv_of EA (reshape n x) EMi) (tr (Finv_of EA (reshape n x) EMi))) i i').
  { rewrite (get_mmul n n n) by auto using wf_tr'.
    unfold quartic_C2. destruct (divmod_idx n i i' Hi') as [-> ->].
    transitivity (sumn (n*n) (fun p => sumn n (fun l => quartic_C1 EA EMi i l (p / n)%nat (p mod n)%nat * nth p x 0 *
       sumn (n*n) (fun q => quartic_C1 EA EMi i' l (q / n)%nat (q mod n)%nat * nth q x 0)))).
    - apply sumn_ext. intros p _.
      transitivity (sumn (n*n) (fun q => sumn n (fun l => quartic_C1 EA EMi i l (p / n)%nat (p mod n)%nat * nth p x 0 *
         (quartic_C1 EA EMi i' l (q / n)%nat (q mod n)%nat * nth q x 0)))).
      + apply sumn_ext. intros q _. rewrite <- !sumn_mult_r. apply sumn_ext. intros. ring.
      + rewrite sumn_swap_R. apply sumn_ext. intros l _. rewrite sumn_mult. reflexivity.
    - rewrite sumn_swap_R. apply sumn_ext. intros l Hl.
      rewrite sumn_mult_r. rewrite (get_tr' n n) by auto.
      rewrite !(Finv_entry n) by auto. reflexivity. }
  rewrite E. reflexivity.
Qed.

Lemma quartic_scale N T c x y : length x = N -> length y = N ->
  (forall k, (k < N)%nat -> nth k y 0 = c * nth k x 0) ->
  quartic_form N T y = c ^ 4 * quartic_form N T x.
Proof.
  intros Hx Hy H. unfold quartic_form.
  rewrite <- sumn_mult. apply sumn_ext. intros p Hp. rewrite H by auto.
  replace (c ^ 4 * (sumn N (fun q => sumn N (fun r => sumn N (fun s => T p q r s * nth s x 0) * nth r x 0) * nth q x 0) * nth p x 0))
    with ((c^3 * sumn N (fun q => sumn N (fun r => sumn N (fun s => T p q r s * nth s x 0) * nth r x 0) * nth q x 0)) * (c * nth p x 0)) by ring.
  f_equal. rewrite <- sumn_mult. apply sumn_ext. intros q Hq. rewrite H by auto.
  replace (c ^ 3 * (sumn N (fun r => sumn N (fun s => T p q r s * nth s x 0) * nth r x 0) * nth q x 0))
    with ((c^2 * sumn N (fun r => sumn N (fun s => T p q r s * nth s x 0) * nth r x 0)) * (c * nth q x 0)) by ring.
  f_equal. rewrite <- sumn_mult. apply sumn_ext. intros r Hr. rewrite H by auto.
  replace (c ^ 2 * (sumn N (fun s => T p q r s * nth s x 0) * nth r x 0))
    with ((c * sumn N (fun s => T p q r s * nth s x 0)) * (c * nth r x 0)) by ring.
  f_equal. rewrite <- sumn_mult. apply sumn_ext. intros s Hs. rewrite H by auto. ring.
Qed.

Lemma len2_nonneg x : 0 <= len2 x.
Proof. apply sumn_nonneg. intros. nra. Qed.

Lemma quartic_lower n EA EMi alpha x : (0 < n)%nat -> wf n n EA -> wf n n EMi ->
  (forall u, length u = (n * n)%nat -> len2 u = 1 -> alpha <= quartic_form (n * n) (quartic_D n EA EMi) u) ->
  length x = (n * n)%nat -> alpha * (len2 x) ^ 2 <= quartic_form (n * n) (quartic_D n EA EMi) x.
Proof.
  intros Hn WA WM Ha Hx. pose proof (len2_nonneg x) as H0.
  destruct (Req_dec (len2 x) 0) as [E|E].
  - rewrite E. replace (alpha * 0 ^ 2) with 0 by ring.
    rewrite (quartic_is_fro n) by auto. apply fro2_nonneg.
  - assert (H1 : 0 < len2 x) by lra. set (s := sqrt (len2 x)).
    assert (Hs : 0 < s) by (apply sqrt_lt_R0; exact H1).
    assert (Hss : s * s = len2 x) by (apply sqrt_sqrt; lra).
    set (u := map (fun t => / s * t) x).
    assert (Lu : length u = (n * n)%nat) by (unfold u; now rewrite map_length).
    assert (Nu : forall k, (k < n * n)%nat -> nth k u 0 = / s * nth k x 0).
    { intros k Hk. unfold u. rewrite (nth_indep _ 0 (/ s * 0)) by (now rewrite map_length, Hx).
      apply (map_nth (fun t => / s * t)). }
    assert (U1 : len2 u = 1).
    { unfold len2. rewrite Lu. transitivity (/ s * / s * len2 x).
      - unfold len2. rewrite Hx, <- sumn_mult. apply sumn_ext. intros k Hk. rewrite Nu by auto. ring.
      - rewrite <- Hss. field. lra. }
    specialize (Ha u Lu U1).
    rewrite (quartic_scale (n * n) _ (/ s) x u Hx Lu Nu) in Ha.
    assert (P : 0 < s ^ 4) by (apply pow_lt; exact Hs).
    rewrite <- Hss.
    apply (Rmult_le_compat_l (s ^ 4)) in Ha; [|lra].
    replace (s ^ 4 * ((/ s) ^ 4 * quartic_form (n * n) (quartic_D n EA EMi) x))
      with (quartic_form (n * n) (quartic_D n EA EMi) x) in Ha by (field; lra).
    nra.
Qed.

Lemma fro_triangle n C d : (0 < n <= 3)%nat -> wf n n C ->
  fro2 n n (msub C (eye n)) <= d -> fro2 n n C <= gamma d.
Proof.
  intros Hn WC H.
  assert (d0 : 0 <= d) by (pose proof (fro2_nonneg n n (msub C (eye n))); lra).
  set (e := msub C (eye n)) in *.
  assert (E : fro2 n n C = sumn (n*n) (fun p =>
     (get (eye n) (p/n)%nat (p mod n)%nat + get e (p/n)%nat (p mod n)%nat) *
     (get (eye n) (p/n)%nat (p mod n)%nat + get e (p/n)%nat (p mod n)%nat))).
  { unfold fro2. rewrite sumn_square. apply sumn_ext. intros i Hi. apply sumn_ext. intros j Hj.
    destruct (divmod_idx n i j Hj) as [-> ->]. unfold e. rewrite (get_msub n n) by auto. cbn [sub R_ops].
    replace (get (eye n) i j + (get C i j - get (eye n) i j)) with (get C i j) by ring. reflexivity. }
  assert (Ee : sumn (n*n) (fun p => get e (p/n)%nat (p mod n)%nat * get e (p/n)%nat (p mod n)%nat) = fro2 n n e).
  { unfold fro2. rewrite sumn_square. apply sumn_ext. intros i Hi. apply sumn_ext. intros j Hj.
    now destruct (divmod_idx n i j Hj) as [-> ->]. }
  assert (Ei : sumn (n*n) (fun p => get (@eye R _ n) (p/n)%nat (p mod n)%nat * get (@eye R _ n) (p/n)%nat (p mod n)%nat) = INR n).
  { rewrite sumn_square. rewrite <- (Rmult_1_r (INR n)), <- sumn_const. apply sumn_ext. intros i Hi.
    rewrite (sumn_single n i); [|exact Hi|].
    2:{ intros k Hk Hne; destruct (divmod_idx n i k Hk) as [-> ->].
      rewrite get_eye by auto; destruct (Nat.eqb_spec i k); [congruence|]; cbn; ring. }
    destruct (divmod_idx n i i Hi) as [-> ->]. rewrite get_eye, Nat.eqb_refl by auto. cbn. ring. }
  pose proof (minkowski (n*n) (fun p => get (@eye R _ n) (p/n)%nat (p mod n)%nat) (fun p => get e (p/n)%nat (p mod n)%nat)) as M.
  cbn beta in M. rewrite <- E, Ee, Ei in M.
  assert (HI : INR n <= 3).
  { destruct Hn as [_ Hn]. apply le_INR in Hn. cbn in Hn. lra. }
  assert (S1 : sqrt (INR n) <= sqrt 3) by (apply sqrt_le_1_alt; exact HI).
  assert (S2 : sqrt (fro2 n n e) <= sqrt d) by (apply sqrt_le_1_alt; exact H).
  pose proof (fro2_nonneg n n C) as F0. pose proof (sqrt_pos (fro2 n n C)) as P0.
  pose proof (sqrt_pos 3) as P1. pose proof (sqrt_pos d) as P2.
  assert (B : sqrt (fro2 n n C) <= sqrt 3 + sqrt d) by lra.
  rewrite <- (sqrt_sqrt (fro2 n n C)) by exact F0. unfold gamma. rewrite sqrt_mult by lra.
  assert (Q3 : sqrt 3 * sqrt 3 = 3) by (apply sqrt_sqrt; lra).
  assert (Qd : sqrt d * sqrt d = d) by (apply sqrt_sqrt; lra). nra.
Qed.

Lemma radius_sound n EA EMi alpha d x : (0 < n <= 3)%nat -> wf n n EA -> wf n n EMi -> 0 < alpha ->
  (forall u, length u = (n * n)%nat -> len2 u = 1 -> alpha <= quartic_form (n * n) (quartic_D n EA EMi) u) ->
  length x = (n * n)%nat -> Cauchy_dist x EA EMi <= d -> sqrt (len2 x) <= rmax alpha d.
Proof.
  intros Hn WA WM Ha Hm Hx Hd.
  pose proof (quartic_lower n EA EMi alpha x ltac:(lia) WA WM Hm Hx) as Q.
  rewrite (quartic_is_fro n) in Q by (auto; lia). cbn zeta in Q.
  rewrite (Cauchy_fro n) in Hd by (auto; lia). cbn zeta in Hd.
  assert (WF := wf_Finv n EA (reshape n x) EMi ltac:(lia) WA (wf_reshape n x) WM).
  apply fro_triangle in Hd; [|exact Hn|apply (wf_mmul n n n); auto using wf_tr'; try apply wf_tr'; auto; lia].
  unfold rmax. apply sqrt_le_1_alt. rewrite <- (sqrt_pow2 (len2 x)) by apply len2_nonneg.
  apply sqrt_le_1_alt. apply Rmult_le_reg_l with alpha; [exact Ha|].
  replace (alpha * (gamma d / alpha)) with (gamma d) by (field; lra). lra.
Qed.

(** A positive lower bound of the quartic form always exists for invertible bases. *)
Lemma sumn_le n (f g : nat -> R) : (forall k, (k < n)%nat -> f k <= g k) -> sumn n f <= sumn n g.
Proof.
  induction n; intros H; cbn; [lra|]. specialize (IHn ltac:(intros; apply H; lia)).
  specialize (H n ltac:(lia)). lra.
Qed.

Lemma fro2_mmul_le n (M N : mat R) : (0 < n)%nat -> wf n n M -> wf n n N ->
  fro2 n n (mmul M N) <= fro2 n n M * fro2 n n N.
Proof.
  intros Hn WM WN. unfold fro2 at 1.
  apply Rle_trans with (sumn n (fun i => sumn n (fun j =>
    sumn n (fun k => get M i k * get M i k) * sumn n (fun k => get N k j * get N k j)))).
  - apply sumn_le. intros i Hi. apply sumn_le. intros j Hj.
    rewrite (get_mmul n n n) by auto.
    pose proof (cauchy_schwarz n (fun k => get M i k) (fun k => get N k j)) as C. cbn beta in C.
    cbn [pow] in C. rewrite Rmult_1_r in C. exact C.
  - unfold fro2. rewrite <- sumn_mult_r. right. apply sumn_ext. intros i Hi.
    rewrite sumn_mult. f_equal. rewrite sumn_swap_R. reflexivity.
Qed.

Lemma fro2_gram_lower n (F : mat R) : (0 < n)%nat -> wf n n F ->
  (fro2 n n F) ^ 2 <= INR n * fro2 n n (mmul F (tr F)).
Proof.
  intros Hn WF. assert (WT : wf n n (tr F)) by (apply wf_tr'; auto).
  assert (WC : wf n n (mmul F (tr F))) by (apply (wf_mmul n n n); auto).
  assert (E : fro2 n n F = sumn n (fun i => 1 * get (mmul F (tr F)) i i)).
  { rewrite (fro2_trace_r n n) by auto. unfold trace. rewrite (nrows_wf _ _ _ WC).
    apply sumn_ext. intros. ring. }
  rewrite E. pose proof (cauchy_schwarz n (fun _ => 1) (fun i => get (mmul F (tr F)) i i)) as C.
  cbn beta in C. rewrite (sumn_const n (1 * 1)), Rmult_1_r, Rmult_1_r in C.
  eapply Rle_trans; [exact C|]. apply Rmult_le_compat_l; [apply pos_INR|].
  unfold fro2. apply sumn_le. intros i Hi.
  apply Rle_trans with (sumn n (fun j => if (i =? j)%nat then get (mmul F (tr F)) i j * get (mmul F (tr F)) i j else 0)).
  - right. symmetry. rewrite (sumn_single n i); auto.
    + now rewrite Nat.eqb_refl.
    + intros k Hk Hne. destruct (Nat.eqb_spec i k); [congruence|reflexivity].
  - apply sumn_le. intros j Hj. destruct (i =? j)%nat; nra.
Qed.

Lemma fro2_pos n (M : mat R) : dim23 n -> wf n n M -> det M <> 0 -> 0 < fro2 n n M.
Proof.
  intros Hd WM D. pose proof (fro2_nonneg n n M) as H.
  destruct (Req_dec (fro2 n n M) 0) as [Z|]; [|lra]. exfalso. apply D.
  assert (Z' := fro2_zero n n _ Z). destruct Hd as [->| ->].
  - apply wf2_inv in WM. destruct WM as (a & b & c & d & Eq). rewrite Eq in *.
    pose proof (Z' 0%nat 0%nat ltac:(lia) ltac:(lia)) as Q1. pose proof (Z' 0%nat 1%nat ltac:(lia) ltac:(lia)) as Q2.
    cbn in Q1, Q2. subst. rewrite det2. ring.
  - apply wf3_inv in WM. destruct WM as (a & b & c & d & e & f & g & h & i & Eq). rewrite Eq in *.
    pose proof (Z' 0%nat 0%nat ltac:(lia) ltac:(lia)) as Q1. pose proof (Z' 0%nat 1%nat ltac:(lia) ltac:(lia)) as Q2.
    pose proof (Z' 0%nat 2%nat ltac:(lia) ltac:(lia)) as Q3.
    cbn in Q1, Q2, Q3. subst. rewrite det3. ring.
Qed.

Lemma len2_fro n x : length x = (n * n)%nat -> len2 x = fro2 n n (reshape n x).
Proof.
  intros Hx. unfold len2, fro2. rewrite Hx, sumn_square. apply sumn_ext. intros i Hi.
  apply sumn_ext. intros j Hj. now rewrite get_reshape.
Qed.

Lemma quartic_positive n EA EM : dim23 n -> wf n n EA -> wf n n EM -> det EA <> 0 -> det EM <> 0 ->
  exists alpha, 0 < alpha /\
    forall u, length u = (n * n)%nat -> len2 u = 1 ->
      alpha <= quartic_form (n * n) (quartic_D n EA (minv EM)) u.
Proof.
  intros Hd WA WM DA DM. pose proof (dim23_pos n Hd) as Hn.
  assert (WIA := wf_minv n EA Hd WA). assert (WIM := wf_minv n EM Hd WM).
  set (a := fro2 n n (minv EA)). set (m := fro2 n n EM).
  assert (Pa : 0 < a) by (apply fro2_pos; auto; now apply (det_minv_neq0 n)).
  assert (Pm : 0 < m) by (apply fro2_pos; auto).
  assert (PN : 0 < INR n) by (apply lt_0_INR; lia).
  set (K := INR n * (a * m) ^ 2).
  assert (PK : 0 < K) by (unfold K; apply Rmult_lt_0_compat; [exact PN|apply pow_lt; nra]).
  exists (/ K). split; [now apply Rinv_0_lt_compat|].
  intros u Lu U1. rewrite (quartic_is_fro n) by auto. cbn zeta.
  set (L := reshape n u). assert (WL : wf n n L) by apply wf_reshape.
  set (F := Finv_of EA L (minv EM)). assert (WF : wf n n F) by (apply wf_Finv; auto).
  assert (WEL : wf n n (mmul EA L)) by (apply (wf_mmul n n n); auto).
  assert (EL : L = mmul (mmul (minv EA) F) EM).
  { unfold F, Finv_of. rewrite <- (mmul_assoc n n n n (minv EA)) by auto.
    rewrite <- (mmul_assoc n n n n (minv EA)), (minv_l n), (mmul_eye_l n n) by auto.
    rewrite (mmul_assoc n n n n), (minv_l n), (mmul_eye_r n n) by auto. reflexivity. }
  assert (B : 1 <= a * fro2 n n F * m).
  { rewrite <- U1, (len2_fro n) by auto. fold L. rewrite EL at 1.
    eapply Rle_trans; [apply fro2_mmul_le; auto; apply (wf_mmul n n n); auto|].
    apply Rmult_le_compat_r; [unfold m in *; lra|]. now apply fro2_mmul_le. }
  pose proof (fro2_gram_lower n F Hn WF) as G. pose proof (fro2_nonneg n n F) as F0.
  apply Rmult_le_reg_l with K; [exact PK|]. rewrite Rinv_r by lra.
  apply Rle_trans with ((a * m) ^ 2 * (fro2 n n F) ^ 2).
  - rewrite <- Rpow_mult_distr. rewrite <- (pow1 2). apply pow_incr. split; [lra|]. nra.
  - unfold K. replace (INR n * (a * m) ^ 2 * fro2 n n (mmul F (tr F)))
      with ((a * m) ^ 2 * (INR n * fro2 n n (mmul F (tr F)))) by ring.
    apply Rmult_le_compat_l; [apply pow_le; nra|exact G].
Qed.
