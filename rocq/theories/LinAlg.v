(** Linear algebra of real matrices: transposes, inverses in dimension 2 and 3,
    orthogonal matrices, the Frobenius norm, Cauchy-Schwarz.

    [minv]/[inv] model la.inv (numpy.linalg.inv) on 2x2 and 3x3 matrices: the exact
    inverse by cofactors; a singular matrix raises LinAlgError.  (numpy computes it by
    LU factorisation in floating point; the model is the exact result.) *)
From Verif Require Export RMat GroupSpec.
Local Open Scope R_scope.

Definition dim23 (n : nat) : Prop := n = 2%nat \/ n = 3%nat.

Lemma dim23_pos n : dim23 n -> (0 < n)%nat.
Proof. intros [->| ->]; lia. Qed.
Global Hint Resolve dim23_pos : core.

(** ** Reading entries *)
Section Poly.
  Context {A : Type} {O : Ops A}.
  Lemma wf_tr' n m (M : mat A) : (0 < n)%nat -> wf n m M -> wf m n (tr M).
  Proof. destruct n; [lia|]. intros _. apply wf_tr. Qed.
  Lemma get_tr' n m (M : mat A) i j : wf n m M -> (i < m)%nat -> (j < n)%nat -> get (tr M) i j = get M j i.
  Proof. destruct n; [lia|]. intros. now apply (get_tr n m). Qed.
  Lemma ncols_wf' n m (M : mat A) : (0 < n)%nat -> wf n m M -> ncols M = m.
  Proof. destruct n; [lia|]. intros _. apply ncols_wf. Qed.
  Lemma wf_madd n m (M N : mat A) : (0 < n)%nat -> wf n m M -> wf n m (madd M N).
  Proof. intros Hn H. unfold madd. rewrite (nrows_wf _ _ _ H), (ncols_wf' _ _ _ Hn H). apply wf_mk. Qed.
  Lemma wf_msub n m (M N : mat A) : (0 < n)%nat -> wf n m M -> wf n m (msub M N).
  Proof. intros Hn H. unfold msub. rewrite (nrows_wf _ _ _ H), (ncols_wf' _ _ _ Hn H). apply wf_mk. Qed.
  Lemma wf_mopp n m (M : mat A) : (0 < n)%nat -> wf n m M -> wf n m (mopp M).
  Proof. intros Hn H. unfold mopp. rewrite (nrows_wf _ _ _ H), (ncols_wf' _ _ _ Hn H). apply wf_mk. Qed.
  Lemma wf_mscale n m c (M : mat A) : (0 < n)%nat -> wf n m M -> wf n m (mscale c M).
  Proof. intros Hn H. unfold mscale. rewrite (nrows_wf _ _ _ H), (ncols_wf' _ _ _ Hn H). apply wf_mk. Qed.
  Lemma wf_diag n (d : list A) : length d = n -> wf n n (diag d).
  Proof. intros <-. apply wf_mk. Qed.
  Lemma get_madd n m (M N : mat A) i j : wf n m M -> (i < n)%nat -> (j < m)%nat ->
    get (madd M N) i j = add (get M i j) (get N i j).
  Proof. intros H Hi Hj. unfold madd. rewrite (nrows_wf _ _ _ H), (ncols_wf' n m _ ltac:(lia) H). now rewrite get_mk. Qed.
  Lemma get_msub n m (M N : mat A) i j : wf n m M -> (i < n)%nat -> (j < m)%nat ->
    get (msub M N) i j = sub (get M i j) (get N i j).
  Proof. intros H Hi Hj. unfold msub. rewrite (nrows_wf _ _ _ H), (ncols_wf' n m _ ltac:(lia) H). now rewrite get_mk. Qed.
  Lemma get_mopp n m (M : mat A) i j : wf n m M -> (i < n)%nat -> (j < m)%nat ->
    get (mopp M) i j = opp (get M i j).
  Proof. intros H Hi Hj. unfold mopp. rewrite (nrows_wf _ _ _ H), (ncols_wf' n m _ ltac:(lia) H). now rewrite get_mk. Qed.
  Lemma get_mscale n m c (M : mat A) i j : wf n m M -> (i < n)%nat -> (j < m)%nat ->
    get (mscale c M) i j = mul c (get M i j).
  Proof. intros H Hi Hj. unfold mscale. rewrite (nrows_wf _ _ _ H), (ncols_wf' n m _ ltac:(lia) H). now rewrite get_mk. Qed.
  Lemma get_diag n (d : list A) i j : length d = n -> (i < n)%nat -> (j < n)%nat ->
    get (diag d) i j = if (i =? j)%nat then nth i d zero else zero.
  Proof. intros <- Hi Hj. unfold diag. now rewrite get_mk. Qed.
  Lemma tr_tr n m (M : mat A) : (0 < n)%nat -> (0 < m)%nat -> wf n m M -> tr (tr M) = M.
  Proof.
    intros Hn Hm H. apply (mat_ext n m); auto using wf_tr'.
    intros i j Hi Hj. rewrite (get_tr' m n), (get_tr' n m); auto using wf_tr'.
  Qed.
  Lemma tr_eye n : (0 < n)%nat -> tr (eye n) = @eye A O n.
  Proof.
    intros Hn. apply (mat_ext n n); auto using wf_tr', wf_eye.
    intros i j Hi Hj. rewrite (get_tr' n n), !get_eye; auto using wf_eye.
    now rewrite Nat.eqb_sym.
  Qed.
End Poly.

(** ** Ring facts for real matrices *)
Lemma sumn_eq_R n (f g : nat -> R) : (forall k, (k < n)%nat -> f k = g k) -> sumn n f = sumn n g.
Proof. apply sumn_ext. Qed.

Lemma sumn_nonneg n (f : nat -> R) : (forall k, (k < n)%nat -> 0 <= f k) -> 0 <= sumn n f.
Proof.
  induction n; intros H; cbn; [lra|]. specialize (IHn ltac:(intros; apply H; lia)).
  specialize (H n ltac:(lia)). lra.
Qed.

Lemma sumn_nonneg_0 n (f : nat -> R) : (forall k, (k < n)%nat -> 0 <= f k) -> sumn n f = 0 ->
  forall k, (k < n)%nat -> f k = 0.
Proof.
  induction n; intros H E k Hk; [lia|]. cbn in E.
  pose proof (sumn_nonneg n f ltac:(intros; apply H; lia)). pose proof (H n ltac:(lia)).
  destruct (Nat.eq_dec k n) as [->|]; [lra|]. apply IHn; [intros; apply H; lia|lra|lia].
Qed.

Lemma tr_mmul n m p (M N : mat R) : (0 < n)%nat -> (0 < m)%nat -> (0 < p)%nat ->
  wf n m M -> wf m p N -> tr (mmul M N) = mmul (tr N) (tr M).
Proof.
  intros Hn Hm Hp HM HN.
  apply (mat_ext p n); [apply wf_tr', (wf_mmul n m p); auto|apply (wf_mmul p m n); auto using wf_tr'|].
  intros i j Hi Hj. rewrite (get_tr' n p) by (auto; apply (wf_mmul n m p); auto).
  rewrite (get_mmul n m p), (get_mmul p m n); auto using wf_tr'.
  apply sumn_ext. intros k Hk. rewrite (get_tr' n m M), (get_tr' m p N) by auto. apply Rmult_comm.
Qed.

(** Frobenius inner product *)
Definition fro2 (n m : nat) (M : mat R) : R := sumn n (fun i => sumn m (fun j => get M i j * get M i j)).

Lemma fro2_nonneg n m M : 0 <= fro2 n m M.
Proof. apply sumn_nonneg. intros. apply sumn_nonneg. intros. nra. Qed.

Lemma fro2_zero n m M : fro2 n m M = 0 -> forall i j, (i < n)%nat -> (j < m)%nat -> get M i j = 0.
Proof.
  intros H i j Hi Hj.
  assert (H1 := sumn_nonneg_0 n _ (fun i _ => sumn_nonneg m _ (fun j _ => Rle_0_sqr (get M i j))) H i Hi).
  assert (H2 := sumn_nonneg_0 m _ (fun j _ => Rle_0_sqr (get M i j)) H1 j Hj).
  cbn in H2. unfold Rsqr in H2. nra.
Qed.

(** Cauchy-Schwarz *)
Lemma cauchy_schwarz n (f g : nat -> R) :
  (sumn n (fun k => f k * g k))^2 <= sumn n (fun k => f k * f k) * sumn n (fun k => g k * g k).
Proof.
  induction n; cbn; [lra|].
  set (A := sumn n (fun k => f k * f k)) in *. set (B := sumn n (fun k => g k * g k)) in *.
  set (S := sumn n (fun k => f k * g k)) in *.
  assert (HA : 0 <= A) by (apply sumn_nonneg; intros; nra).
  assert (HB : 0 <= B) by (apply sumn_nonneg; intros; nra).
  cbn in IHn. ring_simplify in IHn.
  set (x := f n). set (y := g n).
  assert (HS : 2 * S * x * y <= A * (y * y) + B * (x * x)).
  { (* |S| <= sqrt(AB) and AM-GM *)
    destruct (Req_dec A 0) as [E|E].
    - rewrite E in *. assert (S = 0) by nra. rewrite H. nra.
    - assert (0 < A) by lra.
      assert (A * (2 * S * x * y) <= A * (A * (y * y) + B * (x * x))).
      { assert (0 <= (A * y - S * x)^2) by apply pow2_ge_0.
        assert (0 <= (A * B - S * S) * (x * x)) by (apply Rmult_le_pos; nra). nra. }
      apply Rmult_le_reg_l with A; lra. }
  nra.
Qed.

Lemma sumn_plus n (f g : nat -> R) : sumn n (fun k => f k + g k) = sumn n f + sumn n g.
Proof. induction n; cbn; lra. Qed.
Lemma sumn_mult n c (f : nat -> R) : sumn n (fun k => c * f k) = c * sumn n f.
Proof. induction n; cbn; [lra|]. cbn in IHn. rewrite IHn. ring. Qed.
Lemma sumn_minus n (f g : nat -> R) : sumn n (fun k => f k - g k) = sumn n f - sumn n g.
Proof. induction n; cbn; lra. Qed.
Lemma sumn_const n (c : R) : sumn n (fun _ => c) = INR n * c.
Proof. induction n; [cbn; lra|]. cbn [sumn]. rewrite IHn, S_INR. cbn. ring. Qed.
Lemma sumn_R0 n (f : nat -> R) : (forall k, (k < n)%nat -> f k = 0) -> sumn n f = 0.
Proof. induction n; intros H; cbn; [reflexivity|]. rewrite IHn, H by (intros; auto); cbn; lra. Qed.

(** triangle inequality *)
Lemma minkowski n (f g : nat -> R) :
  sqrt (sumn n (fun k => (f k + g k) * (f k + g k))) <=
  sqrt (sumn n (fun k => f k * f k)) + sqrt (sumn n (fun k => g k * g k)).
Proof.
  set (A := sumn n (fun k => f k * f k)). set (B := sumn n (fun k => g k * g k)).
  assert (HA : 0 <= A) by (apply sumn_nonneg; intros; nra).
  assert (HB : 0 <= B) by (apply sumn_nonneg; intros; nra).
  pose proof (sqrt_pos A). pose proof (sqrt_pos B).
  rewrite <- (sqrt_pow2 (sqrt A + sqrt B)) by lra. apply sqrt_le_1_alt.
  replace (sumn n (fun k => (f k + g k) * (f k + g k))) with (A + 2 * sumn n (fun k => f k * g k) + B).
  2:{ unfold A, B. rewrite <- sumn_mult, <- !sumn_plus. apply sumn_ext. intros. ring. }
  assert (sumn n (fun k => f k * g k) <= sqrt A * sqrt B).
  { rewrite <- sqrt_mult by assumption.
    eapply Rle_trans; [apply Rle_abs|]. rewrite <- sqrt_Rsqr_abs. apply sqrt_le_1_alt.
    pose proof (cauchy_schwarz n f g) as C. fold A B in C. unfold Rsqr. cbn in C. lra. }
  assert (sqrt A ^ 2 = A) by (apply pow2_sqrt; assumption).
  assert (sqrt B ^ 2 = B) by (apply pow2_sqrt; assumption). nra.
Qed.

(** ** Inverses in dimension 2 and 3 *)
Definition minv (M : mat R) : mat R :=
  match M with
  | [[a; b]; [c; d]] =>
    let D := det M in [[d / D; - b / D]; [- c / D; a / D]]
  | [[a; b; c]; [d; e; f]; [g; h; i]] =>
    let D := det M in
    [[(e * i - f * h) / D; (c * h - b * i) / D; (b * f - c * e) / D];
     [(f * g - d * i) / D; (a * i - c * g) / D; (c * d - a * f) / D];
     [(d * h - e * g) / D; (b * g - a * h) / D; (a * e - b * d) / D]]
  | _ => []
  end.
Definition inv (M : mat R) : res (mat R) := if Reqb (det M) 0 then Raise LinAlgError else Ok (minv M).

Ltac dim_cases Hd HM :=
  destruct Hd as [->| ->];
  [apply wf2_inv in HM; destruct HM as (?a & ?b & ?c & ?d & ->)
  |apply wf3_inv in HM; destruct HM as (?a & ?b & ?c & ?d & ?e & ?f & ?g & ?h & ?i & ->)].

Lemma wf_minv n M : dim23 n -> wf n n M -> wf n n (minv M).
Proof. intros Hd HM. dim_cases Hd HM; apply wfb_spec; reflexivity. Qed.

Lemma det2 (a b c d : R) : det [[a; b]; [c; d]] = a * d - b * c.
Proof. mat_unfold_goal. ring. Qed.
Lemma det3 (a b c d e f g h i : R) : det [[a; b; c]; [d; e; f]; [g; h; i]] =
  a * (e * i - f * h) - b * (d * i - f * g) + c * (d * h - e * g).
Proof. mat_unfold_goal. ring. Qed.

Lemma minv_r n M : dim23 n -> wf n n M -> det M <> 0 -> mmul M (minv M) = eye n.
Proof.
  intros Hd HM D. dim_cases Hd HM; cbn [minv]; [rewrite det2 in *|rewrite det3 in *];
  mat_unfold_goal; repeat (apply f_equal2 || apply (f_equal2 (@cons _)) || reflexivity);
  try (field; exact D).
Qed.
Lemma minv_l n M : dim23 n -> wf n n M -> det M <> 0 -> mmul (minv M) M = eye n.
Proof.
  intros Hd HM D. dim_cases Hd HM; cbn [minv]; [rewrite det2 in *|rewrite det3 in *];
  mat_unfold_goal; repeat (apply f_equal2 || apply (f_equal2 (@cons _)) || reflexivity);
  try (field; exact D).
Qed.
Lemma det_mmul n M N : dim23 n -> wf n n M -> wf n n N -> det (mmul M N) = det M * det N.
Proof.
  intros Hd HM HN. destruct Hd as [->| ->].
  - apply wf2_inv in HM, HN. destruct HM as (a & b & c & d & ->). destruct HN as (a' & b' & c' & d' & ->).
    mat_unfold_goal. ring.
  - apply wf3_inv in HM, HN. destruct HM as (a & b & c & d & e & f & g & h & i & ->).
    destruct HN as (a' & b' & c' & d' & e' & f' & g' & h' & i' & ->).
    mat_unfold_goal. ring.
Qed.
Lemma det_eye n : dim23 n -> det (@eye R _ n) = 1.
Proof. intros [->| ->]; mat_unfold_goal; ring. Qed.
Lemma det_tr n M : dim23 n -> wf n n M -> det (tr M) = det M.
Proof. intros Hd HM. dim_cases Hd HM; mat_unfold_goal; ring. Qed.
Lemma det_mscale n c M : dim23 n -> wf n n M -> det (mscale c M) = c ^ n * det M.
Proof. intros Hd HM. dim_cases Hd HM; mat_unfold_goal; ring. Qed.

Lemma inv_unique n M N : dim23 n -> wf n n M -> wf n n N -> mmul M N = eye n ->
  det M <> 0 /\ N = minv M.
Proof.
  intros Hd HM HN E.
  assert (D : det M * det N = 1) by (rewrite <- (det_mmul n), E by assumption; now apply det_eye).
  assert (D0 : det M <> 0) by (intros H0; rewrite H0 in D; lra). split; [exact D0|].
  rewrite <- (mmul_eye_l n n N), <- (minv_l n M) by auto.
  rewrite (mmul_assoc n n n n), E by (auto; now apply wf_minv).
  apply (mmul_eye_r n n); auto. now apply wf_minv.
Qed.
Lemma inv_comm n M N : dim23 n -> wf n n M -> wf n n N -> mmul M N = eye n -> mmul N M = eye n.
Proof.
  intros Hd HM HN E. destruct (inv_unique n M N Hd HM HN E) as [D ->]. now apply minv_l.
Qed.
Lemma inv_l_unique n M N : dim23 n -> wf n n M -> wf n n N -> mmul N M = eye n ->
  det M <> 0 /\ N = minv M.
Proof. intros Hd HM HN E. apply (inv_unique n); auto. now apply inv_comm. Qed.
Lemma det_minv n M : dim23 n -> wf n n M -> det M <> 0 -> det (minv M) = / det M.
Proof.
  intros Hd HM D. apply (Rmult_eq_reg_l (det M)); [|exact D].
  rewrite <- (det_mmul n), (minv_r n), Rinv_r by (auto using wf_minv). now apply det_eye.
Qed.
Lemma det_minv_neq0 n M : dim23 n -> wf n n M -> det M <> 0 -> det (minv M) <> 0.
Proof. intros Hd HM D. rewrite (det_minv n) by assumption. now apply Rinv_neq_0_compat. Qed.
Lemma minv_mmul n M N : dim23 n -> wf n n M -> wf n n N -> det M <> 0 -> det N <> 0 ->
  minv (mmul M N) = mmul (minv N) (minv M).
Proof.
  intros Hd HM HN DM DN. pose proof (dim23_pos n Hd) as Hn. symmetry.
  assert (W1 := wf_minv n M Hd HM). assert (W2 := wf_minv n N Hd HN).
  apply (inv_unique n); auto; [apply (wf_mmul n n n); auto|apply (wf_mmul n n n); auto|].
  rewrite (mmul_assoc n n n n), <- (mmul_assoc n n n n N), (minv_r n N), (mmul_eye_l n n); auto.
  - now apply minv_r.
  - apply (wf_mmul n n n); auto.
Qed.
Lemma minv_minv n M : dim23 n -> wf n n M -> det M <> 0 -> minv (minv M) = M.
Proof.
  intros Hd HM D. symmetry. apply (inv_unique n); auto using wf_minv. now apply minv_l.
Qed.
Lemma minv_eye n : dim23 n -> minv (eye n) = eye n.
Proof.
  intros Hd. symmetry. apply (inv_unique n); auto using wf_eye.
  apply (mmul_eye_l n n); auto using wf_eye.
Qed.
Lemma minv_tr n M : dim23 n -> wf n n M -> det M <> 0 -> minv (tr M) = tr (minv M).
Proof.
  intros Hd HM D. pose proof (dim23_pos n Hd). symmetry. apply (inv_unique n); auto using wf_tr', wf_minv.
  rewrite <- (tr_mmul n n n), (minv_l n) by auto using wf_minv. now apply tr_eye.
Qed.
Lemma inv_Ok n M : dim23 n -> wf n n M -> det M <> 0 -> inv M = Ok (minv M).
Proof. intros. unfold inv. now rewrite (proj2 (Reqb_false _ _)). Qed.

(** ** Orthogonal matrices *)
Lemma orth_wf n Q : orthogonal n Q -> wf n n Q.
Proof. now intros []. Qed.
Lemma orth_l n (Q : mat R) : dim23 n -> orthogonal n Q -> mmul (tr Q) Q = eye n.
Proof. intros Hd [HQ E]. apply inv_comm; auto using wf_tr'. Qed.
Lemma orth_tr n (Q : mat R) : dim23 n -> orthogonal n Q -> orthogonal n (tr Q).
Proof.
  intros Hd HQ. split; [apply wf_tr'; auto; now destruct HQ|].
  rewrite (tr_tr n n); auto; [now apply orth_l|now destruct HQ].
Qed.
Lemma orth_inv n (Q : mat R) : dim23 n -> orthogonal n Q -> minv Q = tr Q /\ det Q <> 0.
Proof.
  intros Hd [HQ E]. destruct (inv_unique n Q (tr Q)); auto using wf_tr'.
Qed.
Lemma orth_mmul n (P Q : mat R) : (0 < n)%nat -> orthogonal n P -> orthogonal n Q -> orthogonal n (mmul P Q).
Proof.
  intros Hn [HP EP] [HQ EQ]. split; [apply (wf_mmul n n n); auto|].
  rewrite (tr_mmul n n n) by auto.
  assert (wf n n (tr P)) by (apply wf_tr'; auto). assert (wf n n (tr Q)) by (apply wf_tr'; auto).
  rewrite (mmul_assoc n n n n) by (auto; apply (wf_mmul n n n); auto).
  rewrite <- (mmul_assoc n n n n Q), EQ, (mmul_eye_l n n) by auto. exact EP.
Qed.
Lemma orth_eye n : (0 < n)%nat -> orthogonal n (@eye R _ n).
Proof.
  intros Hn. split; [apply wf_eye|]. rewrite tr_eye by exact Hn.
  apply (mmul_eye_l n n); auto using wf_eye.
Qed.

Lemma mmul_cancel_l n (M N P : mat R) : dim23 n -> wf n n M -> wf n n N -> wf n n P ->
  det M <> 0 -> mmul M N = mmul M P -> N = P.
Proof.
  intros Hd HM HN HP D E. pose proof (dim23_pos n Hd).
  rewrite <- (mmul_eye_l n n N), <- (mmul_eye_l n n P), <- (minv_l n M) by auto.
  rewrite !(mmul_assoc n n n n) by (auto using wf_minv). now rewrite E.
Qed.
Lemma mmul_cancel_r n (M N P : mat R) : dim23 n -> wf n n M -> wf n n N -> wf n n P ->
  det M <> 0 -> mmul N M = mmul P M -> N = P.
Proof.
  intros Hd HM HN HP D E. pose proof (dim23_pos n Hd).
  rewrite <- (mmul_eye_r n n N), <- (mmul_eye_r n n P), <- (minv_r n M) by auto.
  rewrite <- !(mmul_assoc n n n n) by (auto using wf_minv). now rewrite E.
Qed.
