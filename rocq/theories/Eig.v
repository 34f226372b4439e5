(** What the models assume about numpy.linalg.eig: the eigenvalue solver itself is not
    modelled; [eigen n C lam V] says that (lam, V) is an exact eigendecomposition
    C V = V diag(lam) with V invertible, which is what la.eig returns for a
    diagonalisable matrix (floating-point error aside).  This file proves that the
    eigenvalues are then determined up to order (dimension 2 and 3). *)
From Verif Require Export LinAlg.
From Coq Require Export Permutation.
Local Open Scope R_scope.

Definition eigen (n : nat) (C : mat R) (lam : list R) (V : mat R) : Prop :=
  wf n n C /\ wf n n V /\ length lam = n /\ det V <> 0 /\ mmul C V = mmul V (diag lam).

Lemma eigen_form n C lam V : dim23 n -> eigen n C lam V ->
  C = mmul (mmul V (diag lam)) (minv V).
Proof.
  intros Hd (WC & WV & Hl & D & E). pose proof (dim23_pos n Hd).
  rewrite <- E, (mmul_assoc n n n n), (minv_r n), (mmul_eye_r n n) by auto using wf_minv. reflexivity.
Qed.

Lemma eigen_of_form n C lam V : dim23 n -> wf n n V -> length lam = n -> det V <> 0 ->
  C = mmul (mmul V (diag lam)) (minv V) -> eigen n C lam V.
Proof.
  intros Hd WV Hl D E. pose proof (dim23_pos n Hd). assert (WD := wf_diag n lam Hl).
  assert (WI := wf_minv n V Hd WV).
  assert (WVD : wf n n (mmul V (diag lam))) by (apply (wf_mmul n n n); auto).
  assert (WC : wf n n C) by (rewrite E; apply (wf_mmul n n n); auto).
  split; [exact WC|]. split; [exact WV|]. split; [exact Hl|]. split; [exact D|].
  rewrite E, (mmul_assoc n n n n), (minv_l n), (mmul_eye_r n n) by auto. reflexivity.
Qed.

(** characteristic polynomial *)
Definition charpoly (n : nat) (C : mat R) (x : R) : R := det (msub (mscale x (eye n)) C).
Definition prod_root (lam : list R) (x : R) : R := fold_right (fun l acc => (x - l) * acc) 1 lam.

Lemma mmul_msub_l n (P A B : mat R) : (0 < n)%nat -> wf n n P -> wf n n A -> wf n n B ->
  mmul P (msub A B) = msub (mmul P A) (mmul P B).
Proof.
  intros Hn WP WA WB.
  assert (W1 : wf n n (msub A B)) by (apply wf_msub; auto).
  assert (W2 : wf n n (mmul P A)) by (apply (wf_mmul n n n); auto).
  apply (mat_ext n n); [apply (wf_mmul n n n); auto|apply wf_msub; auto|].
  intros i j Hi Hj. rewrite (get_msub n n), !(get_mmul n n n) by auto. cbn [sub R_ops].
  rewrite <- sumn_minus. apply sumn_ext. intros k Hk. rewrite (get_msub n n) by auto.
  cbn [sub mul R_ops]. ring.
Qed.
Lemma mmul_msub_r n (P A B : mat R) : (0 < n)%nat -> wf n n P -> wf n n A -> wf n n B ->
  mmul (msub A B) P = msub (mmul A P) (mmul B P).
Proof.
  intros Hn WP WA WB.
  assert (W1 : wf n n (msub A B)) by (apply wf_msub; auto).
  assert (W2 : wf n n (mmul A P)) by (apply (wf_mmul n n n); auto).
  apply (mat_ext n n); [apply (wf_mmul n n n); auto|apply wf_msub; auto|].
  intros i j Hi Hj. rewrite (get_msub n n), !(get_mmul n n n) by auto. cbn [sub R_ops].
  rewrite <- sumn_minus. apply sumn_ext. intros k Hk. rewrite (get_msub n n) by auto.
  cbn [sub mul R_ops]. ring.
Qed.
Lemma mmul_mscale_l n c (A B : mat R) : (0 < n)%nat -> wf n n A -> wf n n B ->
  mmul (mscale c A) B = mscale c (mmul A B).
Proof.
  intros Hn WA WB.
  assert (W1 : wf n n (mscale c A)) by (apply wf_mscale; auto).
  assert (W2 : wf n n (mmul A B)) by (apply (wf_mmul n n n); auto).
  apply (mat_ext n n); [apply (wf_mmul n n n); auto|apply wf_mscale; auto|].
  intros i j Hi Hj. rewrite (get_mscale n n), !(get_mmul n n n) by auto. cbn [mul R_ops].
  rewrite <- sumn_mult. apply sumn_ext. intros k Hk. rewrite (get_mscale n n) by auto.
  cbn [mul R_ops]. ring.
Qed.
Lemma mmul_mscale_r n c (A B : mat R) : (0 < n)%nat -> wf n n A -> wf n n B ->
  mmul A (mscale c B) = mscale c (mmul A B).
Proof.
  intros Hn WA WB.
  assert (W1 : wf n n (mscale c B)) by (apply wf_mscale; auto).
  assert (W2 : wf n n (mmul A B)) by (apply (wf_mmul n n n); auto).
  apply (mat_ext n n); [apply (wf_mmul n n n); auto|apply wf_mscale; auto|].
  intros i j Hi Hj. rewrite (get_mscale n n), !(get_mmul n n n) by auto. cbn [mul R_ops].
  rewrite <- sumn_mult. apply sumn_ext. intros k Hk. rewrite (get_mscale n n) by auto.
  cbn [mul R_ops]. ring.
Qed.

Lemma charpoly_eigen n C lam V x : dim23 n -> eigen n C lam V -> charpoly n C x = prod_root lam x.
Proof.
  intros Hd HE. pose proof HE as (WC & WV & Hl & D & _). pose proof (dim23_pos n Hd) as Hn.
  assert (WD := wf_diag n lam Hl). assert (WI := wf_minv n V Hd WV).
  assert (WX : wf n n (mscale x (@eye R _ n))) by (apply wf_mscale; auto using wf_eye).
  assert (WVD : wf n n (mmul V (diag lam))) by (apply (wf_mmul n n n); auto).
  assert (WS : wf n n (msub (mscale x (eye n)) (diag lam))) by (apply wf_msub; auto).
  assert (E : msub (mscale x (eye n)) C = mmul (mmul V (msub (mscale x (eye n)) (diag lam))) (minv V)).
  { rewrite (mmul_msub_l n), (mmul_msub_r n) by
      (auto; apply (wf_mmul n n n); auto).
    rewrite <- (eigen_form n C lam V) by auto. f_equal.
    rewrite (mmul_mscale_r n), (mmul_eye_r n n), (mmul_mscale_l n), (minv_r n) by (auto using wf_eye).
    reflexivity. }
  unfold charpoly. rewrite E.
  rewrite !(det_mmul n), (det_minv n) by (auto; apply (wf_mmul n n n); auto).
  transitivity (det (msub (mscale x (eye n)) (diag lam))); [field; exact D|].
  clear - Hd Hl. destruct Hd as [->| ->].
  - apply len2_inv in Hl. destruct Hl as (a & b & ->). unfold prod_root. cbn [fold_right]. mat_unfold_goal. ring.
  - apply len3_inv in Hl. destruct Hl as (a & b & c & ->). unfold prod_root. cbn [fold_right]. mat_unfold_goal. ring.
Qed.

Lemma root2_perm a b a' b' : (forall x, prod_root [a; b] x = prod_root [a'; b'] x) -> Permutation [a; b] [a'; b'].
Proof.
  unfold prod_root; cbn [fold_right]. intros H.
  pose proof (H 0) as H0. pose proof (H 1) as H1. ring_simplify in H0. ring_simplify in H1.
  pose proof (H a) as Ha. assert (Z : (a - a') * (a - b') = 0) by lra.
  apply Rmult_integral in Z. destruct Z as [Z|Z].
  - replace a' with a by lra. replace b' with b by lra. apply Permutation_refl.
  - replace b' with a by lra. replace a' with b by lra. apply perm_swap.
Qed.

Lemma root3_perm a b c a' b' c' :
  (forall x, prod_root [a; b; c] x = prod_root [a'; b'; c'] x) -> Permutation [a; b; c] [a'; b'; c'].
Proof.
  unfold prod_root; cbn [fold_right]. intros H.
  assert (Pm : forall u v, u + v = b + c -> u * v = b * c -> Permutation [b; c] [u; v]).
  { intros u v H1 H2. apply root2_perm. intros x. unfold prod_root; cbn [fold_right].
    replace v with (b + c - u) by lra. replace v with (b + c - u) in H2 by lra. nra. }
  pose proof (H 0) as H0. pose proof (H 1) as H1. pose proof (H (-1)) as H2.
  assert (S1 : a + b + c = a' + b' + c') by lra.
  assert (S2 : a * b + a * c + b * c = a' * b' + a' * c' + b' * c') by lra.
  pose proof (H a) as Ha. assert (Z : (a - a') * ((a - b') * (a - c')) = 0) by lra.
  apply Rmult_integral in Z. destruct Z as [Z|Z]; [|apply Rmult_integral in Z; destruct Z as [Z|Z]].
  - assert (a' = a) by lra. subst a'. apply perm_skip. apply Pm; nra.
  - assert (b' = a) by lra. subst b'. eapply perm_trans; [|apply perm_swap]. apply perm_skip. apply Pm; nra.
  - assert (c' = a) by lra. subst c'. change [a'; b'; a] with ([a'; b'] ++ [a]).
    eapply perm_trans; [|apply Permutation_app_comm]. cbn. apply perm_skip. apply Pm; nra.
Qed.

Lemma eigen_perm n C lam V lam' V' : dim23 n -> eigen n C lam V -> eigen n C lam' V' -> Permutation lam lam'.
Proof.
  intros Hd H1 H2.
  assert (E : forall x, prod_root lam x = prod_root lam' x).
  { intros x. rewrite <- (charpoly_eigen n C lam V x Hd H1). apply (charpoly_eigen n C lam' V' x Hd H2). }
  destruct H1 as (_ & _ & L1 & _). destruct H2 as (_ & _ & L2 & _).
  destruct Hd as [->| ->].
  - apply len2_inv in L1, L2. destruct L1 as (a & b & ->). destruct L2 as (a' & b' & ->). now apply root2_perm.
  - apply len3_inv in L1, L2. destruct L1 as (a & b & c & ->). destruct L2 as (a' & b' & c' & ->). now apply root3_perm.
Qed.

(** invariance under conjugation *)
Lemma eigen_conj n C lam V P : dim23 n -> wf n n P -> det P <> 0 -> eigen n C lam V ->
  eigen n (mmul (mmul P C) (minv P)) lam (mmul P V).
Proof.
  intros Hd WP DP HE. pose proof HE as (WC & WV & Hl & D & E0). pose proof (dim23_pos n Hd) as Hn.
  assert (WD := wf_diag n lam Hl). assert (WI := wf_minv n P Hd WP).
  assert (WPC : wf n n (mmul P C)) by (apply (wf_mmul n n n); auto).
  assert (WPV : wf n n (mmul P V)) by (apply (wf_mmul n n n); auto).
  split; [apply (wf_mmul n n n); auto|]. split; [exact WPV|]. split; [exact Hl|].
  split; [rewrite (det_mmul n) by auto; now apply Rmult_integral_contrapositive_currified|].
  rewrite (mmul_assoc n n n n (mmul P C)) by auto.
  rewrite <- (mmul_assoc n n n n (minv P)), (minv_l n), (mmul_eye_l n n) by auto.
  rewrite (mmul_assoc n n n n P C), E0, (mmul_assoc n n n n P V) by auto. reflexivity.
Qed.

(** eigenvalues of a diagonal matrix *)
Lemma eigen_diag n lam : dim23 n -> length lam = n -> eigen n (diag lam) lam (eye n).
Proof.
  intros Hd Hl. pose proof (dim23_pos n Hd). assert (WD := wf_diag n lam Hl).
  split; [exact WD|]. split; [apply wf_eye|]. split; [exact Hl|].
  split; [rewrite det_eye by auto; lra|].
  rewrite (mmul_eye_r n n), (mmul_eye_l n n) by auto. reflexivity.
Qed.

(** quadratic form of a Gram matrix *)
Lemma eigen_gram_nonneg n F lam V : dim23 n -> wf n n F -> eigen n (mmul F (tr F)) lam V ->
  forall k, (k < n)%nat -> 0 <= nth k lam 0.
Proof.
  intros Hd WF (WC & WV & Hl & D & E) k Hk. pose proof (dim23_pos n Hd) as Hn.
  (* v = column k of V, w = F^T v: |w|^2 = lam_k |v|^2 *)
  assert (WT : wf n n (tr F)) by (apply wf_tr'; auto).
  set (W := mmul (tr F) V). assert (WW : wf n n W) by (apply (wf_mmul n n n); auto).
  assert (WTV : wf n n (tr V)) by (apply wf_tr'; auto).
  assert (E2 : mmul (tr W) W = mmul (mmul (tr V) V) (diag lam)).
  { unfold W. rewrite (tr_mmul n n n), (tr_tr n n) by auto.
    rewrite (mmul_assoc n n n n (tr V)) by auto.
    rewrite <- (mmul_assoc n n n n F), E by auto.
    rewrite <- (mmul_assoc n n n n (tr V)) by (auto; apply wf_diag; auto). reflexivity. }
  assert (G : get (mmul (tr W) W) k k = nth k lam 0 * get (mmul (tr V) V) k k).
  { rewrite E2. rewrite (get_mmul n n n); auto; [|apply (wf_mmul n n n); auto|apply wf_diag; auto].
    rewrite (sumn_single n k); auto.
    - rewrite (get_diag n), Nat.eqb_refl by auto. apply Rmult_comm.
    - intros j Hj Hne. rewrite (get_diag n) by auto. destruct (Nat.eqb_spec j k); [congruence|].
      cbn. ring. }
  rewrite (get_mmul n n n (tr W) W k k), (get_mmul n n n (tr V) V k k) in G by (auto using wf_tr').
  set (p := sumn n (fun j => mul (get (tr W) k j) (get W j k))) in G.
  set (q := sumn n (fun j => mul (get (tr V) k j) (get V j k))) in G.
  assert (P0 : 0 <= p).
  { apply sumn_nonneg. intros j Hj. cbn beta. rewrite (get_tr' n n) by auto. cbn. nra. }
  assert (Q0 : 0 <= q).
  { apply sumn_nonneg. intros j Hj. cbn beta. rewrite (get_tr' n n) by auto. cbn. nra. }
  destruct (Req_dec q 0) as [Z|Z].
  - exfalso. apply D.
    assert (C0 : forall j, (j < n)%nat -> get V j k = 0).
    { intros j Hj. assert (H0 := sumn_nonneg_0 n (fun j => mul (get (tr V) k j) (get V j k))).
      specialize (H0 ltac:(intros i Hi; cbn beta; rewrite (get_tr' n n) by auto; cbn; nra) Z j Hj).
      cbn beta in H0. rewrite (get_tr' n n) in H0 by auto. cbn in H0. nra. }
    clear - Hd WV Hk C0. destruct Hd as [->| ->].
    + apply wf2_inv in WV. destruct WV as (a & b & c & d & ->).
      pose proof (C0 0%nat ltac:(lia)) as H0. pose proof (C0 1%nat ltac:(lia)) as H1. cbn in H0, H1.
      destruct k as [|[|]]; [| |lia]; cbn in H0, H1; subst; rewrite det2; ring.
    + apply wf3_inv in WV. destruct WV as (a & b & c & d & e & f & g & h & i & ->).
      pose proof (C0 0%nat ltac:(lia)) as H0. pose proof (C0 1%nat ltac:(lia)) as H1.
      pose proof (C0 2%nat ltac:(lia)) as H2.
      destruct k as [|[|[|]]]; [| | |lia]; cbn in H0, H1, H2; subst; rewrite det3; ring.
  - destruct (Rle_or_lt 0 (nth k lam 0)) as [H|H]; [exact H|]. exfalso. nra.
Qed.
