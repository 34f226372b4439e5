(** Ericksen and strain distances (C43). *)
From Verif Require Import Flat LinAlg DistModel DistSpec DistProofs Eig.
Local Open Scope R_scope.

Lemma vsum_perm l l' : Permutation l l' -> vsum l = vsum l'.
Proof.
  assert (E : forall l, vsum l = fold_right Rplus 0 l).
  { clear. induction l as [|a l IH]; [reflexivity|]. cbn [fold_right]. rewrite <- IH. unfold vsum.
    cbn [length]. rewrite sumn_S_l. reflexivity. }
  rewrite !E. induction 1; cbn; lra.
Qed.

Lemma strain_3_sq lam : length lam = 3%nat -> (forall k, (k < 3)%nat -> 0 <= nth k lam 0) ->
  strain_dist lam = (sqrt (nth 0 lam 0) - 1)^2 + (sqrt (nth 1 lam 0) - 1)^2 + (sqrt (nth 2 lam 0) - 1)^2.
Proof.
  intros Hl H. apply len3_inv in Hl. destruct Hl as (a & b & c & ->).
  pose proof (H 0%nat ltac:(lia)). pose proof (H 1%nat ltac:(lia)). pose proof (H 2%nat ltac:(lia)).
  cbn [nth] in *. unfold strain_dist, vsum. cbn.
  assert (sqrt a * sqrt a = a) by (apply sqrt_sqrt; auto).
  assert (sqrt b * sqrt b = b) by (apply sqrt_sqrt; auto).
  assert (sqrt c * sqrt c = c) by (apply sqrt_sqrt; auto). lra.
Qed.

Lemma strain_2_sq lam : length lam = 2%nat -> (forall k, (k < 2)%nat -> 0 <= nth k lam 0) ->
  strain_dist lam = (sqrt (nth 0 lam 0) - 1)^2 + (sqrt (nth 1 lam 0) - 1)^2 + 1.
Proof.
  intros Hl H. apply len2_inv in Hl. destruct Hl as (a & b & ->).
  pose proof (H 0%nat ltac:(lia)). pose proof (H 1%nat ltac:(lia)).
  cbn [nth] in *. unfold strain_dist, vsum. cbn.
  assert (sqrt a * sqrt a = a) by (apply sqrt_sqrt; auto).
  assert (sqrt b * sqrt b = b) by (apply sqrt_sqrt; auto). lra.
Qed.

Lemma strain_Cinv_F n x E1 E2inv : wf n n E1 ->
  strain_Cinv x E1 E2inv = (let F := Finv_of E1 (reshape n x) E2inv in mmul F (tr F)).
Proof. intros H. unfold strain_Cinv. assert (length E1 = n) as -> by apply H. reflexivity. Qed.

Lemma strain_nonneg n x E1 E2 lam V : dim23 n -> wf n n E1 -> wf n n E2 ->
  eigen n (strain_Cinv x E1 (minv E2)) lam V -> forall k, (k < n)%nat -> 0 <= nth k lam 0.
Proof.
  intros Hd W1 W2 HE. rewrite (strain_Cinv_F n) in HE by auto. cbn zeta in HE.
  eapply (eigen_gram_nonneg n); [exact Hd| |exact HE].
  apply wf_Finv; auto using wf_reshape, wf_minv.
Qed.

Lemma sq_zero a b c : a^2 + b^2 + c^2 = 0 -> a = 0 /\ b = 0 /\ c = 0.
Proof. intros H. pose proof (pow2_ge_0 a). pose proof (pow2_ge_0 b). pose proof (pow2_ge_0 c). repeat split; nra. Qed.

Lemma strain_free_C n x E1 E2 : dim23 n -> wf n n E1 -> wf n n E2 -> det E2 <> 0 ->
  strain_Cinv x E1 (minv E2) = eye n <-> strain_free n E1 (reshape n x) E2.
Proof.
  intros Hd W1 W2 D. pose proof (dim23_pos n Hd) as Hn. assert (WI := wf_minv n E2 Hd W2).
  rewrite (strain_Cinv_F n) by auto. cbn zeta.
  rewrite <- (Cauchy_zero n) by auto. rewrite (Cauchy_fro n) by auto. cbn zeta.
  assert (WF := wf_Finv n E1 (reshape n x) (minv E2) Hn W1 (wf_reshape n x) WI).
  set (F := Finv_of E1 (reshape n x) (minv E2)) in *.
  assert (WC : wf n n (mmul F (tr F))) by (apply (wf_mmul n n n); auto using wf_tr').
  split.
  - intros ->. unfold fro2. apply sumn_R0. intros i Hi. apply sumn_R0. intros j Hj.
    rewrite (get_msub n n) by auto using wf_eye. cbn. ring.
  - intros H. apply (mat_ext n n); auto using wf_eye. intros i j Hi Hj.
    pose proof (fro2_zero n n _ H i j Hi Hj) as Z. rewrite (get_msub n n) in Z by auto. cbn in Z |- *. lra.
Qed.

Lemma eigen_all_one n C lam V : dim23 n -> eigen n C lam V ->
  (C = eye n <-> forall k, (k < n)%nat -> nth k lam 0 = 1).
Proof.
  intros Hd HE. pose proof HE as (WC & WV & Hl & D & E0). pose proof (dim23_pos n Hd) as Hn. split.
  - intros ->. rewrite (mmul_eye_l n n) in E0 by auto.
    assert (E1 : diag lam = eye n).
    { symmetry. apply (mmul_cancel_l n V); auto using wf_eye, wf_diag. rewrite (mmul_eye_r n n) by auto. exact E0. }
    intros k Hk. assert (G : get (diag lam) k k = get (eye n) k k) by now rewrite E1.
    rewrite (get_diag n), get_eye, Nat.eqb_refl in G by auto. exact G.
  - intros H. rewrite (eigen_form n C lam V) by auto.
    assert (diag lam = eye n) as ->.
    { apply (mat_ext n n); auto using wf_diag, wf_eye. intros i j Hi Hj.
      rewrite (get_diag n), get_eye by auto. destruct (i =? j)%nat; [now apply H|reflexivity]. }
    rewrite (mmul_eye_r n n), (minv_r n) by auto. reflexivity.
Qed.

Lemma sqrt_1_iff a : 0 <= a -> sqrt a - 1 = 0 -> a = 1.
Proof. intros H E. rewrite <- (sqrt_sqrt a) by exact H. replace (sqrt a) with 1 by lra. ring. Qed.

Lemma strain_3D x E1 E2 lam V : wf 3 3 E1 -> wf 3 3 E2 -> det E2 <> 0 ->
  eigen 3 (strain_Cinv x E1 (minv E2)) lam V ->
  0 <= strain_dist lam /\ (strain_dist lam = 0 <-> strain_free 3 E1 (reshape 3 x) E2).
Proof.
  intros W1 W2 D HE. assert (Hd : dim23 3) by (now right).
  pose proof (strain_nonneg 3 x E1 E2 lam V Hd W1 W2 HE) as Hp.
  assert (Hl : length lam = 3%nat) by apply HE.
  rewrite strain_3_sq by auto. split.
  - pose proof (pow2_ge_0 (sqrt (nth 0 lam 0) - 1)). pose proof (pow2_ge_0 (sqrt (nth 1 lam 0) - 1)).
    pose proof (pow2_ge_0 (sqrt (nth 2 lam 0) - 1)). lra.
  - rewrite <- strain_free_C, (eigen_all_one 3 _ lam V) by auto. split.
    + intros H. apply sq_zero in H. destruct H as (A & B & C).
      intros k Hk. destruct k as [|[|[|]]]; [| | |lia]; apply sqrt_1_iff; auto.
    + intros H. rewrite (H 0%nat), (H 1%nat), (H 2%nat), sqrt_1 by lia. ring.
Qed.

Lemma strain_sym n x x' E1 E2 M1 M2 lam V lam' V' : dim23 n -> wf n n E1 -> wf n n E2 -> det E2 <> 0 ->
  isometry_of n E1 M1 -> isometry_of n E2 M2 ->
  reshape n x' = mmul (mmul M1 (reshape n x)) M2 ->
  eigen n (strain_Cinv x E1 (minv E2)) lam V ->
  eigen n (strain_Cinv x' E1 (minv E2)) lam' V' ->
  strain_dist lam' = strain_dist lam.
Proof.
  intros Hd W1 W2 D I1 I2 E H H'. pose proof (dim23_pos n Hd) as Hn.
  rewrite (strain_Cinv_F n) in H, H' by auto. cbn zeta in H, H'. rewrite E in H'.
  destruct (Cinv_sym n E1 E2 M1 M2 (reshape n x) Hd W1 W2 (wf_reshape n x) D I1 I2) as (Q & HQ & EC).
  cbn zeta in EC. rewrite EC in H'.
  destruct (orth_inv n Q Hd HQ) as [EI DQ]. rewrite <- EI in H'.
  pose proof (eigen_conj n _ lam V Q Hd (orth_wf n Q HQ) DQ H) as H2.
  pose proof (eigen_perm n _ _ _ _ _ Hd H2 H') as P.
  unfold strain_dist. rewrite (vsum_perm lam lam') by auto.
  rewrite (vsum_perm (map sqrt lam) (map sqrt lam')) by (now apply Permutation_map). reflexivity.
Qed.

(** ** Ericksen distance *)
Definition Eric_M (E1 L E2 : mat R) : mat R :=
  msub (mmul (tr L) (mmul (mmul (tr E1) E1) L)) (mmul (tr E2) E2).

Lemma Eric_val n x E1 E2 : dim23 n -> wf n n E1 -> wf n n E2 -> det E2 <> 0 ->
  exists nf, 0 < nf /\ nf = fro2 n n (mmul (tr E2) E2) /\
    Eric_dist x E1 E2 = Ok (fro2 n n (Eric_M E1 (reshape n x) E2) / nf).
Proof.
  intros Hd W1 W2 D. pose proof (dim23_pos n Hd) as Hn.
  assert (WT2 : wf n n (tr E2)) by (apply wf_tr'; auto).
  assert (WG : wf n n (mmul (tr E2) E2)) by (apply (wf_mmul n n n); auto).
  exists (fro2 n n (mmul (tr E2) E2)).
  assert (P : 0 < fro2 n n (mmul (tr E2) E2)).
  { pose proof (fro2_nonneg n n (mmul (tr E2) E2)) as H.
    destruct (Req_dec (fro2 n n (mmul (tr E2) E2)) 0) as [Z|]; [|lra]. exfalso.
    assert (D2 : det (mmul (tr E2) E2) = 0).
    { assert (Z' := fro2_zero n n _ Z). destruct Hd as [->| ->].
      - apply wf2_inv in WG. destruct WG as (a & b & c & d & Eq). rewrite Eq in *.
        pose proof (Z' 0%nat 0%nat ltac:(lia) ltac:(lia)) as Q1. pose proof (Z' 0%nat 1%nat ltac:(lia) ltac:(lia)) as Q2.
        cbn in Q1, Q2. subst. rewrite det2. ring.
      - apply wf3_inv in WG. destruct WG as (a & b & c & d & e & f & g & h & i & Eq). rewrite Eq in *.
        pose proof (Z' 0%nat 0%nat ltac:(lia) ltac:(lia)) as Q1. pose proof (Z' 0%nat 1%nat ltac:(lia) ltac:(lia)) as Q2.
        pose proof (Z' 0%nat 2%nat ltac:(lia) ltac:(lia)) as Q3.
        cbn in Q1, Q2, Q3. subst. rewrite det3. ring. }
    rewrite (det_mmul n), (det_tr n) in D2 by auto. apply D. nra. }
  split; [exact P|]. split; [reflexivity|].
  unfold Eric_dist. assert (length E1 = n) as -> by apply W1. cbn zeta.
  rewrite <- (fro2_trace n n) by auto.
  rewrite (proj2 (Reqb_false _ _)) by lra.
  rewrite <- (fro2_trace n n); auto.
  apply wf_msub; auto. apply (wf_mmul n n n); auto using wf_reshape.
  - apply wf_tr'; auto using wf_reshape.
  - apply (wf_mmul n n n); auto using wf_reshape. apply (wf_mmul n n n); auto using wf_tr'.
Qed.

Lemma Eric_zero n x E1 E2 : dim23 n -> wf n n E1 -> wf n n E2 -> det E2 <> 0 ->
  exists d, Eric_dist x E1 E2 = Ok d /\ 0 <= d /\ (d = 0 <-> strain_free n E1 (reshape n x) E2).
Proof.
  intros Hd W1 W2 D. destruct (Eric_val n x E1 E2 Hd W1 W2 D) as (nf & P & _ & E).
  eexists. split; [exact E|]. clear E. pose proof (dim23_pos n Hd) as Hn.
  assert (WL := wf_reshape n x). set (L := reshape n x) in *.
  assert (WT1 : wf n n (tr E1)) by (apply wf_tr'; auto).
  assert (WT2 : wf n n (tr E2)) by (apply wf_tr'; auto).
  assert (WTL : wf n n (tr L)) by (apply wf_tr'; auto).
  assert (WI := wf_minv n E2 Hd W2). assert (WTI : wf n n (tr (minv E2))) by (apply wf_tr'; auto).
  assert (WEL : wf n n (mmul E1 L)) by (apply (wf_mmul n n n); auto).
  assert (WG1 : wf n n (mmul (tr E1) E1)) by (apply (wf_mmul n n n); auto).
  assert (WG2 : wf n n (mmul (tr E2) E2)) by (apply (wf_mmul n n n); auto).
  assert (WTEL : wf n n (tr (mmul E1 L))) by (apply wf_tr'; auto).
  assert (EG : mmul (tr L) (mmul (mmul (tr E1) E1) L) = mmul (tr (mmul E1 L)) (mmul E1 L)).
  { rewrite (tr_mmul n n n), !(mmul_assoc n n n n) by auto. reflexivity. }
  assert (WP : wf n n (mmul (tr (mmul E1 L)) (mmul E1 L))) by (apply (wf_mmul n n n); auto).
  assert (Q : fro2 n n (Eric_M E1 L E2) = 0 <-> mmul (tr (mmul E1 L)) (mmul E1 L) = mmul (tr E2) E2).
  { unfold Eric_M. rewrite EG. split.
    - intros H. apply (mat_ext n n); auto. intros i j Hi Hj.
      pose proof (fro2_zero n n _ H i j Hi Hj) as Z. rewrite (get_msub n n) in Z by auto. cbn in Z |- *. lra.
    - intros ->. unfold fro2. apply sumn_R0. intros i Hi. apply sumn_R0. intros j Hj.
      rewrite (get_msub n n) by auto. cbn. ring. }
  pose proof (fro2_nonneg n n (Eric_M E1 L E2)) as H0. split.
  - apply Rmult_le_pos; [exact H0|]. apply Rlt_le, Rinv_0_lt_compat, P.
  - transitivity (fro2 n n (Eric_M E1 L E2) = 0).
    + split.
      * intros H. apply Rmult_integral in H. destruct H as [H|H]; [exact H|].
        pose proof (Rinv_0_lt_compat nf P). lra.
      * intros ->. unfold Rdiv. ring.
    + rewrite Q. split.
      * intros H. exists (mmul (mmul E1 L) (minv E2)).
        assert (WQ : wf n n (mmul (mmul E1 L) (minv E2))) by (apply (wf_mmul n n n); auto).
        assert (O' : mmul (tr (mmul (mmul E1 L) (minv E2))) (mmul (mmul E1 L) (minv E2)) = eye n).
        { rewrite (tr_mmul n n n _ (minv E2)) by auto.
          rewrite (mmul_assoc n n n n) by auto.
          rewrite <- (mmul_assoc n n n n (tr (mmul E1 L))), H by auto.
          rewrite (mmul_assoc n n n n (tr E2)), (minv_r n), (mmul_eye_r n n) by auto.
          rewrite <- (tr_mmul n n n), (minv_r n) by auto. now apply tr_eye. }
        split; [|rewrite (mmul_assoc n n n n), (minv_l n), (mmul_eye_r n n) by auto; reflexivity].
        split; [exact WQ|]. apply inv_comm; auto. apply wf_tr'; auto.
      * intros (Q0 & HQ & ->). assert (WQ := orth_wf n Q0 HQ).
        rewrite (tr_mmul n n n) by auto.
        rewrite (mmul_assoc n n n n), <- (mmul_assoc n n n n (tr Q0)), (orth_l n), (mmul_eye_l n n)
          by (auto; try apply wf_tr'; auto; apply (wf_mmul n n n); auto). reflexivity.
Qed.

Lemma Eric_sym_l n x x' E1 E2 M1 M2 : dim23 n -> wf n n E1 -> wf n n E2 -> det E2 <> 0 ->
  isometry_of n E1 M1 -> isometry_of n E2 M2 -> orthogonal n M2 ->
  reshape n x' = mmul (mmul M1 (reshape n x)) M2 ->
  Eric_dist x' E1 E2 = Eric_dist x E1 E2.
Proof.
  intros Hd W1 W2 D [WM1 (Q1 & HQ1 & E1Q)] [WM2 (Q2 & HQ2 & E2Q)] HM2 E.
  pose proof (dim23_pos n Hd) as Hn.
  destruct (Eric_val n x E1 E2 Hd W1 W2 D) as (nf & P & Enf & ->).
  destruct (Eric_val n x' E1 E2 Hd W1 W2 D) as (nf' & P' & Enf' & ->).
  subst nf nf'. do 2 f_equal. rewrite E.
  assert (WL := wf_reshape n x). set (L := reshape n x) in *.
  assert (WQ1 := orth_wf _ _ HQ1). assert (WQ2 := orth_wf _ _ HQ2).
  assert (gram : forall A Q, wf n n A -> orthogonal n Q -> mmul (tr (mmul Q A)) (mmul Q A) = mmul (tr A) A).
  { intros A Q WA HQ. assert (WQ := orth_wf n Q HQ).
    rewrite (tr_mmul n n n) by auto.
    rewrite (mmul_assoc n n n n), <- (mmul_assoc n n n n (tr Q)), (orth_l n), (mmul_eye_l n n)
      by (auto; try apply wf_tr'; auto; apply (wf_mmul n n n); auto). reflexivity. }
  assert (WML : wf n n (mmul M1 L)) by (apply (wf_mmul n n n); auto).
  assert (WMLM : wf n n (mmul (mmul M1 L) M2)) by (apply (wf_mmul n n n); auto).
  assert (WEL : wf n n (mmul E1 L)) by (apply (wf_mmul n n n); auto).
  assert (asG : forall A, wf n n A -> mmul (tr A) (mmul (mmul (tr E1) E1) A) = mmul (tr (mmul E1 A)) (mmul E1 A)).
  { intros A WA. rewrite (tr_mmul n n n), !(mmul_assoc n n n n)
      by (auto; try apply wf_tr'; auto; apply (wf_mmul n n n); auto; apply wf_tr'; auto). reflexivity. }
  assert (WT : forall A, wf n n A -> wf n n (tr A)) by (intros; apply wf_tr'; auto).
  assert (WM : forall A B, wf n n A -> wf n n B -> wf n n (mmul A B)) by (intros; apply (wf_mmul n n n); auto).
  assert (H3 : forall A, wf n n A -> mmul (tr (mmul A M2)) (mmul A M2) = mmul (mmul (tr M2) (mmul (tr A) A)) M2).
  { intros A WA. rewrite (tr_mmul n n n), !(mmul_assoc n n n n) by auto. reflexivity. }
  assert (H2 : mmul (mmul (tr M2) (mmul (tr E2) E2)) M2 = mmul (tr E2) E2).
  { rewrite <- H3, E2Q by auto. now apply gram. }
  assert (EM : Eric_M E1 (mmul (mmul M1 L) M2) E2 = mmul (mmul (tr M2) (Eric_M E1 L E2)) M2).
  { unfold Eric_M. rewrite !asG by auto.
    assert (EE : mmul E1 (mmul (mmul M1 L) M2) = mmul Q1 (mmul (mmul E1 L) M2)).
    { rewrite <- !(mmul_assoc n n n n E1), E1Q, !(mmul_assoc n n n n) by auto. reflexivity. }
    rewrite EE, gram, H3 by auto.
    rewrite (mmul_msub_l n), (mmul_msub_r n), H2 by auto. reflexivity. }
  rewrite EM. assert (WEM : wf n n (Eric_M E1 L E2)) by (apply wf_msub; auto).
  rewrite fro2_orth_r, fro2_orth_l; auto. now apply orth_tr.
Qed.
