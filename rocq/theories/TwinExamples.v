(** Diagonal matrices, for the examples. *)
From Verif Require Export TwinAxes.
Local Open Scope R_scope.

Lemma eigenvalues_of_diag x y z l1 l2 l3 : Permutation [x; y; z] [l1; l2; l3] -> l1 <= l2 -> l2 <= l3 -> eigenvalues (diag [x; y; z]) l1 l2 l3.
Proof.
  intros P H1 H2. assert (S : MartSpec.symmetric (diag [x; y; z])) by (split; [now apply wf_diag|reflexivity]).
  destruct (eigenvalues_exist _ S) as (m1 & m2 & m3 & (A & B) & V & E).
  pose proof (eigen_perm 3 _ _ _ _ _ (or_intror eq_refl) E (eigen_diag 3 [x; y; z] (or_intror eq_refl) eq_refl)) as P2.
  destruct (sorted_perm3 l1 l2 l3 m1 m2 m3) as (-> & -> & ->); auto.
  - eapply Permutation_trans; [apply Permutation_sym; exact P|]. now apply Permutation_sym.
  - split; [auto|]. eauto.
Qed.
Lemma posdef_diag a b c : 0 < a -> 0 < b -> 0 < c -> positive_definite (diag [a; b; c]).
Proof.
  intros A B C. split; [split; [now apply wf_diag|reflexivity]|]. intros x y z N. mat_unfold_goal.
  assert (K : 0 < a * (x * x) + b * (y * y) + c * (z * z)).
  { pose proof (Rle_0_sqr x). pose proof (Rle_0_sqr y). pose proof (Rle_0_sqr z). unfold Rsqr in *.
    destruct (Req_dec x 0) as [->|X]; [destruct (Req_dec y 0) as [->|Y]; [destruct (Req_dec z 0) as [->|Z]; [congruence|]|]|].
    - assert (0 < z * z) by nra. nra.
    - assert (0 < y * y) by nra. nra.
    - assert (0 < x * x) by nra. nra. }
  eapply Rlt_le_trans; [exact K|]. right. ring.
Qed.
Lemma minv_diag a b c : a <> 0 -> b <> 0 -> c <> 0 -> minv (diag [a; b; c]) = diag [/ a; / b; / c].
Proof.
  intros A B C. assert (W : forall x y z : R, wf 3 3 (diag [x; y; z])) by (intros; now apply wf_diag).
  assert (d : dim23 3) by now right.
  assert (D : det (diag [a; b; c]) <> 0).
  { assert (E : det (diag [a; b; c]) = a * b * c) by (mat_unfold_goal; ring). rewrite E. repeat apply Rmult_integral_contrapositive_currified; auto. }
  apply (mmul_cancel_l 3 (diag [a; b; c])); auto; [now apply wf_minv|]. rewrite (minv_r 3) by auto.
  mat_unfold_goal. repeat (match goal with |- (_ :: _) = (_ :: _) => f_equal end); field; auto.
Qed.
Lemma twin_diag a b c a' b' c' : a <> 0 -> b <> 0 -> c <> 0 ->
  twin_matrix (diag [a; b; c]) (diag [a'; b'; c']) = diag [(a' / a) * (a' / a); (b' / b) * (b' / b); (c' / c) * (c' / c)].
Proof.
  intros A B C. unfold twin_matrix. rewrite minv_diag by auto. mat_unfold_goal. repeat (match goal with |- (_ :: _) = (_ :: _) => f_equal end); field; auto.
Qed.
Lemma distinct_diag a b c a' b' c' : tolerance <= Rabs (a - a') \/ tolerance <= Rabs (b - b') \/ tolerance <= Rabs (c - c') ->
  distinct (diag [a; b; c]) (diag [a'; b'; c']).
Proof. intros [H|[H|H]]; [exists 0%nat, 0%nat|exists 1%nat, 1%nat|exists 2%nat, 2%nat]; (split; [lia|split; [lia|exact H]]). Qed.
Lemma nearly_diag a b c a' b' c' l1 l2 l3 : a <> 0 -> b <> 0 -> c <> 0 -> distinct (diag [a; b; c]) (diag [a'; b'; c']) ->
  Permutation [(a' / a) * (a' / a); (b' / b) * (b' / b); (c' / c) * (c' / c)] [l1; l2; l3] -> l1 <= l2 -> l2 <= l3 ->
  (nearly_twinned (diag [a; b; c]) (diag [a'; b'; c']) <-> Rabs (l2 - 1) < 5 / 1000).
Proof.
  intros A B C D P H1 H2. pose proof (eigenvalues_of_diag _ _ _ _ _ _ P H1 H2) as EV. rewrite <- (twin_diag a b c a' b' c') in EV by auto. split.
  - intros (_ & m1 & m2 & m3 & EM & H). destruct (eigenvalues_unique _ _ _ _ _ _ _ EV EM) as (_ & <- & _). exact H.
  - intros H. split; [exact D|]. eauto.
Qed.

(** every positive definite C is U^-1 V^2 U^-1 for some V *)
Lemma sandwich_posdef U C : positive_definite U -> positive_definite C -> positive_definite (mmul (mmul U C) U).
Proof.
  intros PU PC. pose proof PU as [[WU TU] _]. pose proof PC as [[WC TC] QC]. pose proof (posdef_det U PU) as DU.
  assert (WUC : wf 3 3 (mmul U C)) by (apply (wf_mmul 3 3 3); auto; lia). assert (WCU : wf 3 3 (mmul C U)) by (apply (wf_mmul 3 3 3); auto; lia).
  split; [split|].
  - apply (wf_mmul 3 3 3); auto; lia.
  - rewrite !(tr_mmul 3 3 3), TU, TC by (auto; lia). symmetry. apply (mmul_assoc 3 3 3 3); auto; lia.
  - intros x y z N. set (v := [x; y; z]). assert (Lv : length v = 3%nat) by reflexivity. assert (Lu : length (mvmul U v) = 3%nat) by now apply len_mv3.
    rewrite (mmul_assoc 3 3 3 3) by (auto; lia). rewrite !(mvmul_mmul 3) by (auto; lia).
    rewrite dot_sym_mv; [|split; auto|exact Lv|now apply len_mv3].
    assert (Nz : mvmul U v <> [0; 0; 0]).
    { intros E. apply N. assert (v = [0; 0; 0]) as [= -> -> ->]; [|reflexivity].
      rewrite <- (mvmul_inv_l U v) by (auto; lra). rewrite E. apply mv0. apply wf_minv; auto. now right. }
    destruct (len3_inv _ Lu) as (a & b & c & Ev). rewrite Ev in *. apply QC. intros [= -> -> ->]. now apply Nz.
Qed.
Lemma twin_of U C : positive_definite U -> positive_definite C -> exists V, positive_definite V /\ twin_matrix U V = C /\ mmul V V = mmul (mmul U C) U.
Proof.
  intros PU PC. destruct (sqrt_exists _ (sandwich_posdef U C PU PC)) as (V & PV & E). exists V. split; [exact PV|]. split; [|exact E].
  pose proof (twin_sandwich U V PU PV) as S. rewrite E in S. pose proof PU as [[WU _] _]. pose proof PC as [[WC _] _]. pose proof (wf_twin U V PU PV) as WT.
  assert (d : dim23 3) by now right. pose proof (posdef_det U PU) as DU.
  apply (mmul_cancel_r 3 U) in S; auto; try lra; try (apply (wf_mmul 3 3 3); auto; lia). apply (mmul_cancel_l 3 U) in S; auto; lra.
Qed.

(** the decomposition of diag [1/4; 1; 4] numpy returns *)
Definition eig4 (C : mat R) : list R * mat R := ([1/4; 1; 4], eye 3).
Definition C4 : mat R := diag [1/4; 1; 4].
Lemma is_eig4 : is_eig C4 (eig4 C4).
Proof.
  split; [apply (eigen_diag 3 [1/4; 1; 4] (or_intror eq_refl) eq_refl)|]. intros [|[|[|j]]] Hj; try lia; unfold eig4; cbn [snd]; mat_unfold_goal; ring.
Qed.
Lemma pd_C4 : positive_definite C4. Proof. apply posdef_diag; lra. Qed.
Lemma ev_C4 : eigenvalues C4 (1/4) 1 4. Proof. apply eigenvalues_of_diag; [reflexivity|lra|lra]. Qed.
Lemma sort_eig4 : sort_eig (eig4 C4) = ([1/4; 1; 4], [[1; 0; 0]; [0; 1; 0]; [0; 0; 1]]).
Proof.
  unfold sort_eig, eig4. cbn [fst snd length]. mat_unfold_goal. cbn [combine sort_key insert_key fst snd map].
  assert (E1 : Rleb 1 4 = true) by (apply Rleb_spec; lra). assert (E2 : Rleb (1/4) 1 = true) by (apply Rleb_spec; lra).
  cbv [sort_key insert_key combine map fst snd seq]. rewrite ?E1. cbv iota. cbn [fst]. rewrite ?E2. reflexivity.
Qed.
Lemma eigsys4 : eigsys C4 (1/4) 1 4 [1; 0; 0] [0; 1; 0] [0; 0; 1].
Proof.
  split; try reflexivity; try lra; try (unfold C4, vscale; mat_unfold_goal; repeat (match goal with |- (_ :: _) = (_ :: _) => f_equal end); lra).
Qed.
