(** Proofs about two-fold axes relating two variants, and about the symmetry of twinnability. *)
From Verif Require Export TwinProofs SpectralThm.
Local Open Scope R_scope.

(** * Positive definite square roots *)
Lemma sym_zero D : MartSpec.symmetric D ->
  (forall x m, length x = 3%nat -> dot x x = 1 -> mvmul D x = vscale m x -> m = 0) -> D = mk 3 3 (fun _ _ => 0).
Proof.
  intros S H. destruct (eig_exists D S) as (eg & EG). destruct (sort_eig_spec D eg EG) as (e0 & e1 & e2 & v0 & v1 & v2 & _ & ES & _).
  destruct ES. assert (Z : forall v, length v = 3%nat -> mvmul (mk 3 3 (fun _ _ => 0)) v = [0; 0; 0]).
  { intros v L. v3 L. mat_unfold_goal. apply list3_eq; ring. }
  assert (Sc : forall v, length v = 3%nat -> vscale 0 v = [0; 0; 0]) by (intros v L; v3 L; unfold vscale; cbn; apply list3_eq; ring).
  assert (F0 := H v0 e0 es_len0 es_u0 es_0). assert (F1 := H v1 e1 es_len1 es_u1 es_1). assert (F2 := H v2 e2 es_len2 es_u2 es_2).
  subst e0 e1 e2.
  apply (by_basis _ _ v0 v1 v2); auto; [apply S|apply wf_mk| | |]; rewrite Z by auto; rewrite ?es_0, ?es_1, ?es_2; now apply Sc.
Qed.
Lemma posdef_pos U x : positive_definite U -> length x = 3%nat -> dot x x = 1 -> 0 < dot x (mvmul U x).
Proof.
  intros [_ P] L D. apply len3_inv in L. destruct L as (a & b & c & ->). apply P. intros [= -> -> ->]. rewrite dot3 in D. lra.
Qed.
Lemma get_zero i j : get (mk 3 3 (fun _ _ => 0)) i j = 0.
Proof. unfold get, mk. cbn. destruct i as [|[|[|[|i]]]], j as [|[|[|[|j]]]]; reflexivity. Qed.
(** a positive definite matrix is determined by its square *)
Lemma sqrt_unique P Q : positive_definite P -> positive_definite Q -> mmul P P = mmul Q Q -> P = Q.
Proof.
  intros HP HQ E. pose proof HP as [SP _]. pose proof HQ as [SQ _]. pose proof SP as [WP TP]. pose proof SQ as [WQ TQ].
  assert (WD : wf 3 3 (msub P Q)) by (apply wf_msub; auto; lia).
  assert (SD : MartSpec.symmetric (msub P Q)).
  { split; [exact WD|]. clear E. destruct (sym3 P SP) as (? & ? & ? & ? & ? & ? & ->). destruct (sym3 Q SQ) as (? & ? & ? & ? & ? & ? & ->). reflexivity. }
  assert (Z : msub P Q = mk 3 3 (fun _ _ => 0)).
  { apply sym_zero; auto. intros x m L D X.
    assert (I : dot x (mvmul (mmul P P) x) - dot x (mvmul (mmul Q Q) x) = dot (mvmul (msub P Q) x) (mvmul P x) + dot (mvmul (msub P Q) x) (mvmul Q x)).
    { clear - SP SQ L. destruct (sym3 P SP) as (? & ? & ? & ? & ? & ? & ->). destruct (sym3 Q SQ) as (? & ? & ? & ? & ? & ? & ->). v3 L.
      mat_unfold_goal. ring. }
    rewrite E, X, !dot_vscale in I by (auto; now apply len_mv3).
    pose proof (posdef_pos P x HP L D). pose proof (posdef_pos Q x HQ L D). nra. }
  apply (mat_ext 3 3); auto. intros i j Hi Hj. assert (G := f_equal (fun M => get M i j) Z). cbn beta in G.
  rewrite get_zero, (get_msub 3 3) in G by auto. cbn [sub R_ops] in G. lra.
Qed.
(** every positive definite matrix has one *)
Lemma sqrt_exists A : positive_definite A -> exists U, positive_definite U /\ mmul U U = A.
Proof.
  intros PA. pose proof PA as [[WA TA] _]. assert (d : dim23 3) by now right. assert (Hp : (0 < 3)%nat) by lia.
  destruct (spectral_theorem 3 A d WA TA) as (lam & Q & O & E). pose proof (orth_wf _ _ O) as WQ.
  pose proof E as (_ & _ & Ll & DQ & EQ). apply len3_inv in Ll. destruct Ll as (l0 & l1 & l2 & ->).
  assert (WT : wf 3 3 (tr Q)) by (apply wf_tr'; auto).
  assert (WD : forall a b c, wf 3 3 (diag [a; b; c])) by (intros; now apply wf_diag).
  assert (EA : A = rotate Q (diag [l0; l1; l2])).
  { unfold rotate. rewrite <- EQ, (mmul_assoc 3 3 3 3), (proj2 O), (mmul_eye_r 3 3) by auto. reflexivity. }
  assert (Pos : 0 < l0 /\ 0 < l1 /\ 0 < l2).
  { assert (X : forall i, (i < 3)%nat -> 0 < vget [l0; l1; l2] i).
    { intros i Hi. pose proof (orth_tr 3 Q d O) as OT. pose proof (rotate_posdef (tr Q) A OT PA) as PD.
      assert (ED : rotate (tr Q) A = diag [l0; l1; l2]).
      { unfold rotate. rewrite (tr_tr 3 3), (mmul_assoc 3 3 3 3), EQ, <- (mmul_assoc 3 3 3 3), (orth_l 3 Q), (mmul_eye_l 3 3) by auto. reflexivity. }
      rewrite ED in PD. destruct PD as [_ PD].
      destruct i as [|[|[|i]]]; try lia; [specialize (PD 1 0 0)|specialize (PD 0 1 0)|specialize (PD 0 0 1)];
        specialize (PD ltac:(intros [= ?]; lra)); mat_unfold; lra. }
    split; [apply (X 0%nat); lia|split; [apply (X 1%nat); lia|apply (X 2%nat); lia]]. }
  exists (rotate Q (diag [sqrt l0; sqrt l1; sqrt l2])). split.
  - apply rotate_posdef; auto. split; [split; [apply WD|reflexivity]|]. intros x y z N.
    assert (Q0 : 0 < sqrt l0) by (apply sqrt_lt_R0; tauto). assert (Q1 : 0 < sqrt l1) by (apply sqrt_lt_R0; tauto). assert (Q2 : 0 < sqrt l2) by (apply sqrt_lt_R0; tauto).
    mat_unfold_goal.
    assert (K : 0 < sqrt l0 * (x * x) + sqrt l1 * (y * y) + sqrt l2 * (z * z)).
    { pose proof (Rle_0_sqr x). pose proof (Rle_0_sqr y). pose proof (Rle_0_sqr z). unfold Rsqr in *.
      destruct (Req_dec x 0) as [->|X]; [destruct (Req_dec y 0) as [->|Y]; [destruct (Req_dec z 0) as [->|Z]; [congruence|]|]|].
      - assert (0 < z * z) by nra. nra.
      - assert (0 < y * y) by nra. nra.
      - assert (0 < x * x) by nra. nra. }
    eapply Rlt_le_trans; [exact K|]. right. ring.
  - rewrite EA. unfold rotate. assert (WQD : wf 3 3 (mmul Q (diag [sqrt l0; sqrt l1; sqrt l2]))) by (apply (wf_mmul 3 3 3); auto).
    rewrite (mmul_assoc 3 3 3 3 (mmul Q _) (tr Q)) by (auto; apply (wf_mmul 3 3 3); auto).
    rewrite <- (mmul_assoc 3 3 3 3 (tr Q) (mmul Q _)) by auto. rewrite <- (mmul_assoc 3 3 3 3 (tr Q) Q) by auto.
    rewrite (orth_l 3 Q), (mmul_eye_l 3 3) by auto. rewrite <- (mmul_assoc 3 3 3 3 (mmul Q _)) by auto.
    rewrite (mmul_assoc 3 3 3 3 Q) by auto. f_equal. f_equal.
    mat_unfold_goal. rewrite !Rmult_0_l, !Rmult_0_r, !Rplus_0_l, !Rplus_0_r, !sqrt_sqrt by lra. reflexivity.
Qed.

(** * U^-1 V^2 U^-1 *)
Section TM.
  Variables U V : mat R.
  Hypothesis PU : positive_definite U.
  Hypothesis PV : positive_definite V.
  Let SU : MartSpec.symmetric U. Proof. apply PU. Qed.
  Let SV : MartSpec.symmetric V. Proof. apply PV. Qed.
  Let WU : wf 3 3 U. Proof. apply SU. Qed.
  Let WV : wf 3 3 V. Proof. apply SV. Qed.
  Let DU : det U <> 0. Proof. pose proof (posdef_det U PU). lra. Qed.
  Let DV : det V <> 0. Proof. pose proof (posdef_det V PV). lra. Qed.
  Let d3 : dim23 3. Proof. now right. Qed.
  Let Wi : wf 3 3 (minv U). Proof. now apply wf_minv. Qed.
  Let Wj : wf 3 3 (minv V). Proof. now apply wf_minv. Qed.

  Lemma twin_mixed : twin_matrix U V = mixed V U.
  Proof. unfold twin_matrix, mixed. now rewrite (proj2 SU), (proj2 SV). Qed.
  Lemma twin_posdef : positive_definite (twin_matrix U V).
  Proof. rewrite twin_mixed. now apply mixed_posdef. Qed.
  Lemma wf_twin : wf 3 3 (twin_matrix U V). Proof. apply twin_posdef. Qed.
  Lemma twin_sandwich : mmul (mmul U (twin_matrix U V)) U = mmul V V.
  Proof.
    unfold twin_matrix. assert (WiV : wf 3 3 (mmul (minv U) V)) by (apply (wf_mmul 3 3 3); auto). assert (WVi : wf 3 3 (mmul V (minv U))) by (apply (wf_mmul 3 3 3); auto).
    rewrite <- (mmul_assoc 3 3 3 3 U (mmul (minv U) V)) by (auto; lia). rewrite <- (mmul_assoc 3 3 3 3 U (minv U) V) by (auto; lia).
    rewrite (minv_r 3), (mmul_eye_l 3 3) by auto. rewrite (mmul_assoc 3 3 3 3 V (mmul V (minv U)) U) by (auto; lia).
    rewrite (mmul_assoc 3 3 3 3 V (minv U) U), (minv_l 3), (mmul_eye_r 3 3) by (auto; lia). reflexivity.
  Qed.
  Lemma twin_det : det (twin_matrix U V) = (det V * det V) / (det U * det U).
  Proof.
    unfold twin_matrix. rewrite !(det_mmul 3), (det_minv 3) by (auto; apply (wf_mmul 3 3 3); auto). field. exact DU.
  Qed.
  (** the matrix of the pair in the other order has the reciprocal eigenvalues *)
  Lemma twin_swap l1 l2 l3 : eigenvalues (twin_matrix U V) l1 l2 l3 -> eigenvalues (twin_matrix V U) (/ l3) (/ l2) (/ l1).
  Proof.
    intros EV. pose proof (posdef_eig _ _ _ _ twin_posdef EV) as P1. destruct EV as ((H1 & H2) & W & EW).
    split; [split; apply Rinv_le_contravar; lra|].
    destruct EW as (WC & WW & _ & DW & E). assert (Hp : (0 < 3)%nat) by lia.
    (* columns in reverse order *)
    set (J := [[0; 0; 1]; [0; 1; 0]; [1; 0; 0]] : mat R). assert (WJ : wf 3 3 J) by (apply wfb_spec; reflexivity).
    set (B := mmul (minv V) U). assert (WB : wf 3 3 B) by (apply (wf_mmul 3 3 3); auto).
    assert (DB : det B <> 0) by (unfold B; rewrite (det_mmul 3), (det_minv 3) by auto; apply Rmult_integral_contrapositive; split; [now apply Rinv_neq_0_compat|exact DU]).
    assert (DJ : det J <> 0) by (unfold J; rewrite det3; lra).
    assert (WBW : wf 3 3 (mmul B W)) by (apply (wf_mmul 3 3 3); auto).
    exists (mmul (mmul B W) J). split; [|split; [|split; [reflexivity|split]]].
    - apply (wf_mmul 3 3 3); auto; apply (wf_mmul 3 3 3); auto.
    - apply (wf_mmul 3 3 3); auto.
    - rewrite !(det_mmul 3) by auto. repeat apply Rmult_integral_contrapositive_currified; auto.
    - (* C' B = B C^-1 *)
      assert (WD1 : wf 3 3 (diag [l1; l2; l3])) by now apply wf_diag.
      assert (WD2 : wf 3 3 (diag [/ l1; / l2; / l3])) by now apply wf_diag.
      assert (WD3 : wf 3 3 (diag [/ l3; / l2; / l1])) by now apply wf_diag.
      assert (WC' : wf 3 3 (twin_matrix V U)) by (apply (wf_mmul 3 3 3); auto; apply (wf_mmul 3 3 3); auto).
      set (M := mmul U (minv V)). assert (WM : wf 3 3 M) by (apply (wf_mmul 3 3 3); auto).
      assert (C1 : twin_matrix V U = mmul B M) by reflexivity.
      assert (MB : mmul (mmul M B) (twin_matrix U V) = eye 3).
      { unfold M, B, twin_matrix.
        assert (W1 : wf 3 3 (mmul (minv V) U)) by (apply (wf_mmul 3 3 3); auto). assert (W2 : wf 3 3 (mmul (minv U) V)) by (apply (wf_mmul 3 3 3); auto).
        assert (W3 : wf 3 3 (mmul U (minv V))) by (apply (wf_mmul 3 3 3); auto). assert (W4 : wf 3 3 (mmul V (minv U))) by (apply (wf_mmul 3 3 3); auto).
        rewrite (mmul_assoc 3 3 3 3 (mmul U (minv V))) by (auto; apply (wf_mmul 3 3 3); auto).
        rewrite <- (mmul_assoc 3 3 3 3 (mmul (minv V) U) (mmul (minv U) V)) by auto.
        rewrite <- (mmul_assoc 3 3 3 3 (mmul (minv V) U) (minv U) V), (mmul_assoc 3 3 3 3 (minv V) U (minv U)), (minv_r 3), (mmul_eye_r 3 3), (minv_l 3), (mmul_eye_l 3 3) by auto.
        rewrite (mmul_assoc 3 3 3 3 U (minv V)), <- (mmul_assoc 3 3 3 3 (minv V) V), (minv_l 3), (mmul_eye_l 3 3), (minv_r 3) by auto. reflexivity. }
      assert (DD : mmul (diag [l1; l2; l3]) (diag [/ l1; / l2; / l3]) = eye 3).
      { mat_unfold_goal. rewrite !Rmult_0_l, !Rmult_0_r, !Rplus_0_l, !Rplus_0_r, !Rinv_r by lra. reflexivity. }
      assert (MBW : mmul (mmul M B) W = mmul W (diag [/ l1; / l2; / l3])).
      { assert (WMB : wf 3 3 (mmul M B)) by (apply (wf_mmul 3 3 3); auto).
        transitivity (mmul (mmul M B) (mmul (mmul W (diag [l1; l2; l3])) (diag [/ l1; / l2; / l3]))).
        - rewrite (mmul_assoc 3 3 3 3 W) by auto. rewrite DD, (mmul_eye_r 3 3) by auto. reflexivity.
        - rewrite <- E. rewrite (mmul_assoc 3 3 3 3 (twin_matrix U V)) by auto. rewrite <- (mmul_assoc 3 3 3 3 (mmul M B)) by (auto; apply (wf_mmul 3 3 3); auto).
          rewrite MB. apply (mmul_eye_l 3 3); auto. apply (wf_mmul 3 3 3); auto. }
      rewrite C1. rewrite <- (mmul_assoc 3 3 3 3 (mmul B M)) by (auto; apply (wf_mmul 3 3 3); auto).
      rewrite (mmul_assoc 3 3 3 3 B M (mmul B W)) by auto. rewrite <- (mmul_assoc 3 3 3 3 M B W) by auto. rewrite MBW.
      rewrite <- (mmul_assoc 3 3 3 3 B W) by auto. rewrite !(mmul_assoc 3 3 3 3 (mmul B W)) by auto. f_equal.
      unfold J. mat_unfold_goal. repeat (match goal with |- (_ :: _) = (_ :: _) => f_equal end); ring.
  Qed.
End TM.
