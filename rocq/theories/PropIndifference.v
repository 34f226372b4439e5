(** Property C127: the compatibility test is frame indifferent.  Specification: RankOneSpec.v; model: RankOneModel.v. *)
From Verif Require Import RankOneAll PropRankOne PropTwinFrame TwinProofs.
Local Open Scope R_scope.

Lemma mixed_frame (A B P Q S : mat R) : wf 3 3 A -> wf 3 3 B -> det B <> 0 -> orthogonal 3 P -> orthogonal 3 Q -> orthogonal 3 S ->
  mixed (mmul (mmul P A) S) (mmul (mmul Q B) S) = rotate Q (mixed A B).
Proof.
  intros WA WB DB OP OQ OS. assert (d : dim23 3) by now right. destruct (orth_inv 3 Q d OQ) as [IQ DQ]. destruct (orth_inv 3 S d OS) as [IS DS].
  pose proof (proj1 OP) as WP. pose proof (proj1 OQ) as WQ. pose proof (proj1 OS) as WS. pose proof (wf_minv 3 B d WB) as WI.
  assert (N3 : (0 < 3)%nat) by lia.
  assert (WM : forall X Y : mat R, wf 3 3 X -> wf 3 3 Y -> wf 3 3 (mmul X Y)) by (intros; now apply (wf_mmul 3 3 3)).
  assert (WT : forall X : mat R, wf 3 3 X -> wf 3 3 (tr X)) by (intros; now apply wf_tr').
  assert (DQB : det (mmul Q B) <> 0) by (rewrite (det_mmul 3) by auto; now apply Rmult_integral_contrapositive_currified).
  assert (DQBS : det (mmul (mmul Q B) S) <> 0) by (rewrite (det_mmul 3) by auto; now apply Rmult_integral_contrapositive_currified).
  (* A' B'^-1 = P A B^-1 Q^T *)
  assert (K : mmul (mmul (mmul P A) S) (minv (mmul (mmul Q B) S)) = mmul P (mmul (mmul A (minv B)) (tr Q))).
  { rewrite (minv_mmul 3), (minv_mmul 3), IQ, IS by auto.
    rewrite (mmul_assoc 3 3 3 3 (mmul P A)) by auto. rewrite <- (mmul_assoc 3 3 3 3 S) by auto. rewrite (proj2 OS), (mmul_eye_l 3 3) by auto.
    rewrite !(mmul_assoc 3 3 3 3) by auto. reflexivity. }
  assert (MX : forall X Y : mat R, wf 3 3 X -> wf 3 3 Y -> det Y <> 0 -> mixed X Y = mmul (tr (mmul X (minv Y))) (mmul X (minv Y))).
  { intros X Y WX WY DY. unfold mixed. rewrite (tr_mmul 3 3 3), (minv_tr 3) by (auto using wf_minv). reflexivity. }
  rewrite !MX by auto. rewrite K. set (G := mmul A (minv B)). assert (WG : wf 3 3 G) by (unfold G; auto).
  unfold rotate. rewrite (tr_mmul 3 3 3 P), (tr_mmul 3 3 3 G), (tr_tr 3 3) by auto.
  rewrite (mmul_assoc 3 3 3 3 (mmul Q (tr G))) by auto. rewrite <- (mmul_assoc 3 3 3 3 (tr P) P) by auto. rewrite (orth_l 3 P) by auto. rewrite (mmul_eye_l 3 3) by auto.
  rewrite !(mmul_assoc 3 3 3 3) by auto. reflexivity.
Qed.

(** * C127 *)
(** A rotation (or reflection) applied after either deformation, and one applied before both, leave the answer unchanged. *)
Theorem C127_frame : forall eig py3 A B P Q S, wf 3 3 A -> wf 3 3 B -> det A <> 0 -> det B <> 0 ->
  orthogonal 3 P -> orthogonal 3 Q -> orthogonal 3 S -> (forall C, MartSpec.symmetric C -> is_eig C (eig C)) ->
  isCompatible eig py3 (mmul (mmul P A) S) (mmul (mmul Q B) S) = isCompatible eig py3 A B.
Proof.
  intros eig py3 A B P Q S WA WB DA DB OP OQ OS EG. assert (d : dim23 3) by now right. assert (N3 : (0 < 3)%nat) by lia.
  destruct (orth_inv 3 P d OP) as [_ DP]. destruct (orth_inv 3 Q d OQ) as [_ DQ]. destruct (orth_inv 3 S d OS) as [_ DS].
  pose proof (proj1 OP) as WP. pose proof (proj1 OQ) as WQ. pose proof (proj1 OS) as WS.
  assert (F : forall X Y : mat R, wf 3 3 X -> det X <> 0 -> wf 3 3 Y -> det Y <> 0 -> wf 3 3 (mmul X Y) /\ det (mmul X Y) <> 0).
  { intros X Y WX DX WY DY. split; [now apply (wf_mmul 3 3 3)|]. rewrite (det_mmul 3) by auto. now apply Rmult_integral_contrapositive_currified. }
  destruct (F P A WP DP WA DA) as [W1 D1]. destruct (F _ S W1 D1 WS DS) as [W2 D2]. destruct (F Q B WQ DQ WB DB) as [W3 D3]. destruct (F _ S W3 D3 WS DS) as [W4 D4].
  destruct py3; [now rewrite !C31_python3_refuted by assumption|].
  pose proof (mixed_posdef A B WA WB DA DB) as PM. destruct (eigenvalues_exist _ (proj1 PM)) as (l1 & l2 & l3 & EV).
  destruct (C31_test_partial eig A B l1 l2 l3 WA WB DA DB (EG _ (proj1 PM)) EV) as (r & E & H).
  destruct (C31_test_partial eig _ _ l1 l2 l3 W2 W4 D2 D4 (EG _ (proj1 (mixed_posdef _ _ W2 W4 D2 D4)))) as (r' & E' & H').
  { rewrite mixed_frame by assumption. apply (eigenvalues_rotate Q); assumption. }
  rewrite E, E'. f_equal. apply Bool.eq_iff_eq_true. now rewrite H, H'.
Qed.
(** All variants of a stretch are compatible with the parent phase, or none is. *)
Theorem C127_variants : forall eig py3 U Q, wf 3 3 U -> det U <> 0 -> orthogonal 3 Q -> (forall C, MartSpec.symmetric C -> is_eig C (eig C)) ->
  isCompatible eig py3 (rotate Q U) (eye 3) = isCompatible eig py3 U (eye 3).
Proof.
  intros eig py3 U Q WU DU OQ EG. assert (d : dim23 3) by now right. pose proof (orth_tr 3 Q d OQ) as OT.
  rewrite <- (C127_frame eig py3 U (eye 3) Q Q (tr Q)) by (auto; first [apply wf_eye | rewrite det_eye by exact d; lra]).
  unfold rotate. rewrite (mmul_eye_r 3 3 Q) by (auto; lia || apply OQ). now rewrite (proj2 OQ).
Qed.
(** Exchanging the two: a connected pair is accepted in both orders ... *)
Lemma mmul_outer (M : mat R) (a n : vec R) : wf 3 3 M -> length a = 3%nat -> length n = 3%nat -> mmul M (outer a n) = outer (mvmul M a) n.
Proof. intros W La Ln. destruct (wf3_inv M W) as (m0&m1&m2&m3&m4&m5&m6&m7&m8&->). v3 La. v3 Ln. mat_eq ltac:(ring). Qed.
Lemma connected_sym A B : wf 3 3 A -> wf 3 3 B -> rank_one_connected A B -> rank_one_connected B A.
Proof.
  intros WA WB (Q & a & n & OQ & DQ & La & Ln & E). assert (d : dim23 3) by now right. assert (N3 : (0 < 3)%nat) by lia. pose proof (orth_tr 3 Q d OQ) as OT. pose proof (proj1 OT) as WT. pose proof (proj1 OQ) as WQ.
  assert (LT : length (mvmul (tr Q) a) = 3%nat) by (destruct (wf3_inv _ WT) as (m0&m1&m2&m3&m4&m5&m6&m7&m8&->); reflexivity).
  exists (tr Q), (vscale (-1) (mvmul (tr Q) a)), n. split; [exact OT|]. split; [rewrite (det_tr 3) by auto; exact DQ|].
  split; [now rewrite len_vscale|]. split; [exact Ln|].
  apply (f_equal (mmul (tr Q))) in E. rewrite mmul_outer in E by auto. rewrite (mmul_msub_l 3) in E by (auto; now apply (wf_mmul 3 3 3)).
  rewrite <- (mmul_assoc 3 3 3 3), (orth_l 3 Q), (mmul_eye_l 3 3) in E by auto.
  set (X := mmul (tr Q) B) in *. assert (WX : wf 3 3 X) by (now apply (wf_mmul 3 3 3)). set (y := mvmul (tr Q) a) in *. clearbody X y. clear -E WX WA LT Ln.
  assert (G : forall i j, (i < 3)%nat -> (j < 3)%nat -> get (msub A X) i j = get (outer y n) i j) by (intros; now rewrite E).
  assert (WO : wf 3 3 (outer y n)) by (rewrite <- E; apply wf_msub; [lia|exact WA]).
  assert (WO' : wf 3 3 (outer (vscale (-1) y) n)) by (v3 LT; v3 Ln; now apply wfb_spec).
  apply (mat_ext 3 3); [apply wf_msub; [lia|exact WX]|exact WO'|]. intros i j Hi Hj. specialize (G i j Hi Hj). rewrite (get_msub 3 3) in * by assumption.
  assert (K : get (outer (vscale (-1) y) n) i j = - get (outer y n) i j).
  { v3 LT. v3 Ln. destruct i as [|[|[|]]]; try lia; destruct j as [|[|[|]]]; try lia; cbn; ring. }
  rewrite K, <- G. cbn. ring.
Qed.
Theorem C127_exchange_connected : forall eig A B, wf 3 3 A -> wf 3 3 B -> 0 < det A * det B -> (forall C, MartSpec.symmetric C -> is_eig C (eig C)) ->
  rank_one_connected A B -> isCompatible eig false A B = Ok true /\ isCompatible eig false B A = Ok true.
Proof.
  intros eig A B WA WB D EG RC. assert (DA : det A <> 0) by (intros Z; rewrite Z in D; lra). assert (DB : det B <> 0) by (intros Z; rewrite Z in D; lra).
  split; apply C31_accepts_connected; auto; try (apply EG, (mixed_posdef _ _); assumption); [lra|now apply connected_sym].
Qed.
(** ... but in general the answer depends on the order: (I/2, I) is accepted, (I, I/2) is not. *)
Theorem C127_exchange_refuted : exists eig A B, wf 3 3 A /\ wf 3 3 B /\ 0 < det A * det B /\
  is_eig (mixed A B) (eig (mixed A B)) /\ is_eig (mixed B A) (eig (mixed B A)) /\
  isCompatible eig false A B = Ok true /\ isCompatible eig false B A = Ok false.
Proof.
  set (A := M3 (1/2) 0 0 0 (1/2) 0 0 0 (1/2)). set (B := M3 1 0 0 0 1 0 0 0 1). set (A' := M3 2 0 0 0 2 0 0 0 2).
  assert (WA : wf 3 3 A) by (apply wfb_spec; reflexivity). assert (WB : wf 3 3 B) by (apply wfb_spec; reflexivity). assert (WA' : wf 3 3 A') by (apply wfb_spec; reflexivity).
  assert (DA : det A = 1 / 8) by (unfold A, M3; rewrite det3; lra). assert (DB : det B = 1) by (unfold B, M3; rewrite det3; lra).
  assert (BE : B = eye 3) by (unfold B; mat_eq ltac:(reflexivity)). assert (d : dim23 3) by now right.
  assert (IA : minv A = A') by (symmetry; apply (inv_unique 3 A A'); auto; unfold A, A'; mat_eq ltac:(lra)).
  assert (TA : tr A = A) by (unfold A; mat_eq ltac:(reflexivity)). assert (TA' : tr A' = A') by (unfold A'; mat_eq ltac:(reflexivity)).
  assert (E1 : mixed A B = M3 (1/4) 0 0 0 (1/4) 0 0 0 (1/4)).
  { unfold mixed. rewrite BE, tr_eye, minv_eye, TA by (auto; lia). rewrite (mmul_eye_l 3 3), (mmul_eye_r 3 3) by (auto; lia). unfold A. mat_eq ltac:(lra). }
  assert (E2 : mixed B A = M3 4 0 0 0 4 0 0 0 4).
  { unfold mixed. rewrite TA, IA, BE, tr_eye by (auto; lia). rewrite (mmul_eye_l 3 3), (mmul_eye_r 3 3) by (auto; lia). unfold A'. mat_eq ltac:(lra). }
  set (eig := fun C : mat R => ([get C 0 0; get C 1 1; get C 2 2], @eye R _ 3)).
  assert (G1 : is_eig (mixed A B) (eig (mixed A B))) by (rewrite E1; apply is_eig_diag).
  assert (G2 : is_eig (mixed B A) (eig (mixed B A))) by (rewrite E2; apply is_eig_diag).
  exists eig, A, B. split; [exact WA|]. split; [exact WB|]. split; [rewrite DA, DB; lra|]. split; [exact G1|]. split; [exact G2|]. split.
  - destruct (C31_test_partial eig A B (1/4) (1/4) (1/4)) as (r & E & H); auto; try lra; [rewrite E1; apply eigenvalues_diag; lra|]. rewrite E. f_equal. apply H. lra.
  - destruct (C31_test_partial eig B A 4 4 4) as (r & E & H); auto; try lra; [rewrite E2; apply eigenvalues_diag; lra|]. rewrite E. f_equal.
    destruct r; [|reflexivity]. pose proof (proj1 H eq_refl). lra.
Qed.
(** The hypotheses are met by a stretch with middle eigenvalue 1 and a quarter turn. *)
Example C127_case : wf 3 3 (M3 (1/2) 0 0 0 1 0 0 0 2) /\ det (M3 (1/2) 0 0 0 1 0 0 0 2) <> 0 /\ orthogonal 3 (M3 0 (-1) 0 1 0 0 0 0 1) /\
  rank_one_connected (M3 (1/2) 0 0 0 1 0 0 0 2) (M3 1 0 0 0 1 0 0 0 1) /\
  rotate (M3 0 (-1) 0 1 0 0 0 0 1) (M3 (1/2) 0 0 0 1 0 0 0 2) = M3 1 0 0 0 (1/2) 0 0 0 2.
Proof.
  split; [now apply wfb_spec|]. split; [unfold M3; rewrite det3; lra|]. split; [split; [now apply wfb_spec|mat_eq ltac:(ring)]|].
  split; [exact C31_case|]. unfold rotate. mat_eq ltac:(lra).
Qed.
Print Assumptions C127_frame.
Print Assumptions C127_variants.
Print Assumptions C127_exchange_connected.
Print Assumptions C127_exchange_refuted.
