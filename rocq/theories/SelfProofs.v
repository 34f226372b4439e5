(** Distance zero means no stretch (C106). *)
From Coq Require Import Permutation Sorted.
From Verif Require Import LinAlg Eig Spectral GroupProofs GroupSpec DistSpec DistProofs DistProofs2 HnfSpec DirectConcSpec LatticeSpec RankOneConn MartSpec TwinAxis LatCorSpec LatCorDist LatCorTotal.
Local Open Scope R_scope.

Lemma d33 : dim23 3.
Proof. now right. Qed.
Lemma wfr3 (A B : mat R) : wf 3 3 A -> wf 3 3 B -> wf 3 3 (mmul A B).
Proof. intros. apply (wf_mmul 3 3 3); auto; lia. Qed.
Lemma assocr (A B C : mat R) : wf 3 3 A -> wf 3 3 B -> wf 3 3 C -> mmul (mmul A B) C = mmul A (mmul B C).
Proof. intros. apply (mmul_assoc 3 3 3 3); auto; lia. Qed.

Lemma fro2_msub0 (A B : mat R) : wf 3 3 A -> wf 3 3 B -> fro2 3 3 (msub A B) = 0 <-> A = B.
Proof.
  intros WA WB. split.
  - intros H. apply (mat_ext 3 3); auto. intros i j Hi Hj. pose proof (fro2_zero 3 3 _ H i j Hi Hj) as Z.
    rewrite (get_msub 3 3) in Z by auto. cbn [sub R_ops] in Z. lra.
  - intros ->. unfold fro2. apply sumn_R0. intros i Hi. apply sumn_R0. intros j Hj. rewrite (get_msub 3 3) by auto. cbn [sub R_ops]. ring.
Qed.

Lemma gram_pos (E : mat R) : wf 3 3 E -> det E <> 0 -> 0 < fro2 3 3 (mmul (tr E) E).
Proof. intros W D. destruct (Eric_val 3 [] E E d33 W W D) as (nf & P & -> & _). exact P. Qed.

Lemma has_distance_nonneg w E1 E2 F d : base 3 E2 -> has_distance w E1 E2 F d -> 0 <= d.
Proof.
  intros (_ & W2 & D2). destruct w; cbn [has_distance].
  - intros ->. apply fro2_nonneg.
  - intros H. pose proof (gram_pos E2 W2 D2) as P. pose proof (fro2_nonneg 3 3 (msub (mmul (tr E1) E1) (mmul (tr E2) E2))). nra.
  - intros (l1 & l2 & l3 & V & _ & ->). pose proof (pow2_ge_0 (sqrt l1 - 1)). pose proof (pow2_ge_0 (sqrt l2 - 1)). pose proof (pow2_ge_0 (sqrt l3 - 1)). lra.
Qed.

Lemma gram_inverse (F G : mat R) : wf 3 3 F -> wf 3 3 G -> mmul F G = eye 3 -> mmul G F = eye 3 -> mmul G (tr G) = eye 3 -> mmul (tr F) F = eye 3.
Proof.
  intros WF WG FG GF H. assert (WTF : wf 3 3 (tr F)) by (apply wf_tr'; auto; lia). assert (WTG : wf 3 3 (tr G)) by (apply wf_tr'; auto; lia).
  assert (E : tr G = F). { transitivity (mmul (mmul F G) (tr G)); [rewrite FG, (mmul_eye_l 3 3) by (auto; lia); reflexivity|]. rewrite assocr, H, (mmul_eye_r 3 3) by (auto; lia). reflexivity. }
  replace (tr F) with G; [exact GF|]. rewrite <- E. symmetry. apply (tr_tr 3 3); auto; lia.
Qed.

Lemma has_distance_zero w E1 E2 F G : base 3 E1 -> base 3 E2 -> wf 3 3 F -> wf 3 3 G -> mmul F G = eye 3 -> mmul G F = eye 3 -> mmul F E1 = E2 ->
  has_distance w E1 E2 G 0 -> mmul (tr F) F = eye 3.
Proof.
  intros (_ & W1 & D1) (_ & W2 & D2) WF WG FG GF EF. assert (WTF : wf 3 3 (tr F)) by (apply wf_tr'; auto; lia). assert (WTG : wf 3 3 (tr G)) by (apply wf_tr'; auto; lia).
  assert (WT1 : wf 3 3 (tr E1)) by (apply wf_tr'; auto; lia). assert (WT2 : wf 3 3 (tr E2)) by (apply wf_tr'; auto; lia).
  destruct w; cbn [has_distance]; intros H.
  - symmetry in H. apply fro2_msub0 in H; [|now apply wfr3|apply wf_eye]. now apply (gram_inverse F G).
  - rewrite Rmult_0_l in H. symmetry in H. apply fro2_msub0 in H; [|now apply wfr3|now apply wfr3].
    rewrite <- EF, (tr_mmul 3 3 3), (assocr (tr E1) (tr F)), <- (assocr (tr F) F E1) in H by (auto using wfr3; lia).
    set (X := mmul (tr F) F) in *. assert (WX : wf 3 3 X) by now apply wfr3.
    assert (D1' : det (tr E1) <> 0) by (rewrite (det_tr 3) by (auto using d33); exact D1).
    apply (f_equal (fun M => mmul (minv (tr E1)) M)) in H. rewrite <- !(assocr (minv (tr E1))), (minv_l 3), !(mmul_eye_l 3 3) in H by (auto using d33, wf_minv, wfr3; lia).
    apply (f_equal (fun M => mmul M (minv E1))) in H. rewrite assocr, (minv_r 3), (mmul_eye_r 3 3) in H by (auto using d33, wf_minv; lia). now symmetry.
  - destruct H as (l1 & l2 & l3 & V & HE & H). pose proof (eigen_gram_nonneg 3 G [l1; l2; l3] V d33 WG HE) as N.
    symmetry in H. apply sq_zero in H. destruct H as (A & B & C).
    apply (gram_inverse F G); auto. apply (eigen_one _ V). replace 1 with l1 at 1 by (apply sqrt_1_iff; [exact (N 0%nat ltac:(cbn; lia))|exact A]).
    replace 1 with l2 at 1 by (apply sqrt_1_iff; [exact (N 1%nat ltac:(cbn; lia))|exact B]). replace 1 with l3 at 1 by (apply sqrt_1_iff; [exact (N 2%nat ltac:(cbn; lia))|exact C]). exact HE.
Qed.

Lemma has_distance_rotated w E1 E2 Q : base 3 E2 -> orthogonal 3 Q -> E1 = mmul Q E2 -> has_distance w E1 E2 (mmul E1 (minv E2)) 0.
Proof.
  intros (_ & W2 & D2) HQ ->. pose proof HQ as [WQ OQ]. rewrite assocr, (minv_r 3), (mmul_eye_r 3 3) by (auto using d33, wf_minv; lia).
  assert (WTQ : wf 3 3 (tr Q)) by (apply wf_tr'; auto; lia). assert (WT2 : wf 3 3 (tr E2)) by (apply wf_tr'; auto; lia).
  destruct w; cbn [has_distance].
  - rewrite OQ. symmetry. apply fro2_msub0; [apply wf_eye|apply wf_eye|reflexivity].
  - rewrite Rmult_0_l. symmetry. assert (WQE : wf 3 3 (mmul Q E2)) by now apply wfr3. assert (WTQE : wf 3 3 (tr (mmul Q E2))) by (apply wf_tr'; auto; lia). apply fro2_msub0; [now apply wfr3|now apply wfr3|].
    rewrite (tr_mmul 3 3 3), (assocr (tr E2)), <- (assocr (tr Q) Q E2), (orth_l 3 Q d33 HQ), (mmul_eye_l 3 3) by (auto using wfr3; lia). reflexivity.
  - exists 1, 1, 1, (eye 3). rewrite OQ. split; [exact (eigen_diag 3 [1; 1; 1] d33 eq_refl)|]. rewrite sqrt_1. ring.
Qed.

Lemma posdef_pd (U : mat R) : wf 3 3 U -> Spectral.symmetric U -> posdef 3 U -> positive_definite U.
Proof.
  intros W S P. split; [now split|]. intros x y z N.
  specialize (P (fun i => match i with 0%nat => x | 1%nat => y | _ => z end)).
  destruct (wf3_inv U W) as (a&b&c&d&e&f&g&h&k&->). revert P. cbv [qform sumn get nth dot mvmul length vget map add mul zero R_ops]. intros P.
  assert (Q : Spectral.nonzero 3 (fun i => match i with 0%nat => x | 1%nat => y | _ => z end)).
  { unfold Spectral.nonzero. destruct (Req_EM_T x 0) as [->|X]; [|exists 0%nat; split; [lia|exact X]]. destruct (Req_EM_T y 0) as [->|Y]; [|exists 1%nat; split; [lia|exact Y]].
    destruct (Req_EM_T z 0) as [->|Z]; [exfalso; now apply N|exists 2%nat; split; [lia|exact Z]]. }
  specialize (P Q). mat_unfold_goal. lra.
Qed.
Lemma pd_eye : positive_definite (eye 3).
Proof.
  split; [split; [apply wf_eye|apply tr_eye; lia]|]. intros x y z N. replace (dot _ _) with (x * x + y * y + z * z) by (mat_unfold_goal; ring).
  destruct (Req_EM_T x 0) as [->|X]; [|nra]. destruct (Req_EM_T y 0) as [->|Y]; [|nra]. destruct (Req_EM_T z 0) as [->|Z]; [exfalso; now apply N|nra].
Qed.

Lemma genuine_zero w v EA EM BA BM h l cor U lams : wf 3 3 EA -> det EA <> 0 -> base 3 EM -> genuine w v EA EM BA BM 0 h l cor U lams -> U = eye 3 /\ lams = [1; 1; 1].
Proof.
  intros WA DA BM' [Hh _ [Wl Dl] (F & G & WF & WG & FG & GF & EF & _ & SU & PU & UU & HD) (_ & mu & V & HE & HP)].
  assert (WU : wf 3 3 U) by apply HE. assert (Wh : wf 3 3 h) by apply Hh.
  assert (B1 : base 3 (mmul EA (RZ (mmul h l)))).
  { assert (W1 : wf 3 3 (mmul EA (RZ (mmul h l)))) by (apply wfr3; [exact WA|apply wf_RZ; now apply wfz3]). split; [now right|]. split; [exact W1|]. intros D. destruct BM' as (_ & WM & DM). apply DM. rewrite <- EF, (det_mmul 3), D by (auto using d33). ring. }
  pose proof (has_distance_zero w _ EM F G B1 BM' WF WG FG GF EF HD) as Z. rewrite Z in UU.
  assert (EU : U = eye 3).
  { apply (sqrt_unique U (eye 3)); [now apply posdef_pd|exact pd_eye|]. rewrite UU, (mmul_eye_l 3 3) by (try apply wf_eye; lia). reflexivity. }
  split; [exact EU|]. rewrite EU in HE. pose proof (eigen_perm 3 (eye 3) mu V [1; 1; 1] (eye 3) d33 HE (eigen_diag 3 [1; 1; 1] d33 eq_refl)) as P1.
  pose proof (Permutation_trans HP P1) as P2. pose proof (Permutation_length P2) as L. 
  assert (A1 : forall x, In x lams -> x = 1) by (intros x Hx; apply (Permutation_in _ P2) in Hx; cbn in Hx; intuition congruence).
  destruct lams as [|x [|y [|z [|]]]]; try discriminate. rewrite (A1 x), (A1 y), (A1 z) by (cbn; auto). reflexivity.
Qed.

Lemma genuine_stretch w v EA EM BA BM d h l cor lams : wf 3 3 EA -> base 3 EM -> genuine w v EA EM BA BM d h l cor (eye 3) lams -> d = 0.
Proof.
  intros WA BM' [Hh _ [Wl Dl] (F & G & WF & WG & FG & GF & EF & _ & SU & PU & UU & HD) _]. assert (Wh : wf 3 3 h) by apply Hh.
  set (E1 := mmul EA (RZ (mmul h l))) in *. assert (W1 : wf 3 3 E1) by (apply wfr3; [exact WA|apply wf_RZ; now apply wfz3]).
  rewrite (mmul_eye_l 3 3) in UU by (try apply wf_eye; lia). symmetry in UU. assert (WTF : wf 3 3 (tr F)) by (apply wf_tr'; auto; lia). assert (WTG : wf 3 3 (tr G)) by (apply wf_tr'; auto; lia).
  assert (EG : tr F = G). { transitivity (mmul (tr F) (mmul F G)); [rewrite FG, (mmul_eye_r 3 3) by (auto; lia); reflexivity|]. rewrite <- assocr, UU, (mmul_eye_l 3 3) by (auto; lia). reflexivity. }
  assert (OG : orthogonal 3 G). { split; [exact WG|]. rewrite <- EG, (tr_tr 3 3) by (auto; lia). exact UU. }
  assert (E1G : E1 = mmul G EM). { rewrite <- EF, <- assocr, GF, (mmul_eye_l 3 3) by (auto; lia). reflexivity. }
  pose proof (has_distance_rotated w E1 EM G BM' OG E1G) as H0. pose proof BM' as (_ & WM & DM).
  replace (mmul E1 (minv EM)) with G in H0; [exact (has_distance_unique w E1 EM G d 0 BM' HD H0)|].
  rewrite E1G, assocr, (minv_r 3), (mmul_eye_r 3 3) by (auto using d33, wf_minv; lia). reflexivity.
Qed.
