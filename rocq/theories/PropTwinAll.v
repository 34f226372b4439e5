(** Property C118: the two twins of a pair are simple shears of the same amount, and there are no others. *)
From Verif Require Import PropTwin PropMart PropRankOne PropTwin2.
From Verif Require Export PropTwin3.
Local Open Scope R_scope.

(** ** Specification *)
(** the amount of shear of I + a (x) s *)
Definition shear (a s : vec R) : R := vnorm a * vnorm s.

(** ** Two linear forms are determined by their product *)
Lemma prod_zero u1 u2 u3 w1 w2 w3 : (forall y1 y2 y3, (u1 * y1 + u2 * y2 + u3 * y3) * (w1 * y1 + w2 * y2 + w3 * y3) = 0) ->
  (u1 = 0 /\ u2 = 0 /\ u3 = 0) \/ (w1 = 0 /\ w2 = 0 /\ w3 = 0).
Proof.
  intros H. pose proof (H u1 u2 u3) as Hu. pose proof (H (u1 + w1) (u2 + w2) (u3 + w3)) as Hs.
  assert (Z : forall x y z, x * x + y * y + z * z = 0 -> x = 0 /\ y = 0 /\ z = 0) by (intros x y z E; repeat split; nra).
  apply Rmult_integral in Hu. destruct Hu as [Hu|Hu]; [left; apply Z; lra|].
  replace (u1 * (u1 + w1) + u2 * (u2 + w2) + u3 * (u3 + w3)) with (u1 * u1 + u2 * u2 + u3 * u3) in Hs by lra.
  replace (w1 * (u1 + w1) + w2 * (u2 + w2) + w3 * (u3 + w3)) with (w1 * w1 + w2 * w2 + w3 * w3) in Hs by lra.
  apply Rmult_integral in Hs. destruct Hs as [Hs|Hs]; [left|right]; now apply Z.
Qed.
Lemma parallel p1 p2 p3 r1 r2 r3 : p2 * r3 - p3 * r2 = 0 -> p3 * r1 - p1 * r3 = 0 -> p1 * r2 - p2 * r1 = 0 -> ~ (p1 = 0 /\ p2 = 0 /\ p3 = 0) ->
  exists c, r1 = c * p1 /\ r2 = c * p2 /\ r3 = c * p3.
Proof.
  intros E1 E2 E3 N. destruct (Req_dec p1 0) as [Z1|N1]; [destruct (Req_dec p2 0) as [Z2|N2]; [destruct (Req_dec p3 0) as [Z3|N3]; [tauto|]|]|].
  - exists (r3 / p3). subst. repeat split; try (field; assumption); nra.
  - exists (r2 / p2). subst. repeat split; [|field; assumption|]; apply (Rmult_eq_reg_l p2); try assumption; field_simplify; try assumption; lra.
  - exists (r1 / p1). repeat split; [field; assumption| |]; apply (Rmult_eq_reg_l p1); try assumption; field_simplify; try assumption; lra.
Qed.
Lemma two_factors p1 p2 p3 q1 q2 q3 r1 r2 r3 s1 s2 s3 :
  (forall x1 x2 x3, (p1 * x1 + p2 * x2 + p3 * x3) * (q1 * x1 + q2 * x2 + q3 * x3) = (r1 * x1 + r2 * x2 + r3 * x3) * (s1 * x1 + s2 * x2 + s3 * x3)) ->
  ~ (p1 = 0 /\ p2 = 0 /\ p3 = 0) -> ~ (q1 = 0 /\ q2 = 0 /\ q3 = 0) ->
  (exists c, (r1 = c * p1 /\ r2 = c * p2 /\ r3 = c * p3) /\ (q1 = c * s1 /\ q2 = c * s2 /\ q3 = c * s3)) \/
  (exists c, (r1 = c * q1 /\ r2 = c * q2 /\ r3 = c * q3) /\ (p1 = c * s1 /\ p2 = c * s2 /\ p3 = c * s3)).
Proof.
  intros H Np Nq.
  assert (K : forall y1 y2 y3, ((p2 * r3 - p3 * r2) * y1 + (p3 * r1 - p1 * r3) * y2 + (p1 * r2 - p2 * r1) * y3) *
    ((q2 * r3 - q3 * r2) * y1 + (q3 * r1 - q1 * r3) * y2 + (q1 * r2 - q2 * r1) * y3) = 0).
  { intros y1 y2 y3. pose proof (H (r2 * y3 - r3 * y2) (r3 * y1 - r1 * y3) (r1 * y2 - r2 * y1)) as E.
    replace (r1 * (r2 * y3 - r3 * y2) + r2 * (r3 * y1 - r1 * y3) + r3 * (r1 * y2 - r2 * y1)) with 0 in E by ring. rewrite Rmult_0_l in E. rewrite <- E. ring. }
  apply prod_zero in K. destruct K as [(K1 & K2 & K3)|(K1 & K2 & K3)].
  - left. destruct (parallel p1 p2 p3 r1 r2 r3 K1 K2 K3 Np) as (c & -> & -> & ->). exists c. split; [auto|].
    assert (L : forall y1 y2 y3, (p1 * y1 + p2 * y2 + p3 * y3) * ((q1 - c * s1) * y1 + (q2 - c * s2) * y2 + (q3 - c * s3) * y3) = 0).
    { intros y1 y2 y3. pose proof (H y1 y2 y3) as E. transitivity ((p1 * y1 + p2 * y2 + p3 * y3) * (q1 * y1 + q2 * y2 + q3 * y3) - (c * p1 * y1 + c * p2 * y2 + c * p3 * y3) * (s1 * y1 + s2 * y2 + s3 * y3)); [ring|lra]. }
    apply prod_zero in L. destruct L as [L|(L1 & L2 & L3)]; [tauto|]. repeat split; lra.
  - right. destruct (parallel q1 q2 q3 r1 r2 r3 K1 K2 K3 Nq) as (c & -> & -> & ->). exists c. split; [auto|].
    assert (L : forall y1 y2 y3, (q1 * y1 + q2 * y2 + q3 * y3) * ((p1 - c * s1) * y1 + (p2 - c * s2) * y2 + (p3 - c * s3) * y3) = 0).
    { intros y1 y2 y3. pose proof (H y1 y2 y3) as E. transitivity ((p1 * y1 + p2 * y2 + p3 * y3) * (q1 * y1 + q2 * y2 + q3 * y3) - (c * q1 * y1 + c * q2 * y2 + c * q3 * y3) * (s1 * y1 + s2 * y2 + s3 * y3)); [ring|lra]. }
    apply prod_zero in L. destruct L as [L|(L1 & L2 & L3)]; [tauto|]. repeat split; lra.
Qed.

(** ** Solutions of the twinning equation *)
Lemma det_variants U V : positive_definite U -> variants U V -> det V = det U.
Proof. intros PU (Q & O & <-). apply det_rotate; [exact O|apply PU]. Qed.
Lemma twin_square U V Q a n : MartSpec.symmetric V -> twinning U V Q a n -> mmul (tr (madd U (outer a n))) (madd U (outer a n)) = mmul V V.
Proof.
  intros [WV TV] (O & _ & _ & _ & _ & E). assert (d : dim23 3) by now right. pose proof (orth_wf _ _ O) as WQ. rewrite <- E.
  rewrite (tr_mmul 3 3 3), TV by (auto; lia). assert (WT : wf 3 3 (tr Q)) by (apply wf_tr'; auto; lia).
  assert (WQV : wf 3 3 (mmul Q V)) by (apply (wf_mmul 3 3 3); auto).
  rewrite (mmul_assoc 3 3 3 3 V (tr Q)) by (auto; lia). rewrite <- (mmul_assoc 3 3 3 3 (tr Q) Q V) by (auto; lia).
  rewrite (orth_l 3 Q), (mmul_eye_l 3 3) by auto. reflexivity.
Qed.
Lemma twin_form U V Q a n : MartSpec.symmetric U -> MartSpec.symmetric V -> twinning U V Q a n -> forall x, length x = 3%nat ->
  dot x (mvmul (mmul V V) x) = dot x (mvmul (mmul U U) x) + dot n x * (2 * dot (mvmul U a) x + dot a a * dot n x).
Proof.
  intros SU SV T x Lx. rewrite <- (twin_square U V Q a n SV T). destruct T as (_ & _ & La & Ln & _ & _).
  destruct (sym3 U SU) as (c1 & c2 & c3 & c4 & c5 & c6 & ->). v3 La. v3 Ln. v3 Lx. mat_unfold_goal. ring.
Qed.
Lemma twin_volume U V Q a n : positive_definite U -> det V = det U -> wf 3 3 V -> twinning U V Q a n -> dot a (mvmul (minv U) n) = 0.
Proof.
  intros PU D WV (O & DQ & La & Ln & _ & E). pose proof (posdef_det U PU) as DU. pose proof PU as [[WU _] _]. pose proof (orth_wf _ _ O) as WQ.
  assert (F : det (mmul Q V) = det (madd U (outer a n))) by now rewrite E. rewrite (det_mmul 3), det_add, DQ, D in F by (auto; try lra; now right).
  assert (K : dot (mvmul (minv U) a) n = 0) by (apply (Rmult_eq_reg_l (det U)); lra).
  rewrite dot_sym_mv; auto. now apply posdef_inv_sym.
Qed.
(** I + a (x) U^-1 n *)
Lemma twin_shear_mat U V Q a n : positive_definite U -> twinning U V Q a n -> mmul (mmul Q V) (minv U) = madd (eye 3) (outer a (mvmul (minv U) n)).
Proof.
  intros PU (_ & _ & La & Ln & _ & ->). pose proof (posdef_det U PU) as DU. pose proof PU as [[WU _] _]. assert (d : dim23 3) by now right.
  pose proof (minv_r 3 U d WU ltac:(lra)) as R1. pose proof (posdef_inv_sym U PU) as SI. set (Ui := minv U) in *. clearbody Ui.
  transitivity (madd (mmul U Ui) (outer a (mvmul Ui n))); [|now rewrite R1]. clear R1.
  destruct (sym3 Ui SI) as (c1 & c2 & c3 & c4 & c5 & c6 & ->). apply wf3_inv in WU. destruct WU as (? & ? & ? & ? & ? & ? & ? & ? & ? & ->). v3 La. v3 Ln. mat_eq ltac:(ring).
Qed.
Lemma twin_matrix_shear U V Q a n : positive_definite U -> positive_definite V -> twinning U V Q a n ->
  twin_matrix U V = mmul (tr (madd (eye 3) (outer a (mvmul (minv U) n)))) (madd (eye 3) (outer a (mvmul (minv U) n))).
Proof.
  intros PU PV T. rewrite <- (twin_shear_mat U V Q a n PU T). destruct T as (O & _). pose proof (posdef_det U PU) as DU. pose proof PU as [[WU _] _]. pose proof PV as [[WV TV] _].
  assert (d : dim23 3) by now right. pose proof (orth_wf _ _ O) as WQ. pose proof (posdef_inv_sym U PU) as [WI TI]. unfold twin_matrix. set (Ui := minv U) in *. clearbody Ui.
  assert (WT : wf 3 3 (tr Q)) by (apply wf_tr'; auto; lia). assert (WQV : wf 3 3 (mmul Q V)) by (apply (wf_mmul 3 3 3); auto).
  assert (WVU : wf 3 3 (mmul V Ui)) by (apply (wf_mmul 3 3 3); auto). assert (WVQ : wf 3 3 (mmul V (tr Q))) by (apply (wf_mmul 3 3 3); auto).
  rewrite (tr_mmul 3 3 3), (tr_mmul 3 3 3), TI, TV by (auto; lia).
  rewrite (mmul_assoc 3 3 3 3 Q V Ui), (mmul_assoc 3 3 3 3 Ui (mmul V (tr Q))), (mmul_assoc 3 3 3 3 V (tr Q)) by (auto; try lia; apply (wf_mmul 3 3 3); auto).
  rewrite <- (mmul_assoc 3 3 3 3 (tr Q) Q), (orth_l 3 Q), (mmul_eye_l 3 3) by (auto; lia). rewrite (mmul_assoc 3 3 3 3) by (auto; lia). reflexivity.
Qed.
Lemma trace_shear a s : length a = 3%nat -> length s = 3%nat ->
  trace (mmul (tr (madd (eye 3) (outer a s))) (madd (eye 3) (outer a s))) = 3 + 2 * dot a s + dot a a * dot s s.
Proof. intros La Ls. v3 La. v3 Ls. unfold trace. mat_unfold_goal. ring. Qed.
(** ** At most two solutions *)
Lemma dec3 x y z : (x = 0 /\ y = 0 /\ z = 0) \/ ~ (x = 0 /\ y = 0 /\ z = 0).
Proof. destruct (Req_dec x 0), (Req_dec y 0), (Req_dec z 0); tauto. Qed.
Section Scalar.
  Variables c1 c2 c3 c4 c5 c6 : R.
  Let g x1 x2 x3 y1 y2 y3 : R := x1 * (c1 * y1 + c2 * y2 + c3 * y3) + x2 * (c2 * y1 + c4 * y2 + c5 * y3) + x3 * (c3 * y1 + c5 * y2 + c6 * y3).
  (** a solution: n is not zero, b is orthogonal to n for the positive form g *)
  Definition sol (b1 b2 b3 n1 n2 n3 : R) : Prop := 0 < g n1 n2 n3 n1 n2 n3 /\ g b1 b2 b3 n1 n2 n3 = 0.
  Lemma sol_n b1 b2 b3 n1 n2 n3 : sol b1 b2 b3 n1 n2 n3 -> ~ (n1 = 0 /\ n2 = 0 /\ n3 = 0).
  Proof. intros [H _] (-> & -> & ->). unfold g in H. lra. Qed.
  Lemma sol_m0 b1 b2 b3 n1 n2 n3 k : sol b1 b2 b3 n1 n2 n3 -> (2 * b1 + k * n1 = 0 /\ 2 * b2 + k * n2 = 0 /\ 2 * b3 + k * n3 = 0) -> b1 = 0 /\ b2 = 0 /\ b3 = 0.
  Proof.
    intros [H Z] (E1 & E2 & E3). assert (K : k * g n1 n2 n3 n1 n2 n3 = 0).
    { transitivity (2 * g b1 b2 b3 n1 n2 n3 + k * g n1 n2 n3 n1 n2 n3); [lra|]. transitivity (g (2 * b1 + k * n1) (2 * b2 + k * n2) (2 * b3 + k * n3) n1 n2 n3); [unfold g; ring|].
      rewrite E1, E2, E3. unfold g. ring. }
    apply Rmult_integral in K. destruct K as [->|K]; [repeat split; lra|lra].
  Qed.
  Lemma two_case b1 b2 b3 n1 n2 n3 k b1' b2' b3' n1' n2' n3' k' : sol b1 b2 b3 n1 n2 n3 -> sol b1' b2' b3' n1' n2' n3' ->
    (forall x1 x2 x3, (n1 * x1 + n2 * x2 + n3 * x3) * ((2 * b1 + k * n1) * x1 + (2 * b2 + k * n2) * x2 + (2 * b3 + k * n3) * x3) =
                      (n1' * x1 + n2' * x2 + n3' * x3) * ((2 * b1' + k' * n1') * x1 + (2 * b2' + k' * n2') * x2 + (2 * b3' + k' * n3') * x3)) ->
    (exists c, c <> 0 /\ (n1' = c * n1 /\ n2' = c * n2 /\ n3' = c * n3) /\ (b1 = c * b1' /\ b2 = c * b2' /\ b3 = c * b3')) \/
    ((b1 = 0 /\ b2 = 0 /\ b3 = 0) /\ (b1' = 0 /\ b2' = 0 /\ b3' = 0)) \/
    (exists c, c <> 0 /\ (n1' = c * (2 * b1 + k * n1) /\ n2' = c * (2 * b2 + k * n2) /\ n3' = c * (2 * b3 + k * n3)) /\
       (n1 = c * (2 * b1' + k' * n1') /\ n2 = c * (2 * b2' + k' * n2') /\ n3 = c * (2 * b3' + k' * n3'))).
  Proof.
    intros S S' H. pose proof (sol_n _ _ _ _ _ _ S) as N. pose proof (sol_n _ _ _ _ _ _ S') as N'.
    destruct (dec3 (2 * b1 + k * n1) (2 * b2 + k * n2) (2 * b3 + k * n3)) as [M|M].
    - right. left. split; [now apply (sol_m0 _ _ _ n1 n2 n3 k)|]. destruct M as (M1 & M2 & M3). rewrite M1, M2, M3 in H.
      destruct (prod_zero n1' n2' n3' (2 * b1' + k' * n1') (2 * b2' + k' * n2') (2 * b3' + k' * n3')) as [X|X]; [intros y1 y2 y3; rewrite <- H; ring|tauto|].
      now apply (sol_m0 _ _ _ n1' n2' n3' k').
    - destruct (two_factors _ _ _ _ _ _ _ _ _ _ _ _ H N M) as [(c & (E1 & E2 & E3) & (F1 & F2 & F3))|(c & (E1 & E2 & E3) & (F1 & F2 & F3))].
      + left. assert (C : c <> 0) by (intros ->; apply N'; rewrite E1, E2, E3; repeat split; ring). exists c. split; [exact C|]. split; [auto|].
        destruct S as [Sg Sz], S' as [Sg' Sz']. rewrite E1, E2, E3 in Sz'. rewrite E1 in F1. rewrite E2 in F2. rewrite E3 in F3.
        assert (K : (k - k' * (c * c)) * g n1 n2 n3 n1 n2 n3 = 0).
        { transitivity (g (2 * b1 + k * n1) (2 * b2 + k * n2) (2 * b3 + k * n3) n1 n2 n3 - 2 * g b1 b2 b3 n1 n2 n3 - k' * (c * c) * g n1 n2 n3 n1 n2 n3); [unfold g; ring|].
          rewrite Sz, F1, F2, F3. transitivity (2 * g b1' b2' b3' (c * n1) (c * n2) (c * n3)); [unfold g; ring|]. rewrite Sz'. ring. }
        apply Rmult_integral in K. destruct K as [K|K]; [|lra]. assert (K2 : k = k' * (c * c)) by lra. rewrite K2 in F1, F2, F3; clear K K2. repeat split; lra.
      + right. right. assert (C : c <> 0) by (intros ->; apply N'; rewrite E1, E2, E3; repeat split; ring). exists c. auto.
  Qed.
  (** two solutions that both exchange the factors of a third *)
  Lemma two_same n1 n2 n3 m1 m2 m3 b1 b2 b3 p1 p2 p3 k b1' b2' b3' p1' p2' p3' k' c c' : sol b1 b2 b3 p1 p2 p3 -> sol b1' b2' b3' p1' p2' p3' -> c <> 0 -> c' <> 0 ->
    (p1 = c * m1 /\ p2 = c * m2 /\ p3 = c * m3) -> (n1 = c * (2 * b1 + k * p1) /\ n2 = c * (2 * b2 + k * p2) /\ n3 = c * (2 * b3 + k * p3)) ->
    (p1' = c' * m1 /\ p2' = c' * m2 /\ p3' = c' * m3) -> (n1 = c' * (2 * b1' + k' * p1') /\ n2 = c' * (2 * b2' + k' * p2') /\ n3 = c' * (2 * b3' + k' * p3')) ->
    (exists e, e <> 0 /\ (p1' = e * p1 /\ p2' = e * p2 /\ p3' = e * p3) /\ (b1 = e * b1' /\ b2 = e * b2' /\ b3 = e * b3')).
  Proof.
    intros S S' C C' (E1 & E2 & E3) (F1 & F2 & F3) (E1' & E2' & E3') (F1' & F2' & F3'). exists (c' / c).
    assert (X : c' / c <> 0) by (apply Rmult_integral_contrapositive_currified; [exact C'|now apply Rinv_neq_0_compat]).
    assert (M : forall x m, x = c * m -> m = x / c) by (intros x m ->; field; exact C).
    assert (P1 : p1' = c' / c * p1) by (rewrite E1', (M _ _ E1); field; exact C). assert (P2 : p2' = c' / c * p2) by (rewrite E2', (M _ _ E2); field; exact C).
    assert (P3 : p3' = c' / c * p3) by (rewrite E3', (M _ _ E3); field; exact C).
    assert (Q : forall x y z, x = c * y -> x = c' * z -> y = c' / c * z) by (intros x y z -> Y; apply (Rmult_eq_reg_l c); [rewrite Y; field; exact C|exact C]).
    pose proof (Q _ _ _ F1 F1') as Q1. pose proof (Q _ _ _ F2 F2') as Q2. pose proof (Q _ _ _ F3 F3') as Q3. set (e := c' / c) in *. clearbody e. clear Q M E1 E2 E3 F1 F2 F3 E1' E2' E3' F1' F2' F3'.
    split; [exact X|]. split; [auto|]. destruct S as [Sg Sz], S' as [Sg' Sz']. rewrite P1, P2, P3 in Sz'. rewrite P1 in Q1. rewrite P2 in Q2. rewrite P3 in Q3.
    assert (K : (k - k' * (e * e)) * g p1 p2 p3 p1 p2 p3 = 0).
    { transitivity (g (2 * b1 + k * p1) (2 * b2 + k * p2) (2 * b3 + k * p3) p1 p2 p3 - 2 * g b1 b2 b3 p1 p2 p3 - k' * (e * e) * g p1 p2 p3 p1 p2 p3); [unfold g; ring|].
      rewrite Sz, Q1, Q2, Q3. transitivity (2 * g b1' b2' b3' (e * p1) (e * p2) (e * p3)); [unfold g; ring|]. rewrite Sz'. ring. }
    apply Rmult_integral in K. destruct K as [K|K]; [|lra]. assert (K2 : k = k' * (e * e)) by lra. rewrite K2 in Q1, Q2, Q3; clear K K2. repeat split; lra.
  Qed.
End Scalar.
Section Two.
  Variables U V : mat R.
  Hypothesis PU : positive_definite U.
  Hypothesis PV : positive_definite V.
  Hypothesis D : det V = det U.
  Let Ui := minv U.
  Lemma twin_sol c1 c2 c3 c4 c5 c6 Q a n b1 b2 b3 n1 n2 n3 : mmul Ui Ui = [[c1; c2; c3]; [c2; c4; c5]; [c3; c5; c6]] -> twinning U V Q a n ->
    mvmul U a = [b1; b2; b3] -> n = [n1; n2; n3] -> sol c1 c2 c3 c4 c5 c6 b1 b2 b3 n1 n2 n3.
  Proof.
    intros EP T Eb En. pose proof (twin_volume U V Q a n PU D (proj1 (proj1 PV)) T) as Z. destruct T as (_ & _ & La & Ln & Nn & _).
    pose proof (posdef_det U PU) as DU. pose proof PU as [SU _]. pose proof SU as [WU _]. pose proof (posdef_inv_sym U PU) as SI. pose proof SI as [WI _].
    assert (d : dim23 3) by now right. fold Ui in Z, SI, WI.
    assert (G : forall x y, length x = 3%nat -> length y = 3%nat -> dot x (mvmul (mmul Ui Ui) y) = dot (mvmul Ui x) (mvmul Ui y)).
    { intros x y Lx Ly. rewrite (mvmul_mmul 3) by (auto; lia). apply dot_sym_mv; auto using len_mv3. }
    split.
    - pose proof (G n n Ln Ln) as K. rewrite EP, En in K. pose proof (mv_pos Ui n WI) as M. rewrite En in M.
      replace (n1 * (c1 * n1 + c2 * n2 + c3 * n3) + n2 * (c2 * n1 + c4 * n2 + c5 * n3) + n3 * (c3 * n1 + c5 * n2 + c6 * n3)) with (dot [n1; n2; n3] (mvmul [[c1; c2; c3]; [c2; c4; c5]; [c3; c5; c6]] [n1; n2; n3])) by (mat_unfold_goal; ring).
      rewrite K. apply M; [unfold Ui; apply (det_minv_neq0 3); auto; lra|reflexivity|now rewrite <- En].
    - pose proof (G (mvmul U a) n (len_mv3 U a WU) Ln) as K. unfold Ui in K at 3. rewrite mvmul_inv_l in K by (auto; lra). fold Ui in K. rewrite Z in K. rewrite EP, Eb, En in K.
      rewrite <- K. mat_unfold_goal. ring.
  Qed.
  Lemma outer_scaled a n a' n' e : length a = 3%nat -> length n = 3%nat -> length a' = 3%nat -> n' = vscale e n -> mvmul U a = vscale e (mvmul U a') -> outer a n = outer a' n'.
  Proof.
    intros La Ln La' -> E. pose proof (posdef_det U PU) as DU. pose proof PU as [[WU _] _].
    assert (WI : wf 3 3 (minv U)) by (apply wf_minv; [now right|exact WU]).
    assert (K : a = vscale e a').
    { rewrite <- (mvmul_inv_l U a WU ltac:(lra) La), E.
      rewrite mv_vscale by (auto using len_mv3). rewrite mvmul_inv_l by (auto; lra). reflexivity. }
    rewrite K. v3 Ln. v3 La'. unfold vscale. mat_eq ltac:(ring).
  Qed.
  Lemma twin_rel Q a n Q' a' n' : twinning U V Q a n -> twinning U V Q' a' n' ->
    outer a n = outer a' n' \/
    exists c, c <> 0 /\ (forall i, (i < 3)%nat -> vget n' i = c * (2 * vget (mvmul U a) i + dot a a * vget n i) /\ vget n i = c * (2 * vget (mvmul U a') i + dot a' a' * vget n' i)).
  Proof.
    intros T T'. pose proof (posdef_det U PU) as DU. pose proof PU as [SU _]. pose proof PV as [SV _]. pose proof SU as [WU _].
    assert (SP : MartSpec.symmetric (mmul Ui Ui)) by (apply sym_sq, posdef_inv_sym, PU). destruct (sym3 _ SP) as (c1 & c2 & c3 & c4 & c5 & c6 & EP).
    assert (F : forall x, length x = 3%nat -> dot n x * (2 * dot (mvmul U a) x + dot a a * dot n x) = dot n' x * (2 * dot (mvmul U a') x + dot a' a' * dot n' x)).
    { intros x Lx. pose proof (twin_form U V Q a n SU SV T x Lx). pose proof (twin_form U V Q' a' n' SU SV T' x Lx). lra. }
    pose proof T as (_ & _ & La & Ln & _ & _). pose proof T' as (_ & _ & La' & Ln' & _ & _).
    pose proof (len_mv3 U a WU) as Lb. pose proof (len_mv3 U a' WU) as Lb'. destruct (len3_inv _ Lb) as (b1 & b2 & b3 & Eb). destruct (len3_inv _ Lb') as (b1' & b2' & b3' & Eb').
    destruct (len3_inv _ Ln) as (n1 & n2 & n3 & En). destruct (len3_inv _ Ln') as (n1' & n2' & n3' & En').
    pose proof (twin_sol _ _ _ _ _ _ Q a n _ _ _ _ _ _ EP T Eb En) as S. pose proof (twin_sol _ _ _ _ _ _ Q' a' n' _ _ _ _ _ _ EP T' Eb' En') as S'.
    destruct (two_case _ _ _ _ _ _ b1 b2 b3 n1 n2 n3 (dot a a) b1' b2' b3' n1' n2' n3' (dot a' a') S S') as [(c & C & (P1 & P2 & P3) & (R1 & R2 & R3))|[((R1 & R2 & R3) & (R1' & R2' & R3'))|(c & C & (P1 & P2 & P3) & (R1 & R2 & R3))]].
    - intros x1 x2 x3. pose proof (F [x1; x2; x3] eq_refl) as K. rewrite Eb, Eb', En, En', !dot3 in K. lra.
    - left. apply (outer_scaled a n a' n' c); auto; [rewrite En, En'|rewrite Eb, Eb']; cbn; now rewrite ?P1, ?P2, ?P3, ?R1, ?R2, ?R3.
    - left. assert (A0 : forall z, length z = 3%nat -> mvmul U z = [0; 0; 0] -> z = [0; 0; 0]).
      { intros z Lz E0. rewrite <- (mvmul_inv_l U z WU ltac:(lra) Lz), E0. apply mv0, wf_minv; [now right|exact WU]. }
      rewrite (A0 a La), (A0 a' La') by (rewrite ?Eb, ?Eb', ?R1, ?R2, ?R3, ?R1', ?R2', ?R3'; reflexivity). rewrite En, En'. mat_eq ltac:(ring).
    - right. exists c. split; [exact C|]. rewrite Eb, Eb', En, En'. intros i Hi. destruct i as [|[|[|i]]]; [| | |lia]; cbn [vget nth]; auto.
  Qed.
  Lemma twin_two Q1 a1 n1 Q2 a2 n2 Q a n : twinning U V Q1 a1 n1 -> twinning U V Q2 a2 n2 -> outer a1 n1 <> outer a2 n2 ->
    twinning U V Q a n -> outer a n = outer a1 n1 \/ outer a n = outer a2 n2.
  Proof.
    intros T1 T2 N T. destruct (twin_rel _ _ _ _ _ _ T1 T) as [E|(c & C & K)]; [left; now symmetry|]. destruct (twin_rel _ _ _ _ _ _ T1 T2) as [E|(c' & C' & K')]; [contradiction|]. right.
    pose proof (posdef_det U PU) as DU. pose proof PU as [SU _]. pose proof SU as [WU _].
    assert (SP : MartSpec.symmetric (mmul Ui Ui)) by (apply sym_sq, posdef_inv_sym, PU). destruct (sym3 _ SP) as (c1 & c2 & c3 & c4 & c5 & c6 & EP).
    pose proof T as (_ & _ & La & Ln & _ & _). pose proof T2 as (_ & _ & La2 & Ln2 & _ & _).
    pose proof (len_mv3 U a WU) as Lb. pose proof (len_mv3 U a2 WU) as Lb2. destruct (len3_inv _ Lb) as (x1 & x2 & x3 & Eb). destruct (len3_inv _ Lb2) as (y1 & y2 & y3 & Eb2).
    destruct (len3_inv _ Ln) as (p1 & p2 & p3 & En). destruct (len3_inv _ Ln2) as (q1 & q2 & q3 & En2).
    pose proof (twin_sol _ _ _ _ _ _ Q a n _ _ _ _ _ _ EP T Eb En) as S. pose proof (twin_sol _ _ _ _ _ _ Q2 a2 n2 _ _ _ _ _ _ EP T2 Eb2 En2) as S2.
    rewrite Eb, En in K. rewrite Eb2, En2 in K'.
    destruct (K 0%nat ltac:(lia)) as [K01 K02], (K 1%nat ltac:(lia)) as [K11 K12], (K 2%nat ltac:(lia)) as [K21 K22].
    destruct (K' 0%nat ltac:(lia)) as [L01 L02], (K' 1%nat ltac:(lia)) as [L11 L12], (K' 2%nat ltac:(lia)) as [L21 L22].
    change (vget [x1; x2; x3] 0) with x1 in *. change (vget [x1; x2; x3] 1) with x2 in *. change (vget [x1; x2; x3] 2) with x3 in *.
    change (vget [y1; y2; y3] 0) with y1 in *. change (vget [y1; y2; y3] 1) with y2 in *. change (vget [y1; y2; y3] 2) with y3 in *.
    change (vget [p1; p2; p3] 0) with p1 in *. change (vget [p1; p2; p3] 1) with p2 in *. change (vget [p1; p2; p3] 2) with p3 in *.
    change (vget [q1; q2; q3] 0) with q1 in *. change (vget [q1; q2; q3] 1) with q2 in *. change (vget [q1; q2; q3] 2) with q3 in *.
    destruct (two_same _ _ _ _ _ _ _ _ _ _ _ _ _ _ _ _ _ _ _ _ _ _ _ _ _ _ _ _ S S2 C C' (conj K01 (conj K11 K21)) (conj K02 (conj K12 K22)) (conj L01 (conj L11 L21)) (conj L02 (conj L12 L22))) as (e & _ & (P1 & P2 & P3) & (R1 & R2 & R3)).
    apply (outer_scaled a n a2 n2 e); auto; [rewrite En, En2|rewrite Eb, Eb2]; cbn; now rewrite ?P1, ?P2, ?P3, ?R1, ?R2, ?R3.
  Qed.
End Two.

(** ** The solutions of the code *)
(** the triple that rounding a and n to ten decimals gives *)
Definition exact_twin (U V : mat R) (a n : vec R) (t : twin) : Prop := t = (mmul (madd U (outer (vround a) (vround n))) (minv V), vround a, vround n).
Lemma exact_rounded U V a n t : exact_twin U V a n t -> rounded (twin_a t) a /\ rounded (twin_n t) n.
Proof. intros ->. unfold twin_a, twin_n. cbn [fst snd]. split; apply vround_rounded. Qed.
Lemma axis_shape U e t1 t2 : positive_definite U -> length e = 3%nat -> dot e e = 1 ->
  let V := rotate (half_turn e) U in
  solvetwin_axis U e = Ok (Some (t1, t2)) ->
  exists Q1 a1 Q2 a2 n2, twinning U V Q1 a1 e /\ twinning U V Q2 a2 n2 /\ exact_twin U V a1 e t1 /\ exact_twin U V a2 n2 t2 /\
    exists c, c <> 0 /\ a2 = vscale c (mvmul U e).
Proof.
  intros PU Le De V H. pose proof PU as [[WU _] _]. pose proof (posdef_det U PU) as DU.
  assert (d : dim23 3) by now right.
  assert (PV : positive_definite V) by (apply rotate_posdef; auto; now apply half_orth). pose proof PV as [[WV _] _]. pose proof (posdef_det V PV) as DV.
  pose proof (solvetwin_axis_eq U e PU Le De) as E0. cbv zeta in E0. fold V in E0. rewrite E0 in H. clear E0.
  destruct (isvariant U V) as [[|]|x|]; try discriminate. cbn [bind] in H.
  pose proof (type1 U e PU Le De) as T1. pose proof (type2 U e PU Le De) as T2. cbv zeta in T1, T2. fold V in T1, T2.
  assert (Dp : 0 < dot (mvmul (minv U) e) (mvmul (minv U) e)).
  { apply mv_pos; auto; [now apply wf_minv|]. apply (det_minv_neq0 3); auto; lra. }
  assert (Dk : 0 < dot (mvmul U e) (mvmul U e)) by (apply mv_pos; auto; lra).
  set (n2 := vscale 2 (vsub e (map (fun x => x / dot (mvmul U e) (mvmul U e)) (mvmul U (mvmul U e))))) in *.
  set (a1 := vscale 2 (vsub (map (fun x => x / dot (mvmul (minv U) e) (mvmul (minv U) e)) (mvmul (minv U) e)) (mvmul U e))) in *.
  rewrite unit_norm in H by auto. rewrite !vdiv_ok in H by lra. cbn [bind] in H. rewrite (inv_Ok 3 V) in H by (auto; lra). cbn [bind] in H. fold a1 n2 in H.
  unfold vdiv in H. destruct (Reqb (vnorm n2) 0) eqn:Nn; [discriminate|]. apply Reqb_false in Nn. specialize (T2 Nn). cbn [bind] in H.
  rewrite div_one, scale_one in H. injection H as <- <-.
  exists (mmul (madd U (outer a1 e)) (minv V)), a1.
  exists (mmul (madd U (outer (vscale (vnorm n2) (mvmul U e)) (map (fun x => x / vnorm n2) n2))) (minv V)),
         (vscale (vnorm n2) (mvmul U e)), (map (fun x => x / vnorm n2) n2).
  split; [exact T1|]. split; [exact T2|]. split; [reflexivity|]. split; [reflexivity|].
  exists (vnorm n2). split; [exact Nn|reflexivity].
Qed.
Lemma outer_zero a n : length a = 3%nat -> length n = 3%nat -> dot n n = 1 -> outer a n = outer [0; 0; 0] n -> a = [0; 0; 0].
Proof.
  intros La Ln N E. v3 La. v3 Ln. rewrite dot3 in N. cbv [outer mk mkv map seq length nth mul zero R_ops vget] in E. injection E as E1 E2 E3 E4 E5 E6 E7 E8 E9. apply list3_eq; nra.
Qed.
Lemma axis_distinct U V e Q1 a1 Q2 a2 n2 c : positive_definite U -> wf 3 3 V -> det V = det U -> length e = 3%nat -> dot e e = 1 -> twinning U V Q1 a1 e -> twinning U V Q2 a2 n2 ->
  c <> 0 -> a2 = vscale c (mvmul U e) -> outer a1 e <> outer a2 n2.
Proof.
  intros PU WV D Le De T1 T2 C E2 E. pose proof (twin_volume U V Q1 a1 e PU D WV T1) as Z. destruct T1 as (_ & _ & La1 & _). destruct T2 as (_ & _ & La2 & Ln2 & N2 & _).
  pose proof (posdef_det U PU) as DU. pose proof PU as [SU _]. pose proof SU as [WU _]. pose proof (posdef_inv_sym U PU) as SI. pose proof SI as [WI _].
  assert (A1 : a1 = vscale (c * dot n2 e) (mvmul U e)).
  { pose proof (len_mv3 U e WU) as Lb. subst a2. set (b := mvmul U e) in *. clearbody b. clear - La1 Le Lb Ln2 De E. v3 La1. v3 Le. v3 Lb. v3 Ln2. rewrite dot3 in De. rewrite dot3.
    unfold vscale in *. cbv [outer mk mkv map seq length nth mul zero R_ops vget] in *. injection E as E1 E2 E3 E4 E5 E6 E7 E8 E9.
    apply list3_eq; [transitivity (x * x2 * x2 + x * x3 * x3 + x * x4 * x4)|transitivity (x0 * x2 * x2 + x0 * x3 * x3 + x0 * x4 * x4)|transitivity (x1 * x2 * x2 + x1 * x3 * x3 + x1 * x4 * x4)];
      try (rewrite ?E1, ?E2, ?E3, ?E4, ?E5, ?E6, ?E7, ?E8, ?E9; ring);
      [replace x with (x * (x2 * x2 + x3 * x3 + x4 * x4)) at 1 by (rewrite De; ring)|replace x0 with (x0 * (x2 * x2 + x3 * x3 + x4 * x4)) at 1 by (rewrite De; ring)|replace x1 with (x1 * (x2 * x2 + x3 * x3 + x4 * x4)) at 1 by (rewrite De; ring)]; ring. }
  rewrite A1 in Z. rewrite dot_vscale, <- dot_sym_mv, mvmul_inv_r, De in Z by (auto using len_mv3; lra).
  assert (Z0 : c * dot n2 e = 0) by lra. rewrite Z0 in A1.
  assert (A0 : a1 = [0; 0; 0]) by (rewrite A1; pose proof (len_mv3 U e WU) as Lb; destruct (len3_inv _ Lb) as (? & ? & ? & ->); unfold vscale; cbn [map]; apply list3_eq; ring).
  rewrite A0 in E. assert (O : outer [0; 0; 0] e = outer [0; 0; 0] n2) by (v3 Le; v3 Ln2; mat_eq ltac:(ring)). rewrite O in E. symmetry in E.
  pose proof (outer_zero a2 n2 La2 Ln2 N2 E) as A2. pose proof (mv_pos U e WU ltac:(lra) Le De) as P.
  rewrite E2 in A2. pose proof (len_mv3 U e WU) as Lb. destruct (len3_inv _ Lb) as (b1 & b2 & b3 & Eb). rewrite Eb in *. rewrite dot3 in P. unfold vscale in A2. cbn [map] in A2.
  injection A2 as X1 X2 X3. apply Rmult_integral in X1, X2, X3. destruct X1, X2, X3; try contradiction. subst. lra.
Qed.

(** * C118 *)
(** Every solution of Q V = U + a (x) n for two variants is a simple shear: Q V U^-1 = I + a (x) s with a orthogonal to s, and its
    amount |a| |s| depends only on the two variants. *)
Theorem C118_shear : forall U V Q a n, positive_definite U -> positive_definite V -> variants U V -> twinning U V Q a n ->
  exists s, length s = 3%nat /\ mvmul U s = n /\ mmul (mmul Q V) (minv U) = madd (eye 3) (outer a s) /\ dot a s = 0 /\
    shear a s * shear a s = trace (twin_matrix U V) - 3.
Proof.
  intros U V Q a n PU PV VR T. pose proof (posdef_det U PU) as DU. pose proof PU as [[WU _] _]. pose proof (posdef_inv_sym U PU) as [WI _]. pose proof T as (_ & _ & La & Ln & _ & _).
  pose proof (len_mv3 (minv U) n WI) as Ls. exists (mvmul (minv U) n). split; [exact Ls|]. split; [apply mvmul_inv_r; auto; lra|]. split; [now apply (twin_shear_mat U V Q a n)|].
  pose proof (twin_volume U V Q a n PU (det_variants U V PU VR) (proj1 (proj1 PV)) T) as Z. split; [exact Z|].
  rewrite (twin_matrix_shear U V Q a n PU PV T), (trace_shear a _ La Ls), Z. unfold shear, vnorm.
  transitivity (sqrt (dot a a) * sqrt (dot a a) * (sqrt (dot (mvmul (minv U) n) (mvmul (minv U) n)) * sqrt (dot (mvmul (minv U) n) (mvmul (minv U) n)))); [ring|].
  rewrite !sqrt_sqrt by (now apply dot_pos). ring.
Qed.
(** There are at most two of them. *)
Theorem C118_two : forall U V Q1 a1 n1 Q2 a2 n2 Q a n, positive_definite U -> positive_definite V -> variants U V ->
  twinning U V Q1 a1 n1 -> twinning U V Q2 a2 n2 -> outer a1 n1 <> outer a2 n2 -> twinning U V Q a n ->
  (outer a n = outer a1 n1 /\ Q = Q1) \/ (outer a n = outer a2 n2 /\ Q = Q2).
Proof.
  intros U V Q1 a1 n1 Q2 a2 n2 Q a n PU PV VR T1 T2 N T. pose proof (posdef_det V PV) as DV.
  assert (K : forall Q' a' n', twinning U V Q' a' n' -> outer a n = outer a' n' -> Q = Q').
  { intros Q' a' n' (O' & _ & _ & _ & _ & E') E. destruct T as (O & _ & _ & _ & _ & E0). apply (mmul_cancel_r 3 V); [now right|apply PV|apply O|apply O'|lra|]. now rewrite E0, E', E. }
  destruct (twin_two U V PU PV (det_variants U V PU VR) _ _ _ _ _ _ _ _ _ T1 T2 N T) as [E|E]; [left|right]; split; eauto.
Qed.
Lemma complete_exact : forall eig skip U V h p l1 l3 t1 t2,
  positive_definite U -> positive_definite V -> is_eig (twin_matrix U V) (eig (twin_matrix U V)) ->
  variants U V -> distinct U V -> eigenvalues (twin_matrix U V) l1 1 l3 -> clear_pair U V -> pair_after eig false skip U V h p ->
  fst (twinparam eig false p) = Ok (Some (t1, t2)) ->
  exists Q1 a1 n1 Q2 a2 n2, twinning U V Q1 a1 n1 /\ twinning U V Q2 a2 n2 /\
    exact_twin U V a1 n1 t1 /\ exact_twin U V a2 n2 t2 /\
    outer a1 n1 <> outer a2 n2 /\
    forall Q a n, twinning U V Q a n -> (outer a n = outer a1 n1 /\ Q = Q1) \/ (outer a n = outer a2 n2 /\ Q = Q2).
Proof.
  intros eig skip U V h p l1 l3 s1 s2 PU PV E VR D EV CL PA H.
  destruct (ax_after _ _ _ _ _ _ _ _ _ PU PV E VR D EV PA) as (v0 & v1 & v2 & p0 & N & F & I & U1 & U2 & T & NE & ES & A & Ax).
  rewrite (loose_clear U V PU PV VR NE l1 l3 v0 v1 v2 ES CL) in A.
  pose proof (param_first eig U V p0 T (proj2 (proj2 (proj2 (proj2 F)))) U1 U2 _ _ A) as P.
  rewrite (proj1 (twinparam_stable eig false p0 F p I)), P in H.
  pose proof (signs_some U V PU PV VR NE l1 l3 v0 v1 v2 ES) as X. pose proof (axes_good U V PU PV VR NE l1 l3 v0 v1 v2 ES) as G.
  destruct (signs U l3 v0 v1 v2) as [|s ss]; [now elim X|]. cbn [map] in *. destruct (G _ (or_introl eq_refl)) as (Le & De & R).
  cbn [solvetwin] in H. destruct (axis_shape U _ s1 s2 PU Le De H) as (Q1 & a1 & Q2 & a2 & n2 & T1 & T2 & R1 & R2 & c & C & EA). rewrite R in T1, T2, R1, R2.
  pose proof (axis_distinct U V _ Q1 a1 Q2 a2 n2 c PU (proj1 (proj1 PV)) (det_variants U V PU VR) Le De T1 T2 C EA) as ND.
  exists Q1, a1, (axis U v0 v2 s), Q2, a2, n2. repeat (split; [assumption|]). intros Q a n TT. now apply (C118_two U V Q1 a1 (axis U v0 v2 s) Q2 a2 n2).
Qed.
(** What a TwinPair returns are, apart from rounding, two different solutions, and there are no others. *)
Theorem C118_complete : forall eig skip U V h p l1 l3 t1 t2,
  positive_definite U -> positive_definite V -> is_eig (twin_matrix U V) (eig (twin_matrix U V)) ->
  variants U V -> distinct U V -> eigenvalues (twin_matrix U V) l1 1 l3 -> clear_pair U V -> pair_after eig false skip U V h p ->
  fst (twinparam eig false p) = Ok (Some (t1, t2)) ->
  exists Q1 a1 n1 Q2 a2 n2, twinning U V Q1 a1 n1 /\ twinning U V Q2 a2 n2 /\
    rounded (twin_a t1) a1 /\ rounded (twin_n t1) n1 /\ rounded (twin_a t2) a2 /\ rounded (twin_n t2) n2 /\
    outer a1 n1 <> outer a2 n2 /\
    forall Q a n, twinning U V Q a n -> (outer a n = outer a1 n1 /\ Q = Q1) \/ (outer a n = outer a2 n2 /\ Q = Q2).
Proof.
  intros eig skip U V h p l1 l3 t1 t2 PU PV E VR D EV CL PA H.
  destruct (complete_exact eig skip U V h p l1 l3 t1 t2 PU PV E VR D EV CL PA H) as (Q1 & a1 & n1 & Q2 & a2 & n2 & T1 & T2 & R1 & R2 & K).
  apply exact_rounded in R1 as (R1 & R1'), R2 as (R2 & R2'). exists Q1, a1, n1, Q2, a2, n2. repeat (split; [assumption|]). exact K.
Qed.
Print Assumptions C118_shear.
Print Assumptions C118_two.
Print Assumptions C118_complete.

(** The two tetragonal variants of C40_case: both returned twins are simple shears of the same amount and there is no third. *)
Example C118_case : exists eig p s1 s2 Q1 a1 n1 Q2 a2 n2, pair_after eig false true t1 t2 [PAx; PVolume; PTwinparam] p /\
  fst (twinparam eig false p) = Ok (Some (s1, s2)) /\ twinning t1 t2 Q1 a1 n1 /\ twinning t1 t2 Q2 a2 n2 /\ rounded (twin_a s1) a1 /\ rounded (twin_a s2) a2 /\
  outer a1 n1 <> outer a2 n2 /\ (forall Q a n, twinning t1 t2 Q a n -> outer a n = outer a1 n1 \/ outer a n = outer a2 n2) /\
  shear a1 (mvmul (minv t1) n1) = shear a2 (mvmul (minv t1) n2).
Proof.
  destruct C40_case as (eig & p & l1 & l3 & P1 & P2 & E & VR & D & EV & CL & p0 & N & _).
  exists eig, (pair_run eig false [PAx; PVolume; PTwinparam] p0).
  assert (PA : pair_after eig false true t1 t2 [PAx; PVolume; PTwinparam] (pair_run eig false [PAx; PVolume; PTwinparam] p0)) by (exists p0; auto).
  destruct (C36_pair eig true t1 t2 _ _ l1 l3 P1 P2 E VR D EV CL PA) as (H & _). destruct (H t12_isvariant) as (s1 & s2 & X).
  destruct (C118_complete eig true t1 t2 _ _ l1 l3 s1 s2 P1 P2 E VR D EV CL PA X) as (Q1 & a1 & n1 & Q2 & a2 & n2 & T1 & T2 & R1 & _ & R2 & _ & ND & K).
  exists s1, s2, Q1, a1, n1, Q2, a2, n2. do 7 (split; [assumption|]). split; [intros Q a n T; destruct (K Q a n T) as [[Y _]|[Y _]]; auto|].
  destruct (C118_shear t1 t2 Q1 a1 n1 P1 P2 VR T1) as (x1 & L1 & M1 & _ & _ & S1). destruct (C118_shear t1 t2 Q2 a2 n2 P1 P2 VR T2) as (x2 & L2 & M2 & _ & _ & S2).
  pose proof (posdef_det t1 P1) as DU. pose proof P1 as [[WU _] _].
  rewrite <- M1, <- M2, !mvmul_inv_l by (auto; lra). rewrite <- S2 in S1. 
  assert (G : forall a s : vec R, 0 <= shear a s) by (intros; unfold shear, vnorm; apply Rmult_le_pos; apply sqrt_pos).
  pose proof (G a1 x1). pose proof (G a2 x2). nra.
Qed.
