(** When is Q A - B rank one?  The condition on the middle eigenvalue (Ball and James). *)
From Verif Require Export RankOneProofs SpectralThm.
Local Open Scope R_scope.

Lemma orth_is_eig C lam Q : orthonormal_eigenbasis 3 C lam Q -> is_eig C (lam, Q).
Proof.
  intros [O E]. split; [exact E|]. intros j Hj. cbn [snd].
  pose proof (orth_l 3 Q (or_intror eq_refl) O) as L. pose proof (orth_wf _ _ O) as W.
  apply wf3_inv in W. destruct W as (a & b & c & d & e & f & g & h & i & ->).
  cbv [mmul tr mk nrows ncols length seq map sumn get nth eye Nat.eqb zero one add mul R_ops] in L.
  injection L as L1 L2 L3 L4 L5 L6 L7 L8 L9.
  assert (HJ : j = 0%nat \/ j = 1%nat \/ j = 2%nat) by lia.
  destruct HJ as [->|[->| ->]]; unfold col, nrows, mkv; cbn [length seq map]; cbv [get]; cbn [nth]; rewrite dot3; lra.
Qed.

Lemma eig_exists C : MartSpec.symmetric C -> exists eg, is_eig C eg.
Proof.
  intros [W S]. destruct (spectral_theorem 3 C (or_intror eq_refl) W S) as (lam & Q & E).
  exists (lam, Q). now apply orth_is_eig.
Qed.

(** the eigenvalues exist *)
Lemma eigenvalues_exist C : MartSpec.symmetric C -> exists l1 l2 l3, eigenvalues C l1 l2 l3.
Proof.
  intros S. destruct (spectral_theorem 3 C (or_intror eq_refl) (proj1 S) (proj2 S)) as (lam & Q & E).
  destruct (sort_eig_spec C (lam, Q) (orth_is_eig _ _ _ E)) as (e0 & e1 & e2 & v0 & v1 & v2 & _ & ES & _).
  exists e0, e1, e2. split; [split; apply ES|]. exists (tr [v0; v1; v2]). destruct ES as [L0 L1 L2 E0 E1 E2 _ _ _ D _ _].
  destruct S as [WC _].
  apply len3_inv in L0, L1, L2. destruct L0 as (x0 & x1 & x2 & ->).
  destruct L1 as (y0 & y1 & y2 & ->). destruct L2 as (z0 & z1 & z2 & ->).
  split; [exact WC|]. split; [apply wfb_spec; reflexivity|]. split; [reflexivity|].
  split; [rewrite (det_tr 3); [exact D|now right|apply wfb_spec; reflexivity]|].
  apply wf3_inv in WC. destruct WC as (c1 & c2 & c3 & c4 & c5 & c6 & c7 & c8 & c9 & ->).
  cbv [mvmul mkv vget vscale get nrows length seq map sumn nth zero add mul R_ops] in E0, E1, E2.
  injection E0 as A1 A2 A3. injection E1 as B1 B2 B3. injection E2 as D1 D2 D3.
  mat_eq ltac:(lra).
Qed.

(** of two different directions of an eigenbasis, C - I = m (x) b + b (x) m cannot stretch both *)
Lemma not_both mi mj bi bj di dj : 2 * (mi * bi) = di -> 2 * (mj * bj) = dj -> mi * bj + bi * mj = 0 ->
  ~ (0 < di /\ 0 < dj) /\ ~ (di < 0 /\ dj < 0).
Proof.
  intros Hi Hj H.
  assert (K : mi * mi * dj + mj * mj * di = 0).
  { rewrite <- Hi, <- Hj. transitivity (2 * mi * mj * (mi * bj + bi * mj)); [ring|]. rewrite H. ring. }
  pose proof (Rle_0_sqr mi) as Si. pose proof (Rle_0_sqr mj) as Sj. unfold Rsqr in *.
  split; intros [A B].
  - assert (Z : mi * mi = 0) by nra. assert (mi = 0) by nra. subst mi. lra.
  - assert (Z : mi * mi = 0) by nra. assert (mi = 0) by nra. subst mi. lra.
Qed.

Lemma middle_one C b m l1 l2 l3 : length b = 3%nat -> length m = 3%nat ->
  mmul (madd (eye 3) (outer m b)) (madd (eye 3) (outer b m)) = C -> MartSpec.symmetric C -> eigenvalues C l1 l2 l3 -> l2 = 1.
Proof.
  intros Lb Lm EC S (Hs & V & EV).
  destruct (spectral_theorem 3 C (or_intror eq_refl) (proj1 S) (proj2 S)) as (lam & Q & O & E).
  pose proof (eigen_perm 3 _ _ _ _ _ (or_intror eq_refl) E EV) as P.
  destruct E as (_ & WQ & Ll & _ & E). pose proof (orth_l 3 Q (or_intror eq_refl) O) as OL.
  assert (X : mmul (tr Q) (mmul C Q) = diag lam).
  { rewrite E, <- (mmul_assoc 3 3 3 3), OL, (mmul_eye_l 3 3) by (auto using wf_diag; try lia; apply wf_tr'; auto; lia). reflexivity. }
  apply len3_inv in Lb. destruct Lb as (b0 & b1 & b2 & ->). apply len3_inv in Lm. destruct Lm as (m0 & m1 & m2 & ->).
  apply len3_inv in Ll. destruct Ll as (d0 & d1 & d2 & ->).
  apply wf3_inv in WQ. destruct WQ as (x0 & y0 & z0 & x1 & y1 & z1 & x2 & y2 & z2 & ->).
  cbv [mmul tr mk nrows ncols length seq map sumn get nth eye Nat.eqb zero one add mul R_ops] in OL.
  injection OL as O1 O2 O3 O4 O5 O6 O7 O8 O9. rewrite <- EC in X. clear EC E O S EV.
  cbv [mmul tr madd outer vget diag mk nrows ncols length seq map sumn get nth eye Nat.eqb zero one add mul R_ops] in X.
  injection X as X1 X2 X3 X4 X5 X6 X7 X8 X9. clear X4 X7 X8 O4 O7 O8.
  set (h := (b0 * b0 + b1 * b1 + b2 * b2) / 2).
  set (mx := m0 * x0 + m1 * x1 + m2 * x2). set (my := m0 * y0 + m1 * y1 + m2 * y2). set (mz := m0 * z0 + m1 * z1 + m2 * z2).
  set (bx := b0 * x0 + b1 * x1 + b2 * x2 + h * mx). set (by' := b0 * y0 + b1 * y1 + b2 * y2 + h * my).
  set (bz := b0 * z0 + b1 * z1 + b2 * z2 + h * mz).
  assert (Dxx : 2 * (mx * bx) = d0 - 1) by (subst bx mx h; lra).
  assert (Dyy : 2 * (my * by') = d1 - 1) by (subst by' my h; lra).
  assert (Dzz : 2 * (mz * bz) = d2 - 1) by (subst bz mz h; lra).
  assert (Dxy : mx * by' + bx * my = 0) by (subst bx by' mx my h; lra).
  assert (Dxz : mx * bz + bx * mz = 0) by (subst bx bz mx mz h; lra).
  assert (Dyz : my * bz + by' * mz = 0) by (subst by' bz my mz h; lra).
  destruct (not_both _ _ _ _ _ _ Dxx Dyy Dxy) as [A1 A2].
  destruct (not_both _ _ _ _ _ _ Dxx Dzz Dxz) as [A3 A4].
  destruct (not_both _ _ _ _ _ _ Dyy Dzz Dyz) as [A5 A6].
  assert (FP : forall f : R -> bool, length (filter f [d0; d1; d2]) = length (filter f [l1; l2; l3])).
  { intros f. clear - P. induction P; cbn; auto; try congruence; repeat (destruct (f _)); cbn; congruence. }
  destruct (Rtotal_order l2 1) as [H|[H|H]]; [exfalso|exact H|exfalso].
  - specialize (FP (fun x => Rltb x 1)). cbn [filter] in FP.
    rewrite (proj2 (Rltb_spec l1 1)), (proj2 (Rltb_spec l2 1)) in FP by lra.
    destruct (Rltb d0 1) eqn:T0, (Rltb d1 1) eqn:T1, (Rltb d2 1) eqn:T2; cbn in FP;
      rewrite ?Rltb_spec, ?Rltb_false in T0; rewrite ?Rltb_spec, ?Rltb_false in T1; rewrite ?Rltb_spec, ?Rltb_false in T2; try (apply A2; split; lra); try (apply A4; split; lra); try (apply A6; split; lra);
      destruct (Rltb l3 1); cbn in FP; lia.
  - specialize (FP (fun x => Rltb 1 x)). cbn [filter] in FP.
    rewrite (proj2 (Rltb_spec 1 l3)), (proj2 (Rltb_spec 1 l2)) in FP by lra.
    destruct (Rltb 1 d0) eqn:T0, (Rltb 1 d1) eqn:T1, (Rltb 1 d2) eqn:T2; cbn in FP;
      rewrite ?Rltb_spec, ?Rltb_false in T0; rewrite ?Rltb_spec, ?Rltb_false in T1; rewrite ?Rltb_spec, ?Rltb_false in T2; try (apply A1; split; lra); try (apply A3; split; lra); try (apply A5; split; lra);
      destruct (Rltb 1 l1); cbn in FP; lia.
Qed.

Lemma posdef_eig C l1 l2 l3 : positive_definite C -> eigenvalues C l1 l2 l3 -> 0 < l1.
Proof.
  intros [[WC _] P] (_ & V & (_ & WV & _ & D & E)).
  apply wf3_inv in WC. destruct WC as (c1 & c2 & c3 & c4 & c5 & c6 & c7 & c8 & c9 & ->).
  apply wf3_inv in WV. destruct WV as (x0 & y0 & z0 & x1 & y1 & z1 & x2 & y2 & z2 & ->).
  cbv [mmul mk nrows ncols length seq map sumn get nth diag Nat.eqb zero add mul R_ops] in E.
  injection E as E1 _ _ E4 _ _ E7 _ _. rewrite det3 in D.
  assert (N : (x0, x1, x2) <> (0, 0, 0)) by (intros [= -> -> ->]; apply D; ring).
  specialize (P x0 x1 x2 N).
  cbv [mvmul mkv vget get nrows length seq map sumn nth zero add mul R_ops] in P. rewrite dot3 in P. rewrite E1, E4, E7 in P.
  assert (Q : 0 < l1 * (x0 * x0 + x1 * x1 + x2 * x2)) by lra.
  assert (S : 0 <= x0 * x0 + x1 * x1 + x2 * x2) by nra. nra.
Qed.

(** the matrix whose eigenvalues decide: B^-T A^T A B^-1 = F^T F with F = A B^-1 *)
Definition mixed (A B : mat R) : mat R := mmul (mmul (minv (tr B)) (tr A)) (mmul A (minv B)).

Section Conn.
  Variables A B : mat R.
  Hypothesis WA : wf 3 3 A.
  Hypothesis WB : wf 3 3 B.
  Hypothesis DA : det A <> 0.
  Hypothesis DB : det B <> 0.
  Let d : dim23 3 := or_intror eq_refl.
  Let G := mmul A (minv B).

  Lemma wf_G : wf 3 3 G. Proof. apply (wf_mmul 3 3 3); auto using wf_minv. Qed.
  Lemma det_G : det G <> 0.
  Proof.
    unfold G. rewrite (det_mmul 3), (det_minv 3) by auto using wf_minv. apply Rmult_integral_contrapositive. split; auto.
    now apply Rinv_neq_0_compat.
  Qed.
  Lemma mixed_G : mixed A B = mmul (tr G) G.
  Proof.
    unfold mixed. fold G. f_equal. unfold G. rewrite (tr_mmul 3 3 3) by (auto using wf_minv; lia).
    rewrite <- (minv_tr 3) by auto. reflexivity.
  Qed.
  Lemma wf_mixed : wf 3 3 (mixed A B).
  Proof. rewrite mixed_G. apply (wf_mmul 3 3 3); auto using wf_G. apply wf_tr'; [lia|apply wf_G]. Qed.
  Lemma mixed_posdef : positive_definite (mixed A B).
  Proof.
    rewrite mixed_G. pose proof wf_G as W. pose proof det_G as D. clearbody G.
    assert (WT : wf 3 3 (tr G)) by (apply wf_tr'; [lia|exact W]).
    split; [split|].
    - apply (wf_mmul 3 3 3); auto.
    - rewrite (tr_mmul 3 3 3), (tr_tr 3 3) by (auto; lia). reflexivity.
    - intros x y z N. apply wf3_inv in W. destruct W as (c1 & c2 & c3 & c4 & c5 & c6 & c7 & c8 & c9 & ->).
      rewrite det3 in D.
      set (p := c1 * x + c2 * y + c3 * z). set (q := c4 * x + c5 * y + c6 * z). set (r := c7 * x + c8 * y + c9 * z).
      assert (E : dot [x; y; z] (mvmul (mmul (tr [[c1; c2; c3]; [c4; c5; c6]; [c7; c8; c9]]) [[c1; c2; c3]; [c4; c5; c6]; [c7; c8; c9]]) [x; y; z])
        = p * p + q * q + r * r) by (subst p q r; mat_unfold_goal; ring).
      rewrite E. apply ss_pos. intros Z.
      assert (p = 0) by nra. assert (q = 0) by nra. assert (r = 0) by nra. apply N.
      set (dt := c1 * (c5 * c9 - c6 * c8) - c2 * (c4 * c9 - c6 * c7) + c3 * (c4 * c8 - c5 * c7)) in *.
      assert (X : dt * x = 0).
      { transitivity ((c5 * c9 - c6 * c8) * p - (c2 * c9 - c3 * c8) * q + (c2 * c6 - c3 * c5) * r); [subst dt p q r; ring|].
        rewrite H, H0, H1. ring. }
      assert (Y : dt * y = 0).
      { transitivity (- (c4 * c9 - c6 * c7) * p + (c1 * c9 - c3 * c7) * q - (c1 * c6 - c3 * c4) * r); [subst dt p q r; ring|].
        rewrite H, H0, H1. ring. }
      assert (Z' : dt * z = 0).
      { transitivity ((c4 * c8 - c5 * c7) * p - (c1 * c8 - c2 * c7) * q + (c1 * c5 - c2 * c4) * r); [subst dt p q r; ring|].
        rewrite H, H0, H1. ring. }
      apply Rmult_integral in X, Y, Z'. destruct X as [X|X], Y as [Y|Y], Z' as [Z'|Z']; try contradiction. congruence.
  Qed.

  (** F^T F = C and F B = Q A *)
  Lemma connect F : wf 3 3 F -> mmul (tr F) F = mixed A B -> exists Q, orthogonal 3 Q /\ mmul Q A = mmul F B.
  Proof.
    intros WF E. rewrite mixed_G in E. pose proof wf_G as WG. pose proof det_G as DG.
    assert (WGi : wf 3 3 (minv G)) by auto using wf_minv.
    assert (WT : wf 3 3 (tr F)) by (apply wf_tr'; [lia|exact WF]).
    assert (WTG : wf 3 3 (tr G)) by (apply wf_tr'; [lia|exact WG]).
    assert (WTGi : wf 3 3 (tr (minv G))) by (apply wf_tr'; [lia|exact WGi]).
    exists (mmul F (minv G)).
    assert (WQ : wf 3 3 (mmul F (minv G))) by (apply (wf_mmul 3 3 3); auto).
    split.
    - split; [exact WQ|]. apply (inv_comm 3); auto; [apply wf_tr'; [lia|exact WQ]|].
      rewrite (tr_mmul 3 3 3) by (auto; lia). rewrite (mmul_assoc 3 3 3 3) by (auto; lia).
      rewrite <- (mmul_assoc 3 3 3 3 (tr F) F) by (auto; lia). rewrite E.
      rewrite (mmul_assoc 3 3 3 3 (tr G) G), (minv_r 3), (mmul_eye_r 3 3) by (auto; lia).
      rewrite <- (minv_tr 3) by auto. apply (minv_l 3); auto. rewrite (det_tr 3); auto.
    - rewrite (mmul_assoc 3 3 3 3) by (auto; lia). f_equal. unfold G.
      rewrite (minv_mmul 3), (minv_minv 3) by (auto using wf_minv; now apply (det_minv_neq0 3)).
      rewrite (mmul_assoc 3 3 3 3), (minv_l 3), (mmul_eye_r 3 3) by (auto using wf_minv; lia). reflexivity.
  Qed.
End Conn.

Lemma outer_mmul b m M : length b = 3%nat -> length m = 3%nat -> wf 3 3 M ->
  mmul (outer b m) M = outer b (mvmul (tr M) m).
Proof.
  intros Lb Lm W. apply len3_inv in Lb. destruct Lb as (b0 & b1 & b2 & ->). apply len3_inv in Lm. destruct Lm as (m0 & m1 & m2 & ->).
  apply wf3_inv in W. destruct W as (c1 & c2 & c3 & c4 & c5 & c6 & c7 & c8 & c9 & ->). mat_eq ltac:(ring).
Qed.
Lemma madd_mmul P S M : wf 3 3 P -> wf 3 3 S -> wf 3 3 M -> mmul (madd P S) M = madd (mmul P M) (mmul S M).
Proof.
  intros W1 W2 W3. assert (0 < 3)%nat by lia. apply (mat_ext 3 3).
  - apply (wf_mmul 3 3 3); auto. apply wf_madd; auto.
  - apply wf_madd; auto. apply (wf_mmul 3 3 3); auto.
  - intros i j Hi Hj. rewrite (get_madd 3 3), !(get_mmul 3 3 3) by (auto; try (apply wf_madd; auto); apply (wf_mmul 3 3 3); auto).
    cbn [sumn zero add mul R_ops]. rewrite !(get_madd 3 3) by auto. cbn [add R_ops]. ring.
Qed.
Lemma len_mv3 M (v : vec R) : wf 3 3 M -> length (mvmul M v) = 3%nat.
Proof. intros W. unfold mvmul. rewrite length_mkv. exact (nrows_wf _ _ _ W). Qed.
Lemma wf_outer3 b m : length b = 3%nat -> length m = 3%nat -> wf 3 3 (outer b m).
Proof. intros Lb Lm. unfold outer. rewrite Lb, Lm. apply wf_mk. Qed.

Lemma det_orth Q : orthogonal 3 Q -> det Q * det Q = 1.
Proof.
  intros [W O]. assert (d : dim23 3) by now right. rewrite <- (det_tr 3 Q) at 2 by auto. rewrite <- (det_mmul 3) by (auto; apply wf_tr'; auto; lia).
  rewrite O. now apply det_eye.
Qed.

Lemma sub_add P S N : wf 3 3 P -> wf 3 3 S -> msub P S = N -> wf 3 3 N -> P = madd S N.
Proof.
  intros WP WS <- _. apply (mat_ext 3 3); auto; [apply wf_madd; auto; lia|]. intros i j Hi Hj.
  rewrite (get_madd 3 3), (get_msub 3 3) by auto. cbn [add sub R_ops]. ring.
Qed.
Lemma add_sub P S N : wf 3 3 P -> wf 3 3 S -> wf 3 3 N -> P = madd S N -> msub P S = N.
Proof.
  intros _ WS WN ->. assert (W : wf 3 3 (madd S N)) by (apply wf_madd; auto; lia).
  apply (mat_ext 3 3); auto; [apply wf_msub; auto; lia|]. intros i j Hi Hj.
  rewrite (get_msub 3 3), (get_madd 3 3) by auto. cbn [add sub R_ops]. ring.
Qed.

Lemma eigen_one C V : eigen 3 C [1; 1; 1] V -> C = eye 3.
Proof.
  intros E. assert (d : dim23 3) by now right. rewrite (eigen_form 3 C _ V d E). destruct E as (_ & WV & _ & D & _).
  replace (diag [1; 1; 1]) with (@eye R _ 3) by (mat_eq ltac:(reflexivity)).
  rewrite (mmul_eye_r 3 3), (minv_r 3) by (auto; lia). reflexivity.
Qed.

(** The condition of Ball and James. *)
Lemma connected_iff A B l1 l2 l3 : wf 3 3 A -> wf 3 3 B -> 0 < det A * det B ->
  eigenvalues (mixed A B) l1 l2 l3 -> (rank_one_connected A B <-> l2 = 1).
Proof.
  intros WA WB DAB EV. assert (d : dim23 3) by now right.
  assert (DA : det A <> 0) by (intros Z; rewrite Z in DAB; lra). assert (DB : det B <> 0) by (intros Z; rewrite Z in DAB; lra).
  assert (WI : wf 3 3 (minv B)) by auto using wf_minv. assert (WE : wf 3 3 (@eye R _ 3)) by apply wf_mk.
  pose proof (mixed_posdef A B WA WB DA DB) as PD. pose proof PD as [SC _].
  split.
  - intros (Q & a & n & O & _ & La & Ln & E). pose proof (orth_wf _ _ O) as WQ.
    assert (WO : wf 3 3 (outer a n)) by now apply wf_outer3.
    assert (WQA : wf 3 3 (mmul Q A)) by (apply (wf_mmul 3 3 3); auto).
    apply sub_add in E; auto.
    set (m := mvmul (tr (minv B)) n).
    assert (Lm : length m = 3%nat) by (unfold m; apply len_mv3, wf_tr'; auto; lia).
    assert (F : mmul (mmul Q A) (minv B) = madd (eye 3) (outer a m)).
    { rewrite E, madd_mmul, (minv_r 3), outer_mmul by auto. reflexivity. }
    apply (middle_one (mixed A B) a m l1 l2 l3); auto.
    rewrite <- tr_F by auto. rewrite <- F. rewrite mixed_G by auto.
    set (G := mmul A (minv B)). assert (WG : wf 3 3 G) by (apply (wf_mmul 3 3 3); auto).
    rewrite (mmul_assoc 3 3 3 3 Q A) by (auto; lia). fold G.
    rewrite (tr_mmul 3 3 3) by (auto; lia).
    assert (WTG : wf 3 3 (tr G)) by (apply wf_tr'; auto; lia). assert (WTQ : wf 3 3 (tr Q)) by (apply wf_tr'; auto; lia).
    rewrite (mmul_assoc 3 3 3 3), <- (mmul_assoc 3 3 3 3 (tr Q) Q) by (auto; try lia; apply (wf_mmul 3 3 3); auto).
    rewrite (orth_l 3), (mmul_eye_l 3 3) by (auto; lia). reflexivity.
  - intros ->.
    assert (K : forall b m, length b = 3%nat -> length m = 3%nat -> 0 < 1 + dot b m ->
      mmul (madd (eye 3) (outer m b)) (madd (eye 3) (outer b m)) = mixed A B -> rank_one_connected A B).
    { intros b m Lb Lm P E. set (F := madd (eye 3) (outer b m)) in *. assert (WF : wf 3 3 F) by apply wf_mk.
      assert (DF : det F = 1 + dot b m) by now apply det_F.
      destruct (connect A B WA WB DA DB F WF) as (Q & O & EQ); [unfold F; rewrite tr_F by auto; exact E|].
      exists Q, b, (mvmul (tr B) m). split; [exact O|]. split; [|split; [exact Lb|split]].
      - pose proof (det_orth Q O) as D2. pose proof (f_equal det EQ) as DE. pose proof (orth_wf _ _ O) as WQ.
        rewrite !(det_mmul 3), DF in DE by auto.
        assert (P2 : 0 < det Q * (det A * det B)).
        { replace (det Q * (det A * det B)) with ((1 + dot b m) * (det B * det B)).
          - apply Rmult_lt_0_compat; [exact P|]. apply Rsqr_pos_lt in DB. exact DB.
          - transitivity (det Q * det A * det B); [rewrite DE; ring|ring]. }
        assert (0 < det Q) by nra. nra.
      - apply len_mv3, wf_tr'; auto; lia.
      - apply add_sub; auto.
        + apply (wf_mmul 3 3 3); auto. apply (orth_wf _ _ O).
        + apply wf_outer3; auto. apply len_mv3, wf_tr'; auto; lia.
        + rewrite EQ. unfold F. rewrite madd_mmul, (mmul_eye_l 3 3), outer_mmul by (auto using wf_outer3; lia). reflexivity. }
    destruct EV as ((H1 & H3) & V & EV). destruct (Req_dec l1 l3) as [->|N].
    + assert (l3 = 1) by lra. subst l3. apply (K [0; 0; 0] [0; 0; 0]); auto.
      * rewrite dot3. lra.
      * rewrite (eigen_one _ _ EV). mat_eq ltac:(ring).
    + destruct (eig_exists _ SC) as (eg & EG).
      assert (EV' : eigenvalues (mixed A B) l1 1 l3) by (split; eauto).
      assert (P1 : 0 < l1) by exact (posdef_eig _ _ _ _ PD EV').
      destruct (sort_eig_eigenvalues _ _ _ _ _ EG EV') as (v0 & v1 & v2 & _ & ES & _).
      destruct (bm_pairs_ok np_sqrt (mixed A B) l1 l3 v0 v1 v2 np_sqrt_ok (proj1 SC) (proj2 SC) ES P1)
        as (b & m & _ & _ & _ & (Lb & Lm & _ & E) & _ & D & _); [lra|].
      apply (K b m); auto. rewrite D. apply Rmult_lt_0_compat; apply sqrt_lt_R0; lra.
Qed.
