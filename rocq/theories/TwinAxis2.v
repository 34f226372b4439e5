(** The axes of the half turns that map U to V, when U^-1 V^2 U^-1 has eigenvalues l0 < 1 < l2. *)
From Verif Require Export TwinAxis.
Local Open Scope R_scope.

Definition vsum (a b c : R) (u v w : vec R) : vec R := vadd (vadd (vscale a u) (vscale b v)) (vscale c w).
Section Ortho.
  Variables v0 v1 v2 : vec R.
  Hypothesis L0 : length v0 = 3%nat.
  Hypothesis L1 : length v1 = 3%nat.
  Hypothesis L2 : length v2 = 3%nat.
  Hypothesis N0 : dot v0 v0 = 1.
  Hypothesis N1 : dot v1 v1 = 1.
  Hypothesis N2 : dot v2 v2 = 1.
  Hypothesis O02 : dot v0 v2 = 0.
  Hypothesis O01 : dot v0 v1 = 0.
  Hypothesis O21 : dot v2 v1 = 0.
  Lemma parseval3 x y : length x = 3%nat -> length y = 3%nat ->
    dot x y = dot v0 x * dot v0 y + dot v1 x * dot v1 y + dot v2 x * dot v2 y.
  Proof.
    intros Lx Ly. destruct (basis_facts v0 v2 L0 L2 N0 N2 O02) as (Ln & Nn & A & B).
    pose proof (parseval v0 v2 L0 L2 N0 N2 O02) as P. set (n := cross v0 v2) in *.
    assert (D : forall z, length z = 3%nat -> dot v1 z = dot n v1 * dot n z).
    { intros z Lz. rewrite (P v1 z), O01, O21 by auto. ring. }
    assert (K : dot n v1 * dot n v1 = 1) by (rewrite <- (D v1), N1; auto).
    rewrite (P x y), (D x), (D y) by auto. replace (dot n v1 * dot n x * (dot n v1 * dot n y)) with ((dot n v1 * dot n v1) * (dot n x * dot n y)) by ring.
    rewrite K. ring.
  Qed.
  Lemma ext3 x y : length x = 3%nat -> length y = 3%nat -> dot v0 x = dot v0 y -> dot v1 x = dot v1 y -> dot v2 x = dot v2 y -> x = y.
  Proof.
    intros Lx Ly E0 E1 E2.
    assert (G : forall z, length z = 3%nat -> dot z x = dot z y) by (intros z Lz; rewrite (parseval3 z x), (parseval3 z y), E0, E1, E2 by auto; reflexivity).
    pose proof (G [1; 0; 0] eq_refl) as G1. pose proof (G [0; 1; 0] eq_refl) as G2. pose proof (G [0; 0; 1] eq_refl) as G3.
    clear G E1 E2 E0. v3 Lx. v3 Ly. rewrite !dot3 in *. apply list3_eq; lra.
  Qed.
  Lemma trace3 M : wf 3 3 M -> trace M = dot v0 (mvmul M v0) + dot v1 (mvmul M v1) + dot v2 (mvmul M v2).
  Proof.
    intros W. set (e0 := [1; 0; 0]). set (e1 := [0; 1; 0]). set (e2 := [0; 0; 1]).
    assert (T : forall N, wf 3 3 N -> trace N = dot e0 (mvmul N e0) + dot e1 (mvmul N e1) + dot e2 (mvmul N e2)).
    { intros N WN. apply wf3_inv in WN. destruct WN as (? & ? & ? & ? & ? & ? & ? & ? & ? & ->). subst e0 e1 e2. unfold trace. mat_unfold_goal. ring. }
    rewrite (T M W).
    assert (B : forall i (v : vec R), length v = 3%nat -> In (i, v) [(0%nat, e0); (1%nat, e1); (2%nat, e2)] -> True) by auto. clear B.
    (* sum over the standard basis of (e_i . M e_i), both factors expanded *)
    assert (X : forall x, length x = 3%nat -> dot x (mvmul M x) = dot v0 x * dot (mvmul (tr M) v0) x + dot v1 x * dot (mvmul (tr M) v1) x + dot v2 x * dot (mvmul (tr M) v2) x).
    { intros x Lx. rewrite (parseval3 x (mvmul M x)) by (auto using len_mv3).
      assert (Y : forall v, length v = 3%nat -> dot v (mvmul M x) = dot (mvmul (tr M) v) x).
      { intros v Lv. clear - W Lx Lv. apply wf3_inv in W. destruct W as (? & ? & ? & ? & ? & ? & ? & ? & ? & ->). v3 Lx. v3 Lv. mat_unfold_goal. ring. }
      rewrite !Y by auto. reflexivity. }
    rewrite (X e0), (X e1), (X e2) by reflexivity.
    clear - W L0 L1 L2. subst e0 e1 e2. apply wf3_inv in W. destruct W as (? & ? & ? & ? & ? & ? & ? & ? & ? & ->). v3 L0. v3 L1. v3 L2. mat_unfold_goal. ring.
  Qed.
End Ortho.

Lemma spec2_sandwich U p q u w i j : MartSpec.symmetric U -> length u = 3%nat -> length w = 3%nat -> (i < 3)%nat -> (j < 3)%nat ->
  get (mmul (mmul U (spec2 p q u w)) U) i j = get (mmul U U) i j + (p - 1) * (vget (mvmul U u) i * vget (mvmul U u) j) +
    (q - 1) * (vget (mvmul U w) i * vget (mvmul U w) j).
Proof.
  intros S Lu Lw Hi Hj. destruct (sym3 U S) as (c1 & c2 & c3 & c4 & c5 & c6 & ->). v3 Lu. v3 Lw. unfold spec2.
  destruct i as [|[|[|i]]]; try lia; destruct j as [|[|[|j]]]; try lia; mat_unfold_goal; ring.
Qed.
Lemma trace_sandwich U p q u w : MartSpec.symmetric U -> length u = 3%nat -> length w = 3%nat ->
  trace (mmul (mmul U (spec2 p q u w)) U) = trace (mmul U U) + (p - 1) * dot u (mvmul (mmul U U) u) + (q - 1) * dot w (mvmul (mmul U U) w).
Proof.
  intros S Lu Lw. destruct (sym3 U S) as (c1 & c2 & c3 & c4 & c5 & c6 & ->). v3 Lu. v3 Lw. unfold spec2, trace. mat_unfold_goal. ring.
Qed.
Lemma trace_two A a b y z : MartSpec.symmetric A -> length y = 3%nat -> length z = 3%nat ->
  forall M, wf 3 3 M -> (forall i j, (i < 3)%nat -> (j < 3)%nat -> get M i j = get A i j + a * (vget y i * vget y j) + b * (vget z i * vget z j)) ->
  trace (mmul M M) = trace (mmul A A) + 2 * a * dot y (mvmul A y) + 2 * b * dot z (mvmul A z) + a * a * (dot y y * dot y y) + b * b * (dot z z * dot z z) + 2 * a * b * (dot y z * dot y z).
Proof.
  intros S Ly Lz M W E. destruct (sym3 A S) as (c1 & c2 & c3 & c4 & c5 & c6 & ->). v3 Ly. v3 Lz.
  apply wf3_inv in W. destruct W as (m1 & m2 & m3 & m4 & m5 & m6 & m7 & m8 & m9 & ->).
  pose proof (E 0 0 ltac:(lia) ltac:(lia))%nat as E00. pose proof (E 0 1 ltac:(lia) ltac:(lia))%nat as E01. pose proof (E 0 2 ltac:(lia) ltac:(lia))%nat as E02.
  pose proof (E 1 0 ltac:(lia) ltac:(lia))%nat as E10. pose proof (E 1 1 ltac:(lia) ltac:(lia))%nat as E11. pose proof (E 1 2 ltac:(lia) ltac:(lia))%nat as E12.
  pose proof (E 2 0 ltac:(lia) ltac:(lia))%nat as E20. pose proof (E 2 1 ltac:(lia) ltac:(lia))%nat as E21. pose proof (E 2 2 ltac:(lia) ltac:(lia))%nat as E22.
  clear E. cbv [get vget nth] in E00, E01, E02, E10, E11, E12, E20, E21, E22. subst. unfold trace. mat_unfold_goal. ring.
Qed.
Lemma trace_rotate Q M : orthogonal 3 Q -> wf 3 3 M -> trace (rotate Q M) = trace M.
Proof.
  intros OQ W. unfold rotate. assert (Hp : (0 < 3)%nat) by lia. pose proof (orth_wf _ _ OQ) as WQ.
  assert (WT : wf 3 3 (tr Q)) by (apply wf_tr'; auto).
  assert (C : forall A B, wf 3 3 A -> wf 3 3 B -> trace (mmul A B) = trace (mmul B A)).
  { intros A B WA WB. apply wf3_inv in WA. destruct WA as (? & ? & ? & ? & ? & ? & ? & ? & ? & ->). apply wf3_inv in WB. destruct WB as (? & ? & ? & ? & ? & ? & ? & ? & ? & ->).
    unfold trace. mat_unfold_goal. ring. }
  rewrite C by (auto; apply (wf_mmul 3 3 3); auto). rewrite <- (mmul_assoc 3 3 3 3), (orth_l 3 Q), (mmul_eye_l 3 3) by (auto; now right). reflexivity.
Qed.
Lemma rotate_mmul Q A B : orthogonal 3 Q -> wf 3 3 A -> wf 3 3 B -> mmul (rotate Q A) (rotate Q B) = rotate Q (mmul A B).
Proof.
  intros OQ WA WB. unfold rotate. assert (Hp : (0 < 3)%nat) by lia. pose proof (orth_wf _ _ OQ) as WQ.
  assert (WT : wf 3 3 (tr Q)) by (apply wf_tr'; auto). assert (W1 : wf 3 3 (mmul Q A)) by (apply (wf_mmul 3 3 3); auto). assert (W2 : wf 3 3 (mmul Q B)) by (apply (wf_mmul 3 3 3); auto).
  assert (W3 : wf 3 3 (mmul A B)) by (apply (wf_mmul 3 3 3); auto).
  rewrite (mmul_assoc 3 3 3 3 (mmul Q A)) by (auto; apply (wf_mmul 3 3 3); auto). rewrite <- (mmul_assoc 3 3 3 3 (tr Q) (mmul Q B)) by auto.
  rewrite <- (mmul_assoc 3 3 3 3 (tr Q) Q B), (orth_l 3 Q), (mmul_eye_l 3 3) by (auto; now right).
  rewrite <- (mmul_assoc 3 3 3 3 (mmul Q A)) by auto. rewrite (mmul_assoc 3 3 3 3 Q A B) by auto. reflexivity.
Qed.

Section Axis.
  Variables U V : mat R.
  Hypothesis PU : positive_definite U.
  Hypothesis PV : positive_definite V.
  Variables l0 l2 : R.
  Variables v0 v1 v2 : vec R.
  Hypothesis ES : eigsys (twin_matrix U V) l0 1 l2 v0 v1 v2.
  Hypothesis Lt : l0 < l2.
  Hypothesis DE : det U = det V.
  Hypothesis TE : trace (mmul U U) = trace (mmul V V).
  Let A := mmul U U.
  Let S : MartSpec.symmetric U. Proof. apply PU. Qed.
  Let W : wf 3 3 U. Proof. apply S. Qed.
  Let SA : MartSpec.symmetric A. Proof. now apply sym_sq. Qed.
  Let WA : wf 3 3 A. Proof. apply SA. Qed.
  Let L0 : length v0 = 3%nat. Proof. apply ES. Qed.
  Let L1 : length v1 = 3%nat. Proof. apply ES. Qed.
  Let L2 : length v2 = 3%nat. Proof. apply ES. Qed.
  Let N0 : dot v0 v0 = 1. Proof. apply ES. Qed.
  Let N1 : dot v1 v1 = 1. Proof. apply ES. Qed.
  Let N2 : dot v2 v2 = 1. Proof. apply ES. Qed.
  Let CS : MartSpec.symmetric (twin_matrix U V). Proof. apply (twin_posdef U V PU PV). Qed.
  Let FO : dot v0 v2 = 0 /\ (l0 <> 1 -> dot v0 v1 = 0) /\ (l2 <> 1 -> dot v2 v1 = 0).
  Proof. apply (eigsys_orth (twin_matrix U V) l0 1 l2 v0 v1 v2); auto; apply CS. Qed.
  Let FC : twin_matrix U V = spec2 l0 l2 v0 v2.
  Proof. apply (eigsys_form _ l0 l2 v0 v1 v2); auto; apply CS. Qed.
  Let O02 : dot v0 v2 = 0. Proof. apply FO. Qed.
  Let l02 : l0 * l2 = 1.
  Proof.
    rewrite <- (det_spec2 l0 l2 v0 v2) by auto. rewrite <- FC, twin_det by auto. rewrite DE.
    assert (H := posdef_det V PV). field. lra.
  Qed.
  Lemma lam_order : 0 < l0 /\ l0 < 1 /\ 1 < l2.
  Proof.
    pose proof (es_le01 _ _ _ _ _ _ _ ES). pose proof (es_le12 _ _ _ _ _ _ _ ES).
    assert (0 < l0) by nra. nra.
  Qed.
  Let O01 : dot v0 v1 = 0. Proof. apply FO. pose proof lam_order. lra. Qed.
  Let O21 : dot v2 v1 = 0. Proof. apply FO. pose proof lam_order. lra. Qed.
  Let y0 := mvmul U v0.
  Let y2 := mvmul U v2.
  Let Ly0 : length y0 = 3%nat. Proof. now apply len_mv3. Qed.
  Let Ly2 : length y2 = 3%nat. Proof. now apply len_mv3. Qed.
  Let A00 := dot v0 (mvmul A v0).
  Let A02 := dot v2 (mvmul A v0).
  Let A22 := dot v2 (mvmul A v2).
  Let A01 := dot v1 (mvmul A v0).
  Let A12 := dot v1 (mvmul A v2).
  Let sym_dot x y : length x = 3%nat -> length y = 3%nat -> dot x (mvmul A y) = dot y (mvmul A x).
  Proof. intros Lx Lyy. rewrite dot_sym_mv by auto. apply dot_comm; auto. now apply len_mv3. Qed.

  Lemma V_entries i j : (i < 3)%nat -> (j < 3)%nat ->
    get (mmul V V) i j = get A i j + (l0 - 1) * (vget y0 i * vget y0 j) + (l2 - 1) * (vget y2 i * vget y2 j).
  Proof. intros Hi Hj. rewrite <- (twin_sandwich U V PU PV), FC. apply spec2_sandwich; auto. Qed.
  (** from the equal traces of U^2 and V^2 *)
  Lemma A00_eq : A00 = l2 * A22.
  Proof.
    assert (T : trace (mmul V V) = trace A + (l0 - 1) * A00 + (l2 - 1) * A22).
    { rewrite <- (twin_sandwich U V PU PV), FC. now apply trace_sandwich. }
    rewrite <- TE in T. fold A in T. pose proof lam_order.
    assert (Z : (l2 - 1) * (l2 * A22 - A00) = 0).
    { transitivity (l2 * ((l0 - 1) * A00 + (l2 - 1) * A22) - (l0 * l2 - 1) * A00); [ring|]. rewrite l02.
      replace ((l0 - 1) * A00 + (l2 - 1) * A22) with 0 by lra. ring. }
    apply Rmult_integral in Z. destruct Z; lra.
  Qed.
  (** from the equal traces of U^4 and V^4 *)
  Lemma A01_eq : trace (mmul A A) = trace (mmul (mmul V V) (mmul V V)) -> A01 * A01 = l2 * (A12 * A12).
  Proof.
    intros T4. assert (WV2 : wf 3 3 (mmul V V)) by (apply (wf_mmul 3 3 3); try lia; apply PV).
    rewrite (trace_two A (l0 - 1) (l2 - 1) y0 y2 SA Ly0 Ly2 (mmul V V) WV2 V_entries) in T4.
    assert (dot_U : forall x y, length x = 3%nat -> length y = 3%nat -> dot (mvmul U x) (mvmul U y) = dot x (mvmul A y)).
    { intros x y Lx Ly. clear - S Lx Ly. unfold A. destruct (sym3 U S) as (? & ? & ? & ? & ? & ? & ->). v3 Lx. v3 Ly. mat_unfold_goal. ring. }
    assert (dot_4 : forall x, length x = 3%nat -> dot (mvmul U x) (mvmul A (mvmul U x)) = dot (mvmul A x) (mvmul A x)).
    { intros x Lx. unfold A. rewrite !(mvmul_mmul 3) by (auto; try lia; now apply len_mv3). rewrite dot_sym_mv by (auto; repeat apply len_mv3; auto). reflexivity. }
    unfold y0, y2 in T4. rewrite !dot_4, !dot_U in T4 by auto.
    rewrite (parseval3 v0 v1 v2 L0 L1 L2 N0 N1 N2 O02 O01 O21 (mvmul A v0) (mvmul A v0)), (parseval3 v0 v1 v2 L0 L1 L2 N0 N1 N2 O02 O01 O21 (mvmul A v2) (mvmul A v2)) in T4 by (now apply len_mv3).
    rewrite (sym_dot v0 v2) in T4 by auto. fold A00 A02 A22 A01 A12 in T4. rewrite A00_eq in T4.
    pose proof lam_order as (? & ? & ?).
    clear - T4 H1 l02.
    assert (Z : 2 * (l2 - 1) * (A01 * A01 - l2 * (A12 * A12)) = 0).
    { match type of T4 with _ = _ + ?a + ?b + ?c + ?d + ?e => assert (D : a + b + c + d + e = 0) by lra end.
      assert (El0 : l0 = / l2) by (apply (Rmult_eq_reg_r l2); [rewrite l02, Rinv_l; lra|lra]). rewrite El0 in D.
      match type of D with ?a = 0 => transitivity (- l2 * a); [field; lra|rewrite D; ring] end. }
    apply Rmult_integral in Z. destruct Z; lra.
  Qed.

  (** *** Axes from a solution of the linear condition *)
  Lemma dot_U x y : length x = 3%nat -> length y = 3%nat -> dot (mvmul U x) (mvmul U y) = dot x (mvmul A y).
  Proof.
    intros Lx Ly. clear - S Lx Ly. unfold A. destruct (sym3 U S) as (? & ? & ? & ? & ? & ? & ->). v3 Lx. v3 Ly. mat_unfold_goal. ring.
  Qed.
  Lemma dot_vadd x y z : length x = 3%nat -> length y = 3%nat -> length z = 3%nat -> dot x (vadd y z) = dot x y + dot x z.
  Proof. intros Lx Ly Lz. v3 Lx. v3 Ly. v3 Lz. unfold vadd. mat_unfold_goal. ring. Qed.
  Lemma dot_scale_r k x y : length x = 3%nat -> length y = 3%nat -> dot x (vscale k y) = k * dot x y.
  Proof. intros Lx Ly. v3 Lx. v3 Ly. unfold vscale. mat_unfold_goal. ring. Qed.
  Lemma mv_vadd M x y : wf 3 3 M -> length x = 3%nat -> length y = 3%nat -> mvmul M (vadd x y) = vadd (mvmul M x) (mvmul M y).
  Proof.
    intros WM Lx Ly. apply wf3_inv in WM. destruct WM as (? & ? & ? & ? & ? & ? & ? & ? & ? & ->). v3 Lx. v3 Ly.
    unfold vadd. mat_unfold_goal. apply list3_eq; ring.
  Qed.
  Lemma len_vadd x y : length x = 3%nat -> length (vadd x y) = 3%nat.
  Proof. intros L. unfold vadd. now rewrite length_mkv. Qed.

  Section Sign.
    Variable s : R.                                        (* s = -1 or 1, times sqrt l2 *)
    Hypothesis Hs : s * s = l2.
    Hypothesis Z1 : s * A12 + A01 = 0.
    Let w := vadd v0 (vscale s v2).
    Let Lw : length w = 3%nat. Proof. now apply len_vadd. Qed.
    Let z := mvmul A w.
    Let Lz : length z = 3%nat. Proof. now apply len_mv3. Qed.
    Let z2 := A02 + s * A22.
    Let z_0 : dot v0 z = s * z2.
    Proof.
      unfold z, w. rewrite mv_vadd, mv_vscale, dot_vadd, dot_scale_r by (auto; rewrite ?len_vscale; auto using len_mv3).
      rewrite (sym_dot v0 v2) by auto. fold A00 A02. rewrite A00_eq. unfold z2. rewrite <- Hs. ring.
    Qed.
    Let z_1 : dot v1 z = 0.
    Proof.
      unfold z, w. rewrite mv_vadd, mv_vscale, dot_vadd, dot_scale_r by (auto; rewrite ?len_vscale; auto using len_mv3).
      fold A01 A12. lra.
    Qed.
    Let z_2 : dot v2 z = z2.
    Proof.
      unfold z, w. rewrite mv_vadd, mv_vscale, dot_vadd, dot_scale_r by (auto; rewrite ?len_vscale; auto using len_mv3).
      reflexivity.
    Qed.
    Lemma z_form : z = vadd (vscale (s * z2) v0) (vscale z2 v2).
    Proof.
      apply (ext3 v0 v1 v2); auto.
      - now apply len_vadd; rewrite len_vscale.
      - rewrite dot_vadd, !dot_scale_r, N0, O02, z_0 by (auto; now rewrite len_vscale). ring.
      - rewrite dot_vadd, !dot_scale_r, z_1, (dot_comm v1 v0), (dot_comm v1 v2), O01, O21 by (auto; now rewrite len_vscale). ring.
      - rewrite dot_vadd, !dot_scale_r, N2, (dot_comm v2 v0), O02, z_2 by (auto; now rewrite len_vscale). ring.
    Qed.
    Definition axk : R := 2 * (A00 + s * A02).
    Let axk_eq : axk = 2 * (s * z2).
    Proof. unfold axk, z2. rewrite A00_eq, <- Hs. ring. Qed.
    Let axk_norm : dot (mvmul U w) (mvmul U w) = axk.
    Proof.
      rewrite dot_U by auto. fold z. unfold w at 1. rewrite dot_comm by (auto; now rewrite len_vadd). rewrite dot_vadd, dot_scale_r by (auto; now rewrite len_vscale).
      rewrite (dot_comm z v0), (dot_comm z v2), z_0, z_2 by auto. rewrite axk_eq. ring.
    Qed.
    Let Uw : mvmul U w = vadd y0 (vscale s y2).
    Proof. unfold w. now rewrite mv_vadd, mv_vscale by (auto; now rewrite len_vscale). Qed.
    Lemma axk_pos : 0 < axk.
    Proof.
      rewrite <- axk_norm.
      assert (Nw : dot w w = 1 + l2).
      { unfold w. rewrite dot_vadd, dot_scale_r by (auto; now rewrite ?len_vadd, ?len_vscale).
        rewrite (dot_comm _ v0), (dot_comm _ v2), !dot_vadd, !dot_scale_r, N0, N2, (dot_comm v2 v0), O02 by (auto; now rewrite ?len_vadd, ?len_vscale). rewrite <- Hs. ring. }
      assert (P : 0 <= dot (mvmul U w) (mvmul U w)) by (apply dot_pos; now apply len_mv3).
      destruct P as [P|P]; [exact P|]. exfalso. symmetry in P. apply dot0 in P; [|now apply len_mv3].
      assert (Ew : w = [0; 0; 0]).
      { rewrite <- (mvmul_inv_l U w), P by (auto; pose proof (posdef_det U PU); lra). apply mv0. apply wf_minv; auto. now right. }
      rewrite Ew, dot3 in Nw. pose proof lam_order. lra.
    Qed.
    Definition axis : vec R := vscale (/ sqrt axk) (vadd y0 (vscale s y2)).
    Lemma axis_unit : length axis = 3%nat /\ dot axis axis = 1.
    Proof.
      assert (L : length axis = 3%nat) by (unfold axis; rewrite len_vscale; now apply len_vadd). split; [exact L|].
      unfold axis in *. rewrite <- Uw in *. rewrite dot_vscale, dot_scale_r, axk_norm by (auto using len_mv3). pose proof axk_pos as P.
      rewrite <- (sqrt_sqrt axk) at 3 by lra. assert (0 < sqrt axk) by now apply sqrt_lt_R0. field. lra.
    Qed.
    Lemma axis_square : mmul (mmul (half_turn axis) A) (half_turn axis) = mmul V V.
    Proof.
      destruct axis_unit as (La & Na). pose proof axk_pos as P. pose proof lam_order as (? & ? & ?).
      assert (Hk : sqrt axk * sqrt axk = axk) by (apply sqrt_sqrt; lra). assert (Hp : 0 < sqrt axk) by now apply sqrt_lt_R0.
      assert (Az : mvmul A axis = vscale (/ sqrt axk) (vadd (vscale (s * z2) y0) (vscale z2 y2))).
      { unfold axis. rewrite <- Uw, mv_vscale by auto using len_mv3. f_equal. unfold A. rewrite (mvmul_mmul 3) by (auto; try lia; now apply len_mv3).
        rewrite <- (mvmul_mmul 3 U U w) by (auto; lia). fold A z. rewrite z_form, mv_vadd, !mv_vscale by (auto; now rewrite len_vscale). reflexivity. }
      assert (Ez : dot axis (mvmul A axis) = (s * s + 1) * (z2 * z2) / axk).
      { assert (E1 : dot axis (mvmul A axis) = dot (mvmul U axis) (mvmul U axis)) by now rewrite dot_U.
        rewrite E1. unfold axis. rewrite <- Uw, mv_vscale by auto using len_mv3. rewrite <- (mvmul_mmul 3 U U w) by (auto; lia). fold A z.
        rewrite dot_vscale, dot_scale_r by (auto; now rewrite len_vscale).
        assert (Nz : dot z z = (s * s + 1) * (z2 * z2)).
        { rewrite (parseval3 v0 v1 v2 L0 L1 L2 N0 N1 N2 O02 O01 O21 z z), z_0, z_1, z_2 by auto. ring. }
        rewrite Nz. rewrite <- Hk at 3. field. lra. }
      apply (mat_ext 3 3).
      - apply (wf_mmul 3 3 3); try lia; [apply (wf_mmul 3 3 3); try lia|]; auto using wf_half.
      - apply (wf_mmul 3 3 3); try lia; apply PV.
      - intros i j Hi Hj. rewrite half_conj, V_entries, Ez, Az by auto.
        assert (G : forall i, (i < 3)%nat -> vget axis i = / sqrt axk * (vget y0 i + s * vget y2 i)).
        { intros k Hk'. unfold axis. rewrite vget_vscale by (now rewrite len_vadd). f_equal. unfold vadd. rewrite vget_mkv by lia.
          rewrite vget_vscale by lia. reflexivity. }
        assert (G2 : forall i, (i < 3)%nat -> vget (vscale (/ sqrt axk) (vadd (vscale (s * z2) y0) (vscale z2 y2))) i = / sqrt axk * (z2 * (s * vget y0 i + vget y2 i))).
        { intros k Hk'. rewrite vget_vscale by (rewrite len_vadd; auto; now rewrite len_vscale). f_equal. unfold vadd. rewrite vget_mkv by (rewrite len_vscale; lia).
          rewrite !vget_vscale by lia. cbn [add R_ops]. ring. }
        rewrite !G, !G2 by auto. set (c := / sqrt axk). assert (Hc : c * c = / axk) by (unfold c; rewrite <- Rinv_mult, Hk; reflexivity).
        assert (Ek : axk = 2 * (s * z2)) by apply axk_eq. clear G G2 Az Ez.
        assert (S0 : s <> 0) by (intros ->; lra). assert (Z0 : z2 <> 0) by (intros Z0; rewrite Z0 in Ek; lra).
        assert (El0 : l0 = / (s * s)) by (apply (Rmult_eq_reg_r l2); [rewrite l02, Hs, Rinv_l; lra|lra]). rewrite El0, <- Hs.
        match goal with |- ?l = ?r => transitivity (get A i j - 2 * (c * c) * (z2 * (s * vget y0 i + vget y2 i) * (vget y0 j + s * vget y2 j) + (vget y0 i + s * vget y2 i) * (z2 * (s * vget y0 j + vget y2 j)))
           + 4 * ((s * s + 1) * (z2 * z2) / axk) * (c * c) * (vget y0 i + s * vget y2 i) * (vget y0 j + s * vget y2 j)); [ring|] end.
        rewrite Hc, Ek. field. auto.
    Qed.
    Lemma axis_ok : rotate (half_turn axis) U = V.
    Proof.
      destruct axis_unit as (La & Na). apply sqrt_unique; auto.
      - apply rotate_posdef; auto. now apply half_orth.
      - rewrite rotate_mmul by (auto using half_orth). unfold rotate. rewrite half_sym by auto. fold A. exact axis_square.
    Qed.
  End Sign.

  (** *** The converse: every half turn arises so *)
  Lemma axis_complete e : length e = 3%nat -> dot e e = 1 -> rotate (half_turn e) U = V -> exists s k,
    s * s = l2 /\ s * A12 + A01 = 0 /\ k * k = 1 /\ e = vscale k (axis s).
  Proof.
    intros Le Ne RV. assert (DU : det U <> 0) by (pose proof (posdef_det U PU); lra).
    set (x := mvmul (minv U) e). assert (Wi : wf 3 3 (minv U)) by (apply wf_minv; auto; now right).
    assert (Lx : length x = 3%nat) by now apply len_mv3.
    assert (Ex : e = mvmul U x) by (unfold x; now rewrite mvmul_inv_r).
    set (b := mvmul U e). assert (Lb : length b = 3%nat) by now apply len_mv3.
    set (m := dot b b).
    (* U^-1 (R A R - A) U^-1 as a bilinear form *)
    assert (B : forall p q, length p = 3%nat -> length q = 3%nat ->
      -2 * (dot p b * dot q x + dot p x * dot q b) + 4 * m * (dot p x * dot q x) = (l0 - 1) * (dot p v0 * dot q v0) + (l2 - 1) * (dot p v2 * dot q v2)).
    { intros p q Lp Lq. set (p' := mvmul (minv U) p). set (q' := mvmul (minv U) q).
      assert (Lp' : length p' = 3%nat) by now apply len_mv3. assert (Lq' : length q' = 3%nat) by now apply len_mv3.
      assert (Ep : p = mvmul U p') by (unfold p'; now rewrite mvmul_inv_r). assert (Eq : q = mvmul U q') by (unfold q'; now rewrite mvmul_inv_r).
      assert (F : dot p' (mvmul (mmul V V) q') = dot p' (mvmul A q') + (l0 - 1) * (dot p v0 * dot q v0) + (l2 - 1) * (dot p v2 * dot q v2)).
      { rewrite <- (twin_sandwich U V PU PV), FC. rewrite !(mvmul_mmul 3) by (auto using wf_spec2, len_mv3; try lia; apply (wf_mmul 3 3 3); auto using wf_spec2; lia).
        rewrite dot_sym_mv, <- Ep, <- Eq by (auto; now apply len_mv3, wf_spec2). rewrite bilinear_spec2 by auto. rewrite Ep at 1. rewrite Eq at 1. rewrite dot_U by auto. reflexivity. }
      assert (H : dot p' (mvmul (mmul V V) q') = dot p' (mvmul A q') - 2 * (dot p' (mvmul A e) * dot q' e + dot p' e * dot q' (mvmul A e)) + 4 * dot e (mvmul A e) * (dot p' e * dot q' e)).
      { rewrite <- RV, rotate_mmul by (auto using half_orth). unfold rotate. rewrite half_sym by auto. fold A. clear - SA Le Lp' Lq'.
        clearbody p' q'. destruct (sym3 A SA) as (? & ? & ? & ? & ? & ? & ->). v3 Le. v3 Lp'. v3 Lq'. unfold half_turn. mat_unfold_goal. ring. }
      assert (T : forall y, length y = 3%nat -> dot (mvmul (minv U) y) (mvmul A e) = dot y b).
      { intros y Ly. unfold A. rewrite (mvmul_mmul 3) by (auto; lia). rewrite dot_sym_mv by (auto using len_mv3). now rewrite mvmul_inv_r. }
      assert (T2 : forall y, length y = 3%nat -> dot (mvmul (minv U) y) e = dot y x).
      { intros y Ly. unfold x. symmetry. apply dot_sym_mv; auto. now apply posdef_inv_sym. }
      assert (Tm : dot e (mvmul A e) = m) by (unfold m, b; now rewrite dot_U).
      unfold p', q' in H. rewrite !T, !T2, Tm in H by auto. fold p' q' in H. lra. }
    assert (bx : dot b x = 1).
    { unfold b. rewrite <- dot_sym_mv by auto. rewrite <- Ex. exact Ne. }
    pose proof lam_order as (P0 & P1 & P2).
    pose proof (B v1 v1 L1 L1) as B11. rewrite (dot_comm v1 v0), (dot_comm v1 v2), O01, O21 in B11 by auto.
    assert (X1 : dot v1 x = 0 /\ dot v1 b = 0).
    { assert (X : dot v1 x = 0 \/ dot v1 b = m * dot v1 x).
      { assert (4 * dot v1 x * (m * dot v1 x - dot v1 b) = 0) by lra. apply Rmult_integral in H. destruct H; [left|right]; lra. }
      assert (Bq : forall q, length q = 3%nat -> - 2 * (dot v1 b * dot q x + dot v1 x * dot q b) + 4 * m * (dot v1 x * dot q x) = 0).
      { intros q Lq. rewrite (B v1 q L1 Lq), (dot_comm v1 v0), (dot_comm v1 v2), O01, O21 by auto. ring. }
      destruct X as [X|X].
      - split; [exact X|]. specialize (Bq b Lb). rewrite X, bx in Bq. lra.
      - destruct (Req_dec (dot v1 x) 0) as [X0|X0]; [split; [exact X0|rewrite X, X0; ring]|]. exfalso.
        assert (E : forall q, length q = 3%nat -> dot q b = m * dot q x).
        { intros q Lq. specialize (Bq q Lq). rewrite X in Bq.
          assert (Zq : 2 * dot v1 x * (m * dot q x - dot q b) = 0) by lra. apply Rmult_integral in Zq. destruct Zq; lra. }
        pose proof (B v0 v0 L0 L0) as B00. rewrite (E v0 L0), N0, O02 in B00. lra. }
    destruct X1 as (X1 & Xb).
    pose proof (B v0 v0 L0 L0) as B00. pose proof (B v2 v2 L2 L2) as B22. pose proof (B v0 v2 L0 L2) as B02.
    rewrite N0, O02 in B00. rewrite N2, (dot_comm v2 v0), O02 in B22 by auto. rewrite N0, N2, (dot_comm v2 v0), O02 in B02 by auto.
    set (p := dot v0 x) in *. set (q := dot v2 x) in *.
    assert (Q : q * q = l2 * (p * p)).
    { assert (H : q * q * (l0 - 1) + p * p * (l2 - 1) = 0).
      { transitivity (q * q * (-2 * (dot v0 b * p + p * dot v0 b) + 4 * m * (p * p)) + p * p * (-2 * (dot v2 b * q + q * dot v2 b) + 4 * m * (q * q))).
        - rewrite B00, B22. ring.
        - transitivity (2 * p * q * (-2 * (dot v0 b * q + p * dot v2 b) + 4 * m * (p * q))); [ring|]. rewrite B02. ring. }
      assert (El0 : l0 = / l2) by (apply (Rmult_eq_reg_r l2); [rewrite l02, Rinv_l; lra|lra]). rewrite El0 in H.
      assert (H2 : (l2 - 1) * (l2 * (p * p) - q * q) = 0) by (transitivity (l2 * (q * q * (/ l2 - 1) + p * p * (l2 - 1))); [field; lra|rewrite H; ring]).
      apply Rmult_integral in H2. destruct H2; lra. }
    assert (Np : p <> 0). { intros Hp. rewrite Hp in B00. lra. }
    set (s := q / p). assert (Hs : s * s = l2) by (unfold s; apply (Rmult_eq_reg_r (p * p)); [rewrite <- Q; field; auto|nra]).
    assert (Fx : x = vscale p (vadd v0 (vscale s v2))).
    { apply (ext3 v0 v1 v2); auto; [rewrite len_vscale; now apply len_vadd| | |];
        rewrite dot_scale_r, dot_vadd, dot_scale_r by (auto; rewrite ?len_vadd, ?len_vscale; auto).
      - rewrite N0, O02. fold p. ring.
      - rewrite X1, (dot_comm v1 v0), (dot_comm v1 v2), O01, O21 by auto. ring.
      - rewrite N2, (dot_comm v2 v0), O02 by auto. fold q. unfold s. field. auto. }
    assert (Z1 : s * A12 + A01 = 0).
    { assert (F : dot v1 b = p * (A01 + s * A12)).
      { unfold b. rewrite Ex, <- (mvmul_mmul 3) by (auto; lia). fold A. rewrite Fx, mv_vscale, mv_vadd, mv_vscale by (auto; rewrite ?len_vscale, ?len_vadd; auto).
        rewrite dot_scale_r, dot_vadd, dot_scale_r by (auto; rewrite ?len_vscale, ?len_vadd; auto using len_mv3). reflexivity. }
      rewrite Xb in F. symmetry in F. apply Rmult_integral in F. destruct F; lra. }
    exists s, (p * sqrt (axk s)). split; [exact Hs|]. split; [exact Z1|].
    pose proof (axk_pos s Hs) as Pk. assert (Hk : sqrt (axk s) * sqrt (axk s) = axk s) by (apply sqrt_sqrt; lra).
    assert (Hp : 0 < sqrt (axk s)) by now apply sqrt_lt_R0. destruct (axis_unit s Hs) as (La & Na).
    assert (Ee : e = vscale (p * sqrt (axk s)) (axis s)).
    { rewrite Ex, Fx, mv_vscale, mv_vadd, mv_vscale by (auto; rewrite ?len_vscale, ?len_vadd; auto). fold y0 y2. unfold axis. clear - Hp.
      unfold vscale. rewrite !map_map. apply map_ext. intros a. cbn [mul R_ops]. field. lra. }
    split; [|exact Ee]. rewrite Ee, dot_vscale, dot_scale_r, Na in Ne by (auto; now rewrite len_vscale). lra.
  Qed.
End Axis.
