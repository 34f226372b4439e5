(** The two solutions of C = (I + m (x) b)(I + b (x) m), |m| = 1, det (I + b (x) m) > 0, are the only ones up to
    the sign of the pair. *)
From Verif Require Export RankOneConn.
Local Open Scope R_scope.

Section Basis.
  Variables u w : vec R.
  Hypothesis Lu : length u = 3%nat.
  Hypothesis Lw : length w = 3%nat.
  Hypothesis U : dot u u = 1.
  Hypothesis W : dot w w = 1.
  Hypothesis O : dot u w = 0.
  Let n := cross u w.

  Lemma basis_facts : length n = 3%nat /\ dot n n = 1 /\ dot u n = 0 /\ dot w n = 0.
  Proof.
    revert U W O. unfold n. clear n. apply len3_inv in Lu. destruct Lu as (a & b & c & ->).
    apply len3_inv in Lw. destruct Lw as (a' & b' & c' & ->). unfold cross. cbv [vget]. cbn [nth]. rewrite !dot3.
    intros HU HW HO. split; [reflexivity|]. split; [|split; ring].
    transitivity ((a * a + b * b + c * c) * (a' * a' + b' * b' + c' * c') - (a * a' + b * b' + c * c') * (a * a' + b * b' + c * c')).
    - ring.
    - rewrite HU, HW, HO. ring.
  Qed.

  Lemma parseval x y : length x = 3%nat -> length y = 3%nat ->
    dot x y = dot u x * dot u y + dot n x * dot n y + dot w x * dot w y.
  Proof.
    intros Lx Ly. revert U W O. unfold n. clear n. apply len3_inv in Lu. destruct Lu as (a & b & c & ->).
    apply len3_inv in Lw. destruct Lw as (a' & b' & c' & ->). apply len3_inv in Lx. destruct Lx as (x0 & x1 & x2 & ->).
    apply len3_inv in Ly. destruct Ly as (y0 & y1 & y2 & ->). unfold cross. cbv [vget]. cbn [nth]. rewrite !dot3.
    intros HU HW HO.
    set (uu := a * a + b * b + c * c) in *. set (ww := a' * a' + b' * b' + c' * c') in *. set (uw := a * a' + b * b' + c * c') in *.
    assert (I : ((b * c' - c * b') * x0 + (c * a' - a * c') * x1 + (a * b' - b * a') * x2) *
      ((b * c' - c * b') * y0 + (c * a' - a * c') * y1 + (a * b' - b * a') * y2) =
      (x0 * y0 + x1 * y1 + x2 * y2) * (uu * ww - uw * uw)
      + uw * ((a * x0 + b * x1 + c * x2) * (a' * y0 + b' * y1 + c' * y2) + (a' * x0 + b' * x1 + c' * x2) * (a * y0 + b * y1 + c * y2))
      - ww * ((a * x0 + b * x1 + c * x2) * (a * y0 + b * y1 + c * y2))
      - uu * ((a' * x0 + b' * x1 + c' * x2) * (a' * y0 + b' * y1 + c' * y2))) by (subst uu ww uw; ring).
    rewrite I, HU, HW, HO. ring.
  Qed.

  Lemma coord_ext x y : length x = 3%nat -> length y = 3%nat ->
    dot u x = dot u y -> dot n x = dot n y -> dot w x = dot w y -> x = y.
  Proof.
    intros Lx Ly E1 E2 E3.
    assert (G : forall z, length z = 3%nat -> dot z x = dot z y) by (intros z Lz; rewrite (parseval z x), (parseval z y), E1, E2, E3 by auto; reflexivity).
    pose proof (G [1; 0; 0] eq_refl) as G1. pose proof (G [0; 1; 0] eq_refl) as G2. pose proof (G [0; 0; 1] eq_refl) as G3.
    clear G E1 E2 E3. apply len3_inv in Lx. destruct Lx as (x0 & x1 & x2 & ->). apply len3_inv in Ly. destruct Ly as (y0 & y1 & y2 & ->).
    rewrite !dot3 in *. f_equal; [lra|f_equal; [lra|f_equal; lra]].
  Qed.
End Basis.

Lemma bilinear_F b m x y : length b = 3%nat -> length m = 3%nat -> length x = 3%nat -> length y = 3%nat ->
  dot x (mvmul (mmul (madd (eye 3) (outer m b)) (madd (eye 3) (outer b m))) y) =
  dot x y + dot x m * dot y b + dot x b * dot y m + dot b b * (dot x m * dot y m).
Proof.
  intros Lb Lm Lx Ly. apply len3_inv in Lb. destruct Lb as (b0 & b1 & b2 & ->). apply len3_inv in Lm. destruct Lm as (m0 & m1 & m2 & ->).
  apply len3_inv in Lx. destruct Lx as (x0 & x1 & x2 & ->). apply len3_inv in Ly. destruct Ly as (y0 & y1 & y2 & ->).
  mat_unfold_goal. ring.
Qed.
Lemma bilinear_spec2 p q u w x y : length u = 3%nat -> length w = 3%nat -> length x = 3%nat -> length y = 3%nat ->
  dot x (mvmul (spec2 p q u w) y) = dot x y + (p - 1) * (dot x u * dot y u) + (q - 1) * (dot x w * dot y w).
Proof.
  intros Lb Lm Lx Ly. apply len3_inv in Lb. destruct Lb as (b0 & b1 & b2 & ->). apply len3_inv in Lm. destruct Lm as (m0 & m1 & m2 & ->).
  apply len3_inv in Lx. destruct Lx as (x0 & x1 & x2 & ->). apply len3_inv in Ly. destruct Ly as (y0 & y1 & y2 & ->).
  unfold spec2. mat_unfold_goal. ring.
Qed.

(** coordinates of a solution *)
Lemma coords s t c m0 m1 m2 b0 b1 b2 h : 0 < s -> s < t -> s * s <= 1 -> 1 <= t * t -> c * c = t * t - s * s ->
  m0 * m0 + m1 * m1 + m2 * m2 = 1 -> 1 + (m0 * b0 + m1 * b1 + m2 * b2) = s * t ->
  2 * (m0 * (b0 + h * m0)) = s * s - 1 -> 2 * (m1 * (b1 + h * m1)) = 0 -> 2 * (m2 * (b2 + h * m2)) = t * t - 1 ->
  m0 * (b1 + h * m1) + (b0 + h * m0) * m1 = 0 -> m0 * (b2 + h * m2) + (b0 + h * m0) * m2 = 0 ->
  m1 * (b2 + h * m2) + (b1 + h * m1) * m2 = 0 ->
  m1 = 0 /\ b1 = 0 /\ b0 = - (t - s) * t * m0 /\ b2 = (t - s) * s * m2 /\
  (c * m0) * (c * m0) = 1 - s * s /\ (c * m2) * (c * m2) = t * t - 1.
Proof.
  intros Hs Hst H1 Ht Hc Hm Hd E00 E11 E22 E01 E02 E12.
  assert (Hh : 2 * h = (t - s) * (t - s)).
  { assert (2 * (m0 * b0 + m1 * b1 + m2 * b2) + 2 * h * (m0 * m0 + m1 * m1 + m2 * m2) = s * s - 1 + 0 + (t * t - 1)).
    { rewrite <- E00, <- E11, <- E22. ring. } rewrite Hm in H. nra. }
  set (a0 := b0 + h * m0) in *. set (a1 := b1 + h * m1) in *. set (a2 := b2 + h * m2) in *.
  assert (Z : m1 = 0 /\ a1 = 0).
  { assert (Q : s * s - 1 <> 0 \/ t * t - 1 <> 0) by (destruct (Req_dec (s * s) 1); [right; nra|left; lra]).
    destruct Q as [Q|Q].
    - assert (m0 <> 0) by (intros X; rewrite X in E00; lra). assert (a0 <> 0) by (intros X; rewrite X in E00; lra).
      assert (X : m1 * a1 = 0) by lra. apply Rmult_integral in X. destruct X as [X|X].
      + rewrite X in E01. assert (Y : m0 * a1 = 0) by lra. apply Rmult_integral in Y. destruct Y; [contradiction|auto].
      + rewrite X in E01. assert (Y : a0 * m1 = 0) by lra. apply Rmult_integral in Y. destruct Y; [contradiction|auto].
    - assert (m2 <> 0) by (intros X; rewrite X in E22; lra). assert (a2 <> 0) by (intros X; rewrite X in E22; lra).
      assert (X : m1 * a1 = 0) by lra. apply Rmult_integral in X. destruct X as [X|X].
      + rewrite X in E12. assert (Y : a1 * m2 = 0) by lra. apply Rmult_integral in Y. destruct Y; [auto|contradiction].
      + rewrite X in E12. assert (Y : m1 * a2 = 0) by lra. apply Rmult_integral in Y. destruct Y; [auto|contradiction]. }
  destruct Z as [-> Z1].
  assert (B1 : b1 = 0) by (unfold a1 in Z1; lra).
  assert (M : m0 * m0 + m2 * m2 = 1) by lra.
  assert (A0 : 2 * a0 = - (c * c) * m0).
  { transitivity (2 * a0 * (m0 * m0 + m2 * m2)); [rewrite M; ring|].
    transitivity (m0 * (2 * (m0 * a0)) + m2 * (2 * (m0 * a2 + a0 * m2)) - m0 * (2 * (m2 * a2))); [ring|].
    rewrite E00, E02, E22, Hc. ring. }
  assert (A2 : 2 * a2 = c * c * m2).
  { transitivity (2 * a2 * (m0 * m0 + m2 * m2)); [rewrite M; ring|].
    transitivity (m2 * (2 * (m2 * a2)) + m0 * (2 * (m0 * a2 + a0 * m2)) - m2 * (2 * (m0 * a0))); [ring|].
    rewrite E00, E02, E22, Hc. ring. }
  assert (B0 : b0 = - (t - s) * t * m0).
  { unfold a0 in A0. rewrite Hc in A0. assert (2 * b0 = - (t * t - s * s) * m0 - 2 * h * m0) by lra. rewrite Hh in H. lra. }
  assert (B2 : b2 = (t - s) * s * m2).
  { unfold a2 in A2. rewrite Hc in A2. assert (2 * b2 = (t * t - s * s) * m2 - 2 * h * m2) by lra. rewrite Hh in H. lra. }
  repeat split; auto.
  - assert (2 * (m0 * a0) = - (c * c) * (m0 * m0)) by (transitivity (m0 * (2 * a0)); [ring|rewrite A0; ring]). lra.
  - assert (2 * (m2 * a2) = (c * c) * (m2 * m2)) by (transitivity (m2 * (2 * a2)); [ring|rewrite A2; ring]). lra.
Qed.

Lemma square_eq x y z : x * x = z -> y * y = z -> x = y \/ x = - y.
Proof. intros H1 H2. assert (H : (x - y) * (x + y) = 0) by (ring_simplify; lra). apply Rmult_integral in H. destruct H; [left|right]; lra. Qed.

Section All.
  Variables (C : mat R) (e0 e2 : R) (u v w : vec R).
  Hypothesis WC : wf 3 3 C.
  Hypothesis TC : tr C = C.
  Hypothesis ES : eigsys C e0 1 e2 u v w.
  Hypothesis P0 : 0 < e0.
  Hypothesis L : e0 < e2.

  Lemma solution_coords b m : rank_one_solution C b m -> 0 < 1 + dot b m ->
    dot (cross u w) m = 0 /\ dot (cross u w) b = 0 /\
    dot u b = - (sqrt e2 - sqrt e0) * sqrt e2 * dot u m /\ dot w b = (sqrt e2 - sqrt e0) * sqrt e0 * dot w m /\
    (sqrt (e2 - e0) * dot u m) * (sqrt (e2 - e0) * dot u m) = 1 - e0 /\
    (sqrt (e2 - e0) * dot w m) * (sqrt (e2 - e0) * dot w m) = e2 - 1.
  Proof.
    intros (Lb & Lm & M1 & EC) Pd.
    pose proof (eigsys_form _ _ _ _ _ _ WC TC ES L) as F. destruct (eigsys_orth _ _ _ _ _ _ _ WC TC ES L) as (O & _).
    destruct ES as [Lu _ Lw _ _ _ U _ W _ G1 G2].
    destruct (basis_facts u w Lu Lw U W O) as (Ln & N & UN & WN). set (n := cross u w) in *.
    assert (DD : (1 + dot b m) * (1 + dot b m) = e0 * e2).
    { rewrite <- (det_spec2 e0 e2 u w), <- F, <- EC by assumption. rewrite (det_mmul 3) by (try apply wf_mk; now right).
      rewrite !det_F, (dot_comm m b) by assumption. reflexivity. }
    set (s := sqrt e0). set (t := sqrt e2).
    assert (Ess : s * s = e0) by (apply sqrt_sqrt; lra). assert (Ett : t * t = e2) by (apply sqrt_sqrt; lra).
    assert (Hs : 0 < s) by (apply sqrt_lt_R0; lra). assert (Hst : s < t) by (apply sqrt_lt_1; lra).
    assert (D1 : 1 + dot b m = s * t).
    { destruct (square_eq (1 + dot b m) (s * t) (e0 * e2) DD) as [X|X]; [rewrite <- Ess, <- Ett; ring|exact X|].
      assert (0 < s * t) by (apply Rmult_lt_0_compat; lra). lra. }
    assert (B : forall x y, length x = 3%nat -> length y = 3%nat ->
      dot x m * dot y b + dot x b * dot y m + dot b b * (dot x m * dot y m) =
      (e0 - 1) * (dot x u * dot y u) + (e2 - 1) * (dot x w * dot y w)).
    { intros x y Lx Ly. pose proof (bilinear_F b m x y Lb Lm Lx Ly) as X. rewrite EC in X. rewrite F in X.
      rewrite bilinear_spec2 in X by assumption. lra. }
    pose proof (dot_comm w u Lw Lu) as WU. rewrite O in WU.
    pose proof (dot_comm n u Ln Lu) as NU. rewrite UN in NU. pose proof (dot_comm n w Ln Lw) as NW. rewrite WN in NW.
    set (c := sqrt (e2 - e0)). assert (Ec : c * c = t * t - s * s) by (rewrite Ess, Ett; apply sqrt_sqrt; lra).
    assert (KK : dot n m = 0 /\ dot n b = 0 /\ dot u b = - (t - s) * t * dot u m /\ dot w b = (t - s) * s * dot w m /\
      (c * dot u m) * (c * dot u m) = 1 - s * s /\ (c * dot w m) * (c * dot w m) = t * t - 1).
    { apply (coords s t c (dot u m) (dot n m) (dot w m) (dot u b) (dot n b) (dot w b) (dot b b / 2)); auto; try lra.
      - rewrite <- M1. rewrite (parseval u w Lu Lw U W O m m) by assumption. fold n. ring.
      - rewrite <- D1. rewrite (parseval u w Lu Lw U W O b m) by assumption. fold n. ring.
      - pose proof (B u u Lu Lu) as X. rewrite U, O in X. lra.
      - pose proof (B n n Ln Ln) as X. rewrite NU, NW in X. lra.
      - pose proof (B w w Lw Lw) as X. rewrite W, WU in X. lra.
      - pose proof (B u n Lu Ln) as X. rewrite U, O, NU, NW in X. lra.
      - pose proof (B u w Lu Lw) as X. rewrite U, O, WU, W in X. lra.
      - pose proof (B n w Ln Lw) as X. rewrite WU, NU, NW, W in X. lra. }
    rewrite Ess, Ett in KK. exact KK.
  Qed.

  Lemma same_m b m b' m' k : rank_one_solution C b m -> 0 < 1 + dot b m -> rank_one_solution C b' m' -> 0 < 1 + dot b' m' ->
    (k = 1 \/ k = -1) -> dot u m = k * dot u m' -> dot w m = k * dot w m' -> b = vscale k b' /\ m = vscale k m'.
  Proof.
    intros S P S' P' K E1 E2.
    destruct (solution_coords b m S P) as (N1 & N2 & B0 & B2 & _). destruct (solution_coords b' m' S' P') as (N1' & N2' & B0' & B2' & _).
    destruct S as (Lb & Lm & _). destruct S' as (Lb' & Lm' & _).
    destruct (eigsys_orth _ _ _ _ _ _ _ WC TC ES L) as (O & _).
    destruct ES as [Lu _ Lw _ _ _ U _ W _ _ _].
    assert (SC : forall a x, length a = 3%nat -> length x = 3%nat -> dot a (vscale k x) = k * dot a x).
    { intros a x La Lx. apply len3_inv in La. destruct La as (? & ? & ? & ->). apply len3_inv in Lx. destruct Lx as (? & ? & ? & ->).
      cbn [vscale map]. rewrite !dot3. ring. }
    assert (LS : forall x, length x = 3%nat -> length (vscale k x) = 3%nat) by (intros x Lx; unfold vscale; now rewrite map_length).
    destruct (basis_facts u w Lu Lw U W O) as (Ln & _).
    split; apply (coord_ext u w Lu Lw U W O); auto; rewrite SC by auto.
    - rewrite B0, B0', E1. ring.
    - rewrite N2, N2'. ring.
    - rewrite B2, B2', E2. ring.
    - exact E1.
    - rewrite N1, N1'. ring.
    - exact E2.
  Qed.

  (** any solution agrees, up to sign, with one of two solutions that are not each other up to sign; when
      one of the outer eigenvalues is one there is only one solution up to sign *)
  Lemma all_solutions b1 m1 b2 m2 b m : rank_one_solution C b1 m1 -> 0 < 1 + dot b1 m1 ->
    rank_one_solution C b2 m2 -> 0 < 1 + dot b2 m2 -> (e0 < 1 -> 1 < e2 -> m1 <> m2 /\ m1 <> vscale (-1) m2) ->
    rank_one_solution C b m -> 0 < 1 + dot b m ->
    exists k, (k = 1 \/ k = -1) /\ ((b = vscale k b1 /\ m = vscale k m1) \/ (b = vscale k b2 /\ m = vscale k m2)).
  Proof.
    intros S1 P1 S2 P2 D S P.
    destruct (solution_coords b1 m1 S1 P1) as (_ & _ & _ & _ & U1 & W1).
    destruct (solution_coords b2 m2 S2 P2) as (_ & _ & _ & _ & U2 & W2).
    destruct (solution_coords b m S P) as (_ & _ & _ & _ & U0 & W0).
    set (c := sqrt (e2 - e0)) in *. assert (Pc : 0 < c) by (apply sqrt_lt_R0; lra).
    assert (sgn : forall x y z, c * x * (c * x) = z -> c * y * (c * y) = z -> x = 1 * y \/ x = -1 * y).
    { intros x y z H1 H2. destruct (square_eq _ _ _ H1 H2) as [H|H]; [left|right];
        apply (Rmult_eq_reg_l c); lra. }
    assert (Z1 : e0 = 1 -> forall x, c * x * (c * x) = 1 - e0 -> x = 0).
    { intros Q x H. assert (Y : (c * x) * (c * x) = 0) by lra. apply Rmult_integral in Y. destruct Y as [Y|Y]; apply Rmult_integral in Y; destruct Y; lra. }
    assert (Z2 : e2 = 1 -> forall x, c * x * (c * x) = e2 - 1 -> x = 0).
    { intros Q x H. assert (Y : (c * x) * (c * x) = 0) by lra. apply Rmult_integral in Y. destruct Y as [Y|Y]; apply Rmult_integral in Y; destruct Y; lra. }
    assert (one : forall k, (k = 1 \/ k = -1) -> dot u m = k * dot u m1 -> dot w m = k * dot w m1 ->
      exists k, (k = 1 \/ k = -1) /\ ((b = vscale k b1 /\ m = vscale k m1) \/ (b = vscale k b2 /\ m = vscale k m2))).
    { intros k K A B. exists k. split; [exact K|left]. now apply same_m. }
    assert (two : forall k, (k = 1 \/ k = -1) -> dot u m = k * dot u m2 -> dot w m = k * dot w m2 ->
      exists k, (k = 1 \/ k = -1) /\ ((b = vscale k b1 /\ m = vscale k m1) \/ (b = vscale k b2 /\ m = vscale k m2))).
    { intros k K A B. exists k. split; [exact K|right]. now apply same_m. }
    pose proof (sgn _ _ _ U0 U1) as A1. pose proof (sgn _ _ _ W0 W1) as A2.
    destruct (Req_dec e0 1) as [Q|Q].
    { pose proof (Z1 Q _ U0). pose proof (Z1 Q _ U1). destruct A2 as [A2|A2]; [apply (one 1)|apply (one (-1))]; auto; lra. }
    destruct (Req_dec e2 1) as [Q'|Q'].
    { pose proof (Z2 Q' _ W0). pose proof (Z2 Q' _ W1). destruct A1 as [A1|A1]; [apply (one 1)|apply (one (-1))]; auto; lra. }
    destruct ES as [_ _ _ _ _ _ _ _ _ _ G1 G2]. destruct D as [D1 D2]; [lra|lra|].
    pose proof (sgn _ _ _ U1 U2) as B1. pose proof (sgn _ _ _ W1 W2) as B2.
    assert (X1 : ~ (dot u m1 = 1 * dot u m2 /\ dot w m1 = 1 * dot w m2)).
    { intros [X Y]. apply D1. destruct (same_m b1 m1 b2 m2 1) as [_ E]; auto. rewrite E. unfold vscale.
      rewrite <- (map_id m2) at 2. apply map_ext. intros; ring. }
    assert (X2 : ~ (dot u m1 = -1 * dot u m2 /\ dot w m1 = -1 * dot w m2)).
    { intros [X Y]. apply D2. destruct (same_m b1 m1 b2 m2 (-1)) as [_ E]; auto. }
    destruct A1 as [A1|A1], A2 as [A2|A2].
    - apply (one 1); auto.
    - destruct B1 as [B1|B1], B2 as [B2|B2]; [tauto|apply (two 1)|apply (two (-1))|tauto]; auto; lra.
    - destruct B1 as [B1|B1], B2 as [B2|B2]; [tauto|apply (two (-1))|apply (two 1)|tauto]; auto; lra.
    - apply (one (-1)); auto.
  Qed.
End All.
