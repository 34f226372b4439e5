(** Property C122: the cofactor conditions.  Specification: TwinSpec.v (twinning, half_turn_axis, pair_after, clear_pair), PropTwin3.v (laminate_gap);
    model: TwinModel.v (XI, XII, direct_cof, volumefrac; twin.py:255-348, 433-456). *)
From Coq Require Import Nsatz.
From Verif Require Import LinAlg Eig MartSpec RankOneConn PropMart PropTwin PropTwin2 PropTwin3 PropRankOne PropTwinAll PropTwinSym TwinMonoC.
From Verif Require Export PropTwin6.
Local Open Scope R_scope.

(** ** Specification *)
(** the part of the compatibility of austenite with the laminate that depends on the axis: e . cof(U^2 - I) e *)
Definition axis_cof (U : mat R) (e : vec R) : R := dot e (mvmul (cofactors (msub (mmul U U) (eye 3))) e).
(** det(F^T F - I) for the laminate with volume fraction f of the twin with normal e, |U^-1 e| = x *)
Definition gap_I (U : mat R) (e : vec R) (x f : R) : R :=
  det (msub (mmul U U) (eye 3)) * ((1 - 2 * f) * (1 - 2 * f)) + 4 * f * (1 - f) * axis_cof U e * (1 / (x * x) - 1).
(** the same for the twin with shear direction U e, |U e| = y *)
Definition gap_II (U : mat R) (e : vec R) (y f : R) : R :=
  det (msub (mmul U U) (eye 3)) * (1 - 4 * f * (1 - f) / (y * y)) + 4 * f * (1 - f) * axis_cof U e * (1 - 1 / (y * y)).

(** ** The determinants of all laminates *)
Lemma gap_outer U a n a' n' f : MartSpec.symmetric U -> length a = 3%nat -> length n = 3%nat -> length a' = 3%nat -> length n' = 3%nat -> outer a n = outer a' n' ->
  laminate_gap U a n f = laminate_gap U a' n' f.
Proof.
  intros S La Ln La' Ln' E. unfold laminate_gap. assert (E' : outer n a = outer n' a').
  { assert (T : forall x y : vec R, length x = 3%nat -> length y = 3%nat -> outer y x = tr (outer x y)) by (intros x y Lx Ly; v3 Lx; v3 Ly; mat_eq ltac:(ring)).
    rewrite (T a n), (T a' n') by assumption. now rewrite E. }
  now rewrite E, E'.
Qed.
Lemma gap_of U V Q a n : positive_definite U -> positive_definite V -> variants U V -> twinning U V Q a n ->
  forall f, laminate_gap U a n f = det (msub (mmul U U) (eye 3)) + (f - f * f) * (2 * dot (mvmul U a) (mvmul (cofactors (msub (mmul U U) (eye 3))) n)).
Proof.
  intros PU PV VR (O & _ & La & Ln & _ & E) f. pose proof PU as [SU _]. pose proof PV as [SV _]. destruct (gap_ends U V Q a n SU SV O La Ln E) as (G0 & G1).
  rewrite <- brute_cofactors by apply (wf_M U PU). apply (gap_parabola U a n SU La Ln). rewrite G0, G1. now apply C38_variants.
Qed.
Lemma twin_gaps U V e : positive_definite U -> positive_definite V -> U <> V -> half_turn_axis U V e ->
  forall x y, 0 < x -> 0 < y -> x * x = dot (mvmul (minv U) e) (mvmul (minv U) e) -> y * y = dot (mvmul U e) (mvmul U e) ->
  exists Q1 a1 Q2 a2 n2 c, twinning U V Q1 a1 e /\ twinning U V Q2 a2 n2 /\ c <> 0 /\ a2 = vscale c (mvmul U e) /\ outer a1 e <> outer a2 n2 /\
    (forall f, laminate_gap U a1 e f = gap_I U e x f) /\ (forall f, laminate_gap U a2 n2 f = gap_II U e y f).
Proof.
  intros PU PV NE (Le & De & Re) x y Px Py Ex Ey. assert (VR : variants U V) by (exists (half_turn e); split; [now apply half_orth|exact Re]).
  pose proof (type1 U e PU Le De) as T1. pose proof (type2 U e PU Le De) as T2. pose proof (n2_zero U e PU Le De) as NZ. cbv zeta in T1, T2. rewrite Re in T1, T2, NZ.
  set (n2 := vscale 2 (vsub e (map (fun x => x / dot (mvmul U e) (mvmul U e)) (mvmul U (mvmul U e))))) in *.
  set (a1 := vscale 2 (vsub (map (fun x => x / dot (mvmul (minv U) e) (mvmul (minv U) e)) (mvmul (minv U) e)) (mvmul U e))) in *.
  assert (Nn : vnorm n2 <> 0) by (intros Q; apply NE; symmetry; now apply NZ). specialize (T2 Nn).
  do 2 eexists. do 4 eexists. split; [exact T1|]. split; [exact T2|]. split; [exact Nn|]. split; [reflexivity|]. split.
  { eapply (axis_distinct U V e _ a1 _ _ _ (vnorm n2)); try eassumption; [apply PV|now apply det_variants|reflexivity]. }
  assert (Hx : x * x <> 0) by nra. assert (Hy : y * y <> 0) by nra.
  assert (Hx' : dot (mvmul (minv U) e) (mvmul (minv U) e) <> 0) by (now rewrite <- Ex). assert (Hy' : dot (mvmul U e) (mvmul U e) <> 0) by (now rewrite <- Ey).
  pose proof (typeI_value U PU e Le De _ Hx') as V1. pose proof (typeII_value U PU e Le De _ (vnorm n2) eq_refl Hy' Nn) as V2.
  fold a1 in V1. fold n2 in V2. rewrite <- Ex in V1. rewrite <- Ey in V2.
  split; intros f.
  - rewrite (gap_of U V _ a1 e PU PV VR T1 f), V1. unfold gap_I, axis_cof. field. nra.
  - rewrite (gap_of U V _ _ _ PU PV VR T2 f), V2. unfold gap_II, axis_cof. field. nra.
Qed.

Lemma cofactors3 (a b c d e f g h i : R) : cofactors (M3 a b c d e f g h i) =
  M3 (e * i - f * h) (f * g - d * i) (d * h - e * g) (h * c - i * b) (i * a - g * c) (g * b - h * a) (b * f - c * e) (c * d - a * f) (a * e - b * d).
Proof. reflexivity. Qed.

(** ** A stretch with middle eigenvalue one *)
Lemma eig_invariants U m1 m3 : MartSpec.symmetric U -> eigenvalues U m1 1 m3 ->
  det (msub (mmul U U) (eye 3)) = 0 /\
  get (cofactors (msub (mmul U U) (eye 3))) 0 0 + get (cofactors (msub (mmul U U) (eye 3))) 1 1 + get (cofactors (msub (mmul U U) (eye 3))) 2 2 = (m1 * m1 - 1) * (m3 * m3 - 1).
Proof.
  intros S (_ & W & E). assert (d : dim23 3) by now right.
  pose proof (charpoly_eigen 3 U _ W 0 d E) as P0. pose proof (charpoly_eigen 3 U _ W 1 d E) as P1. pose proof (charpoly_eigen 3 U _ W (-1) d E) as P2.
  clear E. destruct (sym3 U S) as (a & b & c & p & q & r & ->). unfold charpoly, prod_root in *. cbn in P0, P1, P2. revert P0 P1 P2.
  assert (K : forall t s D : R, t = a + p + r -> s = a * p - b * b + (a * r - c * c) + (p * r - q * q) -> D = a * (p * r - q * q) - b * (b * r - q * c) + c * (b * q - p * c) ->
    t = m1 + 1 + m3 -> s = m1 + m3 + m1 * m3 -> D = m1 * m3 ->
    det (msub (mmul (M3 a b c b p q c q r) (M3 a b c b p q c q r)) (eye 3)) = 0 /\
    get (cofactors (msub (mmul (M3 a b c b p q c q r) (M3 a b c b p q c q r)) (eye 3))) 0 0 + get (cofactors (msub (mmul (M3 a b c b p q c q r) (M3 a b c b p q c q r)) (eye 3))) 1 1 +
    get (cofactors (msub (mmul (M3 a b c b p q c q r) (M3 a b c b p q c q r)) (eye 3))) 2 2 = (m1 * m1 - 1) * (m3 * m3 - 1)).
  { intros t s D T1 T2 T3 E1 E2 E3. split.
    - transitivity ((1 - t + s - D) * - (1 + t + s + D)); [rewrite T1, T2, T3; mat_unfold_goal; ring|rewrite E1, E2, E3; ring].
    - transitivity (s * s - 2 * D * t - 2 * (t * t - 2 * s) + 3); [rewrite T1, T2, T3|rewrite E1, E2, E3; ring].
      assert (X : msub (mmul (M3 a b c b p q c q r) (M3 a b c b p q c q r)) (eye 3) =
        M3 (a * a + b * b + c * c - 1) (a * b + b * p + c * q) (a * c + b * q + c * r) (a * b + b * p + c * q) (b * b + p * p + q * q - 1) (b * c + p * q + q * r)
           (a * c + b * q + c * r) (b * c + p * q + q * r) (c * c + q * q + r * r - 1)) by (mat_eq ltac:(ring)).
      rewrite X, cofactors3. cbv [M3 get nth]. ring. }
  intros P0 P1 P2. eapply K; try reflexivity; lra.
Qed.
Lemma cof_kernel (M : mat R) (v e : vec R) : MartSpec.symmetric M -> length v = 3%nat -> length e = 3%nat -> dot v v = 1 -> mvmul M v = [0; 0; 0] ->
  dot e (mvmul (cofactors M) e) = (get (cofactors M) 0 0 + get (cofactors M) 1 1 + get (cofactors M) 2 2) * (dot e v * dot e v).
Proof.
  intros S Lv Le Nv K. destruct (sym3 M S) as (a & b & c & p & q & r & ->). v3 Lv. v3 Le. revert K Nv. rewrite cofactors3. mat_unfold_goal. intros K Nv. injection K as K1 K2 K3. nsatz.
Qed.
Lemma axis_cof_value U v e m1 m3 : positive_definite U -> eigenvalues U m1 1 m3 -> length v = 3%nat -> dot v v = 1 -> mvmul U v = v -> length e = 3%nat ->
  axis_cof U e = (m1 * m1 - 1) * (m3 * m3 - 1) * (dot e v * dot e v).
Proof.
  intros PU EV Lv Nv Uv Le. destruct (eig_invariants U m1 m3 (proj1 PU) EV) as (_ & <-). apply cof_kernel; auto; [apply (sym_M U PU)|].
  pose proof (UU_M U PU v Lv) as X. rewrite !Uv in X. pose proof (len_mv3 _ v (wf_M U PU)) as L. set (w := mvmul (msub (mmul U U) (eye 3)) v) in *. clearbody w. clear - X L Lv. v3 L. v3 Lv.
  unfold vadd in X. revert X. mat_unfold_goal. intros X. injection X as X1 X2 X3. apply list3_eq; lra.
Qed.

(** ** The code *)
Lemma pair_U eig npnew skip U V h p : pair_after eig npnew skip U V h p -> p_Ui p = U.
Proof.
  intros (p0 & N & ->). destruct (new_fresh _ _ _ _ _ N) as (F & U1 & _). pose proof (run_keeps eig npnew p0 F h p0 (Inv_refl _ _ _ F)) as I. now rewrite (i_Ui _ _ _ _ I).
Qed.
Lemma solve_f_flat U a n : det (msub (mmul U U) (eye 3)) = 0 ->
  let d := - dot (mvmul U a) (mvmul (brute_cof (msub (mmul U U) (eye 3))) n) in
  (2 * Rabs d < SMALL -> solve_f U a n = Ok (Some 0)) /\ (SMALL <= 2 * Rabs d -> solve_f U a n = Ok (Some 1)).
Proof.
  intros D d. unfold solve_f. rewrite D. set (t := dot _ _) in *. assert (A : Rabs (2 * t) = 2 * Rabs d) by (unfold d; rewrite Rabs_mult, Rabs_Ropp, (Rabs_pos_eq 2); lra). rewrite A.
  split; intros B.
  - destruct (Rltb (2 * Rabs d) SMALL) eqn:E; [reflexivity|]. apply Rltb_false in E. lra.
  - destruct (Rltb (2 * Rabs d) SMALL) eqn:E; [apply Rltb_spec in E; lra|]. assert (N : 2 * t <> 0) by (intros Z; rewrite Z, Rabs_R0 in A; unfold SMALL in B; lra).
    replace ((0 + 2 * t / 4) / (2 * t)) with (1 / 4) by (field; lra).
    assert (P : Rltb 0 (1 / 4) = true) by (apply Rltb_spec; lra). rewrite P. unfold math_sqrt.
    destruct (Rltb (1 / 4) 0) eqn:G; [apply Rltb_spec in G; lra|]. cbn [bind]. assert (S : sqrt (1 / 4) = 1 / 2) by (apply sqrt_lem_1; lra). rewrite S.
    assert (Z : Rltb (Rabs (1 - (1 / 2 + 1 / 2))) (1 / 1000000) = true) by (apply Rltb_spec; replace (1 - (1 / 2 + 1 / 2)) with 0 by lra; rewrite Rabs_R0; lra). now rewrite Z.
Qed.

(** * C122 *)
(** XI and XII decide, with det(U^2 - I) and the axis, for which volume fractions each of the two twins can be joined to the austenite: for every
    solution of the twinning equation and every f, det(F^T F - I) of the laminate is one of two explicit polynomials in f. *)
Theorem C122_fractions : forall eig npnew skip U V h p l1 l3,
  positive_definite U -> positive_definite V -> is_eig (twin_matrix U V) (eig (twin_matrix U V)) ->
  variants U V -> distinct U V -> eigenvalues (twin_matrix U V) l1 1 l3 -> clear_pair U V -> pair_after eig npnew skip U V h p ->
  fst (iscompound p) = Ok false -> forall e, half_turn_axis U V e ->
  exists x y Q1 a1 Q2 a2 n2, fst (XI p) = Ok x /\ fst (XII p) = Ok y /\ twinning U V Q1 a1 e /\ twinning U V Q2 a2 n2 /\
    (exists c, c <> 0 /\ a2 = vscale c (mvmul U e)) /\
    (forall f, laminate_gap U a1 e f = gap_I U e x f) /\ (forall f, laminate_gap U a2 n2 f = gap_II U e y f) /\
    forall Q a n, twinning U V Q a n ->
      (Q = Q1 /\ outer a n = outer a1 e /\ forall f, laminate_gap U a n f = gap_I U e x f) \/
      (Q = Q2 /\ outer a n = outer a2 n2 /\ forall f, laminate_gap U a n f = gap_II U e y f).
Proof.
  intros eig npnew skip U V h p l1 l3 PU PV E VR D EV CL PA NC e He.
  destruct (proj2 (C87_lengths_partial _ _ _ _ _ _ _ _ _ PU PV E VR D EV CL PA) NC e He) as (x & y & Hx & Hy & Px & Py & Ex & Ey).
  assert (NE : U <> V).
  { intros <-. destruct D as (i & j & _ & _ & D). replace (get U i j - get U i j) with 0 in D by ring. rewrite Rabs_R0 in D. unfold tolerance in D. lra. }
  destruct (twin_gaps U V e PU PV NE He x y Px Py Ex Ey) as (Q1 & a1 & Q2 & a2 & n2 & c & T1 & T2 & Hc & Ea & ND & G1 & G2).
  exists x, y, Q1, a1, Q2, a2, n2. repeat (split; [assumption|]). split; [exists c; now split|]. repeat (split; [assumption|]). intros Q a n T.
  pose proof T as (_ & _ & La & Ln & _). pose proof T1 as (_ & _ & La1 & Ln1 & _). pose proof T2 as (_ & _ & La2 & Ln2 & _). pose proof PU as [SU _].
  destruct (C118_two U V Q1 a1 e Q2 a2 n2 Q a n PU PV VR T1 T2 ND T) as [[O EQ]|[O EQ]]; [left|right]; (split; [exact EQ|split; [exact O|]]); intros f.
  - rewrite <- G1. apply gap_outer; assumption.
  - rewrite <- G2. apply gap_outer; assumption.
Qed.
Print Assumptions C122_fractions.

(** A stretch with middle eigenvalue one and U v = v: if XI = 1 then the twin with normal e can be joined to the austenite at every volume fraction, and
    at a single 0 < f < 1 only if XI = 1 or the axis is orthogonal to v.  The same holds for XII and the twin with shear along U e. *)
Theorem C122_supercompatible : forall eig npnew skip U V h p l1 l3 m1 m3 v e x y,
  positive_definite U -> positive_definite V -> is_eig (twin_matrix U V) (eig (twin_matrix U V)) ->
  variants U V -> distinct U V -> eigenvalues (twin_matrix U V) l1 1 l3 -> clear_pair U V -> pair_after eig npnew skip U V h p ->
  eigenvalues U m1 1 m3 -> m1 < 1 < m3 -> length v = 3%nat -> dot v v = 1 -> mvmul U v = v -> half_turn_axis U V e ->
  fst (XI p) = Ok x -> fst (XII p) = Ok y ->
  (exists Q1 a1 Q2 c n2, twinning U V Q1 a1 e /\ c <> 0 /\ twinning U V Q2 (vscale c (mvmul U e)) n2) /\
  (forall Q a, twinning U V Q a e ->
    (x = 1 -> forall f, laminate_gap U a e f = 0) /\
    (forall f, 0 < f < 1 -> laminate_gap U a e f = 0 -> x = 1 \/ dot e v = 0)) /\
  (forall Q c n, c <> 0 -> twinning U V Q (vscale c (mvmul U e)) n ->
    (y = 1 -> forall f, laminate_gap U (vscale c (mvmul U e)) n f = 0) /\
    (forall f, 0 < f < 1 -> laminate_gap U (vscale c (mvmul U e)) n f = 0 -> y = 1 \/ dot e v = 0)).
Proof.
  intros eig npnew skip U V h p l1 l3 m1 m3 v e x y PU PV E VR D EV CL PA EU M13 Lv Nv Uv He HX HY.
  assert (NC : fst (iscompound p) = Ok false).
  { destruct (C86_classification_partial _ _ _ _ _ _ _ _ _ PU PV E VR D EV CL PA) as ([] & Hb & _); [|exact Hb].
    destruct (proj1 (C87_lengths_partial _ _ _ _ _ _ _ _ _ PU PV E VR D EV CL PA) Hb) as (X & _). congruence. }
  destruct (C122_fractions _ _ _ _ _ _ _ _ _ PU PV E VR D EV CL PA NC e He) as (x' & y' & Q1 & a1 & Q2 & a2 & n2 & HX' & HY' & T1 & T2 & (c & Hc & Ea) & _ & _ & AL).
  destruct (proj2 (C87_lengths_partial _ _ _ _ _ _ _ _ _ PU PV E VR D EV CL PA) NC e He) as (x0 & y0 & Hx0 & Hy0 & Px & Py & _).
  assert (x' = x) by congruence. assert (y' = y) by congruence. assert (x0 = x) by congruence. assert (y0 = y) by congruence. subst x' y' x0 y0. clear HX' HY' Hx0 Hy0.
  pose proof He as (Le & De & _). pose proof PV as [[WV _] _]. pose proof (det_variants U V PU VR) as DV.
  destruct (eig_invariants U m1 m3 (proj1 PU) EU) as (D0 & _). pose proof (axis_cof_value U v e m1 m3 PU EU Lv Nv Uv Le) as AC.
  pose proof (posdef_eig U m1 1 m3 PU EU) as Pm.
  assert (Kn : (m1 * m1 - 1) * (m3 * m3 - 1) <> 0) by (apply Rmult_integral_contrapositive_currified; nra).
  assert (Z : forall f t, 0 < f < 1 -> 0 < t -> 4 * f * (1 - f) * axis_cof U e * t = 0 -> dot e v = 0).
  { intros f t Hf Ht H. rewrite AC in H. apply Rmult_integral in H as [H|H]; [|lra]. apply Rmult_integral in H as [H|H]; [nra|]. apply Rmult_integral in H as [H|H]; [contradiction|nra]. }
  split; [exists Q1, a1, Q2, c, n2; subst a2; auto|]. split.
  - intros Q a T. assert (G : forall f, laminate_gap U a e f = gap_I U e x f).
    { destruct (AL Q a e T) as [(_ & _ & G)|(_ & O & _)]; [exact G|]. now elim (axis_distinct U V e Q a Q2 a2 n2 c PU WV DV Le De T T2 Hc Ea). }
    split.
    + intros -> f. rewrite G. unfold gap_I. rewrite D0. field.
    + intros f Hf H. rewrite G in H. unfold gap_I in H. rewrite D0, Rmult_0_l, Rplus_0_l in H. apply Rmult_integral in H as [H|H].
      * right. apply (Z f 1 Hf ltac:(lra)). lra.
      * left. assert (X : x * x = 1) by (replace (x * x) with (/ (1 / (x * x))) by (field; lra); replace (1 / (x * x)) with 1 by lra; lra). nra.
  - intros Q k n Hk T. assert (G : forall f, laminate_gap U (vscale k (mvmul U e)) n f = gap_II U e y f).
    { destruct (AL Q _ n T) as [(_ & O & _)|(_ & _ & G)]; [|exact G]. now elim (axis_distinct U V e Q1 a1 Q _ n k PU WV DV Le De T1 T Hk eq_refl). }
    split.
    + intros -> f. rewrite G. unfold gap_II. rewrite D0. field.
    + intros f Hf H. rewrite G in H. unfold gap_II in H. rewrite D0, Rmult_0_l, Rplus_0_l in H. apply Rmult_integral in H as [H|H].
      * right. apply (Z f 1 Hf ltac:(lra)). lra.
      * left. assert (X : y * y = 1) by (replace (y * y) with (/ (1 / (y * y))) by (field; lra); replace (1 / (y * y)) with 1 by lra; lra). nra.
Qed.
Print Assumptions C122_supercompatible.

(** What volumefrac tells about such a stretch: always one of the fractions 0 and 1, 0 when the entry of direct_cof is below half the tolerance; so every
    pair counts as compatible, and the range of fractions has to be read off direct_cof or off XI and XII. *)
Theorem C122_reported : forall eig npnew skip U V h p m1 m3 f1 f2,
  positive_definite U -> eigenvalues U m1 1 m3 -> pair_after eig npnew skip U V h p -> fst (volumefrac eig npnew p) = Ok (f1, f2) ->
  exists d1 d2, fst (direct_cof eig npnew p) = Ok (d1, d2) /\
    (Rabs d1 < tolerance / 2 -> f1 = Some 0) /\ (tolerance / 2 <= Rabs d1 -> f1 = Some 1) /\
    (Rabs d2 < tolerance / 2 -> f2 = Some 0) /\ (tolerance / 2 <= Rabs d2 -> f2 = Some 1) /\
    forall t, t <> TOther -> fst (iscompatible eig npnew t p) = Ok true.
Proof.
  intros eig npnew skip U V h p m1 m3 f1 f2 PU EU PA H. pose proof (proj1 (proj2 (C39_types eig npnew skip U V h p PA)) f1 f2 H) as CP. pose proof (pair_U _ _ _ _ _ _ _ PA) as EUi.
  destruct (eig_invariants U m1 m3 (proj1 PU) EU) as (D0 & _).
  unfold volumefrac, direct_cof, bindS in *. rewrite EUi in *. destruct (some_param eig npnew p) as [[[t1 t2]|w|] q]; cbn [fst snd] in H; try discriminate. cbn [fst snd] in *.
  unfold lift in H. destruct (solve_f_flat U (twin_a t1) (twin_n t1) D0) as (A1 & B1). destruct (solve_f_flat U (twin_a t2) (twin_n t2) D0) as (A2 & B2).
  do 2 eexists. split; [reflexivity|]. set (s1 := - dot (mvmul U (twin_a t1)) _) in *. set (s2 := - dot (mvmul U (twin_a t2)) _) in *.
  change SMALL with tolerance in *.
  destruct (solve_f U (twin_a t1) (twin_n t1)) as [g1|w|]; cbn [fst snd] in H; try discriminate.
  destruct (solve_f U (twin_a t2) (twin_n t2)) as [g2|w|]; cbn [fst snd ret] in H; try discriminate. injection H as <- <-.
  assert (R1 : (Rabs s1 < tolerance / 2 -> g1 = Some 0) /\ (tolerance / 2 <= Rabs s1 -> g1 = Some 1)).
  { split; intros K; [assert (X := A1 ltac:(lra))|assert (X := B1 ltac:(lra))]; congruence. }
  assert (R2 : (Rabs s2 < tolerance / 2 -> g2 = Some 0) /\ (tolerance / 2 <= Rabs s2 -> g2 = Some 1)).
  { split; intros K; [assert (X := A2 ltac:(lra))|assert (X := B2 ltac:(lra))]; congruence. }
  split; [apply R1|]. split; [apply R1|]. split; [apply R2|]. split; [apply R2|].
  assert (N1 : g1 <> None) by (destruct (Rlt_dec (Rabs s1) (tolerance / 2)) as [K|K]; [rewrite (proj1 R1 K)|rewrite (proj2 R1 ltac:(lra))]; discriminate).
  assert (N2 : g2 <> None) by (destruct (Rlt_dec (Rabs s2) (tolerance / 2)) as [K|K]; [rewrite (proj1 R2 K)|rewrite (proj2 R2 ltac:(lra))]; discriminate).
  intros [] Ht; [apply CP|apply CP|apply CP|congruence]; auto.
Qed.
Print Assumptions C122_reported.

(** ** A pair with XI = 1, and its hypotheses *)
Definition A122 : mat R := [[4; 1; 3/4]; [1; 1; 1/2]; [3/4; 1/2; 1]].
Lemma pd_A122 : positive_definite A122.
Proof.
  assert (S : MartSpec.symmetric A122) by (split; [now apply wfb_spec|reflexivity]). apply (posdef_minors _ S). unfold A122. rewrite det3. cbv [get nth]. lra.
Qed.
Lemma fixed_root U (v : vec R) : positive_definite U -> length v = 3%nat -> mvmul (mmul U U) v = v -> mvmul U v = v.
Proof.
  intros PU Lv H. pose proof PU as [[W _] P]. rewrite (mvmul_mmul 3) in H by (auto; lia). pose proof (len_mv3 U v W) as L.
  assert (X : mvmul U (vsub (mvmul U v) v) = vscale (-1) (vsub (mvmul U v) v)).
  { assert (Y : mvmul U (vsub (mvmul U v) v) = vsub (mvmul U (mvmul U v)) (mvmul U v)).
    { set (u := mvmul U v) in *. assert (Eu : mvmul U v = u) by reflexivity. rewrite <- Eu at 3. clearbody u. clear - W L Lv. apply wf3_inv in W. destruct W as (? & ? & ? & ? & ? & ? & ? & ? & ? & ->).
      v3 L. v3 Lv. unfold vsub. mat_unfold_goal. apply list3_eq; ring. }
    rewrite Y, H. clear - L Lv. set (u := mvmul U v) in *. clearbody u. v3 L. v3 Lv. unfold vsub, vscale. mat_unfold_goal. apply list3_eq; ring. }
  assert (L1 : length (vsub (mvmul U v) v) = 3%nat) by now rewrite len_vsub.
  destruct (len3_inv _ L1) as (x & y & z & E). rewrite E in X. assert (Z : (x, y, z) = (0, 0, 0)).
  { destruct (Req_dec x 0) as [Zx|N]; [destruct (Req_dec y 0) as [Zy|N]; [destruct (Req_dec z 0) as [Zz|N]; [now subst|]|]|];
      (specialize (P x y z ltac:(congruence)); rewrite X in P; revert P; unfold vscale; cbn [map]; mat_unfold_goal; intros P; nra). }
  injection Z as -> -> ->. clear - E L Lv. set (u := mvmul U v) in *. clearbody u. v3 L. v3 Lv. unfold vsub in E. revert E. mat_unfold_goal. intros E. injection E as E1 E2 E3. apply list3_eq; lra.
Qed.
Lemma eig_squares U e1 e2 e3 : MartSpec.symmetric U -> eigenvalues U e1 e2 e3 ->
  trace (mmul U U) = e1 * e1 + e2 * e2 + e3 * e3 /\ det (mmul U U) = e1 * e1 * (e2 * e2) * (e3 * e3) /\
  get (cofactors (mmul U U)) 0 0 + get (cofactors (mmul U U)) 1 1 + get (cofactors (mmul U U)) 2 2 = e1 * e1 * (e2 * e2) + e1 * e1 * (e3 * e3) + e2 * e2 * (e3 * e3).
Proof.
  intros S (_ & W & E). assert (d : dim23 3) by now right.
  pose proof (charpoly_eigen 3 U _ W 0 d E) as P0. pose proof (charpoly_eigen 3 U _ W 1 d E) as P1. pose proof (charpoly_eigen 3 U _ W (-1) d E) as P2.
  clear E. destruct (sym3 U S) as (a & b & c & p & q & r & ->). unfold charpoly, prod_root in *. cbn in P0, P1, P2.
  assert (T1 : a + p + r = e1 + e2 + e3) by lra. assert (T2 : a * p - b * b + (a * r - c * c) + (p * r - q * q) = e1 * e2 + e1 * e3 + e2 * e3) by lra.
  assert (T3 : a * (p * r - q * q) - b * (b * r - q * c) + c * (b * q - p * c) = e1 * e2 * e3) by lra. clear P0 P1 P2.
  assert (X : mmul (M3 a b c b p q c q r) (M3 a b c b p q c q r) =
        M3 (a * a + b * b + c * c) (a * b + b * p + c * q) (a * c + b * q + c * r) (a * b + b * p + c * q) (b * b + p * p + q * q) (b * c + p * q + q * r)
           (a * c + b * q + c * r) (b * c + p * q + q * r) (c * c + q * q + r * r)) by (mat_eq ltac:(ring)).
  rewrite X, cofactors3. clear X. split; [|split].
  - transitivity ((a + p + r) * (a + p + r) - 2 * (a * p - b * b + (a * r - c * c) + (p * r - q * q))); [mat_unfold_goal; ring|rewrite T1, T2; ring].
  - transitivity ((a * (p * r - q * q) - b * (b * r - q * c) + c * (b * q - p * c)) * (a * (p * r - q * q) - b * (b * r - q * c) + c * (b * q - p * c))); [mat_unfold_goal; ring|rewrite T3; ring].
  - transitivity ((a * p - b * b + (a * r - c * c) + (p * r - q * q)) * (a * p - b * b + (a * r - c * c) + (p * r - q * q)) -
      2 * (a * (p * r - q * q) - b * (b * r - q * c) + c * (b * q - p * c)) * (a + p + r)); [cbv [M3 get nth]; ring|rewrite T1, T2, T3; ring].
Qed.
Lemma eig_A122 U : positive_definite U -> mmul U U = A122 -> exists m1 m3, eigenvalues U m1 1 m3 /\ m1 < 1 < m3.
Proof.
  intros PU EU. destruct (eigenvalues_exist U (proj1 PU)) as (e1 & e2 & e3 & EV). pose proof (posdef_eig U e1 e2 e3 PU EV) as P1.
  destruct (eig_squares U e1 e2 e3 (proj1 PU) EV) as (S1 & S3 & S2). rewrite EU in S1, S2, S3. pose proof EV as ((L1 & L2) & _).
  assert (T1 : e1 * e1 + e2 * e2 + e3 * e3 = 6) by (rewrite <- S1; unfold A122; mat_unfold_goal; lra).
  assert (T3 : e1 * e1 * (e2 * e2) * (e3 * e3) = 35/16) by (rewrite <- S3; unfold A122; mat_unfold_goal; lra).
  assert (T2 : e1 * e1 * (e2 * e2) + e1 * e1 * (e3 * e3) + e2 * e2 * (e3 * e3) = 115/16).
  { rewrite <- S2. change A122 with (M3 4 1 (3/4) 1 1 (1/2) (3/4) (1/2) 1). rewrite cofactors3. cbv [M3 get nth]. lra. }
  set (a := e1 * e1) in *. set (b := e2 * e2) in *. set (c := e3 * e3) in *.
  assert (Lab : a <= b) by (unfold a, b; nra). assert (Lbc : b <= c) by (unfold b, c; nra). assert (Pa : 0 < a) by (unfold a; nra).
  assert (Z : (a - 1) * ((b - 1) * (c - 1)) = 0) by (transitivity (a * b * c - (a * b + a * c + b * c) + (a + b + c) - 1); [ring|lra]).
  assert (B : b = 1).
  { apply Rmult_integral in Z as [Z|Z]; [|apply Rmult_integral in Z as [Z|Z]].
    - assert (a = 1) by lra. exfalso. clearbody a b c. subst a. assert (0 <= (b - 1) * (c - 1)) by (apply Rmult_le_pos; lra). nra.
    - lra.
    - exfalso. lra. }
  assert (E2 : e2 = 1) by (unfold b in B; nra). subst e2. exists e1, e3. split; [exact EV|]. rewrite B in T1, T3.
  assert (Q : (a - 1) * (c - 1) < 0) by (replace ((a - 1) * (c - 1)) with (a * 1 * c - (a + c) + 1) by ring; lra).
  assert (a < 1 < c) by (split; destruct (Rlt_dec a 1), (Rlt_dec 1 c); try lra; exfalso; nra). unfold a, c in *. split; nra.
Qed.
Example C122_case : exists U V p m1 m3 v e y, positive_definite U /\ positive_definite V /\ is_eig (twin_matrix U V) (eig4 (twin_matrix U V)) /\
  variants U V /\ distinct U V /\ eigenvalues (twin_matrix U V) (1/4) 1 4 /\ clear_pair U V /\ pair_after eig4 false true U V [PAx; PCompound] p /\
  eigenvalues U m1 1 m3 /\ m1 < 1 < m3 /\ length v = 3%nat /\ dot v v = 1 /\ mvmul U v = v /\ half_turn_axis U V e /\
  fst (XI p) = Ok 1 /\ fst (XII p) = Ok y /\ y <> 1 /\ dot e v <> 0.
Proof.
  destruct (sqrt_exists A122 pd_A122) as (U & PU & EU). destruct (twin_of U C4 PU pd_C4) as (V & PV & EC & EV). pose proof PU as [SU _]. pose proof SU as [WU TU]. pose proof (posdef_det U PU) as DU.
  assert (D : distinct U V).
  { set (y := [-4/35; -4/7; 48/35]). assert (Ay : mvmul A122 y = [0; 0; 1]) by (unfold A122, y; mat_unfold_goal; apply list3_eq; lra).
    assert (Ly : length y = 3%nat) by reflexivity. apply (far_from_u U V (mvmul U y) PU PV EV).
    - now apply len_mv3.
    - rewrite <- (mvmul_mmul 3) by (auto; lia). now rewrite EU.
    - rewrite <- dot_sym_mv by (auto; now apply len_mv3). rewrite <- (mvmul_mmul 3) by (auto; lia). rewrite EU, Ay. unfold y. mat_unfold_goal. lra. }
  assert (DE : det U = det V) by (apply det_square; auto; rewrite EC; unfold C4; mat_unfold_goal; lra).
  assert (TE : trace (mmul U U) = trace (mmul V V)).
  { rewrite EV. transitivity (1/4 * get (mmul U U) 0 0 + get (mmul U U) 1 1 + 4 * get (mmul U U) 2 2).
    - rewrite EU. unfold A122. mat_unfold_goal. lra.
    - clear - SU. destruct (sym3 U SU) as (a & b & c & d & e & f & ->). unfold C4. mat_unfold_goal. field. }
  pose proof eigsys4 as ES. rewrite <- EC in ES. set (v0 := [1; 0; 0]) in *. set (v1 := [0; 1; 0]) in *. set (v2 := [0; 0; 1]) in *.
  assert (LL : 1/4 < 4) by lra.
  assert (B12 : dot v1 (mvmul (mmul U U) v2) = 1/2) by (rewrite EU; unfold A122, v1, v2; mat_unfold_goal; lra).
  assert (B01 : dot v1 (mvmul (mmul U U) v0) = 1) by (rewrite EU; unfold A122, v1, v0; mat_unfold_goal; lra).
  assert (H2 : -2 * -2 = 4) by ring. set (e := axis U v0 v2 (-2)).
  assert (He : half_turn_axis U V e).
  { destruct (axis_unit U V PU PV _ _ _ _ _ ES LL DE TE (-2) H2) as (La & Na). split; [exact La|]. split; [exact Na|].
    apply (axis_ok U V PU PV (1/4) 4 v0 v1 v2 ES LL DE TE (-2) H2). rewrite B12, B01. lra. }
  assert (VR : variants U V) by (exists (half_turn e); split; [apply half_orth; apply He|apply He]).
  assert (E4 : is_eig (twin_matrix U V) (eig4 (twin_matrix U V))) by (rewrite EC; apply is_eig4).
  assert (EVs : eigenvalues (twin_matrix U V) (1/4) 1 4) by (rewrite EC; apply ev_C4).
  assert (CL : clear_pair U V).
  { intros l w0 w1 Hl L0 L1 N0 N1 H0 H1. right. rewrite EC in H0, H1. rewrite EU. revert N0 N1 H0 H1. v3 L0. v3 L1. unfold C4, A122, vscale. cbn [map]. mat_unfold_goal. intros N0 N1 H0 H1.
    injection H0 as A1 A2 A3. injection H1 as A4 A5 A6. assert (Z0 : x0 = 0) by nra. assert (Z1 : x1 = 0) by nra. assert (Z3 : x2 = 0) by lra. assert (Z4 : x4 = 0) by lra. subst.
    assert (Q : Rabs x * Rabs x = 1) by (rewrite <- Rabs_mult, Rabs_pos_eq by nra; lra). assert (Q' : Rabs x3 * Rabs x3 = 1) by (rewrite <- Rabs_mult, Rabs_pos_eq by nra; lra).
    match goal with |- _ <= Rabs ?t => replace t with (x * x3) by ring end. rewrite !Rabs_mult.
    pose proof (Rabs_pos x). pose proof (Rabs_pos x3). assert (Y1 : Rabs x = 1) by nra. assert (Y2 : Rabs x3 = 1) by nra. rewrite Y1, Y2. unfold tolerance, SMALL. lra. }
  destruct (pair4 U V PU PV EC D) as (p & N & _).
  assert (PA : pair_after eig4 false true U V [PAx; PCompound] (pair_run eig4 false [PAx; PCompound] p)) by (exists p; auto).
  set (q := pair_run eig4 false [PAx; PCompound] p) in *. clearbody q. destruct (eig_A122 U PU EU) as (m1 & m3 & EM & M13).
  set (v := vscale (2 / sqrt 29) [1; -3/2; -2]). assert (P29 : 0 < sqrt 29) by (apply sqrt_lt_R0; lra). assert (S29 : sqrt 29 * sqrt 29 = 29) by (apply sqrt_sqrt; lra).
  assert (Lv : length v = 3%nat) by reflexivity. assert (Nv : dot v v = 1) by (unfold v; rewrite dot_vscale, dot_scale_r by reflexivity; transitivity (4 / (sqrt 29 * sqrt 29) * (29 / 4)); [mat_unfold_goal; field; lra|rewrite S29; field]).
  assert (Uv : mvmul U v = v) by (apply fixed_root; auto; rewrite EU; unfold v, vscale, A122; cbn [map]; mat_unfold_goal; apply list3_eq; field; lra).
  assert (Lw : length [1; 0; -2] = 3%nat) by reflexivity. set (w := [1; 0; -2]) in *.
  assert (Ew : exists k, e = vscale k (mvmul U w)).
  { eexists. unfold e, axis. f_equal. unfold w, v0, v2. clear - WU. apply wf3_inv in WU. destruct WU as (? & ? & ? & ? & ? & ? & ? & ? & ? & ->). unfold vadd, vscale. mat_unfold_goal. apply list3_eq; ring. }
  destruct Ew as (k & Ee). pose proof He as (Le & De & _). pose proof (len_mv3 U w WU) as LUw.
  assert (Nw : dot (mvmul U w) (mvmul U w) = 5).
  { rewrite <- dot_sym_mv by auto. rewrite <- (mvmul_mmul 3) by (auto; lia). rewrite EU. unfold A122, w. mat_unfold_goal. lra. }
  assert (K5 : k * k * 5 = 1) by (rewrite <- De, Ee, dot_vscale, dot_scale_r, Nw by (auto; now rewrite len_vscale); ring).
  assert (NC : fst (iscompound q) = Ok false).
  { destruct (C86_classification_partial _ _ _ _ _ _ _ _ _ PU PV E4 VR D EVs CL PA) as (b & Hb & _ & _ & Ht & _). rewrite Hb. f_equal.
    destruct b; [exfalso|reflexivity]. destruct (proj1 Ht eq_refl) as (e1 & e2 & He1 & He2 & Z).
    destruct (axis_complete U V PU PV _ _ _ _ _ ES LL DE TE e1) as (s & k1 & Hs & Zs & Hk & Ee1); try apply He1.
    destruct (axis_complete U V PU PV _ _ _ _ _ ES LL DE TE e2) as (s' & k2 & Hs' & Zs' & Hk' & Ee2); try apply He2.
    rewrite B12, B01 in Zs, Zs'. assert (s = -2) by lra. assert (s' = -2) by lra. subst s s'.
    destruct (axis_unit U V PU PV _ _ _ _ _ ES LL DE TE (-2) H2) as (La & Na). rewrite Ee1, Ee2 in Z.
    rewrite dot_vscale, dot_scale_r, Na in Z by (auto; now rewrite len_vscale). nra. }
  destruct (proj2 (C87_lengths_partial _ _ _ _ _ _ _ _ _ PU PV E4 VR D EVs CL PA) NC e He) as (x & y & Hx & Hy & Px & Py & Ex & Ey).
  assert (X1 : x = 1).
  { assert (x * x = 1); [|nra]. rewrite Ex, Ee. assert (d : dim23 3) by now right. rewrite mv_vscale by (auto; now apply wf_minv).
    rewrite mvmul_inv_l by (auto; lra). rewrite dot_vscale, dot_scale_r by (auto; now rewrite len_vscale). rewrite <- K5. unfold w. mat_unfold_goal. ring. }
  assert (Y1 : y <> 1).
  { intros ->. rewrite Ee, mv_vscale, dot_vscale, dot_scale_r in Ey by (auto; rewrite ?len_vscale; now apply len_mv3).
    rewrite <- (mvmul_mmul 3) in Ey by (auto; lia). rewrite EU in Ey. revert Ey. unfold A122, w. mat_unfold_goal. intros Ey. nra. }
  subst x. exists U, V, q, m1, m3, v, e, y. repeat (split; [assumption|]).
  rewrite Ee, dot_vscale by auto. rewrite <- dot_sym_mv, Uv by auto. unfold v. rewrite dot_scale_r by reflexivity. assert (k <> 0) by (intros ->; lra).
  replace (dot w [1; -3/2; -2]) with 5 by (unfold w; mat_unfold_goal; ring).
  assert (0 < 2 / sqrt 29) by (apply Rdiv_lt_0_compat; lra). repeat apply Rmult_integral_contrapositive_currified; lra.
Qed.
(** a pair for which volumefrac answers *)
Example C122_reported_case : exists eig p m1 m3 f1 f2, positive_definite Uc /\ eigenvalues Uc m1 1 m3 /\ pair_after eig false true Uc Vc [PVolume; PAx] p /\
  fst (volumefrac eig false p) = Ok (f1, f2).
Proof.
  destruct (eig_for_pairs [Uc; Vc]) as (eig & E); [intros X [<-|[<-|[]]]; [apply pd_Uc|apply pd_Vc]|].
  assert (E1 : is_eig (twin_matrix Uc Vc) (eig (twin_matrix Uc Vc))) by (apply E; cbn; auto).
  destruct (new_pair_ok eig Uc Vc _ _ _ pd_Uc E1 ev_Uc) as (_ & _ & _ & p & _ & N & _).
  assert (PA : pair_after eig false true Uc Vc [PVolume; PAx] (pair_run eig false [PVolume; PAx] p)) by (exists p; auto).
  destruct (C36_pair _ _ _ _ _ _ _ _ pd_Uc pd_Vc E1 variants_Uc distinct_Uc ev_Uc clear_Uc PA) as (H & _). destruct (H Uc_isvariant) as (u1 & u2 & X).
  destruct (fractions_of _ _ _ _ _ _ _ _ _ _ pd_Uc pd_Vc E1 variants_Uc distinct_Uc ev_Uc clear_Uc PA X) as (f1 & f2 & F & _).
  exists eig, (pair_run eig false [PVolume; PAx] p). do 2 eexists. exists f1, f2. split; [exact pd_Uc|]. split; [exact middle_Uc|]. split; [exact PA|exact F].
Qed.
