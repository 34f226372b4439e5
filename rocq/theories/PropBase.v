(** C98: symmetry groups and the choice of the base. *)
From Verif Require Import LinAlg GroupSpec GroupModel GroupProofs LatticeModel LatticeSpec LatticeProofs LatticeGroups LatticeLaue LatticeComplete LatticeMore Eig PropLattice.
Local Open Scope R_scope.

(** * The groups depend on the test of the tabled isometries only *)
Lemma keep_ext E1 E2 T : (forall Q, In Q T -> inpointgroup E1 Q = inpointgroup E2 Q) -> keep E1 T = keep E2 T.
Proof.
  induction T as [|Q T IH]; intros H; [reflexivity|]. cbn [keep]. rewrite (H Q (or_introl eq_refl)), IH; [reflexivity|]. intros; apply H; now right.
Qed.
Lemma pick_ext E1 E2 T1 T2 k : (forall Q, In Q T1 \/ In Q T2 -> inpointgroup E1 Q = inpointgroup E2 Q) -> pick_group E1 T1 T2 k = pick_group E2 T1 T2 k.
Proof. intros H. unfold pick_group. rewrite (keep_ext E1 E2 T1), (keep_ext E1 E2 T2) by (intros; apply H; auto). reflexivity. Qed.
Lemma groups_ext n E1 E2 : base n E1 -> base n E2 ->
  (forall Q, orth_arr n Q -> In (values Q) (tabled_isometries n) -> inpointgroup E1 Q = inpointgroup E2 Q) ->
  Laue_group E1 = Laue_group E2 /\ point_group E1 = point_group E2.
Proof.
  intros B1 B2 H. pose proof (len_base n E1 B1) as L1. pose proof (len_base n E2 B2) as L2. unfold Laue_group, point_group, Laue_group. rewrite L1, L2.
  destruct (proj1 B1) as [-> | ->].
  - assert (K : forall Q, In Q square_ext_arr \/ In Q hex2d_ext_arr -> inpointgroup E1 Q = inpointgroup E2 Q).
    { intros Q HQ. apply H; [destruct HQ; [now apply square_ext_T|now apply hex2d_ext_T]|]. cbn [tabled_isometries Nat.eqb]. apply in_app_iff.
      destruct HQ as [HQ|HQ]; apply (in_map values) in HQ; [left|right].
      - unfold square_ext_arr in HQ. now rewrite map_values_int in HQ.
      - unfold hex2d_ext_arr in HQ. now rewrite map_values_flt in HQ. }
    split; [|now apply pick_ext]. apply pick_ext. intros Q HQ. apply H; [destruct HQ; [now apply square_T|now apply hex2d_T]|]. apply rot_in_iso.
    cbn [tabled_rotations Nat.eqb]. apply in_app_iff. destruct HQ as [HQ|HQ]; apply (in_map values) in HQ; [left|right].
    + unfold square_arr in HQ. now rewrite map_values_int in HQ.
    + unfold hex2d_arr in HQ. now rewrite map_values_flt in HQ.
  - assert (K : pick_group E1 cubic_arr hex_arr 4 = pick_group E2 cubic_arr hex_arr 4).
    { apply pick_ext. intros Q HQ. apply H; [destruct HQ; [now apply cubic_T|now apply hex_T]|]. cbn [tabled_isometries Nat.eqb]. apply in_app_iff.
      destruct HQ as [HQ|HQ]; apply (in_map values) in HQ; [left|right].
      - unfold cubic_arr in HQ. now rewrite map_values_int in HQ.
      - unfold hex_arr in HQ. now rewrite map_values_flt in HQ. }
    rewrite K. auto.
Qed.
Lemma preserves_same n Q E1 E2 : same_lattice n E1 E2 -> preserves n Q E1 -> preserves n Q E2.
Proof.
  intros S [H1 H2]. split.
  - intros x Hx. apply S, H1, S, Hx.
  - intros y Hy. apply S in Hy. destruct (H2 y Hy) as (x & Hx & ->). exists x. split; [now apply S|reflexivity].
Qed.
Lemma same_sym n E1 E2 : same_lattice n E1 E2 -> same_lattice n E2 E1.
Proof. intros S x. symmetry. apply S. Qed.
Lemma flt_eq n E Q : base n E -> orth_arr n Q -> inpointgroup E (FltArr (values Q)) = inpointgroup E Q.
Proof. intros B H. rewrite !(inpoint_red n E B); auto. now apply orth_arr_values. Qed.
Lemma accept_same n E1 E2 Q : base n E1 -> base n E2 -> same_lattice n E1 E2 -> resolved n E1 -> resolved n E2 ->
  orth_arr n Q -> In (values Q) (tabled_isometries n) -> inpointgroup E1 Q = inpointgroup E2 Q.
Proof.
  intros B1 B2 S R1 R2 O I. destruct (inpoint_total n E1 B1 Q O) as (b1 & H1). destruct (inpoint_total n E2 B2 Q O) as (b2 & H2).
  assert (X : b1 = true -> b2 = true).
  { intros ->. rewrite <- (flt_eq n) in H1 by auto. apply R1 in H1; [|exact I]. apply (preserves_same n _ _ _ S) in H1.
    rewrite (inpoint_preserves n E2 B2) in H2 by auto. congruence. }
  assert (Y : b2 = true -> b1 = true).
  { intros ->. rewrite <- (flt_eq n) in H2 by auto. apply R2 in H2; [|exact I]. apply (preserves_same n _ _ _ (same_sym _ _ _ S)) in H2.
    rewrite (inpoint_preserves n E1 B1) in H1 by auto. congruence. }
  rewrite H1, H2. destruct b1, b2; auto; [now rewrite X|now rewrite Y].
Qed.

(** * C98 *)
(** the matrices of L2 are those of L1, in the same order, written in the base E2 = E1 P instead of E1 *)
Definition conjugate (P : mat Z) (L1 L2 : list (mat Z)) : Prop := Forall2 (fun M1 M2 => mmul P M2 = mmul M1 P) L1 L2.

Lemma irep_conj n E1 E2 P Q : base n E1 -> base n E2 -> wf n n P -> E2 = mmul E1 (RZ P) -> orthogonal n Q -> preserves n Q E1 -> preserves n Q E2 ->
  mmul P (irep E2 Q) = mmul (irep E1 Q) P.
Proof.
  intros B1 B2 WP EP OQ P1 P2. pose proof (irep_exact n E1 B1 Q OQ P1) as X1. pose proof (irep_exact n E2 B2 Q OQ P2) as X2.
  pose proof (dim23_pos n (proj1 B1)) as Hn. pose proof (proj1 (proj2 B1)) as W1. pose proof (proj1 OQ) as WQ.
  pose proof (irep_wf n E1 B1 Q WQ) as V1. pose proof (irep_wf n E2 B2 Q WQ) as V2. pose proof (wf_RZ n n _ WP) as WR.
  pose proof (wf_RZ n n _ V1) as U1. pose proof (wf_RZ n n _ V2) as U2.
  apply RZ_inj. rewrite !RZ_mmul. apply (mmul_cancel_l n E1); [apply B1|exact W1|now apply (wf_mmul n n n)|now apply (wf_mmul n n n)|apply B1|].
  rewrite <- !(mmul_assoc n n n n) by auto. rewrite X1, <- EP, X2, EP. rewrite (mmul_assoc n n n n) by auto. reflexivity.
Qed.

(** Two bases of the same lattice have the same Laue group and point group, listed in the same order, and the lattice groups are
    the same up to the change of base, when the tolerances accept no tabled isometry that is not a symmetry. *)
Theorem C98_same_lattice_partial : forall n E1 E2, base n E1 -> base n E2 -> same_lattice n E1 E2 -> resolved n E1 -> resolved n E2 ->
  Laue_group E1 = Laue_group E2 /\ point_group E1 = point_group E2 /\
  exists P, wf n n P /\ (det P = 1 \/ det P = -1)%Z /\ E2 = mmul E1 (RZ P) /\
    (exists L1 L2, lattice_group E1 = Ok L1 /\ lattice_group E2 = Ok L2 /\ conjugate P L1 L2) /\
    (exists L1 L2, special_lattice_group E1 = Ok L1 /\ special_lattice_group E2 = Ok L2 /\ conjugate P L1 L2).
Proof.
  intros n E1 E2 B1 B2 S R1 R2. pose proof (dim23_pos n (proj1 B1)) as Hn.
  destruct (groups_ext n E1 E2 B1 B2) as (EL & EP); [intros; now apply (accept_same n)|]. split; [exact EL|]. split; [exact EP|].
  assert (S21 : sub_lattice n E2 E1) by (intros x; apply S). apply (sub_lattice_iff n E1 B1) in S21; [|apply B2]. destruct S21 as (P & WP & P1).
  assert (S12 : sub_lattice n E1 E2) by (intros x; apply S). apply (sub_lattice_iff n E2 B2) in S12; [|apply B1]. destruct S12 as (P' & WP' & P2).
  assert (D : (det P * det P' = 1)%Z).
  { apply eq_IZR. rewrite mult_IZR, !RZ_det. pose proof (wf_RZ n n _ WP). pose proof (wf_RZ n n _ WP').
    assert (DE : det E1 = det E1 * (det (RZ P) * det (RZ P'))).
    { rewrite P2 at 1. rewrite P1 at 1. rewrite !(det_mmul n) by (try apply B1; auto; apply (wf_mmul n n n); auto; apply B1). ring. }
    destruct B1 as (_ & _ & N). nra. }
  exists P. split; [exact WP|]. split; [apply Z.eq_mul_1 in D; lia|]. split; [exact P1|]. split.
  - destruct (point_result n E1 B1) as (G & EG & _ & _ & A & C). exists (map (irep E1) G), (map (irep E2) G).
    unfold lattice_group. rewrite <- EP, EG. cbn [bind]. rewrite (to_integer_rep_ok n E1 B1), (to_integer_rep_ok n E2 B2). split; [reflexivity|]. split; [reflexivity|].
    assert (K : forall Q, In Q G -> mmul P (irep E2 Q) = mmul (irep E1 Q) P).
    { intros Q HQ. destruct (A Q HQ) as (OQ & _). pose proof (proj2 (C R1) Q HQ) as PQ. apply (irep_conj n); auto. now apply (preserves_same n _ _ _ S). }
    clear - K. unfold conjugate. induction G as [|Q G IH]; cbn [map]; constructor; [apply K; now left|apply IH; intros; apply K; now right].
  - destruct (laue_result n E1 B1) as (G & EG & _ & _ & A & C). exists (map (irep E1) G), (map (irep E2) G).
    unfold special_lattice_group. rewrite <- EL, EG. cbn [bind]. rewrite (to_integer_rep_ok n E1 B1), (to_integer_rep_ok n E2 B2). split; [reflexivity|]. split; [reflexivity|].
    assert (K : forall Q, In Q G -> mmul P (irep E2 Q) = mmul (irep E1 Q) P).
    { intros Q HQ. destruct (A Q HQ) as (IQ & OQ & AQ). assert (PQ : preserves n Q E1) by (apply R1; [now apply rot_in_iso|exact AQ]).
      apply (irep_conj n); auto. now apply (preserves_same n _ _ _ S). }
    clear - K. unfold conjugate. induction G as [|Q G IH]; cbn [map]; constructor; [apply K; now left|apply IH; intros; apply K; now right].
Qed.
Print Assumptions C98_same_lattice_partial.

(** Scaling a lattice changes none of the groups, whatever the tolerances accept. *)
Lemma scale_mix n E c Q : base n E -> c <> 0 -> wf n n Q -> mmul (minv (mscale c E)) (mmul Q (mscale c E)) = mmul (minv E) (mmul Q E).
Proof.
  intros B Hc WQ. pose proof (dim23_pos n (proj1 B)) as Hn. pose proof (proj1 (proj2 B)) as WE. pose proof (wf_mscale n n c E Hn WE) as WC.
  assert (BC : base n (mscale c E)).
  { split; [apply B|]. split; [exact WC|]. rewrite (det_mscale n) by (auto; apply B). apply Rmult_integral_contrapositive_currified; [now apply pow_nonzero|apply B]. }
  pose proof (wf_minv n E (proj1 B) WE) as WI. assert (WX : wf n n (mmul Q E)) by now apply (wf_mmul n n n).
  apply (solve_left n _ BC); [now apply (wf_mmul n n n)|now apply (wf_mmul n n n)|].
  rewrite (mmul_mscale_r n), (mmul_mscale_l n) by (auto; apply (wf_mmul n n n); auto). f_equal. apply (solve_left n E B); auto. now apply (wf_mmul n n n).
Qed.
Lemma base_scale n E c : base n E -> c <> 0 -> base n (mscale c E).
Proof.
  intros B Hc. pose proof (dim23_pos n (proj1 B)) as Hn. pose proof (proj1 (proj2 B)) as WE. split; [apply B|]. split; [now apply wf_mscale|].
  rewrite (det_mscale n) by (auto; apply B). apply Rmult_integral_contrapositive_currified; [now apply pow_nonzero|apply B].
Qed.
Theorem C98_scale : forall n E c, base n E -> c <> 0 ->
  Laue_group (mscale c E) = Laue_group E /\ point_group (mscale c E) = point_group E /\
  lattice_group (mscale c E) = lattice_group E /\ special_lattice_group (mscale c E) = special_lattice_group E.
Proof.
  intros n E c B Hc. pose proof (dim23_pos n (proj1 B)) as Hn. pose proof (proj1 (proj2 B)) as WE. pose proof (base_scale n E c B Hc) as BC.
  destruct (groups_ext n (mscale c E) E BC B) as (EL & EP).
  { intros Q O _. rewrite (inpoint_red n _ BC), (inpoint_red n _ B) by exact O. pose proof (proj1 (orth_arr_values n Q O)) as WQ.
    rewrite (lat_eq_red n _ BC), (lat_eq_red n _ B) by (apply (wf_mmul n n n); auto; apply BC). now rewrite (scale_mix n). }
  split; [exact EL|]. split; [exact EP|]. unfold lattice_group, special_lattice_group. rewrite EL, EP. split.
  - destruct (point_result n E B) as (G & -> & _ & _ & A & _). cbn [bind]. rewrite (to_integer_rep_ok n _ BC), (to_integer_rep_ok n _ B). f_equal.
    apply map_ext_in. intros Q HQ. unfold irep. rewrite (scale_mix n); auto. apply (A Q HQ).
  - destruct (laue_result n E B) as (G & -> & _ & _ & A & _). cbn [bind]. rewrite (to_integer_rep_ok n _ BC), (to_integer_rep_ok n _ B). f_equal.
    apply map_ext_in. intros Q HQ. unfold irep. rewrite (scale_mix n); auto. apply (A Q HQ).
Qed.
Print Assumptions C98_scale.

(** Without the hypothesis: the same lattice, in one base with two and in the other with four rotations. *)
Theorem C98_refuted : exists E1 E2 G1 G2, base 2 E1 /\ base 2 E2 /\ same_lattice 2 E1 E2 /\
  Laue_group E1 = Ok G1 /\ Laue_group E2 = Ok G2 /\ ~ In R90 G1 /\ In R90 G2.
Proof.
  pose (d := 5 / 100000000). assert (Hd : d = 5 / 100000000) by reflexivity.
  pose (E1 := M2 1 d 0 1). pose (E2 := M2 1 (1 + d) 0 1).
  assert (B1 : base 2 E1) by (apply base2; lra). assert (B2 : base 2 E2) by (apply base2; lra).
  assert (O90 : orthogonal 2 R90) by (split; [apply wfM2|unfold R90; meq ltac:(ring)]).
  assert (S : same_lattice 2 E1 E2).
  { intros x. split; intros Hx.
    - apply (proj2 (sub_lattice_iff 2 E2 B2 E1 (wfM2 _ _ _ _))); [|exact Hx]. exists [[1; -1]; [0; 1]]%Z. split; [apply wfZ2|]. unfold E1, E2. meq ltac:(ring).
    - apply (proj2 (sub_lattice_iff 2 E1 B1 E2 (wfM2 _ _ _ _))); [|exact Hx]. exists [[1; 1]; [0; 1]]%Z. split; [apply wfZ2|]. unfold E1, E2. meq ltac:(ring). }
  assert (F : lat_eq E1 (mmul R90 E1) = Ok false).
  { eapply (lat_eq_false 2 _ B1 _ (M2 (- d) (- 1 - d * d) 1 d) 0 0 0); [apply wfM2|unfold E1, R90; meq ltac:(ring)|lia|lia|..]; clearbody d; subst d; cbn; rabs; lra. }
  assert (T : lat_eq E2 (mmul R90 E2) = Ok true).
  { eapply (lat_eq_true 2 _ B2 _ (M2 (- 1 - d) (- 2 - 2 * d - d * d) 1 (1 + d)) [[-1; -2]; [1; 1]]%Z); [apply wfM2|apply wfZ2|unfold E2, R90; meq ltac:(ring)|].
    clearbody d. subst d. apply lt2; cbn; rabs; lra. }
  destruct (laue_result 2 E1 B1) as (G1 & EG1 & _ & _ & A1 & _).
  assert (H90 : In R90 (kept E2 square_arr)).
  { apply (in_kept 2 _ B2 square_arr (proj2 square_T)). split; [unfold square_arr; rewrite map_values_int, in_square; auto|].
    rewrite (inpoint_red 2 _ B2); [exact T|exact O90]. }
  assert (I1 : In (eye 2) (kept E2 square_arr)) by (apply (kept_eye 2 _ B2); apply square_T).
  assert (O180 : orthogonal 2 R180) by (split; [apply wfM2|unfold R180; meq ltac:(ring)]).
  assert (I2 : In R180 (kept E2 square_arr)).
  { apply (kept_complete 2 _ B2 square_arr (proj2 square_T)); [unfold square_arr; rewrite map_values_int, in_square; auto|exact O180|].
    apply (preserves_iff 2 _ B2); [exact O180|]. exists [[-1;0];[0;-1]]%Z. split; [apply wfZ2|unfold R180, E2; meq ltac:(ring)]. }
  assert (L3 : (3 <= length (kept E2 square_arr))%nat).
  { apply (NoDup3 (eye 2) R180 R90); auto; rewrite ?eye2; apply M2_neq; left; lra. }
  assert (EG2 : Laue_group E2 = Ok (kept E2 square_arr)).
  { unfold Laue_group. rewrite (len_base 2 E2 B2). unfold pick_group. rewrite (keep_kept 2 _ B2 square_arr (proj2 square_T)). cbn [bind].
    destruct (_ =? 2)%nat eqn:L; [apply Nat.eqb_eq in L; lia|reflexivity]. }
  exists E1, E2, G1, (kept E2 square_arr). split; [exact B1|]. split; [exact B2|]. split; [exact S|]. split; [exact EG1|]. split; [exact EG2|]. split; [|exact H90].
  intros HI. destruct (A1 _ HI) as (_ & _ & AQ). rewrite (inpoint_red 2 _ B1) in AQ by exact O90. cbn [values] in AQ. congruence.
Qed.
Print Assumptions C98_refuted.

(** Two bases of the square lattice *)
Lemma resolved_skew : resolved 2 (M2 1 1 0 1).
Proof.
  assert (B : base 2 (M2 1 1 0 1)) by (apply base2; lra). destruct C1S1 as (HC2 & HC & HS).
  assert (S3 : 86/100 < S1 < 87/100) by (assert (0 < S1) by (rewrite HS; pose proof (sqrt_lt_R0 3); lra); rewrite HC in HC2; split; nra).
  intros Q HQ HA. pose proof (tabled_orth 2 Q ltac:(now left) HQ) as OQ. pose proof (proj1 OQ) as WQ.
  cbn [tabled_isometries Nat.eqb] in HQ. apply in_app_iff in HQ.
  assert (KZ : forall a b c d : Z, Q = RZ [[a; b]; [c; d]] -> preserves 2 Q (M2 1 1 0 1)).
  { intros a b c d EQ. apply (preserves_iff 2 _ B); [exact OQ|]. exists [[a - c; a + b - c - d]; [c; c + d]]%Z. split; [apply wfZ2|].
    rewrite EQ. unfold RZ, mmap. cbn [map]. mat_eq ltac:(rewrite ?minus_IZR, ?plus_IZR; ring). }
  assert (KF : get Q 1 0 = S1 \/ get Q 1 0 = - S1 -> preserves 2 Q (M2 1 1 0 1)).
  { intros HQ0. exfalso. rewrite (inpoint_red 2 _ B) in HA; [|exact OQ]. cbn [values] in HA.
    assert (WX : wf 2 2 (mmul Q (M2 1 1 0 1))) by (apply (wf_mmul 2 2 2); [apply OQ|apply wfM2|lia]).
    apply (lat_eq_near 2 _ B) in HA; [|exact WX].
    apply wf2_inv in WQ. destruct WQ as (q0 & q1 & q2 & q3 & ->).
    rewrite (proj1 (solve_left 2 _ B (M2 (q0 - q2) (q0 + q1 - q2 - q3) q2 (q2 + q3)) _ WX (wfM2 _ _ _ _))) in HA by (mat_eq ltac:(ring)).
    specialize (HA 1%nat 0%nat ltac:(lia) ltac:(lia)). cbv [get nth M2] in HQ0. 
    set (z := get (rintm _) 1 0) in HA. clearbody z. cbv [get nth M2] in HA.
    assert (Z : (z <= -1 \/ z = 0 \/ 1 <= z)%Z) by lia.
    destruct Z as [Z|[->|Z]]; [apply IZR_le in Z| |apply IZR_le in Z]; revert HA; destruct HQ0 as [-> | ->]; rabs; lra. }
  destruct HQ as [HQ|HQ].
  - apply in_map_iff in HQ. destruct HQ as (M & <- & HM). apply square_ext_iff in HM. destruct HM as [WM _]. apply wf2_inv in WM. destruct WM as (a & b & c & d & ->). now apply (KZ a b c d).
  - unfold HEX2D_EXT_GROUP in HQ. cbn in HQ.
    repeat (destruct HQ as [HQ|HQ]; [first [apply KF; rewrite <- HQ; cbn; lra
      | apply (KZ 1 0 0 1)%Z; now rewrite <- HQ | apply (KZ (-1) 0 0 (-1))%Z; now rewrite <- HQ
      | apply (KZ 1 0 0 (-1))%Z; now rewrite <- HQ | apply (KZ (-1) 0 0 1)%Z; now rewrite <- HQ ]|]). destruct HQ.
Qed.
Example C98_case : base 2 (M2 1 0 0 1) /\ base 2 (M2 1 1 0 1) /\ same_lattice 2 (M2 1 0 0 1) (M2 1 1 0 1) /\ resolved 2 (M2 1 0 0 1) /\ resolved 2 (M2 1 1 0 1).
Proof.
  assert (B1 : base 2 (M2 1 0 0 1)) by (apply base2; lra). assert (B2 : base 2 (M2 1 1 0 1)) by (apply base2; lra).
  split; [exact B1|]. split; [exact B2|]. split; [|split; [apply resolved_square|apply resolved_skew]].
  intros x. split; intros Hx.
  - apply (proj2 (sub_lattice_iff 2 _ B2 _ (wfM2 1 0 0 1))); [|exact Hx]. exists [[1; -1]; [0; 1]]%Z. split; [apply wfZ2|]. meq ltac:(ring).
  - apply (proj2 (sub_lattice_iff 2 _ B1 _ (wfM2 1 1 0 1))); [|exact Hx]. exists [[1; 1]; [0; 1]]%Z. split; [apply wfZ2|]. meq ltac:(ring).
Qed.
