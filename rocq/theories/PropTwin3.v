(** Properties C36 (for TwinPair objects), C37 and C38: twin parameters and volume fractions. *)
From Verif Require Import PropTwin PropMart PropRankOne.
From Verif Require Export PropTwin2.
Local Open Scope R_scope.

(** ** C36: what twinparam returns, whatever was called before *)
Lemma param_first eig U V p : istwinnable p = true -> p_twinparam p = None -> p_Ui p = U -> p_Uj p = V -> forall l p', ax p = (Ok l, p') ->
  fst (twinparam eig false p) = solvetwin eig false U V (match l with [] => None | x :: _ => Some x end).
Proof.
  intros T N <- <- l p' A. unfold twinparam. rewrite T, N. cbn [negb]. unfold bindS at 1. rewrite A. unfold bindS, lift.
  destruct (solvetwin _ _ _ _ _); reflexivity.
Qed.
Lemma distinct_neq U V : distinct U V -> U <> V.
Proof. intros D ->. destruct D as (i & j & _ & _ & H). rewrite Rminus_diag_eq, Rabs_R0 in H by reflexivity. unfold tolerance in *; pose proof small_pos; lra. Qed.

Theorem C36_pair : forall eig skip U V h p l1 l3,
  positive_definite U -> positive_definite V -> is_eig (twin_matrix U V) (eig (twin_matrix U V)) ->
  variants U V -> distinct U V -> eigenvalues (twin_matrix U V) l1 1 l3 -> clear_pair U V -> pair_after eig false skip U V h p ->
  (isvariant U V = Ok true -> exists t1 t2, fst (twinparam eig false p) = Ok (Some (t1, t2))) /\
  (forall t1 t2, fst (twinparam eig false p) = Ok (Some (t1, t2)) -> rounded_twin U V t1 /\ rounded_twin U V t2).
Proof.
  intros eig skip U V h p l1 l3 PU PV E VR D EV CL PA.
  destruct (ax_after _ _ _ _ _ _ _ _ _ PU PV E VR D EV PA) as (v0 & v1 & v2 & p0 & N & F & I & U1 & U2 & T & NE & ES & A & Ax).
  rewrite (loose_clear U V PU PV VR NE l1 l3 v0 v1 v2 ES CL) in A.
  pose proof (param_first eig U V p0 T (proj2 (proj2 (proj2 (proj2 F)))) U1 U2 _ _ A) as P.
  rewrite (proj1 (twinparam_stable eig false p0 F p I)), P.
  pose proof (signs_some U V PU PV VR NE l1 l3 v0 v1 v2 ES) as X. pose proof (axes_good U V PU PV VR NE l1 l3 v0 v1 v2 ES) as G.
  destruct (signs U l3 v0 v1 v2) as [|s ss]; [now elim X|]. cbn [map] in *. destruct (G _ (or_introl eq_refl)) as (Le & De & R).
  split.
  - intros IV. destruct (C36_returned eig U V _ PU Le De) as (H & _). rewrite R in H. apply H; [exact IV|]. intros Q. now apply NE.
  - intros t1 t2 H. rewrite <- R. exact (C36_solves eig false U V _ t1 t2 PU Le De H).
Qed.
Print Assumptions C36_pair.

Lemma Utet_t1 : Utet = t1. Proof. reflexivity. Qed.
Lemma t12_isvariant : isvariant t1 t2 = Ok true.
Proof.
  destruct C27_case as (_ & _ & _ & _ & Us & idx & m' & G & _ & P). unfold isvariant. rewrite <- Utet_t1. unfold Mtet in G. rewrite G. cbn [bind fst]. f_equal.
  apply existsb_exists. exists t2. split.
  - apply (Permutation_in _ (Permutation_sym P)). right. left. reflexivity.
  - apply Rltb_spec. replace (fro2 3 3 (msub t2 t2)) with 0; [rewrite sqrt_0; apply small_pos|]. unfold fro2, t2. mat_unfold_goal. ring.
Qed.
(** the tetragonal variants of C27, after other calls *)
Example C36_case : exists eig p t1' t2', pair_after eig false true t1 t2 [PAx; PVolume; PTwinparam] p /\
  fst (twinparam eig false p) = Ok (Some (t1', t2')) /\ rounded_twin t1 t2 t1' /\ rounded_twin t1 t2 t2'.
Proof.
  destruct C40_case as (eig & p & l1 & l3 & P1 & P2 & E & VR & D & EV & CL & p0 & N & _).
  exists eig, (pair_run eig false [PAx; PVolume; PTwinparam] p0).
  assert (PA : pair_after eig false true t1 t2 [PAx; PVolume; PTwinparam] (pair_run eig false [PAx; PVolume; PTwinparam] p0)) by (exists p0; auto).
  destruct (C36_pair eig true t1 t2 _ _ l1 l3 P1 P2 E VR D EV CL PA) as (H & K). destruct (H t12_isvariant) as (s1 & s2 & X).
  exists s1, s2. split; [exact PA|]. split; [exact X|]. now apply K.
Qed.

(** ** C37 *)
(** U^-1 V^2 U^-1 has no role here: without an axis the returned normals are always (1, 1, 1), of squared length 3. *)
Theorem C37_normals : forall eig npnew U V t1 t2, wf 3 3 U ->
  solvetwin eig npnew U V None = Ok (Some (t1, t2)) -> twin_n t1 = [1; 1; 1] /\ twin_n t2 = [1; 1; 1].
Proof.
  intros eig npnew U V t1 t2 WU H. cbn [solvetwin] in H. unfold solvetwin_none in H. destruct (inv U) as [Ui| |]; try discriminate. cbn [bind] in H.
  destruct (solve_am eig _) as [[[[[Q1 a1] n1] [[Q2 a2] n2]]|]| |]; try discriminate. cbn [bind] in H.
  assert (WT : wf 3 3 (tr U)) by (apply wf_tr'; auto; lia).
  destruct (vdivv (mvmul (tr U) n1) _) as [m1| |] eqn:E1; try discriminate. cbn [bind] in H.
  destruct (vdivv (mvmul (tr U) n2) _) as [m2| |] eqn:E2; try discriminate. cbn [bind] in H. injection H as <- <-. cbn [twin_n snd].
  split; [apply (vdivv_self _ _ (len_mv3 _ _ WT) E1)|apply (vdivv_self _ _ (len_mv3 _ _ WT) E2)].
Qed.
Print Assumptions C37_normals.

(** Genuine variants never get there: some half turn maps one to the other. *)
Theorem C37_variants_partial : forall U V l1 l3, positive_definite U -> positive_definite V -> variants U V -> U <> V ->
  eigenvalues (twin_matrix U V) l1 1 l3 -> exists e, half_turn_axis U V e.
Proof.
  intros U V l1 l3 PU PV VR NE EV. destruct (eig_exists (twin_matrix U V)) as (eg & E); [apply (twin_posdef U V PU PV)|].
  destruct (sort_eig_eigenvalues _ _ _ _ _ E EV) as (v0 & v1 & v2 & _ & ES & _).
  pose proof (signs_some U V PU PV VR NE l1 l3 v0 v1 v2 ES) as X. pose proof (axes_good U V PU PV VR NE l1 l3 v0 v1 v2 ES) as G.
  destruct (signs U l3 v0 v1 v2) as [|s ss]; [now elim X|]. exists (axis U v0 v2 s). apply G. now left.
Qed.
Print Assumptions C37_variants_partial.

Definition U37 : mat R := [[2; 1; 0]; [1; 2; 0]; [0; 0; 1]].
Lemma pd_U37 : positive_definite U37.
Proof.
  assert (S : MartSpec.symmetric U37) by (split; [now apply wfb_spec|reflexivity]). apply (posdef_minors _ S). unfold U37. rewrite det3. cbv [get nth]. lra.
Qed.
Lemma solves37 b m : solves C4 b m -> exists x z, m = [x; 0; z] /\ x <> 0 /\ z <> 0.
Proof.
  intros (S & P). pose proof S as (Lb & Lm & _). rewrite det_F in P by auto. destruct pd_C4 as [[W T] _].
  destruct (solution_coords C4 (1/4) 4 _ _ _ W T eigsys4 ltac:(lra) ltac:(lra) b m S P) as (N & _ & _ & _ & X & Z).
  v3 Lm. cbv [cross vget nth] in N. rewrite !dot3 in *. exists x, x1. split; [|split].
  - f_equal. f_equal. lra.
  - intros ->. assert (A : sqrt (4 - 1/4) * (1 * 0 + 0 * x0 + 0 * x1) * (sqrt (4 - 1/4) * (1 * 0 + 0 * x0 + 0 * x1)) = 0) by ring. lra.
  - intros ->. assert (A : sqrt (4 - 1/4) * (0 * x + 0 * x0 + 1 * 0) * (sqrt (4 - 1/4) * (0 * x + 0 * x0 + 1 * 0)) = 0) by ring. lra.
Qed.
(** A twinnable pair without a two-fold axis, for which both solutions returned are wrong: the normals are not unit
    vectors and U + a (x) n is not V up to a rotation. *)
Theorem C37_refuted : exists U V p t1 t2, positive_definite U /\ positive_definite V /\ (forall e, ~ half_turn_axis U V e) /\
  is_eig (twin_matrix U V) (eig4 (twin_matrix U V)) /\ new_pair eig4 true U V = Ok p /\ istwinnable p = true /\
  fst (twinparam eig4 false p) = Ok (Some (t1, t2)) /\
  forall t, t = t1 \/ t = t2 -> dot (twin_n t) (twin_n t) = 3 /\
    mmul (tr (madd U (outer (twin_a t) (twin_n t)))) (madd U (outer (twin_a t) (twin_n t))) <> mmul V V.
Proof.
  pose proof pd_U37 as PU. destruct (twin_of U37 C4 PU pd_C4) as (V & PV & EC & EV).
  assert (D : distinct U37 V).
  { apply (far_from_u U37 V [0; 0; 1] PU PV EV); [reflexivity| |]; unfold U37; mat_unfold_goal; [apply list3_eq; ring|lra]. }
  destruct (pair4 U37 V PU PV EC D) as (p & N & U1 & U2 & Ee & Ev & F & T).
  assert (NA : forall e, ~ half_turn_axis U37 V e).
  { intros e (Le & De & R). assert (W : wf 3 3 U37) by apply PU. assert (TE : trace (mmul V V) = trace (mmul U37 U37)).
    { rewrite <- R. rewrite rotate_mmul, trace_rotate; auto using half_orth. apply (wf_mmul 3 3 3); auto; lia. }
    rewrite EV in TE. revert TE. unfold U37, C4. mat_unfold_goal. intros TE. lra. }
  assert (A : ax p = (Ok [], set_ax [] p)).
  { unfold ax. rewrite (proj1 (proj2 F)), T, U1, Ev, Ee. cbn [negb]. unfold axes, ax_loop. cbv [nth vget].
    rewrite math_sqrt_ok by lra. rewrite sqrt4. cbn [bind].
    assert (X : forall s, Rltb (Rabs (s * 2 * dot [0; 1; 0] (mvmul (mmul U37 U37) [0; 0; 1]) + dot [0; 1; 0] (mvmul (mmul U37 U37) [1; 0; 0]))) SMALL = false).
    { intros s. apply Rltb_false. replace (dot [0; 1; 0] (mvmul (mmul U37 U37) [0; 0; 1])) with 0 by (unfold U37; mat_unfold_goal; ring).
      replace (dot [0; 1; 0] (mvmul (mmul U37 U37) [1; 0; 0])) with 4 by (unfold U37; mat_unfold_goal; ring).
      replace (s * 2 * 0 + 4) with 4 by ring. rewrite Rabs_pos_eq by lra. unfold tolerance, SMALL. lra. }
    rewrite !X. reflexivity. }
  pose proof (param_first eig4 U37 V p T (proj2 (proj2 (proj2 (proj2 F)))) U1 U2 _ _ A) as P.
  destruct (C30_twin_solver_partial eig4 C4 (1/4) 4) as (R1 & b1 & m1 & R2 & b2 & m2 & SA & S1 & _ & S2 & _);
    [apply pd_C4|apply ev_C4|lra|unfold tolerance, SMALL; lra|apply is_eig4|].
  destruct (solves37 _ _ S1) as (x1 & z1 & -> & X1 & Z1). destruct (solves37 _ _ S2) as (x2 & z2 & -> & X2 & Z2).
  assert (K : forall x z, mvmul (tr U37) [x; 0; z] = [2 * x; x; z]) by (intros; unfold U37; mat_unfold_goal; apply list3_eq; ring).
  assert (Dv : forall x z, x <> 0 -> z <> 0 -> vdivv [2 * x; x; z] [2 * x; x; z] = Ok [1; 1; 1]).
  { intros x z Hx Hz. assert (H : exists l, vdivv [2 * x; x; z] [2 * x; x; z] = Ok l).
    { unfold vdivv. cbn [combine mapM fst snd]. unfold np_div. rewrite (proj2 (Reqb_false (2 * x) 0)), (proj2 (Reqb_false x 0)), (proj2 (Reqb_false z 0)) by lra. cbn. eauto. }
    destruct H as (l & H). rewrite H. f_equal. exact (vdivv_self [2 * x; x; z] l eq_refl H). }
  assert (PP : exists t1 t2, fst (twinparam eig4 false p) = Ok (Some (t1, t2)) /\ length (twin_a t1) = 3%nat /\ length (twin_a t2) = 3%nat).
  { rewrite P. cbn [solvetwin]. unfold solvetwin_none. rewrite (inv_posdef _ PU). cbn [bind].
    change (mmul (mmul (minv U37) V) (mmul V (minv U37))) with (twin_matrix U37 V). rewrite EC, SA. cbn [bind]. rewrite !K, !Dv by auto. cbn [bind].
    eexists _, _. split; [reflexivity|]. cbn [twin_a fst snd]. unfold vmul. rewrite !map_length, !combine_length. now rewrite (proj1 (proj1 S1)), (proj1 (proj1 S2)). }
  destruct PP as (s1 & s2 & PP & La1 & La2). exists U37, V, p, s1, s2.
  split; [exact PU|]. split; [exact PV|]. split; [exact NA|]. split; [rewrite EC; apply is_eig4|]. split; [exact N|]. split; [exact T|]. split; [exact PP|].
  rewrite P in PP. destruct (C37_normals _ _ _ _ _ _ (proj1 (proj1 PU)) PP) as (N1 & N2).
  assert (Q : forall a, length a = 3%nat -> mmul (tr (madd U37 (outer a [1; 1; 1]))) (madd U37 (outer a [1; 1; 1])) <> mmul V V).
  { intros a La H. v3 La. rewrite EV in H. apply (f_equal (fun M => dot [1; -1; 0] (mvmul M [1; -1; 0]))) in H. revert H.
    unfold U37, C4. mat_unfold_goal.
    match goal with |- ?l = ?r -> False => replace l with 2 by ring; replace r with (5 / 4) by field end. lra. }
  intros t [-> | ->]; rewrite ?N1, ?N2; (split; [mat_unfold_goal; ring|now apply Q]).
Qed.
Print Assumptions C37_refuted.

(** ** C38 *)
(** det of (U + f n (x) a)(U + f a (x) n) - I *)
Definition laminate_gap (U : mat R) (a n : vec R) (f : R) : R :=
  det (msub (mmul (madd U (mscale f (outer n a))) (madd U (mscale f (outer a n)))) (eye 3)).

Theorem C38_root : forall U V Q a n f, positive_definite U -> positive_definite V -> twinning U V Q a n ->
  det (msub (mmul V V) (eye 3)) = det (msub (mmul U U) (eye 3)) ->
  solve_f U a n = Ok (Some f) -> 0 < f < 1 -> laminate_gap U a n f = 0.
Proof.
  intros U V Q a n f [SU _] [SV _] (O & _ & La & Ln & _ & E) D H F. destruct (gap_ends U V Q a n SU SV O La Ln E) as (G0 & G1).
  apply (solve_f_ok U a n f SU La Ln); auto. rewrite G0, G1. exact D.
Qed.
Print Assumptions C38_root.
(** The condition on the determinants holds for all variants. *)
Theorem C38_variants : forall U V, positive_definite U -> variants U V -> det (msub (mmul V V) (eye 3)) = det (msub (mmul U U) (eye 3)).
Proof.
  intros U V PU (Q & O & <-). assert (W : wf 3 3 U) by apply PU. assert (WU : wf 3 3 (mmul U U)) by (apply (wf_mmul 3 3 3); auto; lia).
  rewrite rotate_mmul by auto. pose proof (orth_wf _ _ O) as WQ. assert (WT : wf 3 3 (tr Q)) by (apply wf_tr'; auto; lia).
  replace (msub (rotate Q (mmul U U)) (eye 3)) with (rotate Q (msub (mmul U U) (eye 3))).
  - apply det_rotate; auto. apply wf_msub; auto.
  - replace (@eye R _ 3) with (rotate Q (eye 3)) at 2 by (unfold rotate; rewrite (mmul_eye_r 3 3) by (auto; lia); apply O).
    unfold rotate. generalize (mmul U U) (@eye R _ 3) WU (wf_eye (A := R) 3). intros X Y WX WY. clear - WQ WX WY.
    apply wf3_inv in WX. destruct WX as (? & ? & ? & ? & ? & ? & ? & ? & ? & ->). apply wf3_inv in WY. destruct WY as (? & ? & ? & ? & ? & ? & ? & ? & ? & ->).
    apply wf3_inv in WQ. destruct WQ as (? & ? & ? & ? & ? & ? & ? & ? & ? & ->). mat_eq ltac:(ring).
Qed.
Print Assumptions C38_variants.

(** Without the hypothesis that a and n solve a twinning equation (they are rounded): the defect at f is f^2 times the
    difference of the determinants at the two ends. *)
Theorem C38_residual : forall U a n f, MartSpec.symmetric U -> length a = 3%nat -> length n = 3%nat ->
  solve_f U a n = Ok (Some f) -> 0 < f < 1 -> laminate_gap U a n f = f * f * (laminate_gap U a n 1 - laminate_gap U a n 0).
Proof.
  intros U a n f S La Ln R F. destruct (sym_minus_eye U S) as [W T]. pose proof (len_mv3 U a (proj1 S)) as Lu.
  unfold laminate_gap. rewrite !laminate_g by auto. unfold solve_f in R.
  set (A := msub (mmul U U) (eye 3)) in *. set (u := mvmul U a) in *. clearbody A u.
  rewrite (g_quadratic A u n (dot a a) f), (g_quadratic A u n (dot a a) 0) by auto.
  set (m := 2 * dot u (mvmul (brute_cof A) n)) in *.
  enough (Z : det A + (f - f * f) * m = 0) by lra.
  destruct (Rltb (Rabs m) SMALL) eqn:B1; [injection R; lra|].
  destruct (Rltb 0 ((det A + m / 4) / m)) eqn:B2; [|discriminate]. apply Rltb_spec in B2.
  rewrite math_sqrt_ok in R by lra. cbn [bind] in R.
  revert R. destruct (Rltb (Rabs (1 - _)) _); [intros [= R]; lra|]. destruct (Rltb (Rabs (_ + _)) _); [intros [= R]; lra|].
  destruct (Rltb 0 _ && _); [|discriminate]. intros [= <-].
  assert (M : m <> 0). { intros Z. rewrite Z in B1. rewrite Rabs_R0 in B1. apply Rltb_false in B1. unfold tolerance, SMALL in B1. lra. }
  pose proof (sqrt_sqrt _ (Rlt_le _ _ B2)) as SS. set (s := sqrt _) in *.
  replace (1 / 2 + s - (1 / 2 + s) * (1 / 2 + s)) with (1 / 4 - s * s) by field. rewrite SS. field. exact M.
Qed.
Print Assumptions C38_residual.

(** A root in the upper half of the interval is found, unless it is within 1e-6 of one or the defect is (nearly)
    constant in f; roots come in pairs f, 1 - f. *)
Theorem C38_found : forall U V Q a n f, positive_definite U -> positive_definite V -> twinning U V Q a n ->
  det (msub (mmul V V) (eye 3)) = det (msub (mmul U U) (eye 3)) ->
  (forall x, laminate_gap U a n (1 - x) = laminate_gap U a n x) /\
  (laminate_gap U a n f = 0 -> 1/2 < f <= 1 - 1/1000000 -> tolerance <= 4 * Rabs (laminate_gap U a n (1/2) - laminate_gap U a n 0) ->
   solve_f U a n = Ok (Some f)).
Proof.
  intros U V Q a n f [SU _] [SV _] (O & _ & La & Ln & _ & E) D. destruct (gap_ends U V Q a n SU SV O La Ln E) as (G0 & G1).
  assert (GE : gap U a n 1 = gap U a n 0) by (rewrite G0, G1; exact D). pose proof (gap_parabola U a n SU La Ln GE) as P.
  change (laminate_gap U a n) with (gap U a n). split; [intros x; rewrite !P; ring|].
  intros Z F B. rewrite !P in *. unfold solve_f.
  set (A := msub (mmul U U) (eye 3)) in *. set (m := 2 * dot (mvmul U a) (mvmul (brute_cof A) n)) in *.
  replace (det A + (1/2 - 1/2 * (1/2)) * m - (det A + (0 - 0 * 0) * m)) with (m / 4) in B by field.
  assert (Bm : SMALL <= Rabs m) by (change tolerance with SMALL in B; unfold Rdiv in B; rewrite Rabs_mult, (Rabs_pos_eq (/ 4)) in B by lra; lra).
  assert (M : m <> 0) by (intros X; rewrite X, Rabs_R0 in Bm; unfold tolerance in *; pose proof small_pos; lra).
  rewrite (proj2 (Rltb_false _ _) Bm).
  assert (X : (det A + m / 4) / m = (f - 1/2) * (f - 1/2)).
  { replace (det A) with (- ((f - f * f) * m)) by lra. field. exact M. }
  rewrite X. rewrite (proj2 (Rltb_spec _ _)) by nra. rewrite math_sqrt_ok by nra. cbn [bind]. rewrite sqrt_square by lra.
  replace (1/2 + (f - 1/2)) with f by ring.
  rewrite (proj2 (Rltb_false _ _)) by (rewrite Rabs_pos_eq; lra). rewrite (proj2 (Rltb_false _ _)) by (rewrite Rabs_pos_eq; lra).
  rewrite !(proj2 (Rltb_spec _ _)) by lra. reflexivity.
Qed.
Print Assumptions C38_found.

(** The object's answer, whatever was called before: the defect of the laminate is f^2 times the effect of rounding a
    and n on the determinant. *)
Theorem C38_pair : forall eig skip U V h p l1 l3 f1 f2,
  positive_definite U -> positive_definite V -> is_eig (twin_matrix U V) (eig (twin_matrix U V)) ->
  variants U V -> distinct U V -> eigenvalues (twin_matrix U V) l1 1 l3 -> clear_pair U V -> pair_after eig false skip U V h p ->
  fst (volumefrac eig false p) = Ok (f1, f2) ->
  exists t1 t2, fst (twinparam eig false p) = Ok (Some (t1, t2)) /\
    forall t f, (t = t1 /\ f1 = Some f) \/ (t = t2 /\ f2 = Some f) -> 0 < f < 1 ->
      laminate_gap U (twin_a t) (twin_n t) f =
      f * f * (det (msub (mmul (tr (mmul (twin_Q t) V)) (mmul (twin_Q t) V)) (eye 3)) - det (msub (mmul V V) (eye 3))).
Proof.
  intros eig skip U V h p l1 l3 f1 f2 PU PV E VR D EV CL PA H. pose proof PU as [SU _].
  assert (Up : p_Ui p = U) by (destruct (ax_after _ _ _ _ _ _ _ _ _ PU PV E VR D EV PA) as (v0 & v1 & v2 & p0 & _ & _ & I & U1 & _); now rewrite (i_Ui _ _ _ _ I)).
  destruct (C36_pair eig skip U V h p l1 l3 PU PV E VR D EV CL PA) as (_ & K).
  unfold volumefrac in H. unfold bindS at 1 in H. unfold some_param, bindS at 1 in H.
  destruct (twinparam eig false p) as [[[[t1 t2]|]| |] p'] eqn:TP; try discriminate. cbn [fst ret] in H, K |- *.
  rewrite Up in H. unfold bindS, lift in H. cbn [fst snd] in H.
  destruct (solve_f U (twin_a t1) (twin_n t1)) as [g1| |] eqn:S1; try discriminate.
  destruct (solve_f U (twin_a t2) (twin_n t2)) as [g2| |] eqn:S2; try discriminate. unfold ret in H. cbn [fst] in H. injection H as <- <-.
  exists t1, t2. split; [reflexivity|]. destruct (K t1 t2 eq_refl) as (K1 & K2).
  assert (Z : forall t f, rounded_twin U V t -> solve_f U (twin_a t) (twin_n t) = Ok (Some f) -> 0 < f < 1 ->
      laminate_gap U (twin_a t) (twin_n t) f =
      f * f * (det (msub (mmul (tr (mmul (twin_Q t) V)) (mmul (twin_Q t) V)) (eye 3)) - det (msub (mmul V V) (eye 3)))).
  { intros t f ((Q & a & n & (_ & _ & La & Ln & _) & (La' & _) & (Ln' & _)) & QE) SF F.
    assert (Lta : length (twin_a t) = 3%nat) by congruence. assert (Ltn : length (twin_n t) = 3%nat) by congruence.
    rewrite (C38_residual U _ _ f SU Lta Ltn SF F). f_equal. rewrite QE, (C38_variants U V PU VR). generalize (twin_a t) (twin_n t) Lta Ltn. clear - SU. intros a n La Ln.
    f_equal; [|f_equal]; unfold laminate_gap; f_equal; f_equal; destruct (sym3 U SU) as (c1 & c2 & c3 & c4 & c5 & c6 & ->); v3 La; v3 Ln;
      mat_unfold_goal; repeat (match goal with |- (_ :: _) = (_ :: _) => f_equal end); ring. }
  intros t f [(-> & ->)|(-> & ->)] F; apply Z; auto.
Qed.
Print Assumptions C38_pair.
