(** Properties C30 - C32: rank-one solvers, compatibility test, positive-definiteness test. *)
From Verif Require Import RankOneAll.
Local Open Scope R_scope.

(** ** C30 *)
(** The code gives up when sqrt(l3 - l1) is below 1e-12; this is the only missing case (see C30_tiny_gap_refuted). *)
Theorem C30_solve_rank1_partial : forall eig C l1 l3,
  MartSpec.symmetric C -> eigenvalues C l1 1 l3 -> 0 < l1 -> tolerance * tolerance <= l3 - l1 -> is_eig C (eig C) ->
  exists b1 m1 b2 m2, solve_rank1 eig C = Ok (Some ((b1, m1), (b2, m2))) /\
    solves C b1 m1 /\ solves C b2 m2 /\ only_solutions C b1 m1 b2 m2 /\
    (l1 < 1 < l3 -> m1 <> m2 /\ m1 <> vscale (-1) m2).
Proof.
  intros eig C l1 l3 [WC TC] EV P G EG. assert (L : l1 < l3) by (unfold tolerance, SMALL in G; lra).
  destruct (solve_rank1_ok eig C l1 l3 WC TC EV P L EG G) as (b1 & m1 & b2 & m2 & E & S1 & S2 & (D1 & D2) & D).
  destruct (sort_eig_eigenvalues _ _ _ _ _ EG EV) as (v0 & v1 & v2 & _ & ES & _).
  assert (F : forall b m, rank_one_solution C b m -> (0 < det (madd (eye 3) (outer b m)) <-> 0 < 1 + dot b m)).
  { intros b m (Lb & Lm & _). now rewrite det_F. }
  exists b1, m1, b2, m2. split; [exact E|]. split; [split; [|apply F]; auto|]. split; [split; [|apply F]; auto|].
  split; [|intros [? ?]; auto].
  intros b m [S Db]. apply F in Db; auto. eapply (all_solutions C l1 l3 v0 v1 v2); eauto.
Qed.
Print Assumptions C30_solve_rank1_partial.

(** AM_Solver gives up when sqrt(l3 - l1) is below 1e-6. *)
Theorem C30_AM_Solver_partial : forall eig C l1 l3,
  MartSpec.symmetric C -> eigenvalues C l1 1 l3 -> 0 < l1 -> 1 / 1000000 * (1 / 1000000) <= l3 - l1 -> is_eig C (eig C) ->
  exists b1 m1 b2 m2, AM_Solver eig C = Ok (Some ((b1, m1), (b2, m2))) /\
    solves C b1 m1 /\ solves C b2 m2 /\ only_solutions C b1 m1 b2 m2 /\
    (l1 < 1 < l3 -> m1 <> m2 /\ m1 <> vscale (-1) m2).
Proof.
  intros eig C l1 l3 [WC TC] EV P G EG. assert (L : l1 < l3) by lra.
  destruct (AM_Solver_ok eig C l1 l3 WC TC EV P L EG G) as (b1 & m1 & b2 & m2 & E & S1 & S2 & (D1 & D2) & D).
  destruct (sort_eig_eigenvalues _ _ _ _ _ EG EV) as (v0 & v1 & v2 & _ & ES & _).
  assert (F : forall b m, rank_one_solution C b m -> (0 < det (madd (eye 3) (outer b m)) <-> 0 < 1 + dot b m)).
  { intros b m (Lb & Lm & _). now rewrite det_F. }
  exists b1, m1, b2, m2. split; [exact E|]. split; [split; [|apply F]; auto|]. split; [split; [|apply F]; auto|].
  split; [|intros [? ?]; auto].
  intros b m [S Db]. apply F in Db; auto. eapply (all_solutions C l1 l3 v0 v1 v2); eauto.
Qed.
Print Assumptions C30_AM_Solver_partial.

Theorem C30_twin_solver_partial : forall eig C l1 l3,
  MartSpec.symmetric C -> eigenvalues C l1 1 l3 -> 0 < l1 -> tolerance * tolerance <= l3 - l1 -> is_eig C (eig C) ->
  exists R1 b1 m1 R2 b2 m2, solve_am eig C = Ok (Some ((R1, b1, m1), (R2, b2, m2))) /\
    solves C b1 m1 /\ rotation_part C R1 b1 m1 /\ solves C b2 m2 /\ rotation_part C R2 b2 m2 /\
    only_solutions C b1 m1 b2 m2 /\ (l1 < 1 < l3 -> m1 <> m2 /\ m1 <> vscale (-1) m2).
Proof.
  intros eig C l1 l3 [WC TC] EV P G EG. assert (L : l1 < l3) by (unfold tolerance, SMALL in G; lra).
  destruct (solve_am_ok eig C l1 l3 WC TC EV P L EG G) as (R1 & b1 & m1 & R2 & b2 & m2 & E & S1 & Q1 & S2 & Q2 & (D1 & D2) & D).
  destruct (sort_eig_eigenvalues _ _ _ _ _ EG EV) as (v0 & v1 & v2 & _ & ES & _).
  assert (F : forall b m, rank_one_solution C b m -> (0 < det (madd (eye 3) (outer b m)) <-> 0 < 1 + dot b m)).
  { intros b m (Lb & Lm & _). now rewrite det_F. }
  exists R1, b1, m1, R2, b2, m2. split; [exact E|]. split; [split; [|apply F]; auto|]. split; [exact Q1|].
  split; [split; [|apply F]; auto|]. split; [exact Q2|]. split; [|intros [? ?]; auto].
  intros b m [S Db]. apply F in Db; auto. eapply (all_solutions C l1 l3 v0 v1 v2); eauto.
Qed.
Print Assumptions C30_twin_solver_partial.

(** The decomposition the theorems ask for exists for every symmetric matrix. *)
Theorem C30_decomposition_exists : forall C, MartSpec.symmetric C ->
  (exists eg, is_eig C eg) /\ exists l1 l2 l3, eigenvalues C l1 l2 l3.
Proof. intros C S. split; [now apply eig_exists|now apply eigenvalues_exist]. Qed.
Print Assumptions C30_decomposition_exists.

(** diag(a, 1, c) with the decomposition numpy returns for it *)
Definition eig_diag (a c : R) (C : mat R) : list R * mat R := ([a; 1; c], eye 3).
Lemma is_eig_diag a b c : is_eig (M3 a 0 0 0 b 0 0 0 c) ([a; b; c], eye 3).
Proof.
  split.
  - split; [apply wfb_spec; reflexivity|]. split; [apply wf_mk|]. split; [reflexivity|]. cbn [fst snd].
    split; [rewrite (det_eye 3) by (now right); lra|mat_eq ltac:(ring)].
  - intros j Hj. cbn [snd]. assert (HJ : j = 0%nat \/ j = 1%nat \/ j = 2%nat) by lia.
    destruct HJ as [->|[->| ->]]; mat_unfold_goal; ring.
Qed.
Lemma eigenvalues_diag a b c : a <= b -> b <= c -> eigenvalues (M3 a 0 0 0 b 0 0 0 c) a b c.
Proof. intros. split; [lra|]. exists (eye 3). apply is_eig_diag. Qed.
Lemma sym_diag a b c : MartSpec.symmetric (M3 a 0 0 0 b 0 0 0 c).
Proof. split; [apply wfb_spec; reflexivity|reflexivity]. Qed.

(** eigenvalues 1/4, 1, 4: the hypotheses are met *)
Example C30_case : exists R1 b1 m1 R2 b2 m2,
  solve_am (eig_diag (1/4) 4) (M3 (1/4) 0 0 0 1 0 0 0 4) = Ok (Some ((R1, b1, m1), (R2, b2, m2))) /\
  rotation_part (M3 (1/4) 0 0 0 1 0 0 0 4) R1 b1 m1 /\ m1 <> m2.
Proof.
  destruct (C30_twin_solver_partial (eig_diag (1/4) 4) (M3 (1/4) 0 0 0 1 0 0 0 4) (1/4) 4)
    as (R1 & b1 & m1 & R2 & b2 & m2 & E & _ & Q & _ & _ & _ & D); try (unfold tolerance, SMALL; lra).
  - apply sym_diag.
  - apply eigenvalues_diag; lra.
  - apply is_eig_diag.
  - exists R1, b1, m1, R2, b2, m2. split; [exact E|]. split; [exact Q|]. apply D. lra.
Qed.

(** For eigenvalues 1 and 1 + 1e-25 the solvers return None although a solution exists. *)
Theorem C30_tiny_gap_refuted : exists eig C l3, MartSpec.symmetric C /\ eigenvalues C 1 1 l3 /\ 1 < l3 /\ is_eig C (eig C) /\
  (exists b m, solves C b m) /\ solve_rank1 eig C = Ok None /\ AM_Solver eig C = Ok None /\ solve_am eig C = Ok None.
Proof.
  set (l := 1 + 1 / 10 ^ 25). assert (Hl : 1 < l) by (unfold l; lra).
  assert (SY := sym_diag 1 1 l). assert (EV : eigenvalues (M3 1 0 0 0 1 0 0 0 l) 1 1 l) by (apply eigenvalues_diag; lra).
  assert (EG := is_eig_diag 1 1 l).
  exists (eig_diag 1 l), (M3 1 0 0 0 1 0 0 0 l), l. split; [exact SY|]. split; [exact EV|]. split; [exact Hl|]. split; [exact EG|].
  destruct (sort_eig_eigenvalues _ _ _ _ _ EG EV) as (v0 & v1 & v2 & S & ES & _).
  assert (PD : pos_def_sym (M3 1 0 0 0 1 0 0 0 l) = true).
  { rewrite (eigsys_form _ _ _ _ _ _ (proj1 SY) (proj2 SY) ES Hl).
    destruct (eigsys_orth _ _ _ _ _ _ _ (proj1 SY) (proj2 SY) ES Hl) as (O & _). destruct ES. apply pos_def_sym_spec2; auto; lra. }
  assert (T : forall y, 1 / 10 ^ 12 <= y -> Rltb (sqrt (l - 1)) y = true).
  { intros y Hy. apply Rltb_spec. apply Rlt_le_trans with (1 / 10 ^ 12); [|exact Hy].
    replace (1 / 10 ^ 12) with (sqrt (1 / 10 ^ 12 * (1 / 10 ^ 12))) by (apply sqrt_square; lra). apply sqrt_lt_1_alt. unfold l. lra. }
  split; [|split; [|split]].
  - destruct (bm_pairs_ok np_sqrt _ 1 l v0 v1 v2 np_sqrt_ok (proj1 SY) (proj2 SY) ES) as (b & m & _ & _ & _ & Sb & _ & D & _); try lra.
    exists b, m. split; [exact Sb|]. destruct Sb as (Lb & Lm & _). rewrite det_F, D by auto.
    apply Rmult_lt_0_compat; apply sqrt_lt_R0; lra.
  - unfold solve_rank1. rewrite PD. cbn [negb]. change (eig_diag 1 l (M3 1 0 0 0 1 0 0 0 l)) with ([1; 1; l], @eye R _ 3).
    rewrite S. cbv [vget]. cbn [nth]. rewrite (Rabs_pos_eq (1 - 1)), (Rabs_pos_eq (l - 1)), !np_sqrt_ok by lra. cbn [bind].
    rewrite T by (unfold tolerance, SMALL; lra). reflexivity.
  - unfold AM_Solver. rewrite fro2_sym0, sqrt_0 by apply SY. rewrite (proj2 (Rltb_false _ 0)) by lra.
    change (eig_diag 1 l (M3 1 0 0 0 1 0 0 0 l)) with ([1; 1; l], @eye R _ 3).
    rewrite S. cbv [vget]. cbn [nth]. rewrite !math_sqrt_ok by lra. cbn [bind]. rewrite T by lra. reflexivity.
  - unfold solve_am. rewrite PD. cbn [negb]. change (eig_diag 1 l (M3 1 0 0 0 1 0 0 0 l)) with ([1; 1; l], @eye R _ 3).
    rewrite S. cbv [vget]. cbn [nth]. rewrite (Rabs_pos_eq (1 - 1)), (Rabs_pos_eq (l - 1)), !math_sqrt_ok by lra. cbn [bind].
    rewrite T by (unfold tolerance, SMALL; lra). reflexivity.
Qed.
Print Assumptions C30_tiny_gap_refuted.

(** ** C31 *)
(** Under Python 2 the test only asks that the middle eigenvalue is not above one. *)
Theorem C31_test_partial : forall eig A B l1 l2 l3, wf 3 3 A -> wf 3 3 B -> det A <> 0 -> det B <> 0 ->
  is_eig (mixed A B) (eig (mixed A B)) -> eigenvalues (mixed A B) l1 l2 l3 ->
  exists r, isCompatible eig false A B = Ok r /\ (r = true <-> l2 < 1 + 1 / 100000).
Proof.
  intros eig A B l1 l2 l3 WA WB DA DB EG EV. assert (d : dim23 3) by now right.
  unfold isCompatible. assert (WT : wf 3 3 (tr B)) by (apply wf_tr'; auto; lia).
  rewrite (inv_Ok 3 (tr B)) by (auto; rewrite (det_tr 3); auto). cbn [bind]. rewrite (inv_Ok 3 B) by auto. cbn [bind].
  fold (mixed A B). destruct (sort_eig_eigenvalues _ _ _ _ _ EG EV) as (v0 & v1 & v2 & S & _ & _). rewrite S.
  eexists. split; [reflexivity|]. cbv [vget]. cbn [nth]. rewrite Rltb_spec.
  pose proof (posdef_eig _ _ _ _ (mixed_posdef A B WA WB DA DB) EV). destruct EV as [[H1 H2] _].
  rewrite Rabs_pos_eq by lra. lra.
Qed.
Print Assumptions C31_test_partial.

(** What the property needs: a rotation Q with Q A - B of rank one exists exactly when the middle eigenvalue is one.
    Hence the test never rejects a compatible pair. *)
Theorem C31_accepts_connected : forall eig A B, wf 3 3 A -> wf 3 3 B -> 0 < det A * det B ->
  is_eig (mixed A B) (eig (mixed A B)) -> rank_one_connected A B -> isCompatible eig false A B = Ok true.
Proof.
  intros eig A B WA WB D EG RC.
  assert (DA : det A <> 0) by (intros Z; rewrite Z in D; lra). assert (DB : det B <> 0) by (intros Z; rewrite Z in D; lra).
  destruct (eigenvalues_exist _ (proj1 (mixed_posdef A B WA WB DA DB))) as (l1 & l2 & l3 & EV).
  destruct (C31_test_partial eig A B l1 l2 l3 WA WB DA DB EG EV) as (r & E & H).
  apply (connected_iff A B l1 l2 l3 WA WB D EV) in RC. rewrite E. f_equal. apply H. lra.
Qed.
Print Assumptions C31_accepts_connected.
Theorem C31_criterion : forall A B l1 l2 l3, wf 3 3 A -> wf 3 3 B -> 0 < det A * det B ->
  eigenvalues (mixed A B) l1 l2 l3 -> (rank_one_connected A B <-> l2 = 1).
Proof. exact connected_iff. Qed.
Print Assumptions C31_criterion.

(** isCompatible(I/2, I) is True, but no rotation makes Q (I/2) - I rank one. *)
Theorem C31_refuted : exists eig A B, wf 3 3 A /\ wf 3 3 B /\ 0 < det A * det B /\ is_eig (mixed A B) (eig (mixed A B)) /\
  isCompatible eig false A B = Ok true /\ ~ rank_one_connected A B.
Proof.
  set (A := M3 (1/2) 0 0 0 (1/2) 0 0 0 (1/2)). set (B := M3 1 0 0 0 1 0 0 0 1).
  assert (WA : wf 3 3 A) by (apply wfb_spec; reflexivity). assert (WB : wf 3 3 B) by (apply wfb_spec; reflexivity).
  assert (DA : det A = 1 / 8) by (unfold A, M3; rewrite det3; lra). assert (DB : det B = 1) by (unfold B, M3; rewrite det3; lra).
  assert (BE : B = eye 3) by (unfold B; mat_eq ltac:(reflexivity)). assert (d : dim23 3) by now right.
  assert (EM : mixed A B = M3 (1/4) 0 0 0 (1/4) 0 0 0 (1/4)).
  { unfold mixed. rewrite BE, tr_eye, minv_eye by (auto; lia). rewrite (mmul_eye_l 3 3), (mmul_eye_r 3 3) by (auto; try lia; apply wf_tr'; auto; lia).
    unfold A. mat_eq ltac:(lra). }
  assert (EV : eigenvalues (mixed A B) (1/4) (1/4) (1/4)) by (rewrite EM; apply eigenvalues_diag; lra).
  set (eig := fun _ : mat R => ([1/4; 1/4; 1/4], @eye R _ 3)).
  assert (EG : is_eig (mixed A B) (eig (mixed A B))) by (rewrite EM; apply is_eig_diag).
  exists eig, A, B. split; [exact WA|]. split; [exact WB|]. split; [rewrite DA, DB; lra|]. split; [exact EG|]. split.
  - destruct (C31_test_partial eig A B (1/4) (1/4) (1/4)) as (r & E & H); auto; try lra. rewrite E. f_equal. apply H. lra.
  - intros RC. apply (connected_iff A B (1/4) (1/4) (1/4)) in RC; auto; [lra|rewrite DA, DB; lra].
Qed.
Print Assumptions C31_refuted.

(** Under Python 3 the call never returns: mat_math.eigSort uses the undefined name xrange. *)
Theorem C31_python3_refuted : forall eig A B, wf 3 3 A -> wf 3 3 B -> det B <> 0 -> isCompatible eig true A B = Raise NameError.
Proof.
  intros eig A B WA WB DB. assert (d : dim23 3) by now right. unfold isCompatible.
  assert (WT : wf 3 3 (tr B)) by (apply wf_tr'; auto; lia).
  rewrite (inv_Ok 3 (tr B)) by (auto; rewrite (det_tr 3); auto). cbn [bind]. rewrite (inv_Ok 3 B) by auto. reflexivity.
Qed.
Print Assumptions C31_python3_refuted.

(** a connected pair: A = diag(1/2, 1, 2), B = I *)
Example C31_case : rank_one_connected (M3 (1/2) 0 0 0 1 0 0 0 2) (M3 1 0 0 0 1 0 0 0 1).
Proof.
  set (A := M3 (1/2) 0 0 0 1 0 0 0 2). set (B := M3 1 0 0 0 1 0 0 0 1).
  assert (WA : wf 3 3 A) by (apply wfb_spec; reflexivity). assert (WB : wf 3 3 B) by (apply wfb_spec; reflexivity).
  assert (BE : B = eye 3) by (unfold B; mat_eq ltac:(reflexivity)). assert (d : dim23 3) by now right.
  apply (connected_iff A B (1/4) 1 4); auto.
  - unfold A, B, M3. rewrite !det3. lra.
  - replace (mixed A B) with (M3 (1/4) 0 0 0 1 0 0 0 4); [apply eigenvalues_diag; lra|].
    unfold mixed. rewrite BE, tr_eye, minv_eye by (auto; lia). rewrite (mmul_eye_l 3 3), (mmul_eye_r 3 3) by (auto; try lia; apply wf_tr'; auto; lia).
    unfold A. mat_eq ltac:(lra).
Qed.

(** ** C32 *)
Lemma fro2_sym_zero U : MartSpec.symmetric U -> fro2 3 3 (msub U (tr U)) = 0.
Proof. intros [W S]. rewrite S. rewrite <- S at 1. now apply fro2_sym0. Qed.

Theorem C32_accepts_partial : forall U, positive_definite U -> pos_def_sym U = true.
Proof.
  intros U P. pose proof P as [S _]. unfold pos_def_sym. rewrite (fro2_sym_zero U S), sqrt_0, (proj2 (Rltb_spec 0 (1 / 1000000))) by lra.
  destruct (sym3 U S) as (a & b & c & d & e & f & ->). apply (posdef_minors _ S) in P.
  rewrite (proj2 (Rltb_spec _ _)) by (apply P). reflexivity.
Qed.
Print Assumptions C32_accepts_partial.

(** It accepts exactly the nearly symmetric matrices of positive determinant; in particular it rejects what is not
    symmetric within the tolerance and everything with an odd number of negative eigenvalues. *)
Theorem C32_exact_partial : forall U, wf 3 3 U ->
  (pos_def_sym U = true <-> 0 < det U /\ sqrt (fro2 3 3 (msub U (tr U))) < 1 / 1000000).
Proof.
  intros U W. unfold pos_def_sym, is_3_by_3. cbn [andb]. rewrite andb_true_iff, !Rltb_spec. reflexivity.
Qed.
Print Assumptions C32_exact_partial.

(** diag(-1, -1, 1) is symmetric, not positive definite, and accepted. *)
Theorem C32_refuted : exists U, MartSpec.symmetric U /\ ~ positive_definite U /\ pos_def_sym U = true.
Proof.
  exists (M3 (-1) 0 0 0 (-1) 0 0 0 1). assert (S := sym_diag (-1) (-1) 1). split; [exact S|]. split.
  - intros [_ P]. specialize (P 1 0 0 ltac:(intros [= X]; lra)). mat_unfold. lra.
  - apply C32_exact_partial; [apply S|]. split; [unfold M3; rewrite det3; lra|].
    rewrite fro2_sym_zero, sqrt_0 by exact S. lra.
Qed.
Print Assumptions C32_refuted.

(** On accepted symmetric matrices with a positive leading minor pair the answer is right. *)
Theorem C32_sylvester_partial : forall a b c d e f,
  (positive_definite (M3 a b c b d e c e f) <->
   0 < a /\ 0 < a * d - b * b /\ pos_def_sym (M3 a b c b d e c e f) = true).
Proof.
  intros a b c d e f. assert (S : MartSpec.symmetric (M3 a b c b d e c e f)) by (split; [apply wfb_spec; reflexivity|reflexivity]).
  rewrite (C32_exact_partial _ (proj1 S)), (fro2_sym_zero _ S), sqrt_0. pose proof (posdef_minors _ S) as P.
  change (get (M3 a b c b d e c e f) 0 0) with a in P. change (get (M3 a b c b d e c e f) 1 1) with d in P.
  change (get (M3 a b c b d e c e f) 0 1) with b in P. change (get (M3 a b c b d e c e f) 1 0) with b in P.
  rewrite P. split; [intros (H1 & H2 & H3); repeat split; auto; lra|intros (H1 & H2 & H3 & _); auto].
Qed.
Print Assumptions C32_sylvester_partial.
Example C32_case : pos_def_sym (M3 2 1 0 1 2 0 0 0 1) = true /\ positive_definite (M3 2 1 0 1 2 0 0 0 1).
Proof.
  assert (S : MartSpec.symmetric (M3 2 1 0 1 2 0 0 0 1)) by (split; [apply wfb_spec; reflexivity|reflexivity]).
  assert (P : positive_definite (M3 2 1 0 1 2 0 0 0 1)).
  { apply (posdef_minors _ S). split; [|split].
    - change (get (M3 2 1 0 1 2 0 0 0 1) 0 0) with 2. lra.
    - change (get (M3 2 1 0 1 2 0 0 0 1) 0 0) with 2. change (get (M3 2 1 0 1 2 0 0 0 1) 1 1) with 2.
      change (get (M3 2 1 0 1 2 0 0 0 1) 0 1) with 1. change (get (M3 2 1 0 1 2 0 0 0 1) 1 0) with 1. lra.
    - unfold M3. rewrite det3. lra. }
  split; [now apply C32_accepts_partial|exact P].
Qed.
