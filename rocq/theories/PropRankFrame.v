(** Property C128: the three rank-one solvers agree, and their solutions turn with the frame.  Specification: RankOneSpec.v;
    model: RankOneModel.v. *)
From Verif Require Import RankOneAll PropRankOne PropTwinFrame PropTwinSym TwinProofs TwinAxis2.
Local Open Scope R_scope.

(** the pair (b, m) is one of the two returned pairs, up to its sign *)
Definition listed (r : (vec R * vec R) * (vec R * vec R)) (b m : vec R) : Prop :=
  exists k, (k = 1 \/ k = -1) /\
    ((b = vscale k (fst (fst r)) /\ m = vscale k (snd (fst r))) \/ (b = vscale k (fst (snd r)) /\ m = vscale k (snd (snd r)))).
(** two results list the same pairs *)
Definition same_pairs (r r' : (vec R * vec R) * (vec R * vec R)) : Prop := forall b m, listed r b m <-> listed r' b m.

Lemma solves_sign C b m k : k = 1 \/ k = -1 -> solves C b m -> solves C (vscale k b) (vscale k m).
Proof.
  intros Hk ((Lb & Lm & N & E) & D). assert (O1 : outer (vscale k b) (vscale k m) = outer b m /\ outer (vscale k m) (vscale k b) = outer m b /\ dot (vscale k m) (vscale k m) = dot m m).
  { v3 Lb. v3 Lm. unfold vscale. destruct Hk as [->| ->]; (split; [mat_eq ltac:(ring)|split; [mat_eq ltac:(ring)|mat_unfold_goal; ring]]). }
  destruct O1 as (O1 & O2 & O3). split; [split; [now rewrite len_vscale|split; [now rewrite len_vscale|split]]|].
  - now rewrite O3.
  - now rewrite O1, O2.
  - now rewrite O1.
Qed.
Lemma listed_solves C b1 m1 b2 m2 : solves C b1 m1 -> solves C b2 m2 -> only_solutions C b1 m1 b2 m2 ->
  forall b m, listed ((b1, m1), (b2, m2)) b m <-> solves C b m.
Proof.
  intros S1 S2 O b m. split.
  - intros (k & Hk & [[-> ->]|[-> ->]]); cbn [fst snd]; now apply solves_sign.
  - intros S. exact (O b m S).
Qed.

Lemma rotate_one Q : orthogonal 3 Q -> rotate Q (eye 3) = eye 3.
Proof. intros O. unfold rotate. rewrite (mmul_eye_r 3 3) by (try apply orth_wf; auto; lia). apply O. Qed.
Lemma solves_rotate Q C b m : orthogonal 3 Q -> solves C b m -> solves (rotate Q C) (mvmul Q b) (mvmul Q m).
Proof.
  intros O ((Lb & Lm & N & E) & D). pose proof (orth_wf _ _ O) as WQ.
  assert (W : forall x y, length x = 3%nat -> length y = 3%nat -> wf 3 3 (madd (eye 3) (outer x y))) by (intros x y Lx Ly; apply wf_madd; [lia|apply wf_eye]).
  assert (F : forall x y, length x = 3%nat -> length y = 3%nat -> madd (eye 3) (outer (mvmul Q x) (mvmul Q y)) = rotate Q (madd (eye 3) (outer x y))).
  { intros x y Lx Ly. rewrite madd_rotate, rotate_one, outer_rotate; auto using wf_outer3. apply wf_eye. }
  split; [split; [now apply len_mv3|split; [now apply len_mv3|split]]|].
  - rewrite (dot_Q Q O) by assumption. exact N.
  - rewrite !F, rotate_mmul, E by auto. reflexivity.
  - rewrite F, det_rotate by auto. exact D.
Qed.
Lemma rotate_back Q C : orthogonal 3 Q -> wf 3 3 C -> rotate (tr Q) (rotate Q C) = C.
Proof. intros O W. now apply unrotate. Qed.
Lemma solves_rotate_iff Q C b m : orthogonal 3 Q -> wf 3 3 C -> length b = 3%nat -> length m = 3%nat ->
  solves (rotate Q C) (mvmul Q b) (mvmul Q m) <-> solves C b m.
Proof.
  intros O W Lb Lm. split; [|now apply solves_rotate]. intros S. apply (solves_rotate (tr Q)) in S; [|now apply orth_tr; [now right|]].
  rewrite rotate_back, !(forth Q O) in S by assumption. exact S.
Qed.

(** All three solvers list exactly the solutions of the equation. *)
Lemma solve_rank1_lists eig C l1 l3 : MartSpec.symmetric C -> eigenvalues C l1 1 l3 -> 0 < l1 -> tolerance * tolerance <= l3 - l1 -> is_eig C (eig C) ->
  exists r, solve_rank1 eig C = Ok (Some r) /\ forall b m, listed r b m <-> solves C b m.
Proof.
  intros S EV P G EG. destruct (C30_solve_rank1_partial eig C l1 l3 S EV P G EG) as (b1 & m1 & b2 & m2 & E & S1 & S2 & O & _).
  eexists. split; [exact E|]. now apply listed_solves.
Qed.
Lemma AM_Solver_lists eig C l1 l3 : MartSpec.symmetric C -> eigenvalues C l1 1 l3 -> 0 < l1 -> 1 / 1000000 * (1 / 1000000) <= l3 - l1 -> is_eig C (eig C) ->
  exists r, AM_Solver eig C = Ok (Some r) /\ forall b m, listed r b m <-> solves C b m.
Proof.
  intros S EV P G EG. destruct (C30_AM_Solver_partial eig C l1 l3 S EV P G EG) as (b1 & m1 & b2 & m2 & E & S1 & S2 & O & _).
  eexists. split; [exact E|]. now apply listed_solves.
Qed.
Lemma solve_am_lists eig C l1 l3 : MartSpec.symmetric C -> eigenvalues C l1 1 l3 -> 0 < l1 -> tolerance * tolerance <= l3 - l1 -> is_eig C (eig C) ->
  exists R1 b1 m1 R2 b2 m2, solve_am eig C = Ok (Some ((R1, b1, m1), (R2, b2, m2))) /\ forall b m, listed ((b1, m1), (b2, m2)) b m <-> solves C b m.
Proof.
  intros S EV P G EG. destruct (C30_twin_solver_partial eig C l1 l3 S EV P G EG) as (R1 & b1 & m1 & R2 & b2 & m2 & E & S1 & _ & S2 & _ & O & _).
  exists R1, b1, m1, R2, b2, m2. split; [exact E|]. now apply listed_solves.
Qed.

(** The three solvers of the package list the same pairs, whatever decompositions the eigenvalue routine returns to each. *)
Theorem C128_solvers_agree_partial : forall eig1 eig2 eig3 C l1 l3,
  MartSpec.symmetric C -> eigenvalues C l1 1 l3 -> 0 < l1 -> 1 / 1000000 * (1 / 1000000) <= l3 - l1 ->
  is_eig C (eig1 C) -> is_eig C (eig2 C) -> is_eig C (eig3 C) ->
  exists r s R1 b1 m1 R2 b2 m2, solve_rank1 eig1 C = Ok (Some r) /\ AM_Solver eig2 C = Ok (Some s) /\
    solve_am eig3 C = Ok (Some ((R1, b1, m1), (R2, b2, m2))) /\ same_pairs r s /\ same_pairs r ((b1, m1), (b2, m2)).
Proof.
  intros eig1 eig2 eig3 C l1 l3 S EV P G E1 E2 E3. assert (G' : tolerance * tolerance <= l3 - l1) by (unfold tolerance; lra).
  destruct (solve_rank1_lists eig1 C l1 l3 S EV P G' E1) as (r & Er & Hr). destruct (AM_Solver_lists eig2 C l1 l3 S EV P G E2) as (s & Es & Hs).
  destruct (solve_am_lists eig3 C l1 l3 S EV P G' E3) as (R1 & b1 & m1 & R2 & b2 & m2 & Et & Ht).
  exists r, s, R1, b1, m1, R2, b2, m2. repeat (split; [assumption|]). split; intros b m; [now rewrite Hr, Hs|now rewrite Hr, Ht].
Qed.
Print Assumptions C128_solvers_agree_partial.

(** Between the two tolerances AM_Solver returns nothing while the other solver returns two pairs. *)
Theorem C128_agree_refuted : exists eig C l3 r, MartSpec.symmetric C /\ eigenvalues C 1 1 l3 /\ 1 < l3 /\ is_eig C (eig C) /\
  solve_rank1 eig C = Ok (Some r) /\ AM_Solver eig C = Ok None.
Proof.
  set (l := 1 + 1 / 10 ^ 16). assert (Hl : 1 < l) by (unfold l; lra).
  assert (SY := sym_diag 1 1 l). assert (EV : eigenvalues (M3 1 0 0 0 1 0 0 0 l) 1 1 l) by (apply eigenvalues_diag; lra).
  assert (EG := is_eig_diag 1 1 l).
  destruct (solve_rank1_lists (eig_diag 1 l) _ 1 l SY EV ltac:(lra) ltac:(unfold tolerance, l; lra) EG) as (r & Er & _).
  exists (eig_diag 1 l), (M3 1 0 0 0 1 0 0 0 l), l, r. repeat (split; [assumption|]).
  destruct (sort_eig_eigenvalues _ _ _ _ _ EG EV) as (v0 & v1 & v2 & S & ES & _).
  unfold AM_Solver. rewrite fro2_sym0, sqrt_0 by apply SY. rewrite (proj2 (Rltb_false _ 0)) by lra.
  change (eig_diag 1 l (M3 1 0 0 0 1 0 0 0 l)) with ([1; 1; l], @eye R _ 3).
  rewrite S. cbv [vget]. cbn [nth]. rewrite !math_sqrt_ok by lra. cbn [bind].
  replace (Rltb (sqrt (l - 1)) (1 / 1000000)) with true; [reflexivity|]. symmetry. apply Rltb_spec.
  replace (1 / 1000000) with (sqrt (1 / 1000000 * (1 / 1000000))) by (apply sqrt_square; lra). apply sqrt_lt_1_alt. unfold l. lra.
Qed.
Print Assumptions C128_agree_refuted.

(** Turning the frame turns the listed pairs with it. *)
Theorem C128_rotated_partial : forall eig eig' Q C l1 l3, orthogonal 3 Q ->
  MartSpec.symmetric C -> eigenvalues C l1 1 l3 -> 0 < l1 -> tolerance * tolerance <= l3 - l1 ->
  is_eig C (eig C) -> is_eig (rotate Q C) (eig' (rotate Q C)) ->
  exists r r', solve_rank1 eig C = Ok (Some r) /\ solve_rank1 eig' (rotate Q C) = Ok (Some r') /\
    forall b m, length b = 3%nat -> length m = 3%nat -> listed r' (mvmul Q b) (mvmul Q m) <-> listed r b m.
Proof.
  intros eig eig' Q C l1 l3 O S EV P G E1 E2. pose proof S as [W T].
  assert (S' : MartSpec.symmetric (rotate Q C)) by (split; [now apply wf_rotate|rewrite (tr_rotate Q O), T; auto]).
  destruct (solve_rank1_lists eig C l1 l3 S EV P G E1) as (r & Er & Hr).
  destruct (solve_rank1_lists eig' (rotate Q C) l1 l3 S' (eigenvalues_rotate Q O _ _ _ _ EV) P G E2) as (r' & Er' & Hr').
  exists r, r'. split; [exact Er|]. split; [exact Er'|]. intros b m Lb Lm. rewrite Hr, Hr'. now apply solves_rotate_iff.
Qed.
Print Assumptions C128_rotated_partial.

Theorem C128_AM_rotated_partial : forall eig eig' Q C l1 l3, orthogonal 3 Q ->
  MartSpec.symmetric C -> eigenvalues C l1 1 l3 -> 0 < l1 -> 1 / 1000000 * (1 / 1000000) <= l3 - l1 ->
  is_eig C (eig C) -> is_eig (rotate Q C) (eig' (rotate Q C)) ->
  exists r r', AM_Solver eig C = Ok (Some r) /\ AM_Solver eig' (rotate Q C) = Ok (Some r') /\
    forall b m, length b = 3%nat -> length m = 3%nat -> listed r' (mvmul Q b) (mvmul Q m) <-> listed r b m.
Proof.
  intros eig eig' Q C l1 l3 O S EV P G E1 E2. pose proof S as [W T].
  assert (S' : MartSpec.symmetric (rotate Q C)) by (split; [now apply wf_rotate|rewrite (tr_rotate Q O), T; auto]).
  destruct (AM_Solver_lists eig C l1 l3 S EV P G E1) as (r & Er & Hr).
  destruct (AM_Solver_lists eig' (rotate Q C) l1 l3 S' (eigenvalues_rotate Q O _ _ _ _ EV) P G E2) as (r' & Er' & Hr').
  exists r, r'. split; [exact Er|]. split; [exact Er'|]. intros b m Lb Lm. rewrite Hr, Hr'. now apply solves_rotate_iff.
Qed.
Print Assumptions C128_AM_rotated_partial.

Theorem C128_twin_rotated_partial : forall eig eig' Q C l1 l3, orthogonal 3 Q ->
  MartSpec.symmetric C -> eigenvalues C l1 1 l3 -> 0 < l1 -> tolerance * tolerance <= l3 - l1 ->
  is_eig C (eig C) -> is_eig (rotate Q C) (eig' (rotate Q C)) ->
  exists R1 b1 m1 R2 b2 m2 R1' b1' m1' R2' b2' m2',
    solve_am eig C = Ok (Some ((R1, b1, m1), (R2, b2, m2))) /\ solve_am eig' (rotate Q C) = Ok (Some ((R1', b1', m1'), (R2', b2', m2'))) /\
    forall b m, length b = 3%nat -> length m = 3%nat -> listed ((b1', m1'), (b2', m2')) (mvmul Q b) (mvmul Q m) <-> listed ((b1, m1), (b2, m2)) b m.
Proof.
  intros eig eig' Q C l1 l3 O S EV P G E1 E2. pose proof S as [W T].
  assert (S' : MartSpec.symmetric (rotate Q C)) by (split; [now apply wf_rotate|rewrite (tr_rotate Q O), T; auto]).
  destruct (solve_am_lists eig C l1 l3 S EV P G E1) as (R1 & b1 & m1 & R2 & b2 & m2 & Er & Hr).
  destruct (solve_am_lists eig' (rotate Q C) l1 l3 S' (eigenvalues_rotate Q O _ _ _ _ EV) P G E2) as (R1' & b1' & m1' & R2' & b2' & m2' & Er' & Hr').
  exists R1, b1, m1, R2, b2, m2, R1', b1', m1', R2', b2', m2'. split; [exact Er|]. split; [exact Er'|]. intros b m Lb Lm. rewrite Hr, Hr'. now apply solves_rotate_iff.
Qed.
Print Assumptions C128_twin_rotated_partial.

(** diag(1/4, 1, 4), and the same strain in a frame turned by a quarter turn about the second axis. *)
Example C128_case : exists r r', solve_rank1 (eig_diag (1/4) 4) (M3 (1/4) 0 0 0 1 0 0 0 4) = Ok (Some r) /\
  solve_rank1 (eig_diag 4 (1/4)) (M3 4 0 0 0 1 0 0 0 (1/4)) = Ok (Some r') /\
  forall x y z u v w, listed r' [z; y; - x] [w; v; - u] <-> listed r [x; y; z] [u; v; w].
Proof.
  assert (O : orthogonal 3 (M3 0 0 1 0 1 0 (-1) 0 0)) by (split; [apply wfb_spec; reflexivity|mat_eq ltac:(ring)]).
  assert (E : rotate (M3 0 0 1 0 1 0 (-1) 0 0) (M3 (1/4) 0 0 0 1 0 0 0 4) = M3 4 0 0 0 1 0 0 0 (1/4)) by (unfold rotate; mat_eq ltac:(lra)).
  destruct (C128_rotated_partial (eig_diag (1/4) 4) (eig_diag 4 (1/4)) (M3 0 0 1 0 1 0 (-1) 0 0) (M3 (1/4) 0 0 0 1 0 0 0 4) (1/4) 4) as (r & r' & E1 & E2 & H);
    try exact O; try (unfold tolerance; lra).
  - apply sym_diag.
  - apply eigenvalues_diag; lra.
  - apply is_eig_diag.
  - rewrite E. apply is_eig_diag.
  - rewrite E in E2. exists r, r'. split; [exact E1|]. split; [exact E2|]. intros x y z u v w. rewrite <- (H [x; y; z] [u; v; w]) by reflexivity.
    assert (F : forall a b c, mvmul (M3 0 0 1 0 1 0 (-1) 0 0) [a; b; c] = [c; b; - a]) by (intros; mat_eq ltac:(ring)). rewrite !F. reflexivity.
Qed.
