(** C32, continued: what the three solvers refuse. *)
From Verif Require Import LinAlg RankOneModel PropRankOne.
Local Open Scope R_scope.

Lemma never_bind {A B} e (x : res A) (f : A -> res B) : x <> Raise e -> (forall a, x = Ok a -> f a <> Raise e) -> (let* a := x in f a) <> Raise e.
Proof. intros Hx Hf. destruct x as [a|e'|]; cbn; [now apply Hf|congruence|congruence]. Qed.
Lemma never_sqrt e x : e <> NaN -> np_sqrt x <> Raise e.
Proof. intros H. unfold np_sqrt. destruct (Rltb x 0); congruence. Qed.
Lemma never_math e x : e <> ValueError -> math_sqrt x <> Raise e.
Proof. intros H. unfold math_sqrt. destruct (Rltb x 0); congruence. Qed.
Lemma never_normalize e v : e <> NaN -> normalize v <> Raise e.
Proof. intros H. unfold normalize. destruct (Reqb _ 0); congruence. Qed.
Lemma never_pairs e sq ev vs c c1 c3 : e <> NaN -> (forall x, sq x <> Raise e) -> bm_pairs sq ev vs c c1 c3 <> Raise e.
Proof.
  intros H S. unfold bm_pairs. apply never_bind; [apply S|]. intros s2 _. apply never_bind; [apply S|]. intros s0 _. cbv zeta.
  apply never_bind; [now apply never_normalize|]. intros m1 _. apply never_bind; [now apply never_normalize|]. intros m2 _. discriminate.
Qed.
Lemma never_mapM {A B} e (f : A -> res B) l : (forall x, f x <> Raise e) -> mapM f l <> Raise e.
Proof. intros H. induction l as [|x l IH]; cbn [mapM]; [discriminate|]. apply never_bind; [apply H|]. intros a _. apply never_bind; [exact IH|]. intros b _. discriminate. Qed.

(** solve_rank1 and the habit plane solver raise TypeError exactly on what the check refuses; AM_Solver raises
    CompatibilityError exactly when the matrix is further from symmetric than 1e-9, whatever its eigenvalues are. *)
Theorem C32_solvers_partial : forall eig A, wf 3 3 A ->
  (solve_rank1 eig A = Raise TypeError <-> ~ (0 < det A /\ sqrt (fro2 3 3 (msub A (tr A))) < 1 / 1000000)) /\
  (solve_am eig A = Raise TypeError <-> ~ (0 < det A /\ sqrt (fro2 3 3 (msub A (tr A))) < 1 / 1000000)) /\
  (AM_Solver eig A = Raise CompatibilityError <-> 1 / 1000000000 < sqrt (fro2 3 3 (msub (tr A) A))).
Proof.
  intros eig A W. rewrite <- (C32_exact_partial A W). split; [|split].
  - unfold solve_rank1. destruct (pos_def_sym A); cbn [negb]; [|split; congruence]. split; [|congruence]. intros E. exfalso. revert E.
    destruct (sort_eig (eig A)) as [ev vs]. do 3 (apply never_bind; [now apply never_sqrt|intros ? _]).
    destruct (Rltb _ _); [discriminate|]. apply never_bind; [|discriminate]. apply never_pairs; [discriminate|]. intros x. now apply never_sqrt.
  - unfold solve_am. destruct (pos_def_sym A); cbn [negb]; [|split; congruence]. split; [|congruence]. intros E. exfalso. revert E.
    destruct (sort_eig (eig A)) as [ev vs]. do 3 (apply never_bind; [now apply never_math|intros ? _]).
    destruct (Rltb _ _); [discriminate|]. apply never_bind; [apply never_pairs; [discriminate|intros x; now apply never_math]|]. intros [[b1 m1] [b2 m2]] _.
    destruct (eig A) as [ec vc]. apply never_bind; [apply never_mapM; intros x; now apply never_sqrt|]. intros ec' _.
    apply never_bind; [unfold inv; destruct (Reqb _ _); discriminate|]. intros vci _. cbv zeta.
    repeat (apply never_bind; [unfold inv; destruct (Reqb _ _); discriminate|intros ? _]). discriminate.
  - unfold AM_Solver. destruct (Rltb (1 / 1000000000) _) eqn:L; [apply Rltb_spec in L; tauto|]. split; [|intros X; apply Rltb_spec in X; congruence]. intros E. exfalso. revert E.
    destruct (sort_eig (eig A)) as [ev vs]. do 3 (apply never_bind; [now apply never_math|intros ? _]).
    match goal with |- (if ?b then _ else if ?c then _ else _) <> _ => destruct b, c; try discriminate end. apply never_bind; [|intros; discriminate]. apply never_pairs; [discriminate|]. intros x. now apply never_math.
Qed.
Print Assumptions C32_solvers_partial.
(** both sides occur *)
Example C32_solvers_case : (forall eig, solve_rank1 eig (M3 (-1) 0 0 0 1 0 0 0 1) = Raise TypeError) /\
  (forall eig, AM_Solver eig (M3 1 1 0 0 1 0 0 0 1) = Raise CompatibilityError) /\ ~ (exists eig, AM_Solver eig (M3 2 1 0 1 2 0 0 0 1) = Raise CompatibilityError).
Proof.
  split; [|split].
  - intros eig. apply C32_solvers_partial; [apply wfb_spec; reflexivity|]. unfold M3. rewrite det3. intros [H _]. lra.
  - intros eig. apply C32_solvers_partial; [apply wfb_spec; reflexivity|].
    replace (fro2 3 3 (msub (tr (M3 1 1 0 0 1 0 0 0 1)) (M3 1 1 0 0 1 0 0 0 1))) with 2 by (unfold fro2, M3; mat_unfold_goal; lra).
    apply Rlt_trans with 1; [lra|]. rewrite <- sqrt_1. apply sqrt_lt_1; lra.
  - intros [eig H]. apply C32_solvers_partial in H; [|apply wfb_spec; reflexivity].
    replace (fro2 3 3 (msub (tr (M3 2 1 0 1 2 0 0 0 1)) (M3 2 1 0 1 2 0 0 0 1))) with 0 in H by (unfold fro2, M3; mat_unfold_goal; lra).
    rewrite sqrt_0 in H. lra.
Qed.
