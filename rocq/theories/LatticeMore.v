From Verif Require Import LinAlg GroupSpec GroupModel GroupProofs LatticeModel LatticeSpec LatticeProofs ReduceProofs.
Local Open Scope R_scope.
Lemma wf_RZ_inv n M : wf n n (RZ M) -> wf n n M.
Proof.
  unfold RZ, mmap. intros [L Hr]. split; [now rewrite map_length in L|]. intros r Hin.
  specialize (Hr (map IZR r) ltac:(now apply in_map)). now rewrite map_length in Hr.
Qed.
Lemma is_square_inv {A} (M : mat A) : is_square M = true -> wf (length M) (length M) M /\ (0 < length M)%nat.
Proof. unfold is_square. intros H. apply andb_prop in H. destruct H as [H1 H2]. apply Nat.ltb_lt in H1. apply wfb_spec in H2. auto. Qed.

Lemma inpoint_meaning n E Q : base n E ->
  exists b, inpointgroup E Q = Ok b /\
    (b = true -> wf n n (values Q) /\
       Rabs (Rabs (det (values Q)) - 1) < 1 / 1000000 /\
       (forall i j, (i < n)%nat -> (j < n)%nat ->
          Rabs (get (mmul (values Q) (tr (values Q))) i j - get (eye n) i j) <= 1 / 100000000 + 1 / 100000 * Rabs (get (eye n) i j)) /\
       exists A M, wf n n A /\ wf n n M /\ mmul (values Q) E = mmul E A /\
         forall i j, (i < n)%nat -> (j < n)%nat ->
           Rabs (get A i j - IZR (get M i j)) <= 1 / 100000000 + 1 / 100000 * Rabs (IZR (get M i j))).
Proof.
  intros B. pose proof (dim23_pos n (proj1 B)) as Hn. pose proof (proj1 (proj2 B)) as WE. pose proof (len_base n E B) as LE.
  unfold inpointgroup. destruct (in_O3 Q) eqn:HO; [|exists false; split; [reflexivity|discriminate]].
  destruct (_ =? _)%nat eqn:HL; [|exists false; split; [reflexivity|discriminate]]. apply Nat.eqb_eq in HL. rewrite LE in HL.
  assert (K : wf n n (values Q) /\ Rabs (Rabs (det (values Q)) - 1) < 1 / 1000000 /\
    forall i j, (i < n)%nat -> (j < n)%nat ->
      Rabs (get (mmul (values Q) (tr (values Q))) i j - get (eye n) i j) <= 1 / 100000000 + 1 / 100000 * Rabs (get (eye n) i j)).
  { destruct Q as [M|M]; cbn [in_O3 values] in *.
    - apply andb_prop in HO. destruct HO as [HS HO]. apply andb_prop in HO. destruct HO as [HD HO].
      unfold RZ, mmap in HL. rewrite map_length in HL.
      apply is_square_inv in HS. destruct HS as [WM _]. rewrite HL in WM. apply mat_eqb_eq in HO. apply Z.eqb_eq in HD.
      split; [now apply wf_RZ|]. split.
      + rewrite <- RZ_det, <- abs_IZR, HD. replace (1 - 1) with 0 by ring. rewrite Rabs_R0. lra.
      + intros i j Hi Hj. rewrite <- RZ_tr, <- RZ_mmul, HO, RZ_eye, HL. unfold Rminus. rewrite Rplus_opp_r, Rabs_R0.
        pose proof (Rabs_pos (get (eye n) i j)). lra.
    - apply andb_prop in HO. destruct HO as [HS HO]. apply andb_prop in HO. destruct HO as [HD HO].
      apply is_square_inv in HS. destruct HS as [WM _]. rewrite HL in WM, HO. apply Rltb_spec in HD.
      split; [exact WM|]. split; [exact HD|].
      assert (WMM : wf n n (mmul M (tr M))) by (apply (wf_mmul n n n); [exact WM|now apply wf_tr'|exact Hn]).
      exact (proj1 (allclose_n n E B _ _ WMM) HO). }
  destruct K as (WV & HD & HQ).
  assert (DV : det (values Q) <> 0). { intros Z. rewrite Z, Rabs_R0 in HD. rewrite Rabs_left in HD by lra. lra. }
  assert (W2 : wf n n (mmul (values Q) E)) by now apply (wf_mmul n n n).
  rewrite (new_lattice_ok n E B); [|exact W2|].
  2:{ rewrite (det_mmul n); [|exact (proj1 B)|exact WV|exact WE]. apply Rmult_integral_contrapositive_currified; [exact DV|apply B]. }
  cbn [bind]. destruct (lat_eq_total n E B _ W2) as [b Hb]. exists b. split; [exact Hb|]. intros ->.
  split; [exact WV|]. split; [exact HD|]. split; [exact HQ|].
  pose proof (wf_minv n E (proj1 B) WE) as WI.
  exists (mmul (minv E) (mmul (values Q) E)), (rintm (mmul (minv E) (mmul (values Q) E))).
  assert (WA : wf n n (mmul (minv E) (mmul (values Q) E))) by now apply (wf_mmul n n n).
  split; [exact WA|]. split; [now apply wf_rintm|]. split; [now apply (solve_left n E B)|].
  now apply (lat_eq_near n E B).
Qed.
