(** Property C129: a uniform expansion of both variants does not change the twin.  Specification: TwinSpec.v (half_turn_axis,
    pair_after, clear_pair); model: TwinModel.v. *)
From Verif Require Import LinAlg Eig GroupSpec GroupModel GroupProofs LatticeProofs PropMart PropTwin PropTwin2 PropTwin3 TwinMono RankOneConn PropRankOne PropTwin6 PropFrame TwinProofs PropTwinFrame LLLSim UnitProofs.
Local Open Scope R_scope.

Lemma wfsc (k : R) (U : mat R) : wf 3 3 U -> wf 3 3 (mscale k U). Proof. apply wf_mscale. lia. Qed.
Lemma twin_scale (k : R) (U V : mat R) : k <> 0 -> positive_definite U -> wf 3 3 V -> twin_matrix (mscale k U) (mscale k V) = twin_matrix U V.
Proof.
  intros K PU WV. assert (DU : det U <> 0) by (apply Rgt_not_eq, posdef_det, PU). assert (WU : wf 3 3 U) by apply PU.
  unfold twin_matrix. rewrite (minv_scale 3) by (auto; now right). assert (WI : wf 3 3 (minv U)) by (apply wf_minv; [now right|exact WU]).
  clear - K WI WV. revert WI. generalize (minv U). intros I WI. apply wf3_inv in WI. destruct WI as (? & ? & ? & ? & ? & ? & ? & ? & ? & ->).
  apply wf3_inv in WV. destruct WV as (? & ? & ? & ? & ? & ? & ? & ? & ? & ->). mat_eq ltac:(field; exact K).
Qed.
Lemma posdef_scale k U : 0 < k -> positive_definite U -> positive_definite (mscale k U).
Proof.
  intros K [[W T] P]. split.
  - split; [now apply wfsc|]. transitivity (mscale k (tr U)); [|now rewrite T]. clear - W. apply wf3_inv in W. destruct W as (? & ? & ? & ? & ? & ? & ? & ? & ? & ->). mat_eq ltac:(ring).
  - intros x y z N. specialize (P x y z N). replace (dot _ _) with (k * dot [x; y; z] (mvmul U [x; y; z])); [now apply Rmult_lt_0_compat|].
    clear - W. apply wf3_inv in W. destruct W as (? & ? & ? & ? & ? & ? & ? & ? & ? & ->). mat_unfold_goal. ring.
Qed.
Lemma rotate_scale (k : R) (Q U : mat R) : wf 3 3 Q -> wf 3 3 U -> rotate Q (mscale k U) = mscale k (rotate Q U).
Proof.
  intros WQ W. apply wf3_inv in WQ. destruct WQ as (? & ? & ? & ? & ? & ? & ? & ? & ? & ->). apply wf3_inv in W. destruct W as (? & ? & ? & ? & ? & ? & ? & ? & ? & ->).
  unfold rotate. mat_eq ltac:(ring).
Qed.
Lemma mscale_inj (k : R) (A B : mat R) : k <> 0 -> wf 3 3 A -> wf 3 3 B -> mscale k A = mscale k B -> A = B.
Proof.
  intros K WA WB E. apply (mat_ext 3 3); auto. intros i j Hi Hj. assert (H : get (mscale k A) i j = get (mscale k B) i j) by now rewrite E.
  rewrite !(get_mscale 3 3) in H by auto. apply (Rmult_eq_reg_l k); [exact H|exact K].
Qed.
Lemma variants_scale (k : R) (U V : mat R) : wf 3 3 U -> variants U V -> variants (mscale k U) (mscale k V).
Proof. intros W (Q & O & E). exists Q. split; [exact O|]. rewrite rotate_scale, E by (auto; apply O). reflexivity. Qed.
Lemma axis_scale (k : R) (U V : mat R) (e : vec R) : k <> 0 -> wf 3 3 U -> wf 3 3 V -> half_turn_axis (mscale k U) (mscale k V) e <-> half_turn_axis U V e.
Proof.
  intros K WU WV. unfold half_turn_axis. pose proof (wf_half e) as WH. rewrite rotate_scale by auto. split; intros (L & D & E); split; auto; split; auto.
  - apply (mscale_inj k) in E; auto. unfold rotate. repeat apply (wf_mmul 3 3 3); auto; try lia. apply wf_tr'; auto; lia.
  - now rewrite E.
Qed.
Lemma distinct_scale (k : R) (U V : mat R) : 1 <= k -> wf 3 3 U -> wf 3 3 V -> distinct U V -> distinct (mscale k U) (mscale k V).
Proof.
  intros K WU WV (i & j & Hi & Hj & H). exists i, j. split; [exact Hi|]. split; [exact Hj|]. rewrite !(get_mscale 3 3) by auto.
  change (tolerance <= Rabs (k * get U i j - k * get V i j)). rewrite <- Rmult_minus_distr_l, Rabs_mult, (Rabs_pos_eq k) by lra. pose proof (Rabs_pos (get U i j - get V i j)). nra.
Qed.
Lemma dot_sq_scale (k : R) (U : mat R) (v0 v1 : vec R) : wf 3 3 U -> length v0 = 3%nat -> length v1 = 3%nat -> dot v1 (mvmul (mmul (mscale k U) (mscale k U)) v0) = k * k * dot v1 (mvmul (mmul U U) v0).
Proof.
  intros W L0 L1. v3 L0. v3 L1. apply wf3_inv in W. destruct W as (? & ? & ? & ? & ? & ? & ? & ? & ? & ->). mat_unfold_goal. ring.
Qed.
Lemma clear_scale (k : R) (U V : mat R) : 1 <= k -> positive_definite U -> wf 3 3 V -> clear_pair U V -> clear_pair (mscale k U) (mscale k V).
Proof.
  intros K PU WV C l v0 v1 Hl L0 L1 N0 N1 E0 E1. rewrite twin_scale in E0, E1 by (auto; lra). rewrite dot_sq_scale by (auto; apply PU).
  destruct (C l v0 v1 Hl L0 L1 N0 N1 E0 E1) as [Z|Z]; [left; rewrite Z; ring|right]. rewrite Rabs_mult, (Rabs_pos_eq (k * k)) by nra.
  pose proof (Rabs_pos (dot v1 (mvmul (mmul U U) v0))) as A. assert (KK : 1 <= k * k) by nra. revert Z A KK. generalize (Rabs (dot v1 (mvmul (mmul U U) v0))) (k * k). intros a q Z A KK. apply Rle_trans with a; [exact Z|]. nra.
Qed.
Lemma length_scale (k : R) (M : mat R) (e : vec R) : wf 3 3 M -> length e = 3%nat -> dot (mvmul (mscale k M) e) (mvmul (mscale k M) e) = k * k * dot (mvmul M e) (mvmul M e).
Proof. intros W L. v3 L. apply wf3_inv in W. destruct W as (? & ? & ? & ? & ? & ? & ? & ? & ? & ->). mat_unfold_goal. ring. Qed.

(** Both variants expanded by k: the same twin and the same two-fold axes; X_I is divided by k and X_II multiplied by k.
    Missing: pairs whose middle eigenvalue is only near one and pairs that are not clear (see C40); for k < 1 the expanded pair must
    still be distinct and clear (see C129_refuted). *)
Theorem C129_scaled_partial : forall eig npnew npnew' skip skip' k U V h h' p p' l1 l3,
  0 < k -> positive_definite U -> positive_definite V -> is_eig (twin_matrix U V) (eig (twin_matrix U V)) ->
  variants U V -> distinct U V -> distinct (mscale k U) (mscale k V) -> eigenvalues (twin_matrix U V) l1 1 l3 ->
  clear_pair U V -> clear_pair (mscale k U) (mscale k V) ->
  pair_after eig npnew skip U V h p -> pair_after eig npnew' skip' (mscale k U) (mscale k V) h' p' ->
  istwinnable p = true /\ istwinnable p' = true /\
  fst (iscompound p') = fst (iscompound p) /\ fst (istypeI p') = fst (istypeI p) /\ fst (istypeII p') = fst (istypeII p) /\
  (exists l l', fst (ax p) = Ok l /\ fst (ax p') = Ok l' /\ same_lines l l') /\
  fst (XI p') = rmap (fun x => x / k) (fst (XI p)) /\ fst (XII p') = rmap (fun y => k * y) (fst (XII p)).
Proof.
  intros eig npnew npnew' skip skip' k U V h h' p p' l1 l3 K PU PV E1 VR D D' EV CL CL' PA PA'.
  pose proof (posdef_scale k U K PU) as PU'. pose proof (posdef_scale k V K PV) as PV'. assert (K0 : k <> 0) by lra.
  assert (WU : wf 3 3 U) by apply PU. assert (WV : wf 3 3 V) by apply PV. assert (ET : twin_matrix (mscale k U) (mscale k V) = twin_matrix U V) by now apply twin_scale.
  assert (VR' : variants (mscale k U) (mscale k V)) by now apply variants_scale.
  assert (E2 : is_eig (twin_matrix (mscale k U) (mscale k V)) (eig (twin_matrix (mscale k U) (mscale k V)))) by now rewrite ET.
  assert (EV' : eigenvalues (twin_matrix (mscale k U) (mscale k V)) l1 1 l3) by now rewrite ET.
  assert (TW : forall U V eig npnew skip h p, positive_definite U -> positive_definite V -> is_eig (twin_matrix U V) (eig (twin_matrix U V)) -> variants U V -> distinct U V ->
     eigenvalues (twin_matrix U V) l1 1 l3 -> pair_after eig npnew skip U V h p -> istwinnable p = true).
  { clear. intros U V eig npnew skip h p PU PV E VR D EV PA.
    destruct (ax_after _ _ _ _ _ _ _ _ _ PU PV E VR D EV PA) as (v0 & v1 & v2 & p0 & N & F & I & U1 & U2 & T & _). rewrite (istwinnable_stable _ _ _ _ I). exact T. }
  split; [now apply (TW U V eig npnew skip h)|]. split; [now apply (TW (mscale k U) (mscale k V) eig npnew' skip' h')|]. clear TW.
  destruct (C86_classification_partial _ _ _ _ _ _ _ _ _ PU PV E1 VR D EV CL PA) as (b & B1 & B2 & B3 & B4 & B5).
  destruct (C86_classification_partial _ _ _ _ _ _ _ _ _ PU' PV' E2 VR' D' EV' CL' PA') as (b' & B1' & B2' & B3' & B4' & B5').
  assert (Eb : b' = b).
  { apply Bool.eq_true_iff_eq. rewrite B4, B4'. split; intros (e & e' & H1 & H2 & Z); exists e, e'.
    - split; [exact (proj1 (axis_scale k U V e K0 WU WV) H1)|]. split; [exact (proj1 (axis_scale k U V e' K0 WU WV) H2)|exact Z].
    - split; [exact (proj2 (axis_scale k U V e K0 WU WV) H1)|]. split; [exact (proj2 (axis_scale k U V e' K0 WU WV) H2)|exact Z]. }
  subst b'. rewrite B1, B1', B2, B2', B3, B3'. do 3 (split; [reflexivity|]). split.
  - destruct (C40_axes_partial eig npnew skip U V h p l1 l3 PU PV E1 VR D EV CL PA) as (l & A & G & C).
    destruct (C40_axes_partial eig npnew' skip' _ _ h' p' l1 l3 PU' PV' E2 VR' D' EV' CL' PA') as (l' & A' & G' & C').
    exists l, l'. split; [exact A|]. split; [exact A'|]. split.
    + intros e He. pose proof (proj2 (axis_scale k U V e K0 WU WV) (G e He)) as X. destruct (C' e X) as (x & s & Hx & Hs & ->). exists x. split; [exact Hx|].
      destruct (G' x Hx) as (Lx & _). apply parallel_sym; [exact Lx|]. now apply scale_pm.
    + intros e He. pose proof (proj1 (axis_scale k U V e K0 WU WV) (G' e He)) as X. destruct (C e X) as (x & s & Hx & Hs & ->). exists x. split; [exact Hx|].
      destruct (G x Hx) as (Lx & _). now apply scale_pm.
  - destruct (C87_lengths_partial _ _ _ _ _ _ _ _ _ PU PV E1 VR D EV CL PA) as (X1 & X2).
    destruct (C87_lengths_partial _ _ _ _ _ _ _ _ _ PU' PV' E2 VR' D' EV' CL' PA') as (X1' & X2').
    destruct b.
    + destruct (X1 B1) as [-> ->]. destruct (X1' B1') as [-> ->]. auto.
    + destruct (proj1 B5 eq_refl) as (e & He & _). assert (He' := proj2 (axis_scale k U V e K0 WU WV) He).
      destruct (X2 B1 e He) as (x & y & -> & -> & Px & Py & Ex & Ey). destruct (X2' B1' _ He') as (x' & y' & -> & -> & Px' & Py' & Ex' & Ey').
      assert (DU : det U <> 0) by (apply Rgt_not_eq, posdef_det, PU). assert (WI : wf 3 3 (minv U)) by (apply wf_minv; [now right|exact WU]).
      destruct He as (Le & _). rewrite (minv_scale 3) in Ex' by (auto; now right). rewrite length_scale in Ex', Ey' by assumption. rewrite <- Ex in Ex'. rewrite <- Ey in Ey'.
      pose proof (Rinv_0_lt_compat k K) as IK. cbn [rmap]. split; f_equal; apply Rsqr_inj; unfold Rsqr, Rdiv; try (left; assumption); try (left; apply Rmult_lt_0_compat; assumption); [rewrite Ex'|rewrite Ey']; ring.
Qed.
Print Assumptions C129_scaled_partial.

(** For an expansion (k at least one) nothing is asked of the expanded pair. *)
Theorem C129_expanded_partial : forall eig npnew npnew' skip skip' k U V h h' p p' l1 l3,
  1 <= k -> positive_definite U -> positive_definite V -> is_eig (twin_matrix U V) (eig (twin_matrix U V)) ->
  variants U V -> distinct U V -> eigenvalues (twin_matrix U V) l1 1 l3 -> clear_pair U V ->
  pair_after eig npnew skip U V h p -> pair_after eig npnew' skip' (mscale k U) (mscale k V) h' p' ->
  istwinnable p = true /\ istwinnable p' = true /\
  fst (iscompound p') = fst (iscompound p) /\ fst (istypeI p') = fst (istypeI p) /\ fst (istypeII p') = fst (istypeII p) /\
  (exists l l', fst (ax p) = Ok l /\ fst (ax p') = Ok l' /\ same_lines l l') /\
  fst (XI p') = rmap (fun x => x / k) (fst (XI p)) /\ fst (XII p') = rmap (fun y => k * y) (fst (XII p)).
Proof.
  intros eig npnew npnew' skip skip' k U V h h' p p' l1 l3 K PU PV E1 VR D EV CL PA PA'.
  eapply (C129_scaled_partial eig npnew npnew' skip skip' k U V h h'); eauto; [lra|apply distinct_scale; auto; [apply PU|apply PV]|apply clear_scale; auto; apply PV].
Qed.
Print Assumptions C129_expanded_partial.

(** Two clearly different variants, twinned, are no longer twinned when both are divided by 10^13. *)
Theorem C129_refuted : exists k U V eig p p' l1 l3, 0 < k /\ positive_definite U /\ positive_definite V /\ variants U V /\
  eigenvalues (twin_matrix U V) l1 1 l3 /\ is_eig (twin_matrix U V) (eig (twin_matrix U V)) /\
  new_pair eig true U V = Ok p /\ new_pair eig true (mscale k U) (mscale k V) = Ok p' /\ istwinnable p = true /\ istwinnable p' = false.
Proof.
  set (U := diag [2; 1; 1]). set (V := diag [1; 2; 1]). set (k := 1 / 10 ^ 13). assert (K : 0 < k) by (unfold k; lra).
  assert (PU : positive_definite U) by (apply posdef_diag; lra). assert (PV : positive_definite V) by (apply posdef_diag; lra).
  destruct (eig_for_pairs [U; V]) as (eig & E); [intros X [<-|[<-|[]]]; assumption|].
  assert (E1 : is_eig (twin_matrix U V) (eig (twin_matrix U V))) by (apply E; cbn; auto).
  assert (EV : eigenvalues (twin_matrix U V) (1/4) 1 4).
  { unfold U, V. rewrite twin_diag by lra. apply eigenvalues_of_diag; [|lra|lra]. replace (1 / 1 * (1 / 1)) with 1 by field. replace (1 / 2 * (1 / 2)) with (1/4) by field. replace (2 / 1 * (2 / 1)) with 4 by field. apply perm_skip, perm_swap. }
  assert (ET : twin_matrix (mscale k U) (mscale k V) = twin_matrix U V) by (apply twin_scale; [lra|exact PU|apply PV]).
  destruct (new_pair_ok eig U V _ _ _ PU E1 EV) as (v0 & v1 & v2 & p & _ & N1 & U1 & V1 & Ee1 & _).
  assert (PU' := posdef_scale k U K PU). assert (PV' := posdef_scale k V K PV).
  assert (EV' : eigenvalues (twin_matrix (mscale k U) (mscale k V)) (1/4) 1 4) by now rewrite ET.
  destruct (new_pair_ok eig (mscale k U) (mscale k V) (1/4) 1 4 PU') as (w0 & w1 & w2 & p' & _ & N3 & U3 & V3 & Ee3 & _); [now rewrite ET|exact EV'|].
  exists k, U, V, eig, p, p', (1/4), 4. do 3 (split; [assumption|]). split.
  { exists (M3 0 1 0 1 0 0 0 0 1). split; [split; [now apply wfb_spec|unfold M3; mat_eq ltac:(lra)]|]. unfold U, V, rotate, M3. mat_eq ltac:(lra). }
  do 4 (split; [assumption|]). split.
  - unfold istwinnable. rewrite U1, V1, Ee1. apply twinnable_spec; [apply PU|apply PV|exact EV|]. split.
    + exists 0%nat, 0%nat. split; [lia|]. split; [lia|]. unfold U, V. replace (get _ 0 0 - get _ 0 0) with 1 by (mat_unfold_goal; ring). rewrite Rabs_pos_eq by lra. unfold tolerance. lra.
    + exists (1/4), 1, 4. split; [exact EV|]. rewrite Rminus_diag_eq, Rabs_R0 by reflexivity. lra.
  - unfold istwinnable. rewrite U3, V3, Ee3. destruct (twinnable _ _ _) eqn:T; [|reflexivity]. exfalso. apply twinnable_spec in T; [|apply PU'|apply PV'|exact EV'].
    destruct T as ((i & j & Hi & Hj & H) & _). revert H. apply Rlt_not_le. unfold U, V. rewrite !(get_mscale 3 3) by (auto; now apply wfb_spec). unfold k, tolerance.
    destruct i as [|[|[|i]]], j as [|[|[|j]]]; try lia; mat_unfold_goal; apply Rabs_def1; lra.
Qed.
Print Assumptions C129_refuted.

Example C129_case : exists eig U V p p', positive_definite U /\ positive_definite V /\ is_eig (twin_matrix U V) (eig (twin_matrix U V)) /\
  variants U V /\ distinct U V /\ eigenvalues (twin_matrix U V) (1/4) 1 4 /\ clear_pair U V /\
  pair_after eig false true U V [PAx; PCompound] p /\ pair_after eig false true (mscale 2 U) (mscale 2 V) [PXI] p' /\ fst (iscompound p) = Ok false.
Proof.
  destruct C87_case as (U & V & p & PU & PV & E4 & VR & D & EV & CL & PA & CF).
  assert (ET : twin_matrix (mscale 2 U) (mscale 2 V) = twin_matrix U V) by (apply twin_scale; [lra|exact PU|apply PV]).
  destruct (new_pair_ok eig4 (mscale 2 U) (mscale 2 V) (1/4) 1 4) as (_ & _ & _ & p' & _ & N & _); [apply posdef_scale; [lra|exact PU]|now rewrite ET|now rewrite ET|].
  exists eig4, U, V, p, (pair_run eig4 false [PXI] p'). repeat (split; [assumption|]). split; [exists p'; auto|exact CF].
Qed.
