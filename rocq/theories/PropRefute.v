(** Where properties C27, C79 and C87 fail: the models are MartModel.v, LatCorModel.v and TwinModel.v. *)
From Verif Require Import LinAlg RMat GroupModel GroupSpec GroupProofs LatticeModel LatticeSpec LatticeProofs LatticeLaue LatticeComplete MartModel MartSpec MartProofs PropMart.
Local Open Scope R_scope.

(** * C27 *)
(** A stretch that is tetragonal by less than the comparison tolerance: an image of U is missing from the variants. *)
Definition Utiny : mat R := Dg 1 1 (1 + 1 / 1000000000).
Lemma Utiny_base : base 3 Utiny.
Proof. split; [now right|]. split; [now apply wfb_spec|]. unfold Utiny, Dg, M3. rewrite det3. cbn. lra. Qed.
Lemma Utiny_table Q : In Q CUBIC_LAUE_GROUP -> inpointgroup Utiny (IntArr Q) = Ok true.
Proof.
  intros HQ. assert (WQ : wf 3 3 Q) by (apply cubic_iff in HQ; apply HQ).
  rewrite (inpoint_red 3 _ Utiny_base) by (apply cubic_iff in HQ; apply HQ). cbn [values].
  pose (t := 1 + 1 / 1000000000). assert (T : t <> 0) by (unfold t; lra).
  pose (f := fun i j => IZR (get Q i j)).
  pose (A := M3 (f 0%nat 0%nat) (f 0%nat 1%nat) (f 0%nat 2%nat * t) (f 1%nat 0%nat) (f 1%nat 1%nat) (f 1%nat 2%nat * t) (f 2%nat 0%nat / t) (f 2%nat 1%nat / t) (f 2%nat 2%nat)).
  assert (WA : wf 3 3 A) by now apply wfb_spec.
  apply (lat_eq_true 3 _ Utiny_base _ A Q WA WQ).
  - destruct (wf3_inv Q WQ) as (a & b & c & d & e & g & h & i & j & EQ). unfold A, f, Utiny, Dg. fold t. rewrite EQ. meq ltac:(field; auto).
  - assert (D : 1 - 2 / 1000000000 <= 1 / t <= 1).
    { split; [apply Rmult_le_reg_r with t|apply Rmult_le_reg_r with t]; try (unfold t; lra); unfold Rdiv; rewrite Rmult_1_l, Rinv_l by exact T; unfold t; lra. }
    assert (E : forall z : Z, (z = 0 \/ z = 1 \/ z = -1)%Z ->
      (Rabs (IZR z - IZR z) < 1/2 /\ Rabs (IZR z - IZR z) <= 1 / 100000000 + 1 / 100000 * Rabs (IZR z)) /\
      (Rabs (IZR z * t - IZR z) < 1/2 /\ Rabs (IZR z * t - IZR z) <= 1 / 100000000 + 1 / 100000 * Rabs (IZR z)) /\
      (Rabs (IZR z / t - IZR z) < 1/2 /\ Rabs (IZR z / t - IZR z) <= 1 / 100000000 + 1 / 100000 * Rabs (IZR z))).
    { intros z Hz. replace (IZR z / t) with (IZR z * (1 / t)) by (unfold Rdiv; ring). revert D. generalize (1 / t). intros u Hu. unfold t.
      destruct Hz as [->|[->| ->]]; rabs; lra. }
    assert (Z : forall i j, (i < 3)%nat -> (j < 3)%nat -> (get Q i j = 0 \/ get Q i j = 1 \/ get Q i j = -1)%Z).
    { clear -HQ. assert (K : forallb (fun Q => forallb (fun r => forallb (fun z => (z =? 0) || (z =? 1) || (z =? -1))%Z r) Q) CUBIC_LAUE_GROUP = true) by reflexivity.
      pose proof (proj1 (forallb_forall _ _) K Q HQ) as KQ. assert (WQ : wf 3 3 Q) by (apply cubic_iff in HQ; apply HQ).
      intros i j Hi Hj. pose proof (proj1 (forallb_forall _ _) KQ (nth i Q [])) as K1. destruct WQ as [L W].
      pose proof (proj1 (forallb_forall _ _) (K1 ltac:(apply nth_In; lia)) (nth j (nth i Q []) 0%Z)) as K2.
      assert (Hr : length (nth i Q []) = 3%nat) by (apply W, nth_In; lia). specialize (K2 ltac:(apply nth_In; lia)).
      unfold get. rewrite !Bool.orb_true_iff, !Z.eqb_eq in K2. change (@zero Z _) with 0%Z. tauto. }
    pose proof (fun i j Hi Hj => E _ (Z i j Hi Hj)) as F.
    apply PropMart.lt3; [exact (proj1 (F 0 0 ltac:(lia) ltac:(lia)))%nat|exact (proj1 (F 0 1 ltac:(lia) ltac:(lia)))%nat|exact (proj1 (proj2 (F 0 2 ltac:(lia) ltac:(lia))))%nat
      |exact (proj1 (F 1 0 ltac:(lia) ltac:(lia)))%nat|exact (proj1 (F 1 1 ltac:(lia) ltac:(lia)))%nat|exact (proj1 (proj2 (F 1 2 ltac:(lia) ltac:(lia))))%nat
      |exact (proj2 (proj2 (F 2 0 ltac:(lia) ltac:(lia))))%nat|exact (proj2 (proj2 (F 2 1 ltac:(lia) ltac:(lia))))%nat|exact (proj1 (F 2 2 ltac:(lia) ltac:(lia)))%nat].
Qed.
Lemma Utiny_Laue : Laue_group Utiny = Ok (map RZ CUBIC_LAUE_GROUP).
Proof.
  unfold Laue_group. change (length Utiny) with 3%nat. unfold pick_group, cubic_arr. rewrite (keep_filter Utiny (fun _ => true)) by exact Utiny_table.
  rewrite filter_true. cbn [bind]. rewrite map_length. change (length CUBIC_LAUE_GROUP) with 24%nat. reflexivity.
Qed.
Definition Mtiny : mart := new_mart (Some Utiny) None.
Lemma Mtiny_reversible : isreversible Mtiny = Ok true.
Proof.
  unfold isreversible. cbn [getU m_U Mtiny new_mart bind]. rewrite (new_lattice_base _ Utiny_base). cbn [bind].
  rewrite Utiny_Laue. cbn [bind].
  change (getLaue Mtiny) with (map RZ CUBIC_LAUE_GROUP). rewrite Nat.leb_refl. apply hassubgroup_refl.
Qed.
Theorem C27_missing_image_refuted : exists m U Us m' Q, reachable m /\ m_U m = Some U /\ positive_definite U /\ rotation_group (getLaue m) /\
  isreversible m = Ok true /\ getvariants m = Ok (Us, m') /\ In Q (getLaue m) /\ ~ In (rotate Q U) Us.
Proof.
  destruct (C27_tolerance_partial Mtiny Utiny (r_new _ _) eq_refl Mtiny_reversible) as (Us & idx & m' & E & _ & _ & HD & _ & _ & FAR & _).
  exists Mtiny, Utiny, Us, m', (RZ [[1;0;0];[0;0;-1];[0;1;0]]%Z).
  split; [apply r_new|]. split; [reflexivity|]. split; [|split; [|split; [exact Mtiny_reversible|split; [exact E|split]]]].
  - unfold positive_definite. split; [split; [now apply wfb_spec|unfold Utiny, Dg; mat_eq ltac:(reflexivity)]|]. intros x y z K. unfold Utiny, Dg. cbn.
    assert (x * x + y * y + z * z <> 0).
    { intros K2. apply K. assert (x = 0) by nra. assert (y = 0) by nra. assert (z = 0) by nra. congruence. }
    nra.
  - change (getLaue Mtiny) with (map RZ CUBIC_LAUE_GROUP). split; [apply CUBIC_good|]. intros Q HQ. apply CUBIC_good. exact HQ.
  - change (getLaue Mtiny) with (map RZ CUBIC_LAUE_GROUP). apply in_map. cbn. tauto.
  - assert (ER : rotate (RZ [[1;0;0];[0;0;-1];[0;1;0]]%Z) Utiny = Dg 1 (1 + 1 / 1000000000) 1) by (unfold rotate, Utiny, Dg; meq ltac:(lra)).
    rewrite ER. intros K. destruct (In_nth_error _ _ K) as (k & Hk). destruct Us as [|V Us]; [discriminate|]. cbn [hd_error] in HD. injection HD as ->.
    assert (k <> 0%nat). { intros ->. cbn in Hk. assert (Hk2 : get Utiny 1 1 = get (Dg 1 (1 + 1 / 1000000000) 1) 1 1) by congruence. cbn in Hk2. lra. }
    specialize (FAR 0%nat k Utiny _ ltac:(lia) eq_refl Hk). revert FAR. rewrite (proj2 (allclose_spec 2 3 _ _ (proj1 (proj2 Utiny_base)))); [discriminate|].
    apply PropMart.lt3; unfold Utiny, Dg, M3, rtol0, atol0; cbn [get nth]; rabs; lra.
Qed.

(** * C79 *)
From Verif Require Import PropLattice PropBravais.
From Verif Require Import BravaisProofs HnfModel HnfSearchAsync ReduceModel BravaisModel BravaisSpec LLLModel HnfSearchModel HnfSearchConc LatCorModel LatCorProofs LatCorCase.
Lemma LLL_zero3 : LLL [[0;0;0];[0;0;0];[0;0;0]] = Raise NaN.
Proof.
  unfold LLL. change max_rounds with (S 999). cbn [lll_loop]. change (tr [[0;0;0];[0;0;0];[0;0;0]]) with [[0;0;0];[0;0;0];[0;0;0]].
  assert (D : dot [0;0;0] [0;0;0] = 0) by (cbn; lra).
  assert (G : Gauss_reduction [[0;0;0];[0;0;0];[0;0;0]] = Raise NaN).
  { unfold Gauss_reduction, Gram_Schmidt. cbn [gs_outer gs_inner app bind fst snd]. rewrite D. unfold np_div at 1.
    rewrite (proj2 (Reqb_spec _ _)) by reflexivity. reflexivity. }
  rewrite G. reflexivity.
Qed.
Lemma orbit_none D lg h : orbit_hits D lg h [] <> Ok true.
Proof. induction lg as [|g lg IH]; cbn; [discriminate|]. destruct (hnf_H D (ncols (mmul g h)) (mmul g h)); cbn; auto; discriminate. Qed.
(** If the product cell is less than half the size of the parent cell and no sublattice size is within the threshold, the
    call fails, whatever the lattices: the only size tried is 0. *)
Theorem C79_small_product : forall D eig q k f idA pA idM pM A M, q_dim q = 3%Z -> wf 3 3 (b_base A) ->
  new_bravais idA pA 3 = Ok A -> new_bravais idM pM 3 = Ok M ->
  let ratio := det (b_base M) / det (b_base A) in
  0 < ratio < 1/2 -> 0 <= q_vol_th q < 1 -> (1 + q_vol_th q) * ratio < 1 ->
  forall sols, lat_cor D eig q k f idA pA idM pM <> Ok sols.
Proof.
  intros D eig q k f idA pA idM pM A M Q3 WA HA HM ratio Hr Hv Hs sols H. unfold lat_cor in H. rewrite Q3, HA, HM in H. cbn [bind] in H.
  apply bindOk in H. destruct H as (LGA & _ & H). apply bindOk in H. destruct H as (EMr & _ & H). apply bindOk in H. destruct H as (LGM & _ & H).
  apply bindOk in H. destruct H as (r & Hd & H). unfold np_div in Hd. destruct (Reqb _ 0); [discriminate|]. injection Hd as <-. fold ratio in H.
  assert (V : vol_factors ratio (q_vol_th q) = [0%Z]).
  { destruct (vol_factors_spec ratio (q_vol_th q)) as [[[z [H1 H2]] _]|[_ ->]].
    - exfalso. assert (0 < z)%Z by (apply lt_IZR; nra). assert (z < 1)%Z by (apply lt_IZR; lra). lia.
    - f_equal. apply rint_nearest. rewrite Rabs_pos_eq; lra. }
  rewrite V in H. change (Z.to_nat 3) with 3%nat in H. change (all_hnfs [0%Z] 3) with (Ok [[[0;0;0];[0;0;0];[0;0;0]]%Z]) in H. cbn [bind] in H.
  apply bindOk in H. destruct H as (hs & Hh & H). unfold reduce_hnfs in Hh. cbn [Nat.leb reduce_loop] in Hh. apply bindOk in Hh. destruct Hh as (hit & Eo & Hh).
  assert (hit = false) as -> by (destruct hit; [now elim (orbit_none _ _ _ Eo)|reflexivity]). cbn in Hh. injection Hh as <-. clear Eo.
  apply bindOk in H. destruct H as (st & H & _). cbn [search] in H. apply bindOk in H. destruct H as (l & H & _).
  unfold lat_opt in H. apply bindOk in H. destruct H as (lo & H & _). unfold start_point in H.
  assert (E : mmul (b_base A) (RZ [[0;0;0];[0;0;0];[0;0;0]]%Z) = [[0;0;0];[0;0;0];[0;0;0]]).
  { destruct (wf3_inv _ WA) as (a&b&c&d&e&g&h&i&j&->). cbn. repeat f_equal; ring. }
  rewrite E, LLL_zero3 in H. discriminate.
Qed.
Print Assumptions C27_missing_image_refuted.
Print Assumptions C79_small_product.

(** The default request on the cubic lattice with edge 1 and the tetragonal lattice with edges 1 and 2/5. *)
Lemma tet25 : bravais_type 3 6 = Some (Tetragonal, P) /\ admissible Tetragonal [1; 2/5] (mk_cell 1 1 (2/5) 90 90 90).
Proof.
  split; [reflexivity|]. split; [reflexivity|]. split; [cbn; intros x Hx; intuition lra|]. unfold volume_factor. cbn. rewrite cosd90. lra.
Qed.
Lemma tet25_base : exists M, new_bravais 6 [1; 2/5] 3 = Ok M /\ b_base M = Etet (2/5).
Proof.
  destruct tet25 as (T2 & A2). destruct (C17_conventional_cell 3 6 _ _ _ _ T2 A2) as (b & H & _). exists b. split; [exact H|]. revert H. unfold new_bravais.
  destruct (existsb _ _); [discriminate|]. cbn [Z.eqb Pos.eqb]. cbn -[inv new_lattice].
  intros H. apply bindOk in H. destruct H as (EC & HC & H). injection HC as <-. cbn [fst snd] in H. apply bindOk in H. destruct H as (C & _ & H).
  change (cols3 _ _ _) with (Etet (2/5)) in H. rewrite (new_lattice_ok 3 (Etet (2/5))) in H; [|apply base3; lra|apply wfM3|apply base3; lra].
  cbn [bind] in H. injection H as <-. reflexivity.
Qed.
Theorem C79_refuted : bravais_type 3 1 = Some (Cubic, P) /\ admissible Cubic [1] (mk_cell 1 1 1 90 90 90) /\
  bravais_type 3 6 = Some (Tetragonal, P) /\ admissible Tetragonal [1; 2/5] (mk_cell 1 1 (2/5) 90 90 90) /\
  forall D eig k f sols, lat_cor D eig default_request k f 1 [1] 6 [1; 2/5] <> Ok sols.
Proof.
  destruct case_admissible as (T1 & A1 & _ & _). destruct tet25 as (T2 & A2). repeat (split; [assumption|]).
  destruct case_bases as ((A & HA & EA) & _). destruct tet25_base as (M & HM & EM). intros D eig k f.
  apply (C79_small_product D eig default_request k f 1 [1] 6 [1; 2/5] A M eq_refl); auto; rewrite ?EA, ?EM, ?det_Etet; cbn [default_request q_vol_th]; try lra.
  apply wfM3.
Qed.
Print Assumptions C79_refuted.

(** * C87 *)
From Verif Require Import TwinModel TwinSpec PropTwin PropTwin2 PropTwin3 TwinMono PropTwin6.
(** A pair with a single two-fold axis for which XI and XII fail, because it is reported as compound. *)
Theorem C87_refuted : exists U V p, positive_definite U /\ positive_definite V /\ variants U V /\ distinct U V /\
  new_pair eig4 true U V = Ok p /\ fst (XI p) = Raise AttributeError /\ fst (XII p) = Raise AttributeError /\
  exists e, half_turn_axis U V e /\ forall e', half_turn_axis U V e' -> parallel e e'.
Proof.
  destruct C86_refuted as (U & V & p & PU & PV & VR & D & _ & _ & N & IC & _ & AX). exists U, V, p.
  repeat (split; [assumption|]).
  split; [|split; [|exact AX]]; unfold XI, XII, bindS; destruct (iscompound p) as [r q]; cbn [fst] in IC; subst r; reflexivity.
Qed.
Print Assumptions C87_refuted.
