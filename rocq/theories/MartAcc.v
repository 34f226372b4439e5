(** Rotating a stretch by a rotation of the cube rotates the cubic symmetry of its lattice (C105). *)
From Verif Require Import RMat LinAlg ReduceProofs GroupSpec GroupModel GroupProofs LatticeModel LatticeSpec LatticeProofs LatticeGroups LatticeLaue MartModel MartSpec MartConj.
Local Open Scope R_scope.

Definition acc (U : mat R) (P : mat Z) : bool := match inpointgroup U (IntArr P) with Ok b => b | _ => false end.
Lemma m3 (X Y : mat R) : wf 3 3 X -> wf 3 3 Y -> wf 3 3 (mmul X Y).
Proof. intros. apply (wf_mmul 3 3 3); auto; lia. Qed.
Lemma cubic_wf q : In q CUBIC_LAUE_GROUP -> wf 3 3 q /\ orthogonal 3 q.
Proof. intros H. apply cubic_iff in H. split; apply H. Qed.
Definition cj (q P : mat Z) : mat Z := mmul (mmul q P) (tr q).
Lemma RZ_cj q P : wf 3 3 q -> wf 3 3 P -> RZ (cj q P) = rotate (RZ q) (RZ P).
Proof. intros. unfold cj, rotate. now rewrite !RZ_mmul, RZ_tr. Qed.
Lemma cubic_cj q P : In q CUBIC_LAUE_GROUP -> In P CUBIC_LAUE_GROUP -> In (cj q P) CUBIC_LAUE_GROUP.
Proof.
  intros Hq HP. assert (K : forallb (fun q => forallb (fun P => mem_mat (cj q P) CUBIC_LAUE_GROUP) CUBIC_LAUE_GROUP) CUBIC_LAUE_GROUP = true) by (vm_compute; reflexivity).
  rewrite forallb_forall in K. specialize (K q Hq). rewrite forallb_forall in K. specialize (K P HP). now apply mem_mat_In.
Qed.
Lemma rotate_base U q : base 3 U -> In q CUBIC_LAUE_GROUP -> base 3 (rotate (RZ q) U).
Proof.
  intros (_ & WU & DU) Hq. destruct (cubic_wf q Hq) as [Wq Oq]. pose proof (wf_RZ 3 3 q Wq) as Wr. assert (Wt : wf 3 3 (tr (RZ q))) by (apply wf_tr'; auto; lia).
  split; [now right|]. unfold rotate. split; [auto using m3|]. rewrite !(det_mmul 3), (det_tr 3) by (auto using m3; now right).
  assert (K : det (RZ q) <> 0). { rewrite <- RZ_det. apply not_0_IZR. apply cubic_iff in Hq. destruct Hq as (_ & ->). lia. }
  repeat apply Rmult_integral_contrapositive_currified; auto.
Qed.
Lemma acc_conj U q P : base 3 U -> In q CUBIC_LAUE_GROUP -> In P CUBIC_LAUE_GROUP -> acc U P = true -> acc (rotate (RZ q) U) (cj q P) = true.
Proof.
  intros B Hq HP. pose proof (rotate_base U q B Hq) as BV. destruct (cubic_wf q Hq) as [Wq Oq]. destruct (cubic_wf P HP) as [WP OP]. destruct (cubic_wf _ (cubic_cj q P Hq HP)) as [Wc Oc].
  pose proof (proj1 (proj2 B)) as WU. pose proof (wf_RZ 3 3 q Wq) as Wr. pose proof (wf_RZ 3 3 P WP) as WR. assert (Wt : wf 3 3 (tr (RZ q))) by (apply wf_tr'; auto; lia).
  unfold acc. rewrite (inpoint_red 3 U B (IntArr P) OP), (inpoint_red 3 _ BV (IntArr (cj q P)) Oc). cbn [values]. rewrite RZ_cj by auto.
  set (V := rotate (RZ q) U) in *. pose proof (proj1 (proj2 BV)) as WV. intros H.
  assert (H1 : lat_eq U (mmul (RZ P) U) = Ok true) by (destruct (lat_eq U (mmul (RZ P) U)) as [[|]| |]; congruence || discriminate). clear H.
  apply (lat_eq_near 3 U B) in H1; [|auto using m3]. set (A := mmul (minv U) (mmul (RZ P) U)) in *.
  assert (WA : wf 3 3 A) by (unfold A; apply m3; [apply (wf_minv 3); auto; now right|auto using m3]).
  assert (EA : mmul (RZ P) U = mmul U A) by (apply (solve_left 3 U B A); auto using m3).
  assert (NA : near A). { intros i j Hi Hj. specialize (H1 i j Hi Hj). unfold rintm in H1. rewrite (get_mmap rint rint_0) in H1. exact H1. }
  pose proof (near_rotate q A Hq WA NA) as NR.
  assert (TT : mmul (tr (RZ q)) (RZ q) = eye 3). { apply (orth_l 3); [now right|]. exact (orth_arr_values 3 (IntArr q) Oq). }
  assert (EV : mmul (rotate (RZ q) (RZ P)) V = mmul V (rotate (RZ q) A)).
  { unfold V, rotate. set (Q := RZ q) in *. set (T := tr Q) in *.
    assert (S1 : forall X, wf 3 3 X -> mmul T (mmul Q X) = X) by (intros X WX; rewrite <- (mmul_assoc 3 3 3 3), TT, (mmul_eye_l 3 3) by (auto; lia); reflexivity).
    rewrite !(mmul_assoc 3 3 3 3) by (auto using m3; lia). rewrite !S1 by auto using m3. f_equal. rewrite <- !(mmul_assoc 3 3 3 3) by (auto using m3; lia). now rewrite EA. }
  assert (HT : lat_eq V (mmul (rotate (RZ q) (RZ P)) V) = Ok true).
  { assert (Wp : wf 3 3 (rotate (RZ q) (RZ P))) by (unfold rotate; auto using m3). assert (Wa : wf 3 3 (rotate (RZ q) A)) by (unfold rotate; auto using m3).
    apply (lat_eq_near 3 V BV); [auto using m3|]. rewrite (proj1 (solve_left 3 V BV (rotate (RZ q) A) _ (m3 _ _ Wp WV) Wa) EV).
    intros i j Hi Hj. unfold rintm. rewrite (get_mmap rint rint_0). exact (NR i j Hi Hj). }
  now rewrite HT.
Qed.
