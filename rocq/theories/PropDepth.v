(** Property C100: the options miniter and maxiter of lat_opt.  Specification: TreeSpec.v (neighbour, local_min), DepthSpec.v (within,
    documented_depth), LatCorSpec.v (has_distance); model: TreeModel.v, LatCorModel.v. *)
From Verif Require Import LinAlg Spectral GroupProofs LatticeModel LatticeSpec BravaisSpec LLLModel TreeSpec TreeLatOpt LatCorModel LatCorSpec LatCorProofs LatCorDist LatCorTotal
  LatCorCase DepthSpec DepthProofs DirectProofs PropOutput PropLattice.
Local Open Scope R_scope.

(** Every solution lat_opt returns is at most max(miniter, maxiter) shears away from a matrix no shear improves, where miniter is 3
    unless given and maxiter, unless given, is 3 for one or two solutions, 4 for up to nine and 5 for more. *)
Theorem C100_depth : forall eigvals o k fuel E1 E2 f sols, wf 3 3 E1 -> distance_fn eigvals (o_dist o) E1 E2 = Ok (Some f) ->
  lat_opt eigvals o k fuel E1 E2 = Ok sols ->
  let lower := match o_miniter o with Some n => n | None => 3%nat end in
  let upper := match o_maxiter o with Some n => n
               | None => if (o_nsol o <? 3)%nat then 3%nat else if (o_nsol o <? 10)%nat then 4%nat else 5%nat end in
  forall l d, In (l, d) sols -> exists m, SL3 m /\ local_min f m /\ within m (max lower upper) l.
Proof.
  intros eigvals o k fuel E1 E2 f sols W HD H lower upper l d HI. unfold lat_opt in H. cbv zeta in H.
  apply bindOk in H. destruct H as (lo & HS & H). rewrite HD in H. cbn [bind] in H. destruct (start_ok E1 lo W HS) as [_ [Wlo Dlo]].
  apply bindOk in H. destruct H as (L1 & _ & H). apply bindOk in H. destruct H as (LG1 & _ & H). apply bindOk in H. destruct H as (LG2 & _ & H).
  destruct W as [EL _]. rewrite EL in H. pose proof (lat_opt_depth f LG1 LG2 _ _ _ lo Wlo k fuel sols H) as K. unfold oks in K. rewrite Forall_forall in K.
  destruct (K (l, d) HI) as (m & (P & [WP DP] & ->) & LM & WI). exists (mmul lo P). split; [|split; [exact LM|exact WI]].
  split; [now apply wfz3|]. rewrite (det_mmul_Z 3) by (auto; now right). now rewrite Dlo, DP.
Qed.
Print Assumptions C100_depth.

(** So a given maxiter that is not below miniter is the maximum depth. *)
Theorem C100_maximum_partial : forall eigvals o k fuel E1 E2 f sols n, wf 3 3 E1 -> distance_fn eigvals (o_dist o) E1 E2 = Ok (Some f) ->
  o_maxiter o = Some n -> (match o_miniter o with Some j => j | None => 3 end <= n)%nat ->
  lat_opt eigvals o k fuel E1 E2 = Ok sols -> forall l d, In (l, d) sols -> exists m, SL3 m /\ local_min f m /\ within m n l.
Proof.
  intros eigvals o k fuel E1 E2 f sols n W HD HM Hn H l d HI. destruct (C100_depth eigvals o k fuel E1 E2 f sols W HD H l d HI) as (m & A & B & C).
  exists m. split; [exact A|]. split; [exact B|]. rewrite HM in C. destruct (o_miniter o); rewrite Nat.max_r in C; auto.
Qed.
Print Assumptions C100_maximum_partial.

(** Every maxiter below miniter is ignored: the outcome is that of maxiter = miniter, for all lattices. *)
Theorem C100_small_maxiter_refuted : forall eigvals nsol name mi G2 k fuel E1 E2 n, let j := match mi with Some j => j | None => 3%nat end in (n < j)%nat ->
  lat_opt eigvals {| o_nsol := nsol; o_dist := name; o_maxiter := Some n; o_miniter := mi; o_SOLG2 := G2 |} k fuel E1 E2 =
  lat_opt eigvals {| o_nsol := nsol; o_dist := name; o_maxiter := Some j; o_miniter := mi; o_SOLG2 := G2 |} k fuel E1 E2.
Proof.
  intros eigvals nsol name mi G2 k fuel E1 E2 n j Hn. unfold lat_opt. cbn [o_nsol o_dist o_maxiter o_miniter o_SOLG2].
  destruct (start_point E1) as [lo| |]; cbn [bind]; try reflexivity. destruct (distance_fn eigvals name E1 E2) as [[f|]| |]; cbn [bind]; try reflexivity.
  destruct (new_lattice E1) as [L1| |]; cbn [bind]; try reflexivity. destruct (special_lattice_group L1) as [LG1| |]; cbn [bind]; try reflexivity.
  destruct (match G2 with Some g => Ok g | None => let* L2 := new_lattice E2 in special_lattice_group L2 end) as [LG2| |]; cbn [bind]; try reflexivity.
  fold j. apply small_maxiter; lia.
Qed.
Print Assumptions C100_small_maxiter_refuted.

(** Leaving the options out is the same as giving these values. *)
Theorem C100_defaults_partial : forall eigvals nsol name G2 k fuel E1 E2,
  lat_opt eigvals {| o_nsol := nsol; o_dist := name; o_maxiter := None; o_miniter := None; o_SOLG2 := G2 |} k fuel E1 E2 =
  lat_opt eigvals {| o_nsol := nsol; o_dist := name; o_miniter := Some 3%nat; o_SOLG2 := G2;
    o_maxiter := Some (if (nsol <? 3)%nat then documented_depth else if (nsol <? 10)%nat then 4%nat else 5%nat) |} k fuel E1 E2.
Proof. intros. unfold lat_opt, maxiter_by_nsol, documented_depth. reflexivity. Qed.
Print Assumptions C100_defaults_partial.

(** The cubic lattice against the tetragonal one with maxiter = 4: the run ends. *)
Example C100_case : forall eig, eig_correct 3 eig -> exists LG k f sols df,
  distance_fn (fun C => fst (eig C)) Cauchy (Etet 1) (Etet (21/20)) = Ok (Some df) /\
  lat_opt (fun C => fst (eig C)) {| o_nsol := 2; o_dist := Cauchy; o_maxiter := Some 4%nat; o_miniter := None; o_SOLG2 := Some LG |} k f (Etet 1) (Etet (21/20)) = Ok sols.
Proof.
  intros eig He. assert (B1 : base 3 (Etet 1)) by (apply base3; lra). assert (BM : base 3 (Etet (21/20))) by (apply base3; lra).
  destruct (group_of _ BM (resolved_tet (21/20) (or_intror eq_refl))) as (LG & _).
  destruct (distance_exists eig Cauchy (Etet 1) (Etet (21/20)) (proj1 (proj2 B1)) BM He ltac:(discriminate)) as (w & df & _ & Hdf & _).
  destruct (lat_opt_runs eig {| o_nsol := 2; o_dist := Cauchy; o_maxiter := Some 4%nat; o_miniter := None; o_SOLG2 := Some LG |} (Etet 1) (Etet (21/20)) LG (eye 3)
    B1 BM He ltac:(discriminate) eq_refl LLL_eye) as (k & f & sols & Run).
  exists LG, k, f, sols, df. split; [exact Hdf|]. apply Run; lia.
Qed.
