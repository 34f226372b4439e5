(** Property theorem C56: what is reported for a solution.  Specification: [symmetric], [posdef]
    (Spectral.v), [eigen] (Eig.v), [consistent] below; model: OutputModel.v. *)
From Coq Require Import Permutation Sorted.
From Verif Require Import LinAlg Eig Spectral SpectralThm GroupSpec GroupModel GroupProofs DirectModel OutputModel OutputProofs.
Local Open Scope R_scope.

(** la.eig returns an eigendecomposition of every symmetric matrix it is given *)
Definition eig_correct (n : nat) (eig : mat R -> list R * mat R) : Prop :=
  forall C, wf n n C -> symmetric C -> eigen n C (fst (eig C)) (snd (eig C)).

(** the report (cor, U, lams) of the correspondence matrix HL, with deformation gradient F *)
Record consistent (n : nat) (EA EM CA CM HL : mat R) (F U cor : mat R) (lams : list R) : Prop := {
  c_F : mmul F (mmul EA HL) = EM;
  c_sym : symmetric U;
  c_sq : mmul U U = mmul (tr F) F;
  c_pos : posdef n U;
  c_ascending : StronglySorted Rle lams;
  c_lams : exists mu V, eigen n U mu V /\ Permutation lams mu;      (* lams are the eigenvalues of U *)
  c_cor : mmul (mmul EA CA) cor = mmul (mmul EA HL) CM
}.

(** such decompositions exist, whatever the symmetric matrix, with orthonormal eigenvectors *)
Theorem C56_decomposition_exists : forall n C, dim23 n -> wf n n C -> symmetric C ->
  exists lam Q, orthogonal n Q /\ eigen n C lam Q.
Proof. exact spectral_theorem. Qed.
Print Assumptions C56_decomposition_exists.

Theorem C56_hnf : forall n EA EM CA CM eig h l, dim23 n ->
  wf n n EA -> wf n n EM -> wf n n CA -> wf n n CM -> wf n n h -> wf n n l ->
  det EA <> 0 -> det EM <> 0 -> det CA <> 0 -> det h <> 0%Z -> det l <> 0%Z ->
  eig_correct n eig ->
  exists o, report_hnf n EA EM CA CM eig h l = Ok o /\ o_l o = l /\
    consistent n EA EM CA CM (RZ (mmul h l)) (o_F o) (o_u o) (o_cor o) (o_lams o).
Proof.
  intros n EA EM CA CM eig h l Hd WEA WEM WCA WCM Wh Wl DEA DEM DCA Dh Dl He. pose proof (dim23_pos n Hd) as Hn.
  unfold report_hnf. rewrite (mmul_eye_r n n) by auto. rewrite <- RZ_mmul.
  assert (W : wf n n (mmul h l)) by (apply (wf_mmul n n n); auto).
  destruct (report_ok n Hd EA EM CA CM WEA WEM WCA WCM DEA DEM DCA eig l (RZ (mmul h l)))
    as (o & Ho & Hl & HF & HU & H1 & H2 & H3 & H4 & H5 & H6 & H7).
  - now apply wf_RZ.
  - rewrite RZ_mmul. rewrite (det_mmul n (RZ h)) by auto using wf_RZ. rewrite <- !RZ_det.
    apply Rmult_integral_contrapositive_currified; now apply not_0_IZR.
  - intros F _ WF. apply He; [|now apply (gram_sym n)]. apply (wf_mmul n n n); [now apply wf_tr'|exact WF|exact Hn].
  - exists o. split; [exact Ho|]. split; [exact Hl|]. now constructor.
Qed.
Print Assumptions C56_hnf.

(** direct search: the correspondence reported is symmetry-equivalent to the one found, is
    orientation preserving whenever one of the equivalents is, and the report is consistent *)
Theorem C56_direct : forall n EA EM CA CM eig LG_A LG_M l eqls, dim23 n ->
  wf n n EA -> wf n n EM -> wf n n CA -> wf n n CM ->
  det EA <> 0 -> det EM <> 0 -> det CA <> 0 -> det (reshape n l) <> 0%Z ->
  (forall M, In M LG_A \/ In M LG_M -> wf n n M /\ (det M = 1 \/ det M = -1)%Z) ->
  (forall e, In e eqls <-> In e (eqlatcor n LG_A LG_M l)) ->
  eig_correct n eig ->
  exists o, report_direct n EA EM CA CM eig l eqls = Ok o /\
    (o_l o = reshape n l \/ exists M1 M2, In M1 LG_A /\ In M2 LG_M /\ o_l o = mmul (mmul M1 (reshape n l)) M2) /\
    ((exists M1 M2, In M1 LG_A /\ In M2 LG_M /\ (0 < det (mmul (mmul M1 (reshape n l)) M2))%Z) -> (0 < det (o_l o))%Z) /\
    consistent n EA EM CA CM (RZ (o_l o)) (o_F o) (o_u o) (o_cor o) (o_lams o).
Proof.
  intros n EA EM CA CM eig LG_A LG_M l eqls Hd WEA WEM WCA WCM DEA DEM DCA Dl HG Heq He.
  pose proof (dim23_pos n Hd) as Hn. unfold report_direct.
  set (L := reshape n l) in *. assert (WL : wf n n L) by apply wf_reshape.
  set (P := pick_positive n L eqls).
  assert (WM : forall M1 M2, In M1 LG_A -> In M2 LG_M -> wf n n (mmul (mmul M1 L) M2)).
  { intros M1 M2 H1 H2. destruct (HG M1 (or_introl H1)), (HG M2 (or_intror H2)).
    apply (wf_mmul n n n); auto. apply (wf_mmul n n n); auto. }
  assert (RE : forall e, In e eqls -> exists M1 M2, In M1 LG_A /\ In M2 LG_M /\ reshape n e = mmul (mmul M1 L) M2).
  { intros e H. apply Heq in H. unfold eqlatcor in H. apply in_flat_map in H. destruct H as (M1 & H1 & H).
    apply in_map_iff in H. destruct H as (M2 & <- & H2). exists M1, M2. split; [exact H1|]. split; [exact H2|].
    rewrite reshape_flatten; [reflexivity|now apply WM]. }
  assert (HP : P = L \/ exists M1 M2, In M1 LG_A /\ In M2 LG_M /\ P = mmul (mmul M1 L) M2).
  { unfold P. clear P Heq. revert RE. induction eqls as [|e es IH]; intros RE; cbn [pick_positive]; cbv zeta; [now left|].
    destruct (Z.ltb_spec 0 (det (reshape n e))); [right; apply RE; now left|]. apply IH. intros; apply RE; now right. }
  assert (WP : wf n n P) by (destruct HP as [->|(M1 & M2 & H1 & H2 & ->)]; auto).
  assert (DP : det P <> 0%Z).
  { destruct HP as [->|(M1 & M2 & H1 & H2 & ->)]; [exact Dl|].
    destruct (HG M1 (or_introl H1)) as [W1 D1], (HG M2 (or_intror H2)) as [W2 D2].
    intros Z. apply (f_equal IZR) in Z. rewrite RZ_det, !RZ_mmul, !(det_mmul n) in Z by (auto using wf_RZ; apply (wf_mmul n n n); auto using wf_RZ).
    rewrite <- !RZ_det, <- !mult_IZR in Z. apply eq_IZR in Z. nia. }
  destruct (report_ok n Hd EA EM CA CM WEA WEM WCA WCM DEA DEM DCA eig P (RZ P))
    as (o & Ho & Hl & HF & HU & H1 & H2 & H3 & H4 & H5 & H6 & H7).
  - now apply wf_RZ.
  - rewrite <- RZ_det. now apply not_0_IZR.
  - intros F _ WF. apply He; [|now apply (gram_sym n)]. apply (wf_mmul n n n); [now apply wf_tr'|exact WF|exact Hn].
  - exists o. split; [exact Ho|]. rewrite Hl. split; [exact HP|]. split; [|now constructor].
    intros (M1 & M2 & HM1 & HM2 & HD).
    destruct (pick_positive_spec n L eqls) as (e & _ & HE & HD').
    + exists (flatten (mmul (mmul M1 L) M2)). split.
      * apply Heq. unfold eqlatcor. apply in_flat_map. exists M1. split; [exact HM1|].
        apply in_map_iff. exists M2. split; [reflexivity|exact HM2].
      * rewrite reshape_flatten by now apply WM. exact HD.
    + fold P in HE. rewrite HE. exact HD'.
Qed.
Print Assumptions C56_direct.

(** when the groups contain the identity and the austenite's has an improper element (-I in three
    dimensions), the reported correspondence is always orientation preserving *)
Theorem C56_direct_oriented : forall n EA EM CA CM eig LG_A LG_M l eqls o, dim23 n ->
  wf n n EA -> wf n n EM -> wf n n CA -> wf n n CM ->
  det EA <> 0 -> det EM <> 0 -> det CA <> 0 -> det (reshape n l) <> 0%Z ->
  (forall M, In M LG_A \/ In M LG_M -> wf n n M /\ (det M = 1 \/ det M = -1)%Z) ->
  In (eye n) LG_A -> In (eye n) LG_M -> (exists M, In M LG_A /\ det M = (-1)%Z) ->
  (forall e, In e eqls <-> In e (eqlatcor n LG_A LG_M l)) -> eig_correct n eig ->
  report_direct n EA EM CA CM eig l eqls = Ok o -> (0 < det (o_l o))%Z.
Proof.
  intros n EA EM CA CM eig LG_A LG_M l eqls o Hd WEA WEM WCA WCM DEA DEM DCA Dl HG IA IM (M & HM & DM) Heq He Ho.
  destruct (C56_direct n EA EM CA CM eig LG_A LG_M l eqls) as (o' & Ho' & _ & HD & _); auto.
  rewrite Ho in Ho'. injection Ho' as <-. apply HD. pose proof (dim23_pos n Hd) as Hn.
  assert (WL : wf n n (reshape n l)) by apply wf_reshape.
  destruct (HG M (or_introl HM)) as [WM _].
  destruct (Z_lt_le_dec 0 (det (reshape n l))) as [Hp|Hp].
  - exists (eye n), (eye n). split; [exact IA|]. split; [exact IM|].
    rewrite (mmul_eye_l n n), (mmul_eye_r n n) by auto. exact Hp.
  - exists M, (eye n). split; [exact HM|]. split; [exact IM|].
    rewrite (mmul_eye_r n n) by (auto; apply (wf_mmul n n n); auto).
    apply lt_IZR. rewrite RZ_det, RZ_mmul, (det_mmul n) by auto using wf_RZ. rewrite <- !RZ_det, <- mult_IZR.
    apply IZR_lt. rewrite DM. nia.
Qed.
Print Assumptions C56_direct_oriented.

(** the square lattice against diag(1, 2): l = diag(1, -1) has determinant -1; the reported
    correspondence is its improper equivalent *)
Example C56_case :
  let LG := [[[1; 0]; [0; 1]]; [[1; 0]; [0; -1]]]%Z in
  det (M2 1 0 0 2) <> 0 /\ det (reshape 2 [1; 0; 0; -1]%Z) = (-1)%Z /\
  (forall M, In M LG -> wf 2 2 M /\ (det M = 1 \/ det M = -1)%Z) /\
  pick_positive 2 (reshape 2 [1; 0; 0; -1]%Z) (eqlatcor 2 LG [eye 2] [1; 0; 0; -1]%Z) = eye 2 /\
  (forall mu1 mu2, eigen 2 (M2 mu1 0 0 mu2) [mu1; mu2] (eye 2)).
Proof.
  cbv zeta. split; [unfold M2; rewrite det2; lra|]. split; [reflexivity|].
  split. { intros M [<-|[<-|[]]]; (split; [apply wfb_spec; reflexivity|]); [left|right]; reflexivity. }
  split; [reflexivity|].
  intros. split; [apply wfb_spec; reflexivity|]. split; [apply wfb_spec; reflexivity|]. split; [reflexivity|].
  split; [change (@eye R _ 2) with (M2 1 0 0 1); unfold M2; rewrite det2; lra|]. mat_eq ltac:(lra).
Qed.
