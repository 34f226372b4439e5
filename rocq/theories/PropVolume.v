(** Property C124: the volume change of the correspondences that lat_cor_hnf and lat_cor report, and the option vol_th.
    Specification: LatCorSpec.v (lattice_with_cell, within_threshold, allowed_size), DirectCorSpec.v (lattice_of_cell) and
    the product of the reported principal stretches.  In Coq lat_cor_hnf is called [LatCorModel.lat_cor] and lat_cor
    [lat_cor_direct]. *)
From Coq Require Import Lra Lia Permutation Sorted.
From Verif Require Import LinAlg Eig Spectral GroupModel GroupProofs LatticeModel LatticeSpec LatticeProofs LatticeLaue BravaisModel BravaisSpec HnfSpec HnfProofs TreeSpec
  DistModel DistSpec DistProofs DirectModel DirectSpec DirectConcrete DirectConcSpec DirectConcProofs DirectProofs DirectGlobal OutputModel PropOutput PropBravais PropLattice
  HnfSearchModel LatCorModel LatCorSpec LatCorProofs LatCorTotal PropLatCor DirectCorModel DirectCorSpec DirectCorProofs DirectCorCase PropDirectCor LatCorCase.
Local Open Scope R_scope.

(** the product of the numbers of a list: for the principal stretches of a deformation, the factor by which it changes
    volumes *)
Definition product (l : list R) : R := fold_right Rmult 1 l.

(** ** Lemmas *)
Lemma product_perm l l' : Permutation l l' -> product l = product l'.
Proof. induction 1 as [|x l l' _ IH|x y l|l l' l'' _ IH1 _ IH2]; unfold product in *; cbn; [reflexivity|now rewrite IH|ring|congruence]. Qed.
Lemma product_pos l : (forall x, In x l -> 0 < x) -> 0 < product l.
Proof. induction l as [|a l IH]; intros H; cbn; [lra|]. apply Rmult_lt_0_compat; [apply H; now left|]. apply IH. intros x Hx. apply H. now right. Qed.
Lemma det_diag_product n (l : list R) : dim23 n -> length l = n -> det (diag l) = product l.
Proof.
  intros [-> | ->] H.
  - destruct l as [|a [|b [|]]]; try discriminate. unfold product. cbn [fold_right]. mat_unfold_goal. ring.
  - destruct l as [|a [|b [|c [|]]]]; try discriminate. unfold product. cbn [fold_right]. mat_unfold_goal. ring.
Qed.
Lemma det_stretches n U lams : dim23 n -> symmetric U -> posdef n U -> (exists mu V, eigen n U mu V /\ Permutation lams mu) ->
  0 < product lams /\ det U = product lams.
Proof.
  intros Hd SU PU (mu & V & EG & PE). pose proof (dim23_pos n Hd) as P0. rewrite (product_perm _ _ PE). pose proof EG as (WU & WV & Lm & DV & E). split.
  - apply product_pos. intros x Hx. apply (In_nth _ _ 0) in Hx. destruct Hx as (i & Hi & <-). rewrite Lm in Hi. exact (eig_pos n Hd U mu V EG i PU Hi).
  - assert (WD : wf n n (diag mu)) by (now apply wf_diag).
    apply (f_equal det) in E. rewrite !(det_mmul n) in E by auto. rewrite <- (det_diag_product n mu Hd Lm). apply (Rmult_eq_reg_r (det V)); [lra|exact DV].
Qed.
(** the volumes, when F carries EA N onto EM *)
Lemma volume_change n EA EM (N : mat Z) F U lams : dim23 n -> wf n n EA -> wf n n N -> wf n n F -> mmul F (mmul EA (RZ N)) = EM ->
  symmetric U -> posdef n U -> mmul U U = mmul (tr F) F -> (exists mu V, eigen n U mu V /\ Permutation lams mu) ->
  0 < product lams /\ Rabs (det EM) = product lams * (Rabs (IZR (det N)) * Rabs (det EA)).
Proof.
  intros Hd WA WN WF E SU PU EU EG. pose proof (dim23_pos n Hd) as P0. destruct (det_stretches n U lams Hd SU PU EG) as (Pp & DU). split; [exact Pp|].
  destruct EG as (mu & V & (WU & _) & _). pose proof (wf_RZ n n N WN) as WR.
  apply (f_equal det) in EU. rewrite !(det_mmul n), (det_tr n) in EU by (auto; now apply wf_tr').
  assert (AF : Rabs (det F) = product lams).
  { rewrite <- DU. apply Rsqr_inj; [apply Rabs_pos|lra|]. rewrite <- Rsqr_abs. unfold Rsqr. lra. }
  rewrite <- E, !(det_mmul n), <- RZ_det, !Rabs_mult, AF by (auto; now apply (wf_mmul n n n)). ring.
Qed.

(** ** C124 *)
(** the volume per lattice point of a cell B with centring ce *)
Definition point_volume (ce : centring) (B : mat R) : R := Rabs (det B) / IZR (points_per_cell ce).
Lemma points_pos ce : 0 < IZR (points_per_cell ce). Proof. destruct ce; cbn; lra. Qed.
Lemma point_volume_base n ce (E B : mat R) (C : mat Z) : dim23 n -> wf n n E -> wf n n C -> det C = points_per_cell ce -> B = mmul E (RZ C) ->
  point_volume ce B = Rabs (det E).
Proof.
  intros Hd WE WC DC ->. unfold point_volume. rewrite (det_mmul n), <- RZ_det, DC, Rabs_mult by (auto; now apply wf_RZ).
  pose proof (points_pos ce). rewrite (Rabs_pos_eq (IZR (points_per_cell ce))) by lra. field. lra.
Qed.

(** For every solution of lat_cor_hnf the product J of the reported stretches times the size of the sublattice is the ratio
    of the volumes per lattice point.  When some size is within the threshold, 1/J differs from one by at most vol_th: the
    volume of the parent cell differs from that of the product cell by at most vol_th, relative to the product cell. *)
Theorem C124_volume_partial : forall D eig q k fuel idA pA idM pM sols sA ceA cA sM ceM cM,
  bravais_type 3 idA = Some (sA, ceA) -> admissible sA pA cA -> bravais_type 3 idM = Some (sM, ceM) -> admissible sM pM cM ->
  q_dim q = 3%Z -> 0 <= q_vol_th q -> eig_correct 3 eig -> lat_cor D eig q k fuel idA pA idM pM = Ok sols ->
  exists BA BM, has_cell 3 BA cA /\ has_cell 3 BM cM /\ let r := point_volume ceM BM / point_volume ceA BA in
    0 < r /\ forall s o, In (s, o) sols -> let J := product (o_lams o) in
      0 < J /\ J * IZR (det (hh s)) = r /\
      ((exists k', within_threshold r (q_vol_th q) k') -> 1 - q_vol_th q <= / J <= 1 + q_vol_th q) /\
      (~ (exists k', within_threshold r (q_vol_th q) k') -> Rabs (r - IZR (det (hh s))) <= 1/2).
Proof.
  intros D eig q k fuel idA pA idM pM sols sA ceA cA sM ceM cM TA AA TM AM Q3 Ht He H.
  destruct (C78_solutions_genuine D eig q k fuel idA pA idM pM sols sA ceA cA sM ceM cM TA AA TM AM Q3 He H) as (EA & BA & EM & BM & CA & CM & _ & K).
  destruct CA as (WEA & DEA & HCA & CZ & WCZ & DCZ & EBA). destruct CM as (WEM & DEM & HCM & CZ' & WCZ' & DCZ' & EBM).
  assert (d3 : dim23 3) by now right. exists BA, BM. split; [exact HCA|]. split; [exact HCM|]. cbv zeta.
  rewrite (point_volume_base 3 ceM EM BM CZ'), (point_volume_base 3 ceA EA BA CZ) by assumption.
  assert (PA : 0 < Rabs (det EA)) by now apply Rabs_pos_lt. assert (PM : 0 < Rabs (det EM)) by now apply Rabs_pos_lt.
  split; [now apply Rdiv_lt_0_compat|]. intros s o Hin. destruct (K s o Hin) as (w & _ & _ & [Gh Gs Gl GF [_ Gla]]).
  destruct GF as (F & Fi & WF & WFi & _ & _ & EF & _ & SU & PU & EU & _). pose proof (det_pos _ Gh) as Ph.
  assert (Wh : wf 3 3 (hh s)) by apply Gh. assert (Wl : wf 3 3 (hl s)) by apply Gl.
  destruct (volume_change 3 EA EM (mmul (hh s) (hl s)) F (o_u o) (o_lams o)) as (PJ & EJ); auto; [apply (wf_mmul 3 3 3); auto; lia|].
  rewrite (det_mmul_Z 3) in EJ by auto. destruct Gl as [_ Dl]. rewrite Dl, Z.mul_1_r in EJ.
  assert (Pk : 1 <= IZR (det (hh s))) by (apply IZR_le; lia). rewrite (Rabs_pos_eq (IZR (det (hh s)))) in EJ by lra.
  set (J := product (o_lams o)) in *. set (kk := IZR (det (hh s))) in *.
  assert (JK : J * kk = Rabs (det EM) / Rabs (det EA)) by (rewrite EJ; field; lra).
  (* the two determinants have the same sign *)
  assert (SG : 0 < det EM / det EA).
  { destruct Gs as [[_ G2]|[_ G2]]; fold kk in G2.
    - destruct (Rle_or_lt (det EM / det EA) 0) as [N|N]; [exfalso|exact N]. assert ((1 + q_vol_th q) * (det EM / det EA) <= 0) by nra. lra.
    - apply Rabs_def2 in G2 || idtac. assert (det EM / det EA - kk >= - (1/2)) by (pose proof (Rle_abs (- (det EM / det EA - kk))) as X; rewrite Rabs_Ropp in X; lra). lra. }
  assert (RE : Rabs (det EM) / Rabs (det EA) = det EM / det EA).
  { rewrite <- (Rabs_pos_eq (det EM / det EA)) by lra. unfold Rdiv. rewrite Rabs_mult, Rabs_inv. reflexivity. }
  rewrite RE in *. set (r := det EM / det EA) in *.
  split; [exact PJ|]. split; [exact JK|]. split.
  - intros X. destruct Gs as [[G1 G2]|[N _]]; [|contradiction]. fold kk in G1, G2.
    assert (IJ : / J * r = kk) by (rewrite <- JK; field; lra). split; apply (Rmult_le_reg_r r); auto; lra.
  - intros X. destruct Gs as [G|[_ G]]; [elim X; now exists (det (hh s))|exact G].
Qed.
Print Assumptions C124_volume_partial.

Lemma direct_volume : forall w q fuel idA pA idM pM sols sA ceA cA sM ceM cM A M,
  bravais_type (d_dim q) idA = Some (sA, ceA) -> admissible sA pA cA -> bravais_type (d_dim q) idM = Some (sM, ceM) -> admissible sM pM cM ->
  new_bravais idA pA (d_dim q) = Ok A -> new_bravais idM pM (d_dim q) = Ok M ->
  let n := Z.to_nat (d_dim q) in resolved n (b_base A) -> resolved n (b_base M) ->
  (1 <= d_nsol q)%nat -> (1 <= d_slice_sz q)%nat -> d_vol_th q <= 1 ->
  Forall (wf n n) (w_shifts w) -> eig_correct n (w_eig w) -> (forall l e, In e (w_order w l) <-> In e l) ->
  lat_cor_direct w q fuel idA pA idM pM = Ok sols ->
  dim23 n /\ exists BA BM, lattice_of_cell n ceA cA (b_base A) BA /\ lattice_of_cell n ceM cM (b_base M) BM /\ forall d o, In (d, o) sols ->
    0 < product (o_lams o) /\ det (o_l o) <> 0%Z /\ Rabs (det (b_base M)) = product (o_lams o) * (Rabs (IZR (det (o_l o))) * Rabs (det (b_base A))).
Proof.
  intros w q fuel idA pA idM pM sols sA ceA cA sM ceM cM A M TA AA TM AM HA HM n RA RM Hn Hz Hv Hw He Ho H.
  destruct (C83_solutions_genuine_partial w q fuel idA pA idM pM sols sA ceA cA sM ceM cM A M TA AA TM AM HA HM RA RM Hn Hz Hv Hw He Ho H)
    as (BA & BM & GA & GM & CA & CM & _ & _ & _ & _ & _ & GEN & _). fold n in CA, CM, GEN.
  destruct (run_setup q idA idM pA pM sA sM ceA ceM cA cM TA AA TM AM A M HA HM RA RM) as (G1 & G2 & _ & _ & HP & _). pose proof (proj1 HP) as Hd. fold n in Hd.
  split; [exact Hd|]. exists BA, BM. split; [exact CA|]. split; [exact CM|]. pose proof (proj1 CA) as WEA.
  intros d o Hin. destruct (GEN d o Hin) as ([[Wl Dl] (F & Fi & WF & WFi & _ & _ & EF & _ & SU & PU & EU & _) [_ Gla]] & _).
  destruct (volume_change n (b_base A) (b_base M) (o_l o) F (o_u o) (o_lams o)) as (PJ & EJ); auto.
Qed.

(** The same for lat_cor, in two and three dimensions; no bound on J follows from vol_th. *)
Theorem C124_direct_partial : forall w q fuel idA pA idM pM sols sA ceA cA sM ceM cM A M,
  bravais_type (d_dim q) idA = Some (sA, ceA) -> admissible sA pA cA -> bravais_type (d_dim q) idM = Some (sM, ceM) -> admissible sM pM cM ->
  new_bravais idA pA (d_dim q) = Ok A -> new_bravais idM pM (d_dim q) = Ok M ->
  let n := Z.to_nat (d_dim q) in resolved n (b_base A) -> resolved n (b_base M) ->
  (1 <= d_nsol q)%nat -> (1 <= d_slice_sz q)%nat -> d_vol_th q <= 1 ->
  Forall (wf n n) (w_shifts w) -> eig_correct n (w_eig w) -> (forall l e, In e (w_order w l) <-> In e l) ->
  lat_cor_direct w q fuel idA pA idM pM = Ok sols ->
  exists BA BM, has_cell n BA cA /\ has_cell n BM cM /\ forall d o, In (d, o) sols -> let J := product (o_lams o) in
    0 < J /\ J * Rabs (IZR (det (o_l o))) = point_volume ceM BM / point_volume ceA BA.
Proof.
  intros w q fuel idA pA idM pM sols sA ceA cA sM ceM cM A M TA AA TM AM HA HM n RA RM Hn Hz Hv Hw He Ho H.
  destruct (direct_volume w q fuel idA pA idM pM sols sA ceA cA sM ceM cM A M TA AA TM AM HA HM RA RM Hn Hz Hv Hw He Ho H) as (Hd & BA & BM & CA & CM & K).
  fold n in Hd, CA, CM. destruct CA as (WEA & DEA & HCA & CZ & WCZ & DCZ & EBA). destruct CM as (WEM & DEM & HCM & CZ' & WCZ' & DCZ' & EBM).
  exists BA, BM. split; [exact HCA|]. split; [exact HCM|].
  rewrite (point_volume_base n ceM (b_base M) BM CZ' Hd WEM WCZ' DCZ' EBM), (point_volume_base n ceA (b_base A) BA CZ Hd WEA WCZ DCZ EBA).
  intros d o Hin. destruct (K d o Hin) as (PJ & _ & EJ). cbv zeta. split; [exact PJ|]. rewrite EJ. field. apply Rabs_no_R0. exact DEA.
Qed.
Print Assumptions C124_direct_partial.

(** lat_cor does not use vol_th beyond its sign: every value in (0, 1] gives the same answer. *)
Theorem C124_threshold_unused : forall w q q' fuel idA pA idM pM,
  d_nsol q' = d_nsol q -> d_dim q' = d_dim q -> d_slice_sz q' = d_slice_sz q -> 0 < d_vol_th q <= 1 -> 0 < d_vol_th q' <= 1 ->
  lat_cor_direct w q' fuel idA pA idM pM = lat_cor_direct w q fuel idA pA idM pM.
Proof.
  intros w q q' fuel idA pA idM pM E1 E2 E3 H1 H2. unfold lat_cor_direct. rewrite E1, E2, E3. unfold direct_init.
  assert (V : forall t, 0 < t <= 1 -> forall d, vol_ok t d = (d =? 1)%Z).
  { intros t Ht d. unfold vol_ok. destruct (Z.eqb_spec d 1) as [->|N].
    - apply andb_true_iff. split; apply Rltb_spec; lra.
    - apply andb_false_iff. destruct (Z_lt_ge_dec d 1); [left|right]; apply Rltb_false.
      + assert (IZR d <= 0) by (apply IZR_le; lia). lra.
      + assert (2 <= IZR d) by (apply IZR_le; lia). lra. }
  assert (VV : vol_ok (d_vol_th q') = vol_ok (d_vol_th q)).
  { apply FunctionalExtensionality.functional_extensionality. intros d. now rewrite !V. }
  now rewrite VV.
Qed.
Print Assumptions C124_threshold_unused.

(** vol_th does not bound the volume change J - 1 itself: from the cubic cell with edge 1 to the tetragonal cell 1 x 1 x 1.05,
    with vol_th = 1/21, lat_cor_hnf reports correspondences with J = 1.05. *)
Theorem C124_refuted : forall eig, eig_correct 3 eig -> exists q k f s o rest, q_dim q = 3%Z /\ 0 <= q_vol_th q /\
  lat_cor py3 eig q k f 1 [1] 6 [1; 21/20] = Ok ((s, o) :: rest) /\ q_vol_th q < product (o_lams o) - 1.
Proof.
  intros eig He. destruct case_admissible as (T1 & A1 & T2 & A2). destruct case_bases as ((A & HA & EA) & (M & HM & EM)).
  set (q := {| q_nsol := 1; q_vol_th := 1/21; q_dim := 3; q_dist := Cauchy; q_maxiter := None; q_miniter := None |}).
  assert (SZ : forall h, is_hnf 3 h -> allowed_size (det (b_base M) / det (b_base A)) (1/21) (det h) -> det h = 1%Z).
  { intros h Hh Hs. rewrite EA, EM, !det_Etet in Hs. destruct Hs as [[H1 H2]|[H1 _]].
    - assert (0 < det h)%Z by (apply lt_IZR; lra). assert (det h < 2)%Z by (apply lt_IZR; lra). lia.
    - exfalso. apply H1. exists 1%Z. unfold within_threshold. split; lra. }
  destruct (C79_locally_best_partial py3 eig q dCauchy 1 [1%R] 6 [1%R; (21/20)%R] _ _ _ _ _ _ A M (or_introl eq_refl) T1 A1 T2 A2) as (k0 & f0 & best & rest & H & _); auto.
  - cbn. lra.
  - rewrite EA, EM, !det_Etet. lra.
  - rewrite EA. apply resolved_tet. now left.
  - rewrite EM. apply resolved_tet. now right.
  - intros L E. discriminate.
  - intros h Hh Hs. rewrite EA, (hnf_one h Hh (SZ h Hh Hs)), RZ_eye, (mmul_eye_r 3 3) by (try apply PropLattice.wfM3; lia).
    split; [apply resolved_tet; now left|]. exists (eye 3). exact LLL_eye.
  - specialize (H k0 f0 (le_n _) (le_n _)). destruct best as [s o]. exists q, k0, f0, s, o, rest. split; [reflexivity|]. split; [cbn; lra|]. split; [exact H|].
    destruct (lat_cor_genuine_bases py3 eig q k0 f0 1 [1%R] 6 [1%R; (21/20)%R] _ _ _ _ _ _ _ T1 A1 T2 A2 eq_refl He H) as (A' & M' & HA' & HM' & CA & _ & _ & K).
    assert (A' = A) by congruence. assert (M' = M) by congruence. subst A' M'. destruct (K s o (or_introl eq_refl)) as (w & _ & _ & [Gh Gs Gl GF [_ Gla]]).
    destruct GF as (F & Fi & WF & WFi & _ & _ & EF & _ & SU & PU & EU & _). assert (Wh : wf 3 3 (hh s)) by apply Gh. assert (Wl : wf 3 3 (hl s)) by apply Gl.
    destruct (volume_change 3 (b_base A) (b_base M) (mmul (hh s) (hl s)) F (o_u o) (o_lams o)) as (PJ & EJ); auto; [now right|apply CA|apply (wf_mmul 3 3 3); auto; lia|].
    rewrite (det_mmul_Z 3) in EJ by (auto; now right). destruct Gl as [_ Dl]. rewrite Dl, (SZ _ Gh Gs), EA, EM, !det_Etet, !Rabs_pos_eq in EJ by (cbn; lra).
    cbn [q_vol_th q]. cbn in EJ. lra.
Qed.
Print Assumptions C124_refuted.

(** lat_cor reports correspondences beyond the threshold by any measure: the square lattices with edges 1 and 1.1 and
    vol_th = 0.1 as by default. *)
Theorem C124_direct_refuted : forall eig, eig_correct 2 eig -> exists w d o, w_eig w = eig /\
  lat_cor_direct w (sq_request Cauchy) 1 1 [1] 1 [11/10] = Ok [(d, o)] /\ d_vol_th (sq_request Cauchy) = 1/10 /\
  let J := product (o_lams o) in 0 < J /\ 1/10 < Rabs (J - 1) /\ 1/10 < Rabs (/ J - 1).
Proof.
  intros eig He. destruct (s_ok eig Cauchy He) as (o & H). assert (P1 : 0 < 11/10) by lra.
  destruct (bravais_sq 1 Rlt_0_1) as (T1 & A1 & L1 & N1 & E1). destruct (bravais_sq _ P1) as (T2 & A2 & L2 & N2 & E2).
  exists (sq_world eig draws2), (882/14641), o. split; [reflexivity|]. split; [exact H|]. split; [reflexivity|].
  pose proof (resolved_sq 1 Rlt_0_1) as R1. pose proof (resolved_sq _ P1) as R2. rewrite <- E1 in R1. rewrite <- E2 in R2.
  destruct (direct_volume (sq_world eig draws2) (sq_request Cauchy) 1 1 [1] 1 [11/10] _ _ _ _ _ _ _ L1 L2 T1 A1 T2 A2 N1 N2
    R1 R2 (le_n _) ltac:(cbn; lia) ltac:(cbn; lra) draws2_wf He ltac:(cbn; tauto) H) as (_ & _ & _ & _ & _ & K).
  destruct (K _ _ (or_introl eq_refl)) as (PJ & DL & EJ). cbv zeta. split; [exact PJ|]. rewrite E1, E2 in EJ. unfold Esq, M2 in EJ.
  set (J := product (o_lams o)) in *. assert (D2 : forall a, 0 <= a -> Rabs (det [[a; 0]; [0; a]]) = a * a) by (intros a Ha; rewrite Rabs_pos_eq; [|mat_unfold_goal; nra]; mat_unfold_goal; ring).
  rewrite !D2 in EJ by lra. rewrite <- abs_IZR in EJ. set (m := Z.abs (det (o_l o))) in *. assert (Hm : (1 <= m)%Z) by lia.
  assert (EJ' : J * IZR m = 121/100) by lra. assert (IJ : / J = IZR m * (100/121)). { apply (Rmult_eq_reg_l J); [|lra]. rewrite Rinv_r by lra. lra. }
  destruct (Z.eq_dec m 1) as [E|N].
  - rewrite E in *. split; [rewrite Rabs_pos_eq; lra|]. rewrite Rabs_left1; lra.
  - assert (M2 : 2 <= IZR m) by (apply IZR_le; lia). assert (J <= 121/200) by nra. split; [rewrite Rabs_left1; lra|]. rewrite Rabs_pos_eq; lra.
Qed.
Print Assumptions C124_direct_refuted.

(** The call of C124_refuted meets the hypotheses of C124_volume_partial, with a size within the threshold. *)
Example C124_case : forall eig, eig_correct 3 eig -> exists q k f s o rest, 0 <= q_vol_th q /\
  lat_cor py3 eig q k f 1 [1] 6 [1; 21/20] = Ok ((s, o) :: rest) /\ within_threshold (21/20) (q_vol_th q) 1.
Proof.
  intros eig He. destruct (C79_case eig Cauchy He (or_introl eq_refl)) as (k & f & [s o] & rest & H). eexists _, k, f, s, o, rest. split; [|split; [exact H|]].
  - cbn. lra.
  - unfold within_threshold. cbn. lra.
Qed.
