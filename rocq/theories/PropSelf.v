(** Property C106: a lattice compared with itself.  Model: LatCorModel.v, LLLModel.v.  In the statements [k] and [fuel] bound the numbers of
    turns of the while loops; a run that returns Ok has ended.  The distance of a solution is [hd_], its stretch tensor [o_u] and the
    eigenvalues of that [o_lams]. *)
From Coq Require Import Permutation Sorted.
From Verif Require Import LinAlg Spectral GroupProofs GroupSpec HnfModel HnfSpec ReduceModel ReduceSpec ReduceProofs ReducePy2 BravaisModel LatticeModel LatticeSpec LatticeProofs LatticeLaue BravaisSpec LLLModel LLLSpec
  DistSpec DirectConcSpec TreeModel TreeSpec TreeLatOpt DirectProofs HnfSearchModel HnfSearchSpec HnfSearchConc HnfSearchAsync
  OutputModel LatCorModel LatCorSpec LatCorProofs LatCorDist LatCorTotal LatCorCase MoreCor VolMore SelfSearch SelfCase SelfProofs
  PropHnf PropReduce PropHnfSearch PropOutput PropLattice PropLLL PropLLL3 PropLatCor PropMore.
From Verif Require Import LLLProofs LLLProofs2 LLLProofs3.
Local Open Scope R_scope.

(** With the default options lat_cor does not find that a lattice matches itself: for the primitive monoclinic lattice with edges 4/3, 1 and
    sqrt 2 and the angle 135 degrees its first solution has a distance of at least 73/1296, although the identity has distance 0. *)
Theorem C106_refuted : exists p c A, bravais_type 3 12 = Some (Monoclinic, P) /\ admissible Monoclinic p c /\ new_bravais 12 p 3 = Ok A /\
  measures dCauchy (b_base A) (b_base A) (eye 3) 0 /\
  forall eig, eig_correct 3 eig -> exists k0 f0 best rest,
    (forall k f, (k0 <= k)%nat -> (f0 <= f)%nat -> lat_cor py3 eig default_request k f 12 p 12 p = Ok (best :: rest)) /\
    73 / 1296 <= hd_ (fst best).
Proof.
  destruct mono_admissible as (T & AD). destruct mono_base as (A & HA & EA). exists pmono, (mk_cell (4/3) 1 (sqrt 2) 90 135 90), A.
  split; [exact T|]. split; [exact AD|]. split; [exact HA|]. split.
  { rewrite EA. unfold measures. cbv zeta. apply (has_distance_rotated dCauchy _ Emono (eye 3)); [exact base_mono|apply orth_eye; lia|].
    rewrite RZ_eye, (mmul_eye_r 3 3), (mmul_eye_l 3 3) by (try apply PropLattice.wfM3; lia). reflexivity. }
  intros eig He. assert (Hr : det (b_base A) / det (b_base A) = 1) by (rewrite EA, det_mono; lra).
  assert (Hr' : 1/2 < det (b_base A) / det (b_base A)) by lra.
  assert (RA : resolved 3 (b_base A)) by (rewrite EA; exact resolved_mono).
  assert (K1 : forall h, is_hnf 3 h -> allowed_size (det (b_base A) / det (b_base A)) (1/10) (det h) -> mmul (b_base A) (RZ h) = Emono).
  { intros h Hh Hs. rewrite Hr in Hs. assert (D1 : det h = 1%Z).
    { destruct Hs as [[S1 S2]|[N _]]; [|exfalso; apply N; exists 1%Z; unfold within_threshold; lra].
      assert (0 < det h)%Z by (apply lt_IZR; lra). assert (det h < 2)%Z by (apply lt_IZR; lra). lia. }
    rewrite EA, (hnf_one h Hh D1), RZ_eye, (mmul_eye_r 3 3) by (try apply PropLattice.wfM3; lia). reflexivity. }
  assert (HH : forall h, is_hnf 3 h -> allowed_size (det (b_base A) / det (b_base A)) (1/10) (det h) ->
     resolved 3 (mmul (b_base A) (RZ h)) /\ exists B, LLL (mmul (b_base A) (RZ h)) = Ok (Plain B)).
  { intros h Hh Hs. rewrite (K1 h Hh Hs). split; [exact resolved_mono|]. exists Bmono. exact LLL_mono. }
  assert (Hv : q_vol_th default_request < 1) by (cbn; lra).
  destruct (C79_locally_best_partial py3 eig default_request dCauchy 12 pmono 12 pmono _ _ _ _ _ _ A A (or_introl eq_refl) T AD T AD eq_refl eq_refl (le_n 1) Hv He HA HA Hr' RA RA ltac:(discriminate) HH)
    as (k0 & f0 & best & rest & Run & _).
  exists k0, f0, best, rest. split; [exact Run|].
  destruct (lat_cor_first py3 eig default_request dCauchy k0 f0 12 pmono 12 pmono _ _ _ _ _ _ A A (best :: rest) (or_introl eq_refl) T AD T AD eq_refl eq_refl (le_n 1) Hv He HA HA Hr' RA RA ltac:(discriminate) HH
    (Run k0 f0 (le_n _) (le_n _))) as (LG_A & LG_M & hs & rs & best' & rest' & H1 & H2 & H3 & H4 & E & _ & _ & h & l & d & r & Hh & RO & Hd). cbn [q_vol_th default_request] in *.
  injection E as <- <-. apply Rle_trans with d; [|exact Hd].
  assert (BA : base 3 (b_base A)) by (rewrite EA; exact base_mono). destruct (group_of _ BA RA) as (LG & HL & GA & _). assert (LG = LG_A) by congruence. subst LG.
  destruct (C54_positive_partial (det (b_base A) / det (b_base A)) (1/10) Hr' ltac:(lra)) as [_ Vp]. destruct (all_hnfs_total _ Vp) as (hs' & Hhs & Ihs).
  assert (hs' = hs) by congruence. subst hs'.
  destruct (reduce_hnfs_any py3 (or_introl eq_refl) 3 ltac:(lia) LG_A GA hs) as (rs' & Hrs & Sub & _); [intros h0 Hh0; now apply Ihs|].
  assert (rs' = rs) by congruence. subst rs'.
  assert (Hin : In h hs). { clear -Sub Hh. induction Sub; cbn in *; [destruct Hh|right; auto|destruct Hh as [->|Hh]; auto]. }
  apply Ihs in Hin. destruct Hin as [F1 F2]. apply vf_allowed in F2. rewrite (K1 h F1 F2), EA in RO.
  apply (lat_opt_mono eig LG_M 1 k0 f0 (le_n 1) far_3 He _ RO l d). now left.
Qed.
Print Assumptions C106_refuted.

(** Whatever the two lattices, a solution has distance 0 exactly when its stretch tensor is the identity; then the eigenvalues are 1. *)
Theorem C106_exact : forall D eig q k fuel idA pA idM pM sols sA ceA cA sM ceM cM,
  bravais_type 3 idA = Some (sA, ceA) -> admissible sA pA cA -> bravais_type 3 idM = Some (sM, ceM) -> admissible sM pM cM ->
  q_dim q = 3%Z -> eig_correct 3 eig -> lat_cor D eig q k fuel idA pA idM pM = Ok sols ->
  forall s o, In (s, o) sols -> 0 <= hd_ s /\ (hd_ s = 0 <-> o_u o = eye 3) /\ (hd_ s = 0 -> o_lams o = [1; 1; 1]).
Proof.
  intros D eig q k fuel idA pA idM pM sols sA ceA cA sM ceM cM TA AA TM AM Q3 He H s o Hin.
  destruct (C78_solutions_genuine D eig q k fuel idA pA idM pM sols sA ceA cA sM ceM cM TA AA TM AM Q3 He H) as (EA & BA & EM & BM & (WA & DA & _) & (WM & DM & _) & _ & H4).
  destruct (H4 s o Hin) as (w & _ & _ & G). assert (B2 : base 3 EM) by (split; [now right|now split]). split; [|split; [split|]].
  - destruct (g_F _ _ _ _ _ _ _ _ _ _ _ _ G) as (F & Fi & _ & _ & _ & _ & _ & _ & _ & _ & _ & HD). exact (has_distance_nonneg _ _ _ _ _ B2 HD).
  - intros E. rewrite E in G. now apply (genuine_zero w (q_vol_th q) EA EM BA BM (hh s) (hl s) (o_cor o) (o_u o) (o_lams o)).
  - intros E. rewrite E in G. exact (genuine_stretch _ _ _ _ _ _ _ _ _ _ _ WA B2 G).
  - intros E. rewrite E in G. now apply (genuine_zero w (q_vol_th q) EA EM BA BM (hh s) (hl s) (o_cor o) (o_u o) (o_lams o)).
Qed.
Print Assumptions C106_exact.

Lemma hnf_eye3 : is_hnf 3 (eye 3).
Proof.
  split; [apply wf_eye|]. split; [|split]; intros i; [intros j Hj|intros Hj|intros j Hj]; repeat (destruct i as [|i]; [|try lia]); try (destruct j as [|[|[|j]]]); try lia; cbn; lia.
Qed.
(** the first solution of a sublattice is at least as close as the reduced base the search starts from *)
Lemma lat_opt_not_worse eig o w E1 EM LG_M B k f r : base 3 E1 -> base 3 EM -> eig_correct 3 eig ->
  matrix_group 3 LG_M -> (forall M, In M LG_M -> isometry_of 3 EM (RZ M)) ->
  which_of (o_dist o) = Some w -> respects w LG_M -> (1 <= o_nsol o)%nat -> o_SOLG2 o = Some LG_M ->
  resolved 3 E1 -> LLL E1 = Ok (Plain B) -> lat_opt (fun C => fst (eig C)) o k f E1 EM = Ok r ->
  exists c d, In c r /\ snd c <= d /\ has_distance w B EM (mmul B (minv EM)) d.
Proof.
  intros B1 BM He GM IM Od Rw On Os R1 LL H. pose proof B1 as (_ & W1 & D1). pose proof BM as (_ & WM & DM).
  destruct (group_of E1 B1 R1) as (LG1 & HL & G1 & I1 & _). destruct (C58_start 3 E1 B B1 LL) as (lo & HS & Wlo & Dlo & EB).
  assert (HP : lattice_pair 3 E1 EM LG1 LG_M) by (split; [now right|]; tauto).
  destruct (distance_fn_of eig (o_dist o) w E1 EM W1 BM He Od) as (df & Hdf & HC). pose proof (computes_symmetric w E1 EM LG1 LG_M df HP Rw HC) as SY.
  set (mi := match o_miniter o with Some m => m | None => 3%nat end) in *. set (ma := match o_maxiter o with Some m => m | None => maxiter_by_nsol (o_nsol o) end) in *.
  destruct (lat_opt_total df LG1 LG_M G1 GM SY (computes_finite w E1 EM df B1 BM HC) (o_nsol o) On mi ma lo Wlo)
    as (k0 & f0 & r0 & Run & m & seen & (P1 & _ & P3 & _ & P5) & HF & Hm & Lm & Hle & _).
  assert (R0 : lat_opt (fun C => fst (eig C)) o (k + k0) (f + f0) E1 EM = Ok r0).
  { unfold lat_opt. cbv zeta. rewrite HS, Os. cbn [bind]. rewrite Hdf. cbn [bind]. rewrite (new_lattice_ok 3 E1 B1 E1 W1 D1). cbn [bind]. rewrite HL. cbn [bind].
    destruct W1 as [-> _]. apply Run; lia. }
  rewrite (lat_opt_fuel _ o k f (k + k0) (f + f0) E1 EM r W1 On ltac:(lia) ltac:(lia) H) in R0. injection R0 as <-.
  pose proof (HC lo Wlo) as HD. rewrite <- EB in HD.
  destruct (P5 _ Hm) as [(s & Hs & Eq)|[Hl Hlt]].
  - exists s, (df lo). split; [exact Hs|]. split; [|exact HD]. destruct (P3 s Hs) as [H1 H2]. rewrite H2.
    rewrite Forall_forall in HF. apply Rle_trans with (df (elem m)); [|exact Hle]. right. symmetry.
    assert (WF : forall x, In x seen -> wf 3 3 x) by (intros x Hx; destruct (HF x Hx) as (X & [WX _] & ->); now apply wfz3).
    apply SY; [now apply WF|now apply WF|exact Eq].
  - destruct r as [|c r]; [cbn in Hl; lia|]. exists c, (df lo). split; [now left|]. split; [|exact HD].
    specialize (Hlt c (or_introl eq_refl)). apply Ord.dlt_spec, Rleb_false in Hlt. lra.
Qed.

(** If the reduced base of the parent lattice is a rotation of the base of the product lattice, the first solution is a perfect match:
    distance 0, stretch tensor I and eigenvalues 1.  The product need not be described by the same parameters as the parent. *)
Theorem C106_perfect_partial : forall D eig q which idA pA idM pM sA ceA cA sM ceM cM A M B Q, D = py3 \/ D = py2 ->
  bravais_type 3 idA = Some (sA, ceA) -> admissible sA pA cA -> bravais_type 3 idM = Some (sM, ceM) -> admissible sM pM cM ->
  q_dim q = 3%Z ->
  match q_dist q with Cauchy => Some dCauchy | Ericksen => Some dEricksen | Strain => Some dStrain | OtherName => None end = Some which ->
  (1 <= q_nsol q)%nat -> q_vol_th q < 1 -> eig_correct 3 eig ->
  new_bravais idA pA 3 = Ok A -> new_bravais idM pM 3 = Ok M ->
  let EA := b_base A in let EM := b_base M in
  resolved 3 EA -> resolved 3 EM ->
  (forall L, which = dEricksen -> special_lattice_group EM = Ok L -> forall N, In N L -> orthogonal 3 (RZ N)) ->
  LLL EA = Ok (Plain B) -> orthogonal 3 Q -> det Q = 1 -> B = mmul Q EM ->
  exists k0 f0 best rest,
    (forall k f, (k0 <= k)%nat -> (f0 <= f)%nat -> lat_cor D eig q k f idA pA idM pM = Ok (best :: rest)) /\
    hd_ (fst best) = 0 /\ o_u (snd best) = eye 3 /\ o_lams (snd best) = [1; 1; 1].
Proof.
  intros D eig q which idA pA idM pM sA ceA cA sM ceM cM A M B Q HDv TA AA TM AM Q3 QC Qn Qv He HA HM EA EM RA RM HO LL OQ DQ EB.
  destruct (bravais_cell _ _ _ _ _ _ TA AA HA) as ((WEA & DEA & _) & _). fold EA in WEA, DEA. assert (BA : base 3 EA) by (split; [now right|now split]).
  destruct (bravais_cell _ _ _ _ _ _ TM AM HM) as ((WEM & DEM & _) & _). fold EM in WEM, DEM. assert (BM : base 3 EM) by (split; [now right|now split]).
  destruct (C58_start 3 EA B BA LL) as (lo & _ & Wlo & Dlo & EB').
  assert (Hr : det EM / det EA = 1).
  { assert (X : det (mmul EA (RZ lo)) = det (mmul Q EM)) by congruence. rewrite !(det_mmul 3), DQ, <- RZ_det, Dlo in X by (auto using d33, wf_RZ; apply OQ). rewrite Rmult_1_l, Rmult_1_r in X. rewrite X. field. lra. }
  assert (Hr' : 1/2 < det EM / det EA) by lra.
  assert (K1 : forall h, is_hnf 3 h -> allowed_size (det EM / det EA) (q_vol_th q) (det h) -> h = eye 3).
  { intros h Hh Hs. apply (hnf_one h Hh). rewrite Hr in Hs. destruct Hs as [[S1 S2]|[_ S]].
    - assert (0 < det h)%Z by (apply lt_IZR; lra). assert (det h < 2)%Z by (apply lt_IZR; lra). lia.
    - assert (0 < det h)%Z by (apply lt_IZR; unfold Rabs in S; destruct (Rcase_abs _); lra). assert (det h < 2)%Z by (apply lt_IZR; unfold Rabs in S; destruct (Rcase_abs _); lra). lia. }
  assert (HH : forall h, is_hnf 3 h -> allowed_size (det EM / det EA) (q_vol_th q) (det h) ->
     resolved 3 (mmul EA (RZ h)) /\ exists B, LLL (mmul EA (RZ h)) = Ok (Plain B)).
  { intros h Hh Hs. rewrite (K1 h Hh Hs), RZ_eye, (mmul_eye_r 3 3) by (auto; lia). split; [exact RA|]. eauto. }
  destruct (C79_locally_best_partial D eig q which idA pA idM pM _ _ _ _ _ _ A M HDv TA AA TM AM Q3 QC Qn Qv He HA HM Hr' RA RM HO HH) as (k0 & f0 & best & rest & Run & _).
  exists k0, f0, best, rest. split; [exact Run|]. pose proof (Run k0 f0 (le_n _) (le_n _)) as R0.
  destruct (lat_cor_first D eig q which k0 f0 idA pA idM pM _ _ _ _ _ _ A M (best :: rest) HDv TA AA TM AM Q3 QC Qn Qv He HA HM Hr' RA RM HO HH R0)
    as (LG_A & LG_M & hs & rs & best' & rest' & H1 & H2 & H3 & H4 & E & _ & HF & _).
  injection E as <- <-. fold EA EM in H1, H2, H3, HF.
  destruct (group_of EA BA RA) as (LG & HL & GA & _). assert (LG = LG_A) by congruence. subst LG.
  destruct (group_of EM BM RM) as (LG & HL' & GM & IM & _). assert (LG = LG_M) by congruence. subst LG.
  destruct (C54_positive_partial (det EM / det EA) (q_vol_th q) Hr' Qv) as [_ Vp]. destruct (all_hnfs_total _ Vp) as (hs' & Hhs & Ihs).
  assert (hs' = hs) by congruence. subst hs'.
  destruct (reduce_hnfs_any D HDv 3 ltac:(lia) LG_A GA hs) as (rs' & Hrs & Sub & Rep); [intros h0 Hh0; now apply Ihs|].
  assert (rs' = rs) by congruence. subst rs'.
  assert (Inc : forall h, In h rs -> In h hs). { clear -Sub. induction Sub; cbn; intros h Hh; [destruct Hh|right; auto|destruct Hh as [->|Hh]; auto]. }
  assert (I1 : is_hnf 3 (eye 3)) by exact hnf_eye3.
  assert (Ie : In (eye 3) hs).
  { apply Ihs. split; [exact I1|]. apply required_in. rewrite Hr. change (det (eye 3)) with 1%Z. destruct (Rle_lt_dec 0 (q_vol_th q)) as [V|V].
    - left. unfold within_threshold. lra.
    - right. split; [intros (k' & K & K'); lra|]. rewrite Rminus_diag_eq, Rabs_R0 by reflexivity. lra. }
  destruct (Rep _ Ie) as (y & Hy & _). pose proof (Inc y Hy) as Hy'. apply Ihs in Hy'. destruct Hy' as [F1 F2]. apply vf_allowed in F2. pose proof (K1 y F1 F2) as ->.
  destruct (HF _ Hy) as (r & RO & Hall). rewrite RZ_eye, (mmul_eye_r 3 3) in RO by (auto; lia).
  assert (Rw : respects which LG_M) by (destruct which; cbn [respects]; auto; now apply HO).
  destruct (lat_opt_not_worse eig {| o_nsol := q_nsol q; o_dist := q_dist q; o_maxiter := q_maxiter q; o_miniter := q_miniter q; o_SOLG2 := Some LG_M |} which EA EM LG_M B k0 f0 r BA BM He GM IM QC Rw Qn eq_refl RA LL RO) as (c & d & Hc & Hcd & HD).
  assert (D0 : d = 0) by exact (has_distance_unique which B EM _ d 0 BM HD (has_distance_rotated which B EM Q BM OQ EB)).
  pose proof (Hall c Hc) as Hb. destruct best as [s o]. cbn [fst snd] in *.
  destruct (C106_exact D eig q k0 f0 idA pA idM pM _ _ _ _ _ _ _ TA AA TM AM Q3 He R0 s o (or_introl eq_refl)) as (N0 & [Z1 _] & Z2).
  assert (S0 : hd_ s = 0) by lra. auto.
Qed.
Print Assumptions C106_perfect_partial.

(** In particular a lattice whose base LLL leaves as it is matches itself.  Missing: the bases LLL changes, for which the claim fails
    ([C106_refuted]), and lattices whose symmetries the tolerances do not resolve. *)
Theorem C106_self_partial : forall D eig q which id p s ce c A, D = py3 \/ D = py2 ->
  bravais_type 3 id = Some (s, ce) -> admissible s p c -> q_dim q = 3%Z ->
  match q_dist q with Cauchy => Some dCauchy | Ericksen => Some dEricksen | Strain => Some dStrain | OtherName => None end = Some which ->
  (1 <= q_nsol q)%nat -> q_vol_th q < 1 -> eig_correct 3 eig ->
  new_bravais id p 3 = Ok A -> let E := b_base A in resolved 3 E ->
  (forall L, which = dEricksen -> special_lattice_group E = Ok L -> forall N, In N L -> orthogonal 3 (RZ N)) ->
  lovasz 3 E -> size_reduced 3 E ->
  exists k0 f0 best rest,
    (forall k f, (k0 <= k)%nat -> (f0 <= f)%nat -> lat_cor D eig q k f id p id p = Ok (best :: rest)) /\
    hd_ (fst best) = 0 /\ o_u (snd best) = eye 3 /\ o_lams (snd best) = [1; 1; 1].
Proof.
  intros D eig q which id p s ce c A HDv T AD Q3 QC Qn Qv He HA E RE HO Lo Si.
  destruct (bravais_cell _ _ _ _ _ _ T AD HA) as ((WE & DE & _) & _). fold E in WE, DE. assert (BE : base 3 E) by (split; [now right|now split]).
  apply (C106_perfect_partial D eig q which id p id p s ce c s ce c A A E (eye 3)); auto.
  - now apply (C99_reduced_unchanged 3).
  - apply orth_eye. lia.
  - mat_unfold_goal. lra.
  - fold E. rewrite (mmul_eye_l 3 3) by (auto; lia). reflexivity.
Qed.
Print Assumptions C106_self_partial.

(** The cubic lattice with edge 1, for two of the distances. *)
Example C106_case : forall eig name, eig_correct 3 eig -> name = Cauchy \/ name = Strain -> exists k f best rest,
  lat_cor py3 eig {| q_nsol := 1; q_vol_th := 1/10; q_dim := 3; q_dist := name; q_maxiter := None; q_miniter := None |} k f 1 [1] 1 [1] = Ok (best :: rest) /\
  hd_ (fst best) = 0 /\ o_u (snd best) = eye 3 /\ o_lams (snd best) = [1; 1; 1].
Proof.
  intros eig name He Hn. destruct case_admissible as (T1 & A1 & _). destruct case_bases as ((A & HA & EA) & _).
  set (q := {| q_nsol := 1; q_vol_th := 1/10; q_dim := 3; q_dist := name; q_maxiter := None; q_miniter := None |}).
  destruct (C106_perfect_partial py3 eig q (if match name with Strain => true | _ => false end then dStrain else dCauchy) 1 [1] 1 [1] _ _ _ _ _ _ A A (eye 3) (eye 3) (or_introl eq_refl) T1 A1 T1 A1)
    as (k0 & f0 & best & rest & H & K); auto.
  - destruct Hn as [-> | ->]; reflexivity.
  - cbn. lra.
  - rewrite EA. apply resolved_tet. now left.
  - rewrite EA. apply resolved_tet. now left.
  - intros L E. destruct Hn as [-> | ->]; discriminate.
  - rewrite EA. exact LLL_eye.
  - apply orth_eye. lia.
  - mat_unfold_goal. lra.
  - rewrite EA. change (Etet 1) with (@eye R _ 3). rewrite (mmul_eye_l 3 3) by (try apply wf_eye; lia). reflexivity.
  - exists k0, f0, best, rest. split; [apply H; lia|exact K].
Qed.
(** Its base is reduced. *)
Example C106_reduced_case : lovasz 3 (Etet 1) /\ size_reduced 3 (Etet 1).
Proof.
  set (a := [1; 0; 0] : vec R). set (b := [0; 1; 0] : vec R). set (c := [0; 0; 1] : vec R). change (Etet 1) with (tr [a; b; c]).
  assert (Da : dot a a = 1) by (unfold a; un; lra).
  assert (C1 : c1 a b = [0; 1; 0]) by (unfold c1, mu; rewrite Da; unfold a, b; un; apply l3; lra).
  assert (C1' : c1 a c = [0; 0; 1]) by (unfold c1, mu; rewrite Da; unfold a, c; un; apply l3; lra).
  split.
  - apply lovasz3; auto; [lra|]; rewrite C1, C1', Da; unfold b; un; split; lra.
  - intros i j Hj Hi. assert ((i = 1 /\ j = 0) \/ (i = 2 /\ j = 0) \/ (i = 2 /\ j = 1))%nat as [[-> ->]|[[-> ->]|[-> ->]]] by lia;
      [rewrite small3_10|rewrite small3_20|rewrite small3_21]; auto; try lra; rewrite ?C1, ?Da; unfold a, b, c; un; rewrite Rabs_pos_eq; lra.
Qed.
