(** Property C104: asking for more.  Model: TreeModel.v, LatCorModel.v.  In the statements [k] and [fuel] bound the numbers of turns of
    the while loops; a run that returns Ok has ended. *)
From Verif Require Import LinAlg Spectral GroupProofs HnfSpec BravaisModel LatticeModel LatticeSpec LatticeProofs LatticeLaue BravaisSpec LLLModel TreeSpec TreeLatOpt DirectProofs LatCorModel LatCorSpec LatCorProofs LatCorDist LatCorTotal DirectConcSpec
  LatCorCase DepthProofs StopProofs MoreProofs HnfSearchModel ReduceModel MoreCor HnfSearchConc HnfSearchAsync VolMore PropOutput PropLattice PropLLL.
Local Open Scope R_scope.

Lemma distance_fn_of eig name which E1 E2 : wf 3 3 E1 -> base 3 E2 -> eig_correct 3 eig -> which_of name = Some which ->
  exists f, distance_fn (fun C => fst (eig C)) name E1 E2 = Ok (Some f) /\ computes which E1 E2 f.
Proof.
  intros W B He Hw. assert (N : name <> OtherName) by (intros ->; discriminate). destruct (distance_exists eig name E1 E2 W B He N) as (w & f & E & H1 & H2).
  assert (w = which) by (unfold which_of in *; congruence). subst w. eauto.
Qed.
Lemma default_depth_mono n n' : (n <= n')%nat -> (maxiter_by_nsol n <= maxiter_by_nsol n')%nat.
Proof.
  intros H. unfold maxiter_by_nsol. destruct (Nat.ltb_spec n 3), (Nat.ltb_spec n' 3), (Nat.ltb_spec n 10), (Nat.ltb_spec n' 10); lia.
Qed.

(** A request for at least as many solutions and at least the depth, where the depth may be left to the default in both requests, has for
    every position of the smaller request a solution there that is at least as close.  For lattices whose symmetries the tolerances resolve;
    for the Ericksen distance the symmetries of the product lattice must be orthogonal matrices in its base (C43). *)
Theorem C104_more_partial : forall eig which name nsol nsol' maxiter maxiter' mi G2 E1 E2 k fuel k' fuel' sols sols',
  base 3 E1 -> base 3 E2 -> resolved 3 E1 -> resolved 3 E2 -> eig_correct 3 eig ->
  match name with Cauchy => Some dCauchy | Ericksen => Some dEricksen | Strain => Some dStrain | OtherName => None end = Some which ->
  (forall L, which = dEricksen -> special_lattice_group E2 = Ok L -> forall N, In N L -> orthogonal 3 (RZ N)) ->
  (forall G, G2 = Some G -> special_lattice_group E2 = Ok G) ->
  (1 <= nsol <= nsol')%nat ->
  match maxiter, maxiter' with Some n, Some n' => (n <= n')%nat | None, None => True | _, _ => False end ->
  lat_opt (fun C => fst (eig C)) {| o_nsol := nsol; o_dist := name; o_maxiter := maxiter; o_miniter := mi; o_SOLG2 := G2 |} k fuel E1 E2 = Ok sols ->
  lat_opt (fun C => fst (eig C)) {| o_nsol := nsol'; o_dist := name; o_maxiter := maxiter'; o_miniter := mi; o_SOLG2 := G2 |} k' fuel' E1 E2 = Ok sols' ->
  forall i l d, (i < nsol)%nat -> nth_error sols i = Some (l, d) -> exists l' d', nth_error sols' i = Some (l', d') /\ d' <= d.
Proof.
  intros eig which name nsol nsol' ma ma' mi G2 E1 E2 k fuel k' fuel' sols sols' B1 B2 R1 R2 He Hw HO HG [Hn Hnn] Hma H H' i l d Hi Hl.
  pose proof (proj1 (proj2 B1)) as W1. destruct (group_of E1 B1 R1) as (LG1 & HL1 & G1 & I1 & _). destruct (group_of E2 B2 R2) as (LG2 & HL2 & GG2 & I2 & _).
  assert (HP : lattice_pair 3 E1 E2 LG1 LG2) by (split; [now right|]; pose proof B1 as (_ & ? & ?); pose proof B2 as (_ & ? & ?); tauto).
  destruct (distance_fn_of eig name which E1 E2 W1 B2 He Hw) as (f & Hf & HC).
  assert (Rw : respects which LG2) by (destruct which; cbn [respects]; auto; now apply HO). pose proof (computes_symmetric which E1 E2 LG1 LG2 f HP Rw HC) as SY.
  assert (E : match G2 with Some g => Ok g | None => let* L2 := new_lattice E2 in special_lattice_group L2 end = Ok LG2).
  { destruct G2 as [g|]; [rewrite <- HL2; symmetry; now apply HG|]. rewrite (new_lattice_ok 3 E2 B2 E2 (proj1 (proj2 B2)) (proj2 (proj2 B2))). exact HL2. }
  pose proof (new_lattice_ok 3 E1 B1 E1 W1 (proj2 (proj2 B1))) as N1.
  unfold lat_opt in H, H'. cbn [o_nsol o_dist o_maxiter o_miniter o_SOLG2] in H, H'.
  destruct (start_point E1) as [lo| |] eqn:HS; cbn [bind] in *; try discriminate. destruct (start_ok E1 lo W1 HS) as [_ [Wlo _]].
  rewrite Hf, N1 in H, H'. cbn [bind] in H, H'. rewrite HL1 in H, H'. cbn [bind] in H, H'. rewrite E in H, H'. cbn [bind] in H, H'. destruct W1 as [EL _]. rewrite EL in H, H'.
  assert (Hmm : (match ma with Some m => m | None => maxiter_by_nsol nsol end <= match ma' with Some m => m | None => maxiter_by_nsol nsol' end)%nat).
  { destruct ma, ma'; try contradiction; auto using default_depth_mono. }
  destruct (lat_opt_more f LG1 LG2 G1 GG2 SY nsol nsol' Hn Hnn _ lo Wlo _ _ Hmm k fuel k' fuel' sols sols' H H' i (l, d) Hi Hl) as ([l' d'] & A & B). eauto.
Qed.
Print Assumptions C104_more_partial.

(** The same for the whole of lat_cor, for the first solution: with more solutions asked for, a larger maximum depth or a larger volume threshold, it is at least as close.
    Missing: the other solutions, which lat_cor merges from the sublattices (C52). *)
Theorem C104_first_partial : forall D eig q q' which idA pA idM pM sA ceA cA sM ceM cM A M k fuel k' fuel' sols sols', D = py3 \/ D = py2 ->
  bravais_type 3 idA = Some (sA, ceA) -> admissible sA pA cA -> bravais_type 3 idM = Some (sM, ceM) -> admissible sM pM cM ->
  q_dim q = 3%Z -> q_dim q' = 3%Z ->
  match q_dist q with Cauchy => Some dCauchy | Ericksen => Some dEricksen | Strain => Some dStrain | OtherName => None end = Some which ->
  q_dist q' = q_dist q -> q_vol_th q <= q_vol_th q' -> q_miniter q' = q_miniter q ->
  (1 <= q_nsol q <= q_nsol q')%nat ->
  match q_maxiter q, q_maxiter q' with Some n, Some n' => (n <= n')%nat | None, None => True | _, _ => False end ->
  q_vol_th q' < 1 -> eig_correct 3 eig ->
  new_bravais idA pA 3 = Ok A -> new_bravais idM pM 3 = Ok M ->
  let EA := b_base A in let EM := b_base M in let ratio := det EM / det EA in
  1/2 < ratio -> resolved 3 EA -> resolved 3 EM ->
  (forall L, which = dEricksen -> special_lattice_group EM = Ok L -> forall N, In N L -> orthogonal 3 (RZ N)) ->
  (forall h, is_hnf 3 h -> allowed_size ratio (q_vol_th q') (det h) ->
     resolved 3 (mmul EA (RZ h)) /\ exists B, LLL (mmul EA (RZ h)) = Ok (Plain B)) ->
  lat_cor D eig q k fuel idA pA idM pM = Ok sols -> lat_cor D eig q' k' fuel' idA pA idM pM = Ok sols' ->
  exists best rest best' rest', sols = best :: rest /\ sols' = best' :: rest' /\ hd_ (fst best') <= hd_ (fst best).
Proof.
  intros D eig q q' which idA pA idM pM sA ceA cA sM ceM cM A M k fuel k' fuel' sols sols' HDv TA AA TM AM Q3 Q3' QC Ed Ev Em [Hn Hnn] Hma Qv He HA HM EA EM ratio Hr RA RM HO HH H H'.
  destruct (lat_cor_first D eig q which k fuel idA pA idM pM sA ceA cA sM ceM cM A M sols) as (LG_A & LG_M & hs & rs & best & rest & H1 & H2 & H3 & H4 & -> & HB & _ & h & l & d & r & Hh & E & Hd); auto;
    [lra|intros h0 F0 S0; apply (HH h0 F0); apply (allowed_more _ (q_vol_th q)); auto; lra|].
  destruct (lat_cor_first D eig q' which k' fuel' idA pA idM pM sA ceA cA sM ceM cM A M sols') as (LG_A' & LG_M' & hs' & rs' & best' & rest' & H1' & H2' & H3' & H4' & -> & _ & HF & _); auto;
    [now rewrite Ed|lia|].
  exists best, rest, best', rest'. split; [reflexivity|]. split; [reflexivity|].
  rewrite H1 in H1'. injection H1' as <-. rewrite H2 in H2'. injection H2' as <-. 
  destruct (bravais_cell _ _ _ _ _ _ TA AA HA) as ((WEA & DEA & _) & _). fold EA in WEA, DEA. assert (BA : base 3 EA) by (split; [now right|now split]).
  destruct (group_of EA BA RA) as (LG & HL & GA & _). assert (LG = LG_A) by (unfold EA in HL; congruence). subst LG.
  assert (Hh' : In h rs').
  { apply (reduce_more D LG_A _ _ hs hs' rs rs' HDv GA (vol_factors_nodup ratio (q_vol_th q)) (vol_factors_nodup ratio (q_vol_th q'))); auto.
    - exact (proj2 (vol_pos ratio (q_vol_th q') Hr Qv)).
    - apply vf_more; [lra|exact Ev]. }
  destruct (HF h Hh') as (r' & E' & Hall). destruct (HB h Hh) as [B1 R1].
  destruct (bravais_cell _ _ _ _ _ _ TM AM HM) as ((WEM & DEM & _) & _). fold EM in WEM, DEM. assert (BM : base 3 EM) by (split; [now right|now split]).
  rewrite Ed, Em in E'.
  destruct (C104_more_partial eig which (q_dist q) (q_nsol q) (q_nsol q') (q_maxiter q) (q_maxiter q') (q_miniter q) (Some LG_M) (mmul EA (RZ h)) EM k fuel k' fuel' ((l, d) :: r) r'
    B1 BM R1 RM He QC HO ltac:(intros G EG; injection EG as <-; exact H2) (conj Hn Hnn) Hma E E' 0%nat l d ltac:(lia) eq_refl) as (l' & d' & Hl' & Hle).
  pose proof (Hall (l', d') ltac:(now apply nth_error_In in Hl')) as K. cbn [snd] in K. lra.
Qed.
Print Assumptions C104_first_partial.

(** The cubic lattice against the tetragonal one, one solution and three: both runs end and the hypotheses are met. *)
Example C104_case : forall eig, eig_correct 3 eig -> exists LG k f sols sols', let run n :=
    lat_opt (fun C => fst (eig C)) {| o_nsol := n; o_dist := Cauchy; o_maxiter := None; o_miniter := None; o_SOLG2 := Some LG |} k f (Etet 1) (Etet (21/20)) in
  run 1%nat = Ok sols /\ run 3%nat = Ok sols' /\ special_lattice_group (Etet (21/20)) = Ok LG /\
  base 3 (Etet 1) /\ base 3 (Etet (21/20)) /\ resolved 3 (Etet 1) /\ resolved 3 (Etet (21/20)).
Proof.
  intros eig He. assert (B1 : base 3 (Etet 1)) by (apply base3; lra). assert (BM : base 3 (Etet (21/20))) by (apply base3; lra).
  pose proof (resolved_tet 1 (or_introl eq_refl)) as R1. pose proof (resolved_tet (21/20) (or_intror eq_refl)) as R2.
  destruct (group_of _ BM R2) as (LG & HL & _).
  destruct (lat_opt_runs eig {| o_nsol := 1; o_dist := Cauchy; o_maxiter := None; o_miniter := None; o_SOLG2 := Some LG |} (Etet 1) (Etet (21/20)) LG (eye 3)
    B1 BM He ltac:(discriminate) eq_refl LLL_eye) as (k1 & f1 & sols1 & Run1).
  destruct (lat_opt_runs eig {| o_nsol := 3; o_dist := Cauchy; o_maxiter := None; o_miniter := None; o_SOLG2 := Some LG |} (Etet 1) (Etet (21/20)) LG (eye 3)
    B1 BM He ltac:(discriminate) eq_refl LLL_eye) as (k2 & f2 & sols2 & Run2).
  exists LG, (k1 + k2)%nat, (f1 + f2)%nat, sols1, sols2. cbv zeta. split; [apply Run1; lia|]. split; [apply Run2; lia|]. auto.
Qed.

(** And the whole of lat_cor on this pair, for one solution with the threshold 0, where no size is allowed and the nearest one is taken,
    and for three solutions with the threshold 1/10. *)
Example C104_first_case : forall eig, eig_correct 3 eig -> exists k f best rest best' rest', let run n v :=
    lat_cor py3 eig {| q_nsol := n; q_vol_th := v; q_dim := 3; q_dist := Cauchy; q_maxiter := None; q_miniter := None |} k f 1 [1] 6 [1; 21/20] in
  run 1%nat 0 = Ok (best :: rest) /\ run 3%nat (1/10) = Ok (best' :: rest') /\ hd_ (fst best') <= hd_ (fst best).
Proof.
  intros eig He. destruct case_admissible as (T1 & A1 & T2 & A2). destruct case_bases as ((A & HA & EA) & (M & HM & EM)).
  set (q n v := {| q_nsol := n; q_vol_th := v; q_dim := 3; q_dist := Cauchy; q_maxiter := None; q_miniter := None |}).
  assert (Hv : q_vol_th (q 3%nat (1/10)) < 1) by (cbn; lra). assert (Hr : 1/2 < det (b_base M) / det (b_base A)) by (rewrite EA, EM, !det_Etet; lra).
  assert (RA : resolved 3 (b_base A)) by (rewrite EA; apply resolved_tet; now left). assert (RM : resolved 3 (b_base M)) by (rewrite EM; apply resolved_tet; now right).
  assert (HH : forall h, is_hnf 3 h -> allowed_size (det (b_base M) / det (b_base A)) (1/10) (det h) ->
     resolved 3 (mmul (b_base A) (RZ h)) /\ exists B, LLL (mmul (b_base A) (RZ h)) = Ok (Plain B)).
  { intros h Hh Hs. rewrite EA, EM, !det_Etet in Hs. replace (21/20/1) with (21/20) in Hs by lra.
    apply case_size in Hs. rewrite EA, (hnf_one h Hh Hs), RZ_eye, (mmul_eye_r 3 3) by (try apply PropLattice.wfM3; lia).
    split; [apply resolved_tet; now left|]. exists (eye 3). exact LLL_eye. }
  assert (HH0 : forall h, is_hnf 3 h -> allowed_size (det (b_base M) / det (b_base A)) 0 (det h) ->
     resolved 3 (mmul (b_base A) (RZ h)) /\ exists B, LLL (mmul (b_base A) (RZ h)) = Ok (Plain B)).
  { intros h a b. apply (HH h a). apply (allowed_more _ 0); [lra|lra|exact b]. }
  destruct (lat_cor_ends py3 eig (q 1%nat 0) 1 [1] 6 [1; 21/20] _ _ _ _ _ _ A M (or_introl eq_refl) T1 A1 T2 A2 eq_refl ltac:(discriminate) ltac:(cbn; lra) He HA HM Hr RA
    (fun h a b => proj2 (HH0 h a b))) as (k1 & f1 & s1 & Run1).
  destruct (lat_cor_ends py3 eig (q 3%nat (1/10)) 1 [1] 6 [1; 21/20] _ _ _ _ _ _ A M (or_introl eq_refl) T1 A1 T2 A2 eq_refl ltac:(discriminate) Hv He HA HM Hr RA
    (fun h a b => proj2 (HH h a b))) as (k2 & f2 & s2 & Run2).
  pose proof (Run1 (k1 + k2)%nat (f1 + f2)%nat ltac:(lia) ltac:(lia)) as E1. pose proof (Run2 (k1 + k2)%nat (f1 + f2)%nat ltac:(lia) ltac:(lia)) as E2.
  destruct (C104_first_partial py3 eig (q 1%nat 0) (q 3%nat (1/10)) dCauchy 1 [1] 6 [1; 21/20] _ _ _ _ _ _ A M _ _ _ _ s1 s2 (or_introl eq_refl) T1 A1 T2 A2 eq_refl eq_refl eq_refl eq_refl ltac:(cbn; lra) eq_refl
    ltac:(cbn; lia) I Hv He HA HM Hr RA RM ltac:(discriminate) HH E1 E2) as (b & r & b' & r' & -> & -> & Hle).
  exists (k1 + k2)%nat, (f1 + f2)%nat, b, r, b', r'. cbv zeta. fold (q 1%nat 0) (q 3%nat (1/10)). auto.
Qed.
