(** Cases for C83-C85: lat_cor_direct on two square lattices. *)
From Verif Require Import LinAlg Hom Eig RMat GroupModel GroupSpec GroupProofs LatticeModel LatticeSpec LatticeProofs LatticeLaue LatticeGroups
  BravaisModel BravaisSpec BravaisProofs DistModel DistSpec DistProofs VecGenModel VecGenProofs DirectSpec DirectProofs DirectTransfer
  DirectConcrete DirectConcSpec DirectConcProofs DirectExample DirectGlobal
  OutputModel OutputProofs PropOutput PropLattice PropBravais LatCorProofs DirectCorModel DirectCorSpec DirectCorProofs.
Local Open Scope R_scope.

Definition Esq (a : R) : mat R := M2 a 0 0 a.
Lemma base_sq a : 0 < a -> base 2 (Esq a).
Proof. intros H. apply base2. nra. Qed.
Lemma sq_comm a Q : wf 2 2 Q -> mmul Q (Esq a) = mmul (Esq a) Q.
Proof.
  intros W. destruct (wf2_inv Q W) as (p & q & r & s & ->). unfold Esq. meq ltac:(ring).
Qed.
Lemma resolved_sq a : 0 < a -> resolved 2 (Esq a).
Proof.
  intros Ha. pose proof (base_sq a Ha) as B. destruct C1S1 as (HC2 & HC & HS).
  intros Q HQ HA. pose proof (tabled_orth 2 Q ltac:(now left) HQ) as OQ.
  cbn [tabled_isometries Nat.eqb] in HQ. apply in_app_iff in HQ.
  assert (KZ : forall M : mat Z, wf 2 2 M -> Q = RZ M -> preserves 2 Q (Esq a)).
  { intros M WM ->. apply (preserves_iff 2 _ B); [exact OQ|]. exists M. split; [exact WM|]. apply sq_comm. now apply wf_RZ. }
  assert (KF : get Q 0 0 = C1 \/ get Q 0 0 = - C1 -> preserves 2 Q (Esq a)).
  { intros HQ0. exfalso. rewrite (inpoint_red 2 _ B) in HA; [|exact OQ]. cbn [values] in HA.
    assert (WQ : wf 2 2 (mmul Q (Esq a))) by (apply (wf_mmul 2 2 2); [apply OQ|apply wfM2|lia]).
    apply (lat_eq_near 2 _ B) in HA; [|exact WQ].
    rewrite (proj1 (solve_left 2 _ B Q _ WQ (proj1 OQ))) in HA by (apply sq_comm; apply OQ).
    specialize (HA 0%nat 0%nat ltac:(lia) ltac:(lia)).
    set (z := get (rintm Q) 0 0) in HA. clearbody z. rewrite HC in HQ0.
    assert (Z : (z <= -1 \/ z = 0 \/ 1 <= z)%Z) by lia.
    destruct Z as [Z|[->|Z]]; [apply IZR_le in Z| |apply IZR_le in Z]; revert HA; destruct HQ0 as [-> | ->]; rabs; lra. }
  destruct HQ as [HQ|HQ].
  - apply in_map_iff in HQ. destruct HQ as (M & <- & HM). apply (KZ M); [|reflexivity]. apply square_ext_iff in HM. apply HM.
  - unfold HEX2D_EXT_GROUP in HQ. cbn in HQ.
    repeat (destruct HQ as [HQ|HQ]; [first [apply KF; rewrite <- HQ; cbn; lra
      | apply (KZ [[1;0];[0;1]]%Z); [apply wfZ2|now rewrite <- HQ] | apply (KZ [[-1;0];[0;-1]]%Z); [apply wfZ2|now rewrite <- HQ]
      | apply (KZ [[1;0];[0;-1]]%Z); [apply wfZ2|now rewrite <- HQ] | apply (KZ [[-1;0];[0;1]]%Z); [apply wfZ2|now rewrite <- HQ] ]|]). destruct HQ.
Qed.
Lemma group_sq a : 0 < a -> lattice_group (Esq a) = Ok SQUARE_EXT_GROUP.
Proof.
  intros Ha. pose proof (base_sq a Ha) as B.
  assert (K : forall T, incl T SQUARE_EXT_GROUP -> keep (Esq a) (map IntArr T) = Ok (map RZ T)).
  { induction T as [|M T IH]; intros HT; [reflexivity|]. cbn [map keep].
    assert (HM : In M SQUARE_EXT_GROUP) by (apply HT; now left).
    pose proof (ztable_isometry 2 SQUARE_EXT_GROUP M ltac:(lia) eq_refl HM) as (WM & _).
    assert (OM : orthogonal 2 (RZ M)). { destruct (ztable_good 2 SQUARE_EXT_GROUP eq_refl) as [_ HO]. apply (HO (RZ M)). now apply in_map. }
    assert (wf 2 2 M) by (apply square_ext_iff in HM; apply HM).
    rewrite (inpoint_preserves 2 _ B (IntArr M)).
    - cbn [bind]. rewrite IH by (intros x Hx; apply HT; now right). reflexivity.
    - apply (proj2 square_ext_T). unfold square_ext_arr. now apply in_map.
    - cbn [values]. apply (preserves_iff 2 _ B); [exact OM|]. exists M. split; [assumption|]. now apply sq_comm. }
  unfold lattice_group, point_group. rewrite (len_base 2 _ B). unfold pick_group, square_ext_arr. rewrite K by apply incl_refl. cbn [bind].
  rewrite map_length. change (length SQUARE_EXT_GROUP =? 4)%nat with false. cbn iota. cbn [bind]. rewrite (to_integer_rep_ok 2 _ B). f_equal.
  rewrite map_map. rewrite <- (map_id SQUARE_EXT_GROUP) at 2. apply map_ext_in. intros M HM.
  assert (WM : wf 2 2 M) by (apply square_ext_iff in HM; apply HM). unfold irep.
  rewrite (proj1 (solve_left 2 _ B (RZ M) _ (wfmul 2 _ _ ltac:(lia) (wf_RZ 2 2 M WM) (proj1 (proj2 B))) (wf_RZ 2 2 M WM))) by (apply sq_comm; now apply wf_RZ).
  apply rintm_RZ.
Qed.

(** * Square lattices with edges 1 and e *)
Section Edges.
  Variable e : R.
  Hypothesis He : 0 < e.
  Lemma minv_sq : minv (Esq e) = Esq (1 / e).
  Proof.
    pose proof (base_sq e He) as (Hd & W & D).
    rewrite <- (mmul_eye_r 2 2 (minv (Esq e))) by (try lia; now apply wf_minv).
    assert (E : mmul (Esq e) (Esq (1 / e)) = eye 2) by (unfold Esq; mat_eq ltac:(try field; lra)).
    rewrite <- E, <- (mmul_assoc 2 2 2 2), (minv_l 2), (mmul_eye_l 2 2) by (auto; try lia; try apply wfM2; now apply wf_minv). reflexivity.
  Qed.
  Lemma Finv_sq (L : mat R) : wf 2 2 L -> Finv_of (Esq 1) L (minv (Esq e)) = mscale (1 / e) L.
  Proof.
    intros W. destruct (wf2_inv L W) as (p & q & r & s & ->). rewrite minv_sq. unfold Finv_of, Esq. mat_eq ltac:(field; lra).
  Qed.
  Lemma bound_sq : quartic_bound 2 (Esq 1) (Esq e) (1 / (2 * e ^ 4)).
  Proof.
    assert (P4 : 0 < e ^ 4) by (now apply pow_lt). split; [apply Rdiv_lt_0_compat; lra|]. intros u Lu Hu.
    pose proof (base_sq e He) as (Hd & W & D). pose proof (base_sq 1 Rlt_0_1) as (_ & W1 & D1).
    rewrite (quartic_is_fro 2) by (try lia; auto; now apply wf_minv). cbn zeta. set (L := reshape 2 u). assert (WL : wf 2 2 L) by apply wf_reshape.
    rewrite (Finv_sq L WL). assert (WS : wf 2 2 (mscale (1 / e) L)) by (rewrite <- (Finv_sq L WL); apply wf_Finv; auto; try lia; now apply wf_minv).
    pose proof (fro2_gram_lower 2 _ ltac:(lia) WS) as G.
    rewrite (len2_fro 2) in Hu by exact Lu. fold L in Hu.
    assert (EF : fro2 2 2 (mscale (1 / e) L) = 1 / (e * e)).
    { replace (1 / (e * e)) with (1 / (e * e) * fro2 2 2 L) by (rewrite Hu; ring). destruct (wf2_inv L WL) as (p & q & r & s & ->). unfold fro2. cbn. field. lra. }
    rewrite EF in G. replace (INR 2) with 2 in G by (cbn; lra).
    replace (1 / (2 * e ^ 4)) with ((1 / (e * e)) ^ 2 / 2) by (field; lra). lra.
  Qed.
  Lemma bravais_sq a : 0 < a -> bravais_type 2 1 = Some (Square, P) /\ admissible Square [a] (mk_cell a a 0 0 0 90) /\
    exists A, new_bravais 1 [a] 2 = Ok A /\ b_base A = Esq a.
  Proof.
    intros Ha. assert (AD : admissible Square [a] (mk_cell a a 0 0 0 90)).
    { split; [reflexivity|]. split; [intros x [<-|[]]; exact Ha|]. unfold volume_factor. cbn. rewrite cosd90. lra. }
    split; [reflexivity|]. split; [exact AD|]. destruct (C17_conventional_cell 2 1 _ _ _ _ (eq_refl : bravais_type 2 1 = Some (Square, P)) AD) as (b & H & _).
    exists b. split; [exact H|]. revert H. unfold new_bravais. destruct (existsb _ _); [discriminate|]. cbn [Z.eqb Pos.eqb]. cbn -[inv new_lattice].
    intros H. apply bindOk in H. destruct H as (C & _ & H).
    change (fst (base2D (Pos.to_nat 1) [a])) with (Esq a) in H.
    rewrite (new_lattice_ok 2 (Esq a)) in H; [|now apply base_sq|apply wfM2|now apply base_sq].
    cbn [bind] in H. injection H as <-. reflexivity.
  Qed.

  (** an environment: scipy finds the minimum, the given random matrices *)
  Definition sq_world (eig : mat R -> list R * mat R) (shifts : list (mat Z)) : world :=
    {| w_eig := eig; w_min := Scipy (fun _ => [/ sqrt 2; 0; 0; / sqrt 2]); w_draws := fun _ => [1; 0; 0; 0];
       w_shifts := shifts; w_order := fun l => l |}.
  Lemma min_of_same v k : min_of (repeat v (S k)) = Some v.
  Proof.
    unfold min_of. cbn [repeat fold_left]. induction k as [|k IH]; [reflexivity|]. cbn [repeat fold_left]. rewrite Rmin_left by lra. exact IH.
  Qed.
  Lemma map_same {X Y} (f : X -> Y) y l : (forall x, In x l -> f x = y) -> map f l = repeat y (length l).
  Proof. induction l as [|x l IH]; intros H; [reflexivity|]. cbn. rewrite H by (now left). f_equal. apply IH. intros z Hz. apply H. now right. Qed.
  Lemma mapM_same {X Y} (f : X -> res Y) y l : (forall x, In x l -> f x = Ok y) -> mapM f l = Ok (repeat y (length l)).
  Proof. induction l as [|x l IH]; intros H; [reflexivity|]. cbn. rewrite H by (now left). cbn. rewrite IH by (intros z Hz; apply H; now right). reflexivity. Qed.
  Lemma quart_sq eig shifts : quart_min (sq_world eig shifts) (2 * 2) (quartic_D 2 (Esq 1) (minv (Esq e))) = Ok (Some (1 / (2 * e ^ 4))).
  Proof.
    unfold quart_min. cbn [w_min sq_world w_draws]. unfold quart_min_scipy.
    assert (S1 : exists v, start [1; 0; 0; 0] = Ok v).
    { unfold start, normalize. destruct (Reqb _ _) eqn:E; [|eauto]. exfalso. apply Reqb_spec in E. revert E. unfold vnorm. cbn.
      replace (0 + 1 * 1 + 0 * 0 + 0 * 0 + 0 * 0) with 1 by ring. rewrite sqrt_1. lra. }
    destruct S1 as (v & S1).
    rewrite (mapM_same _ [/ sqrt 2; 0; 0; / sqrt 2]).
    2:{ intros x Hx. apply in_map_iff in Hx. destruct Hx as (i & <- & _). rewrite S1. reflexivity. }
    cbn [bind]. rewrite map_length, seq_length. rewrite (map_same _ (quartic_form (2 * 2) (quartic_D 2 (Esq 1) (minv (Esq e))) [/ sqrt 2; 0; 0; / sqrt 2])) by (intros x Hx; now rewrite (repeat_spec _ _ _ Hx)). rewrite repeat_length.
    change 100%nat with (S 99). rewrite min_of_same. do 2 f_equal.
    pose proof (base_sq e He) as (Hd & W & D). pose proof (base_sq 1 Rlt_0_1) as (_ & W1 & D1).
    rewrite (quartic_is_fro 2) by (try lia; auto; now apply wf_minv). cbn zeta. rewrite Finv_sq by apply wf_reshape.
    assert (H2 : / sqrt 2 * / sqrt 2 = 1 / 2). { rewrite <- Rinv_mult, sqrt_sqrt by lra. lra. }
    set (s := / sqrt 2) in *. clearbody s. unfold fro2. cbn.
    transitivity (2 * (s * s) * (s * s) / (e ^ 4)); [field; lra|]. rewrite H2. field. lra.
  Qed.

  Definition sq_request (dd : dist_name) : drequest := {| d_nsol := 1; d_vol_th := 1/10; d_dim := 2; d_slice_sz := 100; d_dist := dd |}.
  Variable eig : mat R -> list R * mat R.
  Hypothesis Heig : eig_correct 2 eig.
  Lemma sq_pair : lattice_pair 2 (Esq 1) (Esq e) SQUARE_EXT_GROUP SQUARE_EXT_GROUP.
  Proof.
    destruct (bravais_sq 1 Rlt_0_1) as (T1 & A1 & L1 & N1 & E1). destruct (bravais_sq e He) as (T2 & A2 & L2 & N2 & E2).
    pose proof (resolved_sq 1 Rlt_0_1) as R1. pose proof (resolved_sq e He) as R2. rewrite <- E1 in R1. rewrite <- E2 in R2.
    destruct (run_setup (sq_request Cauchy) 1 1 [1] [e] Square Square P P _ _ T1 A1 T2 A2 L1 L2 N1 N2 R1 R2) as (GA & GM & K1 & K2 & HP & _).
    rewrite E1 in K1, HP. rewrite E2 in K2, HP. rewrite (group_sq 1 Rlt_0_1) in K1. rewrite (group_sq e He) in K2.
    injection K1 as <-. injection K2 as <-. exact HP.
  Qed.
  Lemma sq_run shifts dd : exists CA CM, wf 2 2 CA /\ wf 2 2 CM /\ det CA <> 0 /\ det CM <> 0 /\
    forall fuel, lat_cor_direct (sq_world eig shifts) (sq_request dd) fuel 1 [1] 1 [e] =
      let* st := direct_init 2 (Esq 1) (Esq e) SQUARE_EXT_GROUP SQUARE_EXT_GROUP 1 (1/10) shifts in
      let* st := direct_search 2 (Esq 1) (Esq e) SQUARE_EXT_GROUP SQUARE_EXT_GROUP 1 (1/(2*e^4)) 100 fuel st in
      mapM (fun s => let* o := report_direct 2 (Esq 1) (Esq e) CA CM eig (fst s) (eqlatcor 2 SQUARE_EXT_GROUP SQUARE_EXT_GROUP (fst s)) in
                     Ok (snd s, o)) (fst (fst st)).
  Proof.
    destruct (bravais_sq 1 Rlt_0_1) as (T1 & A1 & L1 & N1 & E1). destruct (bravais_sq e He) as (T2 & A2 & L2 & N2 & E2).
    destruct (bravais_cell_n _ _ _ _ _ _ _ T1 A1 N1) as (_ & _ & WCA & DCA & _). destruct (bravais_cell_n _ _ _ _ _ _ _ T2 A2 N2) as (_ & _ & WCM & DCM & _).
    exists (conventional_trans L1), (conventional_trans L2). split; [exact WCA|]. split; [exact WCM|]. split; [exact DCA|]. split; [exact DCM|].
    intros fuel. unfold lat_cor_direct. cbn [d_dim sq_request d_nsol d_vol_th d_slice_sz w_shifts sq_world w_eig w_order].
    rewrite N1, N2. cbn [bind]. rewrite E1, E2.
    pose proof (base_sq e He) as (Hd & W & D). rewrite (inv_Ok 2) by auto. cbn [bind].
    rewrite (group_sq 1 Rlt_0_1), (group_sq e He). cbn [bind]. change (Z.to_nat 2) with 2%nat.
    rewrite quart_sq. cbn [bind].
    assert (0 < 1 / (2 * e ^ 4)). { apply Rdiv_lt_0_compat; [lra|]. pose proof (pow_lt e 4 He). lra. }
    assert (Rleb (1 / (2 * e ^ 4)) 0 = false) as -> by (apply Rleb_false; lra). reflexivity.
  Qed.
  Lemma sq_report CA CM d : wf 2 2 CA -> wf 2 2 CM -> det CA <> 0 -> det CM <> 0 -> exists o,
    mapM (fun s : list Z * R => let* o := report_direct 2 (Esq 1) (Esq e) CA CM eig (fst s) (eqlatcor 2 SQUARE_EXT_GROUP SQUARE_EXT_GROUP (fst s)) in
                     Ok (snd s, o)) [([1; 0; 0; 1]%Z, d)] = Ok [(d, o)].
  Proof.
    intros WA WM DA DM. pose proof sq_pair as (Hd & WEA & WEM & DEA & DEM & MA & MM & ISA & ISM).
    destruct (C56_direct 2 (Esq 1) (Esq e) CA CM eig SQUARE_EXT_GROUP SQUARE_EXT_GROUP [1; 0; 0; 1]%Z (eqlatcor 2 SQUARE_EXT_GROUP SQUARE_EXT_GROUP [1; 0; 0; 1]%Z)) as (o & Hr & _); auto.
    { cbn. lia. }
    { intros M HM. assert (HM' : In M SQUARE_EXT_GROUP) by tauto. split; [apply square_ext_iff in HM'; apply HM'|]. cbn in HM'. repeat (destruct HM' as [<-|HM']; [cbn; lia|]). destruct HM'. }
    { reflexivity. }
    exists o. cbn [mapM fst snd]. rewrite Hr. reflexivity.
  Qed.
End Edges.

(** ** Two equal square lattices: one pass, or StopIteration, depending on the random matrices *)
Lemma sq1_ok eig dd : eig_correct 2 eig -> exists o, lat_cor_direct (sq_world eig draws2) (sq_request dd) 1 1 [1] 1 [1] = Ok [(0, o)].
Proof.
  intros He. destruct (sq_run 1 Rlt_0_1 eig draws2 dd) as (CA & CM & WA & WM & DA & DM & E). rewrite E.
  replace (1 / (2 * 1 ^ 4)) with (1 / 2) by field. change (Esq 1) with (@eye R _ 2). rewrite rinit2_ok. cbn [bind].
  destruct square_one_pass as (st & -> & Es). cbn [bind]. rewrite Es.
  exact (sq_report 1 Rlt_0_1 eig He CA CM 0 WA WM DA DM).
Qed.
Lemma sq1_stops eig dd fuel : lat_cor_direct (sq_world eig draws) (sq_request dd) (S fuel) 1 [1] 1 [1] = Raise StopIteration.
Proof.
  destruct (sq_run 1 Rlt_0_1 eig draws dd) as (CA & CM & WA & WM & DA & DM & E). rewrite E.
  replace (1 / (2 * 1 ^ 4)) with (1 / 2) by field. change (Esq 1) with (@eye R _ 2). rewrite rinit_ok. cbn [bind].
  now rewrite square_stops.
Qed.

(** ** Edges 1 and 11/10 *)
Definition sdist (l : list Z) : Z :=
  let L := reshape 2 l in
  let v := flatten (msub (mscale 100%Z (mmul L (tr L))) (mscale 121%Z (eye 2))) in dot v v.
Definition fsd (z : Z) : R := IZR z / 14641.
Lemma fsd_dist l : length l = 4%nat -> lat_dist (Esq 1) (Esq (11/10)) l = fsd (sdist l).
Proof.
  destruct l as [|a [|b [|c [|d [|]]]]]; try discriminate. intros _.
  unfold lat_dist, Cauchy_dist, fsd, sdist. rewrite minv_sq by lra.
  cbn -[Z.mul Z.add Z.sub Z.opp]. repeat rewrite ?plus_IZR, ?mult_IZR, ?minus_IZR, ?opp_IZR. field.
Qed.
Lemma fsd_order a b : dle (fsd a) (fsd b) = dle a b.
Proof.
  unfold fsd. cbn. destruct (Z.leb_spec a b) as [H|H].
  - apply Rleb_spec. apply IZR_le in H. lra.
  - apply Rleb_false. apply IZR_lt in H. lra.
Qed.
Lemma sguess : guess (Esq 1) (Esq (11/10)) = eye 2.
Proof.
  unfold guess. change (Esq 1) with (@eye R _ 2). rewrite minv_eye by (now left). rewrite (mmul_eye_l 2 2) by (try lia; apply wfM2).
  unfold Esq, M2. cbn [map]. change 0%R with (IZR 0). rewrite !Rfloor_IZR.
  rewrite (Rfloor_unique (11/10) 1) by lra. reflexivity.
Qed.
Definition sinit : @state Z := Eval vm_compute in
  match init_search 2 SQUARE_EXT_GROUP SQUARE_EXT_GROUP sdist 1 (Z.eqb 1) (eye 2) draws2 with
  | Ok st => st | _ => ([], [], None) end.
Lemma sinit_ok : init_search 2 SQUARE_EXT_GROUP SQUARE_EXT_GROUP sdist 1 (Z.eqb 1) (eye 2) draws2 = Ok sinit.
Proof. vm_compute. reflexivity. Qed.
Definition srinit : @state R := fst_ fsd sinit.
Lemma srinit_ok : direct_init 2 (Esq 1) (Esq (11/10)) SQUARE_EXT_GROUP SQUARE_EXT_GROUP 1 (1 / 10) draws2 = Ok srinit.
Proof.
  unfold direct_init, init_search. rewrite sguess, vol_ok_tenth.
  change ([], [], None) with (fst_ fsd ([], [], None)) at 1.
  rewrite (init_loop_f fsd fsd_order 2 SQUARE_EXT_GROUP SQUARE_EXT_GROUP sdist _ fsd_dist 1 (Z.eqb 1) (eye 2)
             ltac:(lia) (wf_eye 2) _ _ _ draws2_wf).
  pose proof sinit_ok as E. unfold init_search in E. rewrite E. reflexivity.
Qed.
Definition sball : list (list Z) := Eval vm_compute in
  match vec_generator_sq 3 4 (Some [0; 0; 0; 0]%Z) with Ok l => l | _ => [] end.
Lemma sball_ok : ball_gen 2 (1 / (2 * (11/10) ^ 4)) (snd srinit) (repeat 0%Z 4) = Ok sball.
Proof.
  cbn [srinit fst_ sinit snd option_map ball_gen]. set (d := fsd _).
  set (al := 1 / (2 * (11/10) ^ 4)).
  assert (P : (0 <= rmax al d)%R) by apply sqrt_pos.
  rewrite (vec_gen_rel _ _ _ _ (rel_floor _ P)).
  assert (F : Rfloor (rmax al d * rmax al d) = 3%Z).
  { unfold rmax. rewrite sqrt_sqrt by apply sqrt_pos. 
    assert (B : 2/5 <= sqrt (3 * d) <= 1).
    { unfold d, fsd. split.
      - replace (2/5) with (sqrt ((2/5)^2)) by (rewrite sqrt_pow2; lra). apply sqrt_le_1; lra.
      - rewrite <- sqrt_1. apply sqrt_le_1; lra. }
    assert (G : 9 <= gamma d / al < 16). { unfold gamma, al. set (x := sqrt _) in *. clearbody x. unfold d, fsd. clear -B. split; field_simplify; lra. }
    apply Rfloor_unique. split.
    - replace (IZR 3) with (sqrt (3 ^ 2)) by (rewrite sqrt_pow2; lra). apply sqrt_le_1; lra.
    - replace (IZR 3 + 1)%R with (sqrt (4 ^ 2)) by (rewrite sqrt_pow2; lra). apply sqrt_lt_1; lra. }
  rewrite F. vm_compute. reflexivity.
Qed.
Lemma s_one_pass : exists st', direct_search 2 (Esq 1) (Esq (11/10)) SQUARE_EXT_GROUP SQUARE_EXT_GROUP 1 (1 / (2 * (11/10)^4)) 100 1 srinit = Ok st' /\
  fst (fst st') = [([1; 0; 0; 1]%Z, 882 / 14641)].
Proof.
  unfold direct_search, DirectModel.search. cbn [DirectModel.outer]. change (2 * 2)%nat with 4%nat.
  rewrite sball_ok. cbn [bind]. unfold srinit.
  rewrite (inner_f fsd fsd_order 2 SQUARE_EXT_GROUP SQUARE_EXT_GROUP sdist _ fsd_dist).
  - set (r := inner _ _ _ _ _ _ _ _ _).
    assert (E : exists ext, r = Ok ([([1; 0; 0; 1], 882)], ext, Some 882, None)%Z) by (eexists; vm_compute; reflexivity).
    destruct E as (ext & ->). cbn. eexists. split; reflexivity.
  - apply Forall_forall. intros l Hl. apply Nat.eqb_eq. revert l Hl. apply forallb_forall. vm_compute. reflexivity.
Qed.
Lemma s_ok eig dd : eig_correct 2 eig -> exists o, lat_cor_direct (sq_world eig draws2) (sq_request dd) 1 1 [1] 1 [11/10] = Ok [(882 / 14641, o)].
Proof.
  intros He. assert (P : 0 < 11/10) by lra. destruct (sq_run _ P eig draws2 dd) as (CA & CM & WA & WM & DA & DM & E). rewrite E.
  rewrite srinit_ok. cbn [bind].
  destruct s_one_pass as (st & -> & Es). cbn [bind]. rewrite Es.
  exact (sq_report _ P eig He CA CM _ WA WM DA DM).
Qed.
