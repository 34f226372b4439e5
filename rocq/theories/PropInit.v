(** Properties C90 and C91: the random initialisation of lat_cor (main_direct.py:188-203) and of Solver.initialize
    (solver.py:160-184).  Models: DirectCorModel.v, SolverModel.v; specification: below, DirectSpec.v (best_so_far), DirectConcSpec.v
    (lattice_pair), BravaisSpec.v (bravais_type, admissible). *)
From Coq Require Import Lra Lia.
From Verif Require Import LinAlg GroupModel GroupProofs LatticeModel LatticeSpec LatticeProofs LatticeLaue BravaisModel BravaisSpec BravaisProofs
  DistModel DirectSpec DirectProofs DirectConcrete DirectConcSpec DirectConcProofs DirectExample DirectCorModel DirectCorSpec DirectCorProofs DirectCorCase
  PropLattice PropBravais LatCorProofs InitProofs SolverModel.
Local Open Scope R_scope.

(** np.random.random_integers(-1, 1, (n, n)): n by n, entries -1, 0 or 1 *)
Definition random_shift (n : nat) (s : mat Z) : Prop := wf n n s /\ forall r x, In r s -> In x r -> (-1 <= x <= 1)%Z.

(** An integer matrix the initialisation can start from: within 1, entry by entry, of the integer parts of E_A^-1 E_M, and
    with a determinant within vol_th of 1 *)
Definition starting_point (n : nat) (EA EM : mat R) (vol_th : R) (L : mat Z) : Prop :=
  wf n n L /\ 1 - vol_th < IZR (det L) < 1 + vol_th /\
  forall i j, (i < n)%nat -> (j < n)%nat -> (-1 <= get L i j - Rfloor (get (mmul (minv EA) EM) i j) <= 1)%Z.

Lemma wf_guess n EA EM : dim23 n -> wf n n EA -> wf n n EM -> wf n n (guess EA EM).
Proof. intros Hd WA WM. pose proof (dim23_pos n Hd). apply (wf_mmap Rfloor). apply (wf_mmul n n n); auto. now apply wf_minv. Qed.
Lemma get_guess n EA EM i j : dim23 n -> wf n n EA -> wf n n EM -> (i < n)%nat -> (j < n)%nat ->
  get (guess EA EM) i j = Rfloor (get (mmul (minv EA) EM) i j).
Proof.
  intros Hd WA WM Hi Hj. pose proof (dim23_pos n Hd). unfold guess.
  assert (W : wf n n (mmul (minv EA) EM)) by (apply (wf_mmul n n n); auto; now apply wf_minv).
  set (M := mmul (minv EA) EM) in *. clearbody M. destruct W as [Wl Wr]. unfold get.
  rewrite (nth_indep (map (map Rfloor) M) [] (map Rfloor [])) by (rewrite map_length; lia). rewrite map_nth.
  assert (Hr : length (nth i M []) = n) by (apply Wr, nth_In; lia).
  rewrite (nth_indep (map Rfloor _) _ (Rfloor zero)) by (rewrite map_length; lia). apply map_nth.
Qed.
Lemma vol_ok_iff v d : vol_ok v d = true <-> 1 - v < IZR d < 1 + v.
Proof. unfold vol_ok. rewrite andb_true_iff, !Rltb_spec. tauto. Qed.
Lemma in_get n (s : mat Z) : wf n n s -> (forall i j, (i < n)%nat -> (j < n)%nat -> (-1 <= get s i j <= 1)%Z) ->
  forall r x, In r s -> In x r -> (-1 <= x <= 1)%Z.
Proof.
  intros [Wl Wr] H r x Hr Hx. pose proof (Wr r Hr) as Lr. destruct (In_nth _ _ [] Hr) as (i & Hi & <-). destruct (In_nth _ _ 0%Z Hx) as (j & Hj & <-).
  apply (H i j); lia.
Qed.
Lemma get_in n (s : mat Z) : wf n n s -> (forall r x, In r s -> In x r -> (-1 <= x <= 1)%Z) ->
  forall i j, (i < n)%nat -> (j < n)%nat -> (-1 <= get s i j <= 1)%Z.
Proof.
  intros [Wl Wr] H i j Hi Hj. apply (H (nth i s [])); [apply nth_In; lia|]. unfold get. apply nth_In. rewrite Wr; [lia|]. apply nth_In. lia.
Qed.

Lemma start_candidate n EA EM v l : dim23 n -> wf n n EA -> wf n n EM ->
  candidate n (vol_ok v) (guess EA EM) l <-> exists L, starting_point n EA EM v L /\ l = flatten L.
Proof.
  intros Hd WA WM. pose proof (dim23_pos n Hd) as Hn. pose proof (wf_guess n EA EM Hd WA WM) as WG. split.
  - intros (s & [Ws Bs] & -> & V). exists (madd (guess EA EM) s). split; [|reflexivity]. split; [now apply wf_madd|]. split; [now apply vol_ok_iff|].
    intros i j Hi Hj. rewrite (get_madd n n), (get_guess n) by auto. pose proof (get_in n s Ws Bs i j Hi Hj). cbn. lia.
  - intros (L & (WL & V & B) & ->). exists (msub L (guess EA EM)).
    assert (WS : wf n n (msub L (guess EA EM))) by now apply wf_msub.
    assert (E : madd (guess EA EM) (msub L (guess EA EM)) = L).
    { apply (mat_ext n n); auto; [now apply wf_madd|]. intros i j Hi Hj. rewrite (get_madd n n), (get_msub n n) by auto. cbn. lia. }
    rewrite E. split; [|split; [reflexivity|now apply vol_ok_iff]]. split; [exact WS|]. apply (in_get n); [exact WS|].
    intros i j Hi Hj. rewrite (get_msub n n), (get_guess n) by auto. apply B; auto.
Qed.

(** * C90 *)
(** If there is no starting point then the call never returns, whatever the random numbers and the number of turns: it
    goes on drawing random matrices (or the minimisation that comes before fails).  The same for Solver.initialize. *)
Theorem C90_no_start : forall w q idA pA idM pM A M,
  new_bravais idA pA (d_dim q) = Ok A -> new_bravais idM pM (d_dim q) = Ok M ->
  let n := Z.to_nat (d_dim q) in let EA := b_base A in let EM := b_base M in
  dim23 n -> wf n n EA -> wf n n EM -> (1 <= d_nsol q)%nat -> Forall (random_shift n) (w_shifts w) ->
  (forall L, ~ starting_point n EA EM (d_vol_th q) L) ->
  (forall fuel sols, lat_cor_direct w q fuel idA pA idM pM <> Ok sols) /\
  (forall st, solver_run w q idA pA idM pM <> Ok st).
Proof.
  intros w q idA pA idM pM A M HA HM n EA EM Hd WA WM Hs Hw H.
  assert (N : forall l, ~ candidate n (vol_ok (d_vol_th q)) (guess EA EM) l).
  { intros l K. apply (start_candidate n EA EM) in K; auto. destruct K as (L & K & _). now apply (H L). }
  assert (D : forall GA GM k, (1 <= k)%nat ->
    init_loop n GA GM (lat_dist EA EM) (d_nsol q) (vol_ok (d_vol_th q)) (guess EA EM) k (w_shifts w) ([], [], None) = NoFuel).
  { intros GA GM k Hk. now apply init_none. }
  split.
  - intros fuel sols E. unfold lat_cor_direct in E. rewrite HA, HM in E. cbn [bind] in E. cbv zeta in E. fold n EA EM in E.
    apply bindOk in E. destruct E as (I & _ & E). apply bindOk in E. destruct E as (GA & _ & E). apply bindOk in E. destruct E as (GM & _ & E).
    apply bindOk in E. destruct E as (al & _ & E). apply bindOk in E. destruct E as (st & E & _).
    unfold direct_init, init_search in E. rewrite D in E by lia. discriminate.
  - intros st E. unfold solver_run in E. rewrite HA, HM in E. cbn [bind] in E. cbv zeta in E. fold n EA EM in E.
    apply bindOk in E. destruct E as (I & _ & E). apply bindOk in E. destruct E as (GA & _ & E). apply bindOk in E. destruct E as (GM & _ & E).
    apply bindOk in E. destruct E as (al & _ & E). unfold solver_init in E. rewrite D in E by lia. discriminate.
Qed.
Print Assumptions C90_no_start.

(** This happens for every two cubic lattices whose edges differ by a factor of at least 4, with the default options. *)
Definition Ecub (a : R) : mat R := M3 a 0 0 0 a 0 0 0 a.
Lemma cub_admissible a : 0 < a -> bravais_type 3 1 = Some (Cubic, P) /\ admissible Cubic [a] (mk_cell a a a 90 90 90).
Proof.
  intros Ha. split; [reflexivity|]. split; [reflexivity|]. split; [cbn; intros x Hx; intuition lra|]. unfold volume_factor. cbn. rewrite cosd90. lra.
Qed.
Lemma base_cub a : 0 < a -> base 3 (Ecub a).
Proof.
  intros Ha. split; [now right|]. split; [apply wfM3|]. unfold Ecub, M3. rewrite det3. cbn.
  replace (a * (a * a - 0 * 0) - 0 * (0 * a - 0 * 0) + 0 * (0 * 0 - a * 0)) with (a * a * a) by ring.
  assert (0 < a * a) by nra. nra.
Qed.
Lemma cub_base a : 0 < a -> exists A, new_bravais 1 [a] 3 = Ok A /\ b_base A = Ecub a.
Proof.
  intros Ha. destruct (cub_admissible a Ha) as (T1 & A1).
  destruct (C17_conventional_cell 3 1 _ _ _ _ T1 A1) as (b & H & _). exists b. split; [exact H|]. revert H. unfold new_bravais.
  destruct (existsb _ _); [discriminate|]. cbn [Z.eqb Pos.eqb]. cbn -[inv new_lattice].
  intros H. apply bindOk in H. destruct H as (EC & HC & H). injection HC as <-. cbn [fst snd] in H. apply bindOk in H. destruct H as (C & _ & H).
  change (cols3 _ _ _) with (Ecub a) in H.
  rewrite (new_lattice_ok 3 (Ecub a)) in H; [|now apply base_cub|apply wfM3|now apply base_cub].
  cbn [bind] in H. injection H as <-. reflexivity.
Qed.
Lemma cub_ratio a b : 0 < a -> mmul (minv (Ecub a)) (Ecub b) = Ecub (b / a).
Proof.
  intros Ha. pose proof (base_cub a Ha) as (Hd & W & D).
  assert (E : mmul (Ecub a) (Ecub (b / a)) = Ecub b) by (unfold Ecub; mat_eq ltac:(try field; lra)).
  rewrite <- E, <- (mmul_assoc 3 3 3 3), (minv_l 3), (mmul_eye_l 3 3) by (auto; try lia; try apply wfM3; now apply wf_minv). reflexivity.
Qed.
Lemma dominant (d1 d2 d3 b c d f g h : Z) : (3 <= d1 -> 3 <= d2 -> 3 <= d3 -> -1 <= b <= 1 -> -1 <= c <= 1 -> -1 <= d <= 1 -> -1 <= f <= 1 ->
  -1 <= g <= 1 -> -1 <= h <= 1 -> 2 <= d1 * (d2 * d3 - f * h) - b * (d * d3 - f * g) + c * (d * h - d2 * g))%Z.
Proof.
  intros H1 H2 H3 Hb Hc Hd Hf Hg Hh.
  assert (P : forall x y, (-1 <= x <= 1 -> -1 <= y <= 1 -> -1 <= x * y <= 1)%Z) by (intros; nia).
  pose proof (P f h Hf Hh) as Q1. pose proof (P b d Hb Hd) as Q2. pose proof (P c g Hc Hg) as Q3.
  pose proof (P f g Hf Hg) as Q4. pose proof (P d h Hd Hh) as Q5. pose proof (P b (f * g)%Z Hb Q4) as Q6. pose proof (P c (d * h)%Z Hc Q5) as Q7.
  assert (T1 : (d1 * (f * h) <= d1)%Z) by nia. assert (T2 : (b * d * d3 <= d3)%Z) by nia. assert (T3 : (c * g * d2 <= d2)%Z) by nia.
  assert (T4 : (3 * (d1 + d2 + d3) <= d1 * d2 * d3)%Z).
  { assert (9 <= d2 * d3)%Z by nia. assert (9 <= d1 * d3)%Z by nia. assert (9 <= d1 * d2)%Z by nia.
    assert (9 * d1 <= d1 * d2 * d3)%Z by nia. assert (9 * d2 <= d1 * d2 * d3)%Z by nia. assert (9 * d3 <= d1 * d2 * d3)%Z by nia. lia. }
  nia.
Qed.
Theorem C90_size_refuted : forall a b, 0 < a -> 4 * a <= b ->
  bravais_type 3 1 = Some (Cubic, P) /\ admissible Cubic [a] (mk_cell a a a 90 90 90) /\ admissible Cubic [b] (mk_cell b b b 90 90 90) /\
  forall w, Forall (random_shift 3) (w_shifts w) ->
    (forall fuel sols, lat_cor_direct w default_drequest fuel 1 [a] 1 [b] <> Ok sols) /\
    (forall st, solver_run w default_drequest 1 [a] 1 [b] <> Ok st).
Proof.
  intros a b Ha Hb. assert (Pb : 0 < b) by lra. destruct (cub_admissible a Ha) as [T A1]. destruct (cub_admissible b Pb) as [_ A2].
  repeat (split; [assumption|]). intros w Hw. destruct (cub_base a Ha) as (A & HA & EA). destruct (cub_base b Pb) as (M & HM & EM).
  apply (C90_no_start w default_drequest 1 [a] 1 [b] A M HA HM); auto; rewrite ?EA, ?EM.
  - now right.
  - apply wfM3.
  - apply wfM3.
  - intros L (WL & V & B). cbn [d_dim default_drequest] in *. change (Z.to_nat 3) with 3%nat in *. rewrite cub_ratio in B by exact Ha.
    assert (K : (4 <= Rfloor (b / a))%Z).
    { destruct (Rfloor_spec (b / a)) as [_ F]. assert (Q : 4 <= b / a) by (apply Rmult_le_reg_r with a; [exact Ha|]; unfold Rdiv; rewrite Rmult_assoc, Rinv_l; lra).
      assert (4 < Rfloor (b / a) + 1)%Z by (apply lt_IZR; rewrite plus_IZR; lra). lia. }
    destruct (wf3_inv L WL) as (d1 & e12 & e13 & e21 & d2 & e23 & e31 & e32 & d3 & ->).
    assert (Z0 : Rfloor 0 = 0%Z) by apply (Rfloor_IZR 0).
    pose proof (fun i j Hi Hj => B i j (proj1 (Nat.ltb_lt i 3) Hi) (proj1 (Nat.ltb_lt j 3) Hj)) as C.
    pose proof (C 0 0 eq_refl eq_refl)%nat as C00. pose proof (C 0 1 eq_refl eq_refl)%nat as C01. pose proof (C 0 2 eq_refl eq_refl)%nat as C02.
    pose proof (C 1 0 eq_refl eq_refl)%nat as C10. pose proof (C 1 1 eq_refl eq_refl)%nat as C11. pose proof (C 1 2 eq_refl eq_refl)%nat as C12.
    pose proof (C 2 0 eq_refl eq_refl)%nat as C20. pose proof (C 2 1 eq_refl eq_refl)%nat as C21. pose proof (C 2 2 eq_refl eq_refl)%nat as C22.
    clear B C. unfold Ecub, M3 in *. cbn [get nth] in *. rewrite Z0 in *.
    assert (D : (2 <= det [[d1; e12; e13]; [e21; d2; e23]; [e31; e32; d3]])%Z).
    { replace (det [[d1; e12; e13]; [e21; d2; e23]; [e31; e32; d3]])
        with (d1 * (d2 * d3 - e23 * e32) - e12 * (e21 * d3 - e23 * e31) + e13 * (e21 * e32 - d2 * e31))%Z by (unfold det; cbn; ring).
      apply dominant; lia. }
    apply IZR_le in D. cbn [d_vol_th default_drequest] in V. lra.
Qed.
Print Assumptions C90_size_refuted.

(** Asking for too many solutions has the same effect for every two lattices: with nsol at least 3^(n*n), the number of
    matrices within 1 of any one, the call never returns. *)
Theorem C90_too_many_refuted : forall w q idA pA idM pM sA ceA cA sM ceM cM A M,
  bravais_type (d_dim q) idA = Some (sA, ceA) -> admissible sA pA cA -> bravais_type (d_dim q) idM = Some (sM, ceM) -> admissible sM pM cM ->
  new_bravais idA pA (d_dim q) = Ok A -> new_bravais idM pM (d_dim q) = Ok M ->
  let n := Z.to_nat (d_dim q) in
  resolved n (b_base A) -> resolved n (b_base M) -> d_vol_th q <= 1 -> Forall (random_shift n) (w_shifts w) ->
  (3 ^ (n * n) <= d_nsol q)%nat ->
  (forall fuel sols, lat_cor_direct w q fuel idA pA idM pM <> Ok sols) /\
  (forall st, solver_run w q idA pA idM pM <> Ok st).
Proof.
  intros w q idA pA idM pM sA ceA cA sM ceM cM A M TA AA TM AM HA HM n RA RM Hv Hw Hbig. set (EA := b_base A) in *. set (EM := b_base M) in *.
  assert (P1 : (1 <= 3 ^ (n * n))%nat) by (clear; induction (n * n)%nat; cbn; lia).
  assert (Hs : (1 <= d_nsol q)%nat) by lia.
  destruct (run_setup q idA idM pA pM sA sM ceA ceM cA cM TA AA TM AM A M HA HM RA RM) as (GA & GM & EGA & EGM & HP & _).
  fold n EA EM in HP, EGA, EGM. pose proof HP as (Hd & WEA & WEM & DEA & DEM & MA & MM & _).
  assert (V0 : vol_ok (d_vol_th q) 0 = false) by (unfold vol_ok; apply andb_false_iff; left; apply Rltb_false; lra).
  pose proof (too_many n GA GM (lat_dist EA EM) (d_nsol q) Hd MA MM (lat_dist_inv n EA EM GA GM HP) Hs (vol_ok (d_vol_th q)) V0
    (guess EA EM) (wf_guess n EA EM Hd WEA WEM) Hbig) as K.
  assert (D : forall k st', (d_nsol q < k)%nat ->
    init_loop n GA GM (lat_dist EA EM) (d_nsol q) (vol_ok (d_vol_th q)) (guess EA EM) k (w_shifts w) ([], [], None) <> Ok st').
  { intros k st' Hk. apply (K k (w_shifts w) [] [] [] None st'); try (cbn; lia); auto using h_start. }
  split.
  - intros fuel sols E. unfold lat_cor_direct in E. rewrite HA, HM in E. cbn [bind] in E. cbv zeta in E. fold n EA EM in E.
    apply bindOk in E. destruct E as (I & _ & E). rewrite EGA, EGM in E. cbn [bind] in E.
    apply bindOk in E. destruct E as (al & _ & E). apply bindOk in E. destruct E as (st & E & _).
    unfold direct_init, init_search in E. revert E. apply D. lia.
  - intros st E. unfold solver_run in E. rewrite HA, HM in E. cbn [bind] in E. cbv zeta in E. fold n EA EM in E.
    apply bindOk in E. destruct E as (I & _ & E). rewrite EGA, EGM in E. cbn [bind] in E.
    apply bindOk in E. destruct E as (al & _ & E). unfold solver_init in E. revert E. apply D. lia.
Qed.
Print Assumptions C90_too_many_refuted.
(** the hypotheses are met by the square lattice with itself and nsol = 81 *)
Example C90_too_many_case : exists A, bravais_type 2 1 = Some (Square, P) /\ admissible Square [1] (mk_cell 1 1 0 0 0 90) /\
  new_bravais 1 [1] 2 = Ok A /\ resolved 2 (b_base A) /\ (3 ^ (2 * 2) = 81)%nat.
Proof.
  destruct (bravais_sq 1 Rlt_0_1) as (T & AD & A & N & E). exists A. rewrite E. repeat (split; [assumption|]). split; [apply resolved_sq; lra|reflexivity].
Qed.

(** When nsol pairwise inequivalent starting points and a farther one exist, then the initialisation can always still end:
    after any random matrices there are further ones with which it does.  Missing: the cases above. *)
Theorem C90_can_end_partial : forall n EA EM LG_A LG_M nsol vol_th (near : list (mat Z)) far,
  lattice_pair n EA EM LG_A LG_M -> (1 <= nsol)%nat -> vol_th <= 1 ->
  length near = nsol ->
  (forall L, In L near -> starting_point n EA EM vol_th L /\ lat_dist EA EM (flatten L) < lat_dist EA EM (flatten far)) ->
  (forall i j L L', (i < j)%nat -> nth_error near i = Some L -> nth_error near j = Some L' -> ~ same_up_to LG_A LG_M L L') ->
  starting_point n EA EM vol_th far ->
  forall drawn, Forall (wf n n) drawn ->
    (exists more st, Forall (random_shift n) more /\ direct_init n EA EM LG_A LG_M nsol vol_th (drawn ++ more) = Ok st) /\
    (exists more st, Forall (random_shift n) more /\ solver_init n EA EM LG_A LG_M nsol vol_th (drawn ++ more) = Ok st).
Proof.
  intros n EA EM LG_A LG_M nsol v near far HP Hs Hv Hl Hn Ha Hf drawn Hw.
  pose proof HP as (Hd & WEA & WEM & DEA & DEM & MA & MM & _).
  assert (V0 : vol_ok v 0 = false) by (unfold vol_ok; apply andb_false_iff; left; apply Rltb_false; lra).
  pose proof (can_finish n LG_A LG_M (lat_dist EA EM) nsol Hd MA MM (lat_dist_inv n EA EM LG_A LG_M HP) Hs (vol_ok v) V0
    (guess EA EM) (wf_guess n EA EM Hd WEA WEM) (map flatten near) (flatten far)) as K.
  assert (K1 : forall c, In c (map flatten near) -> candidate n (vol_ok v) (guess EA EM) c /\ dlt (lat_dist EA EM c) (lat_dist EA EM (flatten far)) = true).
  { intros c Hc. apply in_map_iff in Hc. destruct Hc as (L & <- & HL). destruct (Hn L HL) as [S1 S2].
    split; [apply (start_candidate n EA EM); eauto|]. unfold dlt. apply negb_true_iff. apply not_true_iff_false. intros X. apply Rleb_spec in X. lra. }
  assert (K2 : candidate n (vol_ok v) (guess EA EM) (flatten far)) by (apply (start_candidate n EA EM); eauto).
  assert (K3 : ForallOrdPairs (fun a b => ~ equivalent n LG_A LG_M a b) (map flatten near)).
  { clear K K1 Hl. assert (W : forall L, In L near -> wf n n L) by (intros L HL; apply (Hn L HL)). clear Hn. induction near as [|L near IH]; cbn [map]; constructor.
    - apply Forall_forall. intros c Hc. apply in_map_iff in Hc. destruct Hc as (L' & <- & HL').
      intros (M1 & M2 & I1 & I2 & E). destruct (In_nth_error _ _ HL') as (j & Hj).
      apply (Ha 0%nat (S j) L L' ltac:(lia) eq_refl Hj). exists M1, M2. split; [exact I1|]. split; [exact I2|].
      rewrite !reshape_flatten in E; auto; apply W; [now left|now right].
    - apply IH; [|intros; apply W; now right]. intros i j X X' Hij Hi Hj. apply (Ha (S i) (S j)); auto. lia. }
  specialize (K K1 K2 ltac:(now rewrite map_length) K3).
  split.
  - exact (K (20 * nsol)%nat drawn [] ([], [], None) Hw (h_start _ _ _ _ _)).
  - exact (K (max 20 (5 * nsol)) drawn [] ([], [], None) Hw (h_start _ _ _ _ _)).
Qed.
Print Assumptions C90_can_end_partial.
(** the square lattice with itself: the identity and a shear *)
Example C90_can_end_case : lattice_pair 2 (eye 2) (eye 2) SQUARE_EXT_GROUP SQUARE_EXT_GROUP /\
  starting_point 2 (eye 2) (eye 2) (1/10) [[1;0];[0;1]]%Z /\ starting_point 2 (eye 2) (eye 2) (1/10) [[1;1];[0;1]]%Z /\
  lat_dist (eye 2) (eye 2) [1;0;0;1]%Z < lat_dist (eye 2) (eye 2) [1;1;0;1]%Z.
Proof.
  split; [exact square_pair|].
  assert (E : mmul (minv (eye 2)) (eye 2) = RZ (eye 2)).
  { rewrite minv_eye by (now left). rewrite (mmul_eye_l 2 2) by (try lia; apply wf_eye). reflexivity. }
  assert (B : forall L : mat Z, (forall i j, (i < 2)%nat -> (j < 2)%nat -> (-1 <= get L i j - get (eye 2) i j <= 1)%Z) ->
    forall i j, (i < 2)%nat -> (j < 2)%nat -> (-1 <= get L i j - Rfloor (get (mmul (minv (eye 2)) (eye 2)) i j) <= 1)%Z).
  { intros L H i j Hi Hj. rewrite E. unfold RZ. rewrite (get_mmap IZR) by reflexivity. rewrite Rfloor_IZR. auto. }
  split; [|split].
  - split; [now apply wfb_spec|]. split; [cbn; lra|]. apply B. intros [|[|i]] [|[|j]] Hi Hj; cbn; lia.
  - split; [now apply wfb_spec|]. split; [cbn; lra|]. apply B. intros [|[|i]] [|[|j]] Hi Hj; cbn; lia.
  - rewrite !square_dist by reflexivity. apply IZR_lt. reflexivity.
Qed.

(** * C91 *)
(** Solver.initialize returns the best of the random starting points it has drawn: max(20, 5 nsol) of them, so that at least
    nsol pairwise inequivalent solutions are listed, in order, none better lost. *)
Theorem C91_solver : forall w q idA pA idM pM sA ceA cA sM ceM cM A M alpha,
  bravais_type (d_dim q) idA = Some (sA, ceA) -> admissible sA pA cA -> bravais_type (d_dim q) idM = Some (sM, ceM) -> admissible sM pM cM ->
  new_bravais idA pA (d_dim q) = Ok A -> new_bravais idM pM (d_dim q) = Ok M ->
  let n := Z.to_nat (d_dim q) in let EA := b_base A in let EM := b_base M in
  resolved n EA -> resolved n EM -> (1 <= d_nsol q)%nat -> d_vol_th q <= 1 -> Forall (random_shift n) (w_shifts w) ->
  quart_min w (n * n) (quartic_D n EA (minv EM)) = Ok alpha ->
  solver_run w q idA pA idM pM = NoFuel \/
  exists GA GM sols ext dmax drawn, lattice_group EA = Ok GA /\ lattice_group EM = Ok GM /\
    solver_run w q idA pA idM pM = Ok (sols, ext, dmax) /\
    length drawn = max 20 (5 * d_nsol q) /\
    (forall l, In l drawn -> exists L, starting_point n EA EM (d_vol_th q) L /\ l = flatten L) /\
    best_so_far n GA GM (lat_dist EA EM) (d_nsol q) drawn sols /\
    (d_nsol q <= length sols)%nat.
Proof.
  intros w q idA pA idM pM sA ceA cA sM ceM cM A M alpha TA AA TM AM HA HM n EA EM RA RM Hs Hv Hw Hq.
  destruct (run_setup q idA idM pA pM sA sM ceA ceM cA cM TA AA TM AM A M HA HM RA RM) as (GA & GM & EGA & EGM & HP & _).
  fold n EA EM in HP, EGA, EGM. pose proof HP as (Hd & WEA & WEM & DEA & DEM & MA & MM & _).
  assert (V0 : vol_ok (d_vol_th q) 0 = false) by (unfold vol_ok; apply andb_false_iff; left; apply Rltb_false; lra).
  assert (E : solver_run w q idA pA idM pM = solver_init n EA EM GA GM (d_nsol q) (d_vol_th q) (w_shifts w)).
  { unfold solver_run. rewrite HA, HM. cbn [bind]. cbv zeta. fold n EA EM. rewrite (inv_Ok n EM) by auto. cbn [bind]. rewrite EGA, EGM. cbn [bind].
    rewrite Hq. reflexivity. }
  rewrite E. unfold solver_init.
  assert (Hw' : Forall (wf n n) (w_shifts w)) by (eapply Forall_impl; [|exact Hw]; intros a [W _]; exact W).
  destruct (init_ok n GA GM (lat_dist EA EM) (d_nsol q) Hd MA MM (lat_dist_inv n EA EM GA GM HP) Hs (vol_ok (d_vol_th q)) V0
    (guess EA EM) (wf_guess n EA EM Hd WEA WEM) (max 20 (5 * d_nsol q)) (w_shifts w) [] ([], [], None) Hw'
    (h_start n GA GM (lat_dist EA EM) (d_nsol q))) as [X|(st & dr & X & H & Hk & Hc & L)]; [now left|]. right.
  destruct st as [[sols ext] dmax]. exists GA, GM, sols, ext, dmax, dr. rewrite app_nil_r in H.
  repeat (split; [assumption|]). split; [|split].
  - intros l Hl. destruct (Hc l Hl) as (s & H1 & H2 & H3). apply (start_candidate n EA EM); auto. rewrite Forall_forall in Hw. exists s. exact (conj (Hw s H1) (conj H2 H3)).
  - exact (history_best n GA GM (lat_dist EA EM) (d_nsol q) Hd MA MM (lat_dist_inv n EA EM GA GM HP) Hs dr sols ext dmax H).
  - cbn [fst length] in L. lia.
Qed.
Print Assumptions C91_solver.
(** the square lattice with itself, with twenty random matrices *)
Example C91_case : solver_init 2 (eye 2) (eye 2) SQUARE_EXT_GROUP SQUARE_EXT_GROUP 1 (1/10) draws = Ok rinit /\
  Forall (random_shift 2) draws /\ fst (fst rinit) = [([1; 1; 0; 1]%Z, 3)].
Proof.
  split; [exact rinit_ok|]. split; [|reflexivity]. apply Forall_forall. intros s Hs.
  assert (s = [[0; 1]; [0; 0]]%Z \/ s = [[1; 1]; [1; 0]]%Z) as [->| ->].
  { destruct Hs as [<-|Hs]; [now left|]. right. now apply repeat_spec in Hs. }
  - split; [now apply wfb_spec|]. intros r x [<-|[<-|[]]] [<-|[<-|[]]]; lia.
  - split; [now apply wfb_spec|]. intros r x [<-|[<-|[]]] [<-|[<-|[]]]; lia.
Qed.
