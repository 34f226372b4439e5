(** A case for C106: the primitive monoclinic lattice with edges 4/3, 1 and sqrt 2 and the angle 135 degrees, compared with itself. *)
From Verif Require Import LinAlg RMat Spectral GroupModel GroupSpec GroupProofs HnfSpec LatticeModel LatticeSpec LatticeProofs LatticeLaue LatticeComplete
  BravaisModel BravaisSpec BravaisProofs LLLModel LLLSpec LLLProofs LLLProofs2 LLLProofs3 DistSpec TreeModel TreeSpec DirectConcSpec HnfSearchModel
  LatCorModel LatCorSpec LatCorProofs LatCorDist LatCorCase MoreCor SelfSearch PropLattice PropBravais PropOutput PropLLL PropLLL3 PropMore.
From Verif Require Import LLLProofs.
Local Open Scope R_scope.

Definition Emono : mat R := M3 (4/3) 0 (-1) 0 1 0 0 0 1.
Lemma base_mono : base 3 Emono.
Proof. split; [now right|]. split; [apply wfM3|]. unfold Emono, M3. rewrite det3. cbn. lra. Qed.
Lemma det_mono : det Emono = 4/3.
Proof. unfold Emono, M3. rewrite det3. cbn. lra. Qed.
Lemma inv_mono : minv Emono = M3 (3/4) 0 (3/4) 0 1 0 0 0 1.
Proof. symmetry. apply (inv_unique 3); [now right|apply wfM3|apply wfM3|]. unfold Emono. mat_eq ltac:(lra). Qed.

Lemma cosd135 : sqrt 2 * cos (deg 135) = -1 /\ sqrt 2 * sin (deg 135) = 1.
Proof.
  assert (S : sqrt 2 * sqrt 2 = 2) by (apply sqrt_sqrt; lra). assert (S0 : sqrt 2 <> 0) by (intros E; rewrite E in S; lra).
  unfold deg. replace (135 * PI / 180) with (3 * (PI / 4)) by field. rewrite cos_3PI4, sin_3PI4. split; field; exact S0.
Qed.
Definition pmono : list R := [4/3; 1; sqrt 2; 135].
Lemma mono_admissible : bravais_type 3 12 = Some (Monoclinic, P) /\ admissible Monoclinic pmono (mk_cell (4/3) 1 (sqrt 2) 90 135 90).
Proof.
  pose proof (sqrt_lt_R0 2 ltac:(lra)). split; [reflexivity|]. split; [reflexivity|]. split; [cbn; intros x Hx; intuition lra|].
  assert (S : sqrt 2 * sqrt 2 = 2) by (apply sqrt_sqrt; lra). destruct cosd135 as [C _]. unfold deg in C.
  unfold volume_factor. cbn. rewrite cosd90. change (BravaisSpec.cosd 135) with (cos (135 * PI / 180)). set (x := cos (135 * PI / 180)) in *.
  assert (X : x * x = 1/2). { assert (H0 : (sqrt 2 * x) * (sqrt 2 * x) = 1) by (rewrite C; lra). replace (sqrt 2 * x * (sqrt 2 * x)) with (sqrt 2 * sqrt 2 * (x * x)) in H0 by ring. rewrite S in H0. lra. } lra.
Qed.
Lemma mono_base : exists A, new_bravais 12 pmono 3 = Ok A /\ b_base A = Emono.
Proof.
  destruct mono_admissible as (T1 & A1). destruct (C17_conventional_cell 3 12 _ _ _ _ T1 A1) as (b & H & _). exists b. split; [exact H|]. revert H. unfold new_bravais.
  destruct (existsb _ _); [discriminate|]. cbn [Z.eqb Pos.eqb]. cbn -[inv new_lattice deg cos sin sqrt].
  intros H. apply bindOk in H. destruct H as (EC & HC & H). injection HC as <-. cbn [fst snd] in H. apply bindOk in H. destruct H as (C & _ & H).
  unfold par in H. cbn [pmono nth] in H. destruct cosd135 as [C1 C2]. rewrite C1, C2 in H. change (cols3 _ _ _) with Emono in H.
  rewrite (new_lattice_ok 3 Emono base_mono) in H by apply base_mono. cbn [bind] in H. injection H as <-. reflexivity.
Qed.

(** * Its symmetries are resolved *)
(** 12 times Q in the base *)
Definition mono12 (M : mat Z) : mat Z := mmul (mmul [[3; 0; 3]; [0; 4; 0]; [0; 0; 4]]%Z M) [[4; 0; -3]; [0; 3; 0]; [0; 0; 3]]%Z.
Definition mono_case (M : mat Z) : bool := forallb (fun x => (Z.abs x <? 48)%Z) (concat (mono12 M)).
Lemma mono_table : forallb mono_case CUBIC_LAUE_GROUP = true.
Proof. vm_compute. reflexivity. Qed.
Lemma near12 x z : (Z.abs x < 48)%Z -> Rabs (IZR x / 12 - IZR z) <= 1 / 100000000 + 1 / 100000 * Rabs (IZR z) -> x = (12 * z)%Z.
Proof.
  intros Hx H. assert (X : -48 < IZR x < 48) by (split; apply IZR_lt; lia).
  assert (Z0 : (-6 < z < 6)%Z).
  { split; apply lt_IZR; unfold Rabs in H; destruct (Rcase_abs (IZR x / 12 - IZR z)), (Rcase_abs (IZR z)); lra. }
  assert (Z1 : -6 < IZR z < 6) by (split; apply IZR_lt; lia).
  assert (H' : Rabs (IZR x - IZR (12 * z)) < 1).
  { rewrite mult_IZR. unfold Rabs in *. destruct (Rcase_abs (IZR x / 12 - IZR z)), (Rcase_abs (IZR z)), (Rcase_abs (IZR x - 12 * IZR z)); lra. }
  rewrite <- minus_IZR, <- abs_IZR in H'. apply lt_IZR in H'. lia.
Qed.

Lemma resolved_mono : resolved 3 Emono.
Proof.
  pose proof base_mono as B. destruct C1S1 as (HC2 & HC & HS).
  assert (S3 : 86/100 < S1 < 87/100) by (assert (0 < S1) by (rewrite HS; pose proof (sqrt_lt_R0 3); lra); rewrite HC in HC2; split; nra).
  intros Q HQ HA. pose proof (tabled_orth 3 Q ltac:(now right) HQ) as OQ. pose proof (proj1 OQ) as WQ.
  assert (WQE : wf 3 3 (mmul Q Emono)) by (apply (wf_mmul 3 3 3); [exact WQ|apply wfM3|lia]).
  rewrite (inpoint_red 3 _ B) in HA; [|exact OQ]. cbn [values] in HA. apply (lat_eq_near 3 _ B) in HA; [|exact WQE]. rewrite inv_mono in HA.
  cbn [tabled_isometries Nat.eqb] in HQ. apply in_app_iff in HQ.
  assert (KZ : forall M, In M CUBIC_LAUE_GROUP -> Q = RZ M -> preserves 3 Q Emono).
  { intros M HM ->. pose proof (proj1 (forallb_forall _ _) mono_table M HM) as T.
    assert (WM : wf 3 3 M). { assert (Zt : forallb (wfb 3 3) CUBIC_LAUE_GROUP = true) by (vm_compute; reflexivity). apply wfb_spec. exact (proj1 (forallb_forall _ _) Zt M HM). }
    assert (W12 : wf 3 3 (mono12 M)) by (unfold mono12; apply (wf_mmul 3 3 3); [apply (wf_mmul 3 3 3); [now apply wfb_spec|exact WM|lia]|now apply wfb_spec|lia]).
    assert (E12 : forall i j, (i < 3)%nat -> (j < 3)%nat -> get (mmul (M3 (3 / 4) 0 (3 / 4) 0 1 0 0 0 1) (mmul (RZ M) Emono)) i j = IZR (get (mono12 M) i j) / 12).
    { clear -WM. destruct (wf3_inv M WM) as (a&b&c&d&e&f&g&h&k&->). unfold mono12, Emono, M3, RZ, mmap. cbn [map].
      intros [|[|[|i]]] [|[|[|j]]] Hi Hj; try lia; mat_unfold_goal; rewrite ?plus_IZR, ?mult_IZR, ?plus_IZR, ?mult_IZR, ?plus_IZR, ?mult_IZR; field. }
    apply (preserves_iff 3 _ B); [exact OQ|]. exists (rintm (mmul (M3 (3 / 4) 0 (3 / 4) 0 1 0 0 0 1) (mmul (RZ M) Emono))).
    set (N := rintm _) in *. assert (WN : wf 3 3 N) by (unfold N, rintm; apply wf_mmap; apply (wf_mmul 3 3 3); [apply wfM3|exact WQE|lia]).
    split; [exact WN|]. apply (solve_left 3 _ B _ _ WQE (wf_RZ 3 3 N WN)). rewrite inv_mono.
    apply (mat_ext 3 3); [apply (wf_mmul 3 3 3); [apply wfM3|exact WQE|lia]|now apply wf_RZ|].
    intros i j Hi Hj. specialize (HA i j Hi Hj). rewrite E12 in * by assumption. rewrite get_RZ. 
    apply near12 in HA; [rewrite HA, mult_IZR; field|].
    unfold mono_case in T. pose proof (proj1 (forallb_forall _ _) T) as T'. apply Z.ltb_lt, T'. 
    clear -W12 Hi Hj. destruct (wf3_inv _ W12) as (a&b&c&d&e&f&g&h&k&->). destruct i as [|[|[|i]]], j as [|[|[|j]]]; try lia; cbn; tauto. }
  assert (KF : get Q 1 0 = S1 \/ get Q 1 0 = - S1 -> preserves 3 Q Emono).
  { intros HQ0. exfalso. specialize (HA 1%nat 0%nat ltac:(lia) ltac:(lia)). set (z := get (rintm _) 1 0) in HA. clearbody z.
    destruct (wf3_inv Q WQ) as (q0&q1&q2&q3&q4&q5&q6&q7&q8&->). cbv [get nth M3] in HQ0.
    assert (X : get (mmul (M3 (3 / 4) 0 (3 / 4) 0 1 0 0 0 1) (mmul (M3 q0 q1 q2 q3 q4 q5 q6 q7 q8) Emono)) 1 0 = 4/3 * q3) by (unfold Emono, M3; mat_unfold_goal; ring).
    change (Rabs (get (mmul (M3 (3 / 4) 0 (3 / 4) 0 1 0 0 0 1) (mmul (M3 q0 q1 q2 q3 q4 q5 q6 q7 q8) Emono)) 1 0 - IZR z) <= 1 / 100000000 + 1 / 100000 * Rabs (IZR z)) in HA.
    rewrite X in HA. assert (Z : (z <= -2 \/ z = -1 \/ z = 0 \/ z = 1 \/ 2 <= z)%Z) by lia.
    destruct Z as [Z|[->|[->|[->|Z]]]]; [apply IZR_le in Z| | | |apply IZR_le in Z]; revert HA; destruct HQ0 as [-> | ->]; rabs; lra. }
  destruct HQ as [HQ|HQ].
  - apply in_map_iff in HQ. destruct HQ as (M & <- & HM). now apply (KZ M).
  - unfold HEX_LAUE_GROUP in HQ. cbn [In] in HQ.
    repeat (destruct HQ as [HQ|HQ]; [first [apply KF; rewrite <- HQ; cbn; lra
      | apply (KZ [[1;0;0];[0;1;0];[0;0;1]]%Z); [cbn; tauto|now rewrite <- HQ]
      | apply (KZ [[1;0;0];[0;-1;0];[0;0;-1]]%Z); [cbn; tauto|now rewrite <- HQ]
      | apply (KZ [[-1;0;0];[0;1;0];[0;0;-1]]%Z); [cbn; tauto|now rewrite <- HQ]
      | apply (KZ [[-1;0;0];[0;-1;0];[0;0;1]]%Z); [cbn; tauto|now rewrite <- HQ]]|]).
    destruct HQ.
Qed.

(** * The reduction of its base *)
Definition Bmono : mat R := [[0; 1/3; 4/3]; [1; 0; 0]; [0; 1; 0]].
Definition lo_mono : mat Z := [[0; 1; 1]; [1; 0; 0]; [0; 1; 0]]%Z.
Lemma loop_mono k : lll_loop (S (S (S k))) (tr Emono) 0 = Ok (tr Bmono, 3%nat, false).
Proof.
  set (a := [4/3; 0; 0]). set (b := [0; 1; 0]). set (c := [-1; 0; 1]). set (c' := [1/3; 0; 1]).
  change (tr Emono) with [a; b; c]. change (tr Bmono) with [b; c'; a].
  assert (Da : dot a a = 16/9) by (unfold a; un; lra). assert (Db : dot b b = 1) by (unfold b; un; lra). assert (Dc : dot c' c' = 10/9) by (unfold c'; un; lra).
  assert (Z0 : rint 0 = 0%Z) by (change 0 with (IZR 0); apply rint_IZR).
  assert (Mba : mu b a = 0) by (unfold mu; rewrite Da; unfold a, b; un; lra). assert (Mab : mu a b = 0) by (unfold mu; rewrite Db; unfold a, b; un; lra).
  assert (Mcb : mu c b = 0) by (unfold mu; rewrite Db; unfold c, b; un; lra). assert (Mcb' : mu c' b = 0) by (unfold mu; rewrite Db; unfold c', b; un; lra).
  assert (Mca : mu c a = -3/4) by (unfold mu; rewrite Da; unfold c, a; un; lra). assert (Mca' : mu c' a = 1/4) by (unfold mu; rewrite Da; unfold c', a; un; lra).
  assert (Mac : mu a c' = 2/5) by (unfold mu; rewrite Dc; unfold c', a; un; lra).
  assert (R34 : rint (-3/4) = (-1)%Z).
  { pose proof (rint_close (-3/4)) as H. assert (X : (-2 < rint (-3/4) < 0)%Z) by (split; apply lt_IZR; revert H; unfold Rabs; destruct (Rcase_abs _); lra). lia. }
  assert (R14 : rint (1/4) = 0%Z) by (apply rint0; rewrite Rabs_pos_eq; lra). assert (R25 : rint (2/5) = 0%Z) by (apply rint0; rewrite Rabs_pos_eq; lra).
  assert (C1a : c1 a b = b) by (unfold c1; rewrite Mba; unfold a, b; un; apply l3; lra).
  assert (C1b : c1 b a = a) by (unfold c1; rewrite Mab; unfold a, b; un; apply l3; lra).
  assert (C1c : c1 b c' = c') by (unfold c1; rewrite Mcb'; unfold c', b; un; apply l3; lra).
  assert (B1 : rb a b = b) by (unfold rb; rewrite Mba, Z0; unfold a, b; un; apply l3; lra).
  assert (B2 : rb b a = a) by (unfold rb; rewrite Mab, Z0; unfold a, b; un; apply l3; lra).
  assert (B3 : rb b c' = c') by (unfold rb; rewrite Mcb', Z0; unfold c', b; un; apply l3; lra).
  assert (G1 : rc a b c = c') by (unfold rc; rewrite C1a, Mca, Mcb, R34, Z0, B1; unfold a, b, c, c'; un; apply l3; lra).
  assert (G2 : rc b a c' = c') by (unfold rc; rewrite C1b, Mcb', Mca', R14, Z0, B2; unfold a, b, c, c'; un; apply l3; lra).
  assert (G3 : rc b c' a = a) by (unfold rc; rewrite C1c, Mab, Mac, R25, Z0, B3; unfold a, b, c, c'; un; apply l3; lra).
  assert (D1 : dot (c2 a b c') (c2 a b c') = 1) by (unfold c2; rewrite C1a, Mca', Mcb'; unfold a, b, c'; un; lra).
  assert (D2 : dot (c2 b a c') (c2 b a c') = 1) by (unfold c2; rewrite C1b, Mca', Mcb'; unfold a, b, c'; un; lra).
  assert (D3 : dot (c2 b c' a) (c2 b c' a) = 8/5) by (unfold c2; rewrite C1c, Mab, Mac; unfold a, b, c'; un; lra).
  assert (T : forall u v m, 4 / 3 * (m * m * u + v) < u -> test u v m = true) by (intros; now apply Rltb_spec).
  assert (F : forall u v m, u <= 4 / 3 * (m * m * u + v) -> test u v m = false) by (intros; now apply Rltb_false).
  cbn [lll_loop]. rewrite gauss3 by (rewrite ?C1a; lra). cbn [bind]. rewrite B1, G1, (swapping3 3) by (reflexivity || (rewrite ?C1a; lra)). cbn [bind].
  rewrite C1a, Da, Db, Mba, T by lra. change (swap_at 0 [a; b; c']) with [b; a; c'].
  rewrite gauss3 by (rewrite ?C1b; lra). cbn [bind]. rewrite B2, G2, (swapping3 3) by (reflexivity || (rewrite ?C1b; lra)). cbn [bind].
  rewrite C1b, Da, Db, Mab, D2, Mca', F, T by lra. change (swap_at 1 [b; a; c']) with [b; c'; a].
  rewrite gauss3 by (rewrite ?C1c; lra). cbn [bind]. rewrite B3, G3, (swapping3 3) by (reflexivity || (rewrite ?C1c; lra)). cbn [bind].
  rewrite C1c, Db, Dc, Mcb', D3, Mac, !F by lra. reflexivity.
Qed.
Lemma LLL_mono : LLL Emono = Ok (Plain Bmono).
Proof.
  assert (D' : det (tr (tr Bmono)) = 4/3) by (unfold Bmono; un; lra).
  unfold LLL. change max_rounds with (S (S (S 997))). rewrite loop_mono. cbn [bind Nat.eqb]. rewrite fix_same by (rewrite ?det_mono; lra). reflexivity.
Qed.
Lemma start_mono : start_point Emono = Ok lo_mono.
Proof.
  unfold start_point. rewrite LLL_mono. cbn [bind]. rewrite (inv_Ok 3) by (try apply base_mono; now right). cbn [bind]. f_equal. rewrite inv_mono.
  replace (mmul (M3 (3 / 4) 0 (3 / 4) 0 1 0 0 0 1) Bmono) with (RZ lo_mono).
  - unfold RZ, lo_mono, mmap. cbn [map]. now rewrite !rint_IZR.
  - unfold lo_mono, RZ, mmap, Bmono, M3. cbn [map]. mat_eq ltac:(lra).
Qed.

(** * The Cauchy distance in units of 1/20736 *)
Definition F12 (l : mat Z) : mat Z := mmul (mmul [[4; 0; -3]; [0; 3; 0]; [0; 0; 3]]%Z l) [[3; 0; 3]; [0; 4; 0]; [0; 0; 4]]%Z.
Definition sqz (F : mat Z) : Z := let C := mmul F (tr F) in
  fold_left (fun s ij => let x := (get C (fst ij) (snd ij) - (if (fst ij =? snd ij)%nat then 144 else 0))%Z in (s + x * x)%Z)
    [(0,0);(0,1);(0,2);(1,0);(1,1);(1,2);(2,0);(2,1);(2,2)]%nat 0%Z.
Definition dz_mono (l : mat Z) : Z := sqz (F12 l).
Lemma sqz_spec G : wf 3 3 G -> fro2 3 3 (msub (mmul (mmap (fun z => IZR z / 12) G) (tr (mmap (fun z => IZR z / 12) G))) (eye 3)) = IZR (sqz G) / 20736.
Proof.
  intros W. destruct (wf3_inv G W) as (a&b&c&d&e&f&g&h&k&->). unfold sqz. cbn [fold_left fst snd Nat.eqb]. unfold fro2, mmap. cbn [map]. mat_unfold_goal.
  repeat (rewrite ?plus_IZR, ?minus_IZR, ?mult_IZR). field.
Qed.
Lemma F12_spec l : wf 3 3 l -> mmul (mmul Emono (RZ l)) (minv Emono) = mmap (fun z => IZR z / 12) (F12 l).
Proof.
  intros W. rewrite inv_mono. destruct (wf3_inv l W) as (a&b&c&d&e&f&g&h&k&->). unfold F12, Emono, M3, RZ, mmap. cbn [map].
  mat_unfold_goal. cbn [map]. repeat (rewrite ?plus_IZR, ?minus_IZR, ?mult_IZR).
  assert (L : forall (x y z x' y' z' : vec R), x = x' -> y = y' -> z = z' -> [x; y; z] = [x'; y'; z']) by congruence. apply L; apply l3; field.
Qed.
Lemma dist_mono f : computes dCauchy Emono Emono f -> forall l, wf 3 3 l -> f l = IZR (dz_mono l) / 20736.
Proof.
  intros H l W. specialize (H l W). cbn [has_distance] in H. rewrite H, F12_spec by exact W. apply sqz_spec.
  unfold F12. apply (wf_mmul 3 3 3); [apply (wf_mmul 3 3 3); [now apply wfb_spec|exact W|lia]|now apply wfb_spec|lia].
Qed.

(** * The search from it to itself never comes closer than 1168/20736 = 73/1296 *)
Definition far (maxiter : nat) : bool :=
  match zrestarts dz_mono 20736 3 maxiter 20 100 (Node lo_mono None None) [] [] with
  | Some seen => forallb (fun E => wfb 3 3 E && (1168 <=? dz_mono E)%Z)%bool seen
  | None => false
  end.
Lemma far_3 : far 3 = true.
Proof. vm_cast_no_check (eq_refl true). Qed.

Lemma far_spec m : far m = true -> exists seen, zrestarts dz_mono 20736 3 m 20 100 (Node lo_mono None None) [] [] = Some seen /\
  forallb (fun E => wfb 3 3 E && (1168 <=? dz_mono E)%Z)%bool seen = true.
Proof. unfold far. destruct (zrestarts _ _ _ _ _ _ _ _ _) as [seen|]; [eauto|discriminate]. Qed.
Lemma lat_opt_mono eig LG nsol k f : (1 <= nsol)%nat -> far (maxiter_by_nsol nsol) = true -> eig_correct 3 eig -> forall r,
  lat_opt (fun C => fst (eig C)) {| o_nsol := nsol; o_dist := Cauchy; o_maxiter := None; o_miniter := None; o_SOLG2 := Some LG |} k f Emono Emono = Ok r ->
  forall l d, In (l, d) r -> 73 / 1296 <= d.
Proof.
  intros Hn HF He r H. pose proof base_mono as B. pose proof B as (_ & W & D).
  apply (lat_opt_fuel _ _ k f (k + 20) (f + 100) _ _ _ W) in H; [|exact Hn|lia|lia].
  destruct (far_spec _ HF) as (seen & S & HS).
  destruct (distance_fn_of eig Cauchy dCauchy Emono Emono W B He eq_refl) as (df & Hf & HC). pose proof (dist_mono df HC) as HD.
  destruct (C15_special_partial 3 Emono B) as (_ & LG1 & _ & HL & _).
  destruct (core_sim dz_mono 20736 eq_refl df HD 3 (maxiter_by_nsol nsol) LG1 LG nsol 20 100 lo_mono seen ltac:(now apply wfb_spec) S) as (sols & Run & Hin).
  assert (R1 : lat_opt (fun C => fst (eig C)) {| o_nsol := nsol; o_dist := Cauchy; o_maxiter := None; o_miniter := None; o_SOLG2 := Some LG |} 20 100 Emono Emono = Ok sols).
  { unfold lat_opt. cbv zeta. cbn [o_nsol o_dist o_maxiter o_miniter o_SOLG2]. rewrite start_mono. cbn [bind]. rewrite Hf. cbn [bind]. rewrite (new_lattice_ok 3 Emono B Emono W D). cbn [bind].
    rewrite HL. cbn [bind]. destruct W as [-> _]. exact Run. }
  apply (lat_opt_fuel _ _ 20 100 (k + 20) (f + 100) _ _ _ W) in R1; [|exact Hn|lia|lia]. rewrite R1 in H. injection H as <-.
  intros l d Hld. destruct (Hin l d Hld) as [Hs ->].
  pose proof (proj1 (forallb_forall _ _) HS l Hs) as Q. apply Bool.andb_true_iff in Q. destruct Q as [Q1 Q2].
  rewrite HD by (now apply wfb_spec). apply Z.leb_le, IZR_le in Q2. lra.
Qed.
