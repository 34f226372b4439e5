(** C71: the group setLaue gives for each lattice type is exactly the rotation group of its crystal system. *)
From Verif Require Import RMat LinAlg GroupSpec GroupModel GroupProofs LatticeModel LatticeSpec LatticeProofs LatticeGroups LatticeLaue LatticeComplete
  BravaisModel BravaisSpec BravaisProofs BravaisLaue BravaisHex BravaisSym PropBravais MartModel MartSpec MartProofs PropMart LaueSamples LaueExact.
Local Open Scope R_scope.

(** The angles of the samples *)
Lemma sin_near e : 1 <= e <= 2 -> e / 70 <= sin (deg e) <= e / 45.
Proof.
  intros He. pose proof PI2_3_2. pose proof PI_4. assert (D : e / 60 <= deg e <= e / 45) by (unfold deg; split; nra).
  destruct (pre_sin_bound (deg e) 0) as [L U]; [lra|lra|]. split.
  - eapply Rle_trans; [|exact L]. unfold sin_approx, sin_term. cbn. set (x := deg e) in *. clearbody x. assert (x * x <= 1 / 500) by nra. nra.
  - pose proof (sin_lt_x (deg e)). lra.
Qed.
Lemma unit_near x y : x * x + y * y = 1 -> x * x <= 1 / 505 -> 0 <= y -> 999 / 1000 <= y <= 1.
Proof. intros H K P. split; nra. Qed.
Lemma angle89 : 1 / 100 <= cos (deg 89) <= 1 / 40 /\ 999 / 1000 <= sin (deg 89) <= 1.
Proof.
  pose proof (sin_near 1 ltac:(lra)) as H. replace (deg 89) with (PI / 2 - deg 1) by (unfold deg; field). rewrite cos_shift, sin_shift.
  split; [lra|]. apply (unit_near (sin (deg 1))); [|nra|].
  - pose proof (sin2_cos2 (deg 1)) as S. unfold Rsqr in S. exact S.
  - pose proof PI2_3_2. pose proof PI_4. apply cos_ge_0; unfold deg; lra.
Qed.
Lemma angle88 : 1 / 50 <= cos (deg 88) <= 1 / 20.
Proof. pose proof (sin_near 2 ltac:(lra)) as H. replace (deg 88) with (PI / 2 - deg 2) by (unfold deg; field). rewrite cos_shift. lra. Qed.
Lemma angle92 : - (1 / 20) <= cos (deg 92) <= - (1 / 50) /\ 999 / 1000 <= sin (deg 92) <= 1.
Proof.
  pose proof (sin_near 2 ltac:(lra)) as H. replace (deg 92) with (deg 2 + PI / 2) by (unfold deg; field).
  rewrite cos_plus, sin_plus, cos_PI2, sin_PI2. replace (cos (deg 2) * 0 - sin (deg 2) * 1) with (- sin (deg 2)) by ring.
  replace (sin (deg 2) * 0 + cos (deg 2) * 1) with (cos (deg 2)) by ring. split; [lra|]. apply (unit_near (sin (deg 2))); [|nra|].
  - pose proof (sin2_cos2 (deg 2)) as S. unfold Rsqr in S. exact S.
  - pose proof PI2_3_2. pose proof PI_4. apply cos_ge_0; unfold deg; lra.
Qed.

(** The rotations of each crystal system, in the setting of BravaisLattice *)
Definition axis_kept (Q : mat R) (i : nat) : Prop := get Q i i = 1 \/ get Q i i = -1.
Definition Rz (t : R) : mat R := M3 (cos t) (- sin t) 0 (sin t) (cos t) 0 0 0 1.
Definition crystal_rotation (s : system) (Q : mat R) : Prop :=
  let cube := exists M : mat Z, Q = RZ M /\ orthogonal 3 M /\ det M = 1%Z in
  match s with
  | Cubic => cube
  | Tetragonal => cube /\ axis_kept Q 2
  | Orthorhombic => cube /\ axis_kept Q 0 /\ axis_kept Q 1 /\ axis_kept Q 2
  | Monoclinic => cube /\ get Q 1 1 = 1 /\ axis_kept Q 0 /\ axis_kept Q 2
  | Triclinic => Q = eye 3
  | Hexagonal => exists k : nat, (k < 6)%nat /\ (Q = Rz (INR k * (PI / 3)) \/ Q = mmul (Rz (INR k * (PI / 3))) (M3 1 0 0 0 (-1) 0 0 0 (-1)))
  | _ => False
  end.
Lemma sub_table (f : mat Z -> bool) (P : mat R -> Prop) : (forall M, In M CUBIC_LAUE_GROUP -> (f M = true <-> P (RZ M))) ->
  forall Q, In Q (map RZ (filter f CUBIC_LAUE_GROUP)) <-> (exists M : mat Z, Q = RZ M /\ orthogonal 3 M /\ det M = 1%Z) /\ P Q.
Proof.
  intros H Q. rewrite in_map_iff. split.
  - intros (M & <- & HM). apply filter_In in HM. destruct HM as [HM F]. split; [exists M; split; [reflexivity|now apply cubic_iff]|now apply H].
  - intros ((M & -> & HM) & HP). apply cubic_iff in HM. exists M. split; [reflexivity|]. apply filter_In. split; [exact HM|now apply H].
Qed.
Lemma abs_kept M i : (Z.abs (get M i i) =? 1)%Z = true <-> axis_kept (RZ M) i.
Proof.
  rewrite Z.eqb_eq. unfold axis_kept. rewrite get_RZ. split.
  - intros H. assert (get M i i = 1 \/ get M i i = -1)%Z as [-> | ->] by lia; auto.
  - intros [H|H]; [apply (eq_IZR _ 1) in H|apply (eq_IZR _ (-1)) in H]; rewrite H; reflexivity.
Qed.
Lemma thirds k : (k < 6)%nat -> (cos (INR k * (PI / 3)), sin (INR k * (PI / 3))) =
  nth k [(1, 0); (C1, S1); (- C1, S1); (-1, 0); (- C1, - S1); (C1, - S1)] (0, 0).
Proof.
  intros H. destruct C1S1 as (_ & HC & HS).
  assert (T2 : cos (2 * (PI / 3)) = - C1 /\ sin (2 * (PI / 3)) = S1) by (rewrite cos_2PI3, sin_2PI3, HC, HS; split; lra).
  assert (UP : forall x, cos (x + PI) = - cos x /\ sin (x + PI) = - sin x) by (intros x; now rewrite neg_cos, neg_sin).
  destruct k as [|[|[|[|[|[|k]]]]]]; [..|lia]; cbn [nth].
  - change (INR 0) with 0. rewrite Rmult_0_l, cos_0, sin_0. reflexivity.
  - change (INR 1) with 1. rewrite Rmult_1_l. reflexivity.
  - replace (INR 2) with 2 by (cbn; lra). destruct T2 as [-> ->]. reflexivity.
  - replace (INR 3 * (PI / 3)) with (0 + PI) by (cbn; field). destruct (UP 0) as [-> ->]. rewrite cos_0, sin_0. f_equal; lra.
  - replace (INR 4 * (PI / 3)) with (PI / 3 + PI) by (cbn; field). destruct (UP (PI / 3)) as [-> ->]. reflexivity.
  - replace (INR 5 * (PI / 3)) with (2 * (PI / 3) + PI) by (cbn; field). destruct (UP (2 * (PI / 3))) as [-> ->]. destruct T2 as [-> ->]. f_equal; lra.
Qed.
Lemma hex_table Q : crystal_rotation Hexagonal Q <-> In Q HEX_LAUE_GROUP.
Proof.
  assert (V : forall k, (k < 6)%nat -> exists c s, nth k [(1, 0); (C1, S1); (- C1, S1); (-1, 0); (- C1, - S1); (C1, - S1)] (0, 0) = (c, s) /\
    Rz (INR k * (PI / 3)) = M3 c (- s) 0 s c 0 0 0 1 /\ mmul (Rz (INR k * (PI / 3))) (M3 1 0 0 0 (-1) 0 0 0 (-1)) = M3 c s 0 s (- c) 0 0 0 (-1)).
  { intros k Hk. exists (cos (INR k * (PI / 3))), (sin (INR k * (PI / 3))). split; [symmetry; now apply thirds|]. split; [reflexivity|].
    unfold Rz. generalize (cos (INR k * (PI / 3))) (sin (INR k * (PI / 3))). intros c s. mat_eq ltac:(ring). }
  unfold crystal_rotation, HEX_LAUE_GROUP. split.
  - intros (k & Hk & H). destruct (V k Hk) as (c & s & N & V1 & V2). rewrite V2, V1 in H. clear V V1 V2.
    destruct k as [|[|[|[|[|[|k]]]]]]; [..|lia]; cbn [nth] in N; injection N as <- <-; unfold M3 in H; destruct H as [-> | ->]; cbn [In];
      repeat first [left; solve [repeat (f_equal; try lra)] | right].
  - intros H. cbn [In] in H.
    assert (K : forall k c s, (k < 6)%nat -> nth k [(1, 0); (C1, S1); (- C1, S1); (-1, 0); (- C1, - S1); (C1, - S1)] (0, 0) = (c, s) ->
      Q = M3 c (- s) 0 s c 0 0 0 1 \/ Q = M3 c s 0 s (- c) 0 0 0 (-1) ->
      exists k : nat, (k < 6)%nat /\ (Q = Rz (INR k * (PI / 3)) \/ Q = mmul (Rz (INR k * (PI / 3))) (M3 1 0 0 0 (-1) 0 0 0 (-1)))).
    { intros k c s Hk N X. exists k. split; [exact Hk|]. destruct (V k Hk) as (c' & s' & N' & -> & ->). rewrite N in N'. injection N' as <- <-. exact X. }
    unfold M3 in K.
    repeat (destruct H as [<-|H]; [first
      [ apply (K 0%nat _ _ ltac:(lia) eq_refl); first [left; solve [repeat (f_equal; try lra)] | right; solve [repeat (f_equal; try lra)]]
      | apply (K 1%nat _ _ ltac:(lia) eq_refl); first [left; solve [repeat (f_equal; try lra)] | right; solve [repeat (f_equal; try lra)]]
      | apply (K 2%nat _ _ ltac:(lia) eq_refl); first [left; solve [repeat (f_equal; try lra)] | right; solve [repeat (f_equal; try lra)]]
      | apply (K 3%nat _ _ ltac:(lia) eq_refl); first [left; solve [repeat (f_equal; try lra)] | right; solve [repeat (f_equal; try lra)]]
      | apply (K 4%nat _ _ ltac:(lia) eq_refl); first [left; solve [repeat (f_equal; try lra)] | right; solve [repeat (f_equal; try lra)]]
      | apply (K 5%nat _ _ ltac:(lia) eq_refl); first [left; solve [repeat (f_equal; try lra)] | right; solve [repeat (f_equal; try lra)]] ]|]).
    destruct H.
Qed.

(** The groups of the sample lattices *)
Definition is_system_group (s : system) (G : list (mat R)) : Prop :=
  NoDup G /\ length G = laue_order s /\ forall Q, In Q G <-> crystal_rotation s Q.
Lemma sample_right k s G : right k -> s = (if (k <? 8)%nat then Tetragonal else Orthorhombic) -> Laue_group (Es k) = Ok G -> (laue_order s <= length G)%nat -> is_system_group s G.
Proof.
  intros H -> EG HL. set (L := filter (turn_kept k) CUBIC_LAUE_GROUP).
  assert (LL : length L = laue_order (if (k <? 8)%nat then Tetragonal else Orthorhombic)).
  { unfold L. apply right_cases in H. repeat destruct H as [-> | H]; [..|subst]; reflexivity. }
  destruct (laue_exact (Es k) L G (Es_base k H) EG) as (N & LG & IG).
  - intros Q HQ A. apply filter_In. split; [exact HQ|]. now apply (Es_cubic k).
  - intros _ Q HQ A. pose proof (Es_hex k Q H HQ A) as T. unfold two_folds, M3 in T. cbn [In] in T.
    assert (TT : forall M, In M two_foldsZ -> In M L).
    { intros M HM. apply filter_In. split; [unfold two_foldsZ in HM; cbn [In] in HM; destruct HM as [<-|[<-|[<-|[<-|[]]]]]; unfold CUBIC_LAUE_GROUP; cbn; auto 40|].
      unfold turn_kept. unfold two_foldsZ in HM. cbn [In] in HM. destruct HM as [<-|[<-|[<-|[<-|[]]]]]; destruct (k <? 8)%nat; reflexivity. }
    assert (TR : forall M, In M two_foldsZ -> In (RZ M) (map RZ L)) by (intros M HM; apply in_map; auto).
    destruct T as [<-|[<-|[<-|[<-|[]]]]];
      [apply (TR [[1; 0; 0]; [0; 1; 0]; [0; 0; 1]]%Z)|apply (TR [[1; 0; 0]; [0; -1; 0]; [0; 0; -1]]%Z)|apply (TR [[-1; 0; 0]; [0; 1; 0]; [0; 0; -1]]%Z)|apply (TR [[-1; 0; 0]; [0; -1; 0]; [0; 0; 1]]%Z)];
      unfold two_foldsZ; cbn [In]; auto.
  - lia.
  - split; [exact N|]. split; [lia|]. intros Q. rewrite IG. unfold L, turn_kept. destruct (k <? 8)%nat; cbn [crystal_rotation].
    + exact (sub_table (fun Q => (Z.abs (get Q 2 2) =? 1)%Z) (fun Q => axis_kept Q 2) (fun M _ => abs_kept M 2) Q).
    + rewrite (sub_table _ (fun Q => axis_kept Q 0 /\ axis_kept Q 1 /\ axis_kept Q 2)); [tauto|].
      intros M _. rewrite !andb_true_iff, !abs_kept. tauto.
Qed.
Lemma mono_spec Q : In Q (map RZ mono) <-> crystal_rotation Monoclinic Q.
Proof.
  assert (E : mono = filter (fun M => (get M 1 1 =? 1)%Z && (Z.abs (get M 0 0) =? 1)%Z && (Z.abs (get M 2 2) =? 1)%Z) CUBIC_LAUE_GROUP) by reflexivity.
  rewrite E. cbn [crystal_rotation]. rewrite (sub_table _ (fun Q => get Q 1 1 = 1 /\ axis_kept Q 0 /\ axis_kept Q 2)); [tauto|].
  intros M _. rewrite !andb_true_iff, !abs_kept, Z.eqb_eq, get_RZ. split.
  - intros [[-> ?] ?]. auto.
  - intros (H & ? & ?). apply (eq_IZR _ 1) in H. auto.
Qed.
Lemma tri_spec Q : In Q (map RZ [I3Z]) <-> crystal_rotation Triclinic Q.
Proof. cbn [map In crystal_rotation]. rewrite RZ_I3. intuition congruence. Qed.
Lemma cubic_spec Q : In Q (map RZ CUBIC_LAUE_GROUP) <-> crystal_rotation Cubic Q.
Proof.
  rewrite in_map_iff. cbn [crystal_rotation]. split.
  - intros (M & <- & H). exists M. split; [reflexivity|now apply cubic_iff].
  - intros (M & -> & H). exists M. split; [reflexivity|now apply cubic_iff].
Qed.

Lemma hex_group G : Laue_group (Ehex 2 3) = Ok G -> is_system_group Hexagonal G.
Proof.
  intros EG. destruct (laue_hex 2 3 ltac:(lra) ltac:(lra)) as (G' & EG' & LG & _ & IG). rewrite EG in EG'. injection EG' as <-.
  split; [|split; [exact LG|intros Q; rewrite IG; symmetry; apply hex_table]].
  apply (NoDup_incl_NoDup (proj1 (proj2 (proj1 HEX_group)))); [rewrite LG; apply le_n|]. intros Q HQ. now apply IG.
Qed.
Lemma mono_group E G : base 3 E -> (forall Q, In Q CUBIC_LAUE_GROUP -> lat_eq E (mmul (RZ Q) E) = Ok true -> In Q mono) ->
  Laue_group E = Ok G -> (laue_order Monoclinic <= length G)%nat -> is_system_group Monoclinic G.
Proof.
  intros B A EG HL. destruct (laue_exact E mono G B EG A) as (N & LG & IG); [cbn; lia|exact HL|].
  split; [exact N|]. split; [exact LG|]. intros Q. rewrite IG. apply mono_spec.
Qed.
Lemma tri_group E G : base 3 E -> (forall Q, In Q CUBIC_LAUE_GROUP -> lat_eq E (mmul (RZ Q) E) = Ok true -> In Q [I3Z]) ->
  Laue_group E = Ok G -> (laue_order Triclinic <= length G)%nat -> is_system_group Triclinic G.
Proof.
  intros B A EG HL. destruct (laue_exact E [I3Z] G B EG A) as (N & LG & IG); [cbn; lia|exact HL|].
  split; [exact N|]. split; [exact LG|]. intros Q. rewrite IG. apply tri_spec.
Qed.
Lemma cubic_group E G : base 3 E -> Laue_group E = Ok G -> length G = 24%nat -> is_system_group Cubic G.
Proof.
  intros B EG HL. destruct (laue_cubic E G B EG HL) as (N & IG).
  split; [exact N|]. split; [exact HL|]. intros Q. rewrite IG. apply cubic_spec.
Qed.

(** For every lattice type except 5 setLaue keeps U and gives exactly the rotation group of the crystal system. *)
Theorem C71_exact_partial m k s ce : (1 <= k <= 14)%Z -> k <> 5%Z -> bravais_type 3 k = Some (s, ce) ->
  exists m', setLaue m (Int k) = Ok m' /\ m_U m' = m_U m /\ m_Ulist m' = None /\ m_idx m' = None /\
    NoDup (getLaue m') /\ length (getLaue m') = laue_order s /\ forall Q, In Q (getLaue m') <-> crystal_rotation s Q.
Proof.
  intros Hk H5 HT. destruct (C71_lattice_type_partial m k s ce Hk H5 HT) as (b0 & m' & _ & ES & EU & E1 & E2 & _ & HL & HX).
  exists m'. split; [exact ES|]. split; [exact EU|]. split; [exact E1|]. split; [exact E2|]. change (is_system_group s (getLaue m')).
  unfold setLaue in ES. destruct ((0 <? k) && (k <=? 14))%Z; [|discriminate].
  destruct (new_bravais k _ 3) as [b| |] eqn:EB; [|discriminate|discriminate]. cbn [bind] in ES.
  destruct (Laue_group (b_base b)) as [G| |] eqn:EG; [|discriminate|discriminate]. cbn [bind] in ES.
  assert (GM : getLaue m' = G) by (injection ES as <-; reflexivity). rewrite GM in *. clear ES GM E1 E2 EU m' m b0.
  apply base_of3 in EB. destruct EB as (C0 & EB).
  assert (k = 1 \/ k = 2 \/ k = 3 \/ k = 4 \/ k = 6 \/ k = 7 \/ k = 8 \/ k = 9 \/ k = 10 \/ k = 11 \/ k = 12 \/ k = 13 \/ k = 14)%Z as CK by lia. clear Hk H5.
  repeat destruct CK as [CK|CK]; subst k; cbn in HT; injection HT as <- <-; unfold latParam in EB;
    repeat (match type of EB with context [Z.to_nat ?e] => let v := eval vm_compute in (Z.to_nat e) in change (Z.to_nat e) with v in EB end); cbn [nth] in EB.
  1-3: apply (cubic_group (b_base b)); [|exact EG|apply HX; now left]; unfold base3D, par, cols3 in EB; cbn [nth] in EB; injection EB as <- <-;
    (split; [now right|]; split; [now apply wfb_spec|]; mat_unfold_goal; lra).
  1: { apply hex_group. rewrite <- EG. f_equal. unfold base3D, par in EB. cbn [nth] in EB. injection EB as <- <-. unfold Ehex. reflexivity. }
  1-6: match goal with H : base3D ?k _ = _ |- _ => apply (sample_right k); [unfold right; lia|reflexivity| |exact HL]; rewrite <- EG; f_equal;
    unfold base3D, par in EB; cbn [nth] in EB; injection EB as <- <-; unfold Es, RZ, mmap, cols3; cbn [unit sample]; mat_eq ltac:(field) end.
  - unfold base3D, par in EB. cbn [nth] in EB. injection EB as EB _. rewrite <- EB in EG. destruct angle89 as [U W].
    apply (mono_group (E12 (cos (deg 89)) (sin (deg 89)))); [now apply base12|now apply accept12| |exact HL].
    exact EG.
  - unfold base3D, par in EB. cbn [nth] in EB. injection EB as EB _. rewrite <- EB in EG. destruct angle89 as [U W].
    apply (mono_group (E13 (cos (deg 89)) (sin (deg 89)))); [now apply base13|now apply accept13| |exact HL].
    rewrite <- EG. f_equal. unfold E13, cols3. mat_eq ltac:(lra).
  - unfold base3D, par in EB. cbn [nth] in EB. destruct angle89 as [U _]. pose proof angle88 as V. destruct angle92 as [W S].
    set (u := cos (deg 89)) in *. set (h := cos (deg 88)) in *. set (g := cos (deg 92)) in *. set (s := sin (deg 92)) in *. clearbody u h g s.
    assert (HG : - (1 / 400) <= h * g <= 0) by nra. assert (UG : - (1 / 16000) <= u * h * g <= 0) by nra.
    assert (U2 : 0 <= u * u <= 1 / 1600) by nra. assert (V2 : 0 <= h * h <= 1 / 400) by nra. assert (W2 : 0 <= g * g <= 1 / 400) by nra.
    set (q := 1 + 2 * u * h * g - u * u - h * h - g * g) in *. assert (Q : 99 / 100 <= q <= 1) by (unfold q; lra). clearbody q.
    pose proof (sqrt_sqrt q ltac:(lra)) as QQ. pose proof (sqrt_pos q) as Q0.
    assert (QR : 99 / 100 <= sqrt q <= 1) by (split; nra).
    unfold np_div, np_sqrt in EB. rewrite (proj2 (Reqb_false s 0)) in EB by lra. cbn [bind] in EB.
    destruct (Rltb q 0) eqn:EQ; [apply Rltb_spec in EQ; lra|]. cbn [bind] in EB. injection EB as EB _. rewrite <- EB in EG.
    assert (SI : 1 <= / s <= 1000 / 999).
    { assert (s * / s = 1) by (field; lra). assert (0 < / s) by (apply Rinv_0_lt_compat; lra). split; nra. }
    assert (Y : 1 / 100 <= 2 * (u - h * g) / s <= 1 / 10) by (unfold Rdiv; split; nra).
    assert (Z : 197 / 100 <= 2 * sqrt q / s <= 201 / 100) by (unfold Rdiv; split; nra).
    apply (tri_group (E14 g h s (2 * (u - h * g) / s) (2 * sqrt q / s))); [now apply base14|now apply accept14| |exact HL].
    exact EG.
Qed.
Print Assumptions C71_exact_partial.

(** Type 12 (monoclinic): two rotations, the half turn about the second axis among them, the one about the third not. *)
Example C71_exact_case m : exists m', setLaue m (Int 12) = Ok m' /\ length (getLaue m') = 2%nat /\
  In (M3 (-1) 0 0 0 1 0 0 0 (-1)) (getLaue m') /\ ~ In (M3 (-1) 0 0 0 (-1) 0 0 0 1) (getLaue m').
Proof.
  destruct (C71_exact_partial m 12 Monoclinic P ltac:(lia) ltac:(lia) eq_refl) as (m' & ES & _ & _ & _ & _ & LG & IG).
  exists m'. split; [exact ES|]. split; [exact LG|]. rewrite !IG, <- !mono_spec. unfold mono, I3Z, Qb, RZ, mmap, M3. cbn [map In]. split; [auto|].
  intros [H|[H|[]]]; injection H; lra.
Qed.
