(** C17-C22: the Bravais lattices. *)
From Verif Require Import LinAlg GroupSpec GroupModel GroupProofs ReduceModel ReduceProofs LatticeModel LatticeSpec LatticeProofs LatticeGroups
  LatticeLaue LatticeComplete BravaisModel BravaisSpec BravaisProofs BravaisLaue BravaisHex BravaisSym.
Local Open Scope R_scope.

(** * C17 *)
Theorem C17_conventional_cell dim id s ce p c : bravais_type dim id = Some (s, ce) -> admissible s p c ->
  exists b, new_bravais id p dim = Ok b /\ has_cell (Z.to_nat dim) (conventional_base b) c.
Proof. intros H1 H2. destruct (built_all dim id s ce p c H1 H2) as (b & C & H & _ & _ & _ & _ & _ & _ & HC). now exists b. Qed.
(** every type has admissible parameters *)
Example C17_cubic_F : admissible Cubic [2] (mk_cell 2 2 2 90 90 90) /\ bravais_type 3 2 = Some (Cubic, F).
Proof.
  split; [|reflexivity]. split; [reflexivity|]. split; [cbn; intros x [<-|[]]; lra|]. unfold volume_factor. cbn. rewrite cosd90. lra.
Qed.
Lemma cosd_bounds x : 60 < x < 90 -> 0 < cosd x < 1 / 2.
Proof.
  intros H. pose proof PI_RGT_0. unfold cosd. assert (PI / 3 < x * PI / 180 < PI / 2) by (split; nra). split.
  - apply cos_gt_0; lra.
  - rewrite <- cos_PI3. apply cos_decreasing_1; lra.
Qed.
Example C17_triclinic : admissible Triclinic [2; 3; 4; 80; 85; 75] (mk_cell 2 3 4 80 85 75) /\ bravais_type 3 14 = Some (Triclinic, P).
Proof.
  split; [|reflexivity]. split; [reflexivity|]. split; [cbn; intros x H; intuition lra|]. unfold volume_factor. cbn.
  pose proof (cosd_bounds 80 ltac:(lra)). pose proof (cosd_bounds 85 ltac:(lra)). pose proof (cosd_bounds 75 ltac:(lra)).
  assert (T : forall x, 0 < x < 1/2 -> x * x < 1/4) by (intros; nra). pose proof (T (cosd 80) ltac:(lra)). pose proof (T (cosd 85) ltac:(lra)). pose proof (T (cosd 75) ltac:(lra)).
  assert (0 < 2 * cosd 80 * cosd 85 * cosd 75) by (repeat apply Rmult_lt_0_compat; lra). lra.
Qed.
Example C17_trigonal : admissible Trigonal [3; 70] (mk_cell 3 3 3 70 70 70) /\ bravais_type 3 5 = Some (Trigonal, P).
Proof.
  split; [|reflexivity]. split; [reflexivity|]. split; [cbn; intros x H; intuition lra|]. unfold volume_factor. cbn.
  pose proof (cosd_bounds 70 ltac:(lra)). assert (cosd 70 * cosd 70 < 1/4) by nra.
  assert (0 < 2 * cosd 70 * cosd 70 * cosd 70) by (repeat apply Rmult_lt_0_compat; lra). lra.
Qed.
Print Assumptions C17_conventional_cell.

(** * C18 *)
Theorem C18_conventional_trans dim id s ce p c b : bravais_type dim id = Some (s, ce) -> admissible s p c ->
  new_bravais id p dim = Ok b ->
  let n := Z.to_nat dim in
  (exists C : mat Z, wf n n C /\ conventional_trans b = RZ C /\ det C = points_per_cell ce) /\
  conventional_base b = mmul (b_base b) (conventional_trans b) /\
  Rabs (det (conventional_base b)) = IZR (points_per_cell ce) * Rabs (det (b_base b)) /\
  base n (b_base b) /\ sub_lattice n (conventional_base b) (b_base b).
Proof.
  intros H1 H2 H3 n. destruct (built_all dim id s ce p c H1 H2) as (b' & C & H & _ & _ & HC & WC & DC & BB & HB).
  assert (b' = b) by congruence. subst b'. change (Z.to_nat dim) with n in WC, BB. pose proof (wf_RZ n n C WC) as WR. pose proof (dim23_pos n (proj1 BB)) as Hn.
  split; [now exists C|]. split; [reflexivity|]. split; [|split; [exact BB|]].
  - unfold conventional_base, conventional_trans. rewrite HC, (det_mmul n), <- RZ_det, Rabs_mult, DC by (apply BB || assumption).
    rewrite Rmult_comm. f_equal. apply Rabs_right. destruct ce; cbn; lra.
  - apply (sub_lattice_iff n _ BB).
    + unfold conventional_base, conventional_trans. rewrite HC. apply (wf_mmul n n n); [apply BB|exact WR|exact Hn].
    + exists C. split; [exact WC|]. unfold conventional_base, conventional_trans. now rewrite HC.
Qed.
Print Assumptions C18_conventional_trans.

(** * C19 *)
Definition rows_of (i : index_arg) : list (list R) := match i with One x => [x] | Many xs => xs end.
(** one index, or at least two, of the right length *)
Definition valid_index (n : nat) (i : index_arg) : Prop :=
  (forall x, In x (rows_of i) -> length x = n) /\ match i with One _ => True | Many xs => (2 <= length xs)%nat end.

Lemma apply_rows_valid n M i : wf n n M -> (0 < n)%nat -> valid_index n i ->
  valid_index n (apply_rows M (rows_of i)) /\ rows_of (apply_rows M (rows_of i)) = map (mvmul M) (rows_of i).
Proof.
  intros W Hn [H1 H2]. unfold apply_rows.
  assert (L : forall x, length (mvmul M x) = n) by (intros x; unfold mvmul, mkv; rewrite map_length, seq_length; apply W).
  destruct i as [x|xs]; cbn [rows_of map].
  - split; [|reflexivity]. split; [|exact I]. intros y [<-|[]]. apply L.
  - destruct xs as [|x [|y xs]]; cbn [length] in H2; try lia. cbn [map rows_of]. split; [|reflexivity]. split.
    + cbn [rows_of]. intros z Hz. destruct Hz as [<-|[<-|Hz]]; [apply L|apply L|]. apply in_map_iff in Hz. destruct Hz as (w & <- & _). apply L.
    + cbn [length]. lia.
Qed.
Lemma index_rows_valid n i : valid_index n i -> index_rows n i = Ok (rows_of i).
Proof.
  intros [H1 H2]. unfold index_rows. destruct i as [x|xs]; cbn [rows_of] in *.
  - rewrite (H1 x), Nat.eqb_refl by now left. reflexivity.
  - destruct xs as [|x xs]; cbn in H2; [lia|]. rewrite (H1 x), Nat.eqb_refl by now left. reflexivity.
Qed.
Lemma apply_rows_inv n M N i : wf n n M -> wf n n N -> (0 < n)%nat -> mmul N M = eye n -> valid_index n i ->
  apply_rows N (rows_of (apply_rows M (rows_of i))) = i.
Proof.
  intros WM WN Hn HI V. destruct (apply_rows_valid n M i WM Hn V) as [V2 E2]. rewrite E2. unfold apply_rows. rewrite map_map.
  assert (K : map (fun x => mvmul N (mvmul M x)) (rows_of i) = rows_of i).
  { rewrite <- (map_id (rows_of i)) at 2. apply map_ext_in. intros x Hx. pose proof (proj1 V x Hx) as Lx. rewrite <- (mvmul_mmul n), HI by auto.
    now apply mvmul_eye. }
  rewrite K. destruct i as [x|xs]; [reflexivity|]. cbn. destruct V as [_ V]. destruct xs as [|? [|? ?]]; cbn in V; try lia. reflexivity.
Qed.

Section C19.
  Variables (dim id : Z) (s : system) (ce : centring) (p : list R) (c : cell) (b : bravais).
  Hypothesis HT : bravais_type dim id = Some (s, ce).
  Hypothesis HA : admissible s p c.
  Hypothesis HB : new_bravais id p dim = Ok b.
  Let n := Z.to_nat dim.
  Lemma miller_facts : exists C, wf n n C /\ dim23 n /\ length (b_base b) = n /\ b_C b = C /\ det C <> 0 /\ inv C = Ok (minv C) /\ base n (b_base b).
  Proof.
    destruct (built_all dim id s ce p c HT HA) as (b' & C & H & _ & _ & HC & WC & DC & BB & _).
    assert (b' = b) by congruence. subst b'. exists (RZ C). change (Z.to_nat dim) with n in WC, BB. pose proof (wf_RZ n n C WC) as WR.
    assert (D : det (RZ C) <> 0) by (rewrite <- RZ_det, DC; destruct ce; cbn; lra).
    split; [exact WR|]. split; [apply BB|]. split; [apply BB|]. split; [exact HC|]. split; [exact D|]. split; [|exact BB].
    apply (inv_Ok n); [apply BB|assumption..].
  Qed.
  Lemma miller_round_trip i : valid_index n i ->
    (exists y, to_primitive_Miller b i = Ok y /\ valid_index n y /\ to_conventional_Miller b y = Ok i) /\
    (exists y, to_conventional_Miller b i = Ok y /\ valid_index n y /\ to_primitive_Miller b y = Ok i).
  Proof.
    intros V. destruct miller_facts as (C & WC & D & HL & EC & DC & EI & BB). pose proof (dim23_pos n D) as Hn.
    pose proof (wf_minv n C D WC) as WI.
    unfold to_primitive_Miller, to_conventional_Miller. rewrite HL, EC, EI. split.
    - rewrite (index_rows_valid n i V). cbn [bind]. eexists. split; [reflexivity|].
      destruct (apply_rows_valid n C i WC Hn V) as [V2 _]. split; [exact V2|]. rewrite (index_rows_valid n _ V2). cbn [bind].
      f_equal. apply (apply_rows_inv n); auto. now apply minv_l.
    - rewrite (index_rows_valid n i V). cbn [bind]. eexists. split; [reflexivity|].
      destruct (apply_rows_valid n (minv C) i WI Hn V) as [V2 _]. split; [exact V2|]. rewrite (index_rows_valid n _ V2). cbn [bind].
      f_equal. apply (apply_rows_inv n); auto. now apply minv_r.
  Qed.
  (** the converted index denotes the same vector *)
  Lemma miller_same_direction i : valid_index n i ->
    exists y, to_primitive_Miller b i = Ok y /\
      Forall2 (fun x z => mvmul (conventional_base b) x = mvmul (b_base b) z) (rows_of i) (rows_of y).
  Proof.
    intros V. destruct miller_facts as (C & WC & D & HL & EC & DC & EI & BB). pose proof (dim23_pos n D) as Hn.
    unfold to_primitive_Miller. rewrite HL, EC, (index_rows_valid n i V). cbn [bind]. eexists. split; [reflexivity|].
    destruct (apply_rows_valid n C i WC Hn V) as [_ ->]. destruct V as [V _]. induction (rows_of i) as [|x l IH]; cbn; constructor.
    - unfold conventional_base, conventional_trans. rewrite EC. rewrite (mvmul_mmul n); auto; [apply BB|apply V; now left].
    - apply IH. intros; apply V; now right.
  Qed.
  (** a single index of the wrong length, a list whose (first) index has the wrong length, or an empty list *)
  Lemma miller_wrong_length i : (forall x l, rows_of i = x :: l -> length x <> n) ->
    to_primitive_Miller b i = Raise ValueError /\ to_conventional_Miller b i = Raise ValueError.
  Proof.
    intros H. destruct miller_facts as (C & WC & D & HL & EC & DC & EI & BB). unfold to_primitive_Miller, to_conventional_Miller. rewrite HL.
    assert (K : index_rows n i = Raise ValueError).
    { unfold index_rows. fold (rows_of i). destruct (rows_of i) as [|x l] eqn:E; [reflexivity|].
      rewrite (proj2 (Nat.eqb_neq _ _) (H x l eq_refl)). reflexivity. }
    rewrite K. auto.
  Qed.
  (** a list that holds one index comes back as a bare index, so a list of one does not survive the round trip *)
  Lemma miller_one_row x : length x = n ->
    exists y, to_primitive_Miller b (Many [x]) = Ok (One y) /\ to_conventional_Miller b (One y) = Ok (One x).
  Proof.
    intros Hx. destruct (miller_round_trip (One x)) as [(y & H1 & H2 & H3) _].
    { split; [|exact I]. intros y [<-|[]]. exact Hx. }
    unfold to_primitive_Miller, index_rows in *. cbn [bind] in *. destruct (_ =? _)%nat; [|discriminate]. cbn [bind] in *.
    cbn [apply_rows map] in *. injection H1 as <-. eexists. split; [reflexivity|exact H3].
  Qed.
End C19.
Theorem C19_round_trip_partial dim id s ce p c b : bravais_type dim id = Some (s, ce) -> admissible s p c -> new_bravais id p dim = Ok b ->
  forall i, valid_index (Z.to_nat dim) i ->
    (exists y, to_primitive_Miller b i = Ok y /\ valid_index (Z.to_nat dim) y /\ to_conventional_Miller b y = Ok i) /\
    (exists y, to_conventional_Miller b i = Ok y /\ valid_index (Z.to_nat dim) y /\ to_primitive_Miller b y = Ok i).
Proof. exact (miller_round_trip dim id s ce p c b). Qed.
(** the converted index denotes the same vector *)
Theorem C19_same_direction dim id s ce p c b : bravais_type dim id = Some (s, ce) -> admissible s p c -> new_bravais id p dim = Ok b ->
  forall i, valid_index (Z.to_nat dim) i ->
    exists y, to_primitive_Miller b i = Ok y /\
      Forall2 (fun x z => mvmul (conventional_base b) x = mvmul (b_base b) z) (rows_of i) (rows_of y).
Proof. exact (miller_same_direction dim id s ce p c b). Qed.
(** a single index of the wrong length, a list whose (first) index has the wrong length, or an empty list *)
Theorem C19_wrong_length dim id s ce p c b : bravais_type dim id = Some (s, ce) -> admissible s p c -> new_bravais id p dim = Ok b ->
  forall i, (forall x l, rows_of i = x :: l -> length x <> Z.to_nat dim) ->
    to_primitive_Miller b i = Raise ValueError /\ to_conventional_Miller b i = Raise ValueError.
Proof. exact (miller_wrong_length dim id s ce p c b). Qed.
(** a list that holds one index comes back as a bare index, so a list of one does not survive the round trip *)
Theorem C19_one_row dim id s ce p c b : bravais_type dim id = Some (s, ce) -> admissible s p c -> new_bravais id p dim = Ok b ->
  forall x, length x = Z.to_nat dim ->
    exists y, to_primitive_Miller b (Many [x]) = Ok (One y) /\ to_conventional_Miller b (One y) = Ok (One x).
Proof. exact (miller_one_row dim id s ce p c b). Qed.
Theorem C19_round_trip_refuted :
  exists b x, new_bravais 1 [1] 3 = Ok b /\ (forall r, In r x -> length r = 3%nat) /\ x <> [] /\
    forall y, to_primitive_Miller b (Many x) = Ok y -> to_conventional_Miller b y <> Ok (Many x).
Proof.
  destruct (C17_conventional_cell 3 1 Cubic P [1] (mk_cell 1 1 1 90 90 90) eq_refl) as (b & Hb & _).
  { split; [reflexivity|]. split; [cbn; intros x [<-|[]]; lra|]. unfold volume_factor. cbn. rewrite cosd90. lra. }
  exists b, [[1; 0; 0]]. split; [exact Hb|]. split; [cbn; intros r [<-|[]]; reflexivity|]. split; [discriminate|].
  intros y Hy. destruct (C19_one_row 3 1 Cubic P [1] (mk_cell 1 1 1 90 90 90) b) with (x := [1; 0; 0]) as (z & H1 & H2); [reflexivity| |exact Hb|reflexivity|].
  { split; [reflexivity|]. split; [cbn; intros x [<-|[]]; lra|]. unfold volume_factor. cbn. rewrite cosd90. lra. }
  assert (y = One z) by congruence. subst y. rewrite H2. discriminate.
Qed.
Print Assumptions C19_round_trip_partial.
Print Assumptions C19_same_direction.

(** * C20 *)
Lemma base_of3 id p b : new_bravais id p 3 = Ok b -> exists C0, base3D (Z.to_nat id) p = Ok (b_base b, C0).
Proof.
  unfold new_bravais. destruct (existsb _ p); [discriminate|]. cbn [Z.eqb Pos.eqb].
  destruct (_ && _)%bool; [|discriminate]. destruct (_ =? _)%nat; [|discriminate].
  destruct (base3D (Z.to_nat id) p) as [[E C0]| |]; try discriminate. cbn [bind fst snd].
  destruct (inv C0); try discriminate. cbn [bind]. unfold new_lattice. destruct (is_square E); [|discriminate].
  destruct (Rleb _ _); [discriminate|]. cbn [bind]. intros [= <-]. now exists C0.
Qed.
Lemma base_of2 id p b : new_bravais id p 2 = Ok b -> exists C0, base2D (Z.to_nat id) p = (b_base b, C0).
Proof.
  unfold new_bravais. destruct (existsb _ p); [discriminate|]. cbn [Z.eqb Pos.eqb].
  destruct (_ && _)%bool; [|discriminate]. destruct (_ =? _)%nat; [|discriminate].
  destruct (base2D (Z.to_nat id) p) as [E C0]. cbn [bind fst snd].
  destruct (inv C0); try discriminate. cbn [bind]. unfold new_lattice. destruct (is_square E); [|discriminate].
  destruct (Rleb _ _); [discriminate|]. cbn [bind]. intros [= <-]. now exists C0.
Qed.
Definition exact_order (s : system) : Prop := s = Cubic \/ s = Hexagonal \/ s = Square \/ s = Hexagonal2.
Lemma order3 s E k : (exists G PG, Laue_group E = Ok G /\ point_group E = Ok PG /\ (k <= length G)%nat /\ length PG = (2 * length G)%nat /\ (k = 24%nat -> length G = 24%nat)) ->
  laue_order s = k -> point_order s = (2 * k)%nat -> (exact_order s -> k = 24%nat) ->
  exists G PG, Laue_group E = Ok G /\ point_group E = Ok PG /\ (laue_order s <= length G)%nat /\ (point_order s <= length PG)%nat /\
    (planar s = false -> length PG = (2 * length G)%nat) /\
    (exact_order s -> length G = laue_order s /\ length PG = point_order s).
Proof.
  intros (G & PG & H1 & H2 & H3 & H4 & H5) K1 K2 K3. exists G, PG. rewrite K1, K2. repeat split; auto; try lia.
  - rewrite H5 by auto. now rewrite K3.
  - rewrite H4, H5 by auto. now rewrite K3.
Qed.
Ltac e3 := let H := fresh in intros [H|[H|[H|H]]]; discriminate H.
Lemma weak3 E k : (exists G PG, Laue_group E = Ok G /\ point_group E = Ok PG /\ (k <= length G)%nat /\ length PG = (2 * length G)%nat) -> k <> 24%nat ->
  (exists G PG, Laue_group E = Ok G /\ point_group E = Ok PG /\ (k <= length G)%nat /\ length PG = (2 * length G)%nat /\ (k = 24%nat -> length G = 24%nat)).
Proof. intros (G & PG & A1 & A2 & A3 & A4) H. exists G, PG. repeat split; auto. tauto. Qed.
Ltac diag x y z N C bxy byz bxz k :=
  eapply (order3 _ _ k); [eapply (laue_diag _ x y z N C bxy byz bxz k); [assumption|apply w33| |try discriminate; auto..|vm_compute; reflexivity|vm_compute; reflexivity]|reflexivity|reflexivity|first [reflexivity|e3]].
Ltac ebase := cbv [cols2 cols3 par nth]; unfold D3, RZ, mmap, N_prim, N_face, N_body, N_base; mat_eq ltac:(field; try lra).

Theorem C20_symmetry_order dim id s ce p c b : bravais_type dim id = Some (s, ce) -> admissible s p c ->
  new_bravais id p dim = Ok b ->
  exists G PG, Laue_group (b_base b) = Ok G /\ point_group (b_base b) = Ok PG /\
    (laue_order s <= length G)%nat /\ (point_order s <= length PG)%nat /\
    (planar s = false -> length PG = (2 * length G)%nat) /\
    (exact_order s -> length G = laue_order s /\ length PG = point_order s).
Proof.
  intros HT HA HB.
  assert (BB : base (Z.to_nat dim) (b_base b)).
  { destruct (built_all dim id s ce p c HT HA) as (b' & C & H & _ & _ & _ & _ & _ & BB & _). assert (b' = b) by congruence. now subst. }
  destruct HA as (Hc & Hpos & _).
  apply type_cases in HT. destruct HT as [[-> HT]|[-> HT]];
    [apply base_of3 in HB|apply base_of2 in HB]; destruct HB as (C0 & HB);
    repeat (destruct HT as [HT|HT]); destruct HT as (-> & -> & ->); cbn [requested] in Hc;
    repeat match type of Hc with context [match ?l with [] => _ | _ :: _ => _ end] => destruct l as [|? ?]; try discriminate Hc end; clear Hc.
  all: repeat match goal with
    | a : R, H : forall x, _ -> 0 < x |- _ =>
      lazymatch goal with K : 0 < a |- _ => fail | _ => assert (0 < a) by (apply H; cbn [In]; tauto) end end.
  all: match type of BB with base (Z.to_nat ?d) _ => let d' := eval compute in (Z.to_nat d) in change (Z.to_nat d) with d' in BB end.
  all: match type of HB with
       | base3D (Z.to_nat ?d) _ = _ => let d' := eval compute in (Z.to_nat d) in change (Z.to_nat d) with d' in HB
       | base2D (Z.to_nat ?d) _ = _ => let d' := eval compute in (Z.to_nat d) in change (Z.to_nat d) with d' in HB end.
  all: try (cbn [base3D base2D] in HB; injection HB as EB _; symmetry in EB; rewrite EB in *; clear EB C0 b).
  - diag (r / 2) (r / 2) (r / 2) N_prim I3Z true true true 24%nat. ebase.
  - diag (r / 2) (r / 2) (r / 2) N_face CZ_face true true true 24%nat. ebase.
  - diag (r / 2) (r / 2) (r / 2) N_body CZ_body true true true 24%nat. ebase.
  - destruct (laue_hex r r0) as (G & A1 & A2 & A3 & _); [assumption..|]. exists G, (G ++ map mopp G).
    change (cols3 _ _ _) with (Ehex r r0). rewrite A1, A3, app_length, map_length, A2. cbn. repeat split; lia.
  - cbn [base3D par nth] in HB. unfold np_sqrt in HB.
    destruct (Rltb _ 0); [discriminate|]. cbn [bind] in HB. destruct (Rltb _ 0); [discriminate|]. cbn [bind] in HB.
    injection HB as EB _. symmetry in EB. eapply (order3 _ _ 6); [apply weak3; [|lia]|reflexivity|reflexivity|e3].
    eapply laue_trig; [exact BB|]. rewrite EB. reflexivity.
  - diag (r / 2) (r / 2) (r0 / 2) N_prim I3Z true false false 8%nat. ebase.
  - diag (r / 2) (r / 2) (r0 / 2) N_body CZ_body true false false 8%nat. ebase.
  - diag (r / 2) (r0 / 2) (r1 / 2) N_prim I3Z false false false 4%nat. ebase.
  - diag (r / 2) (r0 / 2) (r1 / 2) N_base CZ_base false false false 4%nat. ebase.
  - diag (r / 2) (r0 / 2) (r1 / 2) N_face CZ_face false false false 4%nat. ebase.
  - diag (r / 2) (r0 / 2) (r1 / 2) N_body CZ_body false false false 4%nat. ebase.
  - eapply (order3 _ _ 2); [apply weak3; [|lia]|reflexivity|reflexivity|e3].
    apply (laue_mono _ Qb); [assumption|apply w33|]. unfold Qb. ebase.
  - eapply (order3 _ _ 2); [apply weak3; [|lia]|reflexivity|reflexivity|e3].
    apply (laue_mono _ [[0; 1; 0]; [1; 0; 0]; [0; 0; -1]]%Z); [assumption|apply w33|]. unfold Qb. ebase.
  - eapply (order3 _ _ 1); [apply weak3; [|lia]|reflexivity|reflexivity|e3]. now apply laue_tri.
  - set (LM := map (fun Q => (Q, Q)) SQUARE_EXT_GROUP). set (LM4 := map (fun Q => (Q, Q)) SQUARE_GROUP).
    assert (S : sym2 (cols2 [par [r] 0; 0] [0; par [r] 0]) LM).
    { intros q Hq. unfold LM, SQUARE_EXT_GROUP in Hq. cbn [map In] in Hq.
      repeat (destruct Hq as [<-|Hq]); [..|destruct Hq]; (split; [apply w22|]; cbn [fst snd]; ebase). }
    assert (S4 : sym2 (cols2 [par [r] 0; 0] [0; par [r] 0]) LM4).
    { intros q Hq. apply S. unfold LM, LM4 in *. apply in_map_iff in Hq. destruct Hq as (Q & <- & HQ). apply (in_map (fun Q => (Q, Q))). now apply sq_sub. }
    assert (ES : map fst LM = SQUARE_EXT_GROUP) by reflexivity. assert (ES4 : map fst LM4 = SQUARE_GROUP) by reflexivity.
    destruct (laue2_at_least _ (map RZ (map fst LM4)) (map RZ (map fst LM)) BB) as (G & PG & A1 & A2 & A3 & A4 & A5 & A6).
    + rewrite ES4. apply SQUARE_good.
    + rewrite ES. apply SQUARE_EXT_good.
    + apply (sym2_list _ LM4 SQUARE_GROUP BB S4); [rewrite ES4; apply incl_refl|intros Q; apply sq_sub].
    + apply (sym2_list _ LM SQUARE_EXT_GROUP BB S); [rewrite ES; apply incl_refl|apply incl_refl].
    + exists G, PG. specialize (A5 eq_refl). specialize (A6 eq_refl). split; [exact A1|]. split; [exact A2|]. rewrite A5, A6. cbn. repeat split; lia.
  - set (LM4 := [(I2Z, I2Z); ([[-1;0];[0;-1]], [[-1;0];[0;-1]])]%Z).
    set (LM := LM4 ++ [([[1;0];[0;-1]], [[1;0];[0;-1]]); ([[-1;0];[0;1]], [[-1;0];[0;1]])]%Z).
    assert (S : sym2 (cols2 [par [r; r0] 0; 0] [0; par [r; r0] 1]) LM).
    { intros q Hq. unfold LM, LM4, I2Z in Hq. cbn [app In] in Hq.
      repeat (destruct Hq as [<-|Hq]); [..|destruct Hq]; (split; [apply w22|]; cbn [fst snd]; ebase). }
    destruct (laue2_at_least _ (map RZ (map fst LM4)) (map RZ (map fst LM)) BB) as (G & PG & A1 & A2 & A3 & A4 & _).
    + apply RZ_NoDup. repeat constructor; cbn; intuition discriminate.
    + apply RZ_NoDup. repeat constructor; cbn; intuition discriminate.
    + apply (sym2_list _ LM4 SQUARE_GROUP BB).
      * intros q Hq. apply S. unfold LM. apply in_app_iff. auto.
      * unfold LM4, I2Z. intros X HX. cbn [map fst In] in HX. unfold SQUARE_GROUP. cbn. intuition.
      * intros Q; apply sq_sub.
    + apply (sym2_list _ LM SQUARE_EXT_GROUP BB S); [|apply incl_refl].
      unfold LM, LM4, I2Z. intros X HX. cbn [app map fst In] in HX. unfold SQUARE_EXT_GROUP. cbn. intuition.
    + exists G, PG. split; [exact A1|]. split; [exact A2|]. cbn in A3, A4 |- *. repeat split; try discriminate; try lia; destruct H1 as [K|[K|[K|K]]]; discriminate K.
  - set (LM4 := [(I2Z, I2Z); ([[-1;0];[0;-1]], [[-1;0];[0;-1]])]%Z).
    set (LM := LM4 ++ [([[1;0];[0;-1]], [[0;-1];[-1;0]]); ([[-1;0];[0;1]], [[0;1];[1;0]])]%Z).
    assert (S : sym2 (cols2 [/2 * par [r; r0] 0; /2 * par [r; r0] 1] [/2 * - par [r; r0] 0; /2 * par [r; r0] 1]) LM).
    { intros q Hq. unfold LM, LM4, I2Z in Hq. cbn [app In] in Hq.
      repeat (destruct Hq as [<-|Hq]); [..|destruct Hq]; (split; [apply w22|]; cbn [fst snd]; ebase). }
    destruct (laue2_at_least _ (map RZ (map fst LM4)) (map RZ (map fst LM)) BB) as (G & PG & A1 & A2 & A3 & A4 & _).
    + apply RZ_NoDup. repeat constructor; cbn; intuition discriminate.
    + apply RZ_NoDup. repeat constructor; cbn; intuition discriminate.
    + apply (sym2_list _ LM4 SQUARE_GROUP BB).
      * intros q Hq. apply S. unfold LM. apply in_app_iff. auto.
      * unfold LM4, I2Z. intros X HX. cbn [map fst In] in HX. unfold SQUARE_GROUP. cbn. intuition.
      * intros Q; apply sq_sub.
    + apply (sym2_list _ LM SQUARE_EXT_GROUP BB S); [|apply incl_refl].
      unfold LM, LM4, I2Z. intros X HX. cbn [app map fst In] in HX. unfold SQUARE_EXT_GROUP. cbn. intuition.
    + exists G, PG. split; [exact A1|]. split; [exact A2|]. cbn in A3, A4 |- *. repeat split; try discriminate; try lia; destruct H1 as [K|[K|[K|K]]]; discriminate K.
  - destruct (laue_hex2 r) as (G & PG & A1 & A2 & A3 & A4); [assumption..|]. exists G, PG.
    assert (EE : cols2 [par [r] 0; 0] [par [r] 0 * / 2; par [r] 0 * / 2 * sqrt 3] = Ehex2 r) by (unfold Ehex2; cbv [cols2 par nth]; mat_eq ltac:(field)).
    rewrite EE. split; [exact A1|]. split; [exact A2|]. rewrite A3, A4. cbn. repeat split; try lia; discriminate.
  - set (LM4 := [(I2Z, I2Z); ([[-1;0];[0;-1]], [[-1;0];[0;-1]])]%Z).
    match type of BB with base 2 ?E => assert (S : sym2 E LM4) end.
    { intros q Hq. unfold LM4, I2Z in Hq. cbn [In] in Hq.
      repeat (destruct Hq as [<-|Hq]); [..|destruct Hq]; (split; [apply w22|]; cbn [fst snd]; cbv [par nth]; generalize (cos (deg r1)) (sin (deg r1)); intros; ebase). }
    destruct (laue2_at_least _ (map RZ (map fst LM4)) (map RZ (map fst LM4)) BB) as (G & PG & A1 & A2 & A3 & A4 & _).
    + apply RZ_NoDup. repeat constructor; cbn; intuition discriminate.
    + apply RZ_NoDup. repeat constructor; cbn; intuition discriminate.
    + apply (sym2_list _ LM4 SQUARE_GROUP BB S).
      * unfold LM4, I2Z. intros X HX. cbn [map fst In] in HX. unfold SQUARE_GROUP. cbn. intuition.
      * intros Q; apply sq_sub.
    + apply (sym2_list _ LM4 SQUARE_EXT_GROUP BB S); [|apply incl_refl].
      unfold LM4, I2Z. intros X HX. cbn [app map fst In] in HX. unfold SQUARE_EXT_GROUP. cbn. intuition.
    + exists G, PG. split; [exact A1|]. split; [exact A2|]. cbn in A3, A4 |- *. repeat split; try discriminate; try lia; destruct H2 as [K|[K|[K|K]]]; discriminate K.
Qed.
Print Assumptions C20_symmetry_order.

(** * C21 *)
(** well-formed requests succeed and are reported back *)
Theorem C21_accepts dim id s ce p c : bravais_type dim id = Some (s, ce) -> admissible s p c ->
  exists b, new_bravais id p dim = Ok b /\ b_id b = id /\ b_par b = p.
Proof. intros H1 H2. destruct (built_all dim id s ce p c H1 H2) as (b & C & H & HI & HP & _). now exists b. Qed.
(** a request with a parameter that is not positive, an unknown id or the wrong number of parameters *)
Definition malformed (dim id : Z) (p : list R) : Prop :=
  (exists x, In x p /\ x <= 0) \/ bravais_type dim id = None \/
  (forall s ce, bravais_type dim id = Some (s, ce) -> requested s p = None).
Lemma params3 id p s ce : bravais_type 3 id = Some (s, ce) -> requested s p = None ->
  (length p =? nth (Z.to_nat (id - 1)) pramlen3 0)%nat = false.
Proof.
  intros HT HR. apply Nat.eqb_neq. intros HL. apply type_cases in HT. destruct HT as [[_ HT]|[HT _]]; [|discriminate].
  repeat (destruct HT as [HT|HT]); destruct HT as (-> & -> & ->); cbn in HL;
    repeat match type of HL with length ?l = _ => destruct l as [|? ?]; cbn in HL; try discriminate HL; try (injection HL as HL) end; discriminate HR.
Qed.
Lemma params2 id p s ce : bravais_type 2 id = Some (s, ce) -> requested s p = None ->
  (length p =? nth (Z.to_nat (id - 1)) pramlen2 0)%nat = false.
Proof.
  intros HT HR. apply Nat.eqb_neq. intros HL. apply type_cases in HT. destruct HT as [[HT _]|[_ HT]]; [discriminate|].
  repeat (destruct HT as [HT|HT]); destruct HT as (-> & -> & ->); cbn in HL;
    repeat match type of HL with length ?l = _ => destruct l as [|? ?]; cbn in HL; try discriminate HL; try (injection HL as HL) end; discriminate HR.
Qed.
Theorem C21_rejects_malformed dim id p : dim = 2%Z \/ dim = 3%Z -> malformed dim id p -> new_bravais id p dim = Raise ValueError.
Proof.
  intros HD HM. unfold new_bravais. destruct (existsb (fun x => Rleb x 0) p) eqn:E; [reflexivity|].
  assert (NP : ~ exists x, In x p /\ x <= 0).
  { intros (x & Hx & H0). assert (K : existsb (fun x => Rleb x 0) p = true) by (apply existsb_exists; exists x; split; [exact Hx|now apply Rleb_spec]). congruence. }
  destruct HD as [->| ->]; cbn [Z.eqb Pos.eqb].
  - destruct ((1 <=? id) && (id <? 6))%Z eqn:ER; [|reflexivity]. apply andb_prop in ER. destruct ER as [R1 R2]. apply Z.leb_le in R1. apply Z.ltb_lt in R2.
    destruct (bravais_type 2 id) as [[s ce]|] eqn:ET.
    + rewrite (params2 id p s ce ET); [reflexivity|]. destruct HM as [HM|[HM|HM]]; [tauto|congruence|]. now apply (HM s ce).
    + exfalso. assert (id = 1 \/ id = 2 \/ id = 3 \/ id = 4 \/ id = 5)%Z as K by lia. destruct K as [->|[->|[->|[->| ->]]]]; discriminate.
  - destruct ((1 <=? id) && (id <? 15))%Z eqn:ER; [|reflexivity]. apply andb_prop in ER. destruct ER as [R1 R2]. apply Z.leb_le in R1. apply Z.ltb_lt in R2.
    destruct (bravais_type 3 id) as [[s ce]|] eqn:ET.
    + rewrite (params3 id p s ce ET); [reflexivity|]. destruct HM as [HM|[HM|HM]]; [tauto|congruence|]. now apply (HM s ce).
    + exfalso. assert (id = 1 \/ id = 2 \/ id = 3 \/ id = 4 \/ id = 5 \/ id = 6 \/ id = 7 \/ id = 8 \/ id = 9 \/ id = 10 \/ id = 11 \/ id = 12 \/ id = 13 \/ id = 14)%Z as K by lia.
      repeat (destruct K as [->|K]; [discriminate|]). subst. discriminate.
Qed.
(** parameters of a degenerate (flat) cell *)
Lemma sing3 id p E C0 C : (1 <= id < 15)%Z -> (forall x, In x p -> 0 < x) -> length p = nth (Z.to_nat (id - 1)) pramlen3 0%nat ->
  base3D (Z.to_nat id) p = Ok (E, C0) -> wf 3 3 E -> det E = 0 -> wf 3 3 C0 -> wf 3 3 C -> mmul C0 (RZ C) = eye 3 ->
  new_bravais id p 3 = Raise ValueError.
Proof.
  intros Hid Hp Hl HB WE DE W0 WC HC. unfold new_bravais. rewrite existsb_pos by assumption.
  cbn [Z.eqb Pos.eqb]. rewrite (proj2 (Z.leb_le 1 id)), (proj2 (Z.ltb_lt id 15)) by lia. cbn [andb].
  rewrite Hl, Nat.eqb_refl, HB. cbn [bind fst snd].
  rewrite (inv_is 3 C0 C ltac:(now right) W0 WC HC). cbn [bind]. unfold new_lattice. rewrite DE.
  destruct (is_square E); [|reflexivity]. rewrite (proj2 (Rleb_spec _ _)) by lra. reflexivity.
Qed.
Lemma sing2 id p E C0 C : (1 <= id < 6)%Z -> (forall x, In x p -> 0 < x) -> length p = nth (Z.to_nat (id - 1)) pramlen2 0%nat ->
  base2D (Z.to_nat id) p = (E, C0) -> wf 2 2 E -> det E = 0 -> wf 2 2 C0 -> wf 2 2 C -> mmul C0 (RZ C) = eye 2 ->
  new_bravais id p 2 = Raise ValueError.
Proof.
  intros Hid Hp Hl HB WE DE W0 WC HC. unfold new_bravais. rewrite existsb_pos by assumption.
  cbn [Z.eqb Pos.eqb]. rewrite (proj2 (Z.leb_le 1 id)), (proj2 (Z.ltb_lt id 6)) by lia. cbn [andb].
  rewrite Hl, Nat.eqb_refl, HB. cbn [bind fst snd].
  rewrite (inv_is 2 C0 C ltac:(now left) W0 WC HC). cbn [bind]. unfold new_lattice. rewrite DE.
  destruct (is_square E); [|reflexivity]. rewrite (proj2 (Rleb_spec _ _)) by lra. reflexivity.
Qed.
Ltac params H := repeat match type of H with context [match ?l with [] => _ | _ :: _ => _ end] => destruct l as [|? ?]; try discriminate H end; injection H as <-.
Ltac norm_det := match goal with |- det ?E = 0 =>
    let X := eval cbv [cols2 cols3 par tr get mk nrows ncols nth map seq length] in E in change (det X = 0) end.
(** A flat cell is rejected, except that the triclinic formulas divide by sin(gamma). *)
Theorem C21_rejects_singular_partial dim id s ce p c : bravais_type dim id = Some (s, ce) -> requested s p = Some c ->
  (forall x, In x p -> 0 < x) -> volume_factor s c = 0 -> (s = Triclinic -> Rabs (cosd (angle c 0 1)) <> 1) ->
  new_bravais id p dim = Raise ValueError.
Proof.
  intros HT Hc Hpos HV HG. unfold volume_factor in HV.
  apply type_cases in HT. destruct HT as [[-> HT]|[-> HT]];
    repeat (destruct HT as [HT|HT]); destruct HT as (-> & -> & ->); cbn [requested] in Hc; params Hc;
    cbn [planar angle mk_cell] in HV; rewrite ?cosd90, ?cosd60 in HV; try (exfalso; lra).
  - set (c := cosd r0) in *. pose proof (COS_bound (deg r0)) as [_ Hc0]. change (cos (deg r0)) with c in Hc0.
    assert (HV' : (1 - c) * (1 - c) * (1 + 2 * c) = 0) by nra. assert (Hc1 : c = 1 \/ c = - (1/2)).
    { apply Rmult_integral in HV'. destruct HV' as [HV'|HV']; [apply Rmult_integral in HV'; destruct HV' as [HV'|HV']|]; lra. }
    assert (EB : exists k u v, base3D 5 [r; r0] = Ok (cols3 [k * u; k * v; k * v] [k * v; k * u; k * v] [k * v; k * v; k * u], eye 3)
       /\ (u - v) * (u - v) * (u + 2 * v) = 0).
    { cbn [base3D par nth]. change (cos (deg r0)) with c. unfold np_sqrt. rewrite (proj2 (Rltb_false _ _)) by lra. rewrite (proj2 (Rltb_false _ _)) by lra.
      cbn [bind]. do 3 eexists. split; [reflexivity|]. destruct Hc1 as [->| ->].
      - replace ((1 - 1) / 6) with 0 by lra. rewrite sqrt_0. ring.
      - replace ((1 + 2 * - (1/2)) / 3) with 0 by lra. rewrite sqrt_0. ring. }
    destruct EB as (k & u & v & EB & DT). eapply (sing3 5 _ _ (eye 3) I3Z); [lia|assumption|reflexivity|exact EB|apply w33| |apply wf_eye|apply w33|exact I3_inv].
    norm_det. rewrite det3. cbn. transitivity (k * k * k * ((u - v) * (u - v) * (u + 2 * v))); [ring|]. rewrite DT. ring.
  - pose proof (sc2 (deg r2)) as SC. change (cosd r2) with (cos (deg r2)) in HV.
    assert (S0 : sin (deg r2) = 0) by nra.
    eapply (sing3 12 _ _ (eye 3) I3Z); [lia|assumption|reflexivity|reflexivity|apply w33| |apply wf_eye|apply w33|exact I3_inv].
    norm_det. rewrite det3. cbn. rewrite S0. ring.
  - pose proof (sc2 (deg r2)) as SC. change (cosd r2) with (cos (deg r2)) in HV.
    assert (S0 : sin (deg r2) = 0) by nra.
    eapply (sing3 13 _ _ C_base CZ_base); [lia|assumption|reflexivity|reflexivity|apply w33| |apply w33|apply w33|exact C_base_inv].
    norm_det. rewrite det3. cbn. rewrite S0. ring.
  - specialize (HG eq_refl). cbn [angle mk_cell] in HG. pose proof (sc2 (deg r4)) as SC. unfold cosd in HV, HG. fold (deg r2) (deg r3) (deg r4) in HV, HG.
    assert (S0 : sin (deg r4) <> 0).
    { intros K. rewrite K in SC. assert (K2 : cos (deg r4) = 1 \/ cos (deg r4) = -1) by (assert ((cos (deg r4) - 1) * (cos (deg r4) + 1) = 0) by lra; apply Rmult_integral in H; lra).
      destruct K2 as [K2|K2]; rewrite K2 in HG; apply HG; [apply Rabs_right; lra|rewrite Rabs_left; lra]. }
    eapply (sing3 14 _ _ (eye 3) I3Z); [lia|assumption|reflexivity| | | |apply wf_eye|apply w33|exact I3_inv].
    + change (Z.to_nat 14) with 14%nat. cbn [base3D par nth]. unfold np_div, np_sqrt. rewrite (proj2 (Reqb_false _ _)) by assumption. cbn [bind].
      rewrite (proj2 (Rltb_false _ _)) by (rewrite HV; lra). cbn [bind]. reflexivity.
    + apply w33.
    + rewrite HV, sqrt_0. norm_det. rewrite det3. cbn. unfold Rdiv. rewrite Rmult_0_r, Rmult_0_l. ring.
  - pose proof (sc2 (deg r1)) as SC. change (cosd r1) with (cos (deg r1)) in HV.
    assert (S0 : sin (deg r1) = 0) by nra.
    eapply (sing2 5 _ _ (eye 2) I2Z); [lia|assumption|reflexivity|reflexivity|apply w22| |apply wf_eye|apply w22|exact I2_inv].
    norm_det. rewrite det2. cbn. rewrite S0. ring.
Qed.
(** What is missing: angles that no cell has give a base of NaNs, without an exception. *)
Theorem C21_silent_nan dim id s ce p c : bravais_type dim id = Some (s, ce) -> requested s p = Some c ->
  (forall x, In x p -> 0 < x) -> volume_factor s c < 0 \/ (s = Triclinic /\ Rabs (cosd (angle c 0 1)) = 1) -> new_bravais id p dim = Raise NaN.
Proof.
  intros HT Hc Hpos HV. unfold volume_factor in HV.
  assert (N3 : forall id, (1 <= id < 15)%Z -> length p = nth (Z.to_nat (id - 1)) pramlen3 0%nat -> base3D (Z.to_nat id) p = Raise NaN -> new_bravais id p 3 = Raise NaN).
  { intros i Hi Hl HB. unfold new_bravais. rewrite existsb_pos by assumption.
    cbn [Z.eqb Pos.eqb]. rewrite (proj2 (Z.leb_le 1 i)), (proj2 (Z.ltb_lt i 15)) by lia. cbn [andb]. rewrite Hl, Nat.eqb_refl, HB. reflexivity. }
  assert (T2 : forall x, 0 <= 1 - cosd x * cosd x).
  { intros x. pose proof (sc2 (deg x)) as SC. change (cosd x) with (cos (deg x)). pose proof (Rle_0_sqr (sin (deg x))) as K. unfold Rsqr in K. lra. }
  apply type_cases in HT. destruct HT as [[-> HT]|[-> HT]];
    repeat (destruct HT as [HT|HT]); destruct HT as (-> & -> & ->); cbn [requested] in Hc; params Hc;
    cbn [planar angle mk_cell] in HV; rewrite ?cosd90, ?cosd60 in HV;
    try (exfalso; destruct HV as [HV|[HV _]]; [lra|discriminate HV]).
  - destruct HV as [HV|[HV _]]; [|discriminate]. set (c := cosd r0) in *. pose proof (COS_bound (deg r0)) as [_ Hc0]. change (cos (deg r0)) with c in Hc0.
    assert (HV' : (1 - c) * (1 - c) * (1 + 2 * c) < 0) by nra.
    assert (1 + 2 * c < 0). { pose proof (Rle_0_sqr (1 - c)) as K. unfold Rsqr in K. nra. }
    apply (N3 5%Z); [lia|reflexivity|]. change (Z.to_nat 5) with 5%nat. cbn [base3D par nth]. change (cos (deg r0)) with c. unfold np_sqrt.
    rewrite (proj2 (Rltb_false _ _)) by lra. cbn [bind]. rewrite (proj2 (Rltb_spec _ _)) by lra. reflexivity.
  - exfalso. destruct HV as [HV|[HV _]]; [|discriminate]. specialize (T2 r2). lra.
  - exfalso. destruct HV as [HV|[HV _]]; [|discriminate]. specialize (T2 r2). lra.
  - apply (N3 14%Z); [lia|reflexivity|]. change (Z.to_nat 14) with 14%nat. cbn [base3D par nth]. unfold np_div, np_sqrt.
    destruct (Reqb (sin (deg r4)) 0) eqn:E; [reflexivity|]. apply Reqb_false in E. cbn [bind].
    destruct HV as [HV|[_ HV]].
    + unfold cosd in HV. fold (deg r2) (deg r3) (deg r4) in HV. rewrite (proj2 (Rltb_spec _ _)) by exact HV. reflexivity.
    + exfalso. pose proof (sc2 (deg r4)) as SC. unfold cosd in HV. fold (deg r4) in HV. apply E.
      assert (K : cos (deg r4) * cos (deg r4) = 1) by (rewrite <- (Rabs_right (cos (deg r4) * cos (deg r4))), Rabs_mult, HV; [ring|apply Rle_ge, Rle_0_sqr]).
      nra.
  - exfalso. destruct HV as [HV|[HV _]]; [|discriminate]. specialize (T2 r1). lra.
Qed.
(** The three theorems above cover every request. *)
Theorem C21_complete_partial dim id p : dim = 2%Z \/ dim = 3%Z ->
  malformed dim id p \/
  exists s ce c, bravais_type dim id = Some (s, ce) /\ requested s p = Some c /\ (forall x, In x p -> 0 < x) /\
    (admissible s p c \/ volume_factor s c <= 0).
Proof.
  intros _. destruct (bravais_type dim id) as [[s ce]|] eqn:ET; [|left; right; now left].
  destruct (requested s p) as [c|] eqn:ER; [|left; right; right; intros s' ce' K; assert (s' = s) by congruence; subst; exact ER].
  destruct (existsb (fun x => Rleb x 0) p) eqn:E.
  - left. left. apply existsb_exists in E. destruct E as (x & Hx & H0). apply Rleb_spec in H0. now exists x.
  - right. exists s, ce, c. assert (Hp : forall x, In x p -> 0 < x).
    { intros x Hx. destruct (Rlt_le_dec 0 x) as [|H0]; [assumption|]. assert (K : existsb (fun x => Rleb x 0) p = true) by (apply existsb_exists; exists x; split; [exact Hx|now apply Rleb_spec]). congruence. }
    repeat split; auto. destruct (Rlt_le_dec 0 (volume_factor s c)); [left; repeat split; auto|now right].
Qed.
Theorem C21_rejects_refuted : exists p, (forall x, In x p -> 0 < x) /\ new_bravais 5 p 3 <> Raise ValueError /\
  (forall b, new_bravais 5 p 3 <> Ok b) /\ exists c, requested Trigonal p = Some c /\ ~ admissible Trigonal p c.
Proof.
  exists [1; 150]. assert (HP : forall x, In x [1; 150] -> 0 < x) by (cbn; intros x H; intuition lra).
  assert (HV : volume_factor Trigonal (mk_cell 1 1 1 150 150 150) < 0).
  { unfold volume_factor. cbn. assert (K : cosd 150 < - (1/2)).
    { unfold cosd. pose proof PI_RGT_0. replace (150 * PI / 180) with (PI - PI / 6) by field.
      replace (PI - PI / 6) with (- (PI / 6) + PI) by ring. rewrite neg_cos, cos_neg, cos_PI6. pose proof sqrt3_bounds. lra. }
    nra. }
  rewrite (C21_silent_nan 3 5 Trigonal P [1; 150] (mk_cell 1 1 1 150 150 150)); auto.
  split; [exact HP|]. split; [discriminate|]. split; [discriminate|]. eexists. split; [reflexivity|]. intros (_ & _ & K). lra.
Qed.
Print Assumptions C21_accepts.
Print Assumptions C21_rejects_malformed.
Print Assumptions C21_rejects_singular_partial.

(** * C22 *)
(** conventional names of the parameters, in the order in which they are given *)
Definition labels (s : system) : list pname :=
  match s with
  | Cubic | Square | Hexagonal2 => [Na]
  | Hexagonal | Tetragonal => [Na; Nc]
  | Trigonal => [Na; Nalpha]
  | Orthorhombic => [Na; Nb; Nc]
  | Monoclinic => [Na; Nb; Nc; Nbeta]
  | Triclinic => [Na; Nb; Nc; Nalpha; Nbeta; Ngamma]
  | Rectangular => [Na; Nb]
  | Oblique => [Na; Nb; Ngamma]
  end.
Lemma len_labels s p c : requested s p = Some c -> length p = length (labels s).
Proof. destruct s; cbn; intros H; params H; reflexivity. Qed.
Lemma description_eq dim id s ce p c b : bravais_type dim id = Some (s, ce) -> admissible s p c -> new_bravais id p dim = Ok b ->
  description b = (if (id =? 14)%Z then [(Na, par p 0); (Nb, par p 1); (Nc, par p 2); (Nalpha, par p 1); (Nbeta, par p 4); (Ngamma, par p 5)]
                   else combine (labels s) p)%nat.
Proof.
  intros HT HA HB. destruct (built_all dim id s ce p c HT HA) as (b' & C & H & HI & HP & _ & _ & _ & BB & _).
  assert (b' = b) by congruence. subst b'. assert (HL : length (b_base b) = Z.to_nat dim) by apply BB.
  unfold description. rewrite HL, HI, HP. clear HL HI HP BB H HB. destruct HA as (Hc & _).
  apply type_cases in HT. destruct HT as [[-> HT]|[-> HT]];
    repeat (destruct HT as [HT|HT]); destruct HT as (-> & -> & ->); cbn [requested] in Hc; params Hc; reflexivity.
Qed.
(** every type but the triclinic one *)
Theorem C22_names_partial dim id s ce p c b : bravais_type dim id = Some (s, ce) -> admissible s p c -> new_bravais id p dim = Ok b ->
  s <> Triclinic -> description b = combine (labels s) p /\ length p = length (labels s).
Proof.
  intros HT HA HB HS. rewrite (description_eq dim id s ce p c b HT HA HB). split; [|eapply len_labels; apply HA].
  destruct (id =? 14)%Z eqn:E; [|reflexivity]. apply Z.eqb_eq in E. subst. apply type_cases in HT.
  destruct HT as [[-> HT]|[-> HT]]; repeat (destruct HT as [HT|HT]); destruct HT as (K & -> & ->); try discriminate K. tauto.
Qed.
(** the triclinic description shows b where alpha belongs; the other five values are right *)
Theorem C22_triclinic_partial p c b : admissible Triclinic p c -> new_bravais 14 p 3 = Ok b ->
  map fst (description b) = labels Triclinic /\
  forall i, (i < 6)%nat -> i <> 3%nat -> nth_error (map snd (description b)) i = nth_error p i.
Proof.
  intros HA HB. rewrite (description_eq 3 14 Triclinic P p c b eq_refl HA HB). split; [reflexivity|].
  destruct HA as (Hc & _). cbn [requested] in Hc. params Hc.
  intros i Hi Hn. destruct i as [|[|[|[|[|[|i]]]]]]; try reflexivity; lia.
Qed.
Theorem C22_names_refuted : exists p c b, admissible Triclinic p c /\ new_bravais 14 p 3 = Ok b /\ ~ In (Nalpha, par p 3) (description b).
Proof.
  destruct (C21_accepts 3 14 Triclinic P _ _ eq_refl (proj1 C17_triclinic)) as (b & Hb & _).
  exists [2; 3; 4; 80; 85; 75], (mk_cell 2 3 4 80 85 75), b. split; [apply C17_triclinic|]. split; [exact Hb|].
  rewrite (description_eq 3 14 Triclinic P _ _ b eq_refl (proj1 C17_triclinic) Hb). cbn [Z.eqb Pos.eqb par nth]. cbn [In].
  intros K. repeat (destruct K as [K|K]; [try discriminate K; try (injection K; intros; lra)|]). exact K.
Qed.
Print Assumptions C22_names_partial.
