(** Counterexample for C84: lat_cor_direct with its default options misses a perfect match, because the search goes on
    from a checkpoint after each improvement (C45).  Parent: rectangular 7 x 4; product: centred rectangular 14 x 16, which
    is a sublattice of the parent. *)
From Coq Require Import Psatz.
From Verif Require Import LinAlg Hom Eig RMat GroupModel GroupSpec GroupProofs LatticeModel LatticeSpec LatticeProofs LatticeLaue LatticeGroups
  BravaisModel BravaisSpec BravaisProofs DistModel DistSpec DistProofs VecGenModel VecGenProofs DirectSpec DirectProofs DirectTransfer
  DirectConcrete DirectConcSpec DirectConcProofs DirectExample
  OutputModel OutputProofs PropOutput PropLattice PropBravais LatCorProofs DirectCorModel DirectCorSpec DirectCorProofs DirectCorCase.
Local Open Scope R_scope.

Definition Er : mat R := M2 7 0 0 4.
Definition Ec : mat R := M2 7 (-7) 8 8.
Lemma base_r : base 2 Er. Proof. apply base2. lra. Qed.
Lemma base_c : base 2 Ec. Proof. apply base2. lra. Qed.
Lemma minv_unique E X : base 2 E -> wf 2 2 X -> mmul E X = eye 2 -> minv E = X.
Proof.
  intros (Hd & W & D) WX H. rewrite <- (mmul_eye_r 2 2 (minv E)) by (try lia; now apply wf_minv).
  rewrite <- H, <- (mmul_assoc 2 2 2 2), (minv_l 2), (mmul_eye_l 2 2) by (auto; try lia; now apply wf_minv). reflexivity.
Qed.
Lemma minv_r : minv Er = M2 (1/7) 0 0 (1/4).
Proof. apply minv_unique; [apply base_r|apply wfM2|]. unfold Er. mat_eq ltac:(lra). Qed.
Lemma minv_c : minv Ec = M2 (1/14) (1/16) (-1/14) (1/16).
Proof. apply minv_unique; [apply base_c|apply wfM2|]. unfold Ec. mat_eq ltac:(lra). Qed.

(** ** the lattice groups *)
Lemma accepts E Q M : base 2 E -> orth_arr 2 Q -> wf 2 2 M -> mmul (values Q) E = mmul E (RZ M) -> inpointgroup E Q = Ok true.
Proof.
  intros B O W H. apply (inpoint_preserves 2 _ B); [exact O|]. apply (preserves_iff 2 _ B); [now apply orth_arr_values|]. now exists M.
Qed.
Lemma rejects E Q i j x : base 2 E -> orth_arr 2 Q -> (i < 2)%nat -> (j < 2)%nat -> get (mmul (minv E) (mmul (values Q) E)) i j = x ->
  1/100 <= x <= 99/100 \/ -99/100 <= x <= -1/100 -> inpointgroup E Q = Ok false.
Proof.
  intros B O Hi Hj Ex Hx. destruct (inpoint_total 2 _ B Q O) as ([|] & H); [exfalso|exact H].
  rewrite (inpoint_red 2 _ B) in H by exact O. pose proof (orth_arr_values 2 Q O) as OV. pose proof B as (Hd & WE & DE).
  apply (lat_eq_near 2 _ B) in H; [|apply (wf_mmul 2 2 2); auto; apply OV].
  specialize (H i j Hi Hj). rewrite Ex in H. set (z := get (rintm _) i j) in H. clearbody z.
  assert (Z : (z <= -1 \/ z = 0 \/ 1 <= z)%Z) by lia.
  destruct Z as [Z|[->|Z]]; [apply IZR_le in Z| |apply IZR_le in Z]; revert H; destruct Hx as [Hx|Hx]; rabs; lra.
Qed.
Lemma S1_bounds : 866/1000 <= S1 <= 867/1000.
Proof.
  destruct C1S1 as (_ & _ & ->). assert (H : 0 <= sqrt 3) by apply sqrt_pos. pose proof (sqrt_sqrt 3 ltac:(lra)) as H2. split; nra.
Qed.
Ltac yes M := rewrite (accepts _ _ M); [|first [apply base_r|apply base_c]|
  first [apply (proj2 square_ext_T); unfold square_ext_arr, SQUARE_EXT_GROUP; cbn; tauto | apply (proj2 hex2d_ext_T); unfold HEX2D_EXT_GROUP; cbn; tauto]
  |apply wfZ2|cbn [values]; unfold Er, Ec, RZ, mmap; mat_eq ltac:(lra)].
Ltac no i j := erewrite (rejects _ _ i j); [|first [apply base_r|apply base_c]|
  first [apply (proj2 square_ext_T); unfold square_ext_arr, SQUARE_EXT_GROUP; cbn; tauto | apply (proj2 hex2d_ext_T); unfold HEX2D_EXT_GROUP; cbn; tauto]
  |lia|lia|rewrite ?minv_r, ?minv_c; cbn [values]; unfold Er, Ec; reflexivity
  |pose proof S1_bounds; pose proof C1S1 as (_ & HC & _); cbn; rewrite ?HC; first [left; lra|right; lra]].

Definition RECT : list (mat Z) := [[[1;0];[0;1]]; [[-1;0];[0;-1]]; [[1;0];[0;-1]]; [[-1;0];[0;1]]]%Z.
Definition CEN : list (mat Z) := [[[1;0];[0;1]]; [[-1;0];[0;-1]]; [[0;-1];[-1;0]]; [[0;1];[1;0]]]%Z.

Lemma keep_sr : keep Er square_ext_arr = Ok (map RZ RECT).
Proof.
  unfold square_ext_arr, SQUARE_EXT_GROUP. cbn [map keep].
  yes [[1;0];[0;1]]%Z. no 0%nat 1%nat. no 0%nat 1%nat. yes [[-1;0];[0;-1]]%Z. yes [[1;0];[0;-1]]%Z. yes [[-1;0];[0;1]]%Z.
  no 0%nat 1%nat. no 0%nat 1%nat. reflexivity.
Qed.
Lemma keep_hr : keep Er hex2d_ext_arr = Ok (map RZ RECT).
Proof.
  unfold hex2d_ext_arr, HEX2D_EXT_GROUP. cbn [map keep].
  yes [[1;0];[0;1]]%Z. no 0%nat 0%nat. no 0%nat 0%nat. yes [[-1;0];[0;-1]]%Z. no 0%nat 0%nat. no 0%nat 0%nat.
  yes [[1;0];[0;-1]]%Z. no 0%nat 0%nat. no 0%nat 0%nat. yes [[-1;0];[0;1]]%Z. no 0%nat 0%nat. no 0%nat 0%nat. reflexivity.
Qed.
Lemma keep_sc : keep Ec square_ext_arr = Ok (map RZ RECT).
Proof.
  unfold square_ext_arr, SQUARE_EXT_GROUP. cbn [map keep].
  yes [[1;0];[0;1]]%Z. no 0%nat 0%nat. no 0%nat 0%nat. yes [[-1;0];[0;-1]]%Z. yes [[0;-1];[-1;0]]%Z. yes [[0;1];[1;0]]%Z.
  no 0%nat 1%nat. no 0%nat 1%nat. reflexivity.
Qed.
Lemma keep_hc : keep Ec hex2d_ext_arr = Ok (map RZ RECT).
Proof.
  unfold hex2d_ext_arr, HEX2D_EXT_GROUP. cbn [map keep].
  yes [[1;0];[0;1]]%Z. no 0%nat 0%nat. no 0%nat 0%nat. yes [[-1;0];[0;-1]]%Z. no 0%nat 0%nat. no 0%nat 0%nat.
  yes [[0;-1];[-1;0]]%Z. no 0%nat 1%nat. no 0%nat 1%nat. yes [[0;1];[1;0]]%Z. no 0%nat 1%nat. no 0%nat 1%nat. reflexivity.
Qed.
Lemma cons_eq {X} (x y : X) l m : x = y -> l = m -> x :: l = y :: m.
Proof. intros -> ->. reflexivity. Qed.
Lemma group_of E G : base 2 E -> keep E square_ext_arr = Ok (map RZ RECT) -> keep E hex2d_ext_arr = Ok (map RZ RECT) ->
  map (fun M => mmul (minv E) (mmul (RZ M) E)) RECT = map RZ G -> lattice_group E = Ok G.
Proof.
  intros B K1 K2 H. unfold lattice_group, point_group. rewrite (len_base 2 _ B). unfold pick_group. rewrite K1. cbn [bind].
  change (length (map RZ RECT) =? 4)%nat with true. cbn iota. rewrite K2. cbn [bind]. rewrite Nat.ltb_irrefl.
  rewrite (to_integer_rep_ok 2 _ B). f_equal. rewrite map_map. unfold irep.
  rewrite <- (map_map (fun M => mmul (minv E) (mmul (RZ M) E)) rintm), H, map_map.
  rewrite <- (map_id G) at 2. apply map_ext. intros M. apply rintm_RZ.
Qed.
Lemma group_r : lattice_group Er = Ok RECT.
Proof.
  apply group_of; [apply base_r|apply keep_sr|apply keep_hr|]. rewrite minv_r. unfold RECT, Er, RZ, mmap. cbn [map].
  repeat (apply cons_eq; [mat_eq ltac:(lra)|]); reflexivity.
Qed.
Lemma group_c : lattice_group Ec = Ok CEN.
Proof.
  apply group_of; [apply base_c|apply keep_sc|apply keep_hc|]. rewrite minv_c. unfold RECT, CEN, Ec, RZ, mmap. cbn [map].
  repeat (apply cons_eq; [mat_eq ltac:(lra)|]); reflexivity.
Qed.
(** Everything that is accepted is in the group, which preserves the lattice *)
Lemma keep_in E T L Q : keep E T = Ok L -> In Q T -> inpointgroup E Q = Ok true -> In (values Q) L.
Proof.
  revert L. induction T as [|X T IH]; intros L H HI HA; [destruct HI|]. cbn [keep] in H.
  apply bindOk in H. destruct H as (b & Hb & H). apply bindOk in H. destruct H as (r & Hr & H). injection H as <-.
  destruct HI as [-> |HI].
  - rewrite HA in Hb. injection Hb as <-. now left.
  - specialize (IH r Hr HI HA). destruct b; [now right|exact IH].
Qed.
Lemma resolved_of E G : base 2 E -> keep E square_ext_arr = Ok (map RZ RECT) -> keep E hex2d_ext_arr = Ok (map RZ RECT) ->
  map (fun M => mmul (RZ M) E) RECT = map (fun M => mmul E (RZ M)) G -> (forall M, In M G -> wf 2 2 M) -> resolved 2 E.
Proof.
  intros B K1 K2 HG WG Q HQ HA. pose proof (tabled_orth 2 Q ltac:(now left) HQ) as OQ. cbn [tabled_isometries Nat.eqb] in HQ.
  assert (HI : In Q (map RZ RECT)).
  { apply in_app_iff in HQ. destruct HQ as [HQ|HQ].
    - apply in_map_iff in HQ. destruct HQ as (M & <- & HM). apply (keep_in E square_ext_arr _ (IntArr M) K1).
      + unfold square_ext_arr. now apply in_map.
      + rewrite <- HA, (inpoint_red 2 _ B), (inpoint_red 2 _ B); [reflexivity|exact OQ|].
        apply (proj2 square_ext_T). unfold square_ext_arr. now apply in_map.
    - apply (keep_in E hex2d_ext_arr _ (FltArr Q) K2); [|exact HA]. unfold hex2d_ext_arr. now apply in_map. }
  apply (preserves_iff 2 _ B); [exact OQ|]. apply in_map_iff in HI. destruct HI as (M & <- & HM).
  apply (in_map (fun M => mmul (RZ M) E)) in HM. rewrite HG in HM. apply in_map_iff in HM. destruct HM as (M' & E' & HM'). exists M'. split; [now apply WG|now symmetry].
Qed.
Ltac wfG := let H := fresh in intros ? H; cbn in H; repeat (destruct H as [<-|H]; [apply wfZ2|]); destruct H.
Lemma resolved_r : resolved 2 Er.
Proof.
  apply (resolved_of _ RECT); [apply base_r|apply keep_sr|apply keep_hr| |wfG]. unfold RECT, Er, RZ, mmap. cbn [map].
  repeat (apply cons_eq; [mat_eq ltac:(lra)|]); reflexivity.
Qed.
Lemma resolved_c : resolved 2 Ec.
Proof.
  apply (resolved_of _ CEN); [apply base_c|apply keep_sc|apply keep_hc| |wfG]. unfold RECT, CEN, Ec, RZ, mmap. cbn [map].
  repeat (apply cons_eq; [mat_eq ltac:(lra)|]); reflexivity.
Qed.

(** ** the two lattices as the caller asks for them *)
Lemma adm_rect a b : 0 < a -> 0 < b -> admissible Rectangular [a; b] (mk_cell a b 0 0 0 90).
Proof.
  intros Ha Hb. split; [reflexivity|]. split; [intros x [<-|[<-|[]]]; assumption|]. unfold volume_factor. cbn. rewrite cosd90. lra.
Qed.
Lemma bravais_r : exists A, new_bravais 2 [7; 4] 2 = Ok A /\ b_base A = Er.
Proof.
  destruct (C17_conventional_cell 2 2 _ _ _ _ (eq_refl : bravais_type 2 2 = Some (Rectangular, P)) (adm_rect 7 4 ltac:(lra) ltac:(lra))) as (b & H & _).
  exists b. split; [exact H|]. revert H. unfold new_bravais. destruct (existsb _ _); [discriminate|]. cbn [Z.eqb Pos.eqb]. cbn -[inv new_lattice].
  intros H. apply bindOk in H. destruct H as (C & _ & H).
  change (fst (base2D (Pos.to_nat 2) [7; 4])) with Er in H.
  rewrite (new_lattice_ok 2 Er) in H; [|apply base_r|apply wfM2|apply base_r].
  cbn [bind] in H. injection H as <-. reflexivity.
Qed.
Lemma bravais_c : exists A, new_bravais 3 [14; 16] 2 = Ok A /\ b_base A = Ec.
Proof.
  destruct (C17_conventional_cell 2 3 _ _ _ _ (eq_refl : bravais_type 2 3 = Some (Rectangular, Icen)) (adm_rect 14 16 ltac:(lra) ltac:(lra))) as (b & H & _).
  exists b. split; [exact H|]. revert H. unfold new_bravais. destruct (existsb _ _); [discriminate|]. cbn [Z.eqb Pos.eqb]. cbn -[inv new_lattice].
  intros H. apply bindOk in H. destruct H as (C & _ & H).
  assert (E : fst (base2D (Pos.to_nat 3) [14; 16]) = Ec).
  { change (Pos.to_nat 3) with 3%nat. cbn. unfold Ec, M2. repeat (apply cons_eq; try reflexivity); lra. }
  rewrite E in H.
  rewrite (new_lattice_ok 2 Ec) in H; [|apply base_c|apply wfM2|apply base_c].
  cbn [bind] in H. injection H as <-. reflexivity.
Qed.

(** ** the quartic form: its minimum is 1/68, at (1, -1, 4, 4) / sqrt 34 *)
Lemma Finv_rc p q r s : Finv_of Er (M2 p q r s) (minv Ec) = M2 ((p - q) / 2) (7 * (p + q) / 16) (2 * (r - s) / 7) ((r + s) / 4).
Proof. rewrite minv_c. unfold Finv_of, Er. mat_eq ltac:(lra). Qed.
Lemma gram_bound a b c e : 2 * (a*a) + 128/49 * (b*b) + 49/8 * (c*c) + 8 * (e*e) = 1 ->
  1/68 <= (a*a+b*b)^2 + (c*c+e*e)^2 + 2 * (a*c+b*e)^2.
Proof.
  intros H. set (t := a*a+b*b+c*c+e*e). set (u := (a*a+b*b - (c*c+e*e))^2 + 4 * (a*c+b*e)^2).
  assert (Hu : 0 <= u) by (unfold u; pose proof (pow2_ge_0 (a*a+b*b - (c*c+e*e))); pose proof (pow2_ge_0 (a*c+b*e)); lra).
  set (s := sqrt u). assert (Hs : 0 <= s) by apply sqrt_pos. assert (Hss : s * s = u) by now apply sqrt_sqrt.
  assert (LE : forall x, x * x <= u -> x <= s). { intros x Hx. destruct (Rle_lt_dec x s) as [|L]; [assumption|]. exfalso. nra. }
  assert (R2 : c*c+e*e - (a*a+b*b) <= s). { apply LE. unfold u. pose proof (pow2_ge_0 (a*c+b*e)). nra. }
  assert (C2 : b*b+e*e - (a*a+c*c) <= s).
  { apply LE. assert (U : u = (b*b+e*e - (a*a+c*c))^2 + 4 * (a*b+c*e)^2) by (unfold u; ring). rewrite U. pose proof (pow2_ge_0 (a*b+c*e)). nra. }
  assert (K : 1 <= 5 * t + 3 * s) by (unfold t; nra).
  assert (N : (a*a+b*b)^2 + (c*c+e*e)^2 + 2 * (a*c+b*e)^2 = (t*t + s*s) / 2) by (rewrite Hss; unfold t, u; field).
  rewrite N. pose proof (pow2_ge_0 (5 * s - 3 * t)). assert (0 <= t) by (unfold t; nra).
  assert (1 <= (5 * t + 3 * s) * (5 * t + 3 * s)) by nra. clear -H0 H2. nra.
Qed.
Lemma bound_rc : quartic_bound 2 Er Ec (1/68).
Proof.
  split; [lra|]. intros u Lu Hu. pose proof base_c as (Hd & W & D). pose proof base_r as (_ & W1 & D1).
  rewrite (quartic_is_fro 2) by (try lia; auto; now apply wf_minv). cbn zeta.
  destruct u as [|p [|q [|r [|s [|]]]]]; try discriminate. change (reshape 2 [p; q; r; s]) with (M2 p q r s). rewrite Finv_rc.
  assert (H : p*p+q*q+r*r+s*s = 1) by (rewrite <- Hu; unfold len2; cbn; ring).
  eapply Rle_trans; [apply (gram_bound ((p-q)/2) (7*(p+q)/16) (2*(r-s)/7) ((r+s)/4)); lra|].
  unfold fro2. cbn. lra.
Qed.
Definition miss_shifts : list (mat Z) := [[-1; 0]; [-1; -1]]%Z :: repeat [[0; 1]; [1; -1]]%Z 19.
Lemma miss_shifts_wf : Forall (wf 2 2) miss_shifts.
Proof. apply Forall_forall. intros M HM. apply wfb_spec. revert M HM. apply forallb_forall. reflexivity. Qed.
Definition rmin : list R := [/ sqrt 34; - / sqrt 34; 4 * / sqrt 34; 4 * / sqrt 34].
Definition miss_world (eig : mat R -> list R * mat R) : world :=
  {| w_eig := eig; w_min := Scipy (fun _ => rmin); w_draws := fun _ => [1; 0; 0; 0];
     w_shifts := miss_shifts; w_order := fun l => l |}.
Lemma quart_rc eig : quart_min (miss_world eig) (2 * 2) (quartic_D 2 Er (minv Ec)) = Ok (Some (1/68)).
Proof.
  unfold quart_min. cbn [w_min miss_world w_draws]. unfold quart_min_scipy.
  assert (S1 : exists v, start [1; 0; 0; 0] = Ok v).
  { unfold start, normalize. destruct (Reqb _ _) eqn:E; [|eauto]. exfalso. apply Reqb_spec in E. revert E. unfold vnorm. cbn.
    replace (0 + 1 * 1 + 0 * 0 + 0 * 0 + 0 * 0) with 1 by ring. rewrite sqrt_1. lra. }
  destruct S1 as (v & S1).
  rewrite (mapM_same _ rmin).
  2:{ intros x Hx. apply in_map_iff in Hx. destruct Hx as (i & <- & _). rewrite S1. reflexivity. }
  cbn [bind]. rewrite map_length, seq_length. rewrite (map_same _ (quartic_form (2 * 2) (quartic_D 2 Er (minv Ec)) rmin)) by (intros x Hx; now rewrite (repeat_spec _ _ _ Hx)). rewrite repeat_length.
  change 100%nat with (S 99). rewrite min_of_same. do 2 f_equal.
  pose proof base_c as (Hd & W & D). pose proof base_r as (_ & W1 & D1).
  rewrite (quartic_is_fro 2) by (try lia; auto; now apply wf_minv). cbn zeta.
  assert (H2 : / sqrt 34 * / sqrt 34 = 1 / 34). { rewrite <- Rinv_mult, sqrt_sqrt by lra. lra. }
  unfold rmin. set (s := / sqrt 34) in *. clearbody s. change (reshape 2 [s; - s; 4 * s; 4 * s]) with (M2 s (-s) (4*s) (4*s)). rewrite Finv_rc.
  unfold fro2. cbn. transitivity (17 * (s * s) * (s * s)); [field|]. rewrite H2. field.
Qed.

(** ** distances and the first list *)
Definition mdist (l : list Z) : Z :=
  match l with
  | [p; q; r; s] =>
    let W := [[56 * (p - q); 49 * (p + q)]; [32 * (r - s); 28 * (r + s)]] in
    let v := flatten (msub (mmul W (tr W)) (mscale 12544 (eye 2))) in dot v v
  | _ => 0
  end%Z.
Definition fmd (z : Z) : R := IZR z / 157351936.
Lemma fmd_dist l : length l = 4%nat -> lat_dist Er Ec l = fmd (mdist l).
Proof.
  destruct l as [|a [|b [|c [|d [|]]]]]; try discriminate. intros _.
  unfold lat_dist, Cauchy_dist, fmd, mdist. rewrite minv_c.
  cbn -[Z.mul Z.add Z.sub Z.opp]. repeat rewrite ?plus_IZR, ?mult_IZR, ?minus_IZR, ?opp_IZR. field.
Qed.
Lemma fmd_order a b : dle (fmd a) (fmd b) = dle a b.
Proof.
  unfold fmd. cbn. destruct (Z.leb_spec a b) as [H|H].
  - apply Rleb_spec. apply IZR_le in H. lra.
  - apply Rleb_false. apply IZR_lt in H. lra.
Qed.
Definition Lrc : mat Z := [[1; -1]; [2; 2]]%Z.
Lemma guess_rc : guess Er Ec = Lrc.
Proof.
  unfold guess. assert (E : mmul (minv Er) Ec = RZ Lrc) by (rewrite minv_r; unfold Ec, Lrc, RZ, mmap; mat_eq ltac:(lra)).
  rewrite E. unfold RZ, Lrc, mmap. cbn [map]. now rewrite !Rfloor_IZR.
Qed.
Definition zst0 : @state Z := Eval vm_compute in
  match init_search 2 RECT CEN mdist 1 (Z.eqb 1) Lrc miss_shifts with Ok st => st | _ => ([], [], None) end.
Lemma zst0_ok : init_search 2 RECT CEN mdist 1 (Z.eqb 1) Lrc miss_shifts = Ok zst0.
Proof. vm_compute. reflexivity. Qed.
Lemma rst0_ok : direct_init 2 Er Ec RECT CEN 1 (1 / 10) miss_shifts = Ok (fst_ fmd zst0).
Proof.
  unfold direct_init, init_search. rewrite guess_rc, vol_ok_tenth.
  change ([], [], None) with (fst_ fmd ([], [], None)) at 1.
  rewrite (init_loop_f fmd fmd_order 2 RECT CEN mdist _ fmd_dist 1 (Z.eqb 1) Lrc
             ltac:(lia) (wfZ2 _ _ _ _) _ _ _ miss_shifts_wf).
  pose proof zst0_ok as E. unfold init_search in E. rewrite E. reflexivity.
Qed.

(** ** the passes of the search loop *)
Definition flat4 (l : list Z) : bool := (length l =? 4)%nat.
Definition mst (R : Z) (x : list Z) (st : @state Z) : res (@state Z * option (list Z)) :=
  match vec_generator_sq R 4 (Some x) with
  | Ok g => if forallb flat4 g then inner 2 RECT CEN mdist 1 100 (length g) g st else NoFuel
  | _ => NoFuel
  end.
Notation mouter := (DirectModel.outer 2 RECT CEN (lat_dist Er Ec) 1 100 (ball_gen 2 (1/68))).
Lemma pass_ok k x sols ext z R st' oy : Rfloor (sqrt (gamma (fmd z) / (1/68))) = R -> mst R x (sols, ext, Some z) = Ok (st', oy) ->
  mouter (S k) x (fst_ fmd (sols, ext, Some z)) = match oy with None => Ok (fst_ fmd st') | Some y => mouter k y (fst_ fmd st') end.
Proof.
  intros HR H. unfold mst in H. destruct (vec_generator_sq R 4 (Some x)) as [g|e|] eqn:Eg; try discriminate.
  destruct (forallb flat4 g) eqn:Ef; [|discriminate]. cbn [DirectModel.outer].
  assert (Eb : ball_gen 2 (1/68) (snd (fst_ fmd (sols, ext, Some z))) x = Ok g).
  { cbn [fst_ snd option_map ball_gen]. assert (P : 0 <= rmax (1/68) (fmd z)) by apply sqrt_pos.
    rewrite (vec_gen_rel _ _ _ _ (rel_floor _ P)). unfold rmax at 1 2. rewrite sqrt_sqrt by apply sqrt_pos. rewrite HR. exact Eg. }
  rewrite Eb. cbn [bind].
  rewrite (inner_f fmd fmd_order 2 RECT CEN mdist _ fmd_dist).
  - rewrite H. cbn. destruct oy; reflexivity.
  - apply Forall_forall. intros l Hl. apply Nat.eqb_eq. revert l Hl. apply forallb_forall. exact Ef.
Qed.
Lemma radius_ok z R lo hi : 0 <= lo -> lo * lo <= 3 * fmd z <= hi * hi -> 0 <= hi -> (0 <= R)%Z ->
  IZR R * IZR R <= 68 * (3 + 2 * lo + fmd z) -> 68 * (3 + 2 * hi + fmd z) < (IZR R + 1) * (IZR R + 1) ->
  Rfloor (sqrt (gamma (fmd z) / (1/68))) = R.
Proof.
  intros Hlo [H1 H2] Hhi HR B1 B2. apply IZR_le in HR. cbn [IZR] in HR.
  assert (B : lo <= sqrt (3 * fmd z) <= hi).
  { split.
    - rewrite <- (sqrt_square lo) by exact Hlo. apply sqrt_le_1; nra.
    - rewrite <- (sqrt_square hi) by exact Hhi. apply sqrt_le_1; nra. }
  unfold gamma. set (x := sqrt (3 * fmd z)) in *. clearbody x. replace ((3 + 2 * x + fmd z) / (1/68)) with (68 * (3 + 2 * x + fmd z)) by field.
  assert (0 <= 3 * fmd z) by nra.
  apply Rfloor_unique. split.
  - rewrite <- (sqrt_square (IZR R)) by exact HR. apply sqrt_le_1; nra.
  - rewrite <- (sqrt_square (IZR R + 1)) by lra. apply sqrt_lt_1; nra.
Qed.
Definition zst1 : @state Z := Eval vm_compute in match mst 22 [0;0;0;0]%Z zst0 with Ok (st, _) => st | _ => ([], [], None) end.
Lemma zst1_ok : mst 22 [0;0;0;0]%Z zst0 = Ok (zst1, Some [0;1;2;-2]%Z).
Proof. vm_compute. reflexivity. Qed.
Definition zst2 : @state Z := Eval vm_compute in match mst 20 [0;1;2;-2]%Z zst1 with Ok (st, _) => st | _ => ([], [], None) end.
Lemma zst2_ok : mst 20 [0;1;2;-2]%Z zst1 = Ok (zst2, Some [0;2;-4;0]%Z).
Proof. vm_compute. reflexivity. Qed.
Definition zst3 : @state Z := Eval vm_compute in match mst 19 [0;2;-4;0]%Z zst2 with Ok (st, _) => st | _ => ([], [], None) end.
Lemma zst3_ok : mst 19 [0;2;-4;0]%Z zst2 = Ok (zst3, Some [1;1;3;-2]%Z).
Proof. vm_compute. reflexivity. Qed.
Lemma zst4_ok : exists ext, mst 17 [1;1;3;-2]%Z zst3 = Ok ([([1;1;2;-2], 23389200)], ext, Some 23389200, None)%Z.
Proof. eexists. vm_compute. reflexivity. Qed.
Lemma miss_search fuel : exists ext,
  direct_search 2 Er Ec RECT CEN 1 (1/68) 100 (4 + fuel) (fst_ fmd zst0) = Ok ([([1;1;2;-2]%Z, fmd 23389200)], ext, Some (fmd 23389200)).
Proof.
  unfold direct_search, DirectModel.search. change (repeat 0%Z (2 * 2)) with [0;0;0;0]%Z. cbn [Nat.add].
  destruct zst4_ok as (ext & E4). exists ext. unfold zst0.
  rewrite (pass_ok _ _ _ _ _ 22 zst1 (Some [0;1;2;-2]%Z)); [|apply (radius_ok _ _ (17/10) (171/100)); unfold fmd; try lra; lia|exact zst1_ok].
  unfold zst1.
  rewrite (pass_ok _ _ _ _ _ 20 zst2 (Some [0;2;-4;0]%Z)); [|apply (radius_ok _ _ (1225/1000) (1226/1000)); unfold fmd; try lra; lia|exact zst2_ok].
  unfold zst2.
  rewrite (pass_ok _ _ _ _ _ 19 zst3 (Some [1;1;3;-2]%Z)); [|apply (radius_ok _ _ (112/100) (113/100)); unfold fmd; try lra; lia|exact zst3_ok].
  unfold zst3 in *.
  rewrite (pass_ok _ _ _ _ _ 17 ([([1;1;2;-2], 23389200)], ext, Some 23389200)%Z None); [reflexivity|apply (radius_ok _ _ (66/100) (67/100)); unfold fmd; try lra; lia|exact E4].
Qed.

(** ** the whole call *)
Definition miss_request : drequest := {| d_nsol := 1; d_vol_th := 1/10; d_dim := 2; d_slice_sz := 100; d_dist := Cauchy |}.
Lemma miss_run eig : eig_correct 2 eig -> exists o, forall fuel,
  lat_cor_direct (miss_world eig) miss_request (4 + fuel) 2 [7; 4] 3 [14; 16] = Ok [(fmd 23389200, o)].
Proof.
  intros He. destruct bravais_r as (L1 & N1 & E1). destruct bravais_c as (L2 & N2 & E2).
  pose proof (adm_rect 7 4 ltac:(lra) ltac:(lra)) as A1. pose proof (adm_rect 14 16 ltac:(lra) ltac:(lra)) as A2.
  assert (T1 : bravais_type 2 2 = Some (Rectangular, P)) by reflexivity. assert (T2 : bravais_type 2 3 = Some (Rectangular, Icen)) by reflexivity.
  destruct (bravais_cell_n _ _ _ _ _ _ _ T1 A1 N1) as (_ & _ & WCA & DCA & _). destruct (bravais_cell_n _ _ _ _ _ _ _ T2 A2 N2) as (_ & _ & WCM & DCM & _).
  change (Z.to_nat 2) with 2%nat in *.
  pose proof base_c as (Hd & WM & DM). pose proof base_r as (_ & WA & DA).
  destruct (C56_direct 2 Er Ec (conventional_trans L1) (conventional_trans L2) eig RECT CEN [1;1;2;-2]%Z (eqlatcor 2 RECT CEN [1;1;2;-2]%Z)) as (o & Hr & _); auto.
  { cbn. lia. }
  { intros M HM. assert (HM' : In M (RECT ++ CEN)) by (rewrite in_app_iff; exact HM). cbn in HM'.
    repeat (destruct HM' as [<-|HM']; [split; [apply wfZ2|cbn; lia]|]). destruct HM'. }
  { reflexivity. }
  exists o. intros fuel. unfold lat_cor_direct. cbn [d_dim miss_request d_nsol d_vol_th d_slice_sz w_shifts miss_world w_eig w_order].
  rewrite N1, N2. cbn [bind]. rewrite E1, E2.
  rewrite (inv_Ok 2) by auto. cbn [bind]. rewrite group_r, group_c. cbn [bind]. change (Z.to_nat 2) with 2%nat.
  rewrite quart_rc. cbn [bind]. rewrite rst0_ok. cbn [bind].
  assert (Rleb (1/68) 0 = false) as -> by (apply Rleb_false; lra). destruct (miss_search fuel) as (ext & ->). cbn [bind fst mapM snd].
  rewrite Hr. reflexivity.
Qed.
