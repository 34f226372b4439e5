(** Property C126: the cells have the textbook volume and handedness.  Specification: BravaisSpec.v; model: BravaisModel.v. *)
From Verif Require Import LinAlg GroupSpec GroupModel GroupProofs LatticeModel LatticeSpec LatticeProofs BravaisModel BravaisSpec BravaisProofs PropLattice PropBravais PropSameCell.
Local Open Scope R_scope.

(** the product of the edges, and the volume (area) of a cell with these edges and angles *)
Definition edges (n : nat) (c : cell) : R := if (n =? 3)%nat then edge c 0 * edge c 1 * edge c 2 else edge c 0 * edge c 1.
Definition cell_volume (s : system) (c : cell) : R := edges (if planar s then 2 else 3) c * sqrt (volume_factor s c).

Lemma gram3 (B : mat R) c : has_cell 3 B c -> det B * det B =
  edges 3 c * edges 3 c * (1 + 2 * cosd (angle c 1 2) * cosd (angle c 0 2) * cosd (angle c 0 1)
    - cosd (angle c 1 2) * cosd (angle c 1 2) - cosd (angle c 0 2) * cosd (angle c 0 2) - cosd (angle c 0 1) * cosd (angle c 0 1)).
Proof.
  intros (W & D & A). pose proof (proj2 (D 0%nat ltac:(lia))) as D0. pose proof (proj2 (D 1%nat ltac:(lia))) as D1. pose proof (proj2 (D 2%nat ltac:(lia))) as D2.
  pose proof (A 0%nat 1%nat ltac:(lia) ltac:(lia) ltac:(lia)) as A1. pose proof (A 0%nat 2%nat ltac:(lia) ltac:(lia) ltac:(lia)) as A2. pose proof (A 1%nat 2%nat ltac:(lia) ltac:(lia) ltac:(lia)) as A3.
  destruct (wf3_inv B W) as (a&b&d&e&f&g&h&i&j&->). rewrite det3. cbn in D0, D1, D2, A1, A2, A3. cbn [edges Nat.eqb]. cbn.
  set (e0 := edge c 0%nat) in *. set (e1 := edge c 1%nat) in *. set (e2 := edge c 2%nat) in *.
  set (x := cosd (angle c 0 1)) in *. set (y := cosd (angle c 0 2)) in *. set (w := cosd (angle c 1 2)) in *.
  transitivity ((e0 * e0) * (e1 * e1) * (e2 * e2) + 2 * (e1 * e2 * w) * (e0 * e2 * y) * (e0 * e1 * x) - (e0 * e0) * ((e1 * e2 * w) * (e1 * e2 * w))
    - (e1 * e1) * ((e0 * e2 * y) * (e0 * e2 * y)) - (e2 * e2) * ((e0 * e1 * x) * (e0 * e1 * x))); [|ring].
  rewrite <- D0, <- D1, <- D2, <- A1, <- A2, <- A3. ring.
Qed.
Lemma gram2 (B : mat R) c : has_cell 2 B c -> det B * det B = edges 2 c * edges 2 c * (1 - cosd (angle c 0 1) * cosd (angle c 0 1)).
Proof.
  intros (W & D & A). pose proof (proj2 (D 0%nat ltac:(lia))) as D0. pose proof (proj2 (D 1%nat ltac:(lia))) as D1.
  pose proof (A 0%nat 1%nat ltac:(lia) ltac:(lia) ltac:(lia)) as A1.
  destruct (wf2_inv B W) as (a&b&d&e&->). rewrite det2. cbn in D0, D1, A1. cbn [edges Nat.eqb]. cbn.
  set (e0 := edge c 0%nat) in *. set (e1 := edge c 1%nat) in *. set (x := cosd (angle c 0 1)) in *.
  transitivity ((e0 * e0) * (e1 * e1) - (e0 * e1 * x) * (e0 * e1 * x)); [|ring]. rewrite <- D0, <- D1, <- A1. ring.
Qed.
Lemma planar_dim dim id s ce : bravais_type dim id = Some (s, ce) -> Z.to_nat dim = (if planar s then 2 else 3)%nat.
Proof. intros T. apply type_cases in T. destruct T as [[-> T]|[-> T]]; repeat (destruct T as [T|T]); destruct T as (_ & -> & _); reflexivity. Qed.

(** * C126 *)
(** The volume of the conventional cell is abc sqrt(1 + 2 cos cos cos - cos^2 - cos^2 - cos^2) (ab sin gamma in the plane), and the
    volume per lattice point is that divided by the number of points in the cell. *)
Theorem C126_volume : forall dim id s ce p c b, bravais_type dim id = Some (s, ce) -> admissible s p c -> new_bravais id p dim = Ok b ->
  0 < cell_volume s c /\ Rabs (det (conventional_base b)) = cell_volume s c /\
  Rabs (det (b_base b)) = cell_volume s c / IZR (points_per_cell ce).
Proof.
  intros dim id s ce p c b T A H. destruct (C17_conventional_cell dim id s ce p c T A) as (b' & H' & HC). assert (b' = b) by congruence. subst b'.
  destruct (C18_conventional_trans dim id s ce p c b T A H) as (_ & _ & DV & _). rewrite (planar_dim dim id s ce T) in HC.
  destruct A as (_ & _ & VF). assert (SQ : sqrt (volume_factor s c) * sqrt (volume_factor s c) = volume_factor s c) by (apply sqrt_sqrt; lra).
  assert (SP : 0 < sqrt (volume_factor s c)) by now apply sqrt_lt_R0.
  assert (EP : 0 < edges (if planar s then 2 else 3) c).
  { destruct HC as (_ & D & _). destruct (planar s); unfold edges; cbn [Nat.eqb]; pose proof (proj1 (D 0%nat ltac:(lia))); pose proof (proj1 (D 1%nat ltac:(lia)));
      [|pose proof (proj1 (D 2%nat ltac:(lia)))]; repeat apply Rmult_lt_0_compat; assumption. }
  assert (VP : 0 < cell_volume s c) by (unfold cell_volume; now apply Rmult_lt_0_compat).
  assert (Q : det (conventional_base b) * det (conventional_base b) = cell_volume s c * cell_volume s c).
  { unfold cell_volume. transitivity (edges (if planar s then 2 else 3) c * edges (if planar s then 2 else 3) c * (sqrt (volume_factor s c) * sqrt (volume_factor s c))); [|ring].
    rewrite SQ. unfold volume_factor. destruct (planar s); [now apply gram2|now apply gram3]. }
  assert (AV : Rabs (det (conventional_base b)) = cell_volume s c).
  { apply Rsqr_inj; [apply Rabs_pos|lra|]. rewrite <- Rsqr_abs. exact Q. }
  split; [exact VP|]. split; [exact AV|]. rewrite AV in DV. rewrite DV. field. destruct ce; cbn; lra.
Qed.
(** The base is right-handed as long as the angle that fixes the sense of the last edge (beta if monoclinic, gamma if triclinic or
    oblique) is below 180 degrees; the signed volume is then the one above. *)
Lemma det_signed dim id s ce p c b : bravais_type dim id = Some (s, ce) -> admissible s p c -> new_bravais id p dim = Ok b ->
  det (conventional_base b) = IZR (points_per_cell ce) * det (b_base b).
Proof.
  intros T A H. destruct (C18_conventional_trans dim id s ce p c b T A H) as ((C & WC & EC & DC) & EB & _ & B & _). rewrite EB, EC.
  rewrite (det_mmul (Z.to_nat dim)) by (apply B || now apply wf_RZ). rewrite <- RZ_det, DC. ring.
Qed.
Lemma trigonal_det id ce p c b : bravais_type 3 id = Some (Trigonal, ce) -> admissible Trigonal p c -> new_bravais id p 3 = Ok b -> 0 < det (b_base b).
Proof.
  intros T A H. destruct (C18_conventional_trans 3 id Trigonal ce p c b T A H) as (_ & _ & _ & B & _). pose proof (proj2 (proj2 B)) as DN.
  destruct (shape3 id Trigonal ce p b T H) as [HB _]. destruct A as (Hc & Hpos & _). cbn [requested] in Hc.
  destruct p as [|a [|al [|]]]; try discriminate Hc. assert (0 < a) by (apply Hpos; cbn; auto).
  apply type_cases in T. destruct T as [[_ T]|[K _]]; [|discriminate K].
  repeat (destruct T as [T|T]); destruct T as (-> & ET & ->); try discriminate ET.
  cbn [Z.to_nat Pos.to_nat Pos.iter_op Nat.add base3D par nth] in HB.
  apply bindInv in HB as (ty & _ & HB). apply bindInv in HB as (tz & Hz & HB). injection HB as HB. change (par [a; al] 0) with a in HB.
  assert (TZ : 0 <= tz). { unfold np_sqrt in Hz. destruct (Rltb _ 0); [discriminate|]. injection Hz as <-. apply sqrt_pos. }
  assert (KP : 0 < a / sqrt 3) by (apply Rdiv_lt_0_compat; [assumption|apply sqrt_lt_R0; lra]).
  set (k := a / sqrt 3) in *. set (u := tz - 2 * sqrt 2 * ty) in *. set (v := tz + sqrt 2 * ty) in *.
  assert (UV : u + 2 * v = 3 * tz) by (unfold u, v; ring). clearbody k u v. 
  assert (D : det (b_base b) = k * k * k * ((u - v) * (u - v)) * (u + 2 * v)).
  { rewrite <- HB. match goal with |- det ?E = ?y => let X := eval cbv [cols2 cols3 par tr get mk nrows ncols nth map seq length] in E in change (det X = y) end. rewrite det3. cbn. ring. }
  rewrite D in DN |- *. rewrite UV in *. assert (0 <= k * k * k * ((u - v) * (u - v)) * (3 * tz)); [|lra].
  apply Rmult_le_pos; [|lra]. apply Rmult_le_pos; [|apply Rle_0_sqr]. repeat apply Rmult_le_pos; lra.
Qed.
Theorem C126_right_handed : forall dim id s ce p c b, bravais_type dim id = Some (s, ce) -> admissible s p c -> new_bravais id p dim = Ok b ->
  below_180 s p -> det (conventional_base b) = cell_volume s c /\ det (b_base b) = cell_volume s c / IZR (points_per_cell ce).
Proof.
  intros dim id s ce p c b T A H L. destruct (C126_volume dim id s ce p c b T A H) as (VP & V1 & V2). pose proof (det_signed dim id s ce p c b T A H) as DS.
  assert (PP : 0 < IZR (points_per_cell ce)) by (destruct ce; cbn; lra).
  assert (DP : 0 < det (conventional_base b)).
  { pose proof (planar_dim dim id s ce T) as PD. assert (T0 := T). apply type_cases in T0. destruct T0 as [[ED _]|[ED _]]; subst dim.
    - assert (K : s = Trigonal \/ s <> Trigonal) by (destruct s; auto; right; discriminate). destruct K as [->|K].
      + rewrite DS. apply Rmult_lt_0_compat; [exact PP|]. now apply (trigonal_det id ce p c).
      + destruct (conv_upper3 id s ce p c b T K A L H) as (x1 & x2 & x3 & y2 & y3 & z3 & -> & X & Y & Z). rewrite det3. cbn.
        replace (x1 * (y2 * z3 - y3 * 0) - x2 * (0 * z3 - y3 * 0) + x3 * (0 * 0 - y2 * 0)) with (x1 * y2 * z3) by ring. repeat apply Rmult_lt_0_compat; assumption.
    - destruct (conv_upper2 id s ce p c b T A L H) as (x1 & x2 & y2 & -> & X & Y). rewrite det2. cbn.
      replace (x1 * y2 - x2 * 0) with (x1 * y2) by ring. now apply Rmult_lt_0_compat. }
  rewrite Rabs_right in V1 by lra. split; [exact V1|]. rewrite DS in V1. rewrite <- V1. field. lra.
Qed.
(** Beyond 180 degrees the sense is reversed: a monoclinic cell with beta = 270 is accepted, has its textbook volume and is left-handed. *)
Theorem C126_turned_over : exists c b, admissible Monoclinic [2; 3; 4; 270] c /\ new_bravais 12 [2; 3; 4; 270] 3 = Ok b /\
  cell_volume Monoclinic c = 24 /\ det (b_base b) = - 24.
Proof.
  assert (C270 : cosd 270 = 0). { unfold cosd. replace (270 * PI / 180) with (3 * (PI / 2)) by field. apply cos_3PI2. }
  assert (S270 : sin (deg 270) = -1). { unfold deg. replace (270 * PI / 180) with (3 * (PI / 2)) by field. apply sin_3PI2. }
  assert (A : admissible Monoclinic [2; 3; 4; 270] (mk_cell 2 3 4 90 270 90)).
  { split; [reflexivity|]. split; [cbn; intros x [<-|[<-|[<-|[<-|[]]]]]; lra|]. unfold volume_factor. cbn. rewrite cosd90, C270. lra. }
  destruct (C17_conventional_cell 3 12 Monoclinic P _ _ eq_refl A) as (b & H & _). exists (mk_cell 2 3 4 90 270 90), b. split; [exact A|]. split; [exact H|]. split.
  - unfold cell_volume, volume_factor, edges. cbn. rewrite cosd90, C270. replace (_ - 0 * 0) with 1 by ring. rewrite sqrt_1. ring.
  - destruct (shape3 12 Monoclinic P _ b eq_refl H) as [HB _]. cbn [Z.to_nat Pos.to_nat Pos.iter_op Nat.add base3D par nth] in HB. injection HB as HB.
    rewrite <- HB. match goal with |- det ?E = ?y => let X := eval cbv [cols2 cols3 par tr get mk nrows ncols nth map seq length] in E in change (det X = y) end.
    rewrite det3. cbn. rewrite S270. ring.
Qed.
(** A centred cell below 180 degrees: 2 points in a volume of 24 sin 120. *)
Example C126_case : admissible Monoclinic [2; 3; 4; 120] (mk_cell 2 3 4 90 120 90) /\ bravais_type 3 13 = Some (Monoclinic, Ccen) /\
  below_180 Monoclinic [2; 3; 4; 120] /\ cell_volume Monoclinic (mk_cell 2 3 4 90 120 90) = 12 * sqrt 3.
Proof.
  assert (C120 : cosd 120 = - (1/2)). { unfold cosd. replace (120 * PI / 180) with (2 * (PI / 3)) by field. rewrite cos_2PI3. lra. }
  split; [|split; [reflexivity|split; [cbn; lra|]]].
  - split; [reflexivity|]. split; [cbn; intros x [<-|[<-|[<-|[<-|[]]]]]; lra|]. unfold volume_factor. cbn. rewrite cosd90, C120. lra.
  - unfold cell_volume, volume_factor, edges. cbn. rewrite cosd90, C120. replace (_ - 0 * 0) with (3 * ((1/2) * (1/2))) by field.
    rewrite sqrt_mult, sqrt_square by lra. field.
Qed.
Print Assumptions C126_volume.
Print Assumptions C126_right_handed.
Print Assumptions C126_turned_over.
