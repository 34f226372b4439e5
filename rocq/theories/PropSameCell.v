(** Property C117: the same lattice requested in different ways.  Specification: BravaisSpec.v, LatticeSpec.v; model: BravaisModel.v. *)
From Verif Require Import LinAlg GroupSpec GroupModel GroupProofs LatticeModel LatticeSpec LatticeProofs BravaisModel BravaisSpec BravaisProofs PropLattice PropBravais.
Local Open Scope R_scope.

(** ** Specification *)
(** the same edges and angles, in dimension n *)
Definition same_cell (n : nat) (c c' : cell) : Prop := (forall i, (i < n)%nat -> edge c i = edge c' i) /\
  (forall i j, (i < n)%nat -> (j < n)%nat -> i <> j -> angle c i j = angle c' i j).
(** the angle that fixes the sense of the last edge is below 180 degrees *)
Definition below_180 (s : system) (p : list R) : Prop :=
  match s, p with
  | Monoclinic, [_; _; _; be] => be < 180
  | Triclinic, [_; _; _; _; _; ga] => ga < 180
  | Oblique, [_; _; ga] => ga < 180
  | _, _ => True
  end.

(** both requests are accepted, and describe the same set of points *)
Definition same_points (dim id : Z) (p : list R) (id' : Z) (p' : list R) : Prop := exists b b',
  new_bravais id p dim = Ok b /\ new_bravais id' p' dim = Ok b' /\ same_lattice (Z.to_nat dim) (b_base b) (b_base b').
(** both requests are accepted, and a rotation carries the points of one to those of the other *)
Definition same_up_to_rotation (dim id : Z) (p : list R) (id' : Z) (p' : list R) : Prop := exists b b' Q,
  new_bravais id p dim = Ok b /\ new_bravais id' p' dim = Ok b' /\ rotation_matrix (Z.to_nat dim) Q /\
  same_lattice (Z.to_nat dim) (mmul Q (b_base b)) (b_base b').

(** ** Proofs *)
Definition C0of (dim : Z) (ce : centring) : mat R :=
  if (dim =? 3)%Z then match ce with P => eye 3 | F => C_face | Icen => C_body | Ccen => C_base end
  else match ce with Icen => mscale (/2) [[1; -1]; [1; 1]] | _ => eye 2 end.
Lemma new_lattice_id E E' : new_lattice E = Ok E' -> E' = E.
Proof. unfold new_lattice. destruct (is_square E); [|discriminate]. destruct (Rleb _ _); [discriminate|]. congruence. Qed.
Lemma bindInv {A B} (r : res A) (f : A -> res B) y : bind r f = Ok y -> exists x, r = Ok x /\ f x = Ok y.
Proof. destruct r; cbn; intros H; try discriminate. eauto. Qed.
Lemma shape3 id s ce p b : bravais_type 3 id = Some (s, ce) -> new_bravais id p 3 = Ok b ->
  base3D (Z.to_nat id) p = Ok (b_base b, C0of 3 ce) /\ inv (C0of 3 ce) = Ok (b_C b).
Proof.
  intros HT H. unfold new_bravais in H. destruct (existsb _ p); [discriminate|]. cbn [Z.eqb Pos.eqb] in H.
  destruct ((1 <=? id)%Z && (id <? 15)%Z); [|discriminate]. destruct (_ =? _)%nat; [|discriminate].
  apply bindInv in H as ([E C0] & HB & H). cbn [fst snd] in H. apply bindInv in H as (C & HC & H). apply bindInv in H as (E' & HE & H).
  apply new_lattice_id in HE. subst E'. injection H as <-. cbn [b_base b_C].
  assert (K : C0 = C0of 3 ce).
  { apply type_cases in HT. destruct HT as [[_ HT]|[K _]]; [|discriminate K].
    repeat (destruct HT as [HT|HT]); destruct HT as (-> & -> & ->); cbn [Z.to_nat Pos.to_nat Pos.iter_op Nat.add base3D] in HB;
      repeat (apply bindInv in HB as (? & _ & HB)); injection HB as _ <-; reflexivity. }
  subst C0. auto.
Qed.
Lemma shape2 id s ce p b : bravais_type 2 id = Some (s, ce) -> new_bravais id p 2 = Ok b ->
  base2D (Z.to_nat id) p = (b_base b, C0of 2 ce) /\ inv (C0of 2 ce) = Ok (b_C b).
Proof.
  intros HT H. unfold new_bravais in H. destruct (existsb _ p); [discriminate|]. cbn [Z.eqb Pos.eqb] in H.
  destruct ((1 <=? id)%Z && (id <? 6)%Z); [|discriminate]. destruct (_ =? _)%nat; [|discriminate].
  destruct (base2D (Z.to_nat id) p) as [E C0] eqn:HB. cbn [fst snd] in H. apply bindInv in H as (C & HC & H). apply bindInv in H as (E' & HE & H).
  apply new_lattice_id in HE. subst E'. injection H as <-. cbn [b_base b_C].
  assert (K : C0 = C0of 2 ce).
  { apply type_cases in HT. destruct HT as [[K _]|[_ HT]]; [discriminate K|].
    repeat (destruct HT as [HT|HT]); destruct HT as (-> & -> & ->); cbn [Z.to_nat Pos.to_nat Pos.iter_op Nat.add base2D] in HB; injection HB as _ <-; reflexivity. }
  subst C0. auto.
Qed.
Lemma trans_same dim id id' s s' ce p p' b b' : bravais_type dim id = Some (s, ce) -> bravais_type dim id' = Some (s', ce) ->
  new_bravais id p dim = Ok b -> new_bravais id' p' dim = Ok b' -> b_C b = b_C b'.
Proof.
  intros T T' H H'. assert (D : dim = 3%Z \/ dim = 2%Z) by (apply type_cases in T; tauto). destruct D as [->| ->].
  - destruct (shape3 id s ce p b T H) as [_ K], (shape3 id' s' ce p' b' T' H') as [_ K']. congruence.
  - destruct (shape2 id s ce p b T H) as [_ K], (shape2 id' s' ce p' b' T' H') as [_ K']. congruence.
Qed.
Lemma get_gram n (B : mat R) i j : (0 < n)%nat -> wf n n B -> (i < n)%nat -> (j < n)%nat -> get (mmul (tr B) B) i j = dot (col B i) (col B j).
Proof.
  intros Hn W Hi Hj. rewrite (get_mmul n n n) by (auto; now apply wf_tr'). unfold dot, col. pose proof W as [L _]. unfold nrows. rewrite length_mkv, L.
  apply sumn_ext. intros k Hk. rewrite (get_tr' n n) by auto. now rewrite !vget_mkv.
Qed.
Lemma gram_cell n (B B' : mat R) c c' : (0 < n)%nat -> same_cell n c c' -> has_cell n B c -> has_cell n B' c' -> mmul (tr B) B = mmul (tr B') B'.
Proof.
  intros Hn [SE SA] (W & K1 & K2) (W' & K1' & K2'). pose proof (wf_tr' n n B Hn W). pose proof (wf_tr' n n B' Hn W').
  apply (mat_ext n n); [now apply (wf_mmul n n n)|now apply (wf_mmul n n n)|].
  intros i j Hi Hj. rewrite !(get_gram n) by assumption. destruct (Nat.eq_dec i j) as [->|N].
  - rewrite (proj2 (K1 j Hj)), (proj2 (K1' j Hj)), (SE j Hj). reflexivity.
  - rewrite (K2 i j Hi Hj N), (K2' i j Hi Hj N), (SE i Hi), (SE j Hj), (SA i j Hi Hj N). reflexivity.
Qed.
(** equal scalar products: an orthogonal matrix carries one base to the other *)
Lemma gram_orth n (B B' : mat R) : base n B -> wf n n B' -> mmul (tr B) B = mmul (tr B') B' -> exists Q : mat R, orthogonal n Q /\ B' = mmul Q B.
Proof.
  intros (Hd & W & D) W' G. pose proof (dim23_pos n Hd) as Hn. pose proof (wf_minv n B Hd W) as WI. pose proof (minv_r n B Hd W D) as R1. pose proof (minv_l n B Hd W D) as L1.
  set (X := minv B) in *. clearbody X. exists (mmul B' X). assert (WQ : wf n n (mmul B' X)) by (apply (wf_mmul n n n); auto). split.
  - split; [exact WQ|]. apply inv_comm; [exact Hd|now apply wf_tr'|exact WQ|].
    rewrite (tr_mmul n n n) by auto. pose proof (wf_tr' n n B Hn W). pose proof (wf_tr' n n B' Hn W'). pose proof (wf_tr' n n X Hn WI).
    rewrite (mmul_assoc n n n n (tr X) (tr B')) by auto. rewrite <- (mmul_assoc n n n n (tr B') B' X) by auto. rewrite <- G.
    rewrite (mmul_assoc n n n n (tr B) B X), R1, (mmul_eye_r n n), <- (tr_mmul n n n), R1 by auto. now apply tr_eye.
  - now rewrite (mmul_assoc n n n n), L1, (mmul_eye_r n n) by auto.
Qed.
Lemma same_request dim id id' s s' ce p p' c c' b b' : bravais_type dim id = Some (s, ce) -> bravais_type dim id' = Some (s', ce) ->
  admissible s p c -> admissible s' p' c' -> same_cell (Z.to_nat dim) c c' -> new_bravais id p dim = Ok b -> new_bravais id' p' dim = Ok b' ->
  conventional_trans b = conventional_trans b' /\
  exists Q : mat R, orthogonal (Z.to_nat dim) Q /\ b_base b' = mmul Q (b_base b) /\ conventional_base b' = mmul Q (conventional_base b).
Proof.
  intros T T' A A' S H H'. destruct (built_all dim id s ce p c T A) as (b1 & C & H1 & _ & _ & HC & WC & DC & BB & HB). assert (b1 = b) by congruence. subst b1.
  destruct (built_all dim id' s' ce p' c' T' A') as (b1 & C' & H1' & _ & _ & HC' & WC' & DC' & BB' & HB'). assert (b1 = b') by congruence. subst b1.
  pose proof (trans_same dim id id' s s' ce p p' b b' T T' H H') as TC. split; [exact TC|].
  set (n := Z.to_nat dim) in *. clearbody n. pose proof (proj1 BB) as Hd. pose proof (dim23_pos n Hd) as Hn.
  pose proof (proj1 HB) as W. pose proof (proj1 HB') as W'. pose proof (wf_RZ n n C WC) as WR.
  assert (D : det (conventional_base b) <> 0).
  { unfold conventional_base, conventional_trans. rewrite HC, (det_mmul n) by (apply BB || assumption). rewrite <- RZ_det, DC.
    apply Rmult_integral_contrapositive_currified; [apply BB|]. destruct ce; cbn; lra. }
  destruct (gram_orth n _ _ (conj Hd (conj W D)) W' (gram_cell n _ _ c c' Hn S HB HB')) as (Q & OQ & E).
  exists Q. split; [exact OQ|]. split; [|exact E]. unfold conventional_base, conventional_trans in E. rewrite <- TC in E.
  rewrite <- (mmul_assoc n n n n) in E by (apply OQ || apply BB || (rewrite HC; exact WR) || assumption).
  assert (DC0 : det (b_C b) <> 0) by (rewrite HC, <- RZ_det, DC; destruct ce; cbn; lra).
  apply (mmul_cancel_r n (b_C b)); auto; [rewrite HC; exact WR|apply BB'|apply (wf_mmul n n n); [apply OQ|apply BB|exact Hn]].
Qed.
Definition upper3 (B : mat R) : Prop := exists x1 x2 x3 y2 y3 z3, B = [[x1; x2; x3]; [0; y2; y3]; [0; 0; z3]] /\ 0 < x1 /\ 0 < y2 /\ 0 < z3.
Definition upper2 (B : mat R) : Prop := exists x1 x2 y2, B = [[x1; x2]; [0; y2]] /\ 0 < x1 /\ 0 < y2.
Lemma sq_pos_eq x y : 0 < x -> 0 < y -> x * x = y * y -> x = y.
Proof. intros. nra. Qed.
Lemma mul_pos_eq x y z : 0 < x -> x * y = x * z -> y = z.
Proof. intros Hx E. apply (Rmult_eq_reg_l x); lra. Qed.
Lemma gram_upper3 x1 x2 x3 y2 y3 z3 : @mmul R _ (tr [[x1; x2; x3]; [0; y2; y3]; [0; 0; z3]]) [[x1; x2; x3]; [0; y2; y3]; [0; 0; z3]] =
  [[x1 * x1; x1 * x2; x1 * x3]; [x1 * x2; x2 * x2 + y2 * y2; x2 * x3 + y2 * y3]; [x1 * x3; x2 * x3 + y2 * y3; x3 * x3 + y3 * y3 + z3 * z3]].
Proof. mat_eq ltac:(ring). Qed.
Lemma gram_upper2 x1 x2 y2 : @mmul R _ (tr [[x1; x2]; [0; y2]]) [[x1; x2]; [0; y2]] = [[x1 * x1; x1 * x2]; [x1 * x2; x2 * x2 + y2 * y2]].
Proof. mat_eq ltac:(ring). Qed.
Lemma upper3_unique (B B' : mat R) : upper3 B -> upper3 B' -> mmul (tr B) B = mmul (tr B') B' -> B = B'.
Proof.
  intros (x1 & x2 & x3 & y2 & y3 & z3 & -> & P1 & P2 & P3) (u1 & u2 & u3 & v2 & v3 & w3 & -> & Q1 & Q2 & Q3) G. rewrite !gram_upper3 in G.
  injection G as G1 G2 G3 G4 G5 G6 G7 G8 G9. apply sq_pos_eq in G1; [|assumption..]. subst u1. apply mul_pos_eq in G2; [|assumption]. apply mul_pos_eq in G3; [|assumption]. subst u2 u3.
  assert (y2 = v2) by (apply sq_pos_eq; lra). subst v2. assert (y3 = v3) by (apply (mul_pos_eq y2); lra). subst v3.
  assert (z3 = w3) by (apply sq_pos_eq; lra). now subst w3.
Qed.
Lemma upper2_unique (B B' : mat R) : upper2 B -> upper2 B' -> mmul (tr B) B = mmul (tr B') B' -> B = B'.
Proof.
  intros (x1 & x2 & y2 & -> & P1 & P2) (u1 & u2 & v2 & -> & Q1 & Q2) G. rewrite !gram_upper2 in G.
  injection G as G1 G2 G3 G4. apply sq_pos_eq in G1; [|assumption..]. subst u1. apply mul_pos_eq in G2; [|assumption]. subst u2.
  assert (y2 = v2) by (apply sq_pos_eq; lra). now subst v2.
Qed.
Lemma bC3 ce C : inv (C0of 3 ce) = Ok C -> C = RZ (match ce with P => I3Z | F => CZ_face | Icen => CZ_body | Ccen => CZ_base end).
Proof.
  intros H. assert (K : inv (C0of 3 ce) = Ok (RZ (match ce with P => I3Z | F => CZ_face | Icen => CZ_body | Ccen => CZ_base end))); [|congruence].
  destruct ce; apply (inv_is 3); try (now right); try apply w33; try apply wf_eye; [exact I3_inv|exact C_base_inv|exact C_body_inv|exact C_face_inv].
Qed.
Lemma bC2 ce C : inv (C0of 2 ce) = Ok C -> C = RZ (match ce with Icen => CZ_rect | _ => I2Z end).
Proof.
  intros H. assert (K : inv (C0of 2 ce) = Ok (RZ (match ce with Icen => CZ_rect | _ => I2Z end))); [|congruence].
  destruct ce; apply (inv_is 2); try (now left); try apply w22; try apply wf_eye; try exact I2_inv. exact C_rect_inv.
Qed.
Ltac up3 a b c d e f := exists a, b, c, d, e, f; split; [meqZ ltac:(cbn; field; lra)|].
Ltac up2 a b d := exists a, b, d; split; [meqZ ltac:(cbn; field; lra)|].
Lemma conv_upper3 id s ce p c b : bravais_type 3 id = Some (s, ce) -> s <> Trigonal -> admissible s p c -> below_180 s p ->
  new_bravais id p 3 = Ok b -> upper3 (conventional_base b).
Proof.
  intros T NT (Hc & Hpos & Hang) HL H. destruct (shape3 id s ce p b T H) as [HB HC]. apply bC3 in HC. unfold conventional_base, conventional_trans. rewrite HC. clear HC H.
  assert (H3p : 0 < sqrt 3) by (apply sqrt_lt_R0; lra).
  apply type_cases in T. destruct T as [[_ T]|[K _]]; [|discriminate K].
  repeat (destruct T as [T|T]); destruct T as (-> & -> & ->); try congruence; cbn [requested] in Hc;
    repeat match type of Hc with context [match ?l with [] => _ | _ :: _ => _ end] => destruct l as [|? ?]; try discriminate Hc end;
    injection Hc as <-; repeat match goal with
    | a : R, H : forall x, _ -> 0 < x |- _ =>
      lazymatch goal with K : 0 < a |- _ => fail | _ => assert (0 < a) by (apply H; cbn [In]; tauto) end end;
    cbn [Z.to_nat Pos.to_nat Pos.iter_op Nat.add base3D par nth] in HB; try (injection HB as <-); cbn [below_180] in HL.
  - up3 r 0 0 r 0 r. auto.
  - up3 r 0 0 r 0 r. auto.
  - up3 r 0 0 r 0 r. auto.
  - up3 r (r / 2) 0 (r * (sqrt 3 / 2)) 0 r0. repeat split; auto. apply Rmult_lt_0_compat; lra.
  - up3 r 0 0 r 0 r0. auto.
  - up3 r 0 0 r 0 r0. auto.
  - up3 r 0 0 r0 0 r1. auto.
  - up3 r 0 0 r0 0 r1. auto.
  - up3 r 0 0 r0 0 r1. auto.
  - up3 r 0 0 r0 0 r1. auto.
  - up3 r 0 (r1 * cos (deg r2)) r0 0 (r1 * sin (deg r2)). repeat split; auto. apply Rmult_lt_0_compat; [assumption|]. now apply sind_pos.
  - up3 r 0 (r1 * cos (deg r2)) r0 0 (r1 * sin (deg r2)). repeat split; auto. apply Rmult_lt_0_compat; [assumption|]. now apply sind_pos.
  - unfold volume_factor in Hang. cbn [planar angle mk_cell] in Hang. assert (Sg : 0 < sin (deg r4)) by (apply sind_pos; lra).
    apply bindInv in HB as (y & _ & HB). apply bindInv in HB as (q & Hq & HB). apply bindInv in HB as (z & Hz & HB). injection HB as <-.
    unfold np_sqrt in Hq. destruct (Rltb _ 0); [discriminate|]. injection Hq as <-. unfold np_div in Hz. destruct (Reqb _ 0); [discriminate|]. injection Hz as <-.
    up3 r (r0 * cos (deg r4)) (r1 * cos (deg r3)) (r0 * sin (deg r4)) y (r1 * sqrt (1 + 2 * cos (deg r2) * cos (deg r3) * cos (deg r4) - cos (deg r2) * cos (deg r2) - cos (deg r3) * cos (deg r3) - cos (deg r4) * cos (deg r4)) / sin (deg r4)).
    split; [assumption|]. split; [now apply Rmult_lt_0_compat|]. apply Rdiv_lt_0_compat; [|assumption]. apply Rmult_lt_0_compat; [assumption|]. apply sqrt_lt_R0. exact Hang.
Qed.
Lemma conv_upper2 id s ce p c b : bravais_type 2 id = Some (s, ce) -> admissible s p c -> below_180 s p ->
  new_bravais id p 2 = Ok b -> upper2 (conventional_base b).
Proof.
  intros T (Hc & Hpos & Hang) HL H. destruct (shape2 id s ce p b T H) as [HB HC]. apply bC2 in HC. unfold conventional_base, conventional_trans. rewrite HC. clear HC H.
  assert (H3p : 0 < sqrt 3) by (apply sqrt_lt_R0; lra).
  apply type_cases in T. destruct T as [[K _]|[_ T]]; [discriminate K|].
  repeat (destruct T as [T|T]); destruct T as (-> & -> & ->); try congruence; cbn [requested] in Hc;
    repeat match type of Hc with context [match ?l with [] => _ | _ :: _ => _ end] => destruct l as [|? ?]; try discriminate Hc end;
    injection Hc as <-; repeat match goal with
    | a : R, H : forall x, _ -> 0 < x |- _ =>
      lazymatch goal with K : 0 < a |- _ => fail | _ => assert (0 < a) by (apply H; cbn [In]; tauto) end end;
    cbn [Z.to_nat Pos.to_nat Pos.iter_op Nat.add base2D par nth] in HB; injection HB as <-; cbn [below_180] in HL.
  - up2 r 0 r. auto.
  - up2 r 0 r0. auto.
  - up2 r 0 r0. auto.
  - up2 r (r / 2) (r / 2 * sqrt 3). repeat split; auto. apply Rmult_lt_0_compat; lra.
  - up2 r (r0 * cos (deg r1)) (r0 * sin (deg r1)). repeat split; auto. apply Rmult_lt_0_compat; [assumption|]. now apply sind_pos.
Qed.
Lemma same_by n (E1 E2 : mat R) (M N : mat Z) : base n E1 -> base n E2 -> wf n n M -> wf n n N -> mmul M N = eye n -> E1 = mmul E2 (RZ M) -> same_lattice n E1 E2.
Proof.
  intros B1 B2 WM WN I E. pose proof (dim23_pos n (proj1 B1)) as Hn. intros x. split; revert x.
  - apply (sub_lattice_iff n E2 B2); [apply B1|]. exists M. auto.
  - apply (sub_lattice_iff n E1 B1); [apply B2|]. exists N. split; [exact WN|].
    rewrite E, (mmul_assoc n n n n), <- RZ_mmul by (assumption || apply B2 || now apply wf_RZ). rewrite I, RZ_eye, (mmul_eye_r n n) by (assumption || apply B2). reflexivity.
Qed.
Lemma made3 id s ce p c : bravais_type 3 id = Some (s, ce) -> admissible s p c ->
  exists b, new_bravais id p 3 = Ok b /\ base3D (Z.to_nat id) p = Ok (b_base b, C0of 3 ce) /\ base 3 (b_base b).
Proof.
  intros T A. destruct (built_all 3 id s ce p c T A) as (b & C & H & _ & _ & _ & _ & _ & BB & _). exists b. split; [exact H|]. split; [|exact BB].
  apply (shape3 id s ce p b T H).
Qed.
Lemma made2 id s ce p c : bravais_type 2 id = Some (s, ce) -> admissible s p c ->
  exists b, new_bravais id p 2 = Ok b /\ base2D (Z.to_nat id) p = (b_base b, C0of 2 ce) /\ base 2 (b_base b).
Proof.
  intros T A. destruct (built_all 2 id s ce p c T A) as (b & C & H & _ & _ & _ & _ & _ & BB & _). exists b. split; [exact H|]. split; [|exact BB].
  apply (shape2 id s ce p b T H).
Qed.
Ltac adm := split; [reflexivity|]; split; [cbn; intros ? ?; intuition (subst; assumption)|unfold volume_factor; cbn; rewrite ?cosd90, ?cosd60; lra].
Ltac fin3 HE := cbn [Z.to_nat Pos.to_nat Pos.iter_op Nat.add base3D base2D par nth] in HE; injection HE as HE; cbv [par nth] in HE.
Lemma hex_is_ortho a c : 0 < a -> 0 < c -> same_points 3 4 [a; c] 9 [a; sqrt 3 * a; c].
Proof.
  intros Ha Hc. assert (S : 0 < sqrt 3) by (apply sqrt_lt_R0; lra). assert (0 < sqrt 3 * a) by now apply Rmult_lt_0_compat.
  destruct (made3 4 Hexagonal P [a; c] (mk_cell a a c 90 90 60)) as (b & H1 & E1 & B1); [reflexivity|adm|].
  destruct (made3 9 Orthorhombic Ccen [a; sqrt 3 * a; c] (mk_cell a (sqrt 3 * a) c 90 90 90)) as (b' & H2 & E2 & B2); [reflexivity|adm|].
  fin3 E1. fin3 E2. exists b, b'. split; [exact H1|]. split; [exact H2|]. change (Z.to_nat 3) with 3%nat.
  apply (same_by 3 _ _ [[1; 1; 0]; [-1; 0; 0]; [0; 0; 1]]%Z [[0; -1; 0]; [1; 1; 0]; [0; 0; 1]]%Z B1 B2); [apply w33|apply w33|reflexivity|].
  rewrite <- E1, <- E2. meqZ ltac:(field).
Qed.
Lemma hex_is_rect a : 0 < a -> same_points 2 4 [a] 3 [a; sqrt 3 * a].
Proof.
  intros Ha. assert (S : 0 < sqrt 3) by (apply sqrt_lt_R0; lra). assert (0 < sqrt 3 * a) by now apply Rmult_lt_0_compat.
  destruct (made2 4 Hexagonal2 P [a] (mk_cell a a 0 0 0 60)) as (b & H1 & E1 & B1); [reflexivity|adm|].
  destruct (made2 3 Rectangular Icen [a; sqrt 3 * a] (mk_cell a (sqrt 3 * a) 0 0 0 90)) as (b' & H2 & E2 & B2); [reflexivity|adm|].
  fin3 E1. fin3 E2. exists b, b'. split; [exact H1|]. split; [exact H2|]. change (Z.to_nat 2) with 2%nat.
  apply (same_by 2 _ _ [[1; 1]; [-1; 0]]%Z [[0; -1]; [1; 1]]%Z B1 B2); [apply w22|apply w22|reflexivity|].
  rewrite <- E1, <- E2. meqZ ltac:(field).
Qed.
(** a rhombohedral cell: the entries of the base *)
Lemma trig_base a al b : base3D 5 [a; al] = Ok (b_base b, eye 3) -> exists ty tz,
  0 <= (1 - cosd al) / 6 /\ 0 <= (1 + 2 * cosd al) / 3 /\ ty = sqrt ((1 - cosd al) / 6) /\ tz = sqrt ((1 + 2 * cosd al) / 3) /\
  let u := a / sqrt 3 * (tz - 2 * sqrt 2 * ty) in let v := a / sqrt 3 * (tz + sqrt 2 * ty) in
  b_base b = [[u; v; v]; [v; u; v]; [v; v; u]].
Proof.
  intros HB. cbn [base3D par nth] in HB. change (cos (deg al)) with (cosd al) in HB.
  apply bindInv in HB as (ty & H1 & HB). apply bindInv in HB as (tz & H2 & HB). unfold np_sqrt in H1, H2.
  destruct (Rltb ((1 - cosd al) / 6) 0) eqn:L1; [discriminate|]. destruct (Rltb ((1 + 2 * cosd al) / 3) 0) eqn:L2; [discriminate|].
  apply Rltb_false in L1. apply Rltb_false in L2. exists ty, tz. injection H1 as <-. injection H2 as <-. injection HB as HB.
  repeat split; try lra. now rewrite <- HB.
Qed.
Lemma rhombo_is_face a : 0 < a -> same_points 3 5 [a; 60] 2 [sqrt 2 * a].
Proof.
  intros Ha. assert (S : 0 < sqrt 2) by (apply sqrt_lt_R0; lra). assert (SS : sqrt 2 * sqrt 2 = 2) by (apply sqrt_sqrt; lra). assert (0 < sqrt 2 * a) by now apply Rmult_lt_0_compat.
  assert (T : 0 < sqrt 3) by (apply sqrt_lt_R0; lra). assert (TT : sqrt 3 * sqrt 3 = 3) by (apply sqrt_sqrt; lra).
  assert (60 > 0) by lra.
  destruct (made3 5 Trigonal P [a; 60] (mk_cell a a a 60 60 60)) as (b & H1 & E1 & B1); [reflexivity|adm|].
  destruct (made3 2 Cubic F [sqrt 2 * a] (mk_cell (sqrt 2 * a) (sqrt 2 * a) (sqrt 2 * a) 90 90 90)) as (b' & H2 & E2 & B2); [reflexivity|adm|].
  fin3 E2. exists b, b'. split; [exact H1|]. split; [exact H2|]. change (Z.to_nat 3) with 3%nat.
  destruct (trig_base a 60 b E1) as (ty & tz & P1 & P2 & Ey & Ez & E). cbv zeta in E. rewrite cosd60 in *.
  assert (Sy : ty * ty = 1 / 12) by (rewrite Ey, sqrt_sqrt; lra). assert (Sz : tz * tz = 2 / 3) by (rewrite Ez, sqrt_sqrt; lra).
  assert (Py : 0 < ty) by (rewrite Ey; apply sqrt_lt_R0; lra). assert (Pz : 0 < tz) by (rewrite Ez; apply sqrt_lt_R0; lra).
  assert (K : tz = 2 * (sqrt 2 * ty)).
  { apply sq_pos_eq; [lra|assert (0 < sqrt 2 * ty) by (now apply Rmult_lt_0_compat); lra|]. replace (2 * (sqrt 2 * ty) * (2 * (sqrt 2 * ty))) with (4 * (sqrt 2 * sqrt 2) * (ty * ty)) by ring. rewrite SS, Sy, Sz. lra. }
  assert (U : a / sqrt 3 * (tz - 2 * sqrt 2 * ty) = 0) by (rewrite K; field; lra).
  assert (V : a / sqrt 3 * (tz + sqrt 2 * ty) = / 2 * (sqrt 2 * a)).
  { assert (0 < sqrt 2 * ty) by now apply Rmult_lt_0_compat. apply sq_pos_eq; [apply Rmult_lt_0_compat; [apply Rdiv_lt_0_compat; lra|lra]|lra|].
    replace (tz + sqrt 2 * ty) with (3 * (sqrt 2 * ty)) by lra.
    replace (a / sqrt 3 * (3 * (sqrt 2 * ty)) * (a / sqrt 3 * (3 * (sqrt 2 * ty)))) with (a * a * 9 * (sqrt 2 * sqrt 2) * (ty * ty) / (sqrt 3 * sqrt 3)) by (field; lra).
    replace (/ 2 * (sqrt 2 * a) * (/ 2 * (sqrt 2 * a))) with (a * a * (sqrt 2 * sqrt 2) / 4) by field. rewrite TT, SS, Sy. field. }
  rewrite U, V in E.
  apply (same_by 3 _ _ [[0; 0; 1]; [1; 0; 0]; [0; 1; 0]]%Z [[0; 1; 0]; [0; 0; 1]; [1; 0; 0]]%Z B1 B2); [apply w33|apply w33|reflexivity|].
  rewrite E, <- E2. meqZ ltac:(field).
Qed.
(** the angle whose cosine is -1/3, in degrees: about 109.47 *)
Definition angle_body : R := 180 / PI * acos (- (1 / 3)).
Lemma cosd_body : cosd angle_body = - (1 / 3).
Proof.
  unfold cosd, angle_body. pose proof PI_RGT_0. replace (180 / PI * acos (- (1 / 3)) * PI / 180) with (acos (- (1 / 3))) by (field; lra). apply cos_acos. lra.
Qed.
Lemma body_pos : 0 < angle_body.
Proof.
  pose proof PI_RGT_0. unfold angle_body. apply Rmult_lt_0_compat; [apply Rdiv_lt_0_compat; lra|]. destruct (acos_bound (- (1 / 3))) as [[L|E] _]; [exact L|].
  assert (K : cos (acos (- (1 / 3))) = - (1 / 3)) by (apply cos_acos; lra). rewrite <- E, cos_0 in K. lra.
Qed.
Lemma rhombo_is_body a : 0 < a -> same_points 3 5 [a; angle_body] 3 [2 / sqrt 3 * a].
Proof.
  intros Ha. assert (S : 0 < sqrt 2) by (apply sqrt_lt_R0; lra). assert (SS : sqrt 2 * sqrt 2 = 2) by (apply sqrt_sqrt; lra).
  assert (T : 0 < sqrt 3) by (apply sqrt_lt_R0; lra). assert (0 < 2 / sqrt 3 * a) by (apply Rmult_lt_0_compat; [apply Rdiv_lt_0_compat|]; lra).
  pose proof body_pos.
  destruct (made3 5 Trigonal P [a; angle_body] (mk_cell a a a angle_body angle_body angle_body)) as (b & H1 & E1 & B1); [reflexivity| |].
  { split; [reflexivity|]. split; [cbn; intros ? ?; intuition (subst; assumption)|]. unfold volume_factor. cbn. rewrite cosd_body. lra. }
  destruct (made3 3 Cubic Icen [2 / sqrt 3 * a] (mk_cell (2 / sqrt 3 * a) (2 / sqrt 3 * a) (2 / sqrt 3 * a) 90 90 90)) as (b' & H2 & E2 & B2); [reflexivity|adm|].
  fin3 E2. exists b, b'. split; [exact H1|]. split; [exact H2|]. change (Z.to_nat 3) with 3%nat.
  destruct (trig_base a angle_body b E1) as (ty & tz & P1 & P2 & Ey & Ez & E). cbv zeta in E. rewrite cosd_body in *.
  assert (Sz : tz = 1 / 3) by (rewrite Ez; replace ((1 + 2 * - (1 / 3)) / 3) with (1 / 3 * (1 / 3)) by field; apply sqrt_square; lra).
  assert (Sy : sqrt 2 * ty = 2 / 3).
  { apply sq_pos_eq; [apply Rmult_lt_0_compat; [lra|rewrite Ey; apply sqrt_lt_R0; lra]|lra|].
    assert (ty * ty = 2 / 9) by (rewrite Ey, sqrt_sqrt; lra). replace (sqrt 2 * ty * (sqrt 2 * ty)) with (sqrt 2 * sqrt 2 * (ty * ty)) by ring. rewrite SS. lra. }
  replace (tz - 2 * sqrt 2 * ty) with (-1) in E by lra. replace (tz + sqrt 2 * ty) with 1 in E by lra.
  apply (same_by 3 _ _ [[0; 1; 0]; [1; -1; 0]; [0; 1; -1]]%Z [[1; 1; 0]; [1; 0; 0]; [1; 0; -1]]%Z B1 B2); [apply w33|apply w33|reflexivity|].
  rewrite E, <- E2. meqZ ltac:(field; lra).
Qed.
Definition Q45 : mat R := [[sqrt 2 / 2; sqrt 2 / 2; 0]; [- (sqrt 2 / 2); sqrt 2 / 2; 0]; [0; 0; 1]].
Definition Q45p : mat R := [[sqrt 2 / 2; sqrt 2 / 2]; [- (sqrt 2 / 2); sqrt 2 / 2]].
Lemma sqrt2 : sqrt 2 * sqrt 2 = 2. Proof. apply sqrt_sqrt. lra. Qed.
Lemma Q45_rot : rotation_matrix 3 Q45.
Proof. pose proof sqrt2 as SS. split; [split; [apply w33|]|]; unfold Q45; [mat_eq ltac:(field [SS])|]. rewrite det3. field [SS]. Qed.
Lemma Q45p_rot : rotation_matrix 2 Q45p.
Proof. pose proof sqrt2 as SS. split; [split; [apply w22|]|]; unfold Q45p; [mat_eq ltac:(field [SS])|]. rewrite det2. field [SS]. Qed.
Lemma base_rot n (Q E : mat R) : rotation_matrix n Q -> base n E -> base n (mmul Q E).
Proof.
  intros [[WQ _] DQ] (Hd & W & D). split; [exact Hd|]. split; [apply (wf_mmul n n n); auto; now apply dim23_pos|].
  rewrite (det_mmul n) by assumption. rewrite DQ. lra.
Qed.
Lemma tetra_is_face a : 0 < a -> same_up_to_rotation 3 7 [a; sqrt 2 * a] 2 [sqrt 2 * a].
Proof.
  intros Ha. assert (S : 0 < sqrt 2) by (apply sqrt_lt_R0; lra). pose proof sqrt2 as SS. assert (0 < sqrt 2 * a) by now apply Rmult_lt_0_compat.
  destruct (made3 7 Tetragonal Icen [a; sqrt 2 * a] (mk_cell a a (sqrt 2 * a) 90 90 90)) as (b & H1 & E1 & B1); [reflexivity|adm|].
  destruct (made3 2 Cubic F [sqrt 2 * a] (mk_cell (sqrt 2 * a) (sqrt 2 * a) (sqrt 2 * a) 90 90 90)) as (b' & H2 & E2 & B2); [reflexivity|adm|].
  fin3 E1. fin3 E2. exists b, b', Q45. split; [exact H1|]. split; [exact H2|]. change (Z.to_nat 3) with 3%nat. split; [apply Q45_rot|].
  apply (same_by 3 _ _ [[0; 0; -1]; [0; 1; 1]; [1; 0; 0]]%Z [[0; 0; 1]; [1; 1; 0]; [-1; 0; 0]]%Z (base_rot 3 _ _ Q45_rot B1) B2); [apply w33|apply w33|reflexivity|].
  rewrite <- E1, <- E2. unfold Q45. meqZ ltac:(field [SS]; lra).
Qed.
Lemma ortho_is_tetra a c : 0 < a -> 0 < c -> same_up_to_rotation 3 9 [sqrt 2 * a; sqrt 2 * a; c] 6 [a; c].
Proof.
  intros Ha Hc. assert (S : 0 < sqrt 2) by (apply sqrt_lt_R0; lra). pose proof sqrt2 as SS. assert (0 < sqrt 2 * a) by now apply Rmult_lt_0_compat.
  destruct (made3 9 Orthorhombic Ccen [sqrt 2 * a; sqrt 2 * a; c] (mk_cell (sqrt 2 * a) (sqrt 2 * a) c 90 90 90)) as (b & H1 & E1 & B1); [reflexivity|adm|].
  destruct (made3 6 Tetragonal P [a; c] (mk_cell a a c 90 90 90)) as (b' & H2 & E2 & B2); [reflexivity|adm|].
  fin3 E1. fin3 E2. exists b, b', Q45. split; [exact H1|]. split; [exact H2|]. change (Z.to_nat 3) with 3%nat. split; [apply Q45_rot|].
  apply (same_by 3 _ _ I3Z I3Z (base_rot 3 _ _ Q45_rot B1) B2); [apply w33|apply w33|reflexivity|].
  rewrite <- E1, <- E2. unfold Q45. meqZ ltac:(field [SS]; lra).
Qed.
Lemma ortho_is_body_tetra a c : 0 < a -> 0 < c -> same_up_to_rotation 3 10 [sqrt 2 * a; sqrt 2 * a; c] 7 [a; c].
Proof.
  intros Ha Hc. assert (S : 0 < sqrt 2) by (apply sqrt_lt_R0; lra). pose proof sqrt2 as SS. assert (0 < sqrt 2 * a) by now apply Rmult_lt_0_compat.
  destruct (made3 10 Orthorhombic F [sqrt 2 * a; sqrt 2 * a; c] (mk_cell (sqrt 2 * a) (sqrt 2 * a) c 90 90 90)) as (b & H1 & E1 & B1); [reflexivity|adm|].
  destruct (made3 7 Tetragonal Icen [a; c] (mk_cell a a c 90 90 90)) as (b' & H2 & E2 & B2); [reflexivity|adm|].
  fin3 E1. fin3 E2. exists b, b', Q45. split; [exact H1|]. split; [exact H2|]. change (Z.to_nat 3) with 3%nat. split; [apply Q45_rot|].
  apply (same_by 3 _ _ [[1; 1; 1]; [-1; 0; -1]; [0; 0; 1]]%Z [[0; -1; -1]; [1; 1; 0]; [0; 0; 1]]%Z (base_rot 3 _ _ Q45_rot B1) B2); [apply w33|apply w33|reflexivity|].
  rewrite <- E1, <- E2. unfold Q45. meqZ ltac:(field [SS]; lra).
Qed.
Lemma rect_is_square a : 0 < a -> same_up_to_rotation 2 3 [sqrt 2 * a; sqrt 2 * a] 1 [a].
Proof.
  intros Ha. assert (S : 0 < sqrt 2) by (apply sqrt_lt_R0; lra). pose proof sqrt2 as SS. assert (0 < sqrt 2 * a) by now apply Rmult_lt_0_compat.
  destruct (made2 3 Rectangular Icen [sqrt 2 * a; sqrt 2 * a] (mk_cell (sqrt 2 * a) (sqrt 2 * a) 0 0 0 90)) as (b & H1 & E1 & B1); [reflexivity|adm|].
  destruct (made2 1 Square P [a] (mk_cell a a 0 0 0 90)) as (b' & H2 & E2 & B2); [reflexivity|adm|].
  fin3 E1. fin3 E2. exists b, b', Q45p. split; [exact H1|]. split; [exact H2|]. change (Z.to_nat 2) with 2%nat. split; [apply Q45p_rot|].
  apply (same_by 2 _ _ I2Z I2Z (base_rot 2 _ _ Q45p_rot B1) B2); [apply w22|apply w22|reflexivity|].
  rewrite <- E1, <- E2. unfold Q45p. meqZ ltac:(field [SS]; lra).
Qed.

(** * C117 *)
(** The type and the parameters are only a way to write down a cell: two requests with the same centring, the same edges and the
    same angles give the same conventional_trans and congruent bases. *)
Theorem C117_same_cell dim id id' s s' ce p p' c c' b b' :
  bravais_type dim id = Some (s, ce) -> bravais_type dim id' = Some (s', ce) -> admissible s p c -> admissible s' p' c' ->
  same_cell (Z.to_nat dim) c c' -> new_bravais id p dim = Ok b -> new_bravais id' p' dim = Ok b' ->
  conventional_trans b = conventional_trans b' /\
  exists Q : mat R, orthogonal (Z.to_nat dim) Q /\ b_base b' = mmul Q (b_base b) /\ conventional_base b' = mmul Q (conventional_base b).
Proof. apply same_request. Qed.
(** They even give the same base, unless one of them is trigonal (whose base stands around [1,1,1]), or a monoclinic, triclinic
    or oblique angle above 180 degrees turns the cell over. *)
Theorem C117_same_base dim id id' s s' ce p p' c c' b b' :
  bravais_type dim id = Some (s, ce) -> bravais_type dim id' = Some (s', ce) -> admissible s p c -> admissible s' p' c' ->
  same_cell (Z.to_nat dim) c c' -> new_bravais id p dim = Ok b -> new_bravais id' p' dim = Ok b' ->
  s <> Trigonal -> s' <> Trigonal -> below_180 s p -> below_180 s' p' ->
  b_base b = b_base b' /\ conventional_base b = conventional_base b'.
Proof.
  intros T T' A A' S H H' N N' L L'.
  destruct (built_all dim id s ce p c T A) as (b1 & C & H1 & _ & _ & HC & WC & DC & BB & HB). assert (b1 = b) by congruence. subst b1.
  destruct (built_all dim id' s' ce p' c' T' A') as (b1 & C' & H1' & _ & _ & HC' & WC' & DC' & BB' & HB'). assert (b1 = b') by congruence. subst b1.
  pose proof (trans_same dim id id' s s' ce p p' b b' T T' H H') as TC. pose proof (dim23_pos _ (proj1 BB)) as Hn.
  pose proof (gram_cell _ _ _ c c' Hn S HB HB') as G.
  assert (E : conventional_base b = conventional_base b').
  { assert (D : dim = 3%Z \/ dim = 2%Z) by (apply type_cases in T; tauto). destruct D as [->| ->].
    - apply upper3_unique; [now apply (conv_upper3 id s ce p c)|now apply (conv_upper3 id' s' ce p' c')|exact G].
    - apply upper2_unique; [now apply (conv_upper2 id s ce p c)|now apply (conv_upper2 id' s' ce p' c')|exact G]. }
  split; [|exact E]. unfold conventional_base, conventional_trans in E. rewrite <- TC in E.
  apply (mmul_cancel_r (Z.to_nat dim) (b_C b)); [apply BB|rewrite HC; now apply wf_RZ|apply BB|apply BB'| |exact E].
  rewrite HC, <- RZ_det, DC. destruct ce; cbn; lra.
Qed.
(** The textbook coincidences between types with different cells, for every size. *)
Theorem C117_same_points a c : 0 < a -> 0 < c ->
  same_points 3 4 [a; c] 9 [a; sqrt 3 * a; c] /\ same_points 3 5 [a; 60] 2 [sqrt 2 * a] /\
  same_points 3 5 [a; angle_body] 3 [2 / sqrt 3 * a] /\ same_points 2 4 [a] 3 [a; sqrt 3 * a].
Proof. intros Ha Hc. split; [now apply hex_is_ortho|]. split; [now apply rhombo_is_face|]. split; [now apply rhombo_is_body|now apply hex_is_rect]. Qed.
Theorem C117_rotated a c : 0 < a -> 0 < c ->
  same_up_to_rotation 3 7 [a; sqrt 2 * a] 2 [sqrt 2 * a] /\ same_up_to_rotation 3 9 [sqrt 2 * a; sqrt 2 * a; c] 6 [a; c] /\
  same_up_to_rotation 3 10 [sqrt 2 * a; sqrt 2 * a; c] 7 [a; c] /\ same_up_to_rotation 2 3 [sqrt 2 * a; sqrt 2 * a] 1 [a].
Proof. intros Ha Hc. split; [now apply tetra_is_face|]. split; [now apply ortho_is_tetra|]. split; [now apply ortho_is_body_tetra|now apply rect_is_square]. Qed.
(** two such descriptions compare equal *)
Theorem C117_equal dim id id' s s' ce ce' p p' c c' b b' :
  bravais_type dim id = Some (s, ce) -> bravais_type dim id' = Some (s', ce') -> admissible s p c -> admissible s' p' c' ->
  new_bravais id p dim = Ok b -> new_bravais id' p' dim = Ok b' -> same_lattice (Z.to_nat dim) (b_base b) (b_base b') ->
  lat_eq (b_base b) (b_base b') = Ok true /\ lat_eq (b_base b') (b_base b) = Ok true.
Proof.
  intros T T' A A' H H' S. destruct (built_all dim id s ce p c T A) as (b1 & C & H1 & _ & _ & _ & _ & _ & BB & _). assert (b1 = b) by congruence. subst b1.
  destruct (built_all dim id' s' ce' p' c' T' A') as (b1 & C' & H1' & _ & _ & _ & _ & _ & BB' & _). assert (b1 = b') by congruence. subst b1.
  now apply (C12_same_lattice_equal_partial (Z.to_nat dim)).
Qed.
(** a cubic cell as a tetragonal, orthorhombic, monoclinic, triclinic or trigonal one; a hexagonal cell as a triclinic one *)
Example C117_case a : 0 < a -> admissible Cubic [a] (mk_cell a a a 90 90 90) /\ admissible Tetragonal [a; a] (mk_cell a a a 90 90 90) /\
  admissible Orthorhombic [a; a; a] (mk_cell a a a 90 90 90) /\ admissible Monoclinic [a; a; a; 90] (mk_cell a a a 90 90 90) /\
  admissible Triclinic [a; a; a; 90; 90; 90] (mk_cell a a a 90 90 90) /\ admissible Trigonal [a; 90] (mk_cell a a a 90 90 90) /\
  admissible Hexagonal [a; a] (mk_cell a a a 90 90 60) /\ admissible Triclinic [a; a; a; 90; 90; 60] (mk_cell a a a 90 90 60) /\
  below_180 Monoclinic [a; a; a; 90] /\ below_180 Triclinic [a; a; a; 90; 90; 60].
Proof.
  intros Ha. assert (0 < 90) by lra. assert (0 < 60) by lra. repeat match goal with |- _ /\ _ => lazymatch goal with |- admissible _ _ _ => fail | _ => split end end.
  1-8: adm. all: cbn; lra.
Qed.
(** the trigonal exception is real: a cubic cell requested as a trigonal one stands in another way *)
Example C117_trigonal a : 0 < a -> exists b b', new_bravais 1 [a] 3 = Ok b /\ new_bravais 5 [a; 90] 3 = Ok b' /\ b_base b <> b_base b'.
Proof.
  intros Ha. assert (0 < 90) by lra.
  destruct (made3 1 Cubic P [a] (mk_cell a a a 90 90 90)) as (b & H1 & E1 & B1); [reflexivity|adm|].
  destruct (made3 5 Trigonal P [a; 90] (mk_cell a a a 90 90 90)) as (b' & H2 & E2 & B2); [reflexivity|adm|].
  exists b, b'. split; [exact H1|]. split; [exact H2|]. fin3 E1. destruct (trig_base a 90 b' E2) as (ty & tz & P1 & P2 & Ey & Ez & E). cbv zeta in E. rewrite cosd90 in *.
  rewrite E, <- E1. intros K. assert (K2 : a = a / sqrt 3 * (tz - 2 * sqrt 2 * ty)) by exact (f_equal (fun M => get M 0 0) K).
  assert (T : 0 < sqrt 3) by (apply sqrt_lt_R0; lra). assert (S : 0 < sqrt 2) by (apply sqrt_lt_R0; lra). pose proof sqrt2 as SS.
  assert (Py : 0 < ty) by (rewrite Ey; apply sqrt_lt_R0; lra). assert (Sy : ty * ty = 1 / 6) by (rewrite Ey, sqrt_sqrt; lra).
  assert (Sz : tz * tz = 1 / 3) by (rewrite Ez, sqrt_sqrt; lra). assert (0 < sqrt 2 * ty) by (now apply Rmult_lt_0_compat).
  assert (S2 : sqrt 2 * ty * (sqrt 2 * ty) = 1 / 3) by (replace (sqrt 2 * ty * (sqrt 2 * ty)) with (sqrt 2 * sqrt 2 * (ty * ty)) by ring; rewrite SS, Sy; lra).
  assert (tz < 2 * (sqrt 2 * ty)) by nra.
  assert (a / sqrt 3 * (tz - 2 * sqrt 2 * ty) < 0); [|lra]. assert (0 < a / sqrt 3) by (now apply Rdiv_lt_0_compat). nra.
Qed.
Print Assumptions C117_same_cell.
Print Assumptions C117_same_base.
Print Assumptions C117_same_points.
Print Assumptions C117_rotated.
Print Assumptions C117_equal.
