From Verif Require Import LinAlg GroupModel GroupProofs LatticeModel LatticeSpec LatticeProofs BravaisModel BravaisSpec.
Local Open Scope R_scope.

Lemma type_cases dim id s ce : bravais_type dim id = Some (s, ce) ->
  (dim = 3 /\ ((id = 1 /\ s = Cubic /\ ce = P) \/ (id = 2 /\ s = Cubic /\ ce = F) \/ (id = 3 /\ s = Cubic /\ ce = Icen) \/
     (id = 4 /\ s = Hexagonal /\ ce = P) \/ (id = 5 /\ s = Trigonal /\ ce = P) \/ (id = 6 /\ s = Tetragonal /\ ce = P) \/
     (id = 7 /\ s = Tetragonal /\ ce = Icen) \/ (id = 8 /\ s = Orthorhombic /\ ce = P) \/ (id = 9 /\ s = Orthorhombic /\ ce = Ccen) \/
     (id = 10 /\ s = Orthorhombic /\ ce = F) \/ (id = 11 /\ s = Orthorhombic /\ ce = Icen) \/ (id = 12 /\ s = Monoclinic /\ ce = P) \/
     (id = 13 /\ s = Monoclinic /\ ce = Ccen) \/ (id = 14 /\ s = Triclinic /\ ce = P)) \/
   dim = 2 /\ ((id = 1 /\ s = Square /\ ce = P) \/ (id = 2 /\ s = Rectangular /\ ce = P) \/ (id = 3 /\ s = Rectangular /\ ce = Icen) \/
     (id = 4 /\ s = Hexagonal2 /\ ce = P) \/ (id = 5 /\ s = Oblique /\ ce = P)))%Z.
Proof.
  unfold bravais_type. intros H.
  repeat match type of H with context [match ?x with _ => _ end] => destruct x; try discriminate H end;
    injection H as <- <-; intuition.
Qed.

Lemma existsb_pos p : (forall x, In x p -> 0 < x) -> existsb (fun x => Rleb x 0) p = false.
Proof.
  induction p as [|x p IH]; intros H; [reflexivity|]. cbn [existsb]. rewrite IH by (intros; apply H; now right).
  rewrite orb_false_r. apply Rleb_false. apply H. now left.
Qed.
Lemma new_lattice_base n E : base n E -> new_lattice E = Ok E.
Proof. intros B. apply (new_lattice_ok n E B); apply B. Qed.
Lemma inv_is n C0 (C : mat Z) : dim23 n -> wf n n C0 -> wf n n C -> mmul C0 (RZ C) = eye n -> inv C0 = Ok (RZ C).
Proof.
  intros Hd W0 WC H. destruct (inv_unique n C0 (RZ C) Hd W0 (wf_RZ n n C WC) H) as [D ->]. now apply (inv_Ok n).
Qed.
Lemma new3 id p E C0 C : (1 <= id < 15)%Z -> (forall x, In x p -> 0 < x) -> length p = nth (Z.to_nat (id - 1)) pramlen3 0%nat ->
  base3D (Z.to_nat id) p = Ok (E, C0) -> base 3 E -> wf 3 3 C0 -> wf 3 3 C -> mmul C0 (RZ C) = eye 3 ->
  new_bravais id p 3 = Ok {| b_id := id; b_par := p; b_base := E; b_C := RZ C |}.
Proof.
  intros Hid Hp Hl HB BE W0 WC HC. unfold new_bravais. rewrite existsb_pos by assumption.
  cbn [Z.eqb Pos.eqb]. rewrite (proj2 (Z.leb_le 1 id)), (proj2 (Z.ltb_lt id 15)) by lia. cbn [andb].
  rewrite Hl, Nat.eqb_refl, HB. cbn [bind fst snd].
  rewrite (inv_is 3 C0 C ltac:(now right) W0 WC HC). cbn [bind]. rewrite (new_lattice_base 3 E BE). reflexivity.
Qed.
Lemma new2 id p E C0 C : (1 <= id < 6)%Z -> (forall x, In x p -> 0 < x) -> length p = nth (Z.to_nat (id - 1)) pramlen2 0%nat ->
  base2D (Z.to_nat id) p = (E, C0) -> base 2 E -> wf 2 2 C0 -> wf 2 2 C -> mmul C0 (RZ C) = eye 2 ->
  new_bravais id p 2 = Ok {| b_id := id; b_par := p; b_base := E; b_C := RZ C |}.
Proof.
  intros Hid Hp Hl HB BE W0 WC HC. unfold new_bravais. rewrite existsb_pos by assumption.
  cbn [Z.eqb Pos.eqb]. rewrite (proj2 (Z.leb_le 1 id)), (proj2 (Z.ltb_lt id 6)) by lia. cbn [andb].
  rewrite Hl, Nat.eqb_refl, HB. cbn [bind fst snd].
  rewrite (inv_is 2 C0 C ltac:(now left) W0 WC HC). cbn [bind]. rewrite (new_lattice_base 2 E BE). reflexivity.
Qed.

(** the integer matrices C *)
Definition I2Z : mat Z := [[1; 0]; [0; 1]]%Z.
Definition I3Z : mat Z := [[1; 0; 0]; [0; 1; 0]; [0; 0; 1]]%Z.
Definition CZ_face : mat Z := [[1; 1; -1]; [-1; 1; 1]; [1; -1; 1]]%Z.
Definition CZ_body : mat Z := [[1; 0; 1]; [-1; 1; 0]; [0; -1; 1]]%Z.
Definition CZ_base : mat Z := [[1; 1; 0]; [-1; 1; 0]; [0; 0; 1]]%Z.
Definition CZ_rect : mat Z := [[1; 1]; [-1; 1]]%Z.
Lemma w22 {A} (a b c d : A) : wf 2 2 [[a; b]; [c; d]].
Proof. split; [reflexivity|cbn; intros r [<-|[<-|[]]]; reflexivity]. Qed.
Lemma w33 {A} (a b c d e f g h i : A) : wf 3 3 [[a; b; c]; [d; e; f]; [g; h; i]].
Proof. split; [reflexivity|cbn; intros r [<-|[<-|[<-|[]]]]; reflexivity]. Qed.
Ltac meqZ tac := unfold RZ, mmap, I2Z, I3Z, CZ_face, CZ_body, CZ_base, CZ_rect, C_face, C_body, C_base, cols2, cols3; mat_eq tac.
Lemma C_face_inv : mmul C_face (RZ CZ_face) = eye 3. Proof. meqZ ltac:(field). Qed.
Lemma C_body_inv : mmul C_body (RZ CZ_body) = eye 3. Proof. meqZ ltac:(field). Qed.
Lemma C_base_inv : mmul C_base (RZ CZ_base) = eye 3. Proof. meqZ ltac:(field). Qed.
Lemma C_rect_inv : mmul (mscale (/2) [[1; -1]; [1; 1]]) (RZ CZ_rect) = eye 2. Proof. meqZ ltac:(field). Qed.
Lemma I3_inv : mmul (eye 3) (RZ I3Z) = eye 3. Proof. meqZ ltac:(field). Qed.
Lemma I2_inv : mmul (eye 2) (RZ I2Z) = eye 2. Proof. meqZ ltac:(field). Qed.

Lemma cosd90 : cosd 90 = 0.
Proof. unfold cosd. replace (90 * PI / 180) with (PI / 2) by field. apply cos_PI2. Qed.
Lemma cosd60 : cosd 60 = 1 / 2.
Proof. unfold cosd. replace (60 * PI / 180) with (PI / 3) by field. apply cos_PI3. Qed.
Lemma sind_pos x : 0 < x < 180 -> 0 < sin (deg x).
Proof. intros [H1 H2]. pose proof PI_RGT_0. apply sin_gt_0; unfold deg; nra. Qed.
Lemma sc2 x : sin x * sin x + cos x * cos x = 1.
Proof. pose proof (sin2_cos2 x) as H. unfold Rsqr in H. exact H. Qed.

Lemma base3_intro a b c d e f g h i :
  a * (e * i - f * h) - b * (d * i - f * g) + c * (d * h - e * g) <> 0 -> base 3 [[a; b; c]; [d; e; f]; [g; h; i]].
Proof. intros H. split; [now right|]. split; [apply w33|]. rewrite det3. cbn. lra. Qed.
Lemma base2_intro a b c d : a * d - b * c <> 0 -> base 2 [[a; b]; [c; d]].
Proof. intros H. split; [now left|]. split; [apply w22|]. rewrite det2. cbn. lra. Qed.

(** everything about a freshly built lattice *)
Definition built (dim : Z) (id : Z) (p : list R) (ce : centring) (c : cell) (b : bravais) (C : mat Z) : Prop :=
  let n := Z.to_nat dim in
  new_bravais id p dim = Ok b /\ b_id b = id /\ b_par b = p /\ b_C b = RZ C /\ wf n n C /\
  det C = points_per_cell ce /\ base n (b_base b) /\ has_cell n (conventional_base b) c.

Lemma has_cell3 a b c al be ga (x1 y1 z1 x2 y2 z2 x3 y3 z3 : R) :
  0 < a -> 0 < b -> 0 < c ->
  x1 * x1 + y1 * y1 + z1 * z1 = a * a -> x2 * x2 + y2 * y2 + z2 * z2 = b * b -> x3 * x3 + y3 * y3 + z3 * z3 = c * c ->
  x1 * x2 + y1 * y2 + z1 * z2 = a * b * cosd ga -> x1 * x3 + y1 * y3 + z1 * z3 = a * c * cosd be ->
  x2 * x3 + y2 * y3 + z2 * z3 = b * c * cosd al ->
  has_cell 3 [[x1; x2; x3]; [y1; y2; y3]; [z1; z2; z3]] (mk_cell a b c al be ga).
Proof.
  intros. split; [apply w33|]. split.
  - intros i Hi. destruct i as [|[|[|?]]]; [..|lia]; cbn; split; try assumption; lra.
  - intros i j Hi Hj Hij. destruct i as [|[|[|?]]], j as [|[|[|?]]]; try lia; cbn; lra.
Qed.
Lemma has_cell2 a b ga (x1 y1 x2 y2 c al be : R) :
  0 < a -> 0 < b -> x1 * x1 + y1 * y1 = a * a -> x2 * x2 + y2 * y2 = b * b -> x1 * x2 + y1 * y2 = a * b * cosd ga ->
  has_cell 2 [[x1; x2]; [y1; y2]] (mk_cell a b c al be ga).
Proof.
  intros. split; [apply w22|]. split.
  - intros i Hi. destruct i as [|[|?]]; [..|lia]; cbn; split; try assumption; lra.
  - intros i j Hi Hj Hij. destruct i as [|[|?]], j as [|[|?]]; try lia; cbn; lra.
Qed.

Ltac nz := repeat (apply Rmult_integral_contrapositive_currified); lra.
(** solve [built] for explicit E, integer C, and the lemma that C inverts C0 *)
Ltac conv3 := unfold conventional_base, conventional_trans; cbn [b_base b_C];
  match goal with |- has_cell 3 (mmul ?E (RZ ?C)) _ =>
    let X := eval cbv [mmul cols3 par tr RZ mmap map CZ_face CZ_body CZ_base I3Z get mk nrows ncols sumn nth seq length add mul zero R_ops] in (mmul E (RZ C)) in
    match goal with |- has_cell _ _ ?c => change (has_cell 3 X c) end end; apply has_cell3.
Ltac conv2 := unfold conventional_base, conventional_trans; cbn [b_base b_C];
  match goal with |- has_cell 2 (mmul ?E (RZ ?C)) _ =>
    let X := eval cbv [mmul cols2 par tr RZ mmap map CZ_rect I2Z get mk nrows ncols sumn nth seq length add mul zero R_ops] in (mmul E (RZ C)) in
    match goal with |- has_cell _ _ ?c => change (has_cell 2 X c) end end; apply has_cell2.
Lemma built_intro3 id p E C0 C ce c : (1 <= id < 15)%Z -> (forall x, In x p -> 0 < x) -> length p = nth (Z.to_nat (id - 1)) pramlen3 0%nat ->
  base3D (Z.to_nat id) p = Ok (E, C0) -> base 3 E -> wf 3 3 C0 -> wf 3 3 C -> mmul C0 (RZ C) = eye 3 -> det C = points_per_cell ce ->
  has_cell 3 (mmul E (RZ C)) c -> built 3 id p ce c {| b_id := id; b_par := p; b_base := E; b_C := RZ C |} C.
Proof.
  intros. unfold built. change (Z.to_nat 3) with 3%nat. cbn [b_id b_par b_C b_base].
  repeat match goal with |- _ /\ _ => split end; try reflexivity; try assumption; try (eapply new3; eassumption); try (apply w33); match goal with H : base _ _ |- _ => try apply H end.
  all: try (unfold conventional_base, conventional_trans; cbn [b_base b_C]; match goal with H : has_cell _ _ _ |- _ => apply H end).
Qed.
Lemma built_intro2 id p E C0 C ce c : (1 <= id < 6)%Z -> (forall x, In x p -> 0 < x) -> length p = nth (Z.to_nat (id - 1)) pramlen2 0%nat ->
  base2D (Z.to_nat id) p = (E, C0) -> base 2 E -> wf 2 2 C0 -> wf 2 2 C -> mmul C0 (RZ C) = eye 2 -> det C = points_per_cell ce ->
  has_cell 2 (mmul E (RZ C)) c -> built 2 id p ce c {| b_id := id; b_par := p; b_base := E; b_C := RZ C |} C.
Proof.
  intros. unfold built. change (Z.to_nat 2) with 2%nat. cbn [b_id b_par b_C b_base].
  repeat match goal with |- _ /\ _ => split end; try reflexivity; try assumption; try (eapply new2; eassumption); try (apply w22); match goal with H : base _ _ |- _ => try apply H end.
  all: try (unfold conventional_base, conventional_trans; cbn [b_base b_C]; match goal with H : has_cell _ _ _ |- _ => apply H end).
Qed.


Lemma base3_by D a b c d e f g h i :
  a * (e * i - f * h) - b * (d * i - f * g) + c * (d * h - e * g) = D -> D <> 0 -> base 3 [[a; b; c]; [d; e; f]; [g; h; i]].
Proof. intros H1 H2. apply base3_intro. now rewrite H1. Qed.
Lemma base2_by D a b c d : a * d - b * c = D -> D <> 0 -> base 2 [[a; b]; [c; d]].
Proof. intros H1 H2. apply base2_intro. now rewrite H1. Qed.
Ltac nzp := repeat apply Rmult_integral_contrapositive_currified; solve [assumption | lra].
Ltac poly := cbn; ring_simplify; lra.
Ltac norm_base := match goal with |- base ?n ?E =>
    let X := eval cbv [cols2 cols3 par tr get mk nrows ncols nth map seq length] in E in change (base n X) end.
Ltac go3 C0 CZ L D :=
  do 2 eexists;
  eapply (built_intro3 _ _ _ C0 CZ); [lia|assumption|reflexivity|reflexivity|norm_base; eapply (base3_by D); [field; try lra; try assumption|nzp]|try apply wf_eye; apply w33|apply w33|exact L|reflexivity|conv3].
Ltac go2 C0 CZ L D :=
  do 2 eexists;
  eapply (built_intro2 _ _ _ C0 CZ); [lia|assumption|reflexivity|reflexivity|norm_base; eapply (base2_by D); [field; try lra; try assumption|nzp]|try apply wf_eye; apply w22|apply w22|exact L|reflexivity|conv2].
Ltac plist := cbn in *; repeat match goal with H : exists _, _ |- _ => destruct H end;
  repeat match goal with
  | H : context [match ?p with [] => _ | _ :: _ => _ end] |- _ => destruct p; try discriminate H
  end.
Lemma built_all dim id s ce p c : bravais_type dim id = Some (s, ce) -> admissible s p c ->
  exists b C, built dim id p ce c b C.
Proof.
  intros HT (Hc & Hpos & Hang).
  pose proof s33 as H3. assert (H3p : 0 < sqrt 3) by (apply sqrt_lt_R0; lra).
  assert (H2 : sqrt 2 * sqrt 2 = 2) by (apply sqrt_sqrt; lra). assert (H2p : 0 < sqrt 2) by (apply sqrt_lt_R0; lra).
  apply type_cases in HT. destruct HT as [[-> HT]|[-> HT]];
    repeat (destruct HT as [HT|HT]); destruct HT as (-> & -> & ->); cbn [requested] in Hc;
    repeat match type of Hc with context [match ?l with [] => _ | _ :: _ => _ end] => destruct l as [|? ?]; try discriminate Hc end;
    injection Hc as <-; pose proof Hpos as Hpos'; cbn [In] in Hpos';
    repeat match type of Hpos with forall x, In x ?l -> _ => idtac end.
  all: repeat match goal with
    | a : R, H : forall x, _ -> 0 < x |- _ =>
      lazymatch goal with K : 0 < a |- _ => fail | _ => assert (0 < a) by (apply H; cbn [In]; tauto) end end.
  all: clear Hpos'.

  - go3 (@eye R _ 3) I3Z I3_inv (r * r * r); rewrite ?cosd90; try lra; field.
  - go3 C_face CZ_face C_face_inv (/4 * (r * r * r)); rewrite ?cosd90; try lra; field.
  - go3 C_body CZ_body C_body_inv (/2 * (r * r * r)); rewrite ?cosd90; try lra; field.
  - go3 (@eye R _ 3) I3Z I3_inv (sqrt 3 / 2 * (r * r * r0)); rewrite ?cosd90, ?cosd60; try lra; nra.
  - (* trigonal *)
    unfold volume_factor in Hang. cbn [planar angle mk_cell] in Hang. change (cosd r0) with (cos (deg r0)) in Hang.
    set (c := cos (deg r0)) in *. pose proof (COS_bound (deg r0)) as [_ Hc0]. fold c in Hc0.
    assert (Hang' : 0 < (1 - c) * (1 - c) * (1 + 2 * c)) by nra.
    assert (Hc1 : c < 1) by (destruct (Req_dec c 1) as [E|]; [rewrite E in Hang'|]; lra).
    assert (Hc2 : - (1 / 2) < c) by nra.
    set (ty := sqrt ((1 - c) / 6)). set (tz := sqrt ((1 + 2 * c) / 3)).
    assert (Ty : ty * ty = (1 - c) / 6) by (apply sqrt_sqrt; lra). assert (Tz : tz * tz = (1 + 2 * c) / 3) by (apply sqrt_sqrt; lra).
    assert (Py : 0 < ty) by (apply sqrt_lt_R0; lra). assert (Pz : 0 < tz) by (apply sqrt_lt_R0; lra).
    set (u := tz - 2 * sqrt 2 * ty). set (v := tz + sqrt 2 * ty). set (k := r / sqrt 3).
    assert (Kk : k * k = r * r / 3).
    { unfold k. replace (r / sqrt 3 * (r / sqrt 3)) with (r * r * (/ (sqrt 3 * sqrt 3))) by (field; lra). rewrite H3. field. }
    assert (Kp : 0 < k) by (unfold k; apply Rdiv_lt_0_compat; lra).
    assert (U1 : u * u + v * v + v * v = 3).
    { unfold u, v. transitivity (3 * (tz * tz) + 6 * (sqrt 2 * sqrt 2) * (ty * ty)); [ring|]. rewrite H2, Ty, Tz. field. }
    assert (U2 : u * v + v * u + v * v = 3 * c).
    { unfold u, v. transitivity (3 * (tz * tz) - 3 * (sqrt 2 * sqrt 2) * (ty * ty)); [ring|]. rewrite H2, Ty, Tz. field. }
    assert (UV : u - v = - (3 * sqrt 2 * ty)) by (unfold u, v; ring). assert (UV2 : u + 2 * v = 3 * tz) by (unfold u, v; ring).
    assert (EB : base3D 5 [r; r0] = Ok (cols3 [k * u; k * v; k * v] [k * v; k * u; k * v] [k * v; k * v; k * u], eye 3)).
    { cbn [base3D par nth]. fold c. unfold np_sqrt. rewrite (proj2 (Rltb_false _ _)) by lra. rewrite (proj2 (Rltb_false _ _)) by lra. reflexivity. }
    assert (cosd r0 = c) as CC by reflexivity.
    assert (DT : (u + 2 * v) * ((u - v) * (u - v)) <> 0).
    { rewrite UV, UV2. apply Rgt_not_eq. replace (3 * tz * (- (3 * sqrt 2 * ty) * - (3 * sqrt 2 * ty))) with (27 * tz * (sqrt 2 * sqrt 2) * (ty * ty)) by ring.
      apply Rlt_gt. repeat apply Rmult_lt_0_compat; lra. }
    clearbody u v k c. clear UV UV2 Ty Tz Py Pz ty tz.
    do 2 eexists.
    eapply (built_intro3 5 _ _ (eye 3) I3Z); [lia|assumption|reflexivity|exact EB| |apply wf_eye|apply w33|exact I3_inv|reflexivity|conv3].
    + norm_base. eapply (base3_by (k * k * k * ((u + 2 * v) * ((u - v) * (u - v))))); [ring|].
      apply Rmult_integral_contrapositive_currified; [|exact DT]. apply Rgt_not_eq, Rlt_gt. repeat apply Rmult_lt_0_compat; assumption.
    + assumption.
    + assumption.
    + assumption.
    + transitivity (k * k * (u * u + v * v + v * v)); [ring|]. rewrite U1, Kk. field.
    + transitivity (k * k * (u * u + v * v + v * v)); [ring|]. rewrite U1, Kk. field.
    + transitivity (k * k * (u * u + v * v + v * v)); [ring|]. rewrite U1, Kk. field.
    + transitivity (k * k * (u * v + v * u + v * v)); [ring|]. rewrite U2, Kk, CC. field.
    + transitivity (k * k * (u * v + v * u + v * v)); [ring|]. rewrite U2, Kk, CC. field.
    + transitivity (k * k * (u * v + v * u + v * v)); [ring|]. rewrite U2, Kk, CC. field.
  - go3 (@eye R _ 3) I3Z I3_inv (r * r * r0); rewrite ?cosd90; try lra; field.
  - go3 C_body CZ_body C_body_inv (/2 * (r * r * r0)); rewrite ?cosd90; try lra; field; lra.
  - go3 (@eye R _ 3) I3Z I3_inv (r * r0 * r1); rewrite ?cosd90; try lra; field.
  - go3 C_base CZ_base C_base_inv (/2 * (r * r0 * r1)); rewrite ?cosd90; try lra; field.
  - go3 C_face CZ_face C_face_inv (/4 * (r * r0 * r1)); rewrite ?cosd90; try lra; field.
  - go3 C_body CZ_body C_body_inv (/2 * (r * r0 * r1)); rewrite ?cosd90; try lra; field.
  - unfold volume_factor in Hang. cbn [planar angle mk_cell] in Hang. rewrite cosd90 in Hang. change (cosd r2) with (cos (deg r2)) in Hang.
    pose proof (sc2 (deg r2)) as SC. assert (Sp : sin (deg r2) <> 0) by (intros E; rewrite E in SC; lra).
    assert (CC : cosd r2 = cos (deg r2)) by reflexivity.
    go3 (@eye R _ 3) I3Z I3_inv (r * r0 * r1 * sin (deg r2)); rewrite ?cosd90, ?CC; try lra; try ring.
    transitivity (r1 * r1 * (sin (deg r2) * sin (deg r2) + cos (deg r2) * cos (deg r2))); [ring|]. rewrite SC. ring.
  - unfold volume_factor in Hang. cbn [planar angle mk_cell] in Hang. rewrite cosd90 in Hang. change (cosd r2) with (cos (deg r2)) in Hang.
    pose proof (sc2 (deg r2)) as SC. assert (Sp : sin (deg r2) <> 0) by (intros E; rewrite E in SC; lra).
    assert (CC : cosd r2 = cos (deg r2)) by reflexivity.
    go3 C_base CZ_base C_base_inv (/2 * (r * r0 * r1 * sin (deg r2))); rewrite ?cosd90, ?CC; try lra; try field.
    transitivity (r1 * r1 * (sin (deg r2) * sin (deg r2) + cos (deg r2) * cos (deg r2))); [ring|]. rewrite SC. ring.
  - (* triclinic *)
    unfold volume_factor in Hang. cbn [planar angle mk_cell] in Hang. rename Hang into HD.
    pose proof (sc2 (deg r4)) as SC. unfold cosd in HD. fold (deg r2) (deg r3) (deg r4) in HD.
    assert (Sp : sin (deg r4) <> 0).
    { intros E. rewrite E in SC. assert (K : 0 <= (cos (deg r2) - cos (deg r4) * cos (deg r3)) * (cos (deg r2) - cos (deg r4) * cos (deg r3))) by apply Rle_0_sqr.
      assert (K2 : cos (deg r4) * cos (deg r4) = 1) by lra.
      replace ((cos (deg r2) - cos (deg r4) * cos (deg r3)) * (cos (deg r2) - cos (deg r4) * cos (deg r3)))
        with (cos (deg r2) * cos (deg r2) - 2 * cos (deg r2) * cos (deg r3) * cos (deg r4) + (cos (deg r4) * cos (deg r4)) * (cos (deg r3) * cos (deg r3))) in K by ring.
      rewrite K2 in K. lra. }
    assert (Ca : cosd r2 = cos (deg r2)) by reflexivity. assert (Cb : cosd r3 = cos (deg r3)) by reflexivity. assert (Cg : cosd r4 = cos (deg r4)) by reflexivity.
    cbn [requested].
    set (ca := cos (deg r2)) in *. set (cb := cos (deg r3)) in *. set (cg := cos (deg r4)) in *. set (sg := sin (deg r4)) in *.
    set (D := 1 + 2 * ca * cb * cg - ca * ca - cb * cb - cg * cg) in *. set (t := sqrt D).
    assert (Tt : t * t = D) by (apply sqrt_sqrt; lra). assert (Tp : 0 < t) by now apply sqrt_lt_R0.
    assert (EB : base3D 14 [r; r0; r1; r2; r3; r4] = Ok (cols3 [r; 0; 0] [r0 * cg; r0 * sg; 0] [r1 * cb; r1 * (ca - cb * cg) / sg; r1 * t / sg], eye 3)).
    { cbn [base3D par nth]. fold ca cb cg sg D. unfold np_div, np_sqrt. rewrite (proj2 (Reqb_false _ _)) by assumption. cbn [bind].
      rewrite (proj2 (Rltb_false _ _)) by lra. cbn [bind]. reflexivity. }
    clearbody ca cb cg sg t.
    do 2 eexists.
    eapply (built_intro3 14 _ _ (eye 3) I3Z); [lia|assumption|reflexivity|exact EB| |apply wf_eye|apply w33|exact I3_inv|reflexivity|conv3].
    + norm_base. eapply (base3_by (r * r0 * r1 * t)); [field; assumption|nzp].
    + assumption.
    + assumption.
    + assumption.
    + ring.
    + transitivity (r0 * r0 * (sg * sg + cg * cg)); [ring|]. rewrite SC. ring.
    + transitivity (r1 * r1 * (cb * cb + ((ca - cb * cg) * (ca - cb * cg) + t * t) / (sg * sg))); [field; assumption|]. rewrite Tt. unfold D.
      replace (sg * sg) with (1 - cg * cg) by lra. assert (1 - cg * cg <> 0) by (intros E; apply Sp; apply Rsqr_0_uniq; unfold Rsqr; lra). field. assumption.
    + rewrite Cg. ring.
    + rewrite Cb. ring.
    + rewrite Ca. field. assumption.
  - go2 (@eye R _ 2) I2Z I2_inv (r * r); rewrite ?cosd90; try lra; field.
  - go2 (@eye R _ 2) I2Z I2_inv (r * r0); rewrite ?cosd90; try lra; field.
  - go2 (mscale (/2) [[1; -1]; [1; 1]] : mat R) CZ_rect C_rect_inv (/2 * (r * r0)); rewrite ?cosd90; try lra; field.
  - go2 (@eye R _ 2) I2Z I2_inv (sqrt 3 / 2 * (r * r)); rewrite ?cosd90, ?cosd60; try lra; nra.
  - unfold volume_factor in Hang. cbn [planar angle mk_cell] in Hang. change (cosd r1) with (cos (deg r1)) in Hang.
    pose proof (sc2 (deg r1)) as SC. assert (Sp : sin (deg r1) <> 0) by (intros E; rewrite E in SC; lra).
    assert (CC : cosd r1 = cos (deg r1)) by reflexivity.
    go2 (@eye R _ 2) I2Z I2_inv (r * r0 * sin (deg r1)); rewrite ?cosd90, ?CC; try lra; try ring.
    transitivity (r0 * r0 * (sin (deg r1) * sin (deg r1) + cos (deg r1) * cos (deg r1))); [ring|]. rewrite SC. ring.
Qed.
