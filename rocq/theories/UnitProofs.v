From Coq Require Import FunctionalExtensionality.
From Verif Require Import HnfModel HnfSpec ReduceModel LatticeModel LatticeSpec LatticeProofs BravaisModel BravaisProofs GroupModel GroupProofs Eig PropBase.
From Verif Require Import LatCorTree LatCorModel LatCorSpec LatCorProofs LatCorTotal UnitSpec LLLSim.
Local Open Scope R_scope.

(** * The base of a Bravais lattice *)
Definition scale_EC (c : R) (EC : mat R * mat R) := (mscale c (fst EC), snd EC).
Ltac pl L := repeat match type of L with length ?p = S _ => destruct p as [|?x p]; [discriminate L|]; cbn [length] in L; injection L as L | length ?p = 0%nat => destruct p; [clear L|discriminate L] end.
Ltac fin t := split; [unfold rmap, scale_EC; cbv beta iota delta [fst snd]; apply (f_equal Ok), (f_equal2 pair); [unfold BravaisModel.cols3, par; cbn [nth]; mat_eq t|reflexivity]|intros ? ? H; injection H as <- <-; now apply wfb_spec].

Lemma np_div_scale c x y : np_div (c * x) y = rmap (Rmult c) (np_div x y).
Proof. unfold np_div. destruct (Reqb y 0); cbn [rmap]; [reflexivity|]. f_equal. unfold Rdiv. ring. Qed.
Lemma base3D_scale c id p : 0 < c -> (1 <= id < 15)%Z -> length p = nth (Z.to_nat (id - 1)) pramlen3 0%nat -> (forall x, In x p -> 0 < x) ->
  base3D (Z.to_nat id) (in_unit 3 c id p) = rmap (scale_EC c) (base3D (Z.to_nat id) p) /\ (forall E C, base3D (Z.to_nat id) p = Ok (E, C) -> wf 3 3 E).
Proof.
  intros Hc Hid L P. assert (D : (id = 1 \/ id = 2 \/ id = 3 \/ id = 4 \/ id = 5 \/ id = 6 \/ id = 7 \/ id = 8 \/ id = 9 \/ id = 10 \/ id = 11 \/ id = 12 \/ id = 13 \/ id = 14)%Z) by lia.
  clear Hid. decompose [or] D; clear D; subst id;
  (match type of L with _ = ?k => let k' := eval vm_compute in k in change k with k' in L end);
  pl L; unfold in_unit; cbn [number_of_lengths Z.eqb Pos.eqb firstn skipn map app];
  (match goal with |- context [base3D ?k] => let k' := eval vm_compute in k in change k with k' end);
  cbn [base3D par nth].
  - fin ltac:(ring).
  - fin ltac:(ring).
  - fin ltac:(ring).
  - fin ltac:(ring).
  - unfold par. cbn [nth]. destruct (np_sqrt ((1 - cos (deg x0)) / 6)) as [ty| |]; cbn [bind]; [|split; [reflexivity|discriminate]|split; [reflexivity|discriminate]].
    destruct (np_sqrt _) as [tz| |]; cbn [bind]; [|split; [reflexivity|discriminate]|split; [reflexivity|discriminate]].
    fin ltac:(unfold Rdiv; ring).
  - fin ltac:(ring).
  - unfold par; cbn [nth]. assert (X : 0 < x) by (apply P; now left). fin ltac:(field; lra).
  - fin ltac:(ring).
  - unfold par; cbn [nth]. fin ltac:(field).
  - unfold par; cbn [nth]. fin ltac:(field).
  - unfold par; cbn [nth]. fin ltac:(field).
  - unfold par; cbn [nth]. fin ltac:(ring).
  - unfold par; cbn [nth]. fin ltac:(field).
  - unfold par; cbn [nth]. rewrite (Rmult_assoc c). rewrite np_div_scale. destruct (np_div (_ * (_ - _)) _) as [y| |]; cbn [bind rmap]; [|split; [reflexivity|discriminate]|split; [reflexivity|discriminate]].
    destruct (np_sqrt _) as [r| |]; cbn [bind rmap]; [|split; [reflexivity|discriminate]|split; [reflexivity|discriminate]].
    rewrite (Rmult_assoc c), np_div_scale. destruct (np_div _ _) as [z| |]; cbn [bind rmap]; [|split; [reflexivity|discriminate]|split; [reflexivity|discriminate]].
    fin ltac:(ring).
Qed.

Lemma base2D_scale c id p : (1 <= id < 6)%Z -> length p = nth (Z.to_nat (id - 1)) pramlen2 0%nat ->
  base2D (Z.to_nat id) (in_unit 2 c id p) = scale_EC c (base2D (Z.to_nat id) p) /\ wf 2 2 (fst (base2D (Z.to_nat id) p)).
Proof.
  intros Hid L. assert (D : (id = 1 \/ id = 2 \/ id = 3 \/ id = 4 \/ id = 5)%Z) by lia.
  clear Hid. decompose [or] D; clear D; subst id;
  (match type of L with _ = ?k => let k' := eval vm_compute in k in change k with k' in L end);
  pl L; unfold in_unit; cbn [number_of_lengths Z.eqb Pos.eqb firstn skipn map app];
  (match goal with |- context [base2D ?k] => let k' := eval vm_compute in k in change k with k' end);
  cbn [base2D par nth]; (split; [unfold scale_EC; cbv beta iota delta [fst snd]; apply (f_equal2 pair); [unfold BravaisModel.cols2, par; cbn [nth]; mat_eq ltac:(ring)|reflexivity]|now apply wfb_spec]).
Qed.

Lemma existsb_unit dim c id p : 0 < c -> existsb (fun x => Rleb x 0) (in_unit dim c id p) = existsb (fun x => Rleb x 0) p.
Proof.
  intros Hc. unfold in_unit. rewrite <- (firstn_skipn (number_of_lengths dim id) p) at 3. rewrite !existsb_app. f_equal.
  induction (firstn (number_of_lengths dim id) p) as [|x l IH]; [reflexivity|]. cbn [map existsb]. rewrite IH. f_equal.
  destruct (Rleb x 0) eqn:X; [apply Rleb_spec in X; apply Rleb_spec; nra|]. apply Rleb_false in X. apply Rleb_false. nra.
Qed.
Lemma len_unit dim c id p : length (in_unit dim c id p) = length p.
Proof. unfold in_unit. rewrite app_length, map_length, <- app_length. now rewrite firstn_skipn. Qed.
Lemma wf_square n (E : mat R) : (0 < n)%nat -> wf n n E -> is_square E = true.
Proof. intros Hn W. unfold is_square. assert (length E = n) as -> by apply W. apply andb_true_intro. split; [now apply Nat.ltb_lt|now apply wfb_spec]. Qed.
Lemma new_lattice_scale n c E : 0 < c -> dim23 n -> wf n n E -> new_lattice (mscale c E) = rmap (mscale c) (new_lattice E) /\ (forall E', new_lattice E = Ok E' -> E' = E /\ base n E).
Proof.
  intros Hc d W. assert (Hn : (0 < n)%nat) by (destruct d; lia). assert (WC : wf n n (mscale c E)) by (now apply wf_mscale). unfold new_lattice. rewrite !(wf_square n) by assumption.
  rewrite (det_mscale n) by auto. assert (P : 0 < c ^ n) by (apply pow_lt; lra). split.
  - replace (Rleb (c ^ n * det E * (c ^ n * det E)) 0) with (Rleb (det E * det E) 0); [now destruct (Rleb _ _)|].
    assert (0 < c ^ n * c ^ n) by nra.
    destruct (Rleb (det E * det E) 0) eqn:X; [apply Rleb_spec in X; symmetry; apply Rleb_spec; nra|]. apply Rleb_false in X. symmetry. apply Rleb_false. nra.
  - intros E'. destruct (Rleb _ 0) eqn:X; [discriminate|]. intros H. injection H as <-. split; [reflexivity|]. split; [exact d|]. split; [exact W|].
    intros D. apply Rleb_false in X. rewrite D in X. lra.
Qed.
Definition scale_b (dim : Z) (c : R) (b : bravais) : bravais :=
  {| b_id := b_id b; b_par := in_unit dim c (b_id b) (b_par b); b_base := mscale c (b_base b); b_C := b_C b |}.
Ltac dead := split; [reflexivity|discriminate].
Lemma new_bravais_scale dim c id p : 0 < c -> new_bravais id (in_unit dim c id p) dim = rmap (scale_b dim c) (new_bravais id p dim) /\
  (forall b, new_bravais id p dim = Ok b -> base (Z.to_nat dim) (b_base b)).
Proof.
  intros Hc. unfold new_bravais. rewrite existsb_unit, len_unit by exact Hc. destruct (existsb _ p) eqn:X; [dead|].
  assert (P : forall x, In x p -> 0 < x).
  { intros x Hx. destruct (Rle_lt_dec x 0) as [N|N]; [|exact N]. exfalso. assert (Y : existsb (fun x => Rleb x 0) p = true); [|rewrite Y in X; discriminate X].
    apply existsb_exists. exists x. split; [exact Hx|]. now apply Rleb_spec. }
  destruct (dim =? 3)%Z eqn:D3; [|destruct (dim =? 2)%Z eqn:D2; [|dead]].
  - apply Z.eqb_eq in D3. subst dim. change (Z.to_nat 3) with 3%nat.
    destruct ((1 <=? id)%Z && (id <? 15)%Z)%bool eqn:I; [|dead].
    destruct (length p =? nth (Z.to_nat (id - 1)) pramlen3 0)%nat eqn:L; [|dead].
    apply Nat.eqb_eq in L. apply andb_prop in I. destruct I as (I1 & I2). apply Z.leb_le in I1. apply Z.ltb_lt in I2.
    destruct (base3D_scale c id p Hc (conj I1 I2) L P) as (E & W). rewrite E. destruct (base3D (Z.to_nat id) p) as [[E0 C0]| |]; cbn [rmap bind]; [|dead|dead].
    specialize (W E0 C0 eq_refl). unfold scale_EC. cbn [fst snd]. destruct (inv C0) as [C1| |]; cbn [bind rmap]; [|dead|dead].
    destruct (new_lattice_scale 3 c E0 Hc (or_intror eq_refl) W) as (N & B). rewrite N. destruct (new_lattice E0) as [E1| |]; cbn [bind rmap]; [|dead|dead].
    destruct (B E1 eq_refl) as (-> & BE). split; [reflexivity|]. intros b H. injection H as <-. exact BE.
  - apply Z.eqb_eq in D2. subst dim. change (Z.to_nat 2) with 2%nat.
    destruct ((1 <=? id)%Z && (id <? 6)%Z)%bool eqn:I; [|dead].
    destruct (length p =? nth (Z.to_nat (id - 1)) pramlen2 0)%nat eqn:L; [|dead].
    apply Nat.eqb_eq in L. apply andb_prop in I. destruct I as (I1 & I2). apply Z.leb_le in I1. apply Z.ltb_lt in I2.
    destruct (base2D_scale c id p (conj I1 I2) L) as (E & W). rewrite E. destruct (base2D (Z.to_nat id) p) as [E0 C0]. unfold scale_EC. cbn [fst snd] in W |- *.
    destruct (inv C0) as [C1| |]; cbn [bind rmap]; [|dead|dead].
    destruct (new_lattice_scale 2 c E0 Hc (or_introl eq_refl) W) as (N & B). rewrite N. destruct (new_lattice E0) as [E1| |]; cbn [bind rmap]; [|dead|dead].
    destruct (B E1 eq_refl) as (-> & BE). split; [reflexivity|]. intros b H. injection H as <-. exact BE.
Qed.

(** * Inverses and products *)
Lemma wfe n : wf n n (@eye R _ n). Proof. apply wf_eye. Qed.
Lemma wfs n (c : R) (E : mat R) : (0 < n)%nat -> wf n n E -> wf n n (mscale c E). Proof. apply wf_mscale. Qed.
Lemma scale_eye n (c : R) (E : mat R) : (0 < n)%nat -> wf n n E -> mscale c E = mmul (mscale c (eye n)) E.
Proof. intros Hn W. rewrite (mmul_mscale_l n), (mmul_eye_l n n) by (auto using wfe). reflexivity. Qed.
Lemma minv_scale n c E : c <> 0 -> dim23 n -> wf n n E -> det E <> 0 -> minv (mscale c E) = mscale (/ c) (minv E).
Proof.
  intros Hc d W D. assert (Hn : (0 < n)%nat) by (destruct d; lia). pose proof (wfe n) as We. rewrite (scale_eye n c E Hn W).
  assert (DE : det (mscale c (eye n)) <> 0) by (rewrite (det_mscale n), (det_eye n) by auto; rewrite Rmult_1_r; now apply pow_nonzero).
  rewrite (minv_mmul n) by (auto using wfs). pose proof (wf_minv n E d W) as WI.
  replace (minv (mscale c (eye n))) with (mscale (/ c) (eye n)).
  - rewrite (mmul_mscale_r n), (mmul_eye_r n n) by auto. reflexivity.
  - clear - Hc d. destruct d as [-> | ->]; unfold minv; mat_unfold_goal; repeat (apply (f_equal2 cons); [|try reflexivity]); try (field; exact Hc).
Qed.
Lemma inv_scale n c E : c <> 0 -> dim23 n -> wf n n E -> inv (mscale c E) = rmap (mscale (/ c)) (inv E).
Proof.
  intros Hc d W. unfold inv. rewrite (det_mscale n) by auto. destruct (Reqb (det E) 0) eqn:D.
  - apply Reqb_spec in D. rewrite D, Rmult_0_r, (proj2 (Reqb_spec 0 0) eq_refl). reflexivity.
  - apply Reqb_false in D. rewrite (proj2 (Reqb_false _ _)); [|apply Rmult_integral_contrapositive_currified; [now apply pow_nonzero|exact D]]. cbn [rmap]. f_equal.
    now apply (minv_scale n).
Qed.
Lemma eye_sim c : similarity 3 (c * c) (mscale c (eye 3)) \/ c = 0.
Proof.
  destruct (Req_dec c 0) as [H|H]; [now right|]. left. split; [now apply wfb_spec|]. split; [nra|]. mat_eq ltac:(ring).
Qed.

(** * The distances *)
Lemma mscale_inv n c (A : mat R) : c <> 0 -> (0 < n)%nat -> wf n n A -> mscale c (mscale (/ c) A) = A.
Proof.
  intros Hc Hn W. apply (mat_ext n n); [now repeat apply wf_mscale|exact W|]. intros i j Hi Hj.
  rewrite !(get_mscale n n) by (auto using wfs). cbn [mul R_ops]. field. exact Hc.
Qed.
Lemma ratio_scale n c (A L B : mat R) : c <> 0 -> (0 < n)%nat -> wf n n A -> wf n n L -> wf n n B -> mmul (mmul (mscale c A) L) (mscale (/ c) B) = mmul (mmul A L) B.
Proof.
  intros Hc Hn WA WL WB. assert (WAL : wf n n (mmul A L)) by (now apply (wf_mmul n n n)).
  rewrite (mmul_mscale_l n), (mmul_mscale_l n), (mmul_mscale_r n) by (auto using wfs). apply (mscale_inv n); auto. now apply (wf_mmul n n n).
Qed.
Lemma len3 (E : mat R) : wf 3 3 E -> length E = 3%nat. Proof. intros W. apply W. Qed.
Lemma len_scale c (E : mat R) : wf 3 3 E -> length (mscale c E) = 3%nat. Proof. intros W. apply (wf_mscale 3 3 c E); [lia|exact W]. Qed.
Lemma Eric_scale c x E1 E2 : 0 < c -> wf 3 3 E1 -> wf 3 3 E2 -> Eric_dist x (mscale c E1) (mscale c E2) = Eric_dist x E1 E2.
Proof.
  intros Hc W1 W2. unfold Eric_dist. rewrite (len3 E1), len_scale by assumption. set (L := reshape 3 x). assert (WL : wf 3 3 L) by apply wf_reshape.
  assert (T : forall E : mat R, wf 3 3 E -> mmul (tr (mscale c E)) (mscale c E) = mscale (c * c) (mmul (tr E) E)).
  { intros E W. destruct (wf3_inv E W) as (a1&a2&a3&a4&a5&a6&a7&a8&a9&->). mat_eq ltac:(ring). }
  rewrite !T by assumption. set (g1 := mmul (tr E1) E1). set (g2 := mmul (tr E2) E2). assert (G1 : wf 3 3 g1) by (apply wf3m; auto using wf3t). assert (G2 : wf 3 3 g2) by (apply wf3m; auto using wf3t).
  clearbody g1 g2 L. set (M := msub (mmul (tr L) (mmul g1 L)) g2).
  assert (Q : forall A : mat R, wf 3 3 A -> trace (mmul (tr (mscale (c * c) A)) (mscale (c * c) A)) = c ^ 4 * trace (mmul (tr A) A)).
  { intros A W. destruct (wf3_inv A W) as (a1&a2&a3&a4&a5&a6&a7&a8&a9&->). mat_unfold_goal. ring. }
  replace (msub (mmul (tr L) (mmul (mscale (c * c) g1) L)) (mscale (c * c) g2)) with (mscale (c * c) M).
  - assert (WM : wf 3 3 M). { unfold M. destruct (wf3_inv _ (wf3m _ _ (wf3t L WL) (wf3m _ _ G1 WL))) as (a1&a2&a3&a4&a5&a6&a7&a8&a9&->).
      destruct (wf3_inv _ G2) as (b1&b2&b3&b4&b5&b6&b7&b8&b9&->). now apply wfb_spec. }
    rewrite !Q by assumption. assert (P : 0 < c ^ 4) by (apply pow_lt; exact Hc).
    destruct (Reqb (trace (mmul (tr g2) g2)) 0) eqn:Z.
    + apply Reqb_spec in Z. rewrite Z, Rmult_0_r. now rewrite (proj2 (Reqb_spec 0 0) eq_refl).
    + apply Reqb_false in Z. rewrite (proj2 (Reqb_false _ _)); [f_equal; field; lra|]. apply Rmult_integral_contrapositive_currified; [lra|exact Z].
  - unfold M. rewrite (mmul_mscale_l 3), (mmul_mscale_r 3) by (first [lia | assumption | apply wf3m; assumption | apply wf3t; assumption]).
    destruct (wf3_inv _ (wf3m _ _ (wf3t L WL) (wf3m _ _ G1 WL))) as (a1&a2&a3&a4&a5&a6&a7&a8&a9&->).
    destruct (wf3_inv _ G2) as (b1&b2&b3&b4&b5&b6&b7&b8&b9&->). mat_eq ltac:(ring).
Qed.
Lemma distance_scale eigvals name c E1 E2 : 0 < c -> wf 3 3 E1 -> wf 3 3 E2 ->
  distance_fn eigvals name (mscale c E1) (mscale c E2) = distance_fn eigvals name E1 E2.
Proof.
  intros Hc W1 W2. assert (C0 : c <> 0) by lra. assert (R : forall x E, wf 3 3 E -> mmul (mmul (mscale c E1) (reshape 3 x)) (mscale (/ c) E) = mmul (mmul E1 (reshape 3 x)) E).
  { intros x E W. apply (ratio_scale 3); auto. apply wf_reshape. }
  assert (WI : forall E, inv E2 = Ok E -> wf 3 3 E).
  { intros E H. unfold inv in H. destruct (Reqb (det E2) 0); [discriminate|]. injection H as <-. apply wf_minv; [now right|exact W2]. }
  destruct name; cbn [distance_fn]; [| | |reflexivity].
  - rewrite (inv_scale 3) by (auto; now right). destruct (inv E2) as [Ei| |]; cbn [rmap bind]; [|reflexivity|reflexivity]. do 2 f_equal. apply functional_extensionality. intros x.
    unfold Cauchy_dist. rewrite (len3 E1), len_scale by assumption. now rewrite R by auto.
  - rewrite (len3 E1), len_scale, Eric_scale by assumption. destruct (Eric_dist _ E1 E2); cbn [bind]; [|reflexivity|reflexivity]. do 2 f_equal. apply functional_extensionality. intros x.
    now rewrite Eric_scale by assumption.
  - rewrite (inv_scale 3) by (auto; now right). destruct (inv E2) as [Ei| |]; cbn [rmap bind]; [|reflexivity|reflexivity]. do 2 f_equal. apply functional_extensionality. intros x.
    unfold strain_Cinv. rewrite (len3 E1), len_scale by assumption. now rewrite R by auto.
Qed.

(** * One sublattice *)
Lemma start_scale c E : 0 < c -> base 3 E -> start_point (mscale c E) = start_point E.
Proof.
  intros Hc B. rewrite (scale_eye 3) by (try apply B; lia). destruct (eye_sim c) as [(W & K & S)|Z]; [|lra]. now apply (start_T 3 _ (c * c) (or_intror eq_refl) W K S).
Qed.
Lemma lat_opt_scale eigvals o k f c E1 E2 : 0 < c -> base 3 E1 -> base 3 E2 -> lat_opt eigvals o k f (mscale c E1) (mscale c E2) = lat_opt eigvals o k f E1 E2.
Proof.
  intros Hc B1 B2. pose proof B1 as (_ & W1 & _). pose proof B2 as (_ & W2 & _). assert (C0 : c <> 0) by lra.
  unfold lat_opt. rewrite (start_scale c E1 Hc B1), (distance_scale _ _ c E1 E2 Hc W1 W2), (len3 E1), len_scale by assumption.
  assert (N : forall E, base 3 E -> (let* L := new_lattice (mscale c E) in special_lattice_group L) = (let* L := new_lattice E in special_lattice_group L)).
  { intros E B. pose proof B as (_ & W & _). destruct (new_lattice_scale 3 c E Hc (or_intror eq_refl) W) as (H & U). rewrite H. destruct (new_lattice E) as [E'| |]; cbn [rmap bind]; [|reflexivity|reflexivity].
    destruct (U E' eq_refl) as (-> & _). apply (C98_scale 3 E c B C0). }
  rewrite (N E2 B2). destruct (start_point E1) as [lo| |]; cbn [bind]; [|reflexivity|reflexivity]. destruct (distance_fn _ _ E1 E2) as [dd| |]; cbn [bind]; [|reflexivity|reflexivity].
  specialize (N E1 B1). destruct (new_lattice_scale 3 c E1 Hc (or_intror eq_refl) W1) as (H & U). rewrite H in N |- *. destruct (new_lattice E1) as [E'| |]; cbn [rmap bind] in N |- *; [|reflexivity|reflexivity].
  now rewrite N.
Qed.
Lemma lat_opt_zero eigvals o k f c E1 E2 E2' : wf 3 3 E1 -> det E1 = 0 -> mscale c E1 = E1 -> lat_opt eigvals o k f (mscale c E1) E2' = lat_opt eigvals o k f E1 E2.
Proof.
  intros W D Z. rewrite Z. unfold lat_opt. destruct (start_point E1) as [lo| |] eqn:S; cbn [bind]; [|reflexivity|reflexivity].
  destruct (start_ok E1 lo W S) as ((_ & _ & N) & _). contradiction.
Qed.
Lemma lat_opt_SL eigvals o k f E1 E2 r : wf 3 3 E1 -> lat_opt eigvals o k f E1 E2 = Ok r -> Forall (fun ld => wf 3 3 (fst ld)) r.
Proof.
  intros W1 H. unfold lat_opt in H. cbv zeta in H. apply bindOk in H. destruct H as (lo & Hlo & H).
  destruct (start_ok E1 lo W1 Hlo) as [B1 [Wlo Dlo]].
  apply bindOk in H. destruct H as (d & Hdf & H). apply bindOk in H. destruct H as (L1 & _ & H).
  apply bindOk in H. destruct H as (LG1 & _ & H). apply bindOk in H. destruct H as (SOLG2 & _ & H).
  destruct d as [d|]; [|discriminate]. rewrite (len3 E1 W1) in H.
  destruct (lat_opt_sound d LG1 SOLG2 _ _ _ lo Wlo _ _ _ H) as [_ HF]. eapply Forall_impl; [|exact HF].
  intros [l dl] [(P & [WP DP] & El) Ed]. cbn [fst snd] in *. rewrite El. apply (wf_mmul 3 3 3); auto; lia.
Qed.

(** * The report *)
Lemma report_scale n eig c EA EM CA CM l HL : 0 < c -> dim23 n -> wf n n EA -> wf n n EM -> wf n n HL ->
  report (mscale c EA) (mscale c EM) CA CM eig l HL = report EA EM CA CM eig l HL.
Proof.
  intros Hc d WA WM WHL. assert (Hn : (0 < n)%nat) by (destruct d; lia). assert (C0 : c <> 0) by lra. unfold report.
  assert (WX : wf n n (mmul EA HL)) by (now apply (wf_mmul n n n)).
  rewrite (mmul_mscale_l n) by auto. rewrite (inv_scale n) by auto. destruct (inv CA) as [CAi| |]; cbn [bind]; [|reflexivity|reflexivity].
  destruct (inv (mmul EA HL)) as [Hi| |] eqn:I; cbn [bind rmap]; [|reflexivity|reflexivity].
  assert (WI : wf n n Hi). { unfold inv in I. destruct (Reqb _ 0); [discriminate|]. injection I as <-. now apply wf_minv. }
  assert (F : mmul (mscale c EM) (mscale (/ c) Hi) = mmul EM Hi).
  { rewrite (mmul_mscale_l n), (mmul_mscale_r n) by (auto using wfs). apply (mscale_inv n); auto. now apply (wf_mmul n n n). }
  now rewrite F.
Qed.

(** * The whole run *)
Lemma search_ext run run' LG_A LG_M nsol : forall hs st, (forall h, In h hs -> run h = run' h) -> search run LG_A LG_M nsol hs st = search run' LG_A LG_M nsol hs st.
Proof.
  induction hs as [|h hs IH]; intros st H; cbn [search]; [reflexivity|]. rewrite (H h (or_introl eq_refl)). destruct (run' h) as [r| |]; cbn [bind]; [|reflexivity|reflexivity].
  apply IH. intros; apply H; now right.
Qed.
Lemma mapM_ext {A B} (f g : A -> res B) l : (forall x, In x l -> f x = g x) -> mapM f l = mapM g l.
Proof. induction l as [|x l IH]; intros H; cbn [mapM]; [reflexivity|]. rewrite (H x (or_introl eq_refl)), IH; [reflexivity|]. intros; apply H; now right. Qed.

Lemma lat_cor_scale D eig q k f c idA pA idM pM : 0 < c -> q_dim q = 3%Z ->
  lat_cor D eig q k f idA (in_unit 3 c idA pA) idM (in_unit 3 c idM pM) = lat_cor D eig q k f idA pA idM pM.
Proof.
  intros Hc Q3. unfold lat_cor. rewrite Q3. assert (C0 : c <> 0) by lra.
  destruct (new_bravais_scale 3 c idA pA Hc) as (SA & BA). destruct (new_bravais_scale 3 c idM pM Hc) as (SM & BM). rewrite SA, SM.
  destruct (new_bravais idA pA 3) as [A| |]; cbn [rmap bind]; [|reflexivity|reflexivity]. destruct (new_bravais idM pM 3) as [M| |]; cbn [rmap bind]; [|reflexivity|reflexivity].
  specialize (BA A eq_refl). specialize (BM M eq_refl). change (Z.to_nat 3) with 3%nat in BA, BM |- *. unfold conventional_trans, scale_b. cbn [b_base b_C].
  set (EA := b_base A) in *. set (EM := b_base M) in *. pose proof BA as (_ & WA & DA). pose proof BM as (_ & WM & DM).
  destruct (C98_scale 3 EA c BA C0) as (_ & _ & _ & GA). rewrite GA. destruct (special_lattice_group EA) as [LG_A| |]; cbn [bind]; [|reflexivity|reflexivity].
  destruct (new_lattice_scale 3 c EM Hc (or_intror eq_refl) WM) as (N & U). rewrite N. destruct (new_lattice EM) as [E'| |]; cbn [bind rmap]; [|reflexivity|reflexivity].
  destruct (U E' eq_refl) as (-> & _). clear U N. destruct (C98_scale 3 EM c BM C0) as (_ & _ & _ & GM). rewrite GM. destruct (special_lattice_group EM) as [LG_M| |]; cbn [bind]; [|reflexivity|reflexivity].
  rewrite !(det_mscale 3) by (auto; now right).
  assert (R : np_div (c ^ 3 * det EM) (c ^ 3 * det EA) = np_div (det EM) (det EA)).
  { assert (P : 0 < c ^ 3) by (now apply pow_lt). unfold np_div. rewrite !(proj2 (Reqb_false _ _)) by (auto; apply Rmult_integral_contrapositive_currified; lra). f_equal. field. split; [exact DA|lra]. }
  rewrite R. destruct (np_div (det EM) (det EA)) as [r| |]; cbn [bind]; [|reflexivity|reflexivity]. change (Z.to_nat 3) with 3%nat.
  destruct (all_hnfs _ 3) as [hs| |] eqn:Hhs; cbn [bind]; [|reflexivity|reflexivity]. destruct (reduce_hnfs D hs LG_A 3) as [rs| |] eqn:Hrs; cbn [bind]; [|reflexivity|reflexivity].
  set (o := {| o_nsol := q_nsol q; o_dist := q_dist q; o_maxiter := q_maxiter q; o_miniter := q_miniter q; o_SOLG2 := Some LG_M |}).
  assert (Hh : forall h, In h rs -> wf 3 3 h /\ (is_hnf 3 h \/ h = mk 3 3 (fun _ _ => 0%Z))).
  { intros h Hin. unfold reduce_hnfs in Hrs. cbn in Hrs. destruct (reduce_loop_incl _ _ _ _ _ Hrs h Hin) as [[]|Hh'].
    destruct (all_hnfs_In _ _ _ Hhs Hh') as (kk & Hk & [[_ ->]|[Hhnf _]]); [split; [apply wf_mk|now right]|split; [apply Hhnf|now left]]. }
  rewrite (search_ext _ (fun h => lat_opt (fun C => fst (eig C)) o k f (mmul EA (RZ h)) EM)).
  - destruct (search _ LG_A LG_M (q_nsol q) rs ([], [])) as [st| |] eqn:Hst; cbn [bind]; [|reflexivity|reflexivity].
    apply mapM_ext. intros s Hs. set (P := fun s : hsol => wf 3 3 (hh s) /\ wf 3 3 (hl s)).
    assert (HP : okm P st).
    { refine (search_sound LG_A LG_M (q_nsol q) P _ rs ([], []) st _ _ Hst); [|split; constructor]. intros h r0 Hin Hr0. destruct (Hh h Hin) as (Wh & _).
      assert (W1 : wf 3 3 (mmul EA (RZ h))) by (apply wf3m; auto using wf_RZ). pose proof (lat_opt_SL _ _ _ _ _ _ _ W1 Hr0) as F. eapply Forall_impl; [|exact F].
      intros [l d] Wl. now split. }
    destruct HP as [_ F]. rewrite Forall_forall in F. destruct (F s Hs) as (Wh & Wl). unfold report_hnf. rewrite (mmul_eye_r 3 3) by (auto; lia). rewrite (report_scale 3); auto; [now right|]. apply wf3m; now apply wf_RZ.
  - intros h Hin. destruct (Hh h Hin) as (Wh & [Hhnf|Z]); rewrite (mmul_mscale_l 3) by (auto using wf_RZ; lia).
    + apply lat_opt_scale; auto. now apply base_sub.
    + assert (E0 : mmul EA (RZ h) = mk 3 3 (fun _ _ => 0)). { rewrite Z. destruct (wf3_inv _ WA) as (a1&a2&a3&a4&a5&a6&a7&a8&a9&->). unfold RZ, mmap. mat_eq ltac:(cbn; ring). }
      rewrite E0. apply lat_opt_zero; [apply wf_mk|mat_unfold_goal; ring|mat_eq ltac:(ring)].
Qed.
