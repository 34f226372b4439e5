(** Proofs about the rank-one solvers. *)
From Coq Require Import Nsatz.
From Verif Require Export RankOneSpec RotProofs MartProofs.
Local Open Scope R_scope.

Definition d3 (x y z x' y' z' : R) : R := x * x' + y * y' + z * z'.

(** A sorted, possibly non-orthogonal eigenbasis of unit vectors. *)
Record eigsys (C : mat R) (e0 e1 e2 : R) (v0 v1 v2 : vec R) : Prop := {
  es_len0 : length v0 = 3%nat; es_len1 : length v1 = 3%nat; es_len2 : length v2 = 3%nat;
  es_0 : mvmul C v0 = vscale e0 v0; es_1 : mvmul C v1 = vscale e1 v1; es_2 : mvmul C v2 = vscale e2 v2;
  es_u0 : dot v0 v0 = 1; es_u1 : dot v1 v1 = 1; es_u2 : dot v2 v2 = 1;
  es_det : det [v0; v1; v2] <> 0;
  es_le01 : e0 <= e1; es_le12 : e1 <= e2 }.

Lemma rotate_nz a b c d e f g h i (P : R -> Prop) : (forall x, P x -> P (- x)) ->
  P (det (M3 a b c d e f g h i)) -> P (det (M3 d e f a b c g h i)) /\ P (det (M3 a b c g h i d e f)) /\
  P (det (M3 d e f g h i a b c)) /\ P (det (M3 g h i a b c d e f)) /\ P (det (M3 g h i d e f a b c)).
Proof.
  intros N H. unfold M3 in *. rewrite !det3 in *.
  assert (E : forall x y, x = y \/ x = - y -> P y -> P x) by (intros x y [->| ->]; auto).
  repeat split; (eapply E; [|exact H]); ((left; ring) || (right; ring)).
Qed.

Lemma sort_eig_spec C eg : is_eig C eg -> exists e0 e1 e2 v0 v1 v2,
  sort_eig eg = ([e0; e1; e2], [v0; v1; v2]) /\ eigsys C e0 e1 e2 v0 v1 v2 /\
  Permutation (fst eg) [e0; e1; e2].
Proof.
  destruct eg as [lam V]. intros ((WC & WV & L & D & E) & U). cbn [fst snd] in *.
  apply wf3_inv in WC. destruct WC as (c1 & c2 & c3 & c4 & c5 & c6 & c7 & c8 & c9 & ->).
  apply wf3_inv in WV. destruct WV as (x0 & y0 & z0 & x1 & y1 & z1 & x2 & y2 & z2 & ->).
  apply len3_inv in L. destruct L as (l0 & l1 & l2 & ->).
  pose proof (U 0%nat ltac:(lia)) as U0. pose proof (U 1%nat ltac:(lia)) as U1.
  pose proof (U 2%nat ltac:(lia)) as U2. clear U.
  unfold col, nrows, mkv, get, dot, sumn in U0, U1, U2. cbn -[Rplus Rmult] in U0, U1, U2.
  rewrite det3 in D.
  mat_unfold. cbn [map seq length nth fst snd sumn Nat.eqb] in E.
  injection E as E1 E2 E3 E4 E5 E6 E7 E8 E9.
  assert (Z : forall x, x <> 0 -> - x <> 0) by (intros; lra).
  assert (D' : det (M3 x0 x1 x2 y0 y1 y2 z0 z1 z2) <> 0) by (unfold M3; rewrite det3; intros Q; apply D; lra).
  destruct (rotate_nz _ _ _ _ _ _ _ _ _ (fun x => x <> 0) Z D') as (D1 & D2 & D3 & D4 & D5). unfold M3 in *.
  unfold sort_eig. cbn [fst snd seq map]. unfold col, nrows, mkv, get, vget. cbn [length seq map nth].
  unfold sort_key.
  assert (S0 : mvmul [[c1; c2; c3]; [c4; c5; c6]; [c7; c8; c9]] [x0; x1; x2] = vscale l0 [x0; x1; x2])
    by (cbv [mvmul vscale mkv nrows length seq map sumn get vget nth zero add mul R_ops]; f_equal; [lra|f_equal; [lra|f_equal; lra]]).
  assert (S1 : mvmul [[c1; c2; c3]; [c4; c5; c6]; [c7; c8; c9]] [y0; y1; y2] = vscale l1 [y0; y1; y2])
    by (cbv [mvmul vscale mkv nrows length seq map sumn get vget nth zero add mul R_ops]; f_equal; [lra|f_equal; [lra|f_equal; lra]]).
  assert (S2 : mvmul [[c1; c2; c3]; [c4; c5; c6]; [c7; c8; c9]] [z0; z1; z2] = vscale l2 [z0; z1; z2])
    by (cbv [mvmul vscale mkv nrows length seq map sumn get vget nth zero add mul R_ops]; f_equal; [lra|f_equal; [lra|f_equal; lra]]).
  assert (N0 : dot [x0; x1; x2] [x0; x1; x2] = 1) by (rewrite dot3; lra).
  assert (N1 : dot [y0; y1; y2] [y0; y1; y2] = 1) by (rewrite dot3; lra).
  assert (N2 : dot [z0; z1; z2] [z0; z1; z2] = 1) by (rewrite dot3; lra).
  cbn [insert_key fst].
  destruct (Rleb l1 l2) eqn:B12; [apply Rleb_spec in B12|apply Rleb_false in B12]; cbn [insert_key fst].
  - destruct (Rleb l0 l1) eqn:B01; [apply Rleb_spec in B01|apply Rleb_false in B01]; cbn [insert_key fst].
    + do 6 eexists. split; [reflexivity|]. split; [constructor; auto; cbn [fst]; lra|]. reflexivity.
    + destruct (Rleb l0 l2) eqn:B02; [apply Rleb_spec in B02|apply Rleb_false in B02].
      * do 6 eexists. split; [reflexivity|]. split; [constructor; auto; cbn [fst]; lra|]. apply perm_swap.
      * do 6 eexists. split; [reflexivity|]. split; [constructor; auto; cbn [fst]; lra|].
        apply (Permutation_trans (perm_swap l1 l0 [l2])). apply perm_skip, perm_swap.
  - destruct (Rleb l0 l2) eqn:B02; [apply Rleb_spec in B02|apply Rleb_false in B02]; cbn [insert_key fst].
    + do 6 eexists. split; [reflexivity|]. split; [constructor; auto; cbn [fst]; lra|]. apply perm_skip, perm_swap.
    + destruct (Rleb l0 l1) eqn:B01; [apply Rleb_spec in B01|apply Rleb_false in B01].
      * do 6 eexists. split; [reflexivity|]. split; [constructor; auto; cbn [fst]; lra|].
        apply (Permutation_trans (perm_skip l0 (perm_swap l2 l1 []))). apply perm_swap.
      * do 6 eexists. split; [reflexivity|]. split; [constructor; auto; cbn [fst]; lra|].
        apply (Permutation_trans (perm_skip l0 (perm_swap l2 l1 []))).
        apply (Permutation_trans (perm_swap l2 l0 [l1])). apply perm_skip, perm_swap.
Qed.

Ltac vec_eq tac := cbv [mvmul mkv vget vscale vadd vsub dot outer madd mscale eye get mk nrows ncols length seq map sumn
   nth zero one add mul sub opp R_ops M3 Nat.eqb]; repeat (f_equal; try solve [tac]).

Lemma eig_orth C u w a b : wf 3 3 C -> tr C = C -> length u = 3%nat -> length w = 3%nat ->
  mvmul C u = vscale a u -> mvmul C w = vscale b w -> a <> b -> dot u w = 0.
Proof.
  intros WC S Lu Lw Eu Ew Ne.
  destruct (sym3 C (conj WC S)) as (c1 & c2 & c3 & c4 & c5 & c6 & ->).
  apply len3_inv in Lu. destruct Lu as (x & y & z & ->).
  apply len3_inv in Lw. destruct Lw as (x' & y' & z' & ->). rewrite dot3.
  cbv [mvmul mkv vget vscale get nrows length seq map sumn nth zero add mul R_ops M3] in Eu, Ew.
  injection Eu as A1 A2 A3. injection Ew as B1 B2 B3.
  assert (H : (a - b) * (x * x' + y * y' + z * z') = 0).
  { replace ((a - b) * (x * x' + y * y' + z * z')) with
      ((a * x) * x' + (a * y) * y' + (a * z) * z' - x * (b * x') - y * (b * y') - z * (b * z')) by ring.
    rewrite <- A1, <- A2, <- A3, <- B1, <- B2, <- B3. ring. }
  apply Rmult_integral in H. destruct H; [lra|assumption].
Qed.

Lemma by_basis M N v0 v1 v2 : wf 3 3 M -> wf 3 3 N -> length v0 = 3%nat -> length v1 = 3%nat -> length v2 = 3%nat ->
  det [v0; v1; v2] <> 0 -> mvmul M v0 = mvmul N v0 -> mvmul M v1 = mvmul N v1 -> mvmul M v2 = mvmul N v2 -> M = N.
Proof.
  intros WM WN L0 L1 L2 D E0 E1 E2.
  apply wf3_inv in WM. destruct WM as (c1 & c2 & c3 & c4 & c5 & c6 & c7 & c8 & c9 & ->).
  apply wf3_inv in WN. destruct WN as (f1 & f2 & f3 & f4 & f5 & f6 & f7 & f8 & f9 & ->).
  apply len3_inv in L0. destruct L0 as (x0 & x1 & x2 & ->).
  apply len3_inv in L1. destruct L1 as (y0 & y1 & y2 & ->).
  apply len3_inv in L2. destruct L2 as (z0 & z1 & z2 & ->).
  assert (W : wf 3 3 (tr [[x0; x1; x2]; [y0; y1; y2]; [z0; z1; z2]])) by (apply wfb_spec; reflexivity).
  apply (mmul_cancel_r 3 (tr [[x0; x1; x2]; [y0; y1; y2]; [z0; z1; z2]])); try (apply wfb_spec; reflexivity).
  - now right.
  - rewrite (det_tr 3); [exact D|now right|apply wfb_spec; reflexivity].
  - cbv [mvmul mkv vget get nrows length seq map sumn nth zero add mul R_ops] in E0, E1, E2.
    injection E0 as A1 A2 A3. injection E1 as B1 B2 B3. injection E2 as C1 C2 C3.
    mat_eq ltac:(lra).
Qed.

(** I + (p - 1) u (x) u + (q - 1) w (x) w *)
Definition spec2 (p q : R) (u w : vec R) : mat R :=
  madd (madd (eye 3) (mscale (p - 1) (outer u u))) (mscale (q - 1) (outer w w)).
Lemma wf_spec2 p q u w : wf 3 3 (spec2 p q u w).
Proof. apply wf_mk. Qed.
Lemma spec2_sym p q u w : length u = 3%nat -> length w = 3%nat -> tr (spec2 p q u w) = spec2 p q u w.
Proof.
  intros Lu Lw. apply len3_inv in Lu. destruct Lu as (x & y & z & ->).
  apply len3_inv in Lw. destruct Lw as (x' & y' & z' & ->). unfold spec2. mat_eq ltac:(ring).
Qed.
Lemma spec2_mv p q u w v : length u = 3%nat -> length w = 3%nat -> length v = 3%nat ->
  mvmul (spec2 p q u w) v = vadd (vadd v (vscale ((p - 1) * dot u v) u)) (vscale ((q - 1) * dot w v) w).
Proof.
  intros Lu Lw Lv. apply len3_inv in Lu. destruct Lu as (x & y & z & ->).
  apply len3_inv in Lw. destruct Lw as (x' & y' & z' & ->). apply len3_inv in Lv. destruct Lv as (a & b & c & ->).
  unfold spec2. vec_eq ltac:(ring).
Qed.

(** A matrix with eigenvalues p, 1, q is I + (p - 1) v0 (x) v0 + (q - 1) v2 (x) v2. *)
Lemma spectral_form M p q v0 v1 v2 : wf 3 3 M -> length v0 = 3%nat -> length v1 = 3%nat -> length v2 = 3%nat ->
  det [v0; v1; v2] <> 0 -> mvmul M v0 = vscale p v0 -> mvmul M v1 = vscale 1 v1 -> mvmul M v2 = vscale q v2 ->
  dot v0 v0 = 1 -> dot v2 v2 = 1 -> dot v0 v2 = 0 -> (p - 1) * dot v0 v1 = 0 -> (q - 1) * dot v2 v1 = 0 ->
  M = spec2 p q v0 v2.
Proof.
  intros WM L0 L1 L2 D E0 E1 E2 U0 U2 O02 O01 O12.
  assert (O20 : dot v2 v0 = 0).
  { rewrite <- O02. apply len3_inv in L0. destruct L0 as (x0 & x1 & x2 & ->).
    apply len3_inv in L2. destruct L2 as (z0 & z1 & z2 & ->). rewrite !dot3. ring. }
  apply (by_basis M _ v0 v1 v2); auto using wf_spec2; rewrite spec2_mv by assumption.
  - rewrite E0, U0, O20. apply len3_inv in L0. destruct L0 as (x0 & x1 & x2 & ->).
    apply len3_inv in L2. destruct L2 as (z0 & z1 & z2 & ->). vec_eq ltac:(ring).
  - rewrite E1, O01, O12. apply len3_inv in L0. destruct L0 as (x0 & x1 & x2 & ->).
    apply len3_inv in L1. destruct L1 as (y0 & y1 & y2 & ->).
    apply len3_inv in L2. destruct L2 as (z0 & z1 & z2 & ->). vec_eq ltac:(ring).
  - rewrite E2, O02, U2. apply len3_inv in L0. destruct L0 as (x0 & x1 & x2 & ->).
    apply len3_inv in L2. destruct L2 as (z0 & z1 & z2 & ->). vec_eq ltac:(ring).
Qed.

Lemma eigsys_orth C e0 e1 e2 v0 v1 v2 : wf 3 3 C -> tr C = C -> eigsys C e0 e1 e2 v0 v1 v2 -> e0 < e2 ->
  dot v0 v2 = 0 /\ (e0 <> e1 -> dot v0 v1 = 0) /\ (e2 <> e1 -> dot v2 v1 = 0).
Proof.
  intros WC S [] L. split; [|split]; intros; eapply eig_orth; eauto; lra.
Qed.

Lemma eigsys_form C e0 e2 v0 v1 v2 : wf 3 3 C -> tr C = C -> eigsys C e0 1 e2 v0 v1 v2 -> e0 < e2 ->
  C = spec2 e0 e2 v0 v2.
Proof.
  intros WC S E L. destruct (eigsys_orth _ _ _ _ _ _ _ WC S E L) as (O02 & O01 & O21). destruct E.
  eapply (spectral_form C _ _ v0 v1 v2); auto.
  - destruct (Req_dec e0 1) as [->|N]; [ring|rewrite O01 by auto; ring].
  - destruct (Req_dec e2 1) as [->|N]; [ring|rewrite O21 by auto; ring].
Qed.

(** products of such matrices *)
Lemma spec2_mmul p q p' q' u w : length u = 3%nat -> length w = 3%nat -> dot u u = 1 -> dot w w = 1 -> dot u w = 0 ->
  mmul (spec2 p q u w) (spec2 p' q' u w) = spec2 (p * p') (q * q') u w.
Proof.
  intros Lu Lw U W O. apply len3_inv in Lu. destruct Lu as (x & y & z & ->).
  apply len3_inv in Lw. destruct Lw as (x' & y' & z' & ->). rewrite dot3 in U, W, O.
  assert (K : forall a b c r, r = r + a * (x * x + y * y + z * z - 1) + b * (x' * x' + y' * y' + z' * z' - 1) +
    c * (x * x' + y * y' + z * z')) by (intros; rewrite U, W, O; ring).
  apply (mat_ext 3 3); [apply wf_mk|apply wf_mk|]. intros i j Hi Hj.
  rewrite (K ((p - 1) * (p' - 1) * (vget [x; y; z] i * vget [x; y; z] j))
             ((q - 1) * (q' - 1) * (vget [x'; y'; z'] i * vget [x'; y'; z'] j))
             ((p - 1) * (q' - 1) * (vget [x; y; z] i * vget [x'; y'; z'] j) +
              (q - 1) * (p' - 1) * (vget [x'; y'; z'] i * vget [x; y; z] j)) (get (spec2 _ _ _ _) i j)).
  clear K U W O. assert (HI : i = 0%nat \/ i = 1%nat \/ i = 2%nat) by lia.
  assert (HJ : j = 0%nat \/ j = 1%nat \/ j = 2%nat) by lia. clear Hi Hj.
  unfold spec2. destruct HI as [->|[->| ->]]; destruct HJ as [->|[->| ->]]; mat_unfold_goal; ring.
Qed.

(** The algebra of the solution formulas, in the basis u, w of the plane they live in. *)
Lemma rank_one_product p q B1 B2 N1 N2 u w : length u = 3%nat -> length w = 3%nat ->
  dot u u = 1 -> dot w w = 1 -> dot u w = 0 ->
  2 * N1 * B1 + (B1 * B1 + B2 * B2) * N1 * N1 = p - 1 ->
  N1 * B2 + B1 * N2 + (B1 * B1 + B2 * B2) * N1 * N2 = 0 ->
  2 * N2 * B2 + (B1 * B1 + B2 * B2) * N2 * N2 = q - 1 ->
  let b := vadd (vscale B1 u) (vscale B2 w) in
  let m := vadd (vscale N1 u) (vscale N2 w) in
  mmul (madd (eye 3) (outer m b)) (madd (eye 3) (outer b m)) = spec2 p q u w.
Proof.
  intros Lu Lw U W O I1 I2 I3. apply len3_inv in Lu. destruct Lu as (x & y & z & ->).
  apply len3_inv in Lw. destruct Lw as (x' & y' & z' & ->). rewrite dot3 in U, W, O. cbv zeta.
  assert (K : forall a b c r, r = r + a * (x * x + y * y + z * z - 1) + b * (x' * x' + y' * y' + z' * z' - 1) +
    c * (x * x' + y * y' + z * z')) by (intros; rewrite U, W, O; ring).
  apply (mat_ext 3 3); [apply wf_mk|apply wf_mk|]. intros i j Hi Hj.
  unfold spec2. rewrite <- I1, <- I3.
  set (mi := N1 * vget [x; y; z] i + N2 * vget [x'; y'; z'] i).
  set (mj := N1 * vget [x; y; z] j + N2 * vget [x'; y'; z'] j).
  rewrite (K (B1 * B1 * mi * mj) (B2 * B2 * mi * mj) (2 * B1 * B2 * mi * mj) (get (madd _ _) i j)).
  assert (I2' : forall r, r = r + (N1 * B2 + B1 * N2 + (B1 * B1 + B2 * B2) * N1 * N2) *
    (vget [x; y; z] i * vget [x'; y'; z'] j + vget [x'; y'; z'] i * vget [x; y; z] j)) by (intros r; rewrite I2; ring).
  rewrite (I2' (_ + _)). subst mi mj.
  clear K U W O I1 I2 I3 I2'. assert (HI : i = 0%nat \/ i = 1%nat \/ i = 2%nat) by lia.
  assert (HJ : j = 0%nat \/ j = 1%nat \/ j = 2%nat) by lia. clear Hi Hj.
  cbv [vadd vscale].
  destruct HI as [->|[->| ->]]; destruct HJ as [->|[->| ->]]; mat_unfold_goal; ring.
Qed.

Lemma dot_comb B1 B2 N1 N2 u w : length u = 3%nat -> length w = 3%nat ->
  dot u u = 1 -> dot w w = 1 -> dot u w = 0 ->
  dot (vadd (vscale B1 u) (vscale B2 w)) (vadd (vscale N1 u) (vscale N2 w)) = B1 * N1 + B2 * N2.
Proof.
  intros Lu Lw U W O. apply len3_inv in Lu. destruct Lu as (x & y & z & ->).
  apply len3_inv in Lw. destruct Lw as (x' & y' & z' & ->). rewrite dot3 in U, W, O.
  cbv [vadd vscale mkv vget length seq map nth]. rewrite dot3.
  transitivity (B1 * N1 * (x * x + y * y + z * z) + B2 * N2 * (x' * x' + y' * y' + z' * z') +
    (B1 * N2 + B2 * N1) * (x * x' + y * y' + z * z')); [ring|]. rewrite U, W, O. ring.
Qed.

(** scalar identities of the solution, s = sqrt l1, t = sqrt l3, q = + or - sqrt (l3 - 1) *)
Lemma coeffs s t p q c : 0 < s -> s < t -> p * p = 1 - s * s -> q * q = t * t - 1 -> c * c = t * t - s * s -> c <> 0 ->
  let B1 := (t - s) * (t * p / c) in let B2 := (t - s) * (s * q / c) in
  let N1 := - p / c in let N2 := q / c in
  N1 * N1 + N2 * N2 = 1 /\
  2 * N1 * B1 + (B1 * B1 + B2 * B2) * N1 * N1 = s * s - 1 /\
  N1 * B2 + B1 * N2 + (B1 * B1 + B2 * B2) * N1 * N2 = 0 /\
  2 * N2 * B2 + (B1 * B1 + B2 * B2) * N2 * N2 = t * t - 1 /\
  1 + (B1 * N1 + B2 * N2) = s * t.
Proof.
  intros Hs Hst Hp Hq Hc Nc. cbv zeta.
  assert (Ic : / c * / c = / (t * t - s * s)) by (rewrite <- Hc; field; assumption).
  assert (Nts : t * t - s * s <> 0) by nra.
  assert (Nps : t + s <> 0) by lra. assert (Nms : t - s <> 0) by lra.
  assert (BB : (t - s) * (t * p / c) * ((t - s) * (t * p / c)) + (t - s) * (s * q / c) * ((t - s) * (s * q / c)) =
    (t - s) * (t - s)).
  { transitivity ((t - s) * (t - s) * (t * t * (p * p) + s * s * (q * q)) * (/ c * / c)); [field; assumption|].
    rewrite Ic, Hp, Hq. field. exact Nts. }
  rewrite BB. repeat split.
  - transitivity ((p * p + q * q) * (/ c * / c)); [field; assumption|]. rewrite Ic, Hp, Hq. field. assumption.
  - transitivity (- 2 * (t - s) * t * (p * p) * (/ c * / c) + (t - s) * (t - s) * (p * p) * (/ c * / c)); [field; assumption|].
    rewrite Ic, Hp. field. assumption.
  - transitivity (p * q * (/ c * / c) * (- (t - s) * s + (t - s) * t - (t - s) * (t - s))); [field; assumption|].
    ring.
  - transitivity (2 * (t - s) * s * (q * q) * (/ c * / c) + (t - s) * (t - s) * (q * q) * (/ c * / c)); [field; assumption|].
    rewrite Ic, Hq. field. assumption.
  - transitivity (1 + (t - s) * (- t * (p * p) + s * (q * q)) * (/ c * / c)); [field; assumption|].
    rewrite Ic, Hp, Hq. field. assumption.
Qed.

Lemma vscale_comb k x y u w : length u = 3%nat -> length w = 3%nat ->
  vscale k (vadd (vscale x u) (vscale y w)) = vadd (vscale (k * x) u) (vscale (k * y) w).
Proof.
  intros Lu Lw. apply len3_inv in Lu. destruct Lu as (a & b & c & ->).
  apply len3_inv in Lw. destruct Lw as (a' & b' & c' & ->). vec_eq ltac:(ring).
Qed.
Lemma vsub_comb x y u w : length u = 3%nat -> length w = 3%nat ->
  vsub (vscale x u) (vscale y w) = vadd (vscale x u) (vscale (- y) w).
Proof.
  intros Lu Lw. apply len3_inv in Lu. destruct Lu as (a & b & c & ->).
  apply len3_inv in Lw. destruct Lw as (a' & b' & c' & ->). vec_eq ltac:(ring).
Qed.
Lemma len_comb x y u w : length u = 3%nat -> length (vadd (vscale x u) (vscale y w)) = 3%nat.
Proof. intros Lu. unfold vadd. rewrite length_mkv. unfold vscale. now rewrite map_length. Qed.

Lemma norm_comb x y u w : length u = 3%nat -> length w = 3%nat -> dot u u = 1 -> dot w w = 1 -> dot u w = 0 ->
  vnorm (vadd (vscale x u) (vscale y w)) = sqrt (x * x + y * y).
Proof. intros. unfold vnorm. now rewrite dot_comb. Qed.

Lemma map_div r v : map (fun x => x / r) v = vscale (/ r) v.
Proof. unfold vscale. apply map_ext. intros. unfold Rdiv. ring. Qed.

Lemma dot_comm u w : length u = 3%nat -> length w = 3%nat -> dot u w = dot w u.
Proof.
  intros Lu Lw. apply len3_inv in Lu. destruct Lu as (a & b & c & ->).
  apply len3_inv in Lw. destruct Lw as (a' & b' & c' & ->). rewrite !dot3. ring.
Qed.
Lemma dot_lin a x y u w : length a = 3%nat -> length u = 3%nat -> length w = 3%nat ->
  dot a (vadd (vscale x u) (vscale y w)) = x * dot a u + y * dot a w.
Proof.
  intros La Lu Lw. apply len3_inv in Lu. destruct Lu as (? & ? & ? & ->). apply len3_inv in La. destruct La as (? & ? & ? & ->).
  apply len3_inv in Lw. destruct Lw as (? & ? & ? & ->). cbv [vadd vscale mkv vget length seq map nth]. rewrite !dot3. ring.
Qed.
Lemma dot_l x y u w : length u = 3%nat -> length w = 3%nat -> dot u u = 1 -> dot u w = 0 ->
  dot u (vadd (vscale x u) (vscale y w)) = x.
Proof. intros ? ? U O. rewrite dot_lin, U, O by assumption. ring. Qed.
Lemma dot_r x y u w : length u = 3%nat -> length w = 3%nat -> dot w w = 1 -> dot u w = 0 ->
  dot w (vadd (vscale x u) (vscale y w)) = y.
Proof. intros ? ? U O. rewrite dot_lin, U, (dot_comm w u), O by assumption. ring. Qed.

(** one of the two solutions: m = k (- c1 u + q w) normalised, b = |m| (...) *)
Lemma half s t c1 q c u w : length u = 3%nat -> length w = 3%nat -> dot u u = 1 -> dot w w = 1 -> dot u w = 0 ->
  0 < s -> s < t -> c1 * c1 = 1 - s * s -> q * q = t * t - 1 -> c * c = t * t - s * s -> 0 < c ->
  let m := vscale ((t - s) / c) (vadd (vscale (- c1) u) (vscale q w)) in
  vnorm m = t - s /\ normalize m = Ok (vadd (vscale (- c1 / c) u) (vscale (q / c) w)).
Proof.
  intros Lu Lw U W O Hs Hst H1 Hq Hc Pc m. subst m. rewrite vscale_comb by assumption.
  assert (E : vnorm (vadd (vscale ((t - s) / c * - c1) u) (vscale ((t - s) / c * q) w)) = t - s).
  { rewrite norm_comb by assumption.
    replace ((t - s) / c * - c1 * ((t - s) / c * - c1) + (t - s) / c * q * ((t - s) / c * q))
      with ((t - s) * (t - s) * ((c1 * c1 + q * q) / (c * c))) by (field; lra).
    rewrite H1, Hq, Hc. replace ((1 - s * s + (t * t - 1)) / (t * t - s * s)) with 1 by (field; nra).
    rewrite Rmult_1_r. apply sqrt_square. lra. }
  split; [exact E|]. unfold normalize. rewrite E. rewrite (proj2 (Reqb_false _ _)) by lra. cbv iota. apply (f_equal (@Ok (list R))).
  rewrite map_div, vscale_comb by assumption. f_equal; f_equal; field; lra.
Qed.

Lemma bm_pairs_ok sq C e0 e2 v0 v1 v2 : (forall x, 0 <= x -> sq x = Ok (sqrt x)) ->
  wf 3 3 C -> tr C = C -> eigsys C e0 1 e2 v0 v1 v2 -> 0 < e0 -> e0 < e2 ->
  exists b1 m1 b2 m2, bm_pairs sq [e0; 1; e2] [v0; v1; v2] (sqrt (e2 - e0)) (sqrt (1 - e0)) (sqrt (e2 - 1)) =
    Ok ((b1, m1), (b2, m2)) /\
  rank_one_solution C b1 m1 /\ rank_one_solution C b2 m2 /\
  1 + dot b1 m1 = sqrt e0 * sqrt e2 /\ 1 + dot b2 m2 = sqrt e0 * sqrt e2 /\
  (e0 < 1 -> 1 < e2 -> m1 <> m2 /\ m1 <> vscale (-1) m2).
Proof.
  intros Hsq WC S E P L. pose proof (eigsys_form _ _ _ _ _ _ WC S E L) as EF.
  destruct (eigsys_orth _ _ _ _ _ _ _ WC S E L) as (O & _ & _). destruct E.
  set (s := sqrt e0). set (t := sqrt e2). set (c := sqrt (e2 - e0)). set (c1 := sqrt (1 - e0)). set (c3 := sqrt (e2 - 1)).
  assert (Hs : 0 < s) by (apply sqrt_lt_R0; exact P).
  assert (Hst : s < t) by (apply sqrt_lt_1; lra).
  assert (Ess : s * s = e0) by (apply sqrt_sqrt; lra). assert (Ett : t * t = e2) by (apply sqrt_sqrt; lra).
  assert (Ec : c * c = t * t - s * s) by (rewrite Ess, Ett; apply sqrt_sqrt; lra).
  assert (Pc : 0 < c) by (apply sqrt_lt_R0; lra).
  assert (E1 : c1 * c1 = 1 - s * s) by (rewrite Ess; apply sqrt_sqrt; lra).
  assert (E3 : c3 * c3 = t * t - 1) by (rewrite Ett; apply sqrt_sqrt; lra).
  assert (E3' : - c3 * - c3 = t * t - 1) by (rewrite <- E3; ring).
  unfold bm_pairs. cbn [nth vget]. cbv [vget]. cbn [nth]. rewrite !Hsq by lra. cbn [bind]. fold s t.
  rewrite !Rmult_1_l. rewrite !vsub_comb by assumption.
  destruct (half s t c1 c3 c v0 v2) as [V1 N1]; auto.
  destruct (half s t c1 (- c3) c v0 v2) as [V2 N2]; auto.
  cbv zeta in V1, N1, V2, N2. rewrite N1, N2, V1, V2. cbn [bind].
  do 4 eexists. split; [reflexivity|].
  destruct (coeffs s t c1 c3 c) as (K0 & K1 & K2 & K3 & K4); try lra.
  destruct (coeffs s t c1 (- c3) c) as (J0 & J1 & J2 & J3 & J4); try lra.
  cbv zeta in *. rewrite !vscale_comb by assumption.
  replace ((t - s) * - (s * c3 / c)) with ((t - s) * (s * - c3 / c)) by (field; lra).
  rewrite Ess in K1, J1. rewrite Ett in K3, J3.
  split; [|split; [|split; [|split]]].
  - split; [now apply len_comb|]. split; [now apply len_comb|]. split; [rewrite dot_comb by assumption; exact K0|].
    rewrite EF. now apply rank_one_product.
  - split; [now apply len_comb|]. split; [now apply len_comb|]. split; [rewrite dot_comb by assumption; exact J0|].
    rewrite EF. now apply rank_one_product.
  - rewrite dot_comb by assumption. exact K4.
  - rewrite dot_comb by assumption. exact J4.
  - intros A B. assert (P1 : 0 < c1) by (apply sqrt_lt_R0; lra). assert (P3 : 0 < c3) by (apply sqrt_lt_R0; lra).
    assert (Q1 : 0 < c1 / c) by (apply Rdiv_lt_0_compat; lra). assert (Q3 : 0 < c3 / c) by (apply Rdiv_lt_0_compat; lra).
    split; intros Q.
    + apply (f_equal (dot v2)) in Q. rewrite !(dot_r _ _ v0 v2) in Q by assumption.
      replace (- c3 / c) with (- (c3 / c)) in Q by (field; lra). lra.
    + apply (f_equal (dot v0)) in Q. rewrite !(dot_l _ _ v0 v2) in Q by assumption.
      replace (- c1 / c) with (- (c1 / c)) in Q by (field; lra). lra.
Qed.

Lemma det_spec2 p q u w : length u = 3%nat -> length w = 3%nat -> dot u u = 1 -> dot w w = 1 -> dot u w = 0 ->
  det (spec2 p q u w) = p * q.
Proof.
  intros Lu Lw U W O. apply len3_inv in Lu. destruct Lu as (x & y & z & ->).
  apply len3_inv in Lw. destruct Lw as (x' & y' & z' & ->). rewrite dot3 in U, W, O.
  transitivity ((1 + (p - 1) * (x * x + y * y + z * z)) * (1 + (q - 1) * (x' * x' + y' * y' + z' * z')) -
    (p - 1) * (q - 1) * ((x * x' + y * y' + z * z') * (x * x' + y * y' + z * z'))).
  2: { rewrite U, W, O. ring. }
  unfold spec2. mat_unfold_goal. ring.
Qed.

Lemma spec2_id u w : length u = 3%nat -> length w = 3%nat -> spec2 1 1 u w = eye 3.
Proof.
  intros Lu Lw. apply len3_inv in Lu. destruct Lu as (x & y & z & ->).
  apply len3_inv in Lw. destruct Lw as (x' & y' & z' & ->). unfold spec2. mat_eq ltac:(ring).
Qed.

Lemma spec2_posdef p q u w : length u = 3%nat -> length w = 3%nat -> dot u u = 1 -> dot w w = 1 -> dot u w = 0 ->
  0 < p -> p <= 1 -> 1 <= q -> positive_definite (spec2 p q u w).
Proof.
  intros Lu Lw U W O Hp H1 Hq. split; [split; [apply wf_mk|now apply spec2_sym]|].
  intros x y z N. rewrite spec2_mv by auto.
  assert (E : dot [x; y; z] (vadd (vadd [x; y; z] (vscale ((p - 1) * dot u [x; y; z]) u)) (vscale ((q - 1) * dot w [x; y; z]) w)) =
    (x * x + y * y + z * z) + (p - 1) * (dot u [x; y; z] * dot u [x; y; z]) + (q - 1) * (dot w [x; y; z] * dot w [x; y; z])).
  { apply len3_inv in Lu. destruct Lu as (u0 & u1 & u2 & ->). apply len3_inv in Lw. destruct Lw as (w0 & w1 & w2 & ->).
    cbv [vadd vscale mkv vget length seq map nth]. rewrite !dot3. ring. }
  rewrite E. clear E.
  assert (CS : dot u [x; y; z] * dot u [x; y; z] <= x * x + y * y + z * z).
  { apply len3_inv in Lu. destruct Lu as (u0 & u1 & u2 & ->). rewrite dot3 in *.
    assert (I : (x * x + y * y + z * z) * 1 - (u0 * x + u1 * y + u2 * z) * (u0 * x + u1 * y + u2 * z) =
      (u0 * y - u1 * x) * (u0 * y - u1 * x) + (u0 * z - u2 * x) * (u0 * z - u2 * x) + (u1 * z - u2 * y) * (u1 * z - u2 * y)).
    { rewrite <- U. ring. }
    pose proof (Rle_0_sqr (u0 * y - u1 * x)). pose proof (Rle_0_sqr (u0 * z - u2 * x)). pose proof (Rle_0_sqr (u1 * z - u2 * y)).
    unfold Rsqr in *. lra. }
  pose proof (Rle_0_sqr (dot u [x; y; z])) as S1. pose proof (Rle_0_sqr (dot w [x; y; z])) as S2. unfold Rsqr in *.
  assert (P : 0 < x * x + y * y + z * z).
  { apply ss_pos. intros Q. apply N. assert (x = 0) by nra. assert (y = 0) by nra. assert (z = 0) by nra. congruence. }
  set (A := dot u [x; y; z] * dot u [x; y; z]) in *. set (B := dot w [x; y; z] * dot w [x; y; z]) in *. nra.
Qed.

Lemma sort_key_in x l : In x (sort_key l) <-> In x l.
Proof.
  assert (I : forall y m, In x (insert_key y m) <-> y = x \/ In x m).
  { intros y m. induction m as [|z m IH]; cbn; [tauto|]. destruct (Rleb _ _); cbn; rewrite ?IH; tauto. }
  induction l as [|y l IH]; [reflexivity|]. cbn [sort_key]. rewrite I, IH. cbn. tauto.
Qed.

(** the decomposition of f(C): same eigenvectors *)
Lemma sorted_action lam V e0 e1 e2 v0 v1 v2 M f : length lam = 3%nat -> wf 3 3 V -> wf 3 3 M ->
  sort_eig (lam, V) = ([e0; e1; e2], [v0; v1; v2]) -> mmul M V = mmul V (diag (map f lam)) ->
  mvmul M v0 = vscale (f e0) v0 /\ mvmul M v1 = vscale (f e1) v1 /\ mvmul M v2 = vscale (f e2) v2.
Proof.
  intros L WV WM S E.
  apply wf3_inv in WM. destruct WM as (c1 & c2 & c3 & c4 & c5 & c6 & c7 & c8 & c9 & ->).
  apply wf3_inv in WV. destruct WV as (x0 & y0 & z0 & x1 & y1 & z1 & x2 & y2 & z2 & ->).
  apply len3_inv in L. destruct L as (l0 & l1 & l2 & ->). cbn [map] in E.
  cbv [mmul mk nrows ncols length seq map sumn get nth diag Nat.eqb zero add mul R_ops] in E.
  injection E as E1 E2 E3 E4 E5 E6 E7 E8 E9.
  assert (G : forall e v, In (e, v) [(l0, [x0; x1; x2]); (l1, [y0; y1; y2]); (l2, [z0; z1; z2])] ->
    mvmul [[c1; c2; c3]; [c4; c5; c6]; [c7; c8; c9]] v = vscale (f e) v).
  { intros e v H. cbn in H. destruct H as [H|[H|[H|[]]]]; injection H as <- <-; vec_eq ltac:(lra). }
  unfold sort_eig in S. cbn [fst snd seq map] in S. unfold col, nrows, mkv, get, vget in S. cbn [length seq map nth] in S.
  assert (I : forall x, In x (sort_key [(l0, [x0; x1; x2]); (l1, [y0; y1; y2]); (l2, [z0; z1; z2])]) ->
    mvmul [[c1; c2; c3]; [c4; c5; c6]; [c7; c8; c9]] (snd x) = vscale (f (fst x)) (snd x)).
  { intros [e v] H. apply -> sort_key_in in H. cbn [fst snd]. apply G. exact H. }
  destruct (sort_key _) as [|[? ?] [|[? ?] [|[? ?] [|]]]]; try discriminate S. injection S as -> -> -> -> -> ->.
  split; [|split]; eapply (I (_, _)); cbn; auto.
Qed.

Lemma tr_F b m : length b = 3%nat -> length m = 3%nat -> tr (madd (eye 3) (outer b m)) = madd (eye 3) (outer m b).
Proof.
  intros Lb Lm. apply len3_inv in Lb. destruct Lb as (a & b0 & c & ->).
  apply len3_inv in Lm. destruct Lm as (a' & b' & c' & ->). mat_eq ltac:(ring).
Qed.
Lemma det_F b m : length b = 3%nat -> length m = 3%nat -> det (madd (eye 3) (outer b m)) = 1 + dot b m.
Proof.
  intros Lb Lm. apply len3_inv in Lb. destruct Lb as (a & b0 & c & ->).
  apply len3_inv in Lm. destruct Lm as (a' & b' & c' & ->). rewrite dot3. mat_unfold_goal. ring.
Qed.

(** F = R S: the polar decomposition *)
Lemma polar C S b m : positive_definite S -> det S <> 0 -> mmul S S = C -> rank_one_solution C b m -> 1 + dot b m = det S ->
  rotation_part C (mmul (madd (eye 3) (outer b m)) (minv S)) b m.
Proof.
  intros PS DS SS (Lb & Lm & _ & EC) ED. pose proof PS as [[WS TS] _].
  assert (d : dim23 3) by now right. set (F := madd (eye 3) (outer b m)) in *.
  assert (WF : wf 3 3 F) by apply wf_mk. assert (WI : wf 3 3 (minv S)) by (apply (wf_minv 3); auto).
  assert (TF : tr F = madd (eye 3) (outer m b)) by now apply tr_F.
  assert (WR : wf 3 3 (mmul F (minv S))) by (apply (wf_mmul 3 3 3); auto).
  assert (TI : tr (minv S) = minv S) by (rewrite <- (minv_tr 3), TS by auto; reflexivity).
  assert (O : mmul (tr (mmul F (minv S))) (mmul F (minv S)) = eye 3).
  { rewrite (tr_mmul 3 3 3) by (auto; lia). rewrite TI, TF.
    rewrite (mmul_assoc 3 3 3 3) by (auto; try lia; apply wf_mk).
    rewrite <- (mmul_assoc 3 3 3 3 (madd (eye 3) (outer m b)) F) by (auto; try lia; apply wf_mk).
    fold F in EC. rewrite EC, <- SS. rewrite (mmul_assoc 3 3 3 3 S S) by (auto; lia).
    rewrite (minv_r 3), (mmul_eye_r 3 3), (minv_l 3) by (auto; lia). reflexivity. }
  split; [|split].
  - split; [exact WR|]. apply (inv_comm 3); auto. apply wf_tr'; auto; lia.
  - rewrite (det_mmul 3), (det_minv 3) by auto. unfold F. rewrite det_F, ED by auto. field. exact DS.
  - exists S. split; [exact PS|]. split; [exact SS|].
    rewrite (mmul_assoc 3 3 3 3), (minv_l 3), (mmul_eye_r 3 3) by (auto; lia). reflexivity.
Qed.

Lemma sorted_perm3 a b c a' b' c' : Permutation [a; b; c] [a'; b'; c'] -> a <= b -> b <= c -> a' <= b' -> b' <= c' ->
  a = a' /\ b = b' /\ c = c'.
Proof.
  intros P H1 H2 H3 H4.
  assert (I : forall x, In x [a; b; c] <-> In x [a'; b'; c']) by (intros; split; apply Permutation_in; [|symmetry]; exact P).
  assert (T : a + (b + (c + 0)) = a' + (b' + (c' + 0))).
  { change (fold_right Rplus 0 [a; b; c] = fold_right Rplus 0 [a'; b'; c']). clear - P.
    induction P; cbn; lra. }
  assert (X : forall x, In x [a; b; c] -> a <= x <= c) by (cbn; intros x [<-|[<-|[<-|[]]]]; lra).
  assert (Y : forall x, In x [a'; b'; c'] -> a' <= x <= c') by (cbn; intros x [<-|[<-|[<-|[]]]]; lra).
  pose proof (Y a (proj1 (I a) (or_introl eq_refl))). pose proof (X a' (proj2 (I a') (or_introl eq_refl))).
  pose proof (Y c (proj1 (I c) ltac:(cbn; auto))). pose proof (X c' (proj2 (I c') ltac:(cbn; auto))). lra.
Qed.

(** sort_eig returns the eigenvalues in order, with matching unit eigenvectors *)
Lemma sort_eig_eigenvalues C eg l1 l2 l3 : is_eig C eg -> eigenvalues C l1 l2 l3 -> exists v0 v1 v2,
  sort_eig eg = ([l1; l2; l3], [v0; v1; v2]) /\ eigsys C l1 l2 l3 v0 v1 v2 /\ Permutation (fst eg) [l1; l2; l3].
Proof.
  intros E ((H1 & H2) & V & EV). destruct (sort_eig_spec C eg E) as (e0 & e1 & e2 & v0 & v1 & v2 & S & ES & P).
  destruct E as [E _]. pose proof (eigen_perm 3 C _ _ _ _ (or_intror eq_refl) E EV) as P2.
  destruct (sorted_perm3 e0 e1 e2 l1 l2 l3) as (-> & -> & ->); auto.
  - apply (Permutation_trans (Permutation_sym P)). exact P2.
  - apply ES. - apply ES.
  - eauto 8.
Qed.

Lemma pos_def_sym_spec2 p q u w : length u = 3%nat -> length w = 3%nat -> dot u u = 1 -> dot w w = 1 -> dot u w = 0 ->
  0 < p -> 0 < q -> pos_def_sym (spec2 p q u w) = true.
Proof.
  intros Lu Lw U W O Hp Hq. unfold pos_def_sym. rewrite spec2_sym, det_spec2 by assumption.
  rewrite (proj2 (Rltb_spec 0 (p * q))) by (apply Rmult_lt_0_compat; assumption). cbn [is_3_by_3 andb].
  apply Rltb_spec. replace (fro2 3 3 _) with 0; [rewrite sqrt_0; lra|]. symmetry. unfold fro2.
  apply sumn_R0. intros i Hi. apply sumn_R0. intros j Hj. rewrite (get_msub 3 3) by (auto; apply wf_spec2).
  cbn [sub R_ops]. rewrite Rminus_diag_eq by reflexivity. ring.
Qed.

Lemma fro2_sym0 C : wf 3 3 C -> tr C = C -> fro2 3 3 (msub (tr C) C) = 0.
Proof.
  intros WC TC. rewrite TC. unfold fro2. apply sumn_R0. intros i Hi. apply sumn_R0. intros j Hj.
  rewrite (get_msub 3 3) by auto. cbn [sub R_ops]. rewrite Rminus_diag_eq by reflexivity. ring.
Qed.

Lemma sqrt_ge_small x y : 0 < y -> y * y <= x -> Rltb (sqrt x) y = false.
Proof. intros Hy H. apply Rltb_false. rewrite <- (sqrt_square y) by lra. apply sqrt_le_1_alt. exact H. Qed.

Lemma np_sqrt_ok x : 0 <= x -> np_sqrt x = Ok (sqrt x).
Proof. intros H. unfold np_sqrt. now rewrite (proj2 (Rltb_false _ _) H). Qed.
Lemma math_sqrt_ok x : 0 <= x -> math_sqrt x = Ok (sqrt x).
Proof. intros H. unfold math_sqrt. now rewrite (proj2 (Rltb_false _ _) H). Qed.

Section Solvers.
  Variable eig : mat R -> list R * mat R.
  Variables (C : mat R) (l1 l3 : R).
  Hypothesis WC : wf 3 3 C.
  Hypothesis TC : tr C = C.
  Hypothesis EV : eigenvalues C l1 1 l3.
  Hypothesis P1 : 0 < l1.
  Hypothesis L : l1 < l3.
  Hypothesis EG : is_eig C (eig C).

  Lemma setup : exists v0 v1 v2, sort_eig (eig C) = ([l1; 1; l3], [v0; v1; v2]) /\
    eigsys C l1 1 l3 v0 v1 v2 /\ dot v0 v2 = 0 /\ C = spec2 l1 l3 v0 v2 /\ pos_def_sym C = true /\
    Permutation (fst (eig C)) [l1; 1; l3].
  Proof.
    destruct (sort_eig_eigenvalues _ _ _ _ _ EG EV) as (v0 & v1 & v2 & S & ES & P).
    exists v0, v1, v2. pose proof (eigsys_form _ _ _ _ _ _ WC TC ES L) as F.
    destruct (eigsys_orth _ _ _ _ _ _ _ WC TC ES L) as (O & _).
    repeat split; auto; try apply ES. rewrite F. destruct EV as [[? ?] _], ES. apply pos_def_sym_spec2; auto; lra.
  Qed.

  Lemma le_one : l1 <= 1 /\ 1 <= l3. Proof. exact (proj1 EV). Qed.

  Lemma sst : 0 < sqrt l1 * sqrt l3.
  Proof. apply Rmult_lt_0_compat; apply sqrt_lt_R0; lra. Qed.

  Lemma solve_rank1_ok : SMALL * SMALL <= l3 - l1 -> exists b1 m1 b2 m2,
    solve_rank1 eig C = Ok (Some ((b1, m1), (b2, m2))) /\ rank_one_solution C b1 m1 /\ rank_one_solution C b2 m2 /\
    (0 < 1 + dot b1 m1 /\ 0 < 1 + dot b2 m2) /\ (l1 < 1 -> 1 < l3 -> m1 <> m2 /\ m1 <> vscale (-1) m2).
  Proof.
    intros H. destruct setup as (v0 & v1 & v2 & S & ES & O & F & PD & P). destruct le_one as [A B].
    destruct (bm_pairs_ok np_sqrt C l1 l3 v0 v1 v2 np_sqrt_ok WC TC ES P1 L) as (b1 & m1 & b2 & m2 & E & S1 & S2 & D1 & D2 & D).
    exists b1, m1, b2, m2. split; [|rewrite D1, D2; auto 8 using sst]. unfold solve_rank1. rewrite PD. cbn [negb]. rewrite S.
    cbv [vget]. cbn [nth].
    rewrite (Rabs_pos_eq (1 - l1)), (Rabs_pos_eq (l3 - 1)), !np_sqrt_ok by lra. cbn [bind].
    rewrite sqrt_ge_small by (auto; unfold SMALL; lra). unfold mat, vec in *. rewrite E. reflexivity.
  Qed.

  Lemma AM_Solver_ok : 1 / 1000000 * (1 / 1000000) <= l3 - l1 -> exists b1 m1 b2 m2,
    AM_Solver eig C = Ok (Some ((b1, m1), (b2, m2))) /\ rank_one_solution C b1 m1 /\ rank_one_solution C b2 m2 /\
    (0 < 1 + dot b1 m1 /\ 0 < 1 + dot b2 m2) /\ (l1 < 1 -> 1 < l3 -> m1 <> m2 /\ m1 <> vscale (-1) m2).
  Proof.
    intros H. destruct setup as (v0 & v1 & v2 & S & ES & O & F & PD & P). destruct le_one as [A B].
    destruct (bm_pairs_ok math_sqrt C l1 l3 v0 v1 v2 math_sqrt_ok WC TC ES P1 L) as (b1 & m1 & b2 & m2 & E & S1 & S2 & D1 & D2 & D).
    exists b1, m1, b2, m2. split; [|rewrite D1, D2; auto 8 using sst]. unfold AM_Solver. rewrite fro2_sym0, sqrt_0 by assumption.
    rewrite (proj2 (Rltb_false _ 0)) by lra. rewrite S.
    cbv [vget]. cbn [nth]. rewrite !math_sqrt_ok by lra. cbn [bind].
    rewrite sqrt_ge_small by (auto; lra). rewrite Rminus_diag_eq, Rabs_R0, (proj2 (Rltb_spec 0 _)) by (auto; lra).
    unfold mat, vec in *. rewrite E. reflexivity.
  Qed.

  Lemma mapM_np_sqrt (l : list R) : (forall x, In x l -> 0 <= x) -> mapM np_sqrt l = Ok (map sqrt l).
  Proof.
    induction l as [|x l IH]; intros H; [reflexivity|]. cbn [mapM map]. rewrite np_sqrt_ok by (apply H; cbn; auto).
    cbn [bind]. rewrite IH by (intros; apply H; cbn; auto). reflexivity.
  Qed.

  Lemma solve_am_ok : SMALL * SMALL <= l3 - l1 -> exists R1 b1 m1 R2 b2 m2,
    solve_am eig C = Ok (Some ((R1, b1, m1), (R2, b2, m2))) /\
    rank_one_solution C b1 m1 /\ rotation_part C R1 b1 m1 /\ rank_one_solution C b2 m2 /\ rotation_part C R2 b2 m2 /\
    (0 < 1 + dot b1 m1 /\ 0 < 1 + dot b2 m2) /\ (l1 < 1 -> 1 < l3 -> m1 <> m2 /\ m1 <> vscale (-1) m2).
  Proof.
    intros H. destruct setup as (v0 & v1 & v2 & S & ES & O & F & PD & P). destruct le_one as [A B].
    destruct (bm_pairs_ok math_sqrt C l1 l3 v0 v1 v2 math_sqrt_ok WC TC ES P1 L)
      as (b1 & m1 & b2 & m2 & E & S1 & S2 & D1 & D2 & D).
    unfold solve_am. rewrite PD. cbn [negb]. rewrite S. cbv [vget]. cbn [nth].
    rewrite (Rabs_pos_eq (1 - l1)), (Rabs_pos_eq (l3 - 1)), !math_sqrt_ok by lra. cbn [bind].
    rewrite sqrt_ge_small by (auto; unfold SMALL; lra). unfold mat, vec in *. rewrite E. cbn [bind].
    destruct (eig C) as [lam V] eqn:EE. destruct EG as [(_ & WV & Ll & DV & _) _]. cbn [fst snd] in *.
    rewrite mapM_np_sqrt.
    2: { intros x Hx. pose proof (Permutation_in x P Hx) as Hin. cbn in Hin. destruct Hin as [<-|[<-|[<-|[]]]]; lra. }
    cbn [bind]. rewrite (inv_Ok 3) by (auto; now right). cbn [bind].
    set (Cs := mmul (mmul V (diag (map sqrt lam))) (minv V)).
    assert (d : dim23 3) by now right.
    assert (EC : eigen 3 Cs (map sqrt lam) V) by (apply eigen_of_form; auto; now rewrite map_length).
    destruct EC as (WCs & _ & _ & _ & EqC).
    destruct (sorted_action lam V l1 1 l3 v0 v1 v2 Cs sqrt Ll WV WCs S EqC) as (A0 & A1 & A2). rewrite sqrt_1 in A1.
    destruct (eigsys_orth _ _ _ _ _ _ _ WC TC ES L) as (_ & O1 & O2).
    pose proof ES as [].
    assert (FC : Cs = spec2 (sqrt l1) (sqrt l3) v0 v2).
    { apply (spectral_form Cs _ _ v0 v1 v2); auto.
      - destruct (Req_dec l1 1) as [->|N]; [rewrite sqrt_1; ring|rewrite O1 by auto; ring].
      - destruct (Req_dec l3 1) as [->|N]; [rewrite sqrt_1; ring|rewrite O2 by auto; ring]. }
    assert (p1 : 0 < sqrt l1) by (apply sqrt_lt_R0; lra). assert (p3 : 0 < sqrt l3) by (apply sqrt_lt_R0; lra).
    assert (DC : det Cs = sqrt l1 * sqrt l3) by (rewrite FC, det_spec2; auto).
    assert (DN : det Cs <> 0) by (rewrite DC; apply Rgt_not_eq; apply Rmult_lt_0_compat; assumption).
    assert (SQ : mmul Cs Cs = C).
    { rewrite FC, spec2_mmul, !sqrt_sqrt by (auto; lra). now symmetry. }
    assert (PC : positive_definite Cs).
    { rewrite FC. apply spec2_posdef; auto.
      - rewrite <- sqrt_1. apply sqrt_le_1_alt. exact A.
      - rewrite <- sqrt_1. apply sqrt_le_1_alt. exact B. }
    rewrite (inv_Ok 3) by auto. cbn [bind].
    do 6 eexists. split; [reflexivity|]. split; [exact S1|]. split; [apply polar; auto; rewrite DC; exact D1|].
    split; [exact S2|]. split; [apply polar; auto; rewrite DC; exact D2|rewrite D1, D2; auto using sst].
  Qed.
End Solvers.
