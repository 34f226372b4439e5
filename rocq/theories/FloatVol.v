(** The sublattice sizes of marttrans/lat_cor/main_hnf.py in double precision. *)
From Coq Require Import Reals Lra Lia ZArith.
From Verif Require Import HnfSearchModel FloatDiv FloatProofs.
From Flocq Require Import Core IEEE754.BinarySingleNaN Relative.
Local Open Scope R_scope.

Definition Dplus (x y : double) : double := @Bplus 53 1024 double_prec double_emax mode_NE x y.
Definition Dminus (x y : double) : double := @Bminus 53 1024 double_prec double_emax mode_NE x y.
Definition Dmult (x y : double) : double := @Bmult 53 1024 double_prec double_emax mode_NE x y.
Definition one : double := to_double 1.

(** main_hnf.py:133-138 under Python 3, as [vol_factors] of HnfSearchModel.v, but the ratio and the threshold are doubles and the
    sums and products are rounded to nearest even.  math.ceil and math.floor give exact integers, np.round is exact. *)
Definition vol_factors_fl (r vol_th : double) : res (list Z) :=
  let* lo := int_ceil (Dmult (Dminus one vol_th) r) in
  let* hi := int_floor (Dmult (Dplus one vol_th) r) in
  let vf := map (fun k => (lo + Z.of_nat k)%Z) (seq 0 (Z.to_nat (hi + 1 - lo))) in
  Ok (match vf with [] => [rint (B2R r)] | _ => vf end).

Local Notation fexp := (SpecFloat.fexp 53 1024).
Local Notation rnd := (round radix2 fexp ZnearestE).
Definition u : R := / IZR (2 ^ 53).

Lemma u_pos : 0 < u < / 1000000.
Proof.
  unfold u. split; [apply Rinv_0_lt_compat, IZR_lt; reflexivity|]. apply Rinv_lt_contravar; [|apply IZR_lt; reflexivity].
  rewrite <- mult_IZR. apply IZR_lt. reflexivity.
Qed.
Lemma rnd_err x : bpow radix2 (-1022) <= Rabs x -> Rabs (rnd x - x) <= u * Rabs x.
Proof.
  intros H. pose proof (relative_error_N_FLT radix2 (-1074) 53 ltac:(reflexivity) (fun n => negb (Z.even n)) x H) as E.
  change (/ 2 * bpow radix2 (- (53) + 1)) with (/ 2 * / IZR 4503599627370496) in E.
  replace u with (/ 2 * / IZR 4503599627370496); [exact E|]. unfold u. change (2 ^ 53)%Z with 9007199254740992%Z. lra.
Qed.
Lemma rnd_small x : bpow radix2 (-1022) <= Rabs x -> Rabs x <= bpow radix2 100 -> Rabs (rnd x) < bpow radix2 1024.
Proof.
  intros H L. pose proof (rnd_err x H) as E. pose proof u_pos as U.
  apply Rle_lt_trans with (2 * bpow radix2 100).
  - replace (rnd x) with ((rnd x - x) + x) by ring. apply Rle_trans with (1 := Rabs_triang _ _). pose proof (Rabs_pos x). nra.
  - change 2 with (bpow radix2 1). rewrite <- bpow_plus. now apply bpow_lt.
Qed.
Lemma one_real : B2R one = 1 /\ is_finite one = true.
Proof. apply (to_double_exact 1). cbn. lia. Qed.

(** a double below one is at least 2^-53 away from it *)
Lemma gap (t : double) : is_finite t = true -> 0 <= B2R t < 1 -> u <= 1 - B2R t.
Proof.
  intros Ft [T0 T1].
  assert (G : generic_format radix2 fexp (B2R t)) by apply generic_format_B2R.
  assert (G1 : generic_format radix2 fexp 1) by exact (int_format 1 ltac:(cbn; lia)).
  assert (V : Valid_exp fexp) by (change fexp with (FLT_exp (-1074) 53); apply FLT_exp_valid; reflexivity).
  pose proof (pred_ge_gt radix2 fexp _ _ G G1 T1) as P.
  change 1 with (bpow radix2 0) in P. rewrite pred_bpow in P. cbn in P. unfold u. lra.
Qed.

Section Ranges.
  Variables (r t : double).
  Hypothesis Fr : is_finite r = true.
  Hypothesis Ft : is_finite t = true.
  Hypothesis T : 0 <= B2R t < 1.
  Hypothesis Rr : bpow radix2 (-100) <= B2R r <= bpow radix2 50.

  Lemma prod_err (s : double) (x : R) : is_finite s = true -> u / 2 <= x <= 4 -> Rabs (B2R s - x) <= u * x ->
    is_finite (Dmult s r) = true /\ x * B2R r * (1 - 3 * u) <= B2R (Dmult s r) <= x * B2R r * (1 + 3 * u).
  Proof.
    intros Fs Hx Es. pose proof u_pos as U. set (y := B2R s) in *. set (w := B2R r) in *.
    assert (W : 0 < bpow radix2 (-100)) by apply bpow_gt_0.
    assert (Ey : x * (1 - u) <= y <= x * (1 + u)) by (unfold Rabs in Es; destruct Rcase_abs; lra).
    assert (Py : u / 4 <= y) by nra. assert (Qy : y <= 8) by nra.
    assert (L : bpow radix2 (-1022) <= Rabs (y * w)).
    { rewrite Rabs_pos_eq by nra. apply Rle_trans with (bpow radix2 (-55) * bpow radix2 (-100)).
      - rewrite <- bpow_plus. apply bpow_le. cbv. discriminate.
      - assert (bpow radix2 (-55) = u / 4) by (unfold u; change (2 ^ 53)%Z with 9007199254740992%Z; change (bpow radix2 (-55)) with (/ IZR 36028797018963968); lra).
        apply Rmult_le_compat; lra. }
    assert (M : Rabs (y * w) <= bpow radix2 100).
    { rewrite Rabs_pos_eq by nra. apply Rle_trans with (bpow radix2 3 * bpow radix2 50); [assert (E8 : bpow radix2 3 = 8) by (cbn; lra); apply Rmult_le_compat; lra|].
      rewrite <- bpow_plus. apply bpow_le. cbv. discriminate. }
    pose proof (Bmult_correct 53 1024 double_prec double_emax mode_NE s r) as C. fold y w in C. cbn [round_mode] in C.
    rewrite Rlt_bool_true in C by (apply rnd_small; assumption). destruct C as (C1 & C2 & _).
    unfold Dmult. rewrite C2, Fs, Fr, C1. split; [reflexivity|].
    pose proof (rnd_err _ L) as E. rewrite (Rabs_pos_eq (y * w)) in E by nra.
    assert (Pw : 0 < w) by lra. assert (Px : 0 < x) by lra.
    assert (E' : y * w * (1 - u) <= rnd (y * w) <= y * w * (1 + u)) by (unfold Rabs in E; destruct Rcase_abs; lra).
    assert (A1 : x * w * (1 - u) <= y * w) by nra. assert (A2 : y * w <= x * w * (1 + u)) by nra.
    assert (Xw : 0 < x * w) by nra.
    split; nra.
  Qed.

  Lemma minus_err : is_finite (Dminus one t) = true /\ Rabs (B2R (Dminus one t) - (1 - B2R t)) <= u * (1 - B2R t).
  Proof.
    destruct one_real as [O1 O2]. pose proof (gap t Ft T) as G. pose proof u_pos as U.
    pose proof (Bminus_correct 53 1024 double_prec double_emax mode_NE one t O2 Ft) as C. rewrite O1 in C. cbn [round_mode] in C.
    assert (L : bpow radix2 (-1022) <= Rabs (1 - B2R t)).
    { rewrite Rabs_pos_eq by lra. apply Rle_trans with (2 := G). unfold u. change (/ IZR (2 ^ 53)) with (bpow radix2 (-53)). apply bpow_le. lia. }
    rewrite Rlt_bool_true in C. 2:{ apply rnd_small; [exact L|]. rewrite Rabs_pos_eq by lra. apply Rle_trans with (bpow radix2 0); [cbn; lra|apply bpow_le; lia]. }
    destruct C as (C1 & C2 & _). split; [exact C2|]. unfold Dminus. rewrite C1. pose proof (rnd_err _ L) as E. now rewrite (Rabs_pos_eq (1 - B2R t)) in E by lra.
  Qed.
  Lemma plus_err : is_finite (Dplus one t) = true /\ Rabs (B2R (Dplus one t) - (1 + B2R t)) <= u * (1 + B2R t).
  Proof.
    destruct one_real as [O1 O2].
    pose proof (Bplus_correct 53 1024 double_prec double_emax mode_NE one t O2 Ft) as C. rewrite O1 in C. cbn [round_mode] in C.
    assert (L : bpow radix2 (-1022) <= Rabs (1 + B2R t)).
    { rewrite Rabs_pos_eq by lra. apply Rle_trans with (bpow radix2 0); [apply bpow_le; lia|cbn; lra]. }
    rewrite Rlt_bool_true in C. 2:{ apply rnd_small; [exact L|]. rewrite Rabs_pos_eq by lra. apply Rle_trans with (bpow radix2 1); [cbn; lra|apply bpow_le; lia]. }
    destruct C as (C1 & C2 & _). split; [exact C2|]. unfold Dplus. rewrite C1. pose proof (rnd_err _ L) as E. now rewrite (Rabs_pos_eq (1 + B2R t)) in E by lra.
  Qed.

  (** the two limits, each known up to three units of rounding *)
  Lemma limits : exists lo hi : R, vol_factors_fl r t =
      Ok (match map (fun k => (Zceil lo + Z.of_nat k)%Z) (seq 0 (Z.to_nat (Zfloor hi + 1 - Zceil lo))) with
          | [] => [rint (B2R r)] | vf => vf end) /\
    (1 - B2R t) * B2R r * (1 - 3 * u) <= lo <= (1 - B2R t) * B2R r * (1 + 3 * u) /\
    (1 + B2R t) * B2R r * (1 - 3 * u) <= hi <= (1 + B2R t) * B2R r * (1 + 3 * u).
  Proof.
    pose proof u_pos as U. pose proof (gap t Ft T) as G.
    destruct minus_err as [M1 M2]. destruct plus_err as [P1 P2].
    destruct (prod_err _ (1 - B2R t) M1 ltac:(lra) M2) as [A1 A2]. destruct (prod_err _ (1 + B2R t) P1 ltac:(lra) P2) as [B1 B2].
    exists (B2R (Dmult (Dminus one t) r)), (B2R (Dmult (Dplus one t) r)). split; [|split; assumption].
    unfold vol_factors_fl. rewrite (int_ceil_real _ A1), (int_floor_real _ B1). cbn [bind].
    destruct (map _ _); reflexivity.
  Qed.
End Ranges.

Lemma Zfloor_is x : Zfloor x = Rfloor x.
Proof. symmetry. apply Rfloor_unique. split; [apply Zfloor_lb|apply Zfloor_ub]. Qed.
Lemma Zceil_is x : Zceil x = Rceil x.
Proof. unfold Zceil, Rceil. now rewrite Zfloor_is. Qed.
Lemma ceil_le x n : (Zceil x <= n)%Z <-> x <= IZR n.
Proof.
  split; intros H.
  - apply Rle_trans with (1 := Zceil_ub x). now apply IZR_le.
  - now apply Zceil_glb.
Qed.
Lemma floor_ge x n : (n <= Zfloor x)%Z <-> IZR n <= x.
Proof.
  split; intros H.
  - apply Rle_trans with (2 := Zfloor_lb x). now apply IZR_le.
  - now apply Zfloor_lub.
Qed.
Lemma range_in (lo hi n : Z) : In n (map (fun k => (lo + Z.of_nat k)%Z) (seq 0 (Z.to_nat (hi + 1 - lo)))) <-> (lo <= n <= hi)%Z.
Proof.
  rewrite in_map_iff. split.
  - intros (k & <- & Hk). apply in_seq in Hk. lia.
  - intros H. exists (Z.to_nat (n - lo)). split; [lia|]. apply in_seq. lia.
Qed.
