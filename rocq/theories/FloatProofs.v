(** Double precision division of integers up to 2^53. *)
From Coq Require Import Reals Lra Lia ZArith Psatz.
From Verif Require Import FloatDiv.
From Flocq Require Import Core IEEE754.BinarySingleNaN Relative.
Local Open Scope R_scope.

Local Notation fexp := (SpecFloat.fexp 53 1024).
Local Notation rnd := (round radix2 fexp ZnearestE).

Lemma int_floor_real x : is_finite x = true -> int_floor x = Ok (Zfloor (B2R x)).
Proof.
  destruct x as [s|s| |s m e H]; cbn; try discriminate; intros _.
  - f_equal. symmetry. exact (Zfloor_IZR 0).
  - f_equal. destruct (Z.leb_spec 0 e) as [L|L].
    + unfold F2R; cbn [Fnum Fexp]. rewrite <- (IZR_Zpower radix2 e L), <- mult_IZR, Zfloor_IZR. now destruct s.
    + unfold F2R; cbn [Fnum Fexp]. replace e with (- (- e))%Z at 2 by lia. rewrite bpow_opp, <- (IZR_Zpower radix2 (- e)) by lia.
      change (/ IZR (radix2 ^ - e)) with (/ IZR (2 ^ - e)). fold (IZR (SpecFloat.cond_Zopp s (Z.pos m)) / IZR (2 ^ - e)).
      rewrite Zfloor_div by (apply Z.pow_nonzero; lia). now destruct s.
Qed.
Lemma int_ceil_real x : is_finite x = true -> int_ceil x = Ok (Zceil (B2R x)).
Proof.
  destruct x as [s|s| |s m e H]; cbn; try discriminate; intros _.
  - f_equal. symmetry. exact (Zceil_IZR 0).
  - f_equal. unfold Zceil. destruct (Z.leb_spec 0 e) as [L|L].
    + unfold F2R; cbn [Fnum Fexp]. rewrite <- (IZR_Zpower radix2 e L), <- mult_IZR, <- opp_IZR, Zfloor_IZR. destruct s; cbn; lia.
    + unfold F2R; cbn [Fnum Fexp]. replace e with (- (- e))%Z at 2 by lia. rewrite bpow_opp, <- (IZR_Zpower radix2 (- e)) by lia.
      change (/ IZR (radix2 ^ - e)) with (/ IZR (2 ^ - e)). rewrite Ropp_mult_distr_l, <- opp_IZR.
      fold (IZR (- SpecFloat.cond_Zopp s (Z.pos m)) / IZR (2 ^ - e)).
      rewrite Zfloor_div by (apply Z.pow_nonzero; lia). now destruct s.
Qed.

Lemma int_format z : (Z.abs z <= 2 ^ 53)%Z -> generic_format radix2 fexp (IZR z).
Proof.
  intros H.
  assert (F : F2R (Float radix2 z 0) = IZR z) by (unfold F2R; cbn; ring).
  destruct (Z.eq_dec (Z.abs z) (2 ^ 53)) as [E|E].
    - destruct (Z.abs_or_opp_abs z) as [K|K]; rewrite K, E; [|rewrite opp_IZR; apply generic_format_opp]; change (2 ^ 53)%Z with (Zpower radix2 53); rewrite IZR_Zpower by lia; apply generic_format_bpow; cbn; unfold SpecFloat.fexp, SpecFloat.emin; lia.
    - rewrite <- F. apply generic_format_F2R' with (f := Float radix2 z 0); [reflexivity|]. intros NZ. cbn. unfold cexp, SpecFloat.fexp, SpecFloat.emin.
      rewrite F. assert (M : (mag radix2 (IZR z) <= 53)%Z). { apply mag_le_bpow; [now apply IZR_neq; intros ->; rewrite F in NZ|]. rewrite <- abs_IZR. change (bpow radix2 53) with (IZR (2 ^ 53)). apply IZR_lt. lia. } lia.
Qed.
Lemma to_double_exact z : (Z.abs z <= 2 ^ 53)%Z -> B2R (to_double z) = IZR z /\ is_finite (to_double z) = true.
Proof.
  intros H. pose proof (binary_normalize_correct 53 1024 double_prec double_emax mode_NE z 0 false) as C. cbv zeta in C.
  assert (F : F2R (Float radix2 z 0) = IZR z) by (unfold F2R; cbn; ring). rewrite F in C. cbn [round_mode] in C.
  pose proof (int_format z H) as G.
  rewrite round_generic in C by (apply valid_rnd_N || exact G).
  rewrite Rlt_bool_true in C. { split; apply C. }
  rewrite <- abs_IZR. apply Rle_lt_trans with (IZR (2 ^ 53)); [now apply IZR_le|]. change (IZR (2 ^ 53)) with (bpow radix2 53). now apply bpow_lt.
Qed.

(** rounding a quotient does not reach or cross an integer it is not equal to *)
Lemma round_quotient a b : (Z.abs a <= 2 ^ 53)%Z -> (0 < Z.abs b <= 2 ^ 53)%Z ->
  forall n : Z, (IZR a / IZR b <= IZR n -> rnd (IZR a / IZR b) <= IZR n) /\ (IZR a / IZR b < IZR n -> rnd (IZR a / IZR b) < IZR n) /\
                (IZR n <= IZR a / IZR b -> IZR n <= rnd (IZR a / IZR b)) /\ (IZR n < IZR a / IZR b -> IZR n < rnd (IZR a / IZR b)).
Proof.
  intros Ha Hb.
  set (x := IZR a / IZR b).
  assert (Bn : IZR b <> 0) by (apply IZR_neq; lia).
  assert (RE : Rabs (rnd x - x) * (IZR (2 ^ 53) + 1) <= Rabs x).
  { destruct (Z.eq_dec a 0) as [->|Na].
    { unfold x, Rdiv. rewrite Rmult_0_l, round_0 by apply valid_rnd_N. rewrite Rminus_0_r, Rabs_R0. lra. }
    assert (E : rnd x = round radix2 (FLX_exp 53) ZnearestE x).
    { change fexp with (FLT_exp (-1074) 53). apply round_FLT_FLX. change (-1074 + 53 - 1)%Z with (-1022)%Z.
      apply Rle_trans with (bpow radix2 (-53)); [apply bpow_le; lia|]. unfold x, Rdiv. rewrite Rabs_mult, Rabs_inv, <- !abs_IZR.
      change (bpow radix2 (-53)) with (/ IZR (2 ^ 53)). change (bpow radix2 53) with (IZR (2 ^ 53)).
      assert (1 <= IZR (Z.abs a)) by (apply IZR_le; lia). assert (0 < IZR (Z.abs b)) by (apply IZR_lt; lia).
      assert (IZR (Z.abs b) <= IZR (2 ^ 53)) by (apply IZR_le; lia).
      assert (/ IZR (2 ^ 53) <= / IZR (Z.abs b)) by (apply Rinv_le_contravar; lra).
      assert (0 < / IZR (Z.abs b)) by (apply Rinv_0_lt_compat; lra). nra. }
    rewrite E. pose proof (relative_error_N_FLX' radix2 53 ltac:(reflexivity) (fun n => negb (Z.even n)) x) as R. change (Znearest (fun n => negb (Z.even n))) with ZnearestE in R.
    assert (U : u_ro radix2 53 = / IZR (2 ^ 53)). { unfold u_ro. change (bpow radix2 (- (53) + 1)) with (/ IZR 4503599627370496). change (2 ^ 53)%Z with 9007199254740992%Z. lra. }
    rewrite U in R. set (P := IZR (2 ^ 53)) in *. assert (PP : 0 < P) by (apply IZR_lt; lia).
    replace (/ P / (1 + / P)) with (/ (P + 1)) in R by (field; lra).
    apply Rmult_le_compat_r with (r := P + 1) in R; [|lra]. replace (/ (P + 1) * Rabs x * (P + 1)) with (Rabs x) in R by (field; lra). exact R. }
  assert (GI : forall n, Rabs (IZR n - x) * (IZR (2 ^ 53) + 1) <= Rabs x -> IZR n = x).
  { intros n Hn. set (P := IZR (2 ^ 53)) in *. assert (PP : 0 < P) by (apply IZR_lt; lia).
    assert (BP : 0 < Rabs (IZR b)) by now apply Rabs_pos_lt.
    assert (K : Rabs (IZR n * IZR b - IZR a) * (P + 1) <= P).
    { replace (IZR n * IZR b - IZR a) with ((IZR n - x) * IZR b) by (unfold x; field; exact Bn). rewrite Rabs_mult.
      apply Rle_trans with (Rabs x * Rabs (IZR b)). { apply Rmult_le_compat_r with (r := Rabs (IZR b)) in Hn; [|lra]. lra. }
      rewrite <- Rabs_mult. replace (x * IZR b) with (IZR a) by (unfold x; field; exact Bn). rewrite <- abs_IZR. now apply IZR_le. }
    rewrite <- mult_IZR, <- minus_IZR, <- abs_IZR in K.
    destruct (Z.eq_dec (Z.abs (n * b - a)) 0) as [Z0|NZ0].
    - assert (a = n * b)%Z by lia. subst a. unfold x. rewrite mult_IZR. field. exact Bn.
    - assert (1 <= IZR (Z.abs (n * b - a))) by (apply IZR_le; lia). nra. }
  set (P := IZR (2 ^ 53)) in *. assert (PP : 0 < P) by (apply IZR_lt; lia).
  assert (BT : forall n, (x < IZR n -> rnd x < IZR n) /\ (IZR n < x -> IZR n < rnd x)).
  { intros n. split; intros L; apply Rnot_le_lt; intros K; assert (E : IZR n = x); try lra; apply GI; apply Rle_trans with (2 := RE);
      apply Rmult_le_compat_r; try lra; unfold Rabs; repeat destruct Rcase_abs; lra. }
  assert (EQ : forall n, x = IZR n -> rnd x = IZR n).
  { intros n E. rewrite E. apply round_generic; [apply valid_rnd_N|]. apply int_format.
    assert (a = n * b)%Z by (apply eq_IZR; rewrite mult_IZR, <- E; unfold x; field; exact Bn). subst a. rewrite Z.abs_mul in Ha. nia. }
  intros n. destruct (BT n) as [B1 B2]. repeat split; auto; intros L.
  - destruct (Rle_lt_or_eq_dec _ _ L) as [L1|L1]; [left; auto|right; auto].
  - destruct (Rle_lt_or_eq_dec _ _ L) as [L1|L1]; [left; auto|right; symmetry; auto].
Qed.

Lemma true_divide_real a b : (Z.abs a <= 2 ^ 53)%Z -> (0 < Z.abs b <= 2 ^ 53)%Z ->
  is_finite (true_divide a b) = true /\ B2R (true_divide a b) = rnd (IZR a / IZR b).
Proof.
  intros Ha Hb. destruct (to_double_exact a Ha) as [A1 A2]. destruct (to_double_exact b ltac:(lia)) as [B1 B2].
  pose proof (Bdiv_correct 53 1024 double_prec double_emax mode_NE (to_double a) (to_double b)) as C. rewrite A1, B1 in C. specialize (C ltac:(apply IZR_neq; lia)).
  cbn [round_mode] in C. rewrite Rlt_bool_true in C. { destruct C as (C1 & C2 & _). unfold true_divide. rewrite C2. auto. }
  assert (BB : 1 <= IZR (Z.abs b)) by (apply IZR_le; lia). assert (AA : IZR (Z.abs a) <= IZR (2 ^ 53)) by (apply IZR_le; lia).
  assert (Q : Rabs (IZR a / IZR b) <= IZR (2 ^ 53)).
  { unfold Rdiv. rewrite Rabs_mult, Rabs_inv, <- !abs_IZR. assert (0 < / IZR (Z.abs b)) by (apply Rinv_0_lt_compat; lra).
    assert (/ IZR (Z.abs b) <= 1) by (rewrite <- Rinv_1; apply Rinv_le_contravar; lra). assert (0 <= IZR (Z.abs a)) by (apply IZR_le; lia). nra. }
  destruct (round_quotient a b Ha Hb (2 ^ 53)) as (Q1 & _ & _ & _). destruct (round_quotient a b Ha Hb (- 2 ^ 53)) as (_ & _ & Q2 & _).
  assert (IZR (2 ^ 53) < bpow radix2 1024) by (change (IZR (2 ^ 53)) with (bpow radix2 53); now apply bpow_lt).
  rewrite (opp_IZR (2 ^ 53)) in Q2. apply Rabs_def1; unfold Rabs in Q; destruct Rcase_abs; lra.
Qed.

Lemma floor_double a b : (Z.abs a <= 2 ^ 53)%Z -> (0 < Z.abs b <= 2 ^ 53)%Z -> fdiv py3_double a b = Ok (a / b)%Z.
Proof.
  intros Ha Hb. destruct (true_divide_real a b Ha Hb) as [T1 T2]. cbn. rewrite int_floor_real, T2 by exact T1. f_equal.
  rewrite <- Zfloor_div by lia. apply Zfloor_imp.
  destruct (round_quotient a b Ha Hb (Zfloor (IZR a / IZR b))) as (_ & _ & Q & _). destruct (round_quotient a b Ha Hb (Zfloor (IZR a / IZR b) + 1)) as (_ & Q2 & _).
  split; [apply Q, Zfloor_lb|apply Q2]. rewrite plus_IZR. apply Zfloor_ub.
Qed.
Lemma ceil_double a b : (Z.abs a <= 2 ^ 53)%Z -> (0 < Z.abs b <= 2 ^ 53)%Z -> cdiv py3_double a b = Ok (- (- a / b))%Z.
Proof.
  intros Ha Hb. destruct (true_divide_real a b Ha Hb) as [T1 T2]. cbn. rewrite int_ceil_real, T2 by exact T1. f_equal.
  rewrite <- Zfloor_div by lia. replace (IZR (- a) / IZR b) with (- (IZR a / IZR b)) by (rewrite opp_IZR; field; apply IZR_neq; lia). fold (Zceil (IZR a / IZR b)). apply Zceil_imp.
  destruct (round_quotient a b Ha Hb (Zceil (IZR a / IZR b))) as (Q & _). destruct (round_quotient a b Ha Hb (Zceil (IZR a / IZR b) - 1)) as (_ & _ & _ & Q2).
  split; [apply Q2|apply Q, Zceil_ub]. rewrite minus_IZR. pose proof (Zceil_lb (IZR a / IZR b)). lra.
Qed.
