(** C113: the sublattice sizes in double precision.  Model: FloatVol.v; [vol_factors] is the same computation on exact reals
    (HnfSearchModel.v, C54). *)
From Coq Require Import Reals Lra Lia ZArith.
From Verif Require Import HnfSearchModel HnfSearchAsync FloatDiv FloatProofs FloatVol.
From Flocq Require Import Core IEEE754.BinarySingleNaN.
Local Open Scope R_scope.

(** the ratio of volumes and the threshold as they are in the machine *)
Definition usual (r t : double) : Prop :=
  is_finite r = true /\ is_finite t = true /\ 0 <= B2R t < 1 /\ / 2 ^ 100 <= B2R r <= 2 ^ 50.
Definition within_threshold (r t : R) (n : Z) : Prop := (1 - t) * r <= IZR n <= (1 + t) * r.

Lemma bp100 : bpow radix2 (-100) = / 2 ^ 100.
Proof. change (-100)%Z with (- (100))%Z. rewrite bpow_opp. f_equal. rewrite (pow_IZR 2 100). reflexivity. Qed.
Lemma bp50 : bpow radix2 50 = 2 ^ 50.
Proof. rewrite (pow_IZR 2 50). reflexivity. Qed.
Lemma u51 : 3 * u < / 2 ^ 51.
Proof.
  unfold u. rewrite (pow_IZR 2 51). change (2 ^ Z.of_nat 51)%Z with 2251799813685248%Z. change (2 ^ 53)%Z with 9007199254740992%Z. lra.
Qed.
Lemma seq_nodup lo k : NoDup (map (fun i => (lo + Z.of_nat i)%Z) (seq 0 k)).
Proof. apply FinFun.Injective_map_NoDup; [intros a b E; lia|apply seq_NoDup]. Qed.

(** The call never fails here; every size well inside the threshold is searched, none well outside is (but for the nearest integer
    when there is no other), and none twice. *)
Theorem C113_sizes_partial : forall r t, usual r t -> exists L, vol_factors_fl r t = Ok L /\ L <> [] /\ NoDup L /\
  (forall n, (1 - B2R t) * B2R r * (1 + / 2 ^ 51) <= IZR n <= (1 + B2R t) * B2R r * (1 - / 2 ^ 51) -> In n L) /\
  (forall n, In n L -> (1 - B2R t) * B2R r * (1 - / 2 ^ 51) <= IZR n <= (1 + B2R t) * B2R r * (1 + / 2 ^ 51) \/
     (L = [n] /\ Rabs (B2R r - IZR n) <= 1 / 2)).
Proof.
  intros r t (Fr & Ft & T & Rr). rewrite <- bp100, <- bp50 in Rr. pose proof (bpow_gt_0 radix2 (-100)) as W.
  destruct (limits r t Fr Ft T Rr) as (lo & hi & E & Hlo & Hhi). pose proof u51 as U.
  set (P := (1 - B2R t) * B2R r) in *. set (Q := (1 + B2R t) * B2R r) in *.
  assert (P0 : 0 < P) by (unfold P; nra). assert (Q0 : 0 < Q) by (unfold Q; nra).
  assert (Mem : forall n, (Zceil lo <= n <= Zfloor hi)%Z <-> lo <= IZR n <= hi) by (intros n; now rewrite ceil_le, floor_ge).
  destruct (map _ _) as [|z l] eqn:M.
  - exists [rint (B2R r)]. split; [exact E|]. split; [discriminate|]. split; [repeat constructor; auto|]. split.
    + intros n Hn. exfalso. assert (K : In n []); [rewrite <- M; apply range_in, Mem; split; nra|destruct K].
    + intros n [<-|[]]. right. split; [reflexivity|apply rint_close].
  - exists (z :: l). split; [exact E|]. split; [discriminate|]. split; [rewrite <- M; apply seq_nodup|].
    split; intros n Hn; [rewrite <- M; apply range_in, Mem; split; nra|left].
    rewrite <- M in Hn. apply range_in, Mem in Hn. split; nra.
Qed.
Print Assumptions C113_sizes_partial.

(** If no integer is within one part in 2^51 of either limit, rounding changes nothing. *)
Theorem C113_exact_partial : forall r t, usual r t ->
  (forall n, / 2 ^ 51 * ((1 - B2R t) * B2R r) < Rabs (IZR n - (1 - B2R t) * B2R r) /\ / 2 ^ 51 * ((1 + B2R t) * B2R r) < Rabs (IZR n - (1 + B2R t) * B2R r)) ->
  vol_factors_fl r t = Ok (vol_factors (B2R r) (B2R t)).
Proof.
  intros r t (Fr & Ft & T & Rr) Clear. rewrite <- bp100, <- bp50 in Rr. pose proof (bpow_gt_0 radix2 (-100)) as W.
  destruct (limits r t Fr Ft T Rr) as (lo & hi & E & Hlo & Hhi). pose proof u51 as U. rewrite E. unfold vol_factors.
  set (P := (1 - B2R t) * B2R r) in *. set (Q := (1 + B2R t) * B2R r) in *.
  assert (P0 : 0 < P) by (unfold P; nra). assert (Q0 : 0 < Q) by (unfold Q; nra).
  assert (EL : Zceil lo = Rceil P).
  { rewrite <- (Zceil_is P). apply Z.le_antisymm; apply (proj2 (ceil_le _ _)).
    - apply Rnot_lt_le. intros K. destruct (Clear (Zceil P)) as [C _]. pose proof (Zceil_ub P). unfold Rabs in C. destruct Rcase_abs; nra.
    - apply Rnot_lt_le. intros K. destruct (Clear (Zceil lo)) as [C _]. pose proof (Zceil_ub lo). unfold Rabs in C. destruct Rcase_abs; nra. }
  assert (EH : Zfloor hi = Rfloor Q).
  { rewrite <- (Zfloor_is Q). apply Z.le_antisymm; apply (proj2 (floor_ge _ _)).
    - apply Rnot_lt_le. intros K. destruct (Clear (Zfloor hi)) as [_ C]. pose proof (Zfloor_lb hi). unfold Rabs in C. destruct Rcase_abs; nra.
    - apply Rnot_lt_le. intros K. destruct (Clear (Zfloor Q)) as [_ C]. pose proof (Zfloor_lb Q). unfold Rabs in C. destruct Rcase_abs; nra. }
  rewrite EL, EH. cbv zeta. f_equal. match goal with |- match ?m with _ => _ end = _ => now destruct m end.
Qed.
Print Assumptions C113_exact_partial.

(** the doubles 25 and 0.16 *)
Definition d25 : double := to_double 25.
Definition d016 : double := binary_normalize 53 1024 double_prec double_emax mode_NE 5764607523034235 (-55) false.
Lemma d25_real : B2R d25 = 25 /\ is_finite d25 = true.
Proof. apply (to_double_exact 25). cbn. lia. Qed.
Lemma d016_real : B2R d016 = 5764607523034235 / 2 ^ 55 /\ is_finite d016 = true.
Proof.
  split; [|reflexivity]. rewrite (pow_IZR 2 55). vm_compute (2 ^ Z.of_nat 55)%Z. cbv -[Rmult Rplus Rinv Rdiv IZR]. field_simplify; try lra.
Qed.
(** Not exactly the integers within the threshold: with threshold 0.16 and ratio 25 the size 29 is not searched, although it is
    within the threshold (0.16 is slightly more than 16/100 in the machine). *)
Theorem C113_refuted : exists r t, usual r t /\ B2R r = 25 /\ 16 / 100 <= B2R t <= 16 / 100 + / 2 ^ 55 /\ within_threshold (B2R r) (B2R t) 29 /\
  vol_factors_fl r t = Ok [21; 22; 23; 24; 25; 26; 27; 28]%Z.
Proof.
  exists d25, d016. destruct d25_real as [E1 E2]. destruct d016_real as [F1 F2]. unfold usual, within_threshold. rewrite E1, F1.
  rewrite (pow_IZR 2 55). vm_compute (2 ^ Z.of_nat 55)%Z.
  assert (A : / 2 ^ 100 <= 1) by (rewrite <- Rinv_1; apply Rinv_le_contravar; [lra|apply pow_R1_Rle; lra]).
  assert (B : 25 <= 2 ^ 50) by (rewrite (pow_IZR 2 50); apply IZR_le; vm_compute; discriminate).
  repeat split; try assumption; try lra; auto.
Qed.
Print Assumptions C113_refuted.
(** The first two theorems apply to the same threshold with ratio 24. *)
Example C113_case : let r := to_double 24 in usual r d016 /\
  (forall n, / 2 ^ 51 * ((1 - B2R d016) * B2R r) < Rabs (IZR n - (1 - B2R d016) * B2R r) /\ / 2 ^ 51 * ((1 + B2R d016) * B2R r) < Rabs (IZR n - (1 + B2R d016) * B2R r)) /\
  vol_factors_fl r d016 = Ok [21; 22; 23; 24; 25; 26; 27]%Z.
Proof.
  cbv zeta. destruct d016_real as [F1 F2]. destruct (to_double_exact 24 ltac:(cbn; lia)) as [E1 E2]. unfold usual. rewrite E1, F1.
  rewrite (pow_IZR 2 55). vm_compute (2 ^ Z.of_nat 55)%Z.
  assert (A : / 2 ^ 100 <= 1) by (rewrite <- Rinv_1; apply Rinv_le_contravar; [lra|apply pow_R1_Rle; lra]).
  assert (B : 24 <= 2 ^ 50) by (rewrite (pow_IZR 2 50); apply IZR_le; vm_compute; discriminate).
  assert (C : / 2 ^ 51 <= / 1000000). { apply Rinv_le_contravar; [lra|]. rewrite (pow_IZR 2 51). apply IZR_le; vm_compute; discriminate. }
  split; [repeat split; try assumption; try lra; auto|]. split; [|reflexivity].
  intros n. split.
  - destruct (Z.le_gt_cases n 20) as [H|H]; [apply IZR_le in H|assert (K : (21 <= n)%Z) by lia; apply IZR_le in K]; unfold Rabs; destruct Rcase_abs; lra.
  - destruct (Z.le_gt_cases n 27) as [H|H]; [apply IZR_le in H|assert (K : (28 <= n)%Z) by lia; apply IZR_le in K]; unfold Rabs; destruct Rcase_abs; lra.
Qed.
