(** C65: skew returns an n-fold screw operation. *)
From Coq Require Import Nsatz.
From Verif Require Import ScrewModel LinAlg LatticeSpec RotSpec RotProofs PropRot.
Local Open Scope R_scope.

(** ** Specification *)
Fixpoint mpow (M : mat R) (k : nat) : mat R := match k with 0%nat => eye 3 | S k => mmul M (mpow M k) end.
(** M is a rotation of order n *)
Definition n_fold (n : nat) (M : mat R) : Prop :=
  rotation_matrix 3 M /\ mpow M n = eye 3 /\ forall k, (0 < k < n)%nat -> mpow M k <> eye 3.

Section S.
  Variables x y z : R.
  Hypothesis U : x * x + y * y + z * z = 1.
  Lemma rod_pow t k : mpow (rodrigues t x y z) k = rodrigues (INR k * t) x y z.
  Proof.
    induction k as [|k IH]; [cbn [mpow INR]; rewrite Rmult_0_l; symmetry; apply rod_0|].
    cbn [mpow]. rewrite IH, <- rod_add by exact U. f_equal. rewrite S_INR. ring.
  Qed.
  Lemma rod_2pi k : rodrigues (INR k * (2 * PI)) x y z = eye 3.
  Proof.
    unfold rodrigues. replace (INR k * (2 * PI)) with (0 + 2 * INR k * PI) by ring. rewrite cos_period, sin_period, cos_0, sin_0. mat_eq ltac:(ring).
  Qed.
  Lemma rod_eye t : rodrigues t x y z = eye 3 -> cos t = 1.
  Proof.
    intros H. assert (T : trace (rodrigues t x y z) = 3) by (rewrite H; cbv [trace eye mk sumn nrows length map seq get nth Nat.eqb one zero add R_ops]; ring).
    unfold rodrigues in T. cbv [trace sumn nrows length get nth add zero R_ops] in T. replace 3 with (2 + (x * x + y * y + z * z)) in T by (rewrite U; ring).
    set (c := cos t) in *. assert (2 * c + (x * x + y * y + z * z) = 2 + (x * x + y * y + z * z)); [|lra].
    rewrite <- T. replace (0 + (c + (1 - c) * x * x) + (c + (1 - c) * y * y) + (c + (1 - c) * z * z)) with (3 * c + (1 - c) * (x * x + y * y + z * z)) by ring. rewrite U. ring.
  Qed.
End S.
Lemma cos_one t : cos t = 1 -> exists k : Z, t = IZR k * (2 * PI).
Proof.
  intros H. assert (S : sin (t / 2) = 0).
  { pose proof (cos_2a_sin (t / 2)) as K. replace (2 * (t / 2)) with t in K by field. rewrite H in K. nra. }
  apply sin_eq_0_0 in S. destruct S as (k & K). exists k. lra.
Qed.
Lemma rod_order n x y z : (0 < n)%nat -> x * x + y * y + z * z = 1 -> n_fold n (rodrigues (2 * PI / INR n) x y z).
Proof.
  intros Hn U. assert (N : INR n <> 0) by (apply not_0_INR; lia). split; [split; [now apply rod_orth|now apply rod_det]|]. split.
  - rewrite rod_pow by exact U. replace (INR n * (2 * PI / INR n)) with (INR 1 * (2 * PI)) by (cbn [INR]; field; exact N). apply rod_2pi.
  - intros k Hk H. rewrite rod_pow in H by exact U. apply rod_eye in H; [|exact U]. apply cos_one in H. destruct H as (m & H).
    assert (E : INR k = IZR m * INR n).
    { apply (Rmult_eq_reg_r (2 * PI)); [|pose proof PI_RGT_0; lra]. transitivity (INR k * (2 * PI / INR n) * INR n); [field; exact N|]. rewrite H. ring. }
    rewrite !INR_IZR_INZ, <- mult_IZR in E. apply eq_IZR in E. assert (0 < m < 1)%Z by nia. lia.
Qed.

Lemma unit_T (T : vec R) : length T = 3%nat -> T <> [0; 0; 0] -> exists a b c, T = [a; b; c] /\ (a, b, c) <> (0, 0, 0).
Proof. intros L H. apply len3_inv in L. destruct L as (a & b & c & ->). exists a, b, c. split; [reflexivity|]. intros [= -> -> ->]. now apply H. Qed.

(** Missing: the directions of -e1, for which rotation fails, and Python 2. *)
Theorem C65_screw_partial : forall n p T, (1 <= n)%Z -> length T = 3%nat -> T <> [0; 0; 0] -> ~ (exists a, a < 0 /\ T = [a; 0; 0]) ->
  exists Q c p', skew true n p T = Ok (Q, c) /\ n_fold (Z.to_nat n) Q /\ mvmul Q T = T /\
    vscale (IZR n) c = vscale (IZR p') T /\ (p' mod n = p mod n)%Z /\ (0 <= p -> 0 <= p' <= n)%Z.
Proof.
  intros n p T Hn L HT H1. destruct (unit_T T L HT) as (a & b & c & -> & H0).
  assert (H1' : ~ (a < 0 /\ b = 0 /\ c = 0)) by (intros (K & -> & ->); apply H1; eauto). clear H1.
  destruct (unit_axis a b c H0) as [Np U]. set (r := sqrt (a * a + b * b + c * c)) in *.
  destruct (normalize3 a b c) as [E1 E2]; [fold r; lra|]. fold r in E1, E2.
  set (p' := if (n <? p)%Z then (p mod n)%Z else p). unfold skew. rewrite E1. cbn [bind]. destruct (Z.eqb_spec n 0); [lia|]. fold p'.
  assert (R1 : sqrt (a / r * (a / r) + b / r * (b / r) + c / r * (c / r)) = 1) by (rewrite U; apply sqrt_1).
  assert (D : forall k, k / r = 0 -> k = 0) by (intros k K; apply (Rmult_eq_reg_r (/ r)); [unfold Rdiv in K; lra|apply Rinv_neq_0_compat; lra]).
  rewrite C24_rodrigues_partial.
  - rewrite R1. cbn [in_radians bind]. assert (D1 : forall k : R, k / 1 = k) by (intros; field). rewrite !D1.
    eexists _, _, p'. split; [reflexivity|].
    assert (NF : IZR n = INR (Z.to_nat n)) by (rewrite INR_IZR_INZ, Z2Nat.id by lia; reflexivity).
    split; [rewrite NF; apply rod_order; [lia|exact U]|]. split.
    + pose proof (rod_axis (a / r) (b / r) (c / r) U (2 * PI / IZR n)) as K. set (t := 2 * PI / IZR n) in *.
      assert (V : [a; b; c] = map (Rmult r) [a / r; b / r; c / r]) by (veq ltac:(field; lra)).
      rewrite V. set (x := a / r) in *. set (y := b / r) in *. set (z := c / r) in *. clearbody x y z r. clear V.
      assert (W : mvmul (rodrigues t x y z) (map (Rmult r) [x; y; z]) = map (Rmult r) (mvmul (rodrigues t x y z) [x; y; z])) by (unfold rodrigues; veq ltac:(ring)).
      now rewrite W, K.
    + assert (N : IZR n <> 0) by (apply not_0_IZR; lia). split; [unfold vscale; veq ltac:(field; exact N)|].
      unfold p'. destruct (Z.ltb_spec n p).
      * split; [now rewrite Z.mod_mod by lia|]. pose proof (Z.mod_pos_bound p n ltac:(lia)). lia.
      * split; [reflexivity|lia].
  - intros [= Ka Kb Kc]. apply D in Ka, Kb, Kc. apply H0. congruence.
  - intros (Ka & Kb & Kc). apply D in Kb, Kc. apply H1'. split; [|now split]. apply (Rmult_lt_reg_r (/ r)); [now apply Rinv_0_lt_compat|]. unfold Rdiv in Ka. lra.
Qed.
Print Assumptions C65_screw_partial.

(** Along -e1 the result is not a number; and under Python 2 no proper fraction of the period is ever translated. *)
Theorem C65_refuted :
  (forall py3 n p a, (1 <= n)%Z -> a < 0 -> skew py3 n p [a; 0; 0] = Raise NaN) /\
  (forall n p T Q c, (0 < p < n)%Z -> length T = 3%nat -> T <> [0; 0; 0] -> skew false n p T = Ok (Q, c) ->
    ~ exists p', (p' mod n = p mod n)%Z /\ vscale (IZR n) c = vscale (IZR p') T).
Proof.
  split.
  - intros py3 n p a Hn Ha. assert (H0 : (a, 0, 0) <> (0, 0, 0)) by (intros K; injection K; lra). destruct (unit_axis a 0 0 H0) as [Np U].
    set (r := sqrt (a * a + 0 * 0 + 0 * 0)) in *. destruct (normalize3 a 0 0) as [E1 E2]; [fold r; lra|]. fold r in E1, E2.
    unfold skew. rewrite E1. cbn [bind]. destruct (Z.eqb_spec n 0); [lia|].
    replace [a / r; 0 / r; 0 / r] with [a / r; 0; 0] by (veq ltac:(field; lra)).
    rewrite C24_negative_e1_refuted; [reflexivity|]. assert (0 < - a / r) by (apply Rdiv_lt_0_compat; lra). unfold Rdiv in *. lra.
  - intros n p T Q c Hp L HT H (p' & Hp' & E). unfold skew in H. destruct (normalize T) as [t| |]; try discriminate. cbn [bind] in H.
    destruct (Z.eqb_spec n 0); [lia|]. destruct (Z.ltb_spec n p); [lia|]. destruct (rotation _ t false) as [Q0| |]; try discriminate. cbn [bind] in H. injection H as _ <-.
    rewrite (Z.div_small p n) in E by lia. rewrite (Z.mod_small p n) in Hp' by lia.
    assert (N : IZR p' <> 0) by (apply not_0_IZR; intros ->; rewrite Z.mod_0_l in Hp' by lia; lia).
    apply len3_inv in L. destruct L as (a & b & d & ->). unfold vscale in E. cbn [map] in E. injection E as Ea Eb Ed. apply HT.
    assert (a = 0) by (apply (Rmult_eq_reg_l (IZR p')); [lra|exact N]). assert (b = 0) by (apply (Rmult_eq_reg_l (IZR p')); [lra|exact N]). assert (d = 0) by (apply (Rmult_eq_reg_l (IZR p')); [lra|exact N]). now subst.
Qed.
Print Assumptions C65_refuted.
(** A four-fold screw axis along [001] *)
Example C65_case : length [0; 0; 2] = 3%nat /\ [0; 0; 2] <> [0; 0; 0] /\ ~ (exists a, a < 0 /\ [0; 0; 2] = [a; 0; 0]).
Proof. split; [reflexivity|]. split; [intros [= K]; lra|]. intros (a & _ & K). injection K. lra. Qed.
