(** Proofs for C04-C07: hnfd. *)
From Verif Require Import HnfModel HnfSpec HnfEnum.
From Coq Require Import QArith Qcanon Qround.
Local Open Scope Z_scope.

(** ** Right equivalence *)
Definition requiv (n : nat) (M M' : mat Z) : Prop :=
  wf n n M /\ exists W V, wf n n W /\ wf n n V /\ mmul W V = eye n /\ mmul V W = eye n /\ M' = mmul M W.

Lemma requiv_wf n M M' : (0 < n)%nat -> requiv n M M' -> wf n n M'.
Proof. intros Hn [HM [W [V [HW [HV [_ [_ ->]]]]]]]. now apply (wf_mmul n n n). Qed.

Lemma requiv_refl n M : (0 < n)%nat -> wf n n M -> requiv n M M.
Proof.
  intros Hn HM. split; [assumption|]. exists (eye n), (eye n).
  rewrite !(mmul_eye_r n n) by auto using wf_eye. auto 10 using wf_eye.
Qed.

Lemma requiv_trans n M1 M2 M3 : (0 < n)%nat -> requiv n M1 M2 -> requiv n M2 M3 -> requiv n M1 M3.
Proof.
  intros Hn [H1 [W [V [HW [HV [E1 [E2 E3]]]]]]] [H2 [W' [V' [HW' [HV' [F1 [F2 F3]]]]]]].
  split; [assumption|]. exists (mmul W W'), (mmul V' V).
  
  split; [now apply (wf_mmul n n n)|]. split; [now apply (wf_mmul n n n)|]. split; [|split].
  - rewrite (mmul_assoc n n n n) by auto using (wf_mmul n n n).
    rewrite <- (mmul_assoc n n n n W') by auto. rewrite F1, (mmul_eye_l n n) by auto. assumption.
  - rewrite (mmul_assoc n n n n) by auto using (wf_mmul n n n).
    rewrite <- (mmul_assoc n n n n V) by auto. rewrite E2, (mmul_eye_l n n) by auto. assumption.
  - subst. now rewrite (mmul_assoc n n n n) by auto.
Qed.

Lemma requiv_sym n M1 M2 : (0 < n)%nat -> requiv n M1 M2 -> requiv n M2 M1.
Proof.
  intros Hn H. pose proof (requiv_wf _ _ _ Hn H) as Hw.
  destruct H as [H1 [W [V [HW [HV [E1 [E2 E3]]]]]]]. split; [assumption|].
  exists V, W. split; [assumption|]. split; [assumption|]. split; [assumption|]. split; [assumption|].
  subst M2. rewrite (mmul_assoc n n n n) by auto.
  rewrite E1. now rewrite (mmul_eye_r n n) by auto.
Qed.

(** An operation that is right multiplication by its value on the identity. *)
Definition linear_op (n : nat) (f : mat Z -> mat Z) : Prop :=
  forall M, wf n n M -> f M = mmul M (f (eye n)).

Lemma requiv_op n f g M : (0 < n)%nat -> wf n n M ->
  linear_op n f -> linear_op n g -> wf n n (f (eye n)) -> wf n n (g (eye n)) ->
  g (f (eye n)) = eye n -> f (g (eye n)) = eye n -> requiv n M (f M).
Proof.
  intros Hn HM Lf Lg Wf Wg E1 E2. split; [assumption|].
  exists (f (eye n)), (g (eye n)).
  split; [assumption|]. split; [assumption|]. split; [|split; [|now apply Lf]].
  - now rewrite <- Lg.
  - now rewrite <- Lf.
Qed.

Lemma sumZ_zero n (f : nat -> Z) : (forall k, (k < n)%nat -> f k = 0) -> sumn n f = 0.
Proof. exact (sumn_zero n f). Qed.

Lemma sum_delta n (f : nat -> Z) j : (j < n)%nat ->
  sumn n (fun k => f k * (if (k =? j)%nat then 1 else 0)) = f j.
Proof.
  intros Hj. rewrite (sumn_single n j).
  - rewrite Nat.eqb_refl. ring.
  - assumption.
  - intros k _ Hk. destruct (Nat.eqb_spec k j); [contradiction|]. apply Z.mul_0_r.
Qed.

Lemma linear_op_entries n f : (0 < n)%nat ->
  (forall M, wf n n M -> wf n n (f M)) ->
  (forall M i j, wf n n M -> (i < n)%nat -> (j < n)%nat ->
     get (f M) i j = sumn n (fun k => get M i k * get (f (eye n)) k j)) -> linear_op n f.
Proof.
  intros Hn Hw H M HM. apply (mat_ext n n); auto.
  - apply (wf_mmul n n n); auto. apply Hw, wf_eye.
  - intros i j Hi Hj. rewrite (get_mmul n n n) by auto using wf_eye. now apply H.
Qed.

Section ColOps.
  Variable n : nat.
  Hypothesis Hn : (0 < n)%nat.

  Lemma wf_add_col M c1 c2 t : wf n n M -> wf n n (add_col M c1 c2 t).
  Proof.
    intros HM. unfold add_col. destruct n; [lia|].
    rewrite (nrows_wf _ _ _ HM), (ncols_wf _ _ _ HM). apply wf_mk.
  Qed.
  Lemma get_add_col M c1 c2 t i j : wf n n M -> (i < n)%nat -> (j < n)%nat ->
    get (add_col M c1 c2 t) i j = if (j =? c1)%nat then get M i c1 + t * get M i c2 else get M i j.
  Proof.
    intros HM Hi Hj. unfold add_col. destruct n; [lia|].
    rewrite (nrows_wf _ _ _ HM), (ncols_wf _ _ _ HM). now rewrite get_mk.
  Qed.
  Lemma wf_swap_cols M c1 c2 : wf n n M -> wf n n (swap_cols M c1 c2).
  Proof.
    intros HM. unfold swap_cols. destruct n; [lia|].
    rewrite (nrows_wf _ _ _ HM), (ncols_wf _ _ _ HM). apply wf_mk.
  Qed.
  Lemma get_swap_cols M c1 c2 i j : wf n n M -> (i < n)%nat -> (j < n)%nat ->
    get (swap_cols M c1 c2) i j =
    if (j =? c2)%nat then get M i c1 else if (j =? c1)%nat then get M i c2 else get M i j.
  Proof.
    intros HM Hi Hj. unfold swap_cols. destruct n; [lia|].
    rewrite (nrows_wf _ _ _ HM), (ncols_wf _ _ _ HM). now rewrite get_mk.
  Qed.

  Lemma linear_add_col c1 c2 t : (c1 < n)%nat -> (c2 < n)%nat ->
    linear_op n (fun M => add_col M c1 c2 t).
  Proof.
    intros H1 H2. apply linear_op_entries; auto using wf_add_col.
    intros M i j HM Hi Hj. rewrite get_add_col by assumption.
    rewrite (sumn_ext n _ (fun k =>
       if (j =? c1)%nat then add (get M i k * (if (k =? c1)%nat then 1 else 0))
                              (mul t (get M i k * (if (k =? c2)%nat then 1 else 0)))
       else get M i k * (if (k =? j)%nat then 1 else 0))).
    2:{ intros k Hk. rewrite get_add_col by auto using wf_eye.
        rewrite !get_eye by assumption. cbn. destruct (Nat.eqb_spec j c1); ring. }
    destruct (Nat.eqb_spec j c1).
    - rewrite sumn_add, sumn_scale, !sum_delta by assumption. reflexivity.
    - now rewrite sum_delta.
  Qed.

  Lemma linear_swap_cols c1 c2 : (c1 < n)%nat -> (c2 < n)%nat ->
    linear_op n (fun M => swap_cols M c1 c2).
  Proof.
    intros H1 H2. apply linear_op_entries; auto using wf_swap_cols.
    intros M i j HM Hi Hj. rewrite get_swap_cols by assumption.
    destruct (Nat.eqb_spec j c2); [|destruct (Nat.eqb_spec j c1)].
    - rewrite <- (sum_delta n (get M i) c1) by assumption. apply sumn_ext. intros k Hk.
      rewrite get_swap_cols, !get_eye by auto using wf_eye. subst. now rewrite Nat.eqb_refl.
    - rewrite <- (sum_delta n (get M i) c2) by assumption. apply sumn_ext. intros k Hk.
      rewrite get_swap_cols, !get_eye by auto using wf_eye. subst. rewrite Nat.eqb_refl.
      destruct (Nat.eqb_spec c1 c2); [congruence|reflexivity].
    - rewrite <- (sum_delta n (get M i) j) by assumption. apply sumn_ext. intros k Hk.
      rewrite get_swap_cols, !get_eye by auto using wf_eye.
      destruct (Nat.eqb_spec j c2); [congruence|]. destruct (Nat.eqb_spec j c1); [congruence|reflexivity].
  Qed.

  Lemma requiv_add_col M c1 c2 t : wf n n M -> (c1 < n)%nat -> (c2 < n)%nat -> c1 <> c2 ->
    requiv n M (add_col M c1 c2 t).
  Proof.
    intros HM H1 H2 Hne.
    assert (Hinv : forall s, add_col (add_col (eye n) c1 c2 s) c1 c2 (- s) = eye n).
    { intros s. apply (mat_ext n n); auto using wf_add_col, wf_eye. intros i j Hi Hj.
      rewrite !get_add_col by auto using wf_add_col, wf_eye.
      rewrite Nat.eqb_refl. destruct (Nat.eqb_spec c2 c1); [congruence|].
      destruct (Nat.eqb_spec j c1); subst; [ring|reflexivity]. }
    apply (requiv_op n (fun M => add_col M c1 c2 t) (fun M => add_col M c1 c2 (- t)));
      auto using linear_add_col, wf_add_col, wf_eye.
    pose proof (Hinv (- t)) as E. rewrite Z.opp_involutive in E. exact E.
  Qed.

  Lemma requiv_swap_cols M c1 c2 : wf n n M -> (c1 < n)%nat -> (c2 < n)%nat ->
    requiv n M (swap_cols M c1 c2).
  Proof.
    intros HM H1 H2.
    assert (Hinv : swap_cols (swap_cols (eye n) c1 c2) c1 c2 = eye n).
    { apply (mat_ext n n); auto using wf_swap_cols, wf_eye. intros i j Hi Hj.
      rewrite !get_swap_cols by auto using wf_swap_cols, wf_eye. rewrite !Nat.eqb_refl.
      destruct (Nat.eqb_spec j c2); destruct (Nat.eqb_spec j c1); destruct (Nat.eqb_spec c1 c2);
        subst; try congruence; try reflexivity. }
    apply (requiv_op n (fun M => swap_cols M c1 c2) (fun M => swap_cols M c1 c2));
      auto using linear_swap_cols, wf_swap_cols, wf_eye.
  Qed.

  Definition neg_cols (s : nat -> bool) (M : mat Z) : mat Z :=
    mk (nrows M) (ncols M) (fun i j => if s j then - get M i j else get M i j).
  Lemma wf_neg_cols s M : wf n n M -> wf n n (neg_cols s M).
  Proof.
    intros HM. unfold neg_cols. destruct n; [lia|].
    rewrite (nrows_wf _ _ _ HM), (ncols_wf _ _ _ HM). apply wf_mk.
  Qed.
  Lemma get_neg_cols s M i j : wf n n M -> (i < n)%nat -> (j < n)%nat ->
    get (neg_cols s M) i j = if s j then - get M i j else get M i j.
  Proof.
    intros HM Hi Hj. unfold neg_cols. destruct n; [lia|].
    rewrite (nrows_wf _ _ _ HM), (ncols_wf _ _ _ HM). now rewrite get_mk.
  Qed.
  Lemma requiv_neg_cols s M : wf n n M -> requiv n M (neg_cols s M).
  Proof.
    intros HM.
    assert (Hlin : linear_op n (neg_cols s)).
    { apply linear_op_entries; auto using wf_neg_cols. intros M' i j HM' Hi Hj.
      rewrite get_neg_cols by assumption.
      rewrite (sumn_ext n _ (fun k => (if s j then - get M' i k else get M' i k) * (if (k =? j)%nat then 1 else 0))).
      2:{ intros k Hk. rewrite get_neg_cols by auto using wf_eye. rewrite get_eye by assumption.
          cbn. destruct (s j); ring. }
      now rewrite (sum_delta n (fun k => if s j then - get M' i k else get M' i k)). }
    assert (Hinv : neg_cols s (neg_cols s (eye n)) = eye n).
    { apply (mat_ext n n); auto using wf_neg_cols, wf_eye. intros i j Hi Hj.
      rewrite !get_neg_cols by auto using wf_neg_cols, wf_eye. destruct (s j); [ring|reflexivity]. }
    apply (requiv_op n (neg_cols s) (neg_cols s)); auto using wf_neg_cols, wf_eye.
  Qed.
End ColOps.

(** ** The Euclidean loop *)
Fixpoint esteps (f : nat) (a b : Z) : bool :=
  if b =? 0 then true else match f with O => false | S f' => esteps f' b (a mod b) end.

Lemma esteps_fuel k : forall a b, 0 <= b -> b < 2 ^ Z.of_nat k -> esteps (2 * k + 1) a b = true.
Proof.
  induction k as [|k IH]; intros a b Hb Hlt.
  - change (2 ^ Z.of_nat 0) with 1 in Hlt. replace b with 0 by lia. reflexivity.
  - replace (2 * S k + 1)%nat with (S (S (2 * k + 1))) by lia.
    cbn [esteps]. destruct (Z.eqb_spec b 0) as [|Hb0]; [reflexivity|].
    destruct (Z.eqb_spec (a mod b) 0) as [|Hr]; [reflexivity|].
    assert (Hr2 : 0 <= a mod b < b) by (apply Z.mod_pos_bound; lia).
    apply IH; [apply Z.mod_pos_bound; lia|].
    rewrite Nat2Z.inj_succ, Z.pow_succ_r in Hlt by lia.
    set (r := a mod b) in *.
    assert (H1 : b mod r < r) by (apply Z.mod_pos_bound; lia).
    assert (H2 : b = r * (b / r) + b mod r) by (apply Z.div_mod; lia).
    assert (H3 : 1 <= b / r) by (apply Z.div_le_lower_bound; lia).
    nia.
Qed.

Lemma esteps_gcd_fuel a b : 0 <= b ->
  esteps (2 * Z.to_nat (Z.log2 (Z.abs b) + 1) + 1) a b = true.
Proof.
  intros Hb. apply esteps_fuel; [assumption|].
  rewrite Z2Nat.id by (pose proof (Z.log2_nonneg (Z.abs b)); lia).
  destruct (Z.eq_dec b 0) as [->|Hne]; [reflexivity|].
  rewrite Z.abs_eq by assumption. apply Z.log2_spec. lia.
Qed.

Section Gcd.
  Variable D : division.
  Hypothesis D_floor : forall a b, 0 <= a -> 0 < b -> fdiv D a b = Ok (a / b).
  Variable n : nat.
  Hypothesis Hn : (0 < n)%nat.

  Lemma gcd_loop_ok f : forall M c1 c2,
    wf n n M -> (c1 < n)%nat -> (c2 < n)%nat -> c1 <> c2 ->
    0 <= get M 0 c1 -> 0 <= get M 0 c2 -> esteps f (get M 0 c1) (get M 0 c2) = true ->
    exists M', gcd_loop D f M c1 c2 = Ok M' /\ requiv n M M' /\
      0 <= get M' 0 c1 /\ get M' 0 c2 = 0 /\
      (forall i j, (i < n)%nat -> (j < n)%nat -> j <> c1 -> j <> c2 -> get M' i j = get M i j).
  Proof.
    induction f as [|f IH]; intros M c1 c2 HM H1 H2 Hne P1 P2 Hs; cbn [gcd_loop esteps] in *.
    - destruct (Z.eqb_spec (get M 0 c2) 0); [|discriminate].
      exists M. split; [reflexivity|]. split; [now apply requiv_refl|]. auto.
    - destruct (Z.eqb_spec (get M 0 c2) 0) as [E|E].
      + exists M. split; [reflexivity|]. split; [now apply requiv_refl|]. auto.
      + rewrite D_floor by lia. cbn [bind].
        set (M1 := add_col M c1 c2 (- (get M 0 c1 / get M 0 c2))).
        set (M2 := swap_cols M1 c1 c2).
        assert (W1 : wf n n M1) by now apply wf_add_col.
        assert (W2 : wf n n M2) by now apply wf_swap_cols.
        assert (G1 : get M2 0 c1 = get M 0 c2).
        { unfold M2. rewrite (get_swap_cols n) by assumption.
          destruct (Nat.eqb_spec c1 c2); [contradiction|]. rewrite Nat.eqb_refl.
          unfold M1. rewrite (get_add_col n) by assumption.
          destruct (Nat.eqb_spec c2 c1); [congruence|reflexivity]. }
        assert (G2 : get M2 0 c2 = get M 0 c1 mod get M 0 c2).
        { unfold M2. rewrite (get_swap_cols n) by assumption. rewrite Nat.eqb_refl.
          unfold M1. rewrite (get_add_col n) by assumption. rewrite Nat.eqb_refl.
          rewrite Z.mod_eq by assumption. ring. }
        destruct (IH M2 c1 c2) as [M' [E' [R' [Q1 [Q2 Q3]]]]]; auto.
        * rewrite G1. assumption.
        * rewrite G2. apply Z.mod_pos_bound. lia.
        * rewrite G1, G2. assumption.
        * exists M'. split; [exact E'|]. split.
          -- apply (requiv_trans n M M1); [assumption|now apply requiv_add_col|].
             apply (requiv_trans n M1 M2); [assumption|now apply requiv_swap_cols|assumption].
          -- split; [assumption|]. split; [assumption|]. intros i j Hi Hj J1 J2.
             rewrite Q3 by assumption. unfold M2. rewrite (get_swap_cols n) by assumption.
             destruct (Nat.eqb_spec j c2); [contradiction|].
             destruct (Nat.eqb_spec j c1); [contradiction|].
             unfold M1. rewrite (get_add_col n) by assumption.
             destruct (Nat.eqb_spec j c1); [contradiction|reflexivity].
  Qed.

  Lemma gcd_cols_ok M c1 c2 :
    wf n n M -> (c1 < n)%nat -> (c2 < n)%nat -> c1 <> c2 ->
    0 <= get M 0 c1 -> 0 <= get M 0 c2 ->
    exists M', gcd_cols D M c1 c2 = Ok M' /\ requiv n M M' /\
      0 <= get M' 0 c1 /\ get M' 0 c2 = 0 /\
      (forall i j, (i < n)%nat -> (j < n)%nat -> j <> c1 -> j <> c2 -> get M' i j = get M i j).
  Proof.
    intros HM H1 H2 Hne P1 P2. unfold gcd_cols.
    set (M1 := if get M 0 c1 <? get M 0 c2 then swap_cols M c1 c2 else M).
    assert (HM1 : wf n n M1 /\ requiv n M M1 /\ 0 <= get M1 0 c1 /\ 0 <= get M1 0 c2 /\
      (forall i j, (i < n)%nat -> (j < n)%nat -> j <> c1 -> j <> c2 -> get M1 i j = get M i j)).
    { unfold M1. destruct (get M 0 c1 <? get M 0 c2).
      - split; [now apply wf_swap_cols|]. split; [now apply requiv_swap_cols|].
        rewrite !(get_swap_cols n) by assumption. rewrite !Nat.eqb_refl.
        destruct (Nat.eqb_spec c1 c2); [contradiction|]. split; [assumption|]. split; [assumption|].
        intros i j Hi Hj J1 J2. rewrite (get_swap_cols n) by assumption.
        destruct (Nat.eqb_spec j c2); [contradiction|].
        destruct (Nat.eqb_spec j c1); [contradiction|reflexivity].
      - split; [assumption|]. split; [now apply requiv_refl|]. auto. }
    destruct HM1 as [W1 [R1 [A1 [A2 A3]]]].
    destruct (gcd_loop_ok (gcd_fuel M1 c1 c2) M1 c1 c2) as [M' [E [R [Q1 [Q2 Q3]]]]]; auto.
    { unfold gcd_fuel. now apply esteps_gcd_fuel. }
    exists M'. split; [exact E|]. split; [now apply (requiv_trans n M M1)|].
    split; [assumption|]. split; [assumption|]. intros i j Hi Hj J1 J2.
    rewrite Q3 by assumption. now apply A3.
  Qed.

  Lemma clear_row_ok k : forall M, wf n n M -> (k < n)%nat ->
    (forall j, (j <= k)%nat -> 0 <= get M 0 j) ->
    (forall j, (k < j < n)%nat -> get M 0 j = 0) ->
    exists M', clear_row D k M = Ok M' /\ requiv n M M' /\ 0 <= get M' 0 0 /\
      (forall j, (0 < j < n)%nat -> get M' 0 j = 0).
  Proof.
    induction k as [|k IH]; intros M HM Hk Hpos Hz; cbn [clear_row].
    - exists M. split; [reflexivity|]. split; [now apply requiv_refl|]. split; [now apply Hpos|]. exact Hz.
    - destruct (gcd_cols_ok M k (S k)) as [M1 [E [R [Q1 [Q2 Q3]]]]]; try lia; auto.
      rewrite E. cbn [bind].
      destruct (IH M1) as [M' [E' [R' [P1 P2]]]].
      + now apply (requiv_wf n M).
      + lia.
      + intros j Hj. destruct (Nat.eq_dec j k) as [->|]; [assumption|].
        rewrite Q3 by lia. apply Hpos. lia.
      + intros j Hj. destruct (Nat.eq_dec j (S k)) as [->|]; [assumption|].
        rewrite Q3 by lia. apply Hz. lia.
      + exists M'. split; [exact E'|]. split; [now apply (requiv_trans n M M1)|]. auto.
  Qed.
End Gcd.

(** ** Full rank *)
Lemma full_rank_requiv n M M' : (0 < n)%nat -> requiv n M M' -> full_rank n M -> full_rank n M'.
Proof.
  intros Hn HR [HM HF]. pose proof (requiv_wf n M M' Hn HR) as HM'. split; [assumption|].
  intros y Hy. apply HF. intros j Hj.
  apply requiv_sym in HR; [|assumption]. destruct HR as [_ [W [V [HW [HV [_ [_ HE]]]]]]].
  rewrite (sumn_ext n _ (fun i => sumn n (fun k => mul (mul (y i) (get M' i k)) (get W k j)))).
  2:{ intros i Hi. rewrite HE, (get_mmul n n n) by assumption.
      change (y i * ?s) with (mul (y i) s). rewrite <- sumn_scale. apply sumn_ext. intros; cbn; ring. }
  rewrite sumn_swap. apply sumZ_zero. intros k Hk. rewrite sumn_scale_r.
  rewrite (sumn_ext n _ (fun i => y i * get M' i k)) by reflexivity.
  rewrite Hy by assumption. reflexivity.
Qed.

Lemma wf_subblock n M : wf (S (S n)) (S (S n)) M -> wf (S n) (S n) (subblock M).
Proof.
  intros HM. unfold subblock. rewrite (nrows_wf _ _ _ HM), (ncols_wf _ _ _ HM).
  replace (S (S n) - 1)%nat with (S n) by lia. apply wf_mk.
Qed.
Lemma get_subblock n M i j : wf (S (S n)) (S (S n)) M -> (i < S n)%nat -> (j < S n)%nat ->
  get (subblock M) i j = get M (S i) (S j).
Proof.
  intros HM Hi Hj. unfold subblock. rewrite (nrows_wf _ _ _ HM), (ncols_wf _ _ _ HM).
  replace (S (S n) - 1)%nat with (S n) by lia. now rewrite get_mk.
Qed.
Lemma wf_set_subblock n M S' : wf (S n) (S n) M -> wf (S n) (S n) (set_subblock M S').
Proof.
  intros HM. unfold set_subblock. rewrite (nrows_wf _ _ _ HM), (ncols_wf _ _ _ HM). apply wf_mk.
Qed.
Lemma get_set_subblock n M S' i j : wf (S n) (S n) M -> (i < S n)%nat -> (j < S n)%nat ->
  get (set_subblock M S') i j = match i, j with S i', S j' => get S' i' j' | _, _ => get M i j end.
Proof.
  intros HM Hi Hj. unfold set_subblock. rewrite (nrows_wf _ _ _ HM), (ncols_wf _ _ _ HM).
  now rewrite get_mk.
Qed.

Lemma full_rank_subblock n M : full_rank (S (S n)) M ->
  (forall j, (0 < j < S (S n))%nat -> get M 0 j = 0) -> 0 <= get M 0 0 ->
  0 < get M 0 0 /\ full_rank (S n) (subblock M).
Proof.
  intros [HM HF] Hz Hnn.
  assert (Hg : get M 0 0 <> 0).
  { intros E. enough (1 = 0) by lia.
    apply (HF (fun i => if (i =? 0)%nat then 1 else 0)) with (i := O); [|lia].
    intros j Hj. apply sumZ_zero. intros k Hk. destruct k; [|cbn; ring].
    destruct j; [rewrite E; reflexivity|]. rewrite Hz by lia. reflexivity. }
  split; [lia|]. split; [now apply wf_subblock|]. intros z Hzz i Hi.
  set (c := sumn (S n) (fun k => z k * get M (S k) 0)).
  set (y := fun i => match i with O => - c | S k => get M 0 0 * z k end).
  assert (Hy : forall i, (i < S (S n))%nat -> y i = 0).
  { apply HF. intros j Hj. rewrite sumn_S_l. cbn [y].
    rewrite (sumn_ext _ _ (fun k => mul (get M 0 0) (z k * get M (S k) j)))
      by (intros; cbn; ring).
    rewrite sumn_scale. destruct j.
    - fold c. cbn. ring.
    - rewrite Hz by lia. rewrite (sumn_ext _ _ (fun k => z k * get (subblock M) k j)).
      + rewrite Hzz by lia. cbn. ring.
      + intros k Hk. rewrite (get_subblock n) by (auto; lia). reflexivity. }
  specialize (Hy (S i)). cbn [y] in Hy. assert (get M 0 0 * z i = 0) by (apply Hy; lia). nia.
Qed.

Lemma mmul_emb n H W : wf (S (S n)) (S (S n)) H -> wf (S n) (S n) W ->
  (forall j, (0 < j < S (S n))%nat -> get H 0 j = 0) ->
  mmul H (set_subblock (eye (S (S n))) W) = set_subblock H (mmul (subblock H) W).
Proof.
  intros HH HW Hz.
  assert (HI : wf (S (S n)) (S (S n)) (set_subblock (eye (S (S n))) W)) by apply wf_set_subblock, wf_eye.
  apply (mat_ext (S (S n)) (S (S n))).
  - apply (wf_mmul _ (S (S n))); auto; lia.
  - now apply wf_set_subblock.
  - intros i j Hi Hj. rewrite (get_mmul (S (S n)) (S (S n)) (S (S n))) by (auto; lia).
    rewrite (get_set_subblock (S n)) by auto. rewrite sumn_S_l.
    rewrite (get_set_subblock (S n)) by (auto using wf_eye; lia).
    rewrite get_eye by lia.
    destruct j as [|j].
    + rewrite sumZ_zero.
      * cbn. replace (match i with 0%nat | _ => get H i 0 end) with (get H i 0) by (destruct i; reflexivity). ring.
      * intros k Hk. rewrite (get_set_subblock (S n)) by (auto using wf_eye; lia).
        rewrite get_eye by lia. cbn. ring.
    + replace (if (0 =? S j)%nat then one else zero) with (0:Z) by reflexivity.
      rewrite (sumn_ext (S n) _ (fun k => mul (get H i (S k)) (get W k j))).
      2:{ intros k Hk. rewrite (get_set_subblock (S n)) by (auto using wf_eye; lia). reflexivity. }
      destruct i as [|i].
      * rewrite sumZ_zero; [cbn; rewrite (Hz (S j)) by lia; ring|].
        intros k Hk. rewrite Hz by lia. reflexivity.
      * rewrite (get_mmul (S n) (S n) (S n)); [|now apply wf_subblock|assumption|lia|lia|lia].
        rewrite (sumn_ext (S n) (fun k => mul (get (subblock H) i k) _)
                   (fun k => mul (get H (S i) (S k)) (get W k j))).
        2:{ intros k Hk. rewrite (get_subblock n) by (auto; lia). reflexivity. }
        cbn. ring.
Qed.

Lemma subblock_set n H W : wf (S (S n)) (S (S n)) H -> wf (S n) (S n) W -> subblock (set_subblock H W) = W.
Proof.
  intros HH HW. apply (mat_ext (S n) (S n)); auto.
  - apply wf_subblock, wf_set_subblock, HH.
  - intros i j Hi Hj. rewrite (get_subblock n) by (auto using wf_set_subblock).
    now rewrite (get_set_subblock (S n)) by (auto; lia).
Qed.

Lemma set_subblock_eye n W V : wf (S n) (S n) W -> mmul W V = eye (S n) ->
  set_subblock (set_subblock (eye (S (S n))) W) (mmul W V) = eye (S (S n)).
Proof.
  intros HW E. apply (mat_ext (S (S n)) (S (S n))).
  - apply wf_set_subblock, wf_set_subblock, wf_eye.
  - apply wf_eye.
  - intros i j Hi Hj. rewrite (get_set_subblock (S n)) by auto using wf_set_subblock, wf_eye.
    rewrite E. destruct i as [|i]; [|destruct j as [|j]].
    + rewrite (get_set_subblock (S n)) by auto using wf_eye. reflexivity.
    + rewrite (get_set_subblock (S n)) by auto using wf_eye. reflexivity.
    + rewrite !get_eye by lia. reflexivity.
Qed.

Lemma requiv_subblock n H S' : wf (S (S n)) (S (S n)) H ->
  (forall j, (0 < j < S (S n))%nat -> get H 0 j = 0) ->
  requiv (S n) (subblock H) S' -> requiv (S (S n)) H (set_subblock H S').
Proof.
  intros HH Hz [_ [W [V [HW [HV [E1 [E2 ->]]]]]]]. split; [assumption|].
  exists (set_subblock (eye (S (S n))) W), (set_subblock (eye (S (S n))) V).
  assert (Hz' : forall W j, (0 < j < S (S n))%nat -> get (set_subblock (eye (S (S n))) W) 0 j = 0).
  { intros W0 j Hj. rewrite (get_set_subblock (S n)) by (auto using wf_eye; lia).
    rewrite get_eye by lia. destruct j; [lia|reflexivity]. }
  assert (HwI : forall W, wf (S (S n)) (S (S n)) (set_subblock (eye (S (S n))) W))
    by (intros; apply wf_set_subblock, wf_eye).
  split; [apply HwI|]. split; [apply HwI|]. split; [|split].
  - rewrite mmul_emb by (auto using wf_eye). rewrite (subblock_set n) by auto using wf_eye.
    now apply set_subblock_eye.
  - rewrite mmul_emb by (auto using wf_eye). rewrite (subblock_set n) by auto using wf_eye.
    now apply set_subblock_eye.
  - now rewrite mmul_emb.
Qed.

(** ** The last loop *)
Section Fix.
  Variable D : division.
  Variable P : Z -> Z -> Prop.
  Hypothesis D_floor : forall a b, 0 <= a -> 0 < b -> fdiv D a b = Ok (a / b).
  Hypothesis D_ceil : forall a b, 0 < a -> 0 < b ->
    exists q, cdiv D a b = Ok q /\ P b (a - q * b) /\ - b < a - q * b.
  Hypothesis P_zone : forall b h, 0 < b -> - b < h <= 0 -> P b h.

  Definition hnf_gen (n : nat) (H : mat Z) : Prop :=
    wf n n H /\
    (forall i j, (i < j < n)%nat -> get H i j = 0) /\
    (forall i, (i < n)%nat -> 0 < get H i i) /\
    (forall i j, (j < i < n)%nat -> P (get H i i) (get H i j)).

  Definition fix_inv (n k : nat) (H : mat Z) : Prop :=
    wf n n H /\
    (forall i j, (i < j < n)%nat -> get H i j = 0) /\
    (forall i, (i < n)%nat -> 0 < get H i i) /\
    (forall i j, (0 < j < i)%nat -> (i < n)%nat -> P (get H i i) (get H i j)) /\
    (forall i, (0 < i < k)%nat -> (i < n)%nat -> P (get H i i) (get H i 0)).

  Lemma add_col_inv n k H t : (0 < k < n)%nat -> fix_inv n k H ->
    P (get H k k) (get H k 0 + t * get H k k) -> fix_inv n (S k) (add_col H 0 k t).
  Proof.
    intros Hk [Hw [Hu [Hd [Hs Ha]]]] HP. assert (Hn : (0 < n)%nat) by lia.
    repeat split; [now apply wf_add_col|now apply wf_add_col| | | |].
    - intros i j Hij. rewrite (get_add_col n) by (auto; lia).
      destruct (Nat.eqb_spec j 0); [lia|]. now apply Hu.
    - intros i Hi. rewrite (get_add_col n) by auto. destruct (Nat.eqb_spec i 0) as [->|].
      + rewrite (Hu 0%nat k) by lia. specialize (Hd 0%nat Hn). lia.
      + now apply Hd.
    - intros i j Hij Hi. rewrite !(get_add_col n) by (auto; lia).
      destruct (Nat.eqb_spec i 0); [lia|]. destruct (Nat.eqb_spec j 0); [lia|]. now apply Hs.
    - intros i Hik Hi. rewrite !(get_add_col n) by (auto; lia). cbn [Nat.eqb].
      destruct (Nat.eqb_spec i 0); [lia|].
      destruct (Nat.eq_dec i k) as [->|Hne]; [assumption|].
      rewrite (Hu i k) by lia. rewrite Z.mul_0_r, Z.add_0_r. apply Ha; lia.
  Qed.

  Lemma fix_row_ok n k H : (0 < k < n)%nat -> fix_inv n k H ->
    exists H', fix_row D H k = Ok H' /\ requiv n H H' /\ fix_inv n (S k) H'.
  Proof.
    intros Hk HI. assert (Hn : (0 < n)%nat) by lia. pose proof HI as [Hw [Hu [Hd [Hs Ha]]]].
    unfold fix_row. replace (ncols H) with n by (destruct n; [lia|symmetry; eapply ncols_wf; eassumption]).
    destruct (Nat.leb_spec n k); [lia|].
    assert (Hdk := Hd k (proj2 Hk)).
    destruct (Z.ltb_spec 0 (get H k 0)) as [Hp|Hp].
    - destruct (D_ceil (get H k 0) (get H k k)) as [q [Eq [HP Hlo]]]; auto.
      rewrite Eq. cbn [bind]. rewrite !(get_add_col n) by (auto; lia).
      destruct (Nat.eqb_spec 0 0); [|congruence]. destruct (Nat.eqb_spec k 0); [lia|].
      destruct (Z.leb_spec (get H k 0 + - q * get H k k) (- get H k k)); [lia|].
      exists (add_col H 0 k (- q)). split; [reflexivity|]. split; [apply requiv_add_col; auto; lia|].
      apply add_col_inv; auto. replace (get H k 0 + - q * get H k k) with (get H k 0 - q * get H k k) by ring.
      assumption.
    - cbn [bind]. destruct (Z.leb_spec (get H k 0) (- get H k k)) as [Hq|Hq].
      + rewrite D_floor by lia. cbn [bind]. eexists. split; [reflexivity|].
        split; [apply requiv_add_col; auto; lia|]. apply add_col_inv; auto.
        apply P_zone; [assumption|].
        pose proof (Z.div_mod (- get H k 0) (get H k k)) as E.
        pose proof (Z.mod_pos_bound (- get H k 0) (get H k k) Hdk). lia.
      + exists H. split; [reflexivity|]. split; [now apply requiv_refl|].
        split; [assumption|]. split; [assumption|]. split; [assumption|]. split; [assumption|].
        intros i Hik Hi. destruct (Nat.eq_dec i k) as [->|]; [|apply Ha; lia].
        apply P_zone; lia.
  Qed.

  Lemma fix_rows_ok n len : forall k H, (0 < k)%nat -> (k + len = n)%nat -> fix_inv n k H ->
    (0 < n)%nat ->
    exists H', fix_rows D (seq k len) H = Ok H' /\ requiv n H H' /\ hnf_gen n H'.
  Proof.
    induction len as [|len IH]; intros k H Hk Hl HI Hn; cbn [seq fix_rows].
    - exists H. split; [reflexivity|]. destruct HI as [Hw [Hu [Hd [Hs Ha]]]].
      split; [now apply requiv_refl|]. split; [assumption|]. split; [assumption|]. split; [assumption|].
      intros i j Hij. destruct (Nat.eq_dec j 0) as [->|]; [apply Ha; lia|apply Hs; lia].
    - destruct (fix_row_ok n k H) as [H1 [E [R I1]]]; [lia|assumption|].
      rewrite E. cbn [bind]. destruct (IH (S k) H1) as [H' [E' [R' G']]]; auto; try lia.
      exists H'. split; [exact E'|]. split; [now apply (requiv_trans n H H1)|assumption].
  Qed.

  Lemma nonneg_row0_neg_cols M : nonneg_row0 M = neg_cols (fun j => get M 0 j <? 0) M.
  Proof. reflexivity. Qed.

  Lemma hnf_H_ok n : forall M, full_rank (S n) M ->
    exists H, hnf_H D (S n) M = Ok H /\ requiv (S n) M H /\ hnf_gen (S n) H.
  Proof.
    induction n as [|n IH]; intros M HF.
    - destruct HF as [HM HF]. destruct M as [|r M]; [destruct HM; discriminate|].
      cbn [hnf_H]. set (M0 := r :: M) in *.
      assert (Hnz : get M0 0 0 <> 0).
      { intros E. enough (1 = 0) by lia. apply (HF (fun _ => 1)) with (i := O); [|lia].
        intros j Hj. apply sumZ_zero. intros k Hk. replace j with O by lia. replace k with O by lia.
        rewrite E. reflexivity. }
      destruct (Z.ltb_spec 0 (get M0 0 0)) as [Hp|Hp].
      + exists M0. split; [reflexivity|]. split; [apply requiv_refl; auto|].
        repeat split; try apply HM; try (intros; lia). intros i Hi. replace i with O by lia. assumption.
      + exists (mopp M0). split; [reflexivity|].
        assert (En : mopp M0 = neg_cols (fun _ => true) M0) by reflexivity.
        rewrite En. split; [apply requiv_neg_cols; auto|].
        pose proof (wf_neg_cols 1 ltac:(lia) (fun _ => true) M0 HM) as Hw.
        repeat split; try apply Hw; try (intros; lia).
        intros i Hi. rewrite (get_neg_cols 1) by auto. replace i with O by lia. lia.
    - set (n' := S (S n)) in *. assert (Hn : (0 < n')%nat) by (unfold n'; lia).
      pose proof HF as [HM _].
      assert (E0 : nrows M = n') by now apply nrows_wf in HM.
      set (M0 := nonneg_row0 M).
      assert (HM0 : wf n' n' M0) by (apply wf_neg_cols; auto).
      assert (R0 : requiv n' M M0) by (apply requiv_neg_cols; auto).
      assert (Pos : forall j, (j < n')%nat -> 0 <= get M0 0 j).
      { intros j Hj. unfold M0. rewrite nonneg_row0_neg_cols, (get_neg_cols n') by auto.
        destruct (Z.ltb_spec (get M 0 j) 0); lia. }
      destruct (clear_row_ok D D_floor n' Hn (S n) M0) as [H1 [E1 [R1 [G1 Z1]]]]; auto.
      { intros j Hj. apply Pos. unfold n'. lia. }
      { intros j Hj. unfold n' in Hj. lia. }
      assert (R1' : requiv n' M H1) by now apply (requiv_trans n' M M0).
      assert (HF1 : full_rank n' H1) by now apply (full_rank_requiv n' M).
      destruct (full_rank_subblock n H1 HF1 Z1 G1) as [G1' HFs].
      assert (HH1 : wf n' n' H1) by apply HF1.
      destruct (IH (subblock H1) HFs) as [Hs [Es [Rs Gs]]].
      assert (R2 : requiv n' H1 (set_subblock H1 Hs)) by now apply requiv_subblock.
      destruct (fix_rows_ok n' (n' - 1) 1 (set_subblock H1 Hs)) as [H' [E' [R' G']]]; auto; try (unfold n'; lia).
      { destruct Gs as [Ws [Us [Ds Ps]]].
        split; [now apply (requiv_wf n' H1)|].
        split; [|split; [|split]].
        - intros i j Hij. rewrite (get_set_subblock (S n)) by (auto; unfold n' in *; lia).
          destruct i; [|destruct j; [lia|]]; [apply Z1; lia|]. apply Us. unfold n' in *; lia.
        - intros i Hi. rewrite (get_set_subblock (S n)) by (auto; unfold n' in *; lia).
          destruct i; [assumption|]. apply Ds. unfold n' in *; lia.
        - intros i j Hij Hi. rewrite !(get_set_subblock (S n)) by (auto; unfold n' in *; lia).
          destruct i; [lia|]. destruct j; [lia|]. apply Ps. unfold n' in *; lia.
        - intros i Hi. lia. }
      exists H'. split.
      { destruct M as [|r Mt]; [discriminate E0|].
        change (hnf_H D n' (r :: Mt)) with
          (let* H := clear_row D (S n) M0 in
           let* Hsub := hnf_H D (S n) (subblock H) in
           fix_rows D (seq 1 (nrows (r :: Mt) - 1)) (set_subblock H Hsub)).
        rewrite E1. cbn [bind]. rewrite Es. cbn [bind]. rewrite E0. exact E'. }
      split; [|assumption].
      apply (requiv_trans n' M H1); auto. now apply (requiv_trans n' H1 (set_subblock H1 Hs)).
  Qed.
End Fix.
