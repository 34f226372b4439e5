(** Proofs for C04-C07, second half: uniqueness of the form and the factor L. *)
From Verif Require Import HnfModel HnfSpec HnfEnum HnfProofs.
From Coq Require Import QArith Qcanon Qround.
Local Open Scope Z_scope.

Lemma sumn_split_at n i (f : nat -> Z) : (i < n)%nat ->
  (forall k, (k < n)%nat -> (i < k)%nat -> f k = 0) ->
  sumn n f = sumn i f + f i.
Proof.
  induction n as [|n IH]; intros Hi Hz; [lia|]. cbn [sumn].
  destruct (Nat.eq_dec i n) as [->|Hne]; [reflexivity|].
  rewrite IH by (try lia; intros; apply Hz; lia). rewrite (Hz n) by lia. cbn. lia.
Qed.

(** ** Uniqueness *)
Lemma hnf_unique_W n H H' W V : (0 < n)%nat ->
  is_hnf n H -> is_hnf n H' -> wf n n W -> wf n n V -> mmul W V = eye n -> H' = mmul H W ->
  forall i, (i < n)%nat -> forall j, (j < n)%nat -> get W i j = if (i =? j)%nat then 1 else 0.
Proof.
  intros Hn [HH [Hu [Hd Hl]]] [HH' [Hu' [Hd' Hl']]] HW HV E1 E2.
  induction i as [i IH] using (well_founded_induction lt_wf). intros Hi.
  assert (Hrow : forall j, (j < n)%nat ->
            get H' i j = (if (j <? i)%nat then get H i j else 0) + get H i i * get W i j).
  { intros j Hj. rewrite E2, (get_mmul n n n) by assumption.
    rewrite (sumn_split_at n i); [|assumption|].
    - cbn [mul Z_ops]. f_equal.
      rewrite (sumn_ext i _ (fun k => get H i k * (if (k =? j)%nat then 1 else 0))).
      2:{ intros k Hk. rewrite (IH k) by (try lia; assumption). reflexivity. }
      destruct (Nat.ltb_spec j i) as [Hlt|Hge].
      + now apply sum_delta.
      + apply sumZ_zero. intros k Hk. destruct (Nat.eqb_spec k j); [lia|apply Z.mul_0_r].
    - intros k Hk Hik. rewrite Hu by lia. reflexivity. }
  assert (Hup : forall j, (i < j < n)%nat -> get W i j = 0).
  { intros j Hj. specialize (Hrow j (proj2 Hj)). rewrite Hu' in Hrow by lia.
    destruct (Nat.ltb_spec j i); [lia|]. specialize (Hd i Hi). nia. }
  assert (HVk : forall k, (k < i)%nat -> get V k i = 0).
  { intros k Hk.
    assert (E : get (mmul W V) k i = 0).
    { rewrite E1, get_eye by lia. destruct (Nat.eqb_spec k i); [lia|reflexivity]. }
    rewrite (get_mmul n n n) in E by (auto; lia).
    rewrite (sumn_single n k) in E; [|lia|].
    - rewrite IH in E by lia. rewrite Nat.eqb_refl in E. cbn [mul Z_ops] in E. lia.
    - intros l Hl1 Hne. rewrite IH by lia. destruct (Nat.eqb_spec k l); [congruence|reflexivity]. }
  assert (Hii : get W i i * get V i i = 1).
  { assert (E : get (mmul W V) i i = 1) by (rewrite E1, get_eye, Nat.eqb_refl by lia; reflexivity).
    rewrite (get_mmul n n n) in E by (auto; lia).
    rewrite (sumn_single n i) in E; [exact E|assumption|].
    intros k Hk Hne. destruct (Nat.lt_ge_cases k i) as [Hlt|Hge].
    - rewrite HVk by assumption. apply Z.mul_0_r.
    - rewrite Hup by lia. reflexivity. }
  assert (Hone : get W i i = 1).
  { specialize (Hrow i Hi). rewrite Nat.ltb_irrefl in Hrow.
    specialize (Hd i Hi). specialize (Hd' i Hi).
    assert (0 < get W i i) by nia.
    apply Z.eq_mul_1 in Hii. lia. }
  intros j Hj. destruct (Nat.eqb_spec i j) as [<-|Hne]; [assumption|].
  destruct (Nat.lt_ge_cases i j) as [Hlt|Hge]; [apply Hup; lia|].
  pose proof (Hrow j Hj) as Ej. destruct (Nat.ltb_spec j i); [|lia].
  pose proof (Hrow i Hi) as Ei. rewrite Nat.ltb_irrefl, Hone in Ei.
  pose proof (Hl i j ltac:(lia)) as B1. pose proof (Hl' i j ltac:(lia)) as B2.
  specialize (Hd i Hi). nia.
Qed.

Lemma hnf_unique n H H' : (0 < n)%nat -> is_hnf n H -> is_hnf n H' -> requiv n H H' -> H = H'.
Proof.
  intros Hn H1 H2 [Hw [W [V [HW [HV [E1 [E2 E3]]]]]]].
  assert (W = eye n).
  { apply (mat_ext n n); auto using wf_eye. intros i j Hi Hj. rewrite get_eye by assumption.
    apply (hnf_unique_W n H H' W V); assumption. }
  subst W. rewrite (mmul_eye_r n n) in E3 by assumption. congruence.
Qed.

(** ** Division modes *)
Lemma py3_floor a b : 0 <= a -> 0 < b -> fdiv py3 a b = Ok (a / b).
Proof. intros. cbn. destruct (Z.eqb_spec b 0); [lia|reflexivity]. Qed.

Lemma py3_ceil a b : 0 < a -> 0 < b ->
  exists q, cdiv py3 a b = Ok q /\ - b < a - q * b <= 0 /\ - b < a - q * b.
Proof.
  intros Ha Hb. cbn. destruct (Z.eqb_spec b 0); [lia|]. eexists. split; [reflexivity|].
  pose proof (Z.div_mod (- a) b). pose proof (Z.mod_pos_bound (- a) b Hb). split; nia.
Qed.

Lemma py2_floor a b : 0 <= a -> 0 < b -> fdiv py2 a b = Ok (a / b).
Proof. intros. cbn. destruct (Z.eqb_spec b 0); [lia|reflexivity]. Qed.

Lemma py2_ceil a b : 0 < a -> 0 < b ->
  exists q, cdiv py2 a b = Ok q /\ - b < a - q * b < b /\ - b < a - q * b.
Proof.
  intros Ha Hb. cbn. destruct (Z.eqb_spec b 0); [lia|]. eexists. split; [reflexivity|].
  pose proof (Z.div_mod a b). pose proof (Z.mod_pos_bound a b Hb). split; nia.
Qed.

(** ** The factor L *)
Lemma Q2Qc'_add a b : Q2Qc' (a + b) = (Q2Qc' a + Q2Qc' b)%Qc.
Proof.
  apply Qc_is_canon. unfold Q2Qc', Qcplus, Q2Qc, this. rewrite !Qred_correct. now rewrite inject_Z_plus.
Qed.
Lemma Q2Qc'_mul a b : Q2Qc' (a * b) = (Q2Qc' a * Q2Qc' b)%Qc.
Proof.
  apply Qc_is_canon. unfold Q2Qc', Qcmult, Q2Qc, this. rewrite !Qred_correct. now rewrite inject_Z_mult.
Qed.
Lemma Q2Qc'_nz a : a <> 0 -> Q2Qc' a <> 0%Qc.
Proof.
  intros H E. apply H. unfold Q2Qc' in E. apply (f_equal this) in E. unfold Q2Qc, this in E.
  assert (E2 : (inject_Z a == 0)%Q) by (rewrite <- (Qred_correct (inject_Z a)), E; reflexivity).
  unfold Qeq in E2. cbn in E2. lia.
Qed.

Lemma qsum_inj n f : qsum n (fun k => Q2Qc' (f k)) = Q2Qc' (sumn n f).
Proof.
  induction n as [|n IH]; cbn [qsum sumn]; [reflexivity|].
  rewrite IH. cbn [add Z_ops]. now rewrite Q2Qc'_add.
Qed.
Lemma qsum_ext n f g : (forall k, (k < n)%nat -> f k = g k) -> qsum n f = qsum n g.
Proof. induction n as [|n IH]; intros H; cbn; [reflexivity|]. rewrite IH, H; auto. Qed.

Lemma rintQ_int z : rintQ (Q2Qc' z) = z.
Proof.
  unfold rintQ, Q2Qc'. set (q := Q2Qc (inject_Z z)).
  assert (Hq : (q == inject_Z z)%Q) by apply Qred_correct.
  assert (Hf : Qfloor q = z) by (rewrite (Qfloor_comp _ _ Hq); apply Qfloor_Z).
  rewrite Hf.
  assert (Hc : (q - inject_Z z ?= 1 # 2)%Q = Lt).
  { apply Qlt_alt. rewrite Hq. setoid_replace (inject_Z z - inject_Z z)%Q with 0%Q by ring. reflexivity. }
  now rewrite Hc.
Qed.

Lemma fsubst_ok n H M L : (0 < n)%nat ->
  wf n n H -> (forall i j, (i < j < n)%nat -> get H i j = 0) ->
  (forall i, (i < n)%nat -> 0 < get H i i) -> wf n n L -> M = mmul H L ->
  forall i, (i <= n)%nat ->
  fsubst H M n i = Ok (map (fun r => map Q2Qc' (nth r L [])) (seq 0 i)).
Proof.
  intros Hn HH Hu Hd HL HE. induction i as [|i IH]; intros Hi; cbn [fsubst]; [reflexivity|].
  rewrite IH by lia. cbn [bind]. destruct (Z.eqb_spec (get H i i) 0) as [E|E].
  { specialize (Hd i ltac:(lia)). lia. }
  f_equal. rewrite seq_S, map_app. cbn [Nat.add map]. f_equal. f_equal.
  apply (list_ext 0%Qc).
  { rewrite map_length, seq_length, map_length.
    rewrite (wf_row_length n n L i HL) by lia. reflexivity. }
  intros j Hj. rewrite map_length, seq_length in Hj. rewrite nth_map_seq by assumption.
  assert (Hnth : forall l, (l < n)%nat -> nth j (map Q2Qc' (nth l L [])) 0%Qc = Q2Qc' (get L l j)).
  { intros l Hl. rewrite nth_indep with (d' := Q2Qc' 0)
      by (rewrite map_length, (wf_row_length n n L l HL) by lia; lia).
    rewrite map_nth. reflexivity. }
  rewrite Hnth by lia.
  rewrite (qsum_ext i _ (fun l => Q2Qc' (get H i l * get L l j))).
  2:{ intros l Hl. rewrite (nth_map_seq (fun r => map Q2Qc' (nth r L [])) i l [] Hl).
      rewrite Hnth by lia. now rewrite Q2Qc'_mul. }
  rewrite qsum_inj.
  assert (HM : get M i j = sumn i (fun l => get H i l * get L l j) + get H i i * get L i j).
  { rewrite HE, (get_mmul n n n) by (auto; lia). rewrite (sumn_split_at n i); [reflexivity|lia|].
    intros k Hk Hik. rewrite Hu by lia. reflexivity. }
  rewrite HM, Q2Qc'_add, Q2Qc'_mul. field. now apply Q2Qc'_nz.
Qed.

Lemma hnfd_factor n H M L : (0 < n)%nat ->
  wf n n H -> (forall i j, (i < j < n)%nat -> get H i j = 0) ->
  (forall i, (i < n)%nat -> 0 < get H i i) -> wf n n L -> M = mmul H L ->
  exists X, fsubst H M n n = Ok X /\ map (map rintQ) X = L.
Proof.
  intros Hn HH Hu Hd HL HE. eexists. split; [now apply (fsubst_ok n H M L)|].
  rewrite map_map. apply (list_ext []).
  - rewrite map_length, seq_length. destruct HL; congruence.
  - intros i Hi. rewrite map_length, seq_length in Hi. rewrite nth_map_seq by assumption.
    rewrite map_map. rewrite map_ext with (g := fun x => x) by apply rintQ_int. apply map_id.
Qed.

(** ** Main statements *)
Section Hnfd.
  Variable D : division.
  Variable P : Z -> Z -> Prop.
  Hypothesis D_floor : forall a b, 0 <= a -> 0 < b -> fdiv D a b = Ok (a / b).
  Hypothesis D_ceil : forall a b, 0 < a -> 0 < b ->
    exists q, cdiv D a b = Ok q /\ P b (a - q * b) /\ - b < a - q * b.
  Hypothesis P_zone : forall b h, 0 < b -> - b < h <= 0 -> P b h.

  Lemma hnfd_gen n M : (0 < n)%nat -> full_rank n M ->
    exists H L, hnfd D M = Ok (H, L) /\ hnf_gen P n H /\ unimodular n L /\ M = mmul H L /\ requiv n M H.
  Proof.
    intros Hn HF. destruct n as [|n]; [lia|].
    destruct (hnf_H_ok D P D_floor D_ceil P_zone n M HF) as [H [E [R G]]].
    pose proof HF as [HM _]. pose proof (requiv_wf _ _ _ Hn R) as HH.
    pose proof (requiv_sym _ _ _ Hn R) as R'.
    destruct R' as [_ [L [V [HL [HV [E1 [E2 E3]]]]]]].
    assert (HU : unimodular (S n) L) by (split; [assumption|]; exists V; auto).
    destruct G as [Gw [Gu [Gd Gp]]].
    destruct (hnfd_factor (S n) H M L) as [X [EX EL]]; auto.
    exists H, L. split; [|split; [split; [assumption|]; split; [assumption|]; split; assumption|]; split; [assumption|]; split; assumption].
    pose proof (ncols_wf n (S n) M HM) as Hc.
    destruct M as [|r M]; [destruct HM; discriminate|]. unfold hnfd. rewrite Hc.
    destruct n as [|n].
    - (* one column *)
      cbn [hnf_H] in E. injection E as E.
      assert (HLe : L = if 0 <? get (r :: M) 0 0 then eye 1 else mopp (eye 1)).
      { assert (Hd := Gd O ltac:(lia)).
        assert (E00 : get (r :: M) 0 0 = get H 0 0 * get L 0 0).
        { rewrite E3 at 1. rewrite (get_mmul 1 1 1) by (auto; lia). cbn [sumn add mul Z_ops]. unfold zero. cbn. lia. }
        assert (EH : get H 0 0 = if 0 <? get (r :: M) 0 0 then get (r :: M) 0 0 else - get (r :: M) 0 0).
        { rewrite <- E. destruct (0 <? get (r :: M) 0 0); [reflexivity|].
          unfold mopp. rewrite get_mk; [reflexivity| |].
          - unfold nrows. cbn. lia.
          - rewrite Hc. lia. }
        apply (mat_ext 1 1); auto.
        { destruct (0 <? get (r :: M) 0 0); [apply wf_eye|apply (wf_mk 1 1)]. }
        intros i j Hi Hj. replace i with O by lia. replace j with O by lia.
        destruct (Z.ltb_spec 0 (get (r :: M) 0 0)); cbn [get nth mopp eye mk map seq nrows ncols length Nat.eqb one opp Z_ops];
          cbn; change (nth 0 (nth 0 L []) 0) with (get L 0 0); nia. }
      destruct (0 <? get (r :: M) 0 0); rewrite HLe, <- E; reflexivity.
    - rewrite E. cbn [bind].
      replace (nrows H =? S (S n))%nat with true by (symmetry; apply Nat.eqb_eq; now apply nrows_wf in HH).
      rewrite EX. cbn [bind]. now rewrite EL.
  Qed.
End Hnfd.

Lemma hnf_gen_is_hnf n H : hnf_gen (fun d h => - d < h <= 0) n H <-> is_hnf n H.
Proof. reflexivity. Qed.

Lemma hnfd_py3 n M : (0 < n)%nat -> full_rank n M ->
  exists H L, hnfd py3 M = Ok (H, L) /\ is_hnf n H /\ unimodular n L /\ M = mmul H L /\ requiv n M H.
Proof.
  intros Hn HF.
  apply (hnfd_gen py3 (fun d h => - d < h <= 0) py3_floor py3_ceil (fun _ _ _ H => H) n M Hn HF).
Qed.

Lemma requiv_mmul n M A : wf n n M -> unimodular n A -> requiv n M (mmul M A).
Proof. intros HM [HA [V [HV [E1 E2]]]]. split; [assumption|]. exists A, V. auto. Qed.

Lemma requiv_unimodular n M M' : requiv n M M' -> exists A, unimodular n A /\ M' = mmul M A.
Proof. intros [HM [W [V [HW [HV [E1 [E2 E3]]]]]]]. exists W. split; [|assumption]. split; eauto. Qed.

Lemma hnfd_same_H n M A : (0 < n)%nat -> full_rank n M -> unimodular n A ->
  exists H L L', hnfd py3 M = Ok (H, L) /\ hnfd py3 (mmul M A) = Ok (H, L').
Proof.
  intros Hn HF HA. pose proof HF as [HM _]. pose proof (requiv_mmul n M A HM HA) as R.
  destruct (hnfd_py3 n M Hn HF) as [H [L [E [I [_ [_ R1]]]]]].
  destruct (hnfd_py3 n (mmul M A) Hn) as [H2 [L2 [E2 [I2 [_ [_ R2]]]]]].
  { now apply (full_rank_requiv n M). }
  assert (H = H2).
  { apply (hnf_unique n); auto. apply (requiv_trans n H M); auto using requiv_sym.
    now apply (requiv_trans n M (mmul M A)). }
  subst H2. eauto.
Qed.

Lemma is_hnf_full_rank n H : (0 < n)%nat -> is_hnf n H -> full_rank n H.
Proof.
  intros Hn [HH [Hu [Hd Hl]]]. split; [assumption|]. intros y Hy.
  (* from the last column backwards *)
  assert (Hk : forall k i, (n - k <= i < n)%nat -> y i = 0).
  { induction k as [|k IH]; intros i Hi; [lia|].
    destruct (Nat.eq_dec i (n - S k)) as [->|Hne]; [|apply IH; lia].
    assert (Hlt : (n - S k < n)%nat) by lia. set (c := (n - S k)%nat) in *.
    specialize (Hy c Hlt). rewrite (sumn_single n c) in Hy; [|assumption|].
    - specialize (Hd c Hlt). nia.
    - intros i Hi' Hne. destruct (Nat.lt_ge_cases i c).
      + rewrite Hu by lia. apply Z.mul_0_r.
      + rewrite IH by lia. reflexivity. }
  intros i Hi. apply (Hk n). lia.
Qed.

Lemma mmul_hnf_inj n H L : (0 < n)%nat -> is_hnf n H -> wf n n L -> H = mmul H L -> L = eye n.
Proof.
  intros Hn [HH [Hu [Hd Hl]]] HL E. apply (mat_ext n n); auto using wf_eye.
  induction i as [i IH] using (well_founded_induction lt_wf). intros j Hi Hj.
  rewrite get_eye by assumption. pose proof (f_equal (fun X => get X i j) E) as Eij. cbn beta in Eij.
  rewrite (get_mmul n n n) in Eij by assumption.
  rewrite (sumn_split_at n i) in Eij; [|assumption|intros k Hk Hik; rewrite Hu by lia; reflexivity].
  rewrite (sumn_ext i _ (fun k => get H i k * (if (k =? j)%nat then 1 else 0))) in Eij.
  2:{ intros k Hk. rewrite (IH k) by lia. rewrite get_eye by lia. reflexivity. }
  cbn [mul Z_ops] in Eij. specialize (Hd i Hi). cbn [one zero Z_ops].
  destruct (Nat.lt_trichotomy i j) as [Hlt|[->|Hgt]].
  - rewrite sumZ_zero in Eij.
    + rewrite Hu in Eij by lia. destruct (Nat.eqb_spec i j); [lia|]. nia.
    + intros k Hk. destruct (Nat.eqb_spec k j); [lia|apply Z.mul_0_r].
  - rewrite sumZ_zero in Eij.
    + rewrite Nat.eqb_refl. nia.
    + intros k Hk. destruct (Nat.eqb_spec k j); [lia|apply Z.mul_0_r].
  - rewrite sum_delta in Eij by assumption. destruct (Nat.eqb_spec i j); [lia|]. nia.
Qed.

Lemma hnfd_idem n H : (0 < n)%nat -> is_hnf n H -> hnfd py3 H = Ok (H, eye n).
Proof.
  intros Hn HH. destruct (hnfd_py3 n H Hn (is_hnf_full_rank n H Hn HH)) as [H' [L [E [I [U [F R]]]]]].
  assert (H = H') by now apply (hnf_unique n). subst H'.
  rewrite E. f_equal. f_equal. apply (mmul_hnf_inj n H); auto. apply U.
Qed.

Lemma hnfd_eq_iff n M M' : (0 < n)%nat -> full_rank n M -> full_rank n M' ->
  (exists H L L', hnfd py3 M = Ok (H, L) /\ hnfd py3 M' = Ok (H, L')) <->
  (exists A, unimodular n A /\ M' = mmul M A).
Proof.
  intros Hn HF HF'. split.
  - intros [H [L [L' [E1 E2]]]].
    destruct (hnfd_py3 n M Hn HF) as [H1 [L1 [F1 [_ [_ [_ R1]]]]]].
    destruct (hnfd_py3 n M' Hn HF') as [H2 [L2 [F2 [_ [_ [_ R2]]]]]].
    rewrite E1 in F1. rewrite E2 in F2. injection F1 as <- _. injection F2 as <- _.
    apply requiv_unimodular. apply (requiv_trans n M H); auto using requiv_sym.
  - intros [A [HA ->]]. destruct (hnfd_same_H n M A Hn HF HA) as [H [L [L' [E1 E2]]]]. eauto.
Qed.

(** ** C06 *)
Lemma sublattice_once n M : (0 < n)%nat -> full_rank n M ->
  exists d l, 0 < d /\ hnf_from_det d n = Ok (Some l) /\
  exists H, In H l /\ (exists A, unimodular n A /\ M = mmul H A) /\
    forall d' l' H', 0 < d' -> hnf_from_det d' n = Ok (Some l') -> In H' l' ->
       (exists A, unimodular n A /\ M = mmul H' A) -> d' = d /\ H' = H.
Proof.
  intros Hn HF. destruct (hnfd_py3 n M Hn HF) as [H [L [E [I [U [F R]]]]]].
  assert (Hpos : forall k, (k <= n)%nat -> 0 < diag_prod k H).
  { induction k as [|k IH]; intros Hk; cbn [diag_prod]; [lia|].
    assert (0 < get H k k) by (apply I; lia). specialize (IH ltac:(lia)). nia. }
  destruct (hnf_from_det_spec (diag_prod n H) n (Hpos n ltac:(lia)) Hn) as [l [El [Nd Hin]]].
  exists (diag_prod n H), l. split; [now apply Hpos|]. split; [assumption|].
  exists H. split; [apply Hin; auto|]. split; [eauto|].
  intros d' l' H' Hd' El' Hin' [A [HA EA]].
  destruct (hnf_from_det_spec d' n Hd' Hn) as [l2 [El2 [_ Hin2]]].
  rewrite El' in El2. injection El2 as <-. apply Hin2 in Hin'. destruct Hin' as [I' Dp].
  assert (R' : requiv n H' M). { rewrite EA. apply requiv_mmul; [apply I'|assumption]. }
  assert (H' = H).
  { apply (hnf_unique n); auto. now apply (requiv_trans n H' M). }
  subst H'. auto.
Qed.

(** ** C07 *)
Definition weak_hnf := hnf_gen (fun d h => - d < h < d).
Lemma hnfd_py2 n M : (0 < n)%nat -> full_rank n M ->
  exists H L, hnfd py2 M = Ok (H, L) /\ weak_hnf n H /\ unimodular n L /\ M = mmul H L /\ requiv n M H.
Proof.
  intros Hn HF.
  apply (hnfd_gen py2 (fun d h => - d < h < d) py2_floor py2_ceil); auto.
  intros b h Hb [H1 H2]. split; lia.
Qed.

Lemma hnfd_py3_factors n M : (0 < n)%nat -> full_rank n M ->
  exists H L, hnfd py3 M = Ok (H, L) /\ M = mmul H L /\ is_hnf n H /\ unimodular n L.
Proof. intros Hn HF. destruct (hnfd_py3 n M Hn HF) as [H [L [E [G [U [F _]]]]]]. eauto 10. Qed.

Lemma hnfd_py2_factors n M : (0 < n)%nat -> full_rank n M ->
  exists H L, hnfd py2 M = Ok (H, L) /\ M = mmul H L /\ unimodular n L /\
    wf n n H /\
    (forall i j, (i < j < n)%nat -> get H i j = 0) /\
    (forall i, (i < n)%nat -> 0 < get H i i) /\
    (forall i j, (j < i < n)%nat -> - get H i i < get H i j < get H i i).
Proof. intros Hn HF. destruct (hnfd_py2 n M Hn HF) as [H [L [E [G [U [F _]]]]]]. exists H, L. auto. Qed.
