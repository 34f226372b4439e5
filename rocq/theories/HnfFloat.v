(** hnfd with a division that is only exact for small numbers. *)
From Verif Require Import HnfModel HnfSpec HnfProofs LinAlg DirectProofs.
Local Open Scope Z_scope.

Lemma opp_abs p r t : p * r <= 0 -> 0 <= t -> Z.abs (p - t * r) = Z.abs p + t * Z.abs r /\ r * (p - t * r) <= 0.
Proof.
  intros H T. split; [|nia].
  destruct (Z.lt_trichotomy r 0) as [L|[->|L]]; [|rewrite Z.mul_0_r; lia|].
  - assert (0 <= p) by nia. rewrite (Z.abs_neq r) by lia. rewrite (Z.abs_eq p) by lia. rewrite Z.abs_eq by nia. ring.
  - assert (p <= 0) by nia. rewrite (Z.abs_eq r) by lia. rewrite (Z.abs_neq p) by lia. rewrite Z.abs_neq by nia. ring.
Qed.

Section Grow.
  Variable D : division.
  Variable B : Z.
  Hypothesis agree : forall a b, Z.abs a <= B -> 0 < b <= B -> fdiv D a b = fdiv py3 a b /\ cdiv D a b = cdiv py3 a b.

  Section N.
  Variable n : nat.
  Hypothesis Hn : (0 < n)%nat.

  Lemma step_cols M c1 c2 t : wf n n M -> (c1 < n)%nat -> (c2 < n)%nat -> c1 <> c2 ->
    wf n n (swap_cols (add_col M c1 c2 t) c1 c2) /\
    forall i, (i < n)%nat -> get (swap_cols (add_col M c1 c2 t) c1 c2) i c1 = get M i c2 /\
      get (swap_cols (add_col M c1 c2 t) c1 c2) i c2 = get M i c1 + t * get M i c2.
  Proof.
    intros W H1 H2 H. assert (W1 := wf_add_col n Hn M c1 c2 t W). split; [now apply wf_swap_cols|]. intros i Hi.
    rewrite !(get_swap_cols n) by auto. rewrite !(get_add_col n) by auto. rewrite !Nat.eqb_refl.
    destruct (Nat.eqb_spec c1 c2); [contradiction|]. destruct (Nat.eqb_spec c2 c1); [congruence|]. auto.
  Qed.
  Lemma gcd_loop_agree f : forall M c1 c2, wf n n M -> (c1 < n)%nat -> (c2 < n)%nat -> c1 <> c2 ->
    0 <= get M 0 c1 <= B -> 0 <= get M 0 c2 <= B -> gcd_loop D f M c1 c2 = gcd_loop py3 f M c1 c2.
  Proof.
    induction f as [|f IH]; intros M c1 c2 W H1 H2 H U V; cbn [gcd_loop]; [reflexivity|].
    destruct (Z.eqb_spec (get M 0 c2) 0) as [|NZ]; [reflexivity|].
    assert (A1 : Z.abs (get M 0 c1) <= B) by lia. assert (A2 : 0 < get M 0 c2 <= B) by lia. rewrite (proj1 (agree _ _ A1 A2)). cbn [py3 fdiv]. rewrite (proj2 (Z.eqb_neq _ _) NZ). cbn [bind].
    destruct (step_cols M c1 c2 (- (get M 0 c1 / get M 0 c2)) W H1 H2 H) as [W' G]. destruct (G 0%nat Hn) as [G1 G2].
    pose proof (Z.mod_pos_bound (get M 0 c1) (get M 0 c2) (proj1 A2)). rewrite Z.mod_eq in * by assumption.
    apply IH; auto; rewrite ?G1, ?G2; lia.
  Qed.
  Lemma gcd_loop_grow f : forall M M' c1 c2 (a b : nat -> Z) p q r s X Y, wf n n M -> (c1 < n)%nat -> (c2 < n)%nat -> c1 <> c2 ->
    (forall i, (i < n)%nat -> get M i c1 = p * a i + q * b i /\ get M i c2 = r * a i + s * b i) ->
    0 <= get M 0 c2 <= get M 0 c1 -> p * r <= 0 -> q * s <= 0 ->
    Z.abs p * get M 0 c2 + Z.abs r * get M 0 c1 <= Y -> Z.abs q * get M 0 c2 + Z.abs s * get M 0 c1 <= X ->
    Z.abs p <= Y -> Z.abs r <= Y -> Z.abs q <= X -> Z.abs s <= X ->
    gcd_loop py3 f M c1 c2 = Ok M' ->
    exists p' q' r' s', Z.abs p' <= Y /\ Z.abs r' <= Y /\ Z.abs q' <= X /\ Z.abs s' <= X /\ get M' 0 c1 <= get M 0 c1 /\
      forall i, (i < n)%nat -> get M' i c1 = p' * a i + q' * b i /\ get M' i c2 = r' * a i + s' * b i.
  Proof.
    induction f as [|f IH]; intros M M' c1 c2 a b p q r s X Y W H1 H2 H E UV S1 S2 Y1 X1 BP BR BQ BS; cbn [gcd_loop].
    - destruct (Z.eqb_spec (get M 0 c2) 0); [|discriminate]. intros [= <-]. exists p, q, r, s. repeat split; auto; try lia; now apply E.
    - destruct (Z.eqb_spec (get M 0 c2) 0) as [|NZ]. { intros [= <-]. exists p, q, r, s. repeat split; auto; try lia; now apply E. }
      cbn [py3 fdiv]. rewrite (proj2 (Z.eqb_neq _ _) NZ). cbn [bind]. set (t := get M 0 c1 / get M 0 c2).
      destruct (step_cols M c1 c2 (- t) W H1 H2 H) as [W' G]. intros L.
      assert (T0 : 0 <= t) by (apply Z.div_pos; lia).
      destruct (opp_abs p r t S1 T0) as [P1 P2]. destruct (opp_abs q s t S2 T0) as [Q1 Q2].
      assert (V0 : 0 < get M 0 c2) by lia. pose proof (Z.mod_pos_bound (get M 0 c1) (get M 0 c2) V0) as MB. rewrite Z.mod_eq in MB by assumption. fold t in MB.
      destruct (G 0%nat Hn) as [G1 G2].
      destruct (IH _ M' c1 c2 a b r s (p - t * r) (q - t * s) X Y W' H1 H2 H) as (p' & q' & r' & s' & B1 & B2 & B3 & B4 & B5 & B6); auto.
      + intros i Hi. destruct (G i Hi) as [-> ->]. destruct (E i Hi) as [-> ->]. split; ring.
      + rewrite G1, G2. lia.
      + rewrite G1, G2, P1. nia.
      + rewrite G1, G2, Q1. nia.
      + rewrite P1. nia.
      + rewrite Q1. nia.
      + exists p', q', r', s'. repeat split; auto; try (now apply B6). rewrite G1 in B5. lia.
  Qed.

  Lemma gcd_cols_grow M c1 c2 K Ka Kb : wf n n M -> (c1 < n)%nat -> (c2 < n)%nat -> c1 <> c2 -> 1 <= K <= B ->
    0 <= get M 0 c1 <= K -> 0 <= get M 0 c2 <= K ->
    (forall i, (i < n)%nat -> Z.abs (get M i c1) <= Ka) -> (forall i, (i < n)%nat -> Z.abs (get M i c2) <= Kb) ->
    exists M', gcd_cols D M c1 c2 = Ok M' /\ gcd_cols py3 M c1 c2 = Ok M' /\ wf n n M' /\ requiv n M M' /\
      0 <= get M' 0 c1 <= K /\ get M' 0 c2 = 0 /\
      (forall i, (i < n)%nat -> Z.abs (get M' i c1) <= K * (Ka + Kb) /\ Z.abs (get M' i c2) <= K * (Ka + Kb)) /\
      (forall i j, (i < n)%nat -> (j < n)%nat -> j <> c1 -> j <> c2 -> get M' i j = get M i j).
  Proof.
    intros W H1 H2 H HK U V BA BB.
    destruct (gcd_cols_ok py3 ltac:(intros x y X Y; cbn; now rewrite (proj2 (Z.eqb_neq _ _)) by lia) n Hn M c1 c2 W H1 H2 H (proj1 U) (proj1 V)) as (M' & E & R & P1 & P2 & O).
    pose proof (requiv_wf n M M' Hn R) as W'. exists M'.
    assert (AG : gcd_cols D M c1 c2 = Ok M').
    { rewrite <- E. unfold gcd_cols. destruct (_ <? _); apply gcd_loop_agree; auto using wf_swap_cols; try lia;
        rewrite (get_swap_cols n) by auto; rewrite ?Nat.eqb_refl; try lia. destruct (Nat.eqb_spec c1 c2); [contradiction|lia]. }
    assert (GR : exists p q r s, Z.abs p <= K /\ Z.abs r <= K /\ Z.abs q <= K /\ Z.abs s <= K /\ get M' 0 c1 <= K /\
      forall i, (i < n)%nat -> get M' i c1 = p * get M i c1 + q * get M i c2 /\ get M' i c2 = r * get M i c1 + s * get M i c2).
    { unfold gcd_cols in E. destruct (Z.ltb_spec (get M 0 c1) (get M 0 c2)) as [L|L].
      - assert (G : forall i, (i < n)%nat -> get (swap_cols M c1 c2) i c1 = get M i c2 /\ get (swap_cols M c1 c2) i c2 = get M i c1).
        { intros i Hi. rewrite !(get_swap_cols n) by auto. rewrite !Nat.eqb_refl. destruct (Nat.eqb_spec c1 c2); [contradiction|auto]. }
        destruct (G 0%nat Hn) as [G1 G2].
        destruct (gcd_loop_grow (gcd_fuel (swap_cols M c1 c2) c1 c2) (swap_cols M c1 c2) M' c1 c2 (fun i => get M i c1) (fun i => get M i c2) 0 1 1 0 K K (wf_swap_cols n Hn M c1 c2 W) H1 H2 H) as (p & q & r & s & X1 & X2 & X3 & X4 & X5 & X6); auto; try (rewrite ?G1, ?G2; lia).
        { intros i Hi. destruct (G i Hi) as [-> ->]. split; ring. }
        exists p, q, r, s. rewrite G1 in X5. repeat split; try lia; now apply X6.
      - destruct (gcd_loop_grow (gcd_fuel M c1 c2) M M' c1 c2 (fun i => get M i c1) (fun i => get M i c2) 1 0 0 1 K K W H1 H2 H) as (p & q & r & s & X1 & X2 & X3 & X4 & X5 & X6); auto; try lia.
        exists p, q, r, s. repeat split; try lia; now apply X6. }
    destruct GR as (p & q & r & s & X1 & X2 & X3 & X4 & X5 & X6).
    split; [exact AG|]. split; [exact E|]. split; [exact W'|]. split; [exact R|]. split; [lia|]. split; [exact P2|]. split; [|exact O].
    intros i Hi. destruct (X6 i Hi) as [-> ->]. pose proof (BA i Hi). pose proof (BB i Hi).
    assert (T : forall x y u v, Z.abs x <= K -> Z.abs y <= K -> Z.abs u <= Ka -> Z.abs v <= Kb -> Z.abs (x * u + y * v) <= K * (Ka + Kb)).
    { intros. eapply Z.le_trans; [apply Z.abs_triangle|]. rewrite !Z.abs_mul. assert (Z.abs x * Z.abs u <= K * Ka) by (apply Z.mul_le_mono_nonneg; lia). assert (Z.abs y * Z.abs v <= K * Kb) by (apply Z.mul_le_mono_nonneg; lia). lia. }
    split; apply T; auto.
  Qed.

  Lemma fix_row_grow k H : wf n n H -> (0 < k < n)%nat -> Z.abs (get H k 0) <= B -> 0 < get H k k <= B ->
    exists t, fix_row D H k = Ok (add_col H 0 k t) /\ fix_row py3 H k = Ok (add_col H 0 k t) /\ Z.abs t <= Z.abs (get H k 0) /\
      Z.abs (get H k 0 + t * get H k k) <= Z.abs (get H k 0) + get H k k.
  Proof.
    intros W Hk HA HB. unfold fix_row. replace (ncols H) with n by (destruct n; [lia|symmetry; eapply ncols_wf; eassumption]).
    destruct (Nat.leb_spec n k); [lia|].
    destruct (Z.ltb_spec 0 (get H k 0)) as [L|L].
    - rewrite (proj2 (agree _ _ HA HB)). cbn [py3 cdiv]. rewrite (proj2 (Z.eqb_neq _ _)) by lia. cbn [bind].
      set (b := get H k k) in *. set (a := get H k 0) in *.
      pose proof (Z.div_mod (- a) b ltac:(lia)) as DM. pose proof (Z.mod_pos_bound (- a) b ltac:(lia)) as MB.
      rewrite !(get_add_col n) by (auto; lia). cbn [Nat.eqb]. destruct (Nat.eqb_spec k 0); [lia|]. fold a b.
      destruct (Z.leb_spec (a + - - (- a / b) * b) (- b)); [nia|]. exists (- - (- a / b)). repeat split; nia.
    - cbn [bind]. destruct (Z.leb_spec (get H k 0) (- get H k k)) as [Q|Q].
      + assert (A1 : Z.abs (- get H k 0) <= B) by lia. rewrite (proj1 (agree _ _ A1 HB)). cbn [py3 fdiv]. rewrite (proj2 (Z.eqb_neq _ _)) by lia. cbn [bind].
        eexists. split; [reflexivity|]. split; [reflexivity|].
        set (b := get H k k) in *. set (a := get H k 0) in *.
        pose proof (Z.div_mod (- a) b ltac:(lia)) as DM. pose proof (Z.mod_pos_bound (- a) b ltac:(lia)) as MB. split; nia.
      + exists 0. assert (E : add_col H 0 k 0 = H). { apply (mat_ext n n); auto using wf_add_col. intros i j Hi Hj. rewrite (get_add_col n) by auto. destruct (Nat.eqb_spec j 0) as [->|]; lia. }
        rewrite E. repeat split; lia.
  Qed.
  End N.

  Lemma nonneg_row0_facts n M K : (0 < n)%nat -> wf n n M -> (forall i j, (i < n)%nat -> (j < n)%nat -> Z.abs (get M i j) <= K) ->
    wf n n (nonneg_row0 M) /\ requiv n M (nonneg_row0 M) /\ (forall j, (j < n)%nat -> 0 <= get (nonneg_row0 M) 0 j <= K) /\
    (forall i j, (i < n)%nat -> (j < n)%nat -> Z.abs (get (nonneg_row0 M) i j) <= K).
  Proof.
    intros Hn W BM. change (nonneg_row0 M) with (neg_cols (fun j => get M 0 j <? 0) M).
    split; [now apply wf_neg_cols|]. split; [now apply requiv_neg_cols|].
    split; [intros j Hj|intros i j Hi Hj]; rewrite (get_neg_cols n) by auto.
    - specialize (BM 0%nat j Hn Hj). destruct (Z.ltb_spec (get M 0 j) 0); lia.
    - specialize (BM i j Hi Hj). destruct (_ <? _); lia.
  Qed.

  (** two columns: the entries of the result of clear_row stay below 2 K^2 *)
  Lemma hnf_H2 M K : full_rank 2 M -> 1 <= K -> 2 * K * K <= B -> (forall i j, (i < 2)%nat -> (j < 2)%nat -> Z.abs (get M i j) <= K) ->
    hnf_H D 2 M = hnf_H py3 2 M.
  Proof.
    intros F HK HB BM. pose proof F as [W _]. destruct (nonneg_row0_facts 2 M K ltac:(lia) W BM) as (W0 & R0 & P0 & B0).
    destruct M as [|m M']; [destruct W; discriminate|]. set (M := m :: M') in *.
    change (hnf_H D 2 M) with (let* H := (let* H' := gcd_cols D (nonneg_row0 M) 0 1 in Ok H') in let* Hsub := hnf_H D 1 (subblock H) in fix_rows D (seq 1 (nrows M - 1)) (set_subblock H Hsub)).
    change (hnf_H py3 2 M) with (let* H := (let* H' := gcd_cols py3 (nonneg_row0 M) 0 1 in Ok H') in let* Hsub := hnf_H py3 1 (subblock H) in fix_rows py3 (seq 1 (nrows M - 1)) (set_subblock H Hsub)).
    destruct (gcd_cols_grow 2 ltac:(lia) (nonneg_row0 M) 0 1 K K K W0) as (H1 & -> & -> & W1 & R1 & Q1 & Q2 & Q3 & _); auto; try lia; try nia.
    cbn [bind].
    assert (F1 : full_rank 2 H1) by (apply (full_rank_requiv 2 M); [lia| |exact F]; apply (requiv_trans 2 M (nonneg_row0 M)); auto).
    destruct (full_rank_subblock 0 H1 F1) as [G1 FS]; [intros j Hj; replace j with 1%nat by lia; exact Q2|lia|].
    pose proof FS as [WS _].
    assert (ES : forall X, hnf_H X 1 (subblock H1) = Ok (if 0 <? get (subblock H1) 0 0 then subblock H1 else mopp (subblock H1))) by (intros X; destruct (subblock H1); [destruct WS; discriminate|reflexivity]).
    rewrite !ES. cbn [bind]. replace (nrows M - 1)%nat with 1%nat by (rewrite (nrows_wf 2 2 M W); reflexivity). cbn [seq fix_rows].
    set (Hs := if _ <? _ then _ else _).
    assert (GS : 0 < get Hs 0 0 <= B).
    { assert (NZ : get (subblock H1) 0 0 <> 0).
      { intros E. destruct FS as [_ FS]. enough (1 = 0) by lia. apply (FS (fun _ => 1)) with (i := O); [|lia].
        intros j Hj. apply sumZ_zero. intros k Hk. replace j with O by lia. replace k with O by lia. rewrite E. reflexivity. }
      pose proof (get_subblock 0 H1 0 0 W1 ltac:(lia) ltac:(lia)) as GE.
      assert (BB : Z.abs (get (subblock H1) 0 0) <= B). { rewrite GE. destruct (Q3 1%nat ltac:(lia)). lia. }
      unfold Hs. destruct (Z.ltb_spec 0 (get (subblock H1) 0 0)); [lia|].
      change (mopp (subblock H1)) with (neg_cols (fun _ => true) (subblock H1)). rewrite (get_neg_cols 1) by (auto; lia). lia. }
    assert (WSS : wf 2 2 (set_subblock H1 Hs)) by now apply (wf_set_subblock 1).
    destruct (fix_row_grow 2 ltac:(lia) 1 (set_subblock H1 Hs) WSS ltac:(lia)) as (t & -> & -> & _).
    - rewrite (get_set_subblock 1) by (auto; lia). destruct (Q3 1%nat ltac:(lia)). lia.
    - rewrite (get_set_subblock 1) by (auto; lia). exact GS.
    - reflexivity.
  Qed.

  Lemma hnf_H3 M K : full_rank 3 M -> 1 <= K -> 18 * K ^ 6 <= B -> (forall i j, (i < 3)%nat -> (j < 3)%nat -> Z.abs (get M i j) <= K) ->
    hnf_H D 3 M = hnf_H py3 3 M.
  Proof.
    intros F HK HB BM. pose proof F as [W _]. destruct (nonneg_row0_facts 3 M K ltac:(lia) W BM) as (W0 & R0 & P0 & B0).
    assert (K3 : 1 <= K ^ 3) by (pose proof (Z.pow_pos_nonneg K 3 ltac:(lia) ltac:(lia)); lia).
    assert (K32 : K ^ 2 <= K ^ 3) by (apply Z.pow_le_mono_r; lia). assert (K31 : K ^ 1 <= K ^ 3) by (apply Z.pow_le_mono_r; lia). rewrite Z.pow_1_r in K31.
    assert (K6 : K ^ 6 = K ^ 3 * K ^ 3) by (rewrite <- Z.pow_add_r by lia; reflexivity). rewrite K6 in HB.
    assert (K2E : K * K = K ^ 2) by ring. assert (K3E : K * (K * K) = K ^ 3) by ring.
    set (k3 := K ^ 3) in *.
    destruct M as [|m M']; [destruct W; discriminate|]. set (M := m :: M') in *.
    change (hnf_H D 3 M) with (let* H := (let* H' := gcd_cols D (nonneg_row0 M) 1 2 in let* H'' := gcd_cols D H' 0 1 in Ok H'') in let* Hsub := hnf_H D 2 (subblock H) in fix_rows D (seq 1 (nrows M - 1)) (set_subblock H Hsub)).
    change (hnf_H py3 3 M) with (let* H := (let* H' := gcd_cols py3 (nonneg_row0 M) 1 2 in let* H'' := gcd_cols py3 H' 0 1 in Ok H'') in let* Hsub := hnf_H py3 2 (subblock H) in fix_rows py3 (seq 1 (nrows M - 1)) (set_subblock H Hsub)).
    destruct (gcd_cols_grow 3 ltac:(lia) (nonneg_row0 M) 1 2 K K K W0) as (H0 & -> & -> & WH0 & RH0 & Q1 & Q2 & Q3 & Q4); auto; try lia; try nia.
    cbn [bind].
    destruct (gcd_cols_grow 3 ltac:(lia) H0 0 1 K K (2 * K ^ 2) WH0) as (H1 & -> & -> & W1 & R1 & S1 & S2 & S3 & S4); auto; try lia; try nia.
    { rewrite Q4 by lia. apply P0. lia. }
    { intros i Hi. rewrite Q4 by lia. apply B0; lia. }
    { intros i Hi. destruct (Q3 i Hi). lia. }
    cbn [bind].
    assert (RM : requiv 3 M H1) by (apply (requiv_trans 3 M (nonneg_row0 M)); [lia|exact R0|]; apply (requiv_trans 3 _ H0); auto; lia).
    assert (F1 : full_rank 3 H1) by (apply (full_rank_requiv 3 M); [lia|exact RM|exact F]).
    assert (Z2 : forall j, (0 < j < 3)%nat -> get H1 0 j = 0).
    { intros j Hj. destruct (Nat.eq_dec j 1) as [->|]; [exact S2|]. replace j with 2%nat by lia. rewrite S4 by lia. exact Q2. }
    destruct (full_rank_subblock 1 H1 F1 Z2) as [G1 FS]; [lia|].
    assert (B1 : forall i j, (i < 3)%nat -> (j < 3)%nat -> Z.abs (get H1 i j) <= 3 * k3).
    { intros i j Hi Hj. destruct (Nat.eq_dec j 2) as [->|]; [rewrite S4 by lia; destruct (Q3 i Hi); lia|]. destruct (S3 i Hi) as [T0 T1].
      replace (K * (K + 2 * K ^ 2)) with (K ^ 2 + 2 * k3) in * by (unfold k3; ring).
      destruct j as [|[|]]; [| |lia]; lia. }
    rewrite (hnf_H2 (subblock H1) (3 * k3)); [|exact FS|lia|nia|].
    2:{ intros i j Hi Hj. rewrite (get_subblock 1) by (auto; lia). apply B1; lia. }
    destruct (hnf_H_ok py3 (fun b h => - b < h <= 0) ltac:(intros x y X Y; cbn; now rewrite (proj2 (Z.eqb_neq _ _)) by lia)
      ltac:(intros x y X Y; cbn; rewrite (proj2 (Z.eqb_neq _ _)) by lia; eexists; split; [reflexivity|];
        pose proof (Z.div_mod (- x) y ltac:(lia)); pose proof (Z.mod_pos_bound (- x) y ltac:(lia)); nia)
      ltac:(intros x y _ X; exact X) 1 (subblock H1) FS) as (Hs & -> & RS & WS & US & DS & PS).
    cbn [bind]. replace (nrows M - 1)%nat with 2%nat by (rewrite (nrows_wf 3 3 M W); reflexivity). cbn [seq fix_rows].
    set (G := set_subblock H1 Hs). assert (WG : wf 3 3 G) by now apply (wf_set_subblock 2).
    assert (RG : requiv 3 M G) by (apply (requiv_trans 3 M H1); [lia|exact RM|]; now apply requiv_subblock).
    assert (GG : forall i j, (i < 3)%nat -> (j < 3)%nat -> get G i j = match i, j with S i', S j' => get Hs i' j' | _, _ => get H1 i j end) by (intros; now apply (get_set_subblock 2)).
    assert (DG : get G 0 0 * get G 1 1 * get G 2 2 <= 6 * k3).
    { destruct RG as (_ & U & V & WU & WV & UV & _ & EG). assert (D3 : dim23 3) by (right; reflexivity).
      assert (DU : Z.abs (det U) = 1). { pose proof (det_mmul_Z 3 U V D3 WU WV) as DM. rewrite UV in DM. change (det (eye 3)) with 1 in DM. destruct (Z.mul_eq_1 (det U) (det V) (eq_sym DM)) as [-> | ->]; reflexivity. }
      assert (DE : Z.abs (det G) = Z.abs (det M)) by (rewrite EG, (det_mmul_Z 3) by auto; rewrite Z.abs_mul, DU; lia).
      assert (DGE : det G = get G 0 0 * get G 1 1 * get G 2 2).
      { assert (Z01 : get G 0 1 = 0) by (rewrite GG by lia; apply Z2; lia). assert (Z02 : get G 0 2 = 0) by (rewrite GG by lia; apply Z2; lia).
        assert (Z12 : get G 1 2 = 0) by (rewrite GG by lia; apply US; lia).
        clear - WG Z01 Z02 Z12. apply wf3_inv in WG. destruct WG as (a & b & c & d & e & f & g & h & i & ->). cbn in Z01, Z02, Z12. subst. cbn. ring. }
      assert (DM : Z.abs (det M) <= 6 * k3).
      { clear - W BM K3E HK. assert (X := fun i j Hi Hj => BM i j Hi Hj). clear BM. apply wf3_inv in W. destruct W as (a & b & c & d & e & f & g & h & i & EM). rewrite EM in *.
        rename X into T.
        pose proof (T 0%nat 0%nat ltac:(lia) ltac:(lia)) as X00. pose proof (T 0%nat 1%nat ltac:(lia) ltac:(lia)) as X01. pose proof (T 0%nat 2%nat ltac:(lia) ltac:(lia)) as X02.
        pose proof (T 1%nat 0%nat ltac:(lia) ltac:(lia)) as X10. pose proof (T 1%nat 1%nat ltac:(lia) ltac:(lia)) as X11. pose proof (T 1%nat 2%nat ltac:(lia) ltac:(lia)) as X12.
        pose proof (T 2%nat 0%nat ltac:(lia) ltac:(lia)) as X20. pose proof (T 2%nat 1%nat ltac:(lia) ltac:(lia)) as X21. pose proof (T 2%nat 2%nat ltac:(lia) ltac:(lia)) as X22.
        cbn in X00, X01, X02, X10, X11, X12, X20, X21, X22. clear T.
        assert (T : forall x y z, Z.abs x <= K -> Z.abs y <= K -> Z.abs z <= K -> Z.abs (x * (y * z)) <= k3).
        { intros x y z Hx Hy Hz. rewrite !Z.abs_mul. rewrite <- K3E. apply Z.mul_le_mono_nonneg; try lia. apply Z.mul_le_mono_nonneg; lia. }
        replace (det [[a; b; c]; [d; e; f]; [g; h; i]]) with (a * (e * i) - a * (f * h) - b * (d * i) + b * (f * g) + c * (d * h) - c * (e * g)) by (cbn; ring).
        pose proof (T a e i X00 X11 X22). pose proof (T a f h X00 X12 X21). pose proof (T b d i X01 X10 X22). pose proof (T b f g X01 X12 X20). pose proof (T c d h X02 X10 X21). pose proof (T c e g X02 X11 X20).
        clear - H H0 H1 H2 H3 H4. revert H H0 H1 H2 H3 H4. generalize (a * (e * i)) (a * (f * h)) (b * (d * i)) (b * (f * g)) (c * (d * h)) (c * (e * g)). clear. intros. lia. }
      rewrite DGE in DE. lia. }
    assert (P00 : 1 <= get G 0 0) by (rewrite GG by lia; lia). assert (P11 : 1 <= get G 1 1) by (rewrite GG by lia; pose proof (DS 0%nat ltac:(lia)); lia). assert (P22 : 1 <= get G 2 2) by (rewrite GG by lia; pose proof (DS 1%nat ltac:(lia)); lia).
    assert (LL : get G 1 1 <= 6 * k3 /\ get G 2 2 <= 6 * k3).
    { clear - DG P00 P11 P22. revert DG P00 P11 P22. generalize (get G 0 0) (get G 1 1) (get G 2 2). intros x y z D1 X Y Z1. assert (y <= x * y) by nia. assert (y <= x * y * z) by nia. assert (z <= x * y * z) by nia. lia. }
    destruct LL as [L1 L2].
    assert (C10 : Z.abs (get G 1 0) <= 3 * k3) by (rewrite GG by lia; apply B1; lia). assert (C20 : Z.abs (get G 2 0) <= 3 * k3) by (rewrite GG by lia; apply B1; lia).
    assert (C21 : Z.abs (get G 2 1) <= get G 2 2 - 1) by (rewrite !GG by lia; pose proof (PS 1%nat 0%nat ltac:(lia)); lia).
    destruct (fix_row_grow 3 ltac:(lia) 1 G WG ltac:(lia)) as (t & -> & -> & BT & _); [nia|nia|]. cbn [bind].
    assert (WA : wf 3 3 (add_col G 0 1 t)) by (apply wf_add_col; auto; lia).
    destruct (fix_row_grow 3 ltac:(lia) 2 (add_col G 0 1 t) WA ltac:(lia)) as (t2 & -> & -> & _); [| |reflexivity].
    - rewrite (get_add_col 3) by (auto; lia). cbn [Nat.eqb].
      assert (Z.abs (t * get G 2 1) <= 3 * k3 * (get G 2 2 - 1)) by (rewrite Z.abs_mul; apply Z.mul_le_mono_nonneg; lia).
      assert (3 * k3 * get G 2 2 <= 3 * k3 * (6 * k3)) by (apply Z.mul_le_mono_nonneg_l; lia). lia.
    - rewrite (get_add_col 3) by (auto; lia). cbn [Nat.eqb]. nia.
  Qed.
End Grow.
