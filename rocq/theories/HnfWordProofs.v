(** hnfd on machine integers is hnfd on integers while the numbers are small. *)
From Verif Require Import HnfModel HnfSpec HnfProofs LinAlg DirectProofs HnfFloat HnfWord.
Local Open Scope Z_scope.

Lemma wrap_add W x y : 1 <= W -> wrap W (x + wrap W y) = wrap W (x + y).
Proof.
  intros HW. unfold wrap. assert (P : 2 ^ W <> 0) by (apply Z.pow_nonzero; lia). f_equal.
  replace (x + ((y + 2 ^ (W - 1)) mod 2 ^ W - 2 ^ (W - 1)) + 2 ^ (W - 1)) with (x + (y + 2 ^ (W - 1)) mod 2 ^ W) by ring.
  rewrite Z.add_mod_idemp_r by assumption. f_equal. ring.
Qed.

Lemma step_le p r t u v Y : 0 <= p -> 0 <= r -> 0 < v -> t * v <= u -> 0 <= t -> p * v + r * u <= Y ->
  p + t * r <= Y /\ r * (u - t * v) + (p + t * r) * v <= Y.
Proof. intros. split; [|nia]. assert (p <= p * v) by nia. assert (t <= u) by nia. assert (t * r <= r * u) by nia. lia. Qed.

Section Word.
  Variable W : Z.
  Hypothesis HW : 1 <= W.
  Variable D : division.
  Variable B : Z.
  Hypothesis HB : B < 2 ^ (W - 1).
  Hypothesis agree : forall a b, Z.abs a <= B -> 0 < b <= B -> fdiv D a b = fdiv py3 a b /\ cdiv D a b = cdiv py3 a b.

  Lemma wrap_id z : Z.abs z <= B -> wrap W z = z.
  Proof.
    intros H. unfold wrap. assert (2 ^ W = 2 * 2 ^ (W - 1)) as -> by (rewrite <- Z.pow_succ_r by lia; f_equal; lia).
    rewrite Z.mod_small by lia. ring.
  Qed.
  Lemma in_word_ok z : Z.abs z <= B -> in_word W z = true.
  Proof. intros H. unfold in_word. rewrite (proj2 (Z.leb_le _ _)), (proj2 (Z.ltb_lt _ _)) by lia. reflexivity. Qed.

  Section N.
  Variable n : nat.
  Hypothesis Hn : (0 < n)%nat.

  Lemma dims (M : mat Z) : wf n n M -> nrows M = n /\ ncols M = n.
  Proof. intros WM. split; [exact (nrows_wf _ _ _ WM)|]. destruct n; [lia|exact (ncols_wf _ _ _ WM)]. Qed.
  Lemma add_col_word M c1 c2 t : wf n n M -> (c1 < n)%nat -> (c2 < n)%nat -> Z.abs t <= B ->
    (forall i, (i < n)%nat -> Z.abs (get M i c1 + t * get M i c2) <= B) -> add_colw W M c1 c2 t = Ok (add_col M c1 c2 t).
  Proof.
    intros WM H1 H2 Ht H. unfold add_colw, add_col. rewrite in_word_ok by assumption. f_equal. destruct (dims M WM) as [-> ->].
    apply mk_ext. intros i j Hi Hj. destruct (j =? c1)%nat; [|reflexivity]. rewrite wrap_add, wrap_id by auto. reflexivity.
  Qed.
  Lemma nonneg_row0_word M : wf n n M -> (forall i j, (i < n)%nat -> (j < n)%nat -> Z.abs (get M i j) <= B) -> nonneg_row0w W M = nonneg_row0 M.
  Proof.
    intros WM H. unfold nonneg_row0w, nonneg_row0. destruct (dims M WM) as [-> ->]. apply mk_ext. intros i j Hi Hj.
    destruct (_ <? _); [|reflexivity]. apply wrap_id. rewrite Z.abs_opp. auto.
  Qed.

  Lemma gcd_loop_word f : forall M c1 c2 (a b : nat -> Z) p q r s X Y Ka Kb, wf n n M -> (c1 < n)%nat -> (c2 < n)%nat -> c1 <> c2 ->
    (forall i, (i < n)%nat -> get M i c1 = p * a i + q * b i /\ get M i c2 = r * a i + s * b i) ->
    (forall i, (i < n)%nat -> Z.abs (a i) <= Ka /\ Z.abs (b i) <= Kb) -> Y * Ka + X * Kb <= B ->
    0 <= get M 0 c2 <= get M 0 c1 -> get M 0 c1 <= B -> p * r <= 0 -> q * s <= 0 ->
    Z.abs p * get M 0 c2 + Z.abs r * get M 0 c1 <= Y -> Z.abs q * get M 0 c2 + Z.abs s * get M 0 c1 <= X ->
    Z.abs p <= Y -> Z.abs r <= Y -> Z.abs q <= X -> Z.abs s <= X ->
    gcd_loopw W D f M c1 c2 = gcd_loop py3 f M c1 c2.
  Proof.
    induction f as [|f IH]; intros M c1 c2 a b p q r s X Y Ka Kb WM H1 H2 H E AB XY UV UB S1 S2 Y1 X1 BP BR BQ BS; cbn [gcd_loop gcd_loopw]; [reflexivity|].
    destruct (Z.eqb_spec (get M 0 c2) 0) as [|NZ]; [reflexivity|].
    assert (A1 : Z.abs (get M 0 c1) <= B) by lia. assert (A2 : 0 < get M 0 c2 <= B) by lia. rewrite (proj1 (agree _ _ A1 A2)).
    cbn [py3 fdiv]. rewrite (proj2 (Z.eqb_neq _ _) NZ). cbn [bind]. set (t := get M 0 c1 / get M 0 c2).
    destruct (step_cols n Hn M c1 c2 (- t) WM H1 H2 H) as [W' G].
    assert (T0 : 0 <= t) by (apply Z.div_pos; lia).
    destruct (opp_abs p r t S1 T0) as [P1 P2]. destruct (opp_abs q s t S2 T0) as [Q1 Q2].
    assert (V0 : 0 < get M 0 c2) by lia. pose proof (Z.mod_pos_bound (get M 0 c1) (get M 0 c2) V0) as MB. rewrite Z.mod_eq in MB by assumption. fold t in MB.
    destruct (G 0%nat Hn) as [G1 G2].
    assert (TV : t * get M 0 c2 <= get M 0 c1) by lia.
    destruct (step_le _ _ t _ _ Y (Z.abs_nonneg p) (Z.abs_nonneg r) V0 TV T0 Y1) as [TB TB']. rewrite <- P1 in TB, TB'.
    destruct (step_le _ _ t _ _ X (Z.abs_nonneg q) (Z.abs_nonneg s) V0 TV T0 X1) as [SB SB']. rewrite <- Q1 in SB, SB'.
    rewrite add_col_word; auto.
    - cbn [bind]. apply (IH _ c1 c2 a b r s (p - t * r) (q - t * s) X Y Ka Kb W' H1 H2 H); auto.
      + intros i Hi. destruct (G i Hi) as [-> ->]. destruct (E i Hi) as [-> ->]. split; ring.
      + rewrite G1, G2. lia.
      + rewrite G1. lia.
      + rewrite G1, G2. replace (get M 0 c1 + - t * get M 0 c2) with (get M 0 c1 - t * get M 0 c2) by ring. exact TB'.
      + rewrite G1, G2. replace (get M 0 c1 + - t * get M 0 c2) with (get M 0 c1 - t * get M 0 c2) by ring. exact SB'.
    - rewrite Z.abs_opp, Z.abs_eq by assumption. unfold t. apply Z.le_trans with (get M 0 c1); [|lia]. apply Z.div_le_upper_bound; [lia|]. nia.
    - intros i Hi. destruct (E i Hi) as [-> ->]. destruct (AB i Hi) as [KA KB].
      replace (p * a i + q * b i + - t * (r * a i + s * b i)) with ((p - t * r) * a i + (q - t * s) * b i) by ring.
      eapply Z.le_trans; [apply Z.abs_triangle|]. rewrite !Z.abs_mul.
      eapply Z.le_trans; [|exact XY]. apply Z.add_le_mono; apply Z.mul_le_mono_nonneg; auto using Z.abs_nonneg.
  Qed.
  Lemma gcd_cols_word M c1 c2 K Ka Kb : wf n n M -> (c1 < n)%nat -> (c2 < n)%nat -> c1 <> c2 -> 1 <= K <= B ->
    0 <= get M 0 c1 <= K -> 0 <= get M 0 c2 <= K ->
    (forall i, (i < n)%nat -> Z.abs (get M i c1) <= Ka) -> (forall i, (i < n)%nat -> Z.abs (get M i c2) <= Kb) -> K * (Ka + Kb) <= B ->
    gcd_colsw W D M c1 c2 = gcd_cols py3 M c1 c2.
  Proof.
    intros WM H1 H2 H HK U V BA BB XY. unfold gcd_colsw, gcd_cols.
    assert (AB : forall i, (i < n)%nat -> Z.abs (get M i c1) <= Ka /\ Z.abs (get M i c2) <= Kb) by auto.
    destruct (Z.ltb_spec (get M 0 c1) (get M 0 c2)) as [L|L].
    - assert (G : forall i, (i < n)%nat -> get (swap_cols M c1 c2) i c1 = get M i c2 /\ get (swap_cols M c1 c2) i c2 = get M i c1).
      { intros i Hi. rewrite !(get_swap_cols n) by auto. rewrite !Nat.eqb_refl. destruct (Nat.eqb_spec c1 c2); [contradiction|auto]. }
      destruct (G 0%nat Hn) as [G1 G2].
      apply (gcd_loop_word _ (swap_cols M c1 c2) c1 c2 (fun i => get M i c1) (fun i => get M i c2) 0 1 1 0 K K Ka Kb (wf_swap_cols n Hn M c1 c2 WM) H1 H2 H); auto; try (rewrite ?G1, ?G2; lia).
      intros i Hi. destruct (G i Hi) as [-> ->]. split; ring.
    - apply (gcd_loop_word _ M c1 c2 (fun i => get M i c1) (fun i => get M i c2) 1 0 0 1 K K Ka Kb WM H1 H2 H); auto; lia.
  Qed.
  Lemma fix_row_word k H : wf n n H -> (0 < k < n)%nat -> Z.abs (get H k 0) <= B -> 0 < get H k k <= B ->
    (forall i, (i < n)%nat -> i <> k -> Z.abs (get H i 0) + Z.abs (get H k 0) * Z.abs (get H i k) <= B) ->
    fix_roww W D H k = fix_row py3 H k.
  Proof.
    intros WH Hk HA HK HO. unfold fix_roww, fix_row. destruct (dims H WH) as [_ ->]. destruct (Nat.leb_spec n k); [lia|].
    assert (ADD : forall t, Z.abs t <= Z.abs (get H k 0) -> Z.abs (get H k 0 + t * get H k k) <= B -> add_colw W H 0 k t = Ok (add_col H 0 k t)).
    { intros t Ht Hb. apply add_col_word; auto; try lia. intros i Hi. destruct (Nat.eq_dec i k) as [->|N]; [exact Hb|].
      specialize (HO i Hi N). eapply Z.le_trans; [apply Z.abs_triangle|]. rewrite Z.abs_mul.
      assert (Z.abs t * Z.abs (get H i k) <= Z.abs (get H k 0) * Z.abs (get H i k)) by (apply Z.mul_le_mono_nonneg_r; lia). lia. }
    destruct (Z.ltb_spec 0 (get H k 0)) as [L|L].
    - rewrite (proj2 (agree _ _ HA HK)). cbn [py3 cdiv]. rewrite (proj2 (Z.eqb_neq _ _)) by lia. cbn [bind].
      set (b := get H k k) in *. set (a := get H k 0) in *.
      pose proof (Z.div_mod (- a) b ltac:(lia)) as DM. pose proof (Z.mod_pos_bound (- a) b ltac:(lia)) as MB.
      rewrite ADD by nia. cbn [bind].
      rewrite !(get_add_col n) by (auto; lia). cbn [Nat.eqb]. destruct (Nat.eqb_spec k 0); [lia|]. fold a b.
      rewrite (wrap_id (- b)) by lia.
      destruct (Z.leb_spec (a + - - (- a / b) * b) (- b)); [nia|reflexivity].
    - cbn [bind]. rewrite !wrap_id by lia. destruct (Z.leb_spec (get H k 0) (- get H k k)) as [Q|Q]; [|reflexivity].
      assert (A1 : Z.abs (- get H k 0) <= B) by lia. rewrite (proj1 (agree _ _ A1 HK)). cbn [py3 fdiv]. rewrite (proj2 (Z.eqb_neq _ _)) by lia. cbn [bind].
      set (b := get H k k) in *. set (a := get H k 0) in *.
      pose proof (Z.div_mod (- a) b ltac:(lia)) as DM. pose proof (Z.mod_pos_bound (- a) b ltac:(lia)) as MB. apply ADD; nia.
  Qed.
  End N.

  Lemma hnf_H2_word M K : full_rank 2 M -> 1 <= K -> 2 * K * K <= B -> (forall i j, (i < 2)%nat -> (j < 2)%nat -> Z.abs (get M i j) <= K) ->
    hnf_Hw W D 2 M = hnf_H py3 2 M.
  Proof.
    intros F HK HB2 BM. pose proof F as [WM _]. destruct (nonneg_row0_facts 2 M K ltac:(lia) WM BM) as (W0 & R0 & P0 & B0).
    assert (NN : nonneg_row0w W M = nonneg_row0 M) by (apply (nonneg_row0_word 2); auto; try lia; intros i j Hi Hj; specialize (BM i j Hi Hj); nia).
    destruct M as [|m M']; [destruct WM; discriminate|]. set (M := m :: M') in *.
    change (hnf_Hw W D 2 M) with (let* H := (let* H' := gcd_colsw W D (nonneg_row0w W M) 0 1 in Ok H') in let* Hsub := hnf_Hw W D 1 (subblock H) in fix_rowsw W D (seq 1 (nrows M - 1)) (set_subblock H Hsub)).
    change (hnf_H py3 2 M) with (let* H := (let* H' := gcd_cols py3 (nonneg_row0 M) 0 1 in Ok H') in let* Hsub := hnf_H py3 1 (subblock H) in fix_rows py3 (seq 1 (nrows M - 1)) (set_subblock H Hsub)).
    rewrite NN, (gcd_cols_word 2 ltac:(lia) (nonneg_row0 M) 0 1 K K K W0); auto; try lia; try nia.
    destruct (gcd_cols_grow D B agree 2 ltac:(lia) (nonneg_row0 M) 0 1 K K K W0) as (H1 & _ & -> & W1 & R1 & Q1 & Q2 & Q3 & _); auto; try lia; try nia.
    cbn [bind].
    assert (F1 : full_rank 2 H1) by (apply (full_rank_requiv 2 M); [lia| |exact F]; apply (requiv_trans 2 M (nonneg_row0 M)); auto).
    destruct (full_rank_subblock 0 H1 F1) as [G1 FS]; [intros j Hj; replace j with 1%nat by lia; exact Q2|lia|].
    pose proof FS as [WS _].
    pose proof (get_subblock 0 H1 0 0 W1 ltac:(lia) ltac:(lia)) as GE.
    assert (BB : Z.abs (get (subblock H1) 0 0) <= B). { rewrite GE. destruct (Q3 1%nat ltac:(lia)). lia. }
    assert (ES : hnf_H py3 1 (subblock H1) = Ok (if 0 <? get (subblock H1) 0 0 then subblock H1 else mopp (subblock H1))) by (destruct (subblock H1); [destruct WS; discriminate|reflexivity]).
    assert (EW : hnf_Hw W D 1 (subblock H1) = Ok (if 0 <? get (subblock H1) 0 0 then subblock H1 else mopp (subblock H1))).
    { transitivity (Ok (if 0 <? get (subblock H1) 0 0 then subblock H1 else moppw W (subblock H1))); [destruct (subblock H1); [destruct WS; discriminate|reflexivity]|].
      replace (moppw W (subblock H1)) with (mopp (subblock H1)); [reflexivity|]. unfold mopp, moppw. destruct (dims 1 ltac:(lia) _ WS) as [-> ->].
      apply mk_ext. intros i j Hi Hj. replace i with O by lia. replace j with O by lia. rewrite wrap_id; [reflexivity|]. rewrite Z.abs_opp. exact BB. }
    rewrite ES, EW. cbn [bind]. replace (nrows M - 1)%nat with 1%nat by (rewrite (nrows_wf 2 2 M WM); reflexivity). cbn [seq fix_rows fix_rowsw].
    set (Hs := if _ <? _ then _ else _).
    assert (GS : 0 < get Hs 0 0 <= B).
    { assert (NZ : get (subblock H1) 0 0 <> 0).
      { intros E. destruct FS as [_ FS]. enough (1 = 0) by lia. apply (FS (fun _ => 1)) with (i := O); [|lia].
        intros j Hj. apply sumZ_zero. intros k Hk. replace j with O by lia. replace k with O by lia. rewrite E. reflexivity. }
      unfold Hs. destruct (Z.ltb_spec 0 (get (subblock H1) 0 0)); [lia|].
      change (mopp (subblock H1)) with (neg_cols (fun _ => true) (subblock H1)). rewrite (get_neg_cols 1) by (auto; lia). lia. }
    assert (WSS : wf 2 2 (set_subblock H1 Hs)) by now apply (wf_set_subblock 1).
    rewrite (fix_row_word 2 ltac:(lia) 1 (set_subblock H1 Hs) WSS ltac:(lia)); [reflexivity| | |].
    - rewrite (get_set_subblock 1) by (auto; lia). destruct (Q3 1%nat ltac:(lia)). lia.
    - rewrite (get_set_subblock 1) by (auto; lia). exact GS.
    - intros i Hi Ni. replace i with O by lia. rewrite !(get_set_subblock 1) by (auto; lia). rewrite Q2. assert (K <= B) by (clear - HK HB2; nia). rewrite Z.mul_0_r. lia.
  Qed.

  Lemma hnf_H3_word M K : full_rank 3 M -> 1 <= K -> 18 * K ^ 6 <= B -> (forall i j, (i < 3)%nat -> (j < 3)%nat -> Z.abs (get M i j) <= K) ->
    hnf_Hw W D 3 M = hnf_H py3 3 M.
  Proof.
    intros F HK HB3 BM. pose proof F as [WM _]. destruct (nonneg_row0_facts 3 M K ltac:(lia) WM BM) as (W0 & R0 & P0 & B0).
    assert (K3 : 1 <= K ^ 3) by (pose proof (Z.pow_pos_nonneg K 3 ltac:(lia) ltac:(lia)); lia).
    assert (K32 : K ^ 2 <= K ^ 3) by (apply Z.pow_le_mono_r; lia). assert (K31 : K ^ 1 <= K ^ 3) by (apply Z.pow_le_mono_r; lia). rewrite Z.pow_1_r in K31.
    assert (K6 : K ^ 6 = K ^ 3 * K ^ 3) by (rewrite <- Z.pow_add_r by lia; reflexivity). rewrite K6 in HB3.
    assert (K2E : K * K = K ^ 2) by ring. assert (K3E : K * (K * K) = K ^ 3) by ring.
    set (k3 := K ^ 3) in *.
    assert (NN : nonneg_row0w W M = nonneg_row0 M) by (apply (nonneg_row0_word 3); auto; try lia; intros i j Hi Hj; specialize (BM i j Hi Hj); nia).
    destruct M as [|m M']; [destruct WM; discriminate|]. set (M := m :: M') in *.
    change (hnf_Hw W D 3 M) with (let* H := (let* H' := gcd_colsw W D (nonneg_row0w W M) 1 2 in let* H'' := gcd_colsw W D H' 0 1 in Ok H'') in let* Hsub := hnf_Hw W D 2 (subblock H) in fix_rowsw W D (seq 1 (nrows M - 1)) (set_subblock H Hsub)).
    change (hnf_H py3 3 M) with (let* H := (let* H' := gcd_cols py3 (nonneg_row0 M) 1 2 in let* H'' := gcd_cols py3 H' 0 1 in Ok H'') in let* Hsub := hnf_H py3 2 (subblock H) in fix_rows py3 (seq 1 (nrows M - 1)) (set_subblock H Hsub)).
    rewrite NN, (gcd_cols_word 3 ltac:(lia) (nonneg_row0 M) 1 2 K K K W0); auto; try lia; try nia.
    destruct (gcd_cols_grow D B agree 3 ltac:(lia) (nonneg_row0 M) 1 2 K K K W0) as (H0 & _ & -> & WH0 & RH0 & Q1 & Q2 & Q3 & Q4); auto; try lia; try nia.
    cbn [bind].
    assert (C0 : forall i, (i < 3)%nat -> Z.abs (get H0 i 0) <= K) by (intros i Hi; rewrite Q4 by lia; apply B0; lia).
    assert (C1 : forall i, (i < 3)%nat -> Z.abs (get H0 i 1) <= 2 * K ^ 2) by (intros i Hi; destruct (Q3 i Hi); lia).
    assert (C00 : 0 <= get H0 0 0 <= K) by (rewrite Q4 by lia; apply P0; lia).
    rewrite (gcd_cols_word 3 ltac:(lia) H0 0 1 K K (2 * K ^ 2) WH0); auto; try lia; try nia.
    destruct (gcd_cols_grow D B agree 3 ltac:(lia) H0 0 1 K K (2 * K ^ 2) WH0) as (H1 & _ & -> & W1 & R1 & S1 & S2 & S3 & S4); auto; try lia; try nia.
    cbn [bind].
    assert (RM : requiv 3 M H1) by (apply (requiv_trans 3 M (nonneg_row0 M)); [lia|exact R0|]; apply (requiv_trans 3 _ H0); auto; lia).
    assert (F1 : full_rank 3 H1) by (apply (full_rank_requiv 3 M); [lia|exact RM|exact F]).
    assert (Z2 : forall j, (0 < j < 3)%nat -> get H1 0 j = 0).
    { intros j Hj. destruct (Nat.eq_dec j 1) as [->|]; [exact S2|]. replace j with 2%nat by lia. rewrite S4 by lia. exact Q2. }
    destruct (full_rank_subblock 1 H1 F1 Z2) as [G1 FS]; [lia|].
    assert (B1 : forall i j, (i < 3)%nat -> (j < 3)%nat -> Z.abs (get H1 i j) <= 3 * k3).
    { intros i j Hi Hj. destruct (Nat.eq_dec j 2) as [->|]; [rewrite S4 by lia; destruct (Q3 i Hi); lia|]. destruct (S3 i Hi) as [T0 T1].
      replace (K * (K + 2 * K ^ 2)) with (K ^ 2 + 2 * k3) in * by (unfold k3; ring).
      destruct j as [|[|]]; [| |lia]; lia. }
    rewrite (hnf_H2_word (subblock H1) (3 * k3)); [|exact FS|lia|nia|].
    2:{ intros i j Hi Hj. rewrite (get_subblock 1) by (auto; lia). apply B1; lia. }
    destruct (hnf_H_ok py3 (fun b h => - b < h <= 0) ltac:(intros x y X Y; cbn; now rewrite (proj2 (Z.eqb_neq _ _)) by lia)
      ltac:(intros x y X Y; cbn; rewrite (proj2 (Z.eqb_neq _ _)) by lia; eexists; split; [reflexivity|];
        pose proof (Z.div_mod (- x) y ltac:(lia)); pose proof (Z.mod_pos_bound (- x) y ltac:(lia)); nia)
      ltac:(intros x y _ X; exact X) 1 (subblock H1) FS) as (Hs & -> & RS & WS & US & DS & PS).
    cbn [bind]. replace (nrows M - 1)%nat with 2%nat by (rewrite (nrows_wf 3 3 M WM); reflexivity). cbn [seq fix_rows fix_rowsw].
    set (G := set_subblock H1 Hs). assert (WG : wf 3 3 G) by now apply (wf_set_subblock 2).
    assert (RG : requiv 3 M G) by (apply (requiv_trans 3 M H1); [lia|exact RM|]; now apply requiv_subblock).
    assert (GG : forall i j, (i < 3)%nat -> (j < 3)%nat -> get G i j = match i, j with S i', S j' => get Hs i' j' | _, _ => get H1 i j end) by (intros; now apply (get_set_subblock 2)).
    assert (Z01 : get G 0 1 = 0) by (rewrite GG by lia; apply Z2; lia). assert (Z02 : get G 0 2 = 0) by (rewrite GG by lia; apply Z2; lia).
    assert (Z12 : get G 1 2 = 0) by (rewrite GG by lia; apply US; lia).
    assert (DG : get G 0 0 * get G 1 1 * get G 2 2 <= 6 * k3).
    { destruct RG as (_ & U & V & WU & WV & UV & _ & EG). assert (D3 : dim23 3) by (right; reflexivity).
      assert (DU : Z.abs (det U) = 1). { pose proof (det_mmul_Z 3 U V D3 WU WV) as DM. rewrite UV in DM. change (det (eye 3)) with 1 in DM. destruct (Z.mul_eq_1 (det U) (det V) (eq_sym DM)) as [-> | ->]; reflexivity. }
      assert (DE : Z.abs (det G) = Z.abs (det M)) by (rewrite EG, (det_mmul_Z 3) by auto; rewrite Z.abs_mul, DU; lia).
      assert (DGE : det G = get G 0 0 * get G 1 1 * get G 2 2).
      { clear - WG Z01 Z02 Z12. apply wf3_inv in WG. destruct WG as (a & b & c & d & e & f & g & h & i & EG). rewrite EG in *. cbn in Z01, Z02, Z12. subst. cbn. ring. }
      assert (DM : Z.abs (det M) <= 6 * k3).
      { clear - WM BM K3E HK. assert (T := fun i j Hi Hj => BM i j Hi Hj). clear BM. apply wf3_inv in WM. destruct WM as (a & b & c & d & e & f & g & h & i & EM). rewrite EM in *.
        pose proof (T 0%nat 0%nat ltac:(lia) ltac:(lia)) as X00. pose proof (T 0%nat 1%nat ltac:(lia) ltac:(lia)) as X01. pose proof (T 0%nat 2%nat ltac:(lia) ltac:(lia)) as X02.
        pose proof (T 1%nat 0%nat ltac:(lia) ltac:(lia)) as X10. pose proof (T 1%nat 1%nat ltac:(lia) ltac:(lia)) as X11. pose proof (T 1%nat 2%nat ltac:(lia) ltac:(lia)) as X12.
        pose proof (T 2%nat 0%nat ltac:(lia) ltac:(lia)) as X20. pose proof (T 2%nat 1%nat ltac:(lia) ltac:(lia)) as X21. pose proof (T 2%nat 2%nat ltac:(lia) ltac:(lia)) as X22.
        cbn in X00, X01, X02, X10, X11, X12, X20, X21, X22. clear T.
        assert (T : forall x y z, Z.abs x <= K -> Z.abs y <= K -> Z.abs z <= K -> Z.abs (x * (y * z)) <= k3).
        { intros x y z Hx Hy Hz. rewrite !Z.abs_mul. rewrite <- K3E. apply Z.mul_le_mono_nonneg; try lia. apply Z.mul_le_mono_nonneg; lia. }
        replace (det [[a; b; c]; [d; e; f]; [g; h; i]]) with (a * (e * i) - a * (f * h) - b * (d * i) + b * (f * g) + c * (d * h) - c * (e * g)) by (cbn; ring).
        pose proof (T a e i X00 X11 X22). pose proof (T a f h X00 X12 X21). pose proof (T b d i X01 X10 X22). pose proof (T b f g X01 X12 X20). pose proof (T c d h X02 X10 X21). pose proof (T c e g X02 X11 X20).
        clear - H H0 H1 H2 H3 H4. revert H H0 H1 H2 H3 H4. generalize (a * (e * i)) (a * (f * h)) (b * (d * i)) (b * (f * g)) (c * (d * h)) (c * (e * g)). clear. intros. lia. }
      rewrite DGE in DE. lia. }
    assert (P00 : 1 <= get G 0 0 <= K) by (rewrite GG by lia; lia). assert (P11 : 1 <= get G 1 1) by (rewrite GG by lia; pose proof (DS 0%nat ltac:(lia)); lia). assert (P22 : 1 <= get G 2 2) by (rewrite GG by lia; pose proof (DS 1%nat ltac:(lia)); lia).
    assert (LL : get G 1 1 <= 6 * k3 /\ get G 2 2 <= 6 * k3).
    { clear - DG P00 P11 P22. revert DG P00 P11 P22. generalize (get G 0 0) (get G 1 1) (get G 2 2). intros x y z D1 X Y Z1. assert (y <= x * y) by nia. assert (y <= x * y * z) by nia. assert (z <= x * y * z) by nia. lia. }
    destruct LL as [L1 L2].
    assert (C10 : Z.abs (get G 1 0) <= 3 * k3) by (rewrite GG by lia; apply B1; lia). assert (C20 : Z.abs (get G 2 0) <= 3 * k3) by (rewrite GG by lia; apply B1; lia).
    assert (C21 : Z.abs (get G 2 1) <= get G 2 2 - 1) by (rewrite !GG by lia; pose proof (PS 1%nat 0%nat ltac:(lia)); lia).
    assert (M20 : Z.abs (get G 2 0) + Z.abs (get G 1 0) * Z.abs (get G 2 1) <= B).
    { assert (Z.abs (get G 1 0) * Z.abs (get G 2 1) <= 3 * k3 * (6 * k3 - 1)) by (apply Z.mul_le_mono_nonneg; lia). lia. }
    assert (M2 : Z.abs (get G 1 0) * Z.abs (get G 2 1) <= B) by lia.
    rewrite (fix_row_word 3 ltac:(lia) 1 G WG ltac:(lia)); [|nia|nia|].
    2:{ intros i Hi Ni. destruct i as [|[|[|i]]]; try lia. rewrite Z01. nia. }
    destruct (fix_row_grow D B agree 3 ltac:(lia) 1 G WG ltac:(lia)) as (t & _ & -> & BT & BV); [nia|nia|]. cbn [bind].
    assert (WA : wf 3 3 (add_col G 0 1 t)) by (apply wf_add_col; auto; lia).
    rewrite (fix_row_word 3 ltac:(lia) 2 (add_col G 0 1 t) WA ltac:(lia)); [reflexivity| | |].
    - rewrite (get_add_col 3) by (auto; lia). cbn [Nat.eqb]. eapply Z.le_trans; [apply Z.abs_triangle|]. rewrite Z.abs_mul.
      assert (Z.abs t * Z.abs (get G 2 1) <= Z.abs (get G 1 0) * Z.abs (get G 2 1)) by (apply Z.mul_le_mono_nonneg_r; lia). lia.
    - rewrite (get_add_col 3) by (auto; lia). cbn [Nat.eqb]. nia.
    - intros i Hi Ni. rewrite !(get_add_col 3) by (auto; lia). cbn [Nat.eqb]. destruct i as [|[|[|i]]]; try lia; rewrite ?Z01, ?Z02, ?Z12; [nia|].
      rewrite Z.abs_0, Z.mul_0_r, Z.add_0_r. nia.
  Qed.
End Word.
