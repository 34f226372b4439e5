(** Proofs for C95: reading a printed report. *)
From Coq Require Import Ascii String Lia Lra.
From Verif Require Import LinAlg RMat TextModel TextSpec.
Import ListNotations.
Local Open Scope list_scope.
Local Open Scope Z_scope.

(** ** digits *)
Definition all_digits (s : text) : Prop := Forall (fun c => is_digit c = true) s.
Lemma digit_ok d : 0 <= d < 10 -> is_digit (digit d) = true /\ Z.of_nat (nat_of_ascii (digit d)) - 48 = d.
Proof.
  intros H. unfold is_digit, digit. rewrite nat_ascii_embedding by lia.
  split; [apply andb_true_iff; split; apply Nat.leb_le; lia|lia].
Qed.
Lemma digits_all w z : all_digits (digits w z).
Proof.
  revert z. induction w as [|w IH]; intros z; [constructor|]. cbn. apply Forall_app. split; [apply IH|]. constructor; [|constructor].
  apply digit_ok. apply Z.mod_pos_bound. lia.
Qed.
Lemma digits_length w z : List.length (digits w z) = w.
Proof. revert z. induction w as [|w IH]; intros z; [reflexivity|]. cbn. rewrite app_length, IH. cbn. lia. Qed.
Lemma dv_snoc s c : digits_value (s ++ [c]) = 10 * digits_value s + (Z.of_nat (nat_of_ascii c) - 48).
Proof. unfold digits_value. now rewrite fold_left_app. Qed.
Lemma dv_app s t : digits_value (s ++ t) = digits_value s * 10 ^ Z.of_nat (List.length t) + digits_value t.
Proof.
  induction t as [|c t IH] using rev_ind; [rewrite app_nil_r; cbn; lia|].
  rewrite app_assoc, !dv_snoc, IH, app_length. cbn [List.length]. replace (Z.of_nat (List.length t + 1)) with (Z.succ (Z.of_nat (List.length t))) by lia.
  rewrite Z.pow_succ_r by lia. ring.
Qed.
Lemma dv_digits w z : digits_value (digits w z) = z mod 10 ^ Z.of_nat w.
Proof.
  revert z. induction w as [|w IH]; intros z; [cbn; now rewrite Z.mod_1_r|]. cbn [digits]. rewrite dv_snoc, IH.
  rewrite (proj2 (digit_ok (z mod 10) (Z.mod_pos_bound z 10 eq_refl))).
  rewrite Nat2Z.inj_succ, Z.pow_succ_r by lia.
  assert (P : 0 < 10 ^ Z.of_nat w) by (apply Z.pow_pos_nonneg; [reflexivity|apply Nat2Z.is_nonneg]).
  rewrite (Z.rem_mul_r z 10 (10 ^ Z.of_nat w)) by lia. ring.
Qed.
Lemma ndig_ok fuel z : 0 <= z < 2 ^ Z.of_nat (S fuel) -> z < 10 ^ Z.of_nat (ndig fuel z).
Proof.
  revert z. induction fuel as [|f IH]; intros z H; cbn [ndig]; [cbn in *; lia|].
  destruct (Z.ltb_spec z 10) as [L|L]; [cbn; lia|].
  assert (E : 2 ^ Z.of_nat (S (S f)) = 2 * 2 ^ Z.of_nat (S f)) by (rewrite (Nat2Z.inj_succ (S f)), Z.pow_succ_r by lia; reflexivity).
  rewrite Nat2Z.inj_succ, Z.pow_succ_r by lia.
  assert (K : z / 10 < 10 ^ Z.of_nat (ndig f (z / 10))).
  { apply IH. split; [apply Z.div_pos; lia|]. apply Z.div_lt_upper_bound; lia. }
  pose proof (Z.div_mod z 10 ltac:(lia)). pose proof (Z.mod_pos_bound z 10 ltac:(lia)). lia.
Qed.
Lemma ndig_pos fuel z : (1 <= ndig fuel z)%nat.
Proof. destruct fuel; cbn; [lia|]. destruct (z <? 10); lia. Qed.
Lemma dec_all z : all_digits (dec z). Proof. apply digits_all. Qed.
Lemma dec_nonnil z : dec z <> [].
Proof. intros E. assert (L : List.length (dec z) = 0%nat) by now rewrite E. unfold dec in L. rewrite digits_length in L. pose proof (ndig_pos (Z.to_nat (Z.log2 z)) z). lia. Qed.
Lemma dv_dec z : 0 <= z -> digits_value (dec z) = z.
Proof.
  intros H. unfold dec. rewrite dv_digits. apply Z.mod_small. split; [exact H|]. apply ndig_ok. split; [exact H|].
  rewrite Nat2Z.inj_succ, Z2Nat.id by apply Z.log2_nonneg.
  destruct (Z.eq_dec z 0) as [->|N]; [reflexivity|]. apply Z.log2_spec. lia.
Qed.
Lemma dv_cat k w : 0 <= k -> digits_value (dec (k / 10 ^ Z.of_nat w) ++ digits w k) = k.
Proof.
  intros H. assert (P : 0 < 10 ^ Z.of_nat w) by (apply Z.pow_pos_nonneg; [reflexivity|apply Nat2Z.is_nonneg]).
  rewrite dv_app, dv_dec, dv_digits, digits_length by (apply Z.div_pos; lia). pose proof (Z.div_mod k (10 ^ Z.of_nat w) ltac:(lia)). lia.
Qed.

(** ** reading one number *)
Local Open Scope R_scope.
Definition starts (p : ascii -> bool) (s : text) : bool := match s with c :: _ => p c | [] => false end.
Lemma span_app (p : ascii -> bool) a r : Forall (fun c => p c = true) a -> starts p r = false -> span p (a ++ r) = (a, r).
Proof.
  intros H. revert r. induction H as [|c a Hc Ha IH]; intros r Hr; cbn.
  - destruct r as [|c r]; [reflexivity|]. cbn in *. now rewrite Hr.
  - rewrite Hc, (IH r Hr). reflexivity.
Qed.
Lemma strip0_spec f : exists k, f = strip0 f ++ repeat "0"%char k.
Proof.
  induction f as [|c f (k & IH)]; [exists 0%nat; reflexivity|]. cbn. destruct (strip0 f) as [|d r] eqn:E.
  - cbn in IH. destruct (ascii_dec c "0") as [->|N]; [exists (S k); cbn; now rewrite <- IH|]. exists k. cbn. now rewrite <- IH.
  - exists k. cbn. cbn in IH. now rewrite <- IH.
Qed.
Lemma dv_zeros s k : digits_value (s ++ repeat "0"%char k) = (digits_value s * 10 ^ Z.of_nat k)%Z.
Proof.
  rewrite dv_app, repeat_length. assert (E : digits_value (repeat "0"%char k) = 0%Z).
  { induction k as [|k IH]; [reflexivity|]. replace (repeat "0"%char (S k)) with (repeat "0"%char k ++ ["0"%char]) by (rewrite <- repeat_cons; reflexivity).
    rewrite dv_snoc, IH. reflexivity. }
  rewrite E. ring.
Qed.
(** after the mantissa comes nothing or an e *)
Definition ended (r : text) : bool := match r with [] => true | c :: _ => Ascii.eqb c "e" end.
Lemma ended_spec r : ended r = true -> starts is_digit r = false /\ (r = [] \/ exists t, r = "e"%char :: t).
Proof.
  destruct r as [|c r]; cbn; [auto|]. intros H. apply Ascii.eqb_eq in H. subst c. split; [reflexivity|]. right. eauto.
Qed.
Lemma read_point i f r : i <> [] -> all_digits i -> all_digits f -> ended r = true ->
  read_unsigned (point i f ++ r) = read_exponent (IZR (digits_value (i ++ f)) / 10 ^ List.length f) r.
Proof.
  intros Ni Hi Hf Hr. destruct (ended_spec _ Hr) as [Sr Er]. unfold point. destruct (strip0_spec f) as (k & Ef).
  assert (Li : (List.length i =? 0)%nat = false) by (apply Nat.eqb_neq; destruct i; [now elim Ni|cbn; lia]).
  assert (V : IZR (digits_value (i ++ strip0 f)) / 10 ^ List.length (strip0 f) = IZR (digits_value (i ++ f)) / 10 ^ List.length f).
  { rewrite Ef at 3 4. rewrite app_assoc, dv_zeros, mult_IZR, app_length, repeat_length, pow_add, <- pow_IZR. field.
    split; apply pow_nonzero; lra. }
  rewrite <- V. assert (Hs : all_digits (strip0 f)) by (unfold all_digits in *; rewrite Ef in Hf; now apply Forall_app in Hf).
  destruct (strip0 f) as [|c f'] eqn:E.
  - unfold read_unsigned. rewrite span_app by auto. rewrite Li.
    destruct Er as [->|(t & ->)]; cbn [Ascii.eqb Bool.eqb]; reflexivity.
  - unfold read_unsigned. rewrite <- app_assoc. rewrite span_app by (auto; reflexivity). cbn [lit list_ascii_of_string app].
    change (Ascii.eqb "." ".") with true. cbv iota. change (c :: f' ++ r) with ((c :: f') ++ r). rewrite span_app by auto. now rewrite Li.
Qed.
Lemma Rltb_cases x : (Rltb x 0 = true /\ x < 0) \/ (Rltb x 0 = false /\ 0 <= x).
Proof. destruct (Rltb x 0) eqn:E; [left; split; [reflexivity|now apply Rltb_spec in E]|right; split; [reflexivity|apply Rltb_false; exact E]]. Qed.
Lemma digit_not_minus c : is_digit c = true -> Ascii.eqb c "-" = false.
Proof. destruct (Ascii.eqb_spec c "-") as [->|]; [discriminate|reflexivity]. Qed.
Lemma read_minus x s y : starts is_digit s = true -> read_unsigned s = Some y ->
  read_number (minus x ++ s) = Some (if Rltb x 0 then - y else y).
Proof.
  intros Hs H. unfold minus. destruct (Rltb x 0); cbn [lit list_ascii_of_string app].
  - unfold read_number. change (Ascii.eqb "-" "-") with true. cbv iota. now rewrite H.
  - destruct s as [|c s]; [discriminate|]. cbn in Hs. unfold read_number. now rewrite digit_not_minus.
Qed.
Lemma starts_app p a r : starts p a = true -> starts p (a ++ r) = true.
Proof. destruct a; [discriminate|auto]. Qed.
Lemma all_starts s : s <> [] -> all_digits s -> starts is_digit s = true.
Proof. destruct s as [|c s]; [congruence|]. intros _ H. now inversion H. Qed.
Lemma starts_point i f : i <> [] -> all_digits i -> starts is_digit (point i f) = true.
Proof. intros N H. unfold point. destruct (strip0 f); [now apply all_starts|]. apply starts_app. now apply all_starts. Qed.
Lemma sign_close x y e : Rabs (Rabs x - y) <= e -> Rabs (x - (if Rltb x 0 then - y else y)) <= e.
Proof.
  destruct (Rltb_cases x) as [(-> & H)|(-> & H)].
  - rewrite (Rabs_left x) by lra. replace (x - - y) with (- (- x - y)) by ring. now rewrite Rabs_Ropp.
  - rewrite (Rabs_right x) by lra. auto.
Qed.
Lemma rint_nonneg x : 0 <= x -> (0 <= rint x)%Z.
Proof. intros H. apply Z.lt_pred_le. apply lt_IZR. pose proof (rint_close x) as C. apply Rabs_le_inv in C || idtac. unfold Rabs in C. destruct (Rcase_abs _); cbn; lra. Qed.
Lemma read_fixed p x : (1 <= p)%nat -> exists y, read_number (fixed p x) = Some y /\ rounded p x y.
Proof.
  intros Hp. unfold fixed. set (k := rint (10 ^ p * Rabs x)).
  assert (P : 0 < 10 ^ p) by (apply pow_lt; lra).
  assert (K : (0 <= k)%Z) by (apply rint_nonneg; pose proof (Rabs_pos x); nra).
  assert (Rd : read_unsigned (dec (k / 10 ^ Z.of_nat p) ++ lit "." ++ digits p k) = Some (IZR k / 10 ^ p)).
  { unfold read_unsigned. rewrite span_app by (apply dec_all || reflexivity). cbn [lit list_ascii_of_string app].
    change (Ascii.eqb "." ".") with true. cbv iota. rewrite <- (app_nil_r (digits p k)) at 1. rewrite span_app by (apply digits_all || reflexivity).
    assert ((List.length (dec (k / 10 ^ Z.of_nat p)) =? 0)%nat = false) as ->.
    { apply Nat.eqb_neq. pose proof (dec_nonnil (k / 10 ^ Z.of_nat p)). destruct (dec _); [congruence|cbn; lia]. }
    cbn [read_exponent]. rewrite dv_cat, digits_length by exact K. reflexivity. }
  eexists. split; [apply read_minus; [|exact Rd]; apply starts_app, all_starts; [apply dec_nonnil|apply dec_all]|].
  apply sign_close. pose proof (rint_close (10 ^ p * Rabs x)) as C. fold k in C.
  replace (Rabs x - IZR k / 10 ^ p) with ((10 ^ p * Rabs x - IZR k) * / 10 ^ p) by (field; lra).
  rewrite Rabs_mult, (Rabs_right (/ 10 ^ p)) by (apply Rle_ge, Rlt_le, Rinv_0_lt_compat; exact P).
  rewrite Rinv_mult. apply Rmult_le_compat_r; [apply Rlt_le, Rinv_0_lt_compat; exact P|lra].
Qed.
Lemma powerRZ_Z z n : (0 <= n)%Z -> z <> 0 -> powerRZ z n = z ^ Z.to_nat n.
Proof. intros H Hz. rewrite <- (Z2Nat.id n H) at 1. now rewrite <- pow_powerRZ. Qed.
Lemma log10_spec a : 0 < a -> let e := Rfloor (ln a / ln 10) in powerRZ 10 e <= a < powerRZ 10 (e + 1).
Proof.
  intros H e. pose proof (Rfloor_spec (ln a / ln 10)) as [F1 F2]. fold e in F1, F2.
  assert (L : 0 < ln 10) by (rewrite <- ln_1; apply ln_increasing; lra).
  assert (W : forall z, powerRZ 10 z = exp (IZR z * ln 10)) by (intros z; rewrite powerRZ_Rpower by lra; reflexivity).
  rewrite !W, plus_IZR. split.
  - rewrite <- (exp_ln a H). apply Rnot_lt_le. intros X. apply exp_lt_inv in X. apply Rmult_lt_compat_r with (r := / ln 10) in X; [|now apply Rinv_0_lt_compat].
    rewrite Rmult_assoc, Rinv_r, Rmult_1_r in X by lra. unfold Rdiv in F1. lra.
  - rewrite <- (exp_ln a H) at 1. apply exp_increasing. apply Rmult_lt_reg_r with (/ ln 10); [now apply Rinv_0_lt_compat|].
    rewrite Rmult_assoc, Rinv_r by lra. unfold Rdiv in F2. lra.
Qed.
Lemma pz_pos z : 0 < powerRZ 10 z. Proof. apply powerRZ_lt. lra. Qed.
Lemma pz_add a b : powerRZ 10 (a + b) = powerRZ 10 a * powerRZ 10 b. Proof. apply powerRZ_add. lra. Qed.
Lemma sig6 x : x <> 0 -> let a := Rabs x in let e0 := Rfloor (ln a / ln 10) in let m0 := rint (a * powerRZ 10 (5 - e0)) in
  forall m e, (if (m0 =? 1000000)%Z then (100000, e0 + 1) else (m0, e0))%Z = (m, e) ->
  (0 <= m)%Z /\ Rabs (a - IZR m * powerRZ 10 (e - 5)) <= 5 / 10 ^ 6 * a.
Proof.
  intros Hx a e0 m0 m e E. assert (Pa : 0 < a) by now apply Rabs_pos_lt.
  destruct (log10_spec a Pa) as [B1 _]. fold e0 in B1. pose proof (rint_close (a * powerRZ 10 (5 - e0))) as C. fold m0 in C.
  assert (N0 : (0 <= m0)%Z) by (apply rint_nonneg; pose proof (pz_pos (5 - e0)); nra).
  assert (V : (0 <= m)%Z /\ IZR m * powerRZ 10 (e - 5) = IZR m0 * powerRZ 10 (e0 - 5)).
  { destruct (Z.eqb_spec m0 1000000) as [M|M]; injection E as <- <-; [|auto]. split; [lia|]. rewrite M.
    replace (e0 + 1 - 5)%Z with (1 + (e0 - 5))%Z by lia. rewrite pz_add. change (powerRZ 10 1) with (10 ^ 1). rewrite <- Rmult_assoc. f_equal. lra. }
  split; [apply V|]. rewrite (proj2 V).
  assert (I : powerRZ 10 (5 - e0) * powerRZ 10 (e0 - 5) = 1) by (rewrite <- pz_add; replace (5 - e0 + (e0 - 5))%Z with 0%Z by lia; reflexivity).
  assert (W : powerRZ 10 (e0 - 5) = powerRZ 10 e0 / 10 ^ 5).
  { replace (e0 - 5)%Z with (e0 + - 5)%Z by lia. rewrite pz_add. reflexivity. }
  replace (a - IZR m0 * powerRZ 10 (e0 - 5)) with ((a * powerRZ 10 (5 - e0) - IZR m0) * powerRZ 10 (e0 - 5)) by (rewrite Rmult_minus_distr_r, Rmult_assoc, I; ring).
  pose proof (pz_pos (e0 - 5)) as P. rewrite Rabs_mult, (Rabs_right (powerRZ 10 (e0 - 5))) by lra.
  apply Rle_trans with (1 / 2 * powerRZ 10 (e0 - 5)); [apply Rmult_le_compat_r; lra|]. rewrite W. cbn [pow]. lra.
Qed.
Lemma read_general x : exists y, read_number (general x) = Some y /\ rounded6 x y.
Proof.
  unfold general. destruct (Reqb x 0) eqn:E0.
  - apply Reqb_spec in E0. subst x. exists (0 / 1). split; [reflexivity|]. unfold rounded6. replace (0 - 0 / 1) with 0 by field. rewrite Rabs_R0. lra.
  - assert (Hx : x <> 0) by (intros ->; rewrite (proj2 (Reqb_spec 0 0) eq_refl) in E0; discriminate).
    pose proof (sig6 x Hx) as S. cbv zeta in *. set (a := Rabs x) in *. set (e0 := Rfloor _) in *. set (m0 := rint _) in *.
    destruct (if (m0 =? 1000000)%Z then _ else _) as [m e]. specialize (S m e eq_refl). destruct S as [Pm C].
    assert (D : forall k, dec k <> [] /\ all_digits (dec k)) by (intros k; split; [apply dec_nonnil|apply dec_all]).
    set (b := ((-4 <=? e) && (e <? 6))%Z). destruct b eqn:Eb.
    + exists (if Rltb x 0 then - (IZR m / 10 ^ Z.to_nat (5 - e)) else IZR m / 10 ^ Z.to_nat (5 - e)).
      apply andb_true_iff in Eb. destruct Eb as [_ Eb]. apply Z.ltb_lt in Eb. split.
      * apply read_minus; [apply starts_point; apply D|]. rewrite <- (app_nil_r (point _ _)). rewrite read_point; [|apply D|apply D|apply digits_all|reflexivity].
        cbn [read_exponent]. rewrite dv_cat, digits_length by exact Pm. reflexivity.
      * unfold rounded6. apply sign_close. fold a. replace (IZR m / 10 ^ Z.to_nat (5 - e)) with (IZR m * powerRZ 10 (e - 5)); [exact C|].
        unfold Rdiv. f_equal. replace (e - 5)%Z with (- (5 - e))%Z by lia. rewrite powerRZ_neg by lra. rewrite powerRZ_inv by lra || idtac.
        rewrite (powerRZ_Z 10 (5 - e)) by (lia || lra). reflexivity.
    + match goal with |- context [lit "e" ++ _ ++ ?u] => set (t := u) end.
      assert (T : t <> [] /\ all_digits t /\ digits_value t = Z.abs e).
      { unfold t. destruct (Z.ltb_spec (Z.abs e) 10) as [L|L].
        - split; [intros X; assert (Y : List.length (digits 2 (Z.abs e)) = 0%nat) by (now rewrite X); rewrite digits_length in Y; discriminate|].
          split; [apply digits_all|]. rewrite dv_digits. apply Z.mod_small. cbn. lia.
        - split; [apply D|]. split; [apply D|]. apply dv_dec. lia. }
      clearbody t. destruct T as (T1 & T2 & T3).
      assert (Fb : forallb is_digit t = true) by (apply forallb_forall; apply Forall_forall; exact T2).
      assert (Lt : (0 <? List.length t)%nat = true) by (apply Nat.ltb_lt; destruct t; [congruence|cbn; lia]).
      exists (if Rltb x 0 then - (IZR m * powerRZ 10 (e - 5)) else IZR m * powerRZ 10 (e - 5)). split; [|unfold rounded6; apply sign_close; exact C].
      apply read_minus; [apply starts_app, starts_point; apply D|].
      replace (lit "e" ++ (if (e <? 0)%Z then lit "-" else lit "+") ++ t) with ("e"%char :: (if (e <? 0)%Z then "-"%char else "+"%char) :: t)
        by (destruct (e <? 0)%Z; reflexivity).
      rewrite read_point; [|apply D|apply D|apply digits_all|reflexivity]. cbn [read_exponent]. change (Ascii.eqb "e" "e") with true. rewrite Lt, Fb. cbn [andb].
      rewrite T3. change 100000%Z with (10 ^ Z.of_nat 5)%Z. rewrite dv_cat, digits_length by exact Pm.
      replace (e - 5)%Z with (e + - (5))%Z by lia. rewrite pz_add. change (powerRZ 10 (- (5))) with (/ 10 ^ 5).
      destruct (Z.ltb_spec e 0) as [L|L].
      * change (Ascii.eqb "-" "+") with false. change (Ascii.eqb "-" "-") with true. cbv iota. f_equal.
        replace e with (- Z.abs e)%Z at 2 by lia. rewrite powerRZ_neg by lra. rewrite powerRZ_inv by lra || idtac. rewrite (powerRZ_Z 10 (Z.abs e)) by (lia || lra).
        unfold Rdiv. ring.
      * change (Ascii.eqb "+" "+") with true. cbv iota. f_equal. rewrite Z.abs_eq by lia. rewrite (powerRZ_Z 10 e) by (lia || lra). unfold Rdiv. ring.
Qed.

(** ** words and lines *)
Lemma split_sep p s c r : p c = true -> split p (s ++ c :: r) = split p s ++ split p r.
Proof.
  intros H. induction s as [|x s IH]; cbn; [now rewrite H|]. rewrite IH. destruct (p x); [reflexivity|].
  destruct (split p s) as [|w ws] eqn:E; [|reflexivity]. destruct s as [|y s]; cbn in E; [discriminate|]. destruct (p y); [discriminate|]. destruct (split p s); discriminate.
Qed.
Lemma split_one p s : Forall (fun c => p c = false) s -> split p s = [s].
Proof. induction 1 as [|c s H _ IH]; [reflexivity|]. cbn. now rewrite H, IH. Qed.
Lemma numbers_sep s c r : separator c = true -> numbers (s ++ c :: r) = numbers s ++ numbers r.
Proof. intros H. unfold numbers, words. rewrite split_sep by exact H. now rewrite filter_app, flat_map_app. Qed.
Definition nonl (s : text) : Prop := Forall (fun c => Ascii.eqb nl c = false) s.
Definition plain (c : ascii) : Prop := separator c = false /\ Ascii.eqb nl c = false.
Definition clean (s : text) : Prop := Forall plain s.
Lemma clean_nonl s : clean s -> nonl s.
Proof. apply Forall_impl. intros c H. apply H. Qed.
Lemma clean_app s t : clean s -> clean t -> clean (s ++ t).
Proof. intros. apply Forall_app. now split. Qed.
Lemma clean_lit s : forallb (fun c => negb (separator c) && negb (Ascii.eqb nl c))%bool (lit s) = true -> clean (lit s).
Proof.
  intros H. apply Forall_forall. rewrite forallb_forall in H. intros c Hc. specialize (H c Hc). apply andb_true_iff in H. destruct H as [H1 H2].
  apply negb_true_iff in H1, H2. now split.
Qed.
Lemma nonl_lit s : forallb (fun c => negb (Ascii.eqb nl c)) (lit s) = true -> nonl (lit s).
Proof. intros H. apply Forall_forall. rewrite forallb_forall in H. intros c Hc. specialize (H c Hc). now apply negb_true_iff in H. Qed.
Lemma nonl_app s t : nonl s -> nonl t -> nonl (s ++ t).
Proof. intros. apply Forall_app. now split. Qed.
Lemma nonl_concat {A} (f : A -> text) l : (forall x, In x l -> nonl (f x)) -> nonl (concat (map f l)).
Proof. induction l as [|x l IH]; intros H; [constructor|]. cbn. apply nonl_app; [apply H; now left|]. apply IH. intros y Hy. apply H. now right. Qed.
Lemma nonl_removelast s : nonl s -> nonl (removelast s).
Proof.
  intros H. destruct s as [|c s] using rev_ind; [constructor|]. rewrite removelast_last. apply Forall_app in H. apply H.
Qed.
Lemma clean_digits s : all_digits s -> clean s.
Proof.
  apply Forall_impl. intros c H. split.
  - unfold separator. cbn [existsb]. repeat (rewrite (proj2 (Ascii.eqb_neq c _)) by (intros ->; discriminate)). reflexivity.
  - apply Ascii.eqb_neq. intros <-. discriminate.
Qed.
Lemma clean_dec z : clean (dec z). Proof. apply clean_digits, dec_all. Qed.
Lemma clean_minus x : clean (minus x).
Proof. unfold minus. destruct (Rltb x 0); [now apply clean_lit|constructor]. Qed.
Lemma clean_fixed p x : clean (fixed p x).
Proof.
  unfold fixed. repeat apply clean_app; [apply clean_minus|apply clean_dec|now apply clean_lit|apply clean_digits, digits_all].
Qed.
Lemma strip0_all f : all_digits f -> all_digits (strip0 f).
Proof. intros H. destruct (strip0_spec f) as (k & E). unfold all_digits in *. rewrite E in H. now apply Forall_app in H. Qed.
Lemma clean_point i f : all_digits i -> all_digits f -> clean (point i f).
Proof.
  intros Hi Hf. apply strip0_all in Hf. unfold point. destruct (strip0 f); [now apply clean_digits|].
  repeat apply clean_app; [now apply clean_digits|now apply clean_lit|now apply clean_digits].
Qed.
Lemma clean_general x : clean (general x).
Proof.
  unfold general. destruct (Reqb x 0); [now apply clean_lit|]. cbv zeta. destruct (if (_ =? 1000000)%Z then _ else _) as [m e].
  apply clean_app; [apply clean_minus|]. destruct ((-4 <=? e) && (e <? 6))%Z; [apply clean_point; [apply dec_all|apply digits_all]|].
  repeat apply clean_app; [apply clean_point; [apply dec_all|apply digits_all]|now apply clean_lit|destruct (e <? 0)%Z; now apply clean_lit|].
  destruct (Z.abs e <? 10)%Z; apply clean_digits; [apply digits_all|apply dec_all].
Qed.
Lemma numbers_word w y : clean w -> read_number w = Some y -> numbers w = [y].
Proof.
  intros H R. unfold numbers, words. rewrite split_one by (eapply Forall_impl; [|exact H]; intros c Hc; apply Hc).
  destruct w as [|c w]; [discriminate|]. cbn [filter List.length Nat.eqb negb flat_map]. now rewrite R.
Qed.
Lemma numbers_blank k w : numbers (repeat " "%char k ++ w) = numbers w.
Proof. induction k as [|k IH]; [reflexivity|]. cbn [repeat app]. etransitivity; [apply (numbers_sep [] " "%char); reflexivity|exact IH]. Qed.
Lemma numbers_fixed w p x : (1 <= p)%nat -> exists y, numbers (pad w (fixed p x)) = [y] /\ rounded p x y.
Proof.
  intros Hp. destruct (read_fixed p x Hp) as (y & R & C). exists y. split; [|exact C]. unfold pad. rewrite numbers_blank.
  apply numbers_word; [apply clean_fixed|exact R].
Qed.
Lemma numbers_general w x : exists y, numbers (pad w (general x)) = [y] /\ rounded6 x y.
Proof.
  destruct (read_general x) as (y & R & C). exists y. split; [|exact C]. unfold pad. rewrite numbers_blank.
  apply numbers_word; [apply clean_general|exact R].
Qed.
Lemma numbers_dec z : (0 <= z)%Z -> numbers (dec z) = [IZR z].
Proof.
  intros H. apply numbers_word; [apply clean_dec|].
  assert (S : starts is_digit (dec z) = true) by (apply all_starts; [apply dec_nonnil|apply dec_all]).
  assert (R : read_unsigned (point (dec z) [] ++ []) = Some (IZR z)).
  { rewrite read_point by (apply dec_nonnil || apply dec_all || constructor || reflexivity). rewrite app_nil_r. cbn [read_exponent List.length pow].
    rewrite dv_dec by exact H. f_equal. field. }
  rewrite app_nil_r in R. cbn [point strip0] in R. unfold read_number. destruct (dec z) as [|c s]; [discriminate|]. cbn in S. now rewrite digit_not_minus.
Qed.
(** the entries of a row between brackets *)
Lemma numbers_row (f : R -> text) (P : R -> R -> Prop) vs c rest : vs <> [] -> separator c = true ->
  (forall v, exists y, numbers (f v) = [y] /\ P v y) ->
  exists ys, Forall2 P vs ys /\ numbers (removelast (concat (map (fun v => f v ++ lit " ") vs)) ++ c :: rest) = ys ++ numbers rest.
Proof.
  intros N Hc Hf. destruct vs as [|v vs _] using rev_ind; [now elim N|]. clear N.
  rewrite map_app, concat_app. cbn [map concat]. rewrite app_nil_r. rewrite (app_assoc (concat _) (f v)). change (lit " ") with [" "%char]. rewrite removelast_last.
  rewrite <- app_assoc. induction vs as [|w vs (ys & I1 & I2)].
  - destruct (Hf v) as (y & Y1 & Y2). exists [y]. split; [constructor; [exact Y2|constructor]|]. cbn [map concat app]. rewrite numbers_sep by exact Hc. now rewrite Y1.
  - destruct (Hf w) as (y & Y1 & Y2). exists (y :: ys). split; [constructor; assumption|]. cbn [map concat app]. rewrite <- !app_assoc. cbn [app].
    rewrite (numbers_sep (f w) " "%char) by reflexivity. rewrite Y1. cbn [app]. now rewrite <- I2.
Qed.
Lemma row_msg_split head f vs : vs <> [] -> row_msg head f vs = head ++ removelast (concat (map (fun v => f v ++ lit " ") vs)).
Proof.
  intros N. unfold row_msg. apply removelast_app. destruct vs as [|v vs]; [now elim N|]. cbn. destruct (f v); discriminate.
Qed.
Lemma numbers_cor dim cor j : (j < dim)%nat -> shows_column dim (get cor) j (cor_line dim cor j).
Proof.
  intros Hd. unfold cor_line. set (vs := map _ (seq 0 dim)). assert (N : vs <> []) by (unfold vs; destruct dim; [lia|discriminate]).
  rewrite row_msg_split by exact N.
  destruct (numbers_row (fun v => pad 5 (fixed 2 v)) (rounded 2) vs "]"%char (lit " ") N eq_refl) as (ys & Y1 & Y2); [intros v; apply numbers_fixed; lia|].
  exists (lit "    [" ++ removelast (concat (map (fun v => pad 5 (fixed 2 v) ++ lit " ") vs)) ++ lit "] ").
  exists (lit " [ " ++ concat (map (fun k => dec (get (eye dim) j k) ++ lit " ") (seq 0 dim)) ++ lit "]"). split; [|split].
  - cbn [lit list_ascii_of_string]. rewrite <- !app_assoc. reflexivity.
  - change (lit "    [") with (lit "    " ++ ["["%char]). rewrite <- app_assoc. cbn [app]. rewrite (numbers_sep _ "["%char) by reflexivity.
    change (lit "] ") with ("]"%char :: lit " "). rewrite Y2. change (numbers (lit "    ")) with (@nil R). change (numbers (lit " ")) with (@nil R). now rewrite app_nil_r.
  - change (lit " [ ") with (lit " [" ++ [" "%char]). rewrite <- app_assoc. cbn [app]. rewrite (numbers_sep _ " "%char) by reflexivity.
    change (numbers (lit " [")) with (@nil R). cbn [app]. assert (B : forall k, In k (seq 0 dim) -> get (eye dim) j k = if (k =? j)%nat then 1%Z else 0%Z).
    { intros k Hk. apply in_seq in Hk. rewrite get_eye by lia. rewrite Nat.eqb_sym. reflexivity. }
    revert B. generalize (seq 0 dim). intros l B. induction l as [|k l IH]; [reflexivity|]. cbn [map concat].
    rewrite <- !app_assoc. cbn [lit list_ascii_of_string app]. rewrite (numbers_sep _ " "%char) by reflexivity.
    cbn [lit list_ascii_of_string] in IH. rewrite IH by (intros x Hx; apply B; now right). rewrite (B k (or_introl eq_refl)).
    destruct (k =? j)%nat; rewrite numbers_dec by lia; reflexivity.
Qed.
Lemma numbers_brow f P (head : text) vs : (forall v, exists y, numbers (f v) = [y] /\ P v y) -> vs <> [] -> numbers head = [] ->
  Forall2 P vs (numbers (row_msg (head ++ lit "[") f vs ++ lit "]")).
Proof.
  intros Hf N H. rewrite row_msg_split by exact N. destruct (numbers_row f P vs "]"%char [] N eq_refl Hf) as (ys & Y1 & Y2).
  rewrite <- !app_assoc. cbn [lit list_ascii_of_string app]. rewrite (numbers_sep _ "["%char) by reflexivity. cbn [lit list_ascii_of_string app] in Y2.
  rewrite Y2, H. change (numbers []) with (@nil R). now rewrite app_nil_r.
Qed.
Lemma row_nonnil {A} (f : nat -> A) dim j : (j < dim)%nat -> map f (seq 0 dim) <> [].
Proof. destruct dim; [lia|discriminate]. Qed.
Lemma numbers_u dim u j : (j < dim)%nat -> shows_row (rounded 6) dim (get u) j (u_line dim u j).
Proof.
  intros Hj. unfold shows_row, u_line. pose proof (row_nonnil (fun k => get u j k) dim j Hj) as N.
  destruct (j =? 0)%nat; [apply (numbers_brow _ (rounded 6) (lit "   U = "))|apply (numbers_brow _ (rounded 6) (lit "       "))];
    auto; intros v; apply numbers_fixed; lia.
Qed.
Lemma numbers_h dim h j : (j < dim)%nat -> shows_row rounded6 dim (fun i k => IZR (get h i k)) j (h_line dim h j).
Proof.
  intros Hj. unfold shows_row, h_line. pose proof (row_nonnil (fun k => IZR (get h j k)) dim j Hj) as N.
  destruct (j =? 0)%nat; [apply (numbers_brow _ rounded6 (lit "   H = "))|apply (numbers_brow _ rounded6 (lit "       "))];
    auto; intros v; apply numbers_general.
Qed.
Lemma numbers_lams dim lams : (1 <= dim)%nat -> List.length lams = dim ->
  exists body, lams_line dim lams = body ++ lit "." /\ Forall2 rounded6 lams (numbers body).
Proof.
  intros Hd Hl. unfold lams_line.
  set (g := fun j => lit "lambda_" ++ dec (Z.of_nat (S j)) ++ lit " = " ++ general (nth j lams 0)).
  assert (G : forall j, exists y, numbers (g j) = [y] /\ rounded6 (nth j lams 0) y).
  { intros j. destruct (numbers_general 0 (nth j lams 0)) as (y & Y1 & Y2). exists y. split; [|exact Y2]. unfold g.
    replace (lit "lambda_" ++ dec (Z.of_nat (S j)) ++ lit " = " ++ general (nth j lams 0)) with
      ((lit "lambda_" ++ dec (Z.of_nat (S j)) ++ lit " =") ++ " "%char :: general (nth j lams 0)) by (rewrite <- !app_assoc; reflexivity).
    rewrite numbers_sep by reflexivity. replace (numbers (general (nth j lams 0))) with [y] by (rewrite <- Y1; reflexivity).
    replace (lit "lambda_" ++ dec (Z.of_nat (S j)) ++ lit " =") with ((lit "lambda_" ++ dec (Z.of_nat (S j))) ++ " "%char :: lit "=") by (rewrite <- !app_assoc; reflexivity).
    rewrite numbers_sep by reflexivity. change (numbers (lit "=")) with (@nil R). rewrite app_nil_r.
    assert (E : numbers (lit "lambda_" ++ dec (Z.of_nat (S j))) = []).
    { unfold numbers, words. rewrite split_one; [reflexivity|]. eapply Forall_impl; [|apply clean_app; [apply clean_lit; reflexivity|apply (clean_dec (Z.of_nat (S j)))]].
      intros c Hc. apply Hc. }
    rewrite E. reflexivity. }
  exists (removelast (removelast (lit "    " ++ concat (map (fun j => g j ++ lit ", ") (seq 0 dim))))). split.
  { unfold g. f_equal. do 3 f_equal. f_equal. apply map_ext. intros j. now rewrite <- !app_assoc. }
  assert (S : exists d, dim = S d) by (destruct dim; [lia|eauto]). destruct S as (d & ->). rewrite seq_S, map_app, concat_app. cbn [map concat]. rewrite app_nil_r.
  change (lit ", ") with ([","%char] ++ [" "%char]) at 2. rewrite (app_assoc (lit "    ")), (app_assoc _ (g _)), (app_assoc _ [","%char]). rewrite !removelast_last.
  rewrite <- app_assoc. change (lit "    ") with (lit "   " ++ [" "%char]). rewrite <- app_assoc. cbn [app]. rewrite (numbers_sep _ " "%char) by reflexivity.
  change (numbers (lit "   ")) with (@nil R). cbn [app].
  assert (L : lams = map (fun j => nth j lams 0) (seq 0 (S d))).
  { clear -Hl. rewrite <- Hl. clear Hl d. induction lams as [|x l IH]; [reflexivity|]. cbn [List.length seq map nth]. f_equal.
    rewrite <- seq_shift, map_map. exact IH. }
  rewrite L at 1. rewrite seq_S, map_app. cbn [map]. generalize (seq 0 d) (0 + d)%nat. intros l k. clear L.
  induction l as [|a l IH]; cbn [map concat app].
  - destruct (G k) as (y & -> & Y). constructor; [exact Y|constructor].
  - destruct (G a) as (y & Y1 & Y2). cbn [lit list_ascii_of_string] in *. rewrite <- !app_assoc. cbn [app]. rewrite (numbers_sep (g a) ","%char) by reflexivity.
    rewrite Y1. cbn [app]. constructor; [exact Y2|].
    replace (numbers (" "%char :: _)) with (numbers (concat (map (fun j => g j ++ [","%char; " "%char]) l) ++ g k)) by (symmetry; apply (numbers_sep [] " "%char); reflexivity).
    exact IH.
Qed.

(** ** lines of a block *)
Lemma lines_line s r : nonl s -> lines (line s ++ r) = s :: lines r.
Proof. intros H. unfold line, lines. rewrite <- app_assoc. cbn [app]. rewrite split_sep by reflexivity. now rewrite split_one. Qed.
Lemma lines_map {A} (f : A -> text) l r : (forall x, In x l -> nonl (f x)) -> lines (concat (map (fun x => line (f x)) l) ++ r) = map f l ++ lines r.
Proof.
  induction l as [|x l IH]; intros H; [reflexivity|]. cbn [map concat]. rewrite <- app_assoc, lines_line by (apply H; now left).
  rewrite IH by (intros y Hy; apply H; now right). reflexivity.
Qed.
Lemma nonl_pad w s : nonl s -> nonl (pad w s).
Proof. intros H. apply nonl_app; [|exact H]. apply Forall_forall. intros c Hc. apply repeat_spec in Hc. now subst c. Qed.
Lemma nonl_row_msg head f vs : nonl head -> (forall v, nonl (f v)) -> nonl (row_msg head f vs).
Proof. intros Hh Hf. apply nonl_removelast, nonl_app; [exact Hh|]. apply nonl_concat. intros v _. apply nonl_app; [apply Hf|now apply nonl_lit]. Qed.
Lemma nonl_cor dim cor j : nonl (cor_line dim cor j).
Proof.
  unfold cor_line. repeat apply nonl_app; try now apply nonl_lit.
  - apply nonl_row_msg; [now apply nonl_lit|]. intros v. apply nonl_pad, clean_nonl, clean_fixed.
  - apply nonl_concat. intros k _. apply nonl_app; [apply clean_nonl, clean_dec|now apply nonl_lit].
Qed.
Lemma nonl_u dim u j : nonl (u_line dim u j).
Proof.
  apply nonl_app; [|now apply nonl_lit]. apply nonl_row_msg; [destruct (j =? 0)%nat; now apply nonl_lit|]. intros v. apply nonl_pad, clean_nonl, clean_fixed.
Qed.
Lemma nonl_h dim h j : nonl (h_line dim h j).
Proof.
  apply nonl_app; [|now apply nonl_lit]. apply nonl_row_msg; [destruct (j =? 0)%nat; now apply nonl_lit|]. intros v. apply nonl_pad, clean_nonl, clean_general.
Qed.
Lemma nonl_lams dim lams : nonl (lams_line dim lams).
Proof.
  apply nonl_app; [|now apply nonl_lit]. apply nonl_removelast, nonl_removelast, nonl_app; [now apply nonl_lit|]. apply nonl_concat. intros j _.
  repeat apply nonl_app; try (now apply nonl_lit); apply clean_nonl; [apply clean_dec|apply clean_general].
Qed.
Lemma nonl_dist d : nonl (dist_line d).
Proof. apply nonl_app; [now apply nonl_lit|]. destruct d; try now apply nonl_lit. constructor. Qed.

Definition dist_text (d : dist_name) : option string :=
  match d with Cauchy => Some "(Cauchy distance)"%string | Ericksen => Some "(Ericksen distance):"%string | Strain => Some "(strain):"%string | OtherName => None end.
Lemma dist_line_title d : dist_line d = list_ascii_of_string (dist_title (dist_text d)).
Proof. destruct d; reflexivity. Qed.
Lemma titled_map title dim (f : nat -> text) (row : nat -> text -> Prop) : (forall j, (j < dim)%nat -> row j (f j)) -> titled title dim row (lit title :: map f (seq 0 dim)).
Proof.
  intros H. exists (map f (seq 0 dim)). split; [reflexivity|]. split; [now rewrite map_length, seq_length|].
  intros j s Hs. rewrite nth_error_map in Hs. destruct (nth_error (seq 0 dim) j) as [k|] eqn:E; [|discriminate]. injection Hs as <-.
  assert (L : (j < dim)%nat) by (rewrite <- (seq_length dim 0); apply nth_error_Some; congruence).
  apply nth_error_nth with (d := 0%nat) in E. rewrite seq_nth in E by exact L. cbn in E. subst k. now apply H.
Qed.
Lemma numbers_head i nsol : numbers (lit "Solution " ++ dec (Z.of_nat (i + 1)) ++ lit " out of " ++ dec (Z.of_nat nsol) ++ lit ":") = [INR (i + 1); INR nsol].
Proof.
  replace (lit "Solution " ++ dec (Z.of_nat (i + 1)) ++ lit " out of " ++ dec (Z.of_nat nsol) ++ lit ":") with
    (lit "Solution" ++ " "%char :: dec (Z.of_nat (i + 1)) ++ " "%char :: (lit "out of" ++ " "%char :: dec (Z.of_nat nsol) ++ ":"%char :: [])) by reflexivity.
  rewrite !numbers_sep by reflexivity. rewrite !numbers_dec by lia. rewrite <- !INR_IZR_INZ. reflexivity.
Qed.
Lemma tail_ok dim lams dist d : (1 <= dim)%nat -> List.length lams = dim ->
  tail_shows lams (dist_text dist) d [lit " - Sorted eigen strains:"; lams_line dim lams; dist_line dist; lit "    dist = " ++ general d; lit " "].
Proof.
  intros Hd Hl. destruct (numbers_lams dim lams Hd Hl) as (body & -> & B). exists body, (lit "    dist = " ++ general d). rewrite dist_line_title.
  split; [reflexivity|]. split; [exact B|]. change (lit "    dist = ") with (lit "    dist =" ++ [" "%char]). rewrite <- app_assoc. cbn [app].
  rewrite numbers_sep by reflexivity. change (numbers (lit "    dist =")) with (@nil R). destruct (numbers_general 0 d) as (y & Y1 & Y2).
  replace (numbers (general d)) with [y] by (rewrite <- Y1; reflexivity). cbn. constructor; [exact Y2|constructor].
Qed.
Ltac lines_tac := repeat first
  [ rewrite <- app_assoc
  | rewrite lines_line by first [now apply nonl_lit|apply nonl_lams|apply nonl_dist
      |apply nonl_app; [now apply nonl_lit|apply clean_nonl, clean_general]
      |repeat apply nonl_app; try (now apply nonl_lit); apply clean_nonl, clean_dec]
  | rewrite lines_map by (intros; first [apply nonl_cor|apply nonl_u|apply nonl_h]) ].
Lemma block_direct i nsol dim dist d cor u lams r : (1 <= dim)%nat -> List.length lams = dim ->
  exists b, lines (sol_tostr i nsol dim dist d cor u lams ++ r) = b ++ lines r /\ shows_solution i nsol dim (dist_text dist) d (get cor) (get u) lams b.
Proof.
  intros Hd Hl. unfold sol_tostr. lines_tac. eexists. split.
  2:{ eexists _, (lit " - Lattice correspondence:" :: _), (lit " - Transformation stretch matrix:" :: _), [_; _; _; _; _]. split; [reflexivity|]. split; [apply numbers_head|].
      split; [apply titled_map; intros; now apply numbers_cor|]. split; [apply titled_map; intros; now apply numbers_u|]. apply (tail_ok dim); assumption. }
  cbn [app]. repeat (rewrite <- app_assoc; cbn [app]). reflexivity.
Qed.
Lemma block_hnf i nsol dim dist d cor u h lams r : (1 <= dim)%nat -> List.length lams = dim ->
  exists b, lines (sol_tostr_hnf i nsol dim dist d cor u h lams ++ r) = b ++ lines r /\
    shows_solution_hnf i nsol dim (dist_text dist) d (get cor) (get u) (fun i k => IZR (get h i k)) lams b.
Proof.
  intros Hd Hl. unfold sol_tostr_hnf. lines_tac. eexists. split.
  2:{ eexists _, (lit " - Lattice correspondence:" :: _), (lit " - Transformation stretch matrix:" :: _), (lit " - Hermite normal form:" :: _), [_; _; _; _; _].
      split; [reflexivity|]. split; [apply numbers_head|].
      split; [apply titled_map; intros; now apply numbers_cor|]. split; [apply titled_map; intros; now apply numbers_u|].
      split; [apply titled_map; intros; now apply numbers_h|]. apply (tail_ok dim); assumption. }
  cbn [app]. repeat (rewrite <- app_assoc; cbn [app]). reflexivity.
Qed.
Lemma enum_blocks {A} (f : nat -> A -> text) (P : nat -> A -> list text -> Prop) l : forall i,
  (forall k x r, In x l -> exists b, lines (f k x ++ r) = b ++ lines r /\ P k x b) ->
  exists blocks, lines (enum_from i f l) = concat blocks ++ [[]] /\ List.length blocks = List.length l /\
    forall k x b, nth_error l k = Some x -> nth_error blocks k = Some b -> P (i + k)%nat x b.
Proof.
  induction l as [|x l IH]; intros i H.
  - exists []. split; [reflexivity|]. split; [reflexivity|]. intros [|k] ? ?; discriminate.
  - destruct (IH (S i)) as (bs & B1 & B2 & B3); [intros k y r Hy; apply H; now right|].
    destruct (H i x (enum_from (S i) f l) (or_introl eq_refl)) as (b & L & Pb). exists (b :: bs). cbn [enum_from]. rewrite L, B1. cbn [concat]. rewrite <- app_assoc.
    split; [reflexivity|]. split; [cbn; now rewrite B2|]. intros [|k] y c Hy Hc; cbn in Hy, Hc.
    + injection Hy as <-. injection Hc as <-. now rewrite Nat.add_0_r.
    + rewrite <- Nat.add_succ_comm. now apply B3.
Qed.
