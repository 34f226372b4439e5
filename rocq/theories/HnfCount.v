(** Proofs for C96: how many Hermite normal forms hnf_from_diag and hnf_from_det list. *)
From Coq Require Import Lia Permutation Znumtheory.
From Verif Require Import HnfModel HnfSpec HnfEnum HnfCountSpec.
Local Open Scope Z_scope.

Definition zat (i j : nat) (H : mat Z) : bool := get H i j =? 0.
Lemma fold_vs n i j vs : (0 < n)%nat -> (i < n)%nat -> (j < n)%nat -> (forall v, In v vs -> v <> 0) ->
  forall (Q : mat Z -> Prop) r, (forall M, In M r -> wf n n M /\ Q M) -> (forall M v, wf n n M -> Q M -> Q (set_entry M i j v)) ->
  let r' := fold_left set_ij (map (fun v => (i, j, v)) vs) r in
  filter (zat i j) r' = filter (zat i j) r /\ length r' = (length r + length vs * length (filter (zat i j) r))%nat /\
  forall M, In M r' -> wf n n M /\ Q M.
Proof.
  intros Hn Hi Hj. induction vs as [|v vs IH]; intros Hv Q r Hr HQ; cbn [map fold_left length]; [repeat split; try apply Hr; auto; lia|].
  set (r1 := set_ij r (i, j, v)).
  assert (F : filter (zat i j) r1 = filter (zat i j) r).
  { unfold r1, set_ij. rewrite filter_app. rewrite <- (app_nil_r (filter (zat i j) r)) at 2. f_equal.
    assert (K : forall l, (forall M, In M l -> wf n n M) -> filter (zat i j) (map (fun H => set_entry H i j v) l) = []).
    { induction l as [|M l IHl]; intros Hl; [reflexivity|]. cbn [map filter]. unfold zat at 1. rewrite (set_entry_same n) by (auto; apply Hl; now left).
      destruct (Z.eqb_spec v 0); [exfalso; apply (Hv v); [now left|assumption]|]. apply IHl. intros; apply Hl; now right. }
    apply K. intros M HM. apply filter_In in HM. apply Hr, HM. }
  assert (R1 : forall M, In M r1 -> wf n n M /\ Q M).
  { intros M HM. unfold r1, set_ij in HM. apply in_app_iff in HM. destruct HM as [HM|HM]; [now apply Hr|].
    apply in_map_iff in HM. destruct HM as (H & <- & HH). apply filter_In in HH. destruct (Hr H (proj1 HH)) as [W QH].
    split; [now apply wf_set_entry|now apply HQ]. }
  destruct (IH (fun v' Hv' => Hv v' (or_intror Hv')) Q r1 R1 HQ) as (A & B & C). split; [now rewrite A|]. split; [|exact C].
  rewrite B, F. unfold r1, set_ij. rewrite app_length, map_length. change (fun H => get H i j =? 0) with (zat i j). lia.
Qed.
Lemma filter_all {A} (f : A -> bool) l : (forall x, In x l -> f x = true) -> filter f l = l.
Proof. induction l as [|x l IH]; intros H; [reflexivity|]. cbn. rewrite H by now left. f_equal. apply IH. intros; apply H; now right. Qed.
Lemma length_zrange a b : length (zrange a b) = Z.to_nat (b - a).
Proof. unfold zrange. now rewrite map_length, seq_length. Qed.

Definition block (dg : list Z) (p : nat * nat) : list (nat * nat * Z) := map (fun d => (fst p, snd p, - d)) (zrange 1 (nth (fst p) dg 0)).
Definition positions (n : nat) : list (nat * nat) := flat_map (fun i => map (fun j => (i, j)) (seq 0 i)) (seq 0 n).
Lemma modifs_positions dg : modifs dg = flat_map (block dg) (positions (length dg)).
Proof.
  unfold modifs, positions. generalize (seq 0 (length dg)) as l. induction l as [|i l IH]; [reflexivity|]. cbn [flat_map]. rewrite flat_map_app, IH. f_equal.
  clear. induction (seq 0 i) as [|j l IH]; [reflexivity|]. cbn [flat_map map]. now rewrite IH.
Qed.
Definition prod_at (dg : list Z) (ps : list (nat * nat)) : Z := prodl (map (fun p => nth (fst p) dg 0) ps).
Lemma count_positions dg ps : let n := length dg in (0 < n)%nat -> (forall d, In d dg -> 0 < d) -> NoDup ps -> (forall p, In p ps -> (fst p < n /\ snd p < n)%nat) ->
  forall hs, (forall M, In M hs -> wf n n M /\ forall p, In p ps -> get M (fst p) (snd p) = 0) ->
  Z.of_nat (length (fold_left set_ij (flat_map (block dg) ps) hs)) = Z.of_nat (length hs) * prod_at dg ps.
Proof.
  intros n Hn Hpos. induction ps as [|[i j] ps IH]; intros ND Hb hs Hhs; [cbn; lia|].
  cbn [flat_map]. rewrite fold_left_app. inversion ND as [|? ? N1 N2]. subst.
  destruct (Hb (i, j) (or_introl eq_refl)) as [Hi Hj]. cbn [fst snd] in Hi, Hj.
  assert (Hd : 0 < nth i dg 0) by (apply Hpos, nth_In, Hi).
  unfold block at 2. cbn [fst snd]. rewrite <- (map_map Z.opp (fun v => (i, j, v))).
  destruct (fold_vs n i j (map Z.opp (zrange 1 (nth i dg 0))) Hn Hi Hj) with (Q := fun M => forall p, In p ps -> get M (fst p) (snd p) = 0) (r := hs) as (A & B & C).
  - intros v Hv. apply in_map_iff in Hv. destruct Hv as (d & <- & Hd'). apply in_zrange in Hd'. lia.
  - intros M HM. destruct (Hhs M HM) as [W K]. split; [exact W|]. intros p Hp. apply K. now right.
  - intros M v W K [a b] Hp. cbn [fst snd]. destruct (Hb (a, b) (or_intror Hp)) as [Ha Hb']. cbn [fst snd] in *.
    rewrite (get_set_entry n) by auto. destruct (Nat.eqb_spec a i), (Nat.eqb_spec b j); cbn [andb]; subst; try (apply (K (_, _) Hp)). contradiction.
  - set (r := fold_left set_ij _ hs) in *. rewrite IH; [|exact N2|intros p Hp; apply Hb; now right|exact C].
    rewrite B. rewrite filter_all by (intros M HM; unfold zat; apply Z.eqb_eq; apply (proj2 (Hhs M HM) (i, j)); now left).
    rewrite map_length, length_zrange. unfold prod_at. cbn [map fst]. rewrite prodl_cons. rewrite Nat2Z.inj_add, Nat2Z.inj_mul, Z2Nat.id by lia. ring.
Qed.
Lemma positions_in n p : In p (positions n) -> (snd p < fst p < n)%nat.
Proof. unfold positions. rewrite in_flat_map. intros (i & Hi & Hp). apply in_map_iff in Hp. destruct Hp as (j & <- & Hj). apply in_seq in Hi, Hj. cbn. lia. Qed.
Lemma positions_nodup n : NoDup (positions n).
Proof.
  unfold positions. apply NoDup_flat_map; [| |apply seq_NoDup].
  - intros i Hi. apply NoDup_map_inj; [|apply seq_NoDup]. intros; congruence.
  - intros i i' p Hi Hi' H1 H2. apply in_map_iff in H1, H2. destruct H1 as (? & <- & _), H2 as (? & E & _). congruence.
Qed.
Lemma positions_S n : positions (S n) = positions n ++ map (fun j => (n, j)) (seq 0 n).
Proof. unfold positions. rewrite seq_S, flat_map_app. cbn [flat_map plus]. now rewrite app_nil_r. Qed.
Lemma prodl_const {A} (f : A -> Z) c l : (forall x, In x l -> f x = c) -> prodl (map f l) = c ^ Z.of_nat (length l).
Proof.
  induction l as [|x l IH]; intros H; [reflexivity|]. cbn [map length]. rewrite prodl_cons, H by now left. rewrite IH by (intros; apply H; now right).
  rewrite Nat2Z.inj_succ, Z.pow_succ_r by lia. reflexivity.
Qed.
Lemma powers_snoc k dg d : powers k (dg ++ [d]) = powers k dg * d ^ (k + Z.of_nat (length dg)).
Proof. revert k. induction dg as [|e dg IH]; intros k; cbn [powers app length]; [rewrite Z.add_0_r; lia|]. rewrite IH. rewrite Nat2Z.inj_succ. replace (k + 1 + Z.of_nat (length dg)) with (k + Z.succ (Z.of_nat (length dg))) by lia. ring. Qed.
Lemma prod_positions dg : forall n, (n <= length dg)%nat -> prod_at dg (positions n) = powers 0 (firstn n dg).
Proof.
  induction n as [|n IH]; intros L; [reflexivity|]. rewrite positions_S. unfold prod_at. rewrite map_app, prodl_app. fold (prod_at dg (positions n)). rewrite IH by lia.
  rewrite (prodl_const _ (nth n dg 0)) by (intros p Hp; apply in_map_iff in Hp; destruct Hp as (j & <- & _); reflexivity).
  rewrite map_length, seq_length.
  assert (E : firstn (S n) dg = firstn n dg ++ [nth n dg 0]).
  { clear IH. revert dg L. induction n as [|n IH]; intros [|d dg] L; cbn in L; try lia; [reflexivity|]. cbn [firstn app nth]. f_equal. apply IH. lia. }
  rewrite E, powers_snoc, firstn_length, Nat.min_l by lia. reflexivity.
Qed.
Lemma count_diag dg : (forall d, In d dg -> 0 < d) -> Z.of_nat (length (hnf_from_diag dg)) = powers 0 dg.
Proof.
  intros Hpos. destruct dg as [|d0 dg']; [reflexivity|]. set (dg := d0 :: dg') in *. unfold hnf_from_diag. rewrite modifs_positions.
  rewrite count_positions.
  - rewrite prod_positions, firstn_all by lia. cbn [length]. lia.
  - cbn; lia.
  - exact Hpos.
  - apply positions_nodup.
  - intros p Hp. apply positions_in in Hp. lia.
  - intros M [<-|[]]. split; [apply wf_mk|]. intros p Hp. apply positions_in in Hp. unfold diag. rewrite get_mk by lia.
    destruct (Nat.eqb_spec (fst p) (snd p)); [lia|reflexivity].
Qed.

(** * sums over lists *)
Definition lsum {A} (f : A -> Z) (l : list A) : Z := fold_right Z.add 0 (map f l).
Lemma lsum_app {A} (f : A -> Z) l1 l2 : lsum f (l1 ++ l2) = lsum f l1 + lsum f l2.
Proof. induction l1; cbn in *; [reflexivity|]. unfold lsum in *. cbn. lia. Qed.
Lemma lsum_ext {A} (f g : A -> Z) l : (forall x, In x l -> f x = g x) -> lsum f l = lsum g l.
Proof. induction l as [|x l IH]; intros H; [reflexivity|]. unfold lsum in *. cbn. rewrite H by now left. f_equal. apply IH. intros; apply H; now right. Qed.
Lemma lsum_perm {A} (f : A -> Z) l1 l2 : Permutation l1 l2 -> lsum f l1 = lsum f l2.
Proof. induction 1; unfold lsum in *; cbn; lia. Qed.
Lemma lsum_flat_map {A B} (f : B -> Z) (g : A -> list B) l : lsum f (flat_map g l) = lsum (fun x => lsum f (g x)) l.
Proof. induction l as [|x l IH]; [reflexivity|]. cbn [flat_map]. rewrite lsum_app, IH. reflexivity. Qed.
Lemma lsum_map {A B} (f : B -> Z) (g : A -> B) l : lsum f (map g l) = lsum (fun x => f (g x)) l.
Proof. unfold lsum. now rewrite map_map. Qed.
Lemma lsum_filter {A} (f : A -> Z) p l : lsum f (filter p l) = lsum (fun x => if p x then f x else 0) l.
Proof. induction l as [|x l IH]; [reflexivity|]. cbn [filter]. unfold lsum in *. cbn. destruct (p x); cbn; lia. Qed.
Lemma lsum_scale {A} c (f : A -> Z) l : lsum (fun x => c * f x) l = c * lsum f l.
Proof. induction l as [|x l IH]; unfold lsum in *; cbn; lia. Qed.
Lemma flat_map_length_Z {A B} (g : A -> list B) l : Z.of_nat (length (flat_map g l)) = lsum (fun x => Z.of_nat (length (g x))) l.
Proof. induction l as [|x l IH]; [reflexivity|]. cbn [flat_map]. rewrite app_length, Nat2Z.inj_add, IH. reflexivity. Qed.

Lemma in_divisors_of n d : 0 < n -> In d (divisors_of n) <-> 0 < d /\ (d | n).
Proof.
  intros Hn. unfold divisors_of. rewrite filter_In, in_map_iff. split.
  - intros [(k & <- & Hk) E]. apply in_seq in Hk. apply Z.eqb_eq in E. split; [lia|]. apply Z.mod_divide; lia.
  - intros [Hd HD]. split.
    + exists (Z.to_nat d). split; [lia|]. apply in_seq. apply Z.divide_pos_le in HD; lia.
    + apply Z.eqb_eq. apply Z.mod_divide; [lia|exact HD].
Qed.
Lemma divisors_of_nodup n : NoDup (divisors_of n).
Proof. unfold divisors_of. apply NoDup_filter. apply NoDup_map_inj; [|apply seq_NoDup]. intros; lia. Qed.
Lemma flip_divisors n : 0 < n -> Permutation (divisors_of n) (map (fun d => n / d) (divisors_of n)).
Proof.
  intros Hn. assert (K : forall d, In d (divisors_of n) -> In (n / d) (divisors_of n) /\ n / (n / d) = d).
  { intros d Hd. apply in_divisors_of in Hd; [|exact Hn]. destruct Hd as [Hd (q & Hq)]. assert (0 < q) by nia.
    assert (E : n / d = q) by (rewrite Hq; apply Z.div_mul; lia). rewrite E. split.
    - apply in_divisors_of; [exact Hn|]. split; [assumption|]. exists d. lia.
    - rewrite Hq, Z.mul_comm. apply Z.div_mul. lia. }
  apply NoDup_Permutation; [apply divisors_of_nodup| |].
  - apply NoDup_map_inj; [|apply divisors_of_nodup]. intros x y Hx Hy E. apply K in Hx, Hy. rewrite <- (proj2 Hx), <- (proj2 Hy). now rewrite E.
  - intros d. rewrite in_map_iff. split.
    + intros Hd. exists (n / d). destruct (K d Hd) as [A B]. auto.
    + intros (e & <- & He). now apply K.
Qed.

(** * tuples with a given product *)
Lemma tuples L N : NoDup L -> (forall d, In d L -> 0 < d) -> forall k n, 0 <= k -> 0 < n -> (forall d, 0 < d -> (d | n) -> In d L) ->
  lsum (fun t => if prodl t =? n then powers k t else 0) (product L N) = n ^ k * sublattices N n.
Proof.
  intros ND HL. induction N as [|N IH]; intros k n Hk Hn HD.
  - cbn [product sublattices]. unfold lsum. cbn [map fold_right powers]. change (prodl []) with 1. rewrite (Z.eqb_sym 1 n).
    destruct (Z.eqb_spec n 1) as [->|]; [rewrite Z.pow_1_l by lia; reflexivity|lia].
  - cbn [product]. rewrite lsum_flat_map.
    assert (T : forall x, In x L -> lsum (fun t => if prodl t =? n then powers k t else 0) (map (cons x) (product L N)) =
      if n mod x =? 0 then n ^ k * ((n / x) * sublattices N (n / x)) else 0).
    { intros x Hx. specialize (HL x Hx). rewrite lsum_map. destruct (Z.eqb_spec (n mod x) 0) as [E|E].
      - apply Z.mod_divide in E; [|lia]. destruct E as (q & Hq). assert (Pq : 0 < q) by nia. assert (EQ : n / x = q) by (rewrite Hq; apply Z.div_mul; lia). rewrite EQ.
        rewrite (lsum_ext _ (fun t => x ^ k * (if prodl t =? q then powers (k + 1) t else 0))).
        + rewrite lsum_scale, IH; [|lia|exact Pq|intros d Hd Hdq; apply HD; [exact Hd|]; rewrite Hq; now apply Z.divide_mul_l].
          rewrite Z.pow_add_r, Z.pow_1_r by lia. rewrite Hq at 1. rewrite Z.pow_mul_l. ring.
        + intros t _. rewrite prodl_cons. cbn [powers]. destruct (Z.eqb_spec (prodl t) q) as [->|Hne]; [rewrite (proj2 (Z.eqb_eq _ _)) by lia; reflexivity|].
          rewrite (proj2 (Z.eqb_neq _ _)) by nia. lia.
      - rewrite (lsum_ext _ (fun _ => 0 * 0)); [rewrite lsum_scale; reflexivity|]. intros t _. rewrite prodl_cons. destruct (Z.eqb_spec (x * prodl t) n) as [F|]; [|lia].
        exfalso. apply E. rewrite <- F, Z.mul_comm. apply Z.mod_mul. lia. }
    rewrite (lsum_ext _ _ _ T). rewrite <- (lsum_filter (fun x => n ^ k * (n / x * sublattices N (n / x)))). rewrite lsum_scale. f_equal. cbn [sublattices]. unfold divisor_sum.
    change (fold_right Z.add 0 (map ?f ?l)) with (lsum f l).
    rewrite (lsum_perm _ _ _ (flip_divisors n Hn)), lsum_map. apply lsum_perm. apply NoDup_Permutation; [now apply NoDup_filter|apply divisors_of_nodup|].
    intros x. rewrite filter_In, in_divisors_of by exact Hn. split.
    + intros [Hx E]. apply Z.eqb_eq in E. specialize (HL x Hx). split; [exact HL|]. apply Z.mod_divide; lia.
    + intros [Hx E]. split; [now apply HD|]. apply Z.eqb_eq. apply Z.mod_divide; [lia|exact E].
Qed.
Lemma count_det n N : 0 < n -> (0 < N)%nat -> exists l, hnf_from_det n N = Ok (Some l) /\ Z.of_nat (length l) = sublattices N n.
Proof.
  intros Hn HN. rewrite (hnf_from_det_shape n N Hn HN). eexists. split; [reflexivity|]. rewrite flat_map_length_Z.
  rewrite (lsum_ext _ (powers 0)).
  - unfold diags. rewrite lsum_filter. rewrite tuples.
    + rewrite Z.pow_0_r. lia.
    + apply sorted_lt_NoDup, divisors_sorted, Hn.
    + intros d Hd. apply in_divisors in Hd; [lia|exact Hn].
    + lia.
    + exact Hn.
    + intros d Hd Hdv. apply in_divisors; [exact Hn|]. split; [lia|exact Hdv].
  - intros t Ht. apply count_diag. intros d Hd. apply in_diags in Ht; [|exact Hn]. destruct Ht as (_ & Ht & _). now apply Ht.
Qed.
