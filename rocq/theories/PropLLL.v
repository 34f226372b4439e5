(** Properties C58 to C60: lattice reduction. *)
From Verif Require Import GroupModel GroupProofs RotProofs DirectProofs LLLProofs3.
Local Open Scope R_scope.

(** * C58 *)
(** Every base LLL returns spans the same lattice with the same orientation; with the flag False the orientation may
    be the other one. *)
Theorem C58_same_lattice : forall n E, base n E ->
  exists r, LLL E = Ok r /\
  match r with
  | Plain B => same_lattice n E B
  | Failed B => exists W : mat Z, wf n n W /\ (det W = 1 \/ det W = -1)%Z /\ B = mmul E (RZ W)
  end.
Proof.
  intros n E BE. destruct (LLL_cases n E BE) as (B & k & sw & _ & G & R & _ & L). exists (if (k =? 100)%nat then Failed (tr B) else Plain (tr (fix_sign E B))).
  split; [exact L|]. destruct (k =? 100)%nat.
  - destruct R as (W & [WW DW] & EQ). exists W. split; [exact WW|]. split; [exact DW|]. pose proof BE as (d & WE & _). rewrite EQ. f_equal. apply (tr_tr n n); auto; destruct d; lia.
  - now apply fix_cases.
Qed.
Print Assumptions C58_same_lattice.

(** The starting point of the search is the integer matrix that takes E1 to the reduced base. *)
Theorem C58_start : forall n E B, base n E -> LLL E = Ok (Plain B) ->
  exists W, start_point E = Ok W /\ wf n n W /\ det W = 1%Z /\ B = mmul E (RZ W).
Proof.
  intros n E B BE L. destruct (C58_same_lattice n E BE) as (r & L' & H). assert (r = Plain B) by congruence. subst r.
  destruct H as (W & WW & DW & ->). exists W. split; [|auto]. unfold start_point. rewrite L. cbn [bind].
  pose proof BE as (d & WE & D). rewrite (inv_Ok n) by auto. cbn [bind]. f_equal.
  rewrite <- (mmul_assoc n n n n) by (auto using wf_minv, wf_RZ; destruct d; lia). rewrite (minv_l n), (mmul_eye_l n n) by (auto using wf_RZ).
  unfold RZ, mmap. rewrite map_map. rewrite <- (map_id W) at 2. apply map_ext. intros r. rewrite map_map. rewrite <- (map_id r) at 2. apply map_ext. intros z. apply rint_IZR.
Qed.
Print Assumptions C58_start.

(** * C59 *)
(** If the last round found nothing to swap, the base returned satisfies the condition of Lovasz and the coefficients
    of each column along the one before it are at most 1/2; in two dimensions it is size-reduced.  Missing: in three
    dimensions the coefficient of the third column along the first. *)
Theorem C59_reduced_partial : forall n E B0 k, base n E -> lll_loop max_rounds (tr E) 0 = Ok (B0, k, false) ->
  exists B, (LLL E = Ok (Plain B) \/ LLL E = Ok (Failed B)) /\ lovasz n B /\
    (forall i, (i + 1 < n)%nat -> coefficient_small n B (i + 1) i) /\ (n = 2%nat -> size_reduced n B).
Proof.
  intros n E B0 k BE H. destruct (LLL_cases n E BE) as (B & k' & sw & L & G & R & C & V). rewrite H in L. injection L as <- <- <-. destruct C as [_ C].
  assert (X : forall B, nearly_reduced n B -> lovasz n B /\ (forall i, (i + 1 < n)%nat -> coefficient_small n B (i + 1) i) /\ (n = 2%nat -> size_reduced n B)).
  { intros X (X1 & X2). split; [exact X1|]. split; [exact X2|]. intros -> i j Hj Hi. assert (i = 1 /\ j = 0)%nat as [-> ->] by lia. apply (X2 0%nat). lia. }
  destruct (k =? 100)%nat.
  - exists (tr B0). split; [now right|]. now apply X.
  - exists (tr (fix_sign E B0)). split; [now left|]. apply X. destruct (fix_cases n E B0 BE G R) as ([-> | ->] & _); [exact C|]. apply reduced_neg; auto. apply BE.
Qed.
Print Assumptions C59_reduced_partial.

Lemma rint0 x : Rabs x < 1 / 2 -> rint x = 0%Z.
Proof. intros H. apply (rint_nearest x 0). now rewrite Rminus_0_r. Qed.

(** A base that LLL returns as reduced although a coefficient is 4/5 *)
Definition E59 : mat R := [[1; 2/5; -2/5]; [0; 1; 1]; [0; 0; 1]].
Definition B59 : mat R := [[1; 2/5; -4/5]; [0; 1; 0]; [0; 0; 1]].
Lemma l3 (x y z x' y' z' : R) : x = x' -> y = y' -> z = z' -> [x; y; z] = [x'; y'; z'].
Proof. congruence. Qed.
Lemma loop59 k : lll_loop (S k) (tr E59) 0 = Ok (tr B59, 1%nat, false).
Proof.
  set (a := [1; 0; 0]). set (b := [2/5; 1; 0]). set (c := [-2/5; 1; 1]). set (c' := [-4/5; 0; 1]).
  change (tr E59) with [a; b; c]. change (tr B59) with [a; b; c'].
  assert (Da : dot a a = 1) by (unfold a; un; lra).
  assert (M1 : mu b a = 2/5) by (unfold mu; rewrite Da; unfold a, b; un; lra).
  assert (C1 : c1 a b = [0; 1; 0]) by (unfold c1; rewrite M1; unfold a, b; un; apply l3; lra).
  assert (D1 : dot (c1 a b) (c1 a b) = 1) by (rewrite C1; un; lra).
  assert (M2 : mu c a = -2/5) by (unfold mu; rewrite Da; unfold a, c; un; lra).
  assert (M3 : mu c (c1 a b) = 1) by (unfold mu; rewrite D1, C1; unfold c; un; lra).
  assert (M4 : mu c' (c1 a b) = 0) by (unfold mu; rewrite D1, C1; unfold c'; un; lra).
  assert (M5 : mu c' a = -4/5) by (unfold mu; rewrite Da; unfold a, c'; un; lra).
  assert (R1 : rb a b = b) by (unfold rb; rewrite M1, rint0 by (rewrite Rabs_pos_eq; lra); unfold a, b; un; apply l3; lra).
  assert (R2 : rc a b c = c').
  { unfold rc. rewrite R1, M2, M3, (rint0 (-2/5)) by (rewrite Rabs_left; lra). change 1 with (IZR 1). rewrite rint_IZR. unfold a, b, c, c'. un. apply l3; lra. }
  assert (C2 : c2 a b c' = [0; 0; 1]) by (unfold c2; rewrite M4, M5, C1; unfold a, c'; un; apply l3; lra).
  assert (D2 : dot (c2 a b c') (c2 a b c') = 1) by (rewrite C2; un; lra).
  cbn [lll_loop]. rewrite gauss3 by lra. cbn [bind]. rewrite R1, R2, (swapping3 3) by (reflexivity || lra). cbn [bind].
  rewrite Da, D1, D2, M1, M4. unfold test. rewrite !(proj2 (Rltb_false _ _)) by lra. reflexivity.
Qed.
Theorem C59_refuted : exists E B0 B k, base 3 E /\ lll_loop max_rounds (tr E) 0 = Ok (B0, k, false) /\ (k < max_rounds)%nat /\
  LLL E = Ok (Plain B) /\ ~ size_reduced 3 B.
Proof.
  assert (D : det E59 = 1) by (unfold E59; un; lra). assert (D' : det (tr (tr B59)) = 1) by (unfold B59; un; lra).
  exists E59, (tr B59), B59, 1%nat. split; [split; [now right|]; split; [now apply wfb_spec|lra]|].
  split; [apply (loop59 999)|]. split; [unfold max_rounds; lia|].
  split.
  - unfold LLL. change max_rounds with (S 999). rewrite loop59. cbn [bind Nat.eqb]. do 2 f_equal. unfold fix_sign. rewrite D, D'.
    rewrite (proj2 (Reqb_spec _ _)) by reflexivity. cbn [negb]. apply (tr_tr 3 3); [lia|lia|now apply wfb_spec].
  - intros H. specialize (H 2%nat 0%nat ltac:(lia) ltac:(lia)). change B59 with (tr [[1; 0; 0]; [2/5; 1; 0]; [-4/5; 0; 1]]) in H.
    rewrite small3_20 in H by (auto; un; lra). revert H. un. rewrite Rabs_left by lra. lra.
Qed.
Print Assumptions C59_refuted.

(** * C60 *)
(** LLL signals failure exactly when the loop ran for 100 rounds, whether it converged or not; if it returns a plain
    base that is not reduced, the cap was reached. *)
Theorem C60_signal_partial : forall n E, base n E -> exists B k sw, lll_loop max_rounds (tr E) 0 = Ok (B, k, sw) /\
  ((exists B', LLL E = Ok (Failed B')) <-> k = 100%nat) /\ ((exists B', LLL E = Ok (Plain B')) <-> k <> 100%nat) /\
  (sw = true -> k = max_rounds) /\
  (forall B', LLL E = Ok (Plain B') -> lovasz n B' \/ k = max_rounds).
Proof.
  intros n E BE. destruct (LLL_cases n E BE) as (B & k & sw & L & G & R & C & V). exists B, k, sw. split; [exact L|]. split; [|split; [|split]].
  - rewrite V. clear. destruct (Nat.eqb_spec k 100); split; intros H; [assumption|eauto|destruct H; discriminate|contradiction].
  - rewrite V. clear. destruct (Nat.eqb_spec k 100); split; intros H; [destruct H; discriminate|contradiction|assumption|eauto].
  - intros ->. exact C.
  - intros B' H. destruct sw; [now right|left]. destruct (C59_reduced_partial n E B k BE L) as (B1 & [H1|H1] & Lo & _); rewrite H in H1; [injection H1 as ->; exact Lo|discriminate].
Qed.
Print Assumptions C60_signal_partial.

(** The bases (b_k, b_{k+1}) with b_{k+1} = 2 b_k + b_{k-1} need k swaps. *)
Definition next (s : vec R * vec R) : vec R * vec R := (snd s, vadd (vscale 2 (snd s)) (fst s)).
Definition pell (k : nat) : vec R * vec R := Nat.iter k next ([0; 1], [1; 0]).
Definition pell_cols (k : nat) : list (vec R) := [fst (pell (S k)); snd (pell (S k))].
Lemma pell_inv k : let p := fst (pell k) in let a := snd (pell k) in
  length p = 2%nat /\ length a = 2%nat /\ 0 < dot p p /\ 0 <= dot p a /\ dot p a < 1 / 2 * dot a a /\ (det (tr [p; a]) = 1 \/ det (tr [p; a]) = -1) /\
  (k <> 0%nat -> 4 / 3 * dot p p < dot a a).
Proof.
  induction k as [|k IH]; cbn zeta in *.
  - change (pell 0) with ([0; 1], [1; 0] : vec R). cbn [fst snd]. un. do 2 (split; [reflexivity|]). do 3 (split; [lra|]). split; [right; lra|easy].
  - change (pell (S k)) with (next (pell k)). destruct (pell k) as [q p]. unfold next. cbn [fst snd] in *. destruct IH as (Lq & Lp & Pq & O & S & D & _).
    assert (Pp : 0 < dot p p) by lra.
    rewrite (dot_add_r 2), (dot_scale_r 2), dot_add_l, dot_scale_l, (dot_add_r 2), (dot_scale_r 2), (dot_add_r 2 (vscale 2 p) q q), (dot_scale_r 2) by lens.
    rewrite (dot_c p q) by lens. split; [exact Lp|]. split; [lens|]. split; [lra|]. split; [lra|]. split; [lra|]. split; [|lra].
    replace (det (tr [p; vadd (vscale 2 p) q])) with (- det (tr [q; p])); [destruct D as [-> | ->]; [right|left]; lra|]. w2 Lp. w2 Lq. un. ring.
Qed.
Lemma pell_round k : exists B', Gauss_reduction (pell_cols k) = Ok B' /\
  match k with
  | 0%nat => B' = [[1; 0]; [0; 1]] /\ swapping B' = Ok None
  | S j => swapping B' = Ok (Some 0%nat) /\ swap_at 0 B' = pell_cols j
  end.
Proof.
  pose proof (pell_inv k) as (Lp & La & Pp & O & S & D & G). cbn zeta in *. unfold pell_cols. change (pell (Datatypes.S k)) with (next (pell k)).
  destruct (pell k) as [p a] eqn:EP. unfold next. cbn [fst snd] in *. assert (Na : dot a a <> 0) by lra.
  assert (M : mu (vadd (vscale 2 a) p) a = 2 + dot p a / dot a a).
  { unfold mu. rewrite dot_add_l, dot_scale_l by lens. field. exact Na. }
  assert (Q : rint (mu (vadd (vscale 2 a) p) a) = 2%Z).
  { rewrite M. apply rint_nearest. replace (2 + dot p a / dot a a - 2) with (dot p a / dot a a) by ring.
    assert (0 <= dot p a / dot a a) by (apply Rmult_le_pos; [lra|left; apply Rinv_0_lt_compat; lra]).
    rewrite Rabs_pos_eq by auto. apply (Rmult_lt_reg_r (dot a a)); [lra|]. unfold Rdiv. rewrite Rmult_assoc, Rinv_l by exact Na. lra. }
  assert (RB : rb a (vadd (vscale 2 a) p) = p) by (unfold rb; rewrite Q; vring 2%nat; ring).
  assert (D' : det (tr [a; p]) <> 0).
  { replace (det (tr [a; p])) with (- det (tr [p; a])); [destruct D as [-> | ->]; lra|]. w2 Lp. w2 La. un. ring. }
  destruct (nondeg2 a p La Lp D') as (_ & N1).
  exists [a; p]. split; [rewrite gauss2, RB by exact Na; reflexivity|]. rewrite (swapping2 2) by auto. unfold test. rewrite <- (b_norm 2 a p) by auto. destruct k as [|k].
  - injection EP as <- <-. split; [reflexivity|]. rewrite (proj2 (Rltb_false _ _)); [reflexivity|]. un. lra.
  - rewrite (proj2 (Rltb_spec _ _)) by (apply G; discriminate). split; [reflexivity|]. rewrite EP. reflexivity.
Qed.
Lemma pell_loop k : forall f m, lll_loop f (pell_cols k) m = if (k <? f)%nat then Ok ([[1; 0]; [0; 1]], (m + k + 1)%nat, false) else Ok (pell_cols (k - f), (m + f)%nat, true).
Proof.
  induction k as [|k IH]; intros [|f] m; cbn [lll_loop].
  - cbn [Nat.ltb Nat.leb]. now rewrite Nat.add_0_r.
  - destruct (pell_round 0) as (B' & -> & -> & E). cbn [bind]. rewrite E. cbn [bind]. rewrite Nat.add_0_r. reflexivity.
  - cbn [Nat.ltb Nat.leb]. now rewrite Nat.add_0_r, Nat.sub_0_r.
  - destruct (pell_round (S k)) as (B' & -> & E & E'). cbn [bind]. rewrite E. cbn [bind]. rewrite E', IH. change (S k <? S f)%nat with (k <? f)%nat.
    destruct (k <? f)%nat; [do 3 f_equal; lia|]. cbn [Nat.sub]. do 3 f_equal. lia.
Qed.
Lemma pell_base k : base 2 (tr (pell_cols k)).
Proof.
  pose proof (pell_inv (S k)) as (Lp & La & _ & _ & _ & D & _). cbn zeta in *. fold (pell_cols k) in D. split; [now left|].
  split; [apply wf_tr'; [lia|]; apply wf2_cols; unfold pell_cols; eauto 6|]. destruct D as [-> | ->]; lra.
Qed.
Lemma pell_tr k : tr (tr (pell_cols k)) = pell_cols k.
Proof. apply (tr_tr 2 2); [lia|lia|]. pose proof (pell_inv (S k)) as (Lp & La & _). apply wf2_cols; unfold pell_cols; eauto 6. Qed.

(** A base for which LLL signals failure although the loop has ended with a reduced base, and one for which it
    signals nothing although the cap was reached and the base returned is not reduced. *)
Theorem C60_refuted :
  (exists E B0 B, base 2 E /\ lll_loop max_rounds (tr E) 0 = Ok (B0, 100%nat, false) /\ LLL E = Ok (Failed B) /\ lovasz 2 B /\ size_reduced 2 B) /\
  (exists E B, base 2 E /\ LLL E = Ok (Plain B) /\ ~ size_reduced 2 B).
Proof.
  split.
  - exists (tr (pell_cols 99)), [[1; 0]; [0; 1]], (tr [[1; 0]; [0; 1]]).
    assert (L : lll_loop max_rounds (tr (tr (pell_cols 99))) 0 = Ok ([[1; 0]; [0; 1]], 100%nat, false)) by (rewrite pell_tr; apply (pell_loop 99)).
    split; [apply pell_base|]. split; [exact L|].
    assert (F : LLL (tr (pell_cols 99)) = Ok (Failed (tr [[1; 0]; [0; 1]]))) by (unfold LLL; rewrite L; reflexivity). split; [exact F|].
    destruct (C59_reduced_partial 2 _ _ _ (pell_base 99) L) as (B & [H|H] & Lo & _ & S); [congruence|]. assert (B = tr [[1; 0]; [0; 1]]) by congruence. subst B. auto.
  - pose proof (LLL_cases 2 _ (pell_base 1000)) as (B & k & sw & L & G & R & _ & V). rewrite pell_tr, (pell_loop 1000) in L.
    change (1000 <? max_rounds)%nat with false in L. change (1000 - max_rounds)%nat with 0%nat in L. injection L as <- <- <-.
    change (max_rounds =? 100)%nat with false in V. exists (tr (pell_cols 1000)). eexists. split; [apply pell_base|]. split; [exact V|].
    intros H. specialize (H 1%nat 0%nat ltac:(lia) ltac:(lia)).
    change (pell_cols 0) with [[1; 0]; vadd (vscale 2 [1; 0]) [0; 1]] in *.
    destruct (fix_cases 2 _ _ (pell_base 1000) G R) as ([E | E] & _); rewrite E in H; cbn [neg_first] in H; rewrite small2_10 in H by (try reflexivity; un; lra);
      revert H; un; [rewrite Rabs_pos_eq|rewrite Rabs_left]; lra.
Qed.
Print Assumptions C60_refuted.
