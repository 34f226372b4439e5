(** C72: LLL converges, in a number of rounds bounded by the distortion of the base.  C73: the first vector of the base it
    returns is nearly the shortest of the lattice. *)
From Verif Require Import GroupModel GroupProofs RotProofs DirectProofs LatticeProofs LLLConv.
From Verif Require Import LLLModel LLLSpec.
Local Open Scope R_scope.

(** * C72 *)
(** When distortion * (3/4)^k < 1, at most k rounds are made, whatever the cap. *)
Theorem C72_rounds : forall n E k, base n E -> distortion n E * (3 / 4) ^ k < 1 ->
  exists B j, (1 <= j <= k)%nat /\ forall K, (k <= K)%nat -> lll_loop K (tr E) 0 = Ok (B, j, false).
Proof.
  intros n E k BE H. pose proof BE as (d & W & D). pose proof (start_good n E BE) as G0.
  destruct (loop_ok n k d (tr E) 0 G0) as (B & j & sw & L & G & Rc & X). cbn [Nat.add] in L. destruct sw.
  - exfalso. pose proof (loop_pot n k d (tr E) 0 B j G0 L) as P. assert (Q : 0 < (3 / 4) ^ k) by (apply pow_lt; lra).
    destruct d as [-> | ->].
    + pose proof (proj1 G) as WB. apply wf2_cols in WB. destruct WB as (a & b & -> & _). pose proof (pot_low2 E a b BE G Rc) as Lo. pose proof (pot_high2 E W) as Hi.
      pose proof (fro2_nonneg 2 2 (minv E)) as F. cbn [distortion] in H.
      assert (fro2 2 2 (minv E) * pot [a; b] <= fro2 2 2 (minv E) * ((3 / 4) ^ k * fro2 2 2 E)); [|lra].
      apply Rmult_le_compat_l; [exact F|]. eapply Rle_trans; [exact P|]. apply Rmult_le_compat_l; lra.
    + pose proof (proj1 G) as WB. apply wf3_cols in WB. destruct WB as (a & b & c & -> & _). pose proof (pot_low3 E a b c BE G Rc) as Lo. pose proof (pot_high3 E W) as Hi.
      pose proof (fro2_nonneg 3 3 (minv E)) as F. pose proof (fro2_nonneg 3 3 E) as F'. cbn [distortion] in H.
      assert (D2 : 0 < det E * det E) by (destruct (Rtotal_order (det E) 0) as [?|[?|?]]; nra).
      apply (Rmult_lt_compat_r (det E * det E)) in H; [|exact D2]. unfold Rdiv in H at 1. rewrite Rmult_1_l in H.
      replace (fro2 3 3 E ^ 4 * fro2 3 3 (minv E) * / (det E * det E) * (3 / 4) ^ k * (det E * det E)) with (fro2 3 3 (minv E) * fro2 3 3 E * ((3 / 4) ^ k * fro2 3 3 E ^ 3)) in H by (field; exact D).
      assert (fro2 3 3 (minv E) * fro2 3 3 E * pot [a; b; c] <= fro2 3 3 (minv E) * fro2 3 3 E * ((3 / 4) ^ k * fro2 3 3 E ^ 3)); [|lra].
      apply Rmult_le_compat_l; [nra|]. eapply Rle_trans; [exact P|]. apply Rmult_le_compat_l; lra.
  - exists B, j. split; [apply X|]. now apply loop_more.
Qed.
Print Assumptions C72_rounds.

Lemma distortion_nonneg n E : base n E -> 0 <= distortion n E.
Proof.
  intros (d & W & D). destruct d as [-> | ->]; cbn [distortion].
  - pose proof (fro2_nonneg 2 2 E). pose proof (fro2_nonneg 2 2 (minv E)). nra.
  - pose proof (fro2_nonneg 3 3 E). pose proof (fro2_nonneg 3 3 (minv E)). assert (0 < det E * det E) by (destruct (Rtotal_order (det E) 0) as [?|[?|?]]; nra).
    apply Rmult_le_pos; [apply Rmult_le_pos; [now apply pow_le|lra]|]. left. now apply Rinv_0_lt_compat.
Qed.

(** There is no base for which the exchanges go on forever. *)
Theorem C72_terminates : forall n E, base n E -> exists k B j, forall K, (k <= K)%nat -> lll_loop K (tr E) 0 = Ok (B, j, false).
Proof.
  intros n E BE. pose proof (distortion_nonneg n E BE) as P.
  assert (T : 0 < / (distortion n E + 1)) by (apply Rinv_0_lt_compat; lra).
  destruct (pow_lt_1_zero (3 / 4) ltac:(rewrite Rabs_pos_eq; lra) _ T) as (k & Hk). specialize (Hk k (le_n k)).
  rewrite Rabs_pos_eq in Hk by (apply pow_le; lra).
  destruct (C72_rounds n E k BE) as (B & j & _ & H); [|eauto].
  assert (Q : 0 < (3 / 4) ^ k) by (apply pow_lt; lra).
  apply (Rmult_lt_compat_l (distortion n E + 1)) in Hk; [|lra]. rewrite Rinv_r in Hk by lra. lra.
Qed.
Print Assumptions C72_terminates.

Lemma pow_34_99 : (3 / 4) ^ 99 < / 10 ^ 12.
Proof.
  replace (3 / 4) with (3 * / 4) by reflexivity. rewrite Rpow_mult_distr, <- Rinv_pow by lra.
  apply (Rmult_lt_reg_r (4 ^ 99 * 10 ^ 12)); [apply Rmult_lt_0_compat; apply pow_lt; lra|].
  replace (3 ^ 99 * / 4 ^ 99 * (4 ^ 99 * 10 ^ 12)) with (3 ^ 99 * 10 ^ 12) by (field; apply pow_nonzero; lra).
  replace (/ 10 ^ 12 * (4 ^ 99 * 10 ^ 12)) with (4 ^ 99) by (field; apply pow_nonzero; lra).
  replace 3 with (IZR 3) by lra. replace 4 with (IZR 4) by lra. replace 10 with (IZR 10) by lra. rewrite !pow_IZR, <- mult_IZR. apply IZR_lt. now vm_compute.
Qed.

(** For a base whose distortion is at most 10^12 LLL returns a plain, reduced base. *)
Theorem C72_plain : forall n E, base n E -> distortion n E <= 10 ^ 12 ->
  exists B, LLL E = Ok (Plain B) /\ same_lattice n E B /\ lovasz n B /\ (forall i, (i + 1 < n)%nat -> coefficient_small n B (i + 1) i).
Proof.
  intros n E BE H. pose proof (distortion_nonneg n E BE) as P0. assert (Q : 0 < (3 / 4) ^ 99) by (apply pow_lt; lra).
  destruct (C72_rounds n E 99 BE) as (B & j & Hj & L).
  { pose proof pow_34_99 as S. assert (T : 0 < 10 ^ 12) by (apply pow_lt; lra). apply (Rmult_lt_compat_l (10 ^ 12)) in S; [|exact T]. rewrite Rinv_r in S by lra.
    eapply Rle_lt_trans; [|exact S]. apply Rmult_le_compat_r; lra. }
  destruct (LLL_cases n E BE) as (B' & k & sw & L' & G & R & C & V). rewrite (L max_rounds) in L' by (unfold max_rounds; lia).
  injection L' as <- <- <-. destruct (Nat.eqb_spec j 100); [lia|]. exists (tr (fix_sign E B)). split; [exact V|].
  destruct (fix_cases n E B BE G R) as (F & S). split; [exact S|]. destruct C as [_ C].
  assert (nearly_reduced n (tr (fix_sign E B))) as [X1 X2]; [|now split].
  destruct F as [-> | ->]; [exact C|]. apply reduced_neg; auto. apply BE.
Qed.
Print Assumptions C72_plain.

(** * C73 *)
Lemma short_first n E B : base n E -> good n B -> reach n (tr E) B -> nearly_reduced n (tr B) ->
  forall z, length z = n -> z <> repeat 0%Z n -> dot (col (tr B) 0) (col (tr B) 0) <= 2 ^ (n - 1) * dot (lattice_vector E z) (lattice_vector E z).
Proof.
  intros BE G (W & [WW DW] & HW) Rd z Lz NZ. pose proof BE as (d & WE & D). assert (0 < n)%nat by (destruct d; lia). rewrite (tr_tr n n) in HW by auto.
  destruct (unimod_inv n W d WW DW) as (V & WV & WVe & VWe).
  set (w := mvmul V z). assert (Lw : length w = n) by (unfold w; now apply (length_mvmul n n)).
  assert (X : lattice_vector E z = mvmul (tr B) (map IZR w)).
  { unfold w. rewrite <- (mvmul_RZ n) by auto. rewrite HW. rewrite <- !(mvmul_mmul n) by (auto using wf_RZ; try (apply (wf_mmul n n n); auto using wf_RZ); now rewrite map_length).
    rewrite (mmul_assoc n n n n) by (auto using wf_RZ). rewrite <- RZ_mmul, WVe, RZ_eye, (mmul_eye_r n n) by auto. reflexivity. }
  assert (NW : w <> repeat 0%Z n).
  { intros K. apply NZ. assert (Y : map IZR z = mvmul (RZ W) (map IZR w)).
    { unfold w. rewrite <- (mvmul_RZ n) by auto. rewrite <- (mvmul_mmul n) by (auto using wf_RZ; now rewrite map_length). rewrite <- RZ_mmul, WVe, RZ_eye. symmetry. apply mvmul_eye. now rewrite map_length. }
    rewrite (mvmul_RZ n) in Y by auto. assert (I : forall u v : list Z, map IZR u = map IZR v -> u = v).
    { induction u as [|p u IH]; intros [|q v]; cbn; try discriminate; auto. intros [= U U']. f_equal; [now apply eq_IZR|now apply IH]. }
    apply I in Y. rewrite Y, K. clear - WW d. destruct d as [-> | ->].
    - apply wf2_inv in WW. destruct WW as (p & q & r & s & ->). cbv [mvmul mkv nrows length seq map dot sumn vget nth repeat get add mul zero Z_ops]. f_equal; [ring|]. f_equal. ring.
    - apply wf3_inv in WW. destruct WW as (p & q & r & s & t & u & v & w & x & ->). cbv [mvmul mkv nrows length seq map dot sumn vget nth repeat get add mul zero Z_ops]. f_equal; [ring|]. f_equal; [ring|]. f_equal. ring. }
  rewrite X. pose proof G as [WB DB]. destruct d as [-> | ->].
  - apply wf2_cols in WB. destruct WB as (a & b & -> & La & Lb). rewrite col2_0 by auto. cbn [Nat.sub pow]. rewrite Rmult_1_r. now apply short2.
  - apply wf3_cols in WB. destruct WB as (a & b & c & -> & La & Lb & Lc). rewrite col3_0 by auto. replace (2 ^ (3 - 1)) with 4 by (cbn; lra). now apply short3.
Qed.

(** When LLL stops before the cap the first vector of its base is at most sqrt(2)^(n-1) times as long as any non-zero
    vector of the lattice. *)
Theorem C73_short : forall n E B0 k, base n E -> lll_loop max_rounds (tr E) 0 = Ok (B0, k, false) ->
  exists B, (LLL E = Ok (Plain B) \/ LLL E = Ok (Failed B)) /\
  forall z, length z = n -> z <> repeat 0%Z n -> dot (col B 0) (col B 0) <= 2 ^ (n - 1) * dot (lattice_vector E z) (lattice_vector E z).
Proof.
  intros n E B0 k BE H. destruct (LLL_cases n E BE) as (B & k' & sw & L & G & R & C & V). rewrite H in L. injection L as <- <- <-. destruct C as [_ C].
  pose proof (short_first n E B0 BE G R C) as S. destruct (k =? 100)%nat.
  - exists (tr B0). split; [now right|exact S].
  - exists (tr (fix_sign E B0)). split; [now left|]. destruct (fix_cases n E B0 BE G R) as ([-> | ->] & _); [exact S|].
    pose proof (proj1 BE) as d. destruct (reach_neg n B0 d (proj1 G)) as (Wn & Rn & _).
    intros z Lz Nz. specialize (S z Lz Nz). destruct d as [-> | ->]; pose proof (proj1 G) as WB.
    + apply wf2_cols in WB. destruct WB as (a & b & -> & La & Lb). rewrite col2_0 in S by auto. cbn [neg_first]. rewrite col2_0 by (auto; lens). now rewrite dot_neg.
    + apply wf3_cols in WB. destruct WB as (a & b & c & -> & La & Lb & Lc). rewrite col3_0 in S by auto. cbn [neg_first]. rewrite col3_0 by (auto; lens). now rewrite dot_neg.
Qed.
Print Assumptions C73_short.

(** The same, in terms of the base only *)
Theorem C73_plain : forall n E, base n E -> distortion n E <= 10 ^ 12 ->
  exists B, LLL E = Ok (Plain B) /\ same_lattice n E B /\
  forall z, length z = n -> z <> repeat 0%Z n -> dot (col B 0) (col B 0) <= 2 ^ (n - 1) * dot (lattice_vector E z) (lattice_vector E z).
Proof.
  intros n E BE H. destruct (C72_plain n E BE H) as (B & L & S & _). exists B. split; [exact L|]. split; [exact S|].
  pose proof (distortion_nonneg n E BE) as P0.
  destruct (C72_rounds n E 99 BE) as (B0 & j & _ & J).
  { pose proof pow_34_99 as Q. assert (T : 0 < 10 ^ 12) by (apply pow_lt; lra). assert (Q' : 0 < (3 / 4) ^ 99) by (apply pow_lt; lra). apply (Rmult_lt_compat_l (10 ^ 12)) in Q; [|exact T]. rewrite Rinv_r in Q by lra.
    eapply Rle_lt_trans; [|exact Q]. apply Rmult_le_compat_r; lra. }
  destruct (C73_short n E B0 j BE) as (B' & C & Z); [apply J; unfold max_rounds; lia|]. destruct C as [C | C]; rewrite L in C; [|discriminate]. now injection C as <-.
Qed.
Print Assumptions C73_plain.

(** A primitive base of the body centred cubic lattice meets the hypotheses. *)
Example C73_bcc : base 3 [[-1; 1; 1]; [1; -1; 1]; [1; 1; -1]] /\ distortion 3 [[-1; 1; 1]; [1; -1; 1]; [1; 1; -1]] <= 10 ^ 12.
Proof.
  assert (D : det [[-1; 1; 1]; [1; -1; 1]; [1; 1; -1]] = 4) by (rewrite det3; lra). split.
  - split; [now right|]. split; [now apply wfb_spec|]. rewrite D. lra.
  - unfold distortion. rewrite D. assert (I : minv [[-1; 1; 1]; [1; -1; 1]; [1; 1; -1]] = [[0; 1/2; 1/2]; [1/2; 0; 1/2]; [1/2; 1/2; 0]]).
    { symmetry. apply (inv_unique 3); [now right|now apply wfb_spec|now apply wfb_spec|]. mat_unfold_goal. repeat apply f_equal2; try reflexivity; lra. }
    rewrite I. cbv [fro2 sumn get nth add zero mul R_ops]. lra.
Qed.
