(** The number of rounds of LLL: every exchange multiplies a potential by less than 3/4, and the potential of a base of a
    given lattice is bounded from below. *)
From Verif Require Import GroupModel GroupProofs RotProofs DirectProofs LatticeProofs.
From Verif Require Export LLLShort.
Local Open Scope R_scope.

(** the squared area spanned by two vectors *)
Definition area2 (a b : vec R) : R := dot a a * dot b b - dot a b * dot a b.
Definition pot (B : list (vec R)) : R :=
  match B with
  | [a; b] => dot a a
  | [a; b; c] => dot a a * area2 a b
  | _ => 0
  end.
Lemma area2_sym a b : length a = length b -> area2 a b = area2 b a.
Proof. intros H. unfold area2. rewrite (dot_c a b H). ring. Qed.
Lemma area2_c1 n a b : length a = n -> length b = n -> dot a a <> 0 -> area2 a b = dot a a * dot (c1 a b) (c1 a b).
Proof. intros La Lb Na. unfold area2. rewrite (b_norm n a b), (dot_c a b) by congruence. unfold mu. field. exact Na. Qed.

Lemma round_pot n B B' i : dim23 n -> good n B -> Gauss_reduction B = Ok B' -> swapping B' = Ok (Some i) -> pot (swap_at i B') <= 3 / 4 * pot B.
Proof.
  intros d G. pose proof G as [W D]. destruct d as [-> | ->].
  - apply wf2_cols in W. destruct W as (a & b & -> & La & Lb). destruct (nondeg2 a b La Lb D) as (Na & N1).
    pose proof (len_rb 2 a b Lb) as Lr. pose proof (c1_rb 2 a b La Lb Na) as E1.
    rewrite gauss2 by auto. intros [= <-]. rewrite <- E1 in N1. rewrite (swapping2 2) by auto. unfold test. rewrite <- (b_norm 2 a (rb a b)) by auto.
    destruct (Rltb _ _) eqn:T; [|discriminate]. intros [= <-]. cbn [swap_at firstn nth app skipn Nat.add pot]. apply Rltb_spec in T. lra.
  - apply wf3_cols in W. destruct W as (a & b & c & -> & La & Lb & Lc). destruct (nondeg3 a b c La Lb Lc D) as (Na & N1 & _).
    pose proof (len_rb 3 a b Lb) as Lr. pose proof (len_rc 3 a b c Lc) as Ls. pose proof (c1_rb 3 a b La Lb Na) as E1.
    rewrite gauss3 by auto. intros [= <-]. pose proof (reach_gauss3 a b c La Lb Lc) as R.
    assert (G' : good 3 [a; rb a b; rc a b c]) by (apply (good_reach 3 [a; b; c]); auto; [now right|apply wf3_cols; eauto 8]).
    destruct (nondeg3 _ _ _ La Lr Ls (proj2 G')) as (_ & N1' & N2).
    rewrite (swapping3 3) by auto. unfold test. rewrite <- (b_norm 3 a (rb a b)), <- (c1_norm 3 a (rb a b) (rc a b c)) by auto.
    assert (A : area2 a b = area2 a (rb a b)) by (rewrite !(area2_c1 3) by auto; now rewrite E1).
    assert (P : 0 < area2 a (rb a b)) by (rewrite (area2_c1 3) by auto; apply Rmult_lt_0_compat; now apply dot_pos).
    pose proof (dot_pos a Na).
    destruct (Rltb _ _) eqn:T.
    + intros [= <-]. cbn [swap_at firstn nth app skipn Nat.add pot]. apply Rltb_spec in T. rewrite A, (area2_sym (rb a b) a) by congruence. nra.
    + destruct (Rltb _ (dot (c1 a (rb a b)) _)) eqn:T1; [|discriminate]. intros [= <-]. cbn [swap_at firstn nth app skipn Nat.add pot]. apply Rltb_spec in T1.
      rewrite A, !(area2_c1 3) by auto. nra.
Qed.

Lemma loop_pot n k : dim23 n -> forall B m B' j, good n B -> lll_loop k B m = Ok (B', j, true) -> pot B' <= (3 / 4) ^ k * pot B.
Proof.
  intros d. induction k as [|k IH]; intros B m B' j G; cbn [lll_loop].
  - intros [= <- _]. cbn [pow]. lra.
  - destruct (round_ok n B d G) as (B1 & sw & E1 & E2 & G1 & R1 & H). rewrite E1. cbn [bind]. rewrite E2. cbn [bind]. destruct sw as [i|]; [|discriminate].
    destruct H as (_ & _ & G2 & _). intros L. apply IH in L; [|exact G2]. pose proof (round_pot n B B1 i d G E1 E2). cbn [pow].
    assert (0 < (3 / 4) ^ k) by (apply pow_lt; lra). nra.
Qed.
Lemma loop_more k : forall B m B' j, lll_loop k B m = Ok (B', j, false) -> forall K, (k <= K)%nat -> lll_loop K B m = Ok (B', j, false).
Proof.
  induction k as [|k IH]; intros B m B' j; cbn [lll_loop]; [discriminate|]. intros H K HK. destruct K as [|K]; [lia|]. cbn [lll_loop].
  destruct (Gauss_reduction B) as [B1| |]; try discriminate. cbn [bind] in *. destruct (swapping B1) as [sw| |]; try discriminate. cbn [bind] in *.
  destruct sw as [i|]; [|exact H]. apply IH; [exact H|lia].
Qed.

(** * Lower bounds *)
Lemma dot3 (x y z x' y' z' : R) : dot [x; y; z] [x'; y'; z'] = x * x' + y * y' + z * z'.
Proof. cbv [dot sumn length vget nth add mul zero R_ops]. ring. Qed.
Lemma dot2 (x y x' y' : R) : dot [x; y] [x'; y'] = x * x' + y * y'.
Proof. cbv [dot sumn length vget nth add mul zero R_ops]. ring. Qed.
Lemma row3 x y z x' y' z' : (x * x' + y * y' + z * z') * (x * x' + y * y' + z * z') <= (x * x + y * y + z * z) * (x' * x' + y' * y' + z' * z').
Proof. pose proof (Rle_0_sqr (x * y' - y * x')). pose proof (Rle_0_sqr (x * z' - z * x')). pose proof (Rle_0_sqr (y * z' - z * y')). unfold Rsqr in *. lra. Qed.
Lemma row2 x y x' y' : (x * x' + y * y') * (x * x' + y * y') <= (x * x + y * y) * (x' * x' + y' * y').
Proof. pose proof (Rle_0_sqr (x * y' - y * x')). unfold Rsqr in *. lra. Qed.
Lemma fro_bound n (M : mat R) v : dim23 n -> wf n n M -> length v = n -> dot (mvmul M v) (mvmul M v) <= fro2 n n M * dot v v.
Proof.
  intros [-> | ->] W L.
  - apply wf2_inv in W. destruct W as (a & b & c & d & ->). w2 L. rename x into p. rename x0 into q.
    replace (mvmul [[a; b]; [c; d]] [p; q]) with [a * p + b * q; c * p + d * q] by (un; apply list2_eq'; ring).
    rewrite !dot2. replace (fro2 2 2 _) with ((a * a + b * b) + (c * c + d * d)) by (cbv [fro2 sumn get nth add zero R_ops]; ring).
    pose proof (row2 a b p q). pose proof (row2 c d p q). lra.
  - apply wf3_inv in W. destruct W as (a & b & c & d & e & f & g & h & i & ->). w3 L. rename x into p. rename x0 into q. rename x1 into r.
    replace (mvmul [[a; b; c]; [d; e; f]; [g; h; i]] [p; q; r]) with [a * p + b * q + c * r; d * p + e * q + f * r; g * p + h * q + i * r] by (un; apply list3_eq'; ring).
    rewrite !dot3. replace (fro2 3 3 _) with ((a * a + b * b + c * c) + (d * d + e * e + f * f) + (g * g + h * h + i * i)) by (cbv [fro2 sumn get nth add zero R_ops]; ring).
    pose proof (row3 a b c p q r). pose proof (row3 d e f p q r). pose proof (row3 g h i p q r). lra.
Qed.
Lemma int_dot n (z : list Z) : dim23 n -> length z = n -> z <> repeat 0%Z n -> 1 <= dot (map IZR z) (map IZR z).
Proof.
  intros [-> | ->] L N.
  - apply len2_inv in L. destruct L as (p & q & ->). cbn [map]. rewrite dot2. rewrite <- !mult_IZR, <- plus_IZR. apply IZR_le.
    destruct (Z.eq_dec p 0), (Z.eq_dec q 0); try nia. subst. now elim N.
  - apply len3_inv in L. destruct L as (p & q & r & ->). cbn [map]. rewrite dot3. rewrite <- !mult_IZR, <- !plus_IZR. apply IZR_le.
    destruct (Z.eq_dec p 0), (Z.eq_dec q 0), (Z.eq_dec r 0); try nia. subst. now elim N.
Qed.
Lemma low_vec n E z : base n E -> length z = n -> z <> repeat 0%Z n -> 1 <= fro2 n n (minv E) * dot (mvmul E (map IZR z)) (mvmul E (map IZR z)).
Proof.
  intros (d & W & D) L N. assert (0 < n)%nat by (destruct d; lia). assert (Wi : wf n n (minv E)) by (now apply wf_minv).
  pose proof (int_dot n z d L N) as H1. assert (Lm : length (map IZR z) = n) by now rewrite map_length.
  rewrite <- (mvmul_eye n (map IZR z) Lm) in H1. rewrite <- (minv_l n E) in H1 by auto. rewrite (mvmul_mmul n) in H1 by auto.
  eapply Rle_trans; [exact H1|]. apply fro_bound; auto. now apply (length_mvmul n n).
Qed.

Lemma low_area (E : mat R) (u v : list Z) : wf 3 3 E -> length u = 3%nat -> length v = 3%nat ->
  (exists w, det (tr [u; v; w]) <> 0%Z /\ length w = 3%nat) ->
  det E * det E <= fro2 3 3 E * area2 (mvmul E (map IZR u)) (mvmul E (map IZR v)).
Proof.
  intros W Lu Lv (w & Hw & Lw). apply len3_inv in Lu, Lv, Lw. destruct Lu as (u0 & u1 & u2 & ->), Lv as (v0 & v1 & v2 & ->), Lw as (w0 & w1 & w2 & ->).
  set (p := (u1 * v2 - u2 * v1)%Z). set (q := (u2 * v0 - u0 * v2)%Z). set (r := (u0 * v1 - u1 * v0)%Z).
  assert (N : [p; q; r] <> repeat 0%Z 3).
  { intros K. apply Hw. injection K as Kp Kq Kr. replace (det _) with (p * w0 + q * w1 + r * w2)%Z; [rewrite Kp, Kq, Kr; lia|].
    unfold p, q, r. cbv [det det_n minor nrows length sumn get nth tl map firstn skipn app Nat.even tr mk ncols hd seq add mul sub opp zero one Z_ops]. ring. }
  pose proof (int_dot 3 [p; q; r] ltac:(now right) eq_refl N) as P. cbn [map] in *. rewrite dot3 in P.
  pose proof W as WE. apply wf3_inv in W. destruct W as (a & b & c & d & e & f & g & h & i & EE).
  set (x := [a * IZR u0 + b * IZR u1 + c * IZR u2; d * IZR u0 + e * IZR u1 + f * IZR u2; g * IZR u0 + h * IZR u1 + i * IZR u2]).
  set (y := [a * IZR v0 + b * IZR v1 + c * IZR v2; d * IZR v0 + e * IZR v1 + f * IZR v2; g * IZR v0 + h * IZR v1 + i * IZR v2]).
  replace (mvmul E [IZR u0; IZR u1; IZR u2]) with x by (rewrite EE; un; apply list3_eq'; ring).
  replace (mvmul E [IZR v0; IZR v1; IZR v2]) with y by (rewrite EE; un; apply list3_eq'; ring).
  set (cr := [vget x 1 * vget y 2 - vget x 2 * vget y 1; vget x 2 * vget y 0 - vget x 0 * vget y 2; vget x 0 * vget y 1 - vget x 1 * vget y 0]).
  assert (A : area2 x y = dot cr cr) by (unfold area2, cr, x, y; cbn [vget nth]; rewrite !dot3; ring). rewrite A.
  pose proof (fro_bound 3 (tr E) cr ltac:(now right) ltac:(apply wf_tr'; auto; lia) eq_refl) as H.
  assert (F : fro2 3 3 (tr E) = fro2 3 3 E) by (rewrite EE; un; cbv [fro2 sumn get nth add zero R_ops]; ring). rewrite F in H.
  assert (T : mvmul (tr E) cr = [det E * IZR p; det E * IZR q; det E * IZR r]).
  { rewrite EE, det3. unfold cr, x, y, p, q, r. rewrite !minus_IZR, !mult_IZR. cbn [vget nth]. un. apply list3_eq'; ring. }
  rewrite T, dot3 in H. pose proof (Rle_0_sqr (det E)). unfold Rsqr in *. nra.
Qed.

Lemma col_int n (E B : mat R) (W : mat Z) i : dim23 n -> wf n n E -> wf n n W -> B = mmul E (RZ W) -> (i < n)%nat -> col B i = mvmul E (map IZR (col W i)).
Proof.
  intros d WE WW -> Hi. assert (0 < n)%nat by (destruct d; lia). assert (L : length (col W i) = n) by (unfold col, mkv; rewrite map_length, seq_length; apply WW).
  assert (WP : wf n n (mmul E (RZ W))) by (apply (wf_mmul n n n); auto using wf_RZ).
  apply (vext n); [unfold col, mkv; rewrite map_length, seq_length; apply WP|now apply (length_mvmul n n)|].
  intros j Hj. rewrite (vget_mvmul n n) by auto. unfold col at 1. rewrite vget_mkv by (unfold nrows; rewrite (proj1 WP); exact Hj).
  rewrite (get_mmul n n n) by auto using wf_RZ. rewrite map_length, L. apply sumn_ext. intros k Hk. f_equal. rewrite get_RZ. unfold vget. change (@zero R R_ops) with (IZR 0). rewrite map_nth.
  f_equal. unfold col, mkv, nrows. rewrite (proj1 WW). set (g := fun i0 => get W i0 i). change (g k = nth k (map g (seq 0 n)) 0%Z).
  rewrite (nth_indep _ 0%Z (g 0%nat)) by now rewrite map_length, seq_length. rewrite map_nth, seq_nth by exact Hk. reflexivity.
Qed.

Lemma pot_low2 E a b : base 2 E -> good 2 [a; b] -> reach 2 (tr E) [a; b] -> 1 <= fro2 2 2 (minv E) * pot [a; b].
Proof.
  intros BE G (W & [WW DW] & HW). pose proof BE as (d & WE & D). rewrite (tr_tr 2 2) in HW by (auto; lia).
  assert (C0 : a = mvmul E (map IZR (col W 0))).
  { rewrite <- (col_int 2 E (tr [a; b]) W 0 d WE WW HW) by lia. rewrite (col_tr 2) by (auto; try lia; apply G). reflexivity. }
  cbn [pot]. rewrite C0. apply low_vec; auto.
  - unfold col, mkv. rewrite map_length, seq_length. apply WW.
  - apply wf2_inv in WW. destruct WW as (p & q & r & s & ->). cbv [col mkv length seq map get nth repeat]. intros [= -> ->].
    cbv [det det_n minor nrows length sumn get nth tl map firstn skipn app Nat.even add mul sub opp zero one Z_ops] in DW. lia.
Qed.
Lemma pot_low3 E a b c : base 3 E -> good 3 [a; b; c] -> reach 3 (tr E) [a; b; c] ->
  det E * det E <= fro2 3 3 (minv E) * fro2 3 3 E * pot [a; b; c].
Proof.
  intros BE G (W & [WW DW] & HW). pose proof BE as (d & WE & D). rewrite (tr_tr 3 3) in HW by (auto; lia).
  assert (C0 : a = mvmul E (map IZR (col W 0))).
  { rewrite <- (col_int 3 E (tr [a; b; c]) W 0 d WE WW HW) by lia. rewrite (col_tr 3) by (auto; try lia; apply G). reflexivity. }
  assert (C1 : b = mvmul E (map IZR (col W 1))).
  { rewrite <- (col_int 3 E (tr [a; b; c]) W 1 d WE WW HW) by lia. rewrite (col_tr 3) by (auto; try lia; apply G). reflexivity. }
  cbn [pot].
  assert (L : forall i, length (col W i) = 3%nat) by (intros; unfold col, mkv; rewrite map_length, seq_length; apply WW).
  assert (H1 : 1 <= fro2 3 3 (minv E) * dot a a).
  { rewrite C0. apply low_vec; auto. clear - WW DW. apply wf3_inv in WW. destruct WW as (p & q & r & s & t & u & v & w & x & ->). cbv [col mkv length seq map get nth repeat]. intros [= -> -> ->].
    cbv [det det_n minor nrows length sumn get nth tl map firstn skipn app Nat.even add mul sub opp zero one Z_ops] in DW. lia. }
  assert (H2 : det E * det E <= fro2 3 3 E * area2 a b).
  { rewrite C0, C1. apply low_area; auto. exists (col W 2). split; [|apply L]. replace (tr _) with W; [destruct DW as [-> | ->]; discriminate|].
    clear - WW. apply wf3_inv in WW. destruct WW as (p & q & r & s & t & u & v & w & x & ->). reflexivity. }
  replace (_ * _ * (_ * _)) with ((fro2 3 3 (minv E) * dot a a) * (fro2 3 3 E * area2 a b)) by ring.
  pose proof (Rle_0_sqr (det E)). unfold Rsqr in *. nra.
Qed.
Lemma pot_high2 E : wf 2 2 E -> pot (tr E) <= fro2 2 2 E.
Proof.
  intros W. apply wf2_inv in W. destruct W as (a & b & c & d & ->).
  replace (tr _) with [[a; c]; [b; d]] by reflexivity. cbn [pot]. rewrite dot2. replace (fro2 2 2 _) with (a * a + c * c + (b * b + d * d)) by (cbv [fro2 sumn get nth add zero R_ops]; ring).
  pose proof (Rle_0_sqr b). pose proof (Rle_0_sqr d). unfold Rsqr in *. lra.
Qed.
Lemma pot_high3 E : wf 3 3 E -> pot (tr E) <= fro2 3 3 E ^ 3.
Proof.
  intros W. apply wf3_inv in W. destruct W as (a & b & c & d & e & f & g & h & i & ->).
  replace (tr _) with [[a; d; g]; [b; e; h]; [c; f; i]] by reflexivity. cbn [pot]. unfold area2.
  replace (fro2 3 3 _) with (dot [a; d; g] [a; d; g] + dot [b; e; h] [b; e; h] + dot [c; f; i] [c; f; i]) by (rewrite !dot3; cbv [fro2 sumn get nth add zero R_ops]; ring).
  pose proof (dot_nonneg [a; d; g]) as X. pose proof (dot_nonneg [b; e; h]) as Y. pose proof (dot_nonneg [c; f; i]) as Z.
  set (x := dot [a; d; g] [a; d; g]) in *. set (y := dot [b; e; h] [b; e; h]) in *. set (z := dot [c; f; i] [c; f; i]) in *. set (t := dot [a; d; g] [b; e; h]).
  set (s := x + y + z). assert (x <= s) by (unfold s; lra). assert (y <= s) by (unfold s; lra).
  assert (P : x * y <= s * s) by nra. pose proof (Rle_0_sqr t). unfold Rsqr in *.
  apply Rle_trans with (x * (s * s)); [apply Rmult_le_compat_l; lra|]. replace (s ^ 3) with (s * (s * s)) by ring. apply Rmult_le_compat_r; nra.
Qed.
