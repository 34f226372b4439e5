(** The first vector of a reduced base is short. *)
From Verif Require Import GroupModel GroupProofs RotProofs DirectProofs LatticeProofs.
From Verif Require Export LLLProofs3.
Local Open Scope R_scope.

Lemma cauchy_schwarz n (x y : vec R) : length x = n -> length y = n -> dot y y <> 0 -> dot x y * dot x y <= dot x x * dot y y.
Proof.
  intros Lx Ly N. pose proof (dot_nonneg (vsub x (vscale (mu x y) y))) as H. rewrite dot_sub_l, !(dot_sub_r n), dot_scale_l, !(dot_scale_r n) in H by lens.
  rewrite dot_scale_l in H. rewrite (dot_c y x) in H by congruence. pose proof (dot_pos y N).
  replace (dot x x - mu x y * dot x y - (mu x y * dot x y - mu x y * (mu x y * dot y y))) with (dot x x - dot x y * dot x y / dot y y) in H by (unfold mu; field; exact N).
  apply (Rmult_le_compat_r (dot y y)) in H; [|lra]. rewrite Rmult_0_l in H. replace ((dot x x - dot x y * dot x y / dot y y) * dot y y) with (dot x x * dot y y - dot x y * dot x y) in H by (field; exact N). lra.
Qed.
Lemma int_sq z : z <> 0%Z -> 1 <= IZR z * IZR z.
Proof. intros H. rewrite <- mult_IZR. apply IZR_le. nia. Qed.
Lemma long_part n x c z : length x = n -> length c = n -> dot c c <> 0 -> z <> 0%Z -> dot x c = IZR z * dot c c -> dot c c <= dot x x.
Proof.
  intros Lx Lc N Hz E. pose proof (cauchy_schwarz n x c Lx Lc N) as H. rewrite E in H. pose proof (dot_pos c N). pose proof (int_sq z Hz).
  assert (IZR z * IZR z * dot c c <= dot x x); [|nra]. apply (Rmult_le_reg_r (dot c c)); [lra|]. lra.
Qed.
Lemma half_growth u v m : 0 <= u -> Rabs m <= 1 / 2 -> u <= 4 / 3 * (m * m * u + v) -> u <= 2 * v.
Proof.
  intros U M H. assert (m * m <= 1 / 4). { assert (-(1/2) <= m <= 1/2) by (revert M; unfold Rabs; destruct (Rcase_abs m); lra). nra. } nra.
Qed.

Lemma list3_eq' (x y z x' y' z' : R) : x = x' -> y = y' -> z = z' -> [x; y; z] = [x'; y'; z'].
Proof. congruence. Qed.
Lemma list2_eq' (x y x' y' : R) : x = x' -> y = y' -> [x; y] = [x'; y'].
Proof. congruence. Qed.
Lemma short3 a b c zs : length a = 3%nat -> length b = 3%nat -> length c = 3%nat -> det (tr [a; b; c]) <> 0 ->
  nearly_reduced 3 (tr [a; b; c]) -> length zs = 3%nat -> zs <> [0; 0; 0]%Z ->
  dot a a <= 4 * dot (mvmul (tr [a; b; c]) (map IZR zs)) (mvmul (tr [a; b; c]) (map IZR zs)).
Proof.
  intros La Lb Lc D Rd Lz NZ. destruct (nondeg3 a b c La Lb Lc D) as (Na & N1 & N2).
  apply reduced3 in Rd; auto. destruct Rd as ((H0 & H1) & M0 & M1). rewrite (b_norm 3 a b) in H0 by auto. rewrite (c1_norm 3 a b c) in H1 by auto.
  apply half_growth in H0; [|apply dot_nonneg|exact M0]. apply half_growth in H1; [|apply dot_nonneg|exact M1].
  apply len3_inv in Lz. destruct Lz as (z0 & z1 & z2 & ->). cbn [map].
  set (x := mvmul _ _). assert (Lx : length x = 3%nat) by (unfold x, mvmul, mkv; rewrite map_length, seq_length; clear - La Lb Lc; w3 La; reflexivity).
  assert (X : x = vadd (vadd (vscale (IZR z0) a) (vscale (IZR z1) b)) (vscale (IZR z2) c)).
  { unfold x. clear - La Lb Lc. w3 La. w3 Lb. w3 Lc. un. apply list3_eq'; ring. }
  pose proof (len_c1 3 a b Lb) as L1. pose proof (len_c2 3 a b c Lc) as L2.
  assert (Dx : forall w, dot x w = IZR z0 * dot a w + IZR z1 * dot b w + IZR z2 * dot c w).
  { intros w. rewrite X, !dot_add_l, !dot_scale_l by lens. ring. }
  pose proof (dot_pos _ Na). pose proof (dot_pos _ N1). pose proof (dot_pos _ N2).
  destruct (Z.eq_dec z2 0) as [Z2|Z2]; [|enough (dot (c2 a b c) (c2 a b c) <= dot x x) by lra; apply (long_part 3 x _ z2); auto; rewrite Dx, (a_c2 3), (b_c2 3), (c_c2 3) by auto; ring].
  destruct (Z.eq_dec z1 0) as [Z1|Z1]; [|enough (dot (c1 a b) (c1 a b) <= dot x x) by lra; apply (long_part 3 x _ z1); auto; rewrite Dx, (a_c1 3), (b_c1 3), Z2 by auto; ring].
  destruct (Z.eq_dec z0 0) as [Z0|Z0]; [subst; now elim NZ|]. enough (dot a a <= dot x x) by lra. apply (long_part 3 x _ z0); auto. rewrite Dx, Z1, Z2. ring.
Qed.
Lemma short2 a b zs : length a = 2%nat -> length b = 2%nat -> det (tr [a; b]) <> 0 ->
  nearly_reduced 2 (tr [a; b]) -> length zs = 2%nat -> zs <> [0; 0]%Z ->
  dot a a <= 2 * dot (mvmul (tr [a; b]) (map IZR zs)) (mvmul (tr [a; b]) (map IZR zs)).
Proof.
  intros La Lb D Rd Lz NZ. destruct (nondeg2 a b La Lb D) as (Na & N1).
  apply reduced2 in Rd; auto. destruct Rd as (H0 & M0). rewrite (b_norm 2 a b) in H0 by auto.
  apply half_growth in H0; [|apply dot_nonneg|exact M0].
  apply len2_inv in Lz. destruct Lz as (z0 & z1 & ->). cbn [map].
  set (x := mvmul _ _). assert (Lx : length x = 2%nat) by (unfold x, mvmul, mkv; rewrite map_length, seq_length; clear - La Lb; w2 La; reflexivity).
  assert (X : x = vadd (vscale (IZR z0) a) (vscale (IZR z1) b)).
  { unfold x. clear - La Lb. w2 La. w2 Lb. un. apply list2_eq'; ring. }
  pose proof (len_c1 2 a b Lb) as L1.
  assert (Dx : forall w, dot x w = IZR z0 * dot a w + IZR z1 * dot b w).
  { intros w. rewrite X, !dot_add_l, !dot_scale_l by lens. ring. }
  pose proof (dot_pos _ Na). pose proof (dot_pos _ N1).
  destruct (Z.eq_dec z1 0) as [Z1|Z1]; [|enough (dot (c1 a b) (c1 a b) <= dot x x) by lra; apply (long_part 2 x _ z1); auto; rewrite Dx, (a_c1 2), (b_c1 2) by auto; ring].
  destruct (Z.eq_dec z0 0) as [Z0|Z0]; [subst; now elim NZ|]. enough (dot a a <= dot x x) by lra. apply (long_part 2 x _ z0); auto. rewrite Dx, Z1. ring.
Qed.
