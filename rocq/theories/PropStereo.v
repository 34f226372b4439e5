(** C64: stereographic projections stay in the equatorial disc.  C75: they are stereographic projections. *)
From Coq Require Import Nsatz.
From Verif Require Import ScrewModel LinAlg RotProofs PropRot LLLProofs.
Local Open Scope R_scope.

(** ** Specification *)
(** the mirror image of p in the plane through the origin perpendicular to z *)
Definition mirrored (p z : vec R) : vec R := vsub p (vscale (2 * dot p z / dot z z) z).
(** u1, u2 are an orthonormal frame of the plane perpendicular to z *)
Definition frame_of (z u1 u2 : vec R) : Prop :=
  length u1 = 3%nat /\ length u2 = 3%nat /\ dot u1 u1 = 1 /\ dot u2 u2 = 1 /\ dot u1 u2 = 0 /\ dot u1 z = 0 /\ dot u2 z = 0.
(** (x, y) are the coordinates, in the frame u1, u2 of the equatorial plane of the sphere of radius |z| about the origin,
    of the point where the plane meets the line from the south pole -z through the point of the sphere above p *)
Definition projection (z u1 u2 p : vec R) (x y : R) : Prop :=
  exists l, vadd (vscale (-1) z) (vscale l (vadd (vscale (vnorm z / vnorm p) p) z)) = vadd (vscale x u1) (vscale y u2).

(** ** Proofs *)
Lemma dot_3 (a b c x y w : R) : dot [a; b; c] [x; y; w] = a * x + b * y + c * w.
Proof. cbv [dot sumn length vget nth add mul zero R_ops]. ring. Qed.
Lemma vnorm_3 (a b c : R) : vnorm [a; b; c] = sqrt (a * a + b * b + c * c).
Proof. unfold vnorm. now rewrite dot_3. Qed.
Lemma norm_facts (x y w : R) : [x; y; w] <> [0; 0; 0] -> let r := vnorm [x; y; w] in 0 < r /\ r * r = x * x + y * y + w * w.
Proof.
  intros H r. assert (P : 0 < x * x + y * y + w * w).
  { pose proof (Rle_0_sqr x). pose proof (Rle_0_sqr y). pose proof (Rle_0_sqr w). unfold Rsqr in *.
    destruct (Req_dec x 0) as [-> | K]; [|pose proof (Rsqr_pos_lt x K); unfold Rsqr in *; lra].
    destruct (Req_dec y 0) as [-> | K]; [|pose proof (Rsqr_pos_lt y K); unfold Rsqr in *; lra].
    destruct (Req_dec w 0) as [-> | K]; [now destruct H|pose proof (Rsqr_pos_lt w K); unfold Rsqr in *; lra]. }
  unfold r. rewrite vnorm_3. split; [now apply sqrt_lt_R0|]. apply sqrt_sqrt. lra.
Qed.
Lemma norm_pos_nz (p : vec R) : 0 < vnorm p -> dot p p = vnorm p * vnorm p /\ vnorm p <> 0.
Proof. intros H. split; [|lra]. unfold vnorm in *. symmetry. apply sqrt_sqrt. apply dot_nonneg. Qed.

(** the frame *)
Lemma frame_first x y w : let z := [x; y; w] in 1 / 10 ^ 6 < x ^ 2 + y ^ 2 ->
  exists m r, 0 < m /\ 0 < r /\ m * m = x * x + y * y /\ r * r = x * x + y * y + w * w /\ r = vnorm z /\
    stereo_frame z = Ok ([y / m; - x / m; 0], [w * x / (m * r); w * y / (m * r); - m / r]).
Proof.
  intros z H. assert (H' : 0 < x * x + y * y) by nra.
  destruct (norm_facts x y w) as [Rp R2]; [intros [= -> -> ->]; lra|]. fold z in Rp, R2. set (r := vnorm z) in *.
  destruct (norm_facts y (- x) 0) as [Mp M2]; [intros [= K1 K2]; assert (x = 0) by lra; subst; lra|]. set (m := vnorm [y; - x; 0]) in *.
  exists m, r. split; [exact Mp|]. split; [exact Rp|]. split; [rewrite M2; ring|]. split; [exact R2|]. split; [reflexivity|].
  unfold stereo_frame. cbn [vget nth z]. rewrite (proj2 (Rltb_spec _ _)) by exact H. unfold normalize at 1. fold m. rewrite (proj2 (Reqb_false _ _)) by lra. cbn [bind map].
  replace (0 / m) with 0 by (field; lra).
  assert (C : cross [x; y; w] [y / m; - x / m; 0] = [w * x / m; w * y / m; - m]).
  { assert (MM : m * m = x * x + y * y) by (rewrite M2; ring). veq ltac:(idtac); try (field; lra).
    transitivity (- (m * m) / m); [rewrite MM; field; lra|field; lra]. }
  unfold z. rewrite C. clear C.
  assert (N : vnorm [w * x / m; w * y / m; - m] = r).
  { rewrite vnorm_3. replace (_ + _ + _) with (r * r); [apply sqrt_square; lra|].
    rewrite R2. replace (x * x + y * y) with (m * m) by (rewrite M2; ring). replace (w * x / m * (w * x / m) + w * y / m * (w * y / m)) with (w * w * ((x * x + y * y) / (m * m))) by (field; lra).
    replace (x * x + y * y) with (m * m) by (rewrite M2; ring). field. lra. }
  unfold normalize. rewrite N. rewrite (proj2 (Reqb_false _ _)) by lra. cbn [bind map].
  assert (L3 : forall a b c a' b' c' : R, a = a' -> b = b' -> c = c' -> [a; b; c] = [a'; b'; c']) by congruence.
  apply f_equal, f_equal2; [reflexivity|]. apply L3; field; lra.
Qed.
Lemma frame_ok z : length z = 3%nat -> z <> [0; 0; 0] -> exists u1 u2, stereo_frame z = Ok (u1, u2) /\
  length u1 = 3%nat /\ length u2 = 3%nat /\ dot u1 u1 = 1 /\ dot u2 u2 = 1 /\ dot u1 u2 = 0 /\
  ((1 / 10 ^ 6 < vget z 0 ^ 2 + vget z 1 ^ 2 \/ (vget z 0 = 0 /\ vget z 1 = 0)) -> dot u1 z = 0 /\ dot u2 z = 0 /\
     forall u, length u = 3%nat -> u = vadd (vscale (dot u z / dot z z) z) (vadd (vscale (dot u u1) u1) (vscale (dot u u2) u2))).
Proof.
  intros L NZ. apply len3_inv in L. destruct L as (x & y & w & ->). cbn [vget nth].
  destruct (Rlt_dec (1 / 10 ^ 6) (x ^ 2 + y ^ 2)) as [H|H].
  - destruct (frame_first x y w H) as (m & r & Mp & Rp & M2 & R2 & _ & E). eexists _, _. split; [exact E|]. split; [reflexivity|]. split; [reflexivity|]. rewrite !dot_3.
    set (im := / m). set (ir := / r). assert (Im : m * im = 1) by (apply Rinv_r; lra). assert (Ir : r * ir = 1) by (apply Rinv_r; lra).
    unfold Rdiv. rewrite !Rinv_mult. fold im ir. assert (IR : / r = ir) by reflexivity. clearbody im ir. clear E NZ H.
    split; [nsatz|]. split; [nsatz|]. split; [nsatz|]. intros _. split; [nsatz|]. split; [nsatz|].
    intros u Lu. apply len3_inv in Lu. destruct Lu as (a & b & c & ->). rewrite !dot_3. rewrite <- R2, Rinv_mult. rewrite IR.
    unfold vadd, vscale. cbn. apply f_equal2; [nsatz|]. apply f_equal2; [nsatz|]. apply f_equal2; [nsatz|reflexivity].
  - unfold stereo_frame. cbn [vget nth]. rewrite (proj2 (Rltb_false _ _)) by lra. eexists _, _. split; [reflexivity|]. split; [reflexivity|]. split; [reflexivity|]. rewrite !dot_3.
    split; [ring|]. split; [ring|]. split; [ring|]. intros [K|[-> ->]]; [lra|]. split; [ring|]. split; [ring|].
    intros u Lu. apply len3_inv in Lu. destruct Lu as (a & b & c & ->). rewrite !dot_3. assert (w <> 0) by (intros ->; now apply NZ).
    unfold vadd, vscale. cbn. apply f_equal2; [field; nra|]. apply f_equal2; [field; nra|]. apply f_equal2; [field; nra|reflexivity].
Qed.

(** the rounded square of the sine *)
Definition ee : R := / 2 / 10 ^ 6.
Lemma ee_val : ee = 5 / 10 ^ 7. Proof. unfold ee. field. Qed.
Lemma round6_close x : Rabs (x - round6 x) <= ee.
Proof.
  unfold round6, ee. pose proof (rint_close (x * 10 ^ 6)) as H. set (k := IZR (rint (x * 10 ^ 6))) in *.
  replace (x - k / 10 ^ 6) with ((x * 10 ^ 6 - k) * / 10 ^ 6) by field. rewrite Rabs_mult, (Rabs_right (/ 10 ^ 6)) by lra. lra.
Qed.
Lemma round6_grid x : 0 <= x -> round6 x = 0 \/ 1 / 10 ^ 6 <= round6 x.
Proof.
  intros H. unfold round6. pose proof (rint_close (x * 10 ^ 6)) as K. set (k := rint (x * 10 ^ 6)) in *.
  assert (0 <= k)%Z. { apply le_IZR. destruct (Z_lt_le_dec k 0) as [N|N]; [|now apply IZR_le]. assert (N' : IZR k <= -1) by (apply IZR_le; lia). unfold Rabs in K. destruct (Rcase_abs _); lra. }
  destruct (Z.eq_dec k 0) as [-> | N]; [left; lra|right]. assert (1 <= IZR k) by (apply IZR_le; lia). lra.
Qed.
Lemma round6_top c : 0 <= c <= ee -> round6 (1 - c ^ 2) = 1.
Proof.
  intros [H1 H2]. rewrite ee_val in H2. unfold round6. rewrite (rint_nearest _ 1000000); [lra|].
  assert (0 <= c ^ 2 <= 1 / 10 ^ 7) by nra. unfold Rabs. destruct (Rcase_abs _); lra.
Qed.
Lemma disc_ineq c : 0 <= c <= 1 -> 1 / 10 ^ 6 <= round6 (1 - c ^ 2) -> 1 - c <= (1 + c) * round6 (1 - c ^ 2).
Proof.
  intros [H1 H2] Hr. pose proof (round6_close (1 - c ^ 2)) as K. set (r := round6 (1 - c ^ 2)) in *.
  destruct (Rle_dec c ee) as [L|L].
  - unfold r. rewrite round6_top by now split. lra.
  - rewrite ee_val in *. destruct (Rle_dec (1 - c) (5 / 10 ^ 7)) as [M|M]; [nra|].
    assert (R1 : 1 - c ^ 2 - 5 / 10 ^ 7 <= r) by (unfold Rabs in K; destruct (Rcase_abs _); lra).
    set (e := 5 / 10 ^ 7) in *. assert (E : 0 < e <= 1 / 10 ^ 6) by (unfold e; lra). clearbody e.
    apply Rle_trans with ((1 + c) * (1 - c ^ 2 - e)); [|apply Rmult_le_compat_l; lra].
    assert (G : e * (1 + c) <= (1 - c) * (c * (2 + c))); [|nra].
    destruct (Rle_dec c (4 / 10)) as [A|A]; [|destruct (Rle_dec c (62 / 100)) as [B|B]].
    + apply Rle_trans with (c * (1 + c)); [nra|]. assert (1 + c <= (1 - c) * (2 + c)) by nra. nra.
    + assert (96 / 100 <= c * (2 + c)) by nra. assert (38 / 100 <= 1 - c) by lra. assert (e * (1 + c) <= 2 / 10 ^ 6) by nra. nra.
    + assert (1 + c <= c * (2 + c)) by nra. nra.
Qed.
Lemma near_ineq s r k : 1 / 10 ^ 6 <= r -> Rabs (s - r) <= ee -> 0 <= k -> k * k * r = s -> (k - 1) * (k - 1) * s <= / 10 ^ 6.
Proof.
  intros H1 H2 H3 H4. rewrite ee_val in H2. assert (A : (s - r) * (s - r) <= 5 / 10 ^ 7 * (5 / 10 ^ 7)) by (unfold Rabs in H2; destruct (Rcase_abs _); nra).
  assert (B : (s - r) * (s - r) = (k * k - 1) * (k * k - 1) * (r * r)) by (rewrite <- H4; ring).
  assert (C : (k - 1) * (k - 1) * (k * k) <= (k * k - 1) * (k * k - 1)).
  { replace ((k * k - 1) * (k * k - 1)) with ((k - 1) * (k - 1) * ((k + 1) * (k + 1))) by ring. apply Rmult_le_compat_l; [apply Rle_0_sqr|nra]. }
  assert (D : (k - 1) * (k - 1) * s * r <= 25 / 10 ^ 14).
  { rewrite <- H4. replace ((k - 1) * (k - 1) * (k * k * r) * r) with ((k - 1) * (k - 1) * (k * k) * (r * r)) by ring.
    apply Rle_trans with ((k * k - 1) * (k * k - 1) * (r * r)); [apply Rmult_le_compat_r; [nra|exact C]|]. rewrite <- B. lra. }
  set (X := (k - 1) * (k - 1) * s) in *. destruct (Rle_dec X (/ 10 ^ 6)) as [L|L]; [exact L|]. nra.
Qed.

Lemma point_cases (u z z1 z2 : vec R) (c : R) : 0 < vnorm z -> c = dot u z / vnorm z -> 0 <= c <= 1 -> let r := round6 (1 - c ^ 2) in
  (r = 0 /\ stereo_point u z z1 z2 = Ok [0; 0]) \/
  (1 / 10 ^ 6 <= r /\ exists k, 0 <= k /\ k * k * ((1 + c) * r) = vnorm z * vnorm z * (1 - c) /\ stereo_point u z z1 z2 = Ok [k * dot u z1; k * dot u z2]).
Proof.
  intros Hz Ec Hc r. unfold stereo_point. rewrite <- Ec. fold r. destruct (round6_grid (1 - c ^ 2)) as [K|K]; [nra| |]; fold r in K.
  - left. split; [exact K|]. rewrite K, (proj2 (Rltb_false _ _)), sqrt_0 by lra. rewrite (proj2 (Rltb_spec _ _)) by lra. reflexivity.
  - right. split; [exact K|]. rewrite (proj2 (Rltb_false _ _)) by lra.
    assert (Q0 : 0 < sqrt r) by (apply sqrt_lt_R0; lra). assert (Q1 : sqrt r * sqrt r = r) by (apply sqrt_sqrt; lra).
    rewrite (proj2 (Rltb_false _ _)) by nra. set (q := sqrt r) in *.
    assert (F0 : 0 <= (1 - c) / (1 + c)) by (apply Rmult_le_pos; [lra|apply Rlt_le, Rinv_0_lt_compat; lra]).
    pose proof (sqrt_pos ((1 - c) / (1 + c))) as F1. pose proof (sqrt_sqrt _ F0) as F2. set (f := sqrt ((1 - c) / (1 + c))) in *.
    exists (vnorm z * f / q). split; [apply Rmult_le_pos; [nra|apply Rlt_le, Rinv_0_lt_compat; lra]|]. split.
    + rewrite <- Q1. replace (vnorm z * f / q * (vnorm z * f / q) * ((1 + c) * (q * q))) with (vnorm z * vnorm z * (f * f) * (1 + c)) by (field; lra). rewrite F2. field. lra.
    + apply f_equal, f_equal2; [field; lra|]. apply f_equal2; [field; lra|reflexivity].
Qed.

(** mirror images *)
Lemma mirror_facts p z : length p = 3%nat -> length z = 3%nat -> z <> [0; 0; 0] ->
  length (mirrored p z) = 3%nat /\ dot (mirrored p z) (mirrored p z) = dot p p /\ dot (mirrored p z) z = - dot p z /\ mirrored (mirrored p z) z = p /\
  (dot p z = 0 -> mirrored p z = p).
Proof.
  intros L1 L2 NZ. apply len3_inv in L1, L2. destruct L1 as (a & b & c & ->), L2 as (x & y & w & ->).
  destruct (norm_facts x y w NZ) as [Rp R2]. set (r := vnorm [x; y; w]) in *.
  assert (N : x * x + y * y + w * w <> 0) by nra. unfold mirrored. rewrite !dot_3. set (i := 2 * (a * x + b * y + c * w) / (x * x + y * y + w * w)).
  assert (I : i * (x * x + y * y + w * w) = 2 * (a * x + b * y + c * w)) by (unfold i; field; exact N). 
  replace (vsub [a; b; c] (vscale i [x; y; w])) with [a - i * x; b - i * y; c - i * w] by reflexivity. rewrite !dot_3.
  assert (J : 2 * ((a - i * x) * x + (b - i * y) * y + (c - i * w) * w) / (x * x + y * y + w * w) = - i).
  { transitivity ((2 * (a * x + b * y + c * w) - 2 * (i * (x * x + y * y + w * w))) / (x * x + y * y + w * w)); [field; exact N|]. rewrite I. unfold i. field. exact N. }
  rewrite J. assert (Z0 : a * x + b * y + c * w = 0 -> i = 0) by (unfold i; intros ->; field; exact N). clearbody i. split; [reflexivity|]. split; [nsatz|]. split; [nsatz|]. split.
  - unfold vsub, vscale. cbn. apply f_equal2; [ring|]. apply f_equal2; [ring|]. apply f_equal2; [ring|reflexivity].
  - intros K. rewrite (Z0 K). apply f_equal2; [ring|]. apply f_equal2; [ring|]. apply f_equal2; [ring|reflexivity].
Qed.
Lemma proj_unfold p z : length p = 3%nat -> length z = 3%nat -> z <> [0; 0; 0] -> forall u1 u2, stereo_frame z = Ok (u1, u2) ->
  stereo_proj p z = if Rltb (1 / 10 ^ 6) (vnorm p) then
    stereo_point (vscale (/ vnorm p) (if Rltb (1 / 10 ^ 6) (dot p z) then p else mirrored p z)) z u1 u2 else Ok [0; 0].
Proof.
  intros L1 L2 NZ u1 u2 F. unfold stereo_proj. apply len3_inv in L1, L2. destruct L1 as (a & b & c & ->), L2 as (x & y & w & ->).
  destruct (norm_facts x y w NZ) as [Rp R2]. unfold normalize. set (r := vnorm [x; y; w]) in *. rewrite (proj2 (Reqb_false _ _)) by lra. cbn [bind]. rewrite F. cbn [bind fst snd].
  destruct (Rltb (1 / 10 ^ 6) (vnorm _)); [|reflexivity]. destruct (Rltb (1 / 10 ^ 6) (dot _ _)); [reflexivity|]. f_equal. f_equal.
  unfold mirrored. rewrite !dot_3. rewrite <- R2. unfold vscale, vsub. veq ltac:(field; lra).
Qed.
Lemma cauchy p z : length p = 3%nat -> length z = 3%nat -> dot p z * dot p z <= dot p p * dot z z.
Proof.
  intros L1 L2. apply len3_inv in L1, L2. destruct L1 as (a & b & c & ->), L2 as (x & y & w & ->). rewrite !dot_3.
  pose proof (Rle_0_sqr (a * y - b * x)). pose proof (Rle_0_sqr (a * w - c * x)). pose proof (Rle_0_sqr (b * w - c * y)). unfold Rsqr in *. nra.
Qed.
Lemma bessel u u1 u2 : length u = 3%nat -> length u1 = 3%nat -> length u2 = 3%nat -> dot u1 u1 = 1 -> dot u2 u2 = 1 -> dot u1 u2 = 0 ->
  dot u u1 * dot u u1 + dot u u2 * dot u u2 <= dot u u.
Proof.
  intros L0 L1 L2 H1 H2 H3. set (A := dot u u1). set (B := dot u u2).
  pose proof (dot_nonneg (vsub u (vadd (vscale A u1) (vscale B u2)))) as K.
  replace (dot (vsub u _) _) with (dot u u - 2 * A * dot u u1 - 2 * B * dot u u2 + A * A * dot u1 u1 + B * B * dot u2 u2 + 2 * A * B * dot u1 u2) in K.
  - rewrite H1, H2, H3 in K. fold A B in K. lra.
  - clearbody A B. apply len3_inv in L0, L1, L2. destruct L0 as (? & ? & ? & ->), L1 as (? & ? & ? & ->), L2 as (? & ? & ? & ->). rewrite !dot_3. unfold vsub, vadd, vscale. cbn. ring.
Qed.
Lemma dot_vscale k (u v : vec R) : length u = 3%nat -> length v = 3%nat -> dot (vscale k u) v = k * dot u v.
Proof. intros L1 L2. apply len3_inv in L1, L2. destruct L1 as (? & ? & ? & ->), L2 as (? & ? & ? & ->). unfold vscale. cbn [map]. rewrite !dot_3. ring. Qed.
Lemma len_vscale k (u : vec R) : length (vscale k u) = length u. Proof. apply map_length. Qed.
(** the unit vector along q, with a cosine in [0, 1] *)
Lemma unit_facts q z : length q = 3%nat -> length z = 3%nat -> 0 < vnorm q -> 0 < vnorm z -> 0 <= dot q z ->
  let u := vscale (/ vnorm q) q in length u = 3%nat /\ dot u u = 1 /\ dot u z = dot q z / vnorm q /\ 0 <= dot u z / vnorm z <= 1.
Proof.
  intros L1 L2 Hq Hz H u. destruct (norm_pos_nz q Hq) as [Q1 Q2]. destruct (norm_pos_nz z Hz) as [Z1 Z2].
  assert (Lu : length u = 3%nat) by (unfold u; now rewrite len_vscale). split; [exact Lu|].
  assert (D : dot u z = dot q z / vnorm q) by (unfold u; rewrite dot_vscale by auto; field; exact Q2). split; [|split; [exact D|]].
  - unfold u at 1. rewrite dot_vscale by auto. rewrite dot_c by now rewrite Lu. unfold u. rewrite dot_vscale by auto. rewrite Q1. field. exact Q2.
  - rewrite D. pose proof (cauchy q z L1 L2) as C. rewrite Q1, Z1 in C. set (d := dot q z) in *. set (a := vnorm q) in *. set (b := vnorm z) in *.
    assert (B : d <= a * b) by (apply Rsqr_incr_0_var; [unfold Rsqr; nra|nra]).
    replace (d / a / b) with (d * / (a * b)) by (field; lra). assert (P : 0 < a * b) by nra. split; [apply Rmult_le_pos; [exact H|now apply Rlt_le, Rinv_0_lt_compat]|].
    apply (Rmult_le_reg_r (a * b)); [exact P|]. rewrite Rmult_assoc, Rinv_l by lra. lra.
Qed.

(** the unit vector that is projected *)
Lemma hemisphere p z : length p = 3%nat -> length z = 3%nat -> z <> [0; 0; 0] -> 1 / 10 ^ 6 < vnorm p -> ~ (0 < dot p z <= 1 / 10 ^ 6) ->
  let q := if Rltb (1 / 10 ^ 6) (dot p z) then p else mirrored p z in length q = 3%nat /\ vnorm q = vnorm p /\ dot q z = Rabs (dot p z).
Proof.
  intros L1 L2 NZ Hp H q. unfold q. destruct (mirror_facts p z L1 L2 NZ) as (M1 & M2 & M3 & _).
  destruct (Rltb (1 / 10 ^ 6) (dot p z)) eqn:E.
  - apply Rltb_spec in E. split; [exact L1|]. split; [reflexivity|]. symmetry. apply Rabs_right. lra.
  - apply Rltb_false in E. split; [exact M1|]. split; [unfold vnorm; now rewrite M2|]. rewrite M3. symmetry. apply Rabs_left1. destruct (Rle_dec (dot p z) 0) as [K|K]; [exact K|]. exfalso. apply H. lra.
Qed.

(** * C64 *)
(** Missing: poles with 0 < p.z <= 1e-6, see C64_refuted. *)
Theorem C64_disc_partial : forall p z, length p = 3%nat -> length z = 3%nat -> z <> [0; 0; 0] -> ~ (0 < dot p z <= 1 / 10 ^ 6) ->
  exists x y, stereo_proj p z = Ok [x; y] /\ x * x + y * y <= dot z z.
Proof.
  intros p z L1 L2 NZ H. destruct (frame_ok z L2 NZ) as (u1 & u2 & F & F1 & F2 & F3 & F4 & F5 & _). rewrite (proj_unfold p z L1 L2 NZ u1 u2 F).
  assert (Zp : 0 < vnorm z) by (apply len3_inv in L2; destruct L2 as (? & ? & ? & ->); now apply norm_facts). destruct (norm_pos_nz z Zp) as [Z1 Z2].
  destruct (Rltb (1 / 10 ^ 6) (vnorm p)) eqn:E; [|exists 0, 0; split; [reflexivity|]; rewrite Z1; nra]. apply Rltb_spec in E.
  destruct (hemisphere p z L1 L2 NZ E H) as (Q1 & Q2 & Q3). set (q := if Rltb (1 / 10 ^ 6) (dot p z) then p else mirrored p z) in *.
  destruct (unit_facts q z Q1 L2) as (U1 & U2 & _ & U4); [lra|exact Zp|rewrite Q3; apply Rabs_pos|]. rewrite Q2 in *. set (u := vscale (/ vnorm p) q) in *.
  destruct (point_cases u z u1 u2 _ Zp eq_refl U4) as [[_ K]|(K1 & k & K2 & K3 & K)]; rewrite K.
  - exists 0, 0. split; [reflexivity|]. rewrite Z1. nra.
  - eexists _, _. split; [reflexivity|]. pose proof (bessel u u1 u2 U1 F1 F2 F3 F4 F5) as B. rewrite U2 in B. set (A := dot u u1) in *. set (C := dot u u2) in *.
    set (c := dot u z / vnorm z) in *. pose proof (disc_ineq c U4 K1) as D. set (r := round6 (1 - c ^ 2)) in *. rewrite Z1. set (R := vnorm z) in *.
    assert (P : 0 < (1 + c) * r) by nra.
    assert (KK : k * k <= R * R).
    { apply (Rmult_le_reg_r ((1 + c) * r)); [exact P|]. rewrite K3. apply Rmult_le_compat_l; [nra|exact D]. }
    replace (k * A * (k * A) + k * C * (k * C)) with (k * k * (A * A + C * C)) by ring. pose proof (Rle_0_sqr k) as S. unfold Rsqr in S. nra.
Qed.
Print Assumptions C64_disc_partial.

(** Mirror images in the equatorial plane are projected to the same point.  Missing: as above. *)
Theorem C64_mirror_partial : forall p z, length p = 3%nat -> length z = 3%nat -> z <> [0; 0; 0] -> ~ (0 < Rabs (dot p z) <= 1 / 10 ^ 6) ->
  stereo_proj (mirrored p z) z = stereo_proj p z.
Proof.
  intros p z L1 L2 NZ H. destruct (mirror_facts p z L1 L2 NZ) as (M1 & M2 & M3 & M4 & M5).
  destruct (Req_dec (dot p z) 0) as [D|D]; [now rewrite M5|].
  assert (A : 1 / 10 ^ 6 < Rabs (dot p z)) by (destruct (Rlt_dec (1 / 10 ^ 6) (Rabs (dot p z))) as [K|K]; [exact K|exfalso; apply H; split; [now apply Rabs_pos_lt|lra]]).
  destruct (frame_ok z L2 NZ) as (u1 & u2 & F & _). rewrite (proj_unfold p z L1 L2 NZ u1 u2 F), (proj_unfold _ z M1 L2 NZ u1 u2 F).
  assert (V : vnorm (mirrored p z) = vnorm p) by (unfold vnorm; now rewrite M2). rewrite V, M3, M4.
  destruct (Rltb (1 / 10 ^ 6) (vnorm p)); [|reflexivity]. unfold Rabs in A. destruct (Rcase_abs _).
  - rewrite (proj2 (Rltb_spec _ _)) by lra. rewrite (proj2 (Rltb_false _ _)) by lra. reflexivity.
  - rewrite (proj2 (Rltb_false _ _)) by lra. rewrite (proj2 (Rltb_spec _ _)) by lra. reflexivity.
Qed.
Print Assumptions C64_mirror_partial.

(** The zone axis and all its multiples are projected to the origin. *)
Theorem C64_axis : forall z k, length z = 3%nat -> z <> [0; 0; 0] -> stereo_proj (vscale k z) z = Ok [0; 0].
Proof.
  intros z k L NZ. assert (Lk : length (vscale k z) = 3%nat) by now rewrite len_vscale. destruct (frame_ok z L NZ) as (u1 & u2 & F & _).
  rewrite (proj_unfold _ z Lk L NZ u1 u2 F). destruct (Rltb (1 / 10 ^ 6) (vnorm (vscale k z))) eqn:E; [|reflexivity]. apply Rltb_spec in E.
  assert (Zp : 0 < vnorm z) by (apply len3_inv in L; destruct L as (? & ? & ? & ->); now apply norm_facts). destruct (norm_pos_nz z Zp) as [Z1 Z2].
  destruct (norm_pos_nz (vscale k z)) as [Y1 Y2]; [lra|]. destruct (mirror_facts _ z Lk L NZ) as (M1 & M2 & M3 & _).
  set (q := if Rltb (1 / 10 ^ 6) (dot (vscale k z) z) then vscale k z else mirrored (vscale k z) z).
  assert (Q : dot q z = k * dot z z \/ dot q z = - (k * dot z z)) by (unfold q; destruct (Rltb _ _); [left|right; rewrite M3; f_equal]; now apply dot_vscale).
  assert (Lq : length q = 3%nat) by (unfold q; now destruct (Rltb _ _)).
  set (nk := vnorm (vscale k z)) in *. assert (N : nk * nk = k * k * dot z z) by (rewrite <- Y1, dot_vscale by auto; rewrite (dot_c z (vscale k z)) by congruence; rewrite dot_vscale by auto; ring).
  unfold stereo_point. rewrite dot_vscale by auto. replace (1 - (/ nk * dot q z / vnorm z) ^ 2) with 0.
  - unfold round6. rewrite Rmult_0_l. change 0 with (IZR 0) at 1. rewrite rint_IZR. replace (IZR 0 / 10 ^ 6) with 0 by field. rewrite (proj2 (Rltb_false _ _)) by lra. rewrite sqrt_0, (proj2 (Rltb_spec _ _)) by lra. reflexivity.
  - replace ((/ nk * dot q z / vnorm z) ^ 2) with (dot q z * dot q z / (nk * nk * (vnorm z * vnorm z))) by (field; lra). rewrite N, <- Z1.
    assert (W : 0 < dot z z) by (rewrite Z1; nra). assert (k <> 0) by (intros ->; rewrite Rmult_0_l in N; nra). destruct Q as [-> | ->]; field; lra.
Qed.
Print Assumptions C64_axis.

(** pole_figure projects every row; it does nothing for rows that are not triplets. *)
Theorem C64_pole_figure : forall plist z,
  ((forall p, In p plist -> length p = 3%nat) -> plist <> [] -> length z = 3%nat -> z <> [0; 0; 0] ->
    (forall p, In p plist -> ~ (0 < dot p z <= 1 / 10 ^ 6)) ->
    exists l, pole_figure plist z = Ok (Some l) /\ Forall2 (fun p q => stereo_proj p z = Ok q) plist l) /\
  (forall n, n <> 3%nat -> (forall p, In p plist -> length p = n) -> pole_figure plist z = Ok None).
Proof.
  intros plist z. split.
  - intros L NE Lz NZ H. unfold pole_figure. destruct plist as [|p0 ps]; [congruence|]. cbn [nth]. rewrite (L p0) by now left. cbn [Nat.eqb].
    set (l0 := p0 :: ps) in *. clearbody l0. clear NE p0 ps.
    assert (G : exists l, mapM (fun p => stereo_proj p z) l0 = Ok l /\ Forall2 (fun p q => stereo_proj p z = Ok q) l0 l).
    { induction l0 as [|p l0 IH]; [exists []; split; [reflexivity|constructor]|].
      destruct (C64_disc_partial p z (L p (or_introl eq_refl)) Lz NZ (H p (or_introl eq_refl))) as (x & y & E & _).
      destruct IH as (l & E2 & F); [intros; apply L; now right|intros; apply H; now right|]. exists ([x; y] :: l). cbn [mapM]. rewrite E. cbn [bind]. rewrite E2. split; [reflexivity|]. now constructor. }
    destruct G as (l & E & F). rewrite E. cbn [bind]. eauto.
  - intros n Hn L. unfold pole_figure. destruct plist as [|p ps]; [reflexivity|]. cbn [nth]. rewrite (L p) by now left. now destruct (Nat.eqb_spec n 3).
Qed.
Print Assumptions C64_pole_figure.

(** The thresholds are absolute: of a short pole in the upper hemisphere the mirror image is projected, to a point at
    three times the radius; its own mirror image is projected to another point. *)
Lemma short_case a b : (a = 3 / 5000 /\ b = 0) -> forall s, (s = 1 \/ s = -1) ->
  stereo_proj [a; b; s * (4 / 5000)] [0; 0; 1 / 1000] = Ok [(1 / 1000) * (if Rltb 0 s then 3 else 1 / 3); 0].
Proof.
  intros [-> ->] s Hs. assert (NZ : [0; 0; 1 / 1000] <> [0; 0; 0]) by (intros [= K]; lra).
  assert (F : stereo_frame [0; 0; 1 / 1000] = Ok ([1; 0; 0], [0; 1; 0])) by (unfold stereo_frame; cbn [vget nth]; rewrite (proj2 (Rltb_false _ _)) by lra; reflexivity).
  rewrite (proj_unfold [3 / 5000; 0; s * (4 / 5000)] [0; 0; 1 / 1000] eq_refl eq_refl NZ _ _ F).
  assert (SS : s * s = 1) by (destruct Hs as [-> | ->]; ring).
  assert (Np : vnorm [3 / 5000; 0; s * (4 / 5000)] = 1 / 1000) by (rewrite vnorm_3; replace (_ + _ + _) with (1 / 1000 * (1 / 1000)) by nra; apply sqrt_square; lra).
  assert (Nz : vnorm [0; 0; 1 / 1000] = 1 / 1000) by (rewrite vnorm_3; replace (_ + _ + _) with (1 / 1000 * (1 / 1000)) by lra; apply sqrt_square; lra).
  rewrite Np, (proj2 (Rltb_spec _ _)) by lra. rewrite dot_3. rewrite (proj2 (Rltb_false _ _)) by (destruct Hs as [-> | ->]; lra).
  unfold mirrored. rewrite !dot_3. replace (vscale _ (vsub _ _)) with [3 / 5; 0; - s * (4 / 5)] by (unfold vsub, vscale; veq ltac:(field)).
  unfold stereo_point. rewrite Nz, !dot_3. replace ((3 / 5 * 0 + 0 * 0 + - s * (4 / 5) * (1 / 1000)) / (1 / 1000)) with (- s * (4 / 5)) by field.
  assert (RD : round6 (1 - (- s * (4 / 5)) ^ 2) = 3 / 5 * (3 / 5)). { replace (1 - (- s * (4 / 5)) ^ 2) with (9 / 25) by nra. unfold round6. replace (9 / 25 * 10 ^ 6) with (IZR 360000) by lra. rewrite rint_IZR. lra. }
  rewrite RD, (proj2 (Rltb_false _ _)) by lra. rewrite sqrt_square by lra. rewrite (proj2 (Rltb_false _ _)) by lra.
  assert (L2 : forall x y x' y' : R, x = x' -> y = y' -> Ok [x; y] = Ok [x'; y']) by congruence.
  destruct Hs as [-> | ->].
  - rewrite (proj2 (Rltb_spec 0 1)) by lra. replace ((1 - - (1) * (4 / 5)) / (1 + - (1) * (4 / 5))) with (3 * 3) by field. rewrite sqrt_square by lra. apply L2; field.
  - rewrite (proj2 (Rltb_false 0 (-1))) by lra. replace ((1 - - -1 * (4 / 5)) / (1 + - -1 * (4 / 5))) with (1 / 3 * (1 / 3)) by field. rewrite sqrt_square by lra. apply L2; field.
Qed.
Theorem C64_refuted : exists p z x y, length p = 3%nat /\ length z = 3%nat /\ z <> [0; 0; 0] /\ stereo_proj p z = Ok [x; y] /\ dot z z < x * x + y * y /\
  stereo_proj (mirrored p z) z <> Ok [x; y].
Proof.
  exists [3 / 5000; 0; 1 * (4 / 5000)], [0; 0; 1 / 1000], (1 / 1000 * 3), 0. split; [reflexivity|]. split; [reflexivity|]. split; [intros [= K]; lra|].
  split; [rewrite short_case by auto; rewrite (proj2 (Rltb_spec 0 1)) by lra; reflexivity|]. split; [rewrite dot_3; lra|].
  replace (mirrored _ _) with [3 / 5000; 0; -1 * (4 / 5000)] by (unfold mirrored; rewrite !dot_3; unfold vsub, vscale; veq ltac:(field)).
  rewrite short_case by auto. rewrite (proj2 (Rltb_false 0 (-1))) by lra. intros [= K]. lra.
Qed.
Print Assumptions C64_refuted.
(** the pole [111] in the zone [123] *)
Example C64_case : length [1; 1; 1] = 3%nat /\ length [1; 2; 3] = 3%nat /\ [1; 2; 3] <> [0; 0; 0] /\ ~ (0 < Rabs (dot [1; 1; 1] [1; 2; 3]) <= 1 / 10 ^ 6).
Proof. rewrite dot_3, Rabs_right by lra. split; [reflexivity|]. split; [reflexivity|]. split; [intros [= K]; lra|lra]. Qed.

(** * C75 *)
Lemma projection_point z u1 u2 p : length z = 3%nat -> length p = 3%nat -> length u1 = 3%nat -> length u2 = 3%nat -> 0 < vnorm z -> 0 < vnorm p -> 0 < dot p z ->
  let u := vscale (/ vnorm p) p in let c := dot u z / vnorm z in
  u = vadd (vscale (dot u z / dot z z) z) (vadd (vscale (dot u u1) u1) (vscale (dot u u2) u2)) ->
  projection z u1 u2 p (vnorm z / (1 + c) * dot u u1) (vnorm z / (1 + c) * dot u u2).
Proof.
  intros L Lp L1 L2 Zp Pp D u c E. destruct (norm_pos_nz z Zp) as [Z1 Z2]. destruct (unit_facts p z Lp L Pp Zp) as (U1 & _ & _ & C); [lra|]. fold u in U1, C. fold c in C.
  exists (/ (1 + c)). assert (P : vscale (vnorm z / vnorm p) p = vscale (vnorm z) u).
  { unfold u, vscale. rewrite map_map. apply map_ext. intros. field. lra. }
  rewrite P. rewrite Z1 in E. set (R := vnorm z) in *. set (A := dot u u1) in *. set (B := dot u u2) in *. replace (dot u z / (R * R)) with (c / R) in E by (unfold c; field; lra).
  clearbody A B R c. clearbody u. rewrite E. clear P E. apply len3_inv in L, L1, L2. destruct L as (? & ? & ? & ->), L1 as (? & ? & ? & ->), L2 as (? & ? & ? & ->).
  unfold vadd, vscale. veq ltac:(field; lra).
Qed.

(** For every zone axis with z0^2 + z1^2 > 1e-6 or along e3, there is one frame of the equatorial plane in which stereo_proj returns
    the stereographic projection from the south pole, up to one thousandth of the radius, for every pole in the upper
    hemisphere.  Missing: other axes, see C75_refuted, and the poles excluded in C64. *)
Theorem C75_projection_partial : forall z, length z = 3%nat -> z <> [0; 0; 0] ->
  (1 / 10 ^ 6 < vget z 0 ^ 2 + vget z 1 ^ 2 \/ (vget z 0 = 0 /\ vget z 1 = 0)) ->
  exists u1 u2, frame_of z u1 u2 /\
    forall p, length p = 3%nat -> 1 / 10 ^ 6 < vnorm p -> 1 / 10 ^ 6 < dot p z ->
      exists x y a b, stereo_proj p z = Ok [a; b] /\ projection z u1 u2 p x y /\ (a - x) * (a - x) + (b - y) * (b - y) <= (vnorm z / 1000) ^ 2.
Proof.
  intros z L NZ H. destruct (frame_ok z L NZ) as (u1 & u2 & F & F1 & F2 & F3 & F4 & F5 & F6). destruct (F6 H) as (F7 & F8 & FC). clear F6.
  exists u1, u2. split; [repeat split; assumption|]. intros p Lp Pp D. rewrite (proj_unfold p z Lp L NZ u1 u2 F). rewrite !(proj2 (Rltb_spec _ _)) by assumption.
  assert (Zp : 0 < vnorm z) by (apply len3_inv in L; destruct L as (? & ? & ? & ->); now apply norm_facts). destruct (norm_pos_nz z Zp) as [Z1 Z2].
  destruct (unit_facts p z Lp L) as (U1 & U2 & _ & U4); [lra|exact Zp|lra|].
  pose proof (projection_point z u1 u2 p L Lp F1 F2 Zp ltac:(lra) ltac:(lra)) as PP. cbv zeta in PP. set (u := vscale (/ vnorm p) p) in *.
  specialize (PP (FC u U1)). set (c := dot u z / vnorm z) in *. exists (vnorm z / (1 + c) * dot u u1), (vnorm z / (1 + c) * dot u u2).
  assert (S : dot u u1 * dot u u1 + dot u u2 * dot u u2 = 1 - c ^ 2).
  { assert (K : dot u u = dot u z / dot z z * dot u z + (dot u u1 * dot u u1 + dot u u2 * dot u u2)).
    { rewrite (FC u U1) at 1. set (A := dot u u1). set (B := dot u u2). set (C := dot u z / dot z z). transitivity (C * dot u z + (A * dot u u1 + B * dot u u2)); [|reflexivity]. clearbody A B C.
      clear - U1 F1 F2 L. clearbody u. apply len3_inv in U1, F1, F2, L. destruct U1 as (? & ? & ? & ->), F1 as (? & ? & ? & ->), F2 as (? & ? & ? & ->), L as (? & ? & ? & ->). unfold vadd, vscale. cbn. ring. }
    rewrite U2, Z1 in K. replace (dot u z / (vnorm z * vnorm z) * dot u z) with (c ^ 2) in K by (unfold c; field; lra). lra. }
  set (A := dot u u1) in *. set (B := dot u u2) in *. set (R := vnorm z) in *.
  pose proof (round6_close (1 - c ^ 2)) as RC.
  assert (I1 : 0 < / (1 + c) <= 1). { split; [apply Rinv_0_lt_compat; lra|]. rewrite <- Rinv_1 at 2. apply Rinv_le_contravar; lra. }
  destruct (point_cases u z u1 u2 c Zp eq_refl U4) as [[K0 K]|(K1 & k & K2 & K3 & K)]; rewrite K; eexists _, _; (split; [reflexivity|]); (split; [exact PP|]).
  - rewrite K0 in RC. rewrite ee_val in RC. assert (S' : 1 - c ^ 2 <= 5 / 10 ^ 7) by (unfold Rabs in RC; destruct (Rcase_abs _); lra).
    replace ((0 - R / (1 + c) * A) * (0 - R / (1 + c) * A) + (0 - R / (1 + c) * B) * (0 - R / (1 + c) * B)) with (R * R * (/ (1 + c) * / (1 + c)) * (A * A + B * B)) by (unfold Rdiv; ring).
    rewrite S. set (i := / (1 + c)) in *. assert (i * i <= 1) by nra. assert (0 < R * R) by nra. assert (0 <= 1 - c ^ 2) by nra.
    replace ((R / 1000) ^ 2) with (R * R * / 10 ^ 6) by field. rewrite Rmult_assoc. apply Rmult_le_compat_l; [lra|]. nra.
  - fold A B. fold R in K3. set (r := round6 (1 - c ^ 2)) in *. set (t := k * (1 + c) / R).
    assert (T0 : 0 <= t) by (apply Rmult_le_pos; [nra|now apply Rlt_le, Rinv_0_lt_compat]).
    assert (T1 : t * t * r = 1 - c ^ 2).
    { unfold t. transitivity (k * k * ((1 + c) * r) * (1 + c) / (R * R)); [field; lra|]. rewrite K3. field. lra. }
    pose proof (near_ineq _ _ _ K1 RC T0 T1) as N.
    assert (KT : k = R / (1 + c) * t) by (unfold t; field; lra).
    replace ((k * A - R / (1 + c) * A) * (k * A - R / (1 + c) * A) + (k * B - R / (1 + c) * B) * (k * B - R / (1 + c) * B)) with (R * R * ((/ (1 + c) * / (1 + c)) * ((t - 1) * (t - 1) * (A * A + B * B)))) by (rewrite KT; unfold Rdiv; ring).
    rewrite S. set (i := / (1 + c)) in *. assert (i * i <= 1) by nra. assert (0 < R * R) by nra. replace ((R / 1000) ^ 2) with (R * R * / 10 ^ 6) by field. apply Rmult_le_compat_l; [lra|].
    assert (0 <= (t - 1) * (t - 1) * (1 - c ^ 2)) by (apply Rmult_le_pos; [apply Rle_0_sqr|nra]). nra.
Qed.
Print Assumptions C75_projection_partial.

(** For a short axis along e1 the frame is wrong: a pole is drawn at 4/9 of the radius instead of 1/3. *)
Theorem C75_refuted : exists z p a b, length z = 3%nat /\ z <> [0; 0; 0] /\ length p = 3%nat /\ 1 / 10 ^ 6 < vnorm p /\ 1 / 10 ^ 6 < dot p z /\ stereo_proj p z = Ok [a; b] /\
  forall u1 u2 x y, frame_of z u1 u2 -> projection z u1 u2 p x y -> (vnorm z / 10) ^ 2 < (a - x) * (a - x) + (b - y) * (b - y).
Proof.
  assert (NZ : [1 / 1000; 0; 0] <> [0; 0; 0]) by (intros [= K]; lra).
  assert (Np : vnorm [4; 0; 3] = 5) by (rewrite vnorm_3; replace (_ + _ + _) with (5 * 5) by lra; apply sqrt_square; lra).
  assert (Nz : vnorm [1 / 1000; 0; 0] = 1 / 1000) by (rewrite vnorm_3; replace (_ + _ + _) with (1 / 1000 * (1 / 1000)) by lra; apply sqrt_square; lra).
  exists [1 / 1000; 0; 0], [4; 0; 3], (4 / 9000), 0. split; [reflexivity|]. split; [exact NZ|]. split; [reflexivity|]. split; [rewrite Np; lra|]. split; [rewrite dot_3; lra|]. split.
  - assert (F : stereo_frame [1 / 1000; 0; 0] = Ok ([1; 0; 0], [0; 1; 0])) by (unfold stereo_frame; cbn [vget nth]; rewrite (proj2 (Rltb_false _ _)) by lra; reflexivity).
    rewrite (proj_unfold [4; 0; 3] [1 / 1000; 0; 0] eq_refl eq_refl NZ _ _ F). rewrite Np, (proj2 (Rltb_spec _ _)) by lra. rewrite dot_3, (proj2 (Rltb_spec _ _)) by lra.
    unfold stereo_point. unfold vscale. cbn [map]. rewrite Nz, !dot_3. replace ((/ 5 * 4 * (1 / 1000) + / 5 * 0 * 0 + / 5 * 3 * 0) / (1 / 1000)) with (4 / 5) by field.
    assert (RD : round6 (1 - (4 / 5) ^ 2) = 3 / 5 * (3 / 5)) by (unfold round6; replace ((1 - (4 / 5) ^ 2) * 10 ^ 6) with (IZR 360000) by lra; rewrite rint_IZR; lra).
    rewrite RD, (proj2 (Rltb_false _ _)) by lra. rewrite sqrt_square by lra. rewrite (proj2 (Rltb_false _ _)) by lra.
    replace ((1 - 4 / 5) / (1 + 4 / 5)) with (1 / 3 * (1 / 3)) by field. rewrite sqrt_square by lra. apply f_equal, f_equal2; [field|]. apply f_equal2; [field|reflexivity].
  - intros u1 u2 x y (L1 & L2 & H1 & H2 & H3 & H4 & H5) (l & E). rewrite Nz, Np in *. apply len3_inv in L1, L2. destruct L1 as (a1 & b1 & c1 & ->), L2 as (a2 & b2 & c2 & ->).
    rewrite dot_3 in *. unfold vadd, vscale in E. cbn in E. injection E as E1 E2 E3.
    assert (a1 = 0) by lra. assert (a2 = 0) by lra. subst a1 a2.
    assert (Hl : l = 5 / 9) by lra. subst l. assert (E2' : x * b1 + y * b2 = 0) by lra. assert (E3' : x * c1 + y * c2 = 1 / 3000) by lra.
    assert (N : x * x + y * y = 1 / 3000 * (1 / 3000)).
    { transitivity ((x * b1 + y * b2) * (x * b1 + y * b2) + (x * c1 + y * c2) * (x * c1 + y * c2)); [|rewrite E2', E3'; ring].
      transitivity (x * x * (b1 * b1 + c1 * c1) + y * y * (b2 * b2 + c2 * c2) + 2 * x * y * (b1 * b2 + c1 * c2)); [|ring].
      replace (b1 * b1 + c1 * c1) with 1 by lra. replace (b2 * b2 + c2 * c2) with 1 by lra. replace (b1 * b2 + c1 * c2) with 0 by lra. ring. }
    assert (Hx : x <= 1 / 3000) by nra. assert (0 <= y * y) by nra. nra.
Qed.
Print Assumptions C75_refuted.
Example C75_case : length [1; 2; 3] = 3%nat /\ [1; 2; 3] <> [0; 0; 0] /\ 1 / 10 ^ 6 < vget [1; 2; 3] 0 ^ 2 + vget [1; 2; 3] 1 ^ 2 /\
  1 / 10 ^ 6 < vnorm [1; 1; 1] /\ 1 / 10 ^ 6 < dot [1; 1; 1] [1; 2; 3].
Proof.
  split; [reflexivity|]. split; [intros [= K]; lra|]. split; [cbn; lra|]. rewrite vnorm_3, dot_3. split; [|lra].
  apply Rlt_le_trans with (sqrt 1); [rewrite sqrt_1; lra|apply sqrt_le_1_alt; lra].
Qed.
