From Verif Require Import GroupModel GroupProofs RotProofs.
From Verif Require Export LLLModel LLLSpec.
Local Open Scope R_scope.

(** * Vectors of any length *)
Lemma vget_mkv n (f : nat -> R) i : (i < n)%nat -> vget (mkv n f) i = f i.
Proof. intros H. unfold vget, mkv. rewrite (nth_indep _ _ (f 0%nat)) by now rewrite map_length, seq_length. rewrite map_nth, seq_nth by exact H. reflexivity. Qed.
Lemma len_vsub (u v : vec R) : length (vsub u v) = length u. Proof. unfold vsub, mkv. now rewrite map_length, seq_length. Qed.
Lemma len_vadd u v : length (vadd u v) = length u. Proof. unfold vadd, mkv. now rewrite map_length, seq_length. Qed.
Lemma len_vscale k v : length (vscale k v) = length v. Proof. unfold vscale. now rewrite map_length. Qed.
Lemma vget_vscale k v i : (i < length v)%nat -> vget (vscale k v) i = k * vget v i.
Proof.
  intros H. unfold vget, vscale. change zero with 0. rewrite (nth_indep _ 0 (Rmult k 0)) by now rewrite map_length. apply map_nth.
Qed.
Lemma sumn_ext' n (f g : nat -> R) : (forall k, (k < n)%nat -> f k = g k) -> sumn n f = sumn n g.
Proof. induction n as [|n IH]; intros H; [reflexivity|]. cbn [sumn]. rewrite IH, H by (intros; try apply H; lia). reflexivity. Qed.
Lemma sumn_lin n (f g : nat -> R) a b : sumn n (fun k => a * f k + b * g k) = a * sumn n f + b * sumn n g.
Proof. induction n as [|n IH]; cbn [sumn]; [cbn [zero R_ops]; ring|]. rewrite IH. cbn [add R_ops]. ring. Qed.
Lemma dot_c (u v : vec R) : length u = length v -> dot u v = dot v u.
Proof. intros L. unfold dot. rewrite <- L. apply sumn_ext'. intros. cbn [mul R_ops]. ring. Qed.
Lemma dot_sub_l (u v w : vec R) : length v = length u -> dot (vsub u v) w = dot u w - dot v w.
Proof.
  intros L. unfold dot. rewrite len_vsub, L. replace (sumn _ _ - _) with (1 * sumn (length u) (fun k => mul (vget u k) (vget w k)) + (-1) * sumn (length u) (fun k => mul (vget v k) (vget w k))) by ring.
  rewrite <- sumn_lin. apply sumn_ext'. intros k Hk. unfold vsub. rewrite vget_mkv by exact Hk. cbn [mul R_ops]. ring.
Qed.
Lemma dot_add_l (u v w : vec R) : length v = length u -> dot (vadd u v) w = dot u w + dot v w.
Proof.
  intros L. unfold dot. rewrite len_vadd, L. replace (sumn _ _ + _) with (1 * sumn (length u) (fun k => mul (vget u k) (vget w k)) + 1 * sumn (length u) (fun k => mul (vget v k) (vget w k))) by ring.
  rewrite <- sumn_lin. apply sumn_ext'. intros k Hk. unfold vadd. rewrite vget_mkv by exact Hk. cbn [mul R_ops]. ring.
Qed.
Lemma dot_scale_l k (u w : vec R) : dot (vscale k u) w = k * dot u w.
Proof.
  unfold dot. rewrite len_vscale. replace (k * _) with (k * sumn (length u) (fun i => mul (vget u i) (vget w i)) + 0 * sumn (length u) (fun _ => 0)) by ring.
  rewrite <- sumn_lin. apply sumn_ext'. intros i Hi. rewrite vget_vscale by exact Hi. cbn [mul R_ops]. ring.
Qed.
Lemma dot_nonneg (u : vec R) : 0 <= dot u u.
Proof. unfold dot. induction (length u) as [|n IH]; cbn [sumn]; [cbn [zero R_ops]; lra|]. cbn [add mul R_ops] in *. pose proof (Rle_0_sqr (vget u n)). unfold Rsqr in *. lra. Qed.
Lemma vnorm_sq c : vnorm c ^ 2 = dot c c.
Proof. unfold vnorm. rewrite <- Rsqr_pow2. apply Rsqr_sqrt. apply dot_nonneg. Qed.
Lemma dot_pos (u : vec R) : dot u u <> 0 -> 0 < dot u u. Proof. pose proof (dot_nonneg u). lra. Qed.

Section Dots.
  Variable n : nat.
  Lemma dot_sub_r (u v w : vec R) : length u = n -> length v = n -> length w = n -> dot w (vsub u v) = dot w u - dot w v.
  Proof. intros A B C. rewrite (dot_c w), dot_sub_l, (dot_c u), (dot_c v) by (rewrite ?len_vsub; congruence). reflexivity. Qed.
  Lemma dot_add_r (u v w : vec R) : length u = n -> length v = n -> length w = n -> dot w (vadd u v) = dot w u + dot w v.
  Proof. intros A B C. rewrite (dot_c w), dot_add_l, (dot_c u), (dot_c v) by (rewrite ?len_vadd; congruence). reflexivity. Qed.
  Lemma dot_scale_r k (u w : vec R) : length u = n -> length w = n -> dot w (vscale k u) = k * dot w u.
  Proof. intros A B. rewrite (dot_c w), dot_scale_l, (dot_c u) by (rewrite ?len_vscale; congruence). reflexivity. Qed.
End Dots.

(** * Gram-Schmidt *)
Definition mu (x c : vec R) : R := dot x c / dot c c.
Definition c1 (a b : vec R) : vec R := vsub b (vscale (mu b a) a).
Definition c2 (a b c : vec R) : vec R := vsub (vsub c (vscale (mu c a) a)) (vscale (mu c (c1 a b)) (c1 a b)).

Lemma np_div_ok x y : y <> 0 -> np_div x y = Ok (x / y).
Proof. intros H. unfold np_div. now rewrite (proj2 (Reqb_false _ _)). Qed.

Lemma gs2 a b : dot a a <> 0 -> Gram_Schmidt [a; b] = Ok ([a; c1 a b], [[]; [mu b a]]).
Proof. intros A. unfold Gram_Schmidt. cbn [gs_outer gs_inner bind fst snd app]. rewrite np_div_ok by exact A. reflexivity. Qed.
Lemma gs3 a b c : dot a a <> 0 -> dot (c1 a b) (c1 a b) <> 0 ->
  Gram_Schmidt [a; b; c] = Ok ([a; c1 a b; c2 a b c], [[]; [mu b a]; [mu c a; mu c (c1 a b)]]).
Proof.
  intros A B. unfold Gram_Schmidt. cbn [gs_outer gs_inner bind fst snd app]. rewrite !np_div_ok by exact A.
  cbn [gs_outer gs_inner bind fst snd app].
  fold (mu b a). fold (c1 a b). rewrite !np_div_ok by exact B. reflexivity.
Qed.

Lemma mapM_ok {A B} (f : A -> res B) g l : (forall x, In x l -> f x = Ok (g x)) -> mapM f l = Ok (map g l).
Proof. induction l as [|x l IH]; intros H; [reflexivity|]. cbn [mapM map]. rewrite (H x) by now left. cbn [bind]. rewrite IH by (intros; apply H; now right). reflexivity. Qed.
Definition psum (x : vec R) (Eo : list (vec R)) (p : vec R) : vec R := fold_left (fun p c => vadd p (vscale (mu x c) c)) Eo p.
Lemma proj_loop_ok x Eo p : (forall c, In c Eo -> dot c c <> 0) -> proj_loop x Eo p = Ok (psum x Eo p).
Proof.
  revert p. induction Eo as [|c Eo IH]; intros p H; [reflexivity|]. cbn [proj_loop].
  rewrite (mapM_ok _ (fun y => y / dot c c)) by (intros; rewrite vnorm_sq; apply np_div_ok, H; now left).
  cbn [bind]. rewrite IH by (intros; apply H; now right). unfold psum. cbn [fold_left]. do 3 f_equal.
  unfold vscale. rewrite map_map. apply map_ext. intros y. unfold mu. field. apply H. now left.
Qed.

(** * Orthogonality *)
Section Orth.
  Variable n : nat.
  Variables a b : vec R.
  Hypothesis La : length a = n.
  Hypothesis Lb : length b = n.
  Hypothesis Na : dot a a <> 0.

  Lemma len_c1 : length (c1 a b) = n. Proof. unfold c1. now rewrite len_vsub. Qed.
  Lemma c1_a : dot (c1 a b) a = 0.
  Proof. unfold c1. rewrite dot_sub_l, dot_scale_l by (rewrite len_vscale; congruence). unfold mu. field. exact Na. Qed.
  Lemma a_c1 : dot a (c1 a b) = 0.
  Proof. rewrite dot_c by (rewrite len_c1; congruence). apply c1_a. Qed.
  Lemma b_c1 : dot b (c1 a b) = dot (c1 a b) (c1 a b).
  Proof.
    unfold c1 at 2. rewrite dot_sub_l, dot_scale_l by (rewrite len_vscale; congruence). rewrite a_c1. ring.
  Qed.
  Lemma b_norm : dot b b = mu b a * mu b a * dot a a + dot (c1 a b) (c1 a b).
  Proof.
    rewrite <- b_c1. unfold c1. rewrite (dot_sub_r n), (dot_scale_r n) by (rewrite ?len_vscale; congruence). unfold mu. field. exact Na.
  Qed.
  Variable c : vec R.
  Hypothesis Lc : length c = n.
  Hypothesis N1 : dot (c1 a b) (c1 a b) <> 0.
  Lemma len_c2 : length (c2 a b c) = n. Proof. unfold c2. now rewrite !len_vsub. Qed.
  Lemma c2_a : dot (c2 a b c) a = 0.
  Proof.
    pose proof len_c1. unfold c2. rewrite !dot_sub_l, !dot_scale_l by (rewrite ?len_vsub, ?len_vscale; congruence). rewrite c1_a. unfold mu at 1. field. exact Na.
  Qed.
  Lemma c2_c1 : dot (c2 a b c) (c1 a b) = 0.
  Proof.
    pose proof len_c1. unfold c2. rewrite !dot_sub_l, !dot_scale_l by (rewrite ?len_vsub, ?len_vscale; congruence). rewrite a_c1. unfold mu at 2. field. exact N1.
  Qed.
  Lemma a_c2 : dot a (c2 a b c) = 0.
  Proof. rewrite dot_c by (rewrite len_c2; congruence). apply c2_a. Qed.
  Lemma c1_c2 : dot (c1 a b) (c2 a b c) = 0.
  Proof. rewrite dot_c by (rewrite len_c2, len_c1; congruence). apply c2_c1. Qed.
  Lemma b_c2 : dot b (c2 a b c) = 0.
  Proof.
    pose proof len_c1. pose proof c1_c2 as H0. unfold c1 in H0 at 1. rewrite dot_sub_l, dot_scale_l, a_c2 in H0 by (rewrite len_vscale; congruence). lra.
  Qed.
  Lemma c_c2 : dot c (c2 a b c) = dot (c2 a b c) (c2 a b c).
  Proof.
    pose proof len_c1. unfold c2 at 2. rewrite !dot_sub_l, !dot_scale_l by (rewrite ?len_vsub, ?len_vscale; congruence). rewrite a_c2, c1_c2. ring.
  Qed.
End Orth.

Lemma vext n (u v : vec R) : length u = n -> length v = n -> (forall i, (i < n)%nat -> vget u i = vget v i) -> u = v.
Proof. intros A B H. apply (nth_ext _ _ 0 0); [congruence|]. rewrite A. exact H. Qed.
Lemma vget_sub u v i : (i < length u)%nat -> vget (vsub u v) i = vget u i - vget v i. Proof. apply vget_mkv. Qed.
Lemma vget_add u v i : (i < length u)%nat -> vget (vadd u v) i = vget u i + vget v i. Proof. apply vget_mkv. Qed.
Ltac lens := rewrite ?len_vsub, ?len_vadd, ?len_vscale, ?repeat_length; try congruence; try lia.
Ltac vring n := apply (vext n); [lens|lens|]; let i := fresh "i" in let Hi := fresh "Hi" in intros i Hi;
  rewrite ?vget_sub, ?vget_add, ?vget_vscale by (lens; lia); rewrite ?vget_sub, ?vget_add, ?vget_vscale by (lens; lia); rewrite ?vget_sub, ?vget_add, ?vget_vscale by (lens; lia); rewrite ?vget_sub, ?vget_add, ?vget_vscale by (lens; lia).

(** * Size reduction *)
Definition rb (a b : vec R) : vec R := vsub b (vscale (IZR (rint (mu b a))) a).
Definition rc (a b c : vec R) : vec R :=
  vsub (vsub c (vscale (IZR (rint (mu c a))) a)) (vscale (IZR (rint (mu c (c1 a b)))) (rb a b)).
Lemma gauss2 a b : dot a a <> 0 -> Gauss_reduction [a; b] = Ok [a; rb a b].
Proof. intros A. unfold Gauss_reduction. rewrite gs2 by exact A. reflexivity. Qed.
Lemma gauss3 a b c : dot a a <> 0 -> dot (c1 a b) (c1 a b) <> 0 -> Gauss_reduction [a; b; c] = Ok [a; rb a b; rc a b c].
Proof. intros A B. unfold Gauss_reduction. rewrite gs3 by auto. reflexivity. Qed.

Section Gauss.
  Variable n : nat.
  Variables a b : vec R.
  Hypothesis La : length a = n.
  Hypothesis Lb : length b = n.
  Hypothesis Na : dot a a <> 0.
  Lemma len_rb : length (rb a b) = n. Proof. unfold rb. lens. Qed.
  Lemma mu_rb : mu (rb a b) a = mu b a - IZR (rint (mu b a)).
  Proof. unfold rb. set (k := IZR _). unfold mu. rewrite dot_sub_l, dot_scale_l by lens. field. exact Na. Qed.
  Lemma c1_rb : c1 a (rb a b) = c1 a b.
  Proof. unfold c1. rewrite mu_rb. unfold rb. set (k := IZR _). vring n. ring. Qed.
  Lemma mu_rb_small : Rabs (mu (rb a b) a) <= 1 / 2.
  Proof. rewrite mu_rb. apply rint_close. Qed.
  Variable c : vec R.
  Hypothesis Lc : length c = n.
  Hypothesis N1 : dot (c1 a b) (c1 a b) <> 0.
  Lemma len_rc : length (rc a b c) = n. Proof. unfold rc. lens. Qed.
  Lemma mu_rc : mu (rc a b c) (c1 a b) = mu c (c1 a b) - IZR (rint (mu c (c1 a b))).
  Proof.
    pose proof (len_c1 n a b Lb). pose proof len_rb. pose proof (b_c1 n a (rb a b) La len_rb Na) as B. rewrite c1_rb in B.
    pose proof (a_c1 n a b La Lb Na) as A. unfold rc. set (k := IZR (rint (mu c a))). set (l := IZR _). unfold mu.
    rewrite !dot_sub_l, !dot_scale_l by lens. rewrite A, B. field. exact N1.
  Qed.
  Lemma mu_rc_small : Rabs (mu (rc a b c) (c1 a (rb a b))) <= 1 / 2.
  Proof. rewrite c1_rb, mu_rc. apply rint_close. Qed.
End Gauss.

(** * The test for a swap *)
Lemma dot_zero (x w : vec R) : dot (map (fun _ => 0) x) w = 0.
Proof.
  assert (H : forall (x : vec R) k, vget (map (fun _ => 0) x) k = 0).
  { intros y k. unfold vget. revert k. induction y as [|z y IH]; intros [|k]; try reflexivity. apply IH. }
  unfold dot. transitivity (sumn (length (map (fun _ : R => 0) x)) (fun _ => 0)).
  - apply sumn_ext'. intros k _. rewrite H. cbn [mul R_ops]. ring.
  - induction (length _) as [|m IH]; cbn [sumn]; [reflexivity|]. rewrite IH. cbn [add R_ops]. ring.
Qed.
Lemma dot_psum n x Eo p w : length p = n -> Forall (fun c => length c = n) Eo ->
  dot (psum x Eo p) w = dot p w + fold_right (fun c s => mu x c * dot c w + s) 0 Eo.
Proof.
  intros Lp F. revert p Lp. induction F as [|c Eo Lc F IH]; intros p Lp; cbn [psum fold_left fold_right]; [ring|].
  change (fold_left _ _ _) with (psum x Eo (vadd p (vscale (mu x c) c))). rewrite IH by lens. rewrite dot_add_l, dot_scale_l by lens. ring.
Qed.
Lemma len_psum n x Eo p : length p = n -> length (psum x Eo p) = n.
Proof. revert p. induction Eo as [|c Eo IH]; intros p L; [exact L|]. cbn [psum fold_left]. apply IH. lens. Qed.

Lemma mu_self c : dot c c <> 0 -> mu c c = 1. Proof. intros H. unfold mu. now field. Qed.
Lemma mu_0 x c : dot x c = 0 -> mu x c = 0. Proof. intros H. unfold mu. rewrite H. unfold Rdiv. ring. Qed.
Lemma mu_1 x c : dot c c <> 0 -> dot x c = dot c c -> mu x c = 1. Proof. intros H E. unfold mu. rewrite E. now field. Qed.

(** the squared norm of a sum of orthogonal components *)
Lemma psum_norm2 n x u v z : length x = n -> length u = n -> length v = n -> length z = n -> dot u v = 0 ->
  z = map (fun _ => 0) x -> dot (psum x [u; v] z) (psum x [u; v] z) = mu x u * mu x u * dot u u + mu x v * mu x v * dot v v.
Proof.
  intros Lx Lu Lv Lz O ->. pose proof (len_psum n x [u; v] _ Lz) as Lp. set (p := psum x [u; v] _) in *.
  assert (D : forall w, dot p w = mu x u * dot u w + mu x v * dot v w).
  { intros w. unfold p. rewrite (dot_psum n) by (auto; repeat constructor; auto). rewrite dot_zero. cbn [fold_right]. ring. }
  rewrite D, (dot_c u p), (dot_c v p), !D by congruence. rewrite (dot_c v u) by congruence. rewrite O. ring.
Qed.
Lemma psum_norm1 n x u z : length x = n -> length u = n -> length z = n -> 
  z = map (fun _ => 0) x -> dot (psum x [u] z) (psum x [u] z) = mu x u * mu x u * dot u u.
Proof.
  intros Lx Lu Lz ->. pose proof (len_psum n x [u] _ Lz) as Lp. set (p := psum x [u] _) in *.
  assert (D : forall w, dot p w = mu x u * dot u w).
  { intros w. unfold p. rewrite (dot_psum n) by (auto; repeat constructor; auto). rewrite dot_zero. cbn [fold_right]. ring. }
  rewrite D, (dot_c u p), !D by congruence. ring.
Qed.
Lemma psum_norm3 n x u v w z : length x = n -> length u = n -> length v = n -> length w = n -> length z = n ->
  dot u v = 0 -> dot u w = 0 -> dot v w = 0 ->
  z = map (fun _ => 0) x -> dot (psum x [u; v; w] z) (psum x [u; v; w] z) = mu x u * mu x u * dot u u + mu x v * mu x v * dot v v + mu x w * mu x w * dot w w.
Proof.
  intros Lx Lu Lv Lw Lz O1 O2 O3 ->. pose proof (len_psum n x [u; v; w] _ Lz) as Lp. set (p := psum x [u; v; w] _) in *.
  assert (D : forall y, dot p y = mu x u * dot u y + mu x v * dot v y + mu x w * dot w y).
  { intros y. unfold p. rewrite (dot_psum n) by (auto; repeat constructor; auto). rewrite dot_zero. cbn [fold_right]. ring. }
  rewrite D, (dot_c u p), (dot_c v p), (dot_c w p), !D by congruence. rewrite (dot_c v u), (dot_c w u), (dot_c w v) by congruence. rewrite O1, O2, O3. ring.
Qed.

Definition test (u v : R) (m : R) : bool := Rltb (4 / 3 * (m * m * u + v)) u.
Lemma swapping2 n a b : length a = n -> length b = n -> dot a a <> 0 -> dot (c1 a b) (c1 a b) <> 0 ->
  swapping [a; b] = Ok (if test (dot a a) (dot (c1 a b) (c1 a b)) (mu b a) then Some 0%nat else None).
Proof.
  intros La Lb A B. pose proof (len_c1 n a b Lb) as L1. pose proof (a_c1 n a b La Lb A) as O. pose proof (b_c1 n a b La Lb A) as P.
  unfold swapping. change (seq 0 (length [a; b] - 1)) with [0%nat]. cbn [swap_loop]. unfold projection. rewrite gs2 by exact A. cbn [bind fst skipn nth Nat.add].
   rewrite !proj_loop_ok by (intros ? [<-|[<-|[]]]; assumption). cbn [bind].
  rewrite !(psum_norm2 n) by (auto; now rewrite map_length). rewrite (mu_self a), (mu_0 a _ O), (mu_1 b _ B P) by auto. unfold test.
  replace (1 * 1 * dot a a + 0 * 0 * dot (c1 a b) (c1 a b)) with (dot a a) by ring.
  replace (mu b a * mu b a * dot a a + 1 * 1 * dot (c1 a b) (c1 a b)) with (mu b a * mu b a * dot a a + dot (c1 a b) (c1 a b)) by ring.
  destruct (Rltb _ _); reflexivity.
Qed.
Lemma swapping3 n a b c : length a = n -> length b = n -> length c = n ->
  dot a a <> 0 -> dot (c1 a b) (c1 a b) <> 0 -> dot (c2 a b c) (c2 a b c) <> 0 ->
  swapping [a; b; c] = Ok (if test (dot a a) (dot (c1 a b) (c1 a b)) (mu b a) then Some 0%nat
    else if test (dot (c1 a b) (c1 a b)) (dot (c2 a b c) (c2 a b c)) (mu c (c1 a b)) then Some 1%nat else None).
Proof.
  intros La Lb Lc A B C. pose proof (len_c1 n a b Lb) as L1. pose proof (len_c2 n a b c Lc) as L2.
  pose proof (a_c1 n a b La Lb A) as O1. pose proof (b_c1 n a b La Lb A) as P1.
  pose proof (a_c2 n a b La Lb A c Lc) as O2. pose proof (c1_c2 n a b La Lb A c Lc B) as O3. pose proof (b_c2 n a b La Lb A c Lc B) as O4.
  pose proof (c_c2 n a b La Lb A c Lc B) as P2.
  unfold swapping. change (seq 0 (length [a; b; c] - 1)) with [0%nat; 1%nat]. cbn [swap_loop]. unfold projection. rewrite gs3 by auto. cbn [bind fst skipn nth Nat.add].
  rewrite !proj_loop_ok by (first [intros ? [<-|[<-|[<-|[]]]] | intros ? [<-|[<-|[]]]]; assumption). cbn [bind].
  rewrite !(psum_norm3 n), !(psum_norm2 n) by (auto; now rewrite map_length).
  rewrite (mu_self a), (mu_0 a _ O1), (mu_0 a _ O2), (mu_1 b _ B P1), (mu_0 b _ O4), (mu_1 c _ C P2) by auto. unfold test.
  replace (1 * 1 * dot a a + 0 * 0 * dot (c1 a b) (c1 a b) + 0 * 0 * dot (c2 a b c) (c2 a b c)) with (dot a a) by ring.
  replace (mu b a * mu b a * dot a a + 1 * 1 * dot (c1 a b) (c1 a b) + 0 * 0 * dot (c2 a b c) (c2 a b c)) with (mu b a * mu b a * dot a a + dot (c1 a b) (c1 a b)) by ring.
  destruct (Rltb _ _); [reflexivity|].
  replace (1 * 1 * dot (c1 a b) (c1 a b) + 0 * 0 * dot (c2 a b c) (c2 a b c)) with (dot (c1 a b) (c1 a b)) by ring.
  replace (mu c (c1 a b) * mu c (c1 a b) * dot (c1 a b) (c1 a b) + 1 * 1 * dot (c2 a b c) (c2 a b c)) with (mu c (c1 a b) * mu c (c1 a b) * dot (c1 a b) (c1 a b) + dot (c2 a b c) (c2 a b c)) by ring.
  destruct (Rltb _ _); reflexivity.
Qed.

(** * The orthogonal parts of the specification *)
Lemma part0 n x y : length x = n -> orth_part n [] x y -> y = x.
Proof.
  intros Lx (Ly & ([|] & Lcs & E) & _); [|discriminate]. cbn [lincomb] in E. rewrite E. apply (vext n); [lens|lens|]. intros i Hi.
  rewrite vget_add by lens. unfold vget at 3. change zero with 0. rewrite nth_repeat. ring.
Qed.
Lemma part1 n a x y : length a = n -> length x = n -> dot a a <> 0 -> orth_part n [a] x y -> y = c1 a x.
Proof.
  intros La Lx A (Ly & (cs & Lcs & E) & O). destruct cs as [|t [|]]; try discriminate. cbn [lincomb] in E. specialize (O a (or_introl eq_refl)).
  assert (Z : forall w, dot (repeat 0 n) w = 0).
  { intros w. replace (repeat 0 n) with (map (fun _ => 0) x); [apply dot_zero|]. rewrite <- Lx. clear. induction x as [|h x IH]; [reflexivity|]. cbn. now rewrite IH. }
  assert (M : mu x a = t).
  { unfold mu. rewrite E, !dot_add_l, dot_scale_l, O, Z by lens. now field. }
  unfold c1. rewrite M, E. apply (vext n); [lens|lens|]. intros i Hi. rewrite vget_sub, !vget_add, vget_vscale by lens. unfold vget at 4. change zero with 0. rewrite nth_repeat. ring.
Qed.
Lemma c1_norm n a b c : length a = n -> length b = n -> length c = n -> dot a a <> 0 -> dot (c1 a b) (c1 a b) <> 0 ->
  dot (c1 a c) (c1 a c) = mu c (c1 a b) * mu c (c1 a b) * dot (c1 a b) (c1 a b) + dot (c2 a b c) (c2 a b c).
Proof.
  intros La Lb Lc A B. pose proof (len_c1 n a b Lb) as L1. pose proof (len_c2 n a b c Lc) as L2. pose proof (c1_c2 n a b La Lb A c Lc B) as O3.
  assert (E : c1 a c = vadd (vscale (mu c (c1 a b)) (c1 a b)) (c2 a b c)).
  { unfold c2. set (m := mu c (c1 a b)). set (d := c1 a b) in *. unfold c1. vring n. ring. }
  rewrite E. rewrite !dot_add_l, !(dot_add_r n), !dot_scale_l, !(dot_scale_r n) by lens. rewrite (dot_c (c2 a b c) (c1 a b)), O3 by congruence. ring.
Qed.
