(** Property C109: where the minimisation without scipy stops.  Model: QuartModel.v (roots_loop, quartic_roots); the equations
    and the matrix of the iteration are those of C82. *)
From Verif Require Import Py RMat LinAlg GroupModel GroupProofs LatticeProofs DistModel DistSpec DistProofs RotModel QuartModel QuartProofs QuartJac Spectral PropLattice PropQuart.
Local Open Scope R_scope.

(** ** Specification *)
(** one step of the damped Newton iteration from y to z for the equations F with matrix J: J (z - y) = - F / 5 *)
Definition damped_step (F : list R -> list R) (J : list R -> mat R) (y z : list R) : Prop :=
  length z = length y /\ mvmul (J y) (axpy (-1) z y) = map (fun a => - (a / 5)) (F y).
(** the three reasons to stop at the i-th point of the sequence X: the equations hold to 1e-4, the last step changed their
    left hand sides by at most one thousandth, or a coordinate is at least 1e20 *)
Definition small_residual (F : list R -> list R) (X : nat -> list R) (i : nat) : Prop := vnorm (F (X i)) <= 1 / 10000.
Definition small_change (F : list R -> list R) (X : nat -> list R) (i : nat) : Prop :=
  exists j, i = S j /\ vnorm (axpy (-1) (F (X i)) (F (X j))) <= 1 / 1000 * vnorm (F (X j)).
Definition diverged (X : nat -> list R) (i : nat) : Prop := exists c, In c (X i) /\ 10 ^ 20 <= c.
Definition stops F X i : Prop := small_residual F X i \/ small_change F X i \/ diverged X i.
(** la.inv returns inverses only *)
Definition inverses (linv : mat R -> res (mat R)) : Prop :=
  forall n M G, wf n n M -> linv M = Ok G -> wf n n G /\ mmul M G = eye n.

(** ** Lemmas *)
Lemma fold_max_ge l : forall m, m <= fold_left Rmax l m /\ forall c, In c l -> c <= fold_left Rmax l m.
Proof.
  induction l as [|a l IH]; intros m; cbn; [split; [lra|tauto]|]. destruct (IH (Rmax m a)) as [H1 H2]. pose proof (Rmax_l m a). pose proof (Rmax_r m a).
  split; [lra|]. intros c [<-|Hc]; [lra|auto].
Qed.
Lemma fold_max_in l : forall m, fold_left Rmax l m = m \/ In (fold_left Rmax l m) l.
Proof.
  induction l as [|a l IH]; intros m; cbn; [now left|]. destruct (IH (Rmax m a)) as [H|H]; [|right; now right]. rewrite H.
  unfold Rmax. destruct (Rle_dec m a); [right; now left|now left].
Qed.
Lemma vmax_diverged (x : list R) : x <> [] -> (10 ^ 20 <= vmax x <-> exists c, In c x /\ 10 ^ 20 <= c).
Proof.
  intros Hx. destruct x as [|a l]; [contradiction|]. unfold vmax. cbn [hd tl]. split.
  - intros H. exists (fold_left Rmax l a). split; [|exact H]. destruct (fold_max_in l a) as [->|K]; [now left|now right].
  - intros (c & Hc & Hb). destruct (fold_max_ge l a) as [H1 H2]. destruct Hc as [<-|Hc]; [lra|]. specialize (H2 c Hc). lra.
Qed.
Lemma length_func N T xs : length (roots_func N T xs) = (N + 1)%nat.
Proof. unfold roots_func. rewrite app_length, length_mkv. reflexivity. Qed.
Lemma wf_jac N T xs : wf (N + 1) (N + 1) (roots_jac N T xs).
Proof. unfold roots_jac. apply wf_mk. Qed.
Lemma mv_scale n (M : mat R) k v : wf n n M -> length v = n -> mvmul M (map (fun a => k * a) v) = map (fun a => k * a) (mvmul M v).
Proof.
  intros HM Hv. apply (LatticeProofs.vec_ext _ _ n); [now apply (length_mvmul n n)|rewrite map_length; now apply (length_mvmul n n)|]. intros i Hi.
  assert (E : forall w, (i < length w)%nat -> vget (map (fun a => k * a) w) i = k * vget w i).
  { intros w Hw. unfold vget. rewrite (nth_indep _ zero (k * zero)) by now rewrite map_length. apply (map_nth (fun a => k * a)). }
  rewrite E by now rewrite (length_mvmul n n). rewrite !(vget_mvmul n n) by assumption. rewrite map_length.
  rewrite (Rmult_comm k), <- scale_r. apply sumn_ext. intros j Hj. unfold vget.
  rewrite (nth_indep _ zero (k * zero)) by now rewrite map_length. rewrite (map_nth (fun a => k * a)). cbn. ring.
Qed.
Lemma step_damped linv N T x g : inverses linv -> length x = (N + 1)%nat -> linv (roots_jac N T x) = Ok g ->
  damped_step (roots_func N T) (roots_jac N T) x (axpy (- (2 / 10)) x (mvmul g (roots_func N T x))).
Proof.
  intros Hi Lx Hg. destruct (Hi _ _ _ (wf_jac N T x) Hg) as [Wg Eg]. set (f := roots_func N T x) in *.
  assert (Lf : length f = (N + 1)%nat) by apply length_func. split; [apply length_axpy|].
  assert (E : axpy (-1) (axpy (- (2 / 10)) x (mvmul g f)) x = map (fun a => - (2/10) * a) (mvmul g f)).
  { assert (Lm : length (mvmul g f) = (N + 1)%nat) by now apply (length_mvmul (N + 1) (N + 1)).
    apply (nth_ext _ _ 0 0); [rewrite map_length, !length_axpy; lia|]. rewrite !length_axpy, Lx. intros i Hi'.
    rewrite axpy_nth by (rewrite length_axpy; lia). rewrite axpy_nth by lia.
    rewrite (nth_indep (map _ _) 0 (- (2/10) * 0)) by (rewrite map_length; lia). rewrite (map_nth (fun a => - (2/10) * a)). ring. }
  rewrite E. rewrite (mv_scale (N + 1)); [|apply wf_jac|now apply (length_mvmul (N + 1) (N + 1))].
  rewrite <- (mvmul_mmul (N + 1)); [|lia|apply wf_jac|exact Wg|exact Lf]. rewrite Eg, mvmul_eye by exact Lf. apply map_ext. intros a. lra.
Qed.

(** the i-th point after x in the sequence whose point before x is prev *)
Lemma loop_path linv N T : inverses linv -> forall k x y df prev, length x = (N + 1)%nat ->
  (forall p, prev = Some p -> 0 < vnorm (roots_func N T p)) ->
  df = match prev with None => None | Some p => Some (vnorm (axpy (-1) (roots_func N T x) (roots_func N T p)) / vnorm (roots_func N T p)) end ->
  roots_loop linv N T k x (roots_func N T x) df = Ok y ->
  let F := roots_func N T in
  let chg X i := match i with O => exists p, prev = Some p /\ vnorm (axpy (-1) (F (X O)) (F p)) <= 1 / 1000 * vnorm (F p)
                 | S j => vnorm (axpy (-1) (F (X (S j))) (F (X j))) <= 1 / 1000 * vnorm (F (X j)) end in
  let stop X i := small_residual F X i \/ chg X i \/ diverged X i in
  exists m X, (m <= k)%nat /\ X O = x /\ (forall i, (i < m)%nat -> ~ stop X i /\ damped_step F (roots_jac N T) (X i) (X (S i))) /\
    (m = k \/ stop X m) /\ y = X m.
Proof.
  intros Hi. induction k as [|k IH]; intros x y df prev Lx Hp Hd H F chg stop.
  { cbn in H. injection H as <-. exists O, (fun _ => x). split; [lia|]. split; [reflexivity|]. split; [lia|]. split; [now left|reflexivity]. }
  cbn [roots_loop] in H.
  assert (Hx : x <> []) by (intros ->; cbn in Lx; lia).
  destruct (Rltb (1 / 10000) (vnorm (roots_func N T x)) && match df with None => true | Some d => Rltb (1 / 1000) d end && Rltb (vmax x) (10 ^ 20))%bool eqn:G.
  - apply Bool.andb_true_iff in G. destruct G as [G G3]. apply Bool.andb_true_iff in G. destruct G as [G1 G2].
    apply Rltb_spec in G1, G3. apply bindOk in H. destruct H as (g & Hg & H). cbv zeta in H.
    set (x1 := axpy (- (2 / 10)) x (mvmul g (roots_func N T x))) in *.
    assert (L1 : length x1 = (N + 1)%nat) by (unfold x1; now rewrite length_axpy).
    destruct (IH x1 y _ (Some x) L1 ltac:(intros p [= <-]; lra) eq_refl H) as (m & X & Hm & X0 & Hs & He & ->).
    exists (S m), (fun i => match i with O => x | S i => X i end). split; [lia|]. split; [reflexivity|].
    assert (T' : forall i, (small_residual F X i \/ match i with O => exists p, Some x = Some p /\ vnorm (axpy (-1) (F (X O)) (F p)) <= 1 / 1000 * vnorm (F p)
                 | S j => vnorm (axpy (-1) (F (X (S j))) (F (X j))) <= 1 / 1000 * vnorm (F (X j)) end \/ diverged X i) <->
               stop (fun i => match i with O => x | S i => X i end) (S i)).
    { intros i. unfold stop, chg, small_residual, diverged. destruct i as [|i]; [|tauto]. split; intros [K|[K|K]]; auto.
      - right; left. destruct K as (p & [= <-] & K). exact K.
      - right; left. exists x. auto. }
    split; [|split; [|reflexivity]].
    + intros i Hlt. destruct i as [|i].
      * split; [|rewrite X0; now apply (step_damped linv)].
        intros [K|[K|K]].
        -- unfold small_residual, F in K. lra.
        -- cbn in K. destruct K as (p & -> & K). rewrite Hd in G2. apply Rltb_spec in G2. specialize (Hp p eq_refl).
           assert (1 / 1000 * vnorm (roots_func N T p) < vnorm (axpy (-1) (roots_func N T x) (roots_func N T p))); [|unfold F in K; lra].
           apply (Rmult_lt_compat_r _ _ _ Hp) in G2. unfold Rdiv in G2 at 2. rewrite Rmult_assoc, Rinv_l in G2 by lra. lra.
        -- apply (vmax_diverged x Hx) in K. lra.
      * destruct (Hs i ltac:(lia)) as [K1 K2]. split; [|exact K2]. intros K. apply K1. now apply T'.
    + destruct He as [->|He]; [now left|]. right. now apply T'.
  - injection H as <-. exists O, (fun _ => x). split; [lia|]. split; [reflexivity|]. split; [lia|]. split; [right|reflexivity].
    apply Bool.andb_false_iff in G. destruct G as [G|G]; [apply Bool.andb_false_iff in G; destruct G as [G|G]|].
    + left. apply Rltb_false in G. exact G.
    + right; left. rewrite Hd in G. destruct prev as [p|]; [|discriminate]. exists p. split; [reflexivity|]. apply Rltb_false in G. specialize (Hp p eq_refl).
      apply (Rmult_le_compat_r (vnorm (roots_func N T p))) in G; [|lra]. unfold Rdiv in G at 1. rewrite Rmult_assoc, Rinv_l in G by lra. unfold F. lra.
    + right; right. apply Rltb_false in G. now apply (vmax_diverged x Hx).
Qed.

Lemma path_gen linv N T K l0 y : inverses linv -> length l0 = N -> roots_loop linv N T K (l0 ++ [1 / 10]) (roots_func N T (l0 ++ [1 / 10])) None = Ok y ->
  let F := roots_func N T in
  exists k X lam, (k <= K)%nat /\ X O = l0 ++ [1 / 10] /\
    (forall i, (i < k)%nat -> ~ stops F X i /\ damped_step F (roots_jac N T) (X i) (X (S i))) /\
    (k = K \/ stops F X k) /\ X k = firstn N y ++ [lam].
Proof.
  intros Hi L0 H F.
  assert (L1 : length (l0 ++ [1 / 10]) = (N + 1)%nat) by (rewrite app_length; cbn; lia).
  destruct (loop_path linv N T Hi K _ y None None L1 ltac:(discriminate) eq_refl H) as (k & X & Hk & X0 & Hs & He & ->).
  assert (LX : forall i, (i <= k)%nat -> length (X i) = (N + 1)%nat).
  { induction i as [|i IH]; intros Hle; [now rewrite X0|]. destruct (Hs i ltac:(lia)) as [_ [E _]]. rewrite E. apply IH. lia. }
  assert (E : forall i, stops F X i <-> small_residual F X i \/ match i with O => exists p, None = Some p /\ vnorm (axpy (-1) (F (X O)) (F p)) <= 1 / 1000 * vnorm (F p)
                 | S j => vnorm (axpy (-1) (F (X (S j))) (F (X j))) <= 1 / 1000 * vnorm (F (X j)) end \/ diverged X i).
  { intros i. unfold stops, small_change. destruct i as [|i].
    - split; intros [A|[A|A]]; auto; destruct A as (p & A & _); discriminate.
    - split; intros [A|[A|A]]; auto; right; left; [destruct A as (j & [= <-] & A); exact A|exists i; auto]. }
  exists k, X, (last (X k) 0). split; [exact Hk|]. split; [exact X0|]. split; [|split].
  - intros i Hlt. destruct (Hs i Hlt) as [A B]. split; [|exact B]. intros C. apply A. now apply E.
  - destruct He as [He|He]; [now left|right]. now apply E.
  - specialize (LX k (le_n k)). destruct (X k) as [|c l] eqn:Ex; [cbn in LX; lia|]. rewrite <- Ex in *. assert (Nx : X k <> []) by (rewrite Ex; discriminate).
    rewrite (app_removelast_last 0 Nx) at 1. f_equal. rewrite removelast_firstn_len. f_equal. lia.
Qed.

Lemma quartic_unfold linv N T l0 : quartic_roots linv N T l0 = bind (roots_loop linv N T 1000 (l0 ++ [1 / 10]) (roots_func N T (l0 ++ [1 / 10])) None) (fun x => Ok (firstn N x)).
Proof. unfold quartic_roots. generalize 1000%nat. reflexivity. Qed.
(** ** Theorems *)
(** Every attempt that returns has followed the damped Newton iteration from the starting point, with multiplier 1/10, for at
    most 1000 steps, and stopped at the first point that meets one of the three conditions, or after 1000 steps. *)
Theorem C109_path : forall linv N T l0 x, inverses linv -> length l0 = N -> quartic_roots linv N T l0 = Ok x ->
  let F := roots_func N T in
  exists k X lam, (k <= 1000)%nat /\ X O = l0 ++ [1 / 10] /\
    (forall i, (i < k)%nat -> ~ stops F X i /\ damped_step F (roots_jac N T) (X i) (X (S i))) /\
    (k = 1000%nat \/ stops F X k) /\ X k = x ++ [lam].
Proof.
  intros linv N T l0 x Hi L0 H. rewrite quartic_unfold in H. revert H. generalize 1000%nat. intros K H. apply bindOk in H. destruct H as (y & H & Ey). injection Ey as <-.
  exact (path_gen linv N T _ l0 y Hi L0 H).
Qed.
Print Assumptions C109_path.

(** A point at which the first condition holds is a critical point of the form on the unit sphere, up to 1e-4: its length is
    one up to 1e-4, and the form changes in every direction h at a rate that differs from 2 lam x.h by at most 1e-4 |h|, so
    along the sphere (x.h = 0) by at most that.  Missing: the other three ways to stop, where this need not hold, and the
    attempts that end with an exception (C109_refuted). *)
Theorem C109_critical_partial : forall N T x lam, length x = N -> vnorm (roots_func N T (x ++ [lam])) <= 1 / 10000 ->
  Rabs (dot x x - 1) <= 1 / 10000 /\
  forall h, length h = N -> exists d, derivable_pt_lim (fun t => quartic_form N T (axpy t x h)) 0 d /\
    Rabs (d - 2 * lam * dot x h) <= 1 / 10000 * vnorm h.
Proof.
  intros N T x lam Lx H. rewrite roots_func_app in H by exact Lx. set (r := fun p => nth p (gradient N T x) 0 - 2 * lam * nth p x 0) in *.
  assert (Q : sumn N (fun p => r p * r p) + (1 - dot x x) * (1 - dot x x) <= 1 / 10000 * (1 / 10000)).
  { assert (E : dot (mkv N r ++ [1 - dot x x]) (mkv N r ++ [1 - dot x x]) = sumn N (fun p => r p * r p) + (1 - dot x x) * (1 - dot x x)).
    { unfold dot at 1. rewrite app_length, length_mkv. cbn [length]. rewrite sumn_last. unfold vget. f_equal.
      - apply sumn_ext. intros p Hp. rewrite app_nth1 by (rewrite length_mkv; lia). now rewrite !nth_mkv by lia.
      - rewrite app_nth2 by (rewrite length_mkv; lia). rewrite length_mkv, Nat.sub_diag. reflexivity. }
    unfold vnorm in H. rewrite E in H. set (q := sumn N _ + _) in *. assert (0 <= q) by (unfold q; apply Rplus_le_le_0_compat; [apply sumn_nonneg; intros; apply Rle_0_sqr|apply Rle_0_sqr]).
    rewrite <- (sqrt_sqrt q) by assumption. pose proof (sqrt_pos q). apply Rmult_le_compat; assumption. }
  assert (P1 : 0 <= sumn N (fun p => r p * r p)) by (apply sumn_nonneg; intros; apply Rle_0_sqr).
  assert (P2 : 0 <= (1 - dot x x) * (1 - dot x x)) by apply Rle_0_sqr.
  split. { apply Rabs_le. split; apply Rnot_lt_le; intros K; nra. }
  intros h Lh. exists (dot (gradient N T x) h). split; [now apply C82_gradient|].
  assert (D : dot (gradient N T x) h - 2 * lam * dot x h = sumn N (fun p => r p * nth p h 0)).
  { unfold dot. rewrite Lx. replace (length (gradient N T x)) with N by (symmetry; apply length_mkv).
    transitivity (sumn N (fun i => vget (gradient N T x) i * vget h i) + sumn N (fun i => vget x i * vget h i * (- (2 * lam)))).
    - rewrite scale_r. cbn. ring.
    - rewrite <- (sumn_plus N). apply sumn_ext. intros p Hp. unfold r, vget. cbn. ring. }
  rewrite D. set (s := sumn N (fun p => r p * nth p h 0)).
  assert (S2 : s * s <= (1 / 10000 * vnorm h) * (1 / 10000 * vnorm h)).
  { replace ((1 / 10000 * vnorm h) * (1 / 10000 * vnorm h)) with ((1 / 10000 * (1 / 10000)) * (vnorm h * vnorm h)) by ring.
    assert (Hh : vnorm h * vnorm h = sumn N (fun p => nth p h 0 * nth p h 0)).
    { unfold vnorm. rewrite sqrt_sqrt by (unfold dot; apply sumn_nonneg; intros; apply Rle_0_sqr). unfold dot. now rewrite Lh. }
    rewrite Hh. assert (Hp : 0 <= sumn N (fun p => nth p h 0 * nth p h 0)) by (apply sumn_nonneg; intros; apply Rle_0_sqr).
    apply Rle_trans with (sumn N (fun p => r p * r p) * sumn N (fun p => nth p h 0 * nth p h 0)); [pose proof (cauchy_schwarz N r (fun p => nth p h 0)) as K; cbn [pow] in K; fold s in K; lra|].
    apply Rmult_le_compat_r; [exact Hp|lra]. }
  assert (0 <= vnorm h) by apply sqrt_pos. apply Rabs_le. split; apply Rnot_lt_le; intros K; nra.
Qed.
Print Assumptions C109_critical_partial.

(** The iteration does not always end at a critical point, nor end at all: for the square lattice compared with itself, an
    attempt that starts at (1, 0, 0, 0) needs the inverse of a matrix with a row of zeros, and la.inv raises.  So then does
    lat_cor_direct. *)
Definition T109 : tensor4 := quartic_D 2 (eye 2) (minv (eye 2)).
Lemma entry109 : T109 0%nat 0%nat 0%nat 0%nat = 1 /\ forall q, (q < 4)%nat ->
  ((T109 3 q 0 0)%nat = 0 /\ (T109 3 0 q 0)%nat = 0 /\ (T109 3 0 0 q)%nat = 0 /\ (T109 q 3 0 0)%nat = 0 /\ (T109 0 3 q 0)%nat = 0 /\ (T109 0 3 0 q)%nat = 0 /\
   (T109 q 0 3 0)%nat = 0 /\ (T109 0 q 3 0)%nat = 0 /\ (T109 0 0 3 q)%nat = 0 /\ (T109 q 0 0 3)%nat = 0 /\ (T109 0 q 0 3)%nat = 0 /\ (T109 0 0 q 3)%nat = 0).
Proof.
  unfold T109. rewrite minv_eye by (now left). split; [unfold quartic_D, quartic_C2, quartic_C1; cbn; field|].
  intros q Hq. assert (K : q = 0%nat \/ q = 1%nat \/ q = 2%nat \/ q = 3%nat) by lia.
  destruct K as [-> | [-> | [-> | ->]]]; repeat split; unfold quartic_D, quartic_C2, quartic_C1; cbn; field.
Qed.
Lemma row109 q : (q < 5)%nat -> get (roots_jac 4 T109 ([1; 0; 0; 0] ++ [1 / 10])) 3 q = 0.
Proof.
  intros Hq. unfold roots_jac. rewrite get_mk by (cbn; lia). replace (3 <? 4)%nat with true by reflexivity. cbn [app firstn].
  destruct (Nat.eq_dec q 4) as [->|Hne]; [cbn; lra|]. destruct (proj2 entry109 q ltac:(lia)) as (E1 & E2 & E3 & E4 & E5 & E6 & E7 & E8 & E9 & E10 & E11 & E12).
  rewrite (proj2 (Nat.ltb_lt q 4)) by lia.
  rewrite !contract82'. unfold tr0123, tr0231, tr0312, tr1230, tr1302, tr1023, tr2301, tr2013, tr2130, tr3012, tr3120, tr3201. lra.
Qed.
Lemma first_le_norm (f : list R) : length f = 5%nat -> Rabs (nth 0 f 0) <= vnorm f.
Proof.
  intros L. destruct f as [|a [|b [|c [|d [|e [|? ?]]]]]]; try discriminate. unfold vnorm. rewrite <- sqrt_Rsqr_abs. apply sqrt_le_1_alt.
  unfold dot, Rsqr. cbn. pose proof (Rle_0_sqr b). pose proof (Rle_0_sqr c). pose proof (Rle_0_sqr d). pose proof (Rle_0_sqr e). unfold Rsqr in *. lra.
Qed.
Lemma stuck109 linv K y : inverses linv -> (0 < K)%nat ->
  roots_loop linv 4 T109 K ([1; 0; 0; 0] ++ [1 / 10]) (roots_func 4 T109 ([1; 0; 0; 0] ++ [1 / 10])) None = Ok y -> False.
Proof.
  intros Hi HK H. destruct K as [|k]; [lia|].
  cbn [roots_loop] in H.
  assert (F0 : nth 0 (roots_func 4 T109 ([1; 0; 0; 0] ++ [1 / 10])) 0 = 38/10).
  { unfold roots_func, gradient. cbn [app firstn last mkv seq map nth]. rewrite !contract81. unfold tr0123, tr1230, tr2301, tr3012. rewrite (proj1 entry109). lra. }
  assert (G : 1 / 10000 < vnorm (roots_func 4 T109 ([1; 0; 0; 0] ++ [1 / 10]))).
  { set (f := roots_func 4 T109 _) in *. apply Rlt_le_trans with (Rabs (nth 0 f 0)); [rewrite F0; rewrite Rabs_pos_eq; lra|].
    apply first_le_norm. apply length_func. }
  rewrite (proj2 (Rltb_spec _ _) G) in H. cbn [andb] in H.
  rewrite (proj2 (Rltb_spec _ _)) in H by (apply Rnot_le_lt; intros K; apply vmax_diverged in K; [|discriminate]; destruct K as (c & Hc & K); cbn in Hc; intuition lra).
  apply bindOk in H. destruct H as (g & Hg & _). destruct (Hi _ _ _ (wf_jac 4 T109 _) Hg) as [Wg Eg]. cbn [Nat.add] in *.
  assert (K : get (mmul (roots_jac 4 T109 ([1; 0; 0; 0] ++ [1 / 10])) g) 3 3 = 1) by (rewrite Eg; reflexivity).
  rewrite (get_mmul 5 5 5) in K; [|apply (wf_jac 4)|exact Wg|lia|lia|lia]. rewrite sumn_R0 in K; [lra|]. intros q Hq. rewrite row109 by exact Hq. cbn. ring.
Qed.
Lemma stuck109' linv x : inverses linv -> quartic_roots linv 4 T109 [1; 0; 0; 0] = Ok x -> False.
Proof.
  intros Hi H. rewrite quartic_unfold in H. assert (K0 : (0 < 1000)%nat) by lia. revert K0 H. generalize 1000%nat. intros K K0 H.
  apply bindOk in H. destruct H as (y & H & _). exact (stuck109 linv K y Hi K0 H).
Qed.
Theorem C109_refuted : exists draws, length draws = 20%nat /\ (forall d x, In d draws -> In x d -> 0 <= x < 1) /\
  forall linv r, inverses linv -> quart_min_fallback linv (2 * 2) (quartic_D 2 (eye 2) (minv (eye 2))) draws <> Ok r.
Proof.
  exists (repeat [1/2; 0; 0; 0] 20). split; [apply repeat_length|].
  split. { intros d x Hd Hx. apply repeat_spec in Hd. subst d. cbn in Hx. intuition lra. }
  intros linv r Hi. change (2 * 2)%nat with 4%nat. fold T109. unfold quart_min_fallback. change 20%nat with (S 19). generalize 19%nat. intros k H. cbn [repeat mapM] in H.
  apply bindOk in H. destruct H as (xs & H & _). apply bindOk in H. destruct H as (x & H & _). apply bindOk in H. destruct H as (l0 & E0 & H). rewrite start81 in E0. injection E0 as <-. exact (stuck109' linv x Hi H).
Qed.
Print Assumptions C109_refuted.

(** The theorems apply: with the inverse of LinAlg.v for 2 x 2 and 3 x 3 matrices, the form c x^4 in one variable, where
    4 c = 2/10 + 12/100000, is minimised in one step. *)
Definition linv109 (M : mat R) : res (mat R) :=
  if ((length M =? 2) || (length M =? 3))%nat && negb (Reqb (det M) 0) then Ok (minv M) else Raise LinAlgError.
Lemma inverses109 : inverses linv109.
Proof.
  intros n M G W H. unfold linv109 in H. destruct W as [L W]. rewrite L in H.
  destruct (((n =? 2) || (n =? 3))%nat && negb (Reqb (det M) 0))%bool eqn:E; [|discriminate]. injection H as <-.
  apply Bool.andb_true_iff in E. destruct E as [E1 E2]. assert (D : dim23 n). { apply Bool.orb_true_iff in E1. destruct E1 as [E1|E1]; apply Nat.eqb_eq in E1; [now left|now right]. }
  assert (det M <> 0). { intros Z. apply Bool.negb_true_iff in E2. rewrite Z in E2. assert (Reqb 0 0 = true) by now apply Reqb_spec. congruence. }
  split; [apply wf_minv|apply minv_r]; try assumption; now split.
Qed.
Definition T1 : tensor4 := fun _ _ _ _ => (2/10 + 12/100000) / 4.
Lemma func1 x lam : roots_func 1 T1 [x; lam] = [(2/10 + 12/100000) * (x * x * x) - 2 * lam * x; 1 - x * x].
Proof. unfold roots_func, gradient, contract3, contract2, T1, dot, tr0123, tr1230, tr2301, tr3012. cbn. do 2 f_equal; [field|f_equal; field]. Qed.
Lemma l2 {A} (a b a' b' : A) : a = a' -> b = b' -> [a; b] = [a'; b'].
Proof. now intros -> ->. Qed.
Lemma norm1 a : 0 <= a -> vnorm [a; 0] = a.
Proof. intros H. unfold vnorm, dot. cbn. replace (0 + a * a + 0 * 0) with (a * a) by ring. now apply sqrt_square. Qed.
Example C109_case : inverses linv109 /\ quartic_roots linv109 1 T1 [1] = Ok [1] /\
  1 / 10000 < vnorm (roots_func 1 T1 ([1] ++ [1/10])) /\ vnorm (roots_func 1 T1 ([1] ++ [1/10 + 12/1000000])) <= 1 / 10000.
Proof.
  split; [exact inverses109|].
  assert (F0 : roots_func 1 T1 [1; 1/10] = [12/100000; 0]) by (rewrite func1; apply l2; field).
  assert (F1 : roots_func 1 T1 [1; 1/10 + 12/1000000] = [96/1000000; 0]) by (rewrite func1; apply l2; field).
  cbn [app]. split; [|rewrite F0, F1, !norm1 by lra; split; lra].
  rewrite quartic_unfold. cbn [app]. rewrite F0. change 1000%nat with (S (S 998)). generalize 998%nat. intros k. cbn [roots_loop]. rewrite norm1 by lra.
  rewrite (proj2 (Rltb_spec _ _)) by lra. cbn [andb].
  rewrite (proj2 (Rltb_spec _ _)) by (apply Rnot_le_lt; intros K; apply vmax_diverged in K; [|discriminate]; destruct K as (c & Hc & K); cbn in Hc; intuition lra).
  assert (J : roots_jac 1 T1 [1; 1/10] = [[3 * (2/10 + 12/100000); -2]; [-2; 0]]).
  { unfold roots_jac, contract2, T1, tr0123, tr0231, tr0312, tr1230, tr1302, tr1023, tr2301, tr2013, tr2130, tr3012, tr3120, tr3201. cbn. apply l2; apply l2; field. }
  rewrite J. unfold linv109. rewrite det2. cbn [length Nat.eqb orb]. destruct (Reqb _ 0) eqn:Z; [apply Reqb_spec in Z; lra|]. cbn [negb andb bind].
  assert (X : axpy (- (2/10)) [1; 1/10] (mvmul (minv [[3 * (2/10 + 12/100000); -2]; [-2; 0]]) [12/100000; 0]) = [1; 1/10 + 12/1000000]).
  { unfold minv. rewrite det2. unfold axpy, mvmul, dot. cbn. apply l2; field. }
  rewrite X, F1. rewrite (norm1 (96/1000000)) by lra.
  rewrite (proj2 (Rltb_false _ _)) by lra. reflexivity.
Qed.
