(** Properties C81 and C82: the bound alpha of the direct search and its minimisation.  Specification: DirectConcSpec.v (quartic_bound), DistSpec.v (len2);
    model: QuartModel.v. *)
From Verif Require Import Py RMat LinAlg GroupModel GroupProofs DistModel DistSpec DistProofs DirectConcSpec RotModel QuartModel QuartProofs QuartJac Spectral PropLattice.
Local Open Scope R_scope.

(** [f] is the least of the values of the form at the points [xs] *)
Definition least_value (N : nat) (T : tensor4) (xs : list (list R)) (f : R) : Prop :=
  (exists x, In x xs /\ f = quartic_form N T x) /\ forall x, In x xs -> f <= quartic_form N T x.

Lemma bindOk {A B} (r : res A) (f : A -> res B) y : bind r f = Ok y -> exists x, r = Ok x /\ f x = Ok y.
Proof. destruct r; cbn; intros H; try discriminate. eauto. Qed.
Lemma min_of_spec fs : forall m, match fold_left (fun m f => Some (match m with None => f | Some m => Rmin m f end)) fs m with
  | None => fs = [] /\ m = None
  | Some v => (Some v = m \/ In v fs) /\ (forall f, In f fs -> v <= f) /\ (forall u, m = Some u -> v <= u) end.
Proof.
  induction fs as [|a fs IH]; intros m; cbn [fold_left].
  - destruct m; [|auto]. split; [now left|]. split; [intros f []|]. intros u [= ->]. lra.
  - set (m' := Some _). specialize (IH m'). destruct (fold_left _ fs m') as [v|] eqn:E.
    2:{ destruct IH as [_ IH]. discriminate. }
    destruct IH as (H1 & H2 & H3). specialize (H3 _ eq_refl). split; [|split].
    + destruct H1 as [H1|H1]; [|right; now right]. injection H1 as ->. destruct m as [u|]; [|right; now left].
      unfold Rmin. destruct (Rle_dec u a); [left; reflexivity|right; now left].
    + intros f [<-|Hf]; [|now apply H2]. destruct m as [u|]; [|exact H3]. pose proof (Rmin_r u a). lra.
    + intros u ->. pose proof (Rmin_l u a). lra.
Qed.
Lemma min_of_least N T xs : xs <> [] -> exists f, min_of (map (quartic_form N T) xs) = Some f /\ least_value N T xs f.
Proof.
  intros H. pose proof (min_of_spec (map (quartic_form N T) xs) None) as K. fold (min_of (map (quartic_form N T) xs)) in K.
  destruct (min_of _) as [f|]; [|destruct K as [K _]; destruct xs; [contradiction|discriminate]].
  exists f. split; [reflexivity|]. destruct K as ([K|K] & K2 & _); [discriminate|]. apply in_map_iff in K. destruct K as (x & E & Hx). split.
  - exists x. auto.
  - intros y Hy. apply K2. apply in_map_iff. eauto.
Qed.

(** With and without scipy, alpha is the least value of the form at the points where the attempts end.  So alpha bounds the
    form when all of them end at unit vectors and one of them at a global minimum: that is what is missing. *)
Theorem C81_fallback_partial : forall linv n EA EM draws ends, draws <> [] ->
  let T := quartic_D n EA (minv EM) in
  mapM (fun d => let* l0 := start d in quartic_roots linv (n * n) T l0) draws = Ok ends ->
  exists alpha, quart_min_fallback linv (n * n) T draws = Ok (Some alpha) /\ least_value (n * n) T ends alpha /\
    (0 < alpha -> (exists x, In x ends /\ forall u, length u = (n * n)%nat -> len2 u = 1 -> quartic_form (n * n) T x <= quartic_form (n * n) T u) ->
     quartic_bound n EA EM alpha).
Proof.
  intros linv n EA EM draws ends Hd T H. assert (He : ends <> []) by (destruct draws as [|d ds]; [contradiction|]; intros ->;
    cbn [mapM] in H; apply bindOk in H; destruct H as (y & _ & H); apply bindOk in H; destruct H as (ys & _ & H); discriminate).
  destruct (min_of_least (n * n) T ends He) as (alpha & E & L). exists alpha. unfold quart_min_fallback. rewrite H. cbn [bind]. rewrite E.
  split; [reflexivity|]. split; [exact L|]. intros Ha (x & Hx & Hm). split; [exact Ha|]. intros u Hu Lu.
  pose proof (proj2 L x Hx). specialize (Hm u Hu Lu). unfold T in *. lra.
Qed.
Print Assumptions C81_fallback_partial.
Theorem C81_scipy_partial : forall minimize n EA EM draws, draws <> [] -> (forall d, In d draws -> vnorm d <> 0) ->
  let T := quartic_D n EA (minv EM) in
  let ends := map (fun d => minimize (map (fun x => x / vnorm d) d)) draws in
  exists alpha, quart_min_scipy minimize (n * n) T draws = Ok (Some alpha) /\ least_value (n * n) T ends alpha /\
    (0 < alpha -> (exists x, In x ends /\ forall u, length u = (n * n)%nat -> len2 u = 1 -> quartic_form (n * n) T x <= quartic_form (n * n) T u) ->
     quartic_bound n EA EM alpha).
Proof.
  intros minimize n EA EM draws Hd Hz T ends. assert (He : ends <> []) by (unfold ends; destruct draws; [contradiction|discriminate]).
  destruct (min_of_least (n * n) T ends He) as (alpha & E & L). exists alpha. unfold quart_min_scipy.
  assert (K : mapM (fun d => let* l0 := start d in Ok (minimize l0)) draws = Ok ends).
  { unfold ends. clear -Hz. induction draws as [|d ds IH]; [reflexivity|]. cbn [mapM map]. unfold start at 1, normalize.
    assert (Z : Reqb (vnorm d) 0 = false) by (apply Bool.not_true_is_false; intros Z; apply Reqb_spec in Z; apply (Hz d); [now left|exact Z]).
    rewrite Z. cbn [bind]. rewrite IH; [reflexivity|]. intros; apply Hz; now right. }
  rewrite K. cbn [bind]. rewrite E. split; [reflexivity|]. split; [exact L|]. intros Ha (x & Hx & Hm). split; [exact Ha|]. intros u Hu Lu.
  pose proof (proj2 L x Hx). specialize (Hm u Hu Lu). unfold T in *. lra.
Qed.
Print Assumptions C81_scipy_partial.

(** The rectangular lattice with edges 61/129 and 1/100 and the square lattice with edge 1; every draw is (1/2, 0, 0, 0). *)
Definition EA81 : mat R := M2 (61/129) 0 0 (1/100).
Definition T81 : tensor4 := quartic_D 2 EA81 (minv (eye 2)).
Lemma form81 a b c d : quartic_form 4 T81 [a; b; c; d] = 
  let s := 61/129 in let t := 1/100 in
  (s*s*(a*a+b*b))*(s*s*(a*a+b*b)) + 2*(s*t*(a*c+b*d))*(s*t*(a*c+b*d)) + (t*t*(c*c+d*d))*(t*t*(c*c+d*d)).
Proof.
  unfold T81. change 4%nat with (2 * 2)%nat. rewrite quartic_is_fro; [|lia|apply wfM2|rewrite minv_eye by (now left); apply wf_eye].
  rewrite minv_eye by (now left). unfold EA81, M2, reshape, fro2. cbn. field.
Qed.
Lemma start81 : start [1/2; 0; 0; 0] = Ok [1; 0; 0; 0].
Proof.
  assert (N : vnorm [1/2; 0; 0; 0] = 1/2). { unfold vnorm. replace (dot _ _) with ((1/2) * (1/2)) by (unfold dot; cbn; lra). apply sqrt_square. lra. }
  unfold start, normalize. rewrite N. assert (Z : Reqb (1/2) 0 = false) by (apply Bool.not_true_is_false; intros Z; apply Reqb_spec in Z; lra).
  rewrite Z. cbn [map]. do 2 f_equal; [|repeat f_equal]; field.
Qed.
Lemma contract81 T p : contract3 4 T [1; 0; 0; 0] p = T p 0%nat 0%nat 0%nat.
Proof. unfold contract3, contract2. cbn. ring. Qed.
Lemma entry81 : T81 0%nat 0%nat 0%nat 0%nat = (61/129)^4 /\ forall p, (0 < p < 4)%nat -> (T81 p 0 0 0)%nat = 0 /\ (T81 0 p 0 0)%nat = 0 /\ (T81 0 0 p 0)%nat = 0 /\ (T81 0 0 0 p)%nat = 0.
Proof.
  unfold T81. rewrite minv_eye by (now left). split; [unfold quartic_D, quartic_C2, quartic_C1, EA81, M2; cbn; field|].
  intros p Hp. assert (K : p = 1%nat \/ p = 2%nat \/ p = 3%nat) by lia.
  destruct K as [-> | [-> | ->]]; repeat split; unfold quartic_D, quartic_C2, quartic_C1, EA81, M2; cbn; field.
Qed.
Lemma func81 : roots_func 4 T81 ([1; 0; 0; 0] ++ [1/10]) = [4 * (61/129)^4 - 2/10; 0; 0; 0; 0].
Proof.
  unfold roots_func, gradient. cbn [app firstn last].
  assert (G : forall p, (p < 4)%nat -> contract3 4 (tr0123 T81) [1; 0; 0; 0] p + contract3 4 (tr1230 T81) [1; 0; 0; 0] p + 
    contract3 4 (tr2301 T81) [1; 0; 0; 0] p + contract3 4 (tr3012 T81) [1; 0; 0; 0] p = if (p =? 0)%nat then 4 * (61/129)^4 else 0).
  { intros p Hp. rewrite !contract81. unfold tr0123, tr1230, tr2301, tr3012. destruct entry81 as [E0 E1]. destruct (Nat.eqb_spec p 0) as [->|N].
    - rewrite E0. lra.
    - destruct (E1 p ltac:(lia)) as (F1 & F2 & F3 & F4). rewrite F1, F2, F3, F4. lra. }
  unfold mkv. cbn [seq map app]. rewrite !G by lia. cbn [Nat.eqb nth]. 
  assert (L5 : forall a b c d e a' b' c' d' e' : R, a = a' -> b = b' -> c = c' -> d = d' -> e = e' -> [a; b; c; d; e] = [a'; b'; c'; d'; e']) by (intros; now subst).
  apply L5; [| | | |unfold dot]; cbn; lra.
Qed.
Lemma vnorm81 e : - (1/10000) < e < 1/10000 -> vnorm [e; 0; 0; 0; 0] < 1/10000.
Proof.
  intros H. unfold vnorm. replace (dot _ _) with (e * e) by (unfold dot; cbn; lra).
  change (e * e) with (Rsqr e). rewrite sqrt_Rsqr_abs. unfold Rabs. destruct (Rcase_abs e); lra.
Qed.
Lemma run81 linv : (let* l0 := start [1/2; 0; 0; 0] in quartic_roots linv 4 T81 l0) = Ok [1; 0; 0; 0].
Proof.
  rewrite start81. cbn [bind]. unfold quartic_roots. rewrite func81.
  match goal with |- context [roots_loop _ _ _ ?n _ _ _] => generalize n end. intros [|k]; [reflexivity|]. cbn [roots_loop].
  rewrite (proj2 (Rltb_false _ _)). 2:{ apply Rlt_le, vnorm81. lra. } reflexivity.
Qed.
Lemma all81 linv k : mapM (fun d => let* l0 := start d in quartic_roots linv 4 T81 l0) (repeat [1/2; 0; 0; 0] k) = Ok (repeat [1; 0; 0; 0] k).
Proof. induction k as [|k IH]; [reflexivity|]. cbn [repeat mapM]. rewrite run81. cbn [bind]. rewrite IH. reflexivity. Qed.

(** C81 is false of the version without scipy, whatever la.inv returns: the form is smaller than alpha at a unit vector, and the
    radius computed from alpha excludes a correspondence of determinant 1 that is closer than the radius allows for. *)
Theorem C81_fallback_refuted : exists EA EM draws L, wf 2 2 EA /\ det EA <> 0 /\ wf 2 2 EM /\ det EM <> 0 /\
  length draws = 20%nat /\ (forall d x, In d draws -> In x d -> 0 <= x < 1) /\ wf 2 2 L /\ det L = 1%Z /\
  forall linv, exists alpha, quart_min_fallback linv (2 * 2) (quartic_D 2 EA (minv EM)) draws = Ok (Some alpha) /\
    ~ quartic_bound 2 EA EM alpha /\
    rmax alpha (Cauchy_dist (flatten (RZ L)) EA (minv EM)) < sqrt (len2 (flatten (RZ L))).
Proof.
  exists EA81, (eye 2), (repeat [1/2; 0; 0; 0] 20), [[1; 1]; [52; 53]]%Z.
  split; [apply wfM2|]. split; [unfold EA81, M2; rewrite det2; cbn; lra|]. split; [apply wf_eye|]. split; [rewrite det_eye by (now left); lra|].
  split; [apply repeat_length|]. split. { intros d x Hd Hx. apply repeat_spec in Hd. subst d. cbn in Hx. intuition lra. }
  split; [apply wfZ2|]. split; [reflexivity|]. intros linv.
  destruct (C81_fallback_partial linv 2 EA81 (eye 2) (repeat [1/2; 0; 0; 0] 20) (repeat [1; 0; 0; 0] 20) ltac:(discriminate) (all81 linv 20))
    as (alpha & E & ((x & Hx & Ex) & _) & _). apply repeat_spec in Hx. subst x. change (2 * 2)%nat with 4%nat in Ex. fold T81 in Ex. rewrite form81 in Ex. cbv zeta in Ex.
  assert (Ha : 499/10000 < alpha < 501/10000) by lra. exists alpha. split; [exact E|]. split.
  - intros [_ K]. specialize (K [0; 0; 1; 0] eq_refl). change (2 * 2)%nat with 4%nat in K. fold T81 in K. rewrite form81 in K. cbv zeta in K.
    assert (len2 [0; 0; 1; 0] = 1) by (unfold len2; cbn; lra). specialize (K H). lra.
  - set (x := flatten (RZ [[1; 1]; [52; 53]]%Z)). assert (Ex' : x = [1; 1; 52; 53]) by reflexivity.
    set (d := Cauchy_dist x EA81 (minv (eye 2))).
    assert (Hd : 0 <= d <= 2). { unfold d. rewrite Ex', minv_eye by (now left). unfold Cauchy_dist, EA81, M2, reshape. cbn. split; lra. }
    assert (Hg : gamma d / alpha <= 240).
    { unfold gamma. assert (sqrt (3 * d) <= 3) by (apply Rle_trans with (sqrt (3 * 3)); [apply sqrt_le_1_alt; lra|rewrite sqrt_square; lra]).
      apply (Rmult_le_reg_r alpha); [lra|]. unfold Rdiv. rewrite Rmult_assoc, Rinv_l by lra. lra. }
    assert (Hl : len2 x = 5515) by (rewrite Ex'; unfold len2; cbn; lra).
    unfold rmax. rewrite Hl. apply sqrt_lt_1_alt. split; [apply sqrt_pos|]. apply Rle_lt_trans with 16; [|lra].
    rewrite <- (sqrt_square 16) by lra. apply sqrt_le_1_alt. lra.
Qed.
Print Assumptions C81_fallback_refuted.

(** C82: the function handed to scipy as the derivative is the derivative of the quartic form, in every direction h. *)
Theorem C82_gradient : forall N T x h, length x = N -> length h = N ->
  derivable_pt_lim (fun t => quartic_form N T (axpy t x h)) 0 (dot (gradient N T x) h).
Proof. exact form_gradient. Qed.
Print Assumptions C82_gradient.
Example C82_case : dot (gradient 4 T81 [1; 0; 0; 0]) [1; 0; 0; 0] = 4 * (61/129)^4.
Proof.
  unfold gradient, dot. rewrite length_mkv. cbn [sumn]. rewrite !vget_mkv by lia. rewrite !contract81. unfold tr0123, tr1230, tr2301, tr3012.
  rewrite (proj1 entry81). cbn. lra.
Qed.
(** The matrix used by the iteration without scipy is not the derivative of the equations it solves: along the first
    coordinate the term - 2 lam is missing. *)
Lemma contract82 T a p : contract3 4 T [a; 0; 0; 0] p = a * a * a * T p 0%nat 0%nat 0%nat.
Proof. unfold contract3, contract2. cbn. ring. Qed.
Lemma contract82' T p q : contract2 4 T [1; 0; 0; 0] p q = T p q 0%nat 0%nat.
Proof. unfold contract2. cbn. ring. Qed.
Theorem C82_jacobian_refuted : exists EA EM l, wf 2 2 EA /\ det EA <> 0 /\ wf 2 2 EM /\ det EM <> 0 /\
  let T := quartic_D 2 EA (minv EM) in let xs := [1; 0; 0; 0; 1/10] in
  derivable_pt_lim (fun t => nth 0 (roots_func 4 T (axpy t xs [1; 0; 0; 0; 0])) 0) 0 l /\ get (roots_jac 4 T xs) 0 0 <> l.
Proof.
  exists EA81, (eye 2), (12 * (61/129)^4 - 2/10).
  split; [apply wfM2|]. split; [unfold EA81, M2; rewrite det2; cbn; lra|]. split; [apply wf_eye|]. split; [rewrite det_eye by (now left); lra|].
  cbv zeta. fold T81. destruct entry81 as [E0 _]. set (w := (61/129)^4) in *. split.
  - apply (deriv_ext (fun t => 4 * w * (1 + t * 1) * (1 + t * 1) * (1 + t * 1) + - (2/10) * (1 + t * 1))).
    { intros t. assert (X : firstn 4 (axpy t [1; 0; 0; 0; 1/10] [1; 0; 0; 0; 0]) = [1 + t * 1; 0 + t * 0; 0 + t * 0; 0 + t * 0]) by reflexivity.
      assert (Y : last (axpy t [1; 0; 0; 0; 1/10] [1; 0; 0; 0; 0]) 0 = 1/10 + t * 0) by reflexivity.
      unfold roots_func. rewrite X, Y. replace (0 + t * 0) with 0 by lra. replace (1/10 + t * 0) with (1/10) by lra. set (a := 1 + t * 1).
      unfold gradient. cbn [mkv seq map app nth]. rewrite !contract82. unfold tr0123, tr1230, tr2301, tr3012. rewrite E0. lra. }
    assert (P : forall f l a b, derivable_pt_lim f 0 l -> derivable_pt_lim (fun t => f t * (a + t * b)) 0 (l * a + f 0 * b)).
    { intros f l a b Hf. pose proof (derivable_pt_lim_mult f (fun t => a + t * b) 0 l b Hf (deriv_lin a b)) as K. cbv beta in K. replace (a + 0 * b) with a in K by lra. exact K. }
    pose proof (P _ _ 1 1 (P _ _ 1 1 (P (fun _ => 4 * w) 0 1 1 (derivable_pt_lim_const _ 0)))) as K1.
    pose proof (P (fun _ => - (2/10)) 0 1 1 (derivable_pt_lim_const _ 0)) as K2.
    pose proof (derivable_pt_lim_plus _ _ _ _ _ K1 K2) as K. cbv beta in K.
    match type of K with derivable_pt_lim _ _ ?l => replace l with (12 * w - 2/10) in K by lra end. exact K.
  - unfold roots_jac. cbn [Nat.add]. rewrite get_mk by lia. cbn [Nat.ltb Nat.leb firstn]. rewrite !contract82'.
    unfold tr0123, tr0231, tr0312, tr1230, tr1302, tr1023, tr2301, tr2013, tr2130, tr3012, tr3120, tr3201. rewrite E0. lra.
Qed.
Print Assumptions C82_jacobian_refuted.
(** What does hold: for every tensor, point (x, lam) and direction (h, mu), the matrix times the direction is the derivative of
    the equations along it, except for the term - 2 lam h of the first N components, which the code forgets.  So the matrix is
    the derivative exactly where lam = 0. *)
Theorem C82_jacobian_partial : forall N T x lam h mu, length x = N -> length h = N ->
  let F := fun t => roots_func N T (axpy t (x ++ [lam]) (h ++ [mu])) in
  let Jh := mvmul (roots_jac N T (x ++ [lam])) (h ++ [mu]) in
  (forall p, (p < N)%nat -> derivable_pt_lim (fun t => nth p (F t) 0) 0 (nth p Jh 0 - 2 * lam * nth p h 0)) /\
  derivable_pt_lim (fun t => nth N (F t) 0) 0 (nth N Jh 0).
Proof. intros N T x lam h mu Lx Lh. cbv zeta. split; [intros p Hp; now apply roots_deriv|now apply roots_deriv_last]. Qed.
Print Assumptions C82_jacobian_partial.
(** The equations of the iteration without scipy are those of the critical points of the form on the unit sphere, with
    multiplier lam: the vector is a unit vector and the form changes along h at the rate 2 lam x.h, so not at all along the
    directions tangent to the sphere. *)
Theorem C82_equations : forall N T x lam, length x = N ->
  (roots_func N T (x ++ [lam]) = repeat 0 (N + 1) <->
   dot x x = 1 /\ forall h, length h = N -> derivable_pt_lim (fun t => quartic_form N T (axpy t x h)) 0 (2 * lam * dot x h)).
Proof.
  intros N T x lam Lx. rewrite roots_func_app by exact Lx.
  assert (Lg : length (gradient N T x) = N) by apply length_mkv.
  assert (D : forall h, length h = N -> dot (gradient N T x) h - 2 * lam * dot x h = sumn N (fun p => (nth p (gradient N T x) 0 - 2 * lam * nth p x 0) * nth p h 0)).
  { intros h Lh. unfold dot. rewrite Lg, Lx. transitivity (sumn N (fun i => vget (gradient N T x) i * vget h i) + sumn N (fun i => vget x i * vget h i * (- (2 * lam)))).
    - rewrite scale_r. cbn. ring.
    - rewrite <- (sumn_plus N). apply sumn_ext. intros p Hp. unfold vget. cbn. ring. }
  split.
  - intros E. assert (Z : forall p, (p < N)%nat -> nth p (gradient N T x) 0 - 2 * lam * nth p x 0 = 0).
    { intros p Hp. transitivity (nth p (mkv N (fun p => nth p (gradient N T x) 0 - 2 * lam * nth p x 0) ++ [1 - dot x x]) 0).
      - rewrite app_nth1 by (rewrite length_mkv; lia). now rewrite nth_mkv by lia.
      - rewrite E. apply nth_repeat. }
    split.
    + assert (K : nth N (mkv N (fun p => nth p (gradient N T x) 0 - 2 * lam * nth p x 0) ++ [1 - dot x x]) 0 = 0) by (rewrite E; apply nth_repeat).
      rewrite app_nth2 in K; rewrite length_mkv in *; [|lia]. rewrite Nat.sub_diag in K. cbn [nth] in K. lra.
    + intros h Lh. replace (2 * lam * dot x h) with (dot (gradient N T x) h); [now apply C82_gradient|].
      apply Rminus_diag_uniq. rewrite D by exact Lh. apply sumn_R0. intros p Hp. rewrite Z by exact Hp. ring.
  - intros [U H]. rewrite repeat_app. cbn [repeat].
    assert (Z : forall p, (p < N)%nat -> nth p (gradient N T x) 0 - 2 * lam * nth p x 0 = 0).
    { intros p Hp. set (h := mkv N (fun q => if (q =? p)%nat then 1 else 0)). assert (Lh : length h = N) by apply length_mkv.
      pose proof (uniqueness_limite _ _ _ _ (H h Lh) (C82_gradient N T x h Lx Lh)) as E.
      assert (S0 : sumn N (fun q => (nth q (gradient N T x) 0 - 2 * lam * nth q x 0) * nth q h 0) = nth p (gradient N T x) 0 - 2 * lam * nth p x 0).
      { rewrite (sumn_single_R N p _ Hp).
        - unfold h. rewrite nth_mkv by exact Hp. rewrite Nat.eqb_refl. ring.
        - intros q Hq Hne. unfold h. rewrite nth_mkv by exact Hq. destruct (Nat.eqb_spec q p); [contradiction|ring]. }
      rewrite <- S0, <- D by exact Lh. lra. }
    f_equal; [|f_equal; lra].
    apply (nth_ext _ _ 0 0); [now rewrite length_mkv, repeat_length|]. rewrite length_mkv. intros p Hp. rewrite nth_mkv by exact Hp. rewrite nth_repeat. now apply Z.
Qed.
Print Assumptions C82_equations.
(** the form x0^4 + 2 x1^4: (0, 1) is critical with multiplier 4 *)
Example C82_case_equations : let T := fun p q r s : nat => if (Nat.eqb p q && Nat.eqb q r && Nat.eqb r s)%bool then INR (p + 1) else 0 in
  roots_func 2 T [0; 1; 4] = [0; 0; 0].
Proof. unfold roots_func, gradient, contract3, contract2, tr0123, tr1230, tr2301, tr3012. cbn. repeat (f_equal; try ring). Qed.
