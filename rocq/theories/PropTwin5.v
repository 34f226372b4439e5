(** Property C39: habit planes when both volume fractions exist. *)
From Verif Require Import PropTwin PropTwin2 PropTwin3 TwinMono TwinMono2 RankOneConn PropRankOne.
Local Open Scope R_scope.
Lemma solve_am_total eig C l1 l2 l3 : positive_definite C -> is_eig C (eig C) -> eigenvalues C l1 l2 l3 -> SMALL * SMALL <= l3 - l1 ->
  exists t1 t2, solve_am eig C = Ok (Some (t1, t2)).
Proof.
  intros PC EG EV SP. pose proof (posdef_eig C l1 l2 l3 PC EV) as P1. assert (L : l1 < l3) by (unfold tolerance, SMALL in SP; lra).
  destruct (sort_eig_eigenvalues _ _ _ _ _ EG EV) as (v0 & v1 & v2 & S & ES & P). pose proof PC as [[WC TC] _].
  destruct (eigsys_orth _ _ _ _ _ _ _ WC TC ES L) as (O & _ & _). pose proof ES as []. 
  unfold solve_am. rewrite (C32_accepts_partial C PC). cbn [negb]. rewrite S. cbv [vget]. cbn [nth].
  rewrite !math_sqrt_ok by (try apply Rabs_pos; lra). cbn [bind]. rewrite sqrt_ge_small by (auto; unfold tolerance, SMALL; lra).
  assert (Pc : 0 < sqrt (l3 - l1)) by (apply sqrt_lt_R0; lra).
  set (c := sqrt (l3 - l1)) in *. set (c1 := sqrt (Rabs (1 - l1))). set (c3 := sqrt (Rabs (l3 - 1))).
  assert (BM : exists b1 m1 b2 m2, bm_pairs math_sqrt [l1; l2; l3] [v0; v1; v2] c c1 c3 = Ok ((b1, m1), (b2, m2))).
  { assert (Q : 0 < c1 * c1 + c3 * c3).
    { unfold c1, c3. rewrite !sqrt_sqrt by apply Rabs_pos. unfold Rabs. destruct (Rcase_abs (1 - l1)), (Rcase_abs (l3 - 1)); lra. }
    assert (S13 : sqrt l1 < sqrt l3) by (apply sqrt_lt_1_alt; lra).
    assert (K : (sqrt l3 - sqrt l1) / c <> 0).
    { apply Rgt_not_eq. apply Rdiv_lt_0_compat; lra. }
    assert (Nz : forall m, 0 < dot m m -> exists m', normalize m = Ok m').
    { intros m H. unfold normalize. assert (0 < vnorm m) by (apply sqrt_lt_R0; exact H). rewrite (proj2 (Reqb_false _ _)) by lra. eauto. }
    unfold bm_pairs. cbv [vget]. cbn [nth]. rewrite !math_sqrt_ok by lra. cbn [bind]. set (k := (sqrt l3 - sqrt l1) / c) in *. clearbody c1 c3 k.
    assert (Kp : 0 < k * k) by nra.
    assert (N1 : 0 < dot (vscale k (vadd (vscale (- c1) v0) (vscale (1 * c3) v2))) (vscale k (vadd (vscale (- c1) v0) (vscale (1 * c3) v2)))).
    { replace (dot _ _) with (k * k * (c1 * c1 * dot v0 v0 + c3 * c3 * dot v2 v2 - 2 * c1 * c3 * dot v0 v2));
        [rewrite es_u0, es_u2, O; nra|]. clear - es_len0 es_len2. v3 es_len0. v3 es_len2. unfold vscale, vadd. mat_unfold_goal. ring. }
    assert (N2 : 0 < dot (vscale k (vsub (vscale (- c1) v0) (vscale (1 * c3) v2))) (vscale k (vsub (vscale (- c1) v0) (vscale (1 * c3) v2)))).
    { replace (dot _ _) with (k * k * (c1 * c1 * dot v0 v0 + c3 * c3 * dot v2 v2 + 2 * c1 * c3 * dot v0 v2));
        [rewrite es_u0, es_u2, O; nra|]. clear - es_len0 es_len2. v3 es_len0. v3 es_len2. unfold vscale, vsub. mat_unfold_goal. ring. }
    destruct (Nz _ N1) as (m1 & ->). destruct (Nz _ N2) as (m2 & ->). cbn [bind]. eauto 8. }
  destruct BM as (b1 & m1 & b2 & m2 & BM). unfold mat, vec in *. rewrite BM. cbn [bind].
  destruct (eig C) as [lam V] eqn:EE. destruct EG as [(_ & WV & Ll & DV & _) _]. cbn [fst snd] in *.
  assert (Hp : forall x, In x lam -> 0 < x).
  { intros x Hx. pose proof (Permutation_in x P Hx) as Hin. cbn in Hin. destruct Hin as [<-|[<-|[<-|[]]]]; lra. }
  rewrite mapM_np_sqrt by (intros x Hx; pose proof (Hp x Hx); lra). cbn [bind]. assert (d : dim23 3) by now right.
  rewrite (inv_Ok 3) by auto. cbn [bind].
  assert (Wd : wf 3 3 (diag (map sqrt lam))) by (apply wf_diag; now rewrite map_length).
  assert (WVd : wf 3 3 (mmul V (diag (map sqrt lam)))) by (apply (wf_mmul 3 3 3); auto; lia).
  rewrite (inv_Ok 3).
  - cbn [bind]. eauto.
  - exact d.
  - apply (wf_mmul 3 3 3); auto using wf_minv; lia.
  - rewrite !(det_mmul 3) by auto using wf_minv. apply Rmult_integral_contrapositive_currified; [apply Rmult_integral_contrapositive_currified; [exact DV|]|now apply (det_minv_neq0 3)].
    clear - Ll Hp. apply len3_inv in Ll. destruct Ll as (x & y & z & ->).
    assert (0 < sqrt x) by (apply sqrt_lt_R0, Hp; cbn; auto). assert (0 < sqrt y) by (apply sqrt_lt_R0, Hp; cbn; auto). assert (0 < sqrt z) by (apply sqrt_lt_R0, Hp; cbn; auto).
    cbn [map]. replace (det _) with (sqrt x * sqrt y * sqrt z) by (mat_unfold_goal; ring). apply Rgt_not_eq.
    assert (0 < sqrt x * sqrt y) by nra. assert (0 < sqrt x * sqrt y * sqrt z) by nra. lra.
Qed.

(** The deformation gradient of the laminate of U and U + a (x) n with fraction f of the latter *)
Definition laminate (U : mat R) (t : twin) (f : R) : mat R := madd U (mscale f (outer (twin_a t) (twin_n t))).
(** The eigensolver is right about F^T F, F is invertible, and the eigenvalues of F^T F are not all the same to
    within the solver's tolerance. *)
Definition solvable (eig : mat R -> list R * mat R) (F : mat R) : Prop :=
  wf 3 3 F /\ det F <> 0 /\ is_eig (mmul (tr F) F) (eig (mmul (tr F) F)) /\
  exists l1 l2 l3, eigenvalues (mmul (tr F) F) l1 l2 l3 /\ tolerance * tolerance <= l3 - l1.

Lemma ata_posdef F : wf 3 3 F -> det F <> 0 -> positive_definite (mmul (tr F) F).
Proof.
  intros W D. assert (d : dim23 3) by now right. assert (DE : det (eye 3) <> 0) by (rewrite (det_eye 3) by exact d; lra).
  pose proof (mixed_posdef F (eye 3) W (wf_mk 3 3 _) D DE) as P. rewrite mixed_G in P by (auto; apply wf_mk).
  replace (mmul F (minv (eye 3))) with F in P; [exact P|]. rewrite minv_eye by exact d. rewrite (mmul_eye_r 3 3); auto.
Qed.
Lemma habit_ok eig U t f : solvable eig (laminate U t f) -> solvable eig (laminate U t (1 - f)) ->
  exists l, habit eig U t (Some f) = Ok l /\ length l = 4%nat.
Proof.
  intros (W0 & D0 & E0 & l1 & l2 & l3 & V0 & S0) (W1 & D1 & E1 & k1 & k2 & k3 & V1 & S1).
  unfold habit. fold (laminate U t f). fold (laminate U t (1 - f)).
  destruct (solve_am_total eig _ _ _ _ (ata_posdef _ W0 D0) E0 V0 S0) as (x & y & ->). cbn [bind].
  destruct (solve_am_total eig _ _ _ _ (ata_posdef _ W1 D1) E1 V1 S1) as (z & w & ->). cbn [bind app]. eauto.
Qed.

(** If both volume fractions exist then, whatever was called before and for each twin type asked for, habitplanes returns eight
    habit planes, four for each twin. *)
Theorem C39_both_partial : forall eig npnew skip U V h p t t1 t2 f1 f2, pair_after eig npnew skip U V h p ->
  fst (twinparam eig npnew p) = Ok (Some (t1, t2)) -> fst (volumefrac eig npnew p) = Ok (Some f1, Some f2) -> t <> TOther ->
  solvable eig (laminate U t1 f1) -> solvable eig (laminate U t1 (1 - f1)) ->
  solvable eig (laminate U t2 f2) -> solvable eig (laminate U t2 (1 - f2)) ->
  exists l, fst (habitplanes eig npnew t p) = Ok l /\ length l = 8%nat.
Proof.
  intros eig npnew skip U V h p t t1 t2 f1 f2 PA TP VF NT S1 S2 S3 S4.
  assert (ST : exists p0, fresh p0 /\ Inv eig npnew p0 p /\ p_Ui p0 = U).
  { destruct PA as (p0 & N0 & ->). destruct (new_fresh eig skip U V p0 N0) as (F & E & _). exists p0. split; [exact F|]. split; [|exact E]. apply run_keeps; auto. now apply Inv_refl. }
  destruct ST as (p0 & F & I & EU). pose proof (volume_stable eig npnew p0 F) as VS. pose proof (some_param_stable eig npnew p0 F) as SS.
  assert (V0 : fst (volumefrac eig npnew p0) = Ok (Some f1, Some f2)) by (rewrite <- VF; symmetry; now apply VS).
  assert (P0 : fst (some_param eig npnew p0) = Ok (t1, t2)).
  { rewrite <- (proj1 (SS p I)). unfold some_param, bindS. destruct (twinparam eig npnew p) as [r p']. cbn [fst] in TP. now subst r. }
  destruct (habit_ok eig U t1 f1 S1 S2) as (k1 & H1 & L1). destruct (habit_ok eig U t2 f2 S3 S4) as (k2 & H2 & L2).
  exists (k1 ++ k2). split; [|now rewrite app_length, L1, L2].
  assert (C : fst (bindS (iscompatible eig npnew TC) (fun c => if negb c then lift (Raise AttributeError) else
      bindS (some_param eig npnew) (fun tpar => bindS (volumefrac eig npnew) (fun fs => fun p => (let* h0 := habit eig (p_Ui p) (fst tpar) (fst fs) in
                let* h1 := habit eig (p_Ui p) (snd tpar) (snd fs) in Ok (h0 ++ h1), p)))) p) = Ok (k1 ++ k2)); [|destruct t; auto; now elim NT].
  unfold bindS at 1. pose proof (compatible_stable eig npnew p0 F TC p I) as (Q & I1).
  assert (CT : fst (iscompatible eig npnew TC p) = Ok true).
  { unfold iscompatible, bindS. pose proof (VS p I) as (E1 & I2). destruct (volumefrac eig npnew p) as [r p']. cbn [fst] in VF. now subst r. }
  clear Q. destruct (iscompatible eig npnew TC p) as [r p1]. cbn [fst snd] in *. subst r. cbn [negb]. unfold bindS at 1.
  destruct (SS p1 I1) as (Q1 & I2). destruct (some_param eig npnew p1) as [r p2]. cbn [fst snd] in *. rewrite P0 in Q1. subst r. unfold bindS.
  destruct (VS p2 I2) as (Q2 & I3). destruct (volumefrac eig npnew p2) as [r p3]. cbn [fst snd] in *. rewrite V0 in Q2. subst r. cbn beta iota delta [fst snd].
  replace (p_Ui p3) with U by (destruct I3; congruence). cbn beta iota. rewrite H1. cbn [bind]. now rewrite H2.
Qed.
Print Assumptions C39_both_partial.

(** ** A case *)
Lemma eig_finite (Cs : list (mat R)) : (forall C, In C Cs -> exists eg, is_eig C eg) -> exists eig, forall C, In C Cs -> is_eig C (eig C).
Proof.
  induction Cs as [|C Cs IH]; intros H.
  - exists (fun _ => ([], [])). easy.
  - destruct IH as (eig & E); [intros; apply H; now right|]. destruct (H C (or_introl eq_refl)) as (eg & G).
    exists (fun X => if list_eq_dec (list_eq_dec Req_EM_T) X C then eg else eig X). intros X HX.
    destruct (list_eq_dec _ X C) as [->|N]; [exact G|]. destruct HX as [->|HX]; [now elim N|now apply E].
Qed.
(** the diagonal entries lie between the eigenvalues *)
Lemma diag_spread C l1 l2 l3 i j : MartSpec.symmetric C -> eigenvalues C l1 l2 l3 -> (i < 3)%nat -> (j < 3)%nat -> get C i i - get C j j <= l3 - l1.
Proof.
  intros [WC TC] EV Hi Hj. destruct (spectral_theorem 3 C (or_intror eq_refl) WC TC) as (lam & Q & E).
  destruct (sort_eig_eigenvalues _ _ _ _ _ (orth_is_eig _ _ _ E) EV) as (_ & _ & _ & _ & _ & P). cbn [fst] in P. destruct EV as [[L1 L2] _].
  destruct E as ((WQ & OQ) & (_ & _ & LL & _ & CE)).
  assert (B : forall x, In x lam -> l1 <= x <= l3).
  { intros x Hx. pose proof (Permutation_in x P Hx) as Hin. cbn in Hin. destruct Hin as [<-|[<-|[<-|[]]]]; lra. }
  assert (CF : C = mmul (mmul Q (diag lam)) (tr Q)).
  { rewrite <- CE. assert (WT : wf 3 3 (tr Q)) by (apply wf_tr'; [lia|exact WQ]). rewrite (mmul_assoc 3 3 3 3) by (auto; lia). rewrite OQ, (mmul_eye_r 3 3); auto. }
  assert (G : forall k, (k < 3)%nat -> l1 <= get C k k <= l3); [|pose proof (G i Hi); pose proof (G j Hj); lra].
  clear P. apply len3_inv in LL. destruct LL as (x0 & x1 & x2 & ->). pose proof (B x0 (or_introl eq_refl)). pose proof (B x1 (or_intror (or_introl eq_refl))). pose proof (B x2 (or_intror (or_intror (or_introl eq_refl)))).
  rewrite CF. apply wf3_inv in WQ. destruct WQ as (a & b & c & d & e & f & g & h & k & ->).
  cbv [mmul tr mk nrows ncols length seq map sumn get nth eye Nat.eqb zero one add mul R_ops M3] in OQ.
  injection OQ as O1 _ _ _ O2 _ _ _ O3.
  assert (S : forall u v w, 0 + u * u + v * v + w * w = 1 -> l1 <= x0 * (u * u) + x1 * (v * v) + x2 * (w * w) <= l3).
  { intros u v w Hs. pose proof (Rle_0_sqr u). pose proof (Rle_0_sqr v). pose proof (Rle_0_sqr w). unfold Rsqr in *.
    assert (M : forall x s, l1 <= x <= l3 -> 0 <= s -> l1 * s <= x * s <= l3 * s) by (intros x s ? ?; split; apply Rmult_le_compat_r; lra).
    pose proof (M x0 _ H H2). pose proof (M x1 _ H0 H3). pose proof (M x2 _ H1 H4).
    assert (E1 : l1 = l1 * (u * u) + l1 * (v * v) + l1 * (w * w)) by (rewrite <- (Rmult_1_r l1) at 1; rewrite <- Hs; ring).
    assert (E3 : l3 = l3 * (u * u) + l3 * (v * v) + l3 * (w * w)) by (rewrite <- (Rmult_1_r l3) at 1; rewrite <- Hs; ring). lra. }
  intros m Hm. assert (HM : m = 0%nat \/ m = 1%nat \/ m = 2%nat) by lia.
  destruct HM as [->|[-> | ->]]; mat_unfold_goal; [pose proof (S a b c O1)|pose proof (S d e f O2)|pose proof (S g h k O3)]; lra.
Qed.

Definition fI : R := 1/2 + sqrt (80089/332800).
Definition fII : R := 1/2 + sqrt (8947/39936).
Definition LI (f : R) : mat R := madd Ub (mscale f (outer [-4/5; -6/5; 0] [1; 0; 0])).
Definition LII (f : R) : mat R := madd Ub (mscale f (outer [102/125; 36/125; 0] [0; -1; 0])).
Lemma LI_same t f : typeI (twin_a t) (twin_n t) -> laminate Ub t f = LI f.
Proof. unfold laminate, LI. intros [(-> & ->)|(-> & ->)]; [reflexivity|]. unfold Ub. mat_eq ltac:(lra). Qed.
Lemma LII_same t f : typeII (twin_a t) (twin_n t) -> laminate Ub t f = LII f.
Proof. unfold laminate, LII. intros [(-> & ->)|(-> & ->)]; [reflexivity|]. unfold Ub. mat_eq ltac:(lra). Qed.
Lemma LI_det f : wf 3 3 (LI f) /\ det (LI f) <> 0.
Proof. split; [now apply wfb_spec|]. replace (det (LI f)) with (117/500); [lra|]. unfold LI, Ub. mat_unfold_goal. lra. Qed.
Lemma LII_det f : wf 3 3 (LII f) /\ det (LII f) <> 0.
Proof. split; [now apply wfb_spec|]. replace (det (LII f)) with (117/500); [lra|]. unfold LII, Ub. mat_unfold_goal. lra. Qed.
Lemma LI_solvable eig f : is_eig (mmul (tr (LI f)) (LI f)) (eig (mmul (tr (LI f)) (LI f))) -> solvable eig (LI f).
Proof.
  intros E. destruct (LI_det f) as (W & D). split; [exact W|]. split; [exact D|]. split; [exact E|].
  pose proof (ata_posdef _ W D) as [S _]. destruct (eigenvalues_exist _ S) as (l1 & l2 & l3 & EV). exists l1, l2, l3. split; [exact EV|].
  pose proof (diag_spread _ _ _ _ 2 1 S EV ltac:(lia) ltac:(lia)) as G.
  replace (get (mmul (tr (LI f)) (LI f)) 2 2 - get (mmul (tr (LI f)) (LI f)) 1 1) with (16/25 - 117/400) in G; [unfold tolerance, SMALL; lra|].
  unfold LI, Ub. mat_unfold_goal. lra.
Qed.
Lemma LII_solvable eig f : is_eig (mmul (tr (LII f)) (LII f)) (eig (mmul (tr (LII f)) (LII f))) -> solvable eig (LII f).
Proof.
  intros E. destruct (LII_det f) as (W & D). split; [exact W|]. split; [exact D|]. split; [exact E|].
  pose proof (ata_posdef _ W D) as [S _]. destruct (eigenvalues_exist _ S) as (l1 & l2 & l3 & EV). exists l1, l2, l3. split; [exact EV|].
  pose proof (diag_spread _ _ _ _ 0 2 S EV ltac:(lia) ltac:(lia)) as G.
  replace (get (mmul (tr (LII f)) (LII f)) 0 0 - get (mmul (tr (LII f)) (LII f)) 2 2) with (13/16 - 16/25) in G; [unfold tolerance, SMALL; lra|].
  unfold LII, Ub. mat_unfold_goal. lra.
Qed.

Example C39_case : exists eig p t1 t2 f1 f2, pair_after eig false true Ub Vb [] p /\
  fst (twinparam eig false p) = Ok (Some (t1, t2)) /\ fst (volumefrac eig false p) = Ok (Some f1, Some f2) /\
  solvable eig (laminate Ub t1 f1) /\ solvable eig (laminate Ub t1 (1 - f1)) /\
  solvable eig (laminate Ub t2 f2) /\ solvable eig (laminate Ub t2 (1 - f2)).
Proof.
  pose (ata := fun F : mat R => mmul (tr F) F).
  destruct (eig_finite [twin_matrix Ub Vb; ata (LI fI); ata (LI (1 - fI)); ata (LII fII); ata (LII (1 - fII))]) as (eig & EG).
  { intros C HC. apply eig_exists. assert (P1 : forall f, MartSpec.symmetric (ata (LI f))) by (intros f; apply (ata_posdef _ (proj1 (LI_det f)) (proj2 (LI_det f)))).
    assert (P2 : forall f, MartSpec.symmetric (ata (LII f))) by (intros f; apply (ata_posdef _ (proj1 (LII_det f)) (proj2 (LII_det f)))).
    destruct HC as [<-|[<-|[<-|[<-|[<-|[]]]]]]; [apply (twin_posdef _ _ pd_Ub pd_Vb)|exact (P1 _)|exact (P1 _)|exact (P2 _)|exact (P2 _)]. }
  assert (E : is_eig (twin_matrix Ub Vb) (eig (twin_matrix Ub Vb))) by (apply EG; now left).
  destruct (new_pair_ok eig Ub Vb _ _ _ pd_Ub E ev_Ub) as (w0 & w1 & w2 & q & _ & Nq & _). 
  assert (PA : pair_after eig false true Ub Vb [] q) by (exists q; auto).
  destruct (C40_complete eig false true Ub Vb [] q _ _ pd_Ub pd_Vb E variants_Ub distinct_Ub ev_Ub PA) as (l & Al & Ll & _ & _ & AL).
  destruct (ax_after _ _ _ _ _ _ _ _ _ pd_Ub pd_Vb E variants_Ub distinct_Ub ev_Ub PA) as (v0 & v1 & v2 & p0 & N & F & I & U1 & U2 & T & NE & ES & A & Ax).
  assert (p0 = q) by congruence. subst p0.
  assert (HD : exists e l', l = e :: l' /\ In e [[1; 0; 0]; [-1; 0; 0]; [0; 1; 0]; [0; -1; 0]]).
  { destruct (AL _ axisb_1) as (x & k & Hx & Hk & Ex). destruct (AL _ axisb_2) as (y & k' & Hy & Hk' & Ey).
    assert (X : x = vscale k [1; 0; 0]) by (rewrite Ex; unfold vscale; rewrite map_map; rewrite <- (map_id x) at 1; apply map_ext; intros z; destruct Hk as [-> | ->]; ring).
    assert (Y : y = vscale k' [0; 1; 0]) by (rewrite Ey; unfold vscale; rewrite map_map; rewrite <- (map_id y) at 1; apply map_ext; intros z; destruct Hk' as [-> | ->]; ring).
    assert (XY : x <> y) by (intros Q; rewrite X, Y in Q; unfold vscale in Q; cbn [map] in Q; injection Q; destruct Hk as [-> | ->]; lra).
    assert (IX : In x [[1; 0; 0]; [-1; 0; 0]; [0; 1; 0]; [0; -1; 0]]).
    { rewrite X. destruct Hk as [-> | ->]; [left|right; left]; unfold vscale; cbn [map]; apply list3_eq; ring. }
    assert (IY : In y [[1; 0; 0]; [-1; 0; 0]; [0; 1; 0]; [0; -1; 0]]).
    { rewrite Y. destruct Hk' as [-> | ->]; [right; right; left|right; right; right; left]; unfold vscale; cbn [map]; apply list3_eq; ring. }
    destruct l as [|a [|b [|c l]]]; [easy| | |cbn in Ll; lia].
    - destruct Hx as [<-|[]], Hy as [<-|[]]. now elim XY.
    - exists a, [b]. split; [reflexivity|]. destruct Hx as [<-|[<-|[]]]; [exact IX|]. destruct Hy as [<-|[<-|[]]]; [exact IY|now elim XY]. }
  destruct HD as (e & l' & -> & He). rewrite Ax in Al. injection Al as Al. rewrite Al in A.
  pose proof (param_first eig Ub Vb q T (proj2 (proj2 (proj2 (proj2 F)))) U1 U2 _ _ A) as P. cbn [solvetwin] in P.
  destruct (monob_axes e He) as (t1 & t2 & St & K). rewrite St in P.
  assert (VF : forall f1 f2, solve_f Ub (twin_a t1) (twin_n t1) = Ok (Some f1) -> solve_f Ub (twin_a t2) (twin_n t2) = Ok (Some f2) ->
    fst (volumefrac eig false q) = Ok (Some f1, Some f2)).
  { intros f1 f2 H1 H2. unfold volumefrac, bindS at 1, some_param, bindS at 1.
    destruct (twinparam eig false q) as [r p'] eqn:TP. cbn [fst] in P. subst r. cbn [ret fst]. unfold ret, bindS, lift. cbn [fst snd]. rewrite U1, H1, H2. reflexivity. }
  assert (I1 : forall f, f = fI \/ f = 1 - fI -> solvable eig (LI f)) by (intros f [-> | ->]; apply LI_solvable, EG; [right; left|right; right; left]; reflexivity).
  assert (I2 : forall f, f = fII \/ f = 1 - fII -> solvable eig (LII f)) by (intros f [-> | ->]; apply LII_solvable, EG; [do 3 right; left|do 4 right; left]; reflexivity).
  exists eig, q, t1, t2. destruct K as [(K1 & K2)|(K1 & K2)].
  - exists fI, fII. rewrite !(LI_same t1), !(LII_same t2) by assumption. split; [exact PA|]. split; [exact P|]. split; [apply VF; [now apply solve_typeI|now apply solve_typeII]|]. split; [apply I1; now left|]. split; [apply I1; now right|]. split; [apply I2; now left|apply I2; now right].
  - exists fII, fI. rewrite !(LI_same t2), !(LII_same t1) by assumption. split; [exact PA|]. split; [exact P|]. split; [apply VF; [now apply solve_typeII|now apply solve_typeI]|]. split; [apply I2; now left|]. split; [apply I2; now right|]. split; [apply I1; now left|apply I1; now right].
Qed.
