(** Property C97: what habitplanes returns are habit planes. *)
From Verif Require Import PropTwin PropTwin2 PropTwin3 TwinMono TwinMono2 TwinMono3 RankOneConn PropRankOne PropTwin5.
Local Open Scope R_scope.

(** h = (R, b, m) is a habit plane of the deformation gradient F: m is a unit vector, (I + m (x) b)(I + b (x) m) = F^T F, and R is
    the rotation with R S = I + b (x) m for the stretch S of F *)
Definition habit_plane (F : mat R) (h : twin) : Prop :=
  solves (mmul (tr F) F) (twin_a h) (twin_n h) /\ rotation_part (mmul (tr F) F) (twin_Q h) (twin_a h) (twin_n h).
(** x and y are habit planes of F, and there are no others up to the sign of (b, m) *)
Definition both_planes (F : mat R) (x y : twin) : Prop :=
  habit_plane F x /\ habit_plane F y /\ only_solutions (mmul (tr F) F) (twin_a x) (twin_n x) (twin_a y) (twin_n y).
(** F is invertible, the middle eigenvalue of F^T F is one, the outer ones differ by more than the solver's tolerance, and
    the eigensolver is right about F^T F *)
Definition undistorted (eig : mat R -> list R * mat R) (F : mat R) : Prop :=
  wf 3 3 F /\ det F <> 0 /\ is_eig (mmul (tr F) F) (eig (mmul (tr F) F)) /\
  exists l1 l3, eigenvalues (mmul (tr F) F) l1 1 l3 /\ tolerance * tolerance <= l3 - l1.

Lemma undistorted_solvable eig F : undistorted eig F -> solvable eig F.
Proof. intros (W & D & E & l1 & l3 & V & S). split; [exact W|]. split; [exact D|]. split; [exact E|]. now exists l1, 1, l3. Qed.
Lemma solve_both eig F : undistorted eig F -> exists x y, solve_am eig (mmul (tr F) F) = Ok (Some (x, y)) /\ both_planes F x y.
Proof.
  intros (W & D & E & l1 & l3 & V & S). pose proof (ata_posdef F W D) as P. pose proof (posdef_eig _ _ _ _ P V) as L.
  destruct (C30_twin_solver_partial eig _ l1 l3 (proj1 P) V L S E) as (R1 & b1 & m1 & R2 & b2 & m2 & A & S1 & Q1 & S2 & Q2 & O & _).
  exists (R1, b1, m1), (R2, b2, m2). split; [exact A|]. split; [split; [exact S1|exact Q1]|]. split; [split; [exact S2|exact Q2]|exact O].
Qed.
Lemma habit_both eig U t f : undistorted eig (laminate U t f) -> undistorted eig (laminate U t (1 - f)) ->
  exists x y z w, habit eig U t (Some f) = Ok [x; y; z; w] /\ both_planes (laminate U t f) x y /\ both_planes (laminate U t (1 - f)) z w.
Proof.
  intros H0 H1. unfold habit. fold (laminate U t f). fold (laminate U t (1 - f)).
  destruct (solve_both eig _ H0) as (x & y & -> & B0). destruct (solve_both eig _ H1) as (z & w & -> & B1). cbn [bind app]. eauto 8.
Qed.
(** the answer in terms of the loop's body *)
Lemma habitplanes_eq eig npnew skip U V h p t t1 t2 f1 f2 k1 k2 : pair_after eig npnew skip U V h p ->
  fst (twinparam eig npnew p) = Ok (Some (t1, t2)) -> fst (volumefrac eig npnew p) = Ok (Some f1, Some f2) -> t <> TOther ->
  habit eig U t1 (Some f1) = Ok k1 -> habit eig U t2 (Some f2) = Ok k2 -> fst (habitplanes eig npnew t p) = Ok (k1 ++ k2).
Proof.
  intros PA TP VF NT H1 H2.
  assert (ST : exists p0, fresh p0 /\ Inv eig npnew p0 p /\ p_Ui p0 = U).
  { destruct PA as (p0 & N0 & ->). destruct (new_fresh eig skip U V p0 N0) as (F & E & _). exists p0. split; [exact F|]. split; [|exact E]. apply run_keeps; auto. now apply Inv_refl. }
  destruct ST as (p0 & F & I & EU). pose proof (volume_stable eig npnew p0 F) as VS. pose proof (some_param_stable eig npnew p0 F) as SS.
  assert (V0 : fst (volumefrac eig npnew p0) = Ok (Some f1, Some f2)) by (rewrite <- VF; symmetry; now apply VS).
  assert (P0 : fst (some_param eig npnew p0) = Ok (t1, t2)).
  { rewrite <- (proj1 (SS p I)). unfold some_param, bindS. destruct (twinparam eig npnew p) as [r p']. cbn [fst] in TP. now subst r. }
  assert (C : fst (bindS (iscompatible eig npnew TC) (fun c => if negb c then lift (Raise AttributeError) else
      bindS (some_param eig npnew) (fun tpar => bindS (volumefrac eig npnew) (fun fs => fun p => (let* h0 := habit eig (p_Ui p) (fst tpar) (fst fs) in
                let* h1 := habit eig (p_Ui p) (snd tpar) (snd fs) in Ok (h0 ++ h1), p)))) p) = Ok (k1 ++ k2)); [|destruct t; auto; now elim NT].
  unfold bindS at 1. pose proof (compatible_stable eig npnew p0 F TC p I) as (Q & I1).
  assert (CT : fst (iscompatible eig npnew TC p) = Ok true).
  { unfold iscompatible, bindS. pose proof (VS p I) as (E1 & I2). destruct (volumefrac eig npnew p) as [r p']. cbn [fst] in VF. now subst r. }
  clear Q. destruct (iscompatible eig npnew TC p) as [r p1]. cbn [fst snd] in *. subst r. cbn [negb]. unfold bindS at 1.
  destruct (SS p1 I1) as (Q1 & I2). destruct (some_param eig npnew p1) as [r p2]. cbn [fst snd] in *. rewrite P0 in Q1. subst r. unfold bindS.
  destruct (VS p2 I2) as (Q2 & I3). destruct (volumefrac eig npnew p2) as [r p3]. cbn [fst snd] in *. rewrite V0 in Q2. subst r. cbn beta iota delta [fst snd].
  replace (p_Ui p3) with U by (destruct I3; congruence). cbn beta iota. rewrite H1. cbn [bind]. now rewrite H2.
Qed.

(** ** C97 *)
(** If both volume fractions exist and the stretch of each of the four laminates has middle eigenvalue one, then, whatever was
    called before and for each twin type asked for, habitplanes returns the two habit planes of the laminate with fraction f of the
    first twin, the two of the laminate with fraction 1 - f, and those of the second twin, in this order. *)
Theorem C97_planes_partial : forall eig npnew skip U V h p t t1 t2 f1 f2, pair_after eig npnew skip U V h p ->
  fst (twinparam eig npnew p) = Ok (Some (t1, t2)) -> fst (volumefrac eig npnew p) = Ok (Some f1, Some f2) -> t <> TOther ->
  undistorted eig (laminate U t1 f1) -> undistorted eig (laminate U t1 (1 - f1)) ->
  undistorted eig (laminate U t2 f2) -> undistorted eig (laminate U t2 (1 - f2)) ->
  exists h0 h1 h2 h3 h4 h5 h6 h7, fst (habitplanes eig npnew t p) = Ok [h0; h1; h2; h3; h4; h5; h6; h7] /\
    both_planes (laminate U t1 f1) h0 h1 /\ both_planes (laminate U t1 (1 - f1)) h2 h3 /\
    both_planes (laminate U t2 f2) h4 h5 /\ both_planes (laminate U t2 (1 - f2)) h6 h7.
Proof.
  intros eig npnew skip U V h p t t1 t2 f1 f2 PA TP VF NT S1 S2 S3 S4.
  destruct (habit_both eig U t1 f1 S1 S2) as (h0 & h1 & h2 & h3 & H1 & B1 & B2).
  destruct (habit_both eig U t2 f2 S3 S4) as (h4 & h5 & h6 & h7 & H2 & B3 & B4).
  exists h0, h1, h2, h3, h4, h5, h6, h7. split; [|auto].
  rewrite (habitplanes_eq eig npnew skip U V h p t t1 t2 f1 f2 _ _ PA TP VF NT H1 H2). reflexivity.
Qed.
Print Assumptions C97_planes_partial.

Lemma spectrum C l1 l2 l3 : MartSpec.symmetric C -> eigenvalues C l1 l2 l3 ->
  det C = l1 * l2 * l3 /\ trace C = l1 + l2 + l3 /\ det (msub C (eye 3)) = (l1 - 1) * (l2 - 1) * (l3 - 1).
Proof.
  intros [WC TC] EV. destruct (spectral_theorem 3 C (or_intror eq_refl) WC TC) as (lam & Q & O & E).
  destruct EV as (_ & V & EV). pose proof (eigen_perm 3 _ _ _ _ _ (or_intror eq_refl) E EV) as P.
  destruct E as (_ & WQ & LL & _ & CE). pose proof (orth_l 3 Q (or_intror eq_refl) O) as OL. destruct O as [_ OR].
  assert (WT : wf 3 3 (tr Q)) by (apply wf_tr'; [lia|exact WQ]). assert (d : dim23 3) by now right.
  assert (CF : C = mmul (mmul Q (diag lam)) (tr Q)).
  { rewrite <- CE. rewrite (mmul_assoc 3 3 3 3) by (auto; lia). rewrite OR, (mmul_eye_r 3 3); auto. }
  assert (DQ : det Q * det (tr Q) = 1) by (rewrite <- (det_mmul 3) by auto; rewrite OR; apply (det_eye 3 d)).
  assert (CI : msub C (eye 3) = mmul (mmul Q (diag (map (fun x => x - 1) lam))) (tr Q)).
  { rewrite CF, <- OR. clear - WQ LL. apply len3_inv in LL. destruct LL as (x & y & z & ->).
    apply wf3_inv in WQ. destruct WQ as (a & b & c & dd & e & f & g & h & k & ->). cbn [map]. mat_eq ltac:(ring). }
  assert (GD : forall l, length l = 3%nat -> det (mmul (mmul Q (diag l)) (tr Q)) = det (diag l)).
  { intros l Hl. assert (Wd : wf 3 3 (diag l)) by (now apply wf_diag). rewrite !(det_mmul 3) by (auto; apply (wf_mmul 3 3 3); auto; lia).
    transitivity (det Q * det (tr Q) * det (diag l)); [ring|]. rewrite DQ. ring. }
  assert (TR : trace C = fold_right Rplus 0 lam).
  { rewrite CF. clear - OL LL WQ. apply len3_inv in LL. destruct LL as (x & y & z & ->).
    apply wf3_inv in WQ. destruct WQ as (a & b & c & dd & e & f & g & h & k & ->).
    cbv [mmul tr mk nrows ncols length seq map sumn get nth eye Nat.eqb zero one add mul R_ops M3] in OL.
    injection OL as O1 _ _ _ O2 _ _ _ O3. cbn [fold_right].
    transitivity (x * (0 + a * a + dd * dd + g * g) + y * (0 + b * b + e * e + h * h) + z * (0 + c * c + f * f + k * k)).
    - unfold trace. mat_unfold_goal. ring.
    - rewrite O1, O2, O3. ring. }
  rewrite TR, CI, GD by (now rewrite map_length). rewrite CF, GD by exact LL.
  assert (PS : fold_right Rplus 0 lam = fold_right Rplus 0 [l1; l2; l3]).
  { clear - P. induction P; cbn [fold_right]; try lra. }
  assert (PM : forall k, fold_right Rmult 1 (map (fun x => x - k) lam) = fold_right Rmult 1 (map (fun x => x - k) [l1; l2; l3])).
  { intros k. clear - P. induction P; cbn [fold_right map]; [reflexivity|now rewrite IHP|ring|congruence]. }
  pose proof (PM 0) as P0. pose proof (PM 1) as P1. clear - LL PS P0 P1. apply len3_inv in LL. destruct LL as (x & y & z & ->).
  cbn [fold_right map] in *. rewrite PS. repeat split.
  - replace (det (diag [x; y; z])) with ((x - 0) * ((y - 0) * ((z - 0) * 1))) by (mat_unfold_goal; ring). rewrite P0. ring.
  - ring.
  - replace (det (diag [x - 1; y - 1; z - 1])) with ((x - 1) * ((y - 1) * ((z - 1) * 1))) by (mat_unfold_goal; ring). rewrite P1. ring.
Qed.

(** The middle eigenvalue of a positive definite C is one exactly if det (C - I) = 0 and tr C >= det C + 2. *)
Theorem C97_condition : forall C, positive_definite C ->
  ((exists l1 l3, eigenvalues C l1 1 l3) <-> det (msub C (eye 3)) = 0 /\ det C + 2 <= trace C).
Proof.
  intros C PC. split.
  - intros (l1 & l3 & EV). destruct (spectrum C l1 1 l3 (proj1 PC) EV) as (-> & -> & ->). destruct EV as [[A B] _]. split; [ring|nra].
  - intros (D & T). destruct (eigenvalues_exist C (proj1 PC)) as (l1 & l2 & l3 & EV). destruct (spectrum C l1 l2 l3 (proj1 PC) EV) as (E1 & E2 & E3).
    rewrite E3 in D. rewrite E1, E2 in T. assert (O : l1 <= l2 <= l3) by (destruct EV; lra).
    assert (M : l2 = 1); [|subst l2; eauto]. apply Rmult_integral in D. destruct D as [D|D]; [apply Rmult_integral in D; destruct D as [D|D]|].
    + assert (l1 = 1) by lra. subst l1. destruct (Req_dec l2 1) as [|N]; [auto|nra].
    + lra.
    + assert (l3 = 1) by lra. subst l3. destruct (Req_dec l2 1) as [|N]; [auto|nra].
Qed.
Print Assumptions C97_condition.

(** ** The two pairs *)
Lemma pair_case U V eig : positive_definite U -> positive_definite V -> variants U V -> distinct U V -> eigenvalues (twin_matrix U V) (1/9) 1 9 ->
  half_turn_axis U V [1; 0; 0] -> half_turn_axis U V [0; 1; 0] ->
  (forall e, In e [[1; 0; 0]; [-1; 0; 0]; [0; 1; 0]; [0; -1; 0]] -> exists t1 t2, solvetwin_axis U e = Ok (Some (t1, t2)) /\
    ((typeI (twin_a t1) (twin_n t1) /\ typeII (twin_a t2) (twin_n t2)) \/ (typeII (twin_a t1) (twin_n t1) /\ typeI (twin_a t2) (twin_n t2)))) ->
  (forall a n, typeI a n -> solve_f U a n = Ok (Some fI)) -> (forall a n, typeII a n -> solve_f U a n = Ok (Some fII)) ->
  is_eig (twin_matrix U V) (eig (twin_matrix U V)) ->
  exists q t1 t2 f1 f2, pair_after eig false true U V [] q /\ fst (twinparam eig false q) = Ok (Some (t1, t2)) /\
    fst (volumefrac eig false q) = Ok (Some f1, Some f2) /\
    ((typeI (twin_a t1) (twin_n t1) /\ f1 = fI /\ typeII (twin_a t2) (twin_n t2) /\ f2 = fII) \/
     (typeII (twin_a t1) (twin_n t1) /\ f1 = fII /\ typeI (twin_a t2) (twin_n t2) /\ f2 = fI)).
Proof.
  intros PU PV VR DI EV X1 X2 AXS SI SII E.
  destruct (new_pair_ok eig U V _ _ _ PU E EV) as (w0 & w1 & w2 & q & _ & Nq & _).
  assert (PA : pair_after eig false true U V [] q) by (exists q; auto).
  destruct (C40_complete eig false true U V [] q _ _ PU PV E VR DI EV PA) as (l & Al & Ll & _ & _ & AL).
  destruct (ax_after _ _ _ _ _ _ _ _ _ PU PV E VR DI EV PA) as (v0 & v1 & v2 & p0 & N & F & I & U1 & U2 & T & NE & ES & A & Ax).
  assert (p0 = q) by congruence. subst p0.
  assert (HD : exists e l', l = e :: l' /\ In e [[1; 0; 0]; [-1; 0; 0]; [0; 1; 0]; [0; -1; 0]]).
  { destruct (AL _ X1) as (x & k & Hx & Hk & Ex). destruct (AL _ X2) as (y & k' & Hy & Hk' & Ey).
    assert (X : x = vscale k [1; 0; 0]) by (rewrite Ex; unfold vscale; rewrite map_map; rewrite <- (map_id x) at 1; apply map_ext; intros z; destruct Hk as [-> | ->]; ring).
    assert (Y : y = vscale k' [0; 1; 0]) by (rewrite Ey; unfold vscale; rewrite map_map; rewrite <- (map_id y) at 1; apply map_ext; intros z; destruct Hk' as [-> | ->]; ring).
    assert (XY : x <> y) by (intros Q; rewrite X, Y in Q; unfold vscale in Q; cbn [map] in Q; injection Q; destruct Hk as [-> | ->]; lra).
    assert (IX : In x [[1; 0; 0]; [-1; 0; 0]; [0; 1; 0]; [0; -1; 0]]).
    { rewrite X. destruct Hk as [-> | ->]; [left|right; left]; unfold vscale; cbn [map]; apply list3_eq; ring. }
    assert (IY : In y [[1; 0; 0]; [-1; 0; 0]; [0; 1; 0]; [0; -1; 0]]).
    { rewrite Y. destruct Hk' as [-> | ->]; [right; right; left|right; right; right; left]; unfold vscale; cbn [map]; apply list3_eq; ring. }
    destruct l as [|a [|b [|c l]]]; [easy| | |cbn in Ll; lia].
    - destruct Hx as [<-|[]], Hy as [<-|[]]. now elim XY.
    - exists a, [b]. split; [reflexivity|]. destruct Hx as [<-|[<-|[]]]; [exact IX|]. destruct Hy as [<-|[<-|[]]]; [exact IY|now elim XY]. }
  destruct HD as (e & l' & -> & He). rewrite Ax in Al. injection Al as Al. rewrite Al in A.
  pose proof (param_first eig U V q T (proj2 (proj2 (proj2 (proj2 F)))) U1 U2 _ _ A) as P. cbn [solvetwin] in P.
  destruct (AXS e He) as (t1 & t2 & St & K). rewrite St in P.
  assert (VF : forall f1 f2, solve_f U (twin_a t1) (twin_n t1) = Ok (Some f1) -> solve_f U (twin_a t2) (twin_n t2) = Ok (Some f2) ->
    fst (volumefrac eig false q) = Ok (Some f1, Some f2)).
  { intros f1 f2 H1 H2. unfold volumefrac, bindS at 1, some_param, bindS at 1.
    destruct (twinparam eig false q) as [r p'] eqn:TP. cbn [fst] in P. subst r. cbn [ret fst]. unfold ret, bindS, lift. cbn [fst snd]. rewrite U1, H1, H2. reflexivity. }
  exists q, t1, t2. destruct K as [(K1 & K2)|(K1 & K2)].
  - exists fI, fII. split; [exact PA|]. split; [exact P|]. split; [apply VF; auto|left; auto].
  - exists fII, fI. split; [exact PA|]. split; [exact P|]. split; [apply VF; auto|right; auto].
Qed.

(** the laminates, with third diagonal entry c *)
Definition Uc (c : R) : mat R := [[17/20; 3/10; 0]; [3/10; 9/20; 0]; [0; 0; c]].
Definition KI (c f : R) : mat R := madd (Uc c) (mscale f (outer [-4/5; -6/5; 0] [1; 0; 0])).
Definition KII (c f : R) : mat R := madd (Uc c) (mscale f (outer [102/125; 36/125; 0] [0; -1; 0])).
Lemma KI_same c t f : typeI (twin_a t) (twin_n t) -> laminate (Uc c) t f = KI c f.
Proof. unfold laminate, KI. intros [(-> & ->)|(-> & ->)]; [reflexivity|]. unfold Uc. mat_eq ltac:(lra). Qed.
Lemma KII_same c t f : typeII (twin_a t) (twin_n t) -> laminate (Uc c) t f = KII c f.
Proof. unfold laminate, KII. intros [(-> & ->)|(-> & ->)]; [reflexivity|]. unfold Uc. mat_eq ltac:(lra). Qed.
Definition ata (F : mat R) : mat R := mmul (tr F) F.
(** a laminate of the right fraction: F^T F has the eigenvalues 1, (117/400)^2 and c^2 *)
Definition fits (c : R) (F : mat R) : Prop :=
  wf 3 3 F /\ det F = 117/400 * c /\ det (msub (ata F) (eye 3)) = 0 /\ trace (ata F) = 1 + 117/400 * (117/400) + c * c /\
  get (ata F) 2 2 = c * c.
Lemma fI_sq : (fI - 1/2) * (fI - 1/2) = 80089/332800.
Proof. unfold fI. replace (1/2 + sqrt (80089/332800) - 1/2) with (sqrt (80089/332800)) by ring. apply sqrt_sqrt. lra. Qed.
Lemma fII_sq : (fII - 1/2) * (fII - 1/2) = 8947/39936.
Proof. unfold fII. replace (1/2 + sqrt (8947/39936) - 1/2) with (sqrt (8947/39936)) by ring. apply sqrt_sqrt. lra. Qed.
Lemma KI_fits c f : f = fI \/ f = 1 - fI -> fits c (KI c f).
Proof.
  intros H. assert (S : (f - 1/2) * (f - 1/2) = 80089/332800) by (pose proof fI_sq; destruct H as [-> | ->]; lra). clear H.
  assert (S2 : f * f = f - 1/4 + 80089/332800) by lra.
  split; [now apply wfb_spec|]. unfold ata, KI, Uc, trace.
  split; [mat_unfold_goal; lra|]. split; [|split; [|mat_unfold_goal; ring]].
  - mat_unfold_goal. ring_simplify. nra.
  - mat_unfold_goal. ring_simplify. nra.
Qed.
Lemma KII_fits c f : f = fII \/ f = 1 - fII -> fits c (KII c f).
Proof.
  intros H. assert (S : (f - 1/2) * (f - 1/2) = 8947/39936) by (pose proof fII_sq; destruct H as [-> | ->]; lra). clear H.
  assert (S2 : f * f = f - 1/4 + 8947/39936) by lra.
  split; [now apply wfb_spec|]. unfold ata, KII, Uc, trace.
  split; [mat_unfold_goal; lra|]. split; [|split; [|mat_unfold_goal; ring]].
  - mat_unfold_goal. ring_simplify. nra.
  - mat_unfold_goal. ring_simplify. nra.
Qed.
Lemma fits_det c F : fits c F -> det (ata F) = 117/400 * c * (117/400 * c).
Proof.
  intros (W & D & _). unfold ata. assert (d : dim23 3) by now right. rewrite (det_mmul 3) by (auto; apply wf_tr'; auto; lia).
  now rewrite (det_tr 3), D by auto.
Qed.
(** c = 5/4: the middle eigenvalue is one *)
Lemma fits_undistorted eig F : fits (5/4) F -> is_eig (ata F) (eig (ata F)) -> undistorted eig F.
Proof.
  intros H E. pose proof (fits_det _ _ H) as DC. destruct H as (W & D & G & T & G2). assert (N : det F <> 0) by (rewrite D; lra).
  split; [exact W|]. split; [exact N|]. split; [exact E|]. pose proof (ata_posdef F W N) as P. fold (ata F) in *.
  destruct (proj2 (C97_condition _ P)) as (l1 & l3 & EV); [split; [exact G|rewrite DC, T; lra]|]. exists l1, l3. split; [exact EV|].
  destruct (spectrum _ _ _ _ (proj1 P) EV) as (E1 & E2 & _). rewrite DC in E1. rewrite T in E2. destruct EV as [[A B] _]. unfold tolerance, SMALL. nra.
Qed.
(** c = 4/5: one is the largest eigenvalue *)
Lemma fits_none F b m : fits (4/5) F -> ~ rank_one_solution (ata F) b m.
Proof.
  intros H (Lb & Lm & _ & E). pose proof (fits_det _ _ H) as DC. destruct H as (W & D & G & T & G2). assert (N : det F <> 0) by (rewrite D; lra).
  pose proof (ata_posdef F W N) as P. fold (ata F) in *. destruct (eigenvalues_exist _ (proj1 P)) as (l1 & l2 & l3 & EV).
  pose proof (middle_one _ _ _ _ _ _ Lb Lm E (proj1 P) EV) as ->. destruct (proj1 (C97_condition _ P)) as (_ & K); [eauto|]. rewrite DC, T in K. lra.
Qed.

Lemma four_eig c (U V : mat R) : positive_definite U -> positive_definite V -> 0 < c -> exists eig, is_eig (twin_matrix U V) (eig (twin_matrix U V)) /\
  forall F, In F [KI c fI; KI c (1 - fI); KII c fII; KII c (1 - fII)] -> fits c F /\ is_eig (ata F) (eig (ata F)).
Proof.
  intros PU PV Hc. assert (FF : forall F, In F [KI c fI; KI c (1 - fI); KII c fII; KII c (1 - fII)] -> fits c F).
  { intros F [<-|[<-|[<-|[<-|[]]]]]; [apply KI_fits|apply KI_fits|apply KII_fits|apply KII_fits]; auto. }
  destruct (eig_finite (twin_matrix U V :: map ata [KI c fI; KI c (1 - fI); KII c fII; KII c (1 - fII)])) as (eig & EG).
  { intros C [<-|HC]; apply eig_exists; [apply (twin_posdef _ _ PU PV)|]. apply in_map_iff in HC. destruct HC as (F & <- & HF).
    destruct (FF F HF) as (W & D & _). apply (ata_posdef F W). rewrite D. nra. }
  exists eig. split; [apply EG; now left|]. intros F HF. split; [now apply FF|]. apply EG. right. now apply in_map.
Qed.

(** The hypotheses of the theorem are met *)
Example C97_case : exists eig p t1 t2 f1 f2, pair_after eig false true Ud Vd [] p /\
  fst (twinparam eig false p) = Ok (Some (t1, t2)) /\ fst (volumefrac eig false p) = Ok (Some f1, Some f2) /\
  undistorted eig (laminate Ud t1 f1) /\ undistorted eig (laminate Ud t1 (1 - f1)) /\
  undistorted eig (laminate Ud t2 f2) /\ undistorted eig (laminate Ud t2 (1 - f2)).
Proof.
  destruct (four_eig (5/4) Ud Vd pd_Ud pd_Vd ltac:(lra)) as (eig & E & FF).
  destruct (pair_case Ud Vd eig pd_Ud pd_Vd variants_Ud distinct_Ud ev_Ud axisd_1 axisd_2 monod_axes solved_typeI solved_typeII E) as (q & t1 & t2 & f1 & f2 & PA & P & VF & K).
  exists eig, q, t1, t2, f1, f2. split; [exact PA|]. split; [exact P|]. split; [exact VF|]. change Ud with (Uc (5/4)).
  assert (G : forall F, In F [KI (5/4) fI; KI (5/4) (1 - fI); KII (5/4) fII; KII (5/4) (1 - fII)] -> undistorted eig F).
  { intros F HF. destruct (FF F HF). now apply fits_undistorted. }
  destruct K as [(K1 & -> & K2 & ->)|(K1 & -> & K2 & ->)].
  - rewrite !(KI_same _ t1), !(KII_same _ t2) by assumption. repeat split; apply G; cbn [In]; auto.
  - rewrite !(KI_same _ t2), !(KII_same _ t1) by assumption. repeat split; apply G; cbn [In]; auto.
Qed.

(** In general the planes are not habit planes: the volume fraction is only checked to make one an eigenvalue of F^T F.  For the pair
    Ub, Vb it is the largest one, no habit plane exists, and habitplanes returns eight all the same. *)
Theorem C97_refuted : exists eig U V p t1 t2 f1 f2 l,
  positive_definite U /\ positive_definite V /\ variants U V /\ isvariant U V = Ok true /\
  pair_after eig false true U V [] p /\ is_eig (twin_matrix U V) (eig (twin_matrix U V)) /\
  fst (twinparam eig false p) = Ok (Some (t1, t2)) /\ fst (volumefrac eig false p) = Ok (Some f1, Some f2) /\
  fst (iscompatible eig false TC p) = Ok true /\ fst (habitplanes eig false TC p) = Ok l /\ length l = 8%nat /\
  forall F, In F [laminate U t1 f1; laminate U t1 (1 - f1); laminate U t2 f2; laminate U t2 (1 - f2)] ->
    is_eig (mmul (tr F) F) (eig (mmul (tr F) F)) /\ forall b m, ~ rank_one_solution (mmul (tr F) F) b m.
Proof.
  destruct (four_eig (4/5) Ub Vb pd_Ub pd_Vb ltac:(lra)) as (eig & E & FF).
  destruct (pair_case Ub Vb eig pd_Ub pd_Vb variants_Ub distinct_Ub ev_Ub axisb_1 axisb_2 monob_axes solve_typeI solve_typeII E) as (q & t1 & t2 & f1 & f2 & PA & P & VF & K).
  assert (L4 : forall F, In F [laminate Ub t1 f1; laminate Ub t1 (1 - f1); laminate Ub t2 f2; laminate Ub t2 (1 - f2)] ->
    In F [KI (4/5) fI; KI (4/5) (1 - fI); KII (4/5) fII; KII (4/5) (1 - fII)]).
  { change Ub with (Uc (4/5)). destruct K as [(K1 & -> & K2 & ->)|(K1 & -> & K2 & ->)].
    - rewrite !(KI_same _ t1), !(KII_same _ t2) by assumption. auto.
    - rewrite !(KI_same _ t2), !(KII_same _ t1) by assumption. cbn [In]. tauto. }
  assert (SO : forall F, In F [KI (4/5) fI; KI (4/5) (1 - fI); KII (4/5) fII; KII (4/5) (1 - fII)] -> solvable eig F).
  { intros F HF. destruct (FF F HF) as (_ & EF). cbn [In] in HF. change (KI (4/5)) with LI in HF. change (KII (4/5)) with LII in HF.
    destruct HF as [<-|[<-|[<-|[<-|[]]]]]; [apply LI_solvable|apply LI_solvable|apply LII_solvable|apply LII_solvable]; exact EF. }
  destruct (C39_both_partial eig false true Ub Vb [] q TC t1 t2 f1 f2 PA P VF) as (l & HL & L8);
    [discriminate|apply SO, L4; cbn [In]; auto..|].
  exists eig, Ub, Vb, q, t1, t2, f1, f2, l. split; [exact pd_Ub|]. split; [exact pd_Vb|]. split; [exact variants_Ub|]. split; [exact Ub_isvariant|].
  split; [exact PA|]. split; [exact E|]. split; [exact P|]. split; [exact VF|].
  split; [unfold iscompatible, bindS; destruct (volumefrac eig false q) as [r p']; cbn [fst] in VF; now subst r|].
  split; [exact HL|]. split; [exact L8|]. intros F HF. apply L4 in HF. destruct (FF F HF) as (FT & EF). split; [exact EF|]. intros b m. now apply fits_none.
Qed.
Print Assumptions C97_refuted.
