(** Properties C36 - C38 and C40: twin parameters, volume fractions, two-fold axes. *)
From Verif Require Import PropTwin.
From Verif Require Export TwinExamples.
Local Open Scope R_scope.

(** ** C36 *)
Definition twin_Q (t : twin) : mat R := fst (fst t).
(** t is a solution of Q V = U + a (x) n apart from rounding: its a and n are rounded values of an exact solution,
    and its Q satisfies the equation with the rounded values *)
Definition rounded_twin (U V : mat R) (t : twin) : Prop :=
  (exists Q a n, twinning U V Q a n /\ rounded (twin_a t) a /\ rounded (twin_n t) n) /\
  mmul (twin_Q t) V = madd U (outer (twin_a t) (twin_n t)).

Lemma rounded_twin_of U V a n : positive_definite U -> positive_definite V ->
  (exists Q, twinning U V Q a n) -> rounded_twin U V (mmul (madd U (outer (vround a) (vround n))) (minv V), vround a, vround n).
Proof.
  intros PU PV (Q & T). split; [exists Q, a, n; split; [exact T|split; apply vround_rounded]|].
  destruct PV as [[WV TV] PV']. pose proof (posdef_det V (conj (conj WV TV) PV')) as DV. assert (d : dim23 3) by now right.
  assert (W : wf 3 3 (madd U (outer (vround a) (vround n)))) by (apply wf_madd; [lia|apply PU]).
  unfold twin_Q. cbn [fst snd twin_a twin_n]. rewrite (mmul_assoc 3 3 3 3) by (auto using wf_minv; lia). rewrite (minv_l 3), (mmul_eye_r 3 3) by (auto; lra). reflexivity.
Qed.

Theorem C36_solves : forall eig npnew U V0 e t1 t2,
  positive_definite U -> length e = 3%nat -> dot e e = 1 ->
  solvetwin eig npnew U V0 (Some e) = Ok (Some (t1, t2)) ->
  rounded_twin U (rotate (half_turn e) U) t1 /\ rounded_twin U (rotate (half_turn e) U) t2.
Proof.
  intros eig npnew U V0 e t1 t2 PU Le De H. cbn [solvetwin] in H. destruct npnew; [discriminate|].
  destruct (solvetwin_axis_right U e t1 t2 PU Le De H) as (Q1 & a1 & n1 & Q2 & a2 & n2 & T1 & T2 & _ & _ & -> & ->).
  assert (PV : positive_definite (rotate (half_turn e) U)) by (apply rotate_posdef; auto; now apply half_orth).
  split; apply rounded_twin_of; eauto.
Qed.
Print Assumptions C36_solves.

(** They are returned for every genuine variant, when numpy compares an array with None as a whole. *)
Theorem C36_returned : forall eig U V0 e, positive_definite U -> length e = 3%nat -> dot e e = 1 ->
  let V := rotate (half_turn e) U in
  (isvariant U V = Ok true -> V <> U -> exists t1 t2, solvetwin eig false U V0 (Some e) = Ok (Some (t1, t2))) /\
  (isvariant U V = Ok false -> solvetwin eig false U V0 (Some e) = Ok None) /\
  solvetwin eig true U V0 (Some e) = Raise ValueError.
Proof.
  intros eig U V0 e PU Le De V. destruct (solvetwin_axis_ok U e PU Le De) as (H1 & H2 & _). split; [|split; [exact H2|reflexivity]].
  intros I N. destruct (H1 I N) as (Q1 & a1 & n1 & Q2 & a2 & n2 & _ & _ & _ & _ & _ & E). cbn [solvetwin]. eauto.
Qed.
Print Assumptions C36_returned.

(** ** C40 *)
Lemma ax_after eig npnew skip U V h p l1 l3 : positive_definite U -> positive_definite V ->
  is_eig (twin_matrix U V) (eig (twin_matrix U V)) -> variants U V -> distinct U V -> eigenvalues (twin_matrix U V) l1 1 l3 ->
  pair_after eig npnew skip U V h p ->
  exists v0 v1 v2 p0, new_pair eig true U V = Ok p0 /\ fresh p0 /\ Inv eig npnew p0 p /\ p_Ui p0 = U /\ p_Uj p0 = V /\ istwinnable p0 = true /\ U <> V /\
    eigsys (twin_matrix U V) l1 1 l3 v0 v1 v2 /\
    ax p0 = (Ok (map (axis U v0 v2) (loose_signs U l3 v0 v1 v2)), set_ax (map (axis U v0 v2) (loose_signs U l3 v0 v1 v2)) p0) /\
    fst (ax p) = Ok (map (axis U v0 v2) (loose_signs U l3 v0 v1 v2)).
Proof.
  intros PU PV E VR D EV PA.
  destruct (pair_after_facts eig npnew skip U V h p l1 1 l3 PU PV E EV PA) as (v0 & v1 & v2 & p0 & N & Ep & F & I & ES & U1 & U2 & Ee & Ev & Tw).
  assert (NE : U <> V).
  { intros ->. destruct D as (i & j & _ & _ & H). rewrite Rminus_diag_eq, Rabs_R0 in H by reflexivity. unfold tolerance in *; pose proof small_pos; lra. }
  assert (T : istwinnable p0 = true).
  { unfold istwinnable. rewrite U1, U2, Ee. apply twinnable_spec; [apply PU|apply PV|exact EV|]. split; [exact D|]. exists l1, 1, l3. split; [exact EV|].
    rewrite Rminus_diag_eq, Rabs_R0 by reflexivity. lra. }
  assert (A : ax p0 = (Ok (map (axis U v0 v2) (loose_signs U l3 v0 v1 v2)), set_ax (map (axis U v0 v2) (loose_signs U l3 v0 v1 v2)) p0)).
  { unfold ax. rewrite (proj1 (proj2 F)), T, U1, Ev, Ee. cbn [negb]. rewrite (axes_loose U V PU PV VR NE l1 l3 v0 v1 v2 ES). reflexivity. }
  exists v0, v1, v2, p0. repeat (split; [assumption|]). rewrite (proj1 (ax_stable _ _ _ F p I)), A. reflexivity.
Qed.

(** Every half turn that maps U to V is found, and there is at least one. *)
Theorem C40_complete : forall eig npnew skip U V h p l1 l3,
  positive_definite U -> positive_definite V -> is_eig (twin_matrix U V) (eig (twin_matrix U V)) ->
  variants U V -> distinct U V -> eigenvalues (twin_matrix U V) l1 1 l3 -> pair_after eig npnew skip U V h p ->
  exists l, fst (ax p) = Ok l /\ (length l <= 2)%nat /\ (forall e, In e l -> length e = 3%nat /\ dot e e = 1) /\
    (exists e, In e l /\ half_turn_axis U V e) /\
    forall e, half_turn_axis U V e -> exists x k, In x l /\ (k = 1 \/ k = -1) /\ e = vscale k x.
Proof.
  intros eig npnew skip U V h p l1 l3 PU PV E VR D EV PA.
  destruct (ax_after _ _ _ _ _ _ _ _ _ PU PV E VR D EV PA) as (v0 & v1 & v2 & p0 & N & F & I & U1 & U2 & T & NE & ES & A & Ax).
  eexists. split; [exact Ax|]. split; [|split; [|split]].
  - rewrite map_length. unfold loose_signs. cbn [filter]. destruct (Rltb _ _), (Rltb _ _); cbn; lia.
  - intros e H. apply in_map_iff in H as (s & <- & H). assert (Hs : s * s = l3) by (apply filter_In in H; exact (sign_sq U V PU PV VR NE l1 l3 v0 v1 v2 ES s (proj1 H))).
    exact (axes_unit U V PU PV VR NE l1 l3 v0 v1 v2 ES s Hs).
  - pose proof (signs_some U V PU PV VR NE l1 l3 v0 v1 v2 ES) as X. destruct (signs U l3 v0 v1 v2) as [|s ss] eqn:Es; [now elim X|].
    exists (axis U v0 v2 s). assert (Hs : In s (signs U l3 v0 v1 v2)) by (rewrite Es; now left). split.
    + apply in_map. now apply signs_loose.
    + apply (axes_good U V PU PV VR NE l1 l3 v0 v1 v2 ES). now apply in_map.
  - intros e (Le & De & R). destruct (axes_all U V PU PV VR NE l1 l3 v0 v1 v2 ES e Le De R) as (x & k & Hx & Hk & Ex).
    exists x, k. split; [|auto]. apply in_map_iff in Hx as (s & <- & Hs). apply in_map. now apply signs_loose.
Qed.
Print Assumptions C40_complete.

(** Exactly the axes of those half turns, when the coefficient the code compares with 1e-12 is zero or not tiny. *)
Theorem C40_axes_partial : forall eig npnew skip U V h p l1 l3,
  positive_definite U -> positive_definite V -> is_eig (twin_matrix U V) (eig (twin_matrix U V)) ->
  variants U V -> distinct U V -> eigenvalues (twin_matrix U V) l1 1 l3 -> clear_pair U V -> pair_after eig npnew skip U V h p ->
  exists l, fst (ax p) = Ok l /\ (forall e, In e l -> half_turn_axis U V e) /\
    forall e, half_turn_axis U V e -> exists x k, In x l /\ (k = 1 \/ k = -1) /\ e = vscale k x.
Proof.
  intros eig npnew skip U V h p l1 l3 PU PV E VR D EV CL PA.
  destruct (ax_after _ _ _ _ _ _ _ _ _ PU PV E VR D EV PA) as (v0 & v1 & v2 & p0 & N & F & I & U1 & U2 & T & NE & ES & A & Ax).
  rewrite (loose_clear U V PU PV VR NE l1 l3 v0 v1 v2 ES CL) in Ax. eexists. split; [exact Ax|]. split.
  - exact (axes_good U V PU PV VR NE l1 l3 v0 v1 v2 ES).
  - intros e (Le & De & R). exact (axes_all U V PU PV VR NE l1 l3 v0 v1 v2 ES e Le De R).
Qed.
Print Assumptions C40_axes_partial.

Lemma abs_le_inv x y : Rabs x <= y -> - y <= x <= y.
Proof. intros H. unfold Rabs in H. destruct (Rcase_abs x); lra. Qed.
Lemma far_from_u U V x : positive_definite U -> positive_definite V -> mmul V V = mmul (mmul U C4) U -> length x = 3%nat ->
  mvmul U x = [0; 0; 1] -> dot x x <= 2 -> distinct U V.
Proof.
  intros PU PV E Lx Ux Nx. pose proof PU as [SU _]. pose proof PV as [SV _]. pose proof SU as [WU TU]. pose proof SV as [WV TV].
  assert (WC : wf 3 3 C4) by apply pd_C4. assert (WCU : wf 3 3 (mmul C4 U)) by (apply (wf_mmul 3 3 3); auto; lia).
  assert (Lv : length (mvmul V x) = 3%nat) by now apply len_mv3. assert (Lc : length (mvmul C4 (mvmul U x)) = 3%nat) by now apply len_mv3.
  assert (Lu : length (mvmul U x) = 3%nat) by now apply len_mv3.
  assert (N4 : dot (mvmul V x) (mvmul V x) = 4).
  { rewrite <- dot_sym_mv by auto. rewrite <- (mvmul_mmul 3) by (auto; lia). rewrite E.
    rewrite (mmul_assoc 3 3 3 3) by (auto; lia). rewrite (mvmul_mmul 3) by (auto; lia). rewrite (mvmul_mmul 3 C4) by (auto; lia).
    rewrite dot_sym_mv by auto. rewrite Ux. unfold C4. mat_unfold_goal. ring. }
  apply (distinct_spec U V WU WV). destruct (Rltb (max_abs (msub U V)) SMALL) eqn:B; [exfalso|reflexivity].
  assert (WD : wf 3 3 (msub U V)) by (apply wf_msub; auto; lia).
  apply Rltb_spec in B. apply (max_abs_lt _ _ WD small_pos) in B || (pose proof (proj1 (max_abs_lt _ _ WD small_pos) B) as B'; clear B; rename B' into B).
  apply wf3_inv in WU. destruct WU as (u1 & u2 & u3 & u4 & u5 & u6 & u7 & u8 & u9 & ->).
  apply wf3_inv in WV. destruct WV as (w1 & w2 & w3 & w4 & w5 & w6 & w7 & w8 & w9 & ->).
  apply len3_inv in Lx. destruct Lx as (a & b & c & ->). clear - B Ux Nx N4.
  pose proof (B 0 0 ltac:(lia) ltac:(lia))%nat as B1. pose proof (B 0 1 ltac:(lia) ltac:(lia))%nat as B2. pose proof (B 0 2 ltac:(lia) ltac:(lia))%nat as B3.
  pose proof (B 1 0 ltac:(lia) ltac:(lia))%nat as B4. pose proof (B 1 1 ltac:(lia) ltac:(lia))%nat as B5. pose proof (B 1 2 ltac:(lia) ltac:(lia))%nat as B6.
  pose proof (B 2 0 ltac:(lia) ltac:(lia))%nat as B7. pose proof (B 2 1 ltac:(lia) ltac:(lia))%nat as B8. pose proof (B 2 2 ltac:(lia) ltac:(lia))%nat as B9.
  clear B. mat_unfold.
  assert (K : forall u w t, Rabs (u - w) < SMALL -> t * t <= 2 -> - (2 * SMALL) <= w * t - u * t <= 2 * SMALL).
  { intros u w t H1 H2. apply abs_le_inv. replace (w * t - u * t) with (- ((u - w) * t)) by ring. rewrite Rabs_Ropp, Rabs_mult.
    assert (H3 : Rabs t <= 2) by (apply Rabs_le; split; nra). pose proof (Rabs_pos (u - w)). pose proof (Rabs_pos t). nra. }
  assert (Ha : a * a <= 2) by nra. assert (Hb : b * b <= 2) by nra. assert (Hc : c * c <= 2) by nra.
  pose proof (K _ _ _ B1 Ha) as K1. pose proof (K _ _ _ B2 Hb) as K2. pose proof (K _ _ _ B3 Hc) as K3.
  pose proof (K _ _ _ B4 Ha) as K4. pose proof (K _ _ _ B5 Hb) as K5. pose proof (K _ _ _ B6 Hc) as K6.
  pose proof (K _ _ _ B7 Ha) as K7. pose proof (K _ _ _ B8 Hb) as K8. pose proof (K _ _ _ B9 Hc) as K9.
  clear K B1 B2 B3 B4 B5 B6 B7 B8 B9 Ha Hb Hc Nx. injection Ux as X1 X2 X3. unfold tolerance, SMALL in *.
  match type of N4 with context [?p * ?p] => set (p0 := p) in N4 end.
  assert (P0 : - (1/100) <= 0 + w1 * a + w2 * b + w3 * c <= 1/100) by lra.
  assert (P1 : - (1/100) <= 0 + w4 * a + w5 * b + w6 * c <= 1/100) by lra.
  assert (P2 : 99/100 <= 0 + w7 * a + w8 * b + w9 * c <= 101/100) by lra.
  subst p0. set (p := 0 + w1 * a + w2 * b + w3 * c) in *. set (q := 0 + w4 * a + w5 * b + w6 * c) in *. set (r := 0 + w7 * a + w8 * b + w9 * c) in *.
  clearbody p q r. nra.
Qed.
(** the object for a pair with U^-1 V^2 U^-1 = diag(1/4, 1, 4) *)
Lemma pair4 U V : positive_definite U -> positive_definite V -> twin_matrix U V = C4 -> distinct U V ->
  exists p, new_pair eig4 true U V = Ok p /\ p_Ui p = U /\ p_Uj p = V /\ p_e p = [1/4; 1; 4] /\ p_v p = [[1; 0; 0]; [0; 1; 0]; [0; 0; 1]] /\
    fresh p /\ istwinnable p = true.
Proof.
  intros PU PV E D. pose proof PU as [[WU _] _]. pose proof (posdef_det U PU) as DU. unfold new_pair. cbn [negb andb]. rewrite (inv_Ok 3 U (or_intror eq_refl) WU ltac:(lra)). cbn [bind].
  change (mmul (mmul (minv U) V) (mmul V (minv U))) with (twin_matrix U V). rewrite E, sort_eig4. eexists. split; [reflexivity|]. cbn [p_Ui p_Uj p_e p_v].
  repeat (split; [reflexivity|]). split; [repeat split|]. unfold istwinnable. cbn [p_Ui p_Uj p_e]. apply twinnable_spec; [apply PU|apply PV|rewrite E; apply ev_C4|].
  split; [exact D|]. exists (1/4), 1, 4. split; [rewrite E; apply ev_C4|]. rewrite Rminus_diag_eq, Rabs_R0 by reflexivity. lra.
Qed.
Definition eps : R := 1 / 10000000000000.
Definition A40 : mat R := [[4; 2 * eps; 0]; [2 * eps; 1; eps]; [0; eps; 1]].
Lemma pd_A40 : positive_definite A40.
Proof.
  assert (S : MartSpec.symmetric A40) by (split; [now apply wfb_spec|reflexivity]). apply (posdef_minors _ S). unfold A40. rewrite det3.
  cbv [get nth]. unfold eps. lra.
Qed.
Lemma sqrt4 : sqrt 4 = 2. Proof. replace 4 with (2 * 2) by ring. apply sqrt_square. lra. Qed.
Lemma det_square U V : positive_definite U -> positive_definite V -> det (twin_matrix U V) = 1 -> det U = det V.
Proof.
  intros PU PV E. rewrite (twin_det U V PU PV) in E. pose proof (posdef_det U PU). pose proof (posdef_det V PV).
  assert (det V * det V = det U * det U).
  { apply (f_equal (fun x => x * (det U * det U))) in E. replace (det V * det V / (det U * det U) * (det U * det U)) with (det V * det V) in E by (field; lra). lra. }
  nra.
Qed.

Theorem C40_refuted : exists U V p l e, positive_definite U /\ positive_definite V /\ variants U V /\ distinct U V /\
  eigenvalues (twin_matrix U V) (1/4) 1 4 /\ is_eig (twin_matrix U V) (eig4 (twin_matrix U V)) /\
  new_pair eig4 true U V = Ok p /\ fst (ax p) = Ok l /\ In e l /\ rotate (half_turn e) U <> V.
Proof.
  destruct (sqrt_exists A40 pd_A40) as (U & PU & EU). destruct (twin_of U C4 PU pd_C4) as (V & PV & EC & EV). pose proof PU as [SU _]. pose proof SU as [WU TU].
  assert (D : distinct U V).
  { set (y := [2 * eps * eps / (4 - 8 * eps * eps); - (4 * eps) / (4 - 8 * eps * eps); (4 - 4 * eps * eps) / (4 - 8 * eps * eps)]).
    assert (N : 4 - 8 * eps * eps <> 0) by (unfold eps; lra).
    assert (Ay : mvmul A40 y = [0; 0; 1]).
    { unfold A40, y. mat_unfold_goal. repeat (match goal with |- (_ :: _) = (_ :: _) => f_equal end); field; exact N. }
    assert (Ly : length y = 3%nat) by reflexivity.
    apply (far_from_u U V (mvmul U y) PU PV EV).
    - now apply len_mv3.
    - rewrite <- (mvmul_mmul 3) by (auto; lia). now rewrite EU.
    - rewrite <- dot_sym_mv by (auto; now apply len_mv3). rewrite <- (mvmul_mmul 3) by (auto; lia). rewrite EU, Ay. unfold y. mat_unfold_goal.
      apply Rle_trans with (((4 - 4 * eps * eps) / (4 - 8 * eps * eps))); [right; ring|]. apply (Rmult_le_reg_r (4 - 8 * eps * eps)); [unfold eps; lra|].
      unfold Rdiv. rewrite Rmult_assoc, Rinv_l by exact N. unfold eps. lra. }
  assert (DE : det U = det V) by (apply det_square; auto; rewrite EC; unfold C4; mat_unfold_goal; lra).
  assert (TE : trace (mmul U U) = trace (mmul V V)).
  { rewrite EV. transitivity (1/4 * get (mmul U U) 0 0 + get (mmul U U) 1 1 + 4 * get (mmul U U) 2 2).
    - rewrite EU. unfold A40, eps. mat_unfold_goal. lra.
    - clear - SU. destruct (sym3 U SU) as (a & b & c & d & e & f & ->). unfold C4. mat_unfold_goal. field. }
  pose proof eigsys4 as ES. rewrite <- EC in ES. set (v0 := [1; 0; 0]) in *. set (v1 := [0; 1; 0]) in *. set (v2 := [0; 0; 1]) in *.
  assert (LL : 1/4 < 4) by lra.
  assert (B12 : dot v1 (mvmul (mmul U U) v2) = eps) by (rewrite EU; unfold A40, v1, v2; mat_unfold_goal; ring).
  assert (B01 : dot v1 (mvmul (mmul U U) v0) = 2 * eps) by (rewrite EU; unfold A40, v1, v0; mat_unfold_goal; ring).
  assert (H2 : -2 * -2 = 4) by ring. assert (H2' : 2 * 2 = 4) by ring.
  assert (VR : variants U V).
  { destruct (axis_unit U V PU PV _ _ _ _ _ ES LL DE TE (-2) H2) as (La & Na). exists (half_turn (axis U v0 v2 (-2))). split; [now apply half_orth|].
    apply (axis_ok U V PU PV (1/4) 4 v0 v1 v2 ES LL DE TE (-2) H2). rewrite B12, B01. ring. }
  assert (NE : U <> V).
  { intros ->. destruct D as (i & j & _ & _ & H). rewrite Rminus_diag_eq, Rabs_R0 in H by reflexivity. unfold tolerance in *; pose proof small_pos; lra. }
  destruct (pair4 U V PU PV EC D) as (p & N & U1 & U2 & Ee & Ev & F & T).
  exists U, V, p, (map (axis U v0 v2) (loose_signs U 4 v0 v1 v2)), (axis U v0 v2 2).
  split; [exact PU|]. split; [exact PV|]. split; [exact VR|]. split; [exact D|]. split; [rewrite EC; apply ev_C4|]. split; [rewrite EC; apply is_eig4|].
  split; [exact N|]. split; [|split].
  - unfold ax. rewrite (proj1 (proj2 F)), T, U1, Ev, Ee. cbn [negb]. pose proof (axes_loose U V PU PV VR NE (1/4) 4 v0 v1 v2 ES) as X.
    match goal with |- context [axes U ?x ?y] => replace (axes U x y) with (Ok (map (axis U v0 v2) (loose_signs U 4 v0 v1 v2))) by (symmetry; exact X) end. reflexivity.
  - apply in_map. unfold loose_signs. rewrite sqrt4. apply filter_In. split; [now right; left|]. apply Rltb_spec. rewrite B12, B01.
    rewrite Rabs_pos_eq; unfold eps, tolerance, SMALL; lra.
  - intros RV. destruct (axis_unit U V PU PV _ _ _ _ _ ES LL DE TE 2 H2') as (La & Na).
    destruct (axis_complete U V PU PV _ _ _ _ _ ES LL DE TE _ La Na RV) as (s & k & Hs & Z & Hk & Eq). rewrite B12, B01 in Z.
    assert (s = -2) by (unfold eps in Z; lra). subst s. clear Z Hs.
    apply (f_equal (mvmul (minv U))) in Eq. pose proof (axk_pos U V PU PV _ _ _ _ _ ES LL DE TE 2 H2') as P2. pose proof (axk_pos U V PU PV _ _ _ _ _ ES LL DE TE (-2) H2) as Pm.
    assert (Wi : wf 3 3 (minv U)) by (apply wf_minv; auto; now right). assert (DU : det U <> 0) by (pose proof (posdef_det U PU); lra).
    assert (X : forall s, mvmul (minv U) (axis U v0 v2 s) = vscale (/ sqrt (axk U v0 v2 s)) (vadd v0 (vscale s v2))).
    { intros s. unfold axis. assert (L0 : length v0 = 3%nat) by reflexivity. assert (L2 : length v2 = 3%nat) by reflexivity.
      assert (M0 : length (mvmul U v0) = 3%nat) by now apply len_mv3. assert (M2 : length (mvmul U v2) = 3%nat) by now apply len_mv3.
      rewrite mv_vscale by (auto; now rewrite len_vadd). f_equal. rewrite mv_vadd by (auto; now rewrite len_vscale). rewrite mv_vscale by auto. now rewrite !mvmul_inv_l by auto. }
    rewrite mv_vscale in Eq by (auto; apply (axis_unit U V PU PV _ _ _ _ _ ES LL DE TE (-2) H2)). rewrite !X in Eq.
    set (g := / sqrt (axk U v0 v2 2)) in *. assert (Pg : 0 < g) by (apply Rinv_0_lt_compat, sqrt_lt_R0; exact P2). set (g' := / sqrt (axk U v0 v2 (-2))) in *.
    clearbody g g'. unfold vscale, vadd, v0, v2 in Eq. cbv [map mkv seq vget nth length] in Eq. injection Eq as E1 _ E3. lra.
Qed.
Print Assumptions C40_refuted.
Example C40_case : exists eig p l1 l3, positive_definite t1 /\ positive_definite t2 /\ is_eig (twin_matrix t1 t2) (eig (twin_matrix t1 t2)) /\
  variants t1 t2 /\ distinct t1 t2 /\ eigenvalues (twin_matrix t1 t2) l1 1 l3 /\ clear_pair t1 t2 /\ pair_after eig false true t1 t2 [PAx; PTwinparam] p.
Proof.
  destruct (eig_for_pairs [t1; t2]) as (eig & E); [intros X [<-|[<-|[]]]; [apply pd_t1|apply pd_t2]|].
  assert (E1 : is_eig (twin_matrix t1 t2) (eig (twin_matrix t1 t2))) by (apply E; cbn; auto).
  assert (EV : eigenvalues (twin_matrix t1 t2) ((9/10 / (11/10)) * (9/10 / (11/10))) 1 ((11/10 / (9/10)) * (11/10 / (9/10)))).
  { unfold t1, t2. rewrite twin_diag by lra. apply eigenvalues_of_diag; try lra.
    replace (9 / 10 / (9 / 10) * (9 / 10 / (9 / 10))) with 1 by field. eapply perm_trans; [apply perm_skip, perm_swap|]. apply perm_swap. }
  destruct (new_pair_ok eig t1 t2 _ _ _ pd_t1 E1 EV) as (v0 & v1 & v2 & p & _ & Np & _).
  exists eig, (pair_run eig false [PAx; PTwinparam] p), ((9/10 / (11/10)) * (9/10 / (11/10))), ((11/10 / (9/10)) * (11/10 / (9/10))).
  split; [apply pd_t1|]. split; [apply pd_t2|]. split; [exact E1|]. split.
  { exists quarter. split; [|exact quarter_t12]. split; [now apply wfb_spec|]. unfold quarter. mat_eq ltac:(lra). }
  split; [apply t12_distinct|]. split; [exact EV|]. split; [|exists p; auto].
  intros l w0 w1 Hl L0 L1 _ _ H0 H1. left. unfold t1, t2 in *. rewrite twin_diag in H0, H1 by lra. v3 L0. v3 L1. unfold vscale in H0. mat_unfold.
  injection H0 as A1 A2 A3. injection H1 as B1 B2 B3.
  assert (x3 = 0) by lra. assert (x4 = 0) by lra. assert (x = 0) by nra. subst. ring.
Qed.
