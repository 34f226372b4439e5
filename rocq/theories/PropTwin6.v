(** Properties C86 - C89: how a pair is classified, its X_I and X_II, the constructor, pairs without an answer; and what iscompatible answers (C39). *)
From Verif Require Import LinAlg GroupSpec GroupModel GroupProofs PropMart PropTwin PropTwin2 PropTwin3 TwinMono RankOneConn PropRankOne.
Local Open Scope R_scope.

(** ** C86 *)
Definition parallel (e e' : vec R) : Prop := e' = e \/ e' = vscale (-1) e.

Lemma half_turn_even e : length e = 3%nat -> half_turn (vscale (-1) e) = half_turn e.
Proof.
  intros L. v3 L. unfold vscale, half_turn. cbn [map]. apply mat_ext with 3%nat 3%nat; try apply wf_mk. intros i j Hi Hj. rewrite !get_mk by auto.
  destruct i as [|[|[|i]]], j as [|[|[|j]]]; try lia; cbv [vget nth Nat.eqb]; ring.
Qed.
Lemma scale_pm k (x : vec R) : length x = 3%nat -> (k = 1 \/ k = -1) -> parallel x (vscale k x).
Proof. intros L [->| ->]; [left|right]; [apply scale_one|reflexivity]. Qed.
Lemma parallel_sym x y : length x = 3%nat -> parallel x y -> parallel y x.
Proof. intros L [->| ->]; [now left|right]. v3 L. unfold vscale. cbn [map]. apply list3_eq; ring. Qed.
Lemma parallel_trans x y z : length x = 3%nat -> parallel x y -> parallel y z -> parallel x z.
Proof.
  intros L [->| ->] [->| ->]; [now left|now right|now right|left]. v3 L. unfold vscale. cbn [map]. apply list3_eq; ring.
Qed.
Lemma parallel_axis U V e e' : length e = 3%nat -> parallel e e' -> half_turn_axis U V e -> half_turn_axis U V e'.
Proof.
  intros L [->| ->] (A & B & C); [now split|]. split; [unfold vscale; now rewrite map_length|]. split; [|now rewrite half_turn_even].
  revert B. v3 L. unfold vscale. cbn [map]. mat_unfold_goal. lra.
Qed.
Lemma not_parallel e e' : length e = 3%nat -> length e' = 3%nat -> dot e e = 1 -> dot e e' = 0 -> ~ parallel e e'.
Proof. intros L L' N Z [->| ->]; [lra|]. rewrite dot_scale_r in Z by auto. lra. Qed.

(** the two possible axes are perpendicular *)
Lemma axis_perp U V l1 l3 v0 v1 v2 s : positive_definite U -> positive_definite V -> variants U V -> U <> V ->
  eigsys (twin_matrix U V) l1 1 l3 v0 v1 v2 -> s * s = l3 -> dot (axis U v0 v2 (- s)) (axis U v0 v2 s) = 0.
Proof.
  intros PU PV VR NE ES Hs. pose proof (lam_lt U V PU PV NE l1 l3 v0 v1 v2 ES) as LL.
  assert (W : wf 3 3 U) by apply PU.
  assert (DE : det U = det V) by (destruct VR as (Q & O & <-); symmetry; apply det_rotate; auto).
  assert (TE : trace (mmul U U) = trace (mmul V V)).
  { destruct VR as (Q & O & <-). rewrite rotate_mmul, trace_rotate; auto. apply (wf_mmul 3 3 3); auto; lia. }
  pose proof (A00_eq U V PU PV l1 l3 v0 v1 v2 ES LL DE TE) as E.
  assert (L0 : length v0 = 3%nat) by apply ES. assert (L2 : length v2 = 3%nat) by apply ES.
  pose proof (dot_U U PU v0 v0 L0 L0) as A0. pose proof (dot_U U PU v2 v2 L2 L2) as A2. rewrite <- A0, <- A2 in E. clear A0 A2.
  pose proof (len_mv3 U v0 W) as M0. pose proof (len_mv3 U v2 W) as M2. unfold axis.
  rewrite dot_vscale, dot_scale_r by (rewrite ?len_vscale; now apply len_vadd).
  assert (Z : dot (vadd (mvmul U v0) (vscale (- s) (mvmul U v2))) (vadd (mvmul U v0) (vscale s (mvmul U v2))) = 0).
  { rewrite <- Hs in E. set (x := mvmul U v0) in *. set (y := mvmul U v2) in *. clearbody x y. v3 M0. v3 M2. unfold vadd, vscale. cbn [map]. revert E. mat_unfold_goal. intros E.
    match type of E with ?a = ?b => transitivity (a - b); [ring|lra] end. }
  rewrite Z. ring.
Qed.

(** iscompound is true exactly for pairs related by two half turns, about perpendicular axes; otherwise the half
    turn is unique, and the pair is both of type I and of type II. *)
Theorem C86_classification_partial : forall eig npnew skip U V h p l1 l3,
  positive_definite U -> positive_definite V -> is_eig (twin_matrix U V) (eig (twin_matrix U V)) ->
  variants U V -> distinct U V -> eigenvalues (twin_matrix U V) l1 1 l3 -> clear_pair U V -> pair_after eig npnew skip U V h p ->
  exists b, fst (iscompound p) = Ok b /\ fst (istypeI p) = Ok (negb b) /\ fst (istypeII p) = Ok (negb b) /\
    (b = true <-> exists e e', half_turn_axis U V e /\ half_turn_axis U V e' /\ dot e e' = 0) /\
    (b = false <-> exists e, half_turn_axis U V e /\ forall e', half_turn_axis U V e' -> parallel e e').
Proof.
  intros eig npnew skip U V h p l1 l3 PU PV E VR D EV CL PA.
  destruct (ax_after _ _ _ _ _ _ _ _ _ PU PV E VR D EV PA) as (v0 & v1 & v2 & p0 & N & F & I & U1 & U2 & T & NE & ES & A & Ax).
  rewrite (loose_clear U V PU PV VR NE l1 l3 v0 v1 v2 ES CL) in A, Ax.
  pose proof (axes_good U V PU PV VR NE l1 l3 v0 v1 v2 ES) as G. pose proof (axes_all U V PU PV VR NE l1 l3 v0 v1 v2 ES) as C.
  pose proof (signs_some U V PU PV VR NE l1 l3 v0 v1 v2 ES) as X.
  exists (1 <? length (map (axis U v0 v2) (signs U l3 v0 v1 v2)))%nat.
  assert (K : fst (iscompound p) = Ok (1 <? length (map (axis U v0 v2) (signs U l3 v0 v1 v2)))%nat).
  { unfold iscompound, bindS. destruct (ax p) as [r q]. cbn [fst] in Ax. subst r. reflexivity. }
  split; [exact K|]. split; [unfold istypeI, bindS; destruct (iscompound p) as [r q]; cbn [fst] in K; subst r; reflexivity|].
  split; [unfold istypeII, bindS; destruct (iscompound p) as [r q]; cbn [fst] in K; subst r; reflexivity|]. clear K A Ax I.
  assert (Sg : signs U l3 v0 v1 v2 = [- sqrt l3; sqrt l3] \/ exists s, signs U l3 v0 v1 v2 = [s]).
  { revert X. unfold signs. cbn [filter]. destruct (Reqb _ _), (Reqb _ _); eauto. intros X. now elim X. }
  destruct Sg as [Es|(s & Es)]; rewrite Es in *; cbn [map length Nat.ltb Nat.leb] in *.
  - assert (H2 : sqrt l3 * sqrt l3 = l3) by (apply (sign_sq U V PU PV VR NE l1 l3 v0 v1 v2 ES); cbn; auto).
    pose proof (G _ (or_introl eq_refl)) as G1. pose proof (G _ (or_intror (or_introl eq_refl))) as G2.
    pose proof (axis_perp U V l1 l3 v0 v1 v2 (sqrt l3) PU PV VR NE ES H2) as P. split; split; try reflexivity; try discriminate.
    + intros _. eexists _, _. split; [exact G1|]. split; [exact G2|exact P].
    + intros (e & He & Q). exfalso. pose proof (Q _ G1) as Q1. pose proof (Q _ G2) as Q2.
      apply (not_parallel _ _ (proj1 G1) (proj1 G2) (proj1 (proj2 G1)) P). apply parallel_trans with e; [apply G1| |exact Q2]. apply parallel_sym; [apply He|exact Q1].
  - pose proof (G _ (or_introl eq_refl)) as G1.
    assert (Q : forall e', half_turn_axis U V e' -> parallel (axis U v0 v2 s) e').
    { intros e' (Le & De & R). destruct (C e' Le De R) as (x & k & [<-|[]] & Hk & ->). now apply scale_pm. }
    split; split; try reflexivity; try discriminate.
    + intros (e & e' & He & He' & Z). exfalso. apply (not_parallel e e' (proj1 He) (proj1 He') (proj1 (proj2 He)) Z).
      apply parallel_trans with (axis U v0 v2 s); [apply He| |now apply Q]. apply parallel_sym; [apply G1|now apply Q].
    + intros _. eexists. split; [exact G1|exact Q].
Qed.
Print Assumptions C86_classification_partial.

(** Without the condition on tiny coefficients a pair with a single two-fold axis can be reported as compound. *)
Theorem C86_refuted : exists U V p, positive_definite U /\ positive_definite V /\ variants U V /\ distinct U V /\
  eigenvalues (twin_matrix U V) (1/4) 1 4 /\ is_eig (twin_matrix U V) (eig4 (twin_matrix U V)) /\
  new_pair eig4 true U V = Ok p /\ fst (iscompound p) = Ok true /\ fst (istypeI p) = Ok false /\
  exists e, half_turn_axis U V e /\ forall e', half_turn_axis U V e' -> parallel e e'.
Proof.
  destruct C40_refuted as (U & V & p & l & e & PU & PV & VR & D & EV & E & N & A & I & NV). exists U, V, p.
  repeat (split; [assumption|]).
  destruct (C40_complete eig4 false true U V [] p (1/4) 4 PU PV E VR D EV) as (l' & A' & Ll & Un & (e0 & I0 & H0) & C); [exists p; auto|].
  assert (l' = l) by congruence. subst l'. clear A'.
  assert (NE : e <> e0) by (intros ->; apply NV, H0).
  assert (K : (1 <? length l)%nat = true).
  { destruct l as [|x [|y l]]; [destruct I| |reflexivity]. destruct I as [<-|[]], I0 as [<-|[]]. now elim NE. }
  assert (IC : fst (iscompound p) = Ok true) by (unfold iscompound, bindS; destruct (ax p) as [r q]; cbn [fst] in A; subst r; cbn [ret fst]; now rewrite K).
  split; [exact IC|]. split; [unfold istypeI, bindS; destruct (iscompound p) as [r q]; cbn [fst] in IC; subst r; reflexivity|].
  exists e0. split; [exact H0|]. intros e' He. destruct (C e' He) as (x & k & Ix & Hk & ->). destruct (Un x Ix) as (Lx & _).
  pose proof (scale_pm k x Lx Hk) as P. assert (Hx : half_turn_axis U V x).
  { apply parallel_axis with (vscale k x); [apply He| |exact He]. now apply parallel_sym. }
  assert (x = e0) as ->; [|exact P].
  destruct l as [|y [|z [|w l]]]; cbn [length] in Ll; try lia; [destruct I|now cbn in K|]. cbn [In] in I, I0, Ix.
  destruct I as [<-|[<-|[]]], I0 as [<-|[<-|[]]], Ix as [<-|[<-|[]]]; auto; exfalso; try (now apply NE); apply NV, Hx.
Qed.
Print Assumptions C86_refuted.

(** A twinnable pair without any two-fold axis is reported to be of type I and of type II; XI then fails with IndexError. *)
Theorem C86_no_axis_refuted : exists U V p, positive_definite U /\ positive_definite V /\
  is_eig (twin_matrix U V) (eig4 (twin_matrix U V)) /\ new_pair eig4 true U V = Ok p /\ istwinnable p = true /\
  (forall e, ~ half_turn_axis U V e) /\ fst (istypeI p) = Ok true /\ fst (istypeII p) = Ok true /\
  fst (XI p) = Raise IndexError /\ fst (XII p) = Raise IndexError.
Proof.
  pose proof pd_U37 as PU. destruct (twin_of U37 C4 PU pd_C4) as (V & PV & EC & EV).
  assert (D : distinct U37 V).
  { apply (far_from_u U37 V [0; 0; 1] PU PV EV); [reflexivity| |]; unfold U37; mat_unfold_goal; [apply list3_eq; ring|lra]. }
  destruct (pair4 U37 V PU PV EC D) as (p & N & U1 & U2 & Ee & Ev & F & T). exists U37, V, p.
  split; [exact PU|]. split; [exact PV|]. split; [rewrite EC; apply is_eig4|]. split; [exact N|]. split; [exact T|]. split.
  { intros e (Le & De & R). assert (W : wf 3 3 U37) by apply PU. assert (TE : trace (mmul V V) = trace (mmul U37 U37)).
    { rewrite <- R. rewrite rotate_mmul, trace_rotate; auto using half_orth. apply (wf_mmul 3 3 3); auto; lia. }
    rewrite EV in TE. revert TE. unfold U37, C4. mat_unfold_goal. intros TE. lra. }
  assert (A : ax p = (Ok [], set_ax [] p)).
  { unfold ax. rewrite (proj1 (proj2 F)), T, U1, Ev, Ee. cbn [negb]. unfold axes, ax_loop. cbv [nth vget].
    rewrite math_sqrt_ok by lra. rewrite sqrt4. cbn [bind].
    assert (X : forall s, Rltb (Rabs (s * 2 * dot [0; 1; 0] (mvmul (mmul U37 U37) [0; 0; 1]) + dot [0; 1; 0] (mvmul (mmul U37 U37) [1; 0; 0]))) SMALL = false).
    { intros s. apply Rltb_false. replace (dot [0; 1; 0] (mvmul (mmul U37 U37) [0; 0; 1])) with 0 by (unfold U37; mat_unfold_goal; ring).
      replace (dot [0; 1; 0] (mvmul (mmul U37 U37) [1; 0; 0])) with 4 by (unfold U37; mat_unfold_goal; ring).
      replace (s * 2 * 0 + 4) with 4 by ring. rewrite Rabs_pos_eq by lra. unfold tolerance, SMALL. lra. }
    rewrite !X. reflexivity. }
  assert (IC : iscompound p = (Ok false, set_ax [] p)) by (unfold iscompound, bindS; rewrite A; reflexivity).
  assert (A' : ax (set_ax [] p) = (Ok [], set_ax [] p)) by reflexivity.
  split; [unfold istypeI, bindS; now rewrite IC|]. split; [unfold istypeII, bindS; now rewrite IC|].
  destruct F as (_ & _ & F1 & F2 & _).
  split; [unfold XI|unfold XII]; unfold bindS at 1; rewrite IC; cbn [set_ax p_XI p_XII]; rewrite ?F1, ?F2; unfold bindS; rewrite A'; reflexivity.
Qed.
Print Assumptions C86_no_axis_refuted.

(** the tetragonal variants of C27 are compound *)
Example C86_case : exists eig p, pair_after eig false true t1 t2 [PAx; PTwinparam] p /\ fst (iscompound p) = Ok true.
Proof.
  destruct C40_case as (eig & p & l1 & l3 & P1 & P2 & E & VR & D & EV & CL & PA). exists eig, p. split; [exact PA|].
  destruct (C86_classification_partial _ _ _ _ _ _ _ _ _ P1 P2 E VR D EV CL PA) as (b & Hb & _ & _ & Ht & _). rewrite Hb. f_equal. apply Ht.
  assert (S : sqrt (1/2) * sqrt (1/2) = 1/2) by (apply sqrt_sqrt; lra). exists [0; sqrt (1/2); sqrt (1/2)], [0; sqrt (1/2); - sqrt (1/2)].
  set (r := sqrt (1/2)) in *. clearbody r.
  assert (H1 : half_turn [0; r; r] = M3 (-1) 0 0 0 0 1 0 1 0).
  { apply mat_ext with 3%nat 3%nat; [apply wf_mk|now apply wfb_spec|]. intros i j Hi Hj. unfold half_turn. rewrite get_mk by auto.
    destruct i as [|[|[|i]]], j as [|[|[|j]]]; try lia; cbv [vget nth Nat.eqb get M3]; lra. }
  assert (H2 : half_turn [0; r; - r] = M3 (-1) 0 0 0 0 (-1) 0 (-1) 0).
  { apply mat_ext with 3%nat 3%nat; [apply wf_mk|now apply wfb_spec|]. intros i j Hi Hj. unfold half_turn. rewrite get_mk by auto.
    destruct i as [|[|[|i]]], j as [|[|[|j]]]; try lia; cbv [vget nth Nat.eqb get M3]; lra. }
  split; [|split].
  - split; [reflexivity|]. split; [mat_unfold_goal; lra|]. rewrite H1. unfold rotate, M3, t1, t2. mat_eq ltac:(lra).
  - split; [reflexivity|]. split; [mat_unfold_goal; lra|]. rewrite H2. unfold rotate, M3, t1, t2. mat_eq ltac:(lra).
  - mat_unfold_goal. lra.
Qed.

(** ** C87 *)
(** XI and XII are the lengths of U^-1 e and U e for the axis e of the half turn, and exist only for pairs that are
    not compound. *)
Theorem C87_lengths_partial : forall eig npnew skip U V h p l1 l3,
  positive_definite U -> positive_definite V -> is_eig (twin_matrix U V) (eig (twin_matrix U V)) ->
  variants U V -> distinct U V -> eigenvalues (twin_matrix U V) l1 1 l3 -> clear_pair U V -> pair_after eig npnew skip U V h p ->
  (fst (iscompound p) = Ok true -> fst (XI p) = Raise AttributeError /\ fst (XII p) = Raise AttributeError) /\
  (fst (iscompound p) = Ok false -> forall e, half_turn_axis U V e ->
    exists x y, fst (XI p) = Ok x /\ fst (XII p) = Ok y /\ 0 < x /\ 0 < y /\
      x * x = dot (mvmul (minv U) e) (mvmul (minv U) e) /\ y * y = dot (mvmul U e) (mvmul U e)).
Proof.
  intros eig npnew skip U V h p l1 l3 PU PV E VR D EV CL PA.
  destruct (ax_after _ _ _ _ _ _ _ _ _ PU PV E VR D EV PA) as (v0 & v1 & v2 & p0 & N & F & I & U1 & U2 & T & NE & ES & A & Ax).
  rewrite (loose_clear U V PU PV VR NE l1 l3 v0 v1 v2 ES CL) in A, Ax. clear Ax.
  rewrite (proj1 (compound_stable eig npnew p0 F p I)), (proj1 (XI_stable eig npnew p0 F p I)), (proj1 (XII_stable eig npnew p0 F p I)). clear I PA p.
  pose proof (axes_good U V PU PV VR NE l1 l3 v0 v1 v2 ES) as G. pose proof (axes_all U V PU PV VR NE l1 l3 v0 v1 v2 ES) as C.
  pose proof (signs_some U V PU PV VR NE l1 l3 v0 v1 v2 ES) as X. set (l := map (axis U v0 v2) (signs U l3 v0 v1 v2)) in *.
  assert (IC : iscompound p0 = (Ok (1 <? length l)%nat, set_ax l p0)) by (unfold iscompound, bindS; now rewrite A).
  assert (A' : ax (set_ax l p0) = (Ok l, set_ax l p0)) by reflexivity. rewrite IC. cbn [fst]. split; intros K; injection K as K.
  - unfold XI, XII, bindS. rewrite IC, K. now split.
  - intros e He. destruct l as [|x l'] eqn:El; [unfold l in El; destruct (signs U l3 v0 v1 v2); [now elim X|discriminate]|].
    destruct l' as [|y l']; [|discriminate]. pose proof (G x (or_introl eq_refl)) as (Lx & Nx & Rx).
    destruct He as (Le & De & Re). destruct (C e Le De Re) as (x' & k & [<-|[]] & Hk & ->).
    assert (W : wf 3 3 U) by apply PU. pose proof (posdef_det U PU) as DU. assert (d : dim23 3) by now right. assert (Wi : wf 3 3 (minv U)) by now apply wf_minv.
    assert (Sq : forall M, wf 3 3 M -> det M <> 0 -> 0 < vnorm (mvmul M x) /\ vnorm (mvmul M x) * vnorm (mvmul M x) = dot (mvmul M (vscale k x)) (mvmul M (vscale k x))).
    { intros M WM DM. assert (P : 0 < dot (mvmul M x) (mvmul M x)) by (apply mv_pos; auto). unfold vnorm. split; [now apply sqrt_lt_R0|].
      rewrite sqrt_sqrt by lra. rewrite mv_vscale, dot_vscale, dot_scale_r by (auto; rewrite ?len_vscale; now apply len_mv3). destruct Hk as [->| ->]; ring. }
    destruct (Sq (minv U) Wi) as (P1 & S1); [apply (det_minv_neq0 3); auto; lra|]. destruct (Sq U W ltac:(lra)) as (P2 & S2).
    exists (vnorm (mvmul (minv U) x)), (vnorm (mvmul U x)). destruct F as (_ & _ & F1 & F2 & _). split; [|split; [|auto]].
    + unfold XI. unfold bindS at 1. rewrite IC. cbn [length Nat.ltb Nat.leb set_ax p_XI]. rewrite F1. unfold bindS. rewrite A'. unfold lift. cbn [py_index]. rewrite U1 || cbn [set_ax p_Ui].
      cbn. rewrite ?U1. rewrite (inv_Ok 3 U d W ltac:(lra)). reflexivity.
    + unfold XII. unfold bindS at 1. rewrite IC. cbn [length Nat.ltb Nat.leb set_ax p_XII]. rewrite F2. unfold bindS. rewrite A'. cbn. rewrite U1. reflexivity.
Qed.
Print Assumptions C87_lengths_partial.

(** the cofactor matrix *)
Definition cofactors (M : mat R) : mat R := mk 3 3 (fun i j =>
  get M ((i + 1) mod 3) ((j + 1) mod 3) * get M ((i + 2) mod 3) ((j + 2) mod 3) -
  get M ((i + 1) mod 3) ((j + 2) mod 3) * get M ((i + 2) mod 3) ((j + 1) mod 3)).
Lemma brute_cofactors M : wf 3 3 M -> brute_cof M = cofactors M.
Proof.
  intros W. apply wf3_inv in W. destruct W as (a & b & c & d & e & f & g & h & i & ->). apply mat_ext with 3%nat 3%nat; try apply wf_mk.
  intros k l Hk Hl. unfold brute_cof, cofactors. rewrite !get_mk by auto.
  destruct k as [|[|[|k]]], l as [|[|[|l]]]; try lia; cbv [Nat.add Nat.modulo Nat.divmod fst snd Nat.sub drop firstn skipn map app];
  rewrite det2; cbn [pow]; cbv [get nth]; ring.
Qed.

Lemma twins_explicit U e t1 t2 : positive_definite U -> length e = 3%nat -> dot e e = 1 -> rotate (half_turn e) U <> U ->
  solvetwin_axis U e = Ok (Some (t1, t2)) ->
  let V := rotate (half_turn e) U in
  let a1 := vscale 2 (vsub (map (fun x => x / dot (mvmul (minv U) e) (mvmul (minv U) e)) (mvmul (minv U) e)) (mvmul U e)) in
  let n2 := vscale 2 (vsub e (map (fun x => x / dot (mvmul U e) (mvmul U e)) (mvmul U (mvmul U e)))) in
  exists r, r <> 0 /\ (exists Q, twinning U V Q a1 e) /\ (exists Q, twinning U V Q (vscale r (mvmul U e)) (map (fun x => x / r) n2)) /\
    twin_a t1 = vround a1 /\ twin_n t1 = vround e /\ twin_a t2 = vround (vscale r (mvmul U e)) /\ twin_n t2 = vround (map (fun x => x / r) n2).
Proof.
  intros PU Le De NE H V a1 n2. pose proof PU as [[WU _] _]. pose proof (posdef_det U PU) as DU. assert (d : dim23 3) by now right.
  assert (O : orthogonal 3 (half_turn e)) by now apply half_orth.
  assert (PV : positive_definite V) by now apply rotate_posdef. pose proof PV as [[WV _] _]. pose proof (posdef_det V PV) as DV.
  pose proof (solvetwin_axis_eq U e PU Le De) as E0. cbv zeta in E0. fold V in E0. rewrite E0 in H. clear E0.
  destruct (isvariant U V) as [[]| |]; cbn [bind] in H; try discriminate.
  pose proof (type1 U e PU Le De) as T1. pose proof (type2 U e PU Le De) as T2. pose proof (n2_zero U e PU Le De) as NZ.
  cbv zeta in T1, T2. fold V in T1, T2, NZ. fold n2 in T2, NZ. fold a1 in T1.
  assert (Dp : 0 < dot (mvmul (minv U) e) (mvmul (minv U) e)).
  { apply mv_pos; auto; [now apply wf_minv|]. apply (det_minv_neq0 3); auto; lra. }
  assert (Dk : 0 < dot (mvmul U e) (mvmul U e)) by (apply mv_pos; auto; lra).
  assert (Nn : vnorm n2 <> 0) by (intros Z; apply NE, NZ, Z). specialize (T2 Nn).
  rewrite unit_norm in H by auto. rewrite !vdiv_ok in H by lra. cbn [bind] in H. rewrite (inv_Ok 3 V) in H by (auto; lra). cbn [bind] in H. fold a1 n2 in H.
  rewrite (vdiv_ok n2) in H by auto. cbn [bind] in H. rewrite div_one, scale_one in H. injection H as <- <-.
  exists (vnorm n2). split; [exact Nn|]. split; [eexists; exact T1|]. split; [eexists; exact T2|]. auto.
Qed.

Section Cof.
  Variable U : mat R.
  Hypothesis PU : positive_definite U.
  Let M := msub (mmul U U) (eye 3).
  Let C := cofactors M.
  Lemma wf_M : wf 3 3 M. Proof. apply wf_msub; [lia|]. apply (wf_mmul 3 3 3); try lia; apply PU. Qed.
  Lemma sym_M : MartSpec.symmetric M.
  Proof.
    split; [apply wf_M|]. unfold M. destruct PU as [S _]. destruct (sym3 U S) as (a & b & c & d & e & f & ->). mat_eq ltac:(ring).
  Qed.
  Lemma wf_C : wf 3 3 C. Proof. apply wf_mk. Qed.
  Lemma cof_M x y : length x = 3%nat -> length y = 3%nat -> dot (mvmul M x) (mvmul C y) = det M * dot x y.
  Proof.
    intros Lx Ly. unfold C. rewrite <- brute_cofactors by apply wf_M. destruct (sym3 M sym_M) as (a & b & c & d & e & f & ->). v3 Lx. v3 Ly.
    cbv [brute_cof drop]. mat_unfold_goal. cbn [pow Nat.add]. ring.
  Qed.
  Lemma sym_C x y : length x = 3%nat -> length y = 3%nat -> dot x (mvmul C y) = dot y (mvmul C x).
  Proof.
    intros Lx Ly. unfold C. rewrite <- brute_cofactors by apply wf_M. destruct (sym3 M sym_M) as (a & b & c & d & e & f & ->). v3 Lx. v3 Ly.
    cbv [brute_cof drop]. mat_unfold_goal. cbn [pow Nat.add]. ring.
  Qed.
  Lemma UU_M x : length x = 3%nat -> mvmul U (mvmul U x) = vadd (mvmul M x) x.
  Proof.
    intros Lx. unfold M. destruct PU as [S _]. destruct (sym3 U S) as (a & b & c & d & e & f & ->). v3 Lx. unfold vadd. mat_unfold_goal. apply list3_eq; ring.
  Qed.
  Variable e : vec R.
  Hypothesis Le : length e = 3%nat.
  Hypothesis De : dot e e = 1.
  Let LC y : length (mvmul C y) = 3%nat. Proof. apply len_mv3, wf_C. Qed.
  Let LM y : length (mvmul M y) = 3%nat. Proof. apply len_mv3, wf_M. Qed.
  Let W : wf 3 3 U. Proof. apply PU. Qed.
  Lemma typeI_value k : k <> 0 ->
    dot (mvmul U (vscale 2 (vsub (map (fun x => x / k) (mvmul (minv U) e)) (mvmul U e)))) (mvmul C e) =
    2 * (dot e (mvmul C e) * (1 / k - 1) - det M).
  Proof.
    intros Hk. pose proof (posdef_det U PU) as DU. assert (d : dim23 3) by now right.
    assert (Ev : mvmul U (vscale 2 (vsub (map (fun x => x / k) (mvmul (minv U) e)) (mvmul U e))) =
                 vscale 2 (vsub (vscale (1 / k) (mvmul U (mvmul (minv U) e))) (mvmul U (mvmul U e)))).
    { pose proof (len_mv3 U e W) as L1. pose proof (len_mv3 (minv U) e (wf_minv 3 U d W)) as L2. set (y := mvmul (minv U) e) in *. set (z := mvmul U e) in *. clearbody y z.
      clear - W L1 L2 Hk. apply wf3_inv in W. destruct W as (? & ? & ? & ? & ? & ? & ? & ? & ? & ->). v3 L1. v3 L2. unfold vscale, vsub. mat_unfold_goal. apply list3_eq; field; exact Hk. }
    rewrite Ev. rewrite <- (mvmul_mmul 3) by (auto using wf_minv; lia). rewrite (minv_r 3) by (auto; lra). rewrite (mvmul_eye 3) by auto.
    rewrite UU_M by exact Le. pose proof (cof_M e e Le Le) as X. rewrite De in X. pose proof (LC e) as L1. pose proof (LM e) as L2.
    set (w := mvmul C e) in *. set (m := mvmul M e) in *. clearbody w m. clear - Le L1 L2 X Hk.
    replace (det M) with (dot m w) by lra. v3 Le. v3 L1. v3 L2. unfold vscale, vsub, vadd. mat_unfold_goal. field. exact Hk.
  Qed.
  Lemma typeII_value k r : k = dot (mvmul U e) (mvmul U e) -> k <> 0 -> r <> 0 ->
    dot (mvmul U (vscale r (mvmul U e))) (mvmul C (map (fun x => x / r) (vscale 2 (vsub e (map (fun x => x / k) (mvmul U (mvmul U e))))))) =
    2 * (dot e (mvmul C e) * (1 - 1 / k) - det M / k).
  Proof.
    intros Ek Hk Hr. assert (L1 : length (mvmul U (mvmul U e)) = 3%nat) by now apply len_mv3.
    assert (Ev : dot (mvmul U (vscale r (mvmul U e))) (mvmul C (map (fun x => x / r) (vscale 2 (vsub e (map (fun x => x / k) (mvmul U (mvmul U e))))))) =
      2 * (dot (mvmul U (mvmul U e)) (mvmul C e) - dot (mvmul U (mvmul U e)) (mvmul C (mvmul U (mvmul U e))) / k)).
    { rewrite mv_vscale by (auto; now apply len_mv3). set (y := mvmul U (mvmul U e)) in *. clearbody y. pose proof wf_C as WC. set (D := C) in *. clearbody D. clear - WC L1 Le Hk Hr.
      apply wf3_inv in WC. destruct WC as (? & ? & ? & ? & ? & ? & ? & ? & ? & ->). v3 L1. v3 Le. unfold vscale, vsub. mat_unfold_goal. field. split; auto. }
    rewrite Ev. assert (Ee : dot e (mvmul M e) = k - 1).
    { rewrite Ek. rewrite (dot_U U PU e e Le Le). rewrite (mvmul_mmul 3) by (auto; lia). rewrite UU_M by exact Le. pose proof (LM e) as L2. rewrite <- De.
      set (m := mvmul M e) in *. clearbody m. clear - Le L2. v3 Le. v3 L2. unfold vadd. mat_unfold_goal. ring. }
    rewrite UU_M by exact Le. rewrite (mv_vadd C) by auto using wf_C.
    pose proof (cof_M e e Le Le) as X1. rewrite De in X1. pose proof (cof_M e (mvmul M e) Le (LM e)) as X2. rewrite Ee in X2. pose proof (sym_C e (mvmul M e) Le (LM e)) as X3.
    pose proof (LC e) as L2. pose proof (LM e) as L3. pose proof (LC (mvmul M e)) as L4.
    set (m := mvmul M e) in *. set (w := mvmul C e) in *. set (u := mvmul C m) in *. clearbody m w u. clear Ev Ee Ek L1.
    assert (Y : dot (vadd m e) (vadd u w) = dot m u + dot m w + dot e u + dot e w) by (clear - Le L2 L3 L4; v3 Le; v3 L2; v3 L3; v3 L4; unfold vadd; mat_unfold_goal; ring).
    assert (Z : dot (vadd m e) w = dot m w + dot e w) by (clear - Le L2 L3; v3 Le; v3 L2; v3 L3; unfold vadd; mat_unfold_goal; ring).
    rewrite Y, Z, X2, X3, X1. field. exact Hk.
  Qed.
End Cof.

Lemma sym_move U a y : MartSpec.symmetric U -> length a = 3%nat -> length y = 3%nat -> dot (mvmul U a) y = dot a (mvmul U y).
Proof. intros S La Ly. destruct (sym3 U S) as (? & ? & ? & ? & ? & ? & ->). v3 La. v3 Ly. mat_unfold_goal. ring. Qed.
(** the effect of rounding *)
Lemma bilinear_bound B K A a n a' n' : wf 3 3 B -> (forall i j, (i < 3)%nat -> (j < 3)%nat -> Rabs (get B i j) <= K) ->
  length a = 3%nat -> length n = 3%nat -> dot n n = 1 -> (forall i, (i < 3)%nat -> Rabs (vget a i) <= A) -> rounded a' a -> rounded n' n ->
  Rabs (dot a' (mvmul B n') - dot a (mvmul B n)) <= 9 * K * (2 + A) * (1 / 2 / 10 ^ 10).
Proof.
  intros WB HK La Ln Nn HA (La' & Ra) (Ln' & Rn). rewrite La in La'. rewrite Ln in Ln'. set (dl := 1 / 2 / 10 ^ 10) in *.
  assert (Pd : 0 <= dl <= 1) by (unfold dl; cbn [pow]; lra). 
  assert (Un : forall i, (i < 3)%nat -> Rabs (vget n i) <= 1).
  { intros i Hi. clear - Ln Nn Hi. v3 Ln. revert Nn. mat_unfold_goal. intros Nn. destruct i as [|[|[|i]]]; try lia; cbv [vget nth]; apply Rabs_le; split; nra. }
  assert (Da : forall i, (i < 3)%nat -> Rabs (vget a' i - vget a i) <= dl) by (intros; apply Ra; lia).
  assert (Dn : forall i, (i < 3)%nat -> Rabs (vget n' i - vget n i) <= dl) by (intros; apply Rn; lia).
  assert (T : forall i j, (i < 3)%nat -> (j < 3)%nat -> Rabs (get B i j * (vget a' i * vget n' j - vget a i * vget n j)) <= K * (2 + A) * dl).
  { intros i j Hi Hj. specialize (HK i j Hi Hj). specialize (HA i Hi). specialize (Da i Hi). specialize (Dn j Hj). specialize (Un j Hj).
    rewrite Rabs_mult. rewrite Rmult_assoc. pose proof (Rabs_pos (get B i j)).
    apply Rmult_le_compat; auto using Rabs_pos.
    replace (vget a' i * vget n' j - vget a i * vget n j) with ((vget a' i - vget a i) * vget n' j + vget a i * (vget n' j - vget n j)) by ring.
    eapply Rle_trans; [apply Rabs_triang|]. rewrite !Rabs_mult.
    assert (N2 : Rabs (vget n' j) <= 2).
    { replace (vget n' j) with (vget n j + (vget n' j - vget n j)) by ring. eapply Rle_trans; [apply Rabs_triang|]. lra. }
    pose proof (Rabs_pos (vget a' i - vget a i)). pose proof (Rabs_pos (vget n' j - vget n j)). pose proof (Rabs_pos (vget n' j)). pose proof (Rabs_pos (vget a i)).
    replace ((2 + A) * dl) with (dl * 2 + A * dl) by ring. apply Rplus_le_compat; apply Rmult_le_compat; auto. }
  clearbody dl. clear - WB La Ln La' Ln' T. apply wf3_inv in WB. destruct WB as (b1 & b2 & b3 & b4 & b5 & b6 & b7 & b8 & b9 & ->).
  pose proof (T 0 0 ltac:(lia) ltac:(lia))%nat as T1. pose proof (T 0 1 ltac:(lia) ltac:(lia))%nat as T2. pose proof (T 0 2 ltac:(lia) ltac:(lia))%nat as T3.
  pose proof (T 1 0 ltac:(lia) ltac:(lia))%nat as T4. pose proof (T 1 1 ltac:(lia) ltac:(lia))%nat as T5. pose proof (T 1 2 ltac:(lia) ltac:(lia))%nat as T6.
  pose proof (T 2 0 ltac:(lia) ltac:(lia))%nat as T7. pose proof (T 2 1 ltac:(lia) ltac:(lia))%nat as T8. pose proof (T 2 2 ltac:(lia) ltac:(lia))%nat as T9. clear T.
  v3 La. v3 Ln. v3 La'. v3 Ln'. unfold M3 in *. cbv [get nth vget] in *. mat_unfold_goal.
  apply abs_le_inv in T1, T2, T3, T4, T5, T6, T7, T8, T9. set (t := K * (2 + A) * dl) in *. replace (9 * K * (2 + A) * dl) with (9 * t) by (unfold t; ring). clearbody t.
  apply Rabs_le. split; lra.
Qed.

(** direct_cof: minus the values <U a, cof(U^2 - I) n> of the two twins, up to the rounding of a and n.  In exact
    arithmetic these values are given by XI, XII, the determinant of U^2 - I and e . cof(U^2 - I) e, so with
    det(U^2 - I) = 0 the first one vanishes if XI = 1 and the second one if XII = 1 (the cofactor conditions). *)
Theorem C87_direct_partial : forall eig skip U V h p l1 l3 d1 d2,
  positive_definite U -> positive_definite V -> is_eig (twin_matrix U V) (eig (twin_matrix U V)) ->
  variants U V -> distinct U V -> eigenvalues (twin_matrix U V) l1 1 l3 -> clear_pair U V -> pair_after eig false skip U V h p ->
  fst (direct_cof eig false p) = Ok (d1, d2) ->
  let M := msub (mmul U U) (eye 3) in
  exists e a1 n1 a2 n2, half_turn_axis U V e /\ (exists Q, twinning U V Q a1 n1) /\ (exists Q, twinning U V Q a2 n2) /\
    let c := dot e (mvmul (cofactors M) e) in
    let x2 := dot (mvmul (minv U) e) (mvmul (minv U) e) in
    let y2 := dot (mvmul U e) (mvmul U e) in
    let exact1 := 2 * (c * (1 / x2 - 1) - det M) in
    let exact2 := 2 * (c * (1 - 1 / y2) - det M / y2) in
    dot (mvmul U a1) (mvmul (cofactors M) n1) = exact1 /\ dot (mvmul U a2) (mvmul (cofactors M) n2) = exact2 /\
    forall K A, (forall i j, (i < 3)%nat -> (j < 3)%nat -> Rabs (get (mmul U (cofactors M)) i j) <= K) ->
      (forall i, (i < 3)%nat -> Rabs (vget a1 i) <= A /\ Rabs (vget a2 i) <= A) ->
      Rabs (d1 + exact1) <= 9 * K * (2 + A) * (1 / 2 / 10 ^ 10) /\ Rabs (d2 + exact2) <= 9 * K * (2 + A) * (1 / 2 / 10 ^ 10).
Proof.
  intros eig skip U V h p l1 l3 d1 d2 PU PV E VR D EV CL PA H M.
  destruct (ax_after _ _ _ _ _ _ _ _ _ PU PV E VR D EV PA) as (v0 & v1 & v2 & p0 & N & F & I & U1 & U2 & T & NE & ES & A & Ax).
  rewrite (loose_clear U V PU PV VR NE l1 l3 v0 v1 v2 ES CL) in A. clear Ax.
  rewrite (proj1 (direct_stable eig false p0 F p I)) in H. clear I PA p.
  pose proof (axes_good U V PU PV VR NE l1 l3 v0 v1 v2 ES) as G. pose proof (signs_some U V PU PV VR NE l1 l3 v0 v1 v2 ES) as X.
  pose proof (param_first eig U V p0 T (proj2 (proj2 (proj2 (proj2 F)))) U1 U2 _ _ A) as P.
  destruct (map (axis U v0 v2) (signs U l3 v0 v1 v2)) as [|e l] eqn:El; [destruct (signs U l3 v0 v1 v2); [now elim X|discriminate]|].
  cbn [solvetwin] in P. pose proof (G e (or_introl eq_refl)) as He. destruct He as (Le & De & Re).
  unfold direct_cof in H. unfold bindS at 1 in H. unfold some_param in H. unfold bindS at 1 in H.
  destruct (twinparam eig false p0) as [r q]. cbn [fst] in P. subst r. destruct (solvetwin_axis U e) as [[[s1 s2]|]| |] eqn:S; try discriminate.
  cbn [ret fst snd] in H. rewrite U1 in H. fold M in H. injection H as H1 H2.
  assert (NV : rotate (half_turn e) U <> U) by (rewrite Re; intros Q; now apply NE).
  pose proof (twins_explicit U e s1 s2 PU Le De NV S) as TE. cbv zeta in TE. rewrite Re in TE.
  assert (W : wf 3 3 U) by apply PU. pose proof (posdef_det U PU) as DU. assert (d : dim23 3) by now right.
  assert (WM : wf 3 3 M) by apply (wf_M U PU). rewrite brute_cofactors in H1, H2 by exact WM.
  set (C := cofactors M) in *. assert (WC : wf 3 3 C) by apply wf_mk.
  assert (Dp : 0 < dot (mvmul (minv U) e) (mvmul (minv U) e)).
  { apply mv_pos; auto; [now apply wf_minv|]. apply (det_minv_neq0 3); auto; lra. }
  assert (Dk : 0 < dot (mvmul U e) (mvmul U e)) by (apply mv_pos; auto; lra).
  destruct TE as (r & Hr & T1 & T2 & A1 & N1 & A2 & N2).
  set (x2 := dot (mvmul (minv U) e) (mvmul (minv U) e)) in *. set (y2 := dot (mvmul U e) (mvmul U e)) in *.
  set (a1 := vscale 2 (vsub (map (fun x => x / x2) (mvmul (minv U) e)) (mvmul U e))) in *.
  set (n2 := map (fun x => x / r) (vscale 2 (vsub e (map (fun x => x / y2) (mvmul U (mvmul U e)))))) in *.
  exists e, a1, e, (vscale r (mvmul U e)), n2. split; [now split|]. split; [exact T1|]. split; [exact T2|]. cbv zeta.
  assert (V1 : dot (mvmul U a1) (mvmul C e) = 2 * (dot e (mvmul C e) * (1 / x2 - 1) - det M)) by (apply (typeI_value U PU e Le De); lra).
  assert (V2 : dot (mvmul U (vscale r (mvmul U e))) (mvmul C n2) = 2 * (dot e (mvmul C e) * (1 - 1 / y2) - det M / y2)).
  { apply (typeII_value U PU e Le De); auto; lra. }
  split; [exact V1|]. split; [exact V2|]. fold x2 y2. intros K B HK HB. rewrite <- V1, <- V2.
  assert (Mv : forall a n, length a = 3%nat -> length n = 3%nat -> dot (mvmul U a) (mvmul C n) = dot a (mvmul (mmul U C) n)).
  { intros a n La Ln. rewrite (mvmul_mmul 3) by (auto; lia). apply sym_move; [apply PU|auto|now apply len_mv3]. }
  assert (WUC : wf 3 3 (mmul U C)) by (apply (wf_mmul 3 3 3); auto; lia).
  destruct T1 as (Q1 & _ & _ & La1 & _). destruct T2 as (Q2 & _ & _ & La2 & Ln2 & Nn2 & _).
  assert (R1 : rounded (vround a1) a1) by apply vround_rounded. assert (R2 : rounded (vround e) e) by apply vround_rounded.
  assert (R3 : rounded (vround (vscale r (mvmul U e))) (vscale r (mvmul U e))) by apply vround_rounded. assert (R4 : rounded (vround n2) n2) by apply vround_rounded.
  assert (B1 : forall i, (i < 3)%nat -> Rabs (vget a1 i) <= B) by (intros; now apply HB).
  assert (B2 : forall i, (i < 3)%nat -> Rabs (vget (vscale r (mvmul U e)) i) <= B) by (intros; now apply HB).
  pose proof (bilinear_bound _ K B _ _ _ _ WUC HK La1 Le De B1 R1 R2) as Z1. pose proof (bilinear_bound _ K B _ _ _ _ WUC HK La2 Ln2 Nn2 B2 R3 R4) as Z2.
  rewrite A1, N1 in H1. rewrite A2, N2 in H2. rewrite Mv in H1, H2 by (unfold vround; rewrite map_length; auto). rewrite !Mv by auto.
  split; [rewrite <- H1|rewrite <- H2]; match goal with |- Rabs (- ?x + ?y) <= _ => replace (- x + y) with (- (x - y)) by ring end; rewrite Rabs_Ropp; assumption.
Qed.
Print Assumptions C87_direct_partial.

(** a pair with a single axis, and its hypotheses *)
Definition A87 : mat R := [[4; 2; 0]; [2; 3; 1]; [0; 1; 1]].
Lemma pd_A87 : positive_definite A87.
Proof.
  assert (S : MartSpec.symmetric A87) by (split; [now apply wfb_spec|reflexivity]). apply (posdef_minors _ S). unfold A87. rewrite det3. cbv [get nth]. lra.
Qed.
Example C87_case : exists U V p, positive_definite U /\ positive_definite V /\ is_eig (twin_matrix U V) (eig4 (twin_matrix U V)) /\
  variants U V /\ distinct U V /\ eigenvalues (twin_matrix U V) (1/4) 1 4 /\ clear_pair U V /\ pair_after eig4 false true U V [PAx; PCompound] p /\
  fst (iscompound p) = Ok false.
Proof.
  destruct (sqrt_exists A87 pd_A87) as (U & PU & EU). destruct (twin_of U C4 PU pd_C4) as (V & PV & EC & EV). pose proof PU as [SU _]. pose proof SU as [WU TU].
  assert (D : distinct U V).
  { set (y := [1/2; -1; 2]). assert (Ay : mvmul A87 y = [0; 0; 1]) by (unfold A87, y; mat_unfold_goal; apply list3_eq; lra).
    assert (Ly : length y = 3%nat) by reflexivity. apply (far_from_u U V (mvmul U y) PU PV EV).
    - now apply len_mv3.
    - rewrite <- (mvmul_mmul 3) by (auto; lia). now rewrite EU.
    - rewrite <- dot_sym_mv by (auto; now apply len_mv3). rewrite <- (mvmul_mmul 3) by (auto; lia). rewrite EU, Ay. unfold y. mat_unfold_goal. lra. }
  assert (DE : det U = det V) by (apply det_square; auto; rewrite EC; unfold C4; mat_unfold_goal; lra).
  assert (TE : trace (mmul U U) = trace (mmul V V)).
  { rewrite EV. transitivity (1/4 * get (mmul U U) 0 0 + get (mmul U U) 1 1 + 4 * get (mmul U U) 2 2).
    - rewrite EU. unfold A87. mat_unfold_goal. lra.
    - clear - SU. destruct (sym3 U SU) as (a & b & c & d & e & f & ->). unfold C4. mat_unfold_goal. field. }
  pose proof eigsys4 as ES. rewrite <- EC in ES. set (v0 := [1; 0; 0]) in *. set (v1 := [0; 1; 0]) in *. set (v2 := [0; 0; 1]) in *.
  assert (LL : 1/4 < 4) by lra.
  assert (B12 : dot v1 (mvmul (mmul U U) v2) = 1) by (rewrite EU; unfold A87, v1, v2; mat_unfold_goal; ring).
  assert (B01 : dot v1 (mvmul (mmul U U) v0) = 2) by (rewrite EU; unfold A87, v1, v0; mat_unfold_goal; ring).
  assert (H2 : -2 * -2 = 4) by ring.
  assert (VR : variants U V).
  { destruct (axis_unit U V PU PV _ _ _ _ _ ES LL DE TE (-2) H2) as (La & Na). exists (half_turn (axis U v0 v2 (-2))). split; [now apply half_orth|].
    apply (axis_ok U V PU PV (1/4) 4 v0 v1 v2 ES LL DE TE (-2) H2). rewrite B12, B01. ring. }
  assert (E4 : is_eig (twin_matrix U V) (eig4 (twin_matrix U V))) by (rewrite EC; apply is_eig4).
  assert (EVs : eigenvalues (twin_matrix U V) (1/4) 1 4) by (rewrite EC; apply ev_C4).
  assert (CL : clear_pair U V).
  { intros l w0 w1 Hl L0 L1 N0 N1 H0 H1. right. rewrite EC in H0, H1. rewrite EU. revert N0 N1 H0 H1. v3 L0. v3 L1. unfold C4, A87, vscale. cbn [map]. mat_unfold_goal. intros N0 N1 H0 H1.
    injection H0 as A1 A2 A3. injection H1 as A4 A5 A6. assert (Z0 : x0 = 0) by nra. assert (Z1 : x1 = 0) by nra. assert (Z3 : x2 = 0) by lra. assert (Z4 : x4 = 0) by lra. subst.
    assert (Q : Rabs x * Rabs x = 1) by (rewrite <- Rabs_mult, Rabs_pos_eq by nra; lra). assert (Q' : Rabs x3 * Rabs x3 = 1) by (rewrite <- Rabs_mult, Rabs_pos_eq by nra; lra).
    match goal with |- _ <= Rabs ?t => replace t with (2 * (x * x3)) by ring end. rewrite !Rabs_mult, (Rabs_pos_eq 2) by lra.
    pose proof (Rabs_pos x). pose proof (Rabs_pos x3). assert (Y1 : Rabs x = 1) by nra. assert (Y2 : Rabs x3 = 1) by nra. rewrite Y1, Y2. unfold tolerance, SMALL. lra. }
  destruct (pair4 U V PU PV EC D) as (p & N & _).
  assert (PA : pair_after eig4 false true U V [PAx; PCompound] (pair_run eig4 false [PAx; PCompound] p)) by (exists p; auto).
  exists U, V, (pair_run eig4 false [PAx; PCompound] p). repeat (split; [assumption|]).
  destruct (ax_after _ _ _ _ _ _ _ _ _ PU PV E4 VR D EVs PA) as (x0 & x1 & x2 & p0 & N' & F & I & U1 & U2 & T & NE & ES' & A & Ax).
  destruct (C86_classification_partial _ _ _ _ _ _ _ _ _ PU PV E4 VR D EVs CL PA) as (b & Hb & _ & _ & Ht & _). rewrite Hb. f_equal.
  destruct b; [exfalso|reflexivity]. destruct (proj1 Ht eq_refl) as (e & e' & He & He' & Z).
  destruct (axis_complete U V PU PV _ _ _ _ _ ES LL DE TE e) as (s & k & Hs & Zs & Hk & Ee); try apply He.
  destruct (axis_complete U V PU PV _ _ _ _ _ ES LL DE TE e') as (s' & k' & Hs' & Zs' & Hk' & Ee'); try apply He'.
  rewrite B12, B01 in Zs, Zs'. assert (s = -2) by lra. assert (s' = -2) by lra. subst s s'.
  destruct (axis_unit U V PU PV _ _ _ _ _ ES LL DE TE (-2) H2) as (La & Na). rewrite Ee, Ee' in Z.
  rewrite dot_vscale, dot_scale_r, Na in Z by (auto; now rewrite len_vscale). nra.
Qed.

(** ** C39: iscompatible in terms of volumefrac *)
Theorem C39_types : forall eig npnew skip U V h p, pair_after eig npnew skip U V h p ->
  fst (iscompatible eig npnew TOther p) = Raise ValueError /\
  (forall f1 f2, fst (volumefrac eig npnew p) = Ok (f1, f2) ->
     (fst (iscompatible eig npnew TI p) = Ok true <-> f1 <> None) /\ (fst (iscompatible eig npnew TI p) = Ok false <-> f1 = None) /\
     (fst (iscompatible eig npnew TII p) = Ok true <-> f2 <> None) /\ (fst (iscompatible eig npnew TII p) = Ok false <-> f2 = None) /\
     (fst (iscompatible eig npnew TC p) = Ok true <-> f1 <> None \/ f2 <> None) /\ (fst (iscompatible eig npnew TC p) = Ok false <-> f1 = None /\ f2 = None)) /\
  (forall x, fst (volumefrac eig npnew p) = Raise x ->
     fst (iscompatible eig npnew TI p) = Raise x /\ fst (iscompatible eig npnew TII p) = Raise x /\ fst (iscompatible eig npnew TC p) = Raise x).
Proof.
  intros eig npnew skip U V h p (p0 & N & ->). destruct (new_fresh _ _ _ _ _ N) as (F & _). pose proof (run_keeps eig npnew p0 F h p0 (Inv_refl _ _ _ F)) as I.
  set (p := pair_run eig npnew h p0) in *. clearbody p. split; [reflexivity|]. split.
  - intros f1 f2 H. pose proof (volume_stable eig npnew p0 F p I) as (S1 & I1). pose proof (volume_stable eig npnew p0 F _ I1) as (S2 & _). rewrite <- S1, H in S2.
    unfold iscompatible, bindS. destruct (volumefrac eig npnew p) as [r q]. cbn [fst snd] in *. subst r. cbn [ret fst snd].
    destruct f1 as [f1|], f2 as [f2|]; cbn [some]; cbn [ret fst]; try (destruct (volumefrac eig npnew q) as [r q']; cbn [fst] in S2; subst r; cbn [some ret fst snd]);
    repeat match goal with |- _ /\ _ => split end; split; intros; try congruence; try (left; congruence); try (right; congruence); try (split; congruence);
    repeat match goal with H : _ /\ _ |- _ => destruct H | H : _ \/ _ |- _ => destruct H end; congruence.
  - intros x H. unfold iscompatible, bindS. destruct (volumefrac eig npnew p) as [r q]. cbn [fst snd] in *. subst r. auto.
Qed.
Print Assumptions C39_types.

(** ** C89: which pairs get an answer *)
(** The internal test: V is within 1e-12 of an image of U under the 24 rotations of the cube, if U is reversible and its
    images are told apart by the tolerance. *)
Theorem C89_isvariant : forall U V, wf 3 3 U -> wf 3 3 V -> separated U (map RZ CUBIC_LAUE_GROUP) -> isreversible (new_mart (Some U) None) = Ok true ->
  exists b, isvariant U V = Ok b /\ (b = true <-> exists Q, In Q CUBIC_LAUE_GROUP /\ sqrt (fro2 3 3 (msub V (rotate (RZ Q) U))) < tolerance).
Proof.
  intros U V WU WV SP RV. assert (RG : rotation_group (getLaue (new_mart (Some U) None))).
  { change (getLaue (new_mart (Some U) None)) with (map RZ CUBIC_LAUE_GROUP). split; [apply CUBIC_good|]. intros Q HQ. apply CUBIC_good. exact HQ. }
  destruct (C27_orbit_partial (new_mart (Some U) None) U (r_new _ _) eq_refl WU RG SP RV) as (Us & idx & m' & E & _ & O).
  unfold isvariant. rewrite E. cbn [bind fst]. eexists. split; [reflexivity|]. rewrite existsb_exists. split.
  - intros (u & Hu & B). apply Rltb_spec in B. apply (exact _ _ _ _ O) in Hu as (Q & HQ & ->). change (getLaue (new_mart (Some U) None)) with (map RZ CUBIC_LAUE_GROUP) in HQ.
    apply in_map_iff in HQ as (Q' & <- & HQ). eauto.
  - intros (Q & HQ & B). exists (rotate (RZ Q) U). split; [|now apply Rltb_spec]. apply (exact _ _ _ _ O). exists (RZ Q). split; [|reflexivity].
    change (getLaue (new_mart (Some U) None)) with (map RZ CUBIC_LAUE_GROUP). now apply in_map.
Qed.
Print Assumptions C89_isvariant.

(** Distinct images of a reversible stretch under the cube's rotations always get both solutions. *)
Theorem C89_conventional_partial : forall eig skip U V h p l1 l3 Q,
  positive_definite U -> separated U (map RZ CUBIC_LAUE_GROUP) -> isreversible (new_mart (Some U) None) = Ok true ->
  In Q CUBIC_LAUE_GROUP -> V = rotate (RZ Q) U -> is_eig (twin_matrix U V) (eig (twin_matrix U V)) ->
  distinct U V -> eigenvalues (twin_matrix U V) l1 1 l3 -> clear_pair U V -> pair_after eig false skip U V h p ->
  exists t1 t2, fst (twinparam eig false p) = Ok (Some (t1, t2)) /\ rounded_twin U V t1 /\ rounded_twin U V t2.
Proof.
  intros eig skip U V h p l1 l3 Q PU SP RV HQ -> E D EV CL PA.
  assert (OQ : orthogonal 3 (RZ Q)) by (apply CUBIC_good; now apply in_map). assert (PV : positive_definite (rotate (RZ Q) U)) by now apply rotate_posdef.
  assert (VR : variants U (rotate (RZ Q) U)) by (exists (RZ Q); auto).
  destruct (C36_pair eig skip U _ h p l1 l3 PU PV E VR D EV CL PA) as (H & K).
  destruct (C89_isvariant U (rotate (RZ Q) U) (proj1 (proj1 PU)) (proj1 (proj1 PV)) SP RV) as (b & Hb & B).
  destruct H as (s1 & s2 & X).
  - rewrite Hb. f_equal. apply B. exists Q. split; [exact HQ|]. replace (fro2 3 3 (msub (rotate (RZ Q) U) (rotate (RZ Q) U))) with 0; [rewrite sqrt_0; apply small_pos|].
    destruct PV as [[WV _] _]. destruct (wf3_inv _ WV) as (? & ? & ? & ? & ? & ? & ? & ? & ? & ->). unfold fro2. mat_unfold_goal. ring.
  - exists s1, s2. split; [exact X|]. now apply K.
Qed.
Print Assumptions C89_conventional_partial.

(** A pair that no rotation of the cube relates, up to 1e-12, gets None: the variants of a parent that is not cubic have no
    twin parameters and no volume fractions, although a half turn relates them. *)
Theorem C89_other_parent : forall eig skip U V h p l1 l3,
  positive_definite U -> positive_definite V -> separated U (map RZ CUBIC_LAUE_GROUP) -> isreversible (new_mart (Some U) None) = Ok true ->
  is_eig (twin_matrix U V) (eig (twin_matrix U V)) -> variants U V -> distinct U V -> eigenvalues (twin_matrix U V) l1 1 l3 -> clear_pair U V ->
  (forall Q, In Q CUBIC_LAUE_GROUP -> tolerance <= sqrt (fro2 3 3 (msub V (rotate (RZ Q) U)))) -> pair_after eig false skip U V h p ->
  fst (twinparam eig false p) = Ok None /\ fst (volumefrac eig false p) = Raise TypeError /\ forall t, t <> TOther -> fst (iscompatible eig false t p) = Raise TypeError.
Proof.
  intros eig skip U V h p l1 l3 PU PV SP RV E VR D EV CL FAR PA.
  destruct (C89_isvariant U V (proj1 (proj1 PU)) (proj1 (proj1 PV)) SP RV) as (b & Hb & B).
  assert (b = false) by (destruct b; [|reflexivity]; destruct (proj1 B eq_refl) as (Q & HQ & L); specialize (FAR Q HQ); lra). subst b. clear B.
  assert (TP : fst (twinparam eig false p) = Ok None).
  { destruct (ax_after _ _ _ _ _ _ _ _ _ PU PV E VR D EV PA) as (v0 & v1 & v2 & p0 & N & F & I & U1 & U2 & T & NE & ES & A & Ax).
    rewrite (loose_clear U V PU PV VR NE l1 l3 v0 v1 v2 ES CL) in A.
    pose proof (param_first eig U V p0 T (proj2 (proj2 (proj2 (proj2 F)))) U1 U2 _ _ A) as P.
    rewrite (proj1 (twinparam_stable eig false p0 F p I)), P.
    pose proof (signs_some U V PU PV VR NE l1 l3 v0 v1 v2 ES) as X. pose proof (axes_good U V PU PV VR NE l1 l3 v0 v1 v2 ES) as G.
    destruct (signs U l3 v0 v1 v2) as [|s ss]; [now elim X|]. cbn [map] in *. destruct (G _ (or_introl eq_refl)) as (Le & De & R).
    destruct (C36_returned eig U V _ PU Le De) as (_ & H & _). rewrite R in H. now apply H. }
  assert (VF : fst (volumefrac eig false p) = Raise TypeError).
  { unfold volumefrac, some_param, bindS. destruct (twinparam eig false p) as [r q]. cbn [fst] in TP. subst r. reflexivity. }
  split; [exact TP|]. split; [exact VF|]. destruct (C39_types eig false skip U V h p PA) as (_ & _ & R). destruct (R _ VF) as (R1 & R2 & R3).
  intros []; auto. now intros [].
Qed.
Print Assumptions C89_other_parent.

(** a tetragonal stretch and its image under the half turn about (0, 3/5, 4/5) *)
Definition Vo : mat R := [[9/10; 0; 0]; [0; 6777/6250; 168/3125]; [0; 168/3125; 5723/6250]].
Lemma twin_o : twin_matrix Utet Vo = [[1; 0; 0]; [0; 1637/1125; 448/4125]; [0; 448/4125; 10517/15125]].
Proof.
  assert (I : minv Utet = M3 (10/9) 0 0 0 (10/9) 0 0 0 (10/11)).
  { symmetry. apply (inv_unique 3 Utet); [now right|now apply wfb_spec|now apply wfb_spec|]. unfold Utet, M3. mat_eq ltac:(lra). }
  unfold twin_matrix. rewrite I. unfold Vo, M3. mat_eq ltac:(lra).
Qed.
Example C89_other_case : exists eig p l1 l3, positive_definite Utet /\ positive_definite Vo /\ separated Utet (map RZ CUBIC_LAUE_GROUP) /\
  isreversible (new_mart (Some Utet) None) = Ok true /\ is_eig (twin_matrix Utet Vo) (eig (twin_matrix Utet Vo)) /\ half_turn_axis Utet Vo [0; 3/5; 4/5] /\
  variants Utet Vo /\ distinct Utet Vo /\ eigenvalues (twin_matrix Utet Vo) l1 1 l3 /\ clear_pair Utet Vo /\
  (forall Q, In Q CUBIC_LAUE_GROUP -> tolerance <= sqrt (fro2 3 3 (msub Vo (rotate (RZ Q) Utet)))) /\ pair_after eig false true Utet Vo [PAx] p.
Proof.
  assert (PU : positive_definite Utet) by (rewrite Utet_t1; apply pd_t1).
  assert (HA : half_turn_axis Utet Vo [0; 3/5; 4/5]).
  { split; [reflexivity|]. split; [mat_unfold_goal; lra|]. unfold rotate, half_turn, Utet, M3, Vo. mat_eq ltac:(lra). }
  assert (OH : orthogonal 3 (half_turn [0; 3/5; 4/5])) by (apply half_orth; apply HA).
  assert (VR : variants Utet Vo) by (exists (half_turn [0; 3/5; 4/5]); split; [exact OH|apply HA]).
  assert (PV : positive_definite Vo) by (destruct HA as (_ & _ & <-); now apply rotate_posdef).
  set (T := 58546/27225). assert (PT : 0 < T * T - 4) by (unfold T; lra). assert (Sq : sqrt (T * T - 4) * sqrt (T * T - 4) = T * T - 4) by (apply sqrt_sqrt; lra).
  assert (PS : 0 < sqrt (T * T - 4)) by now apply sqrt_lt_R0.
  assert (BS : sqrt (T * T - 4) < T - 2 + 2) by (assert (0 < T) by (unfold T; lra); nra). set (r := sqrt (T * T - 4)) in *. clearbody r.
  set (l1 := (T - r) / 2). set (l3 := (T + r) / 2).
  assert (Ch : forall l, l = l1 \/ l = l3 -> l * l - T * l + 1 = 0) by (intros l [->| ->]; unfold l1, l3; lra).
  assert (EV : eigenvalues (twin_matrix Utet Vo) l1 1 l3).
  { rewrite twin_o. split.
    - unfold l1, l3. assert (0 < T < 3) by (unfold T; lra). split; nra.
    - pose proof (Ch l1 (or_introl eq_refl)) as C1. pose proof (Ch l3 (or_intror eq_refl)) as C3. assert (Df : l1 < l3) by (unfold l1, l3; lra).
      exists [[0; 1; 0]; [448/4125; 0; 448/4125]; [l1 - 1637/1125; 0; l3 - 1637/1125]]. clearbody l1 l3. unfold T in *. clear - C1 C3 Df.
      split; [now apply wfb_spec|]. split; [now apply wfb_spec|]. split; [reflexivity|]. split; [rewrite det3; cbv [get nth]; lra|]. mat_eq ltac:(lra). }
  destruct (eig_exists (twin_matrix Utet Vo)) as (eg & E); [apply (twin_posdef _ _ PU PV)|].
  destruct (new_pair_ok (fun _ => eg) Utet Vo _ _ _ PU E EV) as (v0 & v1 & v2 & p & _ & Np & _).
  exists (fun _ => eg), (pair_run (fun _ => eg) false [PAx] p), l1, l3.
  split; [exact PU|]. split; [exact PV|]. split; [intros P Q HP HQ; apply tets_far; now apply tets_orbit|]. split; [exact Mtet_reversible|]. split; [exact E|].
  split; [exact HA|]. split; [exact VR|]. split; [|split; [exact EV|split; [|split]]].
  - exists 1%nat, 2%nat. split; [lia|]. split; [lia|]. cbv [get nth Utet M3 Vo]. rewrite Rabs_left; unfold tolerance, SMALL; lra.
  - intros l w0 w1 Hl L0 L1 N0 N1 H0 H1. left. rewrite twin_o in H0, H1. revert H0 H1. v3 L0. v3 L1. unfold Utet, M3, vscale. cbn [map]. mat_unfold_goal. intros H0 H1.
    injection H0 as A1 A2 A3. injection H1 as A4 A5 A6. assert (Z0 : x = 0) by nra. assert (Z1 : x4 = 0) by lra. assert (Z2 : x3 = 0) by lra. subst. ring.
  - intros Q HQ. assert (I : In (rotate (RZ Q) Utet) tets) by (apply tets_orbit; now apply in_map).
    apply Rsqr_incr_0_var; [|apply sqrt_pos]. rewrite Rsqr_sqrt.
    + unfold Rsqr. destruct I as [<-|[<-|[<-|[]]]]; unfold fro2, Vo, Dg, M3, tolerance, SMALL; mat_unfold_goal; lra.
    + destruct I as [<-|[<-|[<-|[]]]]; unfold fro2, Vo, Dg, M3; mat_unfold_goal; lra.
  - exists p. auto.
Qed.


Theorem C89_refuted : exists U V eig p e, positive_definite U /\ positive_definite V /\ half_turn_axis U V e /\ distinct U V /\
  is_eig (twin_matrix U V) (eig (twin_matrix U V)) /\ new_pair eig true U V = Ok p /\ istwinnable p = true /\ fst (ax p) <> Ok [] /\
  fst (twinparam eig false p) = Ok None /\ fst (volumefrac eig false p) = Raise TypeError.
Proof.
  destruct C89_other_case as (eig & q & l1 & l3 & PU & PV & SP & RV & E & HA & VR & D & EV & CL & FAR & (p & N & _)).
  assert (PA : pair_after eig false true Utet Vo [] p) by (exists p; auto).
  destruct (C89_other_parent eig true Utet Vo [] p l1 l3 PU PV SP RV E VR D EV CL FAR PA) as (H1 & H2 & _).
  destruct (C40_complete eig false true Utet Vo [] p l1 l3 PU PV E VR D EV PA) as (l & Al & _ & _ & (e & Ie & _) & _).
  destruct (ax_after _ _ _ _ _ _ _ _ _ PU PV E VR D EV PA) as (v0 & v1 & v2 & p0 & N0 & _ & _ & _ & _ & T & _).
  assert (p0 = p) by congruence. subst p0.
  exists Utet, Vo, eig, p, [0; 3/5; 4/5]. repeat (split; [assumption|]). split; [|now split]. rewrite Al. intros [= ->]. destruct Ie.
Qed.
Print Assumptions C89_refuted.

(** ** C88 *)
(** Without skipcheck the constructor raises ValueError exactly when one of the matrices is not symmetric up to 1e-6
    or has a determinant that is not positive, and succeeds otherwise. *)
Theorem C88_checked : forall eig U V, wf 3 3 U -> wf 3 3 V ->
  let bad X := det X <= 0 \/ 1 / 1000000 <= sqrt (fro2 3 3 (msub X (tr X))) in
  (new_pair eig false U V = Raise ValueError <-> bad U \/ bad V) /\
  ((exists p, new_pair eig false U V = Ok p) <-> ~ (bad U \/ bad V)).
Proof.
  intros eig U V WU WV bad.
  assert (B : forall X, wf 3 3 X -> (pos_def_sym X = false <-> bad X) /\ (pos_def_sym X = true -> 0 < det X)).
  { intros X W. pose proof (C32_exact_partial X W) as H. unfold bad. destruct (pos_def_sym X); split; try split; try congruence.
    - intros [L|L]; destruct (proj1 H eq_refl); lra.
    - intros _. apply (proj1 H eq_refl).
    - intros _. destruct (Rle_or_lt (det X) 0) as [L|L]; [now left|right]. destruct (Rle_or_lt (1 / 1000000) (sqrt (fro2 3 3 (msub X (tr X))))) as [Q|Q]; [exact Q|].
      assert (false = true) by (apply H; auto). discriminate. }
  destruct (B U WU) as (BU & DU). destruct (B V WV) as (BV & _).
  assert (K : (new_pair eig false U V = Raise ValueError /\ (bad U \/ bad V)) \/ ((exists p, new_pair eig false U V = Ok p) /\ ~ (bad U \/ bad V))).
  { unfold new_pair. cbn [negb andb]. destruct (pos_def_sym U); cbn [negb orb]; [|left; split; [reflexivity|left; now apply BU]].
    destruct (pos_def_sym V); cbn [negb]; [|left; split; [reflexivity|right; now apply BV]]. right. split.
    - rewrite (inv_Ok 3 U (or_intror eq_refl) WU) by (specialize (DU eq_refl); lra). cbn [bind]. destruct (sort_eig _). eauto.
    - intros [X|X]; [apply BU in X|apply BV in X]; discriminate. }
  destruct K as [(A & C)|((q & A) & C)]; (split; split; intros Y; [auto|auto| |]).
  - destruct Y as (q & Y). congruence.
  - now elim Y.
  - congruence.
  - now elim C.
  - auto.
  - eauto.
Qed.
Print Assumptions C88_checked.

(** Positive definite matrices are accepted, with or without the check, and the check changes nothing for them. *)
Theorem C88_accepts : forall eig U V, positive_definite U -> positive_definite V ->
  exists p, new_pair eig false U V = Ok p /\ new_pair eig true U V = Ok p /\ p_Ui p = U /\ p_Uj p = V.
Proof.
  intros eig U V PU PV. unfold new_pair. rewrite (C32_accepts_partial U PU), (C32_accepts_partial V PV). cbn [negb andb orb].
  rewrite (inv_posdef U PU). cbn [bind]. destruct (sort_eig _) as [e v]. eexists. split; [reflexivity|]. split; [reflexivity|]. now split.
Qed.
Print Assumptions C88_accepts.

(** A symmetric matrix that is not positive definite gets through as either argument. *)
Theorem C88_refuted : exists X Y, MartSpec.symmetric X /\ ~ positive_definite X /\ positive_definite Y /\
  forall eig, (exists p, new_pair eig false X Y = Ok p) /\ (exists p, new_pair eig false Y X = Ok p).
Proof.
  destruct C32_refuted as (X & S & NP & P). exists X, t1. split; [exact S|]. split; [exact NP|]. split; [apply pd_t1|]. intros eig.
  assert (WT : wf 3 3 t1) by apply pd_t1.
  assert (OK : forall Z, wf 3 3 Z -> pos_def_sym Z = true -> ~ (det Z <= 0 \/ 1 / 1000000 <= sqrt (fro2 3 3 (msub Z (tr Z))))).
  { intros Z W H. apply (C32_exact_partial Z W) in H. intros [L|L]; lra. }
  pose proof (OK X (proj1 S) P) as O1. pose proof (OK t1 WT (C32_accepts_partial _ pd_t1)) as O2.
  split; apply C88_checked; auto; try apply S; intros [Q|Q]; contradiction.
Qed.
Print Assumptions C88_refuted.
Example C88_case : exists eig p, new_pair eig false t1 t2 = Ok p.
Proof. destruct (C88_accepts (fun _ => ([], [])) t1 t2 pd_t1 pd_t2) as (p & H & _). eauto. Qed.
