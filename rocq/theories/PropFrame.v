(** Property C105: which of the variants is taken as the stretch tensor.  Specification: MartSpec.v; model: MartModel.v. *)
From Verif Require Import RMat LinAlg Lagrange ReduceProofs GroupSpec GroupModel GroupProofs LatticeModel LatticeSpec LatticeProofs LatticeLaue LatticeComplete MartModel MartSpec MartProofs TwinProofs PropMart MartFrame MartConj MartAcc.
Local Open Scope R_scope.

Lemma rotate_comp P Q U : wf 3 3 P -> wf 3 3 Q -> wf 3 3 U -> rotate P (rotate Q U) = rotate (mmul P Q) U.
Proof.
  intros WP WQ WU. unfold rotate. assert (T : forall A : mat R, wf 3 3 A -> wf 3 3 (tr A)) by (intros; apply wf_tr'; auto; lia).
  assert (M : forall A B : mat R, wf 3 3 A -> wf 3 3 B -> wf 3 3 (mmul A B)) by (intros; apply (wf_mmul 3 3 3); auto; lia).
  rewrite (tr_mmul 3 3 3) by (auto; lia). rewrite !(mmul_assoc 3 3 3 3) by (auto; lia). reflexivity.
Qed.
Lemma separated_image U G Q : wf 3 3 U -> is_group 3 G -> In Q G -> separated U G -> separated (rotate Q U) G.
Proof.
  intros WU (WG & _ & _ & MG & _) HQ S P P' HP HP'. rewrite !rotate_comp by auto. apply S; now apply MG.
Qed.

(** When setU is given a variant V of the present stretch tensor, it returns an object; if that object is reversible too, its variants are
    the same ones, with V listed first.  For every group whose images of U are farther apart than the comparison tolerance.
    Missing: that the object is reversible. *)
Theorem C105_same_variants_partial : forall m U Us m1 V, reachable m -> m_U m = Some U -> positive_definite U -> rotation_group (getLaue m) ->
  separated U (getLaue m) -> isreversible m = Ok true -> getvariants m = Ok (Us, m1) -> In V Us ->
  exists m2, setU m [Seq (Some V)] = Ok m2 /\ getU m2 = Ok V /\ getLaue m2 = getLaue m /\
    (isreversible m2 = Ok true -> exists Us2 m3, getvariants m2 = Ok (Us2, m3) /\ Permutation Us2 Us /\ hd_error Us2 = Some V).
Proof.
  intros m U Us m1 V RM EU PU HG HS HR HV HI. pose proof (proj1 (proj1 PU)) as WU.
  destruct (C27_orbit_partial m U RM EU WU HG HS HR) as (Us' & idx & m1' & E & _ & O). rewrite HV in E. injection E as <- <-.
  destruct (proj1 (exact _ _ _ _ O V) HI) as (Q & HQ & ->). pose proof (proj2 HG Q HQ) as OQ. pose proof (proj1 HG) as GG.
  assert (PV : positive_definite (rotate Q U)) by (apply rotate_posdef; auto). assert (WV : wf 3 3 (rotate Q U)) by apply PV.
  destruct (C26_accepts m [Seq (Some (rotate Q U))] (rotate Q U)) as (m2 & S2 & U2 & L2); [cbn; now rewrite (proj2 (wfb_spec 3 3 _) WV)|exact PV|].
  exists m2. split; [exact S2|]. split; [exact U2|]. split; [exact L2|]. intros R2.
  assert (EU2 : m_U m2 = Some (rotate Q U)) by (unfold getU in U2; destruct (m_U m2); [now injection U2 as ->|discriminate]).
  destruct (C27_orbit_partial m2 (rotate Q U) (r_setU _ _ _ RM S2) EU2 WV) as (Us2 & idx2 & m3 & E2 & _ & O2);
    [now rewrite L2|rewrite L2; now apply separated_image|exact R2|].
  exists Us2, m3. split; [exact E2|]. split; [|exact (first _ _ _ _ O2)]. destruct GG as (WG & _ & _ & MG & IG).
  apply NoDup_Permutation; [exact (once _ _ _ _ O2)|exact (once _ _ _ _ O)|]. intros W. rewrite (exact _ _ _ _ O2 W), (exact _ _ _ _ O W), L2. split.
  - intros (P & HP & ->). exists (mmul P Q). split; [now apply MG|]. apply rotate_comp; auto.
  - intros (P & HP & ->). destruct (IG Q HQ) as (Qi & HQi & _ & Ei). exists (mmul P Qi). split; [now apply MG|]. rewrite rotate_comp by auto.
    rewrite (mmul_assoc 3 3 3 3), Ei, (mmul_eye_r 3 3) by (auto; lia). reflexivity.
Qed.
Print Assumptions C105_same_variants_partial.

(** * The hexagonal case *)
Lemma Vz_Laue : exists G, Laue_group Vz = Ok G /\ length G = 6%nat /\ In (nth 4 HEX_LAUE_GROUP []) G.
Proof.
  unfold Laue_group. change (length Vz) with 3%nat. unfold pick_group, cubic_arr. rewrite (keep_filter Vz alongz) by exact Vz_cubic. cbn [bind]. rewrite map_length.
  change (length (filter alongz CUBIC_LAUE_GROUP)) with 4%nat. cbn [Nat.eqb]. rewrite Vz_hex. cbn [bind map length Nat.ltb Nat.leb].
  eexists. split; [reflexivity|]. split; [reflexivity|]. right. right. now left.
Qed.
Lemma Ux_Laue : Laue_group Ux = Ok (map RZ (filter alongx CUBIC_LAUE_GROUP)).
Proof.
  unfold Laue_group. change (length Ux) with 3%nat. unfold pick_group, cubic_arr. rewrite (keep_filter Ux alongx) by exact Ux_cubic. cbn [bind]. rewrite map_length.
  change (length (filter alongx CUBIC_LAUE_GROUP)) with 4%nat. cbn [Nat.eqb]. rewrite Ux_hex. reflexivity.
Qed.
Definition Mx : mart := new_mart (Some Ux) None.
Lemma Mx_reversible : isreversible Mx = Ok true.
Proof.
  unfold isreversible. cbn [getU m_U Mx new_mart bind]. rewrite (new_lattice_base _ Ux_base). cbn [bind]. rewrite Ux_Laue. cbn [bind].
  change (getLaue Mx) with (map RZ CUBIC_LAUE_GROUP). rewrite !map_length. change (length (filter alongx CUBIC_LAUE_GROUP) <=? length CUBIC_LAUE_GROUP)%nat with true.
  cbv iota. apply hassubgroup_iff; [discriminate|]. rewrite !map_length. change (length (filter alongx CUBIC_LAUE_GROUP)) with 4%nat. change (length CUBIC_LAUE_GROUP) with 24%nat.
  split; [split; [lia|exists 6%nat; reflexivity]|]. intros m1 H. apply in_map_iff in H. destruct H as (Q & <- & HQ). apply filter_In in HQ.
  exists (RZ Q). split; [apply in_map; apply HQ|apply allclose_refl].
Qed.
Lemma posdef_Ux : positive_definite Ux.
Proof.
  apply posdef_minors; [split; [now apply wfb_spec|reflexivity]|]. pose proof s3_sq. pose proof s3_bounds. unfold Ux, M3. rewrite ?det3. cbn. repeat split; nra.
Qed.
(** an entry of an image of Ux under the cubic group *)
Definition level (x : R) : Prop := x = 0 \/ x = 1 \/ x = -1 \/ x = 2 + s3.
Lemma Ux_levels Q : In Q (map RZ CUBIC_LAUE_GROUP) -> wf 3 3 (rotate Q Ux) /\ forall i j, (i < 3)%nat -> (j < 3)%nat -> level (get (rotate Q Ux) i j).
Proof.
  intros HQ. split.
  { assert (W : wf 3 3 Q) by (destruct (proj2 CUBIC_good Q HQ) as [[W _] _]; exact W). unfold rotate. apply (wf_mmul 3 3 3); [apply (wf_mmul 3 3 3); [exact W|now apply wfb_spec|lia]|apply wf_tr'; auto; lia|lia]. }
  apply in_map_iff in HQ. destruct HQ as (M & <- & HM). unfold CUBIC_LAUE_GROUP in HM. cbn [In] in HM. pose proof s3_bounds.
  repeat match type of HM with _ \/ _ => destruct HM as [HM|HM] end; try contradiction; subst M;
    apply lt3; unfold level, rotate, Ux, M3; cbn; first [left; lra|right; left; lra|right; right; left; lra|right; right; right; lra].
Qed.
Lemma level_gap x y : level x -> level y -> Rabs (x - y) <= 1 / 100000000 + 1 / 100000 * Rabs y -> x = y.
Proof.
  pose proof s3_bounds. unfold level. intros Hx Hy K. unfold Rabs in K. destruct Hx as [->|[->|[->| ->]]], Hy as [->|[->|[->| ->]]]; try reflexivity;
    repeat match type of K with context [Rcase_abs ?t] => destruct (Rcase_abs t) end; lra.
Qed.
Lemma Ux_separated : separated Ux (map RZ CUBIC_LAUE_GROUP).
Proof.
  intros P Q HP HQ H. destruct (Ux_levels P HP) as [WP LP]. destruct (Ux_levels Q HQ) as [WQ LQ].
  apply (mat_ext 3 3); auto. intros i j Hi Hj. apply level_gap; auto. exact (proj1 (allclose_spec 2 3 _ _ WP) H i j Hi Hj).
Qed.
Lemma Vz_image : Vz = rotate (RZ [[0; 1; 0]; [0; 0; 1]; [1; 0; 0]]%Z) Ux.
Proof. unfold rotate, Ux, Vz, RZ, mmap. mat_eq ltac:(ring). Qed.
Lemma C1_far Q : In Q CUBIC_LAUE_GROUP -> allclose (nth 4 HEX_LAUE_GROUP []) (RZ Q) = false.
Proof.
  intros HQ. assert (G : exists z, get Q 0 0 = z /\ (z = 0 \/ z = 1 \/ z = -1)%Z).
  { unfold CUBIC_LAUE_GROUP in HQ. cbn [In] in HQ. repeat match type of HQ with _ \/ _ => destruct HQ as [HQ|HQ] end; try contradiction; subst Q; eexists; (split; [reflexivity|tauto]). }
  destruct G as (z & Gz & Hz). apply (allclose_at 3 _ _ 0 0); [now apply wfb_spec|lia|lia|reflexivity|]. rewrite get_RZ, Gz. cbn [nth HEX_LAUE_GROUP get]. cbn. rewrite C1_half.
  destruct Hz as [->|[->| ->]]; cbn; rabs; lra.
Qed.

(** Reversibility does depend on the variant: for the default group there are a stretch tensor U with variants and among these a variant V for which
    setU(V).getvariants() raises AttributeError. *)
Theorem C105_refuted : exists U V Us m1 m2, let m := new_mart (Some U) None in
  positive_definite U /\ separated U (getLaue m) /\ isreversible m = Ok true /\ getvariants m = Ok (Us, m1) /\ In V Us /\
  setU m [Seq (Some V)] = Ok m2 /\ isreversible m2 = Ok false /\ getvariants m2 = Raise AttributeError.
Proof.
  assert (GG : rotation_group (map RZ CUBIC_LAUE_GROUP)) by (split; [exact (proj1 CUBIC_good)|intros Q HQ; apply (proj2 CUBIC_good Q HQ)]).
  destruct (C27_orbit_partial Mx Ux (r_new _ _) eq_refl (proj1 (proj1 posdef_Ux)) GG Ux_separated Mx_reversible) as (Us & idx & m1 & E & _ & O).
  assert (HI : In Vz Us).
  { apply (exact _ _ _ _ O). exists (RZ [[0; 1; 0]; [0; 0; 1]; [1; 0; 0]]%Z). split; [|exact Vz_image]. apply in_map. unfold CUBIC_LAUE_GROUP. cbn. tauto. }
  destruct (C105_same_variants_partial Mx Ux Us m1 Vz (r_new _ _) eq_refl posdef_Ux GG Ux_separated Mx_reversible E HI) as (m2 & S2 & U2 & L2 & _).
  assert (R2 : isreversible m2 = Ok false).
  { unfold isreversible. rewrite U2. cbn [bind]. rewrite (new_lattice_base _ Vz_base). cbn [bind]. destruct Vz_Laue as (G & -> & LG & IG). cbn [bind]. rewrite LG, L2.
    change (getLaue Mx) with (map RZ CUBIC_LAUE_GROUP). rewrite map_length. change (6 <=? length CUBIC_LAUE_GROUP)%nat with true. cbv iota.
    destruct (hassubgroup_total (map RZ CUBIC_LAUE_GROUP) G) as ([|] & HH); [|exact HH]. exfalso. apply hassubgroup_iff in HH; [|discriminate].
    destruct (proj2 HH _ IG) as (M & HM & C). apply in_map_iff in HM. destruct HM as (Q & <- & HQ). rewrite (C1_far Q HQ) in C. discriminate. }
  exists Ux, Vz, Us, m1, m2. cbv zeta. change (new_mart (Some Ux) None) with Mx. split; [exact posdef_Ux|]. split; [exact Ux_separated|]. split; [exact Mx_reversible|].
  split; [exact E|]. split; [exact HI|]. split; [exact S2|]. split; [exact R2|]. exact (proj1 (C27_irreversible m2 (r_setU Mx _ _ (r_new _ _) S2) R2)).
Qed.
Print Assumptions C105_refuted.

(** * Stretch tensors whose lattice does not have just four rotations *)
Lemma cubic_table_pos n : (length (filter n CUBIC_LAUE_GROUP) <= 24)%nat.
Proof. change 24%nat with (length CUBIC_LAUE_GROUP). rewrite <- (firstn_all (filter n CUBIC_LAUE_GROUP)). generalize CUBIC_LAUE_GROUP. intros l. rewrite firstn_all. induction l as [|x l IH]; cbn; [lia|]. destruct (n x); cbn; lia. Qed.
Lemma keep_cubic U : base 3 U -> keep U cubic_arr = Ok (map RZ (filter (acc U) CUBIC_LAUE_GROUP)).
Proof.
  intros B. unfold cubic_arr. apply keep_filter. intros Q HQ. destruct (cubic_wf Q HQ) as [_ OQ]. destruct (inpoint_total 3 U B (IntArr Q) OQ) as [b Hb].
  unfold acc. now rewrite Hb.
Qed.
Lemma cj_inj q P P' : In q CUBIC_LAUE_GROUP -> In P CUBIC_LAUE_GROUP -> In P' CUBIC_LAUE_GROUP -> cj q P = cj q P' -> P = P'.
Proof.
  intros Hq HP HP' H. assert (K : forallb (fun q => forallb (fun P => mat_eqb (cj (tr q) (cj q P)) P) CUBIC_LAUE_GROUP) CUBIC_LAUE_GROUP = true) by (vm_compute; reflexivity).
  rewrite forallb_forall in K. specialize (K q Hq). rewrite forallb_forall in K. pose proof (K P HP) as K1. pose proof (K P' HP') as K2. apply mat_eqb_eq in K1, K2. congruence.
Qed.
Lemma acc_count_le U q : base 3 U -> In q CUBIC_LAUE_GROUP ->
  (length (filter (acc U) CUBIC_LAUE_GROUP) <= length (filter (acc (rotate (RZ q) U)) CUBIC_LAUE_GROUP))%nat.
Proof.
  intros B Hq. rewrite <- (map_length (cj q) (filter (acc U) _)). apply NoDup_incl_length.
  - apply NoDup_map_inj_in; [|apply NoDup_filter; apply nodupb_NoDup; vm_compute; reflexivity].
    intros P P' HP HP'. apply filter_In in HP, HP'. apply cj_inj; [exact Hq|apply HP|apply HP'].
  - intros X HX. apply in_map_iff in HX. destruct HX as (P & <- & HP). apply filter_In in HP. apply filter_In. split; [apply cubic_cj; tauto|apply acc_conj; tauto].
Qed.
Lemma cubic_tr q : In q CUBIC_LAUE_GROUP -> In (tr q) CUBIC_LAUE_GROUP.
Proof.
  intros Hq. assert (K : forallb (fun q => mem_mat (tr q) CUBIC_LAUE_GROUP) CUBIC_LAUE_GROUP = true) by (vm_compute; reflexivity).
  rewrite forallb_forall in K. apply mem_mat_In. now apply K.
Qed.
Lemma acc_count U q : base 3 U -> In q CUBIC_LAUE_GROUP ->
  length (filter (acc (rotate (RZ q) U)) CUBIC_LAUE_GROUP) = length (filter (acc U) CUBIC_LAUE_GROUP).
Proof.
  intros B Hq. apply Nat.le_antisymm; [|now apply acc_count_le]. pose proof (rotate_base U q B Hq) as BV. pose proof (acc_count_le _ (tr q) BV (cubic_tr q Hq)) as H.
  destruct (cubic_wf q Hq) as [Wq Oq]. rewrite rotate_comp in H; [|apply wf_RZ, wf_tr'; auto; lia|now apply wf_RZ|apply B].
  rewrite RZ_tr, (orth_l 3 (RZ q)) in H; [|now right|exact (orth_arr_values 3 (IntArr q) Oq)].
  replace (rotate (eye 3) U) with U in H; [exact H|]. pose proof (proj1 (proj2 B)) as WU. unfold rotate. rewrite (mmul_eye_l 3 3) by (auto; lia). change (tr (eye 3)) with (eye 3 : mat R).
  now rewrite (mmul_eye_r 3 3) by (auto; lia).
Qed.
(** the elements of the hexagonal table close to a rotation of the cube *)
Lemma hex_far Q P : In Q HEX_LAUE_GROUP -> In P CUBIC_LAUE_GROUP -> allclose Q (RZ P) = true -> In Q (firstn 4 HEX_LAUE_GROUP).
Proof.
  intros HQ HP H. assert (G : exists z, get P 0 0 = z /\ (z = 0 \/ z = 1 \/ z = -1)%Z).
  { unfold CUBIC_LAUE_GROUP in HP. cbn [In] in HP. repeat match type of HP with _ \/ _ => destruct HP as [HP|HP] end; try contradiction; subst P; eexists; (split; [reflexivity|tauto]). }
  destruct G as (z & Gz & Hz). rewrite <- (firstn_skipn 4 HEX_LAUE_GROUP) in HQ. apply in_app_or in HQ. destruct HQ as [HQ|HQ]; [exact HQ|exfalso].
  assert (K : wf 3 3 Q /\ (get Q 0 0 = C1 \/ get Q 0 0 = - C1)).
  { unfold HEX_LAUE_GROUP in HQ. cbn [skipn In] in HQ. repeat match type of HQ with _ \/ _ => destruct HQ as [HQ|HQ] end; try contradiction; subst Q; (split; [now apply wfb_spec|]); cbn; auto. }
  destruct K as [WQ K]. rewrite (allclose_at 3 _ _ 0 0) in H; [discriminate|exact WQ|lia|lia|reflexivity|]. rewrite get_RZ, Gz. rewrite C1_half in K.
  destruct K as [->| ->]; destruct Hz as [->|[->| ->]]; cbn; rabs; lra.
Qed.
Lemma keep_hex U : base 3 U -> exists h, keep U hex_arr = Ok h /\ NoDup h /\ forall Q, In Q h -> In Q HEX_LAUE_GROUP.
Proof.
  intros B. assert (O : forall Q, In Q hex_arr -> orth_arr 3 Q).
  { intros Q HQ. unfold hex_arr in HQ. apply in_map_iff in HQ. destruct HQ as (P & <- & HP). cbn. apply (proj2 HEX_group P HP). }
  rewrite (LatticeProofs.keep_filter 3 U B hex_arr O). eexists. split; [reflexivity|]. split.
  - apply NoDup_map_inj_in.
    + intros x y Hx Hy. apply filter_In in Hx, Hy. destruct Hx as [Hx _], Hy as [Hy _]. unfold hex_arr in Hx, Hy. apply in_map_iff in Hx, Hy.
      destruct Hx as (P & <- & _), Hy as (P' & <- & _). cbn. now intros ->.
    + apply NoDup_filter. unfold hex_arr. apply NoDup_map_inj_in; [intros x y _ _ E; now injection E|]. apply (proj1 HEX_group).
  - intros Q HQ. apply in_map_iff in HQ. destruct HQ as (P & <- & HP). apply filter_In in HP. destruct HP as [HP _]. unfold hex_arr in HP. apply in_map_iff in HP.
    destruct HP as (P' & <- & HP). exact HP.
Qed.
Lemma cubic_reversible m U G : m_U m = Some U -> base 3 U -> getLaue m = map RZ CUBIC_LAUE_GROUP -> isreversible m = Ok true -> Laue_group U = Ok G -> length G <> 4%nat ->
  G = map RZ (filter (acc U) CUBIC_LAUE_GROUP).
Proof.
  intros EU B HL HR HG HN. unfold isreversible in HR. unfold getU in HR. rewrite EU in HR. cbn [bind] in HR. rewrite (new_lattice_base _ B) in HR. cbn [bind] in HR.
  rewrite HG in HR. cbn [bind] in HR. rewrite HL in HR. destruct (length G <=? length (map RZ CUBIC_LAUE_GROUP))%nat; [|discriminate].
  apply hassubgroup_iff in HR; [|discriminate]. destruct HR as [_ HR]. destruct (proj1 (proj2 B)) as [L3 _]. unfold Laue_group in HG. rewrite L3 in HG. unfold pick_group in HG.
  destruct (keep_hex U B) as (h & Eh & ND & IH). rewrite (keep_cubic U B), Eh in HG. generalize dependent (map RZ (filter (acc U) CUBIC_LAUE_GROUP)). intros F HG. cbn [bind] in HG.
  destruct (length F =? 4)%nat eqn:E4; [|injection HG as HG; congruence]. apply Nat.eqb_eq in E4. destruct (length F <? length h)%nat eqn:El; [|injection HG as HG; congruence].
  injection HG as HG. subst h. exfalso. apply Nat.ltb_lt in El. clear HN Eh. assert (LE : (length G <= length (firstn 4 HEX_LAUE_GROUP))%nat).
  { apply NoDup_incl_length; [exact ND|]. intros Q HQ. destruct (HR Q HQ) as (M & HM & C). apply in_map_iff in HM. destruct HM as (P & <- & HP). now apply (hex_far Q P); auto. }
  change (length (firstn 4 HEX_LAUE_GROUP)) with 4%nat in LE. lia.
Qed.

(** For the cubic group, and a stretch tensor whose lattice has a Laue group G of another number of elements than four, nothing is missing: setU
    of a variant V is reversible again, and has the same variants, with V first. *)
Theorem C105_cubic_partial : forall m U G Us m1 V, reachable m -> m_U m = Some U -> positive_definite U -> getLaue m = map RZ CUBIC_LAUE_GROUP ->
  separated U (getLaue m) -> isreversible m = Ok true -> Laue_group U = Ok G -> length G <> 4%nat -> getvariants m = Ok (Us, m1) -> In V Us ->
  exists m2 G2 Us2 m3, setU m [Seq (Some V)] = Ok m2 /\ getU m2 = Ok V /\ isreversible m2 = Ok true /\ Laue_group V = Ok G2 /\ length G2 = length G /\
    getvariants m2 = Ok (Us2, m3) /\ Permutation Us2 Us /\ hd_error Us2 = Some V.
Proof.
  intros m U G Us m1 V RM EU PU HL HS HR HG HN HV HI.
  assert (GG : rotation_group (getLaue m)) by (rewrite HL; split; [exact (proj1 CUBIC_good)|intros Q HQ; apply (proj2 CUBIC_good Q HQ)]).
  pose proof (proj1 (proj1 PU)) as WU. assert (B : base 3 U) by (split; [now right|]; split; [exact WU|]; pose proof (posdef_det U PU); lra).
  pose proof (cubic_reversible m U G EU B HL HR HG HN) as EG.
  destruct (C105_same_variants_partial m U Us m1 V RM EU PU GG HS HR HV HI) as (m2 & S2 & U2 & L2 & K).
  destruct (C27_orbit_partial m U RM EU WU GG HS HR) as (Us' & idx & m1' & E & _ & O). rewrite HV in E. injection E as <- <-.
  destruct (proj1 (exact _ _ _ _ O V) HI) as (Q & HQ & EV). rewrite HL in HQ. apply in_map_iff in HQ. destruct HQ as (q & <- & Hq).
  pose proof (rotate_base U q B Hq) as BV. rewrite <- EV in BV. pose proof (acc_count U q B Hq) as CT. rewrite <- EV in CT.
  assert (LV : Laue_group V = Ok (map RZ (filter (acc V) CUBIC_LAUE_GROUP))).
  { unfold Laue_group. destruct (proj1 (proj2 BV)) as [L3 _]. rewrite L3. unfold pick_group. rewrite (keep_cubic V BV). cbn [bind]. rewrite map_length, CT.
    rewrite EG, map_length in HN. destruct (_ =? 4)%nat eqn:E4; [apply Nat.eqb_eq in E4; congruence|reflexivity]. }
  assert (R2 : isreversible m2 = Ok true).
  { unfold isreversible. rewrite U2. cbn [bind]. rewrite (new_lattice_base _ BV). cbn [bind]. rewrite LV. cbn [bind]. rewrite L2, HL, !map_length.
    change (length CUBIC_LAUE_GROUP) with 24%nat. rewrite (proj2 (Nat.leb_le _ _) (cubic_table_pos _)). apply hassubgroup_iff; [discriminate|]. rewrite !map_length, CT.
    change (length CUBIC_LAUE_GROUP) with 24%nat. split.
    - unfold isreversible, getU in HR. rewrite EU in HR. cbn [bind] in HR. rewrite (new_lattice_base _ B) in HR. cbn [bind] in HR. rewrite HG in HR. cbn [bind] in HR.
      rewrite HL in HR. destruct (_ <=? _)%nat; [|discriminate]. apply hassubgroup_iff in HR; [|discriminate]. destruct HR as [HR _]. rewrite EG, !map_length in HR. exact HR.
    - intros M HM. apply in_map_iff in HM. destruct HM as (P & <- & HP). apply filter_In in HP. exists (RZ P). split; [apply in_map; tauto|apply allclose_refl]. }
  destruct (K R2) as (Us2 & m3 & E2 & PE & HD). exists m2. eexists. exists Us2, m3. split; [exact S2|]. split; [exact U2|]. split; [exact R2|]. split; [exact LV|].
  split; [rewrite EG, !map_length; exact CT|]. auto.
Qed.
Print Assumptions C105_cubic_partial.

Lemma posdef_Utet : positive_definite Utet.
Proof. apply posdef_minors; [split; [now apply wfb_spec|reflexivity]|]. unfold Utet, M3. rewrite ?det3. cbn. repeat split; lra. Qed.
(** The tetragonal stretch has a Laue group of eight elements; any of its three variants may be taken. *)
Example C105_case : exists Us m1, getvariants Mtet = Ok (Us, m1) /\ Permutation Us tets /\ forall V, In V tets ->
  exists m2 Us2 m3, setU Mtet [Seq (Some V)] = Ok m2 /\ isreversible m2 = Ok true /\ getvariants m2 = Ok (Us2, m3) /\ Permutation Us2 tets /\ hd_error Us2 = Some V.
Proof.
  destruct C27_case as (RM & GG & HS & HR & Us & idx & m' & E & _ & PE). exists Us, m'. split; [exact E|]. split; [exact PE|]. intros V HV.
  destruct (C105_cubic_partial Mtet Utet _ Us m' V RM eq_refl posdef_Utet eq_refl HS HR Utet_Laue ltac:(vm_compute; discriminate) E
    (Permutation_in _ (Permutation_sym PE) HV)) as (m2 & G2 & Us2 & m3 & S2 & _ & R2 & _ & _ & E2 & P2 & HD).
  exists m2, Us2, m3. repeat (split; [assumption|]). split; [eapply Permutation_trans; eassumption|exact HD].
Qed.
