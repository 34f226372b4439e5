(** C112: the correspondences do not depend on how the two lattices are oriented. *)
From Verif Require Import LinAlg RMat GroupModel GroupSpec GroupProofs HnfSpec LatticeModel LatticeSpec LatticeProofs LatticeGroups LatticeLaue LatticeComplete
  LLLModel DistModel TreeModel TreeProofs TreeSpec LatCorModel LatCorCase SelfSearch PropLattice PropBase DirectProofs Eig OrientProofs OrientCase OrientRun UnitProofs.
Local Open Scope R_scope.

(** Laue_group lists exactly the rotations that map the lattice onto itself (C16 says when it does) *)
Definition all_found (E : mat R) : Prop := exists G, Laue_group E = Ok G /\ forall Q, In Q G <-> rotation_matrix 3 Q /\ preserves 3 Q E.

Lemma found_special E : base 3 E -> all_found E -> exists L, special_lattice_group E = Ok L /\
  forall M, In M L <-> exists R0, rotation_matrix 3 R0 /\ wf 3 3 M /\ mmul R0 E = mmul E (RZ M).
Proof.
  intros B (G & EG & HG). exists (map (irep E) G). unfold special_lattice_group. rewrite EG. cbn [bind]. rewrite (to_integer_rep_ok 3 E B). split; [reflexivity|]. intros M. rewrite in_map_iff. split.
  - intros (R0 & <- & H). apply HG in H. destruct H as (RR & P). exists R0. split; [exact RR|]. split; [apply (irep_wf 3 E B); apply RR|]. symmetry. apply (irep_exact 3 E B); [apply RR|exact P].
  - intros (R0 & RR & WM & H). exists R0. split; [apply (irep_unique 3 E B); auto; apply RR|]. apply HG. split; [exact RR|]. apply (preserves_iff 3 E B); [apply RR|]. exists M. auto.
Qed.
Lemma conj_rotation Q R0 : orthogonal 3 Q -> rotation_matrix 3 R0 -> rotation_matrix 3 (mmul (mmul Q R0) (tr Q)).
Proof.
  intros O (OR & DR). assert (d : dim23 3) by (now right). pose proof (proj1 O) as WQ. pose proof (proj1 OR) as WR. assert (TQ : wf 3 3 (tr Q)) by (apply wf_tr'; auto; lia).
  assert (TR : wf 3 3 (tr R0)) by (apply wf_tr'; auto; lia). assert (WQR : wf 3 3 (mmul Q R0)) by (apply (wf_mmul 3 3 3); auto; lia).
  destruct (orth_tr 3 Q d O) as (_ & HT). rewrite (tr_tr 3 3) in HT by (auto; lia). split; [split|].
  - apply (wf_mmul 3 3 3); auto; lia.
  - rewrite (tr_mmul 3 3 3), (tr_tr 3 3), (tr_mmul 3 3 3) by (auto; lia). assert (WRT : wf 3 3 (mmul (tr R0) (tr Q))) by (apply (wf_mmul 3 3 3); auto; lia).
    rewrite (mmul_assoc 3 3 3 3 (mmul Q R0)) by (auto; try lia; apply (wf_mmul 3 3 3); auto; lia). rewrite <- (mmul_assoc 3 3 3 3 (tr Q)) by (auto; lia). rewrite HT, (mmul_eye_l 3 3) by (auto; lia).
    rewrite (mmul_assoc 3 3 3 3 Q) by (auto; lia). rewrite <- (mmul_assoc 3 3 3 3 R0) by (auto; lia). rewrite (proj2 OR), (mmul_eye_l 3 3) by (auto; lia). apply O.
  - rewrite !(det_mmul 3) by (auto; apply (wf_mmul 3 3 3); auto; lia). rewrite DR. transitivity (det (mmul Q (tr Q))); [rewrite (det_mmul 3) by auto; ring|]. rewrite (proj2 O). now apply det_eye.
Qed.
Lemma found_turn Q E L L' : orthogonal 3 Q -> base 3 E -> all_found E -> all_found (mmul Q E) -> special_lattice_group E = Ok L -> special_lattice_group (mmul Q E) = Ok L' -> same_elements L' L.
Proof.
  intros O B F F' H H'. assert (d : dim23 3) by (now right). pose proof (turn_base Q E O B) as B'. destruct (found_special E B F) as (L0 & H0 & K). destruct (found_special _ B' F') as (L0' & H0' & K').
  rewrite H in H0. injection H0 as <-. rewrite H' in H0'. injection H0' as <-. intros M. rewrite K, K'. pose proof (proj1 O) as WQ. pose proof (proj1 (proj2 B)) as WE.
  assert (TQ : wf 3 3 (tr Q)) by (apply wf_tr'; auto; lia). destruct (orth_tr 3 Q d O) as (OT & HT). rewrite (tr_tr 3 3) in HT by (auto; lia).
  assert (OTr : orthogonal 3 (tr Q)) by (now apply orth_tr). assert (WQE : wf 3 3 (mmul Q E)) by (apply (wf_mmul 3 3 3); auto; lia).
  split; intros (R0 & RR & WM & EQ); pose proof (proj1 (proj1 RR)) as WR; pose proof (wf_RZ 3 3 M WM) as WZ.
  - exists (mmul (mmul (tr Q) R0) Q). split; [|split; [exact WM|]].
    + pose proof (conj_rotation (tr Q) R0 OTr RR) as C. now rewrite (tr_tr 3 3) in C by (auto; lia).
    + assert (WTR : wf 3 3 (mmul (tr Q) R0)) by (apply (wf_mmul 3 3 3); auto; lia). rewrite (mmul_assoc 3 3 3 3) by (auto; lia). rewrite (mmul_assoc 3 3 3 3) by (auto; lia). rewrite EQ.
      rewrite (mmul_assoc 3 3 3 3 Q) by (auto; lia). assert (WEM : wf 3 3 (mmul E (RZ M))) by (apply (wf_mmul 3 3 3); auto; lia). rewrite <- (mmul_assoc 3 3 3 3 (tr Q)) by (auto; lia). now rewrite HT, (mmul_eye_l 3 3) by (auto; lia).
  - exists (mmul (mmul Q R0) (tr Q)). split; [now apply conj_rotation|]. split; [exact WM|].
    assert (WQR : wf 3 3 (mmul Q R0)) by (apply (wf_mmul 3 3 3); auto; lia). rewrite (mmul_assoc 3 3 3 3) by (auto; lia). rewrite <- (mmul_assoc 3 3 3 3 (tr Q)) by (auto; lia).
    rewrite HT, (mmul_eye_l 3 3) by (auto; lia). rewrite !(mmul_assoc 3 3 3 3) by (auto; lia). now rewrite EQ.
Qed.

(** Turn (or reflect) either lattice: lat_opt returns the same correspondences at the same distances in the same order, or raises
    the same exception, or goes on for as long, if Laue_group finds the rotational symmetries of the lattices as they lie before and after. *)
Theorem C112_orientation_partial : forall eigvals o k fuel Q1 Q2 E1 E2,
  orthogonal 3 Q1 -> orthogonal 3 Q2 -> base 3 E1 -> base 3 E2 -> (o_dist o = Strain -> right_eigenvalues eigvals) ->
  all_found E1 -> all_found (mmul Q1 E1) -> (o_SOLG2 o = None -> all_found E2 /\ all_found (mmul Q2 E2)) ->
  lat_opt eigvals o k fuel (mmul Q1 E1) (mmul Q2 E2) = lat_opt eigvals o k fuel E1 E2.
Proof.
  intros eigvals o k fuel Q1 Q2 E1 E2 O1 O2 B1 B2 RE F1 F1' F2. pose proof (turn_base _ _ O1 B1) as B1'. pose proof (turn_base _ _ O2 B2) as B2'.
  destruct (found_special E1 B1 F1) as (L1 & G1 & _). destruct (found_special _ B1' F1') as (L1' & G1' & _).
  destruct (o_SOLG2 o) as [g|] eqn:S.
  - apply (lat_opt_turn eigvals o k fuel Q1 Q2 E1 E2 L1 L1' [] []); auto; [now apply (found_turn Q1 E1)|]. rewrite S. discriminate.
  - destruct (F2 eq_refl) as (F2a & F2b). destruct (found_special E2 B2 F2a) as (L2 & G2 & _). destruct (found_special _ B2' F2b) as (L2' & G2' & _).
    apply (lat_opt_turn eigvals o k fuel Q1 Q2 E1 E2 L1 L1' L2 L2'); auto; [now apply (found_turn Q1 E1)|]. intros _. split; [exact G2|]. split; [exact G2'|]. now apply (found_turn Q2 E2).
Qed.
Print Assumptions C112_orientation_partial.

(** What matters of the groups is only which matrices they contain: neither their order nor repetitions. *)
Theorem C112_groups_as_sets : forall dim dist LG1 LG2 LG1' LG2' nsol miniter maxiter k fuel lo,
  (forall M, In M LG1 <-> In M LG1') -> (forall M, In M LG2 <-> In M LG2') ->
  lat_opt_core dim dist LG1 LG2 nsol miniter maxiter k fuel lo = lat_opt_core dim dist LG1' LG2' nsol miniter maxiter k fuel lo.
Proof. intros. now apply core_same. Qed.
Print Assumptions C112_groups_as_sets.

(** the simple cubic lattice, and the same turned by a quarter about z *)
Definition N1 : mat Z := [[3; 0; 0]; [0; 3; 0]; [0; 0; 3]]%Z.
Definition N4 : mat Z := [[0; -3; 0]; [3; 0; 0]; [0; 0; 3]]%Z.
(** turned by a third of a turn about another axis *)
Definition N3 : mat Z := [[2; -1; 2]; [2; 2; -1]; [-1; 2; 2]]%Z.
Lemma third_eye : third N1 = eye 3.
Proof. unfold third, N1, RZ, mmap. cbn [map]. mat_eq ltac:(lra). Qed.
Lemma det_third N : wf 3 3 N -> det (third N) = IZR (det N) / 27.
Proof. intros W. unfold third. rewrite (det_mscale 3) by (try (now right); now apply wf_RZ). rewrite <- RZ_det. field. Qed.
Lemma filter_all {A} (f : A -> bool) : forall l, forallb f l = true -> filter f l = l.
Proof. induction l as [|a l IH]; cbn [filter forallb]; intros H; [reflexivity|]. apply andb_prop in H. destruct H as (-> & H). now rewrite IH. Qed.
Lemma all_found_int N : wf 3 3 N -> mmul (tr N) N = [[9; 0; 0]; [0; 9; 0]; [0; 0; 9]]%Z -> forallb (small N) CUBIC_LAUE_GROUP = true -> forallb (fits N) CUBIC_LAUE_GROUP = true ->
  same_lattice 3 (third N) (eye 3) -> all_found (third N).
Proof.
  intros WN HN SM FT SL. pose proof (third_base N WN HN) as B. assert (EF : found N = CUBIC_LAUE_GROUP) by (exact (filter_all _ _ FT)).
  exists (map RZ (found N)). split; [apply laue9; auto; rewrite EF; vm_compute; discriminate|]. rewrite EF. intros Q. rewrite in_map_iff. split.
  - intros (M & <- & HM). pose proof (proj1 (cubic_iff M) HM) as (OM & DM). split; [split|].
    + exact (orth_arr_values 3 (IntArr M) OM).
    + rewrite <- RZ_det, DM. reflexivity.
    + apply (preserves_same 3 _ (eye 3)); [intros x; symmetry; apply SL|]. assert (Be : base 3 (eye 3)) by (rewrite <- third_eye; apply third_base; [now apply wfb_spec|reflexivity]).
      apply (preserves_iff 3 _ Be); [exact (orth_arr_values 3 (IntArr M) OM)|]. exists M. split; [apply OM|]. rewrite (mmul_eye_l 3 3), (mmul_eye_r 3 3); auto; apply wf_RZ, OM.
  - intros ((OQ & DQ) & P). apply (preserves_same 3 _ _ (eye 3) SL) in P. assert (Be : base 3 (eye 3)) by (rewrite <- third_eye; apply third_base; [now apply wfb_spec|reflexivity]).
    apply (preserves_iff 3 _ Be) in P; [|exact OQ]. destruct P as (M & WM & EM). rewrite (mmul_eye_l 3 3), (mmul_eye_r 3 3) in EM by (try lia; try apply OQ; now apply wf_RZ).
    exists M. split; [now symmetry|]. apply cubic_iff. subst Q. split; [split; [exact WM|]|].
    + apply RZ_inj. rewrite RZ_mmul, RZ_tr. rewrite (proj2 OQ). symmetry. apply RZ_eye.
    + apply eq_IZR. rewrite RZ_det. exact DQ.
Qed.

Lemma base_eye : base 3 (eye 3).
Proof. rewrite <- third_eye. apply third_base; [now apply wfb_spec|reflexivity]. Qed.
Lemma found_eye : all_found (eye 3).
Proof. rewrite <- third_eye. apply all_found_int; [now apply wfb_spec|reflexivity|vm_compute; reflexivity|vm_compute; reflexivity|]. rewrite third_eye. intros x. tauto. Qed.
Lemma found_quarter : all_found (mmul (third N4) (eye 3)).
Proof.
  assert (W4 : wf 3 3 N4) by (now apply wfb_spec). pose proof (third_base N4 W4 eq_refl) as B. rewrite (mmul_eye_r 3 3) by (auto; apply B).
  apply all_found_int; [exact W4|reflexivity|vm_compute; reflexivity|vm_compute; reflexivity|].
  assert (S1 : sub_lattice 3 (third N4) (eye 3)).
  { apply (sub_lattice_iff 3 _ base_eye); [apply B|]. exists [[0; -1; 0]; [1; 0; 0]; [0; 0; 1]]%Z. split; [now apply wfb_spec|]. unfold third, N4, RZ, mmap. cbn [map]. mat_eq ltac:(lra). }
  assert (S2 : sub_lattice 3 (eye 3) (third N4)).
  { apply (sub_lattice_iff 3 _ B); [apply wf_eye|]. exists [[0; 1; 0]; [-1; 0; 0]; [0; 0; 1]]%Z. split; [now apply wfb_spec|]. unfold third, N4, RZ, mmap. cbn [map]. mat_eq ltac:(lra). }
  intros x. split; [apply S1|apply S2].
Qed.
Example C112_orientation_case : forall eigvals k fuel, let o := {| o_nsol := 2; o_dist := Cauchy; o_maxiter := None; o_miniter := None; o_SOLG2 := None |} in
  orthogonal 3 (third N4) /\ mmul (third N4) (eye 3) <> eye 3 /\
  lat_opt eigvals o k fuel (mmul (third N4) (eye 3)) (mmul (third N4) (eye 3)) = lat_opt eigvals o k fuel (eye 3) (eye 3).
Proof.
  intros eigvals k fuel o. assert (O4 : orthogonal 3 (third N4)) by (apply third_orth; [now apply wfb_spec|reflexivity]). split; [exact O4|]. split.
  - rewrite (mmul_eye_r 3 3) by (auto; apply O4). intros H. apply (f_equal (fun X => get X 0 0)) in H. revert H. unfold third, N4, RZ, mmap. cbn [map]. mat_unfold_goal. lra.
  - apply C112_orientation_partial; auto using base_eye, found_eye, found_quarter. discriminate.
Qed.

Definition o112 : options := {| o_nsol := 2; o_dist := Cauchy; o_maxiter := Some 1%nat; o_miniter := Some 0%nat; o_SOLG2 := None |}.
Definition groupZ (N : mat Z) : list (mat Z) := map (fun M => mmap (fun x => x / 9)%Z (cj N M)) (found N).
Lemma special_Z N : wf 3 3 N -> mmul (tr N) N = [[9; 0; 0]; [0; 9; 0]; [0; 0; 9]]%Z -> forallb (small N) CUBIC_LAUE_GROUP = true -> length (found N) <> 4%nat ->
  special_lattice_group (third N) = Ok (groupZ N).
Proof. intros WN HN SM L. unfold groupZ. apply (special9 N WN HN SM L). Qed.
Lemma start_eye : start_point (eye 3) = Ok (eye 3).
Proof.
  unfold start_point. rewrite LLL_eye. cbn [bind]. rewrite (inv_Ok 3) by (try apply base_eye; now right). cbn [bind]. f_equal. rewrite minv_eye by (now right). rewrite (mmul_eye_r 3 3) by (try lia; apply wf_eye).
  rewrite <- RZ_eye. unfold RZ, mmap. cbn [eye mk map seq Nat.eqb]. now rewrite !rint_IZR.
Qed.
Lemma short_run eigvals k fuel N : wf 3 3 N -> mmul (tr N) N = [[9; 0; 0]; [0; 9; 0]; [0; 0; 9]]%Z -> forallb (small N) CUBIC_LAUE_GROUP = true -> length (found N) <> 4%nat ->
  lat_opt eigvals o112 (S k) (S fuel) (third N) (eye 3) =
  Ok (fst (up (zkid dsq (groupZ N) (groupZ N1) 2 (eye 3) (seq 0 12) (snd (zupd dsq (groupZ N) (groupZ N1) 2 (eye 3) ([], []))) [eye 3]))).
Proof.
  intros WN HN SM L. assert (d : dim23 3) by (now right). pose proof (third_base N WN HN) as B. pose proof (third_orth N WN HN) as O. pose proof base_eye as Be.
  unfold lat_opt. cbn [o112 o_nsol o_dist o_maxiter o_miniter o_SOLG2]. rewrite (len3 _ (proj1 (proj2 B))).
  replace (third N) with (mmul (third N) (eye 3)) at 1 by (apply (mmul_eye_r 3 3); auto; apply B). destruct (orth_similarity 3 _ d O) as (WS & KS & SS). rewrite (LLLSim.start_T 3 (third N) 1 d WS KS SS (eye 3) Be), start_eye. cbn [bind].
  assert (DF : distance_fn eigvals Cauchy (third N) (eye 3) = distance_fn eigvals Cauchy (eye 3) (eye 3)).
  { assert (We : wf 3 3 (@eye R _ 3)) by apply wf_eye. assert (Oe : orthogonal 3 (@eye R _ 3)) by (split; [exact We|]; rewrite tr_eye by lia; apply (mmul_eye_r 3 3); [exact We|lia]).
    pose proof (distance_turn eigvals Cauchy (third N) (eye 3) (eye 3) (eye 3) ltac:(discriminate) O Oe We We (proj2 (proj2 Be))) as T.
    rewrite (mmul_eye_r 3 3 (third N)), (mmul_eye_r 3 3 (eye 3)) in T by (try lia; try exact We; apply B). exact T. }
  rewrite DF. cbn [distance_fn]. rewrite (inv_Ok 3) by (try apply base_eye; now right). cbn [bind].
  rewrite (new_lattice_base 3 _ B), (new_lattice_base 3 _ Be). cbn [bind]. rewrite (special_Z N WN HN SM L). cbn [bind].
  pose proof (special_Z N1 ltac:(now apply wfb_spec) eq_refl ltac:(vm_compute; reflexivity) ltac:(vm_compute; discriminate)) as SE. rewrite third_eye in SE. rewrite SE. cbn [bind].
  apply core_run; [|vm_compute; reflexivity]. intros E W. now apply dist_eye.
Qed.
(** Without the condition it does not hold: for the simple cubic lattice against itself, with nsol = 2, maxiter = 1 and miniter = 0, two
    correspondences are returned; once the first lattice is turned, more than two, because most of its symmetries are no longer recognised. *)
Theorem C112_refuted : exists o Q E1 E2, orthogonal 3 Q /\ det Q = 1 /\ base 3 E1 /\ base 3 E2 /\ forall eigvals k fuel, exists r r',
  lat_opt eigvals o (S k) (S fuel) E1 E2 = Ok r /\ lat_opt eigvals o (S k) (S fuel) (mmul Q E1) E2 = Ok r' /\ length r = 2%nat /\ (2 < length r')%nat.
Proof.
  assert (W1 : wf 3 3 N1) by (now apply wfb_spec). assert (W3 : wf 3 3 N3) by (now apply wfb_spec). exists o112, (third N3), (eye 3), (eye 3).
  split; [now apply third_orth|]. split; [rewrite det_third by exact W3; replace (det N3) with 27%Z by (vm_compute; reflexivity); lra|]. split; [apply base_eye|]. split; [apply base_eye|].
  intros eigvals k fuel. pose proof (short_run eigvals k fuel N1 W1 eq_refl ltac:(vm_compute; reflexivity) ltac:(vm_compute; discriminate)) as H1.
  pose proof (short_run eigvals k fuel N3 W3 eq_refl ltac:(vm_compute; reflexivity) ltac:(vm_compute; discriminate)) as H3. rewrite third_eye in H1.
  eexists. eexists. split; [exact H1|]. split; [rewrite (mmul_eye_r 3 3) by (auto; apply third_orth; auto); exact H3|].
  unfold up. cbn [fst]. rewrite !map_length. split; [vm_compute; reflexivity|apply Nat.ltb_lt; vm_compute; reflexivity].
Qed.
Print Assumptions C112_refuted.
