(** A case for C78: the cubic lattice with edge 1 and the tetragonal lattice with edges 1 and 21/20. *)
From Verif Require Import LinAlg RMat GroupModel GroupSpec GroupProofs HnfSpec LatticeModel LatticeSpec LatticeProofs LatticeLaue LatticeComplete
  BravaisModel BravaisSpec BravaisProofs LLLModel LLLSpec LLLProofs LLLProofs2 LLLProofs3 PropLattice PropBravais PropLLL HnfSearchModel LatCorModel LatCorSpec LatCorProofs.
From Verif Require Import LLLProofs.
Local Open Scope R_scope.

Definition Etet (c : R) : mat R := M3 1 0 0 0 1 0 0 0 c.
Definition tet_case (M : mat Z) : bool :=
  (Z.abs (get M 0 2) =? 1)%Z || (Z.abs (get M 1 2) =? 1)%Z || ((get M 0 2 =? 0) && (get M 1 2 =? 0) && (get M 2 0 =? 0) && (get M 2 1 =? 0))%Z.
Lemma tet_table : forallb tet_case CUBIC_LAUE_GROUP = true.
Proof. vm_compute. reflexivity. Qed.
Lemma resolved_tet c : c = 1 \/ c = 21/20 -> resolved 3 (Etet c).
Proof.
  intros Hc. assert (c0 : c <> 0) by (destruct Hc; lra).
  assert (B : base 3 (Etet c)) by (apply base3; lra). destruct C1S1 as (HC2 & HC & HS).
  intros Q HQ HA. pose proof (tabled_orth 3 Q ltac:(now right) HQ) as OQ. pose proof (proj1 OQ) as WQ.
  destruct (wf3_inv Q WQ) as (q0&q1&q2&q3&q4&q5&q6&q7&q8&EQ).
  assert (EN : mmul Q (Etet c) = mmul (Etet c) (M3 q0 q1 (q2 * c) q3 q4 (q5 * c) (q6 / c) (q7 / c) q8)).
  { rewrite EQ. unfold Etet. mat_eq ltac:(try field; auto). }
  assert (NI : near_integer 3 (M3 q0 q1 (q2 * c) q3 q4 (q5 * c) (q6 / c) (q7 / c) q8) (rintm (M3 q0 q1 (q2 * c) q3 q4 (q5 * c) (q6 / c) (q7 / c) q8))).
  { rewrite (inpoint_red 3 _ B) in HA; [|exact OQ]. cbn [values] in HA.
    assert (WQE : wf 3 3 (mmul Q (Etet c))) by (apply (wf_mmul 3 3 3); [exact WQ|apply wfM3|lia]).
    apply (lat_eq_near 3 _ B) in HA; [|exact WQE]. rewrite (proj1 (solve_left 3 _ B _ _ WQE (wfM3 _ _ _ _ _ _ _ _ _))) in HA by exact EN. exact HA. }
  cbn [tabled_isometries Nat.eqb] in HQ. apply in_app_iff in HQ.
  assert (KZ : forall M : mat Z, wf 3 3 M -> mmul Q (Etet c) = mmul (Etet c) (RZ M) -> preserves 3 Q (Etet c)).
  { intros M WM EM. apply (preserves_iff 3 _ B); [exact OQ|]. exists M. auto. }
  assert (KF : q0 = C1 \/ q0 = - C1 -> preserves 3 Q (Etet c)).
  { intros HQ0. exfalso. specialize (NI 0%nat 0%nat ltac:(lia) ltac:(lia)). revert NI. cbn [M3 rintm mmap map get nth].
    generalize (rint q0). intros z NI. rewrite HC in HQ0.
    assert (Z : (z <= -1 \/ z = 0 \/ 1 <= z)%Z) by lia.
    destruct Z as [Z|[->|Z]]; [apply IZR_le in Z| |apply IZR_le in Z]; revert NI; destruct HQ0 as [-> | ->]; rabs; lra. }
  assert (KD : q2 = 0 -> q5 = 0 -> q6 = 0 -> q7 = 0 -> forall M, wf 3 3 M -> Q = RZ M -> preserves 3 Q (Etet c)).
  { intros z2 z5 z6 z7 M WM EM. apply (KZ M WM). rewrite <- EM, EN, EQ, z2, z5, z6, z7. f_equal. unfold M3. repeat f_equal; field; auto. }
  assert (Tol : c = 21/20 -> forall x z, Rabs (IZR x) = 1 -> ~ (Rabs (IZR x * c - IZR z) <= 1 / 100000000 + 1 / 100000 * Rabs (IZR z))).
  { clear NI. intros -> x z Hx NI. assert (X : IZR x = 1 \/ IZR x = -1) by (clear -Hx; unfold Rabs in Hx; destruct (Rcase_abs (IZR x)); [right|left]; lra).
    assert (Z : (z <= -2 \/ z = -1 \/ z = 0 \/ z = 1 \/ 2 <= z)%Z) by lia.
    destruct Z as [Z|[->|[->|[->|Z]]]]; [apply IZR_le in Z| | | |apply IZR_le in Z]; revert NI; destruct X as [-> | ->]; rabs; lra. }
  destruct HQ as [HQ|HQ].
  - apply in_map_iff in HQ. destruct HQ as (M & EM & HM). pose proof (proj1 (forallb_forall _ _) tet_table M HM) as T.
    assert (WM : wf 3 3 M). { assert (Zt : forallb (wfb 3 3) CUBIC_LAUE_GROUP = true) by (vm_compute; reflexivity). apply wfb_spec. exact (proj1 (forallb_forall _ _) Zt M HM). }
    destruct Hc as [-> | Hc].
    + apply (KZ M WM). change (Etet 1) with (@eye R _ 3). rewrite (mmul_eye_l 3 3), (mmul_eye_r 3 3); auto using wf_RZ.
    + assert (G : forall i j, (i < 3)%nat -> (j < 3)%nat -> get Q i j = IZR (get M i j)) by (intros; rewrite <- EM; apply get_RZ).
      pose proof (G 0 2 ltac:(lia) ltac:(lia))%nat as G2. pose proof (G 1 2 ltac:(lia) ltac:(lia))%nat as G5.
      pose proof (G 2 0 ltac:(lia) ltac:(lia))%nat as G6. pose proof (G 2 1 ltac:(lia) ltac:(lia))%nat as G7.
      rewrite EQ in G2, G5, G6, G7. cbn [M3 get nth] in G2, G5, G6, G7. fold (@get Z _ M 0 2) in *.
      unfold tet_case in T. rewrite !Bool.orb_true_iff, !Bool.andb_true_iff, !Z.eqb_eq in T. destruct T as [[T|T]|(((T1 & T2) & T3) & T4)].
      * exfalso. specialize (NI 0%nat 2%nat ltac:(lia) ltac:(lia)). revert NI. cbn [M3 rintm mmap map get nth]. rewrite G2. apply (Tol Hc). rewrite <- abs_IZR. f_equal. exact T.
      * exfalso. specialize (NI 1%nat 2%nat ltac:(lia) ltac:(lia)). revert NI. cbn [M3 rintm mmap map get nth]. rewrite G5. apply (Tol Hc). rewrite <- abs_IZR. f_equal. exact T.
      * apply (KD) with (M := M); auto; [rewrite G2, T1|rewrite G5, T2|rewrite G6, T3|rewrite G7, T4]; reflexivity.
  - unfold HEX_LAUE_GROUP in HQ. cbn [In] in HQ. rewrite EQ in HQ. unfold M3 in HQ.
    repeat (destruct HQ as [HQ|HQ]; [injection HQ as <- <- <- <- <- <- <- <- <-; first [apply KF; lra
      | apply (KD eq_refl eq_refl eq_refl eq_refl [[1;0;0];[0;1;0];[0;0;1]]%Z); [apply wfZ3|exact EQ]
      | apply (KD eq_refl eq_refl eq_refl eq_refl [[1;0;0];[0;-1;0];[0;0;-1]]%Z); [apply wfZ3|exact EQ]
      | apply (KD eq_refl eq_refl eq_refl eq_refl [[-1;0;0];[0;1;0];[0;0;-1]]%Z); [apply wfZ3|exact EQ]
      | apply (KD eq_refl eq_refl eq_refl eq_refl [[-1;0;0];[0;-1;0];[0;0;1]]%Z); [apply wfZ3|exact EQ]]|]).
    destruct HQ.
Qed.

Lemma loop_eye k : lll_loop (S k) (@eye R _ 3) 0 = Ok (@eye R _ 3, 1%nat, false).
Proof.
  set (a := [1; 0; 0]). set (b := [0; 1; 0]). set (c := [0; 0; 1]). change (@eye R _ 3) with [a; b; c].
  assert (Da : dot a a = 1) by (unfold a; un; lra).
  assert (M1 : mu b a = 0) by (unfold mu; rewrite Da; unfold a, b; un; lra).
  assert (C1 : c1 a b = b) by (unfold c1; rewrite M1; unfold a, b; un; apply l3; lra).
  assert (D1 : dot b b = 1) by (unfold b; un; lra).
  assert (M2 : mu c a = 0) by (unfold mu; rewrite Da; unfold a, c; un; lra).
  assert (M3 : mu c b = 0) by (unfold mu; rewrite D1; unfold b, c; un; lra).
  assert (Z0 : rint 0 = 0%Z) by (change 0 with (IZR 0); apply rint_IZR).
  assert (R1 : rb a b = b) by (unfold rb; rewrite M1, Z0; unfold a, b; un; apply l3; lra).
  assert (R2 : rc a b c = c) by (unfold rc; rewrite R1, C1, M2, M3, Z0; unfold a, b, c; un; apply l3; lra).
  assert (C2 : c2 a b c = c) by (unfold c2; rewrite C1, M2, M3; unfold a, b, c; un; apply l3; lra).
  assert (D2 : dot c c = 1) by (unfold c; un; lra).
  cbn [lll_loop]. rewrite gauss3 by (rewrite ?C1; lra). cbn [bind]. rewrite R1, R2, (swapping3 3) by (reflexivity || (rewrite ?C1, ?C2; lra)). cbn [bind].
  rewrite C1, C2, Da, D1, D2, M1, M3. unfold test. rewrite !(proj2 (Rltb_false _ _)) by lra. reflexivity.
Qed.
Lemma LLL_eye : LLL (eye 3) = Ok (Plain (eye 3)).
Proof.
  unfold LLL. rewrite tr_eye by lia. change max_rounds with (S 999). rewrite loop_eye. cbn [bind Nat.eqb]. unfold fix_sign. rewrite tr_eye by lia.
  rewrite (proj2 (Reqb_spec _ _)) by reflexivity. cbn [negb]. now rewrite tr_eye by lia.
Qed.

Lemma hnf_one h : is_hnf 3 h -> det h = 1%Z -> h = eye 3.
Proof.
  intros H D. rewrite det_hnf in D by exact H. destruct H as (W & U & P & L). destruct (wf3_inv h W) as (a&b&c&d&e&f&g&k&i&->).
  pose proof (U 0 1 ltac:(lia))%nat as U1. pose proof (U 0 2 ltac:(lia))%nat as U2. pose proof (U 1 2 ltac:(lia))%nat as U3.
  pose proof (P 0 ltac:(lia))%nat as P1. pose proof (P 1 ltac:(lia))%nat as P2. pose proof (P 2 ltac:(lia))%nat as P3.
  pose proof (L 1 0 ltac:(lia))%nat as L1. pose proof (L 2 0 ltac:(lia))%nat as L2. pose proof (L 2 1 ltac:(lia))%nat as L3.
  cbn in U1, U2, U3, P1, P2, P3, L1, L2, L3. subst. cbn -[Z.mul] in D. assert (a = 1 /\ e = 1 /\ i = 1)%Z as (-> & -> & ->) by nia.
  assert (d = 0 /\ g = 0 /\ k = 0)%Z as (-> & -> & ->) by lia. reflexivity.
Qed.
Lemma case_admissible : bravais_type 3 1 = Some (Cubic, P) /\ admissible Cubic [1] (mk_cell 1 1 1 90 90 90) /\
  bravais_type 3 6 = Some (Tetragonal, P) /\ admissible Tetragonal [1; 21/20] (mk_cell 1 1 (21/20) 90 90 90).
Proof.
  split; [reflexivity|]. split; [|split; [reflexivity|]];
    (split; [reflexivity|]; split; [cbn; intros x Hx; intuition lra|]; unfold volume_factor; cbn; rewrite cosd90; lra).
Qed.
Lemma case_bases : (exists A, new_bravais 1 [1] 3 = Ok A /\ b_base A = Etet 1) /\ (exists M, new_bravais 6 [1; 21/20] 3 = Ok M /\ b_base M = Etet (21/20)).
Proof.
  destruct case_admissible as (T1 & A1 & T2 & A2). split.
  - destruct (C17_conventional_cell 3 1 _ _ _ _ T1 A1) as (b & H & _). exists b. split; [exact H|]. revert H. unfold new_bravais. 
    destruct (existsb _ _); [discriminate|]. cbn [Z.eqb Pos.eqb]. cbn -[inv new_lattice]. 
    intros H. apply bindOk in H. destruct H as (EC & HC & H). injection HC as <-. cbn [fst snd] in H. apply bindOk in H. destruct H as (C & _ & H).
    change (cols3 _ _ _) with (Etet 1) in H.
    rewrite (new_lattice_ok 3 (Etet 1)) in H; [|apply base3; lra|apply wfM3|apply base3; lra].
    cbn [bind] in H. injection H as <-. reflexivity.
  - destruct (C17_conventional_cell 3 6 _ _ _ _ T2 A2) as (b & H & _). exists b. split; [exact H|]. revert H. unfold new_bravais. 
    destruct (existsb _ _); [discriminate|]. cbn [Z.eqb Pos.eqb]. cbn -[inv new_lattice]. 
    intros H. apply bindOk in H. destruct H as (EC & HC & H). injection HC as <-. cbn [fst snd] in H. apply bindOk in H. destruct H as (C & _ & H).
    change (cols3 _ _ _) with (Etet (21/20)) in H.
    rewrite (new_lattice_ok 3 (Etet (21/20))) in H; [|apply base3; lra|apply wfM3|apply base3; lra].
    cbn [bind] in H. injection H as <-. reflexivity.
Qed.
Lemma det_Etet c : det (Etet c) = c.
Proof. unfold Etet, M3. rewrite det3. cbn. lra. Qed.
Lemma case_size k : allowed_size (21/20) (1/10) k -> k = 1%Z.
Proof.
  unfold allowed_size, within_threshold. intros [[H1 H2]|[H _]].
  - assert (0 < k)%Z by (apply lt_IZR; lra). assert (k < 2)%Z by (apply lt_IZR; lra). lia.
  - exfalso. apply H. exists 1%Z. lra.
Qed.
