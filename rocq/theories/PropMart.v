(** C26-C29, C71: setU, variants, reversibility, setLaue.  Specification: MartSpec.v; model: MartModel.v. *)
From Verif Require Import RMat LinAlg GroupSpec GroupModel GroupProofs LatticeModel LatticeSpec LatticeProofs LatticeGroups LatticeLaue LatticeComplete
  LatticeMore BravaisModel BravaisSpec BravaisProofs PropBravais MartModel MartSpec MartProofs.
Local Open Scope R_scope.

(** * C26 *)
(** When setU returns, the new object holds exactly the documented matrix, which is symmetric with positive
    determinant, and the receiver's group; nothing is cached in it. *)
Theorem C26_result_partial m args m' : setU m args = Ok m' ->
  exists U, documented args = Some U /\ getU m' = Ok U /\ symmetric U /\ 0 < det U /\
    getLaue m' = getLaue m /\ m_Ulist m' = None /\ m_idx m' = None.
Proof.
  unfold setU. rewrite described_documented. destruct (documented args) as [U|] eqn:ED.
  - cbn [bind]. destruct (array_equal U (tr U)) eqn:EA; [|discriminate]. cbn [negb]. destruct (Rltb 0 (det U)) eqn:EP; [|discriminate].
    cbn. intros [= <-]. exists U. apply Rltb_spec in EP. apply array_equal_iff in EA. repeat split; auto; try (apply documented_wf in ED; apply ED).
  - destruct args as [|[x|?] [|? [|? [|? [|? ?]]]]]; discriminate.
Qed.
(** Every positive definite matrix is accepted. *)
Theorem C26_accepts m args U : documented args = Some U -> positive_definite U ->
  exists m', setU m args = Ok m' /\ getU m' = Ok U /\ getLaue m' = getLaue m.
Proof.
  intros HD HP. unfold setU. rewrite described_documented, HD. cbn [bind].
  destruct HP as [S HP]. rewrite (proj2 (array_equal_iff U (tr U))) by (symmetry; apply S). cbn [negb].
  assert (D : 0 < det U) by (apply (posdef_minors U S); split; auto).
  apply Rltb_spec in D. rewrite D. cbn. eexists. split; [reflexivity|]. split; reflexivity.
Qed.
(** A described matrix that is not symmetric or whose determinant is not positive is rejected with TypeError, and
    so is every argument list that describes no matrix and has fewer than five arguments. *)
Theorem C26_rejects_partial m args :
  (forall U, documented args = Some U -> ~ (symmetric U /\ 0 < det U)) ->
  (documented args <> None \/ (length args < 5)%nat) -> setU m args = Raise TypeError.
Proof.
  intros HD HL. unfold setU. rewrite described_documented. destruct (documented args) as [U|] eqn:ED.
  - cbn [bind]. destruct (array_equal U (tr U)) eqn:EA; [|reflexivity]. cbn [negb]. destruct (Rltb 0 (det U)) eqn:EP; [|reflexivity].
    exfalso. apply (HD U eq_refl). apply Rltb_spec in EP. apply array_equal_iff in EA. split; [split; [now apply documented_wf in ED|now symmetry]|exact EP].
  - destruct HL as [HL|HL]; [congruence|]. destruct args as [|[x|?] [|? [|? [|? [|? ?]]]]]; try reflexivity. cbn in HL. lia.
Qed.
(** What acceptance leaves out: by Sylvester's criterion, the two smaller leading minors. *)
Theorem C26_missing_check_partial U : symmetric U ->
  (positive_definite U <-> 0 < get U 0 0 /\ 0 < get U 0 0 * get U 1 1 - get U 0 1 * get U 1 0 /\ 0 < det U).
Proof. exact (posdef_minors U). Qed.
(** diag(-1, -1, 1) is accepted. *)
Theorem C26_positive_definite_refuted m : exists m' U, setU m [Num (-1); Num 1] = Ok m' /\ getU m' = Ok U /\ ~ positive_definite U.
Proof.
  pose (U := M3 (-1) 0 0 0 (-1) 0 0 0 1). assert (W : wf 3 3 U) by now apply wfb_spec.
  exists (new_mart (Some U) (Some (m_Laue m))), U. split; [|split; [reflexivity|]].
  - unfold setU. rewrite described_documented. cbn [documented bind].
    change (M3 (-1) 0 0 0 (-1) 0 0 0 1) with U. rewrite (proj2 (array_equal_iff U (tr U))) by reflexivity. cbn [negb].
    assert (D : 0 < det U) by (unfold U, M3; rewrite det3; cbn; lra). apply Rltb_spec in D. rewrite D. reflexivity.
  - intros [_ H]. specialize (H 1 0 0). assert (K : (1, 0, 0) <> (0, 0, 0)) by (intros [=]; lra). specialize (H K). cbn in H. lra.
Qed.
(** Five numbers: AttributeError instead of TypeError. *)
Theorem C26_type_error_refuted m : setU m [Num 1; Num 0; Num 1; Num 1; Num 7] = Raise AttributeError.
Proof. reflexivity. Qed.
Example C26_case : positive_definite (M3 1 (1/10) 0 (1/10) 1 0 0 0 1) /\ documented [Num 1; Num (1/10); Num 1] = Some (M3 1 (1/10) 0 (1/10) 1 0 0 0 1).
Proof.
  split; [|reflexivity]. assert (S : symmetric (M3 1 (1/10) 0 (1/10) 1 0 0 0 1)) by (split; [now apply wfb_spec|reflexivity]).
  apply (posdef_minors _ S). unfold M3. rewrite det3. cbn. repeat split; lra.
Qed.

(** * Objects a program can hold *)
Definition consistent (m : mart) : Prop :=
  (m_Ulist m = None /\ m_idx m = None) \/
  (exists U, m_U m = Some U /\ isreversible (new_mart (Some U) (Some (m_Laue m))) = Ok true /\
     m_Ulist m = Some (map fst (variants_of U (m_Laue m))) /\ m_idx m = Some (map snd (variants_of U (m_Laue m)))).
Lemma isreversible_eq m m' : m_U m = m_U m' -> m_Laue m = m_Laue m' -> isreversible m = isreversible m'.
Proof. intros H1 H2. unfold isreversible, getU, getLaue. now rewrite H1, H2. Qed.
Lemma calc_ok m : consistent m ->
  (isreversible m = Ok true -> exists U m', m_U m = Some U /\ calcvariants m = Ok m' /\ consistent m' /\ m_U m' = m_U m /\ m_Laue m' = m_Laue m /\
     m_Ulist m' = Some (map fst (variants_of U (m_Laue m))) /\ m_idx m' = Some (map snd (variants_of U (m_Laue m)))) /\
  (isreversible m <> Ok true -> m_Ulist m = None /\ m_idx m = None /\ calcvariants m = match isreversible m with Ok _ => Raise AttributeError | Raise e => Raise e | NoFuel => NoFuel end).
Proof.
  intros C. split.
  - intros R. destruct C as [[C1 C2]|(U & EU & ER & C1 & C2)].
    + unfold calcvariants. rewrite C1, R. cbn [bind negb]. unfold isreversible, getU in R. unfold getU. destruct (m_U m) as [U|] eqn:EU; [|discriminate].
      cbn [bind]. exists U. eexists. split; [reflexivity|]. split; [reflexivity|]. cbn [m_U m_Laue m_Ulist m_idx]. split; [|auto].
      right. exists U. cbn [m_U m_Laue m_Ulist m_idx]. split; [reflexivity|]. split; [exact R|auto].
    + exists U, m. split; [exact EU|]. unfold calcvariants. rewrite C1. split; [reflexivity|]. split; [right; exists U; auto|auto].
  - intros R. destruct C as [[C1 C2]|(U & EU & ER & C1 & C2)].
    + split; [exact C1|]. split; [exact C2|]. unfold calcvariants. rewrite C1. destruct (isreversible m) as [[|]| |]; cbn; congruence.
    + exfalso. apply R. rewrite <- ER. now apply isreversible_eq.
Qed.
Lemma calc_result m m' : consistent m -> calcvariants m = Ok m' -> consistent m'.
Proof.
  intros C H. destruct (calc_ok m C) as [P N]. destruct (isreversible m) as [[|]| |] eqn:E.
  - destruct (P eq_refl) as (U & m'' & _ & K & C' & _). congruence.
  - destruct (N ltac:(discriminate)) as (_ & _ & K). congruence.
  - destruct (N ltac:(discriminate)) as (_ & _ & K). congruence.
  - destruct (N ltac:(discriminate)) as (_ & _ & K). congruence.
Qed.
Lemma reachable_consistent m : reachable m -> consistent m.
Proof.
  induction 1 as [U g|m args m' _ _ H|m a m' _ _ H|m l m' _ IH H|m n U m' _ IH H|m l m' _ IH H].
  - left. split; reflexivity.
  - destruct (C26_result_partial _ _ _ H) as (U & _ & _ & _ & _ & _ & H1 & H2). now left.
  - left. unfold setLaue in H. destruct a; [injection H as <-; split; reflexivity| |discriminate].
    destruct ((0 <? k) && (k <=? 14))%Z; [|discriminate]. destruct (new_bravais _ _ _); [|discriminate|discriminate]. cbn [bind] in H.
    destruct (Laue_group _); [|discriminate|discriminate]. injection H as <-. split; reflexivity.
  - unfold getvariants in H. destruct (m_Ulist m) eqn:E.
    + cbn in H. rewrite E in H. cbn in H. injection H as _ <-. exact IH.
    + destruct (calcvariants m) as [m1| |] eqn:EC; [|discriminate|discriminate]. cbn [bind] in H.
      destruct (filled (m_Ulist m1)); [|discriminate|discriminate]. injection H as _ <-. now apply (calc_result m).
  - unfold getvariant in H. destruct (m_Ulist m) eqn:E.
    + cbn in H. rewrite E in H. cbn [bind filled] in H. destruct (py_index _ _); [|discriminate|discriminate]. injection H as _ <-. exact IH.
    + destruct (calcvariants m) as [m1| |] eqn:EC; [|discriminate|discriminate]. cbn [bind] in H.
      destruct (filled (m_Ulist m1)); [|discriminate|discriminate]. cbn [bind] in H. destruct (py_index _ _); [|discriminate|discriminate]. injection H as _ <-. now apply (calc_result m).
  - unfold getLaueidx in H. destruct (m_idx m) eqn:E.
    + cbn in H. rewrite E in H. cbn in H. injection H as _ <-. exact IH.
    + destruct (calcvariants m) as [m1| |] eqn:EC; [|discriminate|discriminate]. cbn [bind] in H.
      destruct (filled (m_idx m1)); [|discriminate|discriminate]. injection H as _ <-. now apply (calc_result m).
Qed.
(** what the three getters return *)
Lemma getters m : consistent m -> isreversible m = Ok true -> exists U m',
  m_U m = Some U /\ m_U m' = m_U m /\ m_Laue m' = m_Laue m /\
  getvariants m = Ok (map fst (variants_of U (m_Laue m)), m') /\
  getLaueidx m = Ok (map snd (variants_of U (m_Laue m)), m') /\
  (forall n, getvariant m n = let* V := py_index (map fst (variants_of U (m_Laue m))) (n - 1) in Ok (V, m')).
Proof.
  intros C R. destruct C as [[C1 C2]|(U & EU & ER & C1 & C2)].
  - destruct (proj1 (calc_ok m (or_introl (conj C1 C2))) R) as (U & m' & EU & EC & _ & E1 & E2 & E3 & E4).
    exists U, m'. split; [exact EU|]. split; [exact E1|]. split; [exact E2|].
    unfold getvariants, getLaueidx, getvariant. rewrite C1, C2, EC. cbn [bind]. rewrite E3, E4. cbn [filled bind]. auto.
  - exists U, m. split; [exact EU|]. split; [reflexivity|]. split; [reflexivity|].
    unfold getvariants, getLaueidx, getvariant. rewrite C1, C2. cbn [bind]. rewrite C1, C2. cbn [filled bind]. auto.
Qed.

(** * C27 *)
(** In every reachable object of a reversible transformation, for every group of rotations: getvariants and Laueidx
    describe the orbit of U (is_orbit in MartSpec.v), whatever was called before. *)
Theorem C27_orbit_partial m U : reachable m -> m_U m = Some U -> wf 3 3 U -> rotation_group (getLaue m) ->
  separated U (getLaue m) -> isreversible m = Ok true ->
  exists Us idx m', getvariants m = Ok (Us, m') /\ getLaueidx m = Ok (idx, m') /\ is_orbit U (getLaue m) Us idx.
Proof.
  intros RM EU WU [HG HO] HS HR. destruct (getters m (reachable_consistent m RM) HR) as (U' & m' & EU' & _ & _ & E1 & E2 & _).
  assert (U' = U) by congruence. subst U'. do 3 eexists. split; [exact E1|]. split; [exact E2|]. now apply variants_orbit.
Qed.
(** the number of variants divides the group order *)
Theorem C27_count m U Us m' : reachable m -> m_U m = Some U -> wf 3 3 U -> rotation_group (getLaue m) ->
  separated U (getLaue m) -> isreversible m = Ok true -> getvariants m = Ok (Us, m') ->
  Nat.divide (length Us) (length (getLaue m)).
Proof.
  intros RM EU WU HG HS HR HV. destruct (C27_orbit_partial m U RM EU WU HG HS HR) as (Us' & idx & m'' & E & _ & O).
  assert (Us' = Us) by congruence. subst Us'. destruct O. destruct equal_size as (k & _ & ->). exists k. lia.
Qed.
(** Without the separation hypothesis, and for any list of matrices in place of a group: each image of U is within the comparison
    tolerance of a listed variant, each listed variant other than U itself is an image, no two are within the tolerance
    (in list order), and every index is listed with a variant its image is close to. *)
Theorem C27_tolerance_partial m U : reachable m -> m_U m = Some U -> isreversible m = Ok true ->
  exists Us idx m', getvariants m = Ok (Us, m') /\ getLaueidx m = Ok (idx, m') /\ length Us = length idx /\
    hd_error Us = Some U /\
    (forall V, In V Us -> V = U \/ exists Q, In Q (getLaue m) /\ V = rotate Q U) /\
    (forall Q, In Q (getLaue m) -> exists V, In V Us /\ allclose V (rotate Q U) = true) /\
    (forall j k V W, (j < k)%nat -> nth_error Us j = Some V -> nth_error Us k = Some W -> allclose V W = false) /\
    (forall i, In i (concat idx) <-> (i < length (getLaue m))%nat) /\
    (forall j i, In i (nth j idx []) -> exists Q, nth_error (getLaue m) i = Some Q /\ allclose (nth j Us []) (rotate Q U) = true).
Proof.
  intros RM EU HR. destruct (getters m (reachable_consistent m RM) HR) as (U' & m' & EU' & _ & _ & E1 & E2 & _).
  assert (U' = U) by congruence. subst U'. do 3 eexists. split; [exact E1|]. split; [exact E2|]. change (getLaue m) with (m_Laue m).
  pose proof (variants_loose U (m_Laue m)) as [F1 F2 F3 F4 F5]. pose proof (blocks_sorted U (m_Laue m)) as BS.
  set (acc := variants_of U (m_Laue m)) in *. split; [now rewrite !map_length|]. split; [|split; [|split; [|split; [exact F5|split]]]].
  - destruct F1 as (l & rest & ->). reflexivity.
  - intros V H. apply in_map_iff in H. destruct H as ([V' l] & <- & H). now apply (F2 V' l).
  - intros Q HQ. destruct (In_nth_error _ _ HQ) as [i Hi]. destruct (F3 i Q Hi) as (V & l & Hin & Hl). exists V. split; [apply in_map_iff; exists (V, l); auto|].
    destruct (F4 V l i Hin Hl) as (P & HP & A). congruence.
  - intros i. split.
    + intros H. apply in_concat in H. destruct H as (l & Hl & Hi). apply in_map_iff in Hl. destruct Hl as ([V l'] & <- & Hin). now apply (BS V l' Hin).
    + intros Hi. destruct (nth_error (m_Laue m) i) as [Q|] eqn:EQ; [|apply nth_error_None in EQ; lia].
      destruct (F3 i Q EQ) as (V & l & Hin & Hl). apply in_concat. exists l. split; [|exact Hl]. apply in_map_iff. exists (V, l). auto.
  - intros j i Hi. destruct (Nat.lt_ge_cases j (length acc)) as [L|L].
    + assert (K : In (nth j (map fst acc) [], nth j (map snd acc) []) acc).
      { replace (nth j (map fst acc) [], nth j (map snd acc) []) with (nth j acc ([], [])); [now apply nth_In|].
        rewrite (surjective_pairing (nth j acc ([], []))). f_equal; symmetry; [apply (map_nth fst acc ([], []))|apply (map_nth snd acc ([], []))]. }
      now apply (F4 _ _ i K).
    + rewrite nth_overflow in Hi by now rewrite map_length. destruct Hi.
Qed.
(** Irreversible transformations: AttributeError. *)
Theorem C27_irreversible m : reachable m -> isreversible m = Ok false ->
  getvariants m = Raise AttributeError /\ getLaueidx m = Raise AttributeError /\ forall n, getvariant m n = Raise AttributeError.
Proof.
  intros RM HR. destruct (calc_ok m (reachable_consistent m RM)) as [_ N]. rewrite HR in N. destruct (N ltac:(discriminate)) as (E1 & E2 & E3).
  unfold getvariants, getLaueidx, getvariant. rewrite E1, E2, E3. auto.
Qed.

(** A tetragonal stretch of the cubic lattice has three variants. *)
Definition Utet : mat R := M3 (9/10) 0 0 0 (9/10) 0 0 0 (11/10).
Definition blockb (Q : mat Z) : bool := (get Q 2 0 =? 0)%Z && (get Q 2 1 =? 0)%Z.
Lemma Utet_base : base 3 Utet.
Proof. split; [now right|]. split; [now apply wfb_spec|]. unfold Utet, M3. rewrite det3. cbn. lra. Qed.
Ltac meq tac := unfold values, RZ, mmap; mat_eq tac.
Lemma lt3 (P : nat -> nat -> Prop) : P 0%nat 0%nat -> P 0%nat 1%nat -> P 0%nat 2%nat -> P 1%nat 0%nat -> P 1%nat 1%nat -> P 1%nat 2%nat ->
  P 2%nat 0%nat -> P 2%nat 1%nat -> P 2%nat 2%nat -> forall i j, (i < 3)%nat -> (j < 3)%nat -> P i j.
Proof. intros ? ? ? ? ? ? ? ? ? i j Hi Hj. destruct i as [|[|[|?]]], j as [|[|[|?]]]; try lia; auto. Qed.
Ltac rabs := repeat (match goal with |- context [Rabs ?x] => first [rewrite (Rabs_pos_eq x) by lra | rewrite (Rabs_left1 x) by lra] end).
Lemma Utet_table Q : In Q CUBIC_LAUE_GROUP -> inpointgroup Utet (IntArr Q) = Ok (blockb Q).
Proof.
  intros HQ. rewrite (inpoint_red 3 _ Utet_base).
  2:{ apply cubic_iff in HQ. apply HQ. }
  pose proof Utet_base as B. cbn [values].
  assert (FALSE : forall A : mat R, wf 3 3 A -> mmul (RZ Q) Utet = mmul Utet A ->
    (exists j, (j < 3)%nat /\ exists s : Z, (s = 1 \/ s = -1)%Z /\ get A 2 j = 9/11 * IZR s) -> lat_eq Utet (mmul (RZ Q) Utet) = Ok false).
  { intros A WA EA (j & Hj & s & Hs & EG). apply (lat_eq_false 3 _ B _ A 2 j s WA EA); [lia|exact Hj| |]; rewrite EG; destruct Hs as [->| ->]; rabs; lra. }
  assert (TRUE : wf 3 3 (RZ Q) -> wf 3 3 Q -> mmul (RZ Q) Utet = mmul Utet (RZ Q) -> lat_eq Utet (mmul (RZ Q) Utet) = Ok true).
  { intros W1 W2 EA. apply (lat_eq_true 3 _ B _ (RZ Q) Q W1 W2 EA). intros i j Hi Hj. rewrite get_RZ, Rminus_diag_eq, Rabs_R0 by reflexivity.
    pose proof (Rabs_pos (IZR (get Q i j))). lra. }
  assert (CASES : (blockb Q = true /\ mmul (RZ Q) Utet = mmul Utet (RZ Q)) \/
    (blockb Q = false /\ exists A, wf 3 3 A /\ mmul (RZ Q) Utet = mmul Utet A /\ exists j, (j < 3)%nat /\ exists s : Z, (s = 1 \/ s = -1)%Z /\ get A 2 j = 9/11 * IZR s)).
  { pose (f := fun (q u v : R) => q * v / u).
    pose (A := M3 (f (IZR (get Q 0 0)) 1 1) (f (IZR (get Q 0 1)) 1 1) (f (IZR (get Q 0 2)) 9 11)
                  (f (IZR (get Q 1 0)) 1 1) (f (IZR (get Q 1 1)) 1 1) (f (IZR (get Q 1 2)) 9 11)
                  (f (IZR (get Q 2 0)) 11 9) (f (IZR (get Q 2 1)) 11 9) (f (IZR (get Q 2 2)) 1 1)).
    assert (WQ : wf 3 3 Q) by (apply cubic_iff in HQ; apply HQ).
    assert (EA : mmul (RZ Q) Utet = mmul Utet A).
    { destruct (wf3_inv Q WQ) as (a & b & c & d & e & g & h & i & j & EQ). unfold A, Utet. rewrite EQ. unfold f. meq ltac:(field). }
    assert (WA : wf 3 3 A) by now apply wfb_spec.
    revert HQ EA. unfold blockb. intros HQ EA. unfold CUBIC_LAUE_GROUP in HQ. cbn [In] in HQ.
    repeat match type of HQ with _ \/ _ => destruct HQ as [HQ|HQ] end; try contradiction; subst Q;
      first [ left; split; [reflexivity|unfold Utet; meq ltac:(ring)] |
              right; split; [reflexivity|]; exists A; split; [exact WA|]; split; [exact EA|];
              first [ exists 0%nat; split; [lia|]; exists 1%Z; split; [now left|unfold A, f; cbn; lra] |
                      exists 0%nat; split; [lia|]; exists (-1)%Z; split; [now right|unfold A, f; cbn; lra] |
                      exists 1%nat; split; [lia|]; exists 1%Z; split; [now left|unfold A, f; cbn; lra] |
                      exists 1%nat; split; [lia|]; exists (-1)%Z; split; [now right|unfold A, f; cbn; lra] ] ]. }
  assert (WQ : wf 3 3 Q) by (apply cubic_iff in HQ; apply HQ).
  destruct CASES as [[-> E]|[-> (A & WA & EA & K)]]; [|now apply (FALSE A)]. apply TRUE; auto. now apply wf_RZ.
Qed.
Lemma keep_filter E f (T : list (mat Z)) : (forall Q, In Q T -> inpointgroup E (IntArr Q) = Ok (f Q)) ->
  keep E (map IntArr T) = Ok (map RZ (filter f T)).
Proof.
  induction T as [|Q T IH]; intros H; [reflexivity|]. cbn [map keep filter]. rewrite H by now left. cbn [bind].
  rewrite IH by (intros P HP; apply H; now right). cbn [bind]. now destruct (f Q).
Qed.
Lemma Utet_Laue : Laue_group Utet = Ok (map RZ (filter blockb CUBIC_LAUE_GROUP)).
Proof.
  unfold Laue_group. change (length Utet) with 3%nat. unfold pick_group, cubic_arr. rewrite (keep_filter Utet blockb) by exact Utet_table.
  cbn [bind]. rewrite map_length. change (length (filter blockb CUBIC_LAUE_GROUP)) with 8%nat. reflexivity.
Qed.
Definition Mtet : mart := new_mart (Some Utet) None.
Lemma new_lattice_base E : base 3 E -> new_lattice E = Ok E.
Proof. intros B. exact (new_lattice_ok 3 E B E (proj1 (proj2 B)) (proj2 (proj2 B))). Qed.
Lemma Mtet_reversible : isreversible Mtet = Ok true.
Proof.
  unfold isreversible. cbn [getU m_U Mtet new_mart bind]. rewrite (new_lattice_base _ Utet_base). cbn [bind]. rewrite Utet_Laue. cbn [bind].
  change (getLaue Mtet) with (map RZ CUBIC_LAUE_GROUP). rewrite !map_length. change (length (filter blockb CUBIC_LAUE_GROUP) <=? length CUBIC_LAUE_GROUP)%nat with true.
  cbv iota. apply hassubgroup_iff; [discriminate|]. rewrite !map_length. change (length (filter blockb CUBIC_LAUE_GROUP)) with 8%nat. change (length CUBIC_LAUE_GROUP) with 24%nat.
  split; [split; [lia|exists 3%nat; reflexivity]|]. intros m1 H. apply in_map_iff in H. destruct H as (Q & <- & HQ). apply filter_In in HQ.
  exists (RZ Q). split; [apply in_map; apply HQ|apply allclose_refl].
Qed.
Definition Dg (a b c : R) : mat R := M3 a 0 0 0 b 0 0 0 c.
Definition tets : list (mat R) := [Dg (9/10) (9/10) (11/10); Dg (9/10) (11/10) (9/10); Dg (11/10) (9/10) (9/10)].
Lemma tets_orbit Q : In Q (map RZ CUBIC_LAUE_GROUP) -> In (rotate Q Utet) tets.
Proof.
  intros HQ. apply in_map_iff in HQ. destruct HQ as (M & <- & HM). unfold CUBIC_LAUE_GROUP in HM. cbn [In] in HM.
  repeat match type of HM with _ \/ _ => destruct HM as [HM|HM] end; try contradiction; subst M;
    first [ solve [left; unfold rotate, Dg, Utet; symmetry; meq ltac:(ring)] | solve [right; left; unfold rotate, Dg, Utet; symmetry; meq ltac:(ring)]
          | solve [right; right; left; unfold rotate, Dg, Utet; symmetry; meq ltac:(ring)] ].
Qed.
Lemma allclose_at n A B i j : wf 3 3 A -> (i < 3)%nat -> (j < 3)%nat -> n = 3%nat ->
  1 / 100000000 + 1 / 100000 * Rabs (get B i j) < Rabs (get A i j - get B i j) -> allclose A B = false.
Proof.
  intros WA Hi Hj _ H. destruct (allclose A B) eqn:E; [|reflexivity]. exfalso. pose proof (proj1 (allclose_spec 2 3 A B WA) E i j Hi Hj) as E'.
  unfold rtol0, atol0 in E'. lra.
Qed.
Lemma tets_far A B : In A tets -> In B tets -> allclose A B = true -> A = B.
Proof.
  intros HA HB H. assert (W : forall X, In X tets -> wf 3 3 X) by (intros X [<-|[<-|[<-|[]]]]; now apply wfb_spec).
  pose proof (W A HA) as WA. destruct HA as [<-|[<-|[<-|[]]]]; destruct HB as [<-|[<-|[<-|[]]]]; try reflexivity; exfalso;
    first [ rewrite (allclose_at 3 _ _ 0 0) in H; [discriminate|exact WA|lia|lia|reflexivity|cbn; rabs; lra]
          | rewrite (allclose_at 3 _ _ 1 1) in H; [discriminate|exact WA|lia|lia|reflexivity|cbn; rabs; lra]
          | rewrite (allclose_at 3 _ _ 2 2) in H; [discriminate|exact WA|lia|lia|reflexivity|cbn; rabs; lra] ].
Qed.
(** The hypotheses of C27 are met, and there are exactly three variants. *)
Example C27_case : reachable Mtet /\ rotation_group (getLaue Mtet) /\ separated Utet (getLaue Mtet) /\ isreversible Mtet = Ok true /\
  exists Us idx m', getvariants Mtet = Ok (Us, m') /\ is_orbit Utet (getLaue Mtet) Us idx /\ Permutation Us tets.
Proof.
  assert (RM : reachable Mtet) by apply r_new.
  assert (RG : rotation_group (getLaue Mtet)).
  { change (getLaue Mtet) with (map RZ CUBIC_LAUE_GROUP). split; [apply CUBIC_good|]. intros Q HQ. apply CUBIC_good. exact HQ. }
  assert (SP : separated Utet (getLaue Mtet)).
  { intros P Q HP HQ. apply tets_far; now apply tets_orbit. }
  split; [exact RM|]. split; [exact RG|]. split; [exact SP|]. split; [exact Mtet_reversible|].
  destruct (C27_orbit_partial Mtet Utet RM eq_refl (proj1 (proj2 Utet_base)) RG SP Mtet_reversible) as (Us & idx & m' & E & _ & O).
  exists Us, idx, m'. split; [exact E|]. split; [exact O|]. apply NoDup_Permutation.
  - apply O.
  - repeat constructor; cbn; intros K; repeat destruct K as [K|K]; try contradiction; unfold Dg, M3 in K; injection K; lra.
  - intros V. rewrite (exact _ _ _ _ O). split.
    + intros (Q & HQ & ->). now apply tets_orbit.
    + change (getLaue Mtet) with (map RZ CUBIC_LAUE_GROUP). intros [<-|[<-|[<-|[]]]].
      * exists (RZ [[1;0;0];[0;1;0];[0;0;1]]%Z). split; [apply in_map; cbn; tauto|unfold rotate, Dg, Utet; meq ltac:(ring)].
      * exists (RZ [[1;0;0];[0;0;-1];[0;1;0]]%Z). split; [apply in_map; cbn; tauto|unfold rotate, Dg, Utet; meq ltac:(ring)].
      * exists (RZ [[0;0;1];[0;1;0];[-1;0;0]]%Z). split; [apply in_map; cbn; tauto|unfold rotate, Dg, Utet; meq ltac:(ring)].
Qed.

(** * C28 *)
Theorem C28_nth_partial m Us m' : reachable m -> getvariants m = Ok (Us, m') ->
  (forall n, (1 <= n <= Z.of_nat (length Us))%Z -> exists V, nth_error Us (Z.to_nat n - 1) = Some V /\ getvariant m n = Ok (V, m')) /\
  (forall n, (n > Z.of_nat (length Us) \/ n <= - Z.of_nat (length Us))%Z -> getvariant m n = Raise IndexError).
Proof.
  intros RM HV.
  assert (HR : isreversible m = Ok true).
  { destruct (calc_ok m (reachable_consistent m RM)) as [_ N]. destruct (isreversible m) as [[|]| |] eqn:E; [reflexivity| | |];
      destruct (N ltac:(discriminate)) as (E1 & E2 & E3); unfold getvariants in HV; rewrite E1, E3 in HV; discriminate. }
  destruct (getters m (reachable_consistent m RM) HR) as (U & m'' & _ & _ & _ & E1 & _ & E3).
  rewrite E1 in HV. injection HV as <- <-. set (l := map fst (variants_of U (m_Laue m))) in *. split.
  - intros n Hn. rewrite E3. unfold py_index. destruct (Z.ltb_spec (n - 1) 0); [lia|].
    destruct (Z.leb_spec 0 (n - 1)); [|lia]. destruct (Z.ltb_spec (n - 1) (Z.of_nat (length l))); [|lia]. cbn [andb].
    replace (Z.to_nat (n - 1)) with (Z.to_nat n - 1)%nat by lia.
    destruct (nth_error l (Z.to_nat n - 1)) as [V|] eqn:EV; [exists V; auto|]. apply nth_error_None in EV. lia.
  - intros n Hn. rewrite E3. unfold py_index. destruct (Z.ltb_spec (n - 1) 0).
    + destruct (Z.leb_spec 0 (n - 1 + Z.of_nat (length l))); [lia|]. reflexivity.
    + destruct (Z.leb_spec 0 (n - 1)); [|lia]. destruct (Z.ltb_spec (n - 1) (Z.of_nat (length l))); [lia|]. reflexivity.
Qed.
(** n = 0 (and the negative numbers above -N) are not rejected: the last variant comes back. *)
Theorem C28_out_of_range_refuted m Us m' : reachable m -> getvariants m = Ok (Us, m') ->
  forall n, (- Z.of_nat (length Us) < n <= 0)%Z -> exists V, getvariant m n = Ok (V, m') /\ nth_error Us (Z.to_nat (n - 1 + Z.of_nat (length Us))) = Some V.
Proof.
  intros RM HV.
  assert (HR : isreversible m = Ok true).
  { destruct (calc_ok m (reachable_consistent m RM)) as [_ N]. destruct (isreversible m) as [[|]| |] eqn:E; [reflexivity| | |];
      destruct (N ltac:(discriminate)) as (E1 & E2 & E3); unfold getvariants in HV; rewrite E1, E3 in HV; discriminate. }
  destruct (getters m (reachable_consistent m RM) HR) as (U & m'' & _ & _ & _ & E1 & _ & E3).
  rewrite E1 in HV. injection HV as <- <-. set (l := map fst (variants_of U (m_Laue m))) in *.
  intros n Hn. rewrite E3. unfold py_index. destruct (Z.ltb_spec (n - 1) 0); [|lia].
  destruct (Z.leb_spec 0 (n - 1 + Z.of_nat (length l))); [|lia]. destruct (Z.ltb_spec (n - 1 + Z.of_nat (length l)) (Z.of_nat (length l))); [|lia]. cbn [andb].
  destruct (nth_error l (Z.to_nat (n - 1 + Z.of_nat (length l)))) as [V|] eqn:EV; [exists V; auto|]. apply nth_error_None in EV. lia.
Qed.
Example C28_case : exists Us m', getvariants Mtet = Ok (Us, m') /\ length Us = 3%nat.
Proof. destruct C27_case as (_ & _ & _ & _ & Us & idx & m' & E & _ & P). exists Us, m'. split; [exact E|]. now rewrite (Permutation_length P). Qed.

(** * C29 *)
(** isreversible answers whether the lattice group of U is a subgroup (equality allowed) of the parent group. *)
Theorem C29_subgroup_partial m U : m_U m = Some U -> base 3 U -> resolved 3 U -> is_group 3 (getLaue m) ->
  (forall P Q, In P (tabled_rotations 3) -> In Q (getLaue m) -> allclose P Q = true -> P = Q) ->
  exists lg b, Laue_group U = Ok lg /\ is_group 3 lg /\ isreversible m = Ok b /\ (b = true <-> incl lg (getLaue m)).
Proof.
  intros EU B RS HG SP. destruct (laue_result 3 U B) as (lg & EG & ND & I & A & C).
  assert (LG : is_group 3 lg) by (apply C; intros Q HQ; apply RS; now apply rot_in_iso).
  destruct (hassubgroup_total (getLaue m) lg) as [b Hb].
  assert (KEY : hassubgroup (getLaue m) (Some lg) = Ok true <-> incl lg (getLaue m)).
  { apply (hassubgroup_groups 3); auto. intros P Q HP HQ. apply SP; [|exact HQ]. now apply A. }
  exists lg. unfold isreversible, getU. rewrite EU. cbn [bind]. rewrite (new_lattice_base U B). cbn [bind]. rewrite EG. cbn [bind].
  destruct (length lg <=? length (getLaue m))%nat eqn:EL.
  - exists b. split; [reflexivity|]. split; [exact LG|]. split; [exact Hb|]. rewrite <- KEY, Hb. split; [now intros ->|now intros [= ->]].
  - exists false. split; [reflexivity|]. split; [exact LG|]. split; [reflexivity|]. split; [discriminate|]. intros K.
    apply Nat.leb_gt in EL. apply (NoDup_incl_length (proj1 (proj2 LG))) in K. lia.
Qed.
Theorem C29_errors m : (m_U m = None -> isreversible m = Raise AttributeError) /\
  (forall U, m_U m = Some U -> wf 3 3 U -> det U = 0 -> isreversible m = Raise ValueError).
Proof.
  split.
  - intros E. unfold isreversible, getU. now rewrite E.
  - intros U E W D. unfold isreversible, getU. rewrite E. cbn [bind]. unfold new_lattice.
    destruct (is_square U); [|reflexivity]. assert (K : Rleb (det U * det U) 0 = true) by (apply Rleb_spec; rewrite D; lra). now rewrite K.
Qed.
(** The documented condition is a proper subgroup; the identity stretch, which has the full cubic group, is called reversible. *)
Lemma eye_table Q : In Q CUBIC_LAUE_GROUP -> inpointgroup (eye 3) (IntArr Q) = Ok true.
Proof.
  assert (B : base 3 (eye 3)) by (split; [now right|]; split; [now apply wfb_spec|]; rewrite det_eye by (now right); lra).
  intros HQ. rewrite (inpoint_red 3 _ B) by (apply cubic_iff in HQ; apply HQ). cbn [values].
  assert (WQ : wf 3 3 Q) by (apply cubic_iff in HQ; apply HQ).
  apply (lat_eq_true 3 _ B _ (RZ Q) Q); [now apply wf_RZ|exact WQ| |].
  - rewrite (mmul_eye_r 3 3), (mmul_eye_l 3 3); auto using wf_RZ; lia.
  - intros i j Hi Hj. rewrite get_RZ, Rminus_diag_eq, Rabs_R0 by reflexivity. pose proof (Rabs_pos (IZR (get Q i j))). lra.
Qed.
Lemma filter_true {A} (l : list A) : filter (fun _ => true) l = l.
Proof. induction l; cbn; congruence. Qed.
Lemma eye_Laue : Laue_group (eye 3) = Ok (map RZ CUBIC_LAUE_GROUP).
Proof.
  unfold Laue_group. change (length (eye 3)) with 3%nat. unfold pick_group, cubic_arr. rewrite (keep_filter (eye 3) (fun _ => true)) by exact eye_table.
  rewrite filter_true. cbn [bind]. rewrite map_length. change (length CUBIC_LAUE_GROUP) with 24%nat. reflexivity.
Qed.
Theorem C29_proper_refuted : exists m U lg, m_U m = Some U /\ Laue_group U = Ok lg /\ isreversible m = Ok true /\ getLaue m = lg.
Proof.
  exists (new_mart (Some (eye 3)) None), (eye 3), (map RZ CUBIC_LAUE_GROUP). split; [reflexivity|]. split; [exact eye_Laue|]. split; [|reflexivity].
  assert (B : base 3 (eye 3)) by (split; [now right|]; split; [now apply wfb_spec|]; rewrite det_eye by (now right); lra).
  unfold isreversible. cbn [getU m_U new_mart bind]. rewrite (new_lattice_base _ B). cbn [bind]. rewrite eye_Laue. cbn [bind].
  cbn [getLaue m_Laue]. rewrite Nat.leb_refl. apply hassubgroup_refl.
Qed.
(** The hypotheses of C29_subgroup_partial: any 3 x 3 base, the cubic group and the matrices of its own table. *)
Example C29_case : is_group 3 (map RZ CUBIC_LAUE_GROUP) /\
  forall P Q, In P (map RZ CUBIC_LAUE_GROUP) -> In Q (map RZ CUBIC_LAUE_GROUP) -> allclose P Q = true -> P = Q.
Proof.
  split; [apply CUBIC_good|]. intros P Q HP HQ H. apply in_map_iff in HP, HQ. destruct HP as (M & <- & HM), HQ as (N & <- & HN). f_equal.
  apply (allclose_integers 2 M N); [apply cubic_iff in HM; apply HM|apply cubic_iff in HN; apply HN| |exact H].
  intros i j Hi Hj. unfold CUBIC_LAUE_GROUP in HN. cbn [In] in HN. revert i j Hi Hj.
  repeat match type of HN with _ \/ _ => destruct HN as [HN|HN] end; try contradiction; subst N; apply lt3; cbn; lia.
Qed.

(** * C71 *)
Theorem C71_group m g : exists m', setLaue m (Grp g) = Ok m' /\ m_U m' = m_U m /\ getLaue m' = g /\ m_Ulist m' = None /\ m_idx m' = None.
Proof. eexists. split; [reflexivity|]. repeat split. Qed.
Theorem C71_rejects m : setLaue m OtherArg = Raise ValueError /\ forall k, ~ (1 <= k <= 14)%Z -> setLaue m (Int k) = Raise ValueError.
Proof.
  split; [reflexivity|]. intros k Hk. unfold setLaue. destruct (Z.ltb_spec 0 k); destruct (Z.leb_spec k 14); cbn [andb]; try reflexivity. lia.
Qed.
Lemma cosd_small x e : 0 <= e <= 2 -> x = 90 - e \/ x = 90 + e -> Rabs (BravaisSpec.cosd x) <= e / 45.
Proof.
  intros He Hx. pose proof PI_RGT_0. pose proof PI_4.
  assert (K : Rabs (sin (deg e)) <= e / 45).
  { assert (D0 : 0 <= deg e) by (unfold deg; nra). assert (D1 : deg e <= e / 45) by (unfold deg; nra).
    assert (S0 : 0 <= sin (deg e)) by (apply sin_ge_0; unfold deg in *; nra). rewrite Rabs_pos_eq by exact S0.
    destruct (Req_dec (deg e) 0) as [->|N]; [rewrite sin_0; lra|]. pose proof (sin_lt_x (deg e)). lra. }
  change (BravaisSpec.cosd x) with (cos (deg x)). destruct Hx as [->| ->].
  - replace (deg (90 - e)) with (PI / 2 - deg e) by (unfold deg; field). rewrite cos_shift. exact K.
  - replace (deg (90 + e)) with (PI / 2 + deg e) by (unfold deg; field). replace (cos (PI / 2 + deg e)) with (- sin (deg e)) by (pose proof (sin_cos (deg e)); lra). rewrite Rabs_Ropp. exact K.
Qed.
(** For every lattice type except 5, the object returned has the same U and the rotation group found for a lattice of that
    type, with at least the order of its crystal system, exactly that order for cubic and hexagonal lattices. *)
Theorem C71_lattice_type_partial m k s ce : (1 <= k <= 14)%Z -> k <> 5%Z -> bravais_type 3 k = Some (s, ce) ->
  exists b m', b_id b = k /\ setLaue m (Int k) = Ok m' /\ m_U m' = m_U m /\ m_Ulist m' = None /\ m_idx m' = None /\
    Laue_group (b_base b) = Ok (getLaue m') /\ (laue_order s <= length (getLaue m'))%nat /\
    (exact_order s -> length (getLaue m') = laue_order s).
Proof.
  intros Hk H5 HT. set (p := nth (Z.to_nat (k - 1)) latParam []).
  assert (HA : exists c, admissible s p c).
  { assert (CA : forall x : R, In x [89; 88; 92] -> Rabs (BravaisSpec.cosd x) <= 2 / 45).
    { intros x [<-|[<-|[<-|[]]]]; [pose proof (cosd_small 89 1 ltac:(lra) ltac:(left; lra))|pose proof (cosd_small 88 2 ltac:(lra) ltac:(left; lra))|
        pose proof (cosd_small 92 2 ltac:(lra) ltac:(right; lra))]; lra. }
    assert (k = 1 \/ k = 2 \/ k = 3 \/ k = 4 \/ k = 6 \/ k = 7 \/ k = 8 \/ k = 9 \/ k = 10 \/ k = 11 \/ k = 12 \/ k = 13 \/ k = 14)%Z as CK by lia.
    repeat destruct CK as [CK|CK]; subst k; cbn in HT; injection HT as <- <-; unfold p, latParam;
      match goal with |- context [Z.to_nat ?e] => let v := eval vm_compute in (Z.to_nat e) in change (Z.to_nat e) with v end; cbn [nth];
      (eexists; split; [reflexivity|]; split; [cbn [In]; intros x H; repeat destruct H as [H|H]; lra|]); unfold volume_factor; cbn [planar angle mk_cell]; rewrite ?cosd90, ?cosd60; try lra.
    - pose proof (CA 89 ltac:(cbn; auto)) as K. assert (-1 < BravaisSpec.cosd 89 < 1) by (unfold Rabs in K; destruct (Rcase_abs _) in K; lra). clear K CA. set (u := BravaisSpec.cosd 89) in *. clearbody u. nra.
    - pose proof (CA 89 ltac:(cbn; auto)) as K. assert (-1 < BravaisSpec.cosd 89 < 1) by (unfold Rabs in K; destruct (Rcase_abs _) in K; lra). nra.
    - assert (B : forall x, Rabs x <= 2/45 -> - (2/45) <= x <= 2/45) by (intros x K; unfold Rabs in K; destruct (Rcase_abs _) in K; lra).
      pose proof (B _ (CA 89 ltac:(cbn; auto))). pose proof (B _ (CA 88 ltac:(cbn; auto))). pose proof (B _ (CA 92 ltac:(cbn; auto))).
      set (u := BravaisSpec.cosd 89) in *. set (v := BravaisSpec.cosd 88) in *. set (w := BravaisSpec.cosd 92) in *. clearbody u v w.
      assert (u * u <= 1/100) by nra. assert (v * v <= 1/100) by nra. assert (w * w <= 1/100) by nra.
      assert (-1/100 <= u * v <= 1/100) by (split; nra). nra. }
  destruct HA as [c HA]. destruct (C21_accepts 3 k s ce p c HT HA) as (b & EB & EI & EP).
  destruct (C20_symmetry_order 3 k s ce p c b HT HA EB) as (G & PG & EG & _ & L1 & _ & _ & L2).
  exists b, (new_mart (m_U m) (Some G)). split; [exact EI|]. unfold setLaue.
  destruct (Z.ltb_spec 0 k); [|lia]. destruct (Z.leb_spec k 14); [|lia]. cbn [andb]. fold p. rewrite EB. cbn [bind]. rewrite EG.
  split; [reflexivity|]. repeat split; auto. intros K. now apply L2.
Qed.
(** Type 5: the built-in sample lattice (trigonal, angle 120 degrees) is flat, so the request fails. *)
Theorem C71_trigonal_refuted m : setLaue m (Int 5) = Raise ValueError.
Proof.
  unfold setLaue. change ((0 <? 5) && (5 <=? 14))%Z with true. cbv iota. change (nth (Z.to_nat (5 - 1)) latParam []) with [2; 120].
  rewrite (C21_rejects_singular_partial 3 5 Trigonal P [2; 120] (mk_cell 2 2 2 120 120 120)); try reflexivity.
  - cbn. intros x H; intuition lra.
  - unfold volume_factor. cbn. assert (E : BravaisSpec.cosd 120 = - (1/2)).
    { change (BravaisSpec.cosd 120) with (cos (deg 120)). replace (deg 120) with (2 * (PI / 3)) by (unfold deg; field). rewrite cos_2PI3. lra. }
    rewrite !E. lra.
  - discriminate.
Qed.
Example C71_case : exists m', setLaue Mtet (Int 4) = Ok m' /\ length (getLaue m') = 12%nat /\ m_U m' = Some Utet.
Proof.
  destruct (C71_lattice_type_partial Mtet 4 Hexagonal P) as (b & m' & _ & E & EU & _ & _ & _ & _ & L); [lia|lia|reflexivity|].
  exists m'. split; [exact E|]. split; [|exact EU]. apply L. unfold exact_order. auto.
Qed.

Print Assumptions C26_result_partial.
Print Assumptions C26_accepts.
Print Assumptions C26_rejects_partial.
Print Assumptions C26_missing_check_partial.
Print Assumptions C26_positive_definite_refuted.
Print Assumptions C26_type_error_refuted.
Print Assumptions C27_orbit_partial.
Print Assumptions C27_count.
Print Assumptions C27_tolerance_partial.
Print Assumptions C27_irreversible.
Print Assumptions C28_nth_partial.
Print Assumptions C28_out_of_range_refuted.
Print Assumptions C29_subgroup_partial.
Print Assumptions C29_errors.
Print Assumptions C29_proper_refuted.
Print Assumptions C71_group.
Print Assumptions C71_rejects.
Print Assumptions C71_lattice_type_partial.
Print Assumptions C71_trigonal_refuted.
