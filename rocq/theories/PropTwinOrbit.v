(** Property C115: twinning is the same for all pairs of variants that are related by symmetry.  Specification: MartSpec.v (rotate,
    reachable, separated), TwinSpec.v (pair_after, twin_matrix); model: MartModel.v, TwinModel.v. *)
From Coq Require Import Sorting.Sorted Permutation.
From Verif Require Import LinAlg Eig GroupSpec GroupProofs LatticeProofs MartProofs PropMart PropTwin PropTwin2 PropTwin3 PropFrame PropTwinFrame.
Local Open Scope R_scope.

(** ** Specification *)
(** a martensite object with a positive definite stretch and a symmetry group whose images of the stretch are farther apart than the
    comparison tolerance; Us are its variants *)
Definition has_variants (m : mart) (Us : list (mat R)) : Prop := exists U m', reachable m /\ m_U m = Some U /\ positive_definite U /\
  rotation_group (getLaue m) /\ separated U (getLaue m) /\ isreversible m = Ok true /\ getvariants m = Ok (Us, m').
(** the middle eigenvalue is not at the edge of the tolerance 0.005, where exchanging the pair changes the answer (C34) *)
Definition off_edge (V W : mat R) : Prop := forall l1 l2 l3, eigenvalues (twin_matrix V W) l1 l2 l3 ->
  Rabs (l2 - 1) < 5 / 1000 / (1 + 5 / 1000) \/ 5 / 1000 / (1 - 5 / 1000) <= Rabs (l2 - 1).
(** the entry e of the table concerns variant i *)
Definition touches (i : nat) (e : nat * nat) : bool := (fst e =? i)%nat || (snd e =? i)%nat.

(** ** Proofs *)
Lemma orbit_facts m Us : has_variants m Us ->
  (forall V, In V Us -> positive_definite V) /\ NoDup Us /\ (forall Q, In Q (getLaue m) -> orthogonal 3 Q) /\
  (forall Q V, In Q (getLaue m) -> In V Us -> In (rotate Q V) Us) /\
  (forall V W, In V Us -> In W Us -> exists Q, In Q (getLaue m) /\ rotate Q V = W) /\
  (forall V W, In V Us -> In W Us -> V <> W -> distinct V W).
Proof.
  intros (U & m' & RM & EU & PU & [HG HO] & HS & HR & EV).
  assert (WU : wf 3 3 U) by apply PU.
  destruct (C27_orbit_partial m U RM EU WU (conj HG HO) HS HR) as (Us' & idx & m'' & E & _ & O). assert (Us' = Us) by congruence. subst Us'.
  destruct O as [_ ON OX _ _ _ _]. destruct HG as (GW & _ & GE & GM & GI).
  assert (P : forall V, In V Us -> positive_definite V). { intros V HV. apply OX in HV as (Q & HQ & ->). apply rotate_posdef; auto. }
  split; [exact P|]. split; [exact ON|]. split; [exact HO|]. split; [|split].
  - intros Q V HQ HV. apply OX in HV as (P0 & HP & ->). apply OX. exists (mmul Q P0). split; [now apply GM|]. now rewrite rotate_comp by auto.
  - intros V W HV HW. apply OX in HV as (P1 & H1 & ->). apply OX in HW as (P2 & H2 & ->). destruct (GI P1 H1) as (I1 & HI & E1 & E2).
    exists (mmul P2 I1). split; [now apply GM|]. assert (WPI : wf 3 3 (mmul P2 I1)) by auto. rewrite rotate_comp by auto. rewrite (mmul_assoc 3 3 3 3) by auto. rewrite E2, (mmul_eye_r 3 3) by (auto; lia). reflexivity.
  - intros V W HV HW N. apply OX in HV as (P1 & H1 & ->). apply OX in HW as (P2 & H2 & ->).
    destruct (allclose (rotate P1 U) (rotate P2 U)) eqn:A; [apply HS in A; auto; contradiction|].
    assert (W1 : wf 3 3 (rotate P1 U)) by (apply wf_rotate; auto).
    destruct (Classical_Prop.classic (distinct (rotate P1 U) (rotate P2 U))) as [D|D]; [exact D|]. exfalso.
    assert (A' : allclose (rotate P1 U) (rotate P2 U) = true); [|congruence]. apply (allclose_spec 2 3); [exact W1|]. intros i j Hi Hj.
    apply Rnot_lt_le. intros K. apply D. exists i, j. split; [exact Hi|]. split; [exact Hj|].
    pose proof (Rabs_pos (get (rotate P2 U) i j)). unfold atol0, rtol0, tolerance in *. lra.
Qed.

Lemma nearly_rotate Q V W : orthogonal 3 Q -> positive_definite V -> positive_definite W -> distinct V W -> distinct (rotate Q V) (rotate Q W) ->
  (nearly_twinned V W <-> nearly_twinned (rotate Q V) (rotate Q W)).
Proof.
  intros O PV PW D D'. assert (WQ : wf 3 3 Q) by apply O. unfold nearly_twinned. rewrite twin_rotate by assumption.
  split; intros [_ (l1 & l2 & l3 & E & L)]; (split; [assumption|]); exists l1, l2, l3; (split; [|exact L]); [now apply eigenvalues_rotate|].
  assert (WM : wf 3 3 (twin_matrix V W)) by (apply (twin_posdef V W PV PW)).
  rewrite <- (unrotate Q O (twin_matrix V W) WM). apply eigenvalues_rotate; [apply orth_tr; [now right|exact O]|exact E].
Qed.
Lemma not_self V : ~ nearly_twinned V V.
Proof. intros [(i & j & _ & _ & K) _]. rewrite Rminus_diag_eq, Rabs_R0 in K by reflexivity. unfold tolerance in K. lra. Qed.
Lemma nearly_sym V W : positive_definite V -> positive_definite W -> off_edge V W -> distinct V W -> nearly_twinned V W -> nearly_twinned W V.
Proof.
  intros PV PW OE D [_ (l1 & l2 & l3 & E & L)]. split.
  - destruct D as (i & j & Hi & Hj & K). exists i, j. split; [exact Hi|]. split; [exact Hj|]. now rewrite Rabs_minus_sym.
  - exists (/ l3), (/ l2), (/ l1). split; [now apply twin_swap|]. destruct (OE l1 l2 l3 E) as [K|K]; [|exfalso; lra].
    assert (B : 0 < l2) by (unfold Rabs in L; destruct Rcase_abs; lra).
    replace (/ l2 - 1) with (- (l2 - 1) * / l2) by (field; lra). rewrite Rabs_mult, Rabs_Ropp, (Rabs_pos_eq (/ l2)) by (apply Rlt_le, Rinv_0_lt_compat, B).
    apply Rmult_lt_reg_r with l2; [exact B|]. rewrite Rmult_assoc, Rinv_l, Rmult_1_r by lra. unfold Rabs in *. destruct (Rcase_abs (l2 - 1)); lra.
Qed.

(** ** Theorems *)
(** Applying an element of the symmetry group to both variants of a pair gives two variants, and the same answer to istwinnable. *)
Theorem C115_pairs : forall m Us Q V W, has_variants m Us -> In Q (getLaue m) -> In V Us -> In W Us ->
  In (rotate Q V) Us /\ In (rotate Q W) Us /\
  forall eig npnew npnew' skip skip' h h' p p',
    is_eig (twin_matrix V W) (eig (twin_matrix V W)) -> is_eig (twin_matrix (rotate Q V) (rotate Q W)) (eig (twin_matrix (rotate Q V) (rotate Q W))) ->
    pair_after eig npnew skip V W h p -> pair_after eig npnew' skip' (rotate Q V) (rotate Q W) h' p' -> istwinnable p = istwinnable p'.
Proof.
  intros m Us Q V W HV HQ Vin Win. destruct (orbit_facts m Us HV) as (P & ON & HO & Cl & Tr & Di).
  split; [now apply Cl|]. split; [now apply Cl|]. intros eig npnew npnew' skip skip' h h' p p' E E' A A'.
  apply eq_true_iff_eq. rewrite (twinnable_after _ _ _ _ _ _ _ (P V Vin) (P W Win) E A), (twinnable_after _ _ _ _ _ _ _ (P _ (Cl Q V HQ Vin)) (P _ (Cl Q W HQ Win)) E' A').
  destruct (Classical_Prop.classic (V = W)) as [->|N]; [split; intros K; now apply not_self in K|].
  apply nearly_rotate; auto. apply Di; auto. intros K. apply N.
  rewrite <- (unrotate Q (HO Q HQ) V), <- (unrotate Q (HO Q HQ) W), K by (apply (P V Vin) || apply (P W Win)). reflexivity.
Qed.
Print Assumptions C115_pairs.

Lemma finite_choice {A} (d : A) N (P : nat -> A -> Prop) : (forall i, (i < N)%nat -> exists j, P i j) -> exists f, forall i, (i < N)%nat -> P i (f i).
Proof.
  induction N as [|N IH]; intros H; [exists (fun _ => d); intros i Hi; lia|]. destruct IH as (f & F); [intros i Hi; apply H; lia|].
  destruct (H N) as (j & Hj); [lia|]. exists (fun i => if (i =? N)%nat then j else f i). intros i Hi. destruct (Nat.eqb_spec i N) as [->|Ni]; [exact Hj|]. apply F. lia.
Qed.
Lemma NoDup_map_on {A B} (f : A -> B) l : NoDup l -> (forall x y, In x l -> In y l -> f x = f y -> x = y) -> NoDup (map f l).
Proof.
  induction 1 as [|a l Na Nl IH]; intros Inj; cbn; constructor.
  - intros K. apply in_map_iff in K as (x & E & Hx). apply Na. rewrite (Inj a x); cbn; auto.
  - apply IH. intros x y Hx Hy. apply Inj; cbn; auto.
Qed.
Lemma sorted_nodup (tab : list (nat * nat)) : StronglySorted lex tab -> NoDup tab.
Proof.
  induction 1 as [|a l S IH F]; constructor; [|exact IH]. intros K. rewrite Forall_forall in F. specialize (F a K). unfold lex in F. lia.
Qed.
Definition other (i : nat) (e : nat * nat) : nat := if (fst e =? i)%nat then snd e else fst e.
Section Count.
  Variable tab : list (nat * nat).
  Hypothesis Nd : NoDup tab.
  Hypothesis Lt : forall i j, In (i, j) tab -> (i < j)%nat.
  Definition nbrs (i : nat) : list nat := map (other i) (filter (touches i) tab).
  Lemma nbrs_length i : length (nbrs i) = length (filter (touches i) tab).
  Proof. apply map_length. Qed.
  Lemma nbrs_nodup i : NoDup (nbrs i).
  Proof.
    apply NoDup_map_on; [now apply NoDup_filter|]. intros [a b] [a' b'] H H' E. apply filter_In in H as [H T], H' as [H' T']. apply Lt in H, H'.
    unfold touches, other in *. cbn [fst snd] in *. destruct (Nat.eqb_spec a i), (Nat.eqb_spec a' i), (Nat.eqb_spec b i), (Nat.eqb_spec b' i); cbn in T, T'; try discriminate; f_equal; lia.
  Qed.
  Lemma nbrs_in i j : In j (nbrs i) <-> In (i, j) tab \/ In (j, i) tab.
  Proof.
    unfold nbrs. rewrite in_map_iff. split.
    - intros ([a b] & E & H). apply filter_In in H as [H T]. unfold touches, other in *. cbn [fst snd] in *.
      destruct (Nat.eqb_spec a i) as [->|Na]; [subst b; auto|]. destruct (Nat.eqb_spec b i) as [->|Nb]; [subst a; auto|discriminate].
    - intros [H|H]; [exists (i, j)|exists (j, i)]; (split; [|apply filter_In; split; [exact H|]]); apply Lt in H; unfold touches, other; cbn [fst snd].
      + now rewrite Nat.eqb_refl.
      + now rewrite Nat.eqb_refl.
      + destruct (Nat.eqb_spec j i); [lia|reflexivity].
      + rewrite Nat.eqb_refl. apply orb_true_r.
  Qed.
End Count.
Lemma count_one N a : (a < N)%nat -> list_sum (map (fun i => if (a =? i)%nat then 1%nat else 0%nat) (seq 0 N)) = 1%nat.
Proof.
  induction N as [|N IH]; intros H; [lia|]. rewrite seq_S, map_app, list_sum_app. cbn [map list_sum fold_right plus]. change (0 + N)%nat with N.
  destruct (Nat.eqb_spec a N) as [->|Na]; [|rewrite IH by lia; reflexivity].
  enough (E : list_sum (map (fun i => if (N =? i)%nat then 1%nat else 0%nat) (seq 0 N)) = 0%nat) by lia. clear.
  assert (G : forall l, (forall i, In i l -> (i < N)%nat) -> list_sum (map (fun i => if (N =? i)%nat then 1%nat else 0%nat) l) = 0%nat).
  { induction l as [|x l IH]; intros H; [reflexivity|]. cbn. destruct (Nat.eqb_spec N x) as [E|_]; [specialize (H x (or_introl eq_refl)); lia|]. apply IH. intros; apply H; cbn; auto. }
  apply G. intros i Hi. apply in_seq in Hi. lia.
Qed.
Lemma double_count N (tab : list (nat * nat)) : (forall e, In e tab -> (fst e < snd e < N)%nat) ->
  list_sum (map (fun i => length (filter (touches i) tab)) (seq 0 N)) = (2 * length tab)%nat.
Proof.
  induction tab as [|e tab IH]; intros H.
  - clear H. cbn [filter length Nat.mul]. generalize (seq 0 N). induction l as [|x l IHl]; [reflexivity|exact IHl].
  - assert (S : forall l, list_sum (map (fun i => length (filter (touches i) (e :: tab))) l) =
      (list_sum (map (fun i => if (fst e =? i)%nat then 1%nat else 0%nat) l) + list_sum (map (fun i => if (snd e =? i)%nat then 1%nat else 0%nat) l) + list_sum (map (fun i => length (filter (touches i) tab)) l))%nat).
    { pose proof (H e (or_introl eq_refl)) as He. induction l as [|x l IHl]; [reflexivity|]. cbn [map list_sum fold_right]. fold (list_sum (map (fun i => length (filter (touches i) (e :: tab))) l)). 
      rewrite IHl. cbn [filter]. unfold touches at 1. destruct (Nat.eqb_spec (fst e) x), (Nat.eqb_spec (snd e) x); cbn [orb length]; unfold list_sum; lia. }
    rewrite S, !count_one by (pose proof (H e (or_introl eq_refl)); lia). rewrite IH by (intros; apply H; cbn; auto). cbn [length]. lia.
Qed.
Lemma sum_const f k N : (forall i, (i < N)%nat -> f i = k) -> list_sum (map f (seq 0 N)) = (N * k)%nat.
Proof.
  induction N as [|N IH]; intros H; [reflexivity|]. rewrite seq_S, map_app, list_sum_app, IH by (intros; apply H; lia). cbn. rewrite H by lia. lia.
Qed.

(** When no pair is at the edge of the tolerance, the table of twins of the variants is mapped to itself by the symmetry group, and
    every variant takes part in the same number of twins. *)
Theorem C115_table : forall m Us eig npnew L h, has_variants m Us ->
  (forall V W, In V Us -> In W Us -> is_eig (twin_matrix V W) (eig (twin_matrix V W))) ->
  (forall V W, In V Us -> In W Us -> V <> W -> off_edge V W) ->
  exists tab k, fst (TwinTable eig (sys_run eig npnew h (fresh_system Us L))) = Ok tab /\
    (forall Q, In Q (getLaue m) -> exists s, forall i, (i < length Us)%nat -> (s i < length Us)%nat /\ nth (s i) Us [] = rotate Q (nth i Us []) /\
       forall j, (j < length Us)%nat -> (In (i, j) tab \/ In (j, i) tab <-> In (s i, s j) tab \/ In (s j, s i) tab)) /\
    (forall i, (i < length Us)%nat -> length (filter (touches i) tab) = k) /\ (2 * length tab = length Us * k)%nat.
Proof.
  intros m Us eig npnew L h HV HE HO'. destruct (orbit_facts m Us HV) as (P & ON & HO & Cl & Tr & Di).
  destruct (C33_table eig npnew Us L P HE) as (tab & ST & Mem & Runs). destruct (Runs h) as (ET & _).
  assert (Nd : NoDup tab) by now apply sorted_nodup. assert (Lt : forall i j, In (i, j) tab -> (i < j)%nat) by (intros i j K; apply Mem in K; tauto).
  set (N := length Us) in *.
  assert (In' : forall i, (i < N)%nat -> In (nth i Us []) Us) by (intros; now apply nth_In).
  assert (Inj : forall i j, (i < N)%nat -> (j < N)%nat -> nth i Us [] = nth j Us [] -> i = j) by (intros i j Hi Hj E; now apply (NoDup_nth Us []) in E).
  assert (Rel : forall i j, (i < N)%nat -> (j < N)%nat -> (In (i, j) tab \/ In (j, i) tab <-> nearly_twinned (nth i Us []) (nth j Us []))).
  { intros i j Hi Hj. rewrite !Mem. split.
    - intros [[_ K]|[O K]]; [exact K|]. assert (Ne : nth j Us [] <> nth i Us []) by (intros E; apply Inj in E; auto; lia). apply nearly_sym; auto.
    - intros K. assert (Ne : i <> j) by (intros ->; now apply not_self in K).
      destruct (Nat.lt_ge_cases i j) as [A|A]; [left; tauto|right]. split; [lia|].
      assert (Nv : nth i Us [] <> nth j Us []) by (intros E; apply Inj in E; auto). apply nearly_sym; auto. }
  assert (Sig : forall Q, In Q (getLaue m) -> exists s, forall i, (i < N)%nat -> (s i < N)%nat /\ nth (s i) Us [] = rotate Q (nth i Us [])).
  { intros Q HQ. apply (finite_choice O N (fun i j => (j < N)%nat /\ nth j Us [] = rotate Q (nth i Us []))). intros i Hi. pose proof (Cl Q _ HQ (In' i Hi)) as K. apply (In_nth _ _ []) in K as (j & Hj & E). now exists j. }
  assert (Rinj : forall Q V W, In Q (getLaue m) -> In V Us -> In W Us -> rotate Q V = rotate Q W -> V = W).
  { intros Q V W HQ Vin Win K. rewrite <- (unrotate Q (HO Q HQ) V), <- (unrotate Q (HO Q HQ) W), K by (apply (P V Vin) || apply (P W Win)). reflexivity. }
  assert (Inv : forall Q s, In Q (getLaue m) -> (forall i, (i < N)%nat -> (s i < N)%nat /\ nth (s i) Us [] = rotate Q (nth i Us [])) ->
            forall i j, (i < N)%nat -> (j < N)%nat -> (In (i, j) tab \/ In (j, i) tab <-> In (s i, s j) tab \/ In (s j, s i) tab)).
  { intros Q s HQ Hs i j Hi Hj. destruct (Hs i Hi) as [Si Ei], (Hs j Hj) as [Sj Ej]. rewrite !Rel, Ei, Ej by assumption.
    destruct (Nat.eq_dec i j) as [->|Ne]; [split; intros K; now apply not_self in K|].
    assert (Nv : nth i Us [] <> nth j Us []) by (intros E; apply Inj in E; auto).
    apply nearly_rotate; auto. apply Di; auto. intros E. apply Nv. now apply (Rinj Q); auto. }
  assert (Le : forall i i', (i < N)%nat -> (i' < N)%nat -> (length (filter (touches i) tab) <= length (filter (touches i') tab))%nat).
  { intros i i' Hi Hi'. destruct (Tr _ _ (In' i Hi) (In' i' Hi')) as (Q & HQ & E). destruct (Sig Q HQ) as (s & Hs).
    assert (Es : s i = i'). { destruct (Hs i Hi) as [A B]. apply Inj; auto. congruence. }
    rewrite <- !nbrs_length. rewrite <- (map_length s (nbrs tab i)). apply NoDup_incl_length.
    - apply NoDup_map_on; [now apply nbrs_nodup|]. intros a b Ha Hb Eab.
      assert (Bd : forall a, In a (nbrs tab i) -> (a < N)%nat). { intros a0 H0. apply nbrs_in in H0; [|assumption..]. destruct H0 as [H0|H0]; apply Mem in H0; lia. }
      apply Bd in Ha, Hb. apply Inj; auto. apply (Rinj Q); auto. rewrite <- (proj2 (Hs a Ha)), <- (proj2 (Hs b Hb)). now rewrite Eab.
    - intros x Hx. apply in_map_iff in Hx as (j & <- & Hj). apply nbrs_in in Hj; [|assumption..].
      assert (Bj : (j < N)%nat) by (destruct Hj as [Hj|Hj]; apply Mem in Hj; lia).
      apply nbrs_in; [assumption..|]. rewrite <- Es. exact (proj1 (Inv Q s HQ Hs i j Hi Bj) Hj). }
  exists tab, (length (filter (touches 0) tab)). split; [exact ET|]. split; [|split].
  - intros Q HQ. destruct (Sig Q HQ) as (s & Hs). exists s. intros i Hi. destruct (Hs i Hi) as [A B]. split; [exact A|]. split; [exact B|]. intros j Hj. now apply (Inv Q s HQ Hs).
  - intros i Hi. apply Nat.le_antisymm; apply Le; lia.
  - rewrite <- (double_count N tab). { apply sum_const. intros i Hi. apply Nat.le_antisymm; apply Le; lia. }
    intros [a b] He. apply Mem in He. cbn. lia.
Qed.
Print Assumptions C115_table.

(** ** A concrete case: the three tetragonal variants of the cubic group.  Every variant takes part in two of the three twins. *)
Lemma Dg_diag a b c : Dg a b c = diag [a; b; c].
Proof. reflexivity. Qed.
Lemma tets_posdef V : In V tets -> positive_definite V.
Proof. intros [<-|[<-|[<-|[]]]]; rewrite Dg_diag; apply posdef_diag; lra. Qed.
Lemma tets_pair V W : In V tets -> In W tets -> V <> W -> distinct V W /\ exists l1 l3, eigenvalues (twin_matrix V W) l1 1 l3.
Proof.
  assert (S : 9 / 10 / (9 / 10) * (9 / 10 / (9 / 10)) = 1) by field.
  intros HV HW N. destruct HV as [<-|[<-|[<-|[]]]]; destruct HW as [<-|[<-|[<-|[]]]]; try congruence; rewrite !Dg_diag; (split;
    [apply distinct_diag; unfold tolerance; first [left; rabs; lra | right; left; rabs; lra | right; right; rabs; lra]|]);
    rewrite twin_diag, S by lra; exists ((9/10 / (11/10)) * (9/10 / (11/10))), ((11/10 / (9/10)) * (11/10 / (9/10)));
    (apply eigenvalues_of_diag; [|lra|lra]);
    (apply NoDup_Permutation; [| |intros x; cbn; tauto]);
    (repeat constructor; cbn; intros K; repeat destruct K as [K|K]; try contradiction; lra).
Qed.
Lemma nodup_pairs (tab : list (nat * nat)) : NoDup tab -> (forall i j, In (i, j) tab <-> (i < j < 3)%nat) -> Permutation tab [(0, 1); (0, 2); (1, 2)]%nat.
Proof.
  intros Nd H. apply NoDup_Permutation; [exact Nd| |].
  - repeat constructor; cbn; intros K; repeat destruct K as [K|K]; try contradiction; discriminate.
  - intros [i j]. rewrite H. cbn. split.
    + intros K. destruct i as [|[|[|i]]], j as [|[|[|j]]]; try lia; auto.
    + intros K. repeat destruct K as [K|K]; try contradiction; injection K as <- <-; lia.
Qed.
Example C115_case : exists Us eig, has_variants Mtet Us /\ length Us = 3%nat /\
  (forall V W, In V Us -> In W Us -> is_eig (twin_matrix V W) (eig (twin_matrix V W))) /\
  (forall V W, In V Us -> In W Us -> V <> W -> off_edge V W) /\
  exists tab, fst (TwinTable eig (fresh_system Us None)) = Ok tab /\ length tab = 3%nat /\ forall i, (i < 3)%nat -> length (filter (touches i) tab) = 2%nat.
Proof.
  destruct C27_case as (RM & RG & SP & HR & Us & idx & m' & EV & O & Pm).
  assert (T : forall V, In V Us -> In V tets) by (intros V HV; now apply (Permutation_in _ Pm)).
  assert (HP : forall V, In V Us -> positive_definite V) by (intros; now apply tets_posdef, T).
  destruct (eig_for_pairs Us HP) as (eig & E). exists Us, eig.
  assert (L3 : length Us = 3%nat) by (rewrite (Permutation_length Pm); reflexivity).
  assert (OE : forall V W, In V Us -> In W Us -> V <> W -> off_edge V W).
  { intros V W HV HW N l1 l2 l3 EL. destruct (tets_pair V W (T V HV) (T W HW) N) as (_ & k1 & k3 & EK).
    destruct (eigenvalues_unique _ _ _ _ _ _ _ EL EK) as (_ & -> & _). left. rewrite Rminus_diag_eq, Rabs_R0 by reflexivity. lra. }
  split. { exists Utet, m'. split; [exact RM|]. split; [reflexivity|]. split; [apply tets_posdef; now left|]. auto. }
  split; [exact L3|]. split; [exact E|]. split; [exact OE|].
  destruct (C33_table eig true Us None HP E) as (tab & ST & Mem & Runs). destruct (Runs []) as (ET & _). exists tab. split; [exact ET|].
  assert (PT : Permutation tab [(0, 1); (0, 2); (1, 2)]%nat).
  { apply nodup_pairs; [now apply sorted_nodup|]. intros i j. rewrite Mem, L3. split; [tauto|]. intros K. split; [exact K|].
    assert (Hi : In (nth i Us []) Us) by (apply nth_In; lia). assert (Hj : In (nth j Us []) Us) by (apply nth_In; lia).
    assert (Ne : nth i Us [] <> nth j Us []). { intros Q. apply (NoDup_nth Us []) in Q; [lia|apply O|lia|lia]. }
    destruct (tets_pair _ _ (T _ Hi) (T _ Hj) Ne) as (D & k1 & k3 & EK). split; [exact D|]. exists k1, 1, k3. split; [exact EK|]. rewrite Rminus_diag_eq, Rabs_R0 by reflexivity. lra. }
  split; [now rewrite (Permutation_length PT)|]. intros i Hi.
  assert (LF : length (filter (touches i) tab) = length (filter (touches i) [(0, 1); (0, 2); (1, 2)]%nat)).
  { clear -PT. induction PT; cbn; repeat match goal with |- context [touches i ?e] => destruct (touches i e) end; cbn in *; lia. }
  rewrite LF. destruct i as [|[|[|i]]]; try lia; reflexivity.
Qed.

(** At the edge of the tolerance the count depends on the order in which the variants are listed: three images of one stretch under
    the turns about the body diagonal, of which the middle one takes part in no twin. *)
Example C115_edge : exists Us eig tab, Us = [diag [401/400; 1; 2]; diag [2; 401/400; 1]; diag [1; 2; 401/400]] /\
  (forall V W, In V Us -> In W Us -> is_eig (twin_matrix V W) (eig (twin_matrix V W))) /\
  fst (TwinTable eig (fresh_system Us None)) = Ok tab /\ length (filter (touches 0) tab) = 1%nat /\ length (filter (touches 1) tab) = 0%nat.
Proof.
  set (Us := [diag [401/400; 1; 2]; diag [2; 401/400; 1]; diag [1; 2; 401/400]]).
  assert (HP : forall V, In V Us -> positive_definite V) by (intros V [<-|[<-|[<-|[]]]]; apply posdef_diag; lra).
  destruct (eig_for_pairs Us HP) as (eig & E). destruct (C33_table eig true Us None HP E) as (tab & ST & Mem & Runs). destruct (Runs []) as (ET & _).
  exists Us, eig, tab. split; [reflexivity|]. split; [exact E|]. split; [exact ET|].
  assert (D : forall i j, (i < j < 3)%nat -> distinct (nth i Us []) (nth j Us [])).
  { intros i j H. destruct i as [|[|[|i]]], j as [|[|[|j]]]; try lia; cbn [nth Us]; apply distinct_diag; unfold tolerance; left; rabs; lra. }
  assert (N01 : ~ nearly_twinned (nth 0 Us []) (nth 1 Us [])).
  { intros K. cbn [nth Us] in K. apply (nearly_diag _ _ _ _ _ _ (1/2/1*(1/2/1)) ((401/400)*(401/400)) (2/(401/400)*(2/(401/400)))) in K; try lra; [|apply (D 0%nat 1%nat); lia|].
    - rewrite Rabs_pos_eq in K by lra. lra.
    - replace (401 / 400 / 1 * (401 / 400 / 1)) with (401/400*(401/400)) by field. replace (1 / 2 / 1 * (1 / 2 / 1)) with (1 / 2 * (1 / 2)) by field.
      apply NoDup_Permutation; [| |intros x; cbn; tauto]; repeat constructor; cbn; intros Q; repeat destruct Q as [Q|Q]; try contradiction; lra. }
  assert (N12 : ~ nearly_twinned (nth 1 Us []) (nth 2 Us [])).
  { intros K. cbn [nth Us] in K. apply (nearly_diag _ _ _ _ _ _ (1/2*(1/2)) ((401/400)*(401/400)) (2/(401/400)*(2/(401/400)))) in K; try lra; [|apply (D 1%nat 2%nat); lia|].
    - rewrite Rabs_pos_eq in K by lra. lra.
    - replace (401 / 400 / 1 * (401 / 400 / 1)) with (401/400*(401/400)) by field.
      apply NoDup_Permutation; [| |intros x; cbn; tauto]; repeat constructor; cbn; intros Q; repeat destruct Q as [Q|Q]; try contradiction; lra. }
  assert (Y02 : nearly_twinned (nth 0 Us []) (nth 2 Us [])).
  { cbn [nth Us]. apply (nearly_diag _ _ _ _ _ _ (401/400/2*(401/400/2)) (1/(401/400)*(1/(401/400))) 4); try lra; [apply (D 0%nat 2%nat); lia| |rewrite Rabs_left1; lra].
    replace (2 / 1 * (2 / 1)) with 4 by field.
    apply NoDup_Permutation; [| |intros x; cbn; tauto]; repeat constructor; cbn; intros Q; repeat destruct Q as [Q|Q]; try contradiction; lra. }
  assert (PT : Permutation tab [(0, 2)]%nat).
  { apply NoDup_Permutation; [now apply sorted_nodup|repeat constructor; intros []|]. intros [i j]. rewrite Mem. change (length Us) with 3%nat. cbn [In]. split.
    - intros [H K]. destruct i as [|[|[|i]]], j as [|[|[|j]]]; try lia; auto; contradiction.
    - intros [Q|[]]. injection Q as <- <-. split; [lia|exact Y02]. }
  apply Permutation_sym, Permutation_length_1_inv in PT. rewrite PT. split; reflexivity.
Qed.
