(** The symmetries of every Bravais type, for C20. *)
From Verif Require Import LinAlg GroupSpec GroupModel GroupProofs ReduceModel ReduceProofs LatticeModel LatticeSpec LatticeProofs LatticeGroups
  LatticeLaue LatticeComplete BravaisModel BravaisSpec BravaisProofs BravaisLaue BravaisHex.
Local Open Scope R_scope.

Lemma preserved_pair n E (Q M : mat Z) : base n E -> orthogonal n Q -> wf n n M -> mmul (RZ Q) E = mmul E (RZ M) -> preserves n (RZ Q) E.
Proof.
  intros B OQ WM H. apply (preserves_iff n E B); [exact (orth_arr_values n (IntArr Q) OQ)|]. now exists M.
Qed.
Lemma cubic_orth Q : In Q CUBIC_LAUE_GROUP -> orthogonal 3 Q. Proof. intros H. now apply cubic_iff. Qed.
Lemma cubic_NoDup : NoDup CUBIC_LAUE_GROUP.
Proof. apply (NoDup_map_inv RZ). apply CUBIC_good. Qed.
Lemma filt_NoDup (f : mat Z -> bool) : NoDup (map RZ (filter f CUBIC_LAUE_GROUP)).
Proof. apply RZ_NoDup. apply NoDup_filter, cubic_NoDup. Qed.

(** diagonal conventional cells *)
Lemma laue_diag E x y z N C xy yz xz k : base 3 E -> wf 3 3 N -> E = mmul (D3 x y z) (RZ N) ->
  (xy = true -> x = y) -> (yz = true -> y = z) -> (xz = true -> x = z) ->
  repok N C (filter (commutesb xy yz xz) CUBIC_LAUE_GROUP) = true ->
  length (map RZ (filter (commutesb xy yz xz) CUBIC_LAUE_GROUP)) = k ->
  exists G PG, Laue_group E = Ok G /\ point_group E = Ok PG /\ (k <= length G)%nat /\ length PG = (2 * length G)%nat /\ (k = 24%nat -> length G = 24%nat).
Proof.
  intros B WN EE H1 H2 H3 HR HK. rewrite <- HK. apply laue3_at_least; [exact B|apply filt_NoDup|].
  exact (preserved_list _ E x y z N C xy yz xz B WN EE H1 H2 H3 cubic_orth HR).
Qed.

(** trigonal: every rotation that commutes with the matrix of ones *)
Definition commJ (Q : mat Z) : bool :=
  let r i := (get Q i 0 + get Q i 1 + get Q i 2)%Z in let c j := (get Q 0 j + get Q 1 j + get Q 2 j)%Z in
  forallb (fun i => forallb (fun j => r i =? c j)%Z [0; 1; 2]%nat) [0; 1; 2]%nat.
Lemma trig_commutes Q u v : wf 3 3 Q -> commJ Q = true ->
  mmul (RZ Q) (M3 u v v v u v v v u) = mmul (M3 u v v v u v v v u) (RZ Q).
Proof.
  intros W H. destruct (wf3_inv Q W) as (a&b&c&d&e&f&g&h&i&->).
  unfold commJ in H. cbn [get nth forallb] in H. rewrite !andb_true_iff, !Z.eqb_eq in H. cbn [nth] in H.
  destruct H as ((H1 & H2 & H3 & _) & (H4 & H5 & H6 & _) & (H7 & H8 & H9 & _) & _).
  assert (T : forall x y, x = y -> v * IZR x = v * IZR y) by (intros; now subst).
  apply T in H1, H2, H3, H4, H5, H6, H7, H8, H9. rewrite !plus_IZR in *.
  unfold RZ, mmap. mat_eq ltac:(lra).
Qed.
Lemma laue_trig E u v : base 3 E -> E = M3 u v v v u v v v u ->
  exists G PG, Laue_group E = Ok G /\ point_group E = Ok PG /\ (6 <= length G)%nat /\ length PG = (2 * length G)%nat.
Proof.
  intros B EE. destruct (laue3_at_least E (map RZ (filter commJ CUBIC_LAUE_GROUP)) B) as (G & PG & A1 & A2 & A3 & A4 & _).
  - apply filt_NoDup.
  - intros Q HQ. apply in_map_iff in HQ. destruct HQ as (Q0 & <- & HQ). apply filter_In in HQ. destruct HQ as [HQ HC].
    split; [now apply in_map|]. pose proof (cubic_orth Q0 HQ) as OQ.
    apply (preserved_pair 3 E Q0 Q0 B OQ (proj1 OQ)). rewrite EE. apply (trig_commutes Q0 u v (proj1 OQ) HC).
  - exists G, PG. split; [exact A1|]. split; [exact A2|]. split; [|exact A4]. revert A3. rewrite map_length.
    replace (length (filter commJ CUBIC_LAUE_GROUP)) with 6%nat by (vm_compute; reflexivity). auto.
Qed.

(** monoclinic and triclinic: explicit pairs *)
Definition Qb : mat Z := [[-1; 0; 0]; [0; 1; 0]; [0; 0; -1]]%Z.
Lemma Qb_in : In Qb CUBIC_LAUE_GROUP.
Proof.
  assert (H : existsb (mat_eqb Qb) CUBIC_LAUE_GROUP = true) by (vm_compute; reflexivity).
  apply existsb_exists in H. destruct H as (X & HX & E). apply mat_eqb_eq in E. now subst.
Qed.
Lemma I3_in : In I3Z CUBIC_LAUE_GROUP.
Proof.
  assert (H : existsb (mat_eqb I3Z) CUBIC_LAUE_GROUP = true) by (vm_compute; reflexivity).
  apply existsb_exists in H. destruct H as (X & HX & E). apply mat_eqb_eq in E. now subst.
Qed.
Lemma RZ_I3 : RZ I3Z = eye 3. Proof. reflexivity. Qed.
Lemma laue_mono E M : base 3 E -> wf 3 3 M -> mmul (RZ Qb) E = mmul E (RZ M) ->
  exists G PG, Laue_group E = Ok G /\ point_group E = Ok PG /\ (2 <= length G)%nat /\ length PG = (2 * length G)%nat.
Proof.
  intros B WM HM. destruct (laue3_at_least E (map RZ [I3Z; Qb]) B) as (G & PG & A1 & A2 & A3 & A4 & _).
  - apply RZ_NoDup. repeat constructor; cbn; intuition discriminate.
  - intros Q HQ. apply in_map_iff in HQ. destruct HQ as (Q0 & <- & [<-|[<-|[]]]).
    + split; [apply in_map, I3_in|]. apply (preserved_pair 3 E I3Z I3Z B (cubic_orth _ I3_in)); [apply w33|].
      rewrite RZ_I3, (mmul_eye_l 3 3), (mmul_eye_r 3 3) by (apply B || lia). reflexivity.
    + split; [apply in_map, Qb_in|]. now apply (preserved_pair 3 E Qb M B (cubic_orth _ Qb_in)).
  - exists G, PG. auto.
Qed.
Lemma laue_tri E : base 3 E ->
  exists G PG, Laue_group E = Ok G /\ point_group E = Ok PG /\ (1 <= length G)%nat /\ length PG = (2 * length G)%nat.
Proof.
  intros B. destruct (laue3_at_least E (map RZ [I3Z]) B) as (G & PG & A1 & A2 & A3 & A4 & _).
  - apply RZ_NoDup. repeat constructor; cbn; intuition discriminate.
  - intros Q HQ. apply in_map_iff in HQ. destruct HQ as (Q0 & <- & [<-|[]]).
    split; [apply in_map, I3_in|]. apply (preserved_pair 3 E I3Z I3Z B (cubic_orth _ I3_in)); [apply w33|].
    rewrite RZ_I3, (mmul_eye_l 3 3), (mmul_eye_r 3 3) by (apply B || lia). reflexivity.
  - exists G, PG. auto.
Qed.

(** ** two dimensions *)
Lemma laue2_at_least E L L' : base 2 E -> NoDup L -> NoDup L' ->
  (forall Q, In Q L -> In Q (map RZ SQUARE_GROUP) /\ preserves 2 Q E) ->
  (forall Q, In Q L' -> In Q (map RZ SQUARE_EXT_GROUP) /\ preserves 2 Q E) ->
  exists G PG, Laue_group E = Ok G /\ point_group E = Ok PG /\ (length L <= length G)%nat /\ (length L' <= length PG)%nat /\
   (length L = 4%nat -> length G = 4%nat) /\ (length L' = 8%nat -> length PG = 8%nat).
Proof.
  intros B ND ND' HL HL'.
  destruct (pick_at_least 2 E square_arr hex2d_arr 2 L B square_T hex2d_T ND) as (G & EG & Hlen & Hk & HG).
  { intros Q HQ. unfold square_arr. rewrite map_values_int. now apply HL. }
  destruct (pick_at_least 2 E square_ext_arr hex2d_ext_arr 4 L' B square_ext_T hex2d_ext_T ND') as (PG & EPG & Hlen' & Hk' & HPG).
  { intros Q HQ. unfold square_ext_arr. rewrite map_values_int. now apply HL'. }
  pose proof (len_base 2 E B) as Hl. exists G, PG. unfold point_group, Laue_group. rewrite Hl, EG, EPG.
  split; [reflexivity|]. split; [reflexivity|]. split; [exact Hlen|]. split; [exact Hlen'|]. split; intros H.
  - assert (length (kept E square_arr) <= 4)%nat by apply (kept_le E square_arr). rewrite HG; lia.
  - assert (length (kept E square_ext_arr) <= 8)%nat by apply (kept_le E square_ext_arr). rewrite HPG; lia.
Qed.
Lemma square_orth Q : In Q SQUARE_EXT_GROUP -> orthogonal 2 Q.
Proof. intros H. now apply square_ext_iff. Qed.
Lemma sq_sub Q : In Q SQUARE_GROUP -> In Q SQUARE_EXT_GROUP.
Proof. unfold SQUARE_GROUP, SQUARE_EXT_GROUP. cbn [firstn In]. tauto. Qed.
Definition sym2 (E : mat R) (LM : list (mat Z * mat Z)) : Prop :=
  forall q, In q LM -> wf 2 2 (snd q) /\ mmul (RZ (fst q)) E = mmul E (RZ (snd q)).
Lemma sym2_list E LM T : base 2 E -> sym2 E LM -> incl (map fst LM) T -> incl T SQUARE_EXT_GROUP ->
  forall Q, In Q (map RZ (map fst LM)) -> In Q (map RZ T) /\ preserves 2 Q E.
Proof.
  intros B H HI HT Q HQ. apply in_map_iff in HQ. destruct HQ as (Q0 & <- & HQ). split; [apply in_map; auto|].
  pose proof (HT _ (HI _ HQ)) as HS. apply in_map_iff in HQ. destruct HQ as (q & <- & HQ). destruct (H q HQ) as [H1 H2].
  now apply (preserved_pair 2 E (fst q) (snd q) B (square_orth _ HS)).
Qed.
Ltac in_table T := intros ?X ?HX; cbn [In map fst] in HX; cbn; intuition (subst; auto).

(** ** the hexagonal plane lattice *)
Definition Ehex2 (a : R) : mat R := M2 a (a * / 2) 0 (a * (sqrt 3 / 2)).
Lemma Ehex2_base a : 0 < a -> base 2 (Ehex2 a).
Proof.
  intros. pose proof sqrt3_bounds.
  apply (base2_by (sqrt 3 / 2 * (a * a))); [field|]. apply Rgt_not_eq. repeat apply Rmult_lt_0_compat; lra.
Qed.
Lemma hex2_preserved a Q : 0 < a -> In Q HEX2D_EXT_GROUP -> preserves 2 Q (Ehex2 a).
Proof.
  intros Ha HQ. apply (preserves_iff 2 _ (Ehex2_base a Ha)); [exact (proj1 (proj2 HEX2D_EXT_good Q HQ))|].
  destruct C1S1 as (_ & HC & HS). pose proof s33 as H3. unfold HEX2D_EXT_GROUP in HQ.
  destruct HQ as [<-|[<-|[<-|[<-|[<-|[<-|[<-|[<-|[<-|[<-|[<-|[<-|[]]]]]]]]]]]]].
  - exists [[1;0];[0;1]]%Z. split; [apply w22|]. unfold Ehex2, RZ, mmap. rewrite ?HC, ?HS. mat_eq ltac:(nra).
  - exists [[0;-1];[1;1]]%Z. split; [apply w22|]. unfold Ehex2, RZ, mmap. rewrite ?HC, ?HS. mat_eq ltac:(nra).
  - exists [[-1;-1];[1;0]]%Z. split; [apply w22|]. unfold Ehex2, RZ, mmap. rewrite ?HC, ?HS. mat_eq ltac:(nra).
  - exists [[-1;0];[0;-1]]%Z. split; [apply w22|]. unfold Ehex2, RZ, mmap. rewrite ?HC, ?HS. mat_eq ltac:(nra).
  - exists [[1;1];[-1;0]]%Z. split; [apply w22|]. unfold Ehex2, RZ, mmap. rewrite ?HC, ?HS. mat_eq ltac:(nra).
  - exists [[0;1];[-1;-1]]%Z. split; [apply w22|]. unfold Ehex2, RZ, mmap. rewrite ?HC, ?HS. mat_eq ltac:(nra).
  - exists [[1;1];[0;-1]]%Z. split; [apply w22|]. unfold Ehex2, RZ, mmap. rewrite ?HC, ?HS. mat_eq ltac:(nra).
  - exists [[1;0];[-1;-1]]%Z. split; [apply w22|]. unfold Ehex2, RZ, mmap. rewrite ?HC, ?HS. mat_eq ltac:(nra).
  - exists [[0;1];[1;0]]%Z. split; [apply w22|]. unfold Ehex2, RZ, mmap. rewrite ?HC, ?HS. mat_eq ltac:(nra).
  - exists [[-1;-1];[0;1]]%Z. split; [apply w22|]. unfold Ehex2, RZ, mmap. rewrite ?HC, ?HS. mat_eq ltac:(nra).
  - exists [[0;-1];[-1;0]]%Z. split; [apply w22|]. unfold Ehex2, RZ, mmap. rewrite ?HC, ?HS. mat_eq ltac:(nra).
  - exists [[-1;0];[1;1]]%Z. split; [apply w22|]. unfold Ehex2, RZ, mmap. rewrite ?HC, ?HS. mat_eq ltac:(nra).
Qed.
Definition Ehex2i (a : R) : mat R := M2 (/ a) (- (/ a * / sqrt 3)) 0 (/ a * (2 / sqrt 3)).
Lemma Ehex2i_r a : 0 < a -> mmul (Ehex2 a) (Ehex2i a) = eye 2.
Proof. intros. pose proof sqrt3_bounds. unfold Ehex2, Ehex2i. mat_eq ltac:(field; lra). Qed.
Lemma hex2_rejects a (Q : mat Z) : 0 < a -> wf 2 2 Q -> (Z.abs (get Q 1 0) = 1)%Z -> lat_eq (Ehex2 a) (mmul (RZ Q) (Ehex2 a)) = Ok false.
Proof.
  intros Ha W H. pose proof (Ehex2_base a Ha) as B. set (A := mmul (Ehex2i a) (mmul (RZ Q) (Ehex2 a))).
  pose proof (wf_RZ 2 2 Q W) as WR. assert (WE : wf 2 2 (Ehex2 a)) by apply w22. assert (WI : wf 2 2 (Ehex2i a)) by apply w22.
  assert (W2 : wf 2 2 (mmul (RZ Q) (Ehex2 a))) by (apply (wf_mmul 2 2 2); auto; lia).
  assert (WA : wf 2 2 A) by (apply (wf_mmul 2 2 2); auto; lia).
  assert (EA : mmul (RZ Q) (Ehex2 a) = mmul (Ehex2 a) A).
  { unfold A. rewrite <- (mmul_assoc 2 2 2 2), Ehex2i_r, (mmul_eye_l 2 2) by (auto; lia). reflexivity. }
  pose proof sqrt3_bounds as S3. pose proof s33 as H3.
  assert (E10 : get A 1 0 = 2 / 3 * sqrt 3 * IZR (get Q 1 0)).
  { destruct (wf2_inv Q W) as (q1&q2&q3&q4&->). unfold A. cbn.
    assert (K : / sqrt 3 = sqrt 3 / 3) by (apply (Rmult_eq_reg_l (sqrt 3)); [rewrite Rinv_r by lra; lra|lra]).
    unfold Rdiv. rewrite K. transitivity (/ a * a * (2 * (sqrt 3 * / 3)) * IZR q3); [unfold Rdiv; ring|]. rewrite (Rinv_l a) by lra. lra. }
  apply (lat_eq_false2 2 _ B _ _ 1 0 WA EA); [lia|lia|]. rewrite E10.
  assert (get Q 1 0 = 1 \/ get Q 1 0 = -1)%Z as [->| ->] by lia; farz.
Qed.
(** a table of integer isometries of which the hexagonal plane lattice keeps exactly the diagonal ones *)
Lemma hex2_pick a (T : list (mat Z)) (H2 : list (mat R)) D k : 0 < a ->
  good_table 2 (map values (map IntArr T)) /\ (forall Q, In Q (map IntArr T) -> orth_arr 2 Q) ->
  good_table 2 (map values (map FltArr H2)) /\ (forall Q, In Q (map FltArr H2) -> orth_arr 2 Q) ->
  incl H2 HEX2D_EXT_GROUP -> NoDup D -> incl D T -> incl (map RZ D) HEX2D_EXT_GROUP ->
  (forall Q, In Q T -> In Q D \/ (Z.abs (get Q 1 0) = 1)%Z) -> length D = k -> (k < length H2)%nat ->
  exists G, pick_group (Ehex2 a) (map IntArr T) (map FltArr H2) k = Ok G /\ length G = length H2 /\ forall Q, In Q G <-> In Q H2.
Proof.
  intros Ha G1 G2 HH ND DT DH HT HK Hlt. pose proof (Ehex2_base a Ha) as B. remember (Ehex2 a) as E eqn:EE.
  pose proof (keep_kept 2 E B _ (proj2 G1)) as K1. pose proof (keep_kept 2 E B _ (proj2 G2)) as K2.
  assert (OH : forall X, In X HEX2D_EXT_GROUP -> orth_arr 2 (FltArr X)) by (intros X HX; exact (proj1 (proj2 HEX2D_EXT_good X HX))).
  assert (I2 : forall X, In X (kept E (map FltArr H2)) <-> In X H2).
  { intros X. rewrite (in_kept 2 E B _ (proj2 G2)), map_values_flt. split; [tauto|]. intros A1. split; [exact A1|].
    apply (inpoint_preserves 2 E B); [now apply OH, HH|]. rewrite EE. now apply hex2_preserved, HH. }
  assert (N2 : NoDup (kept E (map FltArr H2))) by (apply (kept_NoDup 2); apply G2).
  assert (L2 : length (kept E (map FltArr H2)) = length H2).
  { apply Nat.le_antisymm.
    - exact (NoDup_incl_length N2 (fun X => proj1 (I2 X))).
    - destruct G2 as [GG _]. rewrite map_values_flt in GG. exact (NoDup_incl_length (proj1 (proj2 (proj1 GG))) (fun X => proj2 (I2 X))). }
  assert (N1 : NoDup (kept E (map IntArr T))) by (apply (kept_NoDup 2); apply G1).
  assert (OT : forall Q, In Q T -> orthogonal 2 Q) by (intros Q HQ; exact (proj2 G1 (IntArr Q) (in_map IntArr T Q HQ))).
  assert (L1 : length (kept E (map IntArr T)) = k).
  { rewrite <- HK, <- (map_length RZ). apply Nat.le_antisymm; (apply NoDup_incl_length; [first [exact N1|now apply RZ_NoDup]|]).
    - intros X HX. apply (in_kept 2 E B _ (proj2 G1)) in HX. destruct HX as [HX HY]. rewrite map_values_int in HX.
      apply in_map_iff in HX. destruct HX as (Q & <- & HQ). destruct (HT Q HQ) as [HF|HF]; [now apply in_map|].
      pose proof (OT Q HQ) as OQ. rewrite (inpoint_red 2 E B) in HY by exact (orth_arr_values 2 (IntArr Q) OQ). cbn [values] in HY.
      rewrite EE, (hex2_rejects a Q Ha (proj1 OQ) HF) in HY. discriminate.
    - intros X HX. pose proof (DH X HX) as HX2. apply in_map_iff in HX. destruct HX as (Q & <- & HQ).
      apply (in_kept 2 E B _ (proj2 G1)). rewrite map_values_int. split; [now apply in_map, DT|].
      apply (inpoint_preserves 2 E B); [now apply OH|]. rewrite EE. now apply hex2_preserved. }
  exists (kept E (map FltArr H2)). unfold pick_group. rewrite K1, K2. cbn [bind]. rewrite L1, L2, Nat.eqb_refl.
  rewrite (proj2 (Nat.ltb_lt _ _) Hlt). auto.
Qed.
Lemma laue_hex2 a : 0 < a -> exists G PG, Laue_group (Ehex2 a) = Ok G /\ point_group (Ehex2 a) = Ok PG /\ length G = 6%nat /\ length PG = 12%nat.
Proof.
  intros Ha. pose proof (len_base 2 _ (Ehex2_base a Ha)) as Hl.
  set (D1 := [[[1;0];[0;1]]; [[-1;0];[0;-1]]]%Z : list (mat Z)).
  set (D2 := D1 ++ [[[1;0];[0;-1]]; [[-1;0];[0;1]]]%Z).
  destruct (hex2_pick a SQUARE_GROUP HEX2D_GROUP D1 2 Ha square_T hex2d_T) as (G & EG & LG & _).
  - unfold HEX2D_GROUP. intros X HX. unfold HEX2D_EXT_GROUP in *. cbn [firstn In] in *. tauto.
  - repeat constructor; cbn; intuition discriminate.
  - unfold D1. intros X HX. cbn [In] in HX. unfold SQUARE_GROUP. cbn. intuition.
  - unfold D1. intros X HX. cbn in HX. unfold HEX2D_EXT_GROUP. cbn [In]. intuition.
  - unfold SQUARE_GROUP. cbn [firstn SQUARE_EXT_GROUP]. intros Q HQ. cbn [In] in HQ. unfold D1. cbn [In].
    destruct HQ as [<-|[<-|[<-|[<-|[]]]]]; auto.
  - reflexivity.
  - cbn. lia.
  - destruct (hex2_pick a SQUARE_EXT_GROUP HEX2D_EXT_GROUP D2 4 Ha square_ext_T hex2d_ext_T) as (PG & EPG & LPG & _).
    + apply incl_refl.
    + repeat constructor; cbn; intuition discriminate.
    + unfold D2, D1. intros X HX. cbn [app In] in HX. unfold SQUARE_EXT_GROUP. cbn. intuition.
    + unfold D2, D1. intros X HX. cbn in HX. unfold HEX2D_EXT_GROUP. cbn [In]. intuition.
    + intros Q HQ. unfold SQUARE_EXT_GROUP in HQ. cbn [In] in HQ. unfold D2, D1. cbn [app In].
      destruct HQ as [<-|[<-|[<-|[<-|[<-|[<-|[<-|[<-|[]]]]]]]]]; auto 10.
    + reflexivity.
    + cbn. lia.
    + exists G, PG. unfold Laue_group, point_group. rewrite Hl. auto.
Qed.
