(** Symmetries of the Bravais lattices, for C20. *)
From Coq Require Logic.FinFun.
From Verif Require Import LinAlg GroupSpec GroupModel GroupProofs ReduceModel ReduceProofs LatticeModel LatticeSpec LatticeProofs LatticeGroups
  LatticeLaue LatticeComplete BravaisModel BravaisSpec BravaisProofs.
Local Open Scope R_scope.

Lemma RZ_NoDup L : NoDup L -> NoDup (map RZ L).
Proof. apply (Coq.Logic.FinFun.Injective_map_NoDup RZ_inj). Qed.

Definition D3 (x y z : R) : mat R := M3 x 0 0 0 y 0 0 0 z.
(** rotations of the cubic table that commute with a diagonal matrix *)
Definition commutesb (xy yz xz : bool) (Q : mat Z) : bool :=
  let z i j := (get Q i j =? 0)%Z in
  (xy || (z 0 1 && z 1 0)%nat) && (yz || (z 1 2 && z 2 1)%nat) && (xz || (z 0 2 && z 2 0)%nat).
Lemma commutes_D3 Q x y z xy yz xz : wf 3 3 Q -> (xy = true -> x = y) -> (yz = true -> y = z) -> (xz = true -> x = z) ->
  commutesb xy yz xz Q = true -> mmul (RZ Q) (D3 x y z) = mmul (D3 x y z) (RZ Q).
Proof.
  intros W H1 H2 H3 H. destruct (wf3_inv Q W) as (a&b&c&d&e&f&g&h&i&->).
  unfold commutesb in H. cbn [get nth] in H.
  apply andb_prop in H. destruct H as [H HC]. apply andb_prop in H. destruct H as [HA HB].
  assert (E1 : IZR b * y = x * IZR b /\ IZR d * x = y * IZR d).
  { destruct xy; [rewrite (H1 eq_refl); split; ring|]. apply andb_prop in HA. destruct HA as [A1 A2]. apply Z.eqb_eq in A1, A2. cbn in A1, A2. subst. split; ring. }
  assert (E2 : IZR f * z = y * IZR f /\ IZR h * y = z * IZR h).
  { destruct yz; [rewrite (H2 eq_refl); split; ring|]. apply andb_prop in HB. destruct HB as [A1 A2]. apply Z.eqb_eq in A1, A2. cbn in A1, A2. subst. split; ring. }
  assert (E3 : IZR c * z = x * IZR c /\ IZR g * x = z * IZR g).
  { destruct xz; [rewrite (H3 eq_refl); split; ring|]. apply andb_prop in HC. destruct HC as [A1 A2]. apply Z.eqb_eq in A1, A2. cbn in A1, A2. subst. split; ring. }
  unfold D3. unfold RZ, mmap. mat_eq ltac:(lra).
Qed.

(** N M = Q N over the integers, computed *)
Definition half (M : mat Z) : mat Z := map (map (fun z => z / 2)%Z) M.
Definition rep (N C Q : mat Z) : mat Z := half (mmul C (mmul Q N)).
Definition repok (N C : mat Z) (L : list (mat Z)) : bool :=
  forallb (fun Q => mat_eqb (mmul Q N) (mmul N (rep N C Q)) && wfb 3 3 (rep N C Q)) L.
Definition N_prim : mat Z := [[2; 0; 0]; [0; 2; 0]; [0; 0; 2]]%Z.
Definition N_face : mat Z := [[1; 0; 1]; [1; 1; 0]; [0; 1; 1]]%Z.
Definition N_body : mat Z := [[1; -1; -1]; [1; 1; -1]; [1; 1; 1]]%Z.
Definition N_base : mat Z := [[1; -1; 0]; [1; 1; 0]; [0; 0; 2]]%Z.

Lemma preserved_one E x y z N M xy yz xz Q : base 3 E -> wf 3 3 N -> wf 3 3 M -> E = mmul (D3 x y z) (RZ N) ->
  (xy = true -> x = y) -> (yz = true -> y = z) -> (xz = true -> x = z) ->
  orthogonal 3 Q -> commutesb xy yz xz Q = true -> mmul Q N = mmul N M -> preserves 3 (RZ Q) E.
Proof.
  intros B WN WM EE H1 H2 H3 OQ HC HM. assert (WQ : wf 3 3 Q) by apply OQ.
  assert (OR : orthogonal 3 (RZ Q)) by exact (orth_arr_values 3 (IntArr Q) OQ).
  apply (preserves_iff 3 E B); [exact OR|]. exists M. split; [exact WM|].
  assert (WD : wf 3 3 (D3 x y z)) by apply w33.
  rewrite EE. rewrite <- (mmul_assoc 3 3 3 3), (commutes_D3 Q x y z xy yz xz WQ H1 H2 H3 HC) by (auto using wf_RZ; lia).
  rewrite (mmul_assoc 3 3 3 3), <- RZ_mmul, HM, RZ_mmul, (mmul_assoc 3 3 3 3) by (auto using wf_RZ; lia). reflexivity.
Qed.
Lemma preserved_list L E x y z N C xy yz xz : base 3 E -> wf 3 3 N -> E = mmul (D3 x y z) (RZ N) ->
  (xy = true -> x = y) -> (yz = true -> y = z) -> (xz = true -> x = z) -> (forall Q, In Q L -> orthogonal 3 Q) ->
  repok N C (filter (commutesb xy yz xz) L) = true ->
  forall Q, In Q (map RZ (filter (commutesb xy yz xz) L)) -> In Q (map RZ L) /\ preserves 3 Q E.
Proof.
  intros B WN EE H1 H2 H3 OL HR Q HQ. apply in_map_iff in HQ. destruct HQ as (Q0 & <- & HQ).
  unfold repok in HR. rewrite forallb_forall in HR. specialize (HR Q0 HQ). apply andb_prop in HR. destruct HR as [R1 R2].
  apply mat_eqb_eq in R1. apply wfb_spec in R2. apply filter_In in HQ. destruct HQ as [HQ HC]. split; [now apply in_map|].
  exact (preserved_one E x y z N _ xy yz xz Q0 B WN R2 EE H1 H2 H3 (OL Q0 HQ) HC R1).
Qed.

(** the length of the Laue and point groups is at least the number of known symmetries in the first table *)
Lemma pick_at_least n E T1 T2 k L : base n E -> good_table n (map values T1) /\ (forall Q, In Q T1 -> orth_arr n Q) ->
  good_table n (map values T2) /\ (forall Q, In Q T2 -> orth_arr n Q) ->
  NoDup L -> (forall Q, In Q L -> In Q (map values T1) /\ preserves n Q E) ->
  exists G, pick_group E T1 T2 k = Ok G /\ (length L <= length G)%nat /\ (length L <= length (kept E T1))%nat /\
    (length (kept E T1) <> k -> G = kept E T1).
Proof.
  intros B [G1 O1] [G2 O2] ND HL. unfold pick_group. rewrite (keep_kept n E B T1 O1), (keep_kept n E B T2 O2). cbn [bind].
  assert (Hk : (length L <= length (kept E T1))%nat).
  { apply (NoDup_incl_length ND). intros Q HQ. destruct (HL Q HQ) as [A1 A2]. apply (kept_complete n E B T1 O1); auto.
    exact (proj1 (proj2 G1 Q A1)). }
  destruct (_ =? k)%nat eqn:Ek.
  - destruct (_ <? _)%nat eqn:El.
    + apply Nat.ltb_lt in El. eexists. split; [reflexivity|]. split; [lia|]. split; [exact Hk|]. apply Nat.eqb_eq in Ek. lia.
    + eexists. split; [reflexivity|]. auto.
  - eexists. split; [reflexivity|]. auto.
Qed.
Lemma kept_le E T : (length (kept E T) <= length T)%nat.
Proof. unfold kept. rewrite map_length. induction T as [|x T IH]; cbn; [lia|]. destruct (acceptb E x); cbn; lia. Qed.

Lemma laue3_at_least E L : base 3 E -> NoDup L -> (forall Q, In Q L -> In Q (map RZ CUBIC_LAUE_GROUP) /\ preserves 3 Q E) ->
  exists G PG, Laue_group E = Ok G /\ point_group E = Ok PG /\ (length L <= length G)%nat /\ length PG = (2 * length G)%nat /\
   (length L = 24%nat -> length G = 24%nat).
Proof.
  intros B ND HL. destruct (pick_at_least 3 E cubic_arr hex_arr 4 L B cubic_T hex_T ND) as (G & EG & Hlen & Hk & HG).
  { intros Q HQ. unfold cubic_arr. rewrite map_values_int. now apply HL. }
  pose proof (len_base 3 E B) as Hl. exists G, (G ++ map mopp G). unfold point_group, Laue_group. rewrite Hl, EG. cbn [bind].
  split; [reflexivity|]. split; [reflexivity|]. split; [exact Hlen|]. split; [rewrite app_length, map_length; lia|].
  intros H24. assert (length (kept E cubic_arr) <= 24)%nat by apply (kept_le E cubic_arr). rewrite HG; lia.
Qed.

Definition six_trigonal (Q : mat Z) : bool :=
  forallb (forallb (fun z => 0 <=? z)%Z) Q || forallb (forallb (fun z => z <=? 0)%Z) Q.

(** ** the hexagonal lattice *)
Definition Ehex (a c : R) : mat R := M3 a (a * / 2) 0 0 (a * (sqrt 3 / 2)) 0 0 0 c.
Lemma Ehex_base a c : 0 < a -> 0 < c -> base 3 (Ehex a c).
Proof.
  intros. pose proof s33. assert (0 < sqrt 3) by (apply sqrt_lt_R0; lra).
  apply (base3_by (sqrt 3 / 2 * (a * a * c))); [field|]. apply Rgt_not_eq. repeat apply Rmult_lt_0_compat; lra.
Qed.
Lemma hex_preserved a c Q : 0 < a -> 0 < c -> In Q HEX_LAUE_GROUP -> preserves 3 Q (Ehex a c).
Proof.
  intros Ha Hc HQ. apply (preserves_iff 3 _ (Ehex_base a c Ha Hc)); [exact (proj1 (proj2 HEX_group Q HQ))|].
  destruct C1S1 as (_ & HC & HS). pose proof s33 as H3. unfold HEX_LAUE_GROUP in HQ.
  destruct HQ as [<-|[<-|[<-|[<-|[<-|[<-|[<-|[<-|[<-|[<-|[<-|[<-|[]]]]]]]]]]]]].
  - exists [[1;0;0];[0;1;0];[0;0;1]]%Z. split; [apply w33|]. unfold Ehex, RZ, mmap. rewrite ?HC, ?HS. mat_eq ltac:(nra).
  - exists [[1;1;0];[0;-1;0];[0;0;-1]]%Z. split; [apply w33|]. unfold Ehex, RZ, mmap. rewrite ?HC, ?HS. mat_eq ltac:(nra).
  - exists [[-1;-1;0];[0;1;0];[0;0;-1]]%Z. split; [apply w33|]. unfold Ehex, RZ, mmap. rewrite ?HC, ?HS. mat_eq ltac:(nra).
  - exists [[-1;0;0];[0;-1;0];[0;0;1]]%Z. split; [apply w33|]. unfold Ehex, RZ, mmap. rewrite ?HC, ?HS. mat_eq ltac:(nra).
  - exists [[0;-1;0];[1;1;0];[0;0;1]]%Z. split; [apply w33|]. unfold Ehex, RZ, mmap. rewrite ?HC, ?HS. mat_eq ltac:(nra).
  - exists [[1;1;0];[-1;0;0];[0;0;1]]%Z. split; [apply w33|]. unfold Ehex, RZ, mmap. rewrite ?HC, ?HS. mat_eq ltac:(nra).
  - exists [[-1;-1;0];[1;0;0];[0;0;1]]%Z. split; [apply w33|]. unfold Ehex, RZ, mmap. rewrite ?HC, ?HS. mat_eq ltac:(nra).
  - exists [[0;1;0];[-1;-1;0];[0;0;1]]%Z. split; [apply w33|]. unfold Ehex, RZ, mmap. rewrite ?HC, ?HS. mat_eq ltac:(nra).
  - exists [[1;0;0];[-1;-1;0];[0;0;-1]]%Z. split; [apply w33|]. unfold Ehex, RZ, mmap. rewrite ?HC, ?HS. mat_eq ltac:(nra).
  - exists [[0;1;0];[1;0;0];[0;0;-1]]%Z. split; [apply w33|]. unfold Ehex, RZ, mmap. rewrite ?HC, ?HS. mat_eq ltac:(nra).
  - exists [[0;-1;0];[-1;0;0];[0;0;-1]]%Z. split; [apply w33|]. unfold Ehex, RZ, mmap. rewrite ?HC, ?HS. mat_eq ltac:(nra).
  - exists [[-1;0;0];[1;1;0];[0;0;-1]]%Z. split; [apply w33|]. unfold Ehex, RZ, mmap. rewrite ?HC, ?HS. mat_eq ltac:(nra).
Qed.
