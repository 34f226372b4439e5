(** Property C131: how many variants a stretch has.  Specification: MartSpec.v (reachable, separated, rotation_group); model:
    MartModel.v. *)
From Verif Require Import RMat LinAlg Lagrange ReduceProofs GroupSpec GroupModel GroupProofs LatticeModel LatticeSpec LatticeProofs MartModel MartSpec MartProofs PropMart PropRefute.
Local Open Scope R_scope.

(** The number of variants times the number of group elements that keep U is the order of the group. *)
Theorem C131_count_partial : forall m U Us m' S, reachable m -> m_U m = Some U -> wf 3 3 U -> rotation_group (getLaue m) ->
  separated U (getLaue m) -> isreversible m = Ok true -> getvariants m = Ok (Us, m') ->
  NoDup S -> (forall Q, In Q S <-> In Q (getLaue m) /\ rotate Q U = U) ->
  (length Us * length S = length (getLaue m))%nat.
Proof.
  intros m U Us m' S RM EU WU HG HS HR HV NS HS'. destruct (C27_orbit_partial m U RM EU WU HG HS HR) as (Us' & idx & m'' & E & _ & O).
  assert (Us' = Us) by congruence. subst Us'. set (G := getLaue m) in *. destruct O as [F1 F2 F3 F4 F5 F6 (k & K1 & K2)]. rewrite K2. f_equal.
  destruct Us as [|V Us]; [discriminate|]. injection F1 as ->. destruct idx as [|b idx]; [discriminate|]. rewrite <- (K1 b (or_introl eq_refl)).
  assert (NG : NoDup G) by apply HG. assert (NB : NoDup b).
  { assert (N : NoDup (concat (b :: idx))) by (eapply Permutation_NoDup; [apply Permutation_sym, F5|apply seq_NoDup]). cbn [concat] in N. revert N. clear. generalize (concat idx). intros l. induction b as [|x b IH]; [constructor|]. cbn [app]. intros N. inversion N as [|? ? N1 N2]; subst. constructor; [intros Hx; apply N1, in_or_app; now left|now apply IH]. }
  assert (B : forall i, In i b <-> exists Q, nth_error G i = Some Q /\ rotate Q U = U) by (intros i; apply (F6 0%nat i); cbn; lia).
  transitivity (length (map (fun i => nth i G []) b)); [|apply map_length].
  assert (P : Permutation S (map (fun i => nth i G []) b)); [|now apply Permutation_length].
  apply NoDup_Permutation; [exact NS| |].
  - assert (H : forall l, NoDup l -> incl l b -> NoDup (map (fun i => nth i G []) l)); [|apply H; [exact NB|intros x; auto]].
    induction l as [|i l IH]; intros N I; [constructor|]. inversion N as [|? ? N1 N2]; subst. cbn [map]. constructor; [|apply IH; auto; intros x Hx; apply I; now right].
    intros Hi. apply in_map_iff in Hi as (j & Ej & Hj). apply N1. replace i with j; [exact Hj|].
    destruct (proj1 (B i) (I i (or_introl eq_refl))) as (Q & HQ & _). destruct (proj1 (B j) (I j (or_intror Hj))) as (Q' & HQ' & _).
    rewrite (nth_error_nth _ _ _ HQ), (nth_error_nth _ _ _ HQ') in Ej. subst Q'.
    apply (proj1 (NoDup_nth_error G) NG); [apply nth_error_Some; congruence|congruence].
  - intros Q. rewrite HS', in_map_iff. split.
    + intros (HQ & ER). destruct (In_nth_error _ _ HQ) as (i & Hi). exists i. split; [now apply nth_error_nth|]. apply B. eauto.
    + intros (i & <- & Hi). apply B in Hi as (Q & HQ & ER). rewrite (nth_error_nth _ _ _ HQ). split; [now apply nth_error_In in HQ|exact ER].
Qed.
Print Assumptions C131_count_partial.

(** ** The cubic group *)
(** the six entries of a symmetric matrix are numbered 0, 1, 2 (diagonal), 3 (0,1), 4 (0,2), 5 (1,2) *)
Definition entry (i j : nat) : nat :=
  match i, j with 0, 0 => 0 | 1, 1 => 1 | 2, 2 => 2 | 0, 1 | 1, 0 => 3 | 0, 2 | 2, 0 => 4 | _, _ => 5 end%nat.
(** the column of the nonzero entry of row i of a signed permutation *)
Definition pos (Q : mat Z) (i : nat) : nat := if negb (get Q i 0 =? 0)%Z then 0%nat else if negb (get Q i 1 =? 0)%Z then 1%nat else 2%nat.
Definition sgn (Q : mat Z) (i : nat) : Z := get Q i (pos Q i).
(** the equations of Q U Q^T = U: entry p is plus or minus entry q *)
Definition conds (Q : mat Z) : list (nat * nat * bool) :=
  map (fun ij => (entry (fst ij) (snd ij), entry (pos Q (fst ij)) (pos Q (snd ij)), (sgn Q (fst ij) * sgn Q (snd ij) =? 1)%Z))
      [(0, 0); (1, 1); (2, 2); (0, 1); (0, 2); (1, 2)]%nat.
Definition holds (u : nat -> R) (c : nat * nat * bool) : Prop := u (fst (fst c)) = (if snd c then u (snd (fst c)) else - u (snd (fst c))).
Lemma stab_conds a b c d e f Q : In Q CUBIC_LAUE_GROUP ->
  rotate (RZ Q) (M3 a d e d b f e f c) = M3 a d e d b f e f c <-> Forall (holds (fun i => nth i [a; b; c; d; e; f] 0)) (conds Q).
Proof.
  intros H. unfold CUBIC_LAUE_GROUP in H. cbn [In] in H.
  repeat (destruct H as [<-|H]; [match goal with |- context [conds ?X] => let v := eval vm_compute in (conds X) in change (conds X) with v end;
    unfold holds; split;
    [intros E; unfold rotate, M3, RZ, mmap in E; revert E; mat_unfold_goal; intros E; injection E as E1 E2 E3 E4 E5 E6 E7 E8 E9; repeat (constructor; [cbn [fst snd nth]; lra|]); constructor
    |intros E; repeat match goal with H : Forall _ (_ :: _) |- _ => inversion_clear H end; cbn [fst snd nth] in *; unfold rotate, M3, RZ, mmap; mat_eq ltac:(lra)]|]).
  destruct H.
Qed.

(** Which equations hold between the six entries, as twelve answers: diagonal entries equal (e01 e02 e12), off-diagonal entries zero
    (z3 z4 z5), equal (p34 p35 p45) and opposite (n34 n35 n45). *)
Section Answers.
  Variables e01 e02 e12 z3 z4 z5 p34 p35 p45 n34 n35 n45 : bool.
  Definition answer (c : nat * nat * bool) : bool :=
    match c with
    | (0, 1, _) | (1, 0, _) => e01 | (0, 2, _) | (2, 0, _) => e02 | (1, 2, _) | (2, 1, _) => e12
    | (3, 3, false) => z3 | (4, 4, false) => z4 | (5, 5, false) => z5
    | (3, 4, true) | (4, 3, true) => p34 | (3, 5, true) | (5, 3, true) => p35 | (4, 5, true) | (5, 4, true) => p45
    | (3, 4, false) | (4, 3, false) => n34 | (3, 5, false) | (5, 3, false) => n35 | (4, 5, false) | (5, 4, false) => n45
    | (p, q, _) => (p =? q)
    end%nat.
  Definition keeping : list (mat Z) := filter (fun Q => forallb answer (conds Q)) CUBIC_LAUE_GROUP.
  (** answers that numbers can give *)
  Definition consistent : bool :=
    implb (e01 && e12) e02 && implb (e01 && e02) e12 && implb (e02 && e12) e01 &&
    implb (p34 && p45) p35 && implb (p34 && p35) p45 && implb (p35 && p45) p34 &&
    implb (p34 && n45) n35 && implb (p34 && n35) n45 && implb (p35 && n45) n34 &&
    implb (n34 && p45) n35 && implb (n34 && p35) n45 && implb (n35 && p45) n34 &&
    implb (n34 && n45) p35 && implb (n34 && n35) p45 && implb (n35 && n45) p34 &&
    implb (p34 && n34) (z3 && z4) && implb (p35 && n35) (z3 && z5) && implb (p45 && n45) (z4 && z5) &&
    implb (z3 && z4) (p34 && n34) && implb (z3 && z5) (p35 && n35) && implb (z4 && z5) (p45 && n45) &&
    implb (z3 && (p34 || n34)) z4 && implb (z4 && (p34 || n34)) z3 && implb (z3 && (p35 || n35)) z5 &&
    implb (z5 && (p35 || n35)) z3 && implb (z4 && (p45 || n45)) z5 && implb (z5 && (p45 || n45)) z4.
  Definition checked : bool := implb consistent (existsb (Nat.eqb (length keeping)) [1; 2; 4; 6; 8; 24]%nat).
End Answers.
Definition both (f : bool -> bool) : bool := f true && f false.
Lemma both_all f : both f = true -> forall b, f b = true.
Proof. unfold both. intros H b. apply andb_prop in H as [? ?]. now destruct b. Qed.
Lemma all_checked : forall a b c d e f g h i j k l, checked a b c d e f g h i j k l = true.
Proof.
  assert (H : both (fun a => both (fun b => both (fun c => both (fun d => both (fun e => both (fun f => both (fun g => both (fun h => both (fun i => both (fun j => both (fun k => both (fun l =>
    checked a b c d e f g h i j k l)))))))))))) = true) by (vm_compute; reflexivity).
  intros a b c d e f g h i j k l. apply both_all with (b := a) in H. apply both_all with (b := b) in H. apply both_all with (b := c) in H. apply both_all with (b := d) in H.
  apply both_all with (b := e) in H. apply both_all with (b := f) in H. apply both_all with (b := g) in H. apply both_all with (b := h) in H.
  apply both_all with (b := i) in H. apply both_all with (b := j) in H. apply both_all with (b := k) in H. now apply both_all with (b := l) in H.
Qed.
Lemma sizes_checked a b c d e f g h i j k l : consistent a b c d e f g h i j k l = true -> In (length (keeping a b c d e f g h i j k l)) [1; 2; 4; 6; 8; 24]%nat.
Proof.
  intros C. pose proof (all_checked a b c d e f g h i j k l) as H. unfold checked in H. rewrite C in H. revert H. clear C. generalize (length (keeping a b c d e f g h i j k l)). intros n H.
  cbn [implb] in H. apply existsb_exists in H as (x & Hx & E). apply Nat.eqb_eq in E. subst x. exact Hx.
Qed.
Lemma keeping_In a b c d e f g h i j k l Q : In Q (keeping a b c d e f g h i j k l) <-> In Q CUBIC_LAUE_GROUP /\ forallb (answer a b c d e f g h i j k l) (conds Q) = true.
Proof. apply filter_In. Qed.
Lemma NoDup_map_filter {A B} (h : A -> B) (f : A -> bool) L : NoDup (map h L) -> NoDup (map h (filter f L)).
Proof.
  induction L as [|Q L IH]; intros N; [constructor|]. cbn [map] in N. inversion N as [|? ? N1 N2]; subst. cbn [filter]. destruct (f Q); [|now apply IH]. cbn [map]. constructor; [|now apply IH].
  intros H. apply N1. apply in_map_iff in H as (P & <- & HP). apply filter_In in HP as [HP _]. now apply in_map.
Qed.
Lemma NoDup_keeping a b c d e f g h i j k l : NoDup (map RZ (keeping a b c d e f g h i j k l)).
Proof. apply NoDup_map_filter. apply CUBIC_good. Qed.
Definition ans (a b c d e f : R) : nat * nat * bool -> bool :=
  answer (Reqb a b) (Reqb a c) (Reqb b c) (Reqb d 0) (Reqb e 0) (Reqb f 0) (Reqb d e) (Reqb d f) (Reqb e f) (Reqb d (- e)) (Reqb d (- f)) (Reqb e (- f)).
Lemma cond_dec (p q : nat * nat * bool) : {p = q} + {p <> q}.
Proof. decide equality; [apply bool_dec|decide equality; apply Nat.eq_dec]. Defined.
Lemma ans_holds a b c d e f Q : In Q CUBIC_LAUE_GROUP -> (forallb (ans a b c d e f) (conds Q) = true <-> Forall (holds (fun i => nth i [a; b; c; d; e; f] 0)) (conds Q)).
Proof.
  intros HQ. rewrite forallb_forall, Forall_forall.
  assert (K : forall x, In x (conds Q) -> (ans a b c d e f x = true <-> holds (fun i => nth i [a; b; c; d; e; f] 0) x)); [|split; intros H x Hx; apply K; auto].
  intros x Hx. assert (A : In x (flat_map conds CUBIC_LAUE_GROUP)) by (apply in_flat_map; eauto). clear HQ Hx.
  assert (B : In x (nodup cond_dec (flat_map conds CUBIC_LAUE_GROUP))) by now apply nodup_In.
  clear A. match type of B with In _ ?L => let v := eval vm_compute in L in let E := fresh in assert (E : L = v) by (vm_compute; reflexivity); rewrite E in B; clear E end.
  unfold holds, ans. cbn [In] in B. repeat (destruct B as [<-|B]; [cbn [answer fst snd nth Nat.eqb]; rewrite ?Reqb_spec; split; intros; try reflexivity; lra|]). destruct B.
Qed.
Lemma ans_consistent a b c d e f :
  consistent (Reqb a b) (Reqb a c) (Reqb b c) (Reqb d 0) (Reqb e 0) (Reqb f 0) (Reqb d e) (Reqb d f) (Reqb e f) (Reqb d (- e)) (Reqb d (- f)) (Reqb e (- f)) = true.
Proof.
  unfold consistent. repeat (apply andb_true_intro; split);
  (apply implb_true_iff; intros H; repeat match goal with H : (_ && _)%bool = true |- _ => apply andb_prop in H as [? ?] | H : (_ || _)%bool = true |- _ => apply orb_prop in H as [?|?] end;
   repeat match goal with H : Reqb _ _ = true |- _ => apply Reqb_spec in H end; try apply andb_true_intro; try split; apply Reqb_spec; lra).
Qed.
Lemma cubic_keeping (U : mat R) : wf 3 3 U -> tr U = U ->
  exists S, NoDup S /\ (forall Q, In Q S <-> In Q (map RZ CUBIC_LAUE_GROUP) /\ rotate Q U = U) /\ In (length S) [1; 2; 4; 6; 8; 24]%nat.
Proof.
  intros W T. apply wf3_inv in W. destruct W as (a & d & e & d' & b & f & e' & f' & c & ->).
  assert (E : d' = d /\ e' = e /\ f' = f) by (revert T; mat_unfold_goal; intros T; injection T; auto). destruct E as (-> & -> & ->). change [[a; d; e]; [d; b; f]; [e; f; c]] with (M3 a d e d b f e f c). clear T.
  pose proof (ans_consistent a b c d e f) as CO. apply sizes_checked in CO.
  assert (IK : forall Q, In Q (keeping (Reqb a b) (Reqb a c) (Reqb b c) (Reqb d 0) (Reqb e 0) (Reqb f 0) (Reqb d e) (Reqb d f) (Reqb e f) (Reqb d (- e)) (Reqb d (- f)) (Reqb e (- f))) <->
    In Q CUBIC_LAUE_GROUP /\ rotate (RZ Q) (M3 a d e d b f e f c) = M3 a d e d b f e f c).
  { intros Q. rewrite keeping_In. fold (ans a b c d e f). split; intros [HQ H]; (split; [exact HQ|]); [apply stab_conds|apply ans_holds]; try exact HQ; [now apply ans_holds|now apply stab_conds]. }
  match type of CO with In (length ?X) _ => pose proof (NoDup_keeping (Reqb a b) (Reqb a c) (Reqb b c) (Reqb d 0) (Reqb e 0) (Reqb f 0) (Reqb d e) (Reqb d f) (Reqb e f) (Reqb d (- e)) (Reqb d (- f)) (Reqb e (- f))) as NK; revert CO IK NK; generalize X end.
  intros K LK IK NK. exists (map RZ K). split; [exact NK|]. split.
  - intros Q. rewrite !in_map_iff. split.
    + intros (P & <- & HP). apply IK in HP as [HP ER]. split; [eauto|exact ER].
    + intros ((P & <- & HP) & ER). exists P. split; [reflexivity|]. now apply IK.
  - now rewrite map_length.
Qed.

(** A symmetric stretch of a cubic parent has 1, 3, 4, 6, 12 or 24 variants; 2 and 8, which also divide 24, do not occur. *)
Theorem C131_cubic_partial : forall m U Us m', reachable m -> m_U m = Some U -> wf 3 3 U -> tr U = U -> getLaue m = map RZ CUBIC_LAUE_GROUP ->
  separated U (getLaue m) -> isreversible m = Ok true -> getvariants m = Ok (Us, m') -> In (length Us) [1; 3; 4; 6; 12; 24]%nat.
Proof.
  intros m U Us m' RM EU WU TU EG HS HR HV. destruct (cubic_keeping U WU TU) as (S & NS & IS & LS).
  assert (HG : rotation_group (getLaue m)) by (rewrite EG; split; [apply CUBIC_good|]; intros Q HQ; now apply CUBIC_good).
  rewrite <- EG in IS. pose proof (C131_count_partial m U Us m' S RM EU WU HG HS HR HV NS IS) as C. rewrite EG, map_length in C. change (length CUBIC_LAUE_GROUP) with 24%nat in C.
  cbn [In] in LS |- *. lia.
Qed.
Print Assumptions C131_cubic_partial.

Example C131_case : reachable Mtet /\ m_U Mtet = Some Utet /\ wf 3 3 Utet /\ tr Utet = Utet /\ getLaue Mtet = map RZ CUBIC_LAUE_GROUP /\
  separated Utet (getLaue Mtet) /\ isreversible Mtet = Ok true /\
  exists Us m' S, getvariants Mtet = Ok (Us, m') /\ NoDup S /\ (forall Q, In Q S <-> In Q (getLaue Mtet) /\ rotate Q Utet = Utet) /\ length Us = 3%nat /\ length S = 8%nat.
Proof.
  destruct C27_case as (RM & RG & SP & RV & Us & idx & m' & E & O & P).
  assert (WU : wf 3 3 Utet) by apply Utet_base. assert (TU : tr Utet = Utet) by (unfold Utet, M3; mat_eq ltac:(ring)).
  split; [exact RM|]. split; [reflexivity|]. split; [exact WU|]. split; [exact TU|]. split; [reflexivity|]. split; [exact SP|]. split; [exact RV|].
  destruct (cubic_keeping Utet WU TU) as (S & NS & IS & LS). exists Us, m', S. split; [exact E|]. split; [exact NS|]. split; [exact IS|].
  pose proof (C131_count_partial Mtet Utet Us m' S RM eq_refl WU RG SP RV E NS IS) as C. apply Permutation_length in P. change (length tets) with 3%nat in P.
  change (length (getLaue Mtet)) with 24%nat in C. split; [exact P|]. rewrite P in C. lia.
Qed.

(** Without the separation hypothesis: a tetragonal stretch of one part in 10^9 is given one variant instead of three. *)
Lemma tiny_images Q : In Q CUBIC_LAUE_GROUP -> allclose Utiny (rotate (RZ Q) Utiny) = true.
Proof.
  intros H. assert (WU : wf 3 3 Utiny) by apply Utiny_base. apply (allclose_spec 2 3); [exact WU|].
  assert (K : rotate (RZ Q) Utiny = Dg 1 1 (1 + 1 / 1000000000) \/ rotate (RZ Q) Utiny = Dg 1 (1 + 1 / 1000000000) 1 \/ rotate (RZ Q) Utiny = Dg (1 + 1 / 1000000000) 1 1).
  { unfold Utiny. generalize (1 + 1 / 1000000000). intros t. unfold CUBIC_LAUE_GROUP in H. cbn [In] in H.
    repeat (destruct H as [<-|H]; [first [solve [left; unfold rotate, Dg, Utiny; meq ltac:(ring)] | solve [right; left; unfold rotate, Dg, Utiny; meq ltac:(ring)] | solve [right; right; unfold rotate, Dg, Utiny; meq ltac:(ring)]]|]).
    destruct H. }
  intros i j Hi Hj. apply Rle_trans with (1 / 100000000).
  - destruct K as [->|[->| ->]]; unfold Utiny, Dg; destruct i as [|[|[|i]]], j as [|[|[|j]]]; try lia; cbn; apply Rabs_le; lra.
  - unfold rtol0, atol0. pose proof (Rabs_pos (get (rotate (RZ Q) Utiny) i j)). lra.
Qed.
Theorem C131_refuted : exists m U Us m' Q, reachable m /\ m_U m = Some U /\ positive_definite U /\ getLaue m = map RZ CUBIC_LAUE_GROUP /\
  isreversible m = Ok true /\ getvariants m = Ok (Us, m') /\ length Us = 1%nat /\ In Q (getLaue m) /\ rotate Q U <> U.
Proof.
  destruct (C27_tolerance_partial Mtiny Utiny (r_new _ _) eq_refl Mtiny_reversible) as (Us & idx & m' & E & _ & _ & HD & IM & _ & FAR & _).
  exists Mtiny, Utiny, Us, m', (RZ [[1;0;0];[0;0;-1];[0;1;0]]%Z). split; [apply r_new|]. split; [reflexivity|]. split.
  { unfold positive_definite. split; [split; [now apply wfb_spec|unfold Utiny, Dg; mat_eq ltac:(reflexivity)]|]. intros x y z K. unfold Utiny, Dg. cbn.
    assert (x * x + y * y + z * z <> 0).
    { intros K2. apply K. assert (x = 0) by nra. assert (y = 0) by nra. assert (z = 0) by nra. congruence. }
    nra. }
  split; [reflexivity|]. split; [exact Mtiny_reversible|]. split; [exact E|]. split; [|split].
  - destruct Us as [|V [|W Us]]; [discriminate|reflexivity|]. exfalso. injection HD as ->. pose proof (FAR 0%nat 1%nat Utiny W ltac:(lia) eq_refl eq_refl) as F.
    destruct (IM W (or_intror (or_introl eq_refl))) as [->|(Q & HQ & ->)].
    + pose proof (tiny_images [[1;0;0];[0;1;0];[0;0;1]]%Z ltac:(cbn; tauto)) as K. replace (rotate (RZ [[1;0;0];[0;1;0];[0;0;1]]%Z) Utiny) with Utiny in K by (unfold rotate, Utiny, Dg; meq ltac:(ring)). congruence.
    + change (getLaue Mtiny) with (map RZ CUBIC_LAUE_GROUP) in HQ. apply in_map_iff in HQ as (P & <- & HP). rewrite tiny_images in F by exact HP. discriminate.
  - change (getLaue Mtiny) with (map RZ CUBIC_LAUE_GROUP). apply in_map. cbn. tauto.
  - intros K. assert (H : get (rotate (RZ [[1;0;0];[0;0;-1];[0;1;0]]%Z) Utiny) 1 1 = get Utiny 1 1) by now rewrite K. revert H. unfold rotate, Utiny, Dg, RZ, mmap. mat_unfold_goal. lra.
Qed.
Print Assumptions C131_refuted.
