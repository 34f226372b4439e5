(** Property C116: the number of sublattices that reduce_hnfs keeps.  Specification: HnfSpec.v, ReduceSpec.v; model: ReduceModel.v,
    HnfModel.v. *)
From Verif Require Import LinAlg GroupModel HnfModel HnfSpec HnfCanon ReduceModel ReduceSpec ReduceProofs PropHnf DirectProofs DirectExample PropGroups Burnside.
Local Open Scope Z_scope.

(** ** Specification *)
(** the symmetry g maps the lattice spanned by the columns of h onto the one spanned by the columns of h' *)
Definition maps_to (n : nat) (g h h' : mat Z) : Prop := exists A, unimodular n A /\ mmul g h = mmul h' A.
(** fix decides whether g maps the lattice of h onto itself *)
Definition decides_fixed (n : nat) (G hnfs : list (mat Z)) (fixed : mat Z -> mat Z -> bool) : Prop :=
  forall g h, In g G -> In h hnfs -> (fixed g h = true <-> maps_to n g h h).
(** the number of pairs of a symmetry and a sublattice that it maps onto itself *)
Definition fixed_pairs (fixed : mat Z -> mat Z -> bool) (G hnfs : list (mat Z)) : nat := list_sum (map (fun g => length (filter (fixed g) hnfs)) G).

(** ** Proofs *)
Lemma Hof_hnf n (Hn : (0 < n)%nat) G (HG : matrix_group n G) g h : In g G -> is_hnf n h -> is_hnf n (Hof n (mmul g h)) /\ maps_to n g h (Hof n (mmul g h)).
Proof.
  intros Hg Hh.
  assert (HF : full_rank n (mmul g h)).
  { apply full_rank_left; [exact Hn|now apply (group_unimodular n G HG)|]. now apply is_hnf_full_rank. }
  destruct (hnf_H_py3 n Hn G HG _ HF) as [H [E [R I]]].
  assert (EH : Hof n (mmul g h) = H) by (unfold Hof; now rewrite E). rewrite EH. split; [exact I|].
  apply (Hof_iff n Hn G HG g h H Hg Hh I). exact EH.
Qed.
Lemma sublist_nodup {A} (r l : list A) : sublist r l -> NoDup l -> NoDup r.
Proof.
  induction 1 as [|x r l S IH|x r l S IH]; intros N; [constructor| |]; inversion_clear N; auto. constructor; auto.
  intros K. apply H. now apply (sublist_In r l).
Qed.
Lemma closed_burnside n G hnfs r fixed : (0 < n)%nat -> matrix_group n G -> NoDup G -> NoDup hnfs ->
  (forall h, In h hnfs -> is_hnf n h) -> (forall g h h', In g G -> In h hnfs -> is_hnf n h' -> maps_to n g h h' -> In h' hnfs) ->
  decides_fixed n G hnfs fixed -> reduce_hnfs py3 hnfs G 3 = Ok r -> (length r * length G)%nat = fixed_pairs fixed G hnfs.
Proof.
  intros Hn HG NG NX HH CL DF ER. destruct (reduce_hnfs_transversal n Hn G HG hnfs HH) as (r' & ER' & (SB & CV & DJ)). rewrite ER in ER'. injection ER' as <-.
  pose proof HG as (GW & GE & GM & GI).
  assert (RX : forall x, In x r -> In x hnfs) by (intros x; now apply sublist_In).
  unfold fixed_pairs. rewrite (sum_ext _ (fun g => length (filter (fun x => mat_eqb (Hof n (mmul g x)) x) hnfs))).
  2:{ intros g Hg. f_equal. apply filter_ext_in. intros h Hh. apply eq_true_iff_eq. rewrite (DF g h Hg Hh), mat_eqb_eq. symmetry. apply (Hof_iff n Hn G HG); auto. }
  assert (Hact : forall g x, In g G -> In x hnfs -> In (Hof n (mmul g x)) hnfs).
  { intros g x Hg Hx. destruct (Hof_hnf n Hn G HG g x Hg (HH x Hx)) as [I M]. now apply (CL g x). }
  apply (burnside mat_eqb hnfs r G mmul (eye n) (fun g x => Hof n (mmul g x))); auto.
  - intros; apply mat_eqb_eq.
  - now apply (sublist_nodup r hnfs).
  - intros a b c Ha Hb Hc. apply (mmul_assoc n n n n); auto.
  - intros a Ha. apply (mmul_eye_r n n); auto.
  - intros g k x Hg Hk Hx. destruct (Hof_hnf n Hn G HG k x Hk (HH x Hx)) as [I1 (A & UA & EA)].
    destruct (Hof_hnf n Hn G HG g _ Hg I1) as [I2 (B & UB & EB)].
    apply (Hof_iff n Hn G HG (mmul g k) x _ (GM g k Hg Hk) (HH x Hx) I2). exists (mmul B A). split; [now apply (unimodular_mul n Hn)|].
    assert (W1 : wf n n (Hof n (mmul k x))) by apply I1. assert (W2 : wf n n (Hof n (mmul g (Hof n (mmul k x))))) by apply I2.
    assert (Wx : wf n n x) by apply (HH x Hx). assert (WA : wf n n A) by apply UA. assert (WB : wf n n B) by apply UB.
    set (H1 := Hof n (mmul k x)) in *. clearbody H1. set (H2 := Hof n (mmul g H1)) in *. clearbody H2.
    rewrite (mmul_assoc n n n n g) by auto. rewrite EA. rewrite <- (mmul_assoc n n n n g) by auto. rewrite EB. now apply (mmul_assoc n n n n).
  - intros x Hx. apply (Hof_iff n Hn G HG (eye n) x x GE (HH x Hx) (HH x Hx)). exists (eye n). split; [exact (eye_unimodular n Hn)|].
    assert (Wx : wf n n x) by apply (HH x Hx). now rewrite (mmul_eye_l n n), (mmul_eye_r n n) by auto.
  - intros x Hx. destruct (CV x Hx) as (y & Hy & Exy). apply (sym_equiv_sym n Hn G HG) in Exy; [|apply (HH x Hx)|apply (HH y (RX y Hy))].
    destruct Exy as (g & A & Hg & UA & E). exists y, g. split; [exact Hy|]. split; [exact Hg|]. apply (Hof_iff n Hn G HG g y x Hg); eauto.
  - intros x y g Hx Hy Hg E. apply (Hof_iff n Hn G HG g x y Hg (HH _ (RX _ Hx)) (HH _ (RX _ Hy))) in E as (A & UA & E).
    apply In_nth_error in Hx as (i & Hi), Hy as (j & Hj). destruct (Nat.eq_dec i j) as [->|Ne]; [congruence|]. exfalso. apply (DJ i j x y Hi Hj Ne). exists g, A. auto.
Qed.
Lemma uni_det n A : dim23 n -> unimodular n A -> Z.abs (det A) = 1.
Proof.
  intros d (WA & V & WV & E & _). pose proof (det_mmul_Z n A V d WA WV) as D. rewrite E in D.
  assert (D1 : det (eye n : mat Z) = 1) by (destruct d as [->| ->]; reflexivity). rewrite D1 in D. destruct (Z.mul_eq_1 (det A) (det V) (eq_sym D)) as [->| ->]; reflexivity.
Qed.
Lemma hnf_det n h : dim23 n -> is_hnf n h -> det h = diag_prod n h.
Proof.
  intros [->| ->] (W & U & _).
  - destruct (wf2_inv h W) as (a & b & c & d & ->). specialize (U 0%nat 1%nat ltac:(lia)). cbn in U. subst b. cbn -[Z.mul Z.add Z.sub Z.opp]. ring.
  - destruct (wf3_inv h W) as (a & b & c & d & e & f & g & i & j & ->). pose proof (U 0%nat 1%nat ltac:(lia)) as U1. pose proof (U 0%nat 2%nat ltac:(lia)) as U2.
    pose proof (U 1%nat 2%nat ltac:(lia)) as U3. cbn in U1, U2, U3. subst b c f. cbn -[Z.mul Z.add Z.sub Z.opp]. ring.
Qed.
Lemma diag_pos n h : is_hnf n h -> 0 < diag_prod n h.
Proof.
  intros (_ & _ & P & _). assert (K : forall k, (k <= n)%nat -> 0 < diag_prod k h); [|now apply K].
  induction k as [|k IH]; intros Hk; cbn [diag_prod]; [lia|]. specialize (P k ltac:(lia)). specialize (IH ltac:(lia)). nia.
Qed.
Lemma maps_det n g h h' : dim23 n -> unimodular n g -> is_hnf n h -> is_hnf n h' -> maps_to n g h h' -> diag_prod n h' = diag_prod n h.
Proof.
  intros d Ug Ih Ih' (A & UA & E). assert (D : det g * det h = det h' * det A).
  { rewrite <- !(det_mmul_Z n) by (auto; (apply Ug || apply Ih || apply Ih' || apply UA)). now rewrite E. }
  pose proof (uni_det n g d Ug). pose proof (uni_det n A d UA). rewrite (hnf_det n h d Ih), (hnf_det n h' d Ih') in D. pose proof (diag_pos n h Ih). pose proof (diag_pos n h' Ih'). nia.
Qed.
Lemma pick {A} (E : A -> A -> Prop) r s : (forall x, In x r -> exists y, In y s /\ E x y) -> exists m, Forall2 E r m /\ incl m s.
Proof.
  induction r as [|x r IH]; intros H; [exists []; split; [constructor|intros ? []]|]. destruct IH as (m & F & I); [intros; apply H; now right|].
  destruct (H x (or_introl eq_refl)) as (y & Hy & E1). exists (y :: m). split; [now constructor|]. intros z [<-|Hz]; auto.
Qed.
Lemma transversal_le {A} (E E' : A -> A -> Prop) l l' r r' : (forall x y z, In x l -> In y l -> In z l -> E x z -> E y z -> E x y) -> (forall x y, E' x y -> E x y) ->
  (forall x, In x l <-> In x l') -> transversal E l r -> transversal E' l' r' -> (length r <= length r')%nat.
Proof.
  intros TR HE HL (S & C & D) (S' & C' & D').
  assert (Sub : forall x, In x r -> In x l) by (intros x; now apply sublist_In). assert (Sub' : forall x, In x r' -> In x l) by (intros x Hx; apply HL; now apply (sublist_In r' l')).
  destruct (pick E r r') as (m & F & I). { intros x Hx. destruct (C' x) as (y & Hy & K); [now apply HL, Sub|]. exists y. auto. }
  assert (L : length r = length m) by (clear -F; induction F; cbn; congruence). rewrite L. apply NoDup_incl_length; [|exact I].
  apply NoDup_nth_error. intros i j Hi Eij. destruct (Nat.eq_dec i j) as [|Ne]; [assumption|exfalso].
  destruct (nth_error m i) as [y|] eqn:Ei; [|apply nth_error_None in Ei; lia]. symmetry in Eij.
  assert (Hj : (j < length m)%nat) by (apply nth_error_Some; congruence).
  destruct (nth_error r i) as [x|] eqn:Xi; [|apply nth_error_None in Xi; lia]. destruct (nth_error r j) as [x'|] eqn:Xj; [|apply nth_error_None in Xj; lia].
  assert (K : forall k a b, nth_error r k = Some a -> nth_error m k = Some b -> E a b).
  { clear -F. induction F as [|a b r m H F IH]; intros [|k] u v Hu Hv; cbn in *; try discriminate; [congruence|eauto]. }
  apply (D i j x x' Xi Xj Ne). apply (TR x x' y); eauto using nth_error_In.
Qed.

(** ** Theorems *)
(** For every list of sublattices that the symmetries permute: the number of those kept, times the order of the group, is the number of
    pairs of a symmetry and a sublattice that it maps onto itself. *)
Theorem C116_closed : forall n G hnfs r fixed, (0 < n)%nat -> matrix_group n G -> NoDup G -> NoDup hnfs ->
  (forall h, In h hnfs -> is_hnf n h) -> (forall g h h', In g G -> In h hnfs -> is_hnf n h' -> maps_to n g h h' -> In h' hnfs) ->
  decides_fixed n G hnfs fixed -> reduce_hnfs py3 hnfs G 3 = Ok r -> (length r * length G)%nat = fixed_pairs fixed G hnfs.
Proof. exact closed_burnside. Qed.
Print Assumptions C116_closed.
(** For the sublattices of a given size, in two and three dimensions. *)
Theorem C116_size : forall n d G hnfs fixed, n = 2%nat \/ n = 3%nat -> 0 < d -> matrix_group n G -> NoDup G -> hnf_from_det d n = Ok (Some hnfs) ->
  decides_fixed n G hnfs fixed -> exists r, reduce_hnfs py3 hnfs G 3 = Ok r /\ (length r * length G)%nat = fixed_pairs fixed G hnfs.
Proof.
  intros n d G hnfs fixed Hn Hd HG NG EH DF. assert (N0 : (0 < n)%nat) by lia. destruct (C03_hnf_from_det d n Hd N0) as (l & El & Nl & Il). rewrite EH in El. injection El as <-.
  assert (HH : forall h, In h hnfs -> is_hnf n h) by (intros h Hh; now apply Il).
  destruct (reduce_hnfs_transversal n N0 G HG hnfs HH) as (r & ER & _). exists r. split; [exact ER|].
  apply (closed_burnside n G hnfs r fixed); auto. intros g h h' Hg Hh I M. apply Il. split; [exact I|].
  apply Il in Hh as [Ih Dh]. rewrite <- Dh. apply (maps_det n g); auto. now apply (group_unimodular n G HG).
Qed.
Print Assumptions C116_size.
(** The number kept depends neither on the order or multiplicity of the sublattices nor on those of the symmetries. *)
Theorem C116_order : forall n G G' hnfs hnfs' r r', (0 < n)%nat -> matrix_group n G -> matrix_group n G' ->
  (forall g, In g G <-> In g G') -> (forall h, In h hnfs <-> In h hnfs') -> (forall h, In h hnfs -> is_hnf n h) ->
  reduce_hnfs py3 hnfs G 3 = Ok r -> reduce_hnfs py3 hnfs' G' 3 = Ok r' -> length r = length r'.
Proof.
  intros n G G' hnfs hnfs' r r' Hn HG HG' SG SH HH ER ER'.
  assert (HH' : forall h, In h hnfs' -> is_hnf n h) by (intros h Hh; now apply HH, SH).
  destruct (reduce_hnfs_transversal n Hn G HG hnfs HH) as (s & ES & T). destruct (reduce_hnfs_transversal n Hn G' HG' hnfs' HH') as (s' & ES' & T').
  rewrite ER in ES. injection ES as <-. rewrite ER' in ES'. injection ES' as <-.
  assert (TR : forall K, matrix_group n K -> forall l, (forall h, In h l -> is_hnf n h) -> forall x y z, In x l -> In y l -> In z l -> sym_equiv n K x z -> sym_equiv n K y z -> sym_equiv n K x y).
  { intros K HK l Hl x y z Hx Hy Hz A B. assert (Wx : wf n n x) by now apply Hl. assert (Wy : wf n n y) by now apply Hl. assert (Wz : wf n n z) by now apply Hl.
    apply (sym_equiv_trans n Hn K HK x z y); auto. now apply (sym_equiv_sym n Hn K HK). }
  assert (EQ : forall K K', (forall g, In g K <-> In g K') -> forall x y, sym_equiv n K x y -> sym_equiv n K' x y).
  { intros K K' S x y (g & A & Hg & H). exists g, A. split; [now apply S|exact H]. }
  apply Nat.le_antisymm.
  - apply (transversal_le (sym_equiv n G) (sym_equiv n G') hnfs hnfs'); auto; [now apply TR|]. apply EQ. intros; symmetry; apply SG.
  - apply (transversal_le (sym_equiv n G') (sym_equiv n G) hnfs' hnfs); auto; [now apply TR|now apply EQ|]. intros; symmetry; apply SH.
Qed.
Print Assumptions C116_order.

(** The seven sublattices of index two of the simple cubic lattice fall into three classes: 3 * 24 = 72 fixed pairs. *)
Example C116_case : exists hnfs r, matrix_group 3 CUBIC_LAUE_GROUP /\ NoDup CUBIC_LAUE_GROUP /\ hnf_from_det 2 3 = Ok (Some hnfs) /\ length hnfs = 7%nat /\
  decides_fixed 3 CUBIC_LAUE_GROUP hnfs (fun g h => mat_eqb (Hof 3 (mmul g h)) h) /\
  reduce_hnfs py3 hnfs CUBIC_LAUE_GROUP 3 = Ok r /\ length r = 3%nat /\ fixed_pairs (fun g h => mat_eqb (Hof 3 (mmul g h)) h) CUBIC_LAUE_GROUP hnfs = 72%nat.
Proof.
  assert (HG : matrix_group 3 CUBIC_LAUE_GROUP) by (apply ztable_group; vm_compute; reflexivity).
  destruct (C03_hnf_from_det 2 3 ltac:(lia) ltac:(lia)) as (l & El & Nl & Il). exists l. eexists. split; [exact HG|]. split; [apply C10_cubic_table|]. split; [exact El|].
  assert (D : decides_fixed 3 CUBIC_LAUE_GROUP l (fun g h => mat_eqb (Hof 3 (mmul g h)) h)).
  { intros g h Hg Hh. rewrite mat_eqb_eq. apply Il in Hh as [Ih _]. apply (Hof_iff 3 ltac:(lia) CUBIC_LAUE_GROUP HG); auto. }
  vm_compute in El. injection El as <-. split; [reflexivity|]. split; [exact D|]. split; [vm_compute; reflexivity|]. split; vm_compute; reflexivity.
Qed.
