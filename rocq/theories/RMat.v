(** Real matrices and the numpy predicates used on them. *)
From Verif Require Export Mat.
From Coq Require Export Reals Lra.
Local Open Scope R_scope.

#[global] Instance R_ops : Ops R :=
  {| zero := 0; one := 1; add := Rplus; mul := Rmult; sub := Rminus; opp := Ropp |}.
#[global] Instance R_laws : RingLaws R.
Proof. exact RTheory. Qed.

(** Decidable comparisons as booleans. *)
Definition Rleb (a b : R) : bool := if Rle_dec a b then true else false.
Definition Rltb (a b : R) : bool := if Rlt_dec a b then true else false.
Definition Reqb (a b : R) : bool := if Req_EM_T a b then true else false.

Lemma Rleb_spec a b : Rleb a b = true <-> a <= b.
Proof. unfold Rleb. destruct (Rle_dec a b); split; intros; auto; try discriminate; try contradiction. Qed.
Lemma Rltb_spec a b : Rltb a b = true <-> a < b.
Proof. unfold Rltb. destruct (Rlt_dec a b); split; intros; auto; try discriminate; try contradiction. Qed.
Lemma Reqb_spec a b : Reqb a b = true <-> a = b.
Proof. unfold Reqb. destruct (Req_EM_T a b); split; intros; auto; try discriminate; try contradiction. Qed.
Lemma Rleb_false a b : Rleb a b = false <-> b < a.
Proof. unfold Rleb. destruct (Rle_dec a b); split; intros; auto; try discriminate; lra. Qed.
Lemma Rltb_false a b : Rltb a b = false <-> b <= a.
Proof. unfold Rltb. destruct (Rlt_dec a b); split; intros; auto; try discriminate; lra. Qed.
Lemma Reqb_false a b : Reqb a b = false <-> a <> b.
Proof. unfold Reqb. destruct (Req_EM_T a b); split; intros; auto; try discriminate; try contradiction. Qed.

(** np.isclose(a, b, rtol, atol): |a - b| <= atol + rtol * |b|. *)
Definition isclose (rtol atol a b : R) : bool := Rleb (Rabs (a - b)) (atol + rtol * Rabs b).

(** np.allclose(A, B) for two n x m arrays, default rtol 1e-5 and the given atol
    (1e-8 is also numpy's default). *)
Definition rtol0 : R := 1 / 100000.
Definition atol0 : R := 1 / 100000000.
Definition allclose (A B : mat R) : bool :=
  forallb (fun i => forallb (fun j => isclose rtol0 atol0 (get A i j) (get B i j)) (seq 0 (ncols A)))
          (seq 0 (nrows A)).

Lemma isclose_refl r a x : 0 <= r -> 0 <= a -> isclose r a x x = true.
Proof.
  intros Hr Ha. apply Rleb_spec. rewrite Rminus_diag_eq, Rabs_R0 by reflexivity.
  pose proof (Rabs_pos x). nra.
Qed.

Lemma allclose_refl A : allclose A A = true.
Proof.
  unfold allclose. apply forallb_forall. intros i _. apply forallb_forall. intros j _.
  apply isclose_refl; unfold rtol0, atol0; lra.
Qed.

Lemma allclose_spec n m A B : wf (S n) m A ->
  allclose A B = true <->
  forall i j, (i < S n)%nat -> (j < m)%nat ->
    Rabs (get A i j - get B i j) <= atol0 + rtol0 * Rabs (get B i j).
Proof.
  intros HA. unfold allclose. rewrite (nrows_wf _ _ _ HA), (ncols_wf _ _ _ HA).
  rewrite forallb_forall. split.
  - intros H i j Hi Hj. specialize (H i ltac:(apply in_seq; lia)).
    rewrite forallb_forall in H. specialize (H j ltac:(apply in_seq; lia)).
    now apply Rleb_spec in H.
  - intros H i Hi. apply in_seq in Hi. apply forallb_forall. intros j Hj. apply in_seq in Hj.
    apply Rleb_spec. apply H; lia.
Qed.

(** np.rint: nearest integer, ties to even (as an integer). *)
Definition Rfloor (x : R) : Z := (up x - 1)%Z.
Definition rint (x : R) : Z :=
  let f := Rfloor x in
  if Rlt_dec (x - IZR f) (1/2) then f
  else if Rlt_dec (1/2) (x - IZR f) then (f + 1)%Z
  else if Z.even f then f else (f + 1)%Z.

Lemma Rfloor_spec x : IZR (Rfloor x) <= x < IZR (Rfloor x) + 1.
Proof. unfold Rfloor. destruct (archimed x) as [H1 H2]. rewrite minus_IZR. lra. Qed.

Lemma Rfloor_unique x z : IZR z <= x < IZR z + 1 -> Rfloor x = z.
Proof.
  intros [H1 H2]. destruct (Rfloor_spec x) as [H3 H4].
  assert (z < Rfloor x + 1)%Z by (apply lt_IZR; rewrite plus_IZR; lra).
  assert (Rfloor x < z + 1)%Z by (apply lt_IZR; rewrite plus_IZR; lra). lia.
Qed.

Lemma Rfloor_IZR z : Rfloor (IZR z) = z.
Proof. apply Rfloor_unique. lra. Qed.

Lemma rint_IZR z : rint (IZR z) = z.
Proof.
  unfold rint. rewrite Rfloor_IZR. destruct (Rlt_dec (IZR z - IZR z) (1/2)); [reflexivity|lra].
Qed.

Lemma rint_close x : Rabs (x - IZR (rint x)) <= 1/2.
Proof.
  unfold rint. pose proof (Rfloor_spec x) as [H1 H2].
  destruct (Rlt_dec _ _); [apply Rabs_le; lra|].
  destruct (Rlt_dec _ _); [apply Rabs_le; rewrite plus_IZR; lra|].
  destruct (Z.even _); apply Rabs_le; rewrite ?plus_IZR; lra.
Qed.

(** rint is the nearest integer when one is closer than 1/2. *)
Lemma rint_nearest x z : Rabs (x - IZR z) < 1/2 -> rint x = z.
Proof.
  intros H. pose proof (rint_close x) as H2.
  assert (Hd : Rabs (IZR (rint x) - IZR z) < 1).
  { replace (IZR (rint x) - IZR z) with ((x - IZR z) - (x - IZR (rint x))) by ring.
    eapply Rle_lt_trans; [apply Rabs_triang|]. rewrite Rabs_Ropp. lra. }
  rewrite <- minus_IZR in Hd. rewrite <- abs_IZR in Hd.
  apply lt_IZR in Hd. lia.
Qed.

(** ** Explicit small matrices *)
Definition M2 (a b c d : R) : mat R := [[a; b]; [c; d]].
Definition M3 (a b c d e f g h i : R) : mat R := [[a; b; c]; [d; e; f]; [g; h; i]].
Definition V3 (a b c : R) : vec R := [a; b; c].

Lemma wf2_inv {A} (M : mat A) : @wf A 2 2 M -> exists a b c d, M = [[a; b]; [c; d]].
Proof.
  intros [Hl Hr]. destruct M as [|r1 [|r2 [|]]]; try discriminate.
  assert (L1 := Hr r1 (or_introl eq_refl)). assert (L2 := Hr r2 (or_intror (or_introl eq_refl))).
  destruct r1 as [|a [|b [|]]]; try discriminate. destruct r2 as [|c [|d [|]]]; try discriminate.
  eauto.
Qed.

Lemma wf3_inv {A} (M : mat A) : @wf A 3 3 M ->
  exists a b c d e f g h i, M = [[a; b; c]; [d; e; f]; [g; h; i]].
Proof.
  intros [Hl Hr]. destruct M as [|r1 [|r2 [|r3 [|]]]]; try discriminate.
  assert (L1 := Hr r1 (or_introl eq_refl)).
  assert (L2 := Hr r2 (or_intror (or_introl eq_refl))).
  assert (L3 := Hr r3 (or_intror (or_intror (or_introl eq_refl)))).
  destruct r1 as [|a [|b [|c [|]]]]; try discriminate.
  destruct r2 as [|d [|e [|f [|]]]]; try discriminate.
  destruct r3 as [|g [|h [|i [|]]]]; try discriminate.
  repeat eexists.
Qed.

Lemma len3_inv {A} (v : list A) : length v = 3%nat -> exists a b c, v = [a; b; c].
Proof. destruct v as [|a [|b [|c [|]]]]; try discriminate. eauto. Qed.
Lemma len2_inv {A} (v : list A) : length v = 2%nat -> exists a b, v = [a; b].
Proof. destruct v as [|a [|b [|]]]; try discriminate. eauto. Qed.

(** Unfold all matrix operations on explicit matrices. *)
Ltac mat_unfold :=
  cbv [mmul mvmul tr eye madd msub mopp mscale dot diag outer col trace det det_n minor
       get vget mk mkv nrows ncols sumn nth map seq length app firstn skipn tl
       Nat.even Nat.eqb M2 M3 V3
       add mul sub opp zero one R_ops Z_ops] in *.
Ltac mat_unfold_goal :=
  cbv [mmul mvmul tr eye madd msub mopp mscale dot diag outer col trace det det_n minor
       get vget mk mkv nrows ncols sumn nth map seq length app firstn skipn tl
       Nat.even Nat.eqb M2 M3 V3
       add mul sub opp zero one R_ops Z_ops].
(** Equality of explicit matrices, entry by entry, by [tac]. *)
Ltac mat_eq tac := mat_unfold_goal; repeat (f_equal; try solve [tac]).
