(** Matrices as lists of rows, polymorphic in the entries: the shared
    representation of [numpy.ndarray] with ndim = 2.  [mk] builds, [get] reads. *)
From Verif Require Export Py.
From Coq Require Import Ring_theory InitialRing Ring.

(** Arithmetic used by numpy on the entries ([+], [*], [-]). *)
Class Ops (A : Type) := {
  zero : A; one : A;
  add : A -> A -> A; mul : A -> A -> A; sub : A -> A -> A; opp : A -> A }.
Class RingLaws (A : Type) {O : Ops A} :=
  ring_laws : ring_theory zero one add mul sub opp (@eq A).

Definition mat (A : Type) := list (list A).
Definition vec (A : Type) := list A.

Section Defs.
  Context {A : Type} {O : Ops A}.

  (** M[i, j] (in range; out of range reads as zero, never used by the models). *)
  Definition get (M : mat A) (i j : nat) : A := nth j (nth i M []) zero.
  Definition vget (v : vec A) (i : nat) : A := nth i v zero.
  (** the n x m matrix with entries f i j *)
  Definition mk (n m : nat) (f : nat -> nat -> A) : mat A :=
    map (fun i => map (f i) (seq 0 m)) (seq 0 n).
  Definition mkv (n : nat) (f : nat -> A) : vec A := map f (seq 0 n).
  Definition nrows (M : mat A) : nat := length M.
  Definition ncols (M : mat A) : nat := length (nth 0 M []).
  Definition wf (n m : nat) (M : mat A) : Prop :=
    length M = n /\ forall r, In r M -> length r = m.
  Definition wfb (n m : nat) (M : mat A) : bool :=
    (length M =? n) && forallb (fun r => length r =? m) M.

  (** sum over k < n *)
  Fixpoint sumn (n : nat) (f : nat -> A) : A :=
    match n with 0 => zero | S k => add (sumn k f) (f k) end.

  (** np.dot of two matrices *)
  Definition mmul (M N : mat A) : mat A :=
    mk (nrows M) (ncols N) (fun i j => sumn (nrows N) (fun k => mul (get M i k) (get N k j))).
  (** np.dot matrix * vector *)
  Definition mvmul (M : mat A) (v : vec A) : vec A :=
    mkv (nrows M) (fun i => sumn (length v) (fun k => mul (get M i k) (vget v k))).
  (** M.T *)
  Definition tr (M : mat A) : mat A := mk (ncols M) (nrows M) (fun i j => get M j i).
  (** np.eye *)
  Definition eye (n : nat) : mat A := mk n n (fun i j => if i =? j then one else zero).
  Definition madd (M N : mat A) : mat A :=
    mk (nrows M) (ncols M) (fun i j => add (get M i j) (get N i j)).
  Definition msub (M N : mat A) : mat A :=
    mk (nrows M) (ncols M) (fun i j => sub (get M i j) (get N i j)).
  Definition mopp (M : mat A) : mat A :=
    mk (nrows M) (ncols M) (fun i j => opp (get M i j)).
  Definition mscale (c : A) (M : mat A) : mat A :=
    mk (nrows M) (ncols M) (fun i j => mul c (get M i j)).
  Definition dot (u v : vec A) : A := sumn (length u) (fun k => mul (vget u k) (vget v k)).
  (** np.diag of a 1-d array *)
  Definition diag (d : list A) : mat A :=
    mk (length d) (length d) (fun i j => if i =? j then nth i d zero else zero).
  (** np.outer *)
  Definition outer (u v : vec A) : mat A :=
    mk (length u) (length v) (fun i j => mul (vget u i) (vget v j)).
  Definition col (M : mat A) (j : nat) : vec A := mkv (nrows M) (fun i => get M i j).
  Definition trace (M : mat A) : A := sumn (nrows M) (fun i => get M i i).

  (** Laplace expansion along the first row. *)
  Definition minor (M : mat A) (j : nat) : mat A :=
    map (fun r => firstn j r ++ skipn (S j) r) (tl M).
  Fixpoint det_n (n : nat) (M : mat A) : A :=
    match n with
    | 0 => one
    | S k => sumn n (fun j =>
        mul (if Nat.even j then get M 0 j else opp (get M 0 j)) (det_n k (minor M j)))
    end.
  Definition det (M : mat A) : A := det_n (nrows M) M.

End Defs.

(** ** Reading back what was built *)
Section Facts.
  Context {A : Type} {O : Ops A}.

  Lemma nth_map_seq {B} (f : nat -> B) n i d : i < n -> nth i (map f (seq 0 n)) d = f i.
  Proof.
    intros Hi. rewrite nth_indep with (d' := f 0) by (now rewrite map_length, seq_length).
    rewrite map_nth. now rewrite seq_nth.
  Qed.

  Lemma get_mk n m (f : nat -> nat -> A) i j : i < n -> j < m -> get (mk n m f) i j = f i j.
  Proof.
    intros Hi Hj. unfold get, mk.
    rewrite (nth_map_seq (fun i0 => map (f i0) (seq 0 m)) n i [] Hi).
    now rewrite nth_map_seq.
  Qed.

  Lemma vget_mkv n (f : nat -> A) i : i < n -> vget (mkv n f) i = f i.
  Proof. intros Hi. unfold vget, mkv. now rewrite nth_map_seq. Qed.

  Lemma length_mkv n (f : nat -> A) : length (mkv n f) = n.
  Proof. unfold mkv. now rewrite map_length, seq_length. Qed.

  Lemma wf_mk n m (f : nat -> nat -> A) : wf n m (mk n m f).
  Proof.
    unfold wf, mk. rewrite map_length, seq_length. split; [reflexivity|].
    intros r Hr. apply in_map_iff in Hr. destruct Hr as [i [<- _]].
    now rewrite map_length, seq_length.
  Qed.

  Lemma nrows_mk n m (f : nat -> nat -> A) : nrows (mk n m f) = n.
  Proof. apply wf_mk. Qed.

  Lemma ncols_wf n m (M : mat A) : wf (S n) m M -> ncols M = m.
  Proof. intros [Hl Hr]. destruct M as [|r M]; [discriminate|]. apply Hr. now left. Qed.

  Lemma ncols_mk n m (f : nat -> nat -> A) : ncols (mk (S n) m f) = m.
  Proof. apply (ncols_wf n). apply wf_mk. Qed.

  Lemma nrows_wf n m (M : mat A) : wf n m M -> nrows M = n.
  Proof. now intros [Hl _]. Qed.

  Lemma wf_row_length n m (M : mat A) i : wf n m M -> i < n -> length (nth i M []) = m.
  Proof. intros [Hl Hr] Hi. apply Hr. apply nth_In. lia. Qed.

  Lemma list_ext {B} (d : B) (l1 l2 : list B) :
    length l1 = length l2 -> (forall i, i < length l1 -> nth i l1 d = nth i l2 d) -> l1 = l2.
  Proof. intros. now apply nth_ext with (d := d) (d' := d). Qed.

  Lemma mat_ext n m (M N : mat A) :
    wf n m M -> wf n m N ->
    (forall i j, i < n -> j < m -> get M i j = get N i j) -> M = N.
  Proof.
    intros HM HN H. apply (list_ext []).
    - destruct HM, HN; congruence.
    - intros i Hi. assert (Hin : i < n) by (destruct HM; lia).
      apply (list_ext zero).
      + rewrite (wf_row_length n m M i HM Hin). now rewrite (wf_row_length n m N i HN Hin).
      + intros j Hj. rewrite (wf_row_length n m M i HM Hin) in Hj. now apply H.
  Qed.

  Lemma mk_get n m (M : mat A) : wf n m M -> mk n m (get M) = M.
  Proof.
    intros HM. apply (mat_ext n m); auto using wf_mk.
    intros. now apply get_mk.
  Qed.

  Lemma mk_ext n m (f g : nat -> nat -> A) :
    (forall i j, i < n -> j < m -> f i j = g i j) -> mk n m f = mk n m g.
  Proof.
    intros H. apply (mat_ext n m); auto using wf_mk.
    intros. rewrite !get_mk by assumption. auto.
  Qed.

  Lemma wfb_spec n m (M : mat A) : wfb n m M = true <-> wf n m M.
  Proof.
    unfold wfb, wf. rewrite andb_true_iff, Nat.eqb_eq, forallb_forall.
    split; intros [H1 H2]; (split; [exact H1|]); intros r Hr; specialize (H2 r Hr);
      now apply Nat.eqb_eq.
  Qed.

  Lemma vec_ext n (u v : vec A) :
    length u = n -> length v = n -> (forall i, i < n -> vget u i = vget v i) -> u = v.
  Proof.
    intros Hu Hv H. apply (list_ext zero); [congruence|]. intros i Hi. apply H. lia.
  Qed.

  Lemma sumn_ext n (f g : nat -> A) : (forall k, k < n -> f k = g k) -> sumn n f = sumn n g.
  Proof. induction n; intros H; cbn; [reflexivity|]. rewrite IHn, H; auto. Qed.

End Facts.

(** ** Ring facts *)
Section RingFacts.
  Context {A : Type} {O : Ops A} {RL : RingLaws A}.
  Let RT : ring_theory zero one add mul sub opp (@eq A) := ring_laws.
  Add Ring Aring : RT.

  Lemma sumn_add n (f g : nat -> A) :
    sumn n (fun k => add (f k) (g k)) = add (sumn n f) (sumn n g).
  Proof. induction n; cbn; [ring|]. rewrite IHn. ring. Qed.

  Lemma sumn_scale n c (f : nat -> A) : sumn n (fun k => mul c (f k)) = mul c (sumn n f).
  Proof. induction n; cbn; [ring|]. rewrite IHn. ring. Qed.

  Lemma sumn_scale_r n c (f : nat -> A) : sumn n (fun k => mul (f k) c) = mul (sumn n f) c.
  Proof. induction n; cbn; [ring|]. rewrite IHn. ring. Qed.

  Lemma sumn_zero n (f : nat -> A) : (forall k, k < n -> f k = zero) -> sumn n f = zero.
  Proof. induction n; intros H; cbn; [reflexivity|]. rewrite IHn, H by auto. ring. Qed.

  Lemma sumn_swap n m (f : nat -> nat -> A) :
    sumn n (fun i => sumn m (f i)) = sumn m (fun j => sumn n (fun i => f i j)).
  Proof.
    induction n; cbn.
    - symmetry. now apply sumn_zero.
    - rewrite IHn, <- sumn_add. reflexivity.
  Qed.

  Lemma sumn_single n i (f : nat -> A) :
    i < n -> (forall k, k < n -> k <> i -> f k = zero) -> sumn n f = f i.
  Proof.
    induction n; intros Hi H; [lia|]. cbn.
    destruct (Nat.eq_dec i n) as [->|Hne].
    - rewrite sumn_zero; [ring|]. intros k Hk. apply H; lia.
    - rewrite IHn by (auto; lia). rewrite (H n) by lia. ring.
  Qed.

  Lemma sumn_S_l n (f : nat -> A) : sumn (S n) f = add (f 0) (sumn n (fun k => f (S k))).
  Proof.
    induction n.
    - cbn. ring.
    - change (sumn (S (S n)) f) with (add (sumn (S n) f) (f (S n))).
      rewrite IHn. cbn. ring.
  Qed.

  Lemma wf_mmul n m p (M N : mat A) : wf n m M -> wf m p N -> 0 < m -> wf n p (mmul M N).
  Proof.
    intros HM HN Hm. unfold mmul. destruct m; [lia|].
    rewrite (nrows_wf _ _ _ HM), (ncols_wf _ _ _ HN). apply wf_mk.
  Qed.

  Lemma get_mmul n m p (M N : mat A) i j : wf n m M -> wf m p N -> i < n -> j < p -> 0 < m ->
    get (mmul M N) i j = sumn m (fun k => mul (get M i k) (get N k j)).
  Proof.
    intros HM HN Hi Hj Hm. unfold mmul. destruct m; [lia|].
    rewrite (nrows_wf _ _ _ HM), (ncols_wf _ _ _ HN), (nrows_wf _ _ _ HN).
    now rewrite get_mk.
  Qed.

  Lemma wf_eye n : wf n n (@eye A O n).
  Proof. apply wf_mk. Qed.

  Lemma get_eye n i j : i < n -> j < n -> get (eye n) i j = if i =? j then one else zero.
  Proof. intros. unfold eye. now rewrite get_mk. Qed.

  Lemma mmul_assoc n m p q (M N P : mat A) :
    wf n m M -> wf m p N -> wf p q P -> 0 < m -> 0 < p ->
    mmul (mmul M N) P = mmul M (mmul N P).
  Proof.
    intros HM HN HP Hm Hp.
    assert (HMN : wf n p (mmul M N)) by eauto using wf_mmul.
    assert (HNP : wf m q (mmul N P)) by eauto using wf_mmul.
    apply (mat_ext n q); eauto using wf_mmul.
    intros i j Hi Hj.
    rewrite (get_mmul n p q) by assumption. rewrite (get_mmul n m q) by assumption.
    rewrite (sumn_ext p _ (fun k => sumn m (fun l => mul (mul (get M i l) (get N l k)) (get P k j)))).
    2:{ intros k Hk. rewrite (get_mmul n m p) by assumption. now rewrite sumn_scale_r. }
    rewrite sumn_swap. apply sumn_ext. intros l Hl.
    rewrite (get_mmul m p q) by assumption. rewrite <- sumn_scale.
    apply sumn_ext. intros k Hk. ring.
  Qed.

  Lemma mmul_eye_r n m (M : mat A) : wf n m M -> 0 < m -> mmul M (eye m) = M.
  Proof.
    intros HM Hm. apply (mat_ext n m); eauto using wf_mmul, wf_eye.
    intros i j Hi Hj. rewrite (get_mmul n m m) by eauto using wf_eye.
    rewrite (sumn_single m j).
    - rewrite get_eye by assumption. rewrite Nat.eqb_refl. ring.
    - assumption.
    - intros k Hk Hne. rewrite get_eye by assumption.
      destruct (Nat.eqb_spec k j); [congruence|]. ring.
  Qed.

  Lemma mmul_eye_l n m (M : mat A) : wf n m M -> 0 < n -> mmul (eye n) M = M.
  Proof.
    intros HM Hn. apply (mat_ext n m); eauto using wf_mmul, wf_eye.
    intros i j Hi Hj. rewrite (get_mmul n n m) by eauto using wf_eye.
    rewrite (sumn_single n i).
    - rewrite get_eye by assumption. rewrite Nat.eqb_refl. ring.
    - assumption.
    - intros k Hk Hne. rewrite get_eye by assumption.
      destruct (Nat.eqb_spec i k); [congruence|]. ring.
  Qed.

  Lemma wf_tr n m (M : mat A) : wf (S n) m M -> wf m (S n) (tr M).
  Proof.
    intros HM. unfold tr. rewrite (ncols_wf _ _ _ HM), (nrows_wf _ _ _ HM). apply wf_mk.
  Qed.

  Lemma get_tr n m (M : mat A) i j : wf (S n) m M -> i < m -> j < S n -> get (tr M) i j = get M j i.
  Proof.
    intros HM Hi Hj. unfold tr. rewrite (ncols_wf _ _ _ HM), (nrows_wf _ _ _ HM).
    now rewrite get_mk.
  Qed.

End RingFacts.

#[global] Instance Z_ops : Ops Z :=
  {| zero := 0%Z; one := 1%Z; add := Z.add; mul := Z.mul; sub := Z.sub; opp := Z.opp |}.
#[global] Instance Z_laws : RingLaws Z.
Proof. exact InitialRing.Zth. Qed.
