(** Entrywise ring homomorphisms on matrices. *)
From Verif Require Export Mat.

Definition mmap {A B} (f : A -> B) (M : mat A) : mat B := map (map f) M.

Section Hom.
  Context {A B : Type} {OA : Ops A} {OB : Ops B} {LA : RingLaws A} {LB : RingLaws B}.
  Variable f : A -> B.
  Hypothesis f0 : f zero = zero.

  Lemma get_mmap M i j : get (mmap f M) i j = f (get M i j).
  Proof.
    unfold get, mmap. rewrite <- f0. change (@nil B) with (map f []).
    now rewrite !map_nth.
  Qed.

  Lemma vget_map v i : vget (map f v) i = f (vget v i).
  Proof. unfold vget. rewrite <- f0. apply map_nth. Qed.

  Lemma wf_mmap n m M : wf n m M -> wf n m (mmap f M).
  Proof.
    intros [H1 H2]. unfold mmap. split; [now rewrite map_length|].
    intros r Hr. apply in_map_iff in Hr. destruct Hr as [r' [<- Hr]]. rewrite map_length. auto.
  Qed.

  Lemma nrows_mmap M : nrows (mmap f M) = nrows M.
  Proof. apply map_length. Qed.
  Lemma ncols_mmap M : ncols (mmap f M) = ncols M.
  Proof.
    unfold ncols, mmap. change (@nil B) with (map f []). rewrite map_nth. apply map_length.
  Qed.

  Lemma mmap_mk n m g : mmap f (mk n m g) = mk n m (fun i j => f (g i j)).
  Proof.
    unfold mmap, mk. rewrite map_map. apply map_ext. intros i. now rewrite map_map.
  Qed.

  Hypothesis f1 : f one = one.
  Hypothesis fadd : forall a b, f (add a b) = add (f a) (f b).
  Hypothesis fmul : forall a b, f (mul a b) = mul (f a) (f b).
  Hypothesis fopp : forall a, f (opp a) = opp (f a).

  Lemma f_sumn n g : f (sumn n g) = sumn n (fun k => f (g k)).
  Proof. induction n as [|n IH]; cbn; [assumption|]. now rewrite fadd, IH. Qed.

  Lemma mmap_mmul M N : mmap f (mmul M N) = mmul (mmap f M) (mmap f N).
  Proof.
    unfold mmul. rewrite mmap_mk, !nrows_mmap, !ncols_mmap. apply mk_ext. intros i j _ _.
    rewrite f_sumn. apply sumn_ext. intros k _. now rewrite fmul, !get_mmap.
  Qed.

  Lemma mmap_tr M : mmap f (tr M) = tr (mmap f M).
  Proof.
    unfold tr. rewrite mmap_mk, !nrows_mmap, !ncols_mmap. apply mk_ext. intros i j _ _.
    now rewrite get_mmap.
  Qed.

  Lemma mmap_eye n : mmap f (eye n) = eye n.
  Proof. unfold eye. rewrite mmap_mk. apply mk_ext. intros i j _ _. now destruct (i =? j). Qed.

  Lemma mmap_minor M j : minor (mmap f M) j = mmap f (minor M j).
  Proof.
    unfold minor, mmap. destruct M as [|r M]; [reflexivity|]. cbn [tl map].
    rewrite !map_map. apply map_ext. intros x. now rewrite map_app, firstn_map, skipn_map.
  Qed.

  Lemma f_det_n : forall n M, f (det_n n M) = det_n n (mmap f M).
  Proof.
    induction n as [|n IH]; intros M; [exact f1|]. cbn [det_n]. rewrite f_sumn. apply sumn_ext.
    intros j _. rewrite fmul, IH, mmap_minor, get_mmap. f_equal.
    destruct (Nat.even j); [reflexivity|]. apply fopp.
  Qed.

  Lemma f_det M : f (det M) = det (mmap f M).
  Proof. unfold det. rewrite nrows_mmap. apply f_det_n. Qed.

  Lemma mmap_inj M N : (forall a b, f a = f b -> a = b) -> mmap f M = mmap f N -> M = N.
  Proof.
    intros Hf. revert N. induction M as [|r M IH]; intros [|s N] E; try discriminate; [reflexivity|].
    injection E as E1 E2. f_equal; [|now apply IH].
    clear -Hf E1. revert s E1. induction r as [|x r IH]; intros [|y s] E; try discriminate; [reflexivity|].
    injection E as E1 E2. f_equal; auto.
  Qed.
End Hom.
