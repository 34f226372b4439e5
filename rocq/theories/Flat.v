(** Reshaping between n x m matrices and flat arrays (numpy C order):
    a.reshape(n, m) and M.flatten() / M.reshape(n*m). *)
From Verif Require Export Mat.

Section Flat.
  Context {A : Type} {O : Ops A}.
  Definition reshape (n : nat) (l : list A) : mat A := mk n n (fun i j => nth (i * n + j) l zero).
  Definition flatten (M : mat A) : list A := concat M.

  Lemma length_flatten n m (M : mat A) : wf n m M -> length (flatten M) = n * m.
  Proof.
    revert n. induction M as [|r M IH]; intros n [Hl Hr]; cbn in Hl; subst n; [reflexivity|].
    cbn. rewrite app_length, (Hr r) by now left. f_equal. apply IH. split; [reflexivity|].
    intros r' H'. apply Hr. now right.
  Qed.

  Lemma nth_flatten n m (M : mat A) i j d : wf n m M -> i < n -> j < m ->
    nth (i * m + j) (flatten M) d = nth j (nth i M []) d.
  Proof.
    revert n i. induction M as [|r M IH]; intros n i [Hl Hr] Hi Hj; cbn in Hl; subst n; [lia|].
    cbn [flatten concat]. assert (L := Hr r (or_introl eq_refl)).
    destruct i as [|i].
    - cbn. rewrite app_nth1 by lia. reflexivity.
    - replace (S i * m + j) with (m + (i * m + j)) by lia.
      rewrite app_nth2 by lia. replace (m + (i * m + j) - length r) with (i * m + j) by lia.
      cbn. apply (IH (length M)); [|lia|exact Hj]. split; [reflexivity|].
      intros r' H'. apply Hr. now right.
  Qed.

  Lemma flatten_mk_nth n m (f : nat -> nat -> A) i j d : i < n -> j < m ->
    nth (i * m + j) (flatten (mk n m f)) d = f i j.
  Proof.
    intros Hi Hj. rewrite (nth_flatten n m) by auto using wf_mk.
    unfold mk. rewrite (nth_map_seq (fun i0 => map (f i0) (seq 0 m))) by exact Hi.
    now rewrite nth_map_seq.
  Qed.

  Lemma wf_reshape n l : wf n n (reshape n l).
  Proof. apply wf_mk. Qed.

  Lemma get_reshape n l i j : i < n -> j < n -> get (reshape n l) i j = nth (i * n + j) l zero.
  Proof. intros. unfold reshape. now rewrite get_mk. Qed.

  Lemma reshape_flatten n (M : mat A) : wf n n M -> reshape n (flatten M) = M.
  Proof.
    intros H. apply (mat_ext n n); auto using wf_reshape.
    intros i j Hi Hj. rewrite get_reshape, (nth_flatten n n) by assumption. reflexivity.
  Qed.

  Lemma flatten_reshape n (l : list A) : length l = n * n -> flatten (reshape n l) = l.
  Proof.
    intros H. apply (list_ext zero).
    - rewrite (length_flatten n n); [lia|apply wf_reshape].
    - rewrite (length_flatten n n) by apply wf_reshape. intros p Hp.
      destruct n as [|n]; [lia|].
      rewrite (Nat.div_mod p (S n)) by lia. rewrite (Nat.mul_comm (S n)).
      assert (p mod S n < S n) by (apply Nat.mod_upper_bound; lia).
      assert (p / S n < S n) by (apply Nat.div_lt_upper_bound; lia).
      unfold reshape. rewrite flatten_mk_nth by assumption. reflexivity.
  Qed.
End Flat.
