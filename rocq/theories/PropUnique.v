(** Property C93: unique_rows and tuple of mat_math.  Model: UniqueModel.v. *)
From Coq Require Import Lia Sorted.
From Verif Require Import ReduceProofs UniqueModel.
Local Open Scope Z_scope.

(** a total order of rows *)
Definition total_order (le : list Z -> list Z -> bool) : Prop :=
  (forall x, le x x = true) /\ (forall x y, le x y = true -> le y x = true -> x = y) /\
  (forall x y z, le x y = true -> le y z = true -> le x z = true) /\ (forall x y, le x y = true \/ le y x = true).

Section Proofs.
  Variable le : list Z -> list Z -> bool.
  Hypothesis H : total_order le.
  Variable a : list (list Z).
  Notation row := (row a).
  Definition before (i j : nat) : Prop := le (row i) (row j) = true /\ (row i = row j -> (i < j)%nat).

  Lemma before_trans i j k : before i j -> before j k -> before i k.
  Proof.
    destruct H as (_ & AS & TR & _). intros [B1 B2] [B3 B4]. split; [eapply TR; eassumption|]. intros E.
    assert (row i = row j) by (apply AS; [exact B1|]; rewrite E; exact B3). rewrite E in H0. specialize (B4 (eq_sym H0)).
    rewrite <- E in H0. specialize (B2 H0). lia.
  Qed.
  Lemma in_insert i l j : In j (insert le a i l) <-> j = i \/ In j l.
  Proof.
    induction l as [|k l IH]; cbn; [split; [intros [->|[]]; now left|intros [->|[]]; now left]|].
    destruct (le (row i) (row k)); cbn; [split; intros [->|X]; auto|]. rewrite IH. tauto.
  Qed.
  Lemma insert_sorted i l : StronglySorted before l -> (forall j, In j l -> (i < j)%nat) -> StronglySorted before (insert le a i l).
  Proof.
    destruct H as (RF & AS & TR & TOT). induction 1 as [|k l Hs IH Hf]; intros Hi; cbn; [constructor; constructor|].
    destruct (le (row i) (row k)) eqn:E.
    - assert (B : before i k) by (split; [exact E|]; intros _; apply Hi; now left).
      constructor; [constructor; assumption|]. constructor; [exact B|]. eapply Forall_impl; [|exact Hf]. intros j. now apply before_trans.
    - constructor; [apply IH; intros; apply Hi; now right|]. apply Forall_forall. intros j Hj. apply in_insert in Hj.
      rewrite Forall_forall in Hf. destruct Hj as [->|Hj]; [|now apply Hf].
      split; [destruct (TOT (row k) (row i)); congruence|]. intros Ek. rewrite Ek, RF in E. discriminate.
  Qed.
  Lemma argsort_sorted : StronglySorted before (argsort le a) /\ forall j, In j (argsort le a) <-> (j < length a)%nat.
  Proof.
    unfold argsort.
    assert (K : forall m s, StronglySorted before (fold_right (insert le a) [] (seq s m)) /\
      forall j, In j (fold_right (insert le a) [] (seq s m)) <-> (s <= j < s + m)%nat).
    { induction m as [|m IH]; intros s; cbn; [split; [constructor|]; intros j; split; [intros []|lia]|].
      destruct (IH (S s)) as [I1 I2]. split.
      - apply insert_sorted; [exact I1|]. intros j Hj. apply I2 in Hj. lia.
      - intros j. rewrite in_insert, I2. lia. }
    destruct (K (length a) 0%nat) as [K1 K2]. split; [exact K1|]. intros j. rewrite K2. lia.
  Qed.

  Lemma firsts_in prev l i : In i (firsts a prev l) -> In i l.
  Proof.
    revert prev. induction l as [|j l IH]; intros prev; cbn; [auto|].
    destruct (match prev with Some r => row_eqb r (row j) | None => false end); [intros X; right; now apply (IH (Some (row j)))|].
    intros [->|X]; [now left|]. right. now apply (IH (Some (row j))).
  Qed.
  (** what is left out has an earlier representative *)
  Lemma firsts_rep l : StronglySorted before l -> forall prev j, In j l ->
    (exists i, In i (firsts a prev l) /\ row i = row j /\ (i <= j)%nat) \/ prev = Some (row j).
  Proof.
    induction 1 as [|k l Hs IH Hf]; intros prev j Hj; [destruct Hj|]. cbn. rewrite Forall_forall in Hf.
    assert (K : In j l -> (exists i, In i (firsts a (Some (row k)) l) /\ row i = row j /\ (i <= j)%nat) \/ row k = row j /\ (k <= j)%nat).
    { intros X. destruct (IH (Some (row k)) j X) as [Y|Y]; [now left|]. right. injection Y as Y. split; [exact Y|].
      destruct (Hf j X) as [_ B]. specialize (B Y). lia. }
    destruct (match prev with Some r => row_eqb r (row k) | None => false end) eqn:E.
    - destruct prev as [r|]; [|discriminate]. apply row_eqb_eq in E. subst r.
      destruct Hj as [->|Hj]; [now right|]. destruct (K Hj) as [Y|[Y _]]; [now left|]. right. congruence.
    - left. destruct Hj as [->|Hj]; [exists j; split; [now left|]; split; [reflexivity|lia]|].
      destruct (K Hj) as [(i & I1 & I2)|[Y1 Y2]]; [exists i; split; [now right|exact I2]|]. exists k. split; [now left|]. auto.
  Qed.
  Definition strict (i j : nat) : Prop := le (row i) (row j) = true /\ row i <> row j.
  Lemma firsts_sorted l : StronglySorted before l -> forall prev,
    (forall r j, prev = Some r -> In j l -> le r (row j) = true) ->
    StronglySorted strict (firsts a prev l) /\ (forall r j, prev = Some r -> In j (firsts a prev l) -> row j <> r).
  Proof.
    destruct H as (RF & AS & TR & TOT).
    induction 1 as [|k l Hs IH Hf]; intros prev Hp; cbn; [split; [constructor|]; intros ? ? _ []|].
    rewrite Forall_forall in Hf.
    destruct (IH (Some (row k))) as [I1 I2]. { intros r j E Hj. injection E as <-. now apply Hf. }
    destruct (match prev with Some r => row_eqb r (row k) | None => false end) eqn:E.
    - split; [exact I1|]. intros r j -> Hj. apply row_eqb_eq in E. subst r. now apply (I2 (row k)).
    - split.
      + constructor; [exact I1|]. apply Forall_forall. intros j Hj. split; [apply Hf; eapply firsts_in; exact Hj|].
        intros X. now apply (I2 (row k) j eq_refl Hj).
      + intros r j -> [<-|Hj]; [intros X; rewrite X, (proj2 (row_eqb_eq r r) eq_refl) in E; discriminate|].
        intros X. apply (I2 (row k) j eq_refl Hj). apply AS.
        * rewrite X. apply Hp; [reflexivity|now left].
        * apply Hf. eapply firsts_in. exact Hj.
  Qed.
  Lemma strict_nodup l : StronglySorted strict l -> forall i j, In i l -> In j l -> row i = row j -> i = j.
  Proof.
    induction 1 as [|k l Hs IH Hf]; intros i j Hi Hj E; [destruct Hi|]. rewrite Forall_forall in Hf.
    destruct Hi as [<-|Hi], Hj as [<-|Hj]; auto.
    - destruct (Hf j Hj) as [_ X]. contradiction.
    - destruct (Hf i Hi) as [_ X]. symmetry in E. contradiction.
  Qed.
End Proofs.

(** For every array, and whatever the order of the bytes: unique_rows returns every row of the array exactly once, in
    ascending order, with the number of the first row equal to it. *)
Theorem C93_unique_rows : forall le a, total_order le ->
  let (u, idx) := unique_rows le a in
  (forall r, In r u <-> In r a) /\
  (forall i j x y, (i < j)%nat -> nth_error u i = Some x -> nth_error u j = Some y -> le x y = true /\ x <> y) /\
  length u = length idx /\
  (forall k i, nth_error idx k = Some i -> nth_error a i = nth_error u k /\ (i < length a)%nat /\
     forall j, (j < i)%nat -> nth_error a j <> nth_error a i).
Proof.
  intros le a H. unfold unique_rows. destruct (argsort_sorted le H a) as [A1 A2].
  destruct (firsts_sorted le H a (argsort le a) A1 None) as [F1 _]; [discriminate|].
  pose proof (firsts_rep le a (argsort le a) A1 None) as F2. pose proof (firsts_in a None (argsort le a)) as F3.
  set (idx := firsts a None (argsort le a)) in *.
  assert (NE : forall i, (i < length a)%nat -> nth_error a i = Some (row a i)) by (intros i Hi; unfold row; now apply nth_error_nth').
  assert (LT : forall i, In i idx -> (i < length a)%nat) by (intros i Hi; apply A2; now apply F3).
  split; [|split; [|split]].
  - intros r. split.
    + intros Hr. apply in_map_iff in Hr. destruct Hr as (i & <- & Hi). eapply nth_error_In. apply NE. now apply LT.
    + intros Hr. destruct (In_nth_error _ _ Hr) as (j & Hj). assert (Lj : (j < length a)%nat) by (apply nth_error_Some; congruence).
      rewrite (NE j Lj) in Hj. injection Hj as <-. destruct (F2 j) as [(i & I1 & I2 & _)|X]; [now apply A2| |discriminate].
      rewrite <- I2. now apply in_map.
  - clear -F1. intros i j x y Hij Hi Hj. revert i j Hij Hi Hj. induction F1 as [|k l Hs IH Hf]; intros i j Hij Hi Hj; [destruct i; discriminate|].
    destruct i as [|i], j as [|j]; try lia; cbn in Hi, Hj.
    + injection Hi as <-. rewrite Forall_forall in Hf. apply nth_error_In in Hj. apply in_map_iff in Hj. destruct Hj as (m & <- & Hm). exact (Hf m Hm).
    + apply (IH i j); auto. lia.
  - apply map_length.
  - intros k i Hk. assert (Hi : In i idx) by (eapply nth_error_In; exact Hk). pose proof (LT i Hi) as Li.
    split; [rewrite NE by exact Li; now rewrite (map_nth_error (row a) _ _ Hk)|]. split; [exact Li|].
    intros j Hj E. rewrite !NE in E by lia. injection E as E.
    destruct (F2 j) as [(i' & I1 & I2 & I3)|X]; [apply A2; lia| |discriminate].
    assert (i' = i) by (apply (strict_nodup le a idx F1); auto; congruence). lia.
Qed.
Print Assumptions C93_unique_rows.
(** a total order of rows: the lexicographic one *)
Fixpoint lex (x y : list Z) : bool :=
  match x, y with [], _ => true | _, [] => false | u :: x, v :: y => (u <? v) || ((u =? v) && lex x y) end.
Lemma lex_total : total_order lex.
Proof.
  assert (LT : forall u v x y, lex (u :: x) (v :: y) = true <-> u < v \/ (u = v /\ lex x y = true)).
  { intros u v x y. cbn. rewrite Bool.orb_true_iff, Bool.andb_true_iff, Z.ltb_lt, Z.eqb_eq. tauto. }
  split; [|split; [|split]].
  - induction x as [|u x IH]; [reflexivity|]. apply LT. auto.
  - induction x as [|u x IH]; destruct y as [|v y]; try (cbn; congruence). rewrite !LT. intros [A|[-> A]] [B|[C B]]; try lia. f_equal. auto.
  - induction x as [|u x IH]; destruct y as [|v y]; destruct z as [|w z]; try (cbn; congruence). rewrite !LT.
    intros [A|[-> A]] [B|[-> B]]; try lia. right. split; [reflexivity|]. eauto.
  - induction x as [|u x IH]; destruct y as [|v y]; try (cbn; auto).
    destruct (Z.lt_trichotomy u v) as [A|[->|A]].
    + left. apply Bool.orb_true_iff. left. now apply Z.ltb_lt.
    + rewrite Z.eqb_refl, Z.ltb_irrefl. cbn. apply IH.
    + right. apply Bool.orb_true_iff. left. now apply Z.ltb_lt.
Qed.
Example C93_unique_case : total_order lex /\ unique_rows lex [[2;1];[1;5];[2;1];[0;9];[1;5]] = ([[0;9];[1;5];[2;1]], [3;1;0]%nat).
Proof. split; [exact lex_total|reflexivity]. Qed.

(** tuple(start, end) is the table of all triples of start..end-1: with N = end - start (0 if negative) it has N^3 rows, and
    row (i N + j) N + k is (start+i, start+j, start+k). *)
Lemma nth_flat_map {A B} (f : A -> list B) (c : nat) l i j x : (forall x, In x l -> length (f x) = c) -> nth_error l i = Some x -> (j < c)%nat ->
  nth_error (flat_map f l) (i * c + j) = nth_error (f x) j.
Proof.
  revert i. induction l as [|y l IH]; intros i Hc Hi Hj; [destruct i; discriminate|]. cbn [flat_map].
  assert (Ly : length (f y) = c) by (apply Hc; now left).
  destruct i as [|i]; cbn in Hi.
  - injection Hi as ->. cbn. apply nth_error_app1. lia.
  - rewrite nth_error_app2 by lia. rewrite Ly. replace (S i * c + j - c)%nat with (i * c + j)%nat by lia. apply IH; auto. intros; apply Hc; now right.
Qed.
Lemma len_flat_map {A B} (f : A -> list B) c l : (forall x, In x l -> length (f x) = c) -> length (flat_map f l) = (length l * c)%nat.
Proof. induction l as [|y l IH]; intros Hc; [reflexivity|]. cbn. rewrite app_length, IH, Hc; auto; [now left|intros; apply Hc; now right]. Qed.
Theorem C93_tuple : forall start stop, let N := Z.to_nat (stop - start) in
  length (tuples start stop) = (N * N * N)%nat /\
  forall i j k, (i < N)%nat -> (j < N)%nat -> (k < N)%nat ->
    nth_error (tuples start stop) ((i * N + j) * N + k) = Some [start + Z.of_nat i; start + Z.of_nat j; start + Z.of_nat k].
Proof.
  intros start stop N. unfold tuples. cbv zeta. set (x := arange start stop).
  assert (Lx : length x = N) by (unfold x, arange; now rewrite map_length, seq_length).
  assert (Nx : forall i, (i < N)%nat -> nth_error x i = Some (start + Z.of_nat i)).
  { intros i Hi. unfold x, arange. fold N. rewrite (map_nth_error _ i (seq 0 N) (d := i)); [reflexivity|].
    rewrite (nth_error_nth' _ 0%nat) by (now rewrite seq_length). now rewrite seq_nth. }
  assert (L1 : forall p q, length (map (fun r => [p; q; r]) x) = N) by (intros; now rewrite map_length).
  assert (L2 : forall p, length (flat_map (fun q => map (fun r => [p; q; r]) x) x) = (N * N)%nat).
  { intros p. rewrite (len_flat_map _ N) by auto. now rewrite Lx. }
  split; [rewrite (len_flat_map _ (N * N)) by auto; rewrite Lx; lia|].
  intros i j k Hi Hj Hk. replace ((i * N + j) * N + k)%nat with (i * (N * N) + (j * N + k))%nat by lia.
  rewrite (nth_flat_map _ (N * N) _ _ _ (start + Z.of_nat i)); auto; [|nia].
  rewrite (nth_flat_map _ N _ _ _ (start + Z.of_nat j)); auto.
  now rewrite (map_nth_error _ _ _ (Nx k Hk)).
Qed.
Print Assumptions C93_tuple.
Example C93_tuple_case : length (tuples (-1) 2) = 27%nat /\ nth_error (tuples (-1) 2) ((0 * 3 + 2) * 3 + 1) = Some [-1; 1; 0].
Proof. split; reflexivity. Qed.
