(** Proofs about the asynchronous loop (C53) and the sublattice sizes (C54). *)
From Verif Require Import HnfSearchSpec.
From Coq Require Import Permutation.
Local Open Scope Z_scope.

Lemma submitted_app a b : submitted (a ++ b) = submitted a ++ submitted b.
Proof. apply flat_map_app. Qed.
Lemma merged_app a b : merged (a ++ b) = merged a ++ merged b.
Proof. apply flat_map_app. Qed.
Lemma seq_snoc k : seq 0 (S k) = seq 0 k ++ [k].
Proof. rewrite seq_S. reflexivity. Qed.

Section Async.
  Variables N poolsize : nat.
  Hypothesis Hpool : (1 <= poolsize)%nat.

  (** every prefix of the log respects causality and the pool size *)
  Definition fine (log : list event) : Prop :=
    forall k, let p := firstn k log in
      incl (merged p) (submitted p) /\ (length (submitted p) <= length (merged p) + poolsize)%nat.

  Lemma fine_snoc log e : fine log -> incl (merged (log ++ [e])) (submitted (log ++ [e])) ->
    (length (submitted (log ++ [e])) <= length (merged (log ++ [e])) + poolsize)%nat -> fine (log ++ [e]).
  Proof.
    intros Hf H1 H2 k. destruct (Nat.le_gt_cases k (length log)) as [L|L].
    - rewrite firstn_app. replace (k - length log)%nat with 0%nat by lia. cbn [firstn]. rewrite app_nil_r. apply Hf.
    - rewrite firstn_all2 by (rewrite app_length; cbn; lia). split; assumption.
  Qed.

  (** state of the loop *)
  Definition inv (queue : list nat) (next : nat) (log : list event) : Prop :=
    (next <= N)%nat /\ submitted log = seq 0 next /\ Permutation (merged log ++ queue) (seq 0 next) /\
    (length queue <= poolsize)%nat /\ fine log.

  Lemma inv_counts queue next log : inv queue next log -> (length (merged log) + length queue = next)%nat /\ length (submitted log) = next /\
    incl (merged log) (seq 0 next).
  Proof.
    intros (_ & S & P & _). pose proof (Permutation_length P) as L. rewrite app_length, seq_length in L.
    split; [lia|]. split; [now rewrite S, seq_length|]. intros x Hx. apply (Permutation_in _ P). apply in_or_app. now left.
  Qed.

  Lemma submit_inv queue next log : inv queue next log -> (next < N)%nat -> (length queue < poolsize)%nat ->
    inv (queue ++ [next]) (S next) (log ++ [Submit next]).
  Proof.
    intros H Hn Hq. destruct (inv_counts _ _ _ H) as (C1 & C2 & C3). destruct H as (H1 & H2 & H3 & H4 & H5).
    assert (M : merged (log ++ [Submit next]) = merged log) by (rewrite merged_app; cbn; apply app_nil_r).
    assert (S' : submitted (log ++ [Submit next]) = seq 0 (S next)) by (rewrite submitted_app, H2, seq_snoc; reflexivity).
    split; [lia|]. split; [exact S'|]. split; [|split].
    - rewrite M, app_assoc, seq_snoc. now apply Permutation_app_tail.
    - rewrite app_length. cbn. lia.
    - apply fine_snoc; rewrite ?M, ?S'; [exact H5| |rewrite seq_length; lia].
      intros x Hx. specialize (C3 x Hx). apply in_seq in C3. apply in_seq. lia.
  Qed.

  Lemma merge_inv i q next log : inv (i :: q) next log -> inv q next (log ++ [Merge i]).
  Proof.
    intros H. destruct (inv_counts _ _ _ H) as (C1 & C2 & C3). destruct H as (H1 & H2 & H3 & H4 & H5).
    assert (M : merged (log ++ [Merge i]) = merged log ++ [i]) by (now rewrite merged_app).
    assert (S' : submitted (log ++ [Merge i]) = seq 0 next) by (rewrite submitted_app, H2; cbn; apply app_nil_r).
    split; [exact H1|]. split; [exact S'|]. split; [|split].
    - rewrite M, <- app_assoc. exact H3.
    - cbn in H4. lia.
    - apply fine_snoc; rewrite ?M, ?S'; [exact H5| |rewrite seq_length, app_length; cbn in *; lia].
      intros x Hx. apply (Permutation_in _ H3). apply in_app_or in Hx. apply in_or_app. destruct Hx as [Hx|[<-|[]]]; [now left|right; now left].
  Qed.

  Lemma rotate_inv i q next log : inv (i :: q) next log -> inv (q ++ [i]) next log.
  Proof.
    intros (H1 & H2 & H3 & H4 & H5). split; [exact H1|]. split; [exact H2|]. split; [|split; [|exact H5]].
    - rewrite <- H3. apply Permutation_app_head. apply Permutation_sym, Permutation_cons_append.
    - rewrite app_length. cbn in *. lia.
  Qed.

  Lemma fill_inv k : forall queue next log, inv queue next log -> (N - next <= k)%nat ->
    exists queue' next' log', fill N poolsize k queue next log = (queue', next', log') /\ inv queue' next' log' /\
      ((next' < N)%nat -> length queue' = poolsize).
  Proof.
    induction k as [|k IH]; intros queue next log H Hk; cbn [fill].
    - exists queue, next, log. split; [reflexivity|]. split; [exact H|lia].
    - destruct (Nat.ltb_spec next N) as [L|L]; cbn [andb].
      2:{ exists queue, next, log. split; [reflexivity|]. split; [exact H|lia]. }
      destruct (Nat.ltb_spec (length queue) poolsize) as [L'|L'].
      + apply IH; [now apply submit_inv|lia].
      + exists queue, next, log. split; [reflexivity|]. split; [exact H|]. destruct H as (_ & _ & _ & H & _). lia.
  Qed.

  Context {A : Type}.
  Variable ready : nat -> nat -> bool.
  Variable merge : A -> nat -> A.

  Lemma poll_ok T : (forall i t, (i < N)%nat -> (T <= t)%nat -> ready t i = true) ->
    forall m t queue next log, inv queue next log -> ((next < N)%nat -> length queue = poolsize) ->
      ((T - t) + (N - next) + length queue <= m)%nat ->
    exists log', submitted (log ++ log') = seq 0 N /\ Permutation (merged (log ++ log')) (seq 0 N) /\ fine (log ++ log') /\
      forall fuel acc, (m <= fuel)%nat -> poll N ready merge fuel t queue next acc log = Ok (fold_left merge (merged log') acc, log ++ log').
  Proof.
    intros HT. induction m as [|m IH]; intros t queue next log H Hfull Hm; destruct queue as [|i q].
    1,3: exists []; rewrite app_nil_r; destruct (inv_counts _ _ _ H) as (C1 & C2 & C3); pose proof H as (H1 & H2 & H3 & H4 & H5);
      assert (next = N) as -> by (cbn in *; destruct (Nat.lt_ge_cases next N) as [L|L]; [specialize (Hfull L); lia|lia]);
      rewrite app_nil_r in H3; split; [exact H2|]; split; [exact H3|]; split; [exact H5|]; intros [|fuel] acc _; reflexivity.
    - cbn in Hm. lia.
    - assert (Hi : (i < N)%nat).
      { destruct H as (H1 & _ & H3 & _). assert (In i (seq 0 next)) as Hi by (apply (Permutation_in _ H3); apply in_or_app; right; now left).
        apply in_seq in Hi. lia. }
      destruct (ready t i) eqn:Er.
      + pose proof (merge_inv i q next log H) as H'. destruct (Nat.ltb_spec next N) as [L|L].
        * assert (Lq : length (i :: q) = poolsize) by auto. cbn in Lq.
          destruct (IH (S t) (q ++ [next]) (S next) ((log ++ [Merge i]) ++ [Submit next])) as (log' & L1 & L2 & L3 & L4).
          -- apply submit_inv; auto. lia.
          -- intros _. rewrite app_length. cbn. lia.
          -- rewrite app_length. cbn in *. lia.
          -- exists ([Merge i; Submit next] ++ log').
             assert (E : log ++ [Merge i; Submit next] ++ log' = ((log ++ [Merge i]) ++ [Submit next]) ++ log') by (rewrite <- !app_assoc; reflexivity).
             rewrite E. split; [exact L1|]. split; [exact L2|]. split; [exact L3|]. intros [|fuel] acc Hf; [lia|]. cbn [poll]. rewrite Er.
             rewrite (proj2 (Nat.ltb_lt next N) L). rewrite L4 by lia. rewrite merged_app. reflexivity.
        * destruct (IH (S t) q next (log ++ [Merge i])) as (log' & L1 & L2 & L3 & L4); [exact H'|lia|cbn in *; lia|].
          exists ([Merge i] ++ log').
          assert (E : log ++ [Merge i] ++ log' = (log ++ [Merge i]) ++ log') by (rewrite <- !app_assoc; reflexivity).
          rewrite E. split; [exact L1|]. split; [exact L2|]. split; [exact L3|]. intros [|fuel] acc Hf; [lia|]. cbn [poll]. rewrite Er.
          rewrite (proj2 (Nat.ltb_ge next N) L). rewrite L4 by lia. rewrite merged_app. reflexivity.
      + assert (Ht : (t < T)%nat). { destruct (Nat.lt_ge_cases t T) as [L|L]; [exact L|]. rewrite HT in Er by auto. discriminate. }
        destruct (IH (S t) (q ++ [i]) next log) as (log' & L1 & L2 & L3 & L4); [now apply rotate_inv| | |].
        * intros L. rewrite app_length. cbn. specialize (Hfull L). cbn in Hfull. lia.
        * rewrite app_length. cbn in *. lia.
        * exists log'. split; [exact L1|]. split; [exact L2|]. split; [exact L3|]. intros [|fuel] acc Hf; [lia|]. cbn [poll]. rewrite Er. apply L4. lia.
  Qed.

  Lemma ready_bound : eventually_ready N ready -> exists T, forall i t, (i < N)%nat -> (T <= t)%nat -> ready t i = true.
  Proof.
    unfold eventually_ready. revert poolsize Hpool. intros _ _. induction N as [|k IH]; intros H.
    - exists 0%nat. intros i t Hi. lia.
    - destruct IH as [T HT]; [intros i Hi; apply H; lia|]. destruct (H k ltac:(lia)) as [t0 H0].
      exists (Nat.max T t0). intros i t Hi Ht. destruct (Nat.eq_dec i k) as [->|Hne]; [apply H0; lia|apply HT; lia].
  Qed.

  Theorem async_ok : eventually_ready N ready ->
    exists log fuel0, submitted log = seq 0 N /\ Permutation (merged log) (seq 0 N) /\ fine log /\
      forall fuel acc, (fuel0 <= fuel)%nat -> async_loop N poolsize ready merge fuel acc = Ok (fold_left merge (merged log) acc, log).
  Proof.
    intros He. destruct (ready_bound He) as [T HT].
    assert (I0 : inv [] 0 []).
    { split; [lia|]. split; [reflexivity|]. split; [reflexivity|]. split; [cbn; lia|]. intros k. destruct k; cbn; (split; [intros ? []|lia]). }
    destruct (fill_inv N [] 0 [] I0 ltac:(lia)) as (q & nx & lg & Ef & Hi & Hf).
    destruct (poll_ok T HT _ 0 q nx lg Hi Hf (Nat.le_refl _)) as (log' & L1 & L2 & L3 & L4).
    assert (Ml : merged lg = []).
    { assert (G : forall k q0 n0 l0, merged l0 = [] -> merged (snd (fill N poolsize k q0 n0 l0)) = []).
      { clear. induction k as [|k IH]; intros q0 n0 l0 H; cbn [fill]; [exact H|]. destruct (_ && _); [|exact H].
        apply IH. rewrite merged_app, H. reflexivity. }
      specialize (G N [] 0%nat [] eq_refl). now rewrite Ef in G. }
    exists (lg ++ log'), ((T - 0) + (N - nx) + length q)%nat. split; [exact L1|]. split; [exact L2|]. split; [exact L3|].
    intros fuel acc Hfu. unfold async_loop. rewrite Ef. rewrite L4 by exact Hfu. rewrite merged_app, Ml. reflexivity.
  Qed.
End Async.

(** *** C54 *)
Lemma Rceil_spec x : (IZR (Rceil x) - 1 < x <= IZR (Rceil x))%R.
Proof. unfold Rceil. pose proof (Rfloor_spec (- x)). rewrite opp_IZR. lra. Qed.

Definition within (r vol_th : R) (k : Z) : Prop := ((1 - vol_th) * r <= IZR k <= (1 + vol_th) * r)%R.

Lemma within_bounds r v k : within r v k <-> (Rceil ((1 - v) * r) <= k < Rfloor ((1 + v) * r) + 1).
Proof.
  unfold within. pose proof (Rceil_spec ((1 - v) * r)) as [C1 C2]. pose proof (Rfloor_spec ((1 + v) * r)) as [F1 F2]. split.
  - intros [H1 H2]. split.
    + assert (Rceil ((1 - v) * r) - 1 < k); [|lia]. apply lt_IZR. rewrite minus_IZR. lra.
    + apply lt_IZR. rewrite plus_IZR. lra.
  - intros [H1 H2]. apply IZR_le in H1. assert (k <= Rfloor ((1 + v) * r)) as H3 by lia. apply IZR_le in H3. lra.
Qed.

Lemma range_In lo hi k : In k (map (fun i => lo + Z.of_nat i) (seq 0 (Z.to_nat (hi - lo)))) <-> lo <= k < hi.
Proof.
  rewrite in_map_iff. split.
  - intros (i & <- & Hi). apply in_seq in Hi. lia.
  - intros H. exists (Z.to_nat (k - lo)). split; [lia|]. apply in_seq. lia.
Qed.

Lemma vol_factors_spec r v :
  (exists k, within r v k) /\ (forall k, In k (vol_factors r v) <-> within r v k) \/
  ~ (exists k, within r v k) /\ vol_factors r v = [rint r].
Proof.
  unfold vol_factors. set (lo := Rceil ((1 - v) * r)). set (hi := Rfloor ((1 + v) * r) + 1).
  pose proof (range_In lo hi) as RI. destruct (map _ _) as [|k0 l] eqn:E.
  - right. split; [|reflexivity]. intros [k Hk]. apply within_bounds in Hk. apply RI in Hk. destruct Hk.
  - left. split.
    + exists k0. apply within_bounds. apply RI. now left.
    + intros k. rewrite RI. symmetry. apply within_bounds.
Qed.

Lemma vol_factors_nodup r v : NoDup (vol_factors r v).
Proof.
  unfold vol_factors. set (l := map _ _). assert (NoDup l).
  { unfold l. apply FinFun.Injective_map_NoDup; [intros a b H; lia|apply seq_NoDup]. }
  destruct l; [repeat constructor; intros []|assumption].
Qed.

Lemma rint_pos r : (1/2 < r)%R -> 0 < rint r.
Proof.
  intros H. pose proof (rint_close r) as C. unfold Rabs in C. destruct (Rcase_abs _) in C; (
  apply lt_IZR; lra).
Qed.
