(** Proofs for C01-C03: divisors, hnf_from_diag, hnf_from_det. *)
From Verif Require Import HnfModel HnfSpec.
From Coq Require Import Sorting.Sorted.
Local Open Scope Z_scope.

(** ** C01 *)
Lemma zrange_cons a b : a < b -> zrange a b = a :: zrange (a + 1) b.
Proof.
  intros H. unfold zrange. replace (Z.to_nat (b - a)) with (S (Z.to_nat (b - (a + 1)))) by lia.
  cbn [seq map]. f_equal; [lia|].
  rewrite <- seq_shift, map_map. apply map_ext. intros k. lia.
Qed.

Lemma zrange_nil a b : b <= a -> zrange a b = [].
Proof. intros H. unfold zrange. now replace (Z.to_nat (b - a)) with O by lia. Qed.

Lemma zrange_sorted_aux k : forall a b, Z.to_nat (b - a) = k -> StronglySorted Z.lt (zrange a b).
Proof.
  induction k as [|k IH]; intros a b Hk.
  - rewrite zrange_nil by lia. constructor.
  - rewrite zrange_cons by lia. constructor.
    + apply IH. lia.
    + apply Forall_forall. intros x Hx. apply in_zrange in Hx. lia.
Qed.

Lemma zrange_sorted a b : StronglySorted Z.lt (zrange a b).
Proof. eapply zrange_sorted_aux. reflexivity. Qed.

Lemma sorted_filter {A} (R : A -> A -> Prop) f l :
  StronglySorted R l -> StronglySorted R (filter f l).
Proof.
  induction 1 as [|x l Hs IH Hf]; cbn; [constructor|].
  destruct (f x); [|assumption]. constructor; [assumption|].
  rewrite Forall_forall in *. intros y Hy. apply filter_In in Hy. now apply Hf.
Qed.

Lemma sorted_map {A B} (R : A -> A -> Prop) (R' : B -> B -> Prop) f l :
  (forall x y, R x y -> R' (f x) (f y)) ->
  StronglySorted R l -> StronglySorted R' (map f l).
Proof.
  intros Hf. induction 1 as [|x l Hs IH Hx]; cbn; constructor; [assumption|].
  rewrite Forall_forall in *. intros y Hy. apply in_map_iff in Hy.
  destruct Hy as [z [<- Hz]]. auto.
Qed.

Lemma sorted_snoc {A} (R : A -> A -> Prop) l x :
  StronglySorted R l -> (forall y, In y l -> R y x) -> StronglySorted R (l ++ [x]).
Proof.
  induction 1 as [|y l Hs IH Hf]; cbn; intros Hx.
  - repeat constructor.
  - constructor; [apply IH; auto|].
    rewrite Forall_forall in *. intros z Hz. apply in_app_iff in Hz.
    destruct Hz as [Hz|[<-|[]]]; auto.
Qed.

Lemma in_divisors n d : 0 < n -> In d (divisors n) <-> 1 <= d /\ (d | n).
Proof.
  intros Hn. unfold divisors. rewrite in_app_iff, in_map_iff. cbn [In]. split.
  - intros [[i [<- Hi]] | [<- | []]].
    + apply filter_In in Hi. destruct Hi as [Hi Hm]. apply in_zrange in Hi.
      apply Z.eqb_eq in Hm. apply Z.mod_divide in Hm; [|lia]. split; [lia|assumption].
    + split; [lia|]. apply Z.divide_refl.
  - intros [Hd Hdiv]. destruct (Z.eq_dec d n) as [->|Hne]; [right; now left|]. left.
    exists (d - 1). split; [lia|]. apply filter_In. split.
    + apply in_zrange. destruct Hdiv as [q Hq].
      assert (0 < q) by nia. assert (q <> 1) by (intros ->; lia).
      assert (d <= n / 2) by (apply Z.div_le_lower_bound; nia). lia.
    + apply Z.eqb_eq. replace (d - 1 + 1) with d by lia. apply Z.mod_divide; [lia|assumption].
Qed.

Lemma divisors_sorted n : 0 < n -> StronglySorted Z.lt (divisors n).
Proof.
  intros Hn. unfold divisors. apply sorted_snoc.
  - apply sorted_map with (R := Z.lt); [intros; lia|].
    apply sorted_filter, zrange_sorted.
  - intros y Hy. apply in_map_iff in Hy. destruct Hy as [i [<- Hi]].
    apply filter_In in Hi. destruct Hi as [Hi _]. apply in_zrange in Hi.
    assert (n / 2 < n) by (apply Z.div_lt; lia). lia.
Qed.

(** ** C02 *)
Lemma wf_set_entry n M i j v : (0 < n)%nat -> wf n n M -> wf n n (set_entry M i j v).
Proof.
  intros Hn HM. unfold set_entry. destruct n; [lia|].
  rewrite (nrows_wf _ _ _ HM), (ncols_wf _ _ _ HM). apply wf_mk.
Qed.

Lemma get_set_entry n M i j v a b : wf n n M -> (a < n)%nat -> (b < n)%nat ->
  get (set_entry M i j v) a b = if (a =? i)%nat && (b =? j)%nat then v else get M a b.
Proof.
  intros HM Ha Hb. unfold set_entry. destruct n; [lia|].
  rewrite (nrows_wf _ _ _ HM), (ncols_wf _ _ _ HM). now rewrite get_mk.
Qed.

Lemma set_entry_same n M i j v : wf n n M -> (i < n)%nat -> (j < n)%nat ->
  get (set_entry M i j v) i j = v.
Proof. intros. rewrite (get_set_entry n) by assumption. now rewrite !Nat.eqb_refl. Qed.

Lemma set_entry_twice n M i j v : wf n n M -> (i < n)%nat -> (j < n)%nat ->
  set_entry (set_entry M i j v) i j (get M i j) = M.
Proof.
  intros HM Hi Hj. assert (Hn : (0 < n)%nat) by lia.
  apply (mat_ext n n); auto using wf_set_entry.
  intros a b Ha Hb. rewrite !(get_set_entry n) by auto using wf_set_entry.
  destruct (Nat.eqb_spec a i); destruct (Nat.eqb_spec b j); subst; reflexivity.
Qed.

(** The matrices all of whose off-diagonal entries are 0 or listed in [ms]. *)
Definition allowed (dg : list Z) (ms : list (nat * nat * Z)) (M : mat Z) : Prop :=
  wf (length dg) (length dg) M /\
  (forall i, (i < length dg)%nat -> get M i i = nth i dg 0) /\
  (forall i j, (i < length dg)%nat -> (j < length dg)%nat -> i <> j ->
     get M i j = 0 \/ In (i, j, get M i j) ms).

Definition modif_ok (n : nat) (m : nat * nat * Z) : Prop :=
  let '(i, j, v) := m in (i < n)%nat /\ (j < n)%nat /\ i <> j /\ v <> 0.

Lemma NoDup_map_inj {A B} (f : A -> B) l :
  (forall x y, In x l -> In y l -> f x = f y -> x = y) -> NoDup l -> NoDup (map f l).
Proof.
  intros Hf. induction 1 as [|x l Hx Hl IH]; cbn; [constructor|]. constructor.
  - intros Hin. apply in_map_iff in Hin. destruct Hin as [y [Hy Hyl]].
    apply Hf in Hy; [|now right|now left]. congruence.
  - apply IH. intros a b Ha Hb. apply Hf; now right.
Qed.

Lemma NoDup_app_intro {A} (l1 l2 : list A) :
  NoDup l1 -> NoDup l2 -> (forall x, In x l1 -> In x l2 -> False) -> NoDup (l1 ++ l2).
Proof.
  induction 1 as [|x l Hx Hl IH]; cbn; intros H2 Hd; [assumption|]. constructor.
  - rewrite in_app_iff. intros [H|H]; [contradiction|]. eapply Hd; [now left|eassumption].
  - apply IH; [assumption|]. intros y Hy1 Hy2. apply (Hd y); [now right|assumption].
Qed.

Lemma set_ij_step dg ms m hnfs :
  (forall M, In M hnfs <-> allowed dg ms M) -> NoDup hnfs ->
  modif_ok (length dg) m -> ~ In m ms ->
  (forall M, In M (set_ij hnfs m) <-> allowed dg (ms ++ [m]) M) /\ NoDup (set_ij hnfs m).
Proof.
  destruct m as [[a b] v]. intros Hin Hnd [Ha [Hb [Hab Hv]]] Hnew. set (n := length dg) in *.
  assert (Hn : (0 < n)%nat) by lia.
  assert (Hnotv : forall M, In M hnfs -> get M a b <> v).
  { intros M HM Heq. apply Hin in HM. destruct HM as [_ [_ Hoff]].
    destruct (Hoff a b Ha Hb Hab) as [H0|H1]; [congruence|]. rewrite Heq in H1. contradiction. }
  split.
  - intros M. unfold set_ij. rewrite in_app_iff, in_map_iff. split.
    + intros [HM | [M0 [<- HM0]]].
      * apply Hin in HM. destruct HM as [Hw [Hd Hoff]]. split; [exact Hw|]. split; [exact Hd|].
        intros i j Hi Hj Hij. rewrite in_app_iff. destruct (Hoff i j Hi Hj Hij); auto.
      * apply filter_In in HM0. destruct HM0 as [HM0 Hz]. apply Hin in HM0.
        destruct HM0 as [Hw [Hd Hoff]]. fold n in Hw, Hd, Hoff. split; [|split].
        -- now apply wf_set_entry.
        -- intros i Hi. rewrite (get_set_entry n) by assumption.
           destruct (Nat.eqb_spec i a); destruct (Nat.eqb_spec i b); subst; try lia; now apply Hd.
        -- intros i j Hi Hj Hij. rewrite (get_set_entry n) by assumption.
           destruct (Nat.eqb_spec i a); destruct (Nat.eqb_spec j b); cbn [andb]; subst.
           ++ right. rewrite in_app_iff. right. now left.
           ++ rewrite in_app_iff. destruct (Hoff a j Hi Hj Hij); auto.
           ++ rewrite in_app_iff. destruct (Hoff i b Hi Hj Hij); auto.
           ++ rewrite in_app_iff. destruct (Hoff i j Hi Hj Hij); auto.
    + intros [Hw [Hd Hoff]]. fold n in Hw, Hd, Hoff.
      destruct (Z.eq_dec (get M a b) v) as [Heq|Hne].
      * right. exists (set_entry M a b 0). split.
        -- rewrite <- Heq. now apply set_entry_twice with (n := n).
        -- apply filter_In. split; [|rewrite (set_entry_same n) by assumption; reflexivity].
           apply Hin. split; [|split].
           ++ now apply wf_set_entry.
           ++ intros i Hi. rewrite (get_set_entry n) by assumption.
              destruct (Nat.eqb_spec i a); destruct (Nat.eqb_spec i b); subst; try lia; now apply Hd.
           ++ intros i j Hi Hj Hij. fold n in Hi, Hj. rewrite (get_set_entry n) by assumption.
              destruct (Nat.eqb_spec i a); destruct (Nat.eqb_spec j b); cbn [andb]; subst i || idtac; try subst j.
              ** now left.
              ** destruct (Hoff a j Hi Hj Hij) as [H|H]; [now left|]. apply in_app_iff in H.
                 destruct H as [H|[H|[]]]; [now right|]. congruence.
              ** destruct (Hoff i b Hi Hj Hij) as [H|H]; [now left|]. apply in_app_iff in H.
                 destruct H as [H|[H|[]]]; [now right|]. congruence.
              ** destruct (Hoff i j Hi Hj Hij) as [H|H]; [now left|]. apply in_app_iff in H.
                 destruct H as [H|[H|[]]]; [now right|]. congruence.
      * left. apply Hin. split; [exact Hw|]. split; [exact Hd|].
        intros i j Hi Hj Hij. destruct (Hoff i j Hi Hj Hij) as [H|H]; [now left|].
        apply in_app_iff in H. destruct H as [H|[H|[]]]; [now right|].
        injection H as -> -> Hvv. congruence.
  - unfold set_ij. apply NoDup_app_intro; [assumption| |].
    + apply NoDup_map_inj; [|now apply NoDup_filter].
      intros M1 M2 H1 H2 Heq. apply filter_In in H1, H2. destruct H1 as [H1 Z1], H2 as [H2 Z2].
      apply Z.eqb_eq in Z1, Z2. apply Hin in H1, H2. destruct H1 as [W1 _], H2 as [W2 _].
      fold n in W1, W2.
      rewrite <- (set_entry_twice n M1 a b v), <- (set_entry_twice n M2 a b v) by assumption.
      rewrite Heq, Z1, Z2. reflexivity.
    + intros M H1 H2. apply in_map_iff in H2. destruct H2 as [M0 [<- H0]].
      apply filter_In in H0. destruct H0 as [H0 _]. apply Hin in H0. destruct H0 as [W0 _].
      apply (Hnotv _ H1). now apply set_entry_same with (n := n).
Qed.

Lemma fold_set_ij dg : forall ms done hnfs,
  (forall M, In M hnfs <-> allowed dg done M) -> NoDup hnfs ->
  (forall m, In m ms -> modif_ok (length dg) m) -> NoDup (done ++ ms) ->
  (forall M, In M (fold_left set_ij ms hnfs) <-> allowed dg (done ++ ms) M) /\
  NoDup (fold_left set_ij ms hnfs).
Proof.
  induction ms as [|m ms IH]; intros done hnfs Hin Hnd Hok Hdup; cbn [fold_left].
  - rewrite app_nil_r. auto.
  - assert (Hm : ~ In m done).
    { intros H. apply NoDup_remove_2 in Hdup. apply Hdup. apply in_app_iff. now left. }
    destruct (set_ij_step dg done m hnfs Hin Hnd (Hok m (or_introl eq_refl)) Hm) as [H1 H2].
    replace (done ++ m :: ms) with ((done ++ [m]) ++ ms) in * by now rewrite <- app_assoc.
    apply IH; auto. intros m' Hm'. apply Hok. now right.
Qed.

Lemma in_modifs dg i j v :
  In (i, j, v) (modifs dg) <-> (j < i < length dg)%nat /\ - nth i dg 0 < v < 0.
Proof.
  unfold modifs. rewrite in_flat_map. split.
  - intros [i' [Hi' H]]. apply in_flat_map in H. destruct H as [j' [Hj' H]].
    apply in_map_iff in H. destruct H as [d [Heq Hd]]. injection Heq as -> -> <-.
    apply in_seq in Hi', Hj'. apply in_zrange in Hd. lia.
  - intros [Hij Hv]. exists i. split; [apply in_seq; lia|]. apply in_flat_map.
    exists j. split; [apply in_seq; lia|]. apply in_map_iff. exists (- v).
    split; [f_equal; lia|]. apply in_zrange. lia.
Qed.

Lemma NoDup_flat_map {A B} (f : A -> list B) l :
  (forall x, In x l -> NoDup (f x)) ->
  (forall x y z, In x l -> In y l -> In z (f x) -> In z (f y) -> x = y) ->
  NoDup l -> NoDup (flat_map f l).
Proof.
  intros H1 H2 Hl. induction Hl as [|x l Hx Hl IH]; cbn; [constructor|].
  apply NoDup_app_intro.
  - apply H1. now left.
  - apply IH; [intros; apply H1; now right|]. intros a b c Ha Hb. apply H2; now right.
  - intros z Hz1 Hz2. apply in_flat_map in Hz2. destruct Hz2 as [y [Hy Hz2]].
    assert (x = y) by (eapply H2; [now left|now right|eassumption|eassumption]). congruence.
Qed.

Lemma NoDup_zrange a b : NoDup (zrange a b).
Proof.
  unfold zrange. apply NoDup_map_inj; [|apply seq_NoDup]. intros; lia.
Qed.

Lemma NoDup_modifs dg : NoDup (modifs dg).
Proof.
  unfold modifs. apply NoDup_flat_map; [| |apply seq_NoDup].
  - intros i _. apply NoDup_flat_map; [| |apply seq_NoDup].
    + intros j _. apply NoDup_map_inj; [|apply NoDup_zrange].
      intros x y _ _ H. injection H. lia.
    + intros x y z _ _ Hx Hy. apply in_map_iff in Hx, Hy.
      destruct Hx as [? [<- _]], Hy as [? [Hy _]]. now injection Hy.
  - intros x y z _ _ Hx Hy. apply in_flat_map in Hx, Hy.
    destruct Hx as [? [_ Hx]], Hy as [? [_ Hy]]. apply in_map_iff in Hx, Hy.
    destruct Hx as [? [<- _]], Hy as [? [Hy _]]. now injection Hy.
Qed.

Lemma hnf_from_diag_allowed dg :
  (forall M, In M (hnf_from_diag dg) <-> allowed dg (modifs dg) M) /\ NoDup (hnf_from_diag dg).
Proof.
  unfold hnf_from_diag. apply (fold_set_ij dg (modifs dg) []).
  - intros M. set (n := length dg). split.
    + intros [<-|[]]. split; [|split].
      * apply wf_mk.
      * intros i Hi. unfold diag. rewrite get_mk by assumption. now rewrite Nat.eqb_refl.
      * intros i j Hi Hj Hij. left. unfold diag. rewrite get_mk by assumption.
        destruct (Nat.eqb_spec i j); [contradiction|reflexivity].
    + intros [Hw [Hd Hoff]]. left. apply (mat_ext n n); [apply wf_mk|exact Hw|].
      intros i j Hi Hj. unfold diag. rewrite get_mk by assumption.
      destruct (Nat.eqb_spec i j) as [->|Hne]; [symmetry; now apply Hd|].
      destruct (Hoff i j Hi Hj Hne) as [H|[]]. symmetry. exact H.
  - constructor; [intros []|constructor].
  - intros [[i j] v] H. apply in_modifs in H. cbn. lia.
  - apply NoDup_modifs.
Qed.

(** Exact contents for an arbitrary integer diagonal. *)
Lemma hnf_from_diag_spec dg M :
  In M (hnf_from_diag dg) <->
  wf (length dg) (length dg) M /\
  (forall i, (i < length dg)%nat -> get M i i = nth i dg 0) /\
  (forall i j, (i < j < length dg)%nat -> get M i j = 0) /\
  (forall i j, (j < i < length dg)%nat -> get M i j = 0 \/ - nth i dg 0 < get M i j < 0).
Proof.
  rewrite (proj1 (hnf_from_diag_allowed dg)). split.
  - intros [Hw [Hd Hoff]]. split; [exact Hw|]. split; [exact Hd|]. split.
    + intros i j Hij. destruct (Hoff i j) as [H|H]; try lia. apply in_modifs in H. lia.
    + intros i j Hij. destruct (Hoff i j) as [H|H]; try lia. apply in_modifs in H. lia.
  - intros [Hw [Hd [Hu Hl]]]. split; [exact Hw|]. split; [exact Hd|].
    intros i j Hi Hj Hij. destruct (Nat.lt_ge_cases i j) as [Hlt|Hge].
    + left. apply Hu. lia.
    + destruct (Hl i j) as [H|H]; [lia|now left|]. right. apply in_modifs. lia.
Qed.

Lemma hnf_from_diag_hnf dg M : (forall d, In d dg -> 0 < d) ->
  In M (hnf_from_diag dg) <->
  is_hnf (length dg) M /\ (forall i, (i < length dg)%nat -> get M i i = nth i dg 0).
Proof.
  intros Hpos. rewrite hnf_from_diag_spec. unfold is_hnf. split.
  - intros [Hw [Hd [Hu Hl]]]. split; [|exact Hd]. split; [exact Hw|]. split; [exact Hu|]. split.
    + intros i Hi. rewrite Hd by assumption. apply Hpos. now apply nth_In.
    + intros i j Hij. rewrite Hd by lia.
      assert (0 < nth i dg 0) by (apply Hpos, nth_In; lia).
      destruct (Hl i j Hij); lia.
  - intros [[Hw [Hu [Hp Hl]]] Hd]. split; [exact Hw|]. split; [exact Hd|]. split; [exact Hu|].
    intros i j Hij. specialize (Hl i j Hij). rewrite (Hd i) in Hl by lia.
    destruct (Z.eq_dec (get M i j) 0); [now left|]. right. lia.
Qed.

(** ** C03 *)
Lemma in_product {A} (l : list A) N d :
  In d (product l N) <-> length d = N /\ forall x, In x d -> In x l.
Proof.
  revert d. induction N as [|N IH]; intros d; cbn [product].
  - split.
    + intros [<-|[]]. split; [reflexivity|intros ? []].
    + intros [H _]. destruct d; [now left|discriminate].
  - rewrite in_flat_map. split.
    + intros [x [Hx H]]. apply in_map_iff in H. destruct H as [d' [<- Hd']].
      apply IH in Hd'. destruct Hd' as [Hl Hd']. split; [cbn; lia|].
      intros y [<-|Hy]; auto.
    + intros [Hl Hd]. destruct d as [|x d]; [discriminate|]. exists x.
      split; [apply Hd; now left|]. apply in_map. apply IH. split; [cbn in Hl; lia|].
      intros y Hy. apply Hd. now right.
Qed.

Lemma NoDup_product {A} (l : list A) N : NoDup l -> NoDup (product l N).
Proof.
  intros Hl. induction N as [|N IH]; cbn [product].
  - constructor; [intros []|constructor].
  - apply NoDup_flat_map; [| |assumption].
    + intros x _. apply NoDup_map_inj; [|assumption]. intros a b _ _ H. now injection H.
    + intros x y z _ _ Hx Hy. apply in_map_iff in Hx, Hy.
      destruct Hx as [? [<- _]], Hy as [? [Hy _]]. now injection Hy.
Qed.

Lemma fold_mul_acc d : forall a, fold_left Z.mul d a = a * fold_left Z.mul d 1.
Proof.
  induction d as [|x d IH]; intros a; cbn; [lia|].
  rewrite IH. symmetry. rewrite IH. destruct x; lia.
Qed.

Lemma prodl_cons x d : prodl (x :: d) = x * prodl d.
Proof. unfold prodl. cbn [fold_left]. rewrite fold_mul_acc. lia. Qed.

Lemma prodl_app d1 d2 : prodl (d1 ++ d2) = prodl d1 * prodl d2.
Proof.
  induction d1 as [|x d1 IH]; cbn [app].
  - change (prodl []) with 1. lia.
  - rewrite !prodl_cons, IH. lia.
Qed.

Lemma prodl_divides d x : In x d -> (x | prodl d).
Proof.
  induction d as [|y d IH]; intros []; rewrite prodl_cons.
  - subst. apply Z.divide_factor_l.
  - apply Z.divide_mul_r. auto.
Qed.

Lemma diag_prod_list n H : diag_prod n H = prodl (map (fun i => get H i i) (seq 0 n)).
Proof.
  induction n as [|n IH]; [reflexivity|]. rewrite seq_S, map_app, prodl_app. cbn [map].
  cbn [diag_prod Nat.add]. rewrite IH, prodl_cons. change (prodl []) with 1. lia.
Qed.

Lemma diag_of_spec dg M :
  (forall i, (i < length dg)%nat -> get M i i = nth i dg 0) ->
  map (fun i => get M i i) (seq 0 (length dg)) = dg.
Proof.
  intros Hd. apply (list_ext 0); [now rewrite map_length, seq_length|].
  intros i Hi. rewrite map_length, seq_length in Hi. rewrite nth_map_seq by assumption. auto.
Qed.

Lemma sorted_lt_NoDup l : StronglySorted Z.lt l -> NoDup l.
Proof.
  induction 1 as [|x l Hs IH Hf]; constructor; [|assumption].
  intros Hin. rewrite Forall_forall in Hf. specialize (Hf x Hin). lia.
Qed.

Definition diags n N := filter (fun d => prodl d =? n) (product (divisors n) N).

Lemma in_diags n N d : 0 < n ->
  In d (diags n N) <-> length d = N /\ (forall x, In x d -> 0 < x) /\ prodl d = n.
Proof.
  intros Hn. unfold diags. rewrite filter_In, in_product, Z.eqb_eq. split.
  - intros [[Hl Hd] Hp]. repeat split; auto. intros x Hx. apply Hd in Hx.
    apply in_divisors in Hx; lia.
  - intros [Hl [Hd Hp]]. repeat split; auto. intros x Hx. apply in_divisors; [assumption|].
    specialize (Hd x Hx). split; [lia|]. rewrite <- Hp. now apply prodl_divides.
Qed.

Lemma prodl_repeat_one k : prodl (repeat 1 k) = 1.
Proof. induction k; [reflexivity|]. cbn [repeat]. rewrite prodl_cons, IHk. lia. Qed.

Lemma hnf_from_det_shape n N : 0 < n -> (0 < N)%nat ->
  hnf_from_det n N = Ok (Some (flat_map hnf_from_diag (diags n N))).
Proof.
  intros Hn HN. unfold hnf_from_det. destruct (Z.ltb_spec n 0); [lia|].
  destruct N as [|N]; [lia|].
  assert (Hex : In (n :: repeat 1 N) (diags n (S N))).
  { apply in_diags; [assumption|]. split; [cbn; now rewrite repeat_length|]. split.
    - intros x [<-|Hx]; [assumption|]. apply repeat_spec in Hx. lia.
    - rewrite prodl_cons, prodl_repeat_one. lia. }
  unfold diags in *. destruct (filter _ _); [contradiction|reflexivity].
Qed.

Lemma hnf_from_det_spec n N : 0 < n -> (0 < N)%nat ->
  exists l, hnf_from_det n N = Ok (Some l) /\ NoDup l /\
    forall H, In H l <-> is_hnf N H /\ diag_prod N H = n.
Proof.
  intros Hn HN. eexists. split; [now apply hnf_from_det_shape|]. split.
  - apply NoDup_flat_map.
    + intros d _. apply hnf_from_diag_allowed.
    + intros d1 d2 M H1 H2 HM1 HM2. apply in_diags in H1, H2; try assumption.
      apply hnf_from_diag_spec in HM1, HM2. destruct HM1 as [W1 [D1 _]], HM2 as [W2 [D2 _]].
      rewrite <- (diag_of_spec d1 M D1), <- (diag_of_spec d2 M D2).
      destruct H1 as [-> _], H2 as [-> _]. reflexivity.
    + unfold diags. apply NoDup_filter, NoDup_product, sorted_lt_NoDup, divisors_sorted, Hn.
  - intros H. rewrite in_flat_map. split.
    + intros [d [Hd HH]]. apply in_diags in Hd; [|assumption]. destruct Hd as [Hl [Hp Hprod]].
      apply hnf_from_diag_hnf in HH; [|assumption]. destruct HH as [HH Hdiag].
      rewrite Hl in HH. split; [assumption|].
      rewrite diag_prod_list, <- Hl, (diag_of_spec d H Hdiag). assumption.
    + intros [HH Hprod]. exists (map (fun i => get H i i) (seq 0 N)).
      assert (Hlen : length (map (fun i => get H i i) (seq 0 N)) = N)
        by now rewrite map_length, seq_length.
      split.
      * apply in_diags; [assumption|]. split; [assumption|]. split.
        -- intros x Hx. apply in_map_iff in Hx. destruct Hx as [i [<- Hi]].
           apply in_seq in Hi. apply HH. lia.
        -- now rewrite <- diag_prod_list.
      * apply hnf_from_diag_hnf.
        -- intros x Hx. apply in_map_iff in Hx. destruct Hx as [i [<- Hi]].
           apply in_seq in Hi. apply HH. lia.
        -- rewrite Hlen. split; [assumption|]. intros i Hi. now rewrite nth_map_seq.
Qed.

Lemma hnf_from_det_neg n N : n < 0 -> hnf_from_det n N = Raise ValueError.
Proof. intros H. unfold hnf_from_det. destruct (Z.ltb_spec n 0); [reflexivity|lia]. Qed.

Lemma divisors_0 : divisors 0 = [0].
Proof. reflexivity. Qed.

Lemma product_single {A} (x : A) N : product [x] N = [repeat x N].
Proof. induction N as [|N IH]; [reflexivity|]. cbn [product flat_map repeat]. rewrite IH. reflexivity. Qed.

Lemma hnf_from_det_zero N : (0 < N)%nat ->
  hnf_from_det 0 N = Ok (Some [mk N N (fun _ _ => 0)]).
Proof.
  intros HN. unfold hnf_from_det. cbn [Z.ltb Z.compare]. destruct N as [|N]; [lia|].
  rewrite divisors_0, product_single. cbn [filter].
  replace (prodl (repeat 0 (S N)) =? 0) with true.
  2:{ symmetry. apply Z.eqb_eq. change (repeat 0 (S N)) with (0 :: repeat 0 N). rewrite prodl_cons. apply Z.mul_0_l. }
  f_equal. f_equal. cbn [flat_map]. rewrite app_nil_r.
  assert (Hm : modifs (repeat 0 (S N)) = []).
  { destruct (modifs (repeat 0 (S N))) as [|[[i j] v] l] eqn:E; [reflexivity|].
    assert (H : In (i, j, v) (modifs (repeat 0 (S N)))) by (rewrite E; now left).
    apply in_modifs in H. rewrite nth_repeat in H. lia. }
  unfold hnf_from_diag. rewrite Hm. cbn [fold_left]. f_equal.
  unfold diag. rewrite repeat_length. apply mk_ext. intros i j Hi Hj.
  rewrite nth_repeat. now destruct (i =? j)%nat.
Qed.
