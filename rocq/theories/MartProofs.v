(** Proofs about Martensite: the arguments of setU, Sylvester's criterion, and the orbit computed by
    calcvariants. *)
From Verif Require Import RMat LinAlg GroupProofs LatticeProofs LatticeMore MartSpec.
Local Open Scope R_scope.

(** * array_equal *)
Lemma forallb_combine_eq (f : R -> R -> bool) (H : forall x y, f x y = true <-> x = y) :
  forall a b, (length a =? length b)%nat && forallb (fun xy => f (fst xy) (snd xy)) (combine a b) = true <-> a = b.
Proof.
  induction a as [|x a IH]; destruct b as [|y b]; cbn; try (split; congruence).
  rewrite andb_true_iff, andb_true_iff, H. specialize (IH b). rewrite andb_true_iff in IH. split.
  - intros (L & -> & F). f_equal. apply IH. auto.
  - intros [= -> ->]. destruct (proj2 IH eq_refl). auto.
Qed.
Lemma Reqb_iff x y : Reqb x y = true <-> x = y.
Proof. unfold Reqb. destruct (Req_EM_T x y); split; congruence. Qed.
Lemma array_equal_iff A B : array_equal A B = true <-> A = B.
Proof.
  unfold array_equal. revert B. induction A as [|x a IH]; destruct B as [|y b]; cbn [length Nat.eqb combine forallb fst snd andb]; try (split; congruence).
  specialize (IH b). rewrite andb_true_iff in IH. rewrite !andb_true_iff.
  pose proof (forallb_combine_eq Reqb Reqb_iff x y) as K. rewrite andb_true_iff in K. split.
  - intros (L & K1 & F). f_equal; [now apply K|]. apply IH. auto.
  - intros [= -> ->]. destruct (proj2 IH eq_refl). destruct (proj2 K eq_refl). auto.
Qed.

Lemma described_documented args :
  described args = match documented args with
                   | Some U => Ok (Some U)
                   | None => match args with
                             | Num _ :: _ :: _ :: _ :: _ :: _ => Ok None
                             | _ => Raise TypeError end end.
Proof.
  destruct args as [|[a|[M|]] args]; cbn; try reflexivity; [|destruct (wfb 3 3 M); reflexivity].
  destruct args as [|[b|?] [|[c|?] [|[d|?] [|? ?]]]]; reflexivity.
Qed.
Lemma documented_wf args U : documented args = Some U -> wf 3 3 U.
Proof.
  destruct args as [|[a|[M|]] args]; cbn; try discriminate.
  - destruct args as [|[b|?] args]; cbn; try discriminate; [intros [= <-]; now apply wfb_spec|].
    destruct args as [|[c|?] args]; cbn; try discriminate; [intros [= <-]; now apply wfb_spec|].
    destruct args as [|[d|?] args]; cbn; try discriminate; [intros [= <-]; now apply wfb_spec|].
    destruct args; [intros [= <-]; now apply wfb_spec|discriminate].
  - destruct (wfb 3 3 M) eqn:E; [|discriminate]. intros [= <-]. now apply wfb_spec.
Qed.

(** * Sylvester's criterion for 3 x 3 symmetric matrices *)
Lemma sym3 U : symmetric U -> exists a b c d e f, U = M3 a b c b d e c e f.
Proof.
  intros [W S]. apply wf3_inv in W. destruct W as (a & b & c & d & e & f & g & h & i & ->).
  unfold M3 in *. cbn in S. injection S. intros. subst. eauto 10.
Qed.
Definition quad3 a b c d e f x y z : R :=
  a * x * x + d * y * y + f * z * z + 2 * b * x * y + 2 * c * x * z + 2 * e * y * z.
Lemma quad3_eq a b c d e f x y z : dot [x; y; z] (mvmul (M3 a b c b d e c e f) [x; y; z]) = quad3 a b c d e f x y z.
Proof. unfold quad3. cbn. ring. Qed.
Definition det3s a b c d e f : R := a * (d * f - e * e) - b * (b * f - e * c) + c * (b * e - d * c).
Lemma det3s_eq a b c d e f : det (M3 a b c b d e c e f) = det3s a b c d e f.
Proof. unfold M3. rewrite det3. unfold det3s. cbn. ring. Qed.
Lemma sylvester a b c d e f : (forall x y z, (x, y, z) <> (0, 0, 0) -> 0 < quad3 a b c d e f x y z) <->
  0 < a /\ 0 < a * d - b * b /\ 0 < det3s a b c d e f.
Proof.
  split.
  - intros H. assert (Ha : 0 < a).
    { specialize (H 1 0 0). unfold quad3 in H. assert ((1, 0, 0) <> (0, 0, 0)) by (intros [=]; lra). specialize (H H0). lra. }
    assert (Hm : 0 < a * d - b * b).
    { specialize (H (- b) a 0). unfold quad3 in H. assert (K : (- b, a, 0) <> (0, 0, 0)) by (intros [=]; lra). specialize (H K).
      apply (Rmult_lt_reg_l a); [exact Ha|]. lra. }
    split; [exact Ha|]. split; [exact Hm|].
    specialize (H (b * e - d * c) (b * c - a * e) (a * d - b * b)). unfold quad3 in H.
    assert (K : (b * e - d * c, b * c - a * e, a * d - b * b) <> (0, 0, 0)) by (intros [=]; lra). specialize (H K).
    apply (Rmult_lt_reg_l (a * d - b * b)); [exact Hm|]. unfold det3s. lra.
  - intros (Ha & Hm & Hd) x y z HN.
    set (m := a * d - b * b) in *. set (D := det3s a b c d e f) in *.
    assert (E : a * m * quad3 a b c d e f x y z =
      m * ((a * x + b * y + c * z) * (a * x + b * y + c * z)) + (m * y + (a * e - b * c) * z) * (m * y + (a * e - b * c) * z) + a * D * (z * z)).
    { unfold quad3, D, m, det3s. ring. }
    apply (Rmult_lt_reg_l (a * m)); [nra|]. rewrite Rmult_0_r, E.
    pose proof (Rle_0_sqr (a * x + b * y + c * z)) as S1. pose proof (Rle_0_sqr (m * y + (a * e - b * c) * z)) as S2.
    pose proof (Rle_0_sqr z) as S3. unfold Rsqr in *.
    assert (HaD : 0 < a * D) by nra.
    destruct (Req_dec z 0) as [->|Hz].
    + destruct (Req_dec y 0) as [->|Hy].
      * assert (x <> 0) by (intros ->; apply HN; reflexivity).
        assert (P : 0 < (a * x) * (a * x)) by (apply Rsqr_pos_lt; nra). ring_simplify in S1. nra.
      * assert (P : 0 < (m * y) * (m * y)) by (apply Rsqr_pos_lt; nra).
        rewrite !Rmult_0_r, !Rplus_0_r in *. nra.
    + assert (P : 0 < z * z) by (apply Rsqr_pos_lt; exact Hz). nra.
Qed.
Lemma posdef_minors U : symmetric U -> (positive_definite U <->
  0 < get U 0 0 /\ 0 < get U 0 0 * get U 1 1 - get U 0 1 * get U 1 0 /\ 0 < det U).
Proof.
  intros S. destruct (sym3 U S) as (a & b & c & d & e & f & ->). rewrite det3s_eq.
  change (get (M3 a b c b d e c e f) 0 0) with a. change (get (M3 a b c b d e c e f) 1 1) with d.
  change (get (M3 a b c b d e c e f) 0 1) with b. change (get (M3 a b c b d e c e f) 1 0) with b.
  rewrite <- sylvester. split.
  - intros [_ H] x y z K. rewrite <- quad3_eq. auto.
  - intros H. split; [exact S|]. intros x y z K. rewrite quad3_eq. auto.
Qed.

(** * The orbit loop *)
Definition mdec (A B : mat R) : {A = B} + {A <> B} := list_eq_dec (list_eq_dec Req_EM_T) A B.
Definition meqb (A B : mat R) : bool := if mdec A B then true else false.
Lemma meqb_iff A B : meqb A B = true <-> A = B.
Proof. unfold meqb. destruct (mdec A B); split; congruence. Qed.

Lemma enumerate_app {A} (l : list A) x : enumerate (l ++ [x]) = enumerate l ++ [(length l, x)].
Proof.
  unfold enumerate. rewrite app_length, seq_app. cbn [length seq].
  assert (K : forall (a : list nat) (b : list A) p q, length a = length b -> combine (a ++ p) (b ++ q) = combine a b ++ combine p q).
  { induction a as [|u a IH]; destruct b as [|v b]; cbn; intros p q E; try discriminate; [reflexivity|]. f_equal. apply IH. congruence. }
  rewrite K by now rewrite seq_length. reflexivity.
Qed.
Lemma variants_app U G Q : variants_of U (G ++ [Q]) = calc_step U (variants_of U G) (length G, Q).
Proof. unfold variants_of. now rewrite enumerate_app, fold_left_app. Qed.

(** for every U and every list of matrices *)
Record loose_orbit (U : mat R) (G : list (mat R)) (acc : list (mat R * list nat)) : Prop := {
  l_first : exists l, exists rest, acc = (U, l) :: rest;
  l_from : forall V l, In (V, l) acc -> V = U \/ exists Q, In Q G /\ V = rotate Q U;
  l_cover : forall i Q, nth_error G i = Some Q -> exists V l, In (V, l) acc /\ In i l;
  l_sound : forall V l i, In (V, l) acc -> In i l -> exists Q, nth_error G i = Some Q /\ allclose V (rotate Q U) = true;
  l_far : forall j k V W, (j < k)%nat -> nth_error (map fst acc) j = Some V -> nth_error (map fst acc) k = Some W -> allclose V W = false
}.
Lemma nth_error_snoc {A} (l : list A) x i y : nth_error (l ++ [x]) i = Some y ->
  (nth_error l i = Some y /\ (i < length l)%nat) \/ (i = length l /\ y = x).
Proof.
  intros H. destruct (Nat.lt_trichotomy i (length l)) as [L|[->|L]].
  - left. rewrite nth_error_app1 in H by assumption. auto.
  - right. rewrite nth_error_app2, Nat.sub_diag in H by lia. injection H as <-. auto.
  - exfalso. assert (E : nth_error (l ++ [x]) i <> None) by congruence. apply nth_error_Some in E. rewrite app_length in E. cbn in E. lia.
Qed.
Lemma nth_error_snoc_l {A} (l : list A) x i y : nth_error l i = Some y -> nth_error (l ++ [x]) i = Some y.
Proof. intros H. rewrite nth_error_app1; [exact H|]. apply nth_error_Some. congruence. Qed.
Lemma nth_error_snoc_r {A} (l : list A) x : nth_error (l ++ [x]) (length l) = Some x.
Proof. rewrite nth_error_app2 by lia. now rewrite Nat.sub_diag. Qed.

Lemma variants_loose U G : loose_orbit U G (variants_of U G).
Proof.
  induction G as [|Q G IH] using rev_ind.
  - split; cbn.
    + eauto.
    + intros V l [[= <- <-]|[]]. now left.
    + intros [|i] Q; discriminate.
    + intros V l i [[= <- <-]|[]] [].
    + intros [|j] [|[|k]] V W; cbn; try lia; discriminate.
  - rewrite variants_app. set (acc := variants_of U G) in *. unfold calc_step. cbn [fst snd].
    change (mmul (mmul Q U) (tr Q)) with (rotate Q U). set (V0 := rotate Q U).
    destruct (existsb (fun b => allclose (fst b) V0) acc) eqn:EX.
    + assert (MF : map fst (map (fun b : mat R * list nat => if allclose (fst b) V0 then (fst b, snd b ++ [length G]) else b) acc) = map fst acc).
      { rewrite map_map. apply map_ext. intros b. now destruct (allclose (fst b) V0). }
      assert (IM : forall V l, In (V, l) (map (fun b : mat R * list nat => if allclose (fst b) V0 then (fst b, snd b ++ [length G]) else b) acc) ->
        In (V, l) acc \/ exists l0, In (V, l0) acc /\ allclose V V0 = true /\ l = l0 ++ [length G]).
      { intros V l H. apply in_map_iff in H. destruct H as ([V' l'] & E & H). cbn [fst snd] in E. revert E. destruct (allclose V' V0) eqn:EV; intros E; injection E as <- <-; [right; exists l'; auto|now left]. }
      destruct IH. split.
      * destruct l_first0 as (l & rest & ->). cbn [map fst snd]. destruct (allclose U V0); do 2 eexists; reflexivity.
      * intros V l H. assert (K : exists l0, In (V, l0) acc) by (destruct (IM V l H) as [K|(l0 & K & _)]; eauto).
        destruct K as (l0 & K). destruct (l_from0 V l0 K) as [->|(P & HP & ->)]; [now left|]. right. exists P. split; [apply in_or_app; now left|reflexivity].
      * intros i P H. apply nth_error_snoc in H. destruct H as [[H _]|[-> ->]].
        -- destruct (l_cover0 i P H) as (V & l & Hin & Hi). exists V.
           destruct (allclose V V0) eqn:EV.
           ++ exists (l ++ [length G]). split; [|apply in_or_app; now left]. apply in_map_iff. exists (V, l). cbn [fst snd]. now rewrite EV.
           ++ exists l. split; [|exact Hi]. apply in_map_iff. exists (V, l). cbn [fst snd]. now rewrite EV.
        -- apply existsb_exists in EX. destruct EX as ([V l] & Hin & HV). cbn [fst] in HV. exists V, (l ++ [length G]).
           split; [|apply in_or_app; right; now left]. apply in_map_iff. exists (V, l). cbn [fst snd]. now rewrite HV.
      * intros V l i H Hi. destruct (IM V l H) as [K|(l0 & K & EV & ->)].
        -- destruct (l_sound0 V l i K Hi) as (P & HP & A). exists P. split; [now apply nth_error_snoc_l|exact A].
        -- apply in_app_or in Hi. destruct Hi as [Hi|[<-|[]]].
           ++ destruct (l_sound0 V l0 i K Hi) as (P & HP & A). exists P. split; [now apply nth_error_snoc_l|exact A].
           ++ exists Q. split; [apply nth_error_snoc_r|exact EV].
      * intros j k V W. rewrite MF. apply l_far0.
    + assert (NE : forall b, In b acc -> allclose (fst b) V0 = false).
      { intros b Hb. destruct (allclose (fst b) V0) eqn:E; [|reflexivity].
        assert (existsb (fun b => allclose (fst b) V0) acc = true) by (apply existsb_exists; eauto). congruence. }
      destruct IH. split.
      * destruct l_first0 as (l & rest & ->). cbn. do 2 eexists; reflexivity.
      * intros V l H. apply in_app_or in H. destruct H as [H|[[= <- <-]|[]]].
        -- destruct (l_from0 V l H) as [->|(P & HP & ->)]; [now left|]. right. exists P. split; [apply in_or_app; now left|reflexivity].
        -- right. exists Q. split; [apply in_or_app; right; now left|reflexivity].
      * intros i P H. apply nth_error_snoc in H. destruct H as [[H _]|[-> ->]].
        -- destruct (l_cover0 i P H) as (V & l & Hin & Hi). exists V, l. split; [apply in_or_app; now left|exact Hi].
        -- exists V0, [length G]. split; [apply in_or_app; right; now left|now left].
      * intros V l i H Hi. apply in_app_or in H. destruct H as [H|[[= <- <-]|[]]].
        -- destruct (l_sound0 V l i H Hi) as (P & HP & A). exists P. split; [now apply nth_error_snoc_l|exact A].
        -- destruct Hi as [<-|[]]. exists Q. split; [apply nth_error_snoc_r|apply allclose_refl].
      * intros j k V W Hjk HV HW. rewrite map_app in HV, HW. cbn [map fst] in HV, HW.
        apply nth_error_snoc in HV. apply nth_error_snoc in HW. rewrite map_length in HV, HW.
        destruct HV as [[HV Lj]|[-> ->]]; destruct HW as [[HW Lk]|[-> ->]]; try lia.
        -- now apply (l_far0 j k).
        -- apply nth_error_In in HV. apply in_map_iff in HV. destruct HV as (b & <- & Hb). auto.
Qed.

(** with separated images the blocks are exactly the fibres of Q -> Q U Q^T *)
Section Separated.
  Variables (U : mat R) (G : list (mat R)).
  Hypothesis HU : wf 3 3 U.
  Hypothesis HG : is_group 3 G.
  Hypothesis HO : forall Q, In Q G -> orthogonal 3 Q.
  Hypothesis HS : separated U G.


  Lemma rotate_eye : rotate (eye 3) U = U.
  Proof. unfold rotate. rewrite (mmul_eye_l 3 3) by (auto; lia). rewrite tr_eye by lia. apply (mmul_eye_r 3 3); [exact HU|lia]. Qed.
  Lemma in_G Q : In Q G -> wf 3 3 Q. Proof. intros H. now apply HG. Qed.
  Lemma rotate_rotate P Q V : wf 3 3 P -> wf 3 3 Q -> wf 3 3 V -> rotate P (rotate Q V) = rotate (mmul P Q) V.
  Proof.
    intros WP WQ WV. unfold rotate. rewrite (tr_mmul 3 3 3) by (auto; lia).
    assert (WT : wf 3 3 (tr P)) by (apply (wf_tr' 3 3); auto; lia). assert (WT2 : wf 3 3 (tr Q)) by (apply (wf_tr' 3 3); auto; lia).
    assert (W1 : wf 3 3 (mmul Q V)) by (apply (wf_mmul 3 3 3); auto; lia).
    rewrite !(mmul_assoc 3 3 3 3) by (try lia; auto; repeat (apply (wf_mmul 3 3 3); auto; try lia)).
    reflexivity.
  Qed.

  Lemma image V : In V (map fst (variants_of U G)) <-> exists Q, In Q G /\ V = rotate Q U.
  Proof.
    pose proof (variants_loose U G) as [F1 F2 F3 F4 F5]. split.
    - intros H. apply in_map_iff in H. destruct H as ([V' l] & <- & H). cbn. destruct (F2 V' l H) as [->|K]; [|exact K].
      exists (eye 3). split; [apply HG|symmetry; apply rotate_eye].
    - intros (Q & HQ & ->). destruct (In_nth_error G Q HQ) as [i Hi]. destruct (F3 i Q Hi) as (V & l & Hin & Hl).
      destruct (F4 V l i Hin Hl) as (P & HP & A). assert (P = Q) by congruence. subst P.
      destruct (F2 V l Hin) as [->|(P & HPG & ->)].
      + rewrite <- rotate_eye in A at 1. apply HS in A; [|apply HG|exact HQ]. rewrite rotate_eye in A. rewrite <- A.
        apply in_map_iff. exists (U, l). auto.
      + apply HS in A; auto. rewrite <- A. apply in_map_iff. exists (rotate P U, l). auto.
  Qed.
  Lemma images_distinct : NoDup (map fst (variants_of U G)).
  Proof.
    pose proof (variants_loose U G) as [F1 F2 F3 F4 F5]. apply NoDup_nth_error. intros j k Hj E.
    destruct (nth_error (map fst (variants_of U G)) j) as [V|] eqn:EV; [|apply nth_error_None in EV; lia]. symmetry in E.
    destruct (Nat.lt_trichotomy j k) as [L|[L|L]]; [|exact L|].
    - pose proof (F5 j k V V L EV E) as K. rewrite allclose_refl in K. discriminate.
    - pose proof (F5 k j V V L E EV) as K. rewrite allclose_refl in K. discriminate.
  Qed.
  Lemma block V l i : In (V, l) (variants_of U G) -> (In i l <-> exists Q, nth_error G i = Some Q /\ rotate Q U = V).
  Proof.
    intros H. pose proof (variants_loose U G) as [F1 F2 F3 F4 F5]. pose proof images_distinct as ND.
    assert (EQ : forall V' l' Q, In (V', l') (variants_of U G) -> In Q G -> allclose V' (rotate Q U) = true -> rotate Q U = V').
    { intros V' l' Q Hin HQ A. assert (K : In V' (map fst (variants_of U G))) by (apply in_map_iff; exists (V', l'); auto).
      apply image in K. destruct K as (P & HP & ->). symmetry. now apply HS. }
    split.
    - intros Hi. destruct (F4 V l i H Hi) as (Q & HQ & A). exists Q. split; [exact HQ|]. apply (EQ V l); auto. now apply nth_error_In in HQ.
    - intros (Q & HQ & E). destruct (F3 i Q HQ) as (V' & l' & Hin & Hl). destruct (F4 V' l' i Hin Hl) as (P & HP & A).
      assert (P = Q) by congruence. subst P. pose proof (EQ V' l' Q Hin (nth_error_In _ _ HQ) A) as E'. rewrite E in E'. subst V'.
      assert (l' = l); [|now subst]. clear - H Hin ND. revert H Hin ND. induction (variants_of U G) as [|[W m] a IH]; intros H Hin ND; [destruct H|]. cbn in ND. inversion ND as [|? ? N1 N2]; subst.
      destruct H as [H|H], Hin as [H'|H'].
      + congruence.
      + injection H as -> ->. exfalso. apply N1. apply in_map_iff. exists (V, l'). auto.
      + injection H' as -> ->. exfalso. apply N1. apply in_map_iff. exists (V, l). auto.
      + auto.
  Qed.
End Separated.

(** the blocks list their indices without repetition: no separation needed *)
Lemma blocks_sorted U G V l : In (V, l) (variants_of U G) -> NoDup l /\ forall i, In i l -> (i < length G)%nat.
Proof.
  revert V l. induction G as [|Q G IH] using rev_ind; intros V l H.
  - destruct H as [[= <- <-]|[]]. split; [constructor|intros i []].
  - rewrite variants_app in H. unfold calc_step in H. cbn [fst snd] in H. rewrite app_length. cbn [length].
    destruct (existsb _ _).
    + apply in_map_iff in H. destruct H as ([V' l'] & E & H). destruct (IH V' l' H) as [ND LT]. cbn [fst snd] in E.
      revert E. match goal with |- context [if ?b then _ else _] => destruct b end; intros E; injection E as <- <-.
      * split.
        -- apply (Permutation_NoDup (Permutation_cons_append l' (length G))). constructor; [|exact ND]. intros K. apply LT in K. lia.
        -- intros i Hi. apply in_app_or in Hi. destruct Hi as [Hi|[<-|[]]]; [apply LT in Hi; lia|lia].
      * split; [exact ND|]. intros i Hi. apply LT in Hi. lia.
    + apply in_app_or in H. destruct H as [H|[[= <- <-]|[]]].
      * destruct (IH V l H) as [ND LT]. split; [exact ND|]. intros i Hi. apply LT in Hi. lia.
      * split; [constructor; [intros []|constructor]|]. intros i [<-|[]]. lia.
Qed.

Lemma concat_NoDup {A B} (acc : list (A * list B)) :
  NoDup (map fst acc) -> (forall V l, In (V, l) acc -> NoDup l) ->
  (forall V l V' l' i, In (V, l) acc -> In (V', l') acc -> In i l -> In i l' -> V = V') -> NoDup (concat (map snd acc)).
Proof.
  induction acc as [|[V l] acc IH]; cbn; intros ND N1 N2; [constructor|]. inversion ND as [|? ? K1 K2]; subst.
  assert (DIS : forall i, In i l -> ~ In i (concat (map snd acc))).
  { intros i Hi HC. apply in_concat in HC. destruct HC as (l' & Hl' & Hi'). apply in_map_iff in Hl'. destruct Hl' as ([V' l''] & <- & Hin).
    cbn in Hi'. assert (V = V') by (apply (N2 V l V' l'' i); auto). subst V'. apply K1. apply in_map_iff. exists (V, l''). auto. }
  specialize (IH K2 (fun V l H => N1 V l (or_intror H)) (fun V l V' l' i H H' => N2 V l V' l' i (or_intror H) (or_intror H'))).
  assert (NL : NoDup l) by (apply (N1 V l); now left). clear - DIS IH NL.
  induction l as [|x l IHl]; cbn; [exact IH|]. inversion NL; subst. constructor.
  - intros K. apply in_app_or in K. destruct K as [K|K]; [contradiction|]. apply (DIS x); [now left|exact K].
  - apply IHl; [|assumption]. intros i Hi. apply DIS. now right.
Qed.

Lemma variants_orbit U G : wf 3 3 U -> is_group 3 G -> (forall Q, In Q G -> orthogonal 3 Q) -> separated U G ->
  is_orbit U G (map fst (variants_of U G)) (map snd (variants_of U G)).
Proof.
  intros HU HG HO HS. pose proof (variants_loose U G) as [F1 F2 F3 F4 F5].
  pose proof (images_distinct U G) as ND. pose proof (image U G HU HG HS) as IM. pose proof (block U G HU HG HS) as BL.
  pose proof (blocks_sorted U G) as BS. set (acc := variants_of U G) in *.
  assert (PART : Permutation (concat (map snd acc)) (seq 0 (length G))).
  { apply NoDup_Permutation.
    - apply concat_NoDup; [exact ND| |].
      + intros V l H. apply (BS V l H).
      + intros V l V' l' i H H' Hi Hi'. apply (BL V l i H) in Hi. apply (BL V' l' i H') in Hi'.
        destruct Hi as (Q & E & <-), Hi' as (P & E' & <-). congruence.
    - apply seq_NoDup.
    - intros i. rewrite in_seq. split.
      + intros H. apply in_concat in H. destruct H as (l & Hl & Hi). apply in_map_iff in Hl. destruct Hl as ([V l'] & <- & Hin).
        apply (BS V l' Hin) in Hi. lia.
      + intros Hi. destruct (nth_error G i) as [Q|] eqn:EQ; [|apply nth_error_None in EQ; lia].
        destruct (F3 i Q EQ) as (V & l & Hin & Hl). apply in_concat. exists l. split; [|exact Hl]. apply in_map_iff. exists (V, l). auto. }
  assert (NTH : forall j, (j < length acc)%nat -> In (nth j (map fst acc) [], nth j (map snd acc) []) acc).
  { intros j Hj. replace (nth j (map fst acc) [], nth j (map snd acc) []) with (nth j acc ([], [])).
    - now apply nth_In.
    - rewrite (surjective_pairing (nth j acc ([], []))). f_equal.
      + symmetry. apply (map_nth fst acc ([], [])).
      + symmetry. apply (map_nth snd acc ([], [])). }
  split.
  - destruct F1 as (l & rest & ->). reflexivity.
  - exact ND.
  - exact IM.
  - now rewrite !map_length.
  - exact PART.
  - intros j i Hj. rewrite map_length in Hj. apply (BL _ _ i (NTH j Hj)).
  - (* all fibres are cosets of the stabiliser of U *)
    assert (LE : forall V l V' l', In (V, l) acc -> In (V', l') acc -> (length l <= length l')%nat).
    { intros V l V' l' H H'.
      assert (K : In V (map fst acc)) by (apply in_map_iff; exists (V, l); auto). apply IM in K. destruct K as (P & HP & EV).
      assert (K' : In V' (map fst acc)) by (apply in_map_iff; exists (V', l'); auto). apply IM in K'. destruct K' as (P' & HP' & EV').
      destruct (proj2 (proj2 (proj2 (proj2 HG))) P HP) as (Pi & HPi & PP1 & PP2).
      pose (T := mmul P' Pi). assert (HT : In T G) by now apply HG.
      pose proof (proj1 HG) as WG.
      assert (TV : forall Q, In Q G -> rotate Q U = V -> rotate (mmul T Q) U = V').
      { intros Q HQ E. rewrite <- (rotate_rotate T Q U) by auto. rewrite E, EV. unfold T.
        rewrite rotate_rotate by (auto; apply (wf_mmul 3 3 3); auto; lia).
        rewrite (mmul_assoc 3 3 3 3) by (auto; lia). rewrite PP2, (mmul_eye_r 3 3) by (auto; lia). now symmetry. }
      pose (f := fun i => match nth_error G i with Some Q => match In_nth_error G (mmul T Q) with _ => 0%nat end | None => 0%nat end).
      assert (EXI : forall i, In i l -> exists k, In k l' /\ exists Q R', nth_error G i = Some Q /\ nth_error G k = Some R' /\ R' = mmul T Q).
      { intros i Hi. apply (BL V l i H) in Hi. destruct Hi as (Q & EQ & EC). pose proof (nth_error_In _ _ EQ) as HQ.
        assert (HTQ : In (mmul T Q) G) by now apply HG. destruct (In_nth_error _ _ HTQ) as [k Hk]. exists k. split; [|eauto].
        apply (BL V' l' k H'). exists (mmul T Q). split; [exact Hk|]. now apply TV. }
      destruct (BS V l H) as [NDl _]. clear f.
      assert (INJ : exists m, length m = length l /\ NoDup m /\ incl m l').
      { assert (forall l0, NoDup l0 -> incl l0 l -> exists m, length m = length l0 /\ NoDup m /\ incl m l' /\
          forall k, In k m -> exists i Q, In i l0 /\ nth_error G i = Some Q /\ nth_error G k = Some (mmul T Q)) as K.
        { induction l0 as [|i l0 IH]; intros N0 I0.
          - exists []. repeat split; [constructor|intros x []|intros k []].
          - inversion N0 as [|? ? N1 N2]; subst. destruct (IH N2 (fun x Hx => I0 x (or_intror Hx))) as (m & Lm & Nm & Im & Om).
            destruct (EXI i (I0 i (or_introl eq_refl))) as (k & Hk & Q & R' & E1 & E2 & ->).
            exists (k :: m). split; [cbn; lia|]. split; [|split].
            + constructor; [|exact Nm]. intros Hkm. destruct (Om k Hkm) as (i' & Q' & Hi' & E1' & E2').
              assert (mmul T Q = mmul T Q') by congruence.
              assert (WT := WG T HT). pose proof (WG Q (nth_error_In _ _ E1)) as WQ. pose proof (WG Q' (nth_error_In _ _ E1')) as WQ'.
              destruct (proj2 (proj2 (proj2 (proj2 HG))) T HT) as (Ti & HTi & TT1 & TT2).
              assert (Q = Q').
              { rewrite <- (mmul_eye_l 3 3 Q), <- (mmul_eye_l 3 3 Q'), <- TT2 by (auto; lia). rewrite !(mmul_assoc 3 3 3 3) by (auto; lia). now rewrite H0. }
              subst Q'. assert (i = i').
              { apply (proj1 (NoDup_nth_error G) (proj1 (proj2 HG)) i i'); [apply nth_error_Some; congruence|congruence]. }
              subst. contradiction.
            + intros x [<-|Hx]; auto.
            + intros x [<-|Hx]; [exists i, Q; split; [now left|auto]|]. destruct (Om x Hx) as (i' & Q' & Hi' & ?). exists i', Q'. split; [now right|auto]. }
        destruct (K l NDl (incl_refl l)) as (m & Lm & Nm & Im & _). eauto. }
      destruct INJ as (m & <- & Nm & Im). now apply NoDup_incl_length. }
    exists (length (snd (hd ([], []) acc))).
    assert (AL : forall b, In b (map snd acc) -> length b = length (snd (hd ([], []) acc))).
    { intros b Hb. apply in_map_iff in Hb. destruct Hb as ([V l] & <- & Hin). destruct F1 as (l0 & rest & EA).
      assert (H0 : In (U, l0) acc) by (rewrite EA; now left). rewrite EA at 1. cbn [hd snd].
      apply Nat.le_antisymm; [apply (LE V l U l0)|apply (LE U l0 V l)]; auto. }
    split; [exact AL|].
    apply Permutation_length in PART. rewrite seq_length in PART. rewrite <- PART, map_length.
    set (k := length (snd (hd ([], []) acc))) in *. clearbody k. clear - AL.
    induction acc as [|b acc IH]; cbn; [reflexivity|]. rewrite app_length, (AL (snd b)) by now left. rewrite IH; [reflexivity|].
    intros c Hc. apply AL. now right.
Qed.
