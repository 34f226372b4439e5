From Verif Require Import GroupModel GroupProofs RotProofs DirectProofs.
From Verif Require Export LLLProofs2.
Local Open Scope R_scope.

(** * The specification in terms of columns *)
Lemma col_tr n (B : list (vec R)) i : dim23 n -> wf n n B -> (i < n)%nat -> col (tr B) i = nth i B [].
Proof.
  intros [-> | ->] W Hi.
  - apply wf2_cols in W. destruct W as (a & b & -> & HA & HB). w2 HA. w2 HB. destruct i as [|[|i]]; [reflexivity|reflexivity|lia].
  - apply wf3_cols in W. destruct W as (a & b & c & -> & HA & HB & HC). w3 HA. w3 HB. w3 HC. destruct i as [|[|[|i]]]; [reflexivity|reflexivity|reflexivity|lia].
Qed.
Lemma is_part0 n x : length x = n -> orth_part n [] x x.
Proof.
  intros L. split; [exact L|]. split; [|easy]. exists []. split; [reflexivity|]. cbn [lincomb]. apply (vext n); [lens|lens|]. intros i Hi.
  rewrite vget_add by lens. unfold vget at 3. change zero with 0. rewrite nth_repeat. ring.
Qed.
Lemma is_part1 n a x : length a = n -> length x = n -> dot a a <> 0 -> orth_part n [a] x (c1 a x).
Proof.
  intros La Lx A. pose proof (len_c1 n a x Lx) as L1. split; [exact L1|]. split.
  - exists [mu x a]. split; [reflexivity|]. cbn [lincomb]. apply (vext n); [lens|lens|]. intros i Hi. unfold c1.
    rewrite !vget_add, vget_sub, vget_vscale by lens. unfold vget at 5. change zero with 0. rewrite nth_repeat. ring.
  - intros v [<-|[]]. now apply (c1_a n).
Qed.
Section Bridge3.
  Variables a b c : vec R.
  Hypothesis La : length a = 3%nat.
  Hypothesis Lb : length b = 3%nat.
  Hypothesis Lc : length c = 3%nat.
  Hypothesis A : dot a a <> 0.
  Let B := tr [a; b; c].
  Lemma wf_abc : wf 3 3 [a; b; c]. Proof. apply wf3_cols. exists a, b, c. auto. Qed.
  Lemma col3_0 : col B 0 = a. Proof. unfold B. now rewrite (col_tr 3) by (auto using wf_abc; try lia; now right). Qed.
  Lemma col3_1 : col B 1 = b. Proof. unfold B. now rewrite (col_tr 3) by (auto using wf_abc; try lia; now right). Qed.
  Lemma col3_2 : col B 2 = c. Proof. unfold B. now rewrite (col_tr 3) by (auto using wf_abc; try lia; now right). Qed.
  Lemma before3_1 : before B 1 = [a]. Proof. unfold before. cbn [seq map]. now rewrite col3_0. Qed.
  Lemma lovasz3 : lovasz 3 B <-> dot a a <= 4 / 3 * dot b b /\ dot (c1 a b) (c1 a b) <= 4 / 3 * dot (c1 a c) (c1 a c).
  Proof.
    split.
    - intros H. split.
      + apply (H 0%nat a b); [lia| |]; cbn [before seq map Nat.add]; rewrite ?col3_0, ?col3_1; now apply is_part0.
      + apply (H 1%nat); [lia| |]; rewrite before3_1; cbn [Nat.add]; rewrite ?col3_1, ?col3_2; now apply is_part1.
    - intros (H0 & H1) i x y Hi Px Py. assert (i = 0 \/ i = 1)%nat as [-> | ->] by lia.
      + cbn [before seq map Nat.add] in Px, Py. rewrite col3_0 in Px. rewrite col3_1 in Py. apply part0 in Px, Py; auto. now subst.
      + rewrite before3_1 in Px, Py. cbn [Nat.add] in Py. rewrite col3_1 in Px. rewrite col3_2 in Py. apply part1 in Px, Py; auto. now subst.
  Qed.
  Lemma small3_10 : coefficient_small 3 B 1 0 <-> Rabs (dot b a) <= 1 / 2 * dot a a.
  Proof.
    unfold coefficient_small. cbn [before seq map]. rewrite col3_0, col3_1. split.
    - intros H. apply H. now apply is_part0.
    - intros H x P. apply part0 in P; auto. now subst.
  Qed.
  Lemma small3_20 : coefficient_small 3 B 2 0 <-> Rabs (dot c a) <= 1 / 2 * dot a a.
  Proof.
    unfold coefficient_small. cbn [before seq map]. rewrite col3_0, col3_2. split.
    - intros H. apply H. now apply is_part0.
    - intros H x P. apply part0 in P; auto. now subst.
  Qed.
  Lemma small3_21 : coefficient_small 3 B 2 1 <-> Rabs (dot c (c1 a b)) <= 1 / 2 * dot (c1 a b) (c1 a b).
  Proof.
    unfold coefficient_small. rewrite before3_1, col3_1, col3_2. split.
    - intros H. apply H. now apply is_part1.
    - intros H x P. apply part1 in P; auto. now subst.
  Qed.
End Bridge3.
Section Bridge2.
  Variables a b : vec R.
  Hypothesis La : length a = 2%nat.
  Hypothesis Lb : length b = 2%nat.
  Hypothesis A : dot a a <> 0.
  Let B := tr [a; b].
  Lemma wf_ab : wf 2 2 [a; b]. Proof. apply wf2_cols. exists a, b. auto. Qed.
  Lemma col2_0 : col B 0 = a. Proof. unfold B. now rewrite (col_tr 2) by (auto using wf_ab; try lia; now left). Qed.
  Lemma col2_1 : col B 1 = b. Proof. unfold B. now rewrite (col_tr 2) by (auto using wf_ab; try lia; now left). Qed.
  Lemma lovasz2 : lovasz 2 B <-> dot a a <= 4 / 3 * dot b b.
  Proof.
    split.
    - intros H. apply (H 0%nat a b); [lia| |]; cbn [before seq map Nat.add]; rewrite ?col2_0, ?col2_1; now apply is_part0.
    - intros H0 i x y Hi Px Py. assert (i = 0)%nat as -> by lia.
      cbn [before seq map Nat.add] in Px, Py. rewrite col2_0 in Px. rewrite col2_1 in Py. apply part0 in Px, Py; auto. now subst.
  Qed.
  Lemma small2_10 : coefficient_small 2 B 1 0 <-> Rabs (dot b a) <= 1 / 2 * dot a a.
  Proof.
    unfold coefficient_small. cbn [before seq map]. rewrite col2_0, col2_1. split.
    - intros H. apply H. now apply is_part0.
    - intros H x P. apply part0 in P; auto. now subst.
  Qed.
End Bridge2.

(** What a converged base satisfies *)
Definition nearly_reduced (n : nat) (B : mat R) : Prop :=
  lovasz n B /\ forall i, (i + 1 < n)%nat -> coefficient_small n B (i + 1) i.

Lemma mu_small x c : dot c c <> 0 -> Rabs (mu x c) <= 1 / 2 <-> Rabs (dot x c) <= 1 / 2 * dot c c.
Proof.
  intros N. pose proof (dot_pos c N). unfold mu, Rdiv. rewrite Rabs_mult, (Rabs_pos_eq (/ dot c c)) by (left; now apply Rinv_0_lt_compat).
  split; intros K.
  - apply (Rmult_le_compat_r (dot c c)) in K; [|lra]. rewrite Rmult_assoc, Rinv_l, Rmult_1_r in K by exact N. lra.
  - apply (Rmult_le_reg_r (dot c c)); [lra|]. rewrite Rmult_assoc, Rinv_l, Rmult_1_r by exact N. lra.
Qed.
Lemma reduced3 a b c : length a = 3%nat -> length b = 3%nat -> length c = 3%nat -> dot a a <> 0 -> dot (c1 a b) (c1 a b) <> 0 ->
  nearly_reduced 3 (tr [a; b; c]) <-> (dot a a <= 4 / 3 * dot b b /\ dot (c1 a b) (c1 a b) <= 4 / 3 * dot (c1 a c) (c1 a c)) /\
    Rabs (mu b a) <= 1 / 2 /\ Rabs (mu c (c1 a b)) <= 1 / 2.
Proof.
  intros La Lb Lc A N1. unfold nearly_reduced. rewrite lovasz3, !mu_small by auto. rewrite <- (small3_10 a b c), <- (small3_21 a b c) by auto. split.
  - intros (H & K). split; [exact H|]. split; [apply (K 0%nat)|apply (K 1%nat)]; lia.
  - intros (H & K0 & K1). split; [exact H|]. intros i Hi. assert (i = 0 \/ i = 1)%nat as [-> | ->] by lia; assumption.
Qed.
Lemma reduced2 a b : length a = 2%nat -> length b = 2%nat -> dot a a <> 0 ->
  nearly_reduced 2 (tr [a; b]) <-> dot a a <= 4 / 3 * dot b b /\ Rabs (mu b a) <= 1 / 2.
Proof.
  intros La Lb A. unfold nearly_reduced. rewrite lovasz2, !mu_small by auto. rewrite <- (small2_10 a b) by auto. split.
  - intros (H & K). split; [exact H|]. apply (K 0%nat); lia.
  - intros (H & K0). split; [exact H|]. intros i Hi. assert (i = 0)%nat as -> by lia; assumption.
Qed.

(** * One round *)
Lemma round_ok n B : dim23 n -> good n B -> exists B' sw, Gauss_reduction B = Ok B' /\ swapping B' = Ok sw /\ good n B' /\ reach n B B' /\
  match sw with
  | None => nearly_reduced n (tr B')
  | Some i => (i + 1 < n)%nat /\ ~ lovasz n (tr B') /\ good n (swap_at i B') /\ reach n B' (swap_at i B')
  end.
Proof.
  intros d G. assert (SW : forall B' i, good n B' -> (i + 1 < n)%nat -> good n (swap_at i B') /\ reach n B' (swap_at i B')).
  { intros B' i [W D] Hi. pose proof (reach_swap n B' i d W Hi) as Rs. split; [|exact Rs]. apply (good_reach n B'); auto; [now split|now apply wf_swap]. }
  destruct d as [-> | ->]; pose proof G as [W D].
  - apply wf2_cols in W. destruct W as (a & b & -> & La & Lb). destruct (nondeg2 a b La Lb D) as (Na & N1).
    pose proof (len_rb 2 a b Lb) as Lr. pose proof (reach_gauss2 a b La Lb) as R. pose proof (c1_rb 2 a b La Lb Na) as E1. rewrite <- E1 in N1.
    assert (G' : good 2 [a; rb a b]) by (apply (good_reach 2 [a; b]); auto; [now left|apply wf2_cols; eauto 6]).
    exists [a; rb a b], (if test (dot a a) (dot (c1 a (rb a b)) (c1 a (rb a b))) (mu (rb a b) a) then Some 0%nat else None).
    split; [now apply gauss2|]. split; [now apply (swapping2 2)|]. split; [exact G'|]. split; [exact R|].
    unfold test. rewrite <- (b_norm 2 a (rb a b)) by auto. destruct (Rltb _ _) eqn:T.
    + apply Rltb_spec in T. split; [lia|]. split; [rewrite lovasz2 by auto; lra|]. apply SW; [exact G'|lia].
    + apply Rltb_false in T. apply reduced2; auto. split; [exact T|]. now apply (mu_rb_small 2).
  - apply wf3_cols in W. destruct W as (a & b & c & -> & La & Lb & Lc). destruct (nondeg3 a b c La Lb Lc D) as (Na & N1 & _).
    pose proof (len_rb 3 a b Lb) as Lr. pose proof (len_rc 3 a b c Lc) as Ls. pose proof (reach_gauss3 a b c La Lb Lc) as R. pose proof (c1_rb 3 a b La Lb Na) as E1.
    assert (G' : good 3 [a; rb a b; rc a b c]) by (apply (good_reach 3 [a; b; c]); auto; [now right|apply wf3_cols; eauto 8]).
    pose proof (mu_rc_small 3 a b La Lb Na c Lc N1) as Sc. pose proof (gauss3 a b c Na N1) as Gs. rewrite <- E1 in N1.
    destruct (nondeg3 _ _ _ La Lr Ls (proj2 G')) as (_ & _ & N2).
    eexists [a; rb a b; rc a b c], _. split; [exact Gs|]. split; [now apply (swapping3 3)|]. split; [exact G'|]. split; [exact R|].
    unfold test. rewrite <- (b_norm 3 a (rb a b)), <- (c1_norm 3 a (rb a b) (rc a b c)) by auto. destruct (Rltb _ _) eqn:T.
    + apply Rltb_spec in T. split; [lia|]. split; [rewrite lovasz3 by auto; lra|]. apply SW; [exact G'|lia].
    + apply Rltb_false in T. destruct (Rltb _ (dot (c1 a (rb a b)) _)) eqn:T1.
      * apply Rltb_spec in T1. split; [lia|]. split; [rewrite lovasz3 by auto; lra|]. apply SW; [exact G'|lia].
      * apply Rltb_false in T1. apply reduced3; auto. split; [now split|]. split; [now apply (mu_rb_small 3)|exact Sc].
Qed.

(** * The loop *)
Lemma loop_ok n k : dim23 n -> forall B m, good n B -> exists B' j sw, lll_loop k B m = Ok (B', (m + j)%nat, sw) /\ good n B' /\ reach n B B' /\
  if sw then j = k else (1 <= j <= k)%nat /\ nearly_reduced n (tr B').
Proof.
  intros d. induction k as [|k IH]; intros B m G; cbn [lll_loop].
  - exists B, 0%nat, true. split; [now rewrite Nat.add_0_r|]. split; [exact G|]. split; [now apply reach_refl|reflexivity].
  - destruct (round_ok n B d G) as (B1 & sw & -> & E & G1 & R1 & H). cbn [bind]. rewrite E. cbn [bind]. destruct sw as [i|].
    + destruct H as (Hi & _ & G2 & R2). destruct (IH (swap_at i B1) (m + 1)%nat G2) as (B' & j & sw & L & G' & R' & H').
      exists B', (S j), sw. split; [rewrite L; do 2 f_equal; f_equal; lia|]. split; [exact G'|]. split.
      * eapply (reach_trans n B B1); auto. now apply (reach_trans n B1 (swap_at i B1)).
      * destruct sw; [lia|]. split; [lia|apply H'].
    + exists B1, 1%nat, false. split; [reflexivity|]. split; [exact G1|]. split; [exact R1|]. split; [lia|exact H].
Qed.

(** * The change of sign *)
Lemma sign1_eq x y : x <> 0 -> y <> 0 -> (Reqb (sign1 x) (sign1 y) = true <-> 0 < x * y).
Proof.
  intros X Y. unfold sign1. destruct (Rltb x 0) eqn:A, (Rltb y 0) eqn:B; rewrite ?Rltb_spec, ?Rltb_false in *.
  - split; intros; [nra|]. apply Reqb_spec. reflexivity.
  - split; [intros H; apply Reqb_spec in H; lra|intros; nra].
  - split; [intros H; apply Reqb_spec in H; lra|intros; nra].
  - split; intros; [nra|]. apply Reqb_spec. reflexivity.
Qed.
Definition neg_first (B : list (vec R)) : list (vec R) := match B with b :: B' => vscale (-1) b :: B' | [] => [] end.
Lemma reach_neg n B : dim23 n -> wf n n B -> wf n n (neg_first B) /\ reach n B (neg_first B) /\ det (tr (neg_first B)) = - det (tr B).
Proof.
  intros [-> | ->] W.
  - apply wf2_cols in W. destruct W as (a & b & -> & La & Lb). split; [apply wf2_cols; exists (vscale (-1) a), b; rewrite len_vscale; auto|]. split.
    + exists [[-1; 0]; [0; 1]]%Z. split; [split; [now apply wfb_spec|right; reflexivity]|].
      apply cols2; auto; try (now apply wfb_spec); cbv [get nth]; vring 2%nat; ring.
    + w2 La. w2 Lb. unfold neg_first. un. ring.
  - apply wf3_cols in W. destruct W as (a & b & c & -> & La & Lb & Lc). split; [apply wf3_cols; exists (vscale (-1) a), b, c; rewrite len_vscale; auto|]. split.
    + exists [[-1; 0; 0]; [0; 1; 0]; [0; 0; 1]]%Z. split; [split; [now apply wfb_spec|right; reflexivity]|].
      apply cols3; auto; try (now apply wfb_spec); cbv [get nth]; vring 3%nat; ring.
    + w3 La. w3 Lb. w3 Lc. unfold neg_first. un. ring.
Qed.
Lemma dot_neg a : dot (vscale (-1) a) (vscale (-1) a) = dot a a.
Proof. rewrite dot_scale_l, (dot_scale_r (length a)) by lens. ring. Qed.
Lemma mu_neg n x a : length a = n -> length x = n -> dot a a <> 0 -> mu x (vscale (-1) a) = - mu x a.
Proof. intros La Lx N. unfold mu. rewrite dot_neg, (dot_scale_r n) by auto. field. exact N. Qed.
Lemma c1_neg n a x : length a = n -> length x = n -> dot a a <> 0 -> c1 (vscale (-1) a) x = c1 a x.
Proof. intros La Lx N. unfold c1. rewrite (mu_neg n) by auto. vring n. ring. Qed.
Lemma reduced_neg n B : dim23 n -> good n B -> nearly_reduced n (tr B) -> nearly_reduced n (tr (neg_first B)).
Proof.
  intros [-> | ->] [W D] H.
  - apply wf2_cols in W. destruct W as (a & b & -> & La & Lb). destruct (nondeg2 a b La Lb D) as (Na & N1).
    apply reduced2 in H; auto. cbn [neg_first]. apply reduced2; rewrite ?len_vscale, ?dot_neg; auto. rewrite (mu_neg 2), Rabs_Ropp by auto. exact H.
  - apply wf3_cols in W. destruct W as (a & b & c & -> & La & Lb & Lc). destruct (nondeg3 a b c La Lb Lc D) as (Na & N1 & _).
    apply reduced3 in H; auto. cbn [neg_first]. apply reduced3; rewrite ?(c1_neg 3), ?len_vscale, ?dot_neg; auto. rewrite (mu_neg 3), Rabs_Ropp by auto. exact H.
Qed.

(** * LLL *)
Lemma start_good n E : base n E -> good n (tr E).
Proof. intros (d & W & D). assert (0 < n)%nat by (destruct d; lia). split; [now apply wf_tr'|]. now rewrite (tr_tr n n). Qed.
Lemma LLL_cases n E : base n E -> exists B k sw, lll_loop max_rounds (tr E) 0 = Ok (B, k, sw) /\ good n B /\ reach n (tr E) B /\
  (if sw then k = max_rounds else (1 <= k <= max_rounds)%nat /\ nearly_reduced n (tr B)) /\
  LLL E = Ok (if (k =? 100)%nat then Failed (tr B) else Plain (tr (fix_sign E B))).
Proof.
  intros BE. destruct (loop_ok n max_rounds (proj1 BE) (tr E) 0 (start_good n E BE)) as (B & k & sw & L & G & Rc & H). cbn [Nat.add] in L.
  exists B, k, sw. repeat (split; [assumption|]). unfold LLL. rewrite L. cbn [bind]. now destruct (k =? 100)%nat.
Qed.
Lemma fix_cases n E B : base n E -> good n B -> reach n (tr E) B -> (fix_sign E B = B \/ fix_sign E B = neg_first B) /\ same_lattice n E (tr (fix_sign E B)).
Proof.
  intros BE G R. pose proof BE as (d & W & D). assert (0 < n)%nat by (destruct d; lia).
  assert (TT : tr (tr E) = E) by (now apply (tr_tr n n)). pose proof (good_dims n B d G) as WB.
  destruct (reach_neg n B d (proj1 G)) as (Wn & Rn & Dn).
  assert (K : forall C, reach n (tr E) C -> 0 < det (tr C) * det E -> same_lattice n E (tr C)).
  { intros C (V & [WV DV] & EC) P. rewrite TT in EC. exists V. split; [exact WV|]. split; [|exact EC].
    rewrite EC, (det_mmul n), <- RZ_det in P by auto using wf_RZ. destruct DV as [DV | DV]; [exact DV|]. rewrite DV in P. nra. }
  unfold fix_sign. destruct (Reqb _ _) eqn:T; cbn [negb].
  - split; [now left|]. apply K; [exact R|]. apply (sign1_eq _ _ (proj2 G) D). exact T.
  - fold (neg_first B). split; [now right|]. apply K; [apply (reach_trans n _ B); auto; now apply start_good|].
    rewrite Dn. pose proof (proj2 (sign1_eq _ _ (proj2 G) D)) as S. destruct (Rle_lt_dec (det (tr B) * det E) 0) as [Q|Q]; [|rewrite S in T; [discriminate|exact Q]].
    pose proof (Rmult_integral_contrapositive_currified _ _ (proj2 G) D). lra.
Qed.
