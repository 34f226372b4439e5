(** C99: what LLL does to a base that is already reduced. *)
From Verif Require Import GroupModel GroupProofs RotProofs DirectProofs LatticeProofs LLLConv.
From Verif Require Import LLLModel LLLSpec LLLProofs3 PropLLL PropLLL2.
Local Open Scope R_scope.

Lemma rint_half x : Rabs x <= 1 / 2 -> rint x = 0%Z.
Proof.
  intros H. destruct (Req_dec x (1 / 2)) as [-> | N1].
  - unfold rint. replace (Rfloor (1 / 2)) with 0%Z.
    + destruct (Rlt_dec _ _); [reflexivity|]. destruct (Rlt_dec _ _); [lra|]. reflexivity.
    + symmetry. apply Rfloor_unique; lra.
  - destruct (Req_dec x (- (1 / 2))) as [-> | N2].
    + unfold rint. replace (Rfloor (- (1 / 2))) with (-1)%Z.
      * destruct (Rlt_dec _ _); [lra|]. destruct (Rlt_dec _ _); [lra|]. reflexivity.
      * symmetry. apply Rfloor_unique; lra.
    + apply rint0. unfold Rabs in *. destruct (Rcase_abs x); lra.
Qed.

Lemma settle2 a b k m : good 2 [a; b] -> nearly_reduced 2 (tr [a; b]) -> lll_loop (S k) [a; b] m = Ok ([a; b], (m + 1)%nat, false).
Proof.
  intros [W D] H. apply wf2_cols in W. destruct W as (a' & b' & E & La & Lb). injection E as <- <-.
  destruct (nondeg2 a b La Lb D) as (Na & N1). apply reduced2 in H; auto. destruct H as (H1 & H2).
  assert (Rb : rb a b = b) by (unfold rb; rewrite rint_half by exact H2; vring 2%nat; ring).
  cbn [lll_loop]. rewrite gauss2, Rb by exact Na. cbn [bind]. rewrite (swapping2 2) by auto. cbn [bind]. unfold test. rewrite <- (b_norm 2 a b) by auto.
  rewrite (proj2 (Rltb_false _ _)) by exact H1. reflexivity.
Qed.
Definition settled (a c : vec R) : vec R := vsub c (vscale (IZR (rint (mu c a))) a).
Lemma settle3 a b c k m : good 3 [a; b; c] -> nearly_reduced 3 (tr [a; b; c]) ->
  lll_loop (S k) [a; b; c] m = Ok ([a; b; settled a c], (m + 1)%nat, false) /\ good 3 [a; b; settled a c] /\
  det (tr [a; b; settled a c]) = det (tr [a; b; c]) /\ nearly_reduced 3 (tr [a; b; settled a c]) /\ size_reduced 3 (tr [a; b; settled a c]) /\
  (Rabs (mu c a) <= 1 / 2 -> settled a c = c).
Proof.
  intros [W D] H. apply wf3_cols in W. destruct W as (a' & b' & c' & E & La & Lb & Lc). injection E as <- <- <-.
  destruct (nondeg3 a b c La Lb Lc D) as (Na & N1 & N2). apply reduced3 in H; auto. destruct H as ((H1 & H2) & H3 & H4).
  assert (Rb : rb a b = b) by (unfold rb; rewrite rint_half by exact H3; vring 3%nat; ring).
  assert (Rc : rc a b c = settled a c) by (unfold rc, settled; rewrite (rint_half (mu c (c1 a b))) by exact H4; rewrite Rb; vring 3%nat; ring).
  assert (Ls : length (settled a c) = 3%nat) by (unfold settled; lens).
  pose proof (len_c1 3 a b Lb) as L1.
  assert (M1 : mu (settled a c) (c1 a b) = mu c (c1 a b)).
  { unfold mu. f_equal. unfold settled. rewrite dot_sub_l, dot_scale_l, (a_c1 3) by (auto; lens). ring. }
  assert (M0 : mu (settled a c) a = mu c a - IZR (rint (mu c a))).
  { unfold settled. set (k0 := IZR (rint (mu c a))). unfold mu. rewrite dot_sub_l, dot_scale_l by lens. field. exact Na. }
  assert (C1 : c1 a (settled a c) = c1 a c) by (unfold c1; rewrite M0; unfold settled; vring 3%nat; ring).
  assert (D' : det (tr [a; b; settled a c]) = det (tr [a; b; c])).
  { unfold settled. set (k0 := IZR (rint (mu c a))). clearbody k0. clear - La Lb Lc. w3 La. w3 Lb. w3 Lc. un. ring. }
  assert (G : good 3 [a; b; settled a c]) by (split; [apply wf3_cols; eauto 8|now rewrite D']).
  assert (NR : nearly_reduced 3 (tr [a; b; settled a c])) by (apply reduced3; auto; rewrite C1, M1; auto).
  destruct (nondeg3 a b _ La Lb Ls (proj2 G)) as (_ & _ & N3).
  split; [|split; [exact G|split; [exact D'|split; [exact NR|split]]]].
  - cbn [lll_loop]. rewrite gauss3, Rb, Rc by auto. cbn [bind]. rewrite (swapping3 3) by auto. cbn [bind]. unfold test.
    rewrite <- (b_norm 3 a b), <- (c1_norm 3 a b (settled a c)), C1 by auto.
    rewrite !(proj2 (Rltb_false _ _)) by assumption. reflexivity.
  - intros i j Hj Hi. assert ((i = 1 /\ j = 0) \/ (i = 2 /\ j = 0) \/ (i = 2 /\ j = 1))%nat as [[-> ->]|[[-> ->]|[-> ->]]] by lia.
    + rewrite small3_10, <- mu_small by auto. exact H3.
    + rewrite small3_20, <- mu_small, M0 by auto. apply rint_close.
    + rewrite small3_21, <- mu_small, M1 by auto. exact H4.
  - intros Q. unfold settled. rewrite rint_half by exact Q. vring 3%nat. ring.
Qed.
Lemma fix_same E B : det E <> 0 -> det (tr B) = det E -> fix_sign E B = B.
Proof.
  intros N D. unfold fix_sign. rewrite D. now rewrite (proj2 (Reqb_spec _ _)).
Qed.

(** What LLL does to a base that satisfies the conditions of [C59_reduced_partial] *)
Lemma LLL_settles n E : base n E -> nearly_reduced n E ->
  exists B, LLL E = Ok (Plain B) /\ base n B /\ nearly_reduced n B /\ size_reduced n B /\ (size_reduced n E -> B = E).
Proof.
  intros BE H. pose proof BE as (d & W & D). pose proof (start_good n E BE) as G. assert (TT : tr (tr E) = E) by (apply (tr_tr n n); auto; destruct d; lia).
  destruct d as [-> | ->].
  - pose proof (proj1 G) as Wt. apply wf2_cols in Wt. destruct Wt as (a & b & Et & La & Lb). rewrite <- TT in H, W, D. rewrite Et in *.
    exists E. unfold LLL. rewrite Et. change max_rounds with (S 999). rewrite settle2 by auto. cbn [bind Nat.add Nat.eqb]. rewrite fix_same by congruence.
    rewrite TT. split; [reflexivity|]. split; [exact BE|]. rewrite <- TT. split; [exact H|]. split; [|now rewrite TT].
    intros i j Hj Hi. assert (i = 1 /\ j = 0)%nat as [-> ->] by lia. apply (proj2 H 0%nat). lia.
  - pose proof (proj1 G) as Wt. apply wf3_cols in Wt. destruct Wt as (a & b & c & Et & La & Lb & Lc). rewrite <- TT in H, W, D. rewrite Et in *.
    destruct (settle3 a b c 999 0 G H) as (L & G' & D' & NR & SR & F). exists (tr [a; b; settled a c]).
    unfold LLL. rewrite Et. change max_rounds with (S 999). rewrite L. cbn [bind Nat.add Nat.eqb]. rewrite fix_same by congruence.
    split; [reflexivity|]. split; [split; [now right|split; [apply good_dims; [now right|exact G']|exact (proj2 G')]]|]. split; [exact NR|]. split; [exact SR|].
    intros SE. rewrite <- TT, F; [reflexivity|]. destruct (nondeg3 a b c La Lb Lc D) as (Na & _). apply mu_small; [exact Na|].
    rewrite <- (small3_20 a b c) by auto. rewrite <- TT in SE. apply SE; lia.
Qed.

(** * C99 *)
(** A base that satisfies the condition of Lovasz and is size-reduced is returned as it is. *)
Theorem C99_reduced_unchanged : forall n E, base n E -> lovasz n E -> size_reduced n E -> LLL E = Ok (Plain E).
Proof.
  intros n E BE L S. destruct (LLL_settles n E BE) as (B & LB & _ & _ & _ & F); [split; [exact L|]; intros i Hi; apply S; lia|].
  rewrite (F S) in LB. exact LB.
Qed.
Print Assumptions C99_reduced_unchanged.

(** In two dimensions reducing a second time changes nothing; in three dimensions reducing a third time changes nothing,
    and the base obtained by reducing twice is size-reduced. *)
Theorem C99_again_partial : forall n E, base n E -> distortion n E <= 10 ^ 12 ->
  exists B B', LLL E = Ok (Plain B) /\ LLL B = Ok (Plain B') /\ lovasz n B' /\ size_reduced n B' /\ LLL B' = Ok (Plain B') /\
    (n = 2%nat -> B' = B).
Proof.
  intros n E BE H. destruct (C72_plain n E BE H) as (B & LB & (V & WV & DV & EB) & X1 & X2). pose proof BE as (d & W & D).
  assert (BB : base n B).
  { split; [exact d|]. rewrite EB. assert (0 < n)%nat by (destruct d; lia). split; [apply (wf_mmul n n n); auto using wf_RZ|].
    rewrite (det_mmul n), <- RZ_det, DV, Rmult_1_r by auto using wf_RZ. exact D. }
  destruct (LLL_settles n B BB (conj X1 X2)) as (B' & LB' & BB' & NR & SR & F). exists B, B'.
  split; [exact LB|]. split; [exact LB'|]. split; [apply NR|]. split; [exact SR|]. split; [apply (C99_reduced_unchanged n); auto; apply NR|].
  intros ->. apply F. intros i j Hj Hi. assert (i = 1 /\ j = 0)%nat as [-> ->] by lia. apply (X2 0%nat). lia.
Qed.
Print Assumptions C99_again_partial.

(** In three dimensions reducing a reduced base may change it. *)
Lemma LLL59 : LLL E59 = Ok (Plain B59).
Proof.
  assert (D : det E59 = 1) by (unfold E59; un; lra). assert (D' : det (tr (tr B59)) = 1) by (unfold B59; un; lra).
  unfold LLL. change max_rounds with (S 999). rewrite loop59. cbn [bind Nat.eqb]. rewrite fix_same by lra. reflexivity.
Qed.
Lemma small59 : distortion 3 E59 <= 10 ^ 12.
Proof.
  assert (D : det E59 = 1) by (unfold E59; un; lra).
  assert (F : fro2 3 3 E59 = 108 / 25) by (unfold fro2, E59; mat_unfold_goal; lra).
  assert (I : minv E59 = [[1; - (2/5); 4/5]; [0; 1; -1]; [0; 0; 1]]).
  { symmetry. apply (inv_unique 3); [now right|now apply wfb_spec|now apply wfb_spec|]. unfold E59. mat_eq ltac:(lra). }
  assert (F' : fro2 3 3 (minv E59) = 24 / 5) by (rewrite I; unfold fro2; mat_unfold_goal; lra).
  unfold distortion. rewrite D, F, F'. lra.
Qed.
Theorem C99_refuted : exists E B B', base 3 E /\ distortion 3 E <= 10 ^ 12 /\ LLL E = Ok (Plain B) /\ LLL B = Ok (Plain B') /\ B' <> B.
Proof.
  assert (BE : base 3 E59) by (split; [now right|]; split; [now apply wfb_spec|unfold E59; un; lra]).
  destruct (C99_again_partial 3 E59 BE small59) as (B & B' & L & L' & _ & S & _). rewrite LLL59 in L. injection L as <-.
  exists E59, B59, B'. split; [exact BE|]. split; [exact small59|]. split; [exact LLL59|]. split; [exact L'|]. intros ->.
  specialize (S 2%nat 0%nat ltac:(lia) ltac:(lia)). change B59 with (tr [[1; 0; 0]; [2/5; 1; 0]; [-4/5; 0; 1]]) in S.
  rewrite small3_20 in S by (auto; un; lra). revert S. un. rewrite Rabs_left by lra. lra.
Qed.
Print Assumptions C99_refuted.

(** A reduced base with coefficients exactly 1/2 and -1/2 *)
Example C99_case : exists E, base 3 E /\ lovasz 3 E /\ size_reduced 3 E /\ E = [[2; 1; -1]; [0; 2; 1]; [0; 0; 2]] /\ LLL E = Ok (Plain E).
Proof.
  set (a := [2; 0; 0] : vec R). set (b := [1; 2; 0] : vec R). set (c := [-1; 1; 2] : vec R).
  assert (Da : dot a a = 4) by (unfold a; un; lra).
  assert (C1 : c1 a b = [0; 2; 0]) by (unfold c1, mu; rewrite Da; unfold a, b; un; apply l3; lra).
  assert (C1' : c1 a c = [0; 1; 2]) by (unfold c1, mu; rewrite Da; unfold a, c; un; apply l3; lra).
  exists (tr [a; b; c]). assert (BE : base 3 (tr [a; b; c])) by (split; [now right|]; split; [now apply wfb_spec|unfold a, b, c; un; lra]).
  assert (L : lovasz 3 (tr [a; b; c])) by (apply lovasz3; auto; [lra|]; rewrite C1, C1', Da; unfold b; un; split; lra).
  assert (S : size_reduced 3 (tr [a; b; c])).
  { intros i j Hj Hi. assert ((i = 1 /\ j = 0) \/ (i = 2 /\ j = 0) \/ (i = 2 /\ j = 1))%nat as [[-> ->]|[[-> ->]|[-> ->]]] by lia;
      [rewrite small3_10|rewrite small3_20|rewrite small3_21]; auto; try lra; rewrite ?C1, ?Da; unfold a, b, c; un; [rewrite Rabs_pos_eq|rewrite Rabs_left|rewrite Rabs_pos_eq]; lra. }
  split; [exact BE|]. split; [exact L|]. split; [exact S|]. split; [reflexivity|]. now apply (C99_reduced_unchanged 3).
Qed.
