(** Proofs about the shear tree (C49). *)
From Verif Require Import LinAlg DirectProofs TreeSpec.
Local Open Scope Z_scope.
Local Arguments Z.mul : simpl never.
Local Arguments Z.add : simpl never.
Local Arguments Z.sub : simpl never.
Local Arguments Z.opp : simpl never.

(** I + k e_i e_j for the class number c *)
Definition tpow (c : nat) (k : Z) : mat Z := let '(i, j) := nth c onetotwo (0, 0)%nat in shear i j k.

Lemma wf_shear i j k : wf 3 3 (shear i j k). Proof. apply wf_mk. Qed.
Lemma wf_tpow c k : wf 3 3 (tpow c k). Proof. unfold tpow. destruct (nth c onetotwo _). apply wf_shear. Qed.

Ltac mat3 := unfold mmul, shear, tpow; cbn;
  repeat match goal with
  | |- @eq _ (_ :: _) (_ :: _) => apply f_equal2
  | |- @eq _ [] [] => reflexivity
  end; try ring.

Lemma T_nth i : (i < 12)%nat -> nth i T_ (eye 3) = tpow (i mod 6) (if (i <? 6)%nat then 1 else -1).
Proof.
  intros H. do 12 (destruct i as [|i]; [reflexivity|]). lia.
Qed.
Lemma wf_T i : (i < 12)%nat -> wf 3 3 (nth i T_ (eye 3)).
Proof. intros H. rewrite T_nth by exact H. apply wf_tpow. Qed.
Lemma np_dot_3 a b : wf 3 3 a -> wf 3 3 b -> np_dot a b = Ok (mmul a b).
Proof.
  intros Ha Hb. unfold np_dot. rewrite (ncols_wf' 3 3 a), (nrows_wf 3 3 b) by (auto; lia). reflexivity.
Qed.

Lemma child_lt dim p g i : In i (child_indices dim p g) -> (i < 12)%nat.
Proof. unfold child_indices. intros H. apply filter_In in H. destruct H as [H _]. apply in_seq in H. cbn in H. lia. Qed.

Lemma child_iff p g i : In i (child_indices 3 p g) <->
  (i < 12)%nat /\ gobacktoparent i p = false /\ gobacktouncle i p g = false /\ gobacktosibling i p = false.
Proof.
  unfold child_indices. rewrite filter_In, in_seq. cbn [length T_ map app onetotwo Nat.eqb negb orb].
  rewrite !andb_true_iff, !negb_true_iff. split; intros; repeat split; try tauto; try lia; destruct H; tauto.
Qed.

Lemma det_tpow c k : (c < 6)%nat -> det (tpow c k) = 1.
Proof. intros H. do 6 (destruct c as [|c]; [cbn; ring|]). lia. Qed.

Lemma reached_SL R0 nd : wf 3 3 R0 -> reached R0 nd -> exists P, SL3 P /\ elem nd = mmul R0 P.
Proof.
  intros HR. induction 1 as [|nd i E H (P & [WP DP] & EP) Hi Hd].
  - exists (eye 3). split; [split; [apply wf_eye|reflexivity]|]. cbn [elem]. rewrite (mmul_eye_r 3 3); auto; lia.
  - pose proof (child_lt _ _ _ _ Hi) as Hlt. pose proof (wf_T i Hlt) as WT.
    rewrite np_dot_3 in Hd; [|rewrite EP; apply (wf_mmul 3 3 3); auto; lia|exact WT].
    injection Hd as <-. exists (mmul P (nth i T_ (eye 3))). split.
    + split; [apply (wf_mmul 3 3 3); auto; lia|].
      rewrite (det_mmul_Z 3) by (auto; now right). rewrite DP, T_nth, det_tpow; [reflexivity| |exact Hlt].
      apply Nat.mod_upper_bound. lia.
    + cbn [elem]. rewrite EP. apply (mmul_assoc 3 3 3 3); auto; lia.
Qed.

(** *** exactly which matrices are reached *)
Definition prod6 (k5 k4 k3 k2 k1 k0 : Z) : mat Z :=
  mmul (mmul (mmul (mmul (mmul (tpow 5 k5) (tpow 4 k4)) (tpow 3 k3)) (tpow 2 k2)) (tpow 1 k1)) (tpow 0 k0).
Lemma wf_prod6 a b c d e f : wf 3 3 (prod6 a b c d e f).
Proof. unfold prod6. repeat (apply (wf_mmul 3 3 3); try apply wf_tpow; try lia). Qed.

(** class of the last step; None = 6 *)
Definition cls (p : option nat) : nat := match p with None => 6 | Some p => p mod 6 end.

Definition exps (k : nat -> Z) (p : option nat) : Prop :=
  (forall c, (c < cls p)%nat -> k c = 0) /\ (forall c, (c < 6)%nat -> k c <= 1) /\
  match p with Some p => (6 <= p)%nat -> k (p mod 6)%nat <= 0 | None => True end.

Lemma sibling_cls i p : (i < 12)%nat -> (p < 12)%nat -> gobacktosibling i (Some p) = negb (i mod 6 <=? p mod 6)%nat.
Proof.
  intros Hi Hp.
  assert (H : forallb (fun i => forallb (fun p => Bool.eqb (gobacktosibling i (Some p)) (negb (i mod 6 <=? p mod 6)%nat))
                          (seq 0 12)) (seq 0 12) = true) by (vm_compute; reflexivity).
  rewrite forallb_forall in H. specialize (H i ltac:(apply in_seq; lia)).
  rewrite forallb_forall in H. specialize (H p ltac:(apply in_seq; lia)). now apply Bool.eqb_prop.
Qed.
Lemma uncle_cls i p g : (i < 12)%nat -> (p < 12)%nat -> (g < 12)%nat ->
  (i mod 6 <= p mod 6)%nat -> (p mod 6 <= g mod 6)%nat -> gobacktouncle i (Some p) (Some g) = false.
Proof.
  intros Hi Hp Hg H1 H2.
  assert (H : forallb (fun i => forallb (fun p => forallb (fun g =>
      negb ((i mod 6 <=? p mod 6)%nat && (p mod 6 <=? g mod 6)%nat) || negb (gobacktouncle i (Some p) (Some g)))
      (seq 0 12)) (seq 0 12)) (seq 0 12) = true) by (vm_compute; reflexivity).
  rewrite forallb_forall in H. specialize (H i ltac:(apply in_seq; lia)).
  rewrite forallb_forall in H. specialize (H p ltac:(apply in_seq; lia)).
  rewrite forallb_forall in H. specialize (H g ltac:(apply in_seq; lia)).
  rewrite (proj2 (Nat.leb_le _ _) H1), (proj2 (Nat.leb_le _ _) H2) in H. cbn in H. now apply negb_true_iff in H.
Qed.
Lemma parent_cls i p : (i < 12)%nat -> (p < 12)%nat -> gobacktoparent i (Some p) = (i =? p mod 6)%nat.
Proof.
  intros Hi Hp. unfold gobacktoparent. replace ((p + 6) mod 6)%nat with (p mod 6)%nat; [reflexivity|].
  replace (p + 6)%nat with (p + 1 * 6)%nat by lia. now rewrite Nat.mod_add.
Qed.

(** well-formed bookkeeping of reached nodes *)
Lemma reached_book R0 nd : reached R0 nd ->
  match parent nd with
  | None => grandpa nd = None
  | Some p => (p < 12)%nat /\ match grandpa nd with None => True | Some g => (g < 12)%nat /\ (p mod 6 <= g mod 6)%nat end
  end.
Proof.
  induction 1 as [|nd i E H IH Hi Hd]; [reflexivity|]. cbn.
  pose proof (child_lt _ _ _ _ Hi) as Hlt. split; [exact Hlt|].
  destruct (parent nd) as [p|]; [|exact Logic.I]. destruct IH as [Hp _]. split; [exact Hp|].
  apply child_iff in Hi. destruct Hi as (_ & _ & _ & Hs). rewrite sibling_cls in Hs by auto.
  apply negb_false_iff, Nat.leb_le in Hs. exact Hs.
Qed.

Lemma step_exps k p i : (match p with Some p => p < 12 | None => True end)%nat -> (i < 12)%nat ->
  gobacktoparent i p = false -> gobacktosibling i p = false -> exps k p ->
  exps (fun c => if (c =? i mod 6)%nat then k c + (if (i <? 6)%nat then 1 else -1) else k c) (Some i) /\
  (forall c, (c < i mod 6)%nat -> k c = 0).
Proof.
  intros Hp Hi Hb Hs (X1 & X2 & X3). pose proof (Nat.mod_upper_bound i 6 ltac:(lia)) as M.
  assert (Hc : (i mod 6 <= cls p)%nat).
  { destruct p as [p|]; [|cbn [cls]; lia]. rewrite sibling_cls in Hs by auto. apply negb_false_iff, Nat.leb_le in Hs. exact Hs. }
  assert (Key : k (i mod 6)%nat = 0 \/ ((6 <= i)%nat /\ k (i mod 6)%nat <= 1)).
  { destruct (Nat.eq_dec (i mod 6) (cls p)) as [E|E]; [|left; apply X1; lia]. right.
    destruct p as [p|]; [|cbn [cls] in E; lia]. cbn [cls] in E. rewrite parent_cls in Hb by auto. apply Nat.eqb_neq in Hb.
    split; [|apply X2; exact M].
    destruct (Nat.lt_ge_cases i 6) as [H|H]; [|exact H]. rewrite (Nat.mod_small i 6) in E by exact H. congruence. }
  assert (Z0 : forall c, (c < i mod 6)%nat -> k c = 0) by (intros c H; apply X1; lia).
  split; [|exact Z0]. split; [|split].
  - intros c H. cbn [cls] in H. destruct (Nat.eqb_spec c (i mod 6)); [lia|]. auto.
  - intros c H. destruct (Nat.eqb_spec c (i mod 6)) as [->|N]; [|auto].
    destruct (Nat.ltb_spec i 6); destruct Key as [->|[? ?]]; lia.
  - intros H. rewrite Nat.eqb_refl. destruct (Nat.ltb_spec i 6); [lia|]. destruct Key as [->|[? ?]]; lia.
Qed.

Lemma prod6_val a b c d e f : prod6 a b c d e f =
  [[1; f; e]; [d; d * f + 1; d * e + c]; [a * d + b; a * (d * f + 1) + b * f; a * (d * e + c) + b * e + 1]].
Proof. unfold prod6. mat3. Qed.

Lemma prod6_step (k : nat -> Z) i : (i < 12)%nat -> (forall c, (c < i mod 6)%nat -> k c = 0) ->
  let k' := fun c => if (c =? i mod 6)%nat then k c + (if (i <? 6)%nat then 1 else -1) else k c in
  mmul (prod6 (k 5%nat) (k 4%nat) (k 3%nat) (k 2%nat) (k 1%nat) (k 0%nat)) (nth i T_ (eye 3)) =
  prod6 (k' 5%nat) (k' 4%nat) (k' 3%nat) (k' 2%nat) (k' 1%nat) (k' 0%nat).
Proof.
  intros Hi Hz k'. rewrite T_nth by exact Hi. unfold k'. clear k'. rewrite !prod6_val.
  assert (Z0 : (0 < i mod 6)%nat -> k 0%nat = 0) by (apply Hz).
  assert (Z1 : (1 < i mod 6)%nat -> k 1%nat = 0) by (apply Hz).
  assert (Z2 : (2 < i mod 6)%nat -> k 2%nat = 0) by (apply Hz).
  assert (Z3 : (3 < i mod 6)%nat -> k 3%nat = 0) by (apply Hz).
  assert (Z4 : (4 < i mod 6)%nat -> k 4%nat = 0) by (apply Hz).
  clear Hz. generalize dependent (k 0%nat). generalize dependent (k 1%nat). generalize dependent (k 2%nat).
  generalize dependent (k 3%nat). generalize dependent (k 4%nat). generalize (k 5%nat). intros k5 k4 Z4 k3 Z3 k2 Z2 k1 Z1 k0 Z0.
  do 12 (destruct i as [|i];
    [cbn in Z0, Z1, Z2, Z3, Z4;
     rewrite ?Z0, ?Z1, ?Z2, ?Z3, ?Z4 by lia; mat3|]). lia.
Qed.

Lemma reached_exps R0 nd : wf 3 3 R0 -> reached R0 nd -> exists k, exps k (parent nd) /\
  elem nd = mmul R0 (prod6 (k 5%nat) (k 4%nat) (k 3%nat) (k 2%nat) (k 1%nat) (k 0%nat)).
Proof.
  intros HR H. induction H as [|nd i E H (k & Hk & Ek) Hi Hd].
  - exists (fun _ => 0). split; [split; [reflexivity|split; [intros; lia|exact Logic.I]]|].
    cbn [elem]. replace (prod6 0 0 0 0 0 0) with (@eye Z _ 3) by reflexivity. now rewrite (mmul_eye_r 3 3) by (auto; lia).
  - pose proof (child_lt _ _ _ _ Hi) as Hlt. pose proof (reached_book _ _ H) as Hb.
    apply child_iff in Hi. destruct Hi as (_ & H1 & _ & H2).
    destruct (step_exps k (parent nd) i) as [S1 S2]; auto.
    { destruct (parent nd); [apply Hb|exact Logic.I]. }
    eexists. split; [exact S1|]. cbn [elem].
    rewrite np_dot_3 in Hd; [|rewrite Ek; apply (wf_mmul 3 3 3); auto; try lia; apply wf_prod6|now apply wf_T].
    injection Hd as <-. rewrite Ek, (mmul_assoc 3 3 3 3) by (try lia; try exact HR; first [apply wf_prod6|now apply wf_T]).
    f_equal. now apply prod6_step.
Qed.

(** extend a path by a power of one shear *)
Lemma reached_pow R0 nd c m : wf 3 3 R0 -> reached R0 nd -> (c < 6)%nat -> (c < cls (parent nd))%nat -> m <= 1 ->
  exists nd', reached R0 nd' /\ elem nd' = mmul (elem nd) (tpow c m) /\ (c <= cls (parent nd'))%nat.
Proof.
  intros HR H Hc Hcl Hm.
  assert (WE : forall nd, reached R0 nd -> wf 3 3 (elem nd)).
  { intros x Hx. destruct (reached_SL R0 x HR Hx) as (P & [WP _] & ->). apply (wf_mmul 3 3 3); auto; lia. }
  (* one more step of index i, allowed by the class of the parent *)
  assert (Go : forall x i, reached R0 x -> (i < 12)%nat -> (i mod 6 <= cls (parent x))%nat ->
             gobacktoparent i (parent x) = false ->
             reached R0 (Node (mmul (elem x) (nth i T_ (eye 3))) (Some i) (parent x))).
  { intros x i Hx Hi Hle Hb. eapply reached_child; [exact Hx| |apply np_dot_3; [now apply WE|now apply wf_T]].
    pose proof (reached_book _ _ Hx) as Bk. apply child_iff. split; [exact Hi|]. split; [exact Hb|].
    destruct (parent x) as [p|]; [|split; reflexivity]. destruct Bk as [Hp Bk]. cbn [cls] in Hle. split.
    - destruct (grandpa x) as [g|]; [|reflexivity]. destruct Bk. now apply uncle_cls.
    - rewrite sibling_cls by auto. apply negb_false_iff, Nat.leb_le. exact Hle. }
  assert (NB : forall i, (i < 12)%nat -> (i mod 6 < cls (parent nd))%nat -> gobacktoparent i (parent nd) = false).
  { intros i Hi Hl. pose proof (reached_book _ _ H) as Bk. destruct (parent nd) as [p|]; [|reflexivity].
    destruct Bk as [Hp _]. rewrite parent_cls by auto. cbn [cls] in Hl. apply Nat.eqb_neq. intros ->.
    rewrite Nat.mod_mod in Hl by lia. lia. }
  assert (M6 : ((c + 6) mod 6 = c)%nat).
  { replace (c + 6)%nat with (c + 1 * 6)%nat by lia. rewrite Nat.mod_add by lia. now apply Nat.mod_small. }
  assert (Neg : forall n, exists nd', reached R0 nd' /\ elem nd' = mmul (elem nd) (tpow c (- Z.of_nat n)) /\
            ((n = O /\ nd' = nd) \/ parent nd' = Some (c + 6)%nat)).
  { induction n as [|n (x & Hx & Ex & Px)].
    - exists nd. split; [exact H|]. split; [|now left].
      replace (tpow c (- Z.of_nat 0)) with (@eye Z _ 3); [now rewrite (mmul_eye_r 3 3) by (auto; lia)|].
      do 6 (destruct c as [|c]; [reflexivity|]). lia.
    - assert (G : reached R0 (Node (mmul (elem x) (nth (c + 6) T_ (eye 3))) (Some (c + 6)%nat) (parent x))).
      { apply Go; auto; [lia| |].
        - rewrite M6. destruct Px as [[_ ->] | -> ]; cbn [cls]; rewrite ?M6; lia.
        - destruct Px as [[_ ->] | -> ].
          + apply NB; [lia|]. now rewrite M6.
          + rewrite parent_cls by lia. rewrite M6. apply Nat.eqb_neq. lia. }
      eexists. split; [exact G|]. cbn [elem parent]. split; [|now right].
      rewrite T_nth by lia. rewrite M6. destruct (Nat.ltb_spec (c + 6) 6); [lia|].
      rewrite Ex, (mmul_assoc 3 3 3 3) by (try lia; first [apply wf_tpow|now apply WE]). f_equal.
      rewrite Nat2Z.inj_succ. generalize (Z.of_nat n). intros z.
      clear -Hc. do 6 (destruct c as [|c]; [mat3|]). lia. }
  destruct (Z.eq_dec m 1) as [->|Nm].
  - eexists. split; [apply (Go nd c); auto; try lia|].
    + rewrite Nat.mod_small by lia. lia.
    + apply NB; [lia|]. now rewrite Nat.mod_small by lia.
    + cbn [elem parent cls]. rewrite T_nth, Nat.mod_small by lia. destruct (Nat.ltb_spec c 6); [|lia].
      split; [reflexivity|lia].
  - destruct (Neg (Z.to_nat (- m))) as (x & Hx & Ex & Px). rewrite Z2Nat.id in Ex by lia. rewrite Z.opp_involutive in Ex.
    exists x. split; [exact Hx|]. split; [exact Ex|]. destruct Px as [[_ ->] | -> ]; [lia|]. cbn [cls]. rewrite ?M6. lia.
Qed.

Theorem reached_exactly R0 E : wf 3 3 R0 ->
  (exists nd, reached R0 nd /\ elem nd = E) <->
  (exists a b c d e f, a <= 1 /\ b <= 1 /\ c <= 1 /\ d <= 1 /\ e <= 1 /\ f <= 1 /\
     E = mmul R0 (mmul (mmul (mmul (mmul (mmul (shear 2 1 a) (shear 2 0 b)) (shear 1 2 c)) (shear 1 0 d))
                         (shear 0 2 e)) (shear 0 1 f))).
Proof.
  intros HR. split.
  - intros (nd & H & <-). destruct (reached_exps R0 nd HR H) as (k & (_ & X & _) & Ek).
    exists (k 5%nat), (k 4%nat), (k 3%nat), (k 2%nat), (k 1%nat), (k 0%nat).
    repeat (split; [apply X; lia|]). exact Ek.
  - intros (a & b & c & d & e & f & Ha & Hb & Hc & Hd & He & Hf & ->).
    pose proof (reached_root R0) as H0.
    destruct (reached_pow R0 _ 5 a HR H0 ltac:(lia) ltac:(cbn; lia) Ha) as (n5 & H5 & E5 & C5).
    destruct (reached_pow R0 n5 4 b HR H5 ltac:(lia) ltac:(lia) Hb) as (n4 & H4 & E4 & C4).
    destruct (reached_pow R0 n4 3 c HR H4 ltac:(lia) ltac:(lia) Hc) as (n3 & H3 & E3 & C3).
    destruct (reached_pow R0 n3 2 d HR H3 ltac:(lia) ltac:(lia) Hd) as (n2 & H2 & E2 & C2).
    destruct (reached_pow R0 n2 1 e HR H2 ltac:(lia) ltac:(lia) He) as (n1 & H1 & E1 & C1).
    destruct (reached_pow R0 n1 0 f HR H1 ltac:(lia) ltac:(lia) Hf) as (n0 & H00 & E0 & C0).
    exists n0. split; [exact H00|]. rewrite E0, E1, E2, E3, E4, E5. cbn [elem].
    repeat (rewrite (mmul_assoc 3 3 3 3 R0) by (try lia; auto; try apply wf_tpow; repeat (apply (wf_mmul 3 3 3); try lia; try apply wf_tpow))).
    reflexivity.
Qed.

Lemma not_reached : ~ exists nd, reached (eye 3) nd /\ elem nd = shear 0 1 2.
Proof.
  intros (nd & H & E). destruct (reached_exps _ nd (wf_eye 3) H) as (k & (_ & X & _) & Ek).
  rewrite E, (mmul_eye_l 3 3) in Ek by (try lia; apply wf_prod6). rewrite prod6_val in Ek.
  apply (f_equal (fun M => get M 0 1)) in Ek. cbn in Ek. specialize (X 0%nat ltac:(lia)). lia.
Qed.
