From Verif Require Import GroupModel GroupProofs RotProofs DirectProofs.
From Verif Require Export LLLProofs.
Local Open Scope R_scope.

(** * Determinants and column operations, dimensions 2 and 3 *)
Ltac w3 H := apply len3_inv in H; destruct H as (? & ? & ? & ->).
Ltac w2 H := apply len2_inv in H; destruct H as (? & ? & ->).
Ltac un := unfold vscale, vsub, vadd; mat_unfold_goal.

Lemma dot0_3 (x : vec R) : length x = 3%nat -> dot x x = 0 -> x = [0; 0; 0].
Proof. intros L H. w3 L. cbv [dot sumn length vget nth add mul zero R_ops] in H. f_equal; [nra|]. f_equal; [nra|]. f_equal. nra. Qed.
Lemma dot0_2 (x : vec R) : length x = 2%nat -> dot x x = 0 -> x = [0; 0].
Proof. intros L H. w2 L. cbv [dot sumn length vget nth add mul zero R_ops] in H. f_equal; [nra|]. f_equal. nra. Qed.

Lemma det3_b a b c k : length a = 3%nat -> length b = 3%nat -> length c = 3%nat ->
  det (tr [a; vsub b (vscale k a); c]) = det (tr [a; b; c]).
Proof. intros A B C. w3 A. w3 B. w3 C. un. ring. Qed.
Lemma det3_c a b c k l : length a = 3%nat -> length b = 3%nat -> length c = 3%nat ->
  det (tr [a; b; vsub (vsub c (vscale k a)) (vscale l b)]) = det (tr [a; b; c]).
Proof. intros A B C. w3 A. w3 B. w3 C. un. ring. Qed.
Lemma det2_b a b k : length a = 2%nat -> length b = 2%nat -> det (tr [a; vsub b (vscale k a)]) = det (tr [a; b]).
Proof. intros A B. w2 A. w2 B. un. ring. Qed.

Lemma nondeg3 a b c : length a = 3%nat -> length b = 3%nat -> length c = 3%nat -> det (tr [a; b; c]) <> 0 ->
  dot a a <> 0 /\ dot (c1 a b) (c1 a b) <> 0 /\ dot (c2 a b c) (c2 a b c) <> 0.
Proof.
  intros A B C D. split; [|split]; intros H; apply D.
  - apply dot0_3 in H; [|exact A]. rewrite H. clear - B C. w3 B. w3 C. un. ring.
  - apply dot0_3 in H; [|now apply (len_c1 3)]. rewrite <- (det3_b a b c (mu b a)) by auto. fold (c1 a b). rewrite H. clear - A C. w3 A. w3 C. un. ring.
  - apply dot0_3 in H; [|now apply (len_c2 3)]. pose proof (len_c1 3 a b B) as L1.
    assert (E : det (tr [a; b; c]) = det (tr [a; c1 a b; c2 a b c])).
    { unfold c2. rewrite det3_c by auto. unfold c1. now rewrite det3_b. }
    rewrite E, H. clear - A L1. revert L1. generalize (c1 a b). intros d L1. w3 A. w3 L1. un. ring.
Qed.
Lemma nondeg2 a b : length a = 2%nat -> length b = 2%nat -> det (tr [a; b]) <> 0 ->
  dot a a <> 0 /\ dot (c1 a b) (c1 a b) <> 0.
Proof.
  intros A B D. split; intros H; apply D.
  - apply dot0_2 in H; [|exact A]. rewrite H. clear - B. w2 B. un. ring.
  - apply dot0_2 in H; [|now apply (len_c1 2)]. rewrite <- (det2_b a b (mu b a)) by auto. fold (c1 a b). rewrite H. clear - A. w2 A. un. ring.
Qed.

(** * Unimodular steps *)
Definition unimodular (n : nat) (W : mat Z) : Prop := wf n n W /\ (det W = 1 \/ det W = -1)%Z.
Definition reach (n : nat) (B B' : list (vec R)) : Prop := exists W, unimodular n W /\ tr B' = mmul (tr B) (RZ W).
Definition good (n : nat) (B : list (vec R)) : Prop := wf n n B /\ det (tr B) <> 0.

Lemma good_dims n B : dim23 n -> good n B -> wf n n (tr B).
Proof. intros [-> | ->] [W _]; apply wf_tr'; auto; lia. Qed.
Lemma reach_refl n B : dim23 n -> good n B -> reach n B B.
Proof.
  intros d G. exists (eye n). split; [split; [apply wf_mk|left; destruct d as [-> | ->]; reflexivity]|].
  replace (RZ (eye n)) with (eye n : mat R) by (destruct d as [-> | ->]; reflexivity). symmetry. apply (mmul_eye_r n n); [apply good_dims; auto|destruct d; lia].
Qed.
Lemma reach_trans n A B C : dim23 n -> good n A -> reach n A B -> reach n B C -> reach n A C.
Proof.
  intros d G (W & [WW DW] & E1) (V & [WV DV] & E2). exists (mmul W V). assert (0 < n)%nat by (destruct d; lia). split.
  - split; [apply (wf_mmul n n n); auto|]. rewrite (det_mmul_Z n) by auto. destruct DW as [-> | ->], DV as [-> | ->]; auto.
  - rewrite E2, E1. rewrite RZ_mmul. apply (mmul_assoc n n n n); auto using wf_RZ. now apply good_dims.
Qed.

Lemma good_reach n A B : dim23 n -> good n A -> wf n n B -> reach n A B -> good n B.
Proof.
  intros d G W (V & [WV DV] & E). split; [exact W|]. rewrite E, (det_mmul n), <- RZ_det by (auto using wf_RZ; now apply good_dims).
  apply Rmult_integral_contrapositive_currified; [apply G|]. destruct DV as [-> | ->]; lra.
Qed.
Lemma wf3_cols (B : list (vec R)) : wf 3 3 B <-> exists a b c, B = [a; b; c] /\ length a = 3%nat /\ length b = 3%nat /\ length c = 3%nat.
Proof.
  split.
  - intros [L H]. destruct B as [|a [|b [|c [|]]]]; try discriminate. exists a, b, c. repeat split; apply H; cbn; auto.
  - intros (a & b & c & -> & HA & HB & HC). split; [reflexivity|]. intros r [<-|[<-|[<-|[]]]]; assumption.
Qed.
Lemma wf2_cols (B : list (vec R)) : wf 2 2 B <-> exists a b, B = [a; b] /\ length a = 2%nat /\ length b = 2%nat.
Proof.
  split.
  - intros [L H]. destruct B as [|a [|b [|]]]; try discriminate. exists a, b. repeat split; apply H; cbn; auto.
  - intros (a & b & -> & HA & HB). split; [reflexivity|]. intros r [<-|[<-|[]]]; assumption.
Qed.

(** a linear combination of columns with the coefficients in the columns of G *)
Lemma cols3 a b c (g : mat Z) p q r : length a = 3%nat -> length b = 3%nat -> length c = 3%nat -> wf 3 3 g ->
  p = vadd (vadd (vscale (IZR (get g 0 0)) a) (vscale (IZR (get g 1 0)) b)) (vscale (IZR (get g 2 0)) c) ->
  q = vadd (vadd (vscale (IZR (get g 0 1)) a) (vscale (IZR (get g 1 1)) b)) (vscale (IZR (get g 2 1)) c) ->
  r = vadd (vadd (vscale (IZR (get g 0 2)) a) (vscale (IZR (get g 1 2)) b)) (vscale (IZR (get g 2 2)) c) ->
  tr [p; q; r] = mmul (tr [a; b; c]) (RZ g).
Proof.
  intros A B C G -> -> ->. w3 A. w3 B. w3 C. apply wf3_inv in G. destruct G as (? & ? & ? & ? & ? & ? & ? & ? & ? & ->).
  unfold RZ, mmap, vscale, vadd. mat_eq ltac:(ring).
Qed.
Lemma cols2 a b (g : mat Z) p q : length a = 2%nat -> length b = 2%nat -> wf 2 2 g ->
  p = vadd (vscale (IZR (get g 0 0)) a) (vscale (IZR (get g 1 0)) b) ->
  q = vadd (vscale (IZR (get g 0 1)) a) (vscale (IZR (get g 1 1)) b) ->
  tr [p; q] = mmul (tr [a; b]) (RZ g).
Proof.
  intros A B G -> ->. w2 A. w2 B. apply wf2_inv in G. destruct G as (? & ? & ? & ? & ->).
  unfold RZ, mmap, vscale, vadd. mat_eq ltac:(ring).
Qed.
Lemma reach_gauss3 a b c : length a = 3%nat -> length b = 3%nat -> length c = 3%nat -> reach 3 [a; b; c] [a; rb a b; rc a b c].
Proof.
  intros A B C. set (k := rint (mu b a)). set (p := rint (mu c a)). set (q := rint (mu c (c1 a b))).
  exists [[1; - k; q * k - p]; [0; 1; - q]; [0; 0; 1]]%Z. split; [split; [now apply wfb_spec|left; mat_unfold_goal; ring]|].
  apply cols3; auto; try (now apply wfb_spec); cbv [get nth]; rewrite ?minus_IZR, ?opp_IZR, ?mult_IZR; unfold rb, rc; fold k p q; [| |unfold rb; fold k];
  vring 3%nat; ring.
Qed.
Lemma reach_gauss2 a b : length a = 2%nat -> length b = 2%nat -> reach 2 [a; b] [a; rb a b].
Proof.
  intros A B. set (k := rint (mu b a)). exists [[1; - k]; [0; 1]]%Z. split; [split; [now apply wfb_spec|left; mat_unfold_goal; ring]|].
  apply cols2; auto; try (now apply wfb_spec); cbv [get nth]; rewrite ?opp_IZR; unfold rb; fold k; vring 2%nat; ring.
Qed.
Lemma reach_swap n B i : dim23 n -> wf n n B -> (i + 1 < n)%nat -> reach n B (swap_at i B).
Proof.
  intros [-> | ->] W Hi.
  - apply wf2_cols in W. destruct W as (a & b & -> & HA & HB). assert (i = 0)%nat by lia. subst i. exists [[0; 1]; [1; 0]]%Z. split; [split; [now apply wfb_spec|right; reflexivity]|].
    apply cols2; auto; try (now apply wfb_spec); cbv [get nth]; cbn [nth Nat.add]; vring 2%nat; ring.
  - apply wf3_cols in W. destruct W as (a & b & c & -> & HA & HB & HC). assert (i = 0 \/ i = 1)%nat as [-> | ->] by lia.
    + exists [[0; 1; 0]; [1; 0; 0]; [0; 0; 1]]%Z. split; [split; [now apply wfb_spec|right; reflexivity]|].
      apply cols3; auto; try (now apply wfb_spec); cbv [get nth]; cbn [nth Nat.add]; vring 3%nat; ring.
    + exists [[1; 0; 0]; [0; 0; 1]; [0; 1; 0]]%Z. split; [split; [now apply wfb_spec|right; reflexivity]|].
      apply cols3; auto; try (now apply wfb_spec); cbv [get nth]; cbn [nth Nat.add]; vring 3%nat; ring.
Qed.
Lemma wf_swap n B i : dim23 n -> wf n n B -> (i + 1 < n)%nat -> wf n n (swap_at i B).
Proof.
  intros [-> | ->] W Hi.
  - apply wf2_cols in W. destruct W as (a & b & -> & HA & HB). assert (i = 0)%nat by lia. subst i. apply wf2_cols. exists b, a. auto.
  - apply wf3_cols in W. destruct W as (a & b & c & -> & HA & HB & HC). assert (i = 0 \/ i = 1)%nat as [-> | ->] by lia; apply wf3_cols.
    + exists b, a, c. auto.
    + exists a, c, b. auto.
Qed.
