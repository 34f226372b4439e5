(** The three distances as functions of the deformed base (C79): uniqueness, finiteness, symmetry. *)
From Coq Require Import Permutation.
From Verif Require Import LinAlg Hom Eig Spectral RMat Flat GroupModel GroupProofs LatticeSpec DistModel DistSpec DistProofs DistProofs2 DirectConcSpec DirectConcrete DirectConcProofs VecGenModel VecGenProofs
  TreeSpec TreeConc LatCorModel LatCorSpec LatCorProofs ReduceSpec PropOutput.
Local Open Scope R_scope.

Lemma d3 : dim23 3. Proof. now right. Qed.

Lemma trace_eigen C l1 l2 l3 V : eigen 3 C [l1; l2; l3] V -> trace C = l1 + l2 + l3.
Proof.
  intros H. pose proof H as (WC & _). pose proof (charpoly_eigen 3 C _ V 0 d3 H) as P0.
  pose proof (charpoly_eigen 3 C _ V 1 d3 H) as P1. pose proof (charpoly_eigen 3 C _ V (-1) d3 H) as P2.
  destruct (wf3_inv C WC) as (a & b & c & d & e & f & g & h & i & ->). unfold charpoly, prod_root in *. cbn in *. lra.
Qed.
Lemma trace_bound (A B : mat R) : wf 3 3 A -> wf 3 3 B -> trace A <= trace B + 3 + fro2 3 3 (msub A B).
Proof.
  intros WA WB. destruct (wf3_inv A WA) as (a & b & c & d & e & f & g & h & i & ->). destruct (wf3_inv B WB) as (a' & b' & c' & d' & e' & f' & g' & h' & i' & ->).
  cbn. assert (Q : forall x y, x <= y + 1 + (x - y) * (x - y)) by (intros x y; pose proof (Rle_0_sqr (x - y)); unfold Rsqr in *; nra).
  pose proof (Q a a'). pose proof (Q e e'). pose proof (Q i i').
  assert (P : forall x, 0 <= x * x) by (intros; nra). pose proof (P (b - b')). pose proof (P (c - c')). pose proof (P (d - d')).
  pose proof (P (f - f')). pose proof (P (g - g')). pose proof (P (h - h')). lra.
Qed.

Lemma has_distance_unique w E1 E2 F d d' : base 3 E2 -> has_distance w E1 E2 F d -> has_distance w E1 E2 F d' -> d = d'.
Proof.
  intros (_ & W2 & D2). destruct w; cbn [has_distance].
  - congruence.
  - destruct (Eric_val 3 [] E2 E2 d3 W2 W2 D2) as (nf & P & -> & _). intros H H'.
    apply (Rmult_eq_reg_r (fro2 3 3 (mmul (tr E2) E2))); [congruence|lra].
  - intros (l1 & l2 & l3 & V & H & ->) (m1 & m2 & m3 & V' & H' & ->). pose proof (eigen_perm 3 _ _ _ _ _ d3 H H') as P.
    apply (Permutation_map (fun x => (sqrt x - 1) ^ 2)) in P. apply vsum_perm in P. unfold vsum in P. cbn in P |- *. lra.
Qed.

Lemma has_distance_bound w E2 D : base 3 E2 -> exists B, forall X d, wf 3 3 X ->
  has_distance w X E2 (mmul X (minv E2)) d -> d <= D -> fro2 3 3 X <= B.
Proof.
  intros (_ & W2 & D2). pose proof (wf_minv 3 E2 d3 W2) as WI.
  assert (K : forall X, wf 3 3 X -> fro2 3 3 X <= trace (mmul (mmul X (minv E2)) (tr (mmul X (minv E2)))) * fro2 3 3 E2).
  { intros X WX. rewrite <- (fro2_trace_r 3 3) by (auto using wf3m; lia).
    rewrite <- (mmul_eye_r 3 3 X) at 1 by (auto; lia). rewrite <- (minv_l 3 E2), <- assoc3 by (auto using d3). apply fro2_mmul_le; auto using wf3m; lia. }
  pose proof (fro2_nonneg 3 3 E2) as P2. destruct w; cbn [has_distance].
  - exists ((6 + D) * fro2 3 3 E2). intros X d WX -> HD. eapply Rle_trans; [now apply K|]. apply Rmult_le_compat_r; [exact P2|].
    assert (WC : wf 3 3 (mmul (mmul X (minv E2)) (tr (mmul X (minv E2))))) by auto using wf3m, wf3t.
    pose proof (trace_bound _ (eye 3) WC (wf_eye 3)) as T. change (trace (eye 3)) with (0 + 1 + 1 + 1) in T. lra.
  - destruct (Eric_val 3 [] E2 E2 d3 W2 W2 D2) as (nf & P & -> & _).
    exists (trace (mmul (tr E2) E2) + 3 + D * fro2 3 3 (mmul (tr E2) E2)). intros X d WX H HD.
    pose proof (trace_bound (mmul (tr X) X) (mmul (tr E2) E2) ltac:(auto using wf3m, wf3t) ltac:(auto using wf3m, wf3t)) as T.
    rewrite (fro2_trace 3 3) by (auto; lia). apply (Rmult_le_compat_r (fro2 3 3 (mmul (tr E2) E2))) in HD; lra.
  - exists ((6 + 2 * D) * fro2 3 3 E2). intros X d WX (l1 & l2 & l3 & V & H & ->) HD. eapply Rle_trans; [now apply K|]. apply Rmult_le_compat_r; [exact P2|].
    rewrite (trace_eigen _ _ _ _ _ H).
    assert (WF : wf 3 3 (mmul X (minv E2))) by auto using wf3m. pose proof (eigen_gram_nonneg 3 _ _ _ d3 WF H) as Hp.
    assert (Q : forall l, 0 <= l -> l <= 2 + 2 * (sqrt l - 1) ^ 2) by (intros l Hl; pose proof (sqrt_sqrt l Hl); pose proof (Rle_0_sqr (sqrt l - 2)); unfold Rsqr in *; nra).
    pose proof (Q l1 (Hp 0%nat ltac:(lia))). pose proof (Q l2 (Hp 1%nat ltac:(lia))). pose proof (Q l3 (Hp 2%nat ltac:(lia))). lra.
Qed.

Lemma integer_ball E1 B : base 3 E1 -> exists S, forall L : mat Z, wf 3 3 L -> fro2 3 3 (mmul E1 (RZ L)) <= B -> In L S.
Proof.
  intros (_ & W1 & D1). pose proof (wf_minv 3 E1 d3 W1) as WI.
  destruct (gen_fresh (sqrt (fro2 3 3 (minv E1) * B)) 9) as (S & _ & _ & _ & HS); [apply sqrt_pos|lia|].
  exists (map (reshape 3) S). intros L WL HB. apply in_map_iff. exists (flatten L). split; [now apply reshape_flatten|].
  apply HS. split; [now rewrite (length_flatten 3 3)|]. apply sqrt_le_1_alt. rewrite <- len2_IZR, (len2_fro 3) by (rewrite map_length; now rewrite (length_flatten 3 3)).
  rewrite reshape_RZ by exact WL. pose proof (wf_RZ 3 3 L WL) as WR.
  rewrite <- (mmul_eye_l 3 3 (RZ L)), <- (minv_l 3 E1), assoc3 by (auto using d3; lia).
  eapply Rle_trans; [apply fro2_mmul_le; auto using wf3m; lia|]. apply Rmult_le_compat_l; [apply fro2_nonneg|exact HB].
Qed.

(** a distance function in the sense of lat_opt *)
Definition computes (w : distance) (E1 E2 : mat R) (f : mat Z -> R) : Prop :=
  forall l, wf 3 3 l -> has_distance w (mmul E1 (RZ l)) E2 (mmul (mmul E1 (RZ l)) (minv E2)) (f l).

Lemma computes_finite w E1 E2 f : base 3 E1 -> base 3 E2 -> computes w E1 E2 f -> finitely_many_closer f.
Proof.
  intros B1 B2 HF d. destruct (has_distance_bound w E2 d B2) as (B & HB). destruct (integer_ball E1 B B1) as (S & HS).
  exists S. intros L WL HL. apply HS; [exact WL|]. apply (HB _ (f L)); auto. apply wf3m; [apply B1|now apply wf_RZ].
Qed.
Lemma computes_assoc w EA E2 h f f' : wf 3 3 EA -> base 3 E2 -> wf 3 3 h -> computes w EA E2 f -> computes w (mmul EA (RZ h)) E2 f' ->
  forall l, wf 3 3 l -> f' l = f (mmul h l).
Proof.
  intros WA B2 Wh HF HF' l Wl. assert (W : wf 3 3 (mmul h l)) by (apply (wf_mmul 3 3 3); auto; lia).
  apply (has_distance_unique w (mmul EA (RZ (mmul h l))) E2 (mmul (mmul EA (RZ (mmul h l))) (minv E2))); [exact B2| |now apply HF].
  pose proof (HF' l Wl) as K. rewrite RZ_mmul. rewrite assoc3 in K by auto using wf_RZ. exact K.
Qed.

(** the condition under which the distance respects the symmetries *)
Definition respects (w : distance) (LG2 : list (mat Z)) : Prop :=
  match w with dEricksen => forall M, In M LG2 -> orthogonal 3 (RZ M) | _ => True end.
Lemma computes_symmetric w E1 E2 LG1 LG2 f : lattice_pair 3 E1 E2 LG1 LG2 -> respects w LG2 -> computes w E1 E2 f ->
  symmetric_dist 3 LG1 LG2 f.
Proof.
  intros HP HR HF L L' WL WL' (q1 & q2 & H1 & H2 & EL). pose proof HP as (Hd & W1 & W2 & D1 & D2 & G1 & G2 & I1 & I2).
  assert (B2 : base 3 E2) by (split; [exact Hd|now split]).
  assert (Wq1 : wf 3 3 q1) by now apply G1. assert (Wq2 : wf 3 3 q2) by now apply G2.
  pose proof (HF L WL) as K. pose proof (HF L' WL') as K'.
  destruct w.
  - cbn [has_distance] in K, K'. rewrite K, K'. pose proof (tree_dist_symmetric 3 E1 E2 LG1 LG2 HP L L' WL WL') as T.
    unfold tree_dist, lat_dist in T. rewrite !(Cauchy_fro 3), !reshape_RZ in T by (auto; try apply wf_minv; auto; lia). apply T. exists q1, q2. auto.
  - destruct (Eric_value L E1 E2 W1 B2 WL (mmul (mmul E1 (RZ L)) (minv E2))) as (d & V & K2).
    destruct (Eric_value L' E1 E2 W1 B2 WL' (mmul (mmul E1 (RZ L')) (minv E2))) as (d' & V' & K2').
    rewrite (has_distance_unique _ _ _ _ _ _ B2 K K2), (has_distance_unique _ _ _ _ _ _ B2 K' K2').
    assert (X : Eric_dist (map IZR (flatten L')) E1 E2 = Eric_dist (map IZR (flatten L)) E1 E2); [|congruence].
    apply (Eric_sym_l 3 _ _ E1 E2 (RZ q1) (RZ q2)); auto. rewrite !reshape_RZ by auto. now rewrite <- !RZ_mmul, EL.
  - cbn [has_distance] in K, K'. destruct K as (l1 & l2 & l3 & V & H & ->). destruct K' as (m1 & m2 & m3 & V' & H' & ->).
    destruct (Cinv_sym 3 E1 E2 (RZ q1) (RZ q2) (RZ L) d3 W1 W2 (wf_RZ 3 3 L WL) D2 (I1 q1 H1) (I2 q2 H2)) as (Q & HQ & EC). cbn zeta in EC. unfold Finv_of in EC.
    rewrite <- !RZ_mmul, <- EL in EC. rewrite EC in H'. destruct (orth_inv 3 Q d3 HQ) as [EI DQ]. rewrite <- EI in H'.
    pose proof (eigen_conj 3 _ _ _ Q d3 (orth_wf 3 Q HQ) DQ H) as H3. pose proof (eigen_perm 3 _ _ _ _ _ d3 H3 H') as P.
    apply (Permutation_map (fun x => (sqrt x - 1) ^ 2)) in P. apply vsum_perm in P. unfold vsum in P. cbn in P |- *. lra.
Qed.

Lemma distance_exists eig name E1 E2 : wf 3 3 E1 -> base 3 E2 -> eig_correct 3 eig -> name <> OtherName ->
  exists w f, which_of name = Some w /\ distance_fn (fun C => fst (eig C)) name E1 E2 = Ok (Some f) /\ computes w E1 E2 f.
Proof.
  intros W1 B2 He Hn. pose proof B2 as (Hd & W2 & D2).
  assert (X : exists f, distance_fn (fun C => fst (eig C)) name E1 E2 = Ok (Some f)).
  { destruct name; cbn [distance_fn]; try contradiction; [rewrite (inv_Ok 3) by auto; cbn [bind]; eauto| |rewrite (inv_Ok 3) by auto; cbn [bind]; eauto].
    destruct (Eric_val 3 (map IZR (flatten (eye (length E1)))) E1 E2 d3 W1 W2 D2) as (nf & _ & _ & ->). cbn [bind]. eauto. }
  destruct X as (f & Hf). destruct (distance_ok eig name E1 E2 f W1 B2 He Hf) as (w & Hw & HF). exists w, f. auto.
Qed.
