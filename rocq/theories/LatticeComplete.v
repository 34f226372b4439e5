(** Which symmetries the tables can find: the crystallographic restriction in two dimensions, and
    the axis-aligned cases in three. *)
From Verif Require Import LinAlg GroupSpec GroupModel GroupProofs LatticeModel LatticeSpec LatticeProofs LatticeGroups LatticeLaue.
Local Open Scope R_scope.

(** ** evaluating == on concrete bases *)
Lemma lat_eq_true n E (B : base n E) E2 A (M : mat Z) : wf n n A -> wf n n M -> E2 = mmul E A ->
  (forall i j, (i < n)%nat -> (j < n)%nat ->
     Rabs (get A i j - IZR (get M i j)) < 1/2 /\
     Rabs (get A i j - IZR (get M i j)) <= 1 / 100000000 + 1 / 100000 * Rabs (IZR (get M i j))) ->
  lat_eq E E2 = Ok true /\ rintm (mmul (minv E) E2) = M.
Proof.
  intros WA WM EA H. pose proof (dim23_pos n (proj1 B)) as Hn. pose proof (proj1 (proj2 B)) as WE.
  assert (W2 : wf n n E2) by (subst; now apply (wf_mmul n n n)).
  rewrite (lat_eq_near n E B) by assumption.
  rewrite (proj1 (solve_left n E B A E2 W2 WA) EA).
  assert (Ei : rintm A = M).
  { apply (mat_ext n n); [now apply wf_rintm|exact WM|]. intros i j Hi Hj. unfold rintm.
    rewrite (get_mmap rint rint_0). apply rint_nearest. now apply H. }
  rewrite Ei. split; [|reflexivity]. intros i j Hi Hj. now apply H.
Qed.
Lemma lat_eq_false n E (B : base n E) E2 A i j z : wf n n A -> E2 = mmul E A -> (i < n)%nat -> (j < n)%nat ->
  Rabs (get A i j - IZR z) < 1/2 -> 1 / 100000000 + 1 / 100000 * Rabs (IZR z) < Rabs (get A i j - IZR z) ->
  lat_eq E E2 = Ok false.
Proof.
  intros WA EA Hi Hj H1 H2. pose proof (dim23_pos n (proj1 B)) as Hn. pose proof (proj1 (proj2 B)) as WE.
  assert (W2 : wf n n E2) by (subst; now apply (wf_mmul n n n)).
  destruct (lat_eq_total n E B E2 W2) as [[|] Hb]; [|exact Hb]. exfalso.
  apply (lat_eq_near n E B) in Hb; [|assumption]. rewrite (proj1 (solve_left n E B A E2 W2 WA) EA) in Hb.
  specialize (Hb i j Hi Hj). unfold rintm in Hb. rewrite (get_mmap rint rint_0), (rint_nearest _ z H1) in Hb. lra.
Qed.

(** ** two dimensions *)
Lemma rot2 Q : rotation_matrix 2 Q -> exists c s, Q = M2 c (- s) s c /\ c * c + s * s = 1.
Proof.
  intros [[W HO] HD]. destruct (wf2_inv Q W) as (a & b & c & d & ->). rewrite det2 in HD. cbn in HD.
  revert HO. cbn. intros HO. injection HO as H1 H2 H3 H4.
  assert (a = d /\ b = - c) as [-> ->].
  { assert (K : (a - d) * (a - d) + (b + c) * (b + c) = 0)
      by (replace ((a - d) * (a - d) + (b + c) * (b + c)) with ((a * a + b * b) + (c * c + d * d) - 2 * (a * d - b * c)) by ring; lra).
    apply Rplus_sqr_eq_0 in K. lra. }
  exists d, c. split; [reflexivity|]. lra.
Qed.
Lemma trace_conj2 E Q (M : mat Z) : base 2 E -> wf 2 2 Q -> wf 2 2 M -> mmul Q E = mmul E (RZ M) ->
  get Q 0 0 + get Q 1 1 = IZR (get M 0 0 + get M 1 1).
Proof.
  intros (_ & WE & DE) WQ WM HM.
  destruct (wf2_inv E WE) as (a & b & c & d & ->), (wf2_inv Q WQ) as (p & q & r & t & ->), (wf2_inv M WM) as (x & y & z & w & ->).
  rewrite det2 in DE. cbn in DE. revert HM. cbn. intros HM. injection HM as H1 H2 H3 H4.
  rewrite plus_IZR. apply (Rmult_eq_reg_l (a * d - b * c)); [|exact DE].
  transitivity (d * (0 + p * a + q * c) - b * (0 + r * a + t * c) - c * (0 + p * b + q * d) + a * (0 + r * b + t * d)); [ring|].
  rewrite H1, H2, H3, H4. ring.
Qed.
Definition R90 : mat R := M2 0 (-1) 1 0.
Definition R270 : mat R := M2 0 1 (-1) 0.
Definition R180 : mat R := M2 (-1) 0 0 (-1).
Lemma sqrt3_irr (k : Z) : IZR k = 2 * S1 \/ IZR k = - (2 * S1) -> False.
Proof.
  intros H. destruct C1S1 as (_ & _ & HS). assert (H3 : sqrt 3 * sqrt 3 = 3) by (apply sqrt_sqrt; lra).
  assert (K : IZR (k * k) = IZR 3) by (rewrite mult_IZR, <- H3; rewrite HS in H; destruct H as [H|H]; rewrite H; field). apply eq_IZR in K.
  assert (-2 < k < 2)%Z by nia. assert (k = -1 \/ k = 0 \/ k = 1)%Z by lia. destruct H1 as [->|[->| ->]]; discriminate.
Qed.

Lemma in_square Q : In Q (map RZ SQUARE_GROUP) <-> Q = eye 2 \/ Q = R90 \/ Q = R270 \/ Q = R180.
Proof. unfold SQUARE_GROUP, SQUARE_EXT_GROUP. cbn. unfold R90, R270, R180, M2. intuition auto. Qed.
Lemma in_hex2 Q : In Q HEX2D_GROUP <-> Q = eye 2 \/ Q = R180 \/ exists c s, Q = M2 c (- s) s c /\ (c = C1 \/ c = - C1) /\ (s = S1 \/ s = - S1).
Proof.
  unfold HEX2D_GROUP, HEX2D_EXT_GROUP. cbn. unfold R180, M2. split.
  - intros [<-|[<-|[<-|[<-|[<-|[<-|[]]]]]]]; auto; right; right.
    + exists C1, S1. auto.
    + exists (- C1), S1. auto.
    + exists C1, (- S1). rewrite Ropp_involutive. auto.
    + exists (- C1), (- S1). rewrite Ropp_involutive. auto.
  - intros [->|[->|(c & s & -> & [->| ->] & [->| ->])]]; rewrite ?Ropp_involutive; auto 10.
Qed.

(** the crystallographic restriction *)
Lemma restriction2 E Q : base 2 E -> rotation_matrix 2 Q -> preserves 2 Q E ->
  In Q (map RZ SQUARE_GROUP) \/ In Q HEX2D_GROUP.
Proof.
  intros B HR HP. apply (preserves_iff 2 E B) in HP; [|apply HR]. destruct HP as (M & WM & EM).
  pose proof (trace_conj2 E Q M B (proj1 (proj1 HR)) WM EM) as HT. set (k := (get M 0 0 + get M 1 1)%Z) in *. clearbody k. clear EM WM M.
  destruct (rot2 Q HR) as (c & s & -> & Hcs). cbn in HT. rewrite in_square, in_hex2.
  destruct C1S1 as (HC2 & HC & HS). assert (Hc : c = IZR k / 2) by lra.
  assert (Kb : (-2 <= k <= 2)%Z).
  { assert (- 2 <= IZR k <= 2) by nra. split; apply le_IZR; lra. }
  unfold R90, R270, R180.
  assert (Ek : (k = -2 \/ k = -1 \/ k = 0 \/ k = 1 \/ k = 2)%Z) by lia.
  destruct Ek as [->|[->|[->|[->| ->]]]].
  - assert (s = 0) by nra. left. right; right; right. unfold M2. repeat f_equal; lra.
  - right. right. right. exists c, s. split; [reflexivity|]. split; [right; lra|].
    assert (Hz : (s - S1) * (s + S1) = 0) by nra. apply Rmult_integral in Hz. destruct Hz; [left|right]; lra.
  - left. right. assert (Hz : (s - 1) * (s + 1) = 0) by nra. apply Rmult_integral in Hz.
    destruct Hz; [left|right; left]; unfold M2; repeat f_equal; lra.
  - right. right. right. exists c, s. split; [reflexivity|]. split; [left; lra|].
    assert (Hz : (s - S1) * (s + S1) = 0) by nra. apply Rmult_integral in Hz. destruct Hz; [left|right]; lra.
  - assert (s = 0) by nra. left. left. unfold M2. cbn. repeat f_equal; lra.
Qed.

Lemma NoDup3 {A} (a b c : A) l : a <> b -> a <> c -> b <> c -> In a l -> In b l -> In c l -> (3 <= length l)%nat.
Proof.
  intros. change 3%nat with (length [a; b; c]). apply NoDup_incl_length.
  - repeat constructor; cbn; intuition.
  - intros x. cbn. intuition (subst; auto).
Qed.
Lemma only_two {A} (a b : A) l : a <> b -> NoDup l -> In a l -> In b l -> (length l <> 2)%nat -> exists c, In c l /\ c <> a /\ c <> b.
Proof.
  intros Hab ND Ha Hb Hl. destruct l as [|x [|y [|z l]]]; cbn in *; try lia; try tauto.
  - destruct Ha as [<-|[]], Hb as [<-|[]]. congruence.
  - inversion ND as [|? ? N1 N2]; inversion N2 as [|? ? N3 N4]; subst. inversion N4 as [|? ? N5 N6]; subst. cbn in *.
    assert (x <> y /\ x <> z /\ y <> z) as (K1 & K2 & K3) by (repeat split; intros ->; tauto).
    destruct (@Coq.Logic.Classical_Prop.classic (x = a)) as [->|Xa]; [destruct (@Coq.Logic.Classical_Prop.classic (y = b)) as [->|Yb]; [exists z|exists y]; intuition congruence|].
    destruct (@Coq.Logic.Classical_Prop.classic (x = b)) as [->|Xb]; [destruct (@Coq.Logic.Classical_Prop.classic (y = a)) as [->|Ya]; [exists z|exists y]; intuition congruence|].
    exists x. auto.
Qed.

Lemma M2_neq a b c d a' b' c' d' : a <> a' \/ c <> c' -> M2 a b c d <> M2 a' b' c' d'.
Proof. unfold M2. intros H K. injection K as -> -> -> ->. tauto. Qed.
Lemma eye2 : eye 2 = M2 1 0 0 1. Proof. reflexivity. Qed.

Lemma no_order_12 E P Q : base 2 E -> P = R90 \/ P = R270 -> preserves 2 P E -> orthogonal 2 P ->
  rotation_matrix 2 Q -> preserves 2 Q E -> (exists c s, Q = M2 c (- s) s c /\ (c = C1 \/ c = - C1) /\ (s = S1 \/ s = - S1)) -> False.
Proof.
  intros B HP PP OP OQ PQ (c & s & EQ & Hc & Hs).
  pose proof (preserves_mul 2 E B P Q OP (proj1 OQ) PP PQ) as PX.
  pose proof (orth_mmul 2 P Q ltac:(lia) OP (proj1 OQ)) as OX.
  apply (preserves_iff 2 E B) in PX; [|exact OX]. destruct PX as (M & WM & EM).
  pose proof (trace_conj2 E _ M B (proj1 OX) WM EM) as HT. apply (sqrt3_irr (get M 0 0 + get M 1 1)). rewrite <- HT, EQ.
  destruct HP as [->| ->]; cbn; destruct Hs as [->| ->]; [right|left|left|right]; lra.
Qed.

(** In two dimensions the tables contain every rotation that can be a symmetry, in every orientation. *)
Lemma laue_complete2 E : base 2 E ->
  (forall Q, In Q (tabled_rotations 2) -> inpointgroup E (FltArr Q) = Ok true -> preserves 2 Q E) ->
  exists G, Laue_group E = Ok G /\ NoDup G /\ forall Q, In Q G <-> rotation_matrix 2 Q /\ preserves 2 Q E.
Proof.
  intros B RS. pose proof (len_base 2 E B) as Hl. unfold Laue_group. rewrite Hl. unfold pick_group.
  pose proof (keep_kept 2 E B square_arr (proj2 square_T)) as K1. pose proof (keep_kept 2 E B hex2d_arr (proj2 hex2d_T)) as K2.
  rewrite K1, K2. cbn [bind]. clear K1 K2.
  assert (D2 : dim23 2) by now left.
  assert (I1 : forall X, In X (kept E square_arr) <-> In X (map RZ SQUARE_GROUP) /\ preserves 2 X E).
  { intros X. rewrite (in_kept 2 E B square_arr (proj2 square_T)). unfold square_arr at 1. rewrite map_values_int. split.
    - intros [A1 A2]. split; [exact A1|]. apply RS; [|exact A2]. cbn [tabled_rotations Nat.eqb]. apply in_app_iff. now left.
    - intros [A1 A2]. split; [exact A1|]. apply (inpoint_preserves 2 E B); [|exact A2]. cbn.
      exact (proj1 (proj2 SQUARE_good X A1)). }
  assert (I2 : forall X, In X (kept E hex2d_arr) <-> In X HEX2D_GROUP /\ preserves 2 X E).
  { intros X. rewrite (in_kept 2 E B hex2d_arr (proj2 hex2d_T)). unfold hex2d_arr at 1. rewrite map_values_flt. split.
    - intros [A1 A2]. split; [exact A1|]. apply RS; [|exact A2]. cbn [tabled_rotations Nat.eqb]. apply in_app_iff. now right.
    - intros [A1 A2]. split; [exact A1|]. apply (inpoint_preserves 2 E B); [|exact A2]. cbn.
      exact (proj1 (proj2 HEX2D_good X A1)). }
  assert (N1 : NoDup (kept E square_arr)) by (apply (kept_NoDup 2); apply square_T).
  assert (N2 : NoDup (kept E hex2d_arr)) by (apply (kept_NoDup 2); apply hex2d_T).
  assert (RQ1 : forall X, In X (map RZ SQUARE_GROUP) -> rotation_matrix 2 X).
  { intros X HX. split; [exact (proj1 (proj2 SQUARE_good X HX))|]. apply (tabled_det 2); [exact D2|]. cbn [tabled_rotations Nat.eqb]. apply in_app_iff. now left. }
  assert (RQ2 : forall X, In X HEX2D_GROUP -> rotation_matrix 2 X).
  { intros X HX. split; [exact (proj1 (proj2 HEX2D_good X HX))|]. now apply HEX2D_det. }
  assert (PE : preserves 2 (eye 2) E) by now apply (preserves_eye 2 E B).
  assert (PN : preserves 2 R180 E).
  { replace R180 with (mopp (eye 2 : mat R)) by (cbn; unfold R180, M2; repeat f_equal; ring).
    apply (preserves_opp 2 E B); [apply orth_eye; lia|exact PE]. }
  set (K1 := kept E square_arr) in *. set (K2 := kept E hex2d_arr) in *. clearbody K1 K2.
  assert (S1' : In (eye 2) K1 /\ In R180 K1) by (split; apply I1; rewrite in_square; auto).
  assert (S2' : In (eye 2) K2 /\ In R180 K2) by (split; apply I2; rewrite in_hex2; auto).
  destruct C1S1 as (HC2 & HC & HS). assert (HSp : S1 > 0) by (rewrite HS; pose proof (sqrt_lt_R0 3); lra).
  assert (Nid : eye 2 <> R180) by (rewrite eye2; apply M2_neq; left; lra).
  (* either R90 is a symmetry and no hexagonal rotation is, or the reverse *)
  destruct (length K1 =? 2)%nat eqn:L1.
  - apply Nat.eqb_eq in L1.
    assert (NS : forall X, X = R90 \/ X = R270 -> ~ preserves 2 X E).
    { intros X HX PX. assert (3 <= length K1)%nat; [|lia]. apply (NoDup3 (eye 2) R180 X); auto; try tauto.
      - destruct HX as [->| ->]; rewrite eye2; apply M2_neq; left; lra.
      - destruct HX as [->| ->]; apply M2_neq; left; lra.
      - apply I1. rewrite in_square. tauto. }
    destruct (length K1 <? length K2)%nat eqn:L2.
    + exists K2. split; [reflexivity|]. split; [exact N2|]. intros Q. rewrite I2. split.
      * intros [HQ PQ]. auto.
      * intros [HQ PQ]. split; [|exact PQ]. destruct (restriction2 E Q B HQ PQ) as [Hs|Hh]; [|exact Hh].
        apply in_square in Hs. rewrite in_hex2. destruct Hs as [->|[->|[->| ->]]]; auto; exfalso; [exact (NS _ (or_introl eq_refl) PQ)|exact (NS _ (or_intror eq_refl) PQ)].
    + apply Nat.ltb_ge in L2. exists K1. split; [reflexivity|]. split; [exact N1|]. intros Q. rewrite I1. split.
      * intros [HQ PQ]. auto.
      * intros [HQ PQ]. split; [|exact PQ]. destruct (restriction2 E Q B HQ PQ) as [Hs|Hh]; [exact Hs|].
        pose proof Hh as Hh'. apply in_hex2 in Hh. rewrite in_square. destruct Hh as [->|[->|(c & s & -> & Hc & Hs)]]; auto. exfalso.
        assert (3 <= length K2)%nat; [|lia]. apply (NoDup3 (eye 2) R180 (M2 c (- s) s c)); try tauto.
        -- rewrite eye2. apply M2_neq. left. lra.
        -- apply M2_neq. left. lra.
        -- apply I2. auto.
  - apply Nat.eqb_neq in L1. exists K1. split; [reflexivity|]. split; [exact N1|].
    destruct (only_two (eye 2) R180 K1 Nid N1 (proj1 S1') (proj2 S1') L1) as (P & HP & P1 & P2).
    apply I1 in HP. destruct HP as [HP PP]. pose proof (RQ1 P HP) as RP. apply in_square in HP.
    assert (HP' : P = R90 \/ P = R270) by tauto.
    intros Q. rewrite I1. split.
    + intros [HQ PQ]. auto.
    + intros [HQ PQ]. split; [|exact PQ]. destruct (restriction2 E Q B HQ PQ) as [Hs|Hh]; [exact Hs|].
      apply in_hex2 in Hh. rewrite in_square. destruct Hh as [->|[->|Hh]]; auto. exfalso.
      exact (no_order_12 E P Q B HP' PP (proj1 RP) HQ PQ Hh).
Qed.

(** ** three dimensions: lattices whose symmetries are axis-aligned *)
Lemma laue_complete_cubic E : base 3 E -> resolved 3 E ->
  (forall Q, rotation_matrix 3 Q -> preserves 3 Q E -> In Q (map RZ CUBIC_LAUE_GROUP)) ->
  exists G, Laue_group E = Ok G /\ NoDup G /\ forall Q, In Q G <-> rotation_matrix 3 Q /\ preserves 3 Q E.
Proof.
  intros B RS HC. pose proof (len_base 3 E B) as Hl. unfold Laue_group. rewrite Hl. unfold pick_group.
  pose proof (keep_kept 3 E B cubic_arr (proj2 cubic_T)) as K1. pose proof (keep_kept 3 E B hex_arr (proj2 hex_T)) as K2.
  rewrite K1, K2. cbn [bind]. clear K1 K2.
  assert (I1 : forall X, In X (kept E cubic_arr) <-> rotation_matrix 3 X /\ preserves 3 X E).
  { intros X. rewrite (in_kept 3 E B cubic_arr (proj2 cubic_T)). unfold cubic_arr at 1. rewrite map_values_int. split.
    - intros [A1 A2]. split.
      + split; [exact (proj1 (proj2 CUBIC_good X A1))|]. apply (tabled_det 3); [now right|]. apply in_app_iff. now left.
      + apply RS; [|exact A2]. apply in_app_iff. now left.
    - intros [A1 A2]. split; [now apply HC|]. apply (inpoint_preserves 3 E B); [exact (proj1 A1)|exact A2]. }
  assert (I2 : forall X, In X (kept E hex_arr) -> In X (kept E cubic_arr)).
  { intros X. rewrite (in_kept 3 E B hex_arr (proj2 hex_T)). unfold hex_arr at 1. rewrite map_values_flt.
    intros [A1 A2]. apply I1. split.
    - split; [exact (proj1 (proj2 HEX_group X A1))|]. now apply HEX_det.
    - apply RS; [|exact A2]. apply in_app_iff. now right. }
  assert (N1 : NoDup (kept E cubic_arr)) by (apply (kept_NoDup 3); apply cubic_T).
  assert (N2 : NoDup (kept E hex_arr)) by (apply (kept_NoDup 3); apply hex_T).
  pose proof (NoDup_incl_length N2 I2) as Hlen.
  exists (kept E cubic_arr). split; [|auto]. destruct (_ =? 4)%nat; [|reflexivity].
  destruct (_ <? _)%nat eqn:L; [|reflexivity]. apply Nat.ltb_lt in L. lia.
Qed.

Definition two_folds : list (mat R) :=
  [M3 1 0 0 0 1 0 0 0 1; M3 1 0 0 0 (-1) 0 0 0 (-1); M3 (-1) 0 0 0 1 0 0 0 (-1); M3 (-1) 0 0 0 (-1) 0 0 0 1].
Lemma hex_cubic Q : In Q (map RZ CUBIC_LAUE_GROUP) -> In Q HEX_LAUE_GROUP -> In Q two_folds.
Proof.
  intros HC HH. apply in_map_iff in HC. destruct HC as (M & <- & HM). destruct C1S1 as (_ & HC & _).
  assert (NC : forall z, IZR z <> C1 /\ IZR z <> - C1).
  { intros z. rewrite HC. split; intros K.
    - assert (IZR (2 * z) = IZR 1) by (rewrite mult_IZR; lra). apply eq_IZR in H. lia.
    - assert (IZR (2 * z) = IZR (-1)) by (rewrite mult_IZR; lra). apply eq_IZR in H. lia. }
  unfold two_folds, M3. unfold HEX_LAUE_GROUP in HH.
  repeat (destruct HH as [HH|HH]; [first
    [ rewrite <- HH; cbn; auto 10; fail
    | exfalso; apply (f_equal (fun X => get X 0 0)) in HH; rewrite get_RZ in HH; cbn in HH; destruct (NC (get M 0 0)); congruence]|]).
  destruct HH.
Qed.
Lemma laue_complete_hex E : base 3 E -> resolved 3 E ->
  (forall Q, rotation_matrix 3 Q -> preserves 3 Q E -> In Q HEX_LAUE_GROUP) ->
  (forall Q, In Q two_folds -> preserves 3 Q E) ->
  exists G, Laue_group E = Ok G /\ NoDup G /\ forall Q, In Q G <-> rotation_matrix 3 Q /\ preserves 3 Q E.
Proof.
  intros B RS HH HT. pose proof (len_base 3 E B) as Hl. unfold Laue_group. rewrite Hl. unfold pick_group.
  pose proof (keep_kept 3 E B cubic_arr (proj2 cubic_T)) as K1. pose proof (keep_kept 3 E B hex_arr (proj2 hex_T)) as K2.
  rewrite K1, K2. cbn [bind]. clear K1 K2.
  assert (I2 : forall X, In X (kept E hex_arr) <-> rotation_matrix 3 X /\ preserves 3 X E).
  { intros X. rewrite (in_kept 3 E B hex_arr (proj2 hex_T)). unfold hex_arr at 1. rewrite map_values_flt. split.
    - intros [A1 A2]. split.
      + split; [exact (proj1 (proj2 HEX_group X A1))|]. now apply HEX_det.
      + apply RS; [|exact A2]. apply in_app_iff. now right.
    - intros [A1 A2]. split; [now apply HH|]. apply (inpoint_preserves 3 E B); [exact (proj1 A1)|exact A2]. }
  assert (TC : incl two_folds (map RZ CUBIC_LAUE_GROUP)).
  { intros X HX. unfold two_folds, M3 in HX. cbn in HX.
    assert (C : forall M, In M CUBIC_LAUE_GROUP -> In (RZ M) (map RZ CUBIC_LAUE_GROUP)) by (intros; now apply in_map).
    destruct HX as [<-|[<-|[<-|[<-|[]]]]].
    - apply (C [[1;0;0];[0;1;0];[0;0;1]]%Z). cbn. auto 30.
    - apply (C [[1;0;0];[0;-1;0];[0;0;-1]]%Z). cbn. auto 30.
    - apply (C [[-1;0;0];[0;1;0];[0;0;-1]]%Z). cbn. auto 30.
    - apply (C [[-1;0;0];[0;-1;0];[0;0;1]]%Z). cbn. auto 30. }
  assert (I1 : forall X, In X (kept E cubic_arr) <-> In X two_folds).
  { intros X. rewrite (in_kept 3 E B cubic_arr (proj2 cubic_T)). unfold cubic_arr at 1. rewrite map_values_int. split.
    - intros [A1 A2]. apply hex_cubic; [exact A1|]. apply HH.
      + split; [exact (proj1 (proj2 CUBIC_good X A1))|]. apply (tabled_det 3); [now right|]. apply in_app_iff. now left.
      + apply RS; [|exact A2]. apply in_app_iff. now left.
    - intros A1. split; [now apply TC|]. apply (inpoint_preserves 3 E B); [|now apply HT].
      exact (proj1 (proj2 CUBIC_good X (TC X A1))). }
  assert (N1 : NoDup (kept E cubic_arr)) by (apply (kept_NoDup 3); apply cubic_T).
  assert (N2 : NoDup (kept E hex_arr)) by (apply (kept_NoDup 3); apply hex_T).
  assert (NT : NoDup two_folds).
  { unfold two_folds, M3. repeat constructor; cbn; intuition (try congruence); match goal with H : _ = _ |- _ => injection H; intros; lra end. }
  assert (L4 : length (kept E cubic_arr) = 4%nat).
  { apply Nat.le_antisymm.
    - change 4%nat with (length two_folds). exact (NoDup_incl_length N1 (fun X => proj1 (I1 X))).
    - change 4%nat with (length two_folds). exact (NoDup_incl_length NT (fun X => proj2 (I1 X))). }
  assert (Inc : incl (kept E cubic_arr) (kept E hex_arr)).
  { intros X HX. pose proof (proj1 (I1 X) HX) as HX'. apply I2. split; [|now apply HT].
    pose proof (TC X HX') as A1. split; [exact (proj1 (proj2 CUBIC_good X A1))|]. apply (tabled_det 3); [now right|]. apply in_app_iff. now left. }
  rewrite L4. cbn [Nat.eqb]. destruct (4 <? _)%nat eqn:L.
  - exists (kept E hex_arr). auto.
  - apply Nat.ltb_ge in L. exists (kept E cubic_arr). split; [reflexivity|]. split; [exact N1|].
    intros Q. rewrite <- I2. split; [apply Inc|]. apply (NoDup_length_incl N1); [lia|exact Inc].
Qed.
