(** Property C121: the volume fraction belongs to the twin.  Specification: TwinSpec.v (twinning, pair_after, clear_pair); model: TwinModel.v. *)
From Verif Require Import LinAlg Eig GroupSpec GroupModel GroupProofs LatticeProofs LatticeGroups PropMart PropTwin PropTwin2 PropTwin3 TwinMono RankOneConn PropRankOne PropTwin6 PropFrame PropTwinFrame PropTwinAll.
Local Open Scope R_scope.

(** ** solve_f is determined by two determinants *)
Definition slope (U : mat R) (a n : vec R) : R := 2 * dot (mvmul U a) (mvmul (brute_cof (msub (mmul U U) (eye 3))) n).
Lemma solve_f_eq U a n U' a' n' : det (msub (mmul U U) (eye 3)) = det (msub (mmul U' U') (eye 3)) -> slope U a n = slope U' a' n' -> solve_f U a n = solve_f U' a' n'.
Proof. unfold solve_f, slope. intros -> ->. reflexivity. Qed.
Lemma cof_det (A : mat R) (x y : vec R) : wf 3 3 A -> length x = 3%nat -> length y = 3%nat -> dot x (mvmul (brute_cof A) y) = det (madd A (outer x y)) - det A.
Proof.
  intros W Lx Ly. apply wf3_inv in W. destruct W as (a & b & c & d & e & f & g & h & i & ->). v3 Lx. v3 Ly. cbv [brute_cof drop]. mat_unfold_goal. cbn [pow Nat.add]. ring.
Qed.
Lemma slope_det U a n : wf 3 3 U -> length a = 3%nat -> length n = 3%nat ->
  slope U a n = 2 * (det (madd (msub (mmul U U) (eye 3)) (mmul U (outer a n))) - det (msub (mmul U U) (eye 3))).
Proof.
  intros W La Ln. unfold slope. assert (WA : wf 3 3 (msub (mmul U U) (eye 3))) by (apply wf_msub; [lia|apply (wf_mmul 3 3 3); auto; lia]).
  rewrite cof_det by (auto using len_mv3). do 4 f_equal. f_equal.
  apply wf3_inv in W. destruct W as (? & ? & ? & ? & ? & ? & ? & ? & ? & ->). v3 La. v3 Ln. mat_eq ltac:(ring).
Qed.
Lemma wf_outer3 (a n : vec R) : length a = 3%nat -> length n = 3%nat -> wf 3 3 (outer a n).
Proof. intros La Ln. unfold outer. rewrite La, Ln. apply wf_mk. Qed.
Lemma outer_rotate (Q : mat R) (a n : vec R) : wf 3 3 Q -> length a = 3%nat -> length n = 3%nat -> outer (mvmul Q a) (mvmul Q n) = rotate Q (outer a n).
Proof. intros W La Ln. apply wf3_inv in W. destruct W as (? & ? & ? & ? & ? & ? & ? & ? & ? & ->). v3 La. v3 Ln. unfold rotate. mat_eq ltac:(ring). Qed.
Lemma madd_rotate (Q A B : mat R) : wf 3 3 Q -> wf 3 3 A -> wf 3 3 B -> rotate Q (madd A B) = madd (rotate Q A) (rotate Q B).
Proof.
  intros W WA WB. apply wf3_inv in W. destruct W as (? & ? & ? & ? & ? & ? & ? & ? & ? & ->). apply wf3_inv in WA. destruct WA as (? & ? & ? & ? & ? & ? & ? & ? & ? & ->).
  apply wf3_inv in WB. destruct WB as (? & ? & ? & ? & ? & ? & ? & ? & ? & ->). unfold rotate. mat_eq ltac:(ring).
Qed.
Lemma minus_eye_rotate (Q A : mat R) : orthogonal 3 Q -> wf 3 3 A -> msub (rotate Q A) (eye 3) = rotate Q (msub A (eye 3)).
Proof.
  intros O W. pose proof (orth_wf _ _ O) as WQ. rewrite rotate_msub by (auto; apply wf_eye). f_equal. unfold rotate. rewrite (mmul_eye_r 3 3) by (auto; lia). symmetry. apply O.
Qed.

(** The frame does not matter. *)
Theorem C121_frame : forall Q U a n, orthogonal 3 Q -> wf 3 3 U -> length a = 3%nat -> length n = 3%nat ->
  solve_f (rotate Q U) (mvmul Q a) (mvmul Q n) = solve_f U a n.
Proof.
  intros Q U a n O W La Ln. pose proof (orth_wf _ _ O) as WQ. assert (WUU : wf 3 3 (mmul U U)) by (apply (wf_mmul 3 3 3); auto; lia).
  assert (WA : wf 3 3 (msub (mmul U U) (eye 3))) by (apply wf_msub; [lia|auto]). pose proof (wf_outer3 a n La Ln) as WO.
  assert (WUO : wf 3 3 (mmul U (outer a n))) by (apply (wf_mmul 3 3 3); auto; lia).
  apply solve_f_eq.
  - rewrite rotate_mmul, minus_eye_rotate, det_rotate by auto. reflexivity.
  - rewrite !slope_det by (auto using len_mv3, wf_rotate). rewrite outer_rotate, !rotate_mmul, minus_eye_rotate, <- madd_rotate, !det_rotate by (auto; apply wf_madd; auto; lia). reflexivity.
Qed.
Print Assumptions C121_frame.

(** Nor do the signs of a and n, nor which of the two variants is taken first: Q V = U + a (x) n is Q^T U = V - (Q^T a) (x) n. *)
Theorem C121_sign : forall U a n, wf 3 3 U -> length a = 3%nat -> length n = 3%nat -> solve_f U (vscale (-1) a) (vscale (-1) n) = solve_f U a n.
Proof.
  intros U a n W La Ln. apply solve_f_eq; [reflexivity|]. rewrite !slope_det by (auto; unfold vscale; now rewrite map_length). do 5 f_equal.
  v3 La. v3 Ln. unfold vscale. mat_eq ltac:(ring).
Qed.
Print Assumptions C121_sign.
Theorem C121_exchange : forall U V Q a n, positive_definite U -> positive_definite V -> variants U V -> twinning U V Q a n ->
  twinning V U (tr Q) (vscale (-1) (mvmul (tr Q) a)) n /\ solve_f V (vscale (-1) (mvmul (tr Q) a)) n = solve_f U a n.
Proof.
  intros U V Q a n PU PV VR (O & D & La & Ln & N & E). pose proof (orth_wf _ _ O) as WQ. assert (WT : wf 3 3 (tr Q)) by (apply wf_tr'; [lia|auto]).
  assert (OT : orthogonal 3 (tr Q)) by (apply orth_tr; [now right|exact O]). pose proof (orth_l 3 Q ltac:(now right) O) as TQ.
  pose proof PU as [SU _]. pose proof PV as [SV _]. pose proof SU as [WU _]. pose proof SV as [WV _].
  set (b := mvmul (tr Q) a). assert (Lb : length b = 3%nat) by now apply len_mv3. set (a' := vscale (-1) b). assert (La' : length a' = 3%nat) by (unfold a', vscale; now rewrite map_length).
  assert (Eb : mvmul Q b = a) by (unfold b; rewrite <- (mvmul_mmul 3), (proj2 O) by (auto; lia); now apply mvmul_eye).
  (* Q (V + f a' (x) n) = U + (1 - f) a (x) n *)
  assert (K : forall f, mmul Q (madd V (mscale f (outer a' n))) = madd U (mscale (1 - f) (outer a n))).
  { intros f. assert (EU : U = msub (mmul Q V) (outer a n)).
    { rewrite E. clear - WU La Ln. apply wf3_inv in WU. destruct WU as (? & ? & ? & ? & ? & ? & ? & ? & ? & ->). v3 La. v3 Ln. mat_eq ltac:(ring). }
    rewrite EU, <- Eb. unfold a'. clear - WQ WV Lb Ln. apply wf3_inv in WQ. destruct WQ as (? & ? & ? & ? & ? & ? & ? & ? & ? & ->).
    apply wf3_inv in WV. destruct WV as (? & ? & ? & ? & ? & ? & ? & ? & ? & ->). v3 Lb. v3 Ln. unfold vscale. mat_eq ltac:(ring). }
  assert (TW : twinning V U (tr Q) a' n).
  { split; [exact OT|]. split; [rewrite (det_tr 3) by (auto; now right); exact D|]. do 3 (split; [assumption|]).
    specialize (K 1). replace (madd U (mscale (1 - 1) (outer a n))) with U in K.
    - rewrite <- K. assert (WM : wf 3 3 (madd V (mscale 1 (outer a' n)))) by (apply wf_madd; [lia|auto]). rewrite <- (mmul_assoc 3 3 3 3), TQ, (mmul_eye_l 3 3) by (assumption || lia).
      f_equal. clear - La' Ln. v3 La'. v3 Ln. mat_eq ltac:(ring).
    - clear - WU La Ln. apply wf3_inv in WU. destruct WU as (? & ? & ? & ? & ? & ? & ? & ? & ? & ->). v3 La. v3 Ln. mat_eq ltac:(ring). }
  split; [exact TW|]. pose proof (C38_variants U V PU VR) as DD. apply solve_f_eq; [exact DD|].
  destruct (gap_ends U V Q a n SU SV O La Ln E) as (G0 & G1). destruct TW as (_ & _ & _ & _ & _ & E').
  destruct (gap_ends V U (tr Q) a' n SV SU OT La' Ln E') as (G0' & G1').
  pose proof (gap_parabola U a n SU La Ln ltac:(rewrite G0, G1; exact DD) (1/2)) as P. pose proof (gap_parabola V a' n SV La' Ln ltac:(rewrite G0', G1'; now symmetry) (1/2)) as P'.
  fold (slope U a n) in P. fold (slope V a' n) in P'. rewrite DD in P'.
  assert (GG : gap V a' n (1/2) = gap U a n (1/2)).
  { specialize (K (1/2)). replace (1 - 1/2) with (1/2) in K by field.
    assert (X : forall (U : mat R) (a n : vec R), MartSpec.symmetric U -> length a = 3%nat -> length n = 3%nat -> madd U (mscale (1/2) (outer n a)) = tr (madd U (mscale (1/2) (outer a n)))).
    { clear. intros U a n S La Ln. destruct (sym3 U S) as (c1 & c2 & c3 & c4 & c5 & c6 & ->). v3 La. v3 Ln. mat_eq ltac:(ring). }
    unfold gap. rewrite (X U a n), (X V a' n), <- K by assumption. set (Y := madd V _). assert (WY : wf 3 3 Y) by (unfold Y; apply wf_madd; [lia|auto]). assert (WYT : wf 3 3 (tr Y)) by (apply wf_tr'; [lia|auto]).
    do 2 f_equal. rewrite (tr_mmul 3 3 3), (mmul_assoc 3 3 3 3), <- (mmul_assoc 3 3 3 3 (tr Q)), TQ, (mmul_eye_l 3 3) by (assumption || lia || (apply (wf_mmul 3 3 3); assumption || lia)). reflexivity. }
  rewrite P, P' in GG. lra.
Qed.
Print Assumptions C121_exchange.

(** ** Symmetry operations of the cubic axes: rounding commutes with them *)
Lemma unit_row x y z : (x * x + y * y + z * z = 1)%Z ->
  (x = 1 /\ y = 0 /\ z = 0 \/ x = -1 /\ y = 0 /\ z = 0 \/ x = 0 /\ y = 1 /\ z = 0 \/ x = 0 /\ y = -1 /\ z = 0 \/ x = 0 /\ y = 0 /\ z = 1 \/ x = 0 /\ y = 0 /\ z = -1)%Z.
Proof.
  intros H. assert (x = -1 \/ x = 0 \/ x = 1)%Z by nia. assert (y = -1 \/ y = 0 \/ y = 1)%Z by nia. assert (z = -1 \/ z = 0 \/ z = 1)%Z by nia.
  destruct H0 as [->|[->| ->]], H1 as [->|[->| ->]], H2 as [->|[->| ->]]; try lia; tauto.
Qed.
Lemma round10_opp x : round10 (- x) = - round10 x.
Proof. unfold round10. replace (- x * 10 ^ 10) with (- (x * 10 ^ 10)) by ring. rewrite rint_opp, opp_IZR. field. Qed.
Lemma round_row x y z a b c : (x * x + y * y + z * z = 1)%Z ->
  round10 (0 + IZR x * a + IZR y * b + IZR z * c) = 0 + IZR x * round10 a + IZR y * round10 b + IZR z * round10 c.
Proof.
  intros H. destruct (unit_row x y z H) as [(-> & -> & ->)|[(-> & -> & ->)|[(-> & -> & ->)|[(-> & -> & ->)|[(-> & -> & ->)|(-> & -> & ->)]]]]];
    match goal with
    | |- round10 ?e = 0 + 1 * _ + _ + _ => replace e with a by ring
    | |- round10 ?e = 0 + -1 * _ + _ + _ => replace e with (- a) by ring
    | |- round10 ?e = 0 + _ + 1 * _ + _ => replace e with b by ring
    | |- round10 ?e = 0 + _ + -1 * _ + _ => replace e with (- b) by ring
    | |- round10 ?e = 0 + _ + _ + 1 * _ => replace e with c by ring
    | |- round10 ?e = 0 + _ + _ + -1 * _ => replace e with (- c) by ring
    end; rewrite ?round10_opp; ring.
Qed.
Lemma abs_row x y z a b c t : (x * x + y * y + z * z = 1)%Z -> Rabs a < t -> Rabs b < t -> Rabs c < t -> Rabs (IZR x * a + IZR y * b + IZR z * c) < t.
Proof.
  intros H A B C. destruct (unit_row x y z H) as [(-> & -> & ->)|[(-> & -> & ->)|[(-> & -> & ->)|[(-> & -> & ->)|[(-> & -> & ->)|(-> & -> & ->)]]]]];
    match goal with
    | |- Rabs (1 * _ + _ + _) < _ => replace (1 * a + 0 * b + 0 * c) with a by ring
    | |- Rabs (-1 * _ + _ + _) < _ => replace (-1 * a + 0 * b + 0 * c) with (- a) by ring
    | |- Rabs (_ + 1 * _ + _) < _ => replace (0 * a + 1 * b + 0 * c) with b by ring
    | |- Rabs (_ + -1 * _ + _) < _ => replace (0 * a + -1 * b + 0 * c) with (- b) by ring
    | |- Rabs (_ + _ + 1 * _) < _ => replace (0 * a + 0 * b + 1 * c) with c by ring
    | |- Rabs (_ + _ + -1 * _) < _ => replace (0 * a + 0 * b + -1 * c) with (- c) by ring
    end; rewrite ?Rabs_Ropp; assumption.
Qed.
Lemma int_rows (S : mat Z) : orthogonal 3 S -> exists a b c d e f g h i, S = [[a; b; c]; [d; e; f]; [g; h; i]] /\
  (a * a + b * b + c * c = 1)%Z /\ (d * d + e * e + f * f = 1)%Z /\ (g * g + h * h + i * i = 1)%Z.
Proof.
  intros [W E]. apply wf3_inv in W. destruct W as (a & b & c & d & e & f & g & h & i & ->). exists a, b, c, d, e, f, g, h, i. split; [reflexivity|].
  assert (E0 := f_equal (fun M => get M 0 0) E). assert (E1 := f_equal (fun M => get M 1 1) E). assert (E2 := f_equal (fun M => get M 2 2) E). clear E.
  cbv [mmul mk tr get eye sumn nth map seq length ncols nrows hd zero one add mul Z_ops fold_right Nat.eqb] in E0, E1, E2. lia.
Qed.
Lemma int_orth (S : mat Z) : orthogonal 3 S -> orthogonal 3 (RZ S).
Proof. intros O. exact (orth_arr_values 3 (IntArr S) O). Qed.
Lemma vround_mv (S : mat Z) v : orthogonal 3 S -> length v = 3%nat -> vround (mvmul (RZ S) v) = mvmul (RZ S) (vround v).
Proof.
  intros O L. destruct (int_rows S O) as (a & b & c & d & e & f & g & h & i & -> & H1 & H2 & H3). clear O. v3 L. unfold vround, RZ, mmap.
  cbv [map mvmul mkv seq vget sumn nth length get ncols nrows hd fold_right zero add mul R_ops mk].
  repeat (match goal with |- (_ :: _) = (_ :: _) => f_equal end); now apply round_row.
Qed.
Lemma abs_rotate (S : mat Z) (M : mat R) t : orthogonal 3 S -> wf 3 3 M -> (forall i j, (i < 3)%nat -> (j < 3)%nat -> Rabs (get M i j) < t) ->
  forall i j, (i < 3)%nat -> (j < 3)%nat -> Rabs (get (rotate (RZ S) M) i j) < t.
Proof.
  intros O W H. destruct (int_rows S O) as (a & b & c & d & e & f & g & h & k & -> & H1 & H2 & H3). clear O.
  assert (U : forall i, (i < 3)%nat -> exists x y z, (x * x + y * y + z * z = 1)%Z /\ nth i [[a; b; c]; [d; e; f]; [g; h; k]] [] = [x; y; z]).
  { intros i Hi. destruct i as [|[|[|i]]]; try lia; cbn [nth]; do 3 eexists; (split; [|reflexivity]); assumption. }
  set (S := [[a; b; c]; [d; e; f]; [g; h; k]]) in *.
  assert (G : forall i j, (i < 3)%nat -> (j < 3)%nat -> get (rotate (RZ S) M) i j =
    IZR (get S i 0) * (IZR (get S j 0) * get M 0 0 + IZR (get S j 1) * get M 0 1 + IZR (get S j 2) * get M 0 2) +
    IZR (get S i 1) * (IZR (get S j 0) * get M 1 0 + IZR (get S j 1) * get M 1 1 + IZR (get S j 2) * get M 1 2) +
    IZR (get S i 2) * (IZR (get S j 0) * get M 2 0 + IZR (get S j 1) * get M 2 1 + IZR (get S j 2) * get M 2 2)).
  { clear - W. intros i j Hi Hj. apply wf3_inv in W. destruct W as (? & ? & ? & ? & ? & ? & ? & ? & ? & ->). unfold S, RZ, mmap, rotate.
    destruct i as [|[|[|i]]], j as [|[|[|j]]]; try lia; mat_unfold_goal; ring. }
  intros i j Hi Hj. rewrite G by assumption. destruct (U i Hi) as (x & y & z & Hx & Ex), (U j Hj) as (x' & y' & z' & Hx' & Ex').
  assert (X0 : get S i 0 = x) by (unfold get; now rewrite Ex). assert (X1 : get S i 1 = y) by (unfold get; now rewrite Ex). assert (X2 : get S i 2 = z) by (unfold get; now rewrite Ex).
  assert (B : forall r, (r < 3)%nat -> Rabs (IZR (get S j 0) * get M r 0 + IZR (get S j 1) * get M r 1 + IZR (get S j 2) * get M r 2) < t).
  { intros r Hr. apply abs_row; [|apply H; lia..]. unfold get. rewrite Ex'. exact Hx'. }
  rewrite X0, X1, X2. apply abs_row; [exact Hx|apply B; lia..].
Qed.
Lemma entries_dec (M : mat R) t : (forall i j, (i < 3)%nat -> (j < 3)%nat -> Rabs (get M i j) < t) \/ exists i j, (i < 3)%nat /\ (j < 3)%nat /\ t <= Rabs (get M i j).
Proof.
  assert (K : forall n m, (forall i j, (i < n)%nat -> (j < m)%nat -> Rabs (get M i j) < t) \/ exists i j, (i < n)%nat /\ (j < m)%nat /\ t <= Rabs (get M i j)).
  { intros n m. induction n as [|n IH]; [left; intros; lia|]. destruct IH as [IH|(i & j & Hi & Hj & H)]; [|right; exists i, j; auto].
    assert (L : (forall j, (j < m)%nat -> Rabs (get M n j) < t) \/ exists j, (j < m)%nat /\ t <= Rabs (get M n j)).
    { clear IH. induction m as [|m IH]; [left; intros; lia|]. destruct IH as [IH|(j & Hj & H)]; [|right; exists j; auto].
      destruct (Rlt_le_dec (Rabs (get M n m)) t); [left|right; exists m; auto]. intros j Hj. assert (C : (j < m)%nat \/ j = m) by lia. destruct C as [C| ->]; auto. }
    destruct L as [L|(j & Hj & H)]; [left|right; exists n, j; auto]. intros i j Hi Hj. assert (C : (i < n)%nat \/ i = n) by lia. destruct C as [C| ->]; auto. }
  apply K.
Qed.
Lemma orth_tr_Z (S : mat Z) : orthogonal 3 S -> orthogonal 3 (tr S).
Proof.
  intros O. pose proof (int_orth S O) as OR. apply (orth_tr 3 _ (or_intror eq_refl)) in OR. destruct O as [W _]. assert (WT : wf 3 3 (tr S)) by (apply wf_tr'; [lia|exact W]).
  split; [exact WT|]. destruct OR as [_ E]. rewrite <- !RZ_tr, <- RZ_mmul, <- RZ_eye in E. now apply RZ_inj in E.
Qed.
Lemma distinct_rotate (S : mat Z) U V : orthogonal 3 S -> wf 3 3 U -> wf 3 3 V -> distinct U V -> distinct (rotate (RZ S) U) (rotate (RZ S) V).
Proof.
  intros O WU WV (i & j & Hi & Hj & H). pose proof (int_orth S O) as OR. pose proof (orth_wf _ _ OR) as WQ. set (M := msub (rotate (RZ S) U) (rotate (RZ S) V)).
  assert (WRU : wf 3 3 (rotate (RZ S) U)) by now apply wf_rotate. assert (WRV : wf 3 3 (rotate (RZ S) V)) by now apply wf_rotate.
  assert (WM : wf 3 3 M) by (apply wf_msub; [lia|assumption]).
  assert (GM : forall r c, (r < 3)%nat -> (c < 3)%nat -> get M r c = get (rotate (RZ S) U) r c - get (rotate (RZ S) V) r c) by (intros; unfold M; rewrite (get_msub 3 3) by assumption; reflexivity).
  destruct (entries_dec M tolerance) as [A|(r & c & Hr & Hc & A)]; [|exists r, c; rewrite <- GM by assumption; auto]. exfalso.
  assert (OT : orthogonal 3 (tr S)) by (apply (orth_tr_Z S O)). pose proof (abs_rotate (tr S) M tolerance OT WM A i j Hi Hj) as B.
  unfold M in B. rewrite <- rotate_msub, RZ_tr, unrotate in B by (assumption || (apply wf_msub; [lia|assumption])).
  rewrite (get_msub 3 3) in B by assumption. change (Rabs (get U i j - get V i j) < tolerance) in B. lra.
Qed.

(** ** The objects *)
(** the same twin in another frame: Q turned, and a and n turned up to one common sign *)
Definition turned (Q : mat R) (t s : twin) : Prop := twin_Q s = rotate Q (twin_Q t) /\
  exists e, (e = 1 \/ e = -1) /\ twin_a s = vscale e (mvmul Q (twin_a t)) /\ twin_n s = vscale e (mvmul Q (twin_n t)).
Lemma twinning_rotate Q U V P a n : orthogonal 3 Q -> wf 3 3 U -> wf 3 3 V -> twinning U V P a n -> twinning (rotate Q U) (rotate Q V) (rotate Q P) (mvmul Q a) (mvmul Q n).
Proof.
  intros O WU WV (OP & DP & La & Ln & N & E). pose proof (orth_wf _ _ O) as WQ. pose proof (orth_wf _ _ OP) as WP.
  split. { split; [now apply wf_rotate|]. assert (WPT : wf 3 3 (tr P)) by (apply wf_tr'; [lia|auto]). rewrite tr_rotate, rotate_mmul, (proj2 OP) by assumption. unfold rotate. rewrite (mmul_eye_r 3 3) by (auto; lia). apply O. }
  split; [now rewrite det_rotate|]. split; [now apply len_mv3|]. split; [now apply len_mv3|]. split; [now rewrite dot_Q|].
  rewrite rotate_mmul, E, outer_rotate, madd_rotate by (auto using wf_outer3). reflexivity.
Qed.
Lemma outer_sign (a n a' n' : vec R) : length a = 3%nat -> length n = 3%nat -> length a' = 3%nat -> length n' = 3%nat -> dot n n = 1 -> dot n' n' = 1 -> a <> [0; 0; 0] ->
  outer a n = outer a' n' -> exists e, (e = 1 \/ e = -1) /\ a' = vscale e a /\ n' = vscale e n.
Proof.
  intros La Ln La' Ln' N N' NZ E. set (e := dot n n').
  assert (OM : forall x y z : vec R, length x = 3%nat -> length y = 3%nat -> length z = 3%nat -> mvmul (outer x y) z = vscale (dot y z) x).
  { clear. intros x y z Lx Ly Lz. v3 Lx. v3 Ly. v3 Lz. unfold vscale. mat_unfold_goal. apply list3_eq; ring. }
  assert (V1 : forall x : vec R, length x = 3%nat -> vscale 1 x = x) by (clear; intros x Lx; v3 Lx; unfold vscale; mat_unfold_goal; apply list3_eq; ring).
  assert (E1 : a = vscale e a').
  { rewrite <- (V1 a La), <- N, <- OM, E, OM by assumption. f_equal. unfold e. clear - Ln Ln'. v3 Ln. v3 Ln'. mat_unfold_goal. ring. }
  assert (E2 : a' = vscale e a) by (rewrite <- (V1 a' La'), <- N', <- OM, <- E, OM by assumption; reflexivity).
  assert (EE : e * e = 1).
  { clearbody e. clear - E1 E2 NZ La La'. v3 La. v3 La'. unfold vscale in *. cbv [map mul R_ops] in E1, E2. injection E1 as A0 A1 A2. injection E2 as B0 B1 B2.
    destruct (Req_dec (e * e) 1) as [|D]; [assumption|]. exfalso. apply NZ. rewrite B0 in A0. rewrite B1 in A1. rewrite B2 in A2. apply list3_eq; apply (Rmult_eq_reg_l (e * e - 1)); lra. }
  exists e. split; [assert ((e - 1) * (e + 1) = 0) as X by lra; apply Rmult_integral in X as [X|X]; lra|]. split; [exact E2|].
  assert (S : dot n n' = e) by reflexivity. clearbody e. clear - S N N' EE Ln Ln'. v3 Ln. v3 Ln'. unfold vscale. cbv [dot sumn length vget nth zero add mul R_ops map] in *.
  assert (Z : (x2 - e * x) * (x2 - e * x) + (x3 - e * x0) * (x3 - e * x0) + (x4 - e * x1) * (x4 - e * x1) = 0).
  { transitivity ((0 + x2 * x2 + x3 * x3 + x4 * x4) - 2 * e * (0 + x * x2 + x0 * x3 + x1 * x4) + (e * e) * (0 + x * x + x0 * x0 + x1 * x1)); [ring|]. rewrite N, N', S, EE. lra. }
  pose proof (Rle_0_sqr (x2 - e * x)). pose proof (Rle_0_sqr (x3 - e * x0)). pose proof (Rle_0_sqr (x4 - e * x1)). unfold Rsqr in *.
  apply list3_eq; apply Rminus_diag_uniq; match goal with |- ?u = 0 => destruct (Rmult_integral u u); [lra|assumption|assumption] end.
Qed.
Lemma exact_turned (S : mat Z) U V a n t a' n' s : orthogonal 3 S -> positive_definite U -> positive_definite V -> length a = 3%nat -> length n = 3%nat ->
  (exists e, (e = 1 \/ e = -1) /\ a' = vscale e (mvmul (RZ S) a) /\ n' = vscale e (mvmul (RZ S) n)) ->
  exact_twin U V a n t -> exact_twin (rotate (RZ S) U) (rotate (RZ S) V) a' n' s -> turned (RZ S) t s.
Proof.
  intros O PU PV La Ln (e & He & -> & ->) -> ->. pose proof (int_orth S O) as OR. pose proof (orth_wf _ _ OR) as WQ. pose proof PU as [[WU _] _]. pose proof PV as [[WV _] _]. pose proof (posdef_det V PV) as DV.
  assert (VS : forall v, length v = 3%nat -> vround (vscale e v) = vscale e (vround v)).
  { clear - He. intros v L. v3 L. unfold vround, vscale. cbn [map]. cbv [mul R_ops]. assert (K : forall u, round10 (e * u) = e * round10 u).
    { intros u. destruct He as [-> | ->]; [rewrite !Rmult_1_l; reflexivity|]. replace (-1 * u) with (- u) by ring. rewrite round10_opp. ring. }
    now rewrite !K. }
  rewrite !VS, !vround_mv by (auto using len_mv3).
  assert (La' : length (vround a) = 3%nat) by (unfold vround; now rewrite map_length). assert (Ln' : length (vround n) = 3%nat) by (unfold vround; now rewrite map_length).
  unfold turned, twin_Q, twin_a, twin_n. cbn [fst snd]. split; [|exists e; auto].
  assert (OE : outer (vscale e (mvmul (RZ S) (vround a))) (vscale e (mvmul (RZ S) (vround n))) = rotate (RZ S) (outer (vround a) (vround n))).
  { rewrite <- outer_rotate by assumption. pose proof (len_mv3 (RZ S) (vround a) WQ) as L1. pose proof (len_mv3 (RZ S) (vround n) WQ) as L2. revert L1 L2. generalize (mvmul (RZ S) (vround a)) (mvmul (RZ S) (vround n)). clear - He. intros x y Lx Ly. v3 Lx. v3 Ly. unfold vscale. destruct He as [-> | ->]; mat_eq ltac:(ring). }
  assert (WI : wf 3 3 (minv V)) by (apply wf_minv; [now right|assumption]). pose proof (wf_outer3 _ _ La' Ln') as WO.
  rewrite OE, <- madd_rotate, minv_rotate by (assumption || lra). rewrite rotate_mmul by (assumption || (apply wf_madd; [lia|assumption])). reflexivity.
Qed.
Lemma twin_nonzero U V Q a n : positive_definite U -> positive_definite V -> U <> V -> twinning U V Q a n -> a <> [0; 0; 0].
Proof.
  intros PU PV NE T ->. apply NE. pose proof PU as [SU _]. pose proof PV as [SV _]. pose proof (twin_square U V Q _ n SV T) as E. destruct T as (_ & _ & _ & Ln & _).
  replace (madd U (outer [0; 0; 0] n)) with U in E.
  - apply sqrt_unique; auto. rewrite <- E. f_equal. symmetry. apply SU.
  - clear - SU Ln. destruct (sym3 U SU) as (? & ? & ? & ? & ? & ? & ->). v3 Ln. mat_eq ltac:(ring).
Qed.

(** The twins of a pair and of its image under a symmetry operation of the cubic axes are the same, in one of the two orders. *)
Theorem C121_symmetric : forall eig eig' skip skip' (S : mat Z) U V h h' p p' l1 l3 t1 t2 s1 s2,
  orthogonal 3 S -> positive_definite U -> positive_definite V ->
  is_eig (twin_matrix U V) (eig (twin_matrix U V)) -> is_eig (twin_matrix (rotate (RZ S) U) (rotate (RZ S) V)) (eig' (twin_matrix (rotate (RZ S) U) (rotate (RZ S) V))) ->
  variants U V -> distinct U V -> eigenvalues (twin_matrix U V) l1 1 l3 -> clear_pair U V ->
  pair_after eig false skip U V h p -> pair_after eig' false skip' (rotate (RZ S) U) (rotate (RZ S) V) h' p' ->
  fst (twinparam eig false p) = Ok (Some (t1, t2)) -> fst (twinparam eig' false p') = Ok (Some (s1, s2)) ->
  (turned (RZ S) t1 s1 /\ turned (RZ S) t2 s2) \/ (turned (RZ S) t1 s2 /\ turned (RZ S) t2 s1).
Proof.
  intros eig eig' skip skip' S U V h h' p p' l1 l3 x1 x2 s1 s2 O PU PV E E' VR D EV CL PA PA' H H'.
  pose proof (int_orth S O) as OR. pose proof (orth_wf _ _ OR) as WQ. pose proof PU as [[WU _] _]. pose proof PV as [[WV _] _].
  pose proof (rotate_posdef _ U OR PU) as PU'. pose proof (rotate_posdef _ V OR PV) as PV'.
  assert (EV' : eigenvalues (twin_matrix (rotate (RZ S) U) (rotate (RZ S) V)) l1 1 l3) by (rewrite twin_rotate by assumption; now apply eigenvalues_rotate).
  assert (NE : U <> V). { intros ->. destruct D as (i & j & _ & _ & K). rewrite Rminus_diag_eq, Rabs_R0 in K by reflexivity. unfold tolerance in *. pose proof small_pos. lra. }
  destruct (complete_exact eig skip U V h p l1 l3 x1 x2 PU PV E VR D EV CL PA H) as (Q1 & a1 & n1 & Q2 & a2 & n2 & T1 & T2 & X1 & X2 & ND & _).
  destruct (complete_exact eig' skip' _ _ h' p' l1 l3 s1 s2 PU' PV' E' (variants_rotate _ U V OR PU VR) (distinct_rotate S U V O WU WV D) EV' (clear_rotate _ U V OR PU PV CL) PA' H')
    as (R1 & b1 & m1 & R2 & b2 & m2 & T1' & T2' & Y1 & Y2 & ND' & K).
  pose proof (twinning_rotate _ U V Q1 a1 n1 OR WU WV T1) as F1. pose proof (twinning_rotate _ U V Q2 a2 n2 OR WU WV T2) as F2.
  assert (Z1 : a1 <> [0; 0; 0]) by now apply (twin_nonzero U V Q1 a1 n1). assert (Z2 : a2 <> [0; 0; 0]) by now apply (twin_nonzero U V Q2 a2 n2).
  assert (NE' : rotate (RZ S) U <> rotate (RZ S) V). { intros X. apply NE. rewrite <- (unrotate (RZ S) OR U WU), <- (unrotate (RZ S) OR V WV). now rewrite X. }
  pose proof (twin_nonzero _ _ _ _ _ PU' PV' NE' F1) as N1. pose proof (twin_nonzero _ _ _ _ _ PU' PV' NE' F2) as N2.
  destruct T1 as (_ & _ & La1 & Ln1 & U1 & _), T2 as (_ & _ & La2 & Ln2 & U2 & _), T1' as (_ & _ & Lb1 & Lm1 & V1 & _), T2' as (_ & _ & Lb2 & Lm2 & V2 & _).
  assert (ND2 : outer (mvmul (RZ S) a1) (mvmul (RZ S) n1) <> outer (mvmul (RZ S) a2) (mvmul (RZ S) n2)).
  { rewrite !outer_rotate by assumption. intros X. apply ND. rewrite <- (unrotate (RZ S) OR (outer a1 n1)), <- (unrotate (RZ S) OR (outer a2 n2)) by (now apply wf_outer3). now rewrite X. }
  assert (M : forall a n b m s t, length a = 3%nat -> length n = 3%nat -> length b = 3%nat -> length m = 3%nat -> dot n n = 1 -> dot m m = 1 -> mvmul (RZ S) a <> [0; 0; 0] ->
    outer (mvmul (RZ S) a) (mvmul (RZ S) n) = outer b m -> exact_twin U V a n t -> exact_twin (rotate (RZ S) U) (rotate (RZ S) V) b m s -> turned (RZ S) t s).
  { intros a n b m s t La Ln Lb Lm N M NZ OE Xt Xs. apply (exact_turned S U V a n t b m s); auto. apply outer_sign; auto using len_mv3. now rewrite dot_Q. }
  destruct (K _ _ _ F1) as [(J1 & _)|(J1 & _)], (K _ _ _ F2) as [(J2 & _)|(J2 & _)].
  - exfalso. apply ND2. now rewrite J1, J2.
  - left. split; [apply (M a1 n1 b1 m1)|apply (M a2 n2 b2 m2)]; assumption.
  - right. split; [apply (M a1 n1 b2 m2)|apply (M a2 n2 b1 m1)]; assumption.
  - exfalso. apply ND2. now rewrite J1, J2.
Qed.
Print Assumptions C121_symmetric.

(** volumefrac answers whenever twinparam does. *)
Lemma solve_f_ok U a n : exists f, solve_f U a n = Ok f.
Proof.
  unfold solve_f. destruct (Rltb (Rabs _) SMALL); [eauto|]. destruct (Rltb 0 _) eqn:B; [|eauto]. apply Rltb_spec in B. rewrite math_sqrt_ok by lra. cbn [bind].
  destruct (Rltb _ (1 / 1000000)); [eauto|]. destruct (Rltb _ (1 / 1000000)); [eauto|]. destruct (Rltb 0 _ && Rltb _ 1)%bool; eauto.
Qed.
Lemma fractions_of eig skip U V h p l1 l3 t1 t2 : positive_definite U -> positive_definite V -> is_eig (twin_matrix U V) (eig (twin_matrix U V)) ->
  variants U V -> distinct U V -> eigenvalues (twin_matrix U V) l1 1 l3 -> clear_pair U V -> pair_after eig false skip U V h p -> fst (twinparam eig false p) = Ok (Some (t1, t2)) ->
  exists f1 f2, fst (volumefrac eig false p) = Ok (f1, f2) /\ solve_f U (twin_a t1) (twin_n t1) = Ok f1 /\ solve_f U (twin_a t2) (twin_n t2) = Ok f2 /\
    length (twin_a t1) = 3%nat /\ length (twin_n t1) = 3%nat /\ length (twin_a t2) = 3%nat /\ length (twin_n t2) = 3%nat.
Proof.
  intros PU PV E VR D EV CL PA H.
  assert (Up : p_Ui p = U) by (destruct (ax_after _ _ _ _ _ _ _ _ _ PU PV E VR D EV PA) as (v0 & v1 & v2 & p0 & _ & _ & I & U1 & _); now rewrite (i_Ui _ _ _ _ I)).
  destruct (complete_exact eig skip U V h p l1 l3 t1 t2 PU PV E VR D EV CL PA H) as (Q1 & a1 & n1 & Q2 & a2 & n2 & T1 & T2 & X1 & X2 & _).
  destruct (solve_f_ok U (twin_a t1) (twin_n t1)) as (f1 & F1), (solve_f_ok U (twin_a t2) (twin_n t2)) as (f2 & F2). exists f1, f2.
  unfold volumefrac. unfold bindS at 1. unfold some_param, bindS at 1. destruct (twinparam eig false p) as [r p']. cbn [fst] in H. subst r. unfold ret at 1.
  rewrite Up. unfold bindS, lift. cbn [fst snd]. rewrite F1, F2. split; [reflexivity|]. do 2 (split; [reflexivity|]).
  rewrite X1, X2. unfold twin_a, twin_n, vround. cbn [fst snd]. rewrite !map_length. destruct T1 as (_ & _ & A & B & _), T2 as (_ & _ & A' & B' & _). auto.
Qed.
(** The volume fractions are the same numbers, in the order of the twins. *)
Theorem C121_fractions : forall eig eig' skip skip' (S : mat Z) U V h h' p p' l1 l3 t1 t2 s1 s2,
  orthogonal 3 S -> positive_definite U -> positive_definite V ->
  is_eig (twin_matrix U V) (eig (twin_matrix U V)) -> is_eig (twin_matrix (rotate (RZ S) U) (rotate (RZ S) V)) (eig' (twin_matrix (rotate (RZ S) U) (rotate (RZ S) V))) ->
  variants U V -> distinct U V -> eigenvalues (twin_matrix U V) l1 1 l3 -> clear_pair U V ->
  pair_after eig false skip U V h p -> pair_after eig' false skip' (rotate (RZ S) U) (rotate (RZ S) V) h' p' ->
  fst (twinparam eig false p) = Ok (Some (t1, t2)) -> fst (twinparam eig' false p') = Ok (Some (s1, s2)) ->
  exists f1 f2 g1 g2, fst (volumefrac eig false p) = Ok (f1, f2) /\ fst (volumefrac eig' false p') = Ok (g1, g2) /\
  ((turned (RZ S) t1 s1 /\ turned (RZ S) t2 s2 /\ g1 = f1 /\ g2 = f2) \/ (turned (RZ S) t1 s2 /\ turned (RZ S) t2 s1 /\ g1 = f2 /\ g2 = f1)).
Proof.
  intros eig eig' skip skip' S U V h h' p p' l1 l3 t1 t2 s1 s2 O PU PV E E' VR D EV CL PA PA' TP TP'.
  pose proof (int_orth S O) as OR. pose proof (orth_wf _ _ OR) as WQ. pose proof PU as [[WU _] _]. pose proof PV as [[WV _] _].
  pose proof (rotate_posdef _ U OR PU) as PU'. pose proof (rotate_posdef _ V OR PV) as PV'.
  assert (EV' : eigenvalues (twin_matrix (rotate (RZ S) U) (rotate (RZ S) V)) l1 1 l3) by (rewrite twin_rotate by assumption; now apply eigenvalues_rotate).
  pose proof (variants_rotate _ U V OR PU VR) as VR'. pose proof (distinct_rotate S U V O WU WV D) as D'. pose proof (clear_rotate _ U V OR PU PV CL) as CL'.
  destruct (fractions_of _ _ _ _ _ _ _ _ _ _ PU PV E VR D EV CL PA TP) as (f1 & f2 & H & S1 & S2 & L1 & L2 & L3 & L4).
  destruct (fractions_of _ _ _ _ _ _ _ _ _ _ PU' PV' E' VR' D' EV' CL' PA' TP') as (g1 & g2 & H' & S1' & S2' & _).
  exists f1, f2, g1, g2. split; [exact H|]. split; [exact H'|].
  assert (M : forall t s, length (twin_a t) = 3%nat -> length (twin_n t) = 3%nat -> turned (RZ S) t s -> solve_f (rotate (RZ S) U) (twin_a s) (twin_n s) = solve_f U (twin_a t) (twin_n t)).
  { intros t s La Ln (_ & e & He & -> & ->). rewrite <- (C121_frame (RZ S) U _ _ OR WU La Ln).
    pose proof (len_mv3 (RZ S) (twin_a t) WQ) as La'. pose proof (len_mv3 (RZ S) (twin_n t) WQ) as Ln'. pose proof (wf_rotate (RZ S) OR U WU) as WR.
    destruct He as [-> | ->]; [|now apply C121_sign]. f_equal; clear - La' Ln'; [v3 La'|v3 Ln']; unfold vscale; cbn [map]; cbv [mul R_ops]; apply list3_eq; ring. }
  destruct (C121_symmetric _ _ _ _ _ _ _ _ _ _ _ _ _ _ _ _ _ O PU PV E E' VR D EV CL PA PA' TP TP') as [(J1 & J2)|(J1 & J2)]; [left|right];
    pose proof (M _ _ L1 L2 J1) as M1; pose proof (M _ _ L3 L4 J2) as M2; repeat (split; [assumption|]); split; congruence.
Qed.
Print Assumptions C121_fractions.

(** The pair (t1, t2) and its image (t1, t3) under the exchange of two axes. *)
Definition swap_xy : mat Z := [[0; 1; 0]; [1; 0; 0]; [0; 0; 1]]%Z.
Lemma swap_orth : orthogonal 3 swap_xy. Proof. split; [now apply wfb_spec|reflexivity]. Qed.
Lemma swap_t1 : rotate (RZ swap_xy) t1 = t1. Proof. unfold rotate, RZ, mmap, swap_xy, t1. mat_eq ltac:(lra). Qed.
Lemma swap_t2 : rotate (RZ swap_xy) t2 = t3. Proof. unfold rotate, RZ, mmap, swap_xy, t2, t3. mat_eq ltac:(lra). Qed.
Lemma t13_isvariant : isvariant t1 t3 = Ok true.
Proof.
  destruct C27_case as (_ & _ & _ & _ & Us & idx & m' & G & _ & P). unfold isvariant. rewrite <- Utet_t1. unfold Mtet in G. rewrite G. cbn [bind fst]. f_equal.
  apply existsb_exists. exists t3. split.
  - apply (Permutation_in _ (Permutation_sym P)). right. right. left. reflexivity.
  - apply Rltb_spec. replace (fro2 3 3 (msub t3 t3)) with 0; [rewrite sqrt_0; apply small_pos|]. unfold fro2, t3. mat_unfold_goal. ring.
Qed.
Example C121_case : exists eig p p' u1 u2 s1 s2 f1 f2 g1 g2, pair_after eig false true t1 t2 [PVolume] p /\ pair_after eig false true t1 t3 [] p' /\
  fst (twinparam eig false p) = Ok (Some (u1, u2)) /\ fst (twinparam eig false p') = Ok (Some (s1, s2)) /\
  fst (volumefrac eig false p) = Ok (f1, f2) /\ fst (volumefrac eig false p') = Ok (g1, g2) /\
  ((turned (RZ swap_xy) u1 s1 /\ turned (RZ swap_xy) u2 s2 /\ g1 = f1 /\ g2 = f2) \/ (turned (RZ swap_xy) u1 s2 /\ turned (RZ swap_xy) u2 s1 /\ g1 = f2 /\ g2 = f1)).
Proof.
  destruct C40_case as (_ & _ & l1 & l3 & P1 & P2 & _ & VR & D & EV & CL & _). pose proof (int_orth _ swap_orth) as OR.
  assert (P3 : positive_definite t3) by (rewrite <- swap_t2; now apply rotate_posdef).
  destruct (eig_for_pairs [t1; t2; t3]) as (eig & E); [intros X [<-|[<-|[<-|[]]]]; assumption|].
  assert (E12 : is_eig (twin_matrix t1 t2) (eig (twin_matrix t1 t2))) by (apply E; cbn; auto).
  assert (E13 : is_eig (twin_matrix t1 t3) (eig (twin_matrix t1 t3))) by (apply E; cbn; auto).
  assert (EV' : eigenvalues (twin_matrix t1 t3) l1 1 l3) by (rewrite <- swap_t1, <- swap_t2, twin_rotate by assumption; now apply eigenvalues_rotate).
  destruct (new_pair_ok eig t1 t2 _ _ _ P1 E12 EV) as (_ & _ & _ & p & _ & N & _). destruct (new_pair_ok eig t1 t3 _ _ _ P1 E13 EV') as (_ & _ & _ & p' & _ & N' & _).
  assert (PA : pair_after eig false true t1 t2 [PVolume] (pair_run eig false [PVolume] p)) by (exists p; auto). assert (PA' : pair_after eig false true t1 t3 [] p') by (exists p'; auto).
  assert (VR' : variants t1 t3) by (rewrite <- swap_t1, <- swap_t2; now apply variants_rotate).
  assert (D' : distinct t1 t3) by (rewrite <- swap_t1, <- swap_t2; apply distinct_rotate; auto using swap_orth; [apply P1|apply P2]).
  assert (CL' : clear_pair t1 t3) by (rewrite <- swap_t1, <- swap_t2; now apply clear_rotate).
  destruct (C36_pair _ _ _ _ _ _ _ _ P1 P2 E12 VR D EV CL PA) as (H & _). destruct (H t12_isvariant) as (u1 & u2 & X).
  destruct (C36_pair _ _ _ _ _ _ _ _ P1 P3 E13 VR' D' EV' CL' PA') as (H' & _). destruct (H' t13_isvariant) as (s1 & s2 & X').
  assert (E13' := E13). rewrite <- swap_t1, <- swap_t2 in E13'. assert (PA2 := PA'). rewrite <- swap_t1, <- swap_t2 in PA2.
  destruct (C121_fractions _ _ _ _ _ _ _ _ _ _ _ _ _ _ _ _ _ swap_orth P1 P2 E12 E13' VR D EV CL PA PA2 X X') as (f1 & f2 & g1 & g2 & K).
  exists eig, (pair_run eig false [PVolume] p), p', u1, u2, s1, s2, f1, f2, g1, g2. auto.
Qed.
