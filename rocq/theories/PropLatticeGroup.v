(** C107: inlatticegroup, the membership test of the lattice group. *)
From Verif Require Import LinAlg GroupSpec GroupModel GroupProofs LatticeModel LatticeSpec LatticeProofs LatticeGroups LatticeLaue LatticeComplete LatticeMore Eig LaueSamples.
Local Open Scope R_scope.
Ltac meq tac := unfold values, RZ, mmap; mat_eq tac.

(** M, read in the base E, is the linear map Q *)
Definition represents (E M Q : mat R) : Prop := mmul E M = mmul Q E.

Lemma represents_ex n E M : base n E -> wf n n M ->
  exists Q, wf n n Q /\ represents E M Q /\ Q = mmul (mmul E M) (minv E).
Proof.
  intros B WM. destruct B as (Hd & WE & DE). pose proof (dim23_pos n Hd) as Hn. pose proof (wf_minv n E Hd WE) as WI.
  assert (WEM : wf n n (mmul E M)) by (apply (wf_mmul n n n); auto).
  exists (mmul (mmul E M) (minv E)). split; [apply (wf_mmul n n n); auto|]. split; [|reflexivity].
  unfold represents. rewrite (mmul_assoc n n n n), (minv_l n), (mmul_eye_r n n) by auto. reflexivity.
Qed.
Lemma represents_fun n E M Q : base n E -> wf n n M -> wf n n Q -> represents E M Q -> Q = mmul (mmul E M) (minv E).
Proof.
  intros (Hd & WE & DE) WM WQ H. pose proof (dim23_pos n Hd) as Hn. pose proof (wf_minv n E Hd WE) as WI.
  unfold represents in H. rewrite H, (mmul_assoc n n n n), (minv_r n), (mmul_eye_r n n) by auto. reflexivity.
Qed.

(** It always answers; M and the map Q it stands for determine the answer: M is integer and Q is orthogonal, both within
    the tolerances of the code. *)
Theorem C107_meaning_partial n E M Q : base n E -> wf n n M -> wf n n Q -> represents E M Q ->
  exists N : mat Z, wf n n N /\ (forall i j, (i < n)%nat -> (j < n)%nat -> Rabs (get M i j - IZR (get N i j)) <= 1 / 2) /\
  exists b, inlatticegroup E M = Ok b /\
    (b = true <->
      (forall i j, (i < n)%nat -> (j < n)%nat ->
         Rabs (get M i j - IZR (get N i j)) <= 1 / 100000000 + 1 / 100000 * Rabs (IZR (get N i j))) /\
      Rabs (Rabs (det Q) - 1) < 1 / 1000000 /\
      (forall i j, (i < n)%nat -> (j < n)%nat ->
         Rabs (get (mmul Q (tr Q)) i j - get (eye n) i j) <= 1 / 100000000 + 1 / 100000 * Rabs (get (eye n) i j))).
Proof.
  intros B WM WQ HQ. pose proof (proj1 B) as Hd. pose proof (dim23_pos n Hd) as Hn. pose proof (proj1 (proj2 B)) as WE. pose proof (proj2 (proj2 B)) as DE.
  exists (rintm M). split; [now apply wf_rintm|]. split.
  { intros i j Hi Hj. unfold rintm. rewrite (get_mmap rint rint_0). apply rint_close. }
  unfold inlatticegroup. rewrite (inv_Ok n) by auto. cbn [bind]. rewrite <- (represents_fun n E M Q B WM WQ HQ).
  assert (EQ : in_O3 (FltArr Q) = Rltb (Rabs (Rabs (det Q) - 1)) (1 / 1000000) && allclose (mmul Q (tr Q)) (eye n)).
  { cbn [in_O3]. rewrite (is_square_wf n E B) by auto. destruct WQ as [-> _]. reflexivity. }
  exists (allclose M (RZ (rintm M)) && in_O3 (FltArr Q)). split; [destruct (allclose M _); reflexivity|].
  rewrite EQ, !andb_true_iff, Rltb_spec, !(allclose_n n E B) by (auto; apply (wf_mmul n n n); auto; apply wf_tr'; auto).
  split; intros (H1 & H2 & H3); (split; [|split; auto]); intros i j Hi Hj; specialize (H1 i j Hi Hj); rewrite get_RZ in *; exact H1.
Qed.
Print Assumptions C107_meaning_partial.

(** Every integer matrix that stands for an isometry is accepted. *)
Theorem C107_accepts_members n E (N : mat Z) Q : base n E -> wf n n N -> orthogonal n Q -> represents E (RZ N) Q ->
  inlatticegroup E (RZ N) = Ok true.
Proof.
  intros B WN OQ HQ. pose proof (wf_RZ n n N WN) as WR. unfold inlatticegroup.
  destruct B as (Hd & WE & DE). assert (B : base n E) by (split; auto).
  rewrite rintm_RZ, allclose_refl, (inv_Ok n) by auto. cbn [bind].
  rewrite <- (represents_fun n E _ Q B WR (proj1 OQ) HQ). f_equal. now apply (in_O3_float n E B).
Qed.
Print Assumptions C107_accepts_members.

(** The two membership tests agree: for every isometry Q, Q passes inpointgroup exactly when the matrix of Q in the base of
    the lattice passes inlatticegroup. *)
Theorem C107_agrees n E M Q : base n E -> wf n n M -> orthogonal n Q -> represents E M Q ->
  inlatticegroup E M = inpointgroup E (FltArr Q).
Proof.
  intros B WM OQ HQ. rewrite (inpoint_red n E B) by exact OQ. cbn [values].
  destruct B as (Hd & WE & DE). assert (B : base n E) by (split; auto). pose proof (dim23_pos n Hd) as Hn.
  rewrite (lat_eq_red n E B) by (apply (wf_mmul n n n); auto; apply OQ).
  assert (EM : mmul (minv E) (mmul Q E) = M).
  { unfold represents in HQ. rewrite <- HQ. rewrite <- (mmul_assoc n n n n), (minv_l n), (mmul_eye_l n n) by auto using wf_minv. reflexivity. }
  rewrite EM. unfold inlatticegroup. destruct (allclose M _); [|reflexivity].
  rewrite (inv_Ok n) by auto. cbn [bind]. rewrite <- (represents_fun n E M Q B WM (proj1 OQ) HQ). f_equal. now apply (in_O3_float n E B).
Qed.
Print Assumptions C107_agrees.

(** On a lattice whose base has integer entries of size at most 7, the test is exact on integer matrices: accepted if and only
    if the map is an isometry (which then maps the lattice onto itself). *)
Definition adj2 (M : mat Z) : mat Z :=
  match M with [[a; b]; [c; d]] => [[d; - b]; [- c; a]]%Z | _ => M end.
Definition adjn (M : mat Z) : mat Z := if (length M =? 2)%nat then adj2 M else adj3 M.
Lemma adjn_wf n (F : mat Z) : dim23 n -> wf n n F -> wf n n (adjn F).
Proof.
  intros [-> | ->] W.
  - destruct (wf2_inv F W) as (a & b & c & d & ->). now apply wfb_spec.
  - destruct (wf3_inv F W) as (a & b & c & d & e & f & g & h & i & ->). now apply wfb_spec.
Qed.
Lemma adjn_r n (F : mat Z) : dim23 n -> wf n n F -> mmul F (adjn F) = mscale (det F) (eye n).
Proof.
  intros [-> | ->] W.
  - destruct (wf2_inv F W) as (a & b & c & d & ->). unfold adjn, adj2. cbn [length Nat.eqb]. meq ltac:(ring).
  - destruct (wf3_inv F W) as (a & b & c & d & e & f & g & h & i & ->). unfold adjn, adj3. cbn [length Nat.eqb]. meq ltac:(ring).
Qed.
Lemma adjn_l n (F : mat Z) : dim23 n -> wf n n F -> mmul (adjn F) F = mscale (det F) (eye n).
Proof.
  intros [-> | ->] W.
  - destruct (wf2_inv F W) as (a & b & c & d & ->). unfold adjn, adj2. cbn [length Nat.eqb]. meq ltac:(ring).
  - destruct (wf3_inv F W) as (a & b & c & d & e & f & g & h & i & ->). unfold adjn, adj3. cbn [length Nat.eqb]. meq ltac:(ring).
Qed.
Lemma adjn_small n (F : mat Z) : dim23 n -> wf n n F ->
  (forall i j, (i < n)%nat -> (j < n)%nat -> (Z.abs (get F i j) <= 7)%Z) ->
  forall i j, (i < n)%nat -> (j < n)%nat -> (Z.abs (get (adjn F) i j) <= 98)%Z.
Proof.
  assert (P : forall x y, (Z.abs x <= 7 -> Z.abs y <= 7 -> Z.abs (x * y) <= 49)%Z) by (intros; nia).
  assert (Q : forall x y u v, (Z.abs x <= 7 -> Z.abs y <= 7 -> Z.abs u <= 7 -> Z.abs v <= 7 -> Z.abs (x * y - u * v) <= 98)%Z).
  { intros x y u v Hx Hy Hu Hv. pose proof (P x y Hx Hy). pose proof (P u v Hu Hv). lia. }
  intros [-> | ->] W H.
  - destruct (wf2_inv F W) as (a & b & c & d & ->).
    pose proof (H 0 0 ltac:(lia) ltac:(lia))%nat. pose proof (H 0 1 ltac:(lia) ltac:(lia))%nat.
    pose proof (H 1 0 ltac:(lia) ltac:(lia))%nat. pose proof (H 1 1 ltac:(lia) ltac:(lia))%nat. cbn in *.
    intros [|[|i]] [|[|j]] ? ?; try lia; cbn; lia.
  - destruct (wf3_inv F W) as (a & b & c & d & e & f & g & h & i0 & ->).
    pose proof (H 0 0 ltac:(lia) ltac:(lia))%nat. pose proof (H 0 1 ltac:(lia) ltac:(lia))%nat. pose proof (H 0 2 ltac:(lia) ltac:(lia))%nat.
    pose proof (H 1 0 ltac:(lia) ltac:(lia))%nat. pose proof (H 1 1 ltac:(lia) ltac:(lia))%nat. pose proof (H 1 2 ltac:(lia) ltac:(lia))%nat.
    pose proof (H 2 0 ltac:(lia) ltac:(lia))%nat. pose proof (H 2 1 ltac:(lia) ltac:(lia))%nat. pose proof (H 2 2 ltac:(lia) ltac:(lia))%nat.
    cbn [get nth] in *. clear H W.
    intros [|[|[|i]]] [|[|[|j]]] Hi Hj; try (clear - Hi; lia); try (clear - Hj; lia); cbn [adjn adj3 length Nat.eqb get nth]; auto.
Qed.

Lemma int_eq_of_close (x y : Z) : Rabs (IZR x - IZR y) < 1 -> x = y.
Proof.
  rewrite <- minus_IZR, <- abs_IZR. intros H. apply lt_IZR in H. lia.
Qed.
Lemma sumn_abs_bound m (f : nat -> R) b : 0 <= b -> (forall k, (k < m)%nat -> Rabs (f k) <= b) -> Rabs (sumn m f) <= INR m * b.
Proof.
  intros Hb H. induction m as [|m IH].
  - cbn [sumn INR zero R_ops]. rewrite Rabs_R0. lra.
  - rewrite S_INR. cbn [sumn add R_ops]. eapply Rle_trans; [apply Rabs_triang|].
    pose proof (IH ltac:(intros; apply H; lia)). pose proof (H m ltac:(lia)). lra.
Qed.
Lemma sandwich_close n (P Q D0 D1 : mat R) c t : (0 < n)%nat -> wf n n P -> wf n n Q -> wf n n D0 -> wf n n D1 -> 0 <= c -> 0 <= t ->
  (forall i j, (i < n)%nat -> (j < n)%nat -> Rabs (get P i j) <= c) ->
  (forall i j, (i < n)%nat -> (j < n)%nat -> Rabs (get Q i j) <= c) ->
  (forall i j, (i < n)%nat -> (j < n)%nat -> Rabs (get D0 i j - get D1 i j) <= t) ->
  forall i j, (i < n)%nat -> (j < n)%nat ->
    Rabs (get (mmul P (mmul D0 Q)) i j - get (mmul P (mmul D1 Q)) i j) <= INR n * (c * (INR n * (t * c))).
Proof.
  intros Hn WP WQ W0 W1 Hc Ht HP HQ HD i j Hi Hj. pose proof (pos_INR n) as In0.
  rewrite !(get_mmul n n n) by (auto; apply (wf_mmul n n n); auto). cbn [mul R_ops].
  rewrite <- sumn_minus. apply sumn_abs_bound; [repeat apply Rmult_le_pos; assumption|]. intros k Hk.
  rewrite <- Rmult_minus_distr_l, Rabs_mult. apply Rmult_le_compat; auto using Rabs_pos.
  rewrite !(get_mmul n n n) by auto. cbn [mul R_ops]. rewrite <- sumn_minus. apply sumn_abs_bound; [apply Rmult_le_pos; assumption|]. intros l Hl.
  rewrite <- Rmult_minus_distr_r, Rabs_mult. apply Rmult_le_compat; auto using Rabs_pos.
Qed.

Theorem C107_integer_partial n (F N : mat Z) Q : dim23 n -> wf n n F -> det F <> 0%Z ->
  (forall i j, (i < n)%nat -> (j < n)%nat -> (Z.abs (get F i j) <= 7)%Z) ->
  wf n n N -> wf n n Q -> represents (RZ F) (RZ N) Q ->
  (inlatticegroup (RZ F) (RZ N) = Ok true <-> orthogonal n Q) /\
  (inlatticegroup (RZ F) (RZ N) = Ok true -> preserves n Q (RZ F)).
Proof.
  intros Hd WF DF HF WN WQ HQ. pose proof (dim23_pos n Hd) as Hn.
  assert (B : base n (RZ F)).
  { split; [exact Hd|]. split; [now apply wf_RZ|]. rewrite <- RZ_det. now apply IZR_neq. }
  assert (H : inlatticegroup (RZ F) (RZ N) = Ok true -> orthogonal n Q).
  2: { split; [split; [exact H|intros OQ; now apply (C107_accepts_members n _ N Q)]|].
       intros K. apply (preserves_iff n _ B); [auto|]. exists N. split; [exact WN|symmetry; exact HQ]. }
  intros K. destruct (C107_meaning_partial n _ _ Q B (wf_RZ n n N WN) WQ HQ) as (N' & _ & _ & b & Kb & Hb).
  rewrite K in Kb. injection Kb as <-. destruct (proj1 Hb eq_refl) as (_ & _ & HO). clear Hb N' K.
  set (A := adjn F). assert (WA : wf n n A) by now apply adjn_wf. set (d := det F) in *.
  pose proof (wf_RZ n n F WF) as WFR. pose proof (wf_RZ n n A WA) as WAR. pose proof (wf_RZ n n N WN) as WNR.
  assert (WTA : wf n n (tr (RZ A))) by now apply wf_tr'. assert (WTF : wf n n (tr (RZ F))) by now apply wf_tr'.
  assert (WE : wf n n (eye n : mat R)) by apply wf_eye. assert (WEZ : wf n n (eye n : mat Z)) by apply wf_eye.
  assert (Dd : IZR d <> 0) by now apply IZR_neq.
  assert (FA : mmul (RZ F) (RZ A) = mscale (IZR d) (eye n)).
  { rewrite <- RZ_mmul. unfold A. rewrite (adjn_r n) by auto. apply (mat_ext n n); [apply wf_RZ; now apply wf_mscale|now apply wf_mscale|].
    intros i j Hi Hj. rewrite get_RZ, !(get_mscale n n) by auto. cbn [mul Z_ops R_ops]. rewrite mult_IZR. f_equal. rewrite <- get_RZ, RZ_eye. reflexivity. }
  assert (AF : mmul (RZ A) (RZ F) = mscale (IZR d) (eye n)).
  { rewrite <- RZ_mmul. unfold A. rewrite (adjn_l n) by auto. apply (mat_ext n n); [apply wf_RZ; now apply wf_mscale|now apply wf_mscale|].
    intros i j Hi Hj. rewrite get_RZ, !(get_mscale n n) by auto. cbn [mul Z_ops R_ops]. rewrite mult_IZR. f_equal. rewrite <- get_RZ, RZ_eye. reflexivity. }
  (* N A = A Q *)
  assert (NA : mmul (RZ N) (RZ A) = mmul (RZ A) Q).
  { assert (S : mscale (IZR d) (mmul (RZ N) (RZ A)) = mscale (IZR d) (mmul (RZ A) Q)).
    { assert (WNA : wf n n (mmul (RZ N) (RZ A))) by (apply (wf_mmul n n n); auto).
      rewrite <- (mmul_eye_l n n (mmul (RZ N) (RZ A)) WNA Hn) at 1.
      rewrite <- (mmul_mscale_l n), <- AF by auto. rewrite <- (mmul_assoc n n n n) by (auto; apply (wf_mmul n n n); auto).
      rewrite (mmul_assoc n n n n (RZ A) (RZ F) (RZ N)) by auto. unfold represents in HQ. rewrite HQ.
      rewrite <- (mmul_assoc n n n n (RZ A) Q (RZ F)) by auto.
      rewrite (mmul_assoc n n n n) by (auto; apply (wf_mmul n n n); auto). rewrite FA, (mmul_mscale_r n), (mmul_eye_r n n) by (auto; apply (wf_mmul n n n); auto). reflexivity. }
    apply (mat_ext n n); try (apply (wf_mmul n n n); auto). intros i j Hi Hj. apply (f_equal (fun X => get X i j)) in S.
    rewrite !(get_mscale n n) in S by (auto; apply (wf_mmul n n n); auto). cbn [mul R_ops] in S. now apply Rmult_eq_reg_l in S. }
  assert (WD : wf n n (mmul Q (tr Q))) by (apply (wf_mmul n n n); auto; now apply wf_tr').
  assert (WTQ : wf n n (tr Q)) by now apply wf_tr'.
  assert (S0 : mmul (RZ A) (mmul (mmul Q (tr Q)) (tr (RZ A))) = RZ (mmul (mmul N A) (tr (mmul N A)))).
  { rewrite RZ_mmul, RZ_tr, !RZ_mmul, NA, (tr_mmul n n n) by auto.
    rewrite !(mmul_assoc n n n n) by (auto; apply (wf_mmul n n n); auto). reflexivity. }
  assert (S1 : mmul (RZ A) (mmul (eye n) (tr (RZ A))) = RZ (mmul A (tr A))).
  { rewrite (mmul_eye_l n n), RZ_mmul, RZ_tr by auto. reflexivity. }
  assert (SA : forall i j, (i < n)%nat -> (j < n)%nat -> Rabs (get (RZ A) i j) <= 98).
  { intros i j Hi Hj. rewrite get_RZ, <- abs_IZR. apply IZR_le. unfold A. now apply (adjn_small n). }
  assert (SAT : forall i j, (i < n)%nat -> (j < n)%nat -> Rabs (get (tr (RZ A)) i j) <= 98).
  { intros i j Hi Hj. rewrite (get_tr' n n) by (auto; lia). auto. }
  assert (HO' : forall i j, (i < n)%nat -> (j < n)%nat -> Rabs (get (mmul Q (tr Q)) i j - get (eye n) i j) <= 1001 / 100000000).
  { intros i j Hi Hj. eapply Rle_trans; [now apply HO|]. rewrite get_eye by auto. destruct (i =? j)%nat; cbn [one zero R_ops]; rewrite ?Rabs_R0, ?Rabs_R1; lra. }
  assert (IN : INR n <= 3 /\ 0 <= INR n) by (destruct Hd as [-> | ->]; cbn; lra).
  assert (SX : mmul (mmul N A) (tr (mmul N A)) = mmul A (tr A)).
  { assert (WZ : wf n n (mmul N A)) by (apply (wf_mmul n n n); auto).
    apply (mat_ext n n); [apply (wf_mmul n n n); auto; now apply wf_tr'|apply (wf_mmul n n n); auto; now apply wf_tr'|].
    intros i j Hi Hj. apply int_eq_of_close. rewrite <- !get_RZ, <- S0, <- S1.
    eapply Rle_lt_trans; [apply (sandwich_close n _ _ _ _ 98 (1001 / 100000000)); auto; lra|]. nra. }
  split; [exact WQ|]. rewrite <- SX, <- S0 in S1.
  (* multiply by F on the left and by F^T on the right *)
  assert (C : forall D, wf n n D -> mmul (RZ F) (mmul (mmul (RZ A) (mmul D (tr (RZ A)))) (tr (RZ F))) = mscale (IZR d) (mscale (IZR d) D)).
  { intros D WX. rewrite <- (mmul_assoc n n n n), <- (mmul_assoc n n n n (RZ F) (RZ A)), FA by (auto; repeat apply (wf_mmul n n n); auto).
    rewrite !(mmul_mscale_l n), (mmul_eye_l n n) by (auto; repeat apply (wf_mmul n n n); auto).
    rewrite (mmul_assoc n n n n), <- (tr_mmul n n n), FA by auto. f_equal.
    replace (tr (mscale (IZR d) (eye n : mat R))) with (mscale (IZR d) (eye n : mat R)).
    - rewrite (mmul_mscale_r n), (mmul_eye_r n n) by auto. reflexivity.
    - apply (mat_ext n n); [now apply wf_mscale|apply wf_tr'; auto; now apply wf_mscale|]. intros i j Hi Hj.
      rewrite (get_tr' n n), !(get_mscale n n) by (first [assumption | now apply wf_mscale | auto]). rewrite !get_eye by auto. now rewrite Nat.eqb_sym. }
  assert (EQ : mscale (IZR d) (mscale (IZR d) (mmul Q (tr Q))) = mscale (IZR d) (mscale (IZR d) (eye n))).
  { rewrite <- !C by auto. now rewrite S1. }
  apply (mat_ext n n); auto. intros i j Hi Hj. apply (f_equal (fun X => get X i j)) in EQ.
  rewrite !(get_mscale n n) in EQ by (auto; now apply wf_mscale). cbn [mul R_ops] in EQ.
  apply Rmult_eq_reg_l in EQ; [|exact Dd]. now apply Rmult_eq_reg_l in EQ.
Qed.
Print Assumptions C107_integer_partial.

Lemma base2 a b c d : a * d - b * c <> 0 -> base 2 (M2 a b c d).
Proof. apply BravaisProofs.base2_intro. Qed.
Lemma wfM2 a b c d : wf 2 2 (M2 a b c d).
Proof. now apply wfb_spec. Qed.
Definition b_near : R := 1 + 1 / 1000000.
(** The tolerance also admits integer matrices that stand for no isometry: a quarter turn of a rectangle that is not quite a
    square. *)
Theorem C107_refuted : exists E (N : mat Z) Q, base 2 E /\ wf 2 2 N /\ wf 2 2 Q /\ represents E (RZ N) Q /\
  inlatticegroup E (RZ N) = Ok true /\ ~ orthogonal 2 Q.
Proof.
  assert (Hb : b_near <> 0) by (unfold b_near; lra).
  assert (B : base 2 (M2 1 0 0 b_near)) by (apply base2; lra).
  assert (R : represents (M2 1 0 0 b_near) (RZ [[0; -1]; [1; 0]]%Z) (M2 0 (- / b_near) b_near 0)).
  { unfold represents, RZ, mmap. meq ltac:(field; exact Hb). }
  assert (WN : wf 2 2 [[0; -1]; [1; 0]]%Z) by now apply wfb_spec.
  exists (M2 1 0 0 b_near), [[0; -1]; [1; 0]]%Z, (M2 0 (- / b_near) b_near 0).
  split; [exact B|]. split; [exact WN|]. split; [apply wfM2|]. split; [exact R|]. split.
  - destruct (C107_meaning_partial 2 _ _ _ B (wf_RZ 2 2 _ WN) (wfM2 _ _ _ _) R) as (N & WN' & HN & b & -> & Hb2).
    f_equal. apply Hb2. clear Hb2.
    assert (EN : forall i j, (i < 2)%nat -> (j < 2)%nat -> get (RZ [[0; -1]; [1; 0]]%Z) i j = IZR (get N i j)).
    { intros i j Hi Hj. specialize (HN i j Hi Hj). rewrite get_RZ in *. f_equal. apply int_eq_of_close. lra. }
    assert (Dt : det (M2 0 (- / b_near) b_near 0) = 1).
    { unfold M2. cbv [det det_n minor nrows length sumn get nth tl map firstn skipn app Nat.even add mul sub opp zero one R_ops]. field. exact Hb. }
    split; [|split].
    + intros i j Hi Hj. rewrite EN by auto. replace (IZR (get N i j) - IZR (get N i j)) with 0 by ring. rewrite Rabs_R0.
      pose proof (Rabs_pos (IZR (get N i j))). lra.
    + rewrite Dt, Rabs_R1. replace (1 - 1) with 0 by ring. rewrite Rabs_R0. lra.
    + assert (EQ : mmul (M2 0 (- / b_near) b_near 0) (tr (M2 0 (- / b_near) b_near 0)) = M2 (/ b_near * / b_near) 0 0 (b_near * b_near)) by (meq ltac:(ring)).
      rewrite EQ, eye2. intros [|[|i]] [|[|j]] Hi Hj; try lia; cbn [get M2 nth].
      * assert (I1 : / b_near <= 1) by (rewrite <- Rinv_1; apply Rinv_le_contravar; unfold b_near; lra).
        assert (I2 : 1 - 1 / 1000000 <= / b_near).
        { apply (Rmult_le_reg_l b_near); [unfold b_near; lra|]. rewrite Rinv_r by exact Hb. unfold b_near. lra. }
        rewrite Rabs_R1, Rabs_left1 by nra. nra.
      * rewrite Rabs_R0, Rminus_0_r, Rabs_R0. lra.
      * rewrite Rabs_R0, Rminus_0_r, Rabs_R0. lra.
      * rewrite Rabs_R1, Rabs_pos_eq by (unfold b_near; lra). unfold b_near. lra.
  - intros [_ O]. apply (f_equal (fun X => get X 1 1)) in O. revert O. unfold b_near. cbn. lra.
Qed.
Print Assumptions C107_refuted.

(** a hexagonal-like skew base: the shear [[1;1];[0;1]] is not a symmetry and is refused, the half turn is accepted; and a
    non-integer matrix of an isometry is refused by both tests *)
Example C107_case :
  inlatticegroup (RZ [[2; 1]; [0; 3]]%Z) (RZ [[-1; 0]; [0; -1]]%Z) = Ok true /\
  inlatticegroup (RZ [[2; 1]; [0; 3]]%Z) (RZ [[1; 1]; [0; 1]]%Z) <> Ok true /\
  inlatticegroup (M2 1 0 0 3) (M2 0 (-3) (1 / 3) 0) = inpointgroup (M2 1 0 0 3) (FltArr (M2 0 (-1) 1 0)).
Proof.
  assert (WF : wf 2 2 [[2; 1]; [0; 3]]%Z) by now apply wfb_spec.
  assert (SM : forall i j, (i < 2)%nat -> (j < 2)%nat -> (Z.abs (get [[2; 1]; [0; 3]] i j) <= 7)%Z).
  { intros [|[|i]] [|[|j]] ? ?; try lia; cbn; lia. }
  split; [|split].
  - apply (C107_integer_partial 2 [[2; 1]; [0; 3]]%Z [[-1; 0]; [0; -1]]%Z (M2 (-1) 0 0 (-1)));
      [now left|exact WF|discriminate|exact SM|now apply wfb_spec|apply wfM2|unfold represents; meq ltac:(ring)|].
    split; [apply wfM2|meq ltac:(ring)].
  - intros K. destruct (C107_integer_partial 2 [[2; 1]; [0; 3]]%Z [[1; 1]; [0; 1]]%Z (M2 1 (2/3) 0 1)) as [H _];
      [now left|exact WF|discriminate|exact SM|now apply wfb_spec|apply wfM2|unfold represents; meq ltac:(field)|].
    apply H in K.
    destruct K as [_ O]. apply (f_equal (fun X => get X 0 1)) in O. cbn in O. lra.
  - apply (C107_agrees 2); [apply base2; lra|apply wfM2|split; [apply wfM2|meq ltac:(ring)]|unfold represents; meq ltac:(field)].
Qed.
