(** Proofs about the twinning equation. *)
From Verif Require Export TwinSpec LatticeProofs RankOneConn RankOneAll.
Local Open Scope R_scope.

Ltac v3 H := apply len3_inv in H; destruct H as (? & ? & ? & ->).

Lemma half_turn_eq e : length e = 3%nat -> half_turn e = R180 e.
Proof. intros L. v3 L. unfold half_turn, R180. mat_eq ltac:(ring). Qed.
Lemma wf_half e : wf 3 3 (half_turn e). Proof. apply wf_mk. Qed.
Lemma list3_eq (a b c a' b' c' : R) : a = a' -> b = b' -> c = c' -> [a; b; c] = [a'; b'; c'].
Proof. now intros -> -> ->. Qed.
(** l = r up to a multiple of something that vanishes *)
Lemma by_cert c z l r : z = 0 -> l = r + c * z -> l = r.
Proof. intros -> ->. ring. Qed.
Lemma half_turn_fixes e : length e = 3%nat -> dot e e = 1 -> mvmul (half_turn e) e = e.
Proof.
  intros L. v3 L. rewrite dot3. intros D. apply Rminus_diag_eq in D. unfold half_turn.
  mat_unfold_goal. apply list3_eq; [apply (by_cert (2 * x) _ _ _ D)|apply (by_cert (2 * x0) _ _ _ D)|apply (by_cert (2 * x1) _ _ _ D)]; ring.
Qed.
Lemma half_turn_reverses e x : length e = 3%nat -> length x = 3%nat -> dot e x = 0 -> mvmul (half_turn e) x = vscale (-1) x.
Proof.
  intros L Lx. apply len3_inv in L. destruct L as (a & b & c & ->). apply len3_inv in Lx. destruct Lx as (p & q & r & ->).
  rewrite dot3. intros D. unfold half_turn, vscale. mat_unfold_goal.
  apply list3_eq; [apply (by_cert (2 * a) _ _ _ D)|apply (by_cert (2 * b) _ _ _ D)|apply (by_cert (2 * c) _ _ _ D)]; ring.
Qed.
Lemma half_sym e : length e = 3%nat -> tr (half_turn e) = half_turn e.
Proof. intros L. v3 L. unfold half_turn. mat_eq ltac:(ring). Qed.
Lemma half_sq e : length e = 3%nat -> dot e e = 1 -> mmul (half_turn e) (half_turn e) = eye 3.
Proof.
  intros L. v3 L. rewrite dot3. intros D. apply Rminus_diag_eq in D. unfold half_turn.
  apply (mat_ext 3 3); [apply (wf_mmul 3 3 3); try lia; apply wf_mk|apply wf_mk|]. intros i j Hi Hj.
  apply (by_cert (4 * vget [x; x0; x1] i * vget [x; x0; x1] j) _ _ _ D).
  destruct i as [|[|[|i]]]; try lia; destruct j as [|[|[|j]]]; try lia; mat_unfold_goal; ring.
Qed.
Lemma half_orth e : length e = 3%nat -> dot e e = 1 -> orthogonal 3 (half_turn e).
Proof. intros L D. split; [apply wf_half|]. rewrite half_sym by auto. now apply half_sq. Qed.
Lemma half_det e : length e = 3%nat -> dot e e = 1 -> det (half_turn e) = 1.
Proof.
  intros L. v3 L. rewrite dot3. intros D. unfold half_turn. mat_unfold_goal.
  transitivity (2 * (x * x + x0 * x0 + x1 * x1) - 1); [ring|rewrite D; ring].
Qed.

(** (U + a (x) n)^T (U + a (x) n) *)
Lemma stretch_sq U a n i j : MartSpec.symmetric U -> length a = 3%nat -> length n = 3%nat -> (i < 3)%nat -> (j < 3)%nat ->
  get (mmul (tr (madd U (outer a n))) (madd U (outer a n))) i j =
  get (mmul U U) i j + vget (mvmul U a) i * vget n j + vget n i * vget (mvmul U a) j + dot a a * vget n i * vget n j.
Proof.
  intros S La Ln Hi Hj. destruct (sym3 U S) as (c1 & c2 & c3 & c4 & c5 & c6 & ->). v3 La. v3 Ln.
  destruct i as [|[|[|i]]]; try lia; destruct j as [|[|[|j]]]; try lia; mat_unfold_goal; ring.
Qed.
(** R M R for a half turn *)
Lemma half_conj M e i j : MartSpec.symmetric M -> length e = 3%nat -> (i < 3)%nat -> (j < 3)%nat ->
  get (mmul (mmul (half_turn e) M) (half_turn e)) i j =
  get M i j - 2 * (vget (mvmul M e) i * vget e j + vget e i * vget (mvmul M e) j) +
  4 * dot e (mvmul M e) * vget e i * vget e j.
Proof.
  intros S Le Hi Hj. destruct (sym3 M S) as (c1 & c2 & c3 & c4 & c5 & c6 & ->). v3 Le. unfold half_turn.
  destruct i as [|[|[|i]]]; try lia; destruct j as [|[|[|j]]]; try lia; mat_unfold_goal; ring.
Qed.
Lemma posdef_det U : positive_definite U -> 0 < det U.
Proof. intros P. apply (posdef_minors U (proj1 P)), P. Qed.
Lemma posdef_inv_sym U : positive_definite U -> MartSpec.symmetric (minv U).
Proof.
  intros P. pose proof (posdef_det U P). destruct P as [[W S] _]. assert (d : dim23 3) by now right.
  split; [now apply wf_minv|]. rewrite <- (minv_tr 3) by (auto; lra). now rewrite S.
Qed.
Lemma mvmul_inv_r U e : wf 3 3 U -> det U <> 0 -> length e = 3%nat -> mvmul U (mvmul (minv U) e) = e.
Proof.
  intros W D L. assert (d : dim23 3) by now right.
  rewrite <- (mvmul_mmul 3), (minv_r 3), mvmul_eye by (auto using wf_minv; lia). reflexivity.
Qed.
Lemma mvmul_inv_l U e : wf 3 3 U -> det U <> 0 -> length e = 3%nat -> mvmul (minv U) (mvmul U e) = e.
Proof.
  intros W D L. assert (d : dim23 3) by now right.
  rewrite <- (mvmul_mmul 3), (minv_l 3), mvmul_eye by (auto using wf_minv; lia). reflexivity.
Qed.
Lemma dot_sym_mv U x y : MartSpec.symmetric U -> length x = 3%nat -> length y = 3%nat -> dot x (mvmul U y) = dot (mvmul U x) y.
Proof.
  intros S Lx Ly. destruct (sym3 U S) as (c1 & c2 & c3 & c4 & c5 & c6 & ->). v3 Lx. v3 Ly. mat_unfold_goal. ring.
Qed.
Lemma sym_sq U : MartSpec.symmetric U -> MartSpec.symmetric (mmul U U).
Proof.
  intros [W S]. split; [apply (wf_mmul 3 3 3); auto|]. rewrite (tr_mmul 3 3 3), S by (auto; lia). reflexivity.
Qed.
Lemma det_add U a n : wf 3 3 U -> det U <> 0 -> length a = 3%nat -> length n = 3%nat ->
  det (madd U (outer a n)) = det U * (1 + dot (mvmul (minv U) a) n).
Proof.
  intros W D La Ln. assert (d : dim23 3) by now right. assert (Wi := wf_minv 3 U d W).
  assert (Lp : length (mvmul (minv U) a) = 3%nat) by now apply len_mv3.
  rewrite <- (mvmul_inv_r U a W D La) at 1. set (p := mvmul (minv U) a) in *. clearbody p. clear a La Wi.
  destruct (wf3_inv U W) as (c1 & c2 & c3 & c4 & c5 & c6 & c7 & c8 & c9 & ->). v3 Lp. v3 Ln.
  mat_unfold_goal. ring.
Qed.

(** a stretch with the right square is a twin *)
Lemma twin_of_square U V a n : wf 3 3 U -> positive_definite V -> length a = 3%nat -> length n = 3%nat -> dot n n = 1 ->
  mmul (tr (madd U (outer a n))) (madd U (outer a n)) = mmul V V -> det (madd U (outer a n)) = det V ->
  twinning U V (mmul (madd U (outer a n)) (minv V)) a n.
Proof.
  intros WU PV La Ln N E ED. assert (d : dim23 3) by now right. pose proof (posdef_det V PV) as DV. pose proof PV as [[WV TV] _].
  assert (DV' : det V <> 0) by lra. assert (WVi := wf_minv 3 V d WV). assert (WTi : wf 3 3 (tr (minv V))) by (apply wf_tr'; auto; lia).
  set (F := madd U (outer a n)) in *. assert (WF : wf 3 3 F) by (apply wf_madd; auto using wf_outer3; lia). assert (WT : wf 3 3 (tr F)) by (apply wf_tr'; auto; lia).
  assert (WQ : wf 3 3 (mmul F (minv V))) by (apply (wf_mmul 3 3 3); auto).
  split; [|split; [|split; [|split; [|split]]]]; auto.
  - split; [exact WQ|]. apply (inv_comm 3); auto; [apply wf_tr'; [lia|exact WQ]|].
    rewrite (tr_mmul 3 3 3) by (auto; lia). rewrite (mmul_assoc 3 3 3 3) by (auto; lia).
    rewrite <- (mmul_assoc 3 3 3 3 (tr F) F) by (auto; lia). rewrite E.
    rewrite (mmul_assoc 3 3 3 3 V V), (minv_r 3), (mmul_eye_r 3 3) by (auto; lia).
    rewrite <- (minv_tr 3) by auto. rewrite TV. apply (minv_l 3); auto.
  - rewrite (det_mmul 3), (det_minv 3), ED by auto. field. exact DV'.
  - rewrite (mmul_assoc 3 3 3 3), (minv_l 3), (mmul_eye_r 3 3) by (auto; lia). reflexivity.
Qed.
(** its matrix V^2 for V = R U R *)
Lemma half_conj_sq U e : wf 3 3 U -> length e = 3%nat -> dot e e = 1 ->
  mmul (rotate (half_turn e) U) (rotate (half_turn e) U) = mmul (mmul (half_turn e) (mmul U U)) (half_turn e).
Proof.
  intros W L D. unfold rotate. rewrite half_sym by auto. pose proof (wf_half e) as WH. assert (0 < 3)%nat by lia.
  assert (WHU : wf 3 3 (mmul (half_turn e) U)) by (apply (wf_mmul 3 3 3); auto).
  rewrite (mmul_assoc 3 3 3 3 (mmul (half_turn e) U) (half_turn e)) by (auto; apply (wf_mmul 3 3 3); auto).
  rewrite <- (mmul_assoc 3 3 3 3 (half_turn e) (mmul (half_turn e) U)) by auto.
  rewrite <- (mmul_assoc 3 3 3 3 (half_turn e) (half_turn e) U), half_sq, (mmul_eye_l 3 3) by auto.
  rewrite <- (mmul_assoc 3 3 3 3 (mmul (half_turn e) U) U) by auto. now rewrite (mmul_assoc 3 3 3 3 (half_turn e) U U) by auto.
Qed.
Lemma rotate_posdef Q U : orthogonal 3 Q -> positive_definite U -> positive_definite (rotate Q U).
Proof.
  intros O [[W S] P]. assert (d : dim23 3) by now right. pose proof (orth_wf _ _ O) as WQ.
  assert (WT : wf 3 3 (tr Q)) by (apply wf_tr'; auto; lia).
  assert (WQU : wf 3 3 (mmul Q U)) by (apply (wf_mmul 3 3 3); auto).
  split; [split|].
  - apply (wf_mmul 3 3 3); auto.
  - unfold rotate. rewrite (tr_mmul 3 3 3), (tr_tr 3 3), (tr_mmul 3 3 3), S by (auto; lia).
    now rewrite (mmul_assoc 3 3 3 3) by (auto; lia).
  - intros x y z N. unfold rotate. rewrite (mvmul_mmul 3), (mvmul_mmul 3) by (auto; try apply len_mv3; auto; lia).
    assert (E : dot [x; y; z] (mvmul Q (mvmul U (mvmul (tr Q) [x; y; z]))) = dot (mvmul (tr Q) [x; y; z]) (mvmul U (mvmul (tr Q) [x; y; z]))).
    { generalize (mvmul U (mvmul (tr Q) [x; y; z])) (len_mv3 U (mvmul (tr Q) [x; y; z]) W). intros w Lw. v3 Lw.
      destruct (wf3_inv Q WQ) as (c1 & c2 & c3 & c4 & c5 & c6 & c7 & c8 & c9 & ->). mat_unfold_goal. ring. }
    rewrite E. assert (Lw := len_mv3 (tr Q) [x; y; z] WT). apply len3_inv in Lw. destruct Lw as (p & q & r & Ew). rewrite Ew. apply P.
    intros Z. apply N. injection Z. intros -> -> ->. assert (Z0 : mvmul Q (mvmul (tr Q) [x; y; z]) = [x; y; z]).
    { rewrite <- (mvmul_mmul 3) by (auto; lia). rewrite (proj2 O). apply mvmul_eye. reflexivity. }
    rewrite Ew in Z0. destruct (wf3_inv Q WQ) as (c1 & c2 & c3 & c4 & c5 & c6 & c7 & c8 & c9 & ->). mat_unfold.
    rewrite !Rmult_0_r, !Rplus_0_r in Z0. now injection Z0 as <- <- <-.
Qed.
Lemma det_rotate Q U : orthogonal 3 Q -> wf 3 3 U -> det (rotate Q U) = det U.
Proof.
  intros O W. assert (d : dim23 3) by now right. pose proof (orth_wf _ _ O) as WQ.
  assert (WT : wf 3 3 (tr Q)) by (apply wf_tr'; auto; lia).
  unfold rotate. rewrite !(det_mmul 3), (det_tr 3) by (auto; apply (wf_mmul 3 3 3); auto).
  transitivity (det Q * det Q * det U); [ring|]. rewrite det_orth by auto. ring.
Qed.
Lemma vget_vsub u v i : length u = 3%nat -> (i < 3)%nat -> vget (vsub u v) i = vget u i - vget v i.
Proof. intros L H. unfold vsub. rewrite L, vget_mkv by auto. reflexivity. Qed.
Lemma vget_vscale k u i : (i < length u)%nat -> vget (vscale k u) i = k * vget u i.
Proof. intros H. unfold vget, vscale. rewrite (nth_indep _ _ (k * 0)) by (rewrite map_length; auto). now rewrite (map_nth (Rmult k)). Qed.
Lemma vget_div r u i : (i < length u)%nat -> vget (map (fun x => x / r) u) i = vget u i / r.
Proof.
  intros H. unfold vget. rewrite (nth_indep _ _ ((fun x => x / r) zero)) by (rewrite map_length; auto). now rewrite (map_nth (fun x => x / r)).
Qed.
Lemma len_vscale k u : length (vscale k u) = length u. Proof. apply map_length. Qed.
Lemma len_vsub u v : length (vsub u v) = length u. Proof. apply length_mkv. Qed.
Lemma len_div (r : R) u : length (map (fun x => x / r) u) = length u. Proof. apply map_length. Qed.

(** the square of the deformed stretch only needs vector identities *)
Lemma square_by U V e a n : MartSpec.symmetric U -> V = rotate (half_turn e) U -> length e = 3%nat -> dot e e = 1 ->
  length a = 3%nat -> length n = 3%nat ->
  (forall i j, (i < 3)%nat -> (j < 3)%nat ->
    vget (mvmul U a) i * vget n j + vget n i * vget (mvmul U a) j + dot a a * vget n i * vget n j =
    - 2 * (vget (mvmul (mmul U U) e) i * vget e j + vget e i * vget (mvmul (mmul U U) e) j) +
    4 * dot e (mvmul (mmul U U) e) * vget e i * vget e j) ->
  mmul (tr (madd U (outer a n))) (madd U (outer a n)) = mmul V V.
Proof.
  intros S -> Le De La Ln H. assert (Hp : (0 < 3)%nat) by lia. pose proof S as [W _].
  assert (WF : wf 3 3 (madd U (outer a n))) by (apply wf_madd; auto).
  assert (WUU := proj1 (sym_sq U S)). pose proof (wf_half e) as WH.
  rewrite half_conj_sq by auto.
  apply (mat_ext 3 3).
  - apply (wf_mmul 3 3 3); auto. apply wf_tr'; auto.
  - apply (wf_mmul 3 3 3); auto. apply (wf_mmul 3 3 3); auto.
  - intros i j Hi Hj. rewrite stretch_sq, half_conj by (auto using sym_sq). specialize (H i j Hi Hj). lra.
Qed.

Lemma dot_vsub u v w : length u = 3%nat -> length v = 3%nat -> length w = 3%nat -> dot (vsub u v) w = dot u w - dot v w.
Proof. intros Lu Lv Lw. v3 Lu. v3 Lv. v3 Lw. unfold vsub. mat_unfold_goal. ring. Qed.
Lemma dot_vscale k u w : length u = 3%nat -> length w = 3%nat -> dot (vscale k u) w = k * dot u w.
Proof. intros Lu Lw. v3 Lu. v3 Lw. unfold vscale. mat_unfold_goal. ring. Qed.
Lemma dot_div r u w : length u = 3%nat -> length w = 3%nat -> dot (map (fun x => x / r) u) w = dot u w / r.
Proof. intros Lu Lw. v3 Lu. v3 Lw. mat_unfold_goal. unfold Rdiv. ring. Qed.
Lemma mv_vsub U u v : wf 3 3 U -> length u = 3%nat -> length v = 3%nat -> mvmul U (vsub u v) = vsub (mvmul U u) (mvmul U v).
Proof.
  intros W Lu Lv. destruct (wf3_inv U W) as (c1 & c2 & c3 & c4 & c5 & c6 & c7 & c8 & c9 & ->). v3 Lu. v3 Lv. unfold vsub.
  mat_unfold_goal. apply list3_eq; ring.
Qed.
Lemma mv_vscale U k u : wf 3 3 U -> length u = 3%nat -> mvmul U (vscale k u) = vscale k (mvmul U u).
Proof.
  intros W Lu. destruct (wf3_inv U W) as (c1 & c2 & c3 & c4 & c5 & c6 & c7 & c8 & c9 & ->). v3 Lu. unfold vscale.
  mat_unfold_goal. apply list3_eq; ring.
Qed.
Lemma mv_div U r u : wf 3 3 U -> length u = 3%nat -> mvmul U (map (fun x => x / r) u) = map (fun x => x / r) (mvmul U u).
Proof.
  intros W Lu. destruct (wf3_inv U W) as (c1 & c2 & c3 & c4 & c5 & c6 & c7 & c8 & c9 & ->). v3 Lu.
  mat_unfold_goal. unfold Rdiv. apply list3_eq; ring.
Qed.
Lemma dot_pos v : length v = 3%nat -> 0 <= dot v v.
Proof. intros L. v3 L. rewrite dot3. nra. Qed.
Lemma dot0 v : length v = 3%nat -> dot v v = 0 -> v = [0; 0; 0].
Proof. intros L. v3 L. rewrite dot3. intros. apply list3_eq; nra. Qed.
Lemma mv0 U : wf 3 3 U -> mvmul U [0; 0; 0] = [0; 0; 0].
Proof.
  intros W. destruct (wf3_inv U W) as (c1 & c2 & c3 & c4 & c5 & c6 & c7 & c8 & c9 & ->). mat_unfold_goal. apply list3_eq; ring.
Qed.
Lemma mv_pos U e : wf 3 3 U -> det U <> 0 -> length e = 3%nat -> dot e e = 1 -> 0 < dot (mvmul U e) (mvmul U e).
Proof.
  intros W D L E. assert (Le := len_mv3 U e W). destruct (Rle_lt_or_eq_dec _ _ (dot_pos _ Le)) as [H|H]; [exact H|].
  symmetry in H. apply dot0 in H; auto. pose proof (mvmul_inv_l U e W D L) as K. assert (d : dim23 3) by now right.
  rewrite H, mv0 in K by (now apply wf_minv). rewrite <- K in E. rewrite dot3 in E. lra.
Qed.

Section Twin.
  Variables (U : mat R) (e : vec R).
  Hypothesis PU : positive_definite U.
  Hypothesis Le : length e = 3%nat.
  Hypothesis De : dot e e = 1.
  Let V := rotate (half_turn e) U.
  Let SU : MartSpec.symmetric U. Proof. apply PU. Qed.
  Let WU : wf 3 3 U. Proof. apply PU. Qed.
  Let DU : det U <> 0. Proof. pose proof (posdef_det U PU). lra. Qed.
  Let d3 : dim23 3. Proof. now right. Qed.
  Let p := mvmul (minv U) e.
  Let Lp : length p = 3%nat. Proof. apply len_mv3, wf_minv; auto. Qed.
  Let Up : mvmul U p = e. Proof. apply mvmul_inv_r; auto. Qed.
  Let LUe : length (mvmul U e) = 3%nat. Proof. now apply len_mv3. Qed.
  Let dp : 0 < dot p p.
  Proof. apply mv_pos; auto; [now apply wf_minv|]. apply (det_minv_neq0 3); auto. Qed.
  Let dk : 0 < dot (mvmul U e) (mvmul U e).
  Proof. apply mv_pos; auto. Qed.
  Let w_eq : mvmul (mmul U U) e = mvmul U (mvmul U e).
  Proof. apply (mvmul_mmul 3); auto; lia. Qed.
  Let k_eq : dot e (mvmul U (mvmul U e)) = dot (mvmul U e) (mvmul U e).
  Proof. now apply dot_sym_mv. Qed.
  Let PV : positive_definite V.
  Proof. apply rotate_posdef; auto. now apply half_orth. Qed.
  Let DV : det V = det U.
  Proof. apply det_rotate; auto. now apply half_orth. Qed.

  Lemma type1 : let a := vscale 2 (vsub (map (fun x => x / dot p p) p) (mvmul U e)) in
    twinning U V (mmul (madd U (outer a e)) (minv V)) a e.
  Proof.
    intros a. assert (La : length a = 3%nat) by (unfold a; now rewrite len_vscale, len_vsub, len_div).
    assert (pU : dot p (mvmul U e) = 1) by (rewrite dot_sym_mv by auto; now rewrite Up).
    apply twin_of_square; auto.
    - apply (square_by U V e); auto. intros i j Hi Hj. rewrite w_eq, k_eq.
      assert (Ua : forall i, (i < 3)%nat -> vget (mvmul U a) i = 2 * (vget e i / dot p p - vget (mvmul U (mvmul U e)) i)).
      { intros h Hh. unfold a. rewrite mv_vscale by (auto; now rewrite len_vsub, len_div).
        rewrite vget_vscale by (rewrite len_mv3 by auto; exact Hh). rewrite mv_vsub by (auto; now rewrite len_div).
        rewrite vget_vsub by (auto; now apply len_mv3). rewrite mv_div, Up by auto. rewrite vget_div by (rewrite Le; exact Hh). reflexivity. }
      assert (aa : dot a a = 4 * (dot (mvmul U e) (mvmul U e) - 1 / dot p p)).
      { assert (A1 : dot a p = 2 * (1 - 1)).
        { unfold a. rewrite dot_vscale, dot_vsub, dot_div, (dot_comm (mvmul U e)), pU by (auto; now rewrite ?len_vsub, ?len_div).
          f_equal. f_equal. field. lra. }
        assert (A2 : dot a (mvmul U e) = 2 * (1 / dot p p - dot (mvmul U e) (mvmul U e))).
        { unfold a. rewrite dot_vscale, dot_vsub, dot_div, pU by (auto; now rewrite ?len_vsub, ?len_div). reflexivity. }
        unfold a at 1. rewrite dot_vscale, dot_vsub, dot_div by (auto; now rewrite ?len_vsub, ?len_div).
        rewrite (dot_comm p a), (dot_comm (mvmul U e) a), A1, A2 by auto. field. lra. }
      rewrite !Ua, aa by auto. field. lra.
    - rewrite det_add by auto. rewrite DV. rewrite <- (Rmult_1_r (det U)) at 2. f_equal.
      assert (E : dot (mvmul (minv U) a) e = dot a p).
      { unfold p. rewrite dot_sym_mv by (auto; now apply posdef_inv_sym). reflexivity. }
      rewrite E. unfold a. rewrite dot_vscale, dot_vsub, dot_div, (dot_comm (mvmul U e)), pU by (auto; now rewrite ?len_vsub, ?len_div).
      field. lra.
  Qed.

  Let k := dot (mvmul U e) (mvmul U e).
  Let n2 := vscale 2 (vsub e (map (fun x => x / k) (mvmul U (mvmul U e)))).
  Let Ln2 : length n2 = 3%nat. Proof. unfold n2. now rewrite len_vscale, len_vsub. Qed.
  Lemma type2 : vnorm n2 <> 0 ->
    let a := vscale (vnorm n2) (mvmul U e) in let n := map (fun x => x / vnorm n2) n2 in
    twinning U V (mmul (madd U (outer a n)) (minv V)) a n.
  Proof.
    intros N a n. assert (La : length a = 3%nat) by (unfold a; now rewrite len_vscale).
    assert (Ln : length n = 3%nat) by (unfold n; now rewrite len_div).
    assert (O : outer a n = outer (mvmul U e) n2).
    { unfold a, n. clearbody n2. revert Ln2 N LUe. generalize (mvmul U e) (vnorm n2). intros u r L1 Nr L2. v3 L2. v3 L1.
      unfold vscale. mat_eq ltac:(now field). }
    assert (Lww : length (mvmul U (mvmul U e)) = 3%nat) by now apply len_mv3.
    apply twin_of_square; auto.
    - unfold n. rewrite dot_div, dot_comm, dot_div by (auto; now rewrite len_div). unfold vnorm in *.
      rewrite <- (sqrt_def (dot n2 n2)) at 1 by now apply dot_pos. field. exact N.
    - rewrite O. apply (square_by U V e); auto. intros i j Hi Hj. rewrite w_eq, k_eq. fold k in dk |- *.
      assert (Nn : forall i, (i < 3)%nat -> vget n2 i = 2 * (vget e i - vget (mvmul U (mvmul U e)) i / k)).
      { intros h Hh. unfold n2. rewrite vget_vscale by (rewrite len_vsub, Le; exact Hh).
        rewrite vget_vsub by auto. rewrite vget_div by (rewrite Lww; exact Hh). reflexivity. }
      rewrite !Nn by auto. field. lra.
    - rewrite O, det_add by auto. rewrite DV. rewrite <- (Rmult_1_r (det U)) at 2. f_equal.
      rewrite mvmul_inv_l by auto. rewrite dot_comm by auto. unfold n2.
      rewrite dot_vscale, dot_vsub, dot_div, De by (auto; now rewrite ?len_vsub, ?len_div).
      rewrite dot_comm, k_eq by auto. fold k in dk |- *. field. lra.
  Qed.
  (** n2 vanishes only if the half turn leaves U unchanged *)
  Lemma n2_zero : vnorm n2 = 0 -> V = U.
  Proof.
    intros Z. unfold vnorm in Z. apply sqrt_eq_0 in Z; [|now apply dot_pos]. apply dot0 in Z; auto.
    assert (Lww : length (mvmul U (mvmul U e)) = 3%nat) by now apply len_mv3.
    fold k in dk.
    assert (E : mvmul U (mvmul U e) = vscale k e).
    { apply (LatticeProofs.vec_ext _ _ 3); auto; [now rewrite len_vscale|]. intros i Hi. rewrite vget_vscale by now rewrite Le.
      assert (Nn : vget n2 i = 2 * (vget e i - vget (mvmul U (mvmul U e)) i / k)).
      { unfold n2. rewrite vget_vscale by (rewrite len_vsub, Le; exact Hi).
        rewrite vget_vsub by auto. rewrite vget_div by (rewrite Lww; exact Hi). reflexivity. }
      rewrite Z in Nn. assert (Z0 : vget [0; 0; 0] i = 0) by (destruct i as [|[|[|i]]]; try lia; reflexivity).
      unfold vec in *. rewrite Z0 in Nn.
      assert (X : vget (mvmul U (mvmul U e)) i / k = vget e i) by lra. rewrite <- X. field. lra. }
    (* U e = sqrt k e, as U + sqrt k is invertible *)
    assert (Ks : 0 < sqrt k) by now apply sqrt_lt_R0.
    assert (Ue : mvmul U e = vscale (sqrt k) e).
    { set (x := vsub (mvmul U e) (vscale (sqrt k) e)). assert (Lx : length x = 3%nat) by (unfold x; now rewrite len_vsub).
      assert (X : mvmul U x = vscale (- sqrt k) x).
      { unfold x. rewrite mv_vsub, mv_vscale, E by (auto; now rewrite len_vscale).
        apply (LatticeProofs.vec_ext _ _ 3); [now rewrite len_vsub, len_vscale|now rewrite len_vscale, len_vsub|]. intros i Hi.
        rewrite vget_vsub, !vget_vscale, vget_vsub, !vget_vscale by (rewrite ?len_vsub, ?len_vscale, ?LUe, ?Le; auto).
        rewrite <- (sqrt_def k) at 1 by lra. ring. }
      assert (Q : dot x (mvmul U x) = - sqrt k * dot x x) by (rewrite X, dot_comm, dot_vscale by (auto; now rewrite len_vscale); reflexivity).
      assert (Z1 : x = [0; 0; 0]).
      { apply len3_inv in Lx. destruct Lx as (x0 & y0 & z0 & Ex).
        destruct (Req_dec x0 0), (Req_dec y0 0), (Req_dec z0 0); try (rewrite Ex; congruence);
        exfalso; rewrite Ex in Q; destruct PU as [_ PP]; specialize (PP x0 y0 z0 ltac:(intros [= ? ? ?]; contradiction)); 
        pose proof (dot_pos [x0; y0; z0] eq_refl); unfold vec in *; nra. }
      apply (LatticeProofs.vec_ext _ _ 3); auto; [now rewrite len_vscale|]. intros i Hi.
      assert (V0 : vget x i = 0) by (rewrite Z1; destruct i as [|[|[|i]]]; try lia; reflexivity).
      unfold x in V0. rewrite vget_vsub in V0 by auto. lra. }
    unfold V, rotate. rewrite half_sym by auto.
    apply (mat_ext 3 3); auto; [apply (wf_mmul 3 3 3); auto using wf_half; apply (wf_mmul 3 3 3); auto using wf_half|].
    intros i j Hi Hj. rewrite half_conj by auto. rewrite Ue, !vget_vscale by (rewrite Le; auto).
    rewrite (dot_comm e), dot_vscale, De by (auto; now rewrite len_vscale). ring.
  Qed.
End Twin.
(** * Rounding *)
Lemma round10_close x : Rabs (round10 x - x) <= 1 / 2 / 10 ^ 10.
Proof.
  unfold round10. pose proof (rint_close (x * 10 ^ 10)) as H. rewrite Rabs_minus_sym.
  assert (P : 0 < 10 ^ 10) by lra.
  replace (x - IZR (rint (x * 10 ^ 10)) / 10 ^ 10) with ((x * 10 ^ 10 - IZR (rint (x * 10 ^ 10))) / 10 ^ 10) by (field; lra).
  unfold Rdiv at 1. rewrite Rabs_mult, (Rabs_pos_eq (/ 10 ^ 10)) by lra. lra.
Qed.
Lemma vround_rounded v : rounded (vround v) v.
Proof.
  split; [apply map_length|]. intros i Hi. unfold vround in Hi. rewrite map_length in Hi.
  unfold vget, vround. rewrite (nth_indep _ _ (round10 zero)) by (rewrite map_length; auto). rewrite map_nth. apply round10_close.
Qed.

(** * _solvetwin with an axis *)
Lemma unit_norm e : dot e e = 1 -> vnorm e = 1.
Proof. intros H. unfold vnorm. rewrite H. apply sqrt_1. Qed.
Lemma div_one (e : vec R) : map (fun x => x / 1) e = e.
Proof. induction e as [|x e IH]; cbn; [reflexivity|]. rewrite IH. f_equal. field. Qed.
Lemma scale_one (e : vec R) : vscale 1 e = e.
Proof. unfold vscale. induction e as [|x e IH]; cbn; [reflexivity|]. now rewrite IH, Rmult_1_l. Qed.
Lemma vdiv_ok v r : r <> 0 -> vdiv v r = Ok (map (fun x => x / r) v).
Proof. intros H. unfold vdiv. now rewrite (proj2 (Reqb_false _ _) H). Qed.

Lemma solvetwin_axis_eq U e : positive_definite U -> length e = 3%nat -> dot e e = 1 ->
  let V := rotate (half_turn e) U in solvetwin_axis U e =
    bind (isvariant U V) (fun v : bool => if v then
      let denominator := dot (mvmul (minv U) e) (mvmul (minv U) e) in
      let* q := vdiv (mvmul (minv U) e) denominator in
      let a1 := vscale 2 (vsub q (mvmul U e)) in
      let rho := vnorm e in
      let* n1 := vdiv e rho in
      let n1 := vround n1 in
      let a1 := vround (vscale rho a1) in
      let* uji := inv V in
      let Q1 := mmul (madd U (outer a1 n1)) uji in
      let* q := vdiv (mvmul U (mvmul U e)) (dot (mvmul U e) (mvmul U e)) in
      let n2 := vscale 2 (vsub e q) in
      let a2 := mvmul U e in
      let rho := vnorm n2 in
      let* n2 := vdiv n2 rho in
      let n2 := vround n2 in
      let a2 := vround (vscale rho a2) in
      let Q2 := mmul (madd U (outer a2 n2)) uji in
      Ok (Some ((Q1, a1, n1), (Q2, a2, n2)))
    else Ok None).
Proof.
  intros PU Le De V. pose proof PU as [[WU _] _]. pose proof (posdef_det U PU) as DU. assert (d : dim23 3) by now right.
  assert (N : normalize e = Ok e).
  { unfold normalize. rewrite unit_norm by auto. rewrite (proj2 (Reqb_false _ _)) by lra. f_equal. apply div_one. }
  unfold solvetwin_axis. rewrite N. cbn [bind]. rewrite (inv_Ok 3 U) by (auto; lra). cbn [bind].
    rewrite <- half_turn_eq by auto. fold (rotate (half_turn e) U). fold V. reflexivity.
Qed.
Lemma solvetwin_axis_ok U e : positive_definite U -> length e = 3%nat -> dot e e = 1 ->
  let V := rotate (half_turn e) U in
  (isvariant U V = Ok true -> V <> U ->
   exists Q1 a1 n1 Q2 a2 n2, twinning U V Q1 a1 n1 /\ twinning U V Q2 a2 n2 /\
     Q1 = mmul (madd U (outer a1 n1)) (minv V) /\ Q2 = mmul (madd U (outer a2 n2)) (minv V) /\ n1 = e /\
     solvetwin_axis U e = Ok (Some ((mmul (madd U (outer (vround a1) (vround n1))) (minv V), vround a1, vround n1),
                                    (mmul (madd U (outer (vround a2) (vround n2))) (minv V), vround a2, vround n2)))) /\
  (isvariant U V = Ok false -> solvetwin_axis U e = Ok None) /\
  (forall x, isvariant U V = Raise x -> solvetwin_axis U e = Raise x).
Proof.
  intros PU Le De V. pose proof PU as [[WU _] _]. pose proof (posdef_det U PU) as DU.
  assert (d : dim23 3) by now right.
  assert (O : orthogonal 3 (half_turn e)) by now apply half_orth.
  assert (PV : positive_definite V) by now apply rotate_posdef. pose proof PV as [[WV _] _]. pose proof (posdef_det V PV) as DV.
  assert (N : normalize e = Ok e).
  { unfold normalize. rewrite unit_norm by auto. rewrite (proj2 (Reqb_false _ _)) by lra. f_equal. apply div_one. }
  pose proof (solvetwin_axis_eq U e PU Le De) as E0. cbv zeta in E0. fold V in E0.
  rewrite E0. split; [|split; [intros ->; reflexivity|intros x ->; reflexivity]]. intros -> NE. cbn [bind].
  pose proof (type1 U e PU Le De) as T1. pose proof (type2 U e PU Le De) as T2. pose proof (n2_zero U e PU Le De) as NZ.
  cbv zeta in T1, T2. fold V in T1, T2, NZ.
  assert (Dp : 0 < dot (mvmul (minv U) e) (mvmul (minv U) e)).
  { apply mv_pos; auto; [now apply wf_minv|]. apply (det_minv_neq0 3); auto; lra. }
  assert (Dk : 0 < dot (mvmul U e) (mvmul U e)) by (apply mv_pos; auto; lra).
  set (n2 := vscale 2 (vsub e (map (fun x => x / dot (mvmul U e) (mvmul U e)) (mvmul U (mvmul U e))))) in *.
  assert (Nn : vnorm n2 <> 0) by (intros Z; apply NE, NZ, Z). specialize (T2 Nn).
  set (a1 := vscale 2 (vsub (map (fun x => x / dot (mvmul (minv U) e) (mvmul (minv U) e)) (mvmul (minv U) e)) (mvmul U e))) in *.
  exists (mmul (madd U (outer a1 e)) (minv V)), a1, e.
  exists (mmul (madd U (outer (vscale (vnorm n2) (mvmul U e)) (map (fun x => x / vnorm n2) n2))) (minv V)),
         (vscale (vnorm n2) (mvmul U e)), (map (fun x => x / vnorm n2) n2).
  split; [exact T1|]. split; [exact T2|]. split; [reflexivity|]. split; [reflexivity|]. split; [reflexivity|].
  rewrite unit_norm by auto. rewrite !vdiv_ok by lra. cbn [bind]. rewrite (inv_Ok 3 V) by (auto; lra). cbn [bind]. fold a1 n2.
  rewrite (vdiv_ok n2) by auto. cbn [bind]. rewrite div_one, scale_one. reflexivity.
Qed.

(** whatever is returned is right *)
Lemma solvetwin_axis_right U e t1 t2 : positive_definite U -> length e = 3%nat -> dot e e = 1 ->
  let V := rotate (half_turn e) U in
  solvetwin_axis U e = Ok (Some (t1, t2)) ->
  exists Q1 a1 n1 Q2 a2 n2, twinning U V Q1 a1 n1 /\ twinning U V Q2 a2 n2 /\
     Q1 = mmul (madd U (outer a1 n1)) (minv V) /\ Q2 = mmul (madd U (outer a2 n2)) (minv V) /\
     t1 = (mmul (madd U (outer (vround a1) (vround n1))) (minv V), vround a1, vround n1) /\
     t2 = (mmul (madd U (outer (vround a2) (vround n2))) (minv V), vround a2, vround n2).
Proof.
  intros PU Le De V H. pose proof PU as [[WU _] _]. pose proof (posdef_det U PU) as DU.
  assert (d : dim23 3) by now right.
  assert (PV : positive_definite V) by (apply rotate_posdef; auto; now apply half_orth). pose proof PV as [[WV _] _]. pose proof (posdef_det V PV) as DV.
  pose proof (solvetwin_axis_eq U e PU Le De) as E0. cbv zeta in E0. fold V in E0. rewrite E0 in H. clear E0.
  destruct (isvariant U V) as [[|]|x|]; try discriminate. cbn [bind] in H.
  pose proof (type1 U e PU Le De) as T1. pose proof (type2 U e PU Le De) as T2. cbv zeta in T1, T2. fold V in T1, T2.
  assert (Dp : 0 < dot (mvmul (minv U) e) (mvmul (minv U) e)).
  { apply mv_pos; auto; [now apply wf_minv|]. apply (det_minv_neq0 3); auto; lra. }
  assert (Dk : 0 < dot (mvmul U e) (mvmul U e)) by (apply mv_pos; auto; lra).
  set (n2 := vscale 2 (vsub e (map (fun x => x / dot (mvmul U e) (mvmul U e)) (mvmul U (mvmul U e))))) in *.
  set (a1 := vscale 2 (vsub (map (fun x => x / dot (mvmul (minv U) e) (mvmul (minv U) e)) (mvmul (minv U) e)) (mvmul U e))) in *.
  rewrite unit_norm in H by auto. rewrite !vdiv_ok in H by lra. cbn [bind] in H. rewrite (inv_Ok 3 V) in H by (auto; lra). cbn [bind] in H. fold a1 n2 in H.
  unfold vdiv in H. destruct (Reqb (vnorm n2) 0) eqn:Nn; [discriminate|]. apply Reqb_false in Nn. specialize (T2 Nn). cbn [bind] in H.
  rewrite div_one, scale_one in H. injection H as <- <-.
  exists (mmul (madd U (outer a1 e)) (minv V)), a1, e.
  exists (mmul (madd U (outer (vscale (vnorm n2) (mvmul U e)) (map (fun x => x / vnorm n2) n2))) (minv V)),
         (vscale (vnorm n2) (mvmul U e)), (map (fun x => x / vnorm n2) n2).
  split; [exact T1|]. split; [exact T2|]. auto.
Qed.

(** * _solvetwin without an axis *)
Lemma vdivv_self v l : length v = 3%nat -> vdivv v v = Ok l -> l = [1; 1; 1].
Proof.
  intros L. v3 L. cbn. unfold np_div.
  destruct (Reqb x 0) eqn:E1; [discriminate|]. destruct (Reqb x0 0) eqn:E2; [discriminate|]. destruct (Reqb x1 0) eqn:E3; [discriminate|].
  apply Reqb_false in E1, E2, E3. cbn. intros [= <-]. apply list3_eq; now field.
Qed.

(** * The volume fraction *)
Definition g_matrix (A : mat R) (u n : vec R) (c f : R) : mat R :=
  madd A (madd (mscale f (madd (outer u n) (outer n u))) (mscale (f * f * c) (outer n n))).
Lemma g_quadratic A u n c f : wf 3 3 A -> tr A = A -> length u = 3%nat -> length n = 3%nat ->
  det (g_matrix A u n c f) = det A + f * (2 * dot u (mvmul (brute_cof A) n)) +
    f * f * (det (g_matrix A u n c 1) - det A - 2 * dot u (mvmul (brute_cof A) n)).
Proof.
  intros W S Lu Ln. destruct (sym3 A (conj W S)) as (c1 & c2 & c3 & c4 & c5 & c6 & ->). v3 Lu. v3 Ln.
  unfold g_matrix. cbv [brute_cof drop]. mat_unfold_goal. cbn [pow Nat.add]. ring.
Qed.
(** the matrix of the laminate with volume fraction f *)
Lemma laminate_g U a n f : MartSpec.symmetric U -> length a = 3%nat -> length n = 3%nat ->
  msub (mmul (madd U (mscale f (outer n a))) (madd U (mscale f (outer a n)))) (eye 3) =
  g_matrix (msub (mmul U U) (eye 3)) (mvmul U a) n (dot a a) f.
Proof.
  intros S La Ln. destruct (sym3 U S) as (c1 & c2 & c3 & c4 & c5 & c6 & ->). v3 La. v3 Ln.
  unfold g_matrix. mat_unfold_goal.
  repeat (match goal with |- (_ :: _) = (_ :: _) => f_equal end); ring.
Qed.
Lemma sym_minus_eye U : MartSpec.symmetric U -> MartSpec.symmetric (msub (mmul U U) (eye 3)).
Proof.
  intros S. destruct (sym3 U S) as (c1 & c2 & c3 & c4 & c5 & c6 & ->). split; [apply wfb_spec; reflexivity|].
  mat_unfold_goal. repeat (match goal with |- (_ :: _) = (_ :: _) => f_equal end); ring.
Qed.

(** det of the laminate minus the identity, as a function of the volume fraction *)
Definition gap (U : mat R) (a n : vec R) (f : R) : R :=
  det (msub (mmul (madd U (mscale f (outer n a))) (madd U (mscale f (outer a n)))) (eye 3)).
Lemma gap_parabola U a n : MartSpec.symmetric U -> length a = 3%nat -> length n = 3%nat -> gap U a n 1 = gap U a n 0 ->
  forall f, gap U a n f = det (msub (mmul U U) (eye 3)) +
    (f - f * f) * (2 * dot (mvmul U a) (mvmul (brute_cof (msub (mmul U U) (eye 3))) n)).
Proof.
  intros S La Ln E f. destruct (sym_minus_eye U S) as [W T]. pose proof (len_mv3 U a (proj1 S)) as Lu.
  unfold gap in *. rewrite !laminate_g in * by auto.
  set (A := msub (mmul U U) (eye 3)) in *. set (u := mvmul U a) in *. clearbody A u.
  rewrite (g_quadratic A u n (dot a a) f) by auto. rewrite (g_quadratic A u n (dot a a) 0) in E by auto.
  set (m := 2 * dot u (mvmul (brute_cof A) n)) in *. rewrite E. ring.
Qed.
Lemma gap_ends U V Q a n : MartSpec.symmetric U -> MartSpec.symmetric V -> orthogonal 3 Q -> length a = 3%nat -> length n = 3%nat ->
  mmul Q V = madd U (outer a n) ->
  gap U a n 0 = det (msub (mmul U U) (eye 3)) /\ gap U a n 1 = det (msub (mmul V V) (eye 3)).
Proof.
  intros S [WV TV] O La Ln E. assert (d : dim23 3) by now right. pose proof (orth_wf _ _ O) as WQ. split.
  - unfold gap. f_equal. f_equal. clear E. destruct (sym3 U S) as (c1 & c2 & c3 & c4 & c5 & c6 & ->). v3 La. v3 Ln.
    mat_unfold_goal. repeat (match goal with |- (_ :: _) = (_ :: _) => f_equal end); ring.
  - unfold gap. f_equal. f_equal.
    transitivity (mmul (tr (madd U (outer a n))) (madd U (outer a n))).
    + clear E. destruct (sym3 U S) as (c1 & c2 & c3 & c4 & c5 & c6 & ->). v3 La. v3 Ln.
      mat_unfold_goal. repeat (match goal with |- (_ :: _) = (_ :: _) => f_equal end); ring.
    + rewrite <- E. rewrite (tr_mmul 3 3 3), TV by (auto; lia). assert (WT : wf 3 3 (tr Q)) by (apply wf_tr'; auto; lia).
      assert (WQV : wf 3 3 (mmul Q V)) by (apply (wf_mmul 3 3 3); auto).
      rewrite (mmul_assoc 3 3 3 3 V (tr Q)) by (auto; lia). rewrite <- (mmul_assoc 3 3 3 3 (tr Q) Q V) by (auto; lia).
      rewrite (orth_l 3 Q), (mmul_eye_l 3 3) by auto. reflexivity.
Qed.
Lemma solve_f_ok U a n f : MartSpec.symmetric U -> length a = 3%nat -> length n = 3%nat -> gap U a n 1 = gap U a n 0 ->
  solve_f U a n = Ok (Some f) -> 0 < f < 1 -> gap U a n f = 0.
Proof.
  intros S La Ln E R F. rewrite gap_parabola by auto. unfold solve_f in R.
  set (A := msub (mmul U U) (eye 3)) in *. set (m := 2 * dot (mvmul U a) (mvmul (brute_cof A) n)) in *.
  destruct (Rltb (Rabs m) SMALL) eqn:B1; [injection R; lra|].
  destruct (Rltb 0 ((det A + m / 4) / m)) eqn:B2; [|discriminate]. apply Rltb_spec in B2.
  rewrite math_sqrt_ok in R by lra. cbn [bind] in R.
  revert R. destruct (Rltb (Rabs (1 - _)) _); [intros [= R]; lra|]. destruct (Rltb (Rabs (_ + _)) _); [intros [= R]; lra|].
  destruct (Rltb 0 _ && _); [|discriminate]. intros [= <-].
  assert (M : m <> 0). { intros Z. rewrite Z in B1. rewrite Rabs_R0 in B1. apply Rltb_false in B1. unfold SMALL in B1. lra. }
  pose proof (sqrt_sqrt _ (Rlt_le _ _ B2)) as SS. set (s := sqrt _) in *.
  replace (1 / 2 + s - (1 / 2 + s) * (1 / 2 + s)) with (1 / 4 - s * s) by field. rewrite SS. field. exact M.
Qed.
