(** Property C110: rotating both variants rotates the twin, exchanging them changes nothing.  Specification: TwinSpec.v
    (half_turn_axis, pair_after, clear_pair); model: TwinModel.v. *)
From Verif Require Import LinAlg Eig GroupSpec GroupModel GroupProofs LatticeProofs PropMart PropTwin PropTwin2 PropTwin3 TwinMono RankOneConn PropRankOne PropTwin6 PropFrame.
Local Open Scope R_scope.

Section Rotated.
  Variables (Q U V : mat R).
  Hypotheses (OQ : orthogonal 3 Q) (PU : positive_definite U) (PV : positive_definite V).
  Let WQ : wf 3 3 Q := orth_wf 3 Q OQ.
  Let WT : wf 3 3 (tr Q). Proof. apply wf_tr'; [lia|exact WQ]. Qed.
  Let WU : wf 3 3 U. Proof. apply PU. Qed.
  Let WV : wf 3 3 V. Proof. apply PV. Qed.
  Let TQ : mmul (tr Q) Q = eye 3. Proof. apply orth_l; [now right|exact OQ]. Qed.

  Lemma wf_rotate M : wf 3 3 M -> wf 3 3 (rotate Q M).
  Proof. intros W. unfold rotate. apply (wf_mmul 3 3 3); [apply (wf_mmul 3 3 3); [exact WQ|exact W|lia]|exact WT|lia]. Qed.
  Lemma minv_rotate M : wf 3 3 M -> det M <> 0 -> minv (rotate Q M) = rotate Q (minv M).
  Proof.
    intros W D. assert (WI : wf 3 3 (minv M)) by (apply wf_minv; [now right|exact W]).
    symmetry. apply (inv_unique 3 (rotate Q M) (rotate Q (minv M))); [now right|now apply wf_rotate|now apply wf_rotate|].
    rewrite rotate_mmul by assumption. rewrite (minv_r 3) by (auto; now right). unfold rotate. rewrite (mmul_eye_r 3 3) by (auto; lia). apply OQ.
  Qed.
  Lemma twin_rotate : twin_matrix (rotate Q U) (rotate Q V) = rotate Q (twin_matrix U V).
  Proof.
    assert (WI : wf 3 3 (minv U)) by (apply wf_minv; [now right|exact WU]).
    assert (DU : det U <> 0) by (apply Rgt_not_eq, posdef_det, PU).
    unfold twin_matrix. rewrite minv_rotate by assumption. rewrite !rotate_mmul by (try assumption; apply (wf_mmul 3 3 3); auto; lia). reflexivity.
  Qed.
  Lemma mv_rotate M x : wf 3 3 M -> length x = 3%nat -> mvmul (rotate Q M) (mvmul Q x) = mvmul Q (mvmul M x).
  Proof.
    intros W L. unfold rotate. assert (W1 : wf 3 3 (mmul Q M)) by (apply (wf_mmul 3 3 3); auto; lia).
    rewrite <- (mvmul_mmul 3) by (auto; try lia; apply (wf_mmul 3 3 3); auto; lia).
    rewrite (mmul_assoc 3 3 3 3) by (auto; lia). rewrite TQ. rewrite (mmul_eye_r 3 3) by (auto; lia). now rewrite (mvmul_mmul 3) by (auto; lia).
  Qed.
  Lemma dot_Q x y : length x = 3%nat -> length y = 3%nat -> dot (mvmul Q x) (mvmul Q y) = dot x y.
  Proof.
    intros Lx Ly. pose proof TQ as E. clear - WQ E Lx Ly. apply wf3_inv in WQ. destruct WQ as (a & b & c & d & e & f & g & h & i & ->). apply len3_inv in Lx. destruct Lx as (x1 & x2 & x3 & ->). apply len3_inv in Ly. destruct Ly as (y1 & y2 & y3 & ->).
    assert (G : forall p q, (p < 3)%nat -> (q < 3)%nat -> get (mmul (tr [[a; b; c]; [d; e; f]; [g; h; i]]) [[a; b; c]; [d; e; f]; [g; h; i]]) p q = get (eye 3) p q) by (intros; now rewrite E).
    assert (G1 : a*a+d*d+g*g = 1) by (etransitivity; [|exact (G 0 0 ltac:(lia) ltac:(lia))%nat]; mat_unfold_goal; ring).
    assert (G2 : a*b+d*e+g*h = 0) by (etransitivity; [|exact (G 0 1 ltac:(lia) ltac:(lia))%nat]; mat_unfold_goal; ring).
    assert (G3 : a*c+d*f+g*i = 0) by (etransitivity; [|exact (G 0 2 ltac:(lia) ltac:(lia))%nat]; mat_unfold_goal; ring).
    assert (G4 : b*b+e*e+h*h = 1) by (etransitivity; [|exact (G 1 1 ltac:(lia) ltac:(lia))%nat]; mat_unfold_goal; ring).
    assert (G5 : b*c+e*f+h*i = 0) by (etransitivity; [|exact (G 1 2 ltac:(lia) ltac:(lia))%nat]; mat_unfold_goal; ring).
    assert (G6 : c*c+f*f+i*i = 1) by (etransitivity; [|exact (G 2 2 ltac:(lia) ltac:(lia))%nat]; mat_unfold_goal; ring).
    mat_unfold_goal. transitivity ((a*a+d*d+g*g)*x1*y1 + (a*b+d*e+g*h)*(x1*y2+x2*y1) + (a*c+d*f+g*i)*(x1*y3+x3*y1) + (b*b+e*e+h*h)*x2*y2
      + (b*c+e*f+h*i)*(x2*y3+x3*y2) + (c*c+f*f+i*i)*x3*y3); [ring|]. rewrite G1, G2, G3, G4, G5, G6. ring.
  Qed.
  Lemma tr_rotate M : wf 3 3 M -> tr (rotate Q M) = rotate Q (tr M).
  Proof.
    intros W. clear - WQ W. apply wf3_inv in WQ. destruct WQ as (? & ? & ? & ? & ? & ? & ? & ? & ? & ->). apply wf3_inv in W. destruct W as (? & ? & ? & ? & ? & ? & ? & ? & ? & ->).
    unfold rotate. mat_eq ltac:(ring).
  Qed.
  Lemma rotate_of_rotate P M : wf 3 3 P -> wf 3 3 M -> rotate (rotate Q P) (rotate Q M) = rotate Q (rotate P M).
  Proof.
    intros WP WM. assert (WTP : wf 3 3 (tr P)) by (apply wf_tr'; [lia|exact WP]). unfold rotate at 1. rewrite tr_rotate by exact WP.
    rewrite !rotate_mmul by (try assumption; apply (wf_mmul 3 3 3); auto; lia). reflexivity.
  Qed.
  Lemma half_rotate e : length e = 3%nat -> half_turn (mvmul Q e) = rotate Q (half_turn e).
  Proof.
    intros L. assert (E : mmul Q (tr Q) = eye 3) by apply OQ. pose proof (wf_rotate (half_turn e) (wf_half e)) as WR.
    clear - WQ E L WR. revert WR. apply wf3_inv in WQ. destruct WQ as (a & b & c & d & e0 & f & g & h & i & ->). apply len3_inv in L. destruct L as (x1 & x2 & x3 & ->). intros WR.
    assert (G : forall p q, (p < 3)%nat -> (q < 3)%nat -> get (mmul [[a; b; c]; [d; e0; f]; [g; h; i]] (tr [[a; b; c]; [d; e0; f]; [g; h; i]])) p q = get (eye 3) p q) by (intros; now rewrite E).
    assert (G1 : a*a+b*b+c*c = 1) by (etransitivity; [|exact (G 0 0 ltac:(lia) ltac:(lia))%nat]; mat_unfold_goal; ring).
    assert (G2 : a*d+b*e0+c*f = 0) by (etransitivity; [|exact (G 0 1 ltac:(lia) ltac:(lia))%nat]; mat_unfold_goal; ring).
    assert (G3 : a*g+b*h+c*i = 0) by (etransitivity; [|exact (G 0 2 ltac:(lia) ltac:(lia))%nat]; mat_unfold_goal; ring).
    assert (G4 : d*d+e0*e0+f*f = 1) by (etransitivity; [|exact (G 1 1 ltac:(lia) ltac:(lia))%nat]; mat_unfold_goal; ring).
    assert (G5 : d*g+e0*h+f*i = 0) by (etransitivity; [|exact (G 1 2 ltac:(lia) ltac:(lia))%nat]; mat_unfold_goal; ring).
    assert (G6 : g*g+h*h+i*i = 1) by (etransitivity; [|exact (G 2 2 ltac:(lia) ltac:(lia))%nat]; mat_unfold_goal; ring).
    clear E G. apply (mat_ext 3 3); [apply wf_half|exact WR|]. intros p q Hp Hq.
    destruct p as [|[|[|p]]], q as [|[|[|q]]]; try lia; unfold rotate, half_turn; mat_unfold_goal; lra.
  Qed.
  Lemma axis_rotate e : half_turn_axis U V e -> half_turn_axis (rotate Q U) (rotate Q V) (mvmul Q e).
  Proof.
    intros (L & D & E). split; [now apply len_mv3|]. split; [rewrite dot_Q; assumption|]. rewrite half_rotate by exact L.
    rewrite rotate_of_rotate by (first [apply wf_half | exact WU]). now rewrite E.
  Qed.
  Lemma variants_rotate : variants U V -> variants (rotate Q U) (rotate Q V).
  Proof.
    intros (P & OP & E). pose proof (orth_wf 3 P OP) as WP. exists (rotate Q P). split; [|rewrite rotate_of_rotate by assumption; now rewrite E].
    split; [now apply wf_rotate|]. rewrite tr_rotate by exact WP. assert (WTP : wf 3 3 (tr P)) by (apply wf_tr'; [lia|exact WP]). rewrite rotate_mmul by assumption.
    rewrite (proj2 OP). unfold rotate. rewrite (mmul_eye_r 3 3) by (auto; lia). apply OQ.
  Qed.
  Lemma eigenvalues_rotate C l1 l2 l3 : eigenvalues C l1 l2 l3 -> eigenvalues (rotate Q C) l1 l2 l3.
  Proof.
    intros (O & X & EX). split; [exact O|]. exists (mmul Q X). assert (DQ : det Q <> 0) by (intros Z; pose proof (det_mmul 3 Q (tr Q) (or_intror eq_refl) WQ WT) as K; rewrite (proj2 OQ), Z, det_eye in K by (now right); lra).
    pose proof (eigen_conj 3 C [l1; l2; l3] X Q ltac:(now right) WQ DQ EX) as K. assert (IQ : minv Q = tr Q) by (symmetry; apply (inv_unique 3 Q (tr Q)); [now right|exact WQ|exact WT|apply OQ]). rewrite IQ in K. exact K.
  Qed.
  Lemma back x : length x = 3%nat -> mvmul Q (mvmul (tr Q) x) = x.
  Proof. intros L. rewrite <- (mvmul_mmul 3) by (auto; lia). rewrite (proj2 OQ). now apply mvmul_eye. Qed.
  Lemma forth x : length x = 3%nat -> mvmul (tr Q) (mvmul Q x) = x.
  Proof. intros L. rewrite <- (mvmul_mmul 3) by (auto; lia). rewrite TQ. now apply mvmul_eye. Qed.
  Lemma clear_rotate : clear_pair U V -> clear_pair (rotate Q U) (rotate Q V).
  Proof.
    intros H l v0 v1 Hl L0 L1 D0 D1 E0 E1. rewrite twin_rotate in E0, E1. pose proof (wf_twin U V PU PV) as WC.
    set (w0 := mvmul (tr Q) v0). set (w1 := mvmul (tr Q) v1).
    assert (M0 : length w0 = 3%nat) by now apply len_mv3. assert (M1 : length w1 = 3%nat) by now apply len_mv3.
    assert (B0 : v0 = mvmul Q w0) by (symmetry; now apply back). assert (B1 : v1 = mvmul Q w1) by (symmetry; now apply back).
    rewrite B0 in D0, E0. rewrite B1 in D1, E1. rewrite dot_Q in D0, D1 by assumption. rewrite mv_rotate in E0, E1 by assumption.
    assert (F0 : mvmul (twin_matrix U V) w0 = vscale l w0).
    { rewrite <- (forth (mvmul (twin_matrix U V) w0)) by now apply len_mv3. rewrite E0, <- mv_vscale by assumption. apply forth. unfold vscale. now rewrite map_length. }
    assert (F1 : mvmul (twin_matrix U V) w1 = w1).
    { rewrite <- (forth (mvmul (twin_matrix U V) w1)) by now apply len_mv3. rewrite E1. now apply forth. }
    rewrite B0, B1. assert (WUU : wf 3 3 (mmul U U)) by (apply (wf_mmul 3 3 3); auto; lia). rewrite rotate_mmul, mv_rotate, dot_Q by (try assumption; now apply len_mv3).
    exact (H l w0 w1 Hl M0 M1 D0 D1 F0 F1).
  Qed.
  Lemma unrotate M : wf 3 3 M -> rotate (tr Q) (rotate Q M) = M.
  Proof.
    intros W. rewrite rotate_comp by assumption. rewrite TQ. clear - W. apply wf3_inv in W. destruct W as (? & ? & ? & ? & ? & ? & ? & ? & ? & ->). unfold rotate. mat_eq ltac:(ring).
  Qed.
End Rotated.

(** ** Specification *)
(** the two lists contain the same lines: every vector of one is plus or minus a vector of the other *)
Definition same_lines (l l' : list (vec R)) : Prop :=
  (forall e, In e l -> exists e', In e' l' /\ parallel e e') /\ (forall e', In e' l' -> exists e, In e l /\ parallel e e').
(** the two objects give the same answers: twinnable, the type of the twin, X_I and X_II *)
Definition same_answers (p p' : tp) : Prop :=
  istwinnable p' = istwinnable p /\ fst (iscompound p') = fst (iscompound p) /\ fst (istypeI p') = fst (istypeI p) /\
  fst (istypeII p') = fst (istypeII p) /\ fst (XI p') = fst (XI p) /\ fst (XII p') = fst (XII p).

Lemma axis_unrotate Q U V e : orthogonal 3 Q -> positive_definite U -> positive_definite V ->
  half_turn_axis (rotate Q U) (rotate Q V) e -> half_turn_axis U V (mvmul (tr Q) e).
Proof.
  intros OQ PU PV H. assert (OT : orthogonal 3 (tr Q)) by (apply orth_tr; [now right|exact OQ]).
  pose proof (axis_rotate (tr Q) (rotate Q U) (rotate Q V) OT (rotate_posdef Q U OQ PU) e H) as K.
  rewrite !unrotate in K; [exact K|exact OQ|apply PV|exact OQ|apply PU].
Qed.

Lemma frame_answers eig npnew npnew' skip skip' Q U V h h' p p' l1 l3 :
  orthogonal 3 Q -> positive_definite U -> positive_definite V ->
  is_eig (twin_matrix U V) (eig (twin_matrix U V)) -> is_eig (twin_matrix (rotate Q U) (rotate Q V)) (eig (twin_matrix (rotate Q U) (rotate Q V))) ->
  variants U V -> distinct U V -> distinct (rotate Q U) (rotate Q V) -> eigenvalues (twin_matrix U V) l1 1 l3 -> clear_pair U V ->
  pair_after eig npnew skip U V h p -> pair_after eig npnew' skip' (rotate Q U) (rotate Q V) h' p' ->
  same_answers p p' /\ exists l l', fst (ax p) = Ok l /\ fst (ax p') = Ok l' /\
    (forall e, In e l -> half_turn_axis U V e) /\ (forall e, half_turn_axis U V e -> exists x, In x l /\ parallel e x) /\
    (forall e, In e l' -> half_turn_axis (rotate Q U) (rotate Q V) e) /\ (forall e, half_turn_axis (rotate Q U) (rotate Q V) e -> exists x, In x l' /\ parallel e x).
Proof.
  intros OQ PU PV E1 E2 VR D D' EV CL PA PA'.
  pose proof (rotate_posdef Q U OQ PU) as PU'. pose proof (rotate_posdef Q V OQ PV) as PV'.
  assert (VR' : variants (rotate Q U) (rotate Q V)) by now apply variants_rotate.
  assert (EV' : eigenvalues (twin_matrix (rotate Q U) (rotate Q V)) l1 1 l3) by (rewrite twin_rotate by assumption; now apply eigenvalues_rotate).
  assert (CL' : clear_pair (rotate Q U) (rotate Q V)) by now apply clear_rotate.
  assert (AX : forall U V eig npnew skip h p, positive_definite U -> positive_definite V -> is_eig (twin_matrix U V) (eig (twin_matrix U V)) -> variants U V -> distinct U V ->
     eigenvalues (twin_matrix U V) l1 1 l3 -> clear_pair U V -> pair_after eig npnew skip U V h p ->
     istwinnable p = true /\ exists l, fst (ax p) = Ok l /\ (forall e, In e l -> half_turn_axis U V e) /\ (forall e, half_turn_axis U V e -> exists x, In x l /\ parallel e x)).
  { clear. intros U V eig npnew skip h p PU PV E VR D EV CL PA. split.
    - destruct (ax_after _ _ _ _ _ _ _ _ _ PU PV E VR D EV PA) as (v0 & v1 & v2 & p0 & N & F & I & U1 & U2 & T & _).
      rewrite (istwinnable_stable _ _ _ _ I). exact T.
    - destruct (C40_axes_partial eig npnew skip U V h p l1 l3 PU PV E VR D EV CL PA) as (l & A & G & C). exists l. split; [exact A|]. split; [exact G|].
      intros e He. destruct (C e He) as (x & k & Hx & Hk & ->). exists x. split; [exact Hx|]. destruct (G x Hx) as (Lx & _). apply parallel_sym; [exact Lx|]. now apply scale_pm. }
  destruct (AX _ _ _ _ _ _ _ PU PV E1 VR D EV CL PA) as (T & l & A & G & C). destruct (AX _ _ _ _ _ _ _ PU' PV' E2 VR' D' EV' CL' PA') as (T' & l' & A' & G' & C'). clear AX.
  split; [|exists l, l'; auto 8].
  destruct (C86_classification_partial _ _ _ _ _ _ _ _ _ PU PV E1 VR D EV CL PA) as (b & B1 & B2 & B3 & B4 & B5).
  destruct (C86_classification_partial _ _ _ _ _ _ _ _ _ PU' PV' E2 VR' D' EV' CL' PA') as (b' & B1' & B2' & B3' & B4' & B5').
  assert (Eb : b' = b).
  { apply Bool.eq_true_iff_eq. rewrite B4, B4'. split.
    - intros (e & e' & He & He' & Z). exists (mvmul (tr Q) e), (mvmul (tr Q) e'). split; [now apply axis_unrotate|]. split; [now apply axis_unrotate|].
      destruct He as (Le & _), He' as (Le' & _). rewrite (dot_Q (tr Q)); [exact Z|apply orth_tr; [now right|exact OQ]|exact Le|exact Le'].
    - intros (e & e' & He & He' & Z). exists (mvmul Q e), (mvmul Q e'). split; [now apply axis_rotate|]. split; [now apply axis_rotate|].
      destruct He as (Le & _), He' as (Le' & _). rewrite (dot_Q Q); assumption. }
  subst b'. unfold same_answers. rewrite T, T', B1, B1', B2, B2', B3, B3'. do 4 (split; [reflexivity|]).
  destruct (C87_lengths_partial _ _ _ _ _ _ _ _ _ PU PV E1 VR D EV CL PA) as (X1 & X2).
  destruct (C87_lengths_partial _ _ _ _ _ _ _ _ _ PU' PV' E2 VR' D' EV' CL' PA') as (X1' & X2').
  destruct b.
  - destruct (X1 B1) as [-> ->]. destruct (X1' B1') as [-> ->]. auto.
  - destruct (proj1 B5 eq_refl) as (e & He & _). pose proof (axis_rotate Q U V OQ PU e He) as He'.
    destruct (X2 B1 e He) as (x & y & -> & -> & Px & Py & Ex & Ey). destruct (X2' B1' _ He') as (x' & y' & -> & -> & Px' & Py' & Ex' & Ey').
    assert (WU : wf 3 3 U) by apply PU. assert (DU : det U <> 0) by (apply Rgt_not_eq, posdef_det, PU). assert (WI : wf 3 3 (minv U)) by (apply wf_minv; [now right|exact WU]).
    destruct He as (Le & _). rewrite minv_rotate in Ex' by assumption. rewrite mv_rotate, dot_Q in Ex', Ey' by (try assumption; now apply len_mv3).
    rewrite <- Ex in Ex'. rewrite <- Ey in Ey'. split; f_equal; apply Rsqr_inj; try (unfold Rsqr; assumption); lra.
Qed.

(** ** Theorems *)
(** Rotating both variants: the object for Q U Q^T and Q V Q^T gives the same answers, and its axes are the rotated axes.
    Missing: pairs whose middle eigenvalue is only near one, pairs that are not clear (see C40), and the condition that the
    rotated pair is distinct, which does not follow (C110_refuted). *)
Theorem C110_rotated_partial : forall eig npnew npnew' skip skip' Q U V h h' p p' l1 l3,
  orthogonal 3 Q -> positive_definite U -> positive_definite V ->
  is_eig (twin_matrix U V) (eig (twin_matrix U V)) -> is_eig (twin_matrix (rotate Q U) (rotate Q V)) (eig (twin_matrix (rotate Q U) (rotate Q V))) ->
  variants U V -> distinct U V -> distinct (rotate Q U) (rotate Q V) -> eigenvalues (twin_matrix U V) l1 1 l3 -> clear_pair U V ->
  pair_after eig npnew skip U V h p -> pair_after eig npnew' skip' (rotate Q U) (rotate Q V) h' p' ->
  same_answers p p' /\ exists l l', fst (ax p) = Ok l /\ fst (ax p') = Ok l' /\ same_lines (map (mvmul Q) l) l'.
Proof.
  intros eig npnew npnew' skip skip' Q U V h h' p p' l1 l3 OQ PU PV E1 E2 VR D D' EV CL PA PA'.
  destruct (frame_answers eig npnew npnew' skip skip' Q U V h h' p p' l1 l3 OQ PU PV E1 E2 VR D D' EV CL PA PA') as (S & l & l' & A & A' & G & C & G' & C').
  split; [exact S|]. exists l, l'. split; [exact A|]. split; [exact A'|]. split.
  - intros e He. apply in_map_iff in He as (x & <- & Hx). apply C'. apply axis_rotate; auto.
  - intros e He. pose proof (G' e He) as Ax. pose proof (axis_unrotate Q U V e OQ PU PV Ax) as Ax0. destruct (C _ Ax0) as (x & Hx & P). exists (mvmul Q x). split; [now apply in_map|].
    destruct (G x Hx) as (Lx & _). destruct Ax as (Le & _). assert (WQ : wf 3 3 Q) by apply OQ. apply parallel_sym; [exact Le|].
    destruct P as [-> | ->]; [left|right]; rewrite ?mv_vscale by (try assumption; apply Ax0); now rewrite back.
Qed.
Print Assumptions C110_rotated_partial.

(** Exchanging the variants: the same answers and the same axes, up to sign and order. *)
Theorem C110_swapped_partial : forall eig npnew npnew' skip skip' U V h h' p p' l1 l3,
  positive_definite U -> positive_definite V ->
  is_eig (twin_matrix U V) (eig (twin_matrix U V)) -> is_eig (twin_matrix V U) (eig (twin_matrix V U)) ->
  variants U V -> distinct U V -> eigenvalues (twin_matrix U V) l1 1 l3 -> clear_pair U V ->
  pair_after eig npnew skip U V h p -> pair_after eig npnew' skip' V U h' p' ->
  same_answers p p' /\ exists l l', fst (ax p) = Ok l /\ fst (ax p') = Ok l' /\ same_lines l l'.
Proof.
  intros eig npnew npnew' skip skip' U V h h' p p' l1 l3 PU PV E1 E2 VR D EV CL PA PA'.
  destruct (C40_complete eig npnew skip U V h p l1 l3 PU PV E1 VR D EV PA) as (_ & _ & _ & _ & (e & _ & He) & _).
  assert (INV : forall U V x, wf 3 3 U -> half_turn_axis U V x -> rotate (half_turn x) V = U).
  { clear. intros U V x WU (L & N & <-). pose proof (half_orth x L N) as O. assert (S : tr (half_turn x) = half_turn x).
    { clear - L. v3 L. unfold half_turn. mat_eq ltac:(ring). }
    rewrite <- S at 1. now apply unrotate. }
  assert (SW : forall x, half_turn_axis U V x <-> half_turn_axis V U x).
  { intros x. split; intros (L & N & R).
    - split; [exact L|]. split; [exact N|]. apply (INV U V); [apply PU|]. now split.
    - split; [exact L|]. split; [exact N|]. apply (INV V U); [apply PV|]. now split. }
  pose proof He as (Le & Ne & Re). pose proof (half_orth e Le Ne) as O. pose proof (INV U V e ltac:(apply PU) He) as Re'.
  assert (D' : distinct V U) by (destruct D as (i & j & Hi & Hj & K); exists i, j; repeat (split; [assumption|]); rewrite Rabs_minus_sym; exact K).
  pose proof (frame_answers eig npnew npnew' skip skip' (half_turn e) U V h h' p p' l1 l3 O PU PV E1) as K. rewrite Re, Re' in K.
  destruct (K E2 VR D D' EV CL PA PA') as (S & l & l' & A & A' & G & C & G' & C').
  split; [exact S|]. exists l, l'. split; [exact A|]. split; [exact A'|]. split.
  - intros x Hx. apply C', SW. auto.
  - intros x Hx. destruct (C x (proj2 (SW x) (G' x Hx))) as (y & Hy & P). exists y. split; [exact Hy|]. apply parallel_sym; [|exact P]. apply (G' x Hx).
Qed.
Print Assumptions C110_swapped_partial.

(** isconventional, asked for the first time, without a group: the order of the variants does not matter. *)
Lemma abs_entries Q (M : mat R) t : In Q (firstn 9 (skipn 1 CUBIC_LAUE_GROUP)) -> wf 3 3 M ->
  (forall i j, (i < 3)%nat -> (j < 3)%nat -> Rabs (get M i j) < t) -> forall i j, (i < 3)%nat -> (j < 3)%nat -> Rabs (get (rotate (RZ Q) M) i j) < t.
Proof.
  intros HQ W H i j Hi Hj. assert (K : exists i' j', (i' < 3)%nat /\ (j' < 3)%nat /\ (get (rotate (RZ Q) M) i j = get M i' j' \/ get (rotate (RZ Q) M) i j = - get M i' j')).
  2:{ destruct K as (i' & j' & A & B & [-> | ->]); [|rewrite Rabs_Ropp]; now apply H. }
  clear H. apply wf3_inv in W. destruct W as (a & b & c & d & e & f & g & h & k & ->).
  repeat (destruct HQ as [<-|HQ]; [destruct i as [|[|[|i]]], j as [|[|[|j]]]; try lia;
    first [exists 0%nat, 0%nat; split; [lia|split; [lia|unfold rotate, RZ, mmap; cbn [map]; mat_unfold_goal; first [left; ring|right; ring]]]
          |exists 0%nat, 1%nat; split; [lia|split; [lia|unfold rotate, RZ, mmap; cbn [map]; mat_unfold_goal; first [left; ring|right; ring]]]
          |exists 0%nat, 2%nat; split; [lia|split; [lia|unfold rotate, RZ, mmap; cbn [map]; mat_unfold_goal; first [left; ring|right; ring]]]
          |exists 1%nat, 0%nat; split; [lia|split; [lia|unfold rotate, RZ, mmap; cbn [map]; mat_unfold_goal; first [left; ring|right; ring]]]
          |exists 1%nat, 1%nat; split; [lia|split; [lia|unfold rotate, RZ, mmap; cbn [map]; mat_unfold_goal; first [left; ring|right; ring]]]
          |exists 1%nat, 2%nat; split; [lia|split; [lia|unfold rotate, RZ, mmap; cbn [map]; mat_unfold_goal; first [left; ring|right; ring]]]
          |exists 2%nat, 0%nat; split; [lia|split; [lia|unfold rotate, RZ, mmap; cbn [map]; mat_unfold_goal; first [left; ring|right; ring]]]
          |exists 2%nat, 1%nat; split; [lia|split; [lia|unfold rotate, RZ, mmap; cbn [map]; mat_unfold_goal; first [left; ring|right; ring]]]
          |exists 2%nat, 2%nat; split; [lia|split; [lia|unfold rotate, RZ, mmap; cbn [map]; mat_unfold_goal; first [left; ring|right; ring]]]]|]).
  destruct HQ.
Qed.
Lemma rotate_msub (Q A B : mat R) : wf 3 3 Q -> wf 3 3 A -> wf 3 3 B -> rotate Q (msub A B) = msub (rotate Q A) (rotate Q B).
Proof.
  intros WQ WA WB. unfold rotate. assert (WT : wf 3 3 (tr Q)) by (apply wf_tr'; auto; lia).
  rewrite (mmul_msub_l 3) by (auto; lia). rewrite (mmul_msub_r 3); auto; try lia; apply (wf_mmul 3 3 3); auto; lia.
Qed.
Lemma nine M : In M (firstn 9 (skipn 1 CUBIC_LAUE_GROUP)) -> In M CUBIC_LAUE_GROUP /\ tr M = M.
Proof.
  intros H. split; [rewrite <- (firstn_skipn 1 CUBIC_LAUE_GROUP), <- (firstn_skipn 9 (skipn 1 CUBIC_LAUE_GROUP)); apply in_app_iff; right; apply in_app_iff; left; exact H|].
  assert (K : Forall (fun X => tr X = X) (firstn 9 (skipn 1 CUBIC_LAUE_GROUP))) by (unfold CUBIC_LAUE_GROUP; cbn [firstn skipn]; repeat apply Forall_cons; try apply Forall_nil; reflexivity).
  exact (proj1 (Forall_forall _ _) K M H).
Qed.
Lemma conventional_sym U V : wf 3 3 U -> wf 3 3 V -> conventional (firstn 9 (skipn 1 (map RZ CUBIC_LAUE_GROUP))) U V -> conventional (firstn 9 (skipn 1 (map RZ CUBIC_LAUE_GROUP))) V U.
Proof.
  intros WU WV (Q & HQ & H). exists Q. split; [exact HQ|]. rewrite skipn_map, firstn_map in HQ. apply in_map_iff in HQ as (M & <- & HM).
  destruct (nine M HM) as [HC S].
  assert (OQ : orthogonal 3 (RZ M)) by (apply (proj2 CUBIC_good); now apply in_map). assert (WQ : wf 3 3 (RZ M)) by apply OQ.
  assert (WR : wf 3 3 (rotate (RZ M) U)) by now apply wf_rotate.
  assert (UU : rotate (RZ M) (rotate (RZ M) U) = U). { rewrite <- S at 1. rewrite RZ_tr. now apply unrotate. }
  assert (B : forall i j, (i < 3)%nat -> (j < 3)%nat -> Rabs (get (msub V (rotate (RZ M) U)) i j) < tolerance).
  { intros i j Hi Hj. rewrite (get_msub 3 3) by assumption. change (Rabs (get V i j - get (rotate (RZ M) U) i j) < tolerance). rewrite Rabs_minus_sym. now apply H. }
  intros i j Hi Hj. pose proof (abs_entries M _ _ HM ltac:(apply wf_msub; [lia|exact WV]) B i j Hi Hj) as K. rewrite rotate_msub, UU in K by assumption.
  rewrite (get_msub 3 3) in K; [exact K|now apply wf_rotate|exact Hi|exact Hj].
Qed.
Theorem C110_conventional_partial : forall eig npnew npnew' skip skip' U V h h' p p' l1 l3,
  positive_definite U -> positive_definite V ->
  is_eig (twin_matrix U V) (eig (twin_matrix U V)) -> is_eig (twin_matrix V U) (eig (twin_matrix V U)) ->
  variants U V -> distinct U V -> eigenvalues (twin_matrix U V) l1 1 l3 ->
  pair_after eig npnew skip U V h p -> (forall o, In o h -> ~ asks_conventional o) ->
  pair_after eig npnew' skip' V U h' p' -> (forall o, In o h' -> ~ asks_conventional o) ->
  exists b, fst (isconventional None p) = Ok b /\ fst (isconventional None p') = Ok b.
Proof.
  intros eig npnew npnew' skip skip' U V h h' p p' l1 l3 PU PV E1 E2 VR D EV PA Hh PA' Hh'.
  assert (D' : distinct V U) by (destruct D as (i & j & Hi & Hj & K); exists i, j; repeat (split; [assumption|]); rewrite Rabs_minus_sym; exact K).
  destruct (C40_complete eig npnew skip U V h p l1 l3 PU PV E1 VR D EV PA) as (_ & _ & _ & _ & (e & _ & He) & _).
  pose proof He as (Le & Ne & Re). pose proof (half_orth e Le Ne) as O.
  assert (Re' : rotate (half_turn e) V = U).
  { rewrite <- Re. assert (S : tr (half_turn e) = half_turn e). { clear - Le. v3 Le. unfold half_turn. mat_eq ltac:(ring). }
    rewrite <- S at 1. apply unrotate; [exact O|apply PU]. }
  assert (EV' : eigenvalues (twin_matrix V U) l1 1 l3).
  { rewrite <- Re at 1. rewrite <- Re' at 2. rewrite twin_rotate; auto. apply eigenvalues_rotate; auto. }
  assert (WG : forall Q, In Q (firstn 9 (skipn 1 (map RZ CUBIC_LAUE_GROUP))) -> wf 3 3 Q).
  { intros Q HQ. rewrite skipn_map, firstn_map in HQ. apply in_map_iff in HQ as (M & <- & HM). destruct (nine M HM) as [HC _].
    assert (OQ : orthogonal 3 (RZ M)) by (apply (proj2 CUBIC_good); now apply in_map). apply OQ. }
  destruct (C35_first_call_partial eig npnew skip U V h p _ PU PV E1 WG PA Hh) as (b & B & Hb).
  destruct (C35_first_call_partial eig npnew' skip' V U h' p' _ PV PU E2 WG PA' Hh') as (b' & B' & Hb').
  rewrite (proj1 (C35_default_group p)), (proj1 (C35_default_group p')). exists b. split; [exact B|]. rewrite B'. f_equal. apply Bool.eq_true_iff_eq.
  rewrite Hb, Hb'. assert (NU : nearly_twinned U V) by (split; [exact D|]; exists l1, 1, l3; split; [exact EV|]; rewrite Rminus_diag_eq, Rabs_R0 by reflexivity; lra).
  assert (NV : nearly_twinned V U) by (split; [exact D'|]; exists l1, 1, l3; split; [exact EV'|]; rewrite Rminus_diag_eq, Rabs_R0 by reflexivity; lra).
  split; intros [_ C]; (split; [assumption|]); apply conventional_sym; try (apply PU); try (apply PV); exact C.
Qed.
Print Assumptions C110_conventional_partial.

(** The theorems apply: a pair with a single axis (C87_case), the same pair with the coordinate axes renamed, and the pair with
    its variants exchanged. *)
Definition cyc : mat R := M3 0 1 0 0 0 1 1 0 0.
Lemma cyc_orth : orthogonal 3 cyc.
Proof. split; [now apply wfb_spec|]. unfold cyc, M3. mat_eq ltac:(lra). Qed.
Lemma cyc_distinct U V : wf 3 3 U -> wf 3 3 V -> distinct U V -> distinct (rotate cyc U) (rotate cyc V).
Proof.
  intros WU WV (i & j & Hi & Hj & H). exists ((i + 2) mod 3)%nat, ((j + 2) mod 3)%nat. split; [apply Nat.mod_upper_bound; lia|]. split; [apply Nat.mod_upper_bound; lia|].
  replace (get (rotate cyc U) ((i + 2) mod 3) ((j + 2) mod 3)) with (get U i j); [replace (get (rotate cyc V) ((i + 2) mod 3) ((j + 2) mod 3)) with (get V i j); [exact H|]|].
  - clear - WV Hi Hj. apply wf3_inv in WV. destruct WV as (? & ? & ? & ? & ? & ? & ? & ? & ? & ->).
    destruct i as [|[|[|i]]], j as [|[|[|j]]]; try lia; repeat (match goal with |- context [(?a mod 3)%nat] => let v := eval compute in (a mod 3)%nat in change (a mod 3)%nat with v end); unfold rotate, cyc, M3; mat_unfold_goal; ring.
  - clear - WU Hi Hj. apply wf3_inv in WU. destruct WU as (? & ? & ? & ? & ? & ? & ? & ? & ? & ->).
    destruct i as [|[|[|i]]], j as [|[|[|j]]]; try lia; repeat (match goal with |- context [(?a mod 3)%nat] => let v := eval compute in (a mod 3)%nat in change (a mod 3)%nat with v end); unfold rotate, cyc, M3; mat_unfold_goal; ring.
Qed.
Example C110_case : exists eig U V p p' p'' l1 l3, positive_definite U /\ positive_definite V /\
  is_eig (twin_matrix U V) (eig (twin_matrix U V)) /\ is_eig (twin_matrix V U) (eig (twin_matrix V U)) /\
  is_eig (twin_matrix (rotate cyc U) (rotate cyc V)) (eig (twin_matrix (rotate cyc U) (rotate cyc V))) /\ orthogonal 3 cyc /\
  variants U V /\ distinct U V /\ distinct (rotate cyc U) (rotate cyc V) /\ eigenvalues (twin_matrix U V) l1 1 l3 /\ clear_pair U V /\
  pair_after eig false true U V [PAx] p /\ pair_after eig false true (rotate cyc U) (rotate cyc V) [PCompound] p' /\
  pair_after eig false true V U [] p'' /\ fst (iscompound p) = Ok false.
Proof.
  destruct C87_case as (U & V & p4 & PU & PV & E4 & VR & D & EV & CL & PA4 & CF).
  pose proof (rotate_posdef cyc U cyc_orth PU) as PU'. pose proof (rotate_posdef cyc V cyc_orth PV) as PV'.
  destruct (eig_for_pairs [U; V; rotate cyc U; rotate cyc V]) as (eig & E); [intros X [<-|[<-|[<-|[<-|[]]]]]; assumption|].
  assert (E1 : is_eig (twin_matrix U V) (eig (twin_matrix U V))) by (apply E; cbn; auto).
  assert (E2 : is_eig (twin_matrix V U) (eig (twin_matrix V U))) by (apply E; cbn; auto).
  assert (E3 : is_eig (twin_matrix (rotate cyc U) (rotate cyc V)) (eig (twin_matrix (rotate cyc U) (rotate cyc V)))) by (apply E; cbn; auto).
  destruct (new_pair_ok eig U V _ _ _ PU E1 EV) as (_ & _ & _ & p & _ & N1 & _).
  destruct (new_pair_ok eig V U _ _ _ PV E2 (twin_swap U V PU PV _ _ _ EV)) as (_ & _ & _ & p'' & _ & N2 & _).
  assert (EV' : eigenvalues (twin_matrix (rotate cyc U) (rotate cyc V)) (1/4) 1 4) by (rewrite twin_rotate by (assumption || apply cyc_orth); now apply eigenvalues_rotate; [apply cyc_orth|]).
  destruct (new_pair_ok eig _ _ _ _ _ PU' E3 EV') as (_ & _ & _ & p' & _ & N3 & _).
  assert (PA : pair_after eig false true U V [PAx] (pair_run eig false [PAx] p)) by (exists p; auto).
  exists eig, U, V, (pair_run eig false [PAx] p), (pair_run eig false [PCompound] p'), p'', (1/4), 4.
  do 5 (split; [assumption|]). split; [apply cyc_orth|]. do 2 (split; [assumption|]). split; [apply cyc_distinct; [apply PU|apply PV|exact D]|]. do 3 (split; [assumption|]).
  split; [exists p'; auto|]. split; [exists p''; auto|].
  destruct (C86_classification_partial _ _ _ _ _ _ _ _ _ PU PV E4 VR D EV CL PA4) as (b & B1 & _ & _ & B4 & _).
  destruct (C86_classification_partial _ _ _ _ _ _ _ _ _ PU PV E1 VR D EV CL PA) as (b' & B1' & _ & _ & B4' & _).
  rewrite B1'. f_equal. rewrite CF in B1. injection B1 as <-. apply Bool.eq_true_iff_eq. rewrite B4', <- B4. reflexivity.
Qed.

(** The condition on the rotated pair is needed: two variants that differ by exactly the tolerance are twinned, and after a
    rotation of both they are not. *)
Definition Q110 : mat R := M3 (4/5) (-3/5) 0 (3/5) (4/5) 0 0 0 1.
Lemma Q110_orth : orthogonal 3 Q110.
Proof. split; [now apply wfb_spec|]. unfold Q110, M3. mat_eq ltac:(lra). Qed.
Theorem C110_refuted : exists Q U V eig p p' l1 l3, orthogonal 3 Q /\ det Q = 1 /\ positive_definite U /\ positive_definite V /\ variants U V /\
  eigenvalues (twin_matrix U V) l1 1 l3 /\
  is_eig (twin_matrix U V) (eig (twin_matrix U V)) /\ is_eig (twin_matrix (rotate Q U) (rotate Q V)) (eig (twin_matrix (rotate Q U) (rotate Q V))) /\
  new_pair eig true U V = Ok p /\ new_pair eig true (rotate Q U) (rotate Q V) = Ok p' /\ istwinnable p = true /\ istwinnable p' = false.
Proof.
  set (t := tolerance). assert (Ht : 0 < t < 1) by (unfold t, tolerance, SMALL; lra).
  set (U := diag [1 + t; 1; 1]). set (V := diag [1; 1 + t; 1]).
  assert (PU : positive_definite U) by (apply posdef_diag; lra). assert (PV : positive_definite V) by (apply posdef_diag; lra).
  pose proof (rotate_posdef Q110 U Q110_orth PU) as PU'. pose proof (rotate_posdef Q110 V Q110_orth PV) as PV'.
  destruct (eig_for_pairs [U; V; rotate Q110 U; rotate Q110 V]) as (eig & E); [intros X [<-|[<-|[<-|[<-|[]]]]]; assumption|].
  assert (E1 : is_eig (twin_matrix U V) (eig (twin_matrix U V))) by (apply E; cbn; auto).
  assert (E3 : is_eig (twin_matrix (rotate Q110 U) (rotate Q110 V)) (eig (twin_matrix (rotate Q110 U) (rotate Q110 V)))) by (apply E; cbn; auto).
  set (l1 := 1 / (1 + t) * (1 / (1 + t))). set (l3 := (1 + t) / 1 * ((1 + t) / 1)).
  assert (L1 : l1 <= 1). { unfold l1. assert (0 < / (1 + t) <= 1) by (split; [apply Rinv_0_lt_compat; lra|rewrite <- Rinv_1; apply Rinv_le_contravar; lra]). unfold Rdiv. nra. }
  assert (L3 : 1 <= l3) by (unfold l3; replace ((1 + t) / 1) with (1 + t) by field; nra).
  assert (EV : eigenvalues (twin_matrix U V) l1 1 l3).
  { unfold U, V. rewrite twin_diag by lra. apply eigenvalues_of_diag; [|assumption|assumption]. fold l1 l3. replace (1 / 1 * (1 / 1)) with 1 by field. apply perm_skip, perm_swap. }
  assert (EV' : eigenvalues (twin_matrix (rotate Q110 U) (rotate Q110 V)) l1 1 l3) by (rewrite twin_rotate by (assumption || apply Q110_orth); apply eigenvalues_rotate; [apply Q110_orth|exact EV]).
  destruct (new_pair_ok eig U V _ _ _ PU E1 EV) as (v0 & v1 & v2 & p & _ & N1 & U1 & V1 & Ee1 & _).
  destruct (new_pair_ok eig _ _ _ _ _ PU' E3 EV') as (w0 & w1 & w2 & p' & _ & N3 & U3 & V3 & Ee3 & _).
  exists Q110, U, V, eig, p, p', l1, l3. split; [apply Q110_orth|]. split; [unfold Q110, M3; mat_unfold_goal; lra|]. do 2 (split; [assumption|]). split.
  { exists (M3 0 1 0 1 0 0 0 0 1). split; [split; [now apply wfb_spec|unfold M3; mat_eq ltac:(lra)]|]. unfold U, V, rotate, M3. mat_eq ltac:(lra). }
  do 5 (split; [assumption|]). split.
  - unfold istwinnable. rewrite U1, V1, Ee1. apply twinnable_spec; [apply PU|apply PV|exact EV|]. split.
    + exists 0%nat, 0%nat. split; [lia|]. split; [lia|]. unfold U, V. replace (get _ 0 0 - get _ 0 0) with t by (mat_unfold_goal; ring). rewrite Rabs_pos_eq by lra. apply Rle_refl.
    + exists l1, 1, l3. split; [exact EV|]. rewrite Rminus_diag_eq, Rabs_R0 by reflexivity. lra.
  - unfold istwinnable. rewrite U3, V3, Ee3. destruct (twinnable _ _ _) eqn:T; [|reflexivity]. exfalso. apply twinnable_spec in T; [|apply PU'|apply PV'|exact EV'].
    destruct T as ((i & j & Hi & Hj & H) & _). fold t in H. revert H. apply Rlt_not_le. unfold U, V, Q110, M3, rotate. clearbody t.
    destruct i as [|[|[|i]]], j as [|[|[|j]]]; try lia; mat_unfold_goal; apply Rabs_def1; lra.
Qed.
Print Assumptions C110_refuted.
