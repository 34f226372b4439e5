(** What the loop of TwinPair.ax returns. *)
From Verif Require Export TwinSystem.
Local Open Scope R_scope.

Lemma sqrt_sign a b : a * a = b -> 0 <= b -> a = sqrt b \/ a = - sqrt b.
Proof. intros H P. apply square_eq with b; auto. now apply sqrt_sqrt. Qed.
Lemma vscale_one' v : vscale 1 v = v.
Proof. apply scale_one. Qed.
Lemma clear_cases A01 A12 l2 : A01 * A01 = l2 * (A12 * A12) -> 0 <= l2 -> A01 = 0 \/ SMALL / 2 <= Rabs A01 -> forall s, s * s = l2 ->
  Rabs (s * A12 + A01) < SMALL -> s * A12 + A01 = 0.
Proof.
  intros E P C s Hs T. assert (Q : (s * A12) * (s * A12) = A01 * A01) by (rewrite E, <- Hs; ring).
  destruct (square_eq _ _ (A01 * A01) Q eq_refl) as [X|X]; [|rewrite X; ring].
  rewrite X in T |- *. destruct C as [->|C]; [ring|]. exfalso.
  replace (A01 + A01) with (2 * A01) in T by ring. rewrite Rabs_mult, (Rabs_pos_eq 2) in T by lra. lra.
Qed.

Section Axes.
  Variables U V : mat R.
  Hypothesis PU : positive_definite U.
  Hypothesis PV : positive_definite V.
  Hypothesis VR : variants U V.
  Hypothesis NE : U <> V.
  Variables l0 l2 : R.
  Variables v0 v1 v2 : vec R.
  Hypothesis ES : eigsys (twin_matrix U V) l0 1 l2 v0 v1 v2.
  Let A := mmul U U.
  Let DE : det U = det V.
  Proof. destruct VR as (Q & O & <-). symmetry. apply det_rotate; auto. apply PU. Qed.
  Let TE : trace (mmul U U) = trace (mmul V V).
  Proof.
    destruct VR as (Q & O & <-). assert (W : wf 3 3 U) by apply PU. rewrite rotate_mmul, trace_rotate; auto. apply (wf_mmul 3 3 3); auto; lia.
  Qed.
  Let T4 : trace (mmul A A) = trace (mmul (mmul V V) (mmul V V)).
  Proof.
    destruct VR as (Q & O & <-). assert (W : wf 3 3 U) by apply PU. assert (WA : wf 3 3 A) by (apply (wf_mmul 3 3 3); auto; lia).
    rewrite !rotate_mmul, trace_rotate; auto. apply (wf_mmul 3 3 3); auto; lia.
  Qed.
  Lemma lam_lt : l0 < l2.
  Proof.
    pose proof (es_le01 _ _ _ _ _ _ _ ES) as A1. pose proof (es_le12 _ _ _ _ _ _ _ ES) as A2.
    destruct (Rle_lt_or_eq_dec l0 l2 ltac:(lra)) as [L|E]; [exact L|]. exfalso. apply NE.
    assert (E0 : l0 = 1) by lra. assert (E2 : l2 = 1) by lra. subst l0 l2.
    destruct (twin_posdef U V PU PV) as [[WC SC] _].
    assert (C1 : twin_matrix U V = eye 3).
    { destruct ES. apply (by_basis _ _ v0 v1 v2); auto; [apply wf_eye|..]; rewrite ?es_0, ?es_1, ?es_2, scale_one; symmetry; apply (mvmul_eye 3); auto. }
    pose proof (twin_sandwich U V PU PV) as S. assert (W : wf 3 3 U) by apply PU. rewrite C1, (mmul_eye_r 3 3) in S by (auto; lia). now apply sqrt_unique.
  Qed.
  Let ORD := lam_order U V PU PV l0 l2 v0 v1 v2 ES lam_lt DE.
  Let B12 := dot v1 (mvmul A v2).
  Let B01 := dot v1 (mvmul A v0).
  Let EQ : B01 * B01 = l2 * (B12 * B12).
  Proof. exact (A01_eq U V PU PV l0 l2 v0 v1 v2 ES lam_lt DE TE T4). Qed.
  Definition signs : list R := filter (fun s => Reqb (s * B12 + B01) 0) [- sqrt l2; sqrt l2].
  Definition loose_signs : list R := filter (fun s => Rltb (Rabs (s * B12 + B01)) SMALL) [- sqrt l2; sqrt l2].
  Lemma sign_sq s : In s [- sqrt l2; sqrt l2] -> s * s = l2.
  Proof. intros [<-|[<-|[]]]; [replace (- sqrt l2 * - sqrt l2) with (sqrt l2 * sqrt l2) by ring|]; apply sqrt_sqrt; lra. Qed.
  Lemma axes_loose : axes U [v0; v1; v2] [l0; 1; l2] = Ok (map (axis U v0 v2) loose_signs).
  Proof.
    pose proof ORD as (P0 & P1 & P2). unfold axes, loose_signs. cbv [nth]. fold A. fold B12 B01.
    assert (W : wf 3 3 U) by apply PU.
    assert (G : forall ss, (forall s, In s ss -> s * s = 1) ->
      ax_loop U [v0; v1; v2] [l0; 1; l2] (dot v0 (mvmul A v0)) B12 (dot v2 (mvmul A v0)) B01 ss =
      Ok (map (axis U v0 v2) (filter (fun s => Rltb (Rabs (s * B12 + B01)) SMALL) (map (fun s => s * sqrt l2) ss)))).
    { induction ss as [|s ss IH]; intros Hs; [reflexivity|]. cbn [ax_loop map filter]. change (vget [l0; 1; l2] 2) with l2. rewrite math_sqrt_ok by lra. cbn [bind nth].
      specialize (IH (fun x Hx => Hs x (or_intror Hx))).
      assert (H2 : s * sqrt l2 * (s * sqrt l2) = l2).
      { replace (s * sqrt l2 * (s * sqrt l2)) with (s * s * (sqrt l2 * sqrt l2)) by ring. rewrite (Hs s (or_introl eq_refl)), sqrt_sqrt by lra. ring. }
      destruct (Rltb (Rabs (s * sqrt l2 * B12 + B01)) SMALL) eqn:X; [|exact IH].
      clear X.
        pose proof (axk_pos U V PU PV l0 l2 v0 v1 v2 ES lam_lt DE TE (s * sqrt l2) H2) as Pk.
        pose proof (axis_unit U V PU PV l0 l2 v0 v1 v2 ES lam_lt DE TE (s * sqrt l2) H2) as (La & Na).
        change (2 * (dot v0 (mvmul A v0) + s * sqrt l2 * dot v2 (mvmul A v0))) with (axk U v0 v2 (s * sqrt l2)).
        rewrite math_sqrt_ok by lra. cbn [bind]. set (k := axk U v0 v2 (s * sqrt l2)) in *. set (r := sqrt k).
        assert (Pr : 0 < r) by now apply sqrt_lt_R0. assert (Hr : r * r = k) by (apply sqrt_sqrt; lra).
        assert (L0 : length v0 = 3%nat) by apply ES. assert (L2 : length v2 = 3%nat) by apply ES.
        assert (Ex : vadd (vscale r (mvmul U v0)) (vscale (s * sqrt l2 * r) (mvmul U v2)) = vscale k (axis U v0 v2 (s * sqrt l2))).
        { unfold axis. fold k r. pose proof (len_mv3 U v0 W) as M0. pose proof (len_mv3 U v2 W) as M2. clear - M0 M2 Pr Hr. rewrite <- Hr.
          v3 M0. v3 M2. unfold vadd, vscale. cbn [map length]. cbv [mkv seq map vget nth length]. apply list3_eq; field; lra. }
        rewrite Ex. unfold normalize.
        assert (Nx : vnorm (vscale k (axis U v0 v2 (s * sqrt l2))) = k).
        { unfold vnorm. rewrite dot_vscale, dot_scale_r, Na by (auto; now rewrite len_vscale). replace (k * (k * 1)) with (k * k) by ring. now apply sqrt_square; lra. }
        rewrite Nx, (proj2 (Reqb_false k 0)) by lra. cbn [bind]. rewrite IH. cbn [bind map].
        assert (Em : map (fun x => x / k) (vscale k (axis U v0 v2 (s * sqrt l2))) = axis U v0 v2 (s * sqrt l2)).
        { unfold vscale. rewrite map_map. rewrite <- (map_id (axis U v0 v2 (s * sqrt l2))) at 2. apply map_ext. intros a. field. lra. }
        rewrite Em. reflexivity. }
    rewrite G.
    - cbn [map]. replace (-1 * sqrt l2) with (- sqrt l2) by ring. replace (1 * sqrt l2) with (sqrt l2) by ring. reflexivity.
    - intros s [<-|[<-|[]]]; ring.
  Qed.
  Lemma loose_clear : clear_pair U V -> loose_signs = signs.
  Proof.
    intros CL. pose proof ORD as (P0 & P1 & P2). assert (CC : B01 = 0 \/ SMALL / 2 <= Rabs B01).
    { pose proof lam_lt as LL. destruct ES. apply (CL l0 v0 v1); auto. now rewrite es_1, scale_one. }
    unfold loose_signs, signs. apply filter_ext_in. intros s Hs. apply sign_sq in Hs.
    destruct (Reqb (s * B12 + B01) 0) eqn:X.
    - apply Reqb_spec in X. rewrite X, Rabs_R0. apply Rltb_spec, small_pos.
    - destruct (Rltb (Rabs (s * B12 + B01)) SMALL) eqn:Y; [|reflexivity]. exfalso. apply Rltb_spec in Y.
      apply (clear_cases B01 B12 l2 EQ ltac:(lra) CC _ Hs) in Y. apply Reqb_spec in Y. congruence.
  Qed.
  Lemma signs_loose s : In s signs -> In s loose_signs.
  Proof.
    unfold signs, loose_signs. rewrite !filter_In, Reqb_spec, Rltb_spec. intros (H & ->). rewrite Rabs_R0. split; [exact H|apply small_pos].
  Qed.
  Lemma signs_spec s : In s signs <-> s * s = l2 /\ s * B12 + B01 = 0.
  Proof.
    pose proof ORD as (P0 & P1 & P2). unfold signs. rewrite filter_In, Reqb_spec. split.
    - intros (H & X). split; [now apply sign_sq|exact X].
    - intros (H & X). split; [|exact X]. destruct (sqrt_sign s l2 H ltac:(lra)) as [->| ->]; cbn; auto.
  Qed.
  (** there is an axis *)
  Lemma signs_some : signs <> [].
  Proof.
    pose proof ORD as (P0 & P1 & P2). intros E.
    assert (N : forall s, s * s = l2 -> s * B12 + B01 <> 0) by (intros s Hs X; assert (I : In s signs) by (apply signs_spec; auto); rewrite E in I; destruct I).
    assert (H1 : sqrt l2 * sqrt l2 = l2) by (apply sqrt_sqrt; lra).
    assert (Q : sqrt l2 * B12 * (sqrt l2 * B12) = B01 * B01) by (transitivity ((sqrt l2 * sqrt l2) * (B12 * B12)); [ring|rewrite H1, EQ; reflexivity]).
    destruct (square_eq _ _ _ Q eq_refl) as [X|X].
    - apply (N (- sqrt l2)); [transitivity (sqrt l2 * sqrt l2); [ring|exact H1]|]. rewrite Ropp_mult_distr_l_reverse, X. ring.
    - apply (N (sqrt l2)); [exact H1|]. rewrite X. ring.
  Qed.
  Lemma axes_unit s : s * s = l2 -> length (axis U v0 v2 s) = 3%nat /\ dot (axis U v0 v2 s) (axis U v0 v2 s) = 1.
  Proof. exact (axis_unit U V PU PV l0 l2 v0 v1 v2 ES lam_lt DE TE s). Qed.
  Lemma axes_good e : In e (map (axis U v0 v2) signs) -> length e = 3%nat /\ dot e e = 1 /\ rotate (half_turn e) U = V.
  Proof.
    intros H. apply in_map_iff in H. destruct H as (s & <- & H). apply signs_spec in H. destruct H as (H1 & H2).
    destruct (axis_unit U V PU PV l0 l2 v0 v1 v2 ES lam_lt DE TE s H1) as (L & N). split; [exact L|]. split; [exact N|].
    exact (axis_ok U V PU PV l0 l2 v0 v1 v2 ES lam_lt DE TE s H1 H2).
  Qed.
  Lemma axes_all e : length e = 3%nat -> dot e e = 1 -> rotate (half_turn e) U = V -> exists x k, In x (map (axis U v0 v2) signs) /\ (k = 1 \/ k = -1) /\ e = vscale k x.
  Proof.
    intros L N R. destruct (axis_complete U V PU PV l0 l2 v0 v1 v2 ES lam_lt DE TE e L N R) as (s & k & H1 & H2 & H3 & H4).
    exists (axis U v0 v2 s), k. split; [apply in_map, signs_spec; auto|]. split; [|exact H4].
    destruct (square_eq k 1 1 H3 ltac:(ring)); [now left|right; lra].
  Qed.
End Axes.
