(** Property C37, continued: what twinparam returns for a twinnable pair without a two-fold axis. *)
From Verif Require Import PropTwin PropMart PropRankOne RankOneConn TwinProofs TwinSystem TwinAxis PropTwin3.
Local Open Scope R_scope.

(** the entries of a and n multiplied one by one *)
Definition entrywise (a n : vec R) : vec R := [vget a 0 * vget n 0; vget a 1 * vget n 1; vget a 2 * vget n 2].

(** A rank-one connection of C = U^-1 V^2 U^-1 to the identity is a twin of U and V. *)
Lemma twin_of_solution U V b m : positive_definite U -> positive_definite V -> solves (twin_matrix U V) b m ->
  exists Q a n, twinning U V Q a n /\ entrywise (mvmul (tr U) m) b = entrywise a n.
Proof.
  intros PU PV ((Lb & Lm & Nm & E) & P). pose proof PU as [[WU TU] _]. pose proof (posdef_det U PU) as DU. pose proof (posdef_det V PV) as DV. pose proof PV as [[WV TV] _].
  set (k := mvmul (tr U) m). assert (Lk : length k = 3%nat) by (unfold k; rewrite TU; apply (length_mvmul 3 3); auto).
  assert (d3 : dim23 3) by now right.
  assert (NK : 0 < dot k k).
  { assert (K2 : 0 < dot m k).
    { unfold k. rewrite TU. v3 Lm. apply PU. intros X. injection X as -> -> ->. rewrite dot3 in Nm. lra. }
    clearbody k. v3 Lk. v3 Lm. rewrite dot3 in *. assert (x <> 0 \/ x0 <> 0 \/ x1 <> 0) as [X|[X|X]]; [|nra..].
    destruct (Req_dec x 0) as [->|X]; [|now left]. destruct (Req_dec x0 0) as [->|X]; [|now right; left]. right. right. intros ->. lra. }
  set (r := sqrt (dot k k)). assert (R0 : 0 < r) by now apply sqrt_lt_R0. assert (RR : r * r = dot k k) by (apply sqrt_sqrt; lra).
  set (a := vscale r b). set (n := vscale (/ r) k).
  assert (La : length a = 3%nat) by (unfold a, vscale; now rewrite map_length). assert (Ln : length n = 3%nat) by (unfold n, vscale; now rewrite map_length).
  assert (NN : dot n n = 1). { unfold n. clearbody k r. v3 Lk. rewrite !dot3 in *. unfold vscale. cbn [map]. rewrite dot3. replace (/ r * x * (/ r * x) + / r * x0 * (/ r * x0) + / r * x1 * (/ r * x1)) with (/ r * / r * (x * x + x0 * x0 + x1 * x1)) by ring. rewrite <- RR. field. lra. }
  assert (OE : outer a n = outer b k). { unfold a, n. clearbody k r. v3 Lk. v3 Lb. unfold vscale. cbn [map]. mat_eq ltac:(field; lra). }
  assert (EF : madd U (outer a n) = mmul (madd (eye 3) (outer b m)) U).
  { rewrite OE. unfold k. clear - WU Lb Lm. destruct (wf3_inv U WU) as (a1&a2&a3&a4&a5&a6&a7&a8&a9&->). v3 Lb. v3 Lm. mat_eq ltac:(ring). }
  assert (WO : wf 3 3 (madd (eye 3) (outer b m))) by (apply wf_madd; [lia|apply wf_eye]).
  assert (SQ : mmul (tr (madd U (outer a n))) (madd U (outer a n)) = mmul V V).
  { rewrite EF, (tr_mmul 3 3 3) by (auto; lia). rewrite TU, tr_F by auto.
    assert (WO' : wf 3 3 (madd (eye 3) (outer m b))) by (apply wf_madd; [lia|apply wf_eye]).
    rewrite (mmul_assoc 3 3 3 3 U) by (auto; try lia; apply (wf_mmul 3 3 3); auto; lia). rewrite <- (mmul_assoc 3 3 3 3 _ _ U) by (auto; lia). rewrite E.
    rewrite <- (mmul_assoc 3 3 3 3) by (auto; try lia; now apply wf_twin). now apply twin_sandwich. }
  assert (DE : det (madd U (outer a n)) = det V).
  { assert (D1 : det (madd U (outer a n)) * det (madd U (outer a n)) = det V * det V).
    { pose proof (f_equal det SQ) as X. assert (WF : wf 3 3 (madd U (outer a n))) by (rewrite EF; apply (wf_mmul 3 3 3); auto; lia).
      rewrite !(det_mmul 3) in X by (auto; try lia; apply wf_tr'; auto; lia). rewrite (det_tr 3) in X by auto. exact X. }
    rewrite EF, (det_mmul 3) in * by auto. set (u := det (madd (eye 3) (outer b m))) in *. assert (0 < u * det U) by nra. nra. }
  exists (mmul (madd U (outer a n)) (minv V)), a, n. split; [now apply twin_of_square|].
  fold k. unfold a, n. clearbody k r. v3 Lk. v3 Lb. unfold entrywise, vscale. cbn. apply list3_eq; field; lra.
Qed.

(** What is returned is not a twin (C37_normals, C37_refuted), but its shear is made from one: for each of the two triples
    there is a twin (Q, a, n) of U and V such that the returned shear holds the products of the entries of a and n.  *)
Theorem C37_returned : forall eig npnew U V l1 l3 t1 t2, positive_definite U -> positive_definite V ->
  eigenvalues (twin_matrix U V) l1 1 l3 -> tolerance * tolerance <= l3 - l1 -> is_eig (twin_matrix U V) (eig (twin_matrix U V)) ->
  solvetwin eig npnew U V None = Ok (Some (t1, t2)) ->
  forall t, t = t1 \/ t = t2 -> exists Q a n, twinning U V Q a n /\ twin_n t = [1; 1; 1] /\ twin_a t = entrywise a n.
Proof.
  intros eig npnew U V l1 l3 t1 t2 PU PV EV G EG H. pose proof PU as [[WU TU] _].
  destruct (C37_normals _ _ _ _ _ _ WU H) as (N1 & N2). cbn [solvetwin] in H. unfold solvetwin_none in H. rewrite (inv_posdef _ PU) in H. cbn [bind] in H.
  change (mmul (mmul (minv U) V) (mmul V (minv U))) with (twin_matrix U V) in H.
  assert (P1 : 0 < l1). { exact (posdef_eig _ _ _ _ (twin_posdef U V PU PV) EV). }
  destruct (C30_twin_solver_partial eig _ l1 l3 (proj1 (twin_posdef U V PU PV)) EV P1 G EG) as (R1 & b1 & m1 & R2 & b2 & m2 & SA & S1 & _ & S2 & _).
  rewrite SA in H. cbn [bind] in H.
  destruct (vdivv (mvmul (tr U) m1) _) as [x1| |] eqn:E1; try discriminate. cbn [bind] in H.
  destruct (vdivv (mvmul (tr U) m2) _) as [x2| |] eqn:E2; try discriminate. cbn [bind] in H. injection H as <- <-. cbn [twin_n snd] in N1, N2. subst x1 x2.
  assert (K : forall b m, solves (twin_matrix U V) b m -> vmul (mvmul (tr U) m) b = entrywise (mvmul (tr U) m) b).
  { intros b m ((Lb & Lm & _) & _). assert (Lk : length (mvmul (tr U) m) = 3%nat) by (rewrite TU; apply (length_mvmul 3 3); auto).
    generalize dependent (mvmul (tr U) m). intros k Lk. v3 Lk. v3 Lb. reflexivity. }
  intros t [-> | ->]; cbn [twin_n twin_a fst snd]; rewrite K by assumption;
    [destruct (twin_of_solution U V b1 m1 PU PV S1) as (Q & a & n & T & ->)|destruct (twin_of_solution U V b2 m2 PU PV S2) as (Q & a & n & T & ->)]; exists Q, a, n; auto.
Qed.
Print Assumptions C37_returned.

(** The pair of C37_refuted, whose shear is made from twins that twinparam does not return. *)
Example C37_returned_case : exists U V t1 t2, positive_definite U /\ positive_definite V /\
  solvetwin eig4 false U V None = Ok (Some (t1, t2)) /\
  exists Q a n, twinning U V Q a n /\ twin_n t1 = [1; 1; 1] /\ twin_a t1 = entrywise a n.
Proof.
  pose proof pd_U37 as PU. destruct (twin_of U37 C4 PU pd_C4) as (V & PV & EC & EV).
  destruct (C30_twin_solver_partial eig4 C4 (1/4) 4) as (R1 & b1 & m1 & R2 & b2 & m2 & SA & S1 & _ & S2 & _);
    [apply pd_C4|apply ev_C4|lra|unfold tolerance, SMALL; lra|apply is_eig4|].
  destruct (solves37 _ _ S1) as (x1 & z1 & -> & X1 & Z1). destruct (solves37 _ _ S2) as (x2 & z2 & -> & X2 & Z2).
  assert (K : forall x z, mvmul (tr U37) [x; 0; z] = [2 * x; x; z]) by (intros; unfold U37; mat_unfold_goal; apply list3_eq; ring).
  assert (Dv : forall x z, x <> 0 -> z <> 0 -> exists l, vdivv [2 * x; x; z] [2 * x; x; z] = Ok l).
  { intros x z Hx Hz. unfold vdivv. cbn [combine mapM fst snd]. unfold np_div.
    rewrite (proj2 (Reqb_false (2 * x) 0)), (proj2 (Reqb_false x 0)), (proj2 (Reqb_false z 0)) by lra. cbn. eauto. }
  assert (H : exists t1 t2, solvetwin eig4 false U37 V None = Ok (Some (t1, t2))).
  { cbn [solvetwin]. unfold solvetwin_none. rewrite (inv_posdef _ PU). cbn [bind].
    change (mmul (mmul (minv U37) V) (mmul V (minv U37))) with (twin_matrix U37 V). rewrite EC, SA. cbn [bind]. rewrite !K.
    destruct (Dv x1 z1 X1 Z1) as (l1 & ->). destruct (Dv x2 z2 X2 Z2) as (l2 & ->). cbn [bind]. eauto. }
  destruct H as (t1 & t2 & H). exists U37, V, t1, t2. split; [exact PU|]. split; [exact PV|]. split; [exact H|].
  refine (C37_returned eig4 false U37 V (1/4) 4 t1 t2 PU PV _ _ _ H t1 (or_introl eq_refl)); [rewrite EC; apply ev_C4|unfold tolerance, SMALL; lra|rewrite EC; apply is_eig4].
Qed.
