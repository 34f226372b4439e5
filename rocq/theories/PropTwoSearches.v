(** Property C123: lat_cor (the direct search) and lat_cor_hnf (the search over sublattices) for the same two lattices.
    Specification: DirectCorSpec.v (same_up_to, cauchy_distance), DirectConcSpec.v (quartic_bound), BravaisSpec.v
    (bravais_type, admissible), LatticeSpec.v (resolved).  In Coq lat_cor_hnf is called [LatCorModel.lat_cor] and lat_cor
    [lat_cor_direct]. *)
From Coq Require Import Lra Lia.
From Verif Require Import LinAlg Eig Spectral GroupModel GroupProofs LatticeModel LatticeSpec LatticeProofs LatticeLaue BravaisModel BravaisSpec HnfSpec HnfProofs TreeSpec
  DistModel DistSpec DistProofs DirectSpec DirectConcrete DirectConcSpec DirectConcProofs DirectProofs DirectGlobal OutputModel PropOutput PropBravais PropLattice
  HnfSearchModel LatCorModel LatCorSpec LatCorProofs LatCorTotal PropLatCor DirectCorModel DirectCorSpec DirectCorProofs PropDirectCor LatCorCase DirectCase3.
Local Open Scope R_scope.

(** A list that lat_cor returns within the first turn of its search loop is never worse than what lat_cor_hnf finds: each
    solution of lat_cor_hnf is, seen through symmetries of the two lattices, in the list with the same distance, or all of
    the at least nsol solutions listed are closer. *)
Theorem C123_covers : forall D eig hq k hfuel w q idA pA idM pM sA ceA cA sM ceM cM A M alpha sols hsols,
  bravais_type 3 idA = Some (sA, ceA) -> admissible sA pA cA -> bravais_type 3 idM = Some (sM, ceM) -> admissible sM pM cM ->
  new_bravais idA pA 3 = Ok A -> new_bravais idM pM 3 = Ok M ->
  let EA := b_base A in let EM := b_base M in resolved 3 EA -> resolved 3 EM ->
  (* the direct search *)
  d_dim q = 3%Z -> (1 <= d_nsol q)%nat -> (1 <= d_slice_sz q)%nat -> d_vol_th q <= 1 ->
  Forall (wf 3 3) (w_shifts w) -> eig_correct 3 (w_eig w) -> (forall l e, In e (w_order w l) <-> In e l) ->
  quart_min w (3 * 3) (quartic_D 3 EA (minv EM)) = Ok (Some alpha) -> quartic_bound 3 EA EM alpha ->
  lat_cor_direct w q 1 idA pA idM pM = Ok sols ->
  (* the search over sublattices *)
  q_dim hq = 3%Z -> q_dist hq = Cauchy -> eig_correct 3 eig -> lat_cor D eig hq k hfuel idA pA idM pM = Ok hsols ->
  exists GA GM, lattice_group EA = Ok GA /\ lattice_group EM = Ok GM /\ forall s o, In (s, o) hsols ->
    (exists d t, In (d, t) sols /\ same_up_to GA GM (mmul (hh s) (hl s)) (o_l t) /\ d = hd_ s) \/
    ((d_nsol q <= length sols)%nat /\ forall d t, In (d, t) sols -> d < hd_ s).
Proof.
  intros D eig hq k hfuel w q idA pA idM pM sA ceA cA sM ceM cM A M alpha sols hsols TA AA TM AM HA HM EA EM RA RM Q3 Hn Hz Hv Hw He Ho Ea Hq H H3 HC He' H'.
  assert (N3 : Z.to_nat (d_dim q) = 3%nat) by (rewrite Q3; reflexivity).
  pose proof (C84_global_partial w q idA pA idM pM sA ceA cA sM ceM cM A M alpha sols) as G. cbv zeta in G. rewrite N3, Q3 in G.
  destruct (G TA AA TM AM HA HM RA RM Hn Hz Hv Hw He Ho Ea Hq H) as (GA & GM & EGA & EGM & GL). clear G.
  pose proof (C83_solutions_genuine_partial w q 1 idA pA idM pM sols sA ceA cA sM ceM cM A M) as G. cbv zeta in G. rewrite N3, Q3 in G.
  destruct (G TA AA TM AM HA HM RA RM Hn Hz Hv Hw He Ho H) as (BA & BM & GA' & GM' & CA & CM & EGA' & EGM' & _ & _ & _ & GEN & _). clear G.
  assert (GA' = GA) by (unfold EA in *; congruence). assert (GM' = GM) by (unfold EM in *; congruence). subst GA' GM'.
  exists GA, GM. split; [exact EGA|]. split; [exact EGM|]. intros s o Hin.
  destruct (lat_cor_genuine_bases D eig hq k hfuel idA pA idM pM hsols sA ceA cA sM ceM cM TA AA TM AM H3 He' H') as (A' & M' & HA' & HM' & _ & _ & _ & K).
  assert (A' = A) by congruence. assert (M' = M) by congruence. subst A' M'. fold EA EM in K.
  destruct (K s o Hin) as (wh & Hwh & _ & [Gh _ Gl GF _]). rewrite HC in Hwh. cbn in Hwh. injection Hwh as <-.
  destruct GF as (F & Finv & WF & WFi & FF & FF' & EF & _ & _ & _ & _ & HD). cbn [has_distance] in HD.
  set (N := mmul (hh s) (hl s)) in *. pose proof CA as (WEA & DEA & _). pose proof CM as (WEM & DEM & _). fold EA in WEA, DEA. fold EM in WEM, DEM.
  assert (Wh : wf 3 3 (hh s)) by apply Gh. assert (Wl : wf 3 3 (hl s)) by apply Gl.
  assert (WN : wf 3 3 N) by (apply (wf_mmul 3 3 3); auto; lia).
  assert (DN : det N <> 0%Z).
  { unfold N. rewrite (det_mmul_Z 3) by (auto; now right). destruct Gl as [_ ->]. pose proof (det_pos _ Gh). lia. }
  assert (CD : cauchy_distance 3 EA EM N (hd_ s)).
  { exists Finv. split; [exact WFi|]. split; [|exact HD]. rewrite <- EF, <- (mmul_assoc 3 3 3 3), FF', (mmul_eye_l 3 3); try lia; auto; try (apply (wf_mmul 3 3 3); [exact WEA|now apply wf_RZ|lia]). }
  destruct (GL N (hd_ s) WN DN CD) as [([d t] & Ht & SU)|[L B]]; [left|right].
  - exists d, t. split; [exact Ht|]. split; [exact SU|]. cbn [snd] in SU.
    destruct (GEN d t Ht) as ([[Wt _] (F2 & Fi2 & WF2 & WFi2 & X1 & X2 & X3 & _ & _ & _ & _ & X4) _] & _). fold EA EM in X3.
    assert (CD2 : cauchy_distance 3 EA EM (o_l t) d).
    { exists Fi2. split; [exact WFi2|]. split; [|exact X4]. rewrite <- X3, <- (mmul_assoc 3 3 3 3), X2, (mmul_eye_l 3 3); try lia; auto; try (apply (wf_mmul 3 3 3); [exact WEA|now apply wf_RZ|lia]). }
    assert (BA3 : base 3 EA) by (split; [now right|now split]). assert (BM3 : base 3 EM) by (split; [now right|now split]).
    pose proof (run_setup q idA idM pA pM sA sM ceA ceM cA cM) as RS. rewrite N3, Q3 in RS.
    destruct (RS TA AA TM AM A M HA HM RA RM) as (G1 & G2 & E1 & E2 & HP & _).
    assert (G1 = GA) by congruence. assert (G2 = GM) by congruence. subst G1 G2.
    pose proof (fun l d => cauchy_distance_lat q A M l d) as CL. rewrite N3 in CL. rewrite (CL N (hd_ s)) by assumption. rewrite (CL (o_l t) d) by assumption.
    symmetry. apply (lat_dist_inv 3 EA EM GA GM HP); [now apply (length_flatten 3 3)|now apply (length_flatten 3 3)|].
    unfold equivalent. rewrite !reshape_flatten by assumption. exact SU.
  - split; [exact L|]. intros d t Ht. exact (B (d, t) Ht).
Qed.
Print Assumptions C123_covers.

(** In particular its first solution is at least as close as every solution of lat_cor_hnf. *)
Theorem C123_first : forall D eig hq k hfuel w q idA pA idM pM sA ceA cA sM ceM cM A M alpha sols hsols,
  bravais_type 3 idA = Some (sA, ceA) -> admissible sA pA cA -> bravais_type 3 idM = Some (sM, ceM) -> admissible sM pM cM ->
  new_bravais idA pA 3 = Ok A -> new_bravais idM pM 3 = Ok M ->
  let EA := b_base A in let EM := b_base M in resolved 3 EA -> resolved 3 EM ->
  d_dim q = 3%Z -> (1 <= d_nsol q)%nat -> (1 <= d_slice_sz q)%nat -> d_vol_th q <= 1 ->
  Forall (wf 3 3) (w_shifts w) -> eig_correct 3 (w_eig w) -> (forall l e, In e (w_order w l) <-> In e l) ->
  quart_min w (3 * 3) (quartic_D 3 EA (minv EM)) = Ok (Some alpha) -> quartic_bound 3 EA EM alpha ->
  lat_cor_direct w q 1 idA pA idM pM = Ok sols ->
  q_dim hq = 3%Z -> q_dist hq = Cauchy -> eig_correct 3 eig -> lat_cor D eig hq k hfuel idA pA idM pM = Ok hsols ->
  exists d t rest, sols = (d, t) :: rest /\ forall s o, In (s, o) hsols -> d <= hd_ s.
Proof.
  intros D eig hq k hfuel w q idA pA idM pM sA ceA cA sM ceM cM A M alpha sols hsols TA AA TM AM HA HM EA EM RA RM Q3 Hn Hz Hv Hw He Ho Ea Hq H H3 HC He' H'.
  destruct (C123_covers D eig hq k hfuel w q idA pA idM pM sA ceA cA sM ceM cM A M alpha sols hsols) as (GA & GM & _ & _ & K); try assumption.
  pose proof (C83_solutions_genuine_partial w q 1 idA pA idM pM sols sA ceA cA sM ceM cM A M) as G. cbv zeta in G.
  assert (N3 : Z.to_nat (d_dim q) = 3%nat) by (rewrite Q3; reflexivity). rewrite N3, Q3 in G.
  destruct (G TA AA TM AM HA HM RA RM Hn Hz Hv Hw He Ho H) as (BA & BM & GA' & GM' & _ & _ & _ & _ & LE & SO & _). clear G.
  destruct sols as [|[d t] rest]; [cbn in LE; lia|]. exists d, t, rest. split; [reflexivity|]. intros s o Hin.
  destruct (K s o Hin) as [(d' & t' & Ht & _ & <-)|[_ B]]; [|left; apply (B d t); now left].
  apply In_nth_error in Ht. destruct Ht as ([|i] & Hi); [injection Hi as <- <-; lra|]. exact (SO 0%nat (S i) (d, t) (d', t') ltac:(lia) eq_refl Hi).
Qed.
Print Assumptions C123_first.

(** If the product lattice is a sublattice of the parent up to an isometry, a list that lat_cor returns within the first
    turn of its search loop starts with distance zero.  (lat_cor_hnf can miss such a match: C106_refuted.) *)
Theorem C123_perfect : forall w q idA pA idM pM sA ceA cA sM ceM cM A M alpha sols l Q,
  bravais_type (d_dim q) idA = Some (sA, ceA) -> admissible sA pA cA -> bravais_type (d_dim q) idM = Some (sM, ceM) -> admissible sM pM cM ->
  new_bravais idA pA (d_dim q) = Ok A -> new_bravais idM pM (d_dim q) = Ok M ->
  let n := Z.to_nat (d_dim q) in let EA := b_base A in let EM := b_base M in
  resolved n EA -> resolved n EM -> (1 <= d_nsol q)%nat -> (1 <= d_slice_sz q)%nat -> d_vol_th q <= 1 ->
  Forall (wf n n) (w_shifts w) -> eig_correct n (w_eig w) -> (forall l e, In e (w_order w l) <-> In e l) ->
  quart_min w (n * n) (quartic_D n EA (minv EM)) = Ok (Some alpha) -> quartic_bound n EA EM alpha ->
  lat_cor_direct w q 1 idA pA idM pM = Ok sols ->
  wf n n l -> det l <> 0%Z -> orthogonal n Q -> EM = mmul Q (mmul EA (RZ l)) ->
  exists t rest, sols = (0, t) :: rest.
Proof.
  intros w q idA pA idM pM sA ceA cA sM ceM cM A M alpha sols l Q TA AA TM AM HA HM n EA EM RA RM Hn Hz Hv Hw He Ho Ea Hq H Wl Dl OQ EQ.
  destruct (C84_global_partial w q idA pA idM pM sA ceA cA sM ceM cM A M alpha sols TA AA TM AM HA HM RA RM Hn Hz Hv Hw He Ho Ea Hq H) as (GA & GM & EGA & EGM & GL).
  destruct (C83_solutions_genuine_partial w q 1 idA pA idM pM sols sA ceA cA sM ceM cM A M TA AA TM AM HA HM RA RM Hn Hz Hv Hw He Ho H)
    as (BA & BM & GA' & GM' & CA & CM & EGA' & EGM' & LE & SO & _ & GEN & _).
  assert (GA' = GA) by congruence. assert (GM' = GM) by congruence. subst GA' GM'. fold n EA EM in CA, CM, GEN, GL, EGA, EGM.
  pose proof CA as (WEA & DEA & _). pose proof CM as (WEM & DEM & _).
  destruct (run_setup q idA idM pA pM sA sM ceA ceM cA cM TA AA TM AM A M HA HM RA RM) as (G1 & G2 & E1 & E2 & HP & _).
  fold n EA EM in E1, E2, HP. assert (G1 = GA) by congruence. assert (G2 = GM) by congruence. subst G1 G2.
  pose proof (proj1 HP) as Hd. pose proof (dim23_pos n Hd) as P0.
  assert (WX : wf n n (mmul EA (RZ l))) by (apply (wf_mmul n n n); auto; now apply wf_RZ).
  pose proof (orth_tr n Q Hd OQ) as [WT TQ]. pose proof (orth_wf n Q OQ) as WQ.
  assert (CD : cauchy_distance n EA EM l 0).
  { exists (tr Q). split; [exact WT|]. split.
    - rewrite EQ, <- (mmul_assoc n n n n) by auto. rewrite (orth_l n Q Hd OQ). now rewrite (mmul_eye_l n n).
    - rewrite TQ. unfold fro2. symmetry. change 0 with (@zero R _). apply sumn_zero. intros i Hi. apply sumn_zero. intros j Hj. rewrite (get_msub n n) by (auto; apply wf_eye). cbn. ring. }
  assert (NN : forall d t, In (d, t) sols -> 0 <= d).
  { intros d t Ht. destruct (GEN d t Ht) as ([_ (F & Fi & _ & _ & _ & _ & _ & _ & _ & _ & _ & ->) _] & _). apply fro2_nonneg. }
  assert (Z0 : exists t, In (0, t) sols).
  { destruct (GL l 0 Wl Dl CD) as [([d t] & Ht & SU)|[_ B]].
    - exists t. replace 0 with d; [exact Ht|]. cbn [snd] in SU.
      destruct (GEN d t Ht) as ([[Wt _] (F2 & Fi2 & WF2 & WFi2 & X1 & X2 & X3 & _ & _ & _ & _ & X4) _] & _).
      assert (CD2 : cauchy_distance n EA EM (o_l t) d).
      { exists Fi2. split; [exact WFi2|]. split; [|exact X4]. rewrite <- X3, <- (mmul_assoc n n n n), X2, (mmul_eye_l n n); auto; apply (wf_mmul n n n); auto; now apply wf_RZ. }
      assert (BA3 : base n EA) by (split; [exact Hd|now split]). assert (BM3 : base n EM) by (split; [exact Hd|now split]).
      rewrite (cauchy_distance_lat q A M l 0 BA3 BM3 Wl CD). rewrite (cauchy_distance_lat q A M (o_l t) d BA3 BM3 Wt CD2). symmetry.
      apply (lat_dist_inv n EA EM GA GM HP); [now apply (length_flatten n n)|now apply (length_flatten n n)|].
      unfold equivalent. rewrite !reshape_flatten by assumption. exact SU.
    - destruct sols as [|[d t] r]; [cbn in LE; lia|]. pose proof (B (d, t) (or_introl eq_refl)) as L0. pose proof (NN d t (or_introl eq_refl)). cbn in L0. lra. }
  destruct Z0 as (t0 & Ht0). destruct sols as [|[d t] rest]; [destruct Ht0|]. exists t, rest. f_equal. f_equal.
  apply Rle_antisym; [|apply (NN d t); now left]. apply In_nth_error in Ht0. destruct Ht0 as ([|i] & Hi); [injection Hi as -> _; lra|].
  exact (SO 0%nat (S i) (d, t) (0, t0) ltac:(lia) eq_refl Hi).
Qed.
Print Assumptions C123_perfect.

(** The cubic lattice with edge 1 and itself meets every hypothesis: both searches answer, and the direct one starts with
    distance zero. *)
Example C123_case : forall eig, eig_correct 3 eig -> exists A w alpha sols k f hsols,
  bravais_type 3 1 = Some (Cubic, P) /\ new_bravais 1 [1] 3 = Ok A /\ resolved 3 (b_base A) /\
  Forall (wf 3 3) (w_shifts w) /\ eig_correct 3 (w_eig w) /\ (forall l e, In e (w_order w l) <-> In e l) /\
  quart_min w (3 * 3) (quartic_D 3 (b_base A) (minv (b_base A))) = Ok (Some alpha) /\ quartic_bound 3 (b_base A) (b_base A) alpha /\
  lat_cor_direct w request3 1 1 [1] 1 [1] = Ok sols /\
  lat_cor py3 eig {| q_nsol := 1; q_vol_th := 1/10; q_dim := 3; q_dist := Cauchy; q_maxiter := None; q_miniter := None |} k f 1 [1] 1 [1] = Ok hsols /\
  hsols <> [] /\ exists o, sols = [(0, o)].
Proof.
  intros eig He. destruct case_admissible as (T1 & A1 & _). destruct case_bases as ((A & HA & EA) & _). destruct (run3 eig He) as (o & RUN).
  set (q := {| q_nsol := 1; q_vol_th := 1/10; q_dim := 3; q_dist := Cauchy; q_maxiter := None; q_miniter := None |}).
  destruct (C79_locally_best_partial py3 eig q dCauchy 1 [1%R] 1 [1%R] _ _ _ _ _ _ A A (or_introl eq_refl) T1 A1 T1 A1) as (k0 & f0 & best & rest & H & _); auto.
  - cbn. lra.
  - rewrite EA, !det_Etet. lra.
  - rewrite EA. apply resolved_tet. now left.
  - rewrite EA. apply resolved_tet. now left.
  - intros L E. discriminate.
  - intros h Hh Hs. rewrite EA, !det_Etet in Hs. assert (D : det h = 1%Z).
    { destruct Hs as [[H1 H2]|[H1 _]].
      - cbn [q_vol_th q] in H1, H2. assert (0 < det h)%Z by (apply lt_IZR; lra). assert (det h < 2)%Z by (apply lt_IZR; lra). lia.
      - exfalso. apply H1. exists 1%Z. unfold within_threshold. cbn [q_vol_th q]. split; lra. }
    rewrite EA, (hnf_one h Hh D), RZ_eye, (mmul_eye_r 3 3) by (try apply PropLattice.wfM3; lia).
    split; [apply resolved_tet; now left|]. exists (eye 3). exact LLL_eye.
  - exists A, (world3 eig), (1/3), [(0, o)], k0, f0, (best :: rest). rewrite EA, Etet_eye.
    split; [exact T1|]. split; [exact HA|]. split; [rewrite <- Etet_eye; apply resolved_tet; now left|].
    split; [exact draws3_wf|]. split; [exact He|]. split; [intros l e; reflexivity|]. split; [apply quart_eye|]. split; [exact bound_eye|].
    split; [exact RUN|]. split; [apply H; lia|]. split; [discriminate|]. now exists o.
Qed.
