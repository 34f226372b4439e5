(** Properties C83, C84 and C85: the whole of lat_cor (structrans.lat_cor is lat_cor_direct, in two or three dimensions).
    Specification: DirectCorSpec.v (lattice_of_cell, genuine_direct, same_up_to, cauchy_distance), BravaisSpec.v (bravais_type,
    admissible), DirectConcSpec.v (quartic_bound); model: DirectCorModel.v. *)
From Coq Require Import Lra Lia.
From Verif Require Import LinAlg Eig Spectral GroupModel GroupProofs LatticeModel LatticeSpec LatticeProofs LatticeLaue BravaisModel BravaisSpec
  DistModel DistSpec DirectSpec DirectConcrete DirectConcSpec DirectExample DirectGlobal OutputModel PropOutput PropBravais PropLattice PropLatCor
  DirectCorModel DirectCorSpec DirectCorProofs DirectCorCase DirectCorMiss.
Local Open Scope R_scope.

(** Whatever the random numbers, scipy, the order of Python's sets and the number of turns of the search loop: if the call
    returns a list, then it has at least nsol entries, in ascending order of distance, where the entries after the nsol-th
    are as close as the nsol-th; every entry is a deformation of a sublattice of the parent onto the product lattice with
    the correspondence of conventional cells, stretch, eigenvalues and Cauchy distance that belong to it, orientation
    preserving in three dimensions; and no two entries are the same up to the symmetries of the two lattices.
    Missing: lattices whose symmetries the tolerances do not resolve, where it is false (C83_refuted), thresholds vol_th > 1. *)
Theorem C83_solutions_genuine_partial : forall w q fuel idA pA idM pM sols sA ceA cA sM ceM cM A M,
  bravais_type (d_dim q) idA = Some (sA, ceA) -> admissible sA pA cA -> bravais_type (d_dim q) idM = Some (sM, ceM) -> admissible sM pM cM ->
  new_bravais idA pA (d_dim q) = Ok A -> new_bravais idM pM (d_dim q) = Ok M ->
  let n := Z.to_nat (d_dim q) in let EA := b_base A in let EM := b_base M in
  resolved n EA -> resolved n EM ->
  (1 <= d_nsol q)%nat -> (1 <= d_slice_sz q)%nat -> d_vol_th q <= 1 ->
  Forall (wf n n) (w_shifts w) -> eig_correct n (w_eig w) -> (forall l e, In e (w_order w l) <-> In e l) ->
  lat_cor_direct w q fuel idA pA idM pM = Ok sols ->
  exists BA BM GA GM, lattice_of_cell n ceA cA EA BA /\ lattice_of_cell n ceM cM EM BM /\
    lattice_group EA = Ok GA /\ lattice_group EM = Ok GM /\
    (d_nsol q <= length sols)%nat /\
    (forall i j s t, (i < j)%nat -> nth_error sols i = Some s -> nth_error sols j = Some t -> fst s <= fst t) /\
    (forall i s t, (d_nsol q <= S i)%nat -> nth_error sols i = Some s -> nth_error sols (d_nsol q - 1) = Some t -> fst s = fst t) /\
    (forall d o, In (d, o) sols -> genuine_direct n EA EM BA BM d (o_l o) (o_cor o) (o_u o) (o_lams o) /\ (n = 3%nat -> (0 < det (o_l o))%Z)) /\
    (forall i j s t, i <> j -> nth_error sols i = Some s -> nth_error sols j = Some t -> ~ same_up_to GA GM (o_l (snd s)) (o_l (snd t))).
Proof.
  intros w q fuel idA pA idM pM sols sA ceA cA sM ceM cM A M TA AA TM AM HA HM n EA EM RA RM Hs Hz Hv Hw He Ho H.
  destruct (run_history w q idA idM pA pM sA sM ceA ceM cA cM TA AA TM AM A M HA HM RA RM Hs Hz Hv Hw fuel sols H)
    as (alpha & GA & GM & st0 & st & seen0 & seen & EGA & EGM & Ea & HH0 & L0 & ES & HH & L & Em).
  destruct (final_list w q idA idM pA pM sA sM ceA ceM cA cM TA AA TM AM A M HA HM RA RM Hs Hz He Ho GA GM seen st sols EGA EGM HH L Em)
    as (F1 & F2 & F3 & F4 & F5 & _).
  destruct (bravais_cell_n _ _ _ _ _ _ _ TA AA HA) as (_ & LA & _). destruct (bravais_cell_n _ _ _ _ _ _ _ TM AM HM) as (_ & LM & _).
  exists (conventional_base A), (conventional_base M), GA, GM.
  repeat match goal with |- _ /\ _ => split end; auto.
  intros d o Hin. exact (F4 (d, o) Hin).
Qed.
Print Assumptions C83_solutions_genuine_partial.

(** When the minimiser finds a lower bound of the quartic form (C81), a call with enough random matrices ends: with a list
    or with StopIteration.  Missing: that it is never StopIteration, which is false (C84_refuted). *)
Theorem C84_outcome_partial : forall w q idA pA idM pM sA ceA cA sM ceM cM A M alpha,
  bravais_type (d_dim q) idA = Some (sA, ceA) -> admissible sA pA cA -> bravais_type (d_dim q) idM = Some (sM, ceM) -> admissible sM pM cM ->
  new_bravais idA pA (d_dim q) = Ok A -> new_bravais idM pM (d_dim q) = Ok M ->
  let n := Z.to_nat (d_dim q) in let EA := b_base A in let EM := b_base M in
  resolved n EA -> resolved n EM ->
  (1 <= d_nsol q)%nat -> (1 <= d_slice_sz q)%nat -> d_vol_th q <= 1 ->
  Forall (wf n n) (w_shifts w) -> eig_correct n (w_eig w) -> (forall l e, In e (w_order w l) <-> In e l) ->
  quart_min w (n * n) (quartic_D n EA (minv EM)) = Ok (Some alpha) -> quartic_bound n EA EM alpha ->
  (* the random matrices are used up before the initial list is full *)
  (forall fuel, lat_cor_direct w q fuel idA pA idM pM = NoFuel) \/
  exists fuel0, forall fuel, (fuel0 <= fuel)%nat ->
    lat_cor_direct w q fuel idA pA idM pM = Raise StopIteration \/ exists sols, lat_cor_direct w q fuel idA pA idM pM = Ok sols.
Proof.
  intros w q idA pA idM pM sA ceA cA sM ceM cM A M alpha TA AA TM AM HA HM n EA EM RA RM Hs Hz Hv Hw He Ho Ea Hq.
  exact (run_outcome w q idA idM pA pM sA sM ceA ceM cA cM TA AA TM AM A M HA HM RA RM Hs Hz Hv Hw He Ho alpha Ea Hq).
Qed.
Print Assumptions C84_outcome_partial.

(** The list of a run that ends in the first turn of the search loop is globally best: any integer matrix, of any size, is
    the same up to symmetry as a listed one, or is worse than all of the at least nsol listed ones.
    Missing: runs that shrink the ball and resume, for which it is false (C84_best_missed_refuted). *)
Theorem C84_global_partial : forall w q idA pA idM pM sA ceA cA sM ceM cM A M alpha sols,
  bravais_type (d_dim q) idA = Some (sA, ceA) -> admissible sA pA cA -> bravais_type (d_dim q) idM = Some (sM, ceM) -> admissible sM pM cM ->
  new_bravais idA pA (d_dim q) = Ok A -> new_bravais idM pM (d_dim q) = Ok M ->
  let n := Z.to_nat (d_dim q) in let EA := b_base A in let EM := b_base M in
  resolved n EA -> resolved n EM ->
  (1 <= d_nsol q)%nat -> (1 <= d_slice_sz q)%nat -> d_vol_th q <= 1 ->
  Forall (wf n n) (w_shifts w) -> eig_correct n (w_eig w) -> (forall l e, In e (w_order w l) <-> In e l) ->
  quart_min w (n * n) (quartic_D n EA (minv EM)) = Ok (Some alpha) -> quartic_bound n EA EM alpha ->
  lat_cor_direct w q 1 idA pA idM pM = Ok sols ->
  exists GA GM, lattice_group EA = Ok GA /\ lattice_group EM = Ok GM /\
  forall l d, wf n n l -> det l <> 0%Z -> cauchy_distance n EA EM l d ->
    (exists s, In s sols /\ same_up_to GA GM l (o_l (snd s))) \/
    ((d_nsol q <= length sols)%nat /\ forall s, In s sols -> fst s < d).
Proof.
  intros w q idA pA idM pM sA ceA cA sM ceM cM A M alpha sols TA AA TM AM HA HM n EA EM RA RM Hs Hz Hv Hw He Ho Ea Hq H.
  exact (run_global w q idA idM pA pM sA sM ceA ceM cA cM TA AA TM AM A M HA HM RA RM Hs Hz Hv Hw He Ho alpha sols Ea Hq H).
Qed.
Print Assumptions C84_global_partial.

(** The square lattice with edge 1 and itself: with some random matrices the call raises StopIteration, however long it is
    given, with others it returns the perfect match. *)
Theorem C84_refuted : exists shifts, forall eig, eig_correct 2 eig ->
  (forall fuel, lat_cor_direct (sq_world eig shifts) (sq_request Cauchy) (S fuel) 1 [1] 1 [1] = Raise StopIteration) /\
  exists shifts' o, lat_cor_direct (sq_world eig shifts') (sq_request Cauchy) 1 1 [1] 1 [1] = Ok [(0, o)].
Proof.
  exists draws. intros eig He. split; [intros fuel; apply sq1_stops|]. exists draws2. apply sq1_ok. exact He.
Qed.
Print Assumptions C84_refuted.

(** The best match can be missed.  Parent: rectangular with edges 7 and 4; product: centred rectangular with edges 14 and
    16, which is a sublattice of the parent, so that an undeformed match exists.  With the default options (except dim=2),
    exact eigenvalues, the exact minimum of the quartic form and the random matrices of [miss_shifts] the call ends, after
    four turns of the search loop, with one solution whose distance is larger than 1/7. *)
Theorem C84_best_missed_refuted : forall eig, eig_correct 2 eig -> exists w A M alpha d o,
  w_eig w = eig /\ Forall (wf 2 2) (w_shifts w) /\ (forall l, w_order w l = l) /\
  new_bravais 2 [7; 4] 2 = Ok A /\ new_bravais 3 [14; 16] 2 = Ok M /\
  (* the minimiser finds a lower bound of the quartic form *)
  quart_min w (2 * 2) (quartic_D 2 (b_base A) (minv (b_base M))) = Ok (Some alpha) /\ quartic_bound 2 (b_base A) (b_base M) alpha /\
  (forall fuel, (4 <= fuel)%nat -> lat_cor_direct w {| d_nsol := 1; d_vol_th := 1/10; d_dim := 2; d_slice_sz := 100; d_dist := Cauchy |}
                                    fuel 2 [7; 4] 3 [14; 16] = Ok [(d, o)]) /\
  1/7 < d /\
  (* the perfect match *)
  (det [[1; -1]; [2; 2]] = 4)%Z /\ b_base M = mmul (b_base A) (RZ [[1; -1]; [2; 2]]%Z) /\
  cauchy_distance 2 (b_base A) (b_base M) [[1; -1]; [2; 2]]%Z 0.
Proof.
  intros eig He. destruct bravais_r as (L1 & N1 & E1). destruct bravais_c as (L2 & N2 & E2). destruct (miss_run eig He) as (o & H).
  exists (miss_world eig), L1, L2, (1/68), (fmd 23389200), o. rewrite E1, E2.
  assert (PM : Ec = mmul Er (RZ [[1; -1]; [2; 2]]%Z)) by (unfold Er, Ec, RZ, mmap; mat_eq ltac:(lra)).
  repeat match goal with |- _ /\ _ => split end; auto.
  - exact miss_shifts_wf.
  - apply quart_rc.
  - apply bound_rc.
  - intros fuel Hf. replace fuel with (4 + (fuel - 4))%nat by lia. apply H.
  - unfold fmd. lra.
  - exists (eye 2). split; [apply wf_eye|]. split; [|unfold fro2; cbn; lra]. rewrite PM at 1. apply (mmul_eye_l 2 2); [|lia].
    rewrite <- PM. apply wfM2.
Qed.
Print Assumptions C84_best_missed_refuted.

(** The keyword dist does not choose the distance: between the square lattices with edges 1 and 11/10, with dist='Ericksen',
    the reported distance is not the Ericksen distance of the reported correspondence. *)
Definition ericksen_distance (E1 E2 : mat R) (d : R) : Prop :=
  d * fro2 2 2 (mmul (tr E2) E2) = fro2 2 2 (msub (mmul (tr E1) E1) (mmul (tr E2) E2)).
Theorem C85_refuted : forall eig, eig_correct 2 eig -> exists w d o A M,
  w_eig w = eig /\ new_bravais 1 [1] 2 = Ok A /\ new_bravais 1 [11/10] 2 = Ok M /\
  lat_cor_direct w (sq_request Ericksen) 1 1 [1] 1 [11/10] = Ok [(d, o)] /\
  ~ ericksen_distance (mmul (b_base A) (RZ (o_l o))) (b_base M) d.
Proof.
  intros eig He. destruct (s_ok eig Ericksen He) as (o & H). assert (P1 : 0 < 11/10) by lra.
  destruct (bravais_sq 1 Rlt_0_1) as (T1 & A1 & L1 & N1 & E1). destruct (bravais_sq _ P1) as (T2 & A2 & L2 & N2 & E2).
  exists (sq_world eig draws2), (882/14641), o, L1, L2. split; [reflexivity|]. split; [exact N1|]. split; [exact N2|]. split; [exact H|].
  pose proof (resolved_sq 1 Rlt_0_1) as R1. pose proof (resolved_sq _ P1) as R2. rewrite <- E1 in R1. rewrite <- E2 in R2.
  destruct (C83_solutions_genuine_partial (sq_world eig draws2) (sq_request Ericksen) 1 1 [1] 1 [11/10] _ _ _ _ _ _ _ L1 L2 T1 A1 T2 A2 N1 N2
    R1 R2 (le_n _) ltac:(cbn; lia) ltac:(cbn; lra) draws2_wf He ltac:(cbn; tauto) H) as (BA & BM & GA & GM & _ & _ & _ & _ & _ & _ & _ & G & _).
  - destruct (G _ _ (or_introl eq_refl)) as (Gd & _). destruct Gd as [[Wl _] (Fd & Fi & WF & WI & _ & K2 & K3 & _ & _ & _ & _ & K4) _].
    change (Z.to_nat (d_dim (sq_request Ericksen))) with 2%nat in *. rewrite E1, E2 in *.
    assert (K5 : mmul (Esq 1) (RZ (o_l o)) = mmul Fi (Esq (11/10))).
    { rewrite <- K3. assert (W : wf 2 2 (mmul (Esq 1) (RZ (o_l o)))) by (apply (wfmul 2); [lia|apply wfM2|now apply wf_RZ]).
      now rewrite <- (assocR 2), K2, (mmul_eye_l 2 2) by (auto; lia). }
    unfold ericksen_distance. rewrite K5. clear -K4 WI. destruct (wf2_inv Fi WI) as (p & q & r & s & ->).
    revert K4. unfold fro2, Esq, M2. cbn. intros K4 K. ring_simplify in K4. ring_simplify in K. lra.
Qed.
Print Assumptions C85_refuted.

(** What the keyword does choose: nothing.  Whatever it says, each reported distance is the Cauchy distance of the reported
    correspondence. *)
Theorem C85_cauchy_partial : forall w q fuel idA pA idM pM sols sA ceA cA sM ceM cM A M,
  bravais_type (d_dim q) idA = Some (sA, ceA) -> admissible sA pA cA -> bravais_type (d_dim q) idM = Some (sM, ceM) -> admissible sM pM cM ->
  new_bravais idA pA (d_dim q) = Ok A -> new_bravais idM pM (d_dim q) = Ok M ->
  let n := Z.to_nat (d_dim q) in
  resolved n (b_base A) -> resolved n (b_base M) ->
  (1 <= d_nsol q)%nat -> (1 <= d_slice_sz q)%nat -> d_vol_th q <= 1 ->
  Forall (wf n n) (w_shifts w) -> eig_correct n (w_eig w) -> (forall l e, In e (w_order w l) <-> In e l) ->
  lat_cor_direct w q fuel idA pA idM pM = Ok sols ->
  forall d o, In (d, o) sols -> cauchy_distance n (b_base A) (b_base M) (o_l o) d.
Proof.
  intros w q fuel idA pA idM pM sols sA ceA cA sM ceM cM A M TA AA TM AM HA HM n RA RM Hs Hz Hv Hw He Ho H d o Hin.
  destruct (C83_solutions_genuine_partial w q fuel idA pA idM pM sols sA ceA cA sM ceM cM A M TA AA TM AM HA HM RA RM Hs Hz Hv Hw He Ho H)
    as (BA & BM & GA & GM & _ & _ & _ & _ & _ & _ & _ & G & _).
  destruct (G _ _ Hin) as ([[Wl _] (Fd & Fi & WF & WI & _ & K2 & K3 & _ & _ & _ & _ & K4) _] & _).
  destruct (bravais_cell_n _ _ _ _ _ _ _ TA AA HA) as ((Hd & WA & _) & _). fold n in Hd, WA. pose proof (dim23_pos n Hd) as Hn.
  exists Fi. split; [exact WI|]. split; [|exact K4].
  assert (W : wf n n (mmul (b_base A) (RZ (o_l o)))) by (apply (wfmul n); [lia|exact WA|now apply wf_RZ]).
  rewrite <- K3, <- (assocR n), K2 by auto. now apply (mmul_eye_l n n).
Qed.
Print Assumptions C85_cauchy_partial.

(** The hypotheses of C83, C84 and C85 are met, with a list returned, by the square lattices with edges 1 and 11/10. *)
Example C83_case : forall eig, eig_correct 2 eig -> exists w q A M alpha d o,
  bravais_type (d_dim q) 1 = Some (Square, P) /\ admissible Square [1] (mk_cell 1 1 0 0 0 90) /\ admissible Square [11/10] (mk_cell (11/10) (11/10) 0 0 0 90) /\
  new_bravais 1 [1] (d_dim q) = Ok A /\ new_bravais 1 [11/10] (d_dim q) = Ok M /\ d_dim q = 2%Z /\
  resolved 2 (b_base A) /\ resolved 2 (b_base M) /\ (1 <= d_nsol q)%nat /\ (1 <= d_slice_sz q)%nat /\ d_vol_th q <= 1 /\
  Forall (wf 2 2) (w_shifts w) /\ eig_correct 2 (w_eig w) /\ (forall l e, In e (w_order w l) <-> In e l) /\
  quart_min w (2 * 2) (quartic_D 2 (b_base A) (minv (b_base M))) = Ok (Some alpha) /\ quartic_bound 2 (b_base A) (b_base M) alpha /\
  lat_cor_direct w q 1 1 [1] 1 [11/10] = Ok [(d, o)] /\ 0 < d.
Proof.
  intros eig He. destruct (s_ok eig Cauchy He) as (o & H). assert (P1 : 0 < 11/10) by lra.
  destruct (bravais_sq 1 Rlt_0_1) as (T1 & A1 & L1 & N1 & E1). destruct (bravais_sq _ P1) as (T2 & A2 & L2 & N2 & E2).
  exists (sq_world eig draws2), (sq_request Cauchy), L1, L2, (1 / (2 * (11/10) ^ 4)), (882/14641), o.
  rewrite E1, E2. repeat match goal with |- _ /\ _ => split end; auto; try apply resolved_sq; try lra; try (cbn; lra).
  - cbn. lia.
  - exact draws2_wf.
  - cbn. tauto.
  - now apply quart_sq.
  - now apply bound_sq.
Qed.
