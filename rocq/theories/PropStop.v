(** Property C103: when it no longer pays to raise maxiter.  Model: TreeModel.v, LatCorModel.v.  In the statements [k] and [fuel] bound
    the numbers of turns of the while loops; a run that returns Ok has ended. *)
From Verif Require Import LinAlg Spectral GroupProofs LatticeModel LatticeSpec LatticeProofs LatticeLaue BravaisSpec LLLModel TreeSpec TreeLatOpt DirectProofs LatCorModel LatCorSpec LatCorProofs LatCorDist LatCorTotal
  LatCorCase DepthProofs StopProofs PropOutput PropLattice PropLLL.
Local Open Scope R_scope.

Lemma one_in_group E L : base 3 E -> special_lattice_group E = Ok L -> In (eye 3) L.
Proof.
  intros B H. destruct (laue_result 3 E B) as (G & EG & ND & I & _). unfold special_lattice_group in H. rewrite EG in H. cbn [bind] in H.
  rewrite (to_integer_rep_ok 3 E B) in H. injection H as <-. rewrite <- (irep_eye 3 E B). now apply in_map.
Qed.
Lemma one_in_new E L G : base 3 E -> new_lattice E = Ok L -> special_lattice_group L = Ok G -> In (eye 3) G.
Proof. intros B H HG. rewrite (new_lattice_ok 3 E B E (proj1 (proj2 B)) (proj2 (proj2 B))) in H. injection H as <-. now apply (one_in_group E). Qed.

(** If the maximum depths n and n + 1 give the same solutions, so does every larger one, for every n that is not below miniter. *)
Theorem C103_no_change_is_final : forall eigvals nsol name mi G2 k fuel E1 E2 sols n,
  let lat_opt_with maxiter := lat_opt eigvals {| o_nsol := nsol; o_dist := name; o_maxiter := Some maxiter; o_miniter := mi; o_SOLG2 := G2 |} k fuel E1 E2 in
  base 3 E1 -> base 3 E2 -> (forall G, G2 = Some G -> In (eye 3) G) -> (1 <= nsol)%nat -> (match mi with Some j => j | None => 3 end <= n)%nat ->
  lat_opt_with n = Ok sols -> lat_opt_with (S n) = Ok sols -> forall m, (n <= m)%nat -> lat_opt_with m = Ok sols.
Proof.
  intros eigvals nsol name mi G2 k fuel E1 E2 sols n lat_opt_with B1 B2 HG Hs Hn H0 H1 m Hm. unfold lat_opt_with, lat_opt in *.
  cbn [o_nsol o_dist o_maxiter o_miniter o_SOLG2] in *. pose proof (proj1 (proj2 B1)) as W1.
  destruct (start_point E1) as [lo| |] eqn:HS; cbn [bind] in *; try discriminate. destruct (start_ok E1 lo W1 HS) as [_ [Wlo _]].
  destruct (distance_fn eigvals name E1 E2) as [[f|]| |]; cbn [bind] in *; try discriminate;
  (destruct (new_lattice E1) as [L1| |] eqn:N1; cbn [bind] in *; try discriminate); (destruct (special_lattice_group L1) as [LG1| |] eqn:S1; cbn [bind] in *; try discriminate).
  - pose proof (one_in_new E1 L1 LG1 B1 N1 S1) as I1.
    destruct (match G2 with Some g => Ok g | None => let* L2 := new_lattice E2 in special_lattice_group L2 end) as [LG2| |] eqn:E; cbn [bind] in *; try discriminate.
    assert (I2 : In (eye 3) LG2).
    { destruct G2 as [g|]; [injection E as <-; auto|]. apply bindOk in E. destruct E as (L2 & N2 & S2). exact (one_in_new E2 L2 LG2 B2 N2 S2). }
    destruct W1 as [EL _]. rewrite EL in *. exact (lat_opt_stops f LG1 LG2 nsol _ lo Wlo I1 I2 Hs n k fuel sols Hn H0 H1 m Hm).
  - destruct (match G2 with Some g => Ok g | None => let* L2 := new_lattice E2 in special_lattice_group L2 end); discriminate.
Qed.
Print Assumptions C103_no_change_is_final.

(** And this always happens: from some depth on the solutions stay the same. *)
Theorem C103_settles : forall eig nsol name mi G2 E1 E2 B, base 3 E1 -> base 3 E2 -> eig_correct 3 eig -> name <> OtherName ->
  (forall G, G2 = Some G -> In (eye 3) G) -> (1 <= nsol)%nat -> LLL E1 = Ok (Plain B) ->
  exists n0 k0 f0 sols, forall n k f, (n0 <= n)%nat -> (k0 <= k)%nat -> (f0 <= f)%nat ->
    lat_opt (fun C => fst (eig C)) {| o_nsol := nsol; o_dist := name; o_maxiter := Some n; o_miniter := mi; o_SOLG2 := G2 |} k f E1 E2 = Ok sols.
Proof.
  intros eig nsol name mi G2 E1 E2 B B1 B2 He Od HG Hs LL. pose proof B1 as (_ & W1 & D1).
  destruct (C15_special_partial 3 E1 B1) as (_ & LG1 & _ & HL & _). destruct (C58_start 3 E1 B B1 LL) as (lo & HS & Wlo & _).
  destruct (distance_exists eig name E1 E2 W1 B2 He Od) as (w & df & _ & Hdf & HC).
  pose proof (one_in_group E1 LG1 B1 HL) as I1. pose proof (new_lattice_ok 3 E1 B1 E1 W1 D1) as N1.
  assert (HL2 : exists LG2, match G2 with Some g => Ok g | None => let* L2 := new_lattice E2 in special_lattice_group L2 end = Ok LG2 /\ In (eye 3) LG2).
  { destruct G2 as [g|]; [exists g; auto|]. destruct (C15_special_partial 3 E2 B2) as (_ & L & _ & HL2 & _). exists L.
    rewrite (new_lattice_ok 3 E2 B2 E2 (proj1 (proj2 B2)) (proj2 (proj2 B2))). cbn [bind]. split; [exact HL2|now apply (one_in_group E2)]. }
  destruct HL2 as (LG2 & E & I2).
  destruct (lat_opt_settles df LG1 LG2 nsol (match mi with Some j => j | None => 3%nat end) lo Wlo I1 I2 Hs (computes_finite w E1 E2 df B1 B2 HC)) as (n0 & k0 & f0 & sols & _ & Run).
  exists n0, k0, f0, sols. intros n k f Hn Hk Hf. unfold lat_opt. cbn [o_nsol o_dist o_maxiter o_miniter o_SOLG2]. rewrite HS. cbn [bind]. rewrite Hdf. cbn [bind].
  rewrite N1. cbn [bind]. rewrite HL. cbn [bind]. rewrite E. cbn [bind]. destruct W1 as [-> _]. now apply Run.
Qed.
Print Assumptions C103_settles.

(** The cubic lattice against the tetragonal one: the hypotheses of both theorems are met. *)
Example C103_case : forall eig, eig_correct 3 eig -> exists n k f sols, let run maxiter :=
    lat_opt (fun C => fst (eig C)) {| o_nsol := 2; o_dist := Cauchy; o_maxiter := Some maxiter; o_miniter := Some 2%nat; o_SOLG2 := None |} k f (Etet 1) (Etet (21/20)) in
  base 3 (Etet 1) /\ base 3 (Etet (21/20)) /\ (2 <= n)%nat /\ run n = Ok sols /\ run (S n) = Ok sols.
Proof.
  intros eig He. assert (B1 : base 3 (Etet 1)) by (apply base3; lra). assert (BM : base 3 (Etet (21/20))) by (apply base3; lra).
  destruct (C103_settles eig 2 Cauchy (Some 2%nat) None (Etet 1) (Etet (21/20)) (eye 3) B1 BM He ltac:(discriminate) ltac:(discriminate) ltac:(lia) LLL_eye) as (n0 & k & f & sols & Run).
  exists (2 + n0)%nat, k, f, sols. cbv zeta. split; [exact B1|]. split; [exact BM|]. split; [lia|]. split; apply Run; lia.
Qed.
