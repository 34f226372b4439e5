(** Properties C78 and C79: the whole of lat_cor of main_hnf.py (exported as lat_cor_hnf).  Specification: LatCorSpec.v (lattice_with_cell, allowed_size, required_size,
    has_distance, genuine, measures), BravaisSpec.v (bravais_type, admissible), TreeSpec.v (SL3, neighbour); model: LatCorModel.v. *)
From Coq Require Import Sorted ClassicalEpsilon.
From Verif Require Import LinAlg Eig Spectral HnfSpec ReduceModel GroupProofs LatticeModel LatticeSpec LatticeLaue BravaisModel BravaisSpec LLLModel
  TreeSpec HnfSearchModel OutputModel PropOutput LatCorModel LatCorSpec LatCorProofs LatCorDist LatCorTotal LatCorCase.

(** Whatever lat_cor returns, for whatever lattices, options and version of Python: the solutions are in ascending
    order of distance, and each is a deformation of a sublattice of allowed size of the parent onto the product
    lattice, with the correspondence of conventional cells, stretch, eigenvalues and distance that belong to it. *)
Theorem C78_solutions_genuine : forall D eig q k fuel idA pA idM pM sols sA ceA cA sM ceM cM,
  bravais_type 3 idA = Some (sA, ceA) -> admissible sA pA cA -> bravais_type 3 idM = Some (sM, ceM) -> admissible sM pM cM ->
  q_dim q = 3%Z -> eig_correct 3 eig ->
  lat_cor D eig q k fuel idA pA idM pM = Ok sols ->
  exists EA BA EM BM, lattice_with_cell ceA cA EA BA /\ lattice_with_cell ceM cM EM BM /\
    StronglySorted (fun x y => hd_ (fst x) <= hd_ (fst y))%R sols /\
    forall s o, In (s, o) sols -> exists which,
      match q_dist q with Cauchy => which = dCauchy | Ericksen => which = dEricksen | Strain => which = dStrain | OtherName => False end /\
      o_l o = hl s /\
      genuine which (q_vol_th q) EA EM BA BM (hd_ s) (hh s) (hl s) (o_cor o) (o_u o) (o_lams o).
Proof.
  intros D eig q k fuel idA pA idM pM sols sA ceA cA sM ceM cM TA AA TM AM Q3 He H.
  destruct (lat_cor_genuine D eig q k fuel idA pA idM pM sols sA ceA cA sM ceM cM TA AA TM AM Q3 He H) as (EA & BA & EM & BM & H1 & H2 & H3 & H4).
  exists EA, BA, EM, BM. split; [exact H1|]. split; [exact H2|]. split; [exact H3|]. intros s o Hin.
  destruct (H4 s o Hin) as (w & Hw & H5). exists w. split; [|exact H5]. destruct (q_dist q); cbn in Hw; congruence.
Qed.
Print Assumptions C78_solutions_genuine.

(** With no options given the distance is the Cauchy distance and the volume threshold 1/10. *)
Theorem C78_defaults : forall D eig k fuel idA pA idM pM sols sA ceA cA sM ceM cM,
  bravais_type 3 idA = Some (sA, ceA) -> admissible sA pA cA -> bravais_type 3 idM = Some (sM, ceM) -> admissible sM pM cM ->
  eig_correct 3 eig -> lat_cor D eig default_request k fuel idA pA idM pM = Ok sols ->
  exists EA BA EM BM, lattice_with_cell ceA cA EA BA /\ lattice_with_cell ceM cM EM BM /\
    forall s o, In (s, o) sols -> genuine dCauchy (1/10) EA EM BA BM (hd_ s) (hh s) (hl s) (o_cor o) (o_u o) (o_lams o).
Proof.
  intros D eig k fuel idA pA idM pM sols sA ceA cA sM ceM cM TA AA TM AM He H.
  destruct (C78_solutions_genuine D eig default_request k fuel idA pA idM pM sols sA ceA cA sM ceM cM TA AA TM AM eq_refl He H) as (EA & BA & EM & BM & H1 & H2 & _ & H4).
  exists EA, BA, EM, BM. split; [exact H1|]. split; [exact H2|]. intros s o Hin. destruct (H4 s o Hin) as (w & -> & _ & K). exact K.
Qed.
Print Assumptions C78_defaults.

(** For each of the three distances the run ends.  Missing: parents whose symmetries the tolerances do not resolve,
    volume ratios of 1/2 or less (C54), and sublattices LLL gives up on, which raise. *)
Theorem C79_search_ends_partial : forall D eig q idA pA idM pM sA ceA cA sM ceM cM A M, D = py3 \/ D = py2 ->
  bravais_type 3 idA = Some (sA, ceA) -> admissible sA pA cA -> bravais_type 3 idM = Some (sM, ceM) -> admissible sM pM cM ->
  q_dim q = 3%Z -> q_dist q <> OtherName -> (q_vol_th q < 1)%R -> eig_correct 3 eig ->
  new_bravais idA pA 3 = Ok A -> new_bravais idM pM 3 = Ok M ->
  let EA := b_base A in let EM := b_base M in let ratio := (det EM / det EA)%R in
  (1/2 < ratio)%R -> resolved 3 EA ->
  (forall h, is_hnf 3 h -> allowed_size ratio (q_vol_th q) (det h) -> exists B, LLL (mmul EA (RZ h)) = Ok (Plain B)) ->
  exists k0 f0 sols, forall k f, (k0 <= k)%nat -> (f0 <= f)%nat -> lat_cor D eig q k f idA pA idM pM = Ok sols.
Proof. exact lat_cor_ends. Qed.
Print Assumptions C79_search_ends_partial.

(** Its first solution is at least as close as, for each sublattice of required size, some correspondence that no
    elementary shear improves.  For the Ericksen distance this needs the symmetries of the product lattice to be
    orthogonal matrices in its base (C43).  Missing besides: product lattices and sublattices whose symmetries the
    tolerances do not resolve; and that no correspondence at all is closer. *)
Theorem C79_locally_best_partial : forall D eig q which idA pA idM pM sA ceA cA sM ceM cM A M, D = py3 \/ D = py2 ->
  bravais_type 3 idA = Some (sA, ceA) -> admissible sA pA cA -> bravais_type 3 idM = Some (sM, ceM) -> admissible sM pM cM ->
  q_dim q = 3%Z ->
  match q_dist q with Cauchy => Some dCauchy | Ericksen => Some dEricksen | Strain => Some dStrain | OtherName => None end = Some which ->
  (1 <= q_nsol q)%nat -> (q_vol_th q < 1)%R -> eig_correct 3 eig ->
  new_bravais idA pA 3 = Ok A -> new_bravais idM pM 3 = Ok M ->
  let EA := b_base A in let EM := b_base M in let ratio := (det EM / det EA)%R in
  (1/2 < ratio)%R -> resolved 3 EA -> resolved 3 EM ->
  (forall L, which = dEricksen -> special_lattice_group EM = Ok L -> forall N, In N L -> orthogonal 3 (RZ N)) ->
  (forall h, is_hnf 3 h -> allowed_size ratio (q_vol_th q) (det h) ->
     resolved 3 (mmul EA (RZ h)) /\ exists B, LLL (mmul EA (RZ h)) = Ok (Plain B)) ->
  exists k0 f0 best rest,
    (forall k f, (k0 <= k)%nat -> (f0 <= f)%nat -> lat_cor D eig q k f idA pA idM pM = Ok (best :: rest)) /\
    forall h, is_hnf 3 h -> required_size ratio (q_vol_th q) (det h) -> exists l d, SL3 l /\
      measures which EA EM (mmul h l) d /\ (hd_ (fst best) <= d)%R /\
      forall l' d', neighbour l l' -> measures which EA EM (mmul h l') d' -> (d <= d')%R.
Proof. exact lat_cor_total. Qed.
Print Assumptions C79_locally_best_partial.

(** The default request, and the same with the strain distance, on the cubic lattice with edge 1 and the tetragonal one
    with edges 1 and 21/20: the hypotheses of the theorems are met, so the run ends with genuine solutions. *)
Example C79_case : forall eig name, eig_correct 3 eig -> name = Cauchy \/ name = Strain -> exists k f best rest,
  lat_cor py3 eig {| q_nsol := 1; q_vol_th := 1/10; q_dim := 3; q_dist := name; q_maxiter := None; q_miniter := None |} k f 1 [1%R] 6 [1%R; (21/20)%R] = Ok (best :: rest).
Proof.
  intros eig name He Hn. destruct case_admissible as (T1 & A1 & T2 & A2). destruct case_bases as ((A & HA & EA) & (M & HM & EM)).
  set (q := {| q_nsol := 1; q_vol_th := 1/10; q_dim := 3; q_dist := name; q_maxiter := None; q_miniter := None |}).
  destruct (C79_locally_best_partial py3 eig q (if match name with Strain => true | _ => false end then dStrain else dCauchy)
    1 [1%R] 6 [1%R; (21/20)%R] _ _ _ _ _ _ A M (or_introl eq_refl) T1 A1 T2 A2) as (k0 & f0 & best & rest & H & _); auto.
  - destruct Hn as [-> | ->]; reflexivity.
  - cbn. Lra.lra.
  - rewrite EA, EM, !det_Etet. Lra.lra.
  - rewrite EA. apply resolved_tet. now left.
  - rewrite EM. apply resolved_tet. now right.
  - intros L E. destruct Hn as [-> | ->]; discriminate.
  - intros h Hh Hs. rewrite EA, EM, !det_Etet in Hs. replace (21/20/1)%R with (21/20)%R in Hs by Lra.lra.
    apply case_size in Hs. rewrite EA, (hnf_one h Hh Hs), RZ_eye, (mmul_eye_r 3 3) by (try apply PropLattice.wfM3; Lia.lia).
    split; [apply resolved_tet; now left|]. exists (eye 3). exact LLL_eye.
  - exists k0, f0, best, rest. apply H; Lia.lia.
Qed.

(** The Ericksen distance, from the cubic lattice with edge 1 to itself: its symmetries are orthogonal in its base. *)
Example C79_ericksen_case : forall eig, eig_correct 3 eig -> exists k f best rest,
  lat_cor py3 eig {| q_nsol := 1; q_vol_th := 1/10; q_dim := 3; q_dist := Ericksen; q_maxiter := None; q_miniter := None |} k f 1 [1%R] 1 [1%R] = Ok (best :: rest).
Proof.
  intros eig He. destruct case_admissible as (T1 & A1 & _). destruct case_bases as ((A & HA & EA) & _).
  set (q := {| q_nsol := 1; q_vol_th := 1/10; q_dim := 3; q_dist := Ericksen; q_maxiter := None; q_miniter := None |}).
  destruct (C79_locally_best_partial py3 eig q dEricksen 1 [1%R] 1 [1%R] _ _ _ _ _ _ A A (or_introl eq_refl) T1 A1 T1 A1) as (k0 & f0 & best & rest & H & _); auto.
  - cbn. Lra.lra.
  - rewrite EA, !det_Etet. Lra.lra.
  - rewrite EA. apply resolved_tet. now left.
  - rewrite EA. apply resolved_tet. now left.
  - intros L _ E N HN. rewrite EA in E. assert (B : LatticeSpec.base 3 (Etet 1)) by (apply PropLattice.base3; Lra.lra).
    destruct (group_of _ B (resolved_tet 1 (or_introl eq_refl))) as (L' & E' & _ & I & _). rewrite E in E'. injection E' as <-.
    destruct (I N HN) as (WN & Q & OQ & EQ). change (Etet 1) with (@eye R _ 3) in EQ.
    pose proof (mmul_eye_l 3 3 _ WN ltac:(Lia.lia)) as K1. pose proof (mmul_eye_r 3 3 _ (proj1 OQ) ltac:(Lia.lia)) as K2.
    assert (K : RZ N = Q) by exact (eq_trans (eq_sym K1) (eq_trans EQ K2)). exact (eq_ind_r (orthogonal 3) OQ K).
  - intros h Hh Hs. rewrite EA, !det_Etet in Hs. assert (D : det h = 1%Z).
    { destruct Hs as [[H1 H2]|[H1 _]].
      - cbn [q_vol_th q] in H1, H2. assert (0 < det h)%Z by (apply lt_IZR; Lra.lra). assert (det h < 2)%Z by (apply lt_IZR; Lra.lra). Lia.lia.
      - exfalso. apply H1. exists 1%Z. unfold within_threshold. cbn [q_vol_th q]. split; Lra.lra. }
    rewrite EA, (hnf_one h Hh D), RZ_eye, (mmul_eye_r 3 3) by (try apply PropLattice.wfM3; Lia.lia).
    split; [apply resolved_tet; now left|]. exists (eye 3). exact LLL_eye.
  - exists k0, f0, best, rest. apply H; Lia.lia.
Qed.

(** An eigenvalue routine that meets [eig_correct] exists: the spectral theorem, with the choice operator of the
    standard library to make a function of it.  Only this example uses that operator. *)
Example C78_oracle : forall n, dim23 n -> exists eig, eig_correct n eig.
Proof.
  intros n Hn.
  exists (fun C => ClassicalEpsilon.epsilon (inhabits ([], [])) (fun e : list R * mat R => eigen n C (fst e) (snd e))).
  intros C W S. apply ClassicalEpsilon.epsilon_spec.
  destruct (SpectralThm.spectral_theorem n C Hn W S) as (lam & V & H). exists (lam, V). apply H.
Qed.
Print Assumptions C78_oracle.
