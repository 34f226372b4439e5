(** C101, C102: rotations of the space and the unit of length. *)
From Verif Require Import LLLModel LLLSpec LatticeSpec PropOutput LatCorModel LatCorSpec DirectCorModel UnitSpec UnitDirect UnitProofs PropLatCor.
From Verif Require Import LLLSim.
Local Open Scope R_scope.

(** The reduction of the image of a lattice under a rotation, a reflection or a scaling of the space is the image of its reduction,
    and the integer starting point of lat_opt is the same. *)
Theorem C101_similarity : forall n kap S E, base n E -> similarity n kap S ->
  (forall B, LLL E = Ok (Plain B) -> LLL (mmul S E) = Ok (Plain (mmul S B))) /\
  (forall B, LLL E = Ok (Failed B) -> LLL (mmul S E) = Ok (Failed (mmul S B))) /\
  (exists r, LLL E = Ok r) /\ start_point (mmul S E) = start_point E.
Proof.
  intros n kap S E BE (W & K & H). pose proof BE as (d & _). pose proof (LLL_T n S kap d W K H E BE) as L. rewrite L.
  split; [intros B ->; reflexivity|]. split; [intros B ->; reflexivity|]. split; [|now apply (start_T n S kap)].
  destruct (LLL_cases n E BE) as (B & k & sw & _ & _ & _ & _ & EL). eauto.
Qed.
Print Assumptions C101_similarity.

(** A rotation by 90 degrees followed by a magnification is a similarity; the base is not reduced. *)
Example C101_case : similarity 2 9 [[0; -3]; [3; 0]] /\ base 2 [[1; 7]; [0; 1]] /\ mmul [[0; -3]; [3; 0]] [[1; 7]; [0; 1]] = [[0; -3]; [3; 21]].
Proof.
  split; [split; [now apply wfb_spec|]; split; [lra|mat_eq ltac:(ring)]|]. split; [split; [now left|]; split; [now apply wfb_spec|mat_unfold_goal; lra]|mat_eq ltac:(ring)].
Qed.

(** lat_cor returns the same solutions, or raises the same exception, whatever the unit the lengths of both lattices are given
    in, nanometres or Angstroms. *)
Theorem C102_unit_of_length : forall D eig q k fuel idA pA idM pM c, 0 < c -> q_dim q = 3%Z ->
  lat_cor D eig q k fuel idA (in_unit 3 c idA pA) idM (in_unit 3 c idM pM) = lat_cor D eig q k fuel idA pA idM pM.
Proof. intros. now apply lat_cor_scale. Qed.
Print Assumptions C102_unit_of_length.
(** So does the direct search, in two and in three dimensions, given the same random numbers, eigenvalue solver and minimiser. *)
Theorem C102_direct : forall w q fuel idA pA idM pM c, 0 < c ->
  lat_cor_direct w q fuel idA (in_unit (d_dim q) c idA pA) idM (in_unit (d_dim q) c idM pM) = lat_cor_direct w q fuel idA pA idM pM.
Proof. intros. now apply lat_cor_direct_scale. Qed.
Print Assumptions C102_direct.

(** In nm and in Angstrom, for a case with a solution; the angles stay. *)
Example C102_case : in_unit 3 10 12 [3/10; 4/10; 5/10; 100] = [10 * (3/10); 10 * (4/10); 10 * (5/10); 100] /\
  forall eig, eig_correct 3 eig -> exists k f best rest,
    lat_cor py3 eig default_request k f 1 [10 * 1] 6 [10 * 1; 10 * (21/20)] = Ok (best :: rest) /\
    lat_cor py3 eig default_request k f 1 [1] 6 [1; 21/20] = Ok (best :: rest).
Proof.
  split; [reflexivity|]. intros eig He. destruct (C79_case eig Cauchy He (or_introl eq_refl)) as (k & f & best & rest & H). exists k, f, best, rest.
  split; [|exact H]. rewrite <- H. apply (C102_unit_of_length py3 eig default_request k f 1 [1] 6 [1; 21/20] 10); [lra|reflexivity].
Qed.
