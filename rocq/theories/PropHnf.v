(** Property theorems C01-C07.  Specification: HnfSpec.v; model: HnfModel.v. *)
From Verif Require Import HnfModel HnfSpec HnfEnum HnfProofs HnfCanon.
From Coq Require Import Sorting.Sorted.
Local Open Scope Z_scope.

(** C01: divisors(n) is the strictly increasing list of exactly the d >= 1 with d | n. *)
Theorem C01_divisors : forall n, 0 < n ->
  StronglySorted Z.lt (divisors n) /\ forall d, In d (divisors n) <-> 1 <= d /\ (d | n).
Proof. exact (fun n Hn => conj (divisors_sorted n Hn) (fun d => in_divisors n d Hn)). Qed.
Print Assumptions C01_divisors.
Example C01_case : 0 < 12 /\ divisors 12 = [1; 2; 3; 4; 6; 12].
Proof. now split. Qed.

(** C02: for positive diagonal entries, exactly the Hermite normal forms with this
    diagonal, each once. *)
Theorem C02_hnf_from_diag : forall dg, (forall d, In d dg -> 0 < d) ->
  NoDup (hnf_from_diag dg) /\
  forall H, In H (hnf_from_diag dg) <->
    is_hnf (length dg) H /\ (forall i, (i < length dg)%nat -> get H i i = nth i dg 0).
Proof. exact (fun dg Hp => conj (proj2 (hnf_from_diag_allowed dg)) (fun H => hnf_from_diag_hnf dg H Hp)). Qed.
Print Assumptions C02_hnf_from_diag.
Example C02_case : (forall d, In d [1; 3] -> 0 < d) /\
  hnf_from_diag [1; 3] = [[[1; 0]; [0; 3]]; [[1; 0]; [-1; 3]]; [[1; 0]; [-2; 3]]].
Proof. split; [cbn; lia|reflexivity]. Qed.

(** C02, arbitrary integer diagonals: the entry left of the diagonal is 0 or in (-d_i, 0). *)
Theorem C02_hnf_from_diag_any : forall dg,
  NoDup (hnf_from_diag dg) /\
  forall M, In M (hnf_from_diag dg) <->
    wf (length dg) (length dg) M /\
    (forall i, (i < length dg)%nat -> get M i i = nth i dg 0) /\
    (forall i j, (i < j < length dg)%nat -> get M i j = 0) /\
    (forall i j, (j < i < length dg)%nat -> get M i j = 0 \/ - nth i dg 0 < get M i j < 0).
Proof. exact (fun dg => conj (proj2 (hnf_from_diag_allowed dg)) (hnf_from_diag_spec dg)). Qed.
Print Assumptions C02_hnf_from_diag_any.

(** C03: all Hermite normal forms of determinant n (product of the diagonal), each once. *)
Theorem C03_hnf_from_det : forall n N, 0 < n -> (0 < N)%nat ->
  exists l, hnf_from_det n N = Ok (Some l) /\ NoDup l /\
    forall H, In H l <-> is_hnf N H /\ diag_prod N H = n.
Proof. exact hnf_from_det_spec. Qed.
Print Assumptions C03_hnf_from_det.
Example C03_case : exists l, hnf_from_det 4 3 = Ok (Some l) /\ length l = 35%nat.
Proof. eexists. split; [vm_compute; reflexivity|reflexivity]. Qed.

Theorem C03_negative_raises : forall n N, n < 0 -> hnf_from_det n N = Raise ValueError.
Proof. exact hnf_from_det_neg. Qed.
Print Assumptions C03_negative_raises.

Theorem C03_zero : forall N, (0 < N)%nat -> hnf_from_det 0 N = Ok (Some [mk N N (fun _ _ => 0)]).
Proof. exact hnf_from_det_zero. Qed.
Print Assumptions C03_zero.

(** C04: hnfd terminates and factors M = H L. *)
Theorem C04_hnfd_factors : forall n M, (0 < n)%nat -> full_rank n M ->
  exists H L, hnfd py3 M = Ok (H, L) /\ M = mmul H L /\ is_hnf n H /\ unimodular n L.
Proof. exact hnfd_py3_factors. Qed.
Print Assumptions C04_hnfd_factors.
Example C04_case : full_rank 3 [[2; 3; 1]; [4; -1; 7]; [0; 5; 2]] /\
  hnfd py3 [[2; 3; 1]; [4; -1; 7]; [0; 5; 2]] =
  Ok ([[1; 0; 0]; [-1; 2; 0]; [-9; -7; 39]], [[2; 3; 1]; [3; 1; 4]; [1; 1; 1]]).
Proof.
  split; [|vm_compute; reflexivity]. split; [apply wfb_spec; reflexivity|].
  intros y Hy. pose proof (Hy 0%nat ltac:(lia)) as H0. pose proof (Hy 1%nat ltac:(lia)) as H1.
  pose proof (Hy 2%nat ltac:(lia)) as H2. unfold get in *. cbn -[Z.mul Z.add] in H0, H1, H2.
  intros i Hi. destruct i as [|[|[|]]]; lia.
Qed.

(** C05: the form depends only on the lattice spanned by the columns. *)
Theorem C05_hnfd_invariant : forall n M A, (0 < n)%nat -> full_rank n M -> unimodular n A ->
  exists H L L', hnfd py3 M = Ok (H, L) /\ hnfd py3 (mmul M A) = Ok (H, L').
Proof. exact hnfd_same_H. Qed.
Print Assumptions C05_hnfd_invariant.

Theorem C05_hnfd_fixed_points : forall n H, (0 < n)%nat -> is_hnf n H -> hnfd py3 H = Ok (H, eye n).
Proof. exact hnfd_idem. Qed.
Print Assumptions C05_hnfd_fixed_points.

Theorem C05_hnfd_decides_equivalence : forall n M M', (0 < n)%nat -> full_rank n M -> full_rank n M' ->
  (exists H L L', hnfd py3 M = Ok (H, L) /\ hnfd py3 M' = Ok (H, L')) <->
  (exists A, unimodular n A /\ M' = mmul M A).
Proof. exact hnfd_eq_iff. Qed.
Print Assumptions C05_hnfd_decides_equivalence.

Example C05_case : is_hnf 2 [[2; 0]; [-1; 3]] /\ unimodular 2 [[2; 1]; [1; 1]] /\
  full_rank 2 [[2; 0]; [-1; 3]].
Proof.
  assert (HH : is_hnf 2 [[2; 0]; [-1; 3]]).
  { split; [apply wfb_spec; reflexivity|]. repeat split.
    - intros i j Hij. replace i with O by lia. replace j with 1%nat by lia. reflexivity.
    - intros i Hi. destruct i as [|[|]]; [reflexivity|reflexivity|lia].
    - replace i with 1%nat by lia. replace j with 0%nat by lia. reflexivity.
    - replace i with 1%nat by lia. replace j with 0%nat by lia. discriminate. }
  split; [exact HH|]. split; [|now apply is_hnf_full_rank; [lia|]].
  split; [apply wfb_spec; reflexivity|]. exists [[1; -1]; [-1; 2]].
  split; [apply wfb_spec; reflexivity|]. now split.
Qed.

(** C06: every full-rank integer matrix has exactly one partner among all lists
    hnf_from_det(d, n), d > 0. *)
Theorem C06_every_sublattice_once : forall n M, (0 < n)%nat -> full_rank n M ->
  exists d l, 0 < d /\ hnf_from_det d n = Ok (Some l) /\
  exists H, In H l /\ (exists A, unimodular n A /\ M = mmul H A) /\
    forall d' l' H', 0 < d' -> hnf_from_det d' n = Ok (Some l') -> In H' l' ->
       (exists A, unimodular n A /\ M = mmul H' A) -> d' = d /\ H' = H.
Proof. exact sublattice_once. Qed.
Print Assumptions C06_every_sublattice_once.

(** C07: under Python 2 integer division the result need not be in Hermite normal
    form: a full-rank input whose H has a positive entry left of the diagonal. *)
Theorem C07_python2_refuted : exists M H L,
  full_rank 2 M /\ hnfd py2 M = Ok (H, L) /\ ~ is_hnf 2 H.
Proof.
  exists [[1; 0]; [1; 2]], [[1; 0]; [1; 2]], [[1; 0]; [0; 1]].
  split; [|split; [vm_compute; reflexivity|]].
  - split; [apply wfb_spec; reflexivity|]. intros y Hy.
    pose proof (Hy 0%nat ltac:(lia)) as H0. pose proof (Hy 1%nat ltac:(lia)) as H1.
    unfold get in *. cbn -[Z.mul Z.add] in H0, H1. intros i Hi. destruct i as [|[|]]; lia.
  - intros [_ [_ [_ H]]]. specialize (H 1%nat 0%nat ltac:(lia)). unfold get in H. cbn in H. lia.
Qed.
Print Assumptions C07_python2_refuted.

(** What does hold under Python 2: a factorisation M = H L with L unimodular, H
    lower triangular, positive diagonal, and |H_ij| < H_ii left of the diagonal
    (instead of -H_ii < H_ij <= 0). *)
Theorem C07_python2_weak_form_partial : forall n M, (0 < n)%nat -> full_rank n M ->
  exists H L, hnfd py2 M = Ok (H, L) /\ M = mmul H L /\ unimodular n L /\
    wf n n H /\
    (forall i j, (i < j < n)%nat -> get H i j = 0) /\
    (forall i, (i < n)%nat -> 0 < get H i i) /\
    (forall i j, (j < i < n)%nat -> - get H i i < get H i j < get H i i).
Proof. exact hnfd_py2_factors. Qed.
Print Assumptions C07_python2_weak_form_partial.
