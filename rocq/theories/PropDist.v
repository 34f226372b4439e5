(** Property theorems C41, C42, C43, C46.  Specification: DistSpec.v, Eig.v (eigen);
    model: DistModel.v. *)
From Verif Require Import Flat LinAlg Eig DistModel DistSpec DistProofs DistProofs2.
Local Open Scope R_scope.

(** C41 *)
Theorem C41_nonnegative : forall n x E1 E2inv, (0 < n)%nat -> wf n n E1 -> wf n n E2inv ->
  0 <= Cauchy_dist x E1 E2inv.
Proof. exact Cauchy_nonneg. Qed.
Print Assumptions C41_nonnegative.

Theorem C41_zero_iff_strain_free : forall n x E1 E2, dim23 n -> wf n n E1 -> wf n n E2 -> det E2 <> 0 ->
  Cauchy_dist x E1 (minv E2) = 0 <-> strain_free n E1 (reshape n x) E2.
Proof. exact Cauchy_zero. Qed.
Print Assumptions C41_zero_iff_strain_free.

Theorem C41_symmetry_invariant : forall n x x' E1 E2 M1 M2,
  dim23 n -> wf n n E1 -> wf n n E2 -> det E2 <> 0 ->
  isometry_of n E1 M1 -> isometry_of n E2 M2 ->
  reshape n x' = mmul (mmul M1 (reshape n x)) M2 ->
  Cauchy_dist x' E1 (minv E2) = Cauchy_dist x E1 (minv E2).
Proof. exact Cauchy_sym. Qed.
Print Assumptions C41_symmetry_invariant.

(** a square lattice against the rectangular lattice diag(1, 2), with the quarter turn
    of the first and the half turn of the second *)
Example C41_case : isometry_of 2 (eye 2) (M2 0 (-1) 1 0) /\ isometry_of 2 (M2 1 0 0 2) (M2 (-1) 0 0 (-1)) /\
  det (M2 1 0 0 2) <> 0 /\
  reshape 2 [0; 1; -1; 0] = mmul (mmul (M2 0 (-1) 1 0) (reshape 2 [1; 0; 0; 1])) (M2 (-1) 0 0 (-1)) /\
  Cauchy_dist [1; 0; 0; 1] (eye 2) (minv (M2 1 0 0 2)) = 9/16.
Proof.
  split. { split; [apply wfb_spec; reflexivity|]. exists (M2 0 (-1) 1 0).
    split; [split; [apply wfb_spec; reflexivity|mat_eq lra]|mat_eq lra]. }
  split. { split; [apply wfb_spec; reflexivity|]. exists (M2 (-1) 0 0 (-1)).
    split; [split; [apply wfb_spec; reflexivity|mat_eq lra]|mat_eq lra]. }
  split; [unfold M2; rewrite det2; lra|].
  split; [unfold reshape; cbn [Nat.mul Nat.add mk map seq]; mat_eq lra|].
  unfold Cauchy_dist, minv, M2. rewrite det2. cbn. lra.
Qed.

(** C42 *)
Theorem C42_vectorised : forall n xs E1 E2inv, (0 < n)%nat -> wf n n E1 -> wf n n E2inv ->
  Cauchy_dist_vec xs E1 E2inv = map (fun x => Cauchy_dist x E1 E2inv) xs.
Proof. exact Cauchy_vec. Qed.
Print Assumptions C42_vectorised.
(** both branches are met: batches of 1 and of 100 *)
Example C42_case : length (Cauchy_dist_vec [[1; 0; 0; 1]] (eye 2) (eye 2)) = 1%nat /\
  length (Cauchy_dist_vec (repeat [1; 0; 0; 1] 100) (eye 2) (eye 2)) = 100%nat.
Proof. split; reflexivity. Qed.

(** C43, Ericksen distance: nonnegative, zero exactly for strain-free correspondences;
    invariant under the symmetries of the first lattice and under those symmetries of
    the second whose integer matrix is itself orthogonal. *)
Theorem C43_Ericksen_zero : forall n x E1 E2, dim23 n -> wf n n E1 -> wf n n E2 -> det E2 <> 0 ->
  exists d, Eric_dist x E1 E2 = Ok d /\ 0 <= d /\ (d = 0 <-> strain_free n E1 (reshape n x) E2).
Proof. exact Eric_zero. Qed.
Print Assumptions C43_Ericksen_zero.

Theorem C43_Ericksen_symmetry_partial : forall n x x' E1 E2 M1 M2,
  dim23 n -> wf n n E1 -> wf n n E2 -> det E2 <> 0 ->
  isometry_of n E1 M1 -> isometry_of n E2 M2 -> orthogonal n M2 ->
  reshape n x' = mmul (mmul M1 (reshape n x)) M2 ->
  Eric_dist x' E1 E2 = Eric_dist x E1 E2.
Proof. exact Eric_sym_l. Qed.
Print Assumptions C43_Ericksen_symmetry_partial.
Example C43_Ericksen_case : isometry_of 2 (M2 1 1 0 1) (M2 (-1) (-2) 1 1) /\
  isometry_of 2 (M2 1 0 0 2) (M2 (-1) 0 0 1) /\ orthogonal 2 (M2 (-1) 0 0 1) /\ det (M2 1 0 0 2) <> 0.
Proof.
  split. { split; [apply wfb_spec; reflexivity|]. exists (M2 0 (-1) 1 0).
    split; [split; [apply wfb_spec; reflexivity|mat_eq lra]|mat_eq lra]. }
  assert (O : orthogonal 2 (M2 (-1) 0 0 1)) by (split; [apply wfb_spec; reflexivity|mat_eq lra]).
  split. { split; [apply wfb_spec; reflexivity|]. exists (M2 (-1) 0 0 1). split; [exact O|mat_eq lra]. }
  split; [exact O|]. unfold M2; rewrite det2; lra.
Qed.

(** C43 is false for the Ericksen distance as stated: with the square lattice in the
    skew basis ((1,0),(1,1)) as second lattice, its quarter turn changes the distance of
    the identity correspondence from 3/7 to 18/7. *)
Theorem C43_Ericksen_symmetry_refuted : exists x x' E1 E2 M1 M2,
  wf 2 2 E1 /\ wf 2 2 E2 /\ det E1 <> 0 /\ det E2 <> 0 /\
  isometry_of 2 E1 M1 /\ isometry_of 2 E2 M2 /\
  reshape 2 x' = mmul (mmul M1 (reshape 2 x)) M2 /\
  Eric_dist x' E1 E2 <> Eric_dist x E1 E2.
Proof.
  exists [1; 0; 0; 1], [-1; -2; 1; 1], (eye 2), [[1; 1]; [0; 1]], (eye 2), [[-1; -2]; [1; 1]].
  split; [apply wfb_spec; reflexivity|]. split; [apply wfb_spec; reflexivity|].
  split; [rewrite det_eye by (now left); lra|]. split; [rewrite det2; lra|].
  split. { split; [apply wf_eye|]. exists (eye 2). split; [apply orth_eye; lia|reflexivity]. }
  split. { split; [apply wfb_spec; reflexivity|]. exists (M2 0 (-1) 1 0).
    split; [split; [apply wfb_spec; reflexivity|mat_eq lra]|mat_eq lra]. }
  split; [unfold reshape; cbn [Nat.mul Nat.add mk map seq]; mat_eq lra|].
  unfold Eric_dist. cbn [length eye mk map seq].
  set (nf := trace _). assert (N : nf = 7) by (unfold nf; mat_unfold_goal; ring).
  rewrite N, (proj2 (Reqb_false 7 0)) by lra.
  intros H. injection H. unfold reshape. cbn [Nat.mul Nat.add mk map seq]. mat_unfold_goal. lra.
Qed.
Print Assumptions C43_Ericksen_symmetry_refuted.

(** C43, strain distance, dimension 3 (for any eigendecomposition of Cinv) *)
Theorem C43_strain_3D_zero : forall x E1 E2 lam V, wf 3 3 E1 -> wf 3 3 E2 -> det E2 <> 0 ->
  eigen 3 (strain_Cinv x E1 (minv E2)) lam V ->
  0 <= strain_dist lam /\ (strain_dist lam = 0 <-> strain_free 3 E1 (reshape 3 x) E2).
Proof. exact strain_3D. Qed.
Print Assumptions C43_strain_3D_zero.

Theorem C43_strain_symmetry : forall n x x' E1 E2 M1 M2 lam V lam' V',
  dim23 n -> wf n n E1 -> wf n n E2 -> det E2 <> 0 ->
  isometry_of n E1 M1 -> isometry_of n E2 M2 ->
  reshape n x' = mmul (mmul M1 (reshape n x)) M2 ->
  eigen n (strain_Cinv x E1 (minv E2)) lam V ->
  eigen n (strain_Cinv x' E1 (minv E2)) lam' V' ->
  strain_dist lam' = strain_dist lam.
Proof. exact strain_sym. Qed.
Print Assumptions C43_strain_symmetry.
Lemma C43_case_Cinv : strain_Cinv [1; 0; 0; 0; 1; 0; 0; 0; 1] (eye 3) (minv (eye 3)) = diag [1; 1; 1].
Proof.
  rewrite minv_eye by (now right). unfold strain_Cinv. cbn [length eye mk map seq].
  unfold reshape. cbn [Nat.mul Nat.add mk map seq]. mat_eq lra.
Qed.
Example C43_strain_case : eigen 3 (strain_Cinv [1; 0; 0; 0; 1; 0; 0; 0; 1] (eye 3) (minv (eye 3))) [1; 1; 1] (eye 3).
Proof. rewrite C43_case_Cinv. apply eigen_diag; [now right|reflexivity]. Qed.

(** C43 is false for strain_dist in dimension 2: the distance is never below 1, so a
    perfect match is not at distance 0. *)
Theorem C43_strain_2D_refuted : exists x E1 E2 lam V,
  wf 2 2 E1 /\ wf 2 2 E2 /\ det E2 <> 0 /\ eigen 2 (strain_Cinv x E1 (minv E2)) lam V /\
  strain_free 2 E1 (reshape 2 x) E2 /\ strain_dist lam = 1.
Proof.
  exists [1; 0; 0; 1], (eye 2), (eye 2), [1; 1], (eye 2).
  split; [apply wf_eye|]. split; [apply wf_eye|]. split; [rewrite det_eye by (now left); lra|].
  assert (E : strain_Cinv [1; 0; 0; 1] (eye 2) (minv (eye 2)) = diag [1; 1]).
  { rewrite minv_eye by (now left). unfold strain_Cinv. cbn [length eye mk map seq].
    unfold reshape. cbn [Nat.mul Nat.add mk map seq]. mat_eq lra. }
  rewrite E. split; [apply eigen_diag; [now left|reflexivity]|].
  split. { exists (eye 2). split; [apply orth_eye; lia|].
    unfold reshape. cbn [Nat.mul Nat.add]. mat_eq lra. }
  unfold strain_dist, vsum. cbn. rewrite sqrt_1. lra.
Qed.
Print Assumptions C43_strain_2D_refuted.

(** C46: the tensor D of the code is |Cinv|^2 as a quartic form, and any positive lower
    bound of it on unit vectors gives a radius that excludes nothing of distance <= d. *)
Theorem C46_quartic_form : forall n EA EMi x, (0 < n)%nat -> wf n n EA -> wf n n EMi ->
  quartic_form (n * n) (quartic_D n EA EMi) x =
  fro2 n n (mmul (mmul (mmul EA (reshape n x)) EMi) (tr (mmul (mmul EA (reshape n x)) EMi))).
Proof. exact quartic_is_fro. Qed.
Print Assumptions C46_quartic_form.

Theorem C46_radius_sound : forall n EA EMi alpha d x,
  (0 < n <= 3)%nat -> wf n n EA -> wf n n EMi -> 0 < alpha ->
  (forall u, length u = (n * n)%nat -> len2 u = 1 -> alpha <= quartic_form (n * n) (quartic_D n EA EMi) u) ->
  length x = (n * n)%nat -> Cauchy_dist x EA EMi <= d -> sqrt (len2 x) <= rmax alpha d.
Proof. exact radius_sound. Qed.
Print Assumptions C46_radius_sound.
(** the hypotheses on alpha can always be met *)
Theorem C46_positive_bound_exists : forall n EA EM,
  dim23 n -> wf n n EA -> wf n n EM -> det EA <> 0 -> det EM <> 0 ->
  exists alpha, 0 < alpha /\
    forall u, length u = (n * n)%nat -> len2 u = 1 ->
      alpha <= quartic_form (n * n) (quartic_D n EA (minv EM)) u.
Proof. exact quartic_positive. Qed.
Print Assumptions C46_positive_bound_exists.
