(** C133: integer indices under an orientation relationship (orientation_relationship.py:3-38). *)
From Verif Require Import LinAlg LatticeProofs BravaisProofs DistProofs DirectProofs GroupProofs RotModel RotSpec RotProofs PropRot.
Local Open Scope R_scope.

(** an index with integer entries *)
Definition integer_index (x : list R) : Prop := exists z : list Z, x = map IZR z.

Lemma map_IZR_inj (u v : list Z) : map IZR u = map IZR v -> u = v.
Proof. revert v. induction u as [|a u IH]; intros [|b v] E; try discriminate; [reflexivity|]. injection E as E1 E2. apply eq_IZR in E1. f_equal; auto. Qed.

Lemma m22 (a b c d a' b' c' d' : Z) : a = a' -> b = b' -> c = c' -> d = d' -> [[a; b]; [c; d]] = [[a'; b']; [c'; d']].
Proof. intros; subst; reflexivity. Qed.
Lemma m33 (a b c d e f g h i a' b' c' d' e' f' g' h' i' : Z) : a = a' -> b = b' -> c = c' -> d = d' -> e = e' -> f = f' -> g = g' -> h = h' -> i = i' ->
  [[a; b; c]; [d; e; f]; [g; h; i]] = [[a'; b'; c']; [d'; e'; f']; [g'; h'; i']].
Proof. intros; subst; reflexivity. Qed.

(** integer columns that solve L x = e_j make det L a unit *)
Lemma columns_unit n (L : mat Z) : dim23 n -> wf n n L ->
  (forall z : list Z, List.length z = n -> exists y : list Z, List.length y = n /\ mvmul L y = z) -> (det L = 1 \/ det L = -1)%Z.
Proof.
  intros D W H. assert (U : exists X, wf n n X /\ mmul L X = @eye Z _ n).
  { destruct D as [-> | ->].
    - destruct (wf2_inv L W) as (a&b&c&d&->).
      destruct (H [1; 0]%Z eq_refl) as (y0 & L0 & E0). destruct (H [0; 1]%Z eq_refl) as (y1 & L1 & E1).
      destruct y0 as [|p [|q [|]]]; try discriminate L0. destruct y1 as [|s [|t [|]]]; try discriminate L1.
      exists [[p; s]; [q; t]]. split; [apply wfb_spec; reflexivity|].
      cbv -[Z.add Z.mul] in E0, E1 |- *. injection E0 as A1 A2. injection E1 as B1 B2.
      apply m22; lia.
    - destruct (wf3_inv L W) as (a&b&c&d&e&f&g&h&i&->).
      destruct (H [1; 0; 0]%Z eq_refl) as (y0 & L0 & E0). destruct (H [0; 1; 0]%Z eq_refl) as (y1 & L1 & E1).
      destruct (H [0; 0; 1]%Z eq_refl) as (y2 & L2 & E2).
      destruct y0 as [|p [|q [|r [|]]]]; try discriminate L0. destruct y1 as [|s [|t [|u [|]]]]; try discriminate L1.
      destruct y2 as [|v [|w [|x [|]]]]; try discriminate L2.
      exists [[p; s; v]; [q; t; w]; [r; u; x]]. split; [apply wfb_spec; reflexivity|].
      cbv -[Z.add Z.mul] in E0, E1, E2 |- *. injection E0 as A1 A2 A3. injection E1 as B1 B2 B3. injection E2 as C1 C2 C3.
      apply m33; lia. }
  destruct U as (X & WX & E). apply (f_equal det) in E. rewrite (det_mmul_Z n), (det_eye_Z n) in E by assumption.
  apply Z.mul_eq_1 in E. lia.
Qed.

(** Planes with integer indices have integer indices in the product lattice, for every integer correspondence. *)
Theorem C133_planes : forall n (L : mat Z) (p : list R), dim23 n -> wf n n L -> List.length p = n -> integer_index p ->
  exists q, plane_trans (RZ L) (One p) = Ok (One q) /\ integer_index q.
Proof.
  intros n L p D W Hp (z & ->). assert (N0 : (0 < n)%nat) by (destruct D; subst; lia). rewrite map_length in Hp.
  rewrite (plane_one n) by (rewrite ?map_length; try assumption; apply wf_RZ; assumption).
  exists (map IZR (mvmul (tr L) z)). split; [|now exists (mvmul (tr L) z)].
  rewrite <- RZ_tr. rewrite (mvmul_RZ n) by (try assumption; apply wf_tr'; assumption). reflexivity.
Qed.

(** Directions with integer indices keep integer indices exactly when the correspondence has determinant 1 or -1. *)
Theorem C133_directions : forall n (L : mat Z), dim23 n -> wf n n L -> det L <> 0%Z ->
  (forall d, List.length d = n -> integer_index d -> exists d', direc_trans (RZ L) (One d) = Ok (One d') /\ integer_index d') <->
  (det L = 1 \/ det L = -1)%Z.
Proof.
  intros n L D W DL. assert (N0 : (0 < n)%nat) by (destruct D; subst; lia).
  assert (WR : wf n n (RZ L)) by (apply wf_RZ; assumption).
  assert (DR : det (RZ L) <> 0) by (rewrite <- RZ_det; now apply not_0_IZR).
  split.
  - intros H. apply (columns_unit n); try assumption. intros z Hz.
    destruct (H (map IZR z)) as (d' & E & y & ->); [now rewrite map_length|now exists z|].
    rewrite (direc_one n) in E by (rewrite ?map_length; assumption). injection E as E.
    assert (LY : List.length y = n).
    { rewrite <- (map_length IZR y), <- E. apply len_mv. apply wf_minv; assumption. }
    exists y. split; [exact LY|]. apply map_IZR_inj. rewrite <- (mvmul_RZ n) by assumption. rewrite <- E.
    rewrite <- (mvmul_mmul n) by (first [assumption | apply wf_minv; assumption | now rewrite map_length]).
    rewrite (minv_r n) by assumption. apply mvmul_eye. now rewrite map_length.
  - intros U d Hd (z & ->). rewrite map_length in Hd.
    destruct (unimod_inv n L D W U) as (M & WM & E1 & E2).
    assert (E : minv (RZ L) = RZ M).
    { symmetry. apply (proj2 (inv_unique n (RZ L) (RZ M) D WR (wf_RZ _ _ _ WM) ltac:(rewrite <- RZ_mmul, E1; apply RZ_eye))). }
    rewrite (direc_one n) by (rewrite ?map_length; assumption). rewrite E, (mvmul_RZ n) by assumption.
    exists (map IZR (mvmul M z)). split; [reflexivity|now exists (mvmul M z)].
Qed.

Example C133_case :
  let L := [[1; 1; 0]; [-1; 1; 0]; [0; 0; 1]]%Z in let K := [[1; 1; 0]; [0; 1; 0]; [0; 0; -1]]%Z in
  dim23 3 /\ wf 3 3 L /\ det L = 2%Z /\ wf 3 3 K /\ det K = (-1)%Z.
Proof. cbv zeta. split; [now right|]. split; [apply wfb_spec; reflexivity|]. split; [reflexivity|]. split; [apply wfb_spec; reflexivity|reflexivity]. Qed.
Print Assumptions C133_planes.
Print Assumptions C133_directions.
