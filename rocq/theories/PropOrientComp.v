(** C132: orientation relationships compose, and they respect zone axes (orientation_relationship.py:3-38). *)
From Verif Require Import LinAlg LatticeProofs BravaisProofs DistProofs RotModel RotSpec RotProofs PropRot.
Local Open Scope R_scope.

(** the rows of an accepted argument, after a matrix has been applied, are accepted again *)
Lemma or_rows_inv n i xs : (0 < n)%nat -> or_rows n i = Ok xs -> xs <> [] /\ forall x, In x xs -> List.length x = n.
Proof.
  intros N0. unfold or_rows. set (ys := match i with One x => [x] | Many [] => [[]] | Many ys => ys end).
  assert (NE : ys <> []) by (subst ys; destruct i as [|[|]]; discriminate).
  destruct (forallb _ ys) eqn:F; [|discriminate]. intros E. injection E as <-. split; [exact NE|].
  intros x Hx. apply Nat.eqb_eq. exact (proj1 (forallb_forall _ _) F x Hx).
Qed.
Lemma or_rows_apply n (M : mat R) xs : wf n n M -> xs <> [] -> or_rows n (apply_rows M xs) = Ok (map (mvmul M) xs).
Proof.
  intros W NE. assert (F : forallb (fun x => (List.length x =? n)%nat) (map (mvmul M) xs) = true).
  { apply forallb_forall. intros y Hy. apply in_map_iff in Hy. destruct Hy as (x & <- & _). apply Nat.eqb_eq. now apply len_mv. }
  transitivity (if forallb (fun x => (List.length x =? n)%nat) (map (mvmul M) xs) then Ok (map (mvmul M) xs) else Raise ValueError);
    [|now rewrite F]. destruct xs as [|x [|x' xs]]; [congruence|reflexivity|reflexivity].
Qed.
Lemma apply_rows_comp n (M N : mat R) xs : (0 < n)%nat -> wf n n M -> wf n n N -> (forall x, In x xs -> List.length x = n) ->
  apply_rows M (map (mvmul N) xs) = apply_rows (mmul M N) xs.
Proof.
  intros N0 WM WN H. unfold apply_rows. rewrite map_map.
  rewrite (map_ext_in (fun x => mvmul M (mvmul N x)) (mvmul (mmul M N)) xs); [reflexivity|].
  intros x Hx. symmetry. apply (mvmul_mmul n); auto.
Qed.

(** Going through an intermediate lattice (L1, then L2) is the same as one relationship with
    correspondence matrix L1 L2, for directions and for planes, whatever the argument: one index, a list of
    them, or an argument that is refused. *)
Theorem C132_compose : forall n L1 L2 (i : index_arg), dim23 n -> wf n n L1 -> wf n n L2 -> det L1 <> 0 -> det L2 <> 0 ->
  (let* y := direc_trans L1 i in direc_trans L2 y) = direc_trans (mmul L1 L2) i /\
  (let* y := plane_trans L1 i in plane_trans L2 y) = plane_trans (mmul L1 L2) i.
Proof.
  intros n L1 L2 i D W1 W2 D1 D2.
  assert (N0 : (0 < n)%nat) by (destruct D; subst; lia).
  assert (W : wf n n (mmul L1 L2)) by (apply (wf_mmul n n n); assumption).
  assert (DD : det (mmul L1 L2) <> 0) by (rewrite (det_mmul n) by assumption; now apply Rmult_integral_contrapositive_currified).
  assert (WI1 : wf n n (minv L1)) by (apply wf_minv; assumption).
  assert (WI2 : wf n n (minv L2)) by (apply wf_minv; assumption).
  assert (WT1 : wf n n (tr L1)) by (apply wf_tr'; assumption).
  assert (WT2 : wf n n (tr L2)) by (apply wf_tr'; assumption).
  unfold direc_trans, plane_trans. rewrite !(inv_Ok n) by assumption. cbn [bind].
  rewrite (proj1 W), (proj1 W1), (proj1 W2), (minv_mmul n), (tr_mmul n n n) by assumption.
  destruct (or_rows n i) as [xs|e|] eqn:E; cbn [bind]; [|now split|now split].
  destruct (or_rows_inv n i xs N0 E) as [NE H].
  rewrite !or_rows_apply by assumption. cbn [bind].
  rewrite !(apply_rows_comp n) by assumption. now split.
Qed.

(** Opposite correspondences undo each other, so nothing is lost on the way: if two arguments of the same shape
    go to the same result, they were the same. *)
Theorem C132_injective : forall n L (x y r : list R), dim23 n -> wf n n L -> det L <> 0 -> List.length x = n -> List.length y = n ->
  (direc_trans L (One x) = Ok (One r) -> direc_trans L (One y) = Ok (One r) -> x = y) /\
  (plane_trans L (One x) = Ok (One r) -> plane_trans L (One y) = Ok (One r) -> x = y).
Proof.
  intros n L x y r D W DL Hx Hy. assert (N0 : (0 < n)%nat) by (destruct D; subst; lia).
  assert (WI : wf n n (minv L)) by (apply wf_minv; assumption).
  assert (WT : wf n n (tr L)) by (apply wf_tr'; assumption).
  assert (DT : det (tr L) <> 0) by (rewrite (det_tr n) by assumption; assumption).
  assert (WJ : wf n n (minv (tr L))) by (apply wf_minv; assumption).
  rewrite !(direc_one n), !(plane_one n) by assumption. split; intros A B; injection A as A; injection B as B; rewrite <- B in A.
  - apply (f_equal (mvmul L)) in A. rewrite <- !(mvmul_mmul n), (minv_r n), !mvmul_eye in A by assumption. exact A.
  - apply (f_equal (mvmul (minv (tr L)))) in A. rewrite <- !(mvmul_mmul n), (minv_l n), !mvmul_eye in A by assumption. exact A.
Qed.

(** The identity correspondence changes nothing. *)
Theorem C132_identity : forall n (x : list R), dim23 n -> List.length x = n ->
  direc_trans (eye n) (One x) = Ok (One x) /\ plane_trans (eye n) (One x) = Ok (One x).
Proof.
  intros n x D Hx. assert (N0 : (0 < n)%nat) by (destruct D; subst; lia).
  assert (DE : det (eye n) <> 0) by (rewrite (det_eye n) by assumption; lra).
  rewrite (direc_one n), (plane_one n) by (try assumption; apply wf_eye).
  assert (MI : minv (eye n) = @eye R _ n) by (apply minv_eye; assumption).
  assert (TI : tr (eye n) = eye n) by (apply tr_eye; assumption).
  rewrite MI, TI, mvmul_eye by assumption. now split.
Qed.

(** Zone axes: the plane spanned by two directions goes to the plane spanned by their images;
    as index triples, the image of u x v is det L times u' x v'. *)
Theorem C132_zone : forall L (u v u' v' : list R), wf 3 3 L -> det L <> 0 -> List.length u = 3%nat -> List.length v = 3%nat ->
  direc_trans L (One u) = Ok (One u') -> direc_trans L (One v) = Ok (One v') ->
  plane_trans L (One (cross u v)) = Ok (One (map (Rmult (det L)) (cross u' v'))).
Proof.
  intros L u v u' v' W DL Hu Hv EU EV. assert (D : dim23 3) by now right.
  rewrite (direc_one 3) in EU, EV by assumption. injection EU as EU. injection EV as EV.
  assert (WI : wf 3 3 (minv L)) by (apply wf_minv; assumption).
  assert (LU : List.length u' = 3%nat) by (subst; apply len_mv; assumption).
  assert (LV : List.length v' = 3%nat) by (subst; apply len_mv; assumption).
  assert (BU : u = mvmul L u') by (subst u'; rewrite <- (mvmul_mmul 3) by (try assumption; lia); rewrite (minv_r 3) by assumption; symmetry; now apply mvmul_eye).
  assert (BV : v = mvmul L v') by (subst v'; rewrite <- (mvmul_mmul 3) by (try assumption; lia); rewrite (minv_r 3) by assumption; symmetry; now apply mvmul_eye).
  rewrite (plane_one 3) by (try assumption; reflexivity). do 2 f_equal. rewrite BU, BV. clear - W LU LV.
  destruct (wf3_inv L W) as (a&b&c&d&e&f&g&h&i&->).
  destruct u' as [|p [|q [|r [|]]]]; try discriminate LU. destruct v' as [|s [|t [|w [|]]]]; try discriminate LV.
  assert (L3 : forall a b c a' b' c' : R, a = a' -> b = b' -> c = c' -> [a; b; c] = [a'; b'; c']) by (intros; subst; reflexivity).
  rewrite det3. cbv -[Rplus Rmult Rminus Ropp IZR]. apply L3; ring.
Qed.

Example C132_case :
  let L1 := [[1; 1; 0]; [-1; 1; 0]; [0; 0; 1]] : mat R in let L2 := [[1; 0; 0]; [0; 2; 1]; [0; 0; 1]] : mat R in
  dim23 3 /\ wf 3 3 L1 /\ wf 3 3 L2 /\ det L1 <> 0 /\ det L2 <> 0 /\ mmul L1 L2 <> mmul L2 L1.
Proof.
  cbv zeta. split; [now right|]. split; [apply w33|]. split; [apply w33|]. rewrite !det3. split; [lra|]. split; [lra|].
  intros E. apply (f_equal (fun M => nth 1 (nth 0 M []) 0)) in E. revert E. cbv -[Rplus Rmult Rminus Ropp IZR]. lra.
Qed.
Print Assumptions C132_compose.
Print Assumptions C132_injective.
Print Assumptions C132_identity.
Print Assumptions C132_zone.
