(** A stretch whose lattice has a six-fold axis: along z it is found by Laue_group, along x it is not (C105). *)
From Verif Require Import LinAlg RMat GroupModel GroupSpec GroupProofs LatticeModel LatticeSpec LatticeProofs LatticeLaue LatticeComplete BravaisProofs MartModel MartSpec MartProofs.
Local Open Scope R_scope.

Definition s3 : R := sqrt 3.
Lemma s3_sq : s3 * s3 = 3.
Proof. apply sqrt_sqrt. lra. Qed.
Lemma s3_bounds : 173/100 < s3 < 174/100.
Proof. pose proof s3_sq as H. assert (0 <= s3) by apply sqrt_pos. split; nra. Qed.
Lemma C1_half : C1 = 1/2.
Proof. unfold C1. exact cos_PI3. Qed.
Lemma S1_half : S1 = s3 / 2.
Proof. unfold S1. exact sin_PI3. Qed.

(** the columns span a lattice with a six-fold axis along z, or along x *)
Definition Vz : mat R := M3 (2 + s3) 1 0  1 (2 + s3) 0  0 0 1.
Definition Ux : mat R := M3 1 0 0  0 (2 + s3) 1  0 1 (2 + s3).
Definition Vz_inv : mat R := M3 (s3 / 6) ((3 - 2 * s3) / 6) 0  ((3 - 2 * s3) / 6) (s3 / 6) 0  0 0 1.
Definition Ux_inv : mat R := M3 1 0 0  0 (s3 / 6) ((3 - 2 * s3) / 6)  0 ((3 - 2 * s3) / 6) (s3 / 6).
Definition M3Z (a b c d e f g h i : Z) : mat Z := [[a; b; c]; [d; e; f]; [g; h; i]].
Ltac by_s3 := pose proof s3_sq; nra.
Lemma Vz_base : base 3 Vz.
Proof. split; [now right|]. split; [now apply wfb_spec|]. unfold Vz, M3. rewrite det3. pose proof s3_bounds. cbn. nra. Qed.
Lemma Ux_base : base 3 Ux.
Proof. split; [now right|]. split; [now apply wfb_spec|]. unfold Ux, M3. rewrite det3. pose proof s3_bounds. cbn. nra. Qed.
Lemma Vz_ok : mmul Vz Vz_inv = eye 3.
Proof. unfold Vz, Vz_inv. pose proof s3_sq. mat_eq ltac:(nra). Qed.
Lemma Ux_ok : mmul Ux Ux_inv = eye 3.
Proof. unfold Ux, Ux_inv. pose proof s3_sq. mat_eq ltac:(nra). Qed.

Lemma through E Ei (Q : mat R) : wf 3 3 E -> wf 3 3 Ei -> wf 3 3 Q -> mmul E Ei = eye 3 -> mmul Q E = mmul E (mmul Ei (mmul Q E)).
Proof.
  intros W1 W2 W3 H. assert (W : wf 3 3 (mmul Q E)) by (apply (wf_mmul 3 3 3); auto; lia).
  rewrite <- (mmul_assoc 3 3 3 3), H, (mmul_eye_l 3 3) by (auto; lia). reflexivity.
Qed.
Lemma refuses E Ei Q i j z : base 3 E -> wf 3 3 Ei -> mmul E Ei = eye 3 -> orth_arr 3 Q -> (i < 3)%nat -> (j < 3)%nat ->
  (let x := get (mmul Ei (mmul (values Q) E)) i j in 1/10 < Rabs (x - IZR z) < 1/2) -> (Z.abs z <= 4)%Z -> inpointgroup E Q = Ok false.
Proof.
  intros B W H O Hi Hj HH Hz. cbv zeta in HH. destruct HH as [H1 H2]. rewrite (inpoint_red 3 E B Q O). pose proof (proj1 (orth_arr_values 3 Q O)) as WQ.
  assert (WA : wf 3 3 (mmul Ei (mmul (values Q) E))) by (apply (wf_mmul 3 3 3); [exact W|apply (wf_mmul 3 3 3); [exact WQ|apply B|lia]|lia]).
  apply (lat_eq_false 3 E B _ _ i j z WA); auto; [apply through; auto; apply B|]. apply IZR_le in Hz. rewrite abs_IZR in Hz. lra.
Qed.
Lemma accepts E Q (M : mat Z) : base 3 E -> orth_arr 3 Q -> wf 3 3 M -> mmul (values Q) E = mmul E (RZ M) -> inpointgroup E Q = Ok true.
Proof.
  intros B O W H. rewrite (inpoint_red 3 E B Q O). refine (proj1 (lat_eq_true 3 E B _ (RZ M) M (wf_RZ 3 3 M W) W H _)). intros i j Hi Hj.
  rewrite get_RZ, Rminus_diag_eq, Rabs_R0 by reflexivity. pose proof (Rabs_pos (IZR (get M i j))). lra.
Qed.
Lemma gap (x : R) : 1/10 < x < 1/2 \/ 1/10 < - x < 1/2 -> 1/10 < Rabs x < 1/2.
Proof. intros [H|H]; [rewrite Rabs_pos_eq by lra|rewrite Rabs_left1 by lra]; exact H. Qed.
Ltac powers := pose proof s3_sq; pose proof s3_bounds; assert (s3 ^ 2 = 3) by nra; assert (s3 ^ 3 = 3 * s3) by nra.
Ltac no E i j z := let b := match E with Vz => constr:(Vz_base) | Ux => constr:(Ux_base) end in
  let e := match E with Vz => constr:(Vz_ok) | Ux => constr:(Ux_ok) end in
  let v := match E with Vz => constr:(Vz_inv) | Ux => constr:(Ux_inv) end in
  apply (fun W => refuses E v _ i j z b W e); [now apply wfb_spec|cbn [orth_arr]; assumption|lia|lia| |lia];
  powers; cbv zeta; apply gap; unfold Vz, Ux, Vz_inv, Ux_inv, M3; cbn; first [left; split; lra|right; split; lra|left; split; nra|right; split; nra].
Ltac yes E M := let b := match E with Vz => constr:(Vz_base) | Ux => constr:(Ux_base) end in
  apply (accepts E _ M b); [cbn [orth_arr]; assumption|now apply wfb_spec|]; powers; unfold Vz, Ux, M3Z, values, RZ, mmap; mat_eq ltac:(first [lra|nra]).

Definition alongz (Q : mat Z) : bool := (get Q 0 2 =? 0)%Z && (get Q 1 2 =? 0)%Z && (get Q 0 0 =? get Q 1 1)%Z && (get Q 0 1 =? get Q 1 0)%Z.
Definition alongx (Q : mat Z) : bool := (get Q 1 0 =? 0)%Z && (get Q 2 0 =? 0)%Z && (get Q 1 1 =? get Q 2 2)%Z && (get Q 1 2 =? get Q 2 1)%Z.
Lemma Vz_cubic Q : In Q CUBIC_LAUE_GROUP -> inpointgroup Vz (IntArr Q) = Ok (alongz Q).
Proof.
  intros HQ. assert (O : orthogonal 3 Q) by (apply cubic_iff in HQ; apply HQ). revert O. unfold CUBIC_LAUE_GROUP in HQ. cbn [In] in HQ.
  repeat match type of HQ with _ \/ _ => destruct HQ as [HQ|HQ] end; try contradiction; subst Q; intros O.
  - yes Vz (M3Z (1) (0) (0) (0) (1) (0) (0) (0) (1)).
  - no Vz 0%nat 0%nat (1)%Z.
  - no Vz 0%nat 0%nat (-1)%Z.
  - yes Vz (M3Z (-1) (0) (0) (0) (-1) (0) (0) (0) (1)).
  - yes Vz (M3Z (0) (1) (0) (1) (0) (0) (0) (0) (-1)).
  - yes Vz (M3Z (0) (-1) (0) (-1) (0) (0) (0) (0) (-1)).
  - no Vz 2%nat 0%nat (4)%Z.
  - no Vz 2%nat 0%nat (-4)%Z.
  - no Vz 2%nat 1%nat (4)%Z.
  - no Vz 2%nat 1%nat (-4)%Z.
  - no Vz 2%nat 1%nat (4)%Z.
  - no Vz 2%nat 1%nat (-4)%Z.
  - no Vz 2%nat 0%nat (-4)%Z.
  - no Vz 2%nat 0%nat (4)%Z.
  - no Vz 0%nat 1%nat (-1)%Z.
  - no Vz 0%nat 1%nat (1)%Z.
  - no Vz 2%nat 0%nat (4)%Z.
  - no Vz 2%nat 1%nat (4)%Z.
  - no Vz 2%nat 1%nat (4)%Z.
  - no Vz 2%nat 0%nat (-4)%Z.
  - no Vz 2%nat 0%nat (-4)%Z.
  - no Vz 2%nat 1%nat (-4)%Z.
  - no Vz 2%nat 1%nat (-4)%Z.
  - no Vz 2%nat 0%nat (4)%Z.
Qed.
Lemma Ux_cubic Q : In Q CUBIC_LAUE_GROUP -> inpointgroup Ux (IntArr Q) = Ok (alongx Q).
Proof.
  intros HQ. assert (O : orthogonal 3 Q) by (apply cubic_iff in HQ; apply HQ). revert O. unfold CUBIC_LAUE_GROUP in HQ. cbn [In] in HQ.
  repeat match type of HQ with _ \/ _ => destruct HQ as [HQ|HQ] end; try contradiction; subst Q; intros O.
  - yes Ux (M3Z (1) (0) (0) (0) (1) (0) (0) (0) (1)).
  - yes Ux (M3Z (1) (0) (0) (0) (-1) (0) (0) (0) (-1)).
  - no Ux 1%nat 1%nat (1)%Z.
  - no Ux 1%nat 1%nat (-1)%Z.
  - no Ux 0%nat 1%nat (4)%Z.
  - no Ux 0%nat 1%nat (-4)%Z.
  - no Ux 0%nat 2%nat (4)%Z.
  - no Ux 0%nat 2%nat (-4)%Z.
  - yes Ux (M3Z (-1) (0) (0) (0) (0) (1) (0) (1) (0)).
  - yes Ux (M3Z (-1) (0) (0) (0) (0) (-1) (0) (-1) (0)).
  - no Ux 1%nat 2%nat (-1)%Z.
  - no Ux 1%nat 2%nat (1)%Z.
  - no Ux 0%nat 2%nat (4)%Z.
  - no Ux 0%nat 2%nat (-4)%Z.
  - no Ux 0%nat 1%nat (-4)%Z.
  - no Ux 0%nat 1%nat (4)%Z.
  - no Ux 0%nat 1%nat (4)%Z.
  - no Ux 0%nat 2%nat (4)%Z.
  - no Ux 0%nat 2%nat (-4)%Z.
  - no Ux 0%nat 1%nat (-4)%Z.
  - no Ux 0%nat 1%nat (4)%Z.
  - no Ux 0%nat 2%nat (-4)%Z.
  - no Ux 0%nat 2%nat (4)%Z.
  - no Ux 0%nat 1%nat (-4)%Z.
Qed.
Lemma Vz_hex : keep Vz hex_arr = Ok (map (fun i => nth i HEX_LAUE_GROUP []) [0%nat; 3%nat; 4%nat; 5%nat; 6%nat; 7%nat]).
Proof.
  assert (O : forall Q, In Q HEX_LAUE_GROUP -> orthogonal 3 Q) by (intros Q HQ; apply (tabled_orth 3); [now right|]; cbn [tabled_isometries Nat.eqb]; apply in_or_app; now right).
  assert (H0 : inpointgroup Vz (FltArr (nth 0 HEX_LAUE_GROUP [])) = Ok true).
  { assert (OQ : orthogonal 3 (nth 0 HEX_LAUE_GROUP [])) by (apply O, nth_In; cbn; lia). revert OQ. cbn [nth HEX_LAUE_GROUP]. rewrite ?C1_half, ?S1_half. intros OQ. yes Vz (M3Z (1) (0) (0) (0) (1) (0) (0) (0) (1)). }
  assert (H1 : inpointgroup Vz (FltArr (nth 1 HEX_LAUE_GROUP [])) = Ok false).
  { assert (OQ : orthogonal 3 (nth 1 HEX_LAUE_GROUP [])) by (apply O, nth_In; cbn; lia). revert OQ. cbn [nth HEX_LAUE_GROUP]. rewrite ?C1_half, ?S1_half. intros OQ. no Vz 0%nat 0%nat (1)%Z. }
  assert (H2 : inpointgroup Vz (FltArr (nth 2 HEX_LAUE_GROUP [])) = Ok false).
  { assert (OQ : orthogonal 3 (nth 2 HEX_LAUE_GROUP [])) by (apply O, nth_In; cbn; lia). revert OQ. cbn [nth HEX_LAUE_GROUP]. rewrite ?C1_half, ?S1_half. intros OQ. no Vz 0%nat 0%nat (-1)%Z. }
  assert (H3 : inpointgroup Vz (FltArr (nth 3 HEX_LAUE_GROUP [])) = Ok true).
  { assert (OQ : orthogonal 3 (nth 3 HEX_LAUE_GROUP [])) by (apply O, nth_In; cbn; lia). revert OQ. cbn [nth HEX_LAUE_GROUP]. rewrite ?C1_half, ?S1_half. intros OQ. yes Vz (M3Z (-1) (0) (0) (0) (-1) (0) (0) (0) (1)). }
  assert (H4 : inpointgroup Vz (FltArr (nth 4 HEX_LAUE_GROUP [])) = Ok true).
  { assert (OQ : orthogonal 3 (nth 4 HEX_LAUE_GROUP [])) by (apply O, nth_In; cbn; lia). revert OQ. cbn [nth HEX_LAUE_GROUP]. rewrite ?C1_half, ?S1_half. intros OQ. yes Vz (M3Z (0) (-1) (0) (1) (1) (0) (0) (0) (1)). }
  assert (H5 : inpointgroup Vz (FltArr (nth 5 HEX_LAUE_GROUP [])) = Ok true).
  { assert (OQ : orthogonal 3 (nth 5 HEX_LAUE_GROUP [])) by (apply O, nth_In; cbn; lia). revert OQ. cbn [nth HEX_LAUE_GROUP]. rewrite ?C1_half, ?S1_half. intros OQ. yes Vz (M3Z (1) (1) (0) (-1) (0) (0) (0) (0) (1)). }
  assert (H6 : inpointgroup Vz (FltArr (nth 6 HEX_LAUE_GROUP [])) = Ok true).
  { assert (OQ : orthogonal 3 (nth 6 HEX_LAUE_GROUP [])) by (apply O, nth_In; cbn; lia). revert OQ. cbn [nth HEX_LAUE_GROUP]. rewrite ?C1_half, ?S1_half. intros OQ. yes Vz (M3Z (-1) (-1) (0) (1) (0) (0) (0) (0) (1)). }
  assert (H7 : inpointgroup Vz (FltArr (nth 7 HEX_LAUE_GROUP [])) = Ok true).
  { assert (OQ : orthogonal 3 (nth 7 HEX_LAUE_GROUP [])) by (apply O, nth_In; cbn; lia). revert OQ. cbn [nth HEX_LAUE_GROUP]. rewrite ?C1_half, ?S1_half. intros OQ. yes Vz (M3Z (0) (1) (0) (-1) (-1) (0) (0) (0) (1)). }
  assert (H8 : inpointgroup Vz (FltArr (nth 8 HEX_LAUE_GROUP [])) = Ok false).
  { assert (OQ : orthogonal 3 (nth 8 HEX_LAUE_GROUP [])) by (apply O, nth_In; cbn; lia). revert OQ. cbn [nth HEX_LAUE_GROUP]. rewrite ?C1_half, ?S1_half. intros OQ. no Vz 1%nat 0%nat (-1)%Z. }
  assert (H9 : inpointgroup Vz (FltArr (nth 9 HEX_LAUE_GROUP [])) = Ok false).
  { assert (OQ : orthogonal 3 (nth 9 HEX_LAUE_GROUP [])) by (apply O, nth_In; cbn; lia). revert OQ. cbn [nth HEX_LAUE_GROUP]. rewrite ?C1_half, ?S1_half. intros OQ. no Vz 0%nat 1%nat (1)%Z. }
  assert (H10 : inpointgroup Vz (FltArr (nth 10 HEX_LAUE_GROUP [])) = Ok false).
  { assert (OQ : orthogonal 3 (nth 10 HEX_LAUE_GROUP [])) by (apply O, nth_In; cbn; lia). revert OQ. cbn [nth HEX_LAUE_GROUP]. rewrite ?C1_half, ?S1_half. intros OQ. no Vz 0%nat 1%nat (-1)%Z. }
  assert (H11 : inpointgroup Vz (FltArr (nth 11 HEX_LAUE_GROUP [])) = Ok false).
  { assert (OQ : orthogonal 3 (nth 11 HEX_LAUE_GROUP [])) by (apply O, nth_In; cbn; lia). revert OQ. cbn [nth HEX_LAUE_GROUP]. rewrite ?C1_half, ?S1_half. intros OQ. no Vz 1%nat 0%nat (1)%Z. }
  unfold hex_arr. change HEX_LAUE_GROUP with (map (fun i => nth i HEX_LAUE_GROUP []) (seq 0 12)) at 1. cbn [seq map keep].
  rewrite H0, H1, H2, H3, H4, H5, H6, H7, H8, H9, H10, H11. reflexivity.
Qed.
Lemma Ux_hex : keep Ux hex_arr = Ok (map (fun i => nth i HEX_LAUE_GROUP []) [0%nat; 1%nat]).
Proof.
  assert (O : forall Q, In Q HEX_LAUE_GROUP -> orthogonal 3 Q) by (intros Q HQ; apply (tabled_orth 3); [now right|]; cbn [tabled_isometries Nat.eqb]; apply in_or_app; now right).
  assert (H0 : inpointgroup Ux (FltArr (nth 0 HEX_LAUE_GROUP [])) = Ok true).
  { assert (OQ : orthogonal 3 (nth 0 HEX_LAUE_GROUP [])) by (apply O, nth_In; cbn; lia). revert OQ. cbn [nth HEX_LAUE_GROUP]. rewrite ?C1_half, ?S1_half. intros OQ. yes Ux (M3Z (1) (0) (0) (0) (1) (0) (0) (0) (1)). }
  assert (H1 : inpointgroup Ux (FltArr (nth 1 HEX_LAUE_GROUP [])) = Ok true).
  { assert (OQ : orthogonal 3 (nth 1 HEX_LAUE_GROUP [])) by (apply O, nth_In; cbn; lia). revert OQ. cbn [nth HEX_LAUE_GROUP]. rewrite ?C1_half, ?S1_half. intros OQ. yes Ux (M3Z (1) (0) (0) (0) (-1) (0) (0) (0) (-1)). }
  assert (H2 : inpointgroup Ux (FltArr (nth 2 HEX_LAUE_GROUP [])) = Ok false).
  { assert (OQ : orthogonal 3 (nth 2 HEX_LAUE_GROUP [])) by (apply O, nth_In; cbn; lia). revert OQ. cbn [nth HEX_LAUE_GROUP]. rewrite ?C1_half, ?S1_half. intros OQ. no Ux 1%nat 1%nat (1)%Z. }
  assert (H3 : inpointgroup Ux (FltArr (nth 3 HEX_LAUE_GROUP [])) = Ok false).
  { assert (OQ : orthogonal 3 (nth 3 HEX_LAUE_GROUP [])) by (apply O, nth_In; cbn; lia). revert OQ. cbn [nth HEX_LAUE_GROUP]. rewrite ?C1_half, ?S1_half. intros OQ. no Ux 1%nat 1%nat (-1)%Z. }
  assert (H4 : inpointgroup Ux (FltArr (nth 4 HEX_LAUE_GROUP [])) = Ok false).
  { assert (OQ : orthogonal 3 (nth 4 HEX_LAUE_GROUP [])) by (apply O, nth_In; cbn; lia). revert OQ. cbn [nth HEX_LAUE_GROUP]. rewrite ?C1_half, ?S1_half. intros OQ. no Ux 1%nat 0%nat (0)%Z. }
  assert (H5 : inpointgroup Ux (FltArr (nth 5 HEX_LAUE_GROUP [])) = Ok false).
  { assert (OQ : orthogonal 3 (nth 5 HEX_LAUE_GROUP [])) by (apply O, nth_In; cbn; lia). revert OQ. cbn [nth HEX_LAUE_GROUP]. rewrite ?C1_half, ?S1_half. intros OQ. no Ux 1%nat 0%nat (0)%Z. }
  assert (H6 : inpointgroup Ux (FltArr (nth 6 HEX_LAUE_GROUP [])) = Ok false).
  { assert (OQ : orthogonal 3 (nth 6 HEX_LAUE_GROUP [])) by (apply O, nth_In; cbn; lia). revert OQ. cbn [nth HEX_LAUE_GROUP]. rewrite ?C1_half, ?S1_half. intros OQ. no Ux 1%nat 0%nat (0)%Z. }
  assert (H7 : inpointgroup Ux (FltArr (nth 7 HEX_LAUE_GROUP [])) = Ok false).
  { assert (OQ : orthogonal 3 (nth 7 HEX_LAUE_GROUP [])) by (apply O, nth_In; cbn; lia). revert OQ. cbn [nth HEX_LAUE_GROUP]. rewrite ?C1_half, ?S1_half. intros OQ. no Ux 1%nat 0%nat (0)%Z. }
  assert (H8 : inpointgroup Ux (FltArr (nth 8 HEX_LAUE_GROUP [])) = Ok false).
  { assert (OQ : orthogonal 3 (nth 8 HEX_LAUE_GROUP [])) by (apply O, nth_In; cbn; lia). revert OQ. cbn [nth HEX_LAUE_GROUP]. rewrite ?C1_half, ?S1_half. intros OQ. no Ux 1%nat 0%nat (0)%Z. }
  assert (H9 : inpointgroup Ux (FltArr (nth 9 HEX_LAUE_GROUP [])) = Ok false).
  { assert (OQ : orthogonal 3 (nth 9 HEX_LAUE_GROUP [])) by (apply O, nth_In; cbn; lia). revert OQ. cbn [nth HEX_LAUE_GROUP]. rewrite ?C1_half, ?S1_half. intros OQ. no Ux 1%nat 0%nat (0)%Z. }
  assert (H10 : inpointgroup Ux (FltArr (nth 10 HEX_LAUE_GROUP [])) = Ok false).
  { assert (OQ : orthogonal 3 (nth 10 HEX_LAUE_GROUP [])) by (apply O, nth_In; cbn; lia). revert OQ. cbn [nth HEX_LAUE_GROUP]. rewrite ?C1_half, ?S1_half. intros OQ. no Ux 1%nat 0%nat (0)%Z. }
  assert (H11 : inpointgroup Ux (FltArr (nth 11 HEX_LAUE_GROUP [])) = Ok false).
  { assert (OQ : orthogonal 3 (nth 11 HEX_LAUE_GROUP [])) by (apply O, nth_In; cbn; lia). revert OQ. cbn [nth HEX_LAUE_GROUP]. rewrite ?C1_half, ?S1_half. intros OQ. no Ux 1%nat 0%nat (0)%Z. }
  unfold hex_arr. change HEX_LAUE_GROUP with (map (fun i => nth i HEX_LAUE_GROUP []) (seq 0 12)) at 1. cbn [seq map keep].
  rewrite H0, H1, H2, H3, H4, H5, H6, H7, H8, H9, H10, H11. reflexivity.
Qed.
