(** The direct search run on the square lattice against itself (counterexamples of C48, C57). *)
From Coq Require Import FunctionalExtensionality.
From Verif Require Import LinAlg Hom GroupModel GroupSpec GroupProofs ReduceSpec ReduceProofs DistSpec DistProofs VecGenModel
  VecGenProofs DirectSpec DirectProofs DirectTransfer DirectConcrete DirectConcSpec DirectConcProofs.
Local Open Scope Z_scope.

Lemma ztable_group n T : ztable_ok n T = true -> matrix_group n T.
Proof.
  intros H. unfold ztable_ok in H.
  apply andb_true_iff in H. destruct H as [H Hnd].
  apply andb_true_iff in H. destruct H as [H Htr].
  apply andb_true_iff in H. destruct H as [H Hcl].
  apply andb_true_iff in H. destruct H as [Hwf Hid].
  rewrite forallb_forall in Hwf, Hcl, Htr.
  split; [|split; [|split]].
  - intros g Hg. apply wfb_spec. auto.
  - now apply mem_mat_In.
  - intros g h Hg Hh. specialize (Hcl g Hg). rewrite forallb_forall in Hcl. apply mem_mat_In. auto.
  - intros g Hg. specialize (Htr g Hg). apply andb_true_iff in Htr. destruct Htr as [Htr H3].
    apply andb_true_iff in Htr. destruct Htr as [H1 H2].
    apply mem_mat_In in H1. apply mat_eqb_eq in H2, H3. exists (tr g). auto.
Qed.

Lemma ztable_isometry n T M : (0 < n)%nat -> ztable_ok n T = true -> In M T -> isometry_of n (eye n) (RZ M).
Proof.
  intros Hn H HM. destruct (ztable_good n T H) as [_ HO].
  destruct (HO (RZ M)) as (O & _ & _); [now apply in_map|].
  split; [apply O|]. exists (RZ M). split; [exact O|].
  rewrite (mmul_eye_l n n), (mmul_eye_r n n); auto; apply O.
Qed.

Lemma square_pair : lattice_pair 2 (eye 2) (eye 2) SQUARE_EXT_GROUP SQUARE_EXT_GROUP.
Proof.
  assert (Z : ztable_ok 2 SQUARE_EXT_GROUP = true) by reflexivity.
  assert (D : det (eye 2) <> 0%R) by (rewrite det_eye by (now left); lra).
  split; [now left|]. split; [apply wf_eye|]. split; [apply wf_eye|]. split; [exact D|]. split; [exact D|].
  split; [now apply ztable_group|]. split; [now apply ztable_group|].
  split; intros M HM; apply (ztable_isometry 2 SQUARE_EXT_GROUP); auto.
Qed.

Lemma square_bound : quartic_bound 2 (eye 2) (eye 2) (1 / 2).
Proof.
  split; [lra|]. intros u Lu Hu. rewrite minv_eye by (now left).
  rewrite (quartic_is_fro 2) by (try lia; apply wf_eye). cbn zeta. unfold Finv_of.
  set (L := reshape 2 u). assert (WL : wf 2 2 L) by apply wf_reshape.
  rewrite (mmul_eye_l 2 2), (mmul_eye_r 2 2) by (try lia; try exact WL).
  pose proof (fro2_gram_lower 2 L ltac:(lia) WL) as G.
  rewrite (len2_fro 2) in Hu by exact Lu. fold L in Hu. rewrite Hu, pow1 in G. replace (INR 2) with 2%R in G by (cbn; lra). lra.
Qed.

Definition zdist (l : list Z) : Z :=
  let L := reshape 2 l in
  let v := flatten (msub (mmul L (tr L)) (eye 2)) in dot v v.
Lemma square_dist l : length l = 4%nat -> lat_dist (eye 2) (eye 2) l = IZR (zdist l).
Proof.
  destruct l as [|a [|b [|c [|d [|]]]]]; try discriminate. intros _.
  unfold lat_dist, Cauchy_dist. rewrite minv_eye by (now left).
  unfold zdist. cbn. repeat rewrite ?plus_IZR, ?mult_IZR, ?minus_IZR, ?opp_IZR. ring.
Qed.

Lemma square_guess : guess (eye 2) (eye 2) = eye 2.
Proof.
  unfold guess. rewrite minv_eye by (now left). rewrite (mmul_eye_l 2 2) by (try lia; apply wf_eye).
  cbn. change 0%R with (IZR 0). change 1%R with (IZR 1). now rewrite !Rfloor_IZR.
Qed.
Lemma vol_ok_tenth : vol_ok (1 / 10) = Z.eqb 1.
Proof.
  apply functional_extensionality. intros d. unfold vol_ok.
  destruct (Z.eqb_spec 1 d) as [<-|H].
  - apply andb_true_iff. split; apply Rltb_spec; lra.
  - apply andb_false_iff. destruct (Z_lt_le_dec d 1) as [L|L].
    + left. apply Rltb_false. apply Rle_trans with 0%R; [apply (IZR_le d 0); lia|lra].
    + right. apply Rltb_false. apply Rle_trans with 2%R; [lra|apply (IZR_le 2 d); lia].
Qed.

(** random draws: the shear (1 1; 0 1) once, then (2 1; 1 1) *)
Definition draws : list (mat Z) := [[0; 1]; [0; 0]] :: repeat [[1; 1]; [1; 0]] 19.
Lemma draws_wf : Forall (wf 2 2) draws.
Proof. apply Forall_forall. intros M HM. apply wfb_spec. revert M HM. apply forallb_forall. reflexivity. Qed.

Definition zinit : @state Z := Eval vm_compute in
  match init_search 2 SQUARE_EXT_GROUP SQUARE_EXT_GROUP zdist 1 (Z.eqb 1) (eye 2) draws with
  | Ok st => st | _ => ([], [], None) end.
Lemma zinit_ok : init_search 2 SQUARE_EXT_GROUP SQUARE_EXT_GROUP zdist 1 (Z.eqb 1) (eye 2) draws = Ok zinit.
Proof. vm_compute. reflexivity. Qed.

Lemma IZR_order a b : dle (IZR a) (IZR b) = dle a b.
Proof.
  cbn. destruct (Z.leb_spec a b) as [H|H].
  - apply Rleb_spec. now apply IZR_le.
  - apply Rleb_false. now apply IZR_lt.
Qed.

Definition rinit : @state R := fst_ IZR zinit.
Lemma rinit_ok : direct_init 2 (eye 2) (eye 2) SQUARE_EXT_GROUP SQUARE_EXT_GROUP 1 (1 / 10) draws = Ok rinit.
Proof.
  unfold direct_init, init_search. rewrite square_guess, vol_ok_tenth.
  change ([], [], None) with (fst_ IZR ([], [], None)) at 1.
  rewrite (init_loop_f IZR IZR_order 2 SQUARE_EXT_GROUP SQUARE_EXT_GROUP zdist _ square_dist 1 (Z.eqb 1) (eye 2)
             ltac:(lia) (wf_eye 2) _ _ _ draws_wf).
  pose proof zinit_ok as E. unfold init_search in E. rewrite E. reflexivity.
Qed.

Definition zball : list (list Z) := Eval vm_compute in
  match vec_generator_sq 4 4 (Some [0; 0; 0; 0]) with Ok l => l | _ => [] end.
Lemma square_ball : ball_gen 2 (1 / 2) (snd rinit) (repeat 0 4) = Ok zball.
Proof.
  cbn [rinit fst_ zinit snd option_map ball_gen].
  assert (E : (rmax (1 / 2) 3 * rmax (1 / 2) 3 = sqrt 24)%R).
  { unfold rmax. rewrite sqrt_sqrt by apply sqrt_pos. f_equal. unfold gamma.
    replace (3 * 3)%R with (3 ^ 2)%R by ring. rewrite sqrt_pow2 by lra. lra. }
  assert (P : (0 <= rmax (1 / 2) 3)%R) by apply sqrt_pos.
  rewrite (vec_gen_rel _ _ _ _ (rel_floor _ P)). rewrite E.
  assert (F : Rfloor (sqrt 24) = 4).
  { apply Rfloor_unique. split.
    - replace (IZR 4) with (sqrt (4 ^ 2)) by (rewrite sqrt_pow2; lra). apply sqrt_le_1; lra.
    - replace (IZR 4 + 1)%R with (sqrt (5 ^ 2)) by (rewrite sqrt_pow2; lra). apply sqrt_lt_1; lra. }
  rewrite F. vm_compute. reflexivity.
Qed.

Lemma square_stops fuel : direct_search 2 (eye 2) (eye 2) SQUARE_EXT_GROUP SQUARE_EXT_GROUP 1 (1 / 2) 100 (S fuel) rinit
  = Raise StopIteration.
Proof.
  unfold direct_search, search. cbn [DirectModel.outer]. change (2 * 2)%nat with 4%nat.
  rewrite square_ball. cbn [bind]. unfold rinit.
  rewrite (inner_f IZR IZR_order 2 SQUARE_EXT_GROUP SQUARE_EXT_GROUP zdist _ square_dist).
  - replace (inner _ _ _ _ _ _ _ _ _) with (@Raise (@state Z * option (list Z)) StopIteration)
      by (vm_compute; reflexivity). reflexivity.
  - apply Forall_forall. intros l Hl. apply Nat.eqb_eq. revert l Hl. apply forallb_forall. vm_compute. reflexivity.
Qed.

Lemma square_para nb fuel : (1 <= nb)%nat ->
  direct_para 2 (eye 2) (eye 2) SQUARE_EXT_GROUP SQUARE_EXT_GROUP 1 (1 / 2) 100 nb (S fuel) rinit = Ok rinit.
Proof.
  intros Hnb. unfold direct_para. cbn [DirectModel.par_loop]. change (2 * 2)%nat with 4%nat.
  rewrite square_ball. cbn [bind]. destruct nb as [|nb]; [lia|].
  assert (E : forall k, exists ss, slices 100 k (@nil (list Z)) = (ss, [])).
  { induction k as [|k (ss & IH)]; cbn; [eauto|]. rewrite IH. eauto. }
  cbn [slices]. change (skipn 100 zball) with (@nil (list Z)). destruct (E nb) as (ss & ->). reflexivity.
Qed.
