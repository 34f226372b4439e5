(** The tree search for concrete lattices: the Cauchy distance meets the hypotheses of the
    general theorems (C50, C51, C70). *)
From Verif Require Import LinAlg Hom GroupModel GroupSpec GroupProofs DistModel DistSpec DistProofs ReduceSpec ReduceProofs DirectConcSpec
  DirectSpec DirectConcrete DirectConcProofs DirectExample TreeSpec TreeProofs TreeDfs.
Local Open Scope Z_scope.

(** lat_opt.py:97: dist = lambda x: Cauchy_dist(x, E1, E2inv) *)
Definition tree_dist (E1 E2 : mat R) (E : mat Z) : R := lat_dist E1 E2 (flatten E).

Lemma tree_dist_symmetric n E1 E2 LG1 LG2 : lattice_pair n E1 E2 LG1 LG2 ->
  symmetric_dist n LG1 LG2 (tree_dist E1 E2).
Proof.
  intros HP E E' W W' (q1 & q2 & H1 & H2 & HE). pose proof HP as (Hd & _).
  apply (lat_dist_inv n E1 E2 LG1 LG2 HP); [now rewrite (length_flatten n n)|now rewrite (length_flatten n n)|].
  exists q1, q2. split; [exact H1|]. split; [exact H2|]. rewrite !reshape_flatten by assumption. exact HE.
Qed.

Lemma tree_dist_finite E1 E2 LG1 LG2 : lattice_pair 3 E1 E2 LG1 LG2 -> finitely_many_closer (tree_dist E1 E2).
Proof.
  intros HP d. pose proof HP as (Hd & W1 & W2 & D1 & D2 & _).
  destruct (quartic_positive 3 E1 E2 Hd W1 W2 D1 D2) as (alpha & Ha & Hq).
  destruct (lat_dist_finite 3 E1 E2 LG1 LG2 HP alpha d (conj Ha Hq)) as [S HS].
  exists (map (reshape 3) S). intros E WE HE. apply in_map_iff. exists (flatten E).
  split; [now apply reshape_flatten|]. apply HS; [now rewrite (length_flatten 3 3)|exact HE].
Qed.

Lemma cubic_pair : lattice_pair 3 (eye 3) (eye 3) CUBIC_LAUE_GROUP CUBIC_LAUE_GROUP.
Proof.
  assert (Z : ztable_ok 3 CUBIC_LAUE_GROUP = true) by (vm_compute; reflexivity).
  assert (D : det (eye 3) <> 0%R) by (rewrite det_eye by (now right); lra).
  split; [now right|]. split; [apply wf_eye|]. split; [apply wf_eye|]. split; [exact D|]. split; [exact D|].
  split; [now apply ztable_group|]. split; [now apply ztable_group|].
  split; intros M HM; apply (ztable_isometry 3 CUBIC_LAUE_GROUP); auto.
Qed.

(** a start that is not a local minimum: one shear away from the perfect match *)
Lemma cubic_dist E : wf 3 3 E -> tree_dist (eye 3) (eye 3) E =
  IZR (let v := flatten (msub (mmul E (tr E)) (eye 3)) in dot v v).
Proof.
  intros W. apply wf3_inv in W. destruct W as (a & b & c & d & e & f & g & h & i & ->).
  unfold tree_dist, lat_dist, Cauchy_dist. rewrite minv_eye by (now right).
  cbn -[IZR Z.mul Z.add Z.sub]. repeat rewrite ?plus_IZR, ?mult_IZR, ?minus_IZR, ?opp_IZR. ring.
Qed.
Lemma cubic_start : wf 3 3 (shear 0 1 2) /\ ~ local_min (tree_dist (eye 3) (eye 3)) (shear 0 1 2).
Proof.
  split; [apply wf_shear|]. intros H. specialize (H (mmul (shear 0 1 2) (shear 0 1 (-1)))).
  rewrite !cubic_dist in H; [|apply (wf_mmul 3 3 3); try lia; apply wf_shear|apply wf_shear].
  assert (N : neighbour (shear 0 1 2) (mmul (shear 0 1 2) (shear 0 1 (-1)))) by (exists 0%nat, 1%nat, (-1); repeat split; auto; lia).
  specialize (H N). apply le_IZR in H. vm_compute in H. now apply H.
Qed.

(** update_solutions compares distances only *)
Lemma cubic_visits : Forall (wf 3 3) [shear 0 1 1; shear 0 2 1; eye 3] /\
  map fst (fst (visits (tree_dist (eye 3) (eye 3)) CUBIC_LAUE_GROUP CUBIC_LAUE_GROUP 2 [shear 0 1 1; shear 0 2 1; eye 3])) =
  [eye 3; shear 0 1 1].
Proof.
  split; [constructor; [apply wf_shear|]; constructor; [apply wf_shear|]; constructor; [apply wf_eye|constructor]|].
  assert (D1 : tree_dist (eye 3) (eye 3) (shear 0 1 1) = 3%R) by (rewrite cubic_dist by apply wf_shear; reflexivity).
  assert (D0 : tree_dist (eye 3) (eye 3) (eye 3) = 0%R) by (rewrite cubic_dist by apply wf_eye; reflexivity).
  set (G := CUBIC_LAUE_GROUP). set (d := tree_dist (eye 3) (eye 3)) in *. unfold visits. cbn [fold_left].
  set (X := ext_sols G G (shear 0 1 1)).
  assert (S1 : visit d G G 2 ([], []) (shear 0 1 1) = ([(shear 0 1 1, d (shear 0 1 1))], X)) by reflexivity.
  assert (S2 : visit d G G 2 ([(shear 0 1 1, d (shear 0 1 1))], X) (shear 0 2 1) = ([(shear 0 1 1, d (shear 0 1 1))], X)).
  { unfold visit, update_solutions. replace (mem_mat (shear 0 2 1) X) with true by (vm_compute; reflexivity). reflexivity. }
  rewrite S1, S2. unfold visit, update_solutions.
  replace (mem_mat (eye 3) X) with false by (vm_compute; reflexivity).
  cbn [insert_sol snd fst]. rewrite D1, D0. rewrite (proj2 (Rleb_spec 0 3)) by lra. reflexivity.
Qed.
