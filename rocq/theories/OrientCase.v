(** Cases for C112: lattices whose base is an integer matrix divided by 3, turned from the simple cubic one. *)
From Verif Require Import LinAlg RMat GroupModel GroupSpec GroupProofs HnfSpec LatticeModel LatticeSpec LatticeProofs LatticeGroups LatticeLaue LatticeComplete
  LLLModel DistModel TreeModel TreeProofs TreeSpec LatCorModel LatCorCase SelfSearch PropLattice DirectProofs.
Local Open Scope R_scope.

Definition third (N : mat Z) : mat R := mscale (1 / 3) (RZ N).
(** N^T M N *)
Definition cj (N M : mat Z) : mat Z := mmul (mmul (tr N) M) N.
Definition fits (N M : mat Z) : bool := forallb (fun x => (x mod 9 =? 0)%Z) (concat (cj N M)).
Definition found (N : mat Z) : list (mat Z) := filter (fits N) CUBIC_LAUE_GROUP.

Section Third.
  Variable N : mat Z.
  Hypothesis WN : wf 3 3 N.
  Hypothesis HN : mmul (tr N) N = [[9; 0; 0]; [0; 9; 0]; [0; 0; 9]]%Z.
  Lemma third_orth : orthogonal 3 (third N).
  Proof.
    assert (d : dim23 3) by (now right). assert (W : wf 3 3 (third N)) by (apply wf_mscale; [lia|now apply wf_RZ]).
    assert (H : mmul (tr (third N)) (third N) = eye 3).
    { transitivity (mscale (1/9) (RZ (mmul (tr N) N))); [|rewrite HN; unfold RZ, mmap; cbn [map]; mat_eq ltac:(lra)].
      rewrite RZ_mmul, RZ_tr. pose proof (wf_RZ 3 3 N WN) as WR. unfold third. clear W. generalize dependent (RZ N). intros X WX. destruct (wf3_inv X WX) as (a&b&c&e&f&g&h&i&k&->). mat_eq ltac:(field). }
    split; [exact W|]. assert (WT : wf 3 3 (tr (third N))) by (apply wf_tr'; auto; lia).
    pose proof (orth_tr 3 (tr (third N)) d) as K. rewrite (tr_tr 3 3) in K by (auto; lia). apply K. split; [exact WT|]. rewrite (tr_tr 3 3) by (auto; lia). exact H.
  Qed.
  Lemma third_base : base 3 (third N).
  Proof.
    assert (d : dim23 3) by (now right). split; [exact d|]. split; [apply third_orth|]. apply (orth_inv 3 _ d third_orth).
  Qed.
  Lemma third_A M : wf 3 3 M -> mmul (minv (third N)) (mmul (RZ M) (third N)) = mscale (1/9) (RZ (cj N M)).
  Proof.
    intros WM. assert (d : dim23 3) by (now right). rewrite (proj1 (orth_inv 3 _ d third_orth)). unfold cj. rewrite !RZ_mmul, RZ_tr.
    pose proof (wf_RZ 3 3 N WN) as WR. pose proof (wf_RZ 3 3 M WM) as WR'. unfold third. generalize dependent (RZ M). generalize dependent (RZ N). intros X WX Y WY.
    destruct (wf3_inv X WX) as (a&b&c&e&f&g&h&i&k&->). destruct (wf3_inv Y WY) as (a'&b'&c'&e'&f'&g'&h'&i'&k'&->). mat_eq ltac:(field).
  Qed.
  Lemma near9 x z : Rabs (1 / 9 * IZR x - IZR z) <= 1 / 100000000 + 1 / 100000 * Rabs (IZR z) -> Rabs (1/9 * IZR x) <= 1000 -> x = (9 * z)%Z.
  Proof.
    intros H X. assert (H' : Rabs (IZR x - IZR (9 * z)) < 1).
    { rewrite mult_IZR. unfold Rabs in *. destruct (Rcase_abs (1 / 9 * IZR x - IZR z)), (Rcase_abs (IZR z)), (Rcase_abs (1 / 9 * IZR x)), (Rcase_abs (IZR x - 9 * IZR z)); lra. }
    rewrite <- minus_IZR, <- abs_IZR in H'. apply lt_IZR in H'. lia.
  Qed.
  Definition small (M : mat Z) : bool := forallb (fun x => (Z.abs x <? 9000)%Z) (concat (cj N M)).
  Hypothesis SM : forallb small CUBIC_LAUE_GROUP = true.
  Lemma cubic_wf M : In M CUBIC_LAUE_GROUP -> wf 3 3 M.
  Proof. intros H. apply cubic_iff in H. apply H. Qed.
  Lemma wf_cj M : wf 3 3 M -> wf 3 3 (cj N M).
  Proof. intros W. unfold cj. apply (wf_mmul 3 3 3); auto; try lia. apply (wf_mmul 3 3 3); auto; try lia. apply wf_tr'; auto; lia. Qed.
  Lemma in_concat3 (A : mat Z) i j : wf 3 3 A -> (i < 3)%nat -> (j < 3)%nat -> In (get A i j) (concat A).
  Proof. intros W Hi Hj. destruct (wf3_inv A W) as (a&b&c&e&f&g&h&k&l&->). destruct i as [|[|[|i]]], j as [|[|[|j]]]; try lia; cbn; tauto. Qed.
  Lemma accept9 M : In M CUBIC_LAUE_GROUP -> inpointgroup (third N) (IntArr M) = Ok (fits N M).
  Proof.
    intros HM. pose proof third_base as B. pose proof (cubic_wf M HM) as WM. assert (OM : orthogonal 3 M) by (now apply cubic_iff). pose proof (wf_cj M WM) as WC.
    assert (OA : orth_arr 3 (IntArr M)) by exact OM. pose proof (orth_arr_values 3 _ OA) as OV. cbn [values] in OV.
    assert (WQE : wf 3 3 (mmul (RZ M) (third N))) by (apply (wf_mmul 3 3 3); [now apply wf_RZ|apply B|lia]).
    destruct (fits N M) eqn:F.
    - apply (inpoint_preserves 3 _ B); [exact OA|]. apply (preserves_iff 3 _ B); [exact OV|]. exists (mmap (fun x => x / 9)%Z (cj N M)). cbn [values].
      assert (WD : wf 3 3 (mmap (fun x => x / 9)%Z (cj N M))) by (now apply wf_mmap). split; [exact WD|].
      apply (solve_left 3 _ B _ _ WQE (wf_RZ 3 3 _ WD)). rewrite third_A by exact WM. unfold fits in F. clear -F WC. destruct (wf3_inv _ WC) as (a&b&c&e&f&g&h&k&l&E). rewrite E in *.
      cbn [concat app forallb] in F. rewrite !Bool.andb_true_iff, !Z.eqb_eq in F.
      assert (K : forall x, (x mod 9 = 0)%Z -> 1/9 * IZR x = IZR (x / 9)). { intros x Hx. rewrite (Z.div_mod x 9) at 1 by lia. rewrite Hx, Z.add_0_r, mult_IZR. field. }
      unfold RZ, mmap. cbn [map]. rewrite <- !K by tauto. mat_eq ltac:(ring).
    - destruct (inpoint_total 3 _ B (IntArr M) OA) as (b & Hb). rewrite Hb. destruct b; [|reflexivity]. exfalso.
      rewrite (inpoint_red 3 _ B) in Hb by exact OA. cbn [values] in Hb. apply (lat_eq_near 3 _ B) in Hb; [|exact WQE]. rewrite third_A in Hb by exact WM.
      assert (T : fits N M = true); [|congruence]. unfold fits. apply forallb_forall. intros x Hx. apply Z.eqb_eq.
      assert (exists i j, (i < 3)%nat /\ (j < 3)%nat /\ x = get (cj N M) i j) as (i & j & Hi & Hj & ->).
      { clear -Hx WC. destruct (wf3_inv _ WC) as (a&b&c&e&f&g&h&k&l&E). rewrite E in *. cbn in Hx. 
        repeat (destruct Hx as [Hx|Hx]; [subst x; first [now exists 0%nat, 0%nat; repeat split; lia|now exists 0%nat, 1%nat; repeat split; lia|now exists 0%nat, 2%nat; repeat split; lia|
          now exists 1%nat, 0%nat; repeat split; lia|now exists 1%nat, 1%nat; repeat split; lia|now exists 1%nat, 2%nat; repeat split; lia|now exists 2%nat, 0%nat; repeat split; lia|
          now exists 2%nat, 1%nat; repeat split; lia|now exists 2%nat, 2%nat; repeat split; lia]|]). destruct Hx. }
      specialize (Hb i j Hi Hj). rewrite (get_mscale 3 3) in Hb by (auto; now apply wf_RZ). cbn [mul R_ops] in Hb. rewrite get_RZ in Hb. apply near9 in Hb.
      + rewrite Hb. rewrite Z.mul_comm. apply Z.mod_mul. lia.
      + pose proof (proj1 (forallb_forall _ _) SM M HM) as S0. unfold small in S0. pose proof (proj1 (forallb_forall _ _) S0 _ (in_concat3 _ i j WC Hi Hj)) as S1'. apply Z.ltb_lt in S1'.
        apply IZR_lt in S1'. rewrite abs_IZR in S1'. rewrite Rabs_mult, (Rabs_pos_eq (1/9)) by lra. lra.
  Qed.
  Lemma keep9 : forall T, (forall M, In M T -> In M CUBIC_LAUE_GROUP) -> keep (third N) (map IntArr T) = Ok (map RZ (filter (fits N) T)).
  Proof.
    induction T as [|M T IH]; intros H; cbn [map keep filter]; [reflexivity|]. rewrite accept9 by (apply H; now left). cbn [bind]. rewrite IH by (intros; apply H; now right). cbn [bind].
    destruct (fits N M); reflexivity.
  Qed.
  Lemma pick9 T : (forall M, In M T -> In M CUBIC_LAUE_GROUP) -> length (filter (fits N) T) <> 4%nat -> pick_group (third N) (map IntArr T) hex_arr 4 = Ok (map RZ (filter (fits N) T)).
  Proof.
    intros H L. unfold pick_group. rewrite keep9 by exact H. cbn [bind]. rewrite map_length. rewrite (proj2 (Nat.eqb_neq _ _) L). reflexivity.
  Qed.
  Lemma laue9 : length (found N) <> 4%nat -> Laue_group (third N) = Ok (map RZ (found N)).
  Proof.
    unfold found, Laue_group. rewrite (len_base 3 _ third_base). unfold cubic_arr. exact (pick9 CUBIC_LAUE_GROUP (fun M H => H)).
  Qed.
  Lemma rep9 T : (forall M, In M T -> In M CUBIC_LAUE_GROUP) -> map (irep (third N)) (map RZ (filter (fits N) T)) = map (fun M => mmap (fun x => x / 9)%Z (cj N M)) (filter (fits N) T).
  Proof.
    intros H. rewrite map_map. apply map_ext_in. intros M HM. apply filter_In in HM.
    destruct HM as (HM & F). pose proof (cubic_wf M (H M HM)) as WM. pose proof (wf_cj M WM) as WC. unfold irep. rewrite third_A by exact WM. unfold fits in F. clear -F WC. destruct (wf3_inv _ WC) as (a&b&c&e&f&g&h&k&l&E). rewrite E in *.
    cbn [concat app forallb] in F. rewrite !Bool.andb_true_iff, !Z.eqb_eq in F.
    assert (K : forall x, (x mod 9 = 0)%Z -> 1/9 * IZR x = IZR (x / 9)). { intros x Hx. rewrite (Z.div_mod x 9) at 1 by lia. rewrite Hx, Z.add_0_r, mult_IZR. field. }
    replace (mscale (1/9) (RZ [[a; b; c]; [e; f; g]; [h; k; l]])) with (RZ (mmap (fun x => x / 9)%Z [[a; b; c]; [e; f; g]; [h; k; l]])).
    - unfold rintm, RZ, mmap. cbn [map]. now rewrite !rint_IZR.
    - unfold RZ, mmap. cbn [map]. rewrite <- !K by tauto. mat_eq ltac:(ring).
  Qed.
  Lemma special9 : length (found N) <> 4%nat -> special_lattice_group (third N) = Ok (map (fun M => mmap (fun x => x / 9)%Z (cj N M)) (found N)).
  Proof.
    intros L. unfold special_lattice_group. rewrite (laue9 L). cbn [bind]. rewrite (to_integer_rep_ok 3 _ third_base). apply (f_equal (@Ok _)). unfold found. exact (rep9 CUBIC_LAUE_GROUP (fun M H => H)).
  Qed.
End Third.
