(** The unit of length and the direct search. *)
From Coq Require Import FunctionalExtensionality.
From Verif Require Import LatticeModel LatticeSpec BravaisModel GroupModel GroupProofs Eig PropBase DirectCorModel UnitSpec UnitProofs.
From Verif Require Import LLLSim.
Local Open Scope R_scope.

Lemma get_out n (E : mat R) i j : wf n n E -> (n <= i \/ n <= j)%nat -> get E i j = 0.
Proof.
  intros [L W] H. unfold get. destruct (Nat.lt_ge_cases i n) as [Hi|Hi].
  - apply nth_overflow. rewrite (W (nth i E [])); [destruct H; lia|]. apply nth_In. lia.
  - rewrite (nth_overflow E) by lia. now destruct j.
Qed.
Lemma get_all n c (E : mat R) i j : (0 < n)%nat -> wf n n E -> get (mscale c E) i j = c * get E i j.
Proof.
  intros Hn W. pose proof (wfs n c E Hn W) as WC. destruct (Nat.lt_ge_cases i n) as [Hi|Hi]; [destruct (Nat.lt_ge_cases j n) as [Hj|Hj]; [exact (get_mscale n n c E i j W Hi Hj)|]|];
    rewrite !(get_out n) by (auto; lia); ring.
Qed.
Lemma quartic_scale n dim c (EA EMi : mat R) : c <> 0 -> (0 < n)%nat -> wf n n EA -> wf n n EMi -> quartic_D dim (mscale c EA) (mscale (/ c) EMi) = quartic_D dim EA EMi.
Proof.
  intros Hc Hn WA WM. assert (C1 : quartic_C1 (mscale c EA) (mscale (/ c) EMi) = quartic_C1 EA EMi).
  { do 4 (apply functional_extensionality; intros ?). unfold quartic_C1. rewrite !(get_all n) by auto. field. exact Hc. }
  unfold quartic_D, quartic_C2. now rewrite C1.
Qed.

Lemma pick_wf n l : wf n n l -> forall eqls, wf n n (pick_positive n l eqls).
Proof.
  intros W eqls. induction eqls as [|e eqls IH]; cbn [pick_positive]; [exact W|]. destruct (0 <? det (reshape n e))%Z; [apply wf_reshape|exact IH].
Qed.
Lemma lat_cor_direct_scale w q fuel c idA pA idM pM : 0 < c ->
  lat_cor_direct w q fuel idA (in_unit (d_dim q) c idA pA) idM (in_unit (d_dim q) c idM pM) = lat_cor_direct w q fuel idA pA idM pM.
Proof.
  intros Hc. unfold lat_cor_direct. assert (C0 : c <> 0) by lra.
  destruct (new_bravais_scale (d_dim q) c idA pA Hc) as (SA & BA). destruct (new_bravais_scale (d_dim q) c idM pM Hc) as (SM & BM). rewrite SA, SM.
  destruct (new_bravais idA pA (d_dim q)) as [A| |]; cbn [rmap bind]; [|reflexivity|reflexivity]. destruct (new_bravais idM pM (d_dim q)) as [M| |]; cbn [rmap bind]; [|reflexivity|reflexivity].
  specialize (BA A eq_refl). specialize (BM M eq_refl). unfold conventional_trans, scale_b. cbn [b_base b_C]. set (n := Z.to_nat (d_dim q)) in *.
  set (EA := b_base A) in *. set (EM := b_base M) in *. pose proof BA as (d & WA & DA). pose proof BM as (_ & WM & DM). assert (Hn : (0 < n)%nat) by (destruct d; lia).
  pose proof (wf_minv n EM d WM) as WMi. pose proof (wf_minv n EA d WA) as WAi.
  rewrite (inv_scale n) by auto. unfold inv. rewrite (proj2 (Reqb_false _ _) DM). cbn [bind rmap].
  destruct (C98_scale n EA c BA C0) as (_ & _ & GA & _). destruct (C98_scale n EM c BM C0) as (_ & _ & GM & _). rewrite GA, GM.
  destruct (lattice_group EA) as [LG_A| |]; cbn [bind]; [|reflexivity|reflexivity]. destruct (lattice_group EM) as [LG_M| |]; cbn [bind]; [|reflexivity|reflexivity].
  rewrite (quartic_scale n) by auto.
  assert (LD : lat_dist (mscale c EA) (mscale c EM) = lat_dist EA EM).
  { apply functional_extensionality. intros l. unfold lat_dist, Cauchy_dist. rewrite (minv_scale n) by auto. assert (L1 : length EA = n) by apply WA.
    assert (L2 : length (mscale c EA) = n) by apply (wfs n c EA Hn WA). rewrite L1, L2. rewrite (ratio_scale n); auto. apply wf_reshape. }
  assert (GU : guess (mscale c EA) (mscale c EM) = guess EA EM).
  { unfold guess. f_equal. rewrite (minv_scale n) by auto. rewrite (mmul_mscale_l n), (mmul_mscale_r n) by (auto using wfs).
    rewrite <- (Rinv_inv c) at 2. apply (mscale_inv n); [now apply Rinv_neq_0_compat|exact Hn|]. now apply (wf_mmul n n n). }
  unfold direct_init, direct_search. rewrite LD, GU.
  destruct (quart_min w (n * n) _) as [al| |]; cbn [bind]; [|reflexivity|reflexivity]. destruct (init_search n _ _ _ _ _ _ _) as [st| |]; cbn [bind]; [|reflexivity|reflexivity].
  destruct al as [al|]; [|reflexivity]. destruct (Rleb al 0); [reflexivity|]. destruct (DirectModel.search n _ _ _ _ _ _ _ _) as [st'| |]; cbn [bind]; [|reflexivity|reflexivity].
  apply mapM_ext. intros s _. unfold report_direct. rewrite (report_scale n); auto. apply wf_RZ, pick_wf, wf_reshape.
Qed.
