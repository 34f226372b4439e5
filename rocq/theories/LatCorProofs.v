(** Proofs about the whole of lat_cor (C78). *)
From Coq Require Import Permutation Sorted.
From Verif Require Import LinAlg Hom Eig Spectral GroupModel GroupSpec GroupProofs HnfModel HnfSpec HnfProofs HnfEnum ReduceModel ReduceSpec ReduceProofs LatticeModel LatticeSpec
  BravaisModel BravaisSpec BravaisProofs LLLModel DistModel DistProofs DistProofs2 TreeSpec TreeConc DirectProofs TreeLatOpt LatCorTree
  HnfSearchModel HnfSearchSpec HnfSearchProofs HnfSearchAsync HnfSearchConc OutputModel OutputProofs
  PropHnf PropReduce PropBravais PropLLL PropOutput PropLattice PropTree PropHnfSearch LatCorModel LatCorSpec.
Local Open Scope Z_scope.

Lemma bindOk {A B} (r : res A) (f : A -> res B) y : bind r f = Ok y -> exists x, r = Ok x /\ f x = Ok y.
Proof. destruct r; cbn; intros H; try discriminate. eauto. Qed.
Lemma mapM_Forall2 {A B} (f : A -> res B) : forall l ys, mapM f l = Ok ys -> Forall2 (fun x y => f x = Ok y) l ys.
Proof.
  induction l as [|x l IH]; cbn; intros ys H; [injection H as <-; constructor|].
  apply bindOk in H. destruct H as (y & H1 & H). apply bindOk in H. destruct H as (ys' & H2 & H). injection H as <-. constructor; auto.
Qed.

(** * The list of sublattices *)
Lemma det_hnf h : is_hnf 3 h -> det h = diag_prod 3 h.
Proof.
  intros (W & U & _ & _). destruct (wf3_inv h W) as (a&b&c&d&e&f&g&k&i&->).
  pose proof (U 0%nat 1%nat ltac:(lia)) as H1. pose proof (U 0%nat 2%nat ltac:(lia)) as H2. pose proof (U 1%nat 2%nat ltac:(lia)) as H3.
  cbn in H1, H2, H3. subst. cbn -[Z.mul Z.add Z.sub Z.opp]. ring.
Qed.
Lemma all_hnfs_In vf hnfs h : all_hnfs vf 3 = Ok hnfs -> In h hnfs ->
  exists k, In k vf /\ (k = 0 /\ h = mk 3 3 (fun _ _ => 0) \/ is_hnf 3 h /\ det h = k).
Proof.
  unfold all_hnfs. intros H Hin. apply bindOk in H. destruct H as (ls & H1 & H2). injection H2 as <-.
  apply mapM_Forall2 in H1. induction H1 as [|k l vf ls E F IH]; [destruct Hin|]. cbn in Hin. apply in_app_iff in Hin.
  destruct Hin as [Hin|Hin].
  - exists k. split; [now left|]. destruct (Z_lt_le_dec k 0) as [N|N]; [rewrite (C03_negative_raises k 3 N) in E; discriminate|].
    destruct (Z.eq_dec k 0) as [->|N0].
    + rewrite C03_zero in E by lia. injection E as <-. destruct Hin as [<-|[]]. now left.
    + destruct (C03_hnf_from_det k 3 ltac:(lia) ltac:(lia)) as (l' & E' & _ & S). rewrite E' in E. injection E as <-.
      apply S in Hin. destruct Hin as [Hh Hd]. right. split; [exact Hh|]. now rewrite det_hnf.
  - destruct (IH Hin) as (k' & H1 & H2). exists k'. split; [now right|exact H2].
Qed.
Lemma reduce_loop_incl D lg : forall hnfs keys r, reduce_loop D lg hnfs keys = Ok r -> forall h, In h r -> In h keys \/ In h hnfs.
Proof.
  induction hnfs as [|g hnfs IH]; cbn; intros keys r H h Hh; [injection H as <-; auto|].
  apply bindOk in H. destruct H as (hit & _ & H). destruct (IH _ _ H h Hh) as [K|K]; [|auto].
  destruct hit; [auto|]. destruct (mem_mat g keys); [auto|]. apply in_app_iff in K. cbn in K. intuition.
Qed.
Lemma vf_allowed r v k : In k (vol_factors r v) -> allowed_size r v k.
Proof.
  intros H. destruct (vol_factors_spec r v) as [[He HS]|[Hn HS]].
  - left. now apply HS.
  - right. rewrite HS in H. destruct H as [<-|[]]. split; [exact Hn|apply rint_close].
Qed.

(** * Merging *)
Definition le_d (s t : hsol) : Prop := (hd_ s <= hd_ t)%R.
Lemma insert_at_sorted s : forall sols, StronglySorted le_d sols -> StronglySorted le_d (insert_at s sols).
Proof.
  induction sols as [|t sols IH]; cbn; intros HS; [repeat constructor|]. inversion HS as [|? ? S1 F1]; subst.
  destruct (Rleb (hd_ s) (hd_ t)) eqn:C.
  - apply Rleb_spec in C. constructor; [exact HS|]. constructor; [exact C|]. eapply Forall_impl; [|exact F1]. unfold le_d. intros; lra.
  - apply Rleb_false in C. constructor; [now apply IH|]. apply Forall_forall. intros x Hx. apply insert_at_in in Hx.
    destruct Hx as [->|Hx]; [unfold le_d; lra|]. rewrite Forall_forall in F1. now apply F1.
Qed.
Lemma prefix_le_d a b : StronglySorted le_d (a ++ b) -> StronglySorted le_d a.
Proof.
  induction a as [|x a IH]; cbn; intros H; [constructor|]. inversion H as [|? ? S1 F1]; subst. constructor; [auto|].
  apply Forall_app in F1. apply F1.
Qed.
Lemma truncate_prefix' nsol sols : exists tl, sols = truncate nsol sols ++ tl.
Proof.
  unfold truncate. destruct (nsol <? length sols)%nat; [|exists []; symmetry; apply app_nil_r].
  destruct (nth_error sols (nsol - 1)); [|exists []; symmetry; apply app_nil_r].
  eexists. symmetry. apply firstn_skipn.
Qed.
Section MergeSound.
  Variables LG_A LG_M : list (mat Z).
  Variable nsol : nat.
  Variable P : hsol -> Prop.
  Definition okm (st : mstate) : Prop := StronglySorted le_d (fst st) /\ Forall P (fst st).
  Lemma add_sound st s : okm st -> P s -> okm (add_sol LG_A LG_M nsol st s).
  Proof.
    destruct st as [sols ext]. intros [HS HF] Hs. unfold add_sol. destruct (mem_mat (ltot s) ext); [split; assumption|]. cbn [fst].
    destruct (truncate_prefix' nsol (insert_at s sols)) as [tl E]. unfold okm. cbn [fst]. split.
    - apply (prefix_le_d _ tl). rewrite <- E. now apply insert_at_sorted.
    - assert (F : Forall P (insert_at s sols)).
      { apply Forall_forall. intros x Hx. apply insert_at_in in Hx. destruct Hx as [->|Hx]; [exact Hs|]. rewrite Forall_forall in HF. now apply HF. }
      rewrite E in F. now apply Forall_app in F.
  Qed.
  Lemma merge_sound st new : okm st -> Forall P new -> okm (merge_sols LG_A LG_M nsol st new).
  Proof.
    intros H0 HF. unfold merge_sols. assert (L : forall st, okm st -> okm (merge_loop LG_A LG_M nsol st new)).
    { clear H0 st. induction HF as [|s new Hs HF IH]; intros st H; cbn; [exact H|].
      destruct (last (map Some (fst st)) None) as [t|]; [|exact H]. destruct (Rleb (hd_ s) (hd_ t)); [|exact H]. apply IH. now apply add_sound. }
    assert (G : forall st, okm st -> okm (fold_left (add_sol LG_A LG_M nsol) new st)).
    { clear H0 st L. induction HF as [|s new Hs HF IH]; intros st H; cbn; [exact H|]. apply IH. now apply add_sound. }
    destruct (fst st); auto.
  Qed.
  Lemma search_sound run : forall hnfs st st', (forall h r, In h hnfs -> run h = Ok r -> Forall (fun ld => P (HSol (snd ld) (fst ld) h)) r) ->
    okm st -> search run LG_A LG_M nsol hnfs st = Ok st' -> okm st'.
  Proof.
    induction hnfs as [|h hs IH]; cbn [search]; intros st st' HR H0 H; [injection H as <-; exact H0|].
    apply bindOk in H. destruct H as (r & Er & H). refine (IH _ _ _ _ H); [intros h' r' Hh; apply HR; now right|].
    apply merge_sound; [exact H0|]. pose proof (HR h r (or_introl eq_refl) Er) as F. clear -F.
    induction F; cbn; constructor; auto.
  Qed.
End MergeSound.

(** * One sublattice *)
Lemma reshape_RZ n l : wf n n l -> reshape n (map IZR (flatten l)) = RZ l.
Proof.
  intros W. rewrite <- (reshape_flatten n (RZ l)) by now apply wf_RZ. f_equal. unfold flatten, RZ, mmap. apply concat_map.
Qed.
Lemma start_ok E lo : wf 3 3 E -> start_point E = Ok lo -> base 3 E /\ SL3 lo.
Proof.
  intros W H. assert (D : det E <> 0%R).
  { intros D. unfold start_point in H. apply bindOk in H. destruct H as (r & _ & H). destruct r; [|discriminate].
    apply bindOk in H. destruct H as (Ei & H & _). unfold inv in H. rewrite (proj2 (Reqb_spec _ _) D) in H. discriminate. }
  assert (B : base 3 E) by (split; [now right|]; split; assumption). split; [exact B|].
  unfold start_point in H. apply bindOk in H. destruct H as (r & L & H). destruct r as [B'|]; [|discriminate].
  destruct (C58_start 3 E B' B L) as (Wm & S & WW & DW & _). unfold start_point in S. rewrite L in S. cbn [bind] in S.
  rewrite H in S. injection S as <-. now split.
Qed.

(** the distance function and its value *)
Definition which_of (name : dist_name) : option distance :=
  match name with Cauchy => Some dCauchy | Ericksen => Some dEricksen | Strain => Some dStrain | OtherName => None end.
Lemma wf3m (A B : mat R) : wf 3 3 A -> wf 3 3 B -> wf 3 3 (mmul A B).
Proof. intros. apply (wf_mmul 3 3 3); auto; lia. Qed.
Lemma wf3t (A : mat R) : wf 3 3 A -> wf 3 3 (tr A).
Proof. intros. apply wf_tr'; auto; lia. Qed.
Lemma assoc3 (A B C : mat R) : wf 3 3 A -> wf 3 3 B -> wf 3 3 C -> mmul (mmul A B) C = mmul A (mmul B C).
Proof. intros. apply (mmul_assoc 3 3 3 3); auto; lia. Qed.
Lemma Eric_value x E1 E2 : wf 3 3 E1 -> base 3 E2 -> wf 3 3 x -> forall G,
  exists d, Eric_dist (map IZR (flatten x)) E1 E2 = Ok d /\ has_distance dEricksen (mmul E1 (RZ x)) E2 G d.
Proof.
  intros W1 (Hd & W2 & D2) Wx G. destruct (Eric_val 3 (map IZR (flatten x)) E1 E2 Hd W1 W2 D2) as (nf & P & En & E).
  rewrite reshape_RZ in E by exact Wx. eexists. split; [exact E|]. cbn [has_distance]. rewrite <- En. unfold Eric_M.
  pose proof (wf_RZ 3 3 x Wx) as WR. rewrite (tr_mmul 3 3 3), <- !assoc3 by (auto using wf3m, wf3t; lia). field. lra.
Qed.
Lemma distance_ok eig name E1 E2 d : wf 3 3 E1 -> base 3 E2 -> eig_correct 3 eig ->
  distance_fn (fun C => fst (eig C)) name E1 E2 = Ok (Some d) ->
  exists w, which_of name = Some w /\
    forall l, wf 3 3 l -> has_distance w (mmul E1 (RZ l)) E2 (mmul (mmul E1 (RZ l)) (minv E2)) (d l).
Proof.
  intros W1 B2 He H. pose proof B2 as (Hd & W2 & D2). pose proof (wf_minv 3 E2 Hd W2) as WI.
  destruct name; cbn [distance_fn] in H; [rewrite (inv_Ok 3) in H by auto; cbn [bind] in H| |rewrite (inv_Ok 3) in H by auto; cbn [bind] in H|discriminate].
  - injection H as <-. exists dCauchy. split; [reflexivity|]. intros l Wl. cbn [has_distance].
    rewrite (Cauchy_fro 3) by (auto; lia). now rewrite reshape_RZ by exact Wl.
  - apply bindOk in H. destruct H as (d0 & _ & H). injection H as <-. exists dEricksen. split; [reflexivity|]. intros l Wl.
    destruct (Eric_value l E1 E2 W1 B2 Wl (mmul (mmul E1 (RZ l)) (minv E2))) as (dv & -> & Hv). exact Hv.
  - injection H as <-. exists dStrain. split; [reflexivity|]. intros l Wl. cbn [has_distance].
    set (C := strain_Cinv (map IZR (flatten l)) E1 (minv E2)).
    assert (EC : C = mmul (mmul (mmul E1 (RZ l)) (minv E2)) (tr (mmul (mmul E1 (RZ l)) (minv E2)))).
    { unfold C. rewrite (strain_Cinv_F 3) by (auto; lia). now rewrite reshape_RZ by exact Wl. }
    assert (WF : wf 3 3 (mmul (mmul E1 (RZ l)) (minv E2))) by (auto using wf3m, wf_RZ).
    assert (WC : wf 3 3 C) by (rewrite EC; auto using wf3m, wf3t).
    assert (SC : symmetric C).
    { unfold symmetric. rewrite EC. rewrite (tr_mmul 3 3 3) by (auto using wf3t; lia). now rewrite (tr_tr 3 3) by (auto; lia). }
    pose proof (He C WC SC) as HE. pose proof (strain_nonneg 3 _ E1 E2 _ _ Hd W1 W2 HE) as Hp.
    assert (Hl : length (fst (eig C)) = 3%nat) by apply HE. rewrite (strain_3_sq _ Hl Hp).
    destruct (len3_inv _ Hl) as (l1 & l2 & l3 & El). rewrite El in *. exists l1, l2, l3, (snd (eig C)). rewrite <- EC. split; [exact HE|reflexivity].
Qed.

Lemma lat_opt_genuine eig o k f E1 E2 r : wf 3 3 E1 -> base 3 E2 -> eig_correct 3 eig ->
  lat_opt (fun C => fst (eig C)) o k f E1 E2 = Ok r ->
  base 3 E1 /\ exists w, which_of (o_dist o) = Some w /\
    Forall (fun ld => SL3 (fst ld) /\ has_distance w (mmul E1 (RZ (fst ld))) E2 (mmul (mmul E1 (RZ (fst ld))) (minv E2)) (snd ld)) r.
Proof.
  intros W1 B2 He H. unfold lat_opt in H. cbv zeta in H. apply bindOk in H. destruct H as (lo & Hlo & H).
  destruct (start_ok E1 lo W1 Hlo) as [B1 Slo]. split; [exact B1|].
  apply bindOk in H. destruct H as (d & Hdf & H). apply bindOk in H. destruct H as (L1 & _ & H).
  apply bindOk in H. destruct H as (LG1 & _ & H). apply bindOk in H. destruct H as (SOLG2 & _ & H).
  destruct d as [d|]; [|discriminate]. destruct (distance_ok eig _ E1 E2 d W1 B2 He Hdf) as (w & Hw & Hv). exists w. split; [exact Hw|].
  assert (length E1 = 3%nat) as L by apply W1. rewrite L in H. destruct Slo as [Wlo Dlo].
  destruct (lat_opt_sound d LG1 SOLG2 _ _ _ lo Wlo _ _ _ H) as [_ HF]. eapply Forall_impl; [|exact HF].
  intros [l dl] [(P & [WP DP] & El) Ed]. cbn [fst snd] in *.
  assert (WL : wf 3 3 l) by (rewrite El; apply (wf_mmul 3 3 3); auto; lia). split.
  - split; [exact WL|]. rewrite El, (det_mmul_Z 3) by (auto; now right). now rewrite Dlo, DP.
  - rewrite Ed. now apply Hv.
Qed.

(** * The whole run *)
Lemma bravais_cell id s ce p c b : bravais_type 3 id = Some (s, ce) -> admissible s p c -> new_bravais id p 3 = Ok b ->
  lattice_with_cell ce c (b_base b) (conventional_base b) /\ wf 3 3 (conventional_trans b) /\ det (conventional_trans b) <> 0%R /\
  conventional_base b = mmul (b_base b) (conventional_trans b).
Proof.
  intros T A H. destruct (C17_conventional_cell 3 id s ce p c T A) as (b' & H' & HC). assert (b' = b) by congruence. subst b'.
  destruct (C18_conventional_trans 3 id s ce p c b T A H) as ((C & WC & EC & DC) & EB & _ & BB & _). change (Z.to_nat 3) with 3%nat in *.
  split; [|split; [|split; [|reflexivity]]].
  - split; [apply BB|]. split; [apply BB|]. split; [exact HC|]. exists C. rewrite <- EC. auto.
  - rewrite EC. now apply wf_RZ.
  - rewrite EC, <- RZ_det, DC. apply not_0_IZR. destruct ce; discriminate.
Qed.

Lemma lat_cor_genuine_bases D eig q k f idA pA idM pM sols sA ceA cA sM ceM cM :
  bravais_type 3 idA = Some (sA, ceA) -> admissible sA pA cA -> bravais_type 3 idM = Some (sM, ceM) -> admissible sM pM cM ->
  q_dim q = 3 -> eig_correct 3 eig ->
  lat_cor D eig q k f idA pA idM pM = Ok sols ->
  exists A M, new_bravais idA pA 3 = Ok A /\ new_bravais idM pM 3 = Ok M /\
    let EA := b_base A in let EM := b_base M in let BA := conventional_base A in let BM := conventional_base M in
    lattice_with_cell ceA cA EA BA /\ lattice_with_cell ceM cM EM BM /\
    StronglySorted (fun x y => (hd_ (fst x) <= hd_ (fst y))%R) sols /\
    forall s o, In (s, o) sols -> exists w, which_of (q_dist q) = Some w /\ o_l o = hl s /\
      genuine w (q_vol_th q) EA EM BA BM (hd_ s) (hh s) (hl s) (o_cor o) (o_u o) (o_lams o).
Proof.
  intros TA AA TM AM Q3 He H. unfold lat_cor in H. rewrite Q3 in H.
  apply bindOk in H. destruct H as (A & HA & H). apply bindOk in H. destruct H as (M & HM & H). cbv zeta in H.
  destruct (bravais_cell _ _ _ _ _ _ TA AA HA) as (CA & WCA & DCA & EBA). destruct (bravais_cell _ _ _ _ _ _ TM AM HM) as (CM & WCM & DCM & EBM).
  exists A, M. split; [exact HA|]. split; [exact HM|]. cbv zeta. split; [exact CA|]. split; [exact CM|].
  rewrite EBA, EBM. pose proof CA as (WEA & DEA & _). pose proof CM as (WEM & DEM & _). clear CA CM EBA EBM.
  set (EA := b_base A) in *. set (EM := b_base M) in *. set (CA := conventional_trans A) in *. set (CM := conventional_trans M) in *.
  apply bindOk in H. destruct H as (LG_A & _ & H). apply bindOk in H. destruct H as (E' & HE' & H).
  assert (E' = EM). { unfold new_lattice in HE'. destruct (is_square EM); [|discriminate]. destruct (Rleb _ 0); [discriminate|]. now injection HE'. }
  subst E'. apply bindOk in H. destruct H as (LG_M & _ & H). apply bindOk in H. destruct H as (r & Hr & H).
  assert (r = (det EM / det EA)%R). { unfold np_div in Hr. destruct (Reqb (det EA) 0); [discriminate|]. now injection Hr. } subst r.
  change (Z.to_nat 3) with 3%nat in H.
  apply bindOk in H. destruct H as (hs & Hhs & H). apply bindOk in H. destruct H as (rs & Hrs & H).
  apply bindOk in H. destruct H as (st & Hst & H).
  set (P := fun s : hsol => is_hnf 3 (hh s) /\ allowed_size (det EM / det EA) (q_vol_th q) (det (hh s)) /\ SL3 (hl s) /\
    exists w, which_of (q_dist q) = Some w /\
      has_distance w (mmul (mmul EA (RZ (hh s))) (RZ (hl s))) EM (mmul (mmul (mmul EA (RZ (hh s))) (RZ (hl s))) (minv EM)) (hd_ s)).
  assert (BM : base 3 EM) by (split; [now right|split; assumption]).
  assert (HP : okm P st).
  { refine (search_sound LG_A LG_M (q_nsol q) P _ rs ([], []) st _ _ Hst); [|split; constructor].
    intros h r0 Hh Hr0. unfold reduce_hnfs in Hrs. cbn in Hrs. destruct (reduce_loop_incl _ _ _ _ _ Hrs h Hh) as [[]|Hh'].
    destruct (all_hnfs_In _ _ _ Hhs Hh') as (kk & Hk & Hcase).
    assert (Wh : wf 3 3 h) by (destruct Hcase as [[_ ->]|[Hh2 _]]; [apply wf_mk|apply Hh2]).
    assert (W1 : wf 3 3 (mmul EA (RZ h))) by (apply wf3m; auto using wf_RZ).
    destruct (lat_opt_genuine _ _ _ _ _ _ _ W1 BM He Hr0) as ((_ & _ & D1) & w & Hw & HF). cbn [o_dist] in Hw.
    destruct Hcase as [[_ ->]|[Hhnf Hdet]].
    - exfalso. apply D1. rewrite (det_mmul 3) by (auto using wf_RZ; now right). rewrite <- RZ_det. change (det (mk 3 3 (fun _ _ => 0))) with 0. lra.
    - eapply Forall_impl; [|exact HF]. intros [l d] [SL HD]. cbn [fst snd] in *. unfold P. cbn [hh hl hd_].
      split; [exact Hhnf|]. split; [rewrite Hdet; now apply vf_allowed|]. split; [exact SL|]. exists w. auto. }
  destruct HP as [HS HF]. apply mapM_Forall2 in H. split.
  - clear -HS H. induction H as [|s [s' o] l ls E F IH]; [constructor|]. apply bindOk in E. destruct E as (o' & _ & E). injection E as <- <-.
    inversion HS as [|? ? S1 F1]; subst. constructor; [now apply IH|]. clear -F F1. induction F as [|t [t' ot] l ls E F IH]; [constructor|].
    apply bindOk in E. destruct E as (o'' & _ & E). injection E as <- <-. inversion F1; subst. constructor; [assumption|now apply IH].
  - intros s o Hin. assert (K : report_hnf 3 EA EM CA CM eig (hh s) (hl s) = Ok o /\ P s).
    { clear -H HF Hin. induction H as [|t [t' ot] l ls E F IH]; [destruct Hin|]. apply bindOk in E. destruct E as (o' & E' & E). injection E as <- <-.
      inversion HF; subst. destruct Hin as [Hin|Hin]; [|now apply IH]. injection Hin as <- <-. auto. }
    destruct K as [Ho (K1 & K2 & (WL & DL) & w & Hw & HD)]. exists w. split; [exact Hw|].
    assert (Wh : wf 3 3 (hh s)) by apply K1.
    assert (Dh : det (hh s) <> 0). { rewrite det_hnf by exact K1. destruct K1 as (_ & _ & Pos & _). pose proof (Pos 0%nat ltac:(lia)). pose proof (Pos 1%nat ltac:(lia)). pose proof (Pos 2%nat ltac:(lia)). cbn -[Z.mul get]. nia. }
    destruct (C56_hnf 3 EA EM CA CM eig (hh s) (hl s)) as (o3 & Ho' & El & Co); auto; try (solve [now right | now rewrite DL]).
    assert (Eo : o3 = o) by congruence. rewrite Eo in El, Co. clear o3 Ho' Eo. split; [exact El|]. destruct Co as [cF cS cQ cP cV cL cC].
    pose proof (wf_RZ 3 3 _ Wh) as Wh'. pose proof (wf_RZ 3 3 _ WL) as WL'. pose proof (wf_minv 3 EM (or_intror eq_refl) WEM) as WI.
    rewrite (assoc3 EA (RZ (hh s)) (RZ (hl s))), <- RZ_mmul in HD by auto. set (HL := RZ (mmul (hh s) (hl s))) in *.
    assert (WHL : wf 3 3 HL) by (unfold HL; rewrite RZ_mmul; now apply wf3m).
    assert (DHL : det (mmul EA HL) <> 0%R).
    { rewrite (det_mmul 3) by (auto; now right). unfold HL. rewrite RZ_mmul, (det_mmul 3), <- !RZ_det, DL by (auto; now right).
      apply Rmult_integral_contrapositive_currified; [exact DEA|]. rewrite Rmult_1_r. now apply not_0_IZR. }
    assert (W1 : wf 3 3 (mmul EA HL)) by now apply wf3m. pose proof (wf_minv 3 _ (or_intror eq_refl) W1) as W2.
    assert (EF : o_F o = mmul EM (minv (mmul EA HL))).
    { unfold report_hnf, report in Ho. rewrite (mmul_eye_r 3 3), <- RZ_mmul in Ho by (auto; lia). fold HL in Ho.
      rewrite (inv_Ok 3 CA), (inv_Ok 3 (mmul EA HL)) in Ho by (auto; now right). cbn [bind] in Ho.
      destruct (eig _) as [lam V]. apply bindOk in Ho. destruct Ho as (Vi & _ & Ho). injection Ho as <-. reflexivity. }
    assert (WF : wf 3 3 (o_F o)) by (rewrite EF; now apply wf3m).
    constructor; [exact K1|exact K2|split; assumption| |split; assumption].
    exists (o_F o), (mmul (mmul EA HL) (minv EM)). split; [exact WF|]. split; [now apply wf3m|].
    assert (WCor : wf 3 3 (o_cor o)).
    { unfold report_hnf, report in Ho. rewrite (mmul_eye_r 3 3), <- RZ_mmul in Ho by (auto; lia). fold HL in Ho.
      rewrite (inv_Ok 3 CA), (inv_Ok 3 (mmul EA HL)) in Ho by (auto; now right). cbn [bind] in Ho.
      destruct (eig _) as [lam V]. apply bindOk in Ho. destruct Ho as (Vi & _ & Ho). injection Ho as <-. cbn [o_cor].
      apply wf3m; [apply wf3m|]; auto. apply wf_minv; auto. now right. }
    split; [rewrite <- assoc3, cF by auto; apply (minv_r 3); auto; now right|].
    split. { rewrite EF. rewrite (assoc3 (mmul EA HL)), <- (assoc3 (minv EM)), (minv_l 3), (mmul_eye_l 3 3) by (auto using wf3m; (lia || now right)).
             apply (minv_r 3); auto. now right. }
    split; [exact cF|]. split; [|split; [exact cS|split; [exact cP|split; [exact cQ|exact HD]]]].
    rewrite cC, <- assoc3, cF by auto. reflexivity.
Qed.
Lemma lat_cor_genuine D eig q k f idA pA idM pM sols sA ceA cA sM ceM cM :
  bravais_type 3 idA = Some (sA, ceA) -> admissible sA pA cA -> bravais_type 3 idM = Some (sM, ceM) -> admissible sM pM cM ->
  q_dim q = 3 -> eig_correct 3 eig ->
  lat_cor D eig q k f idA pA idM pM = Ok sols ->
  exists EA BA EM BM, lattice_with_cell ceA cA EA BA /\ lattice_with_cell ceM cM EM BM /\
    StronglySorted (fun x y => (hd_ (fst x) <= hd_ (fst y))%R) sols /\
    forall s o, In (s, o) sols -> exists w, which_of (q_dist q) = Some w /\ o_l o = hl s /\
      genuine w (q_vol_th q) EA EM BA BM (hd_ s) (hh s) (hl s) (o_cor o) (o_u o) (o_lams o).
Proof.
  intros TA AA TM AM Q3 He H.
  destruct (lat_cor_genuine_bases D eig q k f idA pA idM pM sols sA ceA cA sM ceM cM TA AA TM AM Q3 He H) as (A & M & _ & _ & K).
  exists (b_base A), (conventional_base A), (b_base M), (conventional_base M). exact K.
Qed.
