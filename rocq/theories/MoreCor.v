(** Two requests to lat_cor side by side (C104). *)
From Verif Require Import LinAlg Spectral GroupModel GroupSpec GroupProofs HnfModel HnfSpec HnfProofs HnfEnum ReduceModel ReduceSpec ReduceProofs ReducePy2 LatticeModel LatticeSpec LatticeProofs LatticeLaue
  BravaisModel BravaisSpec BravaisProofs LLLModel DistModel DistSpec DirectConcSpec DirectProofs TreeModel TreeSpec TreeLatOpt
  HnfSearchModel HnfSearchSpec OutputModel LatCorModel LatCorSpec LatCorProofs LatCorDist LatCorTotal
  StopProofs MoreProofs PropOutput PropLattice PropHnf PropReduce PropBravais PropLLL PropTree PropHnfSearch.
Local Open Scope Z_scope.

Lemma lat_opt_fuel eigvals o k f k' f' E1 E2 r : wf 3 3 E1 -> (1 <= o_nsol o)%nat -> (k <= k')%nat -> (f <= f')%nat ->
  lat_opt eigvals o k f E1 E2 = Ok r -> lat_opt eigvals o k' f' E1 E2 = Ok r.
Proof.
  intros W Hn Hk Hf H. unfold lat_opt in *. cbv zeta in *.
  destruct (start_point E1) as [lo| |]; cbn [bind] in *; try discriminate. destruct (distance_fn eigvals (o_dist o) E1 E2) as [[df|]| |]; cbn [bind] in *; try discriminate;
  (destruct (new_lattice E1) as [L1| |]; cbn [bind] in *; try discriminate); (destruct (special_lattice_group L1) as [LG1| |]; cbn [bind] in *; try discriminate);
  (destruct (match o_SOLG2 o with Some g => Ok g | None => let* L2 := new_lattice E2 in special_lattice_group L2 end) as [LG2| |]; cbn [bind] in *; try discriminate).
  destruct W as [EL _]. rewrite EL in *. unfold lat_opt_core in *.
  match type of H with bind ?x _ = _ => destruct x as [st| |] eqn:R end; cbn [bind] in H; try discriminate.
  rewrite (restarts_mono df LG1 LG2 (o_nsol o) _ Hn _ f f' Hf k k' _ _ _ _ Hk R). exact H.
Qed.

Lemma search_results run LG_A LG_M nsol : forall hs st st', search run LG_A LG_M nsol hs st = Ok st' ->
  exists rs, Forall2 (fun h r => run h = Ok r) hs rs /\
    st' = fold_left (merge_sols LG_A LG_M nsol) (map (fun hr : mat Z * list (mat Z * R) => map (fun ld => HSol (snd ld) (fst ld) (fst hr)) (snd hr)) (combine hs rs)) st.
Proof.
  induction hs as [|h hs IH]; cbn [search]; intros st st' H; [injection H as <-; exists []; split; [constructor|reflexivity]|].
  apply bindOk in H. destruct H as (r & Hr & H). destruct (IH _ _ H) as (rs & F & E). exists (r :: rs). split; [now constructor|exact E].
Qed.

Lemma Forall2_in {A B} (P Q : A -> B -> Prop) : forall l l', Forall2 P l l' -> (forall x y, In x l -> P x y -> Q x y) -> Forall2 Q l l'.
Proof. induction 1 as [|x y l l' H F IH]; intros K; constructor; [apply K; [now left|exact H]|apply IH; intros; apply K; [now right|assumption]]. Qed.

(** the first solution of a run: it is one of the solutions of a sublattice, and none is closer *)
Lemma lat_cor_first D eig q w k f idA pA idM pM sA ceA cA sM ceM cM A M sols :
  D = py3 \/ D = py2 ->
  bravais_type 3 idA = Some (sA, ceA) -> admissible sA pA cA -> bravais_type 3 idM = Some (sM, ceM) -> admissible sM pM cM ->
  q_dim q = 3 -> which_of (q_dist q) = Some w -> (1 <= q_nsol q)%nat -> (q_vol_th q < 1)%R -> eig_correct 3 eig ->
  new_bravais idA pA 3 = Ok A -> new_bravais idM pM 3 = Ok M ->
  let EA := b_base A in let EM := b_base M in let ratio := (det EM / det EA)%R in
  (1/2 < ratio)%R -> resolved 3 EA -> resolved 3 EM ->
  (forall L, w = dEricksen -> special_lattice_group EM = Ok L -> forall N, In N L -> orthogonal 3 (RZ N)) ->
  (forall h, is_hnf 3 h -> allowed_size ratio (q_vol_th q) (det h) ->
     resolved 3 (mmul EA (RZ h)) /\ exists B, LLL (mmul EA (RZ h)) = Ok (Plain B)) ->
  lat_cor D eig q k f idA pA idM pM = Ok sols ->
  exists LG_A LG_M hs rs best rest, special_lattice_group EA = Ok LG_A /\ special_lattice_group EM = Ok LG_M /\
    all_hnfs (vol_factors ratio (q_vol_th q)) 3 = Ok hs /\ reduce_hnfs D hs LG_A 3 = Ok rs /\ sols = best :: rest /\
    let o := {| o_nsol := q_nsol q; o_dist := q_dist q; o_maxiter := q_maxiter q; o_miniter := q_miniter q; o_SOLG2 := Some LG_M |} in
    (forall h, In h rs -> base 3 (mmul EA (RZ h)) /\ resolved 3 (mmul EA (RZ h))) /\
    (forall h, In h rs -> exists r, lat_opt (fun C => fst (eig C)) o k f (mmul EA (RZ h)) EM = Ok r /\ forall ld, In ld r -> (hd_ (fst best) <= snd ld)%R) /\
    exists h l d r, In h rs /\ lat_opt (fun C => fst (eig C)) o k f (mmul EA (RZ h)) EM = Ok ((l, d) :: r) /\ (d <= hd_ (fst best))%R.
Proof.
  intros HDv TA AA TM AM Q3 QC Qn Qv He HA HM EA EM ratio Hr RA RM HO HH H.
  destruct (bravais_cell _ _ _ _ _ _ TA AA HA) as ((WEA & DEA & _) & WCA & DCA & _).
  destruct (bravais_cell _ _ _ _ _ _ TM AM HM) as ((WEM & DEM & _) & WCM & DCM & _). fold EA in WEA, DEA. fold EM in WEM, DEM.
  assert (BA : base 3 EA) by (split; [now right|now split]). assert (BM : base 3 EM) by (split; [now right|now split]).
  destruct (group_of EA BA RA) as (LG_A & HLA & GA & IA & DA). destruct (group_of EM BM RM) as (LG_M & HLM & GM & IM & _).
  assert (HP : lattice_pair 3 EA EM LG_A LG_M) by (split; [now right|]; tauto).
  assert (Rw : respects w LG_M) by (destruct w; cbn [respects]; auto; now apply HO).
  assert (On : q_dist q <> OtherName) by (intros E; rewrite E in QC; discriminate).
  destruct (distance_exists eig (q_dist q) EA EM WEA BM He On) as (w' & fA & QC' & _ & HC).
  assert (w' = w) by congruence. subst w'. pose proof (computes_symmetric w EA EM LG_A LG_M fA HP Rw HC) as SY.
  destruct (C54_positive_partial ratio (q_vol_th q) Hr Qv) as [Vn Vp]. destruct (all_hnfs_total _ Vp) as (hs & Hhs & Ihs).
  destruct (reduce_hnfs_any D HDv 3 ltac:(lia) LG_A GA hs) as (rs & Hrs & Sub & Rep); [intros h Hh; now apply Ihs|].
  assert (Inc : forall h, In h rs -> In h hs).
  { clear -Sub. induction Sub; cbn; intros h Hh; [destruct Hh|right; auto|destruct Hh as [->|Hh]; auto]. }
  unfold lat_cor in H. rewrite Q3, HA, HM in H. cbn [bind] in H. cbv zeta in H. fold EA EM in H. rewrite HLA in H. cbn [bind] in H.
  rewrite (new_lattice_ok 3 EM BM EM WEM DEM) in H. cbn [bind] in H. rewrite HLM in H. cbn [bind] in H. unfold np_div in H.
  destruct (Reqb (det EA) 0) eqn:C; [apply Reqb_spec in C; contradiction|]. cbn [bind] in H. clear C.
  change (Z.to_nat 3) with 3%nat in H. fold ratio in H. rewrite Hhs in H. cbn [bind] in H. rewrite Hrs in H. cbn [bind] in H.
  set (o := {| o_nsol := q_nsol q; o_dist := q_dist q; o_maxiter := q_maxiter q; o_miniter := q_miniter q; o_SOLG2 := Some LG_M |}) in *.
  apply bindOk in H. destruct H as (st & HS & H). destruct (search_results _ _ _ _ _ _ _ HS) as (res & HF & Est).
  assert (BR : forall h, In h rs -> base 3 (mmul EA (RZ h)) /\ resolved 3 (mmul EA (RZ h)) /\ exists B, LLL (mmul EA (RZ h)) = Ok (Plain B)).
  { intros h Hh. apply Inc, Ihs in Hh. destruct Hh as [Hh Hd]. split; [now apply base_sub|]. now apply (HH h Hh), vf_allowed. }
  assert (HG : Forall2 (fun h r => lat_opt (fun C => fst (eig C)) o k f (mmul EA (RZ h)) EM = Ok r /\ good_result fA h r) rs res).
  { apply (Forall2_in _ _ _ _ HF). intros h r Hh E. split; [exact E|].
    destruct (BR h Hh) as (B1 & R1 & B & LL). assert (Wh : wf 3 3 h) by (apply Ihs, Inc; exact Hh).
    destruct (lat_opt_ends eig o w fA EA EM LG_M h B WEA BM Wh He GM IM QC Rw HC Qn eq_refl B1 R1 LL) as (k0 & f0 & r0 & Run & G).
    pose proof (lat_opt_fuel (fun C => fst (eig C)) o k f (k + k0)%nat (f + f0)%nat (mmul EA (RZ h)) EM r (proj1 (proj2 B1)) Qn ltac:(lia) ltac:(lia) E) as E2.
    rewrite (Run (k + k0)%nat (f + f0)%nat ltac:(lia) ltac:(lia)) in E2. injection E2 as ->. exact G. }
  set (results := map (fun hr : mat Z * list (mat Z * R) => map (fun ld => HSol (snd ld) (fst ld) (fst hr)) (snd hr)) (combine rs res)) in *.
  assert (HR : forall new, In new results -> exists h r, In h rs /\ new = map (fun ld => HSol (snd ld) (fst ld) h) r /\
     lat_opt (fun C => fst (eig C)) o k f (mmul EA (RZ h)) EM = Ok r /\ good_result fA h r).
  { unfold results. clear -HG. induction HG as [|h r hs rs [E G] F IH]; [intros ? []|]. cbn. intros new [<-|Hn]; [exists h, r; auto|].
    destruct (IH new Hn) as (h' & r' & H1 & H2). exists h', r'. auto. }
  assert (HR' : forall h, In h rs -> exists r, lat_opt (fun C => fst (eig C)) o k f (mmul EA (RZ h)) EM = Ok r /\ good_result fA h r /\
     incl (map (fun ld => HSol (snd ld) (fst ld) h) r) (concat results)).
  { unfold results. clear -HG. induction HG as [|h r hs rs [E G] F IH]; [intros ? []|]. cbn [combine map concat fst snd]. intros h' [<-|Hn].
    - exists r. split; [exact E|]. split; [exact G|]. apply incl_appl, incl_refl.
    - destruct (IH h' Hn) as (r' & H1 & H2 & H3). exists r'. split; [exact H1|]. split; [exact H2|]. now apply incl_appr. }
  assert (NE : concat results <> []).
  { destruct (vol_factors ratio (q_vol_th q)) as [|z vf] eqn:EV; [congruence|]. assert (Hk : 0 < z) by (apply Vp; now left).
    destruct (diag_hnf_ok z Hk) as [H1 H2]. destruct (Rep (diag_hnf z)) as (y & Hy & _); [apply Ihs; split; [exact H1|]; rewrite H2; now left|].
    destruct (HR' y Hy) as (r & _ & (_ & _ & m & c & _ & Hc & _) & I). intros E0. rewrite E0 in I.
    exact (I _ (in_map (fun ld => HSol (snd ld) (fst ld) y) r c Hc)). }
  destruct (C52_head_partial 3 LG_A LG_M fA (q_nsol q) results ltac:(lia) GA GM SY Qn) as (s & tl & Es & (c & Hc & _ & Dc) & Best);
    [intros new Hnew; destruct (HR new Hnew) as (h & r & _ & -> & _ & G & _); exact G|exact NE|].
  unfold merge_all in Es. rewrite <- Est in Es. rewrite Es in H. cbn [mapM] in H. apply bindOk in H. destruct H as (b & Hb & H). apply bindOk in Hb. destruct Hb as (out & _ & Hb). injection Hb as <-.
  apply bindOk in H. destruct H as (rest & _ & H). injection H as <-.
  exists LG_A, LG_M, hs, rs, (s, out), rest. repeat (split; [first [exact HLA|exact HLM|exact Hhs|exact Hrs|reflexivity]|]). cbv zeta. fold o. cbn [fst].
  split; [intros h Hh; destruct (BR h Hh) as (B1 & R1 & _); auto|]. split.
  - intros h Hh. destruct (HR' h Hh) as (r & E & _ & I). exists r. split; [exact E|]. intros ld Hld. exact (Best _ (I _ (in_map (fun ld => HSol (snd ld) (fst ld) h) r ld Hld))).
  - apply in_concat in Hc. destruct Hc as (new & Hnew & Hc). destruct (HR new Hnew) as (h & r & Hh & -> & E & ((_ & SR) & _)).
    apply in_map_iff in Hc. destruct Hc as (ld & <- & Hld). cbn [hd_] in Dc. destruct r as [|[l d] r]; [destruct Hld|]. exists h, l, d, r. split; [exact Hh|]. split; [exact E|].
    rewrite <- Dc. destruct Hld as [<-|Hld]; [apply Rle_refl|]. apply In_nth_error in Hld. destruct Hld as (j & Hj).
    refine (SR 0%nat (S j) (HSol d l h) (HSol (snd ld) (fst ld) h) ltac:(lia) eq_refl _). cbn [map nth_error]. now rewrite nth_error_map, Hj.
Qed.
