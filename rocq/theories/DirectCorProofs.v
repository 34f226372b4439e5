(** Proofs about the whole of lat_cor_direct (C83, C84). *)
From Coq Require Import Permutation Sorted.
From Verif Require Import LinAlg Hom Eig Spectral GroupModel GroupSpec GroupProofs LatticeModel LatticeSpec LatticeProofs LatticeLaue
  BravaisModel BravaisSpec BravaisProofs DistModel DistSpec DistProofs DirectSpec DirectProofs DirectConcrete DirectConcSpec DirectConcProofs DirectGlobal
  OutputModel OutputProofs PropBravais PropOutput PropLattice LatCorProofs DirectCorModel DirectCorSpec.
Local Open Scope Z_scope.

Lemma wfmul n (M N : mat R) : (0 < n)%nat -> wf n n M -> wf n n N -> wf n n (mmul M N).
Proof. intros. now apply (wf_mmul n n n). Qed.
Lemma wfmulZ n (M N : mat Z) : (0 < n)%nat -> wf n n M -> wf n n N -> wf n n (mmul M N).
Proof. intros. now apply (wf_mmul n n n). Qed.
Lemma assocR n (M N P : mat R) : (0 < n)%nat -> wf n n M -> wf n n N -> wf n n P -> mmul (mmul M N) P = mmul M (mmul N P).
Proof. intros. now apply (mmul_assoc n n n n). Qed.
Lemma assocZ n (M N P : mat Z) : (0 < n)%nat -> wf n n M -> wf n n N -> wf n n P -> mmul (mmul M N) P = mmul M (mmul N P).
Proof. intros. now apply (mmul_assoc n n n n). Qed.

Lemma bravais_cell_n dim id s ce p c b : bravais_type dim id = Some (s, ce) -> admissible s p c -> new_bravais id p dim = Ok b ->
  let n := Z.to_nat dim in
  base n (b_base b) /\ lattice_of_cell n ce c (b_base b) (conventional_base b) /\ wf n n (conventional_trans b) /\ det (conventional_trans b) <> 0%R /\
  conventional_base b = mmul (b_base b) (conventional_trans b).
Proof.
  intros T A H n. destruct (C17_conventional_cell dim id s ce p c T A) as (b' & H' & HC). assert (b' = b) by congruence. subst b'.
  destruct (C18_conventional_trans dim id s ce p c b T A H) as ((C & WC & EC & DC) & EB & _ & BB & _). fold n in WC, BB, HC.
  split; [exact BB|]. split; [|split; [|split; [|reflexivity]]].
  - split; [apply BB|]. split; [apply BB|]. split; [exact HC|]. exists C. rewrite <- EC. auto.
  - rewrite EC. now apply wf_RZ.
  - rewrite EC, <- RZ_det, DC. apply not_0_IZR. destruct ce; discriminate.
Qed.

Lemma full_group_of n E : base n E -> resolved n E -> exists L, lattice_group E = Ok L /\ matrix_group n L /\
  (forall M, In M L -> isometry_of n E (RZ M)) /\ (forall M, In M L -> det M = 1 \/ det M = -1) /\
  (n = 3%nat -> exists M, In M L /\ det M = -1).
Proof.
  intros B RS. destruct (C15_lattice_group_partial n E B) as (G & L & EG & EL & _ & K). destruct (K RS) as ((F & (I1 & I2 & I3 & I4 & I5) & _) & D).
  exists L. split; [exact EL|]. split; [exact (conj I1 (conj I3 (conj I4 I5)))|].
  destruct (point_result n E B) as (G' & EG' & _ & _ & A & CG). assert (G' = G) by congruence. subst G'.
  split; [|split; [exact D|]].
  - intros M HM. assert (HF : exists Q, In Q G /\ mmul E (RZ M) = mmul Q E).
    { clear -F HM. induction F as [|Q M' G L (H1 & H2 & H3) F IH]; [destruct HM|]. destruct HM as [->|HM]; [exists Q; split; [now left|exact H2]|].
      destruct (IH HM) as (Q' & HQ & E'). exists Q'. split; [now right|exact E']. }
    destruct HF as (Q & HQ & EQ). split; [apply wf_RZ; now apply I1|]. exists Q. split; [apply (A Q HQ)|exact EQ].
  - intros ->. destruct (laue_result 3 E B) as (lg & El & _ & Ie & _). 
    assert (EL' : L = map (irep E) G).
    { unfold lattice_group in EL. rewrite EG in EL. cbn [bind] in EL. rewrite (to_integer_rep_ok 3 E B) in EL. now injection EL. }
    assert (HQ : In (mopp (eye 3)) G).
    { unfold point_group in EG. rewrite (len_base 3 E B), El in EG. cbn [bind] in EG. injection EG as <-. apply in_app_iff. right. now apply in_map. }
    exists (irep E (mopp (eye 3))). split; [rewrite EL'; now apply in_map|].
    pose proof (irep_det 3 E B _ (proj1 (A _ HQ)) (proj2 (CG RS) _ HQ)) as HD. apply eq_IZR. rewrite HD. cbn. ring.
Qed.

(** * What is reported *)
Lemma report_genuine n EA EM CA CM eig L o : dim23 n ->
  wf n n EA -> wf n n EM -> wf n n CA -> wf n n CM -> det EA <> 0%R -> det EM <> 0%R -> det CA <> 0%R ->
  wf n n L -> det L <> 0 -> report EA EM CA CM eig L (RZ L) = Ok o ->
  consistent n EA EM CA CM (RZ L) (o_F o) (o_u o) (o_cor o) (o_lams o) ->
  genuine_direct n EA EM (mmul EA CA) (mmul EM CM) (lat_dist EA EM (flatten L)) L (o_cor o) (o_u o) (o_lams o).
Proof.
  intros Hd WEA WEM WCA WCM DEA DEM DCA WL DL Ho [cF cS cQ cP cV cL cC]. pose proof (dim23_pos n Hd) as Hn.
  pose proof (wf_RZ n n _ WL) as WL'. pose proof (wf_minv n EM Hd WEM) as WI.
  assert (DHL : det (mmul EA (RZ L)) <> 0%R).
  { rewrite (det_mmul n) by auto. rewrite <- RZ_det. apply Rmult_integral_contrapositive_currified; [exact DEA|]. now apply not_0_IZR. }
  assert (W1 : wf n n (mmul EA (RZ L))) by now apply wfmul. pose proof (wf_minv n _ Hd W1) as W2.
  assert (K : o_F o = mmul EM (minv (mmul EA (RZ L))) /\ o_cor o = mmul (mmul (minv CA) (RZ L)) CM).
  { unfold report in Ho. rewrite (inv_Ok n CA), (inv_Ok n (mmul EA (RZ L))) in Ho by auto. cbn [bind] in Ho.
    destruct (eig _) as [lam V]. apply bindOk in Ho. destruct Ho as (Vi & _ & Ho). injection Ho as <-. split; reflexivity. }
  destruct K as [EF EC]. pose proof (wf_minv n CA Hd WCA) as WCi.
  assert (WF : wf n n (o_F o)) by (rewrite EF; now apply wfmul).
  assert (WCor : wf n n (o_cor o)) by (rewrite EC; auto using wfmul).
  constructor; [split; assumption| |split; assumption].
  exists (o_F o), (mmul (mmul EA (RZ L)) (minv EM)). split; [exact WF|]. split; [auto using wfmul|].
  split; [rewrite <- (assocR n), cF by auto; now apply (minv_r n)|].
  split. { rewrite EF. rewrite (assocR n (mmul EA (RZ L))), <- (assocR n (minv EM)), (minv_l n), (mmul_eye_l n n) by auto using wfmul.
           now apply (minv_r n). }
  split; [exact cF|]. split; [|split; [exact cS|split; [exact cP|split; [exact cQ|]]]].
  - rewrite cC, <- (assocR n), cF by auto. reflexivity.
  - unfold lat_dist. rewrite (Cauchy_fro n) by auto. now rewrite reshape_RZ by exact WL.
Qed.

Lemma wfreshZ n (l : list Z) : wf n n (reshape n l).
Proof. apply wf_reshape. Qed.
Lemma flatten_reshape' n l : length l = (n * n)%nat -> flatten (@reshape Z _ n l) = l.
Proof. exact (flatten_reshape n l). Qed.

(** * The whole run *)
Section Run.
  Variable w : world.
  Variable q : drequest.
  Variables (idA idM : Z) (pA pM : list R).
  Variables (sA sM : system) (ceA ceM : centring) (cA cM : cell).
  Hypothesis TA : bravais_type (d_dim q) idA = Some (sA, ceA).
  Hypothesis AA : admissible sA pA cA.
  Hypothesis TM : bravais_type (d_dim q) idM = Some (sM, ceM).
  Hypothesis AM : admissible sM pM cM.
  Variables A M : bravais.
  Hypothesis HA : new_bravais idA pA (d_dim q) = Ok A.
  Hypothesis HM : new_bravais idM pM (d_dim q) = Ok M.
  Let n := Z.to_nat (d_dim q).
  Let EA := b_base A.
  Let EM := b_base M.
  Hypothesis RA : resolved n EA.
  Hypothesis RM : resolved n EM.
  Hypothesis Hs : (1 <= d_nsol q)%nat.
  Hypothesis Hz : (1 <= d_slice_sz q)%nat.
  Hypothesis Hv : (d_vol_th q <= 1)%R.
  Hypothesis Hw : Forall (wf n n) (w_shifts w).
  Hypothesis He : eig_correct n (w_eig w).
  Hypothesis Ho : forall l e, In e (w_order w l) <-> In e l.

  Notation run fuel := (lat_cor_direct w q fuel idA pA idM pM).

  Lemma run_setup : exists GA GM, lattice_group EA = Ok GA /\ lattice_group EM = Ok GM /\ lattice_pair n EA EM GA GM /\
    (forall N, In N GA \/ In N GM -> wf n n N /\ (det N = 1 \/ det N = -1)) /\ In (eye n) GA /\ In (eye n) GM /\
    (n = 3%nat -> exists N, In N GA /\ det N = -1).
  Proof.
    destruct (bravais_cell_n _ _ _ _ _ _ _ TA AA HA) as (BA & _). destruct (bravais_cell_n _ _ _ _ _ _ _ TM AM HM) as (BM & _).
    fold n in BA, BM. fold EA in BA. fold EM in BM.
    destruct (full_group_of n EA BA RA) as (GA & EGA & MA & IA & DA & NA). destruct (full_group_of n EM BM RM) as (GM & EGM & MM & IM & DM & _).
    exists GA, GM. split; [exact EGA|]. split; [exact EGM|]. split.
    { unfold lattice_pair. destruct BA as (Hd & ? & ?), BM as (_ & ? & ?). repeat match goal with |- _ /\ _ => split end; assumption. }
    split. { intros N [H|H]; (split; [|now auto]); [now apply MA|now apply MM]. }
    split; [apply MA|]. split; [apply MM|exact NA].
  Qed.

  Lemma run_unfold : exists GA GM CA CM, lattice_group EA = Ok GA /\ lattice_group EM = Ok GM /\
    CA = conventional_trans A /\ CM = conventional_trans M /\ forall fuel,
    run fuel =
     let* alpha := quart_min w (n * n) (quartic_D n EA (minv EM)) in
     let* st := direct_init n EA EM GA GM (d_nsol q) (d_vol_th q) (w_shifts w) in
     match alpha with
     | None => Raise NaN
     | Some alpha =>
       if Rleb alpha 0 then Raise NaN
       else
         let* st := direct_search n EA EM GA GM (d_nsol q) alpha (d_slice_sz q) fuel st in
         mapM (fun s => let* o := report_direct n EA EM CA CM (w_eig w) (fst s) (w_order w (eqlatcor n GA GM (fst s))) in Ok (snd s, o)) (fst (fst st))
     end.
  Proof.
    destruct run_setup as (GA & GM & EGA & EGM & (Hd & WEA & WEM & DEA & DEM & _) & _).
    exists GA, GM, (conventional_trans A), (conventional_trans M). split; [exact EGA|]. split; [exact EGM|]. split; [reflexivity|]. split; [reflexivity|].
    intros fuel. unfold lat_cor_direct. rewrite HA, HM. cbn [bind]. cbv zeta. fold EA EM n. rewrite (inv_Ok n EM) by auto. cbn [bind].
    rewrite EGA, EGM. reflexivity.
  Qed.

  (** one entry of the list *)
  Lemma entry_genuine GA GM seen sols ext dmax s o :
    lattice_group EA = Ok GA -> lattice_group EM = Ok GM ->
    history n GA GM (lat_dist EA EM) (d_nsol q) seen (sols, ext, dmax) -> In s sols -> length (fst s) = (n * n)%nat ->
    report_direct n EA EM (conventional_trans A) (conventional_trans M) (w_eig w) (fst s) (w_order w (eqlatcor n GA GM (fst s))) = Ok o ->
    genuine_direct n EA EM (conventional_base A) (conventional_base M) (snd s) (o_l o) (o_cor o) (o_u o) (o_lams o) /\
    same_up_to GA GM (reshape n (fst s)) (o_l o) /\ (n = 3%nat -> 0 < det (o_l o)).
  Proof.
    intros EGA EGM HH Hin Hlen Hr. destruct run_setup as (GA' & GM' & E1 & E2 & HP & HD & IA & IM & HN).
    assert (GA' = GA) by congruence. assert (GM' = GM) by congruence. subst GA' GM'. clear E1 E2.
    pose proof HP as (Hd & WEA & WEM & DEA & DEM & MA & MM & ISA & ISM). pose proof (dim23_pos n Hd) as Hn.
    pose proof (lat_dist_inv n EA EM GA GM HP) as Hinv.
    destruct (history_best n GA GM (lat_dist EA EM) (d_nsol q) Hd MA MM Hinv Hs seen sols ext dmax HH) as (_ & _ & B3 & _).
    destruct (B3 s Hin) as (_ & Hns & Ed).
    destruct (bravais_cell_n _ _ _ _ _ _ _ TA AA HA) as (_ & _ & WCA & DCA & ->). destruct (bravais_cell_n _ _ _ _ _ _ _ TM AM HM) as (_ & _ & WCM & DCM & ->).
    fold n in WCA, WCM. fold EA EM.
    destruct (C56_direct n EA EM (conventional_trans A) (conventional_trans M) (w_eig w) GA GM (fst s) (w_order w (eqlatcor n GA GM (fst s)))) as (o' & Hr' & Hl & Hdet & Hc); auto.
    assert (o' = o) by congruence. subst o'.
    assert (HS : same_up_to GA GM (reshape n (fst s)) (o_l o)).
    { destruct Hl as [->|H]; [|exact H]. exists (eye n), (eye n). split; [exact IA|]. split; [exact IM|].
      now rewrite (mmul_eye_l n n), (mmul_eye_r n n) by (auto using wfreshZ). }
    pose proof HS as (M1 & M2 & I1 & I2 & EL). destruct (HD M1 (or_introl I1)) as [W1 D1]. destruct (HD M2 (or_intror I2)) as [W2 D2].
    assert (WL : wf n n (o_l o)) by (rewrite EL; auto using wfmulZ, wfreshZ).
    assert (DL : det (o_l o) <> 0). { rewrite EL, !(det_mmul_Z n) by auto using wfmulZ, wfreshZ. unfold nonsingular in Hns. nia. }
    assert (EdL : snd s = lat_dist EA EM (flatten (o_l o))).
    { rewrite Ed. apply Hinv; [exact Hlen|now apply length_flatten|]. exists M1, M2. split; [exact I1|]. split; [exact I2|].
      rewrite reshape_flatten by exact WL. exact EL. }
    split; [|split; [exact HS|]].
    - rewrite EdL. apply (report_genuine n EA EM _ _ (w_eig w)); auto.
      unfold report_direct in Hr. revert Hr. set (P := pick_positive _ _ _). intros Hr.
      assert (EP : o_l o = P).
      { unfold report in Hr. apply bindOk in Hr. destruct Hr as (x1 & _ & Hr). apply bindOk in Hr. destruct Hr as (x2 & _ & Hr).
        destruct (w_eig w _) as [lam V]. apply bindOk in Hr. destruct Hr as (x3 & _ & Hr). injection Hr as <-. reflexivity. }
      rewrite EP. exact Hr.
    - intros H3. destruct (HN H3) as (N & HNI & HND). apply (C56_direct_oriented n EA EM (conventional_trans A) (conventional_trans M) (w_eig w) GA GM (fst s) (w_order w (eqlatcor n GA GM (fst s)))  o); auto.
  Qed.

  Lemma history_len GA GM seen st : history n GA GM (lat_dist EA EM) (d_nsol q) seen st -> forall l, In l seen -> length l = (n * n)%nat.
  Proof.
    induction 1 as [|seen sols ext dmax l0 sols' ext' d' H IH L NS E|seen st ls b st' H IH Hl F E]; intros l Hl'; [destruct Hl'| |].
    - destruct Hl' as [<-|Hl']; auto.
    - apply in_app_iff in Hl'. rewrite Forall_forall in F. destruct Hl'; auto.
  Qed.

  Lemma F2_nth {X Y} (R : X -> Y -> Prop) l l' : Forall2 R l l' -> forall i y, nth_error l' i = Some y -> exists x, nth_error l i = Some x /\ R x y.
  Proof.
    induction 1 as [|x y l l' H F IH]; intros [|i] z Hz'; cbn in *; try discriminate; [injection Hz' as <-; eauto|eauto].
  Qed.

  Lemma F2_In {X Y} (R S : X -> Y -> Prop) l l' : Forall2 R l l' -> (forall x y, In x l -> R x y -> S x y) -> Forall2 S l l'.
  Proof. induction 1 as [|x y l l' H F IH]; intros K; constructor; [apply K; cbn; auto|apply IH; intros; apply K; cbn; auto]. Qed.
  Lemma F2_ex {X Y} (R : X -> Y -> Prop) l l' : Forall2 R l l' -> forall x, In x l -> exists y, In y l' /\ R x y.
  Proof.
    induction 1 as [|x y l l' H F IH]; intros z [].
    - subst z. exists y. cbn. auto.
    - destruct (IH z H0) as (y' & H1 & H2). exists y'. cbn. auto.
  Qed.
  (** the search has ended: from a history to what is returned *)
  Lemma final_list GA GM seen st sols : lattice_group EA = Ok GA -> lattice_group EM = Ok GM ->
    history n GA GM (lat_dist EA EM) (d_nsol q) seen st -> (d_nsol q <= length (fst (fst st)))%nat ->
    mapM (fun s => let* o := report_direct n EA EM (conventional_trans A) (conventional_trans M) (w_eig w) (fst s)
                       (w_order w (eqlatcor n GA GM (fst s))) in Ok (snd s, o)) (fst (fst st)) = Ok sols ->
    (d_nsol q <= length sols)%nat /\
    (forall i j s t, (i < j)%nat -> nth_error sols i = Some s -> nth_error sols j = Some t -> (fst s <= fst t)%R) /\
    (forall i s t, (d_nsol q <= S i)%nat -> nth_error sols i = Some s -> nth_error sols (d_nsol q - 1) = Some t -> fst s = fst t) /\
    (forall s, In s sols -> genuine_direct n EA EM (conventional_base A) (conventional_base M) (fst s) (o_l (snd s)) (o_cor (snd s)) (o_u (snd s)) (o_lams (snd s)) /\
       (n = 3%nat -> 0 < det (o_l (snd s)))) /\
    (forall i j s t, i <> j -> nth_error sols i = Some s -> nth_error sols j = Some t -> ~ same_up_to GA GM (o_l (snd s)) (o_l (snd t))) /\
    (forall s, In s (fst (fst st)) -> exists t, In t sols /\ fst t = snd s /\ same_up_to GA GM (reshape n (fst s)) (o_l (snd t))) /\
    (forall t, In t sols -> exists s, In s (fst (fst st)) /\ fst t = snd s).
  Proof.
    intros EGA EGM HH Hlen H. destruct st as [[l0 ext] dmax]. cbn [fst] in *.
    destruct run_setup as (GA' & GM' & E1 & E2 & HP & HD & IA & IM & HN).
    assert (GA' = GA) by congruence. assert (GM' = GM) by congruence. subst GA' GM'. clear E1 E2.
    pose proof HP as (Hd & WEA & WEM & DEA & DEM & MA & MM & ISA & ISM). pose proof (dim23_pos n Hd) as Hn.
    pose proof (lat_dist_inv n EA EM GA GM HP) as Hinv.
    destruct (history_best n GA GM (lat_dist EA EM) (d_nsol q) Hd MA MM Hinv Hs seen l0 ext dmax HH) as (B1 & B2 & B3 & B4 & _).
    apply mapM_Forall2 in H.
    assert (K : Forall2 (fun s t => snd s = fst t /\ genuine_direct n EA EM (conventional_base A) (conventional_base M) (snd s) (o_l (snd t)) (o_cor (snd t)) (o_u (snd t)) (o_lams (snd t)) /\
       same_up_to GA GM (reshape n (fst s)) (o_l (snd t)) /\ (n = 3%nat -> 0 < det (o_l (snd t)))) l0 sols).
    { apply (F2_In _ _ _ _ H). intros s [d o] Hin E. apply bindOk in E. destruct E as (o' & Er & E). injection E as <- ->. cbn [fst snd].
      split; [reflexivity|]. apply (entry_genuine GA GM seen l0 ext dmax s o EGA EGM HH Hin); [|exact Er].
      apply (history_len GA GM seen _ HH). now apply B3. }
    clear H. assert (LK : length l0 = length sols) by (clear -K; induction K; cbn; congruence). rewrite LK in Hlen. split; [exact Hlen|].
    pose proof (F2_nth _ _ _ K) as KN.
    split. { intros i j s t Hij Hi Hj. destruct (KN i s Hi) as (x & Hx & <- & _). destruct (KN j t Hj) as (y & Hy & <- & _).
             apply Rleb_spec. exact (B1 i j x y Hij Hx Hy). }
    split. { intros i s t Hi' Hi Hj. destruct (KN i s Hi) as (x & Hx & <- & _). destruct (KN _ t Hj) as (y & Hy & <- & _). exact (B4 i x y Hi' Hx Hy). }
    split. { intros s Hin. apply In_nth_error in Hin. destruct Hin as [i Hi]. destruct (KN i s Hi) as (x & _ & <- & H1 & _ & H2). auto. }
    split. { intros i j s t Hij Hi Hj HE. destruct (KN i s Hi) as (x & Hx & _ & Gx & Sx & _). destruct (KN j t Hj) as (y & Hy & _ & Gy & Sy & _).
             apply (B2 i j x y Hij Hx Hy). destruct Gx as [[Wx _] _ _]. destruct Gy as [[Wy _] _ _].
             rewrite <- (reshape_flatten n (o_l (snd s)) Wx) in Sx. rewrite <- (reshape_flatten n (o_l (snd s)) Wx) in HE. rewrite <- (reshape_flatten n (o_l (snd t)) Wy) in Sy. rewrite <- (reshape_flatten n (o_l (snd t)) Wy) in HE.
             apply (equiv_trans n GA GM Hd MA MM _ (flatten (o_l (snd s)))); [exact Sx|].
             apply (equiv_trans n GA GM Hd MA MM _ (flatten (o_l (snd t)))); [exact HE|]. apply (equiv_sym n GA GM Hd MA MM). exact Sy. }
    split. { intros s Hin. destruct (F2_ex _ _ _ K s Hin) as (t & Ht & H1 & _ & H2 & _). exists t. auto. }
    intros t Hin. apply In_nth_error in Hin. destruct Hin as [i Hi]. destruct (KN i t Hi) as (x & Hx & H1 & _). exists x. split; [eapply nth_error_In; eauto|auto].
  Qed.
  (** an ended run has a history *)
  Lemma run_history fuel sols : run fuel = Ok sols -> exists alpha GA GM st0 st seen0 seen,
    lattice_group EA = Ok GA /\ lattice_group EM = Ok GM /\ quart_min w (n * n) (quartic_D n EA (minv EM)) = Ok (Some alpha) /\
    history n GA GM (lat_dist EA EM) (d_nsol q) seen0 st0 /\ (d_nsol q <= length (fst (fst st0)))%nat /\
    direct_search n EA EM GA GM (d_nsol q) alpha (d_slice_sz q) fuel st0 = Ok st /\
    history n GA GM (lat_dist EA EM) (d_nsol q) seen st /\ (d_nsol q <= length (fst (fst st)))%nat /\
    mapM (fun s => let* o := report_direct n EA EM (conventional_trans A) (conventional_trans M) (w_eig w) (fst s)
                       (w_order w (eqlatcor n GA GM (fst s))) in Ok (snd s, o)) (fst (fst st)) = Ok sols.
  Proof.
    intros H. destruct run_unfold as (GA & GM & CA & CM & EGA & EGM & -> & -> & EU). rewrite EU in H. clear EU.
    destruct run_setup as (GA' & GM' & E1 & E2 & HP & HD & IA & IM & HN).
    assert (GA' = GA) by congruence. assert (GM' = GM) by congruence. subst GA' GM'. clear E1 E2.
    pose proof HP as (Hd & WEA & WEM & DEA & DEM & MA & MM & ISA & ISM).
    apply bindOk in H. destruct H as (oa & Ea & H). apply bindOk in H. destruct H as (st0 & E0 & H).
    destruct oa as [alpha|]; [|discriminate]. destruct (Rleb alpha 0) eqn:Ra; [discriminate|].
    apply bindOk in H. destruct H as (st & E1 & H).
    destruct (conc_init n EA EM GA GM HP (d_nsol q) Hs (d_vol_th q) (w_shifts w) Hv Hw) as [K|(st0' & seen0 & K & HH0 & L0)]; [congruence|].
    assert (st0' = st0) by congruence. subst st0'.
    pose proof (outer_ok n GA GM (lat_dist EA EM) (d_nsol q) Hd MA MM (lat_dist_inv n EA EM GA GM HP) Hs (d_slice_sz q) Hz (ball_gen n alpha)
      (ball_gen_total n EA EM GA GM HP alpha) fuel (repeat 0 (n * n)) seen0 st0 HH0 L0 (repeat_length _ _)) as OK.
    pose proof E1 as E1'. unfold direct_search, DirectModel.search in E1'. rewrite E1' in OK. destruct OK as (seen & y & g & HH & _ & L & _).
    exists alpha, GA, GM, st0, st, seen0, seen. repeat match goal with |- _ /\ _ => split end; assumption.
  Qed.

  Lemma report_total GA GM seen st : lattice_group EA = Ok GA -> lattice_group EM = Ok GM ->
    history n GA GM (lat_dist EA EM) (d_nsol q) seen st ->
    exists sols, mapM (fun s => let* o := report_direct n EA EM (conventional_trans A) (conventional_trans M) (w_eig w) (fst s)
                       (w_order w (eqlatcor n GA GM (fst s))) in Ok (snd s, o)) (fst (fst st)) = Ok sols.
  Proof.
    intros EGA EGM HH. destruct st as [[l0 ext] dmax]. cbn [fst].
    destruct run_setup as (GA' & GM' & E1 & E2 & HP & HD & IA & IM & HN).
    assert (GA' = GA) by congruence. assert (GM' = GM) by congruence. subst GA' GM'. clear E1 E2.
    pose proof HP as (Hd & WEA & WEM & DEA & DEM & MA & MM & ISA & ISM).
    destruct (history_best n GA GM (lat_dist EA EM) (d_nsol q) Hd MA MM (lat_dist_inv n EA EM GA GM HP) Hs seen l0 ext dmax HH) as (_ & _ & B3 & _).
    destruct (bravais_cell_n _ _ _ _ _ _ _ TA AA HA) as (_ & _ & WCA & DCA & _). destruct (bravais_cell_n _ _ _ _ _ _ _ TM AM HM) as (_ & _ & WCM & DCM & _).
    clear HH. induction l0 as [|s l IH]; [exists []; reflexivity|]. destruct IH as (sols & E); [intros t Ht; apply B3; now right|].
    destruct (B3 s (or_introl eq_refl)) as (_ & Hns & _).
    destruct (C56_direct n EA EM (conventional_trans A) (conventional_trans M) (w_eig w) GA GM (fst s) (w_order w (eqlatcor n GA GM (fst s)))) as (o & Hr & _); auto.
    cbn [mapM]. rewrite Hr. cbn [bind]. rewrite E. cbn [bind]. eexists. reflexivity.
  Qed.

  (** how a run can end *)
  Lemma run_outcome alpha : quart_min w (n * n) (quartic_D n EA (minv EM)) = Ok (Some alpha) -> quartic_bound n EA EM alpha ->
    (forall fuel, run fuel = NoFuel) \/
    exists fuel0, forall fuel, (fuel0 <= fuel)%nat -> run fuel = Raise StopIteration \/ exists sols, run fuel = Ok sols.
  Proof.
    intros Ea Hq. destruct run_unfold as (GA & GM & CA & CM & EGA & EGM & -> & -> & EU).
    destruct run_setup as (GA' & GM' & E1 & E2 & HP & HD & IA & IM & HN).
    assert (GA' = GA) by congruence. assert (GM' = GM) by congruence. subst GA' GM'. clear E1 E2.
    rewrite Ea in EU. cbn [bind] in EU.
    destruct (conc_init n EA EM GA GM HP (d_nsol q) Hs (d_vol_th q) (w_shifts w) Hv Hw) as [K|(st0 & seen0 & K & HH0 & L0)];
      rewrite K in EU; cbn [bind] in EU; [left; exact EU|right].
    assert (Rleb alpha 0 = false) as Ra by (apply Rleb_false; apply Hq). rewrite Ra in EU.
    destruct (conc_search n EA EM GA GM HP (d_nsol q) Hs alpha (d_slice_sz q) seen0 st0 Hq Hz HH0 L0) as (fuel0 & HF).
    exists fuel0. intros fuel Hf. specialize (HF fuel Hf). rewrite EU.
    destruct (direct_search n EA EM GA GM (d_nsol q) alpha (d_slice_sz q) fuel st0) as [st|e|]; cbn [bind]; [|left; now rewrite HF|destruct HF].
    right. destruct HF as (seen & y & g & HH & _). exact (report_total GA GM seen st EGA EGM HH).
  Qed.

  Lemma cauchy_distance_lat l d : base n EA -> base n EM -> wf n n l -> cauchy_distance n EA EM l d -> d = lat_dist EA EM (flatten l).
  Proof.
    intros (Hd & WEA & _) (_ & WEM & DEM) Wl (Fi & WF & EF & ->). pose proof (dim23_pos n Hd) as Hn. unfold lat_dist.
    rewrite (Cauchy_fro n) by (auto using wf_minv). rewrite reshape_RZ by exact Wl. cbv zeta. unfold Finv_of. rewrite <- EF.
    pose proof (wf_minv n EM Hd WEM) as WI. rewrite (assocR n Fi EM (minv EM)), (minv_r n EM) by assumption. now rewrite (mmul_eye_r n n) by assumption.
  Qed.

  (** a run that ends within its first pass *)
  Lemma run_global alpha sols : quart_min w (n * n) (quartic_D n EA (minv EM)) = Ok (Some alpha) -> quartic_bound n EA EM alpha ->
    run 1 = Ok sols -> exists GA GM, lattice_group EA = Ok GA /\ lattice_group EM = Ok GM /\
    forall l d, wf n n l -> det l <> 0 -> cauchy_distance n EA EM l d ->
      (exists s, In s sols /\ same_up_to GA GM l (o_l (snd s))) \/
      ((d_nsol q <= length sols)%nat /\ forall s, In s sols -> (fst s < d)%R).
  Proof.
    intros Ea Hq H. destruct (run_history 1 sols H) as (alpha' & GA & GM & st0 & st & seen0 & seen & EGA & EGM & Ea' & HH0 & L0 & ES & HH & L & Em).
    assert (alpha' = alpha) by congruence. subst alpha'. exists GA, GM. split; [exact EGA|]. split; [exact EGM|]. intros l d Wl Dl Hc.
    destruct run_setup as (GA' & GM' & E1 & E2 & HP & HD & IA & IM & HN).
    assert (GA' = GA) by congruence. assert (GM' = GM) by congruence. subst GA' GM'. clear E1 E2.
    pose proof HP as (Hd & WEA & WEM & DEA & DEM & MA & MM & ISA & ISM).
    destruct (final_list GA GM seen st sols EGA EGM HH L Em) as (F1 & _ & _ & F4 & _ & F6 & F7).
    pose proof (one_pass_optimal n EA EM GA GM HP (d_nsol q) Hs alpha (d_slice_sz q) seen0 st0 st Hq Hz HH0 L0 ES (flatten l) (length_flatten n n l Wl)) as OP.
    unfold nonsingular in OP. rewrite reshape_flatten in OP by exact Wl. destruct (OP Dl) as [(s & Hin & Heq)|[_ HB]].
    - left. destruct (F6 s Hin) as (t & Ht & _ & HS). exists t. split; [exact Ht|]. destruct (F4 t Ht) as [[[Wt _] _ _] _].
      rewrite <- (reshape_flatten n (o_l (snd t)) Wt) in HS |- *. rewrite <- (reshape_flatten n l Wl).
      apply (equiv_trans n GA GM Hd MA MM _ (fst s)); [exact Heq|exact HS].
    - right. split; [exact F1|]. intros t Ht. destruct (F7 t Ht) as (s & Hin & ->).
      rewrite (cauchy_distance_lat l d) by (auto; split; auto). now apply HB.
  Qed.
End Run.
