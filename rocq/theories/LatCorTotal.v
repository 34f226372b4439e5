(** The run of lat_cor ends, and its first solution is the best of local minima, one for each sublattice (C78). *)
From Coq Require Import Permutation Sorted.
From Verif Require Import LinAlg Hom Eig Spectral GroupModel GroupSpec GroupProofs HnfModel HnfSpec HnfProofs HnfEnum ReduceModel ReduceSpec ReduceProofs ReducePy2 LatticeModel LatticeSpec LatticeProofs LatticeLaue
  BravaisModel BravaisSpec BravaisProofs LLLModel DistModel DistSpec DistProofs DistProofs2 DirectConcSpec DirectConcrete TreeSpec TreeConc DirectProofs TreeLatOpt LatCorTree
  HnfSearchModel HnfSearchSpec HnfSearchProofs HnfSearchAsync HnfSearchConc OutputModel OutputProofs
  PropHnf PropReduce PropBravais PropLLL PropOutput PropLattice PropTree PropHnfSearch LatCorModel LatCorSpec LatCorProofs LatCorDist.
Local Open Scope Z_scope.

Lemma group_of E : base 3 E -> resolved 3 E -> exists L, special_lattice_group E = Ok L /\ matrix_group 3 L /\
  (forall M, In M L -> isometry_of 3 E (RZ M)) /\ forall M, In M L -> det M = 1.
Proof.
  intros B RS. destruct (C15_special_partial 3 E B) as (G & L & EG & EL & _ & K). destruct (K RS) as ((F & (I1 & I2 & I3 & I4 & I5) & _) & D).
  exists L. split; [exact EL|]. split; [exact (conj I1 (conj I3 (conj I4 I5)))|]. split; [|exact D].
  destruct (laue_result 3 E B) as (G' & EG' & _ & _ & A & _). assert (G' = G) by congruence. subst G'.
  intros M HM. assert (HF : exists Q, In Q G /\ mmul E (RZ M) = mmul Q E).
  { clear -F HM. induction F as [|Q M' G L (H1 & H2 & H3) F IH]; [destruct HM|]. destruct HM as [->|HM]; [exists Q; split; [now left|exact H2]|].
    destruct (IH HM) as (Q' & HQ & E'). exists Q'. split; [now right|exact E']. }
  destruct HF as (Q & HQ & EQ). split; [apply wf_RZ; now apply I1|]. exists Q. split; [apply (A Q HQ)|exact EQ].
Qed.

Lemma wfz3 (A B : mat Z) : wf 3 3 A -> wf 3 3 B -> wf 3 3 (mmul A B).
Proof. intros. apply (wf_mmul 3 3 3); auto; lia. Qed.
Lemma assocz (A B C : mat Z) : wf 3 3 A -> wf 3 3 B -> wf 3 3 C -> mmul (mmul A B) C = mmul A (mmul B C).
Proof. intros. apply (mmul_assoc 3 3 3 3); auto; lia. Qed.

(** * One sublattice *)
Definition good_result (f : mat Z -> R) (h : mat Z) (r : list (mat Z * R)) : Prop :=
  sorted_result 3 f (map (fun ld => HSol (snd ld) (fst ld) h) r) /\
  (forall ld, In ld r -> SL3 (fst ld)) /\
  exists m c, SL3 m /\ In c r /\ (snd c <= f (mmul h m))%R /\
    forall m', neighbour m m' -> (f (mmul h m) <= f (mmul h m'))%R.

Lemma neighbour_wf E E' : wf 3 3 E -> neighbour E E' -> wf 3 3 E'.
Proof. intros W (i & j & s & _ & _ & _ & _ & ->). apply wfz3; [exact W|apply wf_mk]. Qed.

Lemma lat_opt_runs eig o E1 EM LG_M B : base 3 E1 -> base 3 EM -> eig_correct 3 eig ->
  o_dist o <> OtherName -> o_SOLG2 o = Some LG_M -> LLL E1 = Ok (Plain B) ->
  exists k0 f0 r, forall k f, (k0 <= k)%nat -> (f0 <= f)%nat -> lat_opt (fun C => fst (eig C)) o k f E1 EM = Ok r.
Proof.
  intros B1 BM He Od Os LL. pose proof B1 as (_ & W1 & D1).
  destruct (C15_special_partial 3 E1 B1) as (_ & LG1 & _ & HL & _). destruct (C58_start 3 E1 B B1 LL) as (lo & HS & Wlo & _).
  destruct (distance_exists eig (o_dist o) E1 EM W1 BM He Od) as (w & df & _ & Hdf & HC).
  set (mi := match o_miniter o with Some m => m | None => 3%nat end). set (ma := match o_maxiter o with Some m => m | None => maxiter_by_nsol (o_nsol o) end).
  destruct (lat_opt_terminates df LG1 LG_M (o_nsol o) mi ma lo (computes_finite w E1 EM df B1 BM HC) Wlo) as (k0 & f0 & r & Run).
  exists k0, f0, r. intros k f Hk Hf. unfold lat_opt. cbv zeta. rewrite HS, Os. cbn [bind]. rewrite Hdf. cbn [bind].
  rewrite (new_lattice_ok 3 E1 B1 E1 W1 D1). cbn [bind]. rewrite HL. cbn [bind]. destruct W1 as [-> _]. exact (Run k f Hk Hf).
Qed.

Lemma lat_opt_ends eig o w fA EA EM LG_M h B : wf 3 3 EA -> base 3 EM -> wf 3 3 h -> eig_correct 3 eig ->
  matrix_group 3 LG_M -> (forall M, In M LG_M -> isometry_of 3 EM (RZ M)) ->
  which_of (o_dist o) = Some w -> respects w LG_M -> computes w EA EM fA -> (1 <= o_nsol o)%nat -> o_SOLG2 o = Some LG_M ->
  base 3 (mmul EA (RZ h)) -> resolved 3 (mmul EA (RZ h)) -> LLL (mmul EA (RZ h)) = Ok (Plain B) ->
  exists k0 f0 r, (forall k f, (k0 <= k)%nat -> (f0 <= f)%nat -> lat_opt (fun C => fst (eig C)) o k f (mmul EA (RZ h)) EM = Ok r) /\
    good_result fA h r.
Proof.
  intros WA BM Wh He GM IM Od Rw CA On Os B1 R1 LL. set (E1 := mmul EA (RZ h)) in *. pose proof B1 as (_ & W1 & D1). pose proof BM as (_ & WM & DM).
  destruct (group_of E1 B1 R1) as (LG1 & HL & G1 & I1 & _). destruct (C58_start 3 E1 B B1 LL) as (lo & HS & Wlo & Dlo & _).
  assert (HP : lattice_pair 3 E1 EM LG1 LG_M) by (split; [now right|]; tauto).
  assert (On' : o_dist o <> OtherName) by (intros E; rewrite E in Od; discriminate).
  destruct (distance_exists eig (o_dist o) E1 EM W1 BM He On') as (w' & df & Od' & Hdf & HC).
  assert (w' = w) by congruence. subst w'. pose proof (computes_symmetric w E1 EM LG1 LG_M df HP Rw HC) as SY.
  set (mi := match o_miniter o with Some m => m | None => 3%nat end). set (ma := match o_maxiter o with Some m => m | None => maxiter_by_nsol (o_nsol o) end).
  destruct (lat_opt_total df LG1 LG_M G1 GM SY (computes_finite w E1 EM df B1 BM HC) (o_nsol o) On mi ma lo Wlo)
    as (k0 & f0 & r & Run & m & seen & (P1 & _ & P3 & _ & P5) & HF & Hm & Lm & _ & _).
  exists k0, f0, r. split.
  { intros k f Hk Hf. unfold lat_opt. cbv zeta. rewrite HS, Os. cbn [bind]. rewrite Hdf. cbn [bind].
    rewrite (new_lattice_ok 3 E1 B1 E1 W1 D1). cbn [bind]. rewrite HL. cbn [bind].
    destruct W1 as [-> _]. exact (Run k f Hk Hf). }
  rewrite Forall_forall in HF.
  assert (HSL : forall E, In E seen -> SL3 E).
  { intros E HE. destruct (HF E HE) as (P & [WP DP] & ->). split; [now apply wfz3|]. rewrite (det_mmul_Z 3) by (auto; now right). now rewrite Dlo, DP. }
  assert (TC : forall l, wf 3 3 l -> df l = fA (mmul h l)) by (apply (computes_assoc w EA EM h fA df); auto).
  split; [split|split].
  - intros s Hs. apply in_map_iff in Hs. destruct Hs as ([l d] & <- & Hs). cbn [hd_ fst snd]. unfold total. cbn [hh hl].
    destruct (P3 _ Hs) as [H1 H2]. cbn [fst snd] in *. destruct (HSL l H1) as [Wl _]. split; [now apply wfz3|]. now rewrite H2, TC.
  - intros i j s t Hij Hi Hj. rewrite nth_error_map in Hi, Hj. destruct (nth_error r i) as [a|] eqn:Ai; [|discriminate].
    destruct (nth_error r j) as [b|] eqn:Bj; [|discriminate]. cbn in Hi, Hj. injection Hi as <-. injection Hj as <-. cbn [hd_].
    pose proof (P1 i j a b Hij Ai Bj) as K. now apply Rleb_spec in K.
  - intros ld H. apply HSL. now apply P3.
  - destruct (HSL _ Hm) as [Wm Dm].
    assert (LM : forall m', neighbour (elem m) m' -> (fA (mmul h (elem m)) <= fA (mmul h m'))%R).
    { intros m' Hn. pose proof (Lm m' Hn) as K. rewrite !TC in K by (auto; apply (neighbour_wf (elem m)); auto). exact K. }
    destruct (P5 _ Hm) as [(s & Hs & Eq)|[Hl Hlt]].
    + exists (elem m), s. split; [now split|]. split; [exact Hs|]. split; [|exact LM]. destruct (P3 s Hs) as [H1 H2].
      destruct (HSL _ H1) as [Ws _]. rewrite H2, <- (TC _ Wm). right. symmetry. now apply SY.
    + destruct r as [|c r]; [cbn in Hl; lia|]. exists (elem m), c. split; [now split|]. split; [now left|]. split; [|exact LM].
      specialize (Hlt c (or_introl eq_refl)). apply Ord.dlt_spec, Rleb_false in Hlt. rewrite TC in Hlt by exact Wm. lra.
Qed.

(** * The list of sublattices *)
Lemma all_hnfs_total vf : (forall k, In k vf -> 0 < k) ->
  exists hs, all_hnfs vf 3 = Ok hs /\ forall h, In h hs <-> is_hnf 3 h /\ In (det h) vf.
Proof.
  intros Hp. unfold all_hnfs.
  assert (K : exists ls, mapM (fun i => let* o := hnf_from_det i 3 in match o with Some l => Ok l | None => Raise TypeError end) vf = Ok ls /\
     forall h, In h (concat ls) <-> is_hnf 3 h /\ In (det h) vf).
  { induction vf as [|k vf IH]; [exists []; split; [reflexivity|]; cbn; tauto|].
    destruct IH as (ls & E & H); [intros; apply Hp; now right|].
    destruct (C03_hnf_from_det k 3 (Hp k (or_introl eq_refl)) ltac:(lia)) as (l & El & _ & Hl).
    exists (l :: ls). cbn [mapM]. rewrite El. cbn [bind]. rewrite E. cbn [bind]. split; [reflexivity|].
    intros h. cbn [concat In]. rewrite in_app_iff, Hl, H. split.
    - intros [[H1 H2]|[H1 H2]]; (split; [exact H1|]); [left|now right]. now rewrite det_hnf.
    - intros [H1 [H2|H2]]; [left|right]; auto. split; [exact H1|]. now rewrite <- det_hnf. }
  destruct K as (ls & E & H). rewrite E. cbn [bind]. eauto.
Qed.
Lemma required_in r v k : required_size r v k -> In k (vol_factors r v).
Proof.
  intros H. destruct (vol_factors_spec r v) as [[He HS]|[Hn HS]].
  - apply HS. destruct H as [H|[Hn _]]; [exact H|]. exfalso. apply Hn, He.
  - rewrite HS. left. destruct H as [H|[_ H]]; [exfalso; apply Hn; now exists k|]. now apply rint_nearest.
Qed.
Definition diag_hnf (k : Z) : mat Z := [[1;0;0];[0;1;0];[0;0;k]].
Lemma diag_hnf_ok k : 0 < k -> is_hnf 3 (diag_hnf k) /\ det (diag_hnf k) = k.
Proof.
  intros Hk. split; [|cbn -[Z.mul Z.add Z.sub Z.opp]; ring]. split; [apply wfb_spec; reflexivity|]. split; [|split].
  - intros i j Hij. assert ((i = 0 /\ j = 1 \/ i = 0 /\ j = 2 \/ i = 1 /\ j = 2)%nat) as C by lia. decompose [and or] C; subst; reflexivity.
  - intros i Hi. assert ((i = 0 \/ i = 1 \/ i = 2)%nat) as C by lia. decompose [and or] C; subst; cbn; lia.
  - intros i j Hij. assert ((j = 0 /\ i = 1 \/ j = 0 /\ i = 2 \/ j = 1 /\ i = 2)%nat) as C by lia. decompose [and or] C; subst; cbn; lia.
Qed.

(** * The loop *)
Lemma search_total LG_A LG_M nsol (run : nat -> nat -> mat Z -> res (list (mat Z * R))) (Rr : mat Z -> list (mat Z * R) -> Prop) : forall hs,
  (forall h, In h hs -> exists k0 f0 r, (forall k f, (k0 <= k)%nat -> (f0 <= f)%nat -> run k f h = Ok r) /\ Rr h r) ->
  exists k0 f0 rs, Forall2 Rr hs rs /\ forall k f, (k0 <= k)%nat -> (f0 <= f)%nat -> forall st,
    search (run k f) LG_A LG_M nsol hs st =
    Ok (fold_left (merge_sols LG_A LG_M nsol) (map (fun hr => map (fun ld => HSol (snd ld) (fst ld) (fst hr)) (snd hr)) (combine hs rs)) st).
Proof.
  induction hs as [|h hs IH]; intros H.
  - exists O, O, []. split; [constructor|]. intros; reflexivity.
  - destruct (H h (or_introl eq_refl)) as (k1 & f1 & r & Run & Hr). destruct IH as (k2 & f2 & rs & HF & HS); [intros; apply H; now right|].
    exists (k1 + k2)%nat, (f1 + f2)%nat, (r :: rs). split; [now constructor|]. intros k f Hk Hf st. cbn [search].
    rewrite (Run k f) by lia. cbn [bind combine map fold_left fst snd]. apply HS; lia.
Qed.

Lemma mapM_total {A B} (f : A -> res B) : forall l, (forall x, In x l -> exists y, f x = Ok y) -> exists ys, mapM f l = Ok ys.
Proof.
  induction l as [|x l IH]; intros H; [now exists []|]. destruct (H x (or_introl eq_refl)) as (y & E).
  destruct IH as (ys & E'); [intros; apply H; now right|]. exists (y :: ys). cbn. now rewrite E, E'.
Qed.
Lemma det_pos h : is_hnf 3 h -> 0 < det h.
Proof.
  intros H. rewrite det_hnf by exact H. destruct H as (_ & _ & Pos & _).
  pose proof (Pos 0%nat ltac:(lia)). pose proof (Pos 1%nat ltac:(lia)). pose proof (Pos 2%nat ltac:(lia)). cbn -[Z.mul get]. nia.
Qed.

Lemma base_sub EA h : base 3 EA -> is_hnf 3 h -> base 3 (mmul EA (RZ h)).
Proof.
  intros (_ & WEA & DEA) Hh. assert (Wh : wf 3 3 h) by apply Hh. split; [now right|]. split; [apply wf3m; auto using wf_RZ|].
  rewrite (det_mmul 3) by (auto using wf_RZ; now right). apply Rmult_integral_contrapositive_currified; [exact DEA|].
  rewrite <- RZ_det. apply not_0_IZR. pose proof (det_pos h Hh). lia.
Qed.

(** the sublattices searched, and the reports at the end *)
Lemma reports_total D eig q EA EM CA CM LG_A LG_M hs rs o : D = py3 \/ D = py2 -> base 3 EA -> base 3 EM -> wf 3 3 CA -> wf 3 3 CM ->
  det CA <> 0%R -> eig_correct 3 eig -> (forall h, In h rs -> In h hs) -> (forall h, In h hs -> is_hnf 3 h) ->
  forall k f st, search (fun h => lat_opt (fun C => fst (eig C)) o k f (mmul EA (RZ h)) EM) LG_A LG_M (q_nsol q) rs ([], []) = Ok st ->
  exists ys, mapM (fun s => let* out := report_hnf 3 EA EM CA CM eig (hh s) (hl s) in Ok (s, out)) (fst st) = Ok ys.
Proof.
  intros HDv BA BM WCA WCM DCA He Inc Ihs k f st HS. pose proof BA as (_ & WEA & DEA). pose proof BM as (_ & WEM & DEM).
  set (P := fun s : hsol => is_hnf 3 (hh s) /\ SL3 (hl s)).
  assert (HP' : okm P st).
  { refine (search_sound LG_A LG_M (q_nsol q) P _ rs ([], []) st _ _ HS); [|split; constructor].
    intros h r0 Hh Hr0. pose proof (Ihs h (Inc h Hh)) as Hh'. apply Forall_forall. intros [l d] Hld.
    destruct (lat_opt_genuine eig o k f (mmul EA (RZ h)) EM r0) as (_ & w & _ & FF); auto; [apply (base_sub EA h BA Hh')|].
    rewrite Forall_forall in FF. split; [exact Hh'|apply (FF _ Hld)]. }
  apply mapM_total. intros x Hx. destruct HP' as [_ FF]. rewrite Forall_forall in FF. destruct (FF x Hx) as [Hh [Wl Dl]]. pose proof (det_pos _ Hh) as Dp.
  destruct (C56_hnf 3 EA EM CA CM eig (hh x) (hl x)) as (out & Ho & _); auto; try (solve [now right | apply Hh | lia]). rewrite Ho. cbn [bind]. eauto.
Qed.

Lemma lat_cor_ends D eig q idA pA idM pM sA ceA cA sM ceM cM A M :
  D = py3 \/ D = py2 ->
  bravais_type 3 idA = Some (sA, ceA) -> admissible sA pA cA -> bravais_type 3 idM = Some (sM, ceM) -> admissible sM pM cM ->
  q_dim q = 3 -> q_dist q <> OtherName -> (q_vol_th q < 1)%R -> eig_correct 3 eig ->
  new_bravais idA pA 3 = Ok A -> new_bravais idM pM 3 = Ok M ->
  let EA := b_base A in let EM := b_base M in let ratio := (det EM / det EA)%R in
  (1/2 < ratio)%R -> resolved 3 EA ->
  (forall h, is_hnf 3 h -> allowed_size ratio (q_vol_th q) (det h) -> exists B, LLL (mmul EA (RZ h)) = Ok (Plain B)) ->
  exists k0 f0 sols, forall k f, (k0 <= k)%nat -> (f0 <= f)%nat -> lat_cor D eig q k f idA pA idM pM = Ok sols.
Proof.
  intros HDv TA AA TM AM Q3 QC Qv He HA HM EA EM ratio Hr RA HH.
  destruct (bravais_cell _ _ _ _ _ _ TA AA HA) as ((WEA & DEA & _) & WCA & DCA & _).
  destruct (bravais_cell _ _ _ _ _ _ TM AM HM) as ((WEM & DEM & _) & WCM & DCM & _). fold EA in WEA, DEA. fold EM in WEM, DEM.
  assert (BA : base 3 EA) by (split; [now right|now split]). assert (BM : base 3 EM) by (split; [now right|now split]).
  destruct (group_of EA BA RA) as (LG_A & HLA & GA & IA & DA). destruct (C15_special_partial 3 EM BM) as (_ & LG_M & _ & HLM & _).
  destruct (C54_positive_partial ratio (q_vol_th q) Hr Qv) as [Vn Vp]. destruct (all_hnfs_total _ Vp) as (hs & Hhs & Ihs).
  destruct (reduce_hnfs_any D HDv 3 ltac:(lia) LG_A GA hs) as (rs & Hrs & Sub & Rep); [intros h Hh; now apply Ihs|].
  assert (Inc : forall h, In h rs -> In h hs).
  { clear -Sub. induction Sub; cbn; intros h Hh; [destruct Hh|right; auto|destruct Hh as [->|Hh]; auto]. }
  set (o := {| o_nsol := q_nsol q; o_dist := q_dist q; o_maxiter := q_maxiter q; o_miniter := q_miniter q; o_SOLG2 := Some LG_M |}).
  destruct (search_total LG_A LG_M (q_nsol q) (fun k f h => lat_opt (fun C => fst (eig C)) o k f (mmul EA (RZ h)) EM) (fun _ _ => True) rs) as (k0 & f0 & res & HF & HS).
  { intros h Hh. apply Inc, Ihs in Hh. destruct Hh as [Hh Hd]. destruct (HH h Hh (vf_allowed _ _ _ Hd)) as (B & LL).
    destruct (lat_opt_runs eig o (mmul EA (RZ h)) EM LG_M B (base_sub EA h BA Hh) BM He QC eq_refl LL) as (k0 & f0 & r & Run). exists k0, f0, r. auto. }
  set (CA := conventional_trans A) in *. set (CM := conventional_trans M) in *.
  assert (Hhs' : forall h, In h hs -> is_hnf 3 h) by (intros; now apply Ihs).
  destruct (reports_total D eig q EA EM CA CM LG_A LG_M hs rs o HDv BA BM WCA WCM DCA He Inc Hhs' k0 f0 _ (HS k0 f0 (le_n _) (le_n _) ([], []))) as (ys & Hys).
  exists k0, f0, ys. intros k f Hk Hf. unfold lat_cor. rewrite Q3, HA, HM. cbn [bind]. cbv zeta. fold EA EM CA CM. rewrite HLA. cbn [bind].
  rewrite (new_lattice_ok 3 EM BM EM WEM DEM). cbn [bind]. rewrite HLM. cbn [bind]. unfold np_div. destruct (Reqb (det EA) 0) eqn:C; [apply Reqb_spec in C; contradiction|]. cbn [bind].
  change (Z.to_nat 3) with 3%nat. fold ratio. rewrite Hhs. cbn [bind]. rewrite Hrs. cbn [bind]. fold o.
  rewrite (HS k f Hk Hf ([], [])). cbn [bind]. exact Hys.
Qed.

Lemma lat_cor_total D eig q w idA pA idM pM sA ceA cA sM ceM cM A M :
  D = py3 \/ D = py2 ->
  bravais_type 3 idA = Some (sA, ceA) -> admissible sA pA cA -> bravais_type 3 idM = Some (sM, ceM) -> admissible sM pM cM ->
  q_dim q = 3 -> which_of (q_dist q) = Some w -> (1 <= q_nsol q)%nat -> (q_vol_th q < 1)%R -> eig_correct 3 eig ->
  new_bravais idA pA 3 = Ok A -> new_bravais idM pM 3 = Ok M ->
  let EA := b_base A in let EM := b_base M in let ratio := (det EM / det EA)%R in
  (1/2 < ratio)%R -> resolved 3 EA -> resolved 3 EM ->
  (forall L, w = dEricksen -> special_lattice_group EM = Ok L -> forall N, In N L -> orthogonal 3 (RZ N)) ->
  (forall h, is_hnf 3 h -> allowed_size ratio (q_vol_th q) (det h) ->
     resolved 3 (mmul EA (RZ h)) /\ exists B, LLL (mmul EA (RZ h)) = Ok (Plain B)) ->
  exists k0 f0 best rest,
    (forall k f, (k0 <= k)%nat -> (f0 <= f)%nat -> lat_cor D eig q k f idA pA idM pM = Ok (best :: rest)) /\
    forall h, is_hnf 3 h -> required_size ratio (q_vol_th q) (det h) -> exists l d, SL3 l /\
      measures w EA EM (mmul h l) d /\ (hd_ (fst best) <= d)%R /\
      forall l' d', neighbour l l' -> measures w EA EM (mmul h l') d' -> (d <= d')%R.
Proof.
  intros HDv TA AA TM AM Q3 QC Qn Qv He HA HM EA EM ratio Hr RA RM HO HH.
  destruct (bravais_cell _ _ _ _ _ _ TA AA HA) as ((WEA & DEA & _) & WCA & DCA & _).
  destruct (bravais_cell _ _ _ _ _ _ TM AM HM) as ((WEM & DEM & _) & WCM & DCM & _). fold EA in WEA, DEA. fold EM in WEM, DEM.
  assert (BA : base 3 EA) by (split; [now right|now split]). assert (BM : base 3 EM) by (split; [now right|now split]).
  destruct (group_of EA BA RA) as (LG_A & HLA & GA & IA & DA). destruct (group_of EM BM RM) as (LG_M & HLM & GM & IM & _).
  assert (HP : lattice_pair 3 EA EM LG_A LG_M) by (split; [now right|]; tauto).
  assert (Rw : respects w LG_M) by (destruct w; cbn [respects]; auto; now apply HO).
  assert (On : q_dist q <> OtherName) by (intros E; rewrite E in QC; discriminate).
  destruct (distance_exists eig (q_dist q) EA EM WEA BM He On) as (w' & fA & QC' & _ & HC).
  assert (w' = w) by congruence. subst w'. pose proof (computes_symmetric w EA EM LG_A LG_M fA HP Rw HC) as SY.
  destruct (C54_positive_partial ratio (q_vol_th q) Hr Qv) as [Vn Vp]. destruct (all_hnfs_total _ Vp) as (hs & Hhs & Ihs).
  destruct (reduce_hnfs_any D HDv 3 ltac:(lia) LG_A GA hs) as (rs & Hrs & Sub & Rep); [intros h Hh; now apply Ihs|].
  assert (Inc : forall h, In h rs -> In h hs).
  { clear -Sub. induction Sub; cbn; intros h Hh; [destruct Hh|right; auto|destruct Hh as [->|Hh]; auto]. }
  set (o := {| o_nsol := q_nsol q; o_dist := q_dist q; o_maxiter := q_maxiter q; o_miniter := q_miniter q; o_SOLG2 := Some LG_M |}).
  destruct (search_total LG_A LG_M (q_nsol q) (fun k f h => lat_opt (fun C => fst (eig C)) o k f (mmul EA (RZ h)) EM) (good_result fA) rs) as (k0 & f0 & res & HF & HS).
  { intros h Hh. apply Inc, Ihs in Hh. destruct Hh as [Hh Hd]. destruct (HH h Hh (vf_allowed _ _ _ Hd)) as (R1 & B & LL).
    apply (lat_opt_ends eig o w fA EA EM LG_M h B); auto; [apply Hh|now apply base_sub]. }
  set (results := map (fun hr : mat Z * list (mat Z * R) => map (fun ld => HSol (snd ld) (fst ld) (fst hr)) (snd hr)) (combine rs res)) in *.
  assert (HR : forall new, In new results -> exists h r, In h rs /\ new = map (fun ld => HSol (snd ld) (fst ld) h) r /\ good_result fA h r).
  { unfold results. clear -HF. induction HF as [|h r hs rs G F IH]; [intros ? []|]. cbn. intros new [<-|Hn]; [exists h, r; auto|].
    destruct (IH new Hn) as (h' & r' & H1 & H2). exists h', r'. auto. }
  assert (HR' : forall h, In h rs -> exists r, good_result fA h r /\ incl (map (fun ld => HSol (snd ld) (fst ld) h) r) (concat results)).
  { unfold results. clear -HF. induction HF as [|h r hs rs G F IH]; [intros ? []|]. cbn [combine map concat fst snd]. intros h' [<-|Hn].
    - exists r. split; [exact G|]. apply incl_appl, incl_refl.
    - destruct (IH h' Hn) as (r' & H1 & H2). exists r'. split; [exact H1|]. now apply incl_appr. }
  assert (NE : concat results <> []).
  { destruct (vol_factors ratio (q_vol_th q)) as [|k vf] eqn:EV; [congruence|]. assert (Hk : 0 < k) by (apply Vp; now left).
    destruct (diag_hnf_ok k Hk) as [H1 H2]. destruct (Rep (diag_hnf k)) as (y & Hy & _); [apply Ihs; split; [exact H1|]; rewrite H2; now left|].
    destruct (HR' y Hy) as (r & (_ & _ & m & c & _ & Hc & _) & I). intros E0. rewrite E0 in I.
    exact (I _ (in_map (fun ld => HSol (snd ld) (fst ld) y) r c Hc)). }
  destruct (C52_head_partial 3 LG_A LG_M fA (q_nsol q) results ltac:(lia) GA GM SY Qn) as (s & tl & Es & _ & Best);
    [intros new Hnew; destruct (HR new Hnew) as (h & r & _ & -> & G & _); exact G|exact NE|].
  unfold merge_all in Es. set (st := fold_left (merge_sols LG_A LG_M (q_nsol q)) results ([], [])) in *.
  set (CA := conventional_trans A) in *. set (CM := conventional_trans M) in *.
  assert (Hhs' : forall h, In h hs -> is_hnf 3 h) by (intros; now apply Ihs).
  destruct (reports_total D eig q EA EM CA CM LG_A LG_M hs rs o HDv BA BM WCA WCM DCA He Inc Hhs' k0 f0 _ (HS k0 f0 (le_n _) (le_n _) ([], []))) as (ys & Hys). fold st in Hys.
  assert (HY : exists out rest, ys = (s, out) :: rest).
  { pose proof Hys as Hy2. apply mapM_Forall2 in Hy2. rewrite Es in Hy2. inversion Hy2 as [|? y ? rest E F]; subst. apply bindOk in E. destruct E as (out & _ & E). injection E as <-. eauto. }
  destruct HY as (out & rest & ->). exists k0, f0, (s, out), rest. split.
  - intros k f Hk Hf. unfold lat_cor. rewrite Q3, HA, HM. cbn [bind]. cbv zeta. fold EA EM CA CM. rewrite HLA. cbn [bind].
    rewrite (new_lattice_ok 3 EM BM EM WEM DEM). cbn [bind]. rewrite HLM. cbn [bind]. unfold np_div. destruct (Reqb (det EA) 0) eqn:C; [apply Reqb_spec in C; contradiction|]. cbn [bind].
    change (Z.to_nat 3) with 3%nat. fold ratio. rewrite Hhs. cbn [bind]. rewrite Hrs. cbn [bind]. fold o.
    rewrite (HS k f Hk Hf ([], [])). fold st. cbn [bind]. exact Hys.
  - intros h Hh Hs. cbn [fst]. assert (Hin : In h hs) by (apply Ihs; split; [exact Hh|now apply required_in]).
    destruct (Rep h Hin) as (y & Hy & g & X & Hg & (WX & V & WV & XV & VX) & Eg). pose proof (Inc y Hy) as Hy'. apply Ihs in Hy'. destruct Hy' as [Hy' _].
    destruct (HR' y Hy) as (r & (_ & _ & m & c & [Wm Dm] & Hc & Hle & Lm) & I).
    assert (Wh : wf 3 3 h) by apply Hh. assert (Wy : wf 3 3 y) by apply Hy'. assert (Wg : wf 3 3 g) by now apply GA.
    assert (DX : det X = 1).
    { pose proof (f_equal det Eg) as K. rewrite !(det_mmul_Z 3), (DA g Hg) in K by (auto; now right). pose proof (det_pos h Hh). pose proof (det_pos y Hy').
      pose proof (f_equal det XV) as K2. rewrite (det_mmul_Z 3) in K2 by (auto; now right). change (det (eye 3)) with 1 in K2.
      assert (0 < det X) by nia. destruct (Z.mul_eq_1 (det X) (det V) K2); lia. }
    assert (DV : det V = 1).
    { pose proof (f_equal det XV) as K2. rewrite (det_mmul_Z 3), DX in K2 by (auto; now right). change (det (eye 3)) with 1 in K2. lia. }
    assert (TR : forall m', wf 3 3 m' -> fA (mmul h (mmul V m')) = fA (mmul y m')).
    { intros m' Wm'. apply SY; auto using wfz3.
      exists g, (eye 3). split; [exact Hg|]. split; [apply GM|]. rewrite (mmul_eye_r 3 3) by (auto using wfz3; lia).
      rewrite <- assocz, Eg, (assocz y X), <- (assocz X V), XV, (mmul_eye_l 3 3) by (auto using wfz3; lia). reflexivity. }
    exists (mmul V m), (fA (mmul h (mmul V m))). split; [split; [now apply wfz3|rewrite (det_mmul_Z 3), DV, Dm by (auto; now right); reflexivity]|].
    split; [apply HC; auto using wfz3|]. split.
    + rewrite TR by exact Wm. eapply Rle_trans; [|exact Hle]. exact (Best _ (I _ (in_map (fun ld => HSol (snd ld) (fst ld) y) r c Hc))).
    + intros l' d' (i & j & t & Hi & Hj & Hij & Ht & ->) Hm.
      assert (W' : wf 3 3 (mmul h (mmul (mmul V m) (shear i j t)))) by (apply wfz3; [exact Wh|]; apply wfz3; [now apply wfz3|apply wf_mk]).
      rewrite (has_distance_unique w _ _ _ _ _ BM Hm (HC _ W')). rewrite assocz by (auto; apply wf_mk).
      rewrite !TR by (solve [auto | apply wfz3; [exact Wm|apply wf_mk]]). apply Lm. exists i, j, t. auto.
Qed.
