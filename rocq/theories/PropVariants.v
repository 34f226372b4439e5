(** C108: from correspondences to variants.  The stretch tensors reported by lat_cor_hnf and lat_cor are accepted by Martensite, and
    correspondences related by symmetries of the two lattices give variants of one martensite. *)
From Coq Require Import Permutation Sorted.
From Verif Require Import LinAlg Eig Spectral HnfSpec GroupProofs GroupSpec LatticeModel LatticeSpec LatticeProofs LatticeLaue BravaisModel BravaisSpec OutputModel PropOutput
  HnfSearchModel MartModel MartSpec MartProofs PropMart TwinProofs TwinAxis TwinAxis2 LatCorModel LatCorSpec LatCorProofs DirectCorModel DirectCorSpec PropDirectCor SelfProofs PropRefute.
Local Open Scope R_scope.

(** U is the stretch of the deformation that carries the base EA N of a sublattice of the parent onto the base EM *)
Definition stretch_of (EA EM : mat R) (N : mat Z) (U : mat R) : Prop :=
  exists F, wf 3 3 F /\ mmul F (mmul EA (RZ N)) = EM /\ positive_definite U /\ mmul U U = mmul (tr F) F.
(** the symmetry Q of the lattice with base E, an isometry, acts on the base as the integer matrix M *)
Definition symmetry (E Q : mat R) (M : mat Z) : Prop := orthogonal 3 Q /\ wf 3 3 M /\ mmul E (RZ M) = mmul Q E.
(** N' is the correspondence N seen through a symmetry of either lattice *)
Definition equivalent (EA EM : mat R) (N N' : mat Z) (Q : mat R) : Prop :=
  exists M1 M2 Q2, symmetry EA Q M1 /\ symmetry EM Q2 M2 /\ N' = mmul (mmul M1 N) M2.

Lemma stretch_det EA EM N U : base 3 EA -> base 3 EM -> wf 3 3 N -> stretch_of EA EM N U -> det (mmul EA (RZ N)) <> 0.
Proof.
  intros (_ & WA & DA) (_ & WM & DM) WN (F & WF & HF & _) H0. apply DM. rewrite <- HF, (det_mmul 3) by (auto using wfr3, wf_RZ, d33). rewrite H0. ring.
Qed.
Lemma det_inj (X A B : mat R) : wf 3 3 X -> wf 3 3 A -> wf 3 3 B -> det X <> 0 -> mmul A X = mmul B X -> A = B.
Proof.
  intros WX WA WB DX H. apply (f_equal (fun Y => mmul Y (minv X))) in H.
  rewrite !assocr, (minv_r 3), !(mmul_eye_r 3 3) in H by (auto using d33, wf_minv; lia). exact H.
Qed.
Lemma equivalent_stretch EA EM N N' Q U U' : base 3 EA -> base 3 EM -> wf 3 3 N -> equivalent EA EM N N' Q ->
  stretch_of EA EM N U -> stretch_of EA EM N' U' -> U' = rotate Q U.
Proof.
  intros BA BM WN (M1 & M2 & Q2 & (OQ & W1 & H1) & (OQ2 & W2 & H2) & ->) SU SU'.
  pose proof (stretch_det _ _ _ _ BA BM WN SU) as D0.
  destruct BA as (_ & WA & DA). destruct BM as (_ & WM & DM). destruct SU as (F & WF & HF & PU & UU). destruct SU' as (F' & WF' & HF' & PU' & UU').
  pose proof (proj1 OQ) as WQ. pose proof (proj1 OQ2) as WQ2. pose proof (wf_RZ 3 3 _ WN) as WNR. pose proof (wf_RZ 3 3 _ W1) as W1R. pose proof (wf_RZ 3 3 _ W2) as W2R.
  assert (WX : wf 3 3 (mmul EA (RZ N))) by now apply wfr3.
  assert (DM2 : det (RZ M2) <> 0).
  { intros K. apply (f_equal det) in H2. rewrite !(det_mmul 3), K in H2 by (auto using d33). rewrite Rmult_0_r in H2. symmetry in H2. apply Rmult_integral in H2.
    destruct H2 as [H2|H2]; [|now apply DM]. destruct (orth_det 3 EM (conj d33 (conj WM DM)) Q2 OQ2); lra. }
  (* F = Q2 F' Q *)
  assert (EF : F = mmul (mmul Q2 F') Q).
  { apply (det_inj (mmul (mmul EA (RZ N)) (RZ M2))); auto using wfr3.
    - rewrite (det_mmul 3) by (auto using d33). now apply Rmult_integral_contrapositive_currified.
    - rewrite <- assocr, HF, H2 by auto. rewrite <- HF' at 1. rewrite !RZ_mmul. rewrite !assocr by (auto using wfr3). f_equal. f_equal.
      rewrite <- assocr, H1, assocr by (auto using wfr3). reflexivity. }
  assert (WTQ : wf 3 3 (tr Q)) by (apply wf_tr'; auto; lia). assert (WTF' : wf 3 3 (tr F')) by (apply wf_tr'; auto; lia). assert (WTQ2 : wf 3 3 (tr Q2)) by (apply wf_tr'; auto; lia).
  assert (WU : wf 3 3 U) by apply PU.
  assert (EC : mmul (tr F) F = mmul (mmul (tr Q) (mmul (tr F') F')) Q).
  { rewrite EF at 1. rewrite EF. rewrite !(tr_mmul 3 3 3) by (auto using wfr3; lia). rewrite !assocr by (auto using wfr3).
    do 2 f_equal. rewrite <- (assocr (tr Q2) Q2) by (auto using wfr3). rewrite (orth_l 3 Q2 d33 OQ2), (mmul_eye_l 3 3) by (auto using wfr3; lia). reflexivity. }
  apply sqrt_unique; [exact PU'|now apply rotate_posdef|]. rewrite rotate_mmul by auto. rewrite UU, EC, UU'. unfold rotate.
  assert (WC : wf 3 3 (mmul (tr F') F')) by now apply wfr3.
  rewrite !assocr by (auto using wfr3). destruct OQ as [_ OQ]. rewrite OQ, (mmul_eye_r 3 3) by (auto using wfr3; lia). rewrite <- assocr, OQ, (mmul_eye_l 3 3) by (auto using wfr3; lia). reflexivity.
Qed.
Lemma genuine_stretch_of w v EA EM BA BM d h l cor U lams : genuine w v EA EM BA BM d h l cor U lams -> stretch_of EA EM (mmul h l) U.
Proof.
  intros [Hh _ [Wl Dl] (F & G & WF & WG & FG & GF & EF & _ & SU & PU & UU & HD) [_ (mu & V & E & _)]].
  exists F. split; [exact WF|]. split; [exact EF|]. split; [|exact UU]. apply posdef_pd; auto. apply E.
Qed.
Lemma direct_stretch_of EA EM BA BM d l cor U lams : genuine_direct 3 EA EM BA BM d l cor U lams -> stretch_of EA EM l U.
Proof.
  intros [[Wl Dl] (F & G & WF & WG & FG & GF & EF & _ & SU & PU & UU & HD) [_ (mu & V & E & _)]].
  exists F. split; [exact WF|]. split; [exact EF|]. split; [|exact UU]. apply posdef_pd; auto. apply E.
Qed.
Lemma sorted_same l l' : length l = 3%nat -> StronglySorted Rle l -> StronglySorted Rle l' -> Permutation l l' -> l = l'.
Proof.
  intros L S S' P. pose proof (Permutation_length P) as L'. rewrite L in L'. symmetry in L'.
  destruct l as [|a [|b [|c [|? ?]]]]; try discriminate. destruct l' as [|a' [|b' [|c' [|? ?]]]]; try discriminate.
  assert (O : forall x y z, StronglySorted Rle [x; y; z] -> x <= y /\ y <= z).
  { intros x y z K. inversion K as [|? ? K1 F1]; subst. inversion K1 as [|? ? K2 F2]; subst. inversion F1; subst. inversion F2; subst. auto. }
  destruct (O _ _ _ S). destruct (O _ _ _ S'). destruct (RankOneProofs.sorted_perm3 a b c a' b' c') as (-> & -> & ->); auto.
Qed.
Lemma rotate_lams U Q lams lams' : orthogonal 3 Q -> StronglySorted Rle lams -> StronglySorted Rle lams' ->
  (exists mu V, eigen 3 U mu V /\ Permutation lams mu) -> (exists mu V, eigen 3 (rotate Q U) mu V /\ Permutation lams' mu) -> lams' = lams.
Proof.
  intros OQ S S' (mu & V & E & P) (mu' & V' & E' & P'). pose proof (proj1 OQ) as WQ. pose proof E as (WU & WV & LL & DV & HE).
  assert (WTQ : wf 3 3 (tr Q)) by (apply wf_tr'; auto; lia).
  destruct (orth_inv 3 Q d33 OQ) as [EI DQ]. pose proof (eigen_conj 3 U mu V Q d33 WQ DQ E) as E2. rewrite EI in E2.
  pose proof (eigen_perm 3 _ _ _ _ _ d33 E' E2) as PP. apply sorted_same; auto.
  - rewrite (Permutation_length P'), (Permutation_length PP). exact LL.
  - apply (Permutation_trans P'). apply (Permutation_trans PP). now apply Permutation_sym.
Qed.

(** Every stretch tensor returned by lat_cor_hnf is accepted by setU, whatever group the Martensite object carries. *)
Theorem C108_accepted : forall D eig q k fuel idA pA idM pM sols sA ceA cA sM ceM cM,
  bravais_type 3 idA = Some (sA, ceA) -> admissible sA pA cA -> bravais_type 3 idM = Some (sM, ceM) -> admissible sM pM cM ->
  q_dim q = 3%Z -> eig_correct 3 eig -> lat_cor D eig q k fuel idA pA idM pM = Ok sols ->
  forall s o m, In (s, o) sols -> exists m', setU m [Seq (Some (o_u o))] = Ok m' /\ getU m' = Ok (o_u o) /\ getLaue m' = getLaue m.
Proof.
  intros D eig q k fuel idA pA idM pM sols sA ceA cA sM ceM cM TA AA TM AM Q3 He H s o m Hin.
  destruct (lat_cor_genuine_bases D eig q k fuel idA pA idM pM sols sA ceA cA sM ceM cM TA AA TM AM Q3 He H) as (A & M & _ & _ & _ & _ & _ & G).
  destruct (G s o Hin) as (w & _ & _ & G'). destruct (genuine_stretch_of _ _ _ _ _ _ _ _ _ _ _ _ G') as (F & _ & _ & P & _).
  apply C26_accepts; [|exact P]. cbn [documented]. rewrite (proj2 (wfb_spec 3 3 (o_u o))); [reflexivity|apply P].
Qed.
Print Assumptions C108_accepted.

(** Two solutions, of any two runs of lat_cor_hnf on the same two lattices, whose correspondences h l are related by symmetries of the
    lattices: their stretches are related by the symmetry of the parent, and their principal stretches are the same. *)
Theorem C108_equivalent : forall D D' eig eig' q q' k k' fuel fuel' idA pA idM pM sols sols' sA ceA cA sM ceM cM A M,
  bravais_type 3 idA = Some (sA, ceA) -> admissible sA pA cA -> bravais_type 3 idM = Some (sM, ceM) -> admissible sM pM cM ->
  new_bravais idA pA 3 = Ok A -> new_bravais idM pM 3 = Ok M ->
  q_dim q = 3%Z -> q_dim q' = 3%Z -> eig_correct 3 eig -> eig_correct 3 eig' ->
  lat_cor D eig q k fuel idA pA idM pM = Ok sols -> lat_cor D' eig' q' k' fuel' idA pA idM pM = Ok sols' ->
  forall s o s' o' Q, In (s, o) sols -> In (s', o') sols' ->
    equivalent (b_base A) (b_base M) (mmul (hh s) (hl s)) (mmul (hh s') (hl s')) Q ->
    o_u o' = rotate Q (o_u o) /\ o_lams o' = o_lams o.
Proof.
  intros D D' eig eig' q q' k k' fuel fuel' idA pA idM pM sols sols' sA ceA cA sM ceM cM A M TA AA TM AM NA NM Q3 Q3' He He' H H' s o s' o' Q Hin Hin' EQ.
  destruct (lat_cor_genuine_bases D eig q k fuel idA pA idM pM sols sA ceA cA sM ceM cM TA AA TM AM Q3 He H) as (A1 & M1 & NA1 & NM1 & CA & CM & _ & G).
  destruct (lat_cor_genuine_bases D' eig' q' k' fuel' idA pA idM pM sols' sA ceA cA sM ceM cM TA AA TM AM Q3' He' H') as (A2 & M2 & NA2 & NM2 & _ & _ & _ & G').
  rewrite NA in NA1, NA2. rewrite NM in NM1, NM2. injection NA1 as <-. injection NA2 as <-. injection NM1 as <-. injection NM2 as <-.
  destruct (G s o Hin) as (w & _ & _ & K). destruct (G' s' o' Hin') as (w' & _ & _ & K').
  assert (BA : base 3 (b_base A)) by (split; [exact d33|split; apply CA]). assert (BM : base 3 (b_base M)) by (split; [exact d33|split; apply CM]).
  assert (WN : wf 3 3 (mmul (hh s) (hl s))) by (apply (wf_mmul 3 3 3); [apply K|apply K|lia]).
  assert (E : o_u o' = rotate Q (o_u o)).
  { apply (equivalent_stretch (b_base A) (b_base M) _ _ Q _ _ BA BM WN EQ); eapply genuine_stretch_of; eassumption. }
  split; [exact E|]. assert (OQ : orthogonal 3 Q) by (destruct EQ as (? & ? & ? & (OQ & _) & _); exact OQ).
  destruct K as [_ _ _ _ [S L]]. destruct K' as [_ _ _ _ [S' L']]. rewrite E in L'. exact (rotate_lams (o_u o) Q _ _ OQ S S' L L').
Qed.
Print Assumptions C108_equivalent.

Lemma symmetry_one E : base 3 E -> symmetry E (eye 3) (eye 3).
Proof.
  intros (_ & WE & _). split; [apply orth_eye; lia|]. split; [apply wf_eye|]. rewrite RZ_eye, (mmul_eye_l 3 3), (mmul_eye_r 3 3) by (auto; lia). reflexivity.
Qed.
Lemma symmetry_det E Q M : base 3 E -> symmetry E Q M -> Z.abs (det M) = 1%Z.
Proof.
  intros B (OQ & WM & H). pose proof B as (_ & WE & DE). apply (f_equal det) in H. rewrite !(det_mmul 3) in H by (auto using d33, wf_RZ; apply OQ).
  rewrite <- RZ_det in H. destruct (orth_det 3 E B Q OQ) as [D|D]; rewrite D in H.
  - assert (K : IZR (det M) = IZR 1) by (apply (Rmult_eq_reg_l (det E)); [lra|exact DE]). apply eq_IZR in K. now rewrite K.
  - assert (K : IZR (det M) = IZR (-1)) by (apply (Rmult_eq_reg_l (det E)); [lra|exact DE]). apply eq_IZR in K. now rewrite K.
Qed.
(** the correspondence moved by a symmetry of the parent has the rotated stretch *)
Lemma moved EA EM N U Q M : base 3 EA -> base 3 EM -> wf 3 3 N -> stretch_of EA EM N U -> symmetry EA Q M ->
  equivalent EA EM N (mmul M N) Q /\ stretch_of EA EM (mmul M N) (rotate Q U).
Proof.
  intros BA BM WN (F & WF & HF & PU & UU) HS. pose proof HS as (OQ & WM & H). pose proof BA as (_ & WA & _). pose proof (proj1 OQ) as WQ.
  assert (WMN : wf 3 3 (mmul M N)) by (apply (wf_mmul 3 3 3); auto; lia).
  assert (WTQ : wf 3 3 (tr Q)) by (apply wf_tr'; auto; lia). assert (WTF : wf 3 3 (tr F)) by (apply wf_tr'; auto; lia).
  split.
  - exists M, (eye 3), (eye 3). split; [exact HS|]. split; [now apply symmetry_one|]. rewrite (mmul_eye_r 3 3) by (auto; lia). reflexivity.
  - exists (mmul F (tr Q)). split; [auto using wfr3|]. pose proof (wf_RZ 3 3 _ WN) as WNR. pose proof (wf_RZ 3 3 _ WM) as WMR. split; [|split].
    + rewrite RZ_mmul, <- (assocr EA), H by auto. rewrite (assocr Q), (assocr F), <- (assocr (tr Q) Q), (orth_l 3 Q d33 OQ), (mmul_eye_l 3 3) by (auto using wfr3; lia). exact HF.
    + now apply rotate_posdef.
    + assert (WU : wf 3 3 U) by apply PU. rewrite rotate_mmul, UU, (tr_mmul 3 3 3), (tr_tr 3 3) by (auto; lia). unfold rotate.
      rewrite !assocr by (auto using wfr3). reflexivity.
Qed.

(** Let U be the stretch of the correspondence N, and let each element of the group given to Martensite be a symmetry of the parent
    lattice.  Then the stretch of every correspondence equivalent to N through an element of the group is, within the comparison tolerance, a
    listed variant, and every listed variant is the stretch of an equivalent correspondence of the same size. *)
Theorem C108_variants_partial : forall m EA EM N U, base 3 EA -> base 3 EM -> wf 3 3 N -> stretch_of EA EM N U ->
  reachable m -> m_U m = Some U -> isreversible m = Ok true -> (forall Q, In Q (getLaue m) -> exists M, symmetry EA Q M) ->
  exists Us m', getvariants m = Ok (Us, m') /\
    (forall N' Q U', In Q (getLaue m) -> equivalent EA EM N N' Q -> stretch_of EA EM N' U' -> exists V, In V Us /\ allclose V U' = true) /\
    (forall V, In V Us -> exists N' Q, equivalent EA EM N N' Q /\ Z.abs (det N') = Z.abs (det N) /\ stretch_of EA EM N' V).
Proof.
  intros m EA EM N U BA BM WN SU RM EU HR HG. destruct (C27_tolerance_partial m U RM EU HR) as (Us & idx & m' & E & _ & _ & _ & F1 & F2 & _).
  exists Us, m'. split; [exact E|]. split.
  - intros N' Q U' HQ EQ SU'. rewrite (equivalent_stretch EA EM N N' Q U U' BA BM WN EQ SU SU'). now apply F2.
  - intros V HV. destruct (F1 V HV) as [->|(Q & HQ & ->)].
    + exists N, (eye 3). split; [|split; [reflexivity|exact SU]]. exists (eye 3), (eye 3), (eye 3). split; [now apply symmetry_one|]. split; [now apply symmetry_one|].
      rewrite (mmul_eye_l 3 3), (mmul_eye_r 3 3) by (auto; lia). reflexivity.
    + destruct (HG Q HQ) as (M & HS). destruct (moved EA EM N U Q M BA BM WN SU HS) as [K1 K2]. exists (mmul M N), Q. split; [exact K1|]. split; [|exact K2].
      rewrite (DirectProofs.det_mmul_Z 3) by (auto using d33; apply HS). rewrite Z.abs_mul, (symmetry_det EA Q M BA HS). lia.
Qed.
Print Assumptions C108_variants_partial.

(** When the tolerance separates the images of U, the variants are exactly the stretches of the equivalent correspondences. *)
Theorem C108_exact_partial : forall m EA EM N U, base 3 EA -> base 3 EM -> wf 3 3 N -> stretch_of EA EM N U ->
  reachable m -> m_U m = Some U -> isreversible m = Ok true -> (forall Q, In Q (getLaue m) -> exists M, symmetry EA Q M) ->
  rotation_group (getLaue m) -> separated U (getLaue m) ->
  exists Us m', getvariants m = Ok (Us, m') /\ NoDup Us /\
    forall V, In V Us <-> exists N' Q, In Q (getLaue m) /\ equivalent EA EM N N' Q /\ stretch_of EA EM N' V.
Proof.
  intros m EA EM N U BA BM WN SU RM EU HR HG RG SP.
  assert (WU : wf 3 3 U) by (destruct SU as (F & _ & _ & P & _); apply P).
  destruct (C27_orbit_partial m U RM EU WU RG SP HR) as (Us & idx & m' & E & _ & O).
  exists Us, m'. split; [exact E|]. split; [apply O|]. intros V. rewrite (exact _ _ _ _ O V). split.
  - intros (Q & HQ & ->). destruct (HG Q HQ) as (M & HS). destruct (moved EA EM N U Q M BA BM WN SU HS) as [K1 K2]. exists (mmul M N), Q. auto.
  - intros (N' & Q & HQ & EQ & SV). exists Q. split; [exact HQ|]. exact (equivalent_stretch EA EM N N' Q U V BA BM WN EQ SU SV).
Qed.
Print Assumptions C108_exact_partial.

(** From the two lattices to the variants: a solution of lat_cor_hnf, its stretch handed to setU, with the Laue group of the parent. *)
Theorem C108_pipeline_partial : forall D eig q k fuel idA pA idM pM sols sA ceA cA sM ceM cM A M G,
  bravais_type 3 idA = Some (sA, ceA) -> admissible sA pA cA -> bravais_type 3 idM = Some (sM, ceM) -> admissible sM pM cM ->
  new_bravais idA pA 3 = Ok A -> new_bravais idM pM 3 = Ok M -> resolved 3 (b_base A) -> Laue_group (b_base A) = Ok G ->
  q_dim q = 3%Z -> eig_correct 3 eig -> lat_cor D eig q k fuel idA pA idM pM = Ok sols ->
  forall s o, In (s, o) sols -> exists m, setU (new_mart None (Some G)) [Seq (Some (o_u o))] = Ok m /\
    (isreversible m = Ok true -> exists Us m', getvariants m = Ok (Us, m') /\ hd_error Us = Some (o_u o) /\
      (forall N' Q U', In Q G -> equivalent (b_base A) (b_base M) (mmul (hh s) (hl s)) N' Q -> stretch_of (b_base A) (b_base M) N' U' ->
         exists V, In V Us /\ allclose V U' = true) /\
      (forall V, In V Us -> exists N' Q, equivalent (b_base A) (b_base M) (mmul (hh s) (hl s)) N' Q /\
         Z.abs (det N') = Z.abs (det (mmul (hh s) (hl s))) /\ stretch_of (b_base A) (b_base M) N' V)).
Proof.
  intros D eig q k fuel idA pA idM pM sols sA ceA cA sM ceM cM A M G TA AA TM AM NA NM RA LG Q3 He H s o Hin.
  destruct (C108_accepted D eig q k fuel idA pA idM pM sols sA ceA cA sM ceM cM TA AA TM AM Q3 He H s o (new_mart None (Some G)) Hin) as (m & Em & Hm & Lm).
  exists m. split; [exact Em|]. intros HR.
  destruct (lat_cor_genuine_bases D eig q k fuel idA pA idM pM sols sA ceA cA sM ceM cM TA AA TM AM Q3 He H) as (A1 & M1 & NA1 & NM1 & CA & CM & _ & GG).
  rewrite NA in NA1. rewrite NM in NM1. injection NA1 as <-. injection NM1 as <-. destruct (GG s o Hin) as (w & _ & _ & K).
  assert (BA : base 3 (b_base A)) by (split; [exact d33|split; apply CA]). assert (BM : base 3 (b_base M)) by (split; [exact d33|split; apply CM]).
  assert (WN : wf 3 3 (mmul (hh s) (hl s))) by (apply (wf_mmul 3 3 3); [apply K|apply K|lia]).
  pose proof (genuine_stretch_of _ _ _ _ _ _ _ _ _ _ _ _ K) as SU.
  assert (EG : getLaue m = G) by (rewrite Lm; reflexivity).
  assert (EU : m_U m = Some (o_u o)) by (unfold getU in Hm; destruct (m_U m); congruence).
  assert (RM : reachable m) by (eapply r_setU; [apply (r_new None (Some G))|exact Em]).
  assert (HG : forall Q, In Q (getLaue m) -> exists M', symmetry (b_base A) Q M').
  { intros Q HQ. rewrite EG in HQ. destruct (laue_result 3 _ BA) as (G' & EG' & _ & _ & AG & _). assert (G' = G) by congruence. subst G'.
    destruct (AG Q HQ) as (A1 & A2 & A3). assert (PQ : preserves 3 Q (b_base A)) by (apply RA; [now apply rot_in_iso|exact A3]).
    apply (preserves_iff 3 _ BA) in PQ; [|exact A2]. destruct PQ as (N & WN' & HN). exists N. split; [exact A2|]. split; [exact WN'|]. now symmetry. }
  destruct (C27_tolerance_partial m _ RM EU HR) as (Us0 & idx & m0 & E0 & _ & _ & HD & _).
  destruct (C108_variants_partial m _ _ _ _ BA BM WN SU RM EU HR HG) as (Us & m' & E & F1 & F2).
  rewrite E in E0. injection E0 as <- <-. exists Us, m'. split; [exact E|]. split; [exact HD|]. rewrite EG in F1. split; [exact F1|exact F2].
Qed.
Print Assumptions C108_pipeline_partial.

Lemma own_stretch U : positive_definite U -> stretch_of (eye 3) U (eye 3) U.
Proof.
  intros P. assert (WU : wf 3 3 U) by apply P. exists U. split; [exact WU|]. split; [|split; [exact P|]].
  - assert (WE : wf 3 3 (eye 3 : mat R)) by apply wf_eye. rewrite RZ_eye, !(mmul_eye_r 3 3) by (auto; lia). reflexivity.
  - destruct P as [[_ T] _]. now rewrite T at 1.
Qed.
Lemma cubic_symmetry Q : In Q CUBIC_LAUE_GROUP -> symmetry (eye 3) (RZ Q) Q.
Proof.
  intros HQ. assert (O : orthogonal 3 (RZ Q)) by (apply CUBIC_good; now apply in_map).
  split; [exact O|]. pose proof (proj1 O) as W. assert (WQ : wf 3 3 Q) by (apply cubic_iff in HQ; apply HQ). split; [exact WQ|].
  rewrite (mmul_eye_l 3 3), (mmul_eye_r 3 3) by (auto; lia). reflexivity.
Qed.
Lemma base_eye : base 3 (eye 3).
Proof. split; [exact d33|]. split; [apply wf_eye|]. rewrite (det_eye 3) by exact d33. lra. Qed.
(** Because of the comparison tolerance of getvariants the stretch of an equivalent correspondence can be missing from the list. *)
Theorem C108_refuted : exists m EA EM N U Us m' N' Q U', base 3 EA /\ base 3 EM /\ wf 3 3 N /\ stretch_of EA EM N U /\
  reachable m /\ m_U m = Some U /\ isreversible m = Ok true /\ (forall Q, In Q (getLaue m) -> exists M, symmetry EA Q M) /\
  getvariants m = Ok (Us, m') /\ In Q (getLaue m) /\ equivalent EA EM N N' Q /\ stretch_of EA EM N' U' /\ ~ In U' Us.
Proof.
  destruct (C27_tolerance_partial Mtiny Utiny (r_new _ _) eq_refl Mtiny_reversible) as (Us & idx & m' & E & _ & _ & HD & _ & _ & FAR & _).
  assert (P : positive_definite Utiny).
  { split; [split; [now apply wfb_spec|unfold Utiny, Dg; mat_eq ltac:(reflexivity)]|]. intros x y z K. unfold Utiny, Dg. cbn.
    assert (x * x + y * y + z * z <> 0).
    { intros K2. apply K. assert (x = 0) by nra. assert (y = 0) by nra. assert (z = 0) by nra. congruence. }
    nra. }
  set (Q := [[1;0;0];[0;0;-1];[0;1;0]]%Z). assert (HQ : In Q CUBIC_LAUE_GROUP) by (cbn; tauto).
  pose proof (own_stretch _ P) as SU. destruct (moved _ _ _ _ _ _ base_eye Utiny_base (wf_eye 3) SU (cubic_symmetry Q HQ)) as [K1 K2].
  exists Mtiny, (eye 3), Utiny, (eye 3), Utiny, Us, m', (mmul Q (eye 3)), (RZ Q), (rotate (RZ Q) Utiny).
  split; [exact base_eye|]. split; [exact Utiny_base|]. split; [apply wf_eye|]. split; [exact SU|]. split; [apply r_new|]. split; [reflexivity|].
  split; [exact Mtiny_reversible|]. split; [|split; [exact E|split; [|split; [exact K1|split; [exact K2|]]]]].
  - change (getLaue Mtiny) with (map RZ CUBIC_LAUE_GROUP). intros X HX. apply in_map_iff in HX. destruct HX as (Y & <- & HY). exists Y. now apply cubic_symmetry.
  - change (getLaue Mtiny) with (map RZ CUBIC_LAUE_GROUP). now apply in_map.
  - clear K1 K2 SU P. assert (ER : rotate (RZ Q) Utiny = Dg 1 (1 + 1 / 1000000000) 1) by (unfold Q, rotate, Utiny, Dg; meq ltac:(lra)).
    rewrite ER. intros K. destruct (In_nth_error _ _ K) as (k & Hk). destruct Us as [|V Us]; [discriminate|]. cbn [hd_error] in HD. injection HD as ->.
    assert (k <> 0%nat). { intros ->. cbn in Hk. assert (Hk2 : get Utiny 1 1 = get (Dg 1 (1 + 1 / 1000000000) 1) 1 1) by congruence. cbn in Hk2. lra. }
    specialize (FAR 0%nat k Utiny _ ltac:(lia) eq_refl Hk). revert FAR. rewrite (proj2 (allclose_spec 2 3 _ _ (proj1 (proj2 Utiny_base)))); [discriminate|].
    apply PropMart.lt3; unfold Utiny, Dg, M3, rtol0, atol0; cbn [get nth]; rabs; lra.
Qed.
Print Assumptions C108_refuted.

(** Cubic to tetragonal: the three variants are the stretches of the correspondences equivalent to the identity. *)
Example C108_case : exists Us m', getvariants Mtet = Ok (Us, m') /\ length Us = 3%nat /\
  forall V, In V Us <-> exists N' Q, In Q (getLaue Mtet) /\ equivalent (eye 3) Utet (eye 3) N' Q /\ stretch_of (eye 3) Utet N' V.
Proof.
  destruct C27_case as (RM & RG & SP & HR & Us & idx & m' & E & O & L).
  assert (P : positive_definite Utet).
  { split; [split; [now apply wfb_spec|unfold Utet; meq ltac:(reflexivity)]|]. intros x y z K. unfold Utet. cbn.
    assert (x * x + y * y + z * z <> 0).
    { intros K2. apply K. assert (x = 0) by nra. assert (y = 0) by nra. assert (z = 0) by nra. congruence. }
    nra. }
  destruct (C108_exact_partial Mtet (eye 3) Utet (eye 3) Utet base_eye Utet_base (wf_eye 3) (own_stretch _ P) RM eq_refl HR) as (Us2 & m2 & E2 & _ & K); auto.
  - change (getLaue Mtet) with (map RZ CUBIC_LAUE_GROUP). intros X HX. apply in_map_iff in HX. destruct HX as (Y & <- & HY). exists Y. now apply cubic_symmetry.
  - rewrite E in E2. injection E2 as <- <-. exists Us, m'. split; [exact E|]. split; [|exact K]. exact (Permutation_length L).
Qed.

(** The same for the direct search: its stretches are accepted by setU, and the stretch of every correspondence equivalent to a
    solution is the rotated one. *)
Theorem C108_direct_partial : forall w q fuel idA pA idM pM sols sA ceA cA sM ceM cM A M,
  bravais_type 3 idA = Some (sA, ceA) -> admissible sA pA cA -> bravais_type 3 idM = Some (sM, ceM) -> admissible sM pM cM ->
  new_bravais idA pA 3 = Ok A -> new_bravais idM pM 3 = Ok M -> d_dim q = 3%Z ->
  resolved 3 (b_base A) -> resolved 3 (b_base M) ->
  (1 <= d_nsol q)%nat -> (1 <= d_slice_sz q)%nat -> d_vol_th q <= 1 ->
  Forall (wf 3 3) (w_shifts w) -> eig_correct 3 (w_eig w) -> (forall l e, In e (w_order w l) <-> In e l) ->
  lat_cor_direct w q fuel idA pA idM pM = Ok sols ->
  forall d o, In (d, o) sols ->
    (forall m, exists m', setU m [Seq (Some (o_u o))] = Ok m' /\ getU m' = Ok (o_u o) /\ getLaue m' = getLaue m) /\
    stretch_of (b_base A) (b_base M) (o_l o) (o_u o) /\
    forall N' Q U', equivalent (b_base A) (b_base M) (o_l o) N' Q -> stretch_of (b_base A) (b_base M) N' U' -> U' = rotate Q (o_u o).
Proof.
  intros w q fuel idA pA idM pM sols sA ceA cA sM ceM cM A M TA AA TM AM NA NM Q3 RA RM Hs Hz Hv Hw He Ho H d o Hin.
  pose proof (C83_solutions_genuine_partial w q fuel idA pA idM pM sols sA ceA cA sM ceM cM A M) as C. rewrite Q3 in C. cbv zeta in C. change (Z.to_nat 3) with 3%nat in C.
  destruct (C TA AA TM AM NA NM RA RM Hs Hz Hv Hw He Ho H) as (BA & BM & GA & GM & LA & LM & _ & _ & _ & _ & _ & G & _). clear C.
  destruct (G d o Hin) as [K _]. pose proof (direct_stretch_of _ _ _ _ _ _ _ _ _ K) as SU. split; [|split; [exact SU|]].
  - intros m. destruct SU as (F & _ & _ & P & _). apply C26_accepts; [|exact P]. cbn [documented]. rewrite (proj2 (wfb_spec 3 3 (o_u o))); [reflexivity|apply P].
  - intros N' Q U' EQ SU'. apply (equivalent_stretch (b_base A) (b_base M) (o_l o) N' Q); auto.
    + split; [exact d33|]. split; apply LA.
    + split; [exact d33|]. split; apply LM.
    + apply K.
Qed.
Print Assumptions C108_direct_partial.
