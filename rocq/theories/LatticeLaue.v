From Verif Require Import LinAlg GroupSpec GroupModel GroupProofs LatticeModel LatticeSpec LatticeProofs LatticeGroups.
Local Open Scope R_scope.

(** the rotations (resp. isometries) written down in the program's tables *)
Definition tabled_rotations (n : nat) : list (mat R) :=
  if (n =? 3)%nat then map RZ CUBIC_LAUE_GROUP ++ HEX_LAUE_GROUP else map RZ SQUARE_GROUP ++ HEX2D_GROUP.
Definition tabled_isometries (n : nat) : list (mat R) :=
  if (n =? 3)%nat then map RZ CUBIC_LAUE_GROUP ++ HEX_LAUE_GROUP else map RZ SQUARE_EXT_GROUP ++ HEX2D_EXT_GROUP.
(** the tolerances of the comparison accept no tabled isometry that is not a symmetry *)
Definition resolved (n : nat) (E : mat R) : Prop :=
  forall Q, In Q (tabled_isometries n) -> inpointgroup E (FltArr Q) = Ok true -> preserves n Q E.

Lemma rot_in_iso n Q : In Q (tabled_rotations n) -> In Q (tabled_isometries n).
Proof.
  unfold tabled_rotations, tabled_isometries. destruct (n =? 3)%nat; [auto|]. rewrite !in_app_iff. intros [H|H].
  - left. apply in_map_iff in H. destruct H as (M & <- & H). apply in_map. apply square_ext_iff. now apply square_iff in H.
  - right. assert (forall A B : list (mat R), incl A (A ++ B)) by (intros; intros x; rewrite in_app_iff; auto).
    revert H. unfold HEX2D_EXT_GROUP, HEX2D_GROUP. cbn. tauto.
Qed.
Lemma tabled_orth n Q : dim23 n -> In Q (tabled_isometries n) -> orthogonal n Q.
Proof.
  intros [->| ->]; cbn [tabled_isometries Nat.eqb]; rewrite in_app_iff; intros [H|H].
  - exact (proj1 (proj2 SQUARE_EXT_good Q H)).
  - exact (proj1 (proj2 HEX2D_EXT_good Q H)).
  - exact (proj1 (proj2 CUBIC_good Q H)).
  - exact (proj1 (proj2 HEX_group Q H)).
Qed.
Lemma tabled_det n Q : dim23 n -> In Q (tabled_rotations n) -> det Q = 1.
Proof.
  intros [->| ->]; cbn [tabled_rotations Nat.eqb]; rewrite in_app_iff; intros [H|H].
  - apply in_map_iff in H. destruct H as (M & <- & H). apply square_iff in H. rewrite <- RZ_det. now destruct H as [_ ->].
  - now apply HEX2D_det.
  - apply in_map_iff in H. destruct H as (M & <- & H). apply cubic_iff in H. rewrite <- RZ_det. now destruct H as [_ ->].
  - now apply HEX_det.
Qed.

Section Pick.
  Variable n : nat.
  Variable E : mat R.
  Hypothesis B : base n E.

  (** pick_group over two good tables *)
  Lemma pick_spec T1 T2 k :
    good_table n (map values T1) /\ (forall Q, In Q T1 -> orth_arr n Q) ->
    good_table n (map values T2) /\ (forall Q, In Q T2 -> orth_arr n Q) ->
    exists T, (T = T1 \/ T = T2) /\ pick_group E T1 T2 k = Ok (kept E T).
  Proof.
    intros [G1 O1] [G2 O2]. unfold pick_group. rewrite (keep_kept n E B T1 O1), (keep_kept n E B T2 O2). cbn [bind].
    destruct (_ =? k)%nat; [|eauto]. destruct (_ <? _)%nat; eauto.
  Qed.

  Definition group_result (tab : list (mat R)) (G : list (mat R)) : Prop :=
    NoDup G /\ In (eye n) G /\
    (forall Q, In Q G -> In Q tab /\ orthogonal n Q /\ inpointgroup E (FltArr Q) = Ok true) /\
    ((forall Q, In Q tab -> inpointgroup E (FltArr Q) = Ok true -> preserves n Q E) -> is_group n G).

  Lemma pick_result T1 T2 k tab :
    good_table n (map values T1) /\ (forall Q, In Q T1 -> orth_arr n Q) ->
    good_table n (map values T2) /\ (forall Q, In Q T2 -> orth_arr n Q) ->
    tab = map values T1 ++ map values T2 ->
    exists G, pick_group E T1 T2 k = Ok G /\ group_result tab G.
  Proof.
    intros H1 H2 ->. destruct (pick_spec T1 T2 k H1 H2) as (T & HT & ->).
    assert (GT : good_table n (map values T)) by (destruct HT as [->| ->]; [apply H1|apply H2]).
    assert (OT : forall Q, In Q T -> orth_arr n Q) by (destruct HT as [->| ->]; [apply H1|apply H2]).
    assert (IT : forall Q, In Q (map values T) -> In Q (map values T1 ++ map values T2))
      by (intros Q HQ; rewrite in_app_iff; destruct HT as [->| ->]; auto).
    exists (kept E T). split; [reflexivity|]. split; [now apply (kept_NoDup n)|]. split; [now apply (kept_eye n)|]. split.
    - intros Q HQ. split; [|split; [now apply (kept_orth n E B T OT)|]].
      + apply (in_kept n E B T OT) in HQ. now apply IT.
      + now apply (in_kept n E B T OT) in HQ.
    - intros HR. apply (kept_group n E B T GT OT). intros X HX. now apply HR, IT.
  Qed.

  Lemma mopp_mopp (Q : mat R) : wf n n Q -> mopp (mopp Q) = Q.
  Proof.
    intros W. pose proof (dim23_pos n (proj1 B)) as Hn. pose proof (wf_mopp n n Q Hn W) as WO.
    apply (mat_ext n n); [now apply wf_mopp|exact W|]. intros i j Hi Hj. rewrite !(get_mopp n n) by assumption. cbn. ring.
  Qed.
  Lemma mopp_mul_l (P Q : mat R) : wf n n P -> wf n n Q -> mmul (mopp P) Q = mopp (mmul P Q).
  Proof.
    intros WP WQ. pose proof (dim23_pos n (proj1 B)) as Hn. pose proof (wf_mopp n n P Hn WP) as WO.
    pose proof (wf_mmul n n n P Q WP WQ Hn) as WM.
    apply (mat_ext n n); [now apply (wf_mmul n n n)|now apply wf_mopp|]. intros i j Hi Hj.
    rewrite (get_mopp n n), !(get_mmul n n n) by assumption. cbn [opp R_ops].
    transitivity (-1 * sumn n (fun l => get P i l * get Q l j)); [|cbn; ring]. rewrite <- sumn_mult.
    apply sumn_ext. intros l Hll. rewrite (get_mopp n n) by assumption. cbn. ring.
  Qed.
  Lemma mopp_mul_r (P Q : mat R) : wf n n P -> wf n n Q -> mmul P (mopp Q) = mopp (mmul P Q).
  Proof.
    intros WP WQ. pose proof (dim23_pos n (proj1 B)) as Hn. pose proof (wf_mopp n n Q Hn WQ) as WO.
    pose proof (wf_mmul n n n P Q WP WQ Hn) as WM.
    apply (mat_ext n n); [now apply (wf_mmul n n n)|now apply wf_mopp|]. intros i j Hi Hj.
    rewrite (get_mopp n n), !(get_mmul n n n) by assumption. cbn [opp R_ops].
    transitivity (-1 * sumn n (fun l => get P i l * get Q l j)); [|cbn; ring]. rewrite <- sumn_mult.
    apply sumn_ext. intros l Hll. rewrite (get_mopp n n) by assumption. cbn. ring.
  Qed.
  Lemma orth_mopp (Q : mat R) : orthogonal n Q -> orthogonal n (mopp Q).
  Proof.
    intros OQ. pose proof (proj1 OQ) as WQ. pose proof (dim23_pos n (proj1 B)) as Hn. split; [now apply wf_mopp|].
    replace (tr (mopp Q)) with (mopp (tr Q)).
    - rewrite mopp_mul_l, mopp_mul_r, mopp_mopp, (proj2 OQ); auto using wf_eye; repeat first [apply wf_eye | apply (wf_mmul n n n) | apply wf_mopp | apply wf_tr' | assumption].
    - apply (mat_ext n n); repeat first [apply wf_mopp | apply wf_tr' | assumption].
      intros i j Hi Hj. rewrite (get_mopp n n), !(get_tr' n n), (get_mopp n n) by (repeat first [apply wf_mopp | apply wf_tr' | assumption]). reflexivity.
  Qed.
  Lemma inpoint_mopp Q : orthogonal n Q -> inpointgroup E (FltArr (mopp Q)) = inpointgroup E (FltArr Q).
  Proof.
    intros OQ. pose proof (proj1 OQ) as WQ. pose proof (dim23_pos n (proj1 B)) as Hn. pose proof (proj1 (proj2 B)) as WE.
    pose proof (wf_minv n E (proj1 B) WE) as WI.
    rewrite !(inpoint_red n E B); [|exact OQ|apply orth_mopp, OQ]. cbn [values].
    rewrite !(lat_eq_red n E B); [|now apply (wf_mmul n n n)|apply (wf_mmul n n n); auto; now apply wf_mopp]. f_equal.
    rewrite mopp_mul_l, mopp_mul_r; auto; [|now apply (wf_mmul n n n)]. set (A := mmul (minv E) (mmul Q E)).
    assert (WA : wf n n A) by (repeat (apply (wf_mmul n n n); auto)).
    apply Bool.eq_iff_eq_true. rewrite !(allclose_n n E B); [|exact WA|now apply wf_mopp].
    split; intros H i j Hi Hj; specialize (H i j Hi Hj); revert H; unfold rintm;
      rewrite !get_RZ, !(get_mmap rint rint_0), (get_mopp n n), rint_opp by (auto; now apply wf_mopp); rewrite opp_IZR; cbn [opp R_ops];
      rewrite Rabs_Ropp; replace (- get A i j - - IZR (rint (get A i j))) with (- (get A i j - IZR (rint (get A i j)))) by ring;
      rewrite Rabs_Ropp; auto.
  Qed.
End Pick.

Lemma laue_result n E : base n E -> exists G, Laue_group E = Ok G /\ group_result n E (tabled_rotations n) G.
Proof.
  intros B. pose proof (len_base n E B) as Hl. unfold Laue_group. rewrite Hl. pose proof (proj1 B) as D. destruct D as [->| ->].
  - apply (pick_result 2 E B); [apply square_T|apply hex2d_T|]. unfold square_arr, hex2d_arr. now rewrite map_values_int, map_values_flt.
  - apply (pick_result 3 E B); [apply cubic_T|apply hex_T|]. unfold cubic_arr, hex_arr. now rewrite map_values_int, map_values_flt.
Qed.

Lemma det_mopp3 (Q : mat R) : wf 3 3 Q -> det (mopp Q) = - det Q.
Proof.
  intros W. destruct (wf3_inv Q W) as (a&b&c&d&e&f&g&h&i&->). rewrite !det3. cbn. ring.
Qed.

Lemma point_result n E (B : base n E) : exists G, point_group E = Ok G /\ NoDup G /\ In (eye n) G /\
    (forall Q, In Q G -> orthogonal n Q /\ (In Q (tabled_isometries n) \/ In (mopp Q) (tabled_isometries n)) /\ inpointgroup E (FltArr Q) = Ok true) /\
    (resolved n E -> is_group n G /\ forall Q, In Q G -> preserves n Q E).
  Proof.
    pose proof (len_base n E B) as Hl. unfold point_group. rewrite Hl. pose proof B as B'. destruct B' as ([->| ->] & WE & DE).
    - destruct (pick_result 2 E B square_ext_arr hex2d_ext_arr 4 (tabled_isometries 2) square_ext_T hex2d_ext_T) as (G & EG & ND & IG & AG & CG).
      { unfold square_ext_arr, hex2d_ext_arr. now rewrite map_values_int, map_values_flt. }
      exists G. split; [exact EG|]. split; [exact ND|]. split; [exact IG|]. split.
      + intros Q HQ. destruct (AG Q HQ) as (A1 & A2 & A3). auto.
      + intros RS. split; [now apply CG|]. intros Q HQ. destruct (AG Q HQ) as (A1 & A2 & A3). now apply RS.
    - destruct (laue_result 3 E B) as (L & EL & ND & IL & AL & CL). rewrite EL. cbn [bind]. eexists. split; [reflexivity|].
      assert (WL : forall Q, In Q L -> wf 3 3 Q) by (intros Q HQ; apply (AL Q HQ)).
      assert (DL : forall Q, In Q L -> det Q = 1) by (intros Q HQ; apply (tabled_det 3 Q); [now right|apply (AL Q HQ)]).
      split; [|split; [|split]].
      + assert (I : forall l, (forall Q, In Q l -> In Q L) -> NoDup l -> NoDup (map mopp l)).
        { induction l as [|x l IH]; intros HI HN; [constructor|]. inversion HN; subst. cbn. constructor.
          - intros K. apply in_map_iff in K. destruct K as (y & Ey & Hy). apply (f_equal mopp) in Ey.
            rewrite !(mopp_mopp 3 E B) in Ey by (apply WL, HI; cbn; auto). now subst.
          - apply IH; auto. intros Q HQ. apply HI. now right. }
        assert (K : forall a b : list (mat R), NoDup a -> NoDup b -> (forall x, In x a -> ~ In x b) -> NoDup (a ++ b)).
        { induction a as [|x a IHa]; intros b Ha Hb Hab; [exact Hb|]. inversion Ha; subst. cbn. constructor.
          - rewrite in_app_iff. intros [?|?]; [auto|]. apply (Hab x); cbn; auto.
          - apply IHa; auto. intros y Hy. apply Hab. now right. }
        apply K; auto. intros Q HQ HM. apply in_map_iff in HM. destruct HM as (P & <- & HP).
        pose proof (DL _ HQ) as D1. rewrite det_mopp3, (DL P HP) in D1 by auto. lra.
      + apply in_app_iff. now left.
      + intros Q HQ. apply in_app_iff in HQ. destruct HQ as [HQ|HQ].
        * destruct (AL Q HQ) as (A1 & A2 & A3). auto.
        * apply in_map_iff in HQ. destruct HQ as (P & <- & HP). destruct (AL P HP) as (A1 & A2 & A3).
          split; [now apply (orth_mopp 3 E B)|]. split.
          -- right. rewrite (mopp_mopp 3 E B); auto.
          -- rewrite (inpoint_mopp 3 E B); auto.
      + intros RS. assert (HL : is_group 3 L).
        { apply CL. intros Q HQ. apply RS. exact HQ. }
        assert (PL : forall Q, In Q L -> preserves 3 Q E).
        { intros Q HQ. apply RS; [|apply (AL Q HQ)]. apply (AL Q HQ). }
        split.
        * destruct HL as (_ & _ & I1 & I2 & I3). split; [|split; [|split; [|split]]].
          -- intros Q HQ. apply in_app_iff in HQ. destruct HQ as [HQ|HQ]; [auto|].
             apply in_map_iff in HQ. destruct HQ as (P & <- & HP). apply wf_mopp; [lia|auto].
          -- assert (I : forall l, (forall Q, In Q l -> In Q L) -> NoDup l -> NoDup (map mopp l)).
             { induction l as [|x l IH]; intros HI HN; [constructor|]. inversion HN; subst. cbn. constructor.
               - intros K. apply in_map_iff in K. destruct K as (y & Ey & Hy). apply (f_equal mopp) in Ey.
                 rewrite !(mopp_mopp 3 E B) in Ey by (apply WL, HI; cbn; auto). now subst.
               - apply IH; auto. intros Q HQ. apply HI. now right. }
             assert (K : forall a b : list (mat R), NoDup a -> NoDup b -> (forall x, In x a -> ~ In x b) -> NoDup (a ++ b)).
             { induction a as [|x a IHa]; intros b Ha Hb Hab; [exact Hb|]. inversion Ha; subst. cbn. constructor.
               - rewrite in_app_iff. intros [?|?]; [auto|]. apply (Hab x); cbn; auto.
               - apply IHa; auto. intros y Hy. apply Hab. now right. }
             apply K; auto. intros Q HQ HM. apply in_map_iff in HM. destruct HM as (P & <- & HP).
             pose proof (DL _ HQ) as D1. rewrite det_mopp3, (DL P HP) in D1 by auto. lra.
          -- apply in_app_iff. now left.
          -- intros g h Hg Hh. rewrite in_app_iff in *. destruct Hg as [Hg|Hg], Hh as [Hh|Hh].
             ++ left. auto.
             ++ right. apply in_map_iff in Hh. destruct Hh as (h' & <- & Hh). rewrite (mopp_mul_r 3 E B) by auto. apply in_map. auto.
             ++ right. apply in_map_iff in Hg. destruct Hg as (g' & <- & Hg). rewrite (mopp_mul_l 3 E B) by auto. apply in_map. auto.
             ++ left. apply in_map_iff in Hh, Hg. destruct Hh as (h' & <- & Hh), Hg as (g' & <- & Hg).
                rewrite (mopp_mul_l 3 E B), (mopp_mul_r 3 E B), (mopp_mopp 3 E B); auto.
                apply wf_mopp; [lia|auto].
          -- intros g Hg. rewrite in_app_iff in Hg. destruct Hg as [Hg|Hg].
             ++ destruct (I3 g Hg) as (h & Hh & E1 & E2). exists h. rewrite in_app_iff. auto.
             ++ apply in_map_iff in Hg. destruct Hg as (g' & <- & Hg). destruct (I3 g' Hg) as (h & Hh & E1 & E2).
                exists (mopp h). rewrite in_app_iff. split; [right; now apply in_map|].
                rewrite !(mopp_mul_l 3 E B), !(mopp_mul_r 3 E B), E1, E2, (mopp_mopp 3 E B); auto; try apply wf_mopp; auto; try lia.
        * intros Q HQ. apply in_app_iff in HQ. destruct HQ as [HQ|HQ]; [auto|]. apply in_map_iff in HQ.
          destruct HQ as (P & <- & HP). apply preserves_opp; auto. apply (AL P HP).
  Qed.

(** ** the integer representation *)
Section IntRep.
  Variable n : nat.
  Variable E : mat R.
  Hypothesis B : base n E.
  Let Hd : dim23 n := proj1 B.
  Let WE : wf n n E := proj1 (proj2 B).
  Let DE : det E <> 0 := proj2 (proj2 B).
  Let Hn : (0 < n)%nat := dim23_pos n Hd.
  Definition irep (Q : mat R) : mat Z := rintm (mmul (minv E) (mmul Q E)).
  Lemma to_integer_rep_ok G : to_integer_rep E G = Ok (map irep G).
  Proof. unfold to_integer_rep. rewrite (inv_Ok n) by assumption. reflexivity. Qed.
  Lemma irep_wf Q : wf n n Q -> wf n n (irep Q).
  Proof. intros W. apply wf_rintm. apply (wf_mmul n n n); [now apply wf_minv|now apply (wf_mmul n n n)|exact Hn]. Qed.
  Lemma irep_exact Q : orthogonal n Q -> preserves n Q E -> mmul E (RZ (irep Q)) = mmul Q E.
  Proof.
    intros OQ HP. apply preserves_iff in HP; auto. destruct HP as (M & WM & EM). pose proof (wf_RZ n n M WM) as WR.
    unfold irep. pose proof (proj1 OQ) as WQ.
    rewrite (proj1 (solve_left n E B (RZ M) (mmul Q E) ltac:(now apply (wf_mmul n n n)) WR) EM), rintm_RZ. auto.
  Qed.
  Lemma irep_unique Q M : wf n n M -> mmul Q E = mmul E (RZ M) -> wf n n Q -> irep Q = M.
  Proof.
    intros WM EM WQ. unfold irep.
    rewrite (proj1 (solve_left n E B (RZ M) (mmul Q E) ltac:(now apply (wf_mmul n n n)) (wf_RZ n n M WM)) EM). apply rintm_RZ.
  Qed.
  Lemma irep_det Q : orthogonal n Q -> preserves n Q E -> IZR (det (irep Q)) = det Q.
  Proof. intros OQ HP. apply (int_det_of n E B); auto; [apply irep_wf, OQ|]. symmetry. now apply irep_exact. Qed.
  Lemma irep_mul P Q : orthogonal n P -> orthogonal n Q -> preserves n P E -> preserves n Q E ->
    irep (mmul P Q) = mmul (irep P) (irep Q).
  Proof.
    intros OP OQ HP HQ. pose proof (proj1 OP) as WP. pose proof (proj1 OQ) as WQ.
    pose proof (irep_wf P WP). pose proof (irep_wf Q WQ). pose proof (wf_RZ n n _ H). pose proof (wf_RZ n n _ H0).
    apply irep_unique; [now apply (wf_mmul n n n)| |now apply (wf_mmul n n n)].
    rewrite (mmul_assoc n n n n), <- (irep_exact Q) by auto. rewrite <- (mmul_assoc n n n n), <- (irep_exact P) by auto.
    rewrite (mmul_assoc n n n n), RZ_mmul by auto. reflexivity.
  Qed.
  Lemma irep_eye : irep (eye n) = eye n.
  Proof. apply irep_unique; try apply wf_eye. rewrite RZ_eye, (mmul_eye_l n n), (mmul_eye_r n n) by auto. reflexivity. Qed.
  Lemma irep_inj P Q : orthogonal n P -> orthogonal n Q -> preserves n P E -> preserves n Q E -> irep P = irep Q -> P = Q.
  Proof.
    intros OP OQ HP HQ Hi. apply (mmul_cancel_r n E P Q); auto; [apply OP|apply OQ|].
    rewrite <- (irep_exact P), <- (irep_exact Q), Hi by auto. reflexivity.
  Qed.
  Lemma irep_group G : is_group n G -> (forall Q, In Q G -> orthogonal n Q) -> (forall Q, In Q G -> preserves n Q E) -> is_group n (map irep G).
  Proof.
    intros (_ & ND & I1 & I2 & I3) OG PG. split; [|split; [|split; [|split]]].
    - intros M HM. apply in_map_iff in HM. destruct HM as (Q & <- & HQ). apply irep_wf, OG, HQ.
    - assert (K : forall l, (forall Q, In Q l -> In Q G) -> NoDup l -> NoDup (map irep l)).
      { induction l as [|x l IH]; intros HI HN; [constructor|]. inversion HN; subst. cbn. constructor.
        - intros K. apply in_map_iff in K. destruct K as (y & Ey & Hy). apply irep_inj in Ey; auto; try (apply OG, HI; cbn; auto); try (apply PG, HI; cbn; auto). now subst.
        - apply IH; auto. intros Q HQ. apply HI. now right. }
      apply K; auto.
    - rewrite <- irep_eye. now apply in_map.
    - intros M N HM HN. apply in_map_iff in HM, HN. destruct HM as (P & <- & HP), HN as (Q & <- & HQ).
      rewrite <- irep_mul by auto. apply in_map. auto.
    - intros M HM. apply in_map_iff in HM. destruct HM as (P & <- & HP). destruct (I3 P HP) as (Q & HQ & E1 & E2).
      exists (irep Q). split; [now apply in_map|]. rewrite <- !irep_mul, E1, E2, irep_eye by auto. auto.
  Qed.
  Lemma irep_inlattice Q : orthogonal n Q -> preserves n Q E -> inlatticegroup E (RZ (irep Q)) = Ok true.
  Proof.
    intros OQ HP. unfold inlatticegroup. rewrite rintm_RZ, allclose_refl, (inv_Ok n) by assumption. cbn [bind].
    rewrite irep_exact by auto. pose proof (proj1 OQ) as WQ. pose proof (wf_minv n E Hd WE) as WI.
    rewrite (mmul_assoc n n n n), (minv_r n), (mmul_eye_r n n) by auto. f_equal. now apply (in_O3_float n E B).
  Qed.
End IntRep.
