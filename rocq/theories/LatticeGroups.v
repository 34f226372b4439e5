From Verif Require Import LinAlg GroupSpec GroupModel GroupProofs LatticeModel LatticeSpec LatticeProofs.
Local Open Scope R_scope.

Lemma NoDup_map_filter {A B} (f : A -> B) p l : NoDup (map f l) -> NoDup (map f (filter p l)).
Proof.
  induction l as [|x l IH]; intros H; [constructor|]. cbn in *. inversion H as [|? ? H1 H2]; subst.
  destruct (p x); [|auto]. cbn. constructor; auto. intros Hin. apply H1. apply in_map_iff in Hin.
  destruct Hin as (y & <- & Hy). apply filter_In in Hy. apply in_map. tauto.
Qed.
Lemma rint_opp x : rint (- x) = (- rint x)%Z.
Proof.
  destruct (Rlt_dec (Rabs (x - IZR (rint x))) (1/2)) as [H|H].
  - apply rint_nearest. rewrite opp_IZR. replace (- x - - IZR (rint x)) with (- (x - IZR (rint x))) by ring. now rewrite Rabs_Ropp.
  - (* a tie: x is an odd multiple of 1/2 *)
    pose proof (rint_close x) as Hc. assert (T : Rabs (x - IZR (rint x)) = 1/2) by lra. clear H Hc.
    assert (exists k, x = IZR k + 1/2) as [k ->].
    { unfold Rabs in T. destruct (Rcase_abs _) in T.
      - exists (rint x - 1)%Z. rewrite minus_IZR. lra.
      - exists (rint x). lra. }
    clear T.
    assert (F : forall k, Rfloor (IZR k + 1/2) = k).
    { intros m. pose proof (Rfloor_spec (IZR m + 1/2)) as [A1 A2].
      assert (IZR (Rfloor (IZR m + 1/2)) < IZR (m + 1)) by (rewrite plus_IZR; lra). apply lt_IZR in H.
      assert (IZR m < IZR (Rfloor (IZR m + 1/2) + 1)) by (rewrite plus_IZR; lra). apply lt_IZR in H0. lia. }
    assert (G : forall k, rint (IZR k + 1/2) = if Z.even k then k else (k + 1)%Z).
    { intros m. unfold rint. rewrite F. destruct (Rlt_dec _ _); [lra|]. destruct (Rlt_dec _ _); [lra|]. reflexivity. }
    replace (- (IZR k + 1/2)) with (IZR (- k - 1) + 1/2) by (rewrite minus_IZR, opp_IZR; lra).
    rewrite !G. replace (Z.even (- k - 1)) with (negb (Z.even k)).
    + destruct (Z.even k); cbn; lia.
    + rewrite Z.even_sub, Z.even_opp. cbn. now destruct (Z.even k).
Qed.

Section Groups.
  Variable n : nat.
  Variable E : mat R.
  Hypothesis B : base n E.
  Let Hd : dim23 n := proj1 B.
  Let WE : wf n n E := proj1 (proj2 B).
  Let DE : det E <> 0 := proj2 (proj2 B).
  Let Hn : (0 < n)%nat := dim23_pos n Hd.

  Lemma preserves_eye : preserves n (eye n) E.
  Proof.
    apply preserves_iff; auto; [now apply orth_eye|]. exists (eye n). split; [apply wf_eye|].
    rewrite RZ_eye, (mmul_eye_l n n), (mmul_eye_r n n) by auto. reflexivity.
  Qed.
  Lemma preserves_mul P Q : orthogonal n P -> orthogonal n Q -> preserves n P E -> preserves n Q E -> preserves n (mmul P Q) E.
  Proof.
    intros OP OQ HP HQ. apply preserves_iff in HP, HQ; auto. apply preserves_iff; auto; [now apply orth_mmul|].
    destruct HP as (M & WM & EM), HQ as (N & WN & EN). exists (mmul M N). split; [now apply (wf_mmul n n n)|].
    pose proof (proj1 OP) as WP. pose proof (proj1 OQ) as WQ. pose proof (wf_RZ n n M WM). pose proof (wf_RZ n n N WN).
    rewrite (mmul_assoc n n n n), EN by auto. rewrite <- (mmul_assoc n n n n), EM by auto.
    rewrite (mmul_assoc n n n n), RZ_mmul by auto. reflexivity.
  Qed.
  Lemma preserves_opp Q : orthogonal n Q -> preserves n Q E -> orthogonal n (mopp Q) /\ preserves n (mopp Q) E.
  Proof.
    intros OQ HQ. pose proof (proj1 OQ) as WQ.
    pose proof (wf_mopp n n Q Hn WQ) as WO. pose proof (wf_tr' n n _ Hn WQ) as WQt. pose proof (wf_tr' n n _ Hn WO) as WOt. assert (OO : orthogonal n (mopp Q)).
    { split; [now apply wf_mopp|]. rewrite <- (proj2 OQ). apply (mat_ext n n).
      - exact (wf_mmul n n n _ _ WO WOt Hn).
      - exact (wf_mmul n n n _ _ WQ WQt Hn).
      - intros i j Hi Hj. rewrite !(get_mmul n n n) by assumption.
        apply sumn_ext. intros k Hk. rewrite !(get_tr' n n), !(get_mopp n n) by assumption. cbn. ring. }
    split; [exact OO|]. apply preserves_iff in HQ; auto. apply preserves_iff; auto.
    destruct HQ as (M & WM & EM). exists (mopp M). split; [now apply wf_mopp|]. pose proof (wf_RZ n n M WM).
    apply (mat_ext n n).
    - exact (wf_mmul n n n _ _ WO WE Hn).
    - exact (wf_mmul n n n _ _ WE (wf_RZ n n _ (wf_mopp n n M Hn WM)) Hn).
    - intros i j Hi Hj. apply (f_equal (fun X => - get X i j)) in EM.
      rewrite !(get_mmul n n n) in * by (first [assumption | apply wf_RZ, wf_mopp; assumption]).
      transitivity (- sumn n (fun k => mul (get Q i k) (get E k j))).
      + transitivity (-1 * sumn n (fun k => get Q i k * get E k j)); [|cbn; ring]. rewrite <- sumn_mult. apply sumn_ext.
        intros k Hk. rewrite (get_mopp n n) by auto. cbn. ring.
      + rewrite EM. transitivity (-1 * sumn n (fun k => get E i k * get (RZ M) k j)); [cbn; ring|]. rewrite <- sumn_mult. apply sumn_ext.
        intros k Hk. rewrite !get_RZ, (get_mopp n n) by auto. cbn [opp Z_ops mul R_ops]. rewrite opp_IZR. ring.
  Qed.
  Lemma preserves_inv Q : orthogonal n Q -> preserves n Q E -> preserves n (tr Q) E.
  Proof.
    intros OQ HQ. pose proof (proj1 OQ) as WQ. pose proof HQ as HQ'. apply preserves_iff in HQ'; auto.
    apply preserves_iff; auto; [now apply orth_tr|]. destruct HQ' as (M & WM & EM).
    assert (DM : (det M = 1 \/ det M = -1)%Z).
    { pose proof (int_det_of n E B Q M OQ WM EM) as D. destruct (orth_det n E B Q OQ) as [D1|D1]; rewrite D1 in D; [left|right]; now apply eq_IZR. }
    destruct (unimod_inv n M Hd WM DM) as (N & WN & HMN & _). exists N. split; [exact WN|].
    pose proof (wf_RZ n n M WM). pose proof (wf_RZ n n N WN). assert (WT : wf n n (tr Q)) by (apply wf_tr'; assumption).
    assert (K : mmul (mmul (tr Q) (mmul Q E)) (RZ N) = mmul (tr Q) (mmul E (RZ (mmul M N)))).
    { rewrite EM, RZ_mmul. rewrite !(mmul_assoc n n n n) by (auto; apply (wf_mmul n n n); auto). reflexivity. }
    rewrite <- (mmul_assoc n n n n (tr Q) Q), (orth_l n), (mmul_eye_l n n) in K by auto.
    rewrite K, HMN, RZ_eye, (mmul_eye_r n n) by auto. reflexivity.
  Qed.

  Variable T : list nparray.
  Hypothesis GT : good_table n (map values T).
  Hypothesis OT : forall Q, In Q T -> orth_arr n Q.

  Definition kept : list (mat R) := map values (filter (acceptb E) T).
  Lemma keep_kept : keep E T = Ok kept.
  Proof. now apply (keep_filter n E B). Qed.
  Lemma flt_same Q : orth_arr n Q -> inpointgroup E (FltArr (values Q)) = inpointgroup E Q.
  Proof.
    intros H. rewrite !(inpoint_red n E B); auto. cbn. now apply orth_arr_values.
  Qed.
  Lemma in_kept X : In X kept <-> In X (map values T) /\ inpointgroup E (FltArr X) = Ok true.
  Proof.
    unfold kept. rewrite !in_map_iff. split.
    - intros (Q & <- & HQ). apply filter_In in HQ. destruct HQ as [HQ HA]. split; [eauto|].
      rewrite flt_same by auto. unfold acceptb in HA. destruct (inpointgroup E Q) as [b| |] eqn:Eb; try discriminate. now subst.
    - intros [(Q & <- & HQ) HA]. exists Q. split; [reflexivity|]. apply filter_In. split; [exact HQ|].
      rewrite flt_same in HA by auto. unfold acceptb. now rewrite HA.
  Qed.
  Lemma kept_orth X : In X kept -> orthogonal n X.
  Proof. intros H. apply in_kept in H. destruct H as [H _]. apply in_map_iff in H. destruct H as (Q & <- & HQ). now apply orth_arr_values, OT. Qed.
  Lemma kept_NoDup : NoDup kept.
  Proof. apply NoDup_map_filter. apply GT. Qed.
  Lemma kept_eye : In (eye n) kept.
  Proof.
    apply in_kept. split; [apply GT|]. apply (inpoint_preserves n E B); cbn; [now apply orth_eye|]. apply preserves_eye.
  Qed.
  Lemma kept_complete X : In X (map values T) -> orthogonal n X -> preserves n X E -> In X kept.
  Proof. intros H1 H2 H3. apply in_kept. split; [exact H1|]. apply (inpoint_preserves n E B); cbn; auto. Qed.
  Lemma kept_group : (forall X, In X (map values T) -> inpointgroup E (FltArr X) = Ok true -> preserves n X E) ->
    is_group n kept.
  Proof.
    intros RS. split; [intros g Hg; apply (kept_orth g Hg)|]. split; [apply kept_NoDup|]. split; [apply kept_eye|]. split.
    - intros g h Hg Hh. pose proof (kept_orth g Hg). pose proof (kept_orth h Hh).
      apply in_kept in Hg, Hh. destruct Hg as [G1 G2], Hh as [H1 H2].
      apply kept_complete; [apply GT; auto|now apply orth_mmul|apply preserves_mul; auto].
    - intros g Hg. pose proof (kept_orth g Hg) as OG. apply in_kept in Hg. destruct Hg as [G1 G2].
      exists (tr g). destruct (proj2 GT g G1) as (_ & T1 & T2). split; [|split; [apply OG|exact T2]].
      apply kept_complete; [exact T1|now apply orth_tr|]. apply preserves_inv; auto.
  Qed.
End Groups.

(** ** the tables *)
Lemma map_values_int (T : list (mat Z)) : map values (map IntArr T) = map RZ T.
Proof. rewrite map_map. reflexivity. Qed.
Lemma map_values_flt (T : list (mat R)) : map values (map FltArr T) = T.
Proof. rewrite map_map. cbn. apply map_id. Qed.
Lemma cubic_T : good_table 3 (map values cubic_arr) /\ forall Q, In Q cubic_arr -> orth_arr 3 Q.
Proof.
  unfold cubic_arr. rewrite map_values_int. split; [apply CUBIC_good|]. intros Q H. apply in_map_iff in H.
  destruct H as (M & <- & HM). cbn. now apply cubic_iff.
Qed.
Lemma square_T : good_table 2 (map values square_arr) /\ forall Q, In Q square_arr -> orth_arr 2 Q.
Proof.
  unfold square_arr. rewrite map_values_int. split; [apply SQUARE_good|]. intros Q H. apply in_map_iff in H.
  destruct H as (M & <- & HM). cbn. now apply square_iff.
Qed.
Lemma square_ext_T : good_table 2 (map values square_ext_arr) /\ forall Q, In Q square_ext_arr -> orth_arr 2 Q.
Proof.
  unfold square_ext_arr. rewrite map_values_int. split; [apply SQUARE_EXT_good|]. intros Q H. apply in_map_iff in H.
  destruct H as (M & <- & HM). cbn. now apply square_ext_iff.
Qed.
Lemma flt_T n T : good_table n T -> good_table n (map values (map FltArr T)) /\ forall Q, In Q (map FltArr T) -> orth_arr n Q.
Proof.
  intros G. rewrite map_values_flt. split; [exact G|]. intros Q H. apply in_map_iff in H. destruct H as (M & <- & HM).
  cbn. now apply G.
Qed.
Definition hex_T := flt_T 3 _ HEX_group.
Definition hex2d_T := flt_T 2 _ HEX2D_good.
Definition hex2d_ext_T := flt_T 2 _ HEX2D_EXT_good.
