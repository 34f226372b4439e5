(** Proofs about lists of best solutions among matrices (C51, used for C52). *)
From Verif Require Import LinAlg ReduceProofs BestProofs TreeSpec.
From Coq Require Import Sorted Permutation.
Local Open Scope Z_scope.

Lemma wf_equiv n G1 G2 E E' : (0 < n)%nat -> matrix_group n G1 -> matrix_group n G2 -> wf n n E ->
  equiv_mat G1 G2 E E' -> wf n n E'.
Proof.
  intros Hn (W1 & _) (W2 & _) WE (q1 & q2 & H1 & H2 & ->). apply (wf_mmul n n n); auto. apply (wf_mmul n n n); auto.
Qed.

Section Equiv.
  Variable n : nat.
  Hypothesis Hn : (0 < n)%nat.
  Variables LG1 LG2 : list (mat Z).
  Hypothesis G1 : matrix_group n LG1.
  Hypothesis G2 : matrix_group n LG2.

  Lemma equiv_refl E : wf n n E -> equiv_mat LG1 LG2 E E.
  Proof.
    intros W. exists (eye n), (eye n). split; [apply G1|]. split; [apply G2|].
    rewrite (mmul_eye_l n n), (mmul_eye_r n n) by auto. reflexivity.
  Qed.
  Lemma equiv_sym E E' : wf n n E -> equiv_mat LG1 LG2 E E' -> equiv_mat LG1 LG2 E' E.
  Proof.
    intros W (q1 & q2 & H1 & H2 & ->).
    destruct (proj2 (proj2 (proj2 G1)) q1 H1) as (p1 & P1 & _ & I1).
    destruct (proj2 (proj2 (proj2 G2)) q2 H2) as (p2 & P2 & I2 & _).
    pose proof (proj1 G1 q1 H1). pose proof (proj1 G2 q2 H2). pose proof (proj1 G1 p1 P1). pose proof (proj1 G2 p2 P2).
    exists p1, p2. split; [exact P1|]. split; [exact P2|].
    rewrite (mmul_assoc n n n n q1 E q2), <- (mmul_assoc n n n n p1 q1), I1 by (auto; apply (wf_mmul n n n); auto).
    rewrite (mmul_eye_l n n) by (auto; apply (wf_mmul n n n); auto).
    rewrite (mmul_assoc n n n n E q2 p2), I2, (mmul_eye_r n n) by auto. reflexivity.
  Qed.
  Lemma equiv_trans E E' E'' : wf n n E -> equiv_mat LG1 LG2 E E' -> equiv_mat LG1 LG2 E' E'' -> equiv_mat LG1 LG2 E E''.
  Proof.
    intros W (q1 & q2 & H1 & H2 & ->) (p1 & p2 & P1 & P2 & ->).
    pose proof (proj1 G1 q1 H1). pose proof (proj1 G2 q2 H2). pose proof (proj1 G1 p1 P1). pose proof (proj1 G2 p2 P2).
    exists (mmul p1 q1), (mmul q2 p2). split; [now apply G1|]. split; [now apply G2|].
    rewrite <- (mmul_assoc n n n n p1 (mmul q1 E) q2) by (auto; apply (wf_mmul n n n); auto).
    rewrite <- (mmul_assoc n n n n p1 q1 E) by auto.
    apply (mmul_assoc n n n n); auto. apply (wf_mmul n n n); auto. apply (wf_mmul n n n); auto.
  Qed.

  (** a total equivalence that agrees with equiv_mat on n x n matrices *)
  Definition eqv (x y : mat Z) : Prop := x = y \/ (wf n n x /\ equiv_mat LG1 LG2 x y).
  Lemma eqv_refl x : eqv x x. Proof. now left. Qed.
  Lemma eqv_sym x y : eqv x y -> eqv y x.
  Proof.
    intros [->|[W E]]; [now left|]. right. split; [exact (wf_equiv n LG1 LG2 x y Hn G1 G2 W E)|now apply equiv_sym].
  Qed.
  Lemma eqv_trans x y z : eqv x y -> eqv y z -> eqv x z.
  Proof.
    intros [->|[W E]] [->|[W' E']]; [now left|now right|now right|]. right. split; [exact W|]. now apply (equiv_trans x y z).
  Qed.
  Lemma eqv_iff x y : wf n n x -> eqv x y <-> equiv_mat LG1 LG2 x y.
  Proof. intros W. split; [intros [->|[_ E]]; [now apply equiv_refl|exact E]|intros E; now right]. Qed.

  Lemma best_list_eqv {D} {T : TotalOrder D} (dist : mat Z -> D) nsol seen sols : (forall x, In x seen -> wf n n x) ->
    best_list eqv dist nsol seen sols <-> best_list (equiv_mat LG1 LG2) dist nsol seen sols.
  Proof.
    intros HW. split; intros (B1 & B2 & B3 & B4 & B5); split; [exact B1| |exact B1|]; split.
    - intros i j s t Hij Hi Hj E. apply (B2 i j s t Hij Hi Hj). apply eqv_iff; [|exact E].
      apply HW, B3. now apply nth_error_In in Hi.
    - split; [exact B3|]. split; [exact B4|]. intros x Hx. destruct (B5 x Hx) as [(s & Hs & E)|H]; [left|now right].
      exists s. split; [exact Hs|]. apply eqv_iff; auto.
    - intros i j s t Hij Hi Hj E. apply (B2 i j s t Hij Hi Hj). apply eqv_iff; [|exact E].
      apply HW, B3. now apply nth_error_In in Hi.
    - split; [exact B3|]. split; [exact B4|]. intros x Hx. destruct (B5 x Hx) as [(s & Hs & E)|H]; [left|now right].
      exists s. split; [exact Hs|]. apply eqv_iff; auto.
  Qed.
End Equiv.

Section Sols.
  Variable n : nat.
  Hypothesis Hn : (0 < n)%nat.
  Variables LG1 LG2 : list (mat Z).
  Hypothesis G1 : matrix_group n LG1.
  Hypothesis G2 : matrix_group n LG2.
  Variable dist : mat Z -> R.
  Hypothesis Hdist : symmetric_dist n LG1 LG2 dist.
  Variable nsol : nat.
  Hypothesis Hnsol : (1 <= nsol)%nat.
  Notation eqv := (eqv n LG1 LG2).
  Notation good := (good eqv dist nsol (wf n n)).
  Notation booked := (@booked (mat Z) R eqv (wf n n)).

  Lemma Hdist' x y : wf n n x -> wf n n y -> eqv x y -> dist x = dist y.
  Proof. intros W W' [->|[_ E]]; [reflexivity|]. now apply Hdist. Qed.

  Lemma insert_sol_ins s sols :
    (insert_sol s sols = Some (ins s sols) /\ exists t, In t sols /\ (snd s <= snd t)%R) \/
    (insert_sol s sols = None /\ forall t, In t sols -> (snd t < snd s)%R).
  Proof.
    induction sols as [|t sols IH]; [right; split; [reflexivity|intros ? []]|].
    cbn. destruct (Rleb (snd s) (snd t)) eqn:C.
    - left. split; [reflexivity|]. exists t. split; [now left|]. now apply Rleb_spec.
    - destruct IH as [[-> (u & Hu & L)]|[-> H]].
      + left. split; [reflexivity|]. exists u. split; [now right|exact L].
      + right. split; [reflexivity|]. intros u [<-|Hu]; [now apply Rleb_false|auto].
  Qed.

  Lemma last_nth {A} (l : list A) : last (map Some l) None = nth_error l (length l - 1).
  Proof.
    induction l as [|a l IH]; [reflexivity|]. destruct l as [|b l]; [reflexivity|].
    change (last (map Some (a :: b :: l)) None) with (last (map Some (b :: l)) None). rewrite IH. cbn [length].
    replace (S (S (length l)) - 1)%nat with (S (S (length l) - 1)) by lia. reflexivity.
  Qed.
  Lemma removelast_split {A} (l : list A) x : nth_error l (length l - 1) = Some x -> l = removelast l ++ [x].
  Proof.
    intros H. destruct l as [|a0 l0] eqn:El; [discriminate|]. destruct (exists_last (l := a0 :: l0)) as (l' & a & E); [discriminate|].
    rewrite E in *. rewrite removelast_last. f_equal. f_equal. rewrite app_length in H. cbn in H.
    rewrite nth_error_app2 in H by lia. replace (length l' + 1 - 1 - length l')%nat with 0%nat in H by lia. cbn in H. congruence.
  Qed.

  Lemma truncate_trunc : forall fuel sols, (length sols <= fuel)%nat -> StronglySorted le_sol sols ->
    truncate_sols nsol fuel sols = trunc nsol sols.
  Proof.
    induction fuel as [|fuel IH]; intros sols Hl HS.
    - destruct sols; [|cbn in Hl; lia]. unfold trunc. cbn. now destruct (nsol - 1)%nat.
    - cbn [truncate_sols]. rewrite last_nth. unfold trunc.
      destruct (nth_error sols (nsol - 1)) as [t|] eqn:Et.
      2:{ destruct (nth_error sols (length sols - 1)); reflexivity. }
      assert (Lt : (nsol - 1 < length sols)%nat) by (apply nth_error_Some; congruence).
      destruct (nth_error sols (length sols - 1)) as [s|] eqn:Es; [|apply nth_error_None in Es; lia].
      assert (All : (snd s <= snd t)%R -> filter (fun x => dle (snd x) (snd t)) sols = sols).
      { intros Hst. assert (F : forall x, In x sols -> dle (snd x) (snd t) = true).
        { intros x Hx. apply In_nth_error in Hx. destruct Hx as [i Hi]. pose proof (proj1 (nth_error_Some sols i) ltac:(congruence)) as Li.
          pose proof (SS_nth nsol Hnsol sols i (length sols - 1) x s HS ltac:(lia) Hi Es) as L. apply Rleb_spec in L. apply Rleb_spec. lra. }
        clear -F. induction sols as [|a l IHl]; [reflexivity|]. cbn. cbn in F. rewrite F by now left. f_equal. apply IHl. intros; apply F; now right. }
      destruct (Nat.ltb_spec nsol (length sols)) as [Hlt|Hge]; cbn [andb].
      + destruct (Rltb (snd t) (snd s)) eqn:C.
        * apply Rltb_spec in C. pose proof (removelast_split _ _ Es) as Sp. set (r := removelast sols) in *.
          rewrite IH.
          -- unfold trunc. rewrite Sp in Et. rewrite nth_error_app1 in Et.
             2:{ apply (f_equal (@length _)) in Sp. rewrite app_length in Sp. cbn in Sp. lia. }
             rewrite Et. rewrite Sp. rewrite filter_app. cbn.
             rewrite (proj2 (Rleb_false _ _)) by exact C. now rewrite app_nil_r.
          -- apply (f_equal (@length _)) in Sp. rewrite app_length in Sp. cbn in Sp. lia.
          -- rewrite Sp in HS. now apply SS_app in HS.
        * apply Rltb_false in C. now rewrite All.
      + assert (length sols = nsol) by lia. replace (length sols - 1)%nat with (nsol - 1)%nat in Es by lia.
        rewrite Et in Es. injection Es as <-. rewrite All by lra. reflexivity.
  Qed.
  Lemma trunc_short (sols : list (mat Z * R)) : (length sols <= nsol)%nat -> StronglySorted le_sol sols -> trunc nsol sols = sols.
  Proof.
    intros Hl HS. destruct (trunc_prefix nsol sols HS) as (rest & E & Ht & Hnn).
    destruct (nth_error sols (nsol - 1)) as [t|] eqn:Et; [|rewrite (Hnn eq_refl), app_nil_r in E; congruence].
    destruct (Ht t eq_refl) as (N & _). assert (nsol - 1 < length (trunc nsol sols))%nat by (apply nth_error_Some; congruence).
    pose proof (f_equal (@length _) E) as L. rewrite app_length in L. destruct rest; [rewrite app_nil_r in E; congruence|cbn in L; lia].
  Qed.

  Lemma ext_sols_In E y : In y (ext_sols LG1 LG2 E) <-> equiv_mat LG1 LG2 E y.
  Proof.
    unfold ext_sols. rewrite in_flat_map. split.
    - intros (q1 & H1 & H). apply in_map_iff in H. destruct H as (q2 & <- & H2). exists q1, q2. auto.
    - intros (q1 & q2 & H1 & H2 & ->). exists q1. split; [exact H1|]. apply in_map_iff. eauto.
  Qed.

  Definition sols_ok (seen : list (mat Z)) (st : sol_state) : Prop :=
    good seen (fst st) /\ booked seen (fst st) (snd st).

  Lemma booked_app seen sols sols' ext E : booked seen sols ext -> wf n n E ->
    (forall s, In s sols' -> In s sols \/ fst s = E) ->
    booked (E :: seen) sols' (ext ++ ext_sols LG1 LG2 E).
  Proof.
    intros [B1 B2] WE H. split.
    - intros y Wy Hy. apply in_app_or in Hy. destruct Hy as [Hy|Hy].
      + destruct (B1 y Wy Hy) as (x & Hx & Ex). exists x. split; [now right|exact Ex].
      + exists E. split; [now left|]. apply ext_sols_In in Hy. apply eqv_sym; auto. now right.
    - intros s y Hs Wy Ey. apply in_or_app. destruct (H s Hs) as [Hs'|Es]; [left; now apply (B2 s)|right].
      rewrite Es in Ey. apply ext_sols_In. apply eqv_iff in Ey; auto. apply (equiv_sym n Hn LG1 LG2 G1 G2); auto.
  Qed.
  Lemma booked_keep seen sols ext x : booked seen sols ext -> booked (x :: seen) sols ext.
  Proof.
    intros [B1 B2]. split; [|exact B2]. intros y Wy Hy. destruct (B1 y Wy Hy) as (z & Hz & E). exists z. split; [now right|exact E].
  Qed.
  Lemma trunc_incl (sols : list (mat Z * R)) s : In s (trunc nsol sols) -> In s sols.
  Proof. unfold trunc. destruct (nth_error sols (nsol - 1)); [|auto]. intros H. now apply filter_In in H. Qed.

  Lemma update_ok seen st E : sols_ok seen st -> wf n n E ->
    sols_ok (E :: seen) (visit dist LG1 LG2 nsol st E).
  Proof.
    intros [HG HB] WE. destruct st as [sols ext]. cbn [fst snd] in *. unfold visit, update_solutions.
    destruct sols as [|s0 sols0] eqn:Es.
    - cbn [snd]. split.
      + cbn [fst]. assert (Em : seen = []).
        { destruct seen as [|x seen']; [reflexivity|]. exfalso. destruct HG as (_ & _ & _ & _ & _ & G6).
          destruct (G6 x (or_introl eq_refl)) as [(s & [] & _)|[L _]]. cbn in L. lia. }
        subst seen. split; [constructor; constructor|]. split; [constructor; constructor|].
        split; [intros s [<-|[]]; split; [now left|reflexivity]|].
        split; [intros s t [<-|[]] Ht; destruct (nsol - 1)%nat as [|k]; [injection Ht as <-; apply dle_refl|destruct k; discriminate]|].
        split; [intros x [<-|[]]; exact WE|]. intros x [<-|[]]. left. eexists. split; [now left|]. apply eqv_refl.
      + cbn [fst snd]. apply (booked_app seen [] [(E, dist E)] ext E HB WE). intros s [<-|[]]. now right.
    - destruct (mem_mat E ext) eqn:M.
      + apply mem_mat_In in M. cbn [snd]. split; [|now apply booked_keep].
        apply (known_good eqv dist nsol (eqv_trans n Hn LG1 LG2 G1 G2) (wf n n) Hdist' seen _ ext); auto.
      + assert (Nin : ~ In E ext) by (intros H; apply mem_mat_In in H; congruence).
        assert (SS : StronglySorted le_sol (s0 :: sols0)) by apply HG.
        pose proof (new_good eqv dist nsol Hnsol (eqv_refl n LG1 LG2) (eqv_sym n Hn LG1 LG2 G1 G2) (wf n n) Hdist' seen _ ext E HG HB WE Nin) as NG.
        destruct (insert_sol_ins (E, dist E) (s0 :: sols0)) as [[-> (t & Ht & Lt)]|[-> Hlt]].
        * cbn [snd]. split; cbn [fst].
          -- rewrite truncate_trunc; [exact NG|lia|]. now apply ins_sorted.
          -- rewrite truncate_trunc; [|lia|now apply ins_sorted]. apply (booked_app seen (s0 :: sols0)); auto.
             intros s Hs. apply trunc_incl, ins_in in Hs. destruct Hs as [->|Hs]; auto.
        * destruct (Nat.ltb_spec (length (s0 :: sols0)) nsol) as [Hl|Hl]; cbn [snd].
          -- assert (HI : ins (E, dist E) (s0 :: sols0) = (s0 :: sols0) ++ [(E, dist E)]).
             { apply ins_last. intros u Hu. apply dlt_spec, Rleb_false. now apply Hlt. }
             rewrite HI in NG. rewrite trunc_short in NG.
             ++ split; [exact NG|]. cbn [fst]. apply (booked_app seen (s0 :: sols0)); auto.
                intros s Hs. apply in_app_or in Hs. destruct Hs as [Hs|[<-|[]]]; auto.
             ++ rewrite app_length. cbn [length] in *. lia.
             ++ rewrite <- HI. now apply ins_sorted.
          -- split; [|now apply booked_keep]. cbn [fst].
             apply (skip_good eqv dist nsol (wf n n)); auto. right. split; [exact Hl|].
             intros s Hs. apply dlt_spec, Rleb_false. now apply Hlt.
  Qed.

  Lemma init_sols_ok : sols_ok [] ([], []).
  Proof.
    split; [|split; intros; contradiction]. cbn. split; [constructor|]. split; [constructor|]. split; [intros ? []|].
    split; [intros ? ? []|]. split; [intros ? []|intros ? []].
  Qed.

  Lemma visits_ok Es : Forall (wf n n) Es -> sols_ok (rev Es) (visits dist LG1 LG2 nsol Es).
  Proof.
    intros HF. unfold visits. rewrite <- (app_nil_r (rev Es)). revert HF.
    assert (G : forall Es seen st, Forall (wf n n) Es -> sols_ok seen st ->
              sols_ok (rev Es ++ seen) (fold_left (visit dist LG1 LG2 nsol) Es st)).
    { clear Es. induction Es as [|E Es IH]; intros seen st HF HS; [exact HS|]. inversion HF; subst. cbn.
      rewrite <- app_assoc. apply IH; [assumption|]. now apply update_ok. }
    intros HF. apply G; [exact HF|apply init_sols_ok].
  Qed.

  Lemma good_perm seen seen' sols : (forall x, In x seen <-> In x seen') -> good seen sols -> good seen' sols.
  Proof.
    intros HI (A1 & A2 & A3 & A4 & A5 & A6). split; [exact A1|]. split; [exact A2|].
    split; [intros s Hs; destruct (A3 s Hs); split; [now apply HI|assumption]|]. split; [exact A4|].
    split; [intros x Hx; apply A5; now apply HI|]. intros x Hx. apply A6. now apply HI.
  Qed.

  Lemma good_best' seen sols : good seen sols -> best_list (equiv_mat LG1 LG2) dist nsol seen sols.
  Proof.
    intros HG. apply (best_list_eqv n Hn LG1 LG2 G1 G2); [apply HG|].
    exact (good_best eqv dist nsol Hnsol (eqv_sym n Hn LG1 LG2 G1 G2) (wf n n) seen sols HG).
  Qed.

  Theorem visits_best Es : Forall (wf n n) Es ->
    best_list (equiv_mat LG1 LG2) dist nsol Es (fst (visits dist LG1 LG2 nsol Es)).
  Proof.
    intros HF. destruct (visits_ok Es HF) as [HG HB]. apply good_best'.
    exact (good_perm (rev Es) Es _ (fun x => iff_sym (in_rev Es x)) HG).
  Qed.
End Sols.
