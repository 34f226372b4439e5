(** LLL commutes with similarities of the space (rotations, reflections and changes of the unit of length). *)
From Coq Require Import Nsatz.
From Verif Require Import GroupModel GroupProofs RotProofs DirectProofs Eig.
From Verif Require Export LLLProofs3.
Local Open Scope R_scope.

Definition rmap {A B} (f : A -> B) (r : res A) : res B := match r with Ok a => Ok (f a) | Raise e => Raise e | NoFuel => NoFuel end.

Section Sim.
  Variables (n : nat) (M : mat R) (kap : R).
  Hypothesis d : dim23 n.
  Hypothesis WM : wf n n M.
  Hypothesis K : 0 < kap.
  Hypothesis S : mmul (tr M) M = mscale kap (eye n).
  Let T (v : vec R) : vec R := mvmul M v.
  Let ok (v : vec R) : Prop := length v = n.

  Lemma T_len v : length (T v) = n.
  Proof. unfold T, mvmul, mkv. rewrite map_length, seq_length. apply WM. Qed.
  Lemma T_lin a b c k l : ok a -> ok b -> ok c -> T (vsub a (vscale k b)) = vsub (T a) (vscale k (T b)) /\ T (vscale l c) = vscale l (T c) /\ T (vadd a b) = vadd (T a) (T b).
  Proof.
    unfold ok, T. intros A B C. destruct d as [-> | ->].
    - apply wf2_inv in WM. destruct WM as (? & ? & ? & ? & ->). w2 A. w2 B. w2 C. unfold M2, mvmul. un. cbv [map]. split; [|split]; repeat (apply (f_equal2 cons); [ring|]); reflexivity.
    - apply wf3_inv in WM. destruct WM as (? & ? & ? & ? & ? & ? & ? & ? & ? & ->). w3 A. w3 B. w3 C. unfold M3, mvmul. un. cbv [map]. split; [|split]; repeat (apply (f_equal2 cons); [ring|]); reflexivity.
  Qed.
  Lemma T_dot a b : ok a -> ok b -> dot (T a) (T b) = kap * dot a b.
  Proof.
    unfold ok, T. intros A B. destruct d as [-> | ->].
    - apply wf2_inv in WM. destruct WM as (p & q & r & s & ->). w2 A. w2 B. revert S. unfold M2, mvmul. un. cbv [map]. intros X.
      injection X as E1 E2 E3 E4. nsatz.
    - apply wf3_inv in WM. destruct WM as (? & ? & ? & ? & ? & ? & ? & ? & ? & ->). w3 A. w3 B. revert S. unfold M3, mvmul. un. cbv [map]. intros X.
      injection X as E1 E2 E3 E4 E5 E6 E7 E8 E9. nsatz.
  Qed.
  Let oks (B : list (vec R)) : Prop := Forall ok B.
  Lemma T_sub a b k : ok a -> ok b -> T (vsub a (vscale k b)) = vsub (T a) (vscale k (T b)).
  Proof. intros A B. now apply (T_lin a b b k 0). Qed.
  Lemma T_scale a k : ok a -> T (vscale k a) = vscale k (T a).
  Proof. intros A. now apply (T_lin a a a 0 k). Qed.
  Lemma T_add a b : ok a -> ok b -> T (vadd a b) = vadd (T a) (T b).
  Proof. intros A B. now apply (T_lin a b b 0 0). Qed.
  Lemma T_div x y : Reqb (kap * y) 0 = Reqb y 0 /\ np_div (kap * x) (kap * y) = np_div x y.
  Proof.
    assert (E : Reqb (kap * y) 0 = Reqb y 0).
    { destruct (Reqb y 0) eqn:Y; [apply Reqb_spec in Y; rewrite Y, Rmult_0_r; now apply Reqb_spec|]. apply Reqb_false in Y. apply Reqb_false.
      apply Rmult_integral_contrapositive_currified; lra. }
    split; [exact E|]. unfold np_div. rewrite E. destruct (Reqb y 0) eqn:Y; [reflexivity|]. apply Reqb_false in Y. f_equal. field. lra.
  Qed.
  Lemma gs_inner_T a Eo : forall b, ok a -> oks Eo -> ok b ->
    gs_inner (T a) (map T Eo) (T b) = rmap (fun r => (fst r, T (snd r))) (gs_inner a Eo b) /\ (forall r, gs_inner a Eo b = Ok r -> ok (snd r)).
  Proof.
    induction Eo as [|c Eo IH]; intros b A F B; cbn [gs_inner map rmap].
    - split; [reflexivity|]. intros r H. injection H as <-. exact B.
    - inversion F; subst. rewrite !T_dot by auto. rewrite (proj2 (T_div _ _)). destruct (np_div (dot a c) (dot c c)) as [m| |]; cbn [bind rmap]; [|now split|now split].
      rewrite <- T_sub by auto. destruct (IH (vsub b (vscale m c)) A H2) as (E & L); [unfold ok; now rewrite len_vsub|]. rewrite E.
      destruct (gs_inner a Eo _) as [r| |]; cbn [bind rmap]; [|now split|now split]. split; [reflexivity|]. intros r' Hr. injection Hr as <-. cbn [snd]. now apply L.
  Qed.
  Lemma gs_outer_T E : forall Eo L, oks E -> oks Eo ->
    gs_outer (map T E) (map T Eo) L = rmap (fun r => (map T (fst r), snd r)) (gs_outer E Eo L) /\ (forall r, gs_outer E Eo L = Ok r -> oks (fst r)).
  Proof.
    induction E as [|a E IH]; intros Eo L FE FO; cbn [gs_outer map rmap].
    - split; [reflexivity|]. intros r H. injection H as <-. exact FO.
    - inversion FE; subst. destruct (gs_inner_T a Eo a H1 FO H1) as (G & LG). rewrite G.
      destruct (gs_inner a Eo a) as [r| |]; cbn [bind rmap fst snd]; [|now split|now split].
      specialize (IH (Eo ++ [snd r]) (L ++ [fst r]) H2). rewrite map_app in IH. apply IH. apply Forall_app. split; [exact FO|]. constructor; [now apply LG|constructor].
  Qed.
  Lemma Gram_Schmidt_T E : oks E -> Gram_Schmidt (map T E) = rmap (fun r => (map T (fst r), snd r)) (Gram_Schmidt E) /\ (forall r, Gram_Schmidt E = Ok r -> oks (fst r)).
  Proof. intros F. apply (gs_outer_T E [] []); [exact F|constructor]. Qed.
  Lemma gauss_inner_T ms : forall B b, oks B -> ok b -> gauss_inner ms (map T B) (T b) = T (gauss_inner ms B b) /\ ok (gauss_inner ms B b).
  Proof.
    induction ms as [|m ms IH]; intros B b F O; [now split|]. destruct B as [|c B]; [now split|]. inversion F; subst. cbn [gauss_inner map].
    rewrite <- T_sub by auto. apply IH; auto. unfold ok. now rewrite len_vsub.
  Qed.
  Lemma gauss_outer_T E : forall L B, oks E -> oks B -> gauss_outer (map T E) L (map T B) = map T (gauss_outer E L B) /\ oks (gauss_outer E L B).
  Proof.
    induction E as [|a E IH]; intros L B FE FB; [now split|]. destruct L as [|ms L]; [now split|]. inversion FE; subst. cbn [gauss_outer map].
    destruct (gauss_inner_T ms B a FB H1) as (G & OG). rewrite G. specialize (IH L (B ++ [gauss_inner ms B a]) H2). rewrite map_app in IH. apply IH.
    apply Forall_app. split; [exact FB|]. now constructor.
  Qed.
  Lemma Gauss_T E : oks E -> Gauss_reduction (map T E) = rmap (map T) (Gauss_reduction E) /\ (forall B, Gauss_reduction E = Ok B -> oks B).
  Proof.
    intros F. unfold Gauss_reduction. destruct (Gram_Schmidt_T E F) as (G & _). rewrite G. destruct (Gram_Schmidt E) as [r| |]; cbn [rmap bind snd]; [|now split|now split].
    destruct (gauss_outer_T E (snd r) [] F) as (Q & O); [constructor|]. cbn [map] in Q. rewrite Q. split; [reflexivity|]. intros B H. injection H as <-. exact O.
  Qed.
  Lemma mapM_div x N : x <> [] -> mapM (fun y => np_div y N) x = if Reqb N 0 then Raise NaN else Ok (map (fun y => y / N) x).
  Proof.
    intros X. destruct (Reqb N 0) eqn:Z.
    - destruct x as [|y x]; [easy|]. cbn [mapM]. unfold np_div at 1. now rewrite Z.
    - apply mapM_ok. intros y _. unfold np_div. now rewrite Z.
  Qed.
  Lemma ne v : ok v -> v <> [].
  Proof. unfold ok. intros L ->. cbn in L. destruct d; lia. Qed.
  Lemma div_scale N v : map (fun y => y / N) v = vscale (/ N) v.
  Proof. unfold vscale. apply map_ext. intros y. unfold Rdiv. apply Rmult_comm. Qed.
  Lemma proj_loop_T x Eo : forall p, ok x -> oks Eo -> ok p ->
    proj_loop (T x) (map T Eo) (T p) = rmap T (proj_loop x Eo p) /\ (forall r, proj_loop x Eo p = Ok r -> ok r).
  Proof.
    induction Eo as [|c Eo IH]; intros p X F P; cbn [proj_loop map].
    - split; [reflexivity|]. intros r H. injection H as <-. exact P.
    - inversion F; subst. assert (Oc : ok (vscale (dot x c) c)) by (unfold ok; now rewrite len_vscale).
      rewrite !vnorm_sq, !mapM_div by (apply ne; unfold ok; rewrite ?len_vscale; auto using T_len). rewrite !T_dot by auto. rewrite (proj1 (T_div 0 _)).
      destruct (Reqb (dot c c) 0) eqn:Z; cbn [bind rmap]; [now split|]. apply Reqb_false in Z. rewrite !div_scale.
      replace (vscale (/ (kap * dot c c)) (vscale (kap * dot x c) (T c))) with (T (vscale (/ dot c c) (vscale (dot x c) c))).
      + rewrite <- T_add by (unfold ok; rewrite ?len_vscale; auto). apply IH; auto. unfold ok. now rewrite len_vadd.
      + rewrite !T_scale by auto. unfold vscale. rewrite !map_map. apply map_ext. intros y. field. lra.
  Qed.
  Lemma T_zero x : ok x -> map (fun _ : R => 0) (T x) = T (map (fun _ => 0) x).
  Proof.
    intros X. transitivity (T (vscale 0 x)).
    - rewrite T_scale by exact X. unfold vscale. apply map_ext. intros. ring.
    - f_equal. unfold vscale. apply map_ext. intros. ring.
  Qed.
  Lemma projection_T i x E : ok x -> oks E -> projection i (T x) (map T E) = rmap T (projection i x E) /\ (forall r, projection i x E = Ok r -> ok r).
  Proof.
    intros X F. unfold projection. destruct (Gram_Schmidt_T E F) as (G & OG). rewrite G. destruct (Gram_Schmidt E) as [r| |]; cbn [rmap bind fst snd]; [|now split|now split].
    rewrite T_zero by exact X. rewrite skipn_map. apply proj_loop_T; [exact X| |unfold ok; now rewrite map_length]. specialize (OG r eq_refl).
    rewrite <- (firstn_skipn i (fst r)) in OG. unfold oks in OG. apply Forall_app in OG. apply OG.
  Qed.
  Lemma T_nth i E : (i < length E)%nat -> nth i (map T E) [] = T (nth i E []).
  Proof. intros H. rewrite (nth_indep _ [] (T [])) by now rewrite map_length. apply map_nth. Qed.
  Lemma ok_nth i E : (i < length E)%nat -> oks E -> ok (nth i E []).
  Proof. intros H F. unfold oks in F. rewrite Forall_forall in F. apply F. now apply nth_In. Qed.
  Lemma swap_loop_T E is : oks E -> (forall i, In i is -> (i + 1 < length E)%nat) -> swap_loop (map T E) is = swap_loop E is.
  Proof.
    intros F. induction is as [|i is IH]; intros H; [reflexivity|]. cbn [swap_loop]. specialize (H i (or_introl eq_refl)) as Hi.
    rewrite !T_nth by lia. assert (O1 : ok (nth i E [])) by (apply ok_nth; [lia|exact F]). assert (O2 : ok (nth (i + 1) E [])) by (apply ok_nth; [lia|exact F]).
    destruct (projection_T i _ E O1 F) as (P1 & Q1). destruct (projection_T i _ E O2 F) as (P2 & Q2). rewrite P1, P2.
    destruct (projection i (nth i E []) E) as [p1| |]; cbn [rmap bind]; [|reflexivity|reflexivity].
    destruct (projection i (nth (i + 1) E []) E) as [p2| |]; cbn [rmap bind]; [|reflexivity|reflexivity].
    rewrite !T_dot by auto. replace (Rltb (4 / 3 * (kap * dot p2 p2)) (kap * dot p1 p1)) with (Rltb (4 / 3 * dot p2 p2) (dot p1 p1)).
    - rewrite IH; [reflexivity|]. intros j Hj. apply H. now right.
    - destruct (Rltb (4 / 3 * dot p2 p2) (dot p1 p1)) eqn:Z; symmetry.
      + apply Rltb_spec in Z. apply Rltb_spec. nra.
      + apply Rltb_false in Z. apply Rltb_false. nra.
  Qed.
  Lemma swapping_T E : oks E -> swapping (map T E) = swapping E.
  Proof. intros F. unfold swapping. rewrite map_length. apply swap_loop_T; [exact F|]. intros i Hi. apply in_seq in Hi. lia. Qed.
  Lemma good_oks B : good n B -> oks B.
  Proof. intros [W _]. apply Forall_forall. intros v Hv. now apply W. Qed.
  Lemma swap_T i B : (i + 1 < length B)%nat -> swap_at i (map T B) = map T (swap_at i B).
  Proof. intros H. unfold swap_at. rewrite !T_nth by lia. now rewrite firstn_map, skipn_map, !map_app. Qed.
  Lemma lll_loop_T k : forall B m, good n B -> lll_loop k (map T B) m = rmap (fun r => (map T (fst (fst r)), snd (fst r), snd r)) (lll_loop k B m).
  Proof.
    induction k as [|k IH]; intros B m G; cbn [lll_loop]; [reflexivity|]. destruct (Gauss_T B (good_oks B G)) as (E & _). rewrite E.
    destruct (round_ok n B d G) as (B' & sw & E1 & E2 & G' & _ & H). rewrite E1. cbn [rmap bind]. rewrite (swapping_T B' (good_oks B' G')), E2. cbn [bind].
    destruct sw as [i|]; [|reflexivity]. destruct H as (Hi & _ & Gs & _). assert (L : length B' = n) by apply (proj1 G'). rewrite swap_T by lia. apply IH. exact Gs.
  Qed.
  Lemma tr_T B : wf n n B -> tr (map T B) = mmul M (tr B).
  Proof.
    intros W. unfold T. destruct d as [-> | ->].
    - apply wf2_inv in WM, W. destruct WM as (? & ? & ? & ? & ->). destruct W as (? & ? & ? & ? & ->). unfold M2, mvmul. cbv [map]. mat_eq ltac:(ring).
    - apply wf3_inv in WM, W. destruct WM as (? & ? & ? & ? & ? & ? & ? & ? & ? & ->). destruct W as (? & ? & ? & ? & ? & ? & ? & ? & ? & ->). unfold M3, mvmul. cbv [map]. mat_eq ltac:(ring).
  Qed.
  Lemma map_T_tr E : wf n n E -> tr (mmul M E) = map T (tr E).
  Proof.
    intros W. assert (0 < n)%nat by (destruct d; lia). assert (Wt : wf n n (tr E)) by now apply wf_tr'.
    rewrite <- (tr_tr n n E) at 1 by auto. rewrite <- tr_T by exact Wt. apply (tr_tr n n); [auto|auto|].
    split; [rewrite map_length; apply Wt|]. intros v Hv. apply in_map_iff in Hv. destruct Hv as (u & <- & _). apply T_len.
  Qed.
  Lemma det_T : det M <> 0.
  Proof.
    intros Z. assert (H : det (mmul (tr M) M) = kap ^ n).
    { rewrite S. destruct d as [-> | ->]; mat_unfold_goal; ring. }
    assert (0 < n)%nat by (destruct d; lia). assert (WT : wf n n (tr M)) by (now apply wf_tr'). rewrite (det_mmul n (tr M) M d WT WM), Z, Rmult_0_r in H. pose proof (pow_lt kap n K). lra.
  Qed.
  Lemma fix_T E B : wf n n E -> det E <> 0 -> good n B -> fix_sign (mmul M E) (map T B) = map T (fix_sign E B).
  Proof.
    intros W D [WB DB]. unfold fix_sign. assert (0 < n)%nat by (destruct d; lia). pose proof det_T as DM. assert (WBt : wf n n (tr B)) by now apply wf_tr'.
    rewrite tr_T, !(det_mmul n) by auto.
    assert (Q : Reqb (sign1 (det M * det (tr B))) (sign1 (det M * det E)) = Reqb (sign1 (det (tr B))) (sign1 (det E))).
    { apply eq_true_iff_eq. rewrite !sign1_eq by (auto using Rmult_integral_contrapositive_currified). assert (0 < det M * det M) by nra. split; intros; nra. }
    rewrite Q. destruct (negb _); [|reflexivity]. destruct B as [|b B]; [reflexivity|]. cbn [map]. f_equal. rewrite T_scale; [reflexivity|]. apply WB. now left.
  Qed.
  Definition lll_map (f : mat R -> mat R) (r : lll_result) : lll_result := match r with Plain B => Plain (f B) | Failed B => Failed (f B) end.
  Lemma LLL_T E : base n E -> LLL (mmul M E) = rmap (lll_map (mmul M)) (LLL E).
  Proof.
    intros BE. pose proof BE as (_ & W & D). destruct (LLL_cases n E BE) as (B & k & sw & L & G & Rc & _ & EL). rewrite EL.
    unfold LLL. rewrite (map_T_tr E W), (lll_loop_T max_rounds (tr E) 0 (start_good n E BE)), L. cbn [rmap bind fst snd].
    destruct (k =? 100)%nat; cbn [rmap lll_map].
    - rewrite tr_T by apply G. reflexivity.
    - rewrite (fix_T E B W D G), tr_T; [reflexivity|]. destruct (fix_cases n E B BE G Rc) as ([-> | ->] & _); [apply G|]. now apply reach_neg, G.
  Qed.
  Lemma start_T E : base n E -> start_point (mmul M E) = start_point E.
  Proof.
    intros BE. pose proof BE as (_ & W & D). unfold start_point. rewrite (LLL_T E BE).
    destruct (LLL_cases n E BE) as (B & k & sw & L & G & Rc & _ & EL). rewrite EL. cbn [rmap bind]. destruct (k =? 100)%nat; [reflexivity|]. cbn [lll_map].
    assert (0 < n)%nat by (destruct d; lia). pose proof det_T as DM. 
    assert (WF : wf n n (tr (fix_sign E B))).
    { apply wf_tr'; auto. destruct (fix_cases n E B BE G Rc) as ([-> | ->] & _); [apply G|]. now apply reach_neg, G. }
    unfold inv. rewrite (det_mmul n) by auto. rewrite !(proj2 (Reqb_false _ _)) by (auto using Rmult_integral_contrapositive_currified). cbn [bind]. do 2 f_equal.
    rewrite (minv_mmul n) by auto. assert (WI : wf n n (minv M)) by (now apply wf_minv). assert (WE : wf n n (minv E)) by (now apply wf_minv).
    assert (WP : wf n n (mmul M (tr (fix_sign E B)))) by (apply (wf_mmul n n n); auto).
    rewrite (mmul_assoc n n n n _ _ _ WE WI WP), <- (mmul_assoc n n n n _ _ _ WI WM WF) by auto.
    rewrite (minv_l n), (mmul_eye_l n n) by auto. reflexivity.
  Qed.
End Sim.
