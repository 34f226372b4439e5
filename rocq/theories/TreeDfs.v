(** Proofs about the local minimisation dfs (C50, C55). *)
From Verif Require Import LinAlg ReduceProofs DirectProofs TreeSpec TreeProofs.
Local Open Scope Z_scope.

Lemma T_shear i : (i < 12)%nat -> exists a b s, (a < 3)%nat /\ (b < 3)%nat /\ a <> b /\ (s = 1 \/ s = -1) /\
  nth i T_ (eye 3) = shear a b s.
Proof.
  intros H. rewrite T_nth by exact H. unfold tpow.
  destruct (nth (i mod 6) onetotwo (0, 0)%nat) as [a b] eqn:E.
  exists a, b, (if (i <? 6)%nat then 1 else -1).
  assert (Hab : (a < 3)%nat /\ (b < 3)%nat /\ a <> b).
  { pose proof (Nat.mod_upper_bound i 6 ltac:(lia)) as M. revert M E. generalize (i mod 6)%nat. intros c M E.
    do 6 (destruct c as [|c]; [cbn in E; injection E as <- <-; lia|]). lia. }
  destruct Hab as (H1 & H2 & H3). repeat split; auto. destruct (i <? 6)%nat; auto.
Qed.
Lemma shear_T a b s : (a < 3)%nat -> (b < 3)%nat -> a <> b -> (s = 1 \/ s = -1) ->
  exists i, (i < 12)%nat /\ nth i T_ (eye 3) = shear a b s.
Proof.
  intros Ha Hb Hab Hs.
  assert (H : exists c, (c < 6)%nat /\ nth c onetotwo (0, 0)%nat = (a, b)).
  { destruct a as [|[|[|a]]]; destruct b as [|[|[|b]]]; try lia;
    [exists 0%nat|exists 1%nat|exists 2%nat|exists 3%nat|exists 4%nat|exists 5%nat]; (split; [lia|reflexivity]). }
  destruct H as (c & Hc & E). destruct Hs as [-> | ->].
  - exists c. split; [lia|]. rewrite T_nth by lia. rewrite Nat.mod_small by lia.
    destruct (Nat.ltb_spec c 6); [|lia]. unfold tpow. now rewrite E.
  - exists (c + 6)%nat. split; [lia|]. rewrite T_nth by lia.
    replace (c + 6)%nat with (c + 1 * 6)%nat by lia. rewrite Nat.mod_add, Nat.mod_small by lia.
    destruct (Nat.ltb_spec (c + 1 * 6) 6); [lia|]. unfold tpow. now rewrite E.
Qed.
Lemma det_shear a b s : (a < 3)%nat -> (b < 3)%nat -> a <> b -> det (shear a b s) = 1.
Proof.
  intros Ha Hb Hab.
  assert (H : exists c, (c < 6)%nat /\ nth c onetotwo (0, 0)%nat = (a, b)).
  { destruct a as [|[|[|a]]]; destruct b as [|[|[|b]]]; try lia;
    [exists 0%nat|exists 1%nat|exists 2%nat|exists 3%nat|exists 4%nat|exists 5%nat]; (split; [lia|reflexivity]). }
  destruct H as (c & Hc & E). pose proof (det_tpow c s Hc) as D. unfold tpow in D. now rewrite E in D.
Qed.
Lemma neighbour_iff E E' : neighbour E E' <-> exists i, (i < 12)%nat /\ E' = mmul E (nth i T_ (eye 3)).
Proof.
  split.
  - intros (a & b & s & Ha & Hb & Hab & Hs & ->). destruct (shear_T a b s Ha Hb Hab Hs) as (i & Hi & Ei).
    exists i. now rewrite Ei.
  - intros (i & Hi & ->). destruct (T_shear i Hi) as (a & b & s & Ha & Hb & Hab & Hs & Ei).
    exists a, b, s. rewrite Ei. auto 6.
Qed.

Lemma skip_T i : (i < 12)%nat -> skipn i T_ = nth i T_ (eye 3) :: skipn (S i) T_.
Proof. intros H. do 12 (destruct i as [|i]; [reflexivity|]). lia. Qed.

Section Dfs.
  Variable dist : mat Z -> R.
  Local Open Scope R_scope.

  Definition step_in (E : mat Z) (i : nat) : mat Z := mmul E (nth i T_ (eye 3)).

  Lemma steep_loop_ok E : wf 3 3 E -> forall ts i dmin nb, ts = skipn i T_ -> (i <= 12)%nat ->
    exists dmin' nb', steep_loop dist E i ts dmin nb = Ok (dmin', nb') /\
      dmin' <= dmin /\ (forall k, (i <= k < 12)%nat -> dmin' <= dist (step_in E k) - dist E) /\
      ((dmin' = dmin /\ nb' = nb) \/
       exists k, (i <= k < 12)%nat /\ nb' = Some k /\ dmin' = dist (step_in E k) - dist E).
  Proof.
    intros WE. induction ts as [|t ts IH]; intros i dmin nb Hts Hi.
    - exists dmin, nb. split; [reflexivity|]. split; [lra|]. split; [|now left].
      intros k Hk. assert (L : length (skipn i T_) = 0%nat) by now rewrite <- Hts.
      rewrite skipn_length in L. change (length T_) with 12%nat in L. lia.
    - assert (i < 12)%nat as Hlt.
      { assert (L : length (skipn i T_) = S (length ts)) by now rewrite <- Hts.
        rewrite skipn_length in L. change (length T_) with 12%nat in L. lia. }
      assert (Et : t = nth i T_ (eye 3) /\ ts = skipn (S i) T_).
      { rewrite skip_T in Hts by exact Hlt. now injection Hts. }
      destruct Et as [-> ->]. cbn [steep_loop]. rewrite np_dot_3 by (auto using wf_T). cbn [bind].
      fold (step_in E i).
      destruct (Rltb (dist (step_in E i) - dist E) dmin) eqn:C.
      + apply Rltb_spec in C. destruct (IH (S i) (dist (step_in E i) - dist E) (Some i) eq_refl ltac:(lia))
          as (d' & nb' & Ok1 & L1 & L2 & L3).
        exists d', nb'. split; [exact Ok1|]. split; [lra|]. split.
        * intros k Hk. destruct (Nat.eq_dec k i) as [->|]; [exact L1|]. apply L2. lia.
        * right. destruct L3 as [[-> ->]|(k & Hk & -> & ->)]; [exists i|exists k]; repeat split; lia || reflexivity.
      + apply Rltb_false in C. destruct (IH (S i) dmin nb eq_refl ltac:(lia)) as (d' & nb' & Ok1 & L1 & L2 & L3).
        exists d', nb'. split; [exact Ok1|]. split; [lra|]. split.
        * intros k Hk. destruct (Nat.eq_dec k i) as [->|]; [lra|]. apply L2. lia.
        * destruct L3 as [[-> ->]|(k & Hk & -> & ->)]; [now left|right; exists k; repeat split; lia || reflexivity].
  Qed.

  Lemma steepest_ok nd : wf 3 3 (elem nd) ->
    (steepest_des dist nd = Ok None /\ local_min dist (elem nd)) \/
    exists i, (i < 12)%nat /\ steepest_des dist nd = Ok (Some (Node (step_in (elem nd) i) None None)) /\
      dist (step_in (elem nd) i) < dist (elem nd) /\
      forall k, (k < 12)%nat -> dist (step_in (elem nd) i) <= dist (step_in (elem nd) k).
  Proof.
    intros WE. unfold steepest_des.
    destruct (steep_loop_ok (elem nd) WE T_ 0 10000000000 None eq_refl ltac:(lia)) as (d' & nb' & -> & L1 & L2 & L3).
    cbn [bind]. destruct L3 as [[-> ->]|(k & Hk & -> & ->)].
    - left. split; [reflexivity|]. intros E' HE. apply neighbour_iff in HE. destruct HE as (i & Hi & ->).
      specialize (L2 i ltac:(lia)). unfold step_in in L2. lra.
    - destruct (Rltb (dist (step_in (elem nd) k) - dist (elem nd)) 0) eqn:C.
      + apply Rltb_spec in C. right. exists k. split; [lia|]. rewrite np_dot_3 by (try exact WE; apply wf_T; lia).
        split; [reflexivity|]. split; [lra|]. intros j Hj. specialize (L2 j ltac:(lia)). lra.
      + apply Rltb_false in C. left. split; [reflexivity|]. intros E' HE. apply neighbour_iff in HE.
        destruct HE as (i & Hi & ->). specialize (L2 i ltac:(lia)). unfold step_in in L2 |- *. unfold step_in in C. lra.
  Qed.

  Lemma wf_step E i : wf 3 3 E -> (i < 12)%nat -> wf 3 3 (step_in E i).
  Proof. intros. apply (wf_mmul 3 3 3); try lia; auto. now apply wf_T. Qed.

  (** the descent depends on the matrices only *)
  Lemma steepest_elem nd nd' : elem nd = elem nd' -> steepest_des dist nd = steepest_des dist nd'.
  Proof. intros H. unfold steepest_des. now rewrite H. Qed.

  (** [goes_to E M]: the descent from E ends at M *)
  Inductive goes_to : mat Z -> mat Z -> Prop :=
  | goes_stop E : local_min dist E -> steepest_des dist (Node E None None) = Ok None -> goes_to E E
  | goes_step E i M : (i < 12)%nat -> steepest_des dist (Node E None None) = Ok (Some (Node (step_in E i) None None)) ->
      dist (step_in E i) < dist E ->
      (forall k, (k < 12)%nat -> dist (step_in E i) <= dist (step_in E k)) ->
      goes_to (step_in E i) M -> goes_to E M.

  Lemma goes_det E M M' : goes_to E M -> goes_to E M' -> M = M'.
  Proof.
    intros H. revert M'. induction H as [E L S|E i M Hi S Hd Hb H IH]; intros M' H'; inversion H' as [? L' S'|? i' ? Hi' S' Hd' Hb' H'']; subst; try congruence.
    apply IH. rewrite S in S'. injection S' as EQ. now rewrite EQ.
  Qed.
  Lemma goes_le E M : goes_to E M -> dist M <= dist E /\ local_min dist M.
  Proof. induction 1 as [E L S|E i M Hi S Hd Hb H [IH1 IH2]]; split; auto; lra. Qed.
  Lemma goes_SL E M : wf 3 3 E -> goes_to E M -> exists P, SL3 P /\ M = mmul E P.
  Proof.
    intros WE H. induction H as [E L S|E i M Hi S Hd Hb H IH].
    - exists (eye 3). split; [split; [apply wf_eye|reflexivity]|]. now rewrite (mmul_eye_r 3 3) by (auto; lia).
    - destruct (IH (wf_step E i WE Hi)) as (P & [WP DP] & ->). exists (mmul (nth i T_ (eye 3)) P).
      pose proof (wf_T i Hi) as WT. split.
      + split; [apply (wf_mmul 3 3 3); auto; lia|]. rewrite (det_mmul_Z 3) by (auto; now right). rewrite DP.
        destruct (T_shear i Hi) as (a & b & s & Ha & Hb' & Hab & _ & ->). now rewrite det_shear.
      + unfold step_in. apply (mmul_assoc 3 3 3 3); auto; lia.
  Qed.

  Lemma goes_total E : finitely_many_closer dist -> wf 3 3 E -> exists M, goes_to E M.
  Proof.
    intros HF WE. destruct (HF (dist E)) as [S HS].
    assert (G : forall n E', wf 3 3 E' -> dist E' <= dist E ->
              (length (filter (fun X => Rltb (dist X) (dist E')) S) <= n)%nat -> exists M, goes_to E' M).
    { induction n as [|n IH]; intros E' WE' HE Hn.
      - destruct (steepest_ok (Node E' None None) WE') as [[H1 H2]|(i & Hi & H1 & H2 & H3)]; cbn [elem] in *.
        + exists E'. now apply goes_stop.
        + exfalso. assert (In (step_in E' i) (filter (fun X => Rltb (dist X) (dist E')) S)) as Hin.
          { apply filter_In. split; [apply HS; [now apply wf_step|lra]|now apply Rltb_spec]. }
          destruct (filter _ S); [destruct Hin|cbn in Hn; lia].
      - destruct (steepest_ok (Node E' None None) WE') as [[H1 H2]|(i & Hi & H1 & H2 & H3)]; cbn [elem] in *.
        + exists E'. now apply goes_stop.
        + destruct (IH (step_in E' i)) as [M HM]; [now apply wf_step|lra| |].
          * enough (length (filter (fun X => Rltb (dist X) (dist (step_in E' i))) S) <
                    length (filter (fun X => Rltb (dist X) (dist E')) S))%nat by lia.
            assert (Hin : In (step_in E' i) S) by (apply HS; [now apply wf_step|lra]).
            clear -Hin H2. induction S as [|X S IH]; [destruct Hin|]. cbn.
            assert (Mono : (length (filter (fun X => Rltb (dist X) (dist (step_in E' i))) S) <=
                            length (filter (fun X => Rltb (dist X) (dist E')) S))%nat).
            { clear -H2. induction S as [|Y S IHS]; [auto|]. cbn.
              destruct (Rltb (dist Y) (dist (step_in E' i))) eqn:A; destruct (Rltb (dist Y) (dist E')) eqn:B; cbn; try lia.
              apply Rltb_spec in A. apply Rltb_false in B. lra. }
            destruct Hin as [HX|Hin].
            -- subst X. rewrite (proj2 (Rltb_false (dist (step_in E' i)) (dist (step_in E' i)))) by lra.
               rewrite (proj2 (Rltb_spec (dist (step_in E' i)) (dist E'))) by lra. cbn. lia.
            -- specialize (IH Hin). destruct (Rltb (dist X) (dist (step_in E' i))) eqn:A; destruct (Rltb (dist X) (dist E')) eqn:B; cbn; try lia.
               apply Rltb_spec in A. apply Rltb_false in B. lra.
          * exists M. now apply (goes_step E' i). }
    apply (G (length S) E WE); [lra|]. clear. induction S as [|X S IH]; cbn; [lia|]. destruct (Rltb _ _); cbn; lia.
  Qed.

  (** what descend computes *)
  Lemma descend_sound fuel : forall nd passed m passed', wf 3 3 (elem nd) ->
    descend dist fuel nd passed = Ok (m, passed') ->
    goes_to (elem nd) (elem m) /\
    exists more, passed' = passed ++ more /\ Forall (fun x => goes_to (elem x) (elem m)) more.
  Proof.
    induction fuel as [|fuel IH]; intros nd passed m passed' WE H; [discriminate|]. cbn in H.
    destruct (steepest_ok nd WE) as [[H1 H2]|(i & Hi & H1 & H2 & H3)]; rewrite H1 in H; cbn in H.
    - injection H as <- <-. split.
      + apply goes_stop; [exact H2|]. rewrite <- H1. now apply steepest_elem.
      + exists []. rewrite app_nil_r. auto.
    - destruct (IH (Node (step_in (elem nd) i) None None) _ _ _ (wf_step _ _ WE Hi) H) as (G & more & -> & F). cbn [elem] in G. split.
      + apply (goes_step (elem nd) i (elem m)); auto.
      + exists (Node (step_in (elem nd) i) None None :: more). rewrite <- app_assoc. split; [reflexivity|]. constructor; auto.
  Qed.
  Lemma descend_complete E M : goes_to E M -> wf 3 3 E -> forall nd passed, elem nd = E ->
    exists fuel, forall f, (fuel <= f)%nat -> exists m passed', descend dist f nd passed = Ok (m, passed').
  Proof.
    induction 1 as [E L S|E i M Hi S Hd Hb H IH]; intros WE nd passed Hnd.
    - exists 1%nat. intros [|f] Hf; [lia|]. cbn. rewrite (steepest_elem nd (Node E None None)) by exact Hnd. rewrite S. cbn. eauto.
    - destruct (IH (wf_step E i WE Hi) (Node (step_in E i) None None) (passed ++ [Node (step_in E i) None None]) eq_refl) as (fuel & Hfu).
      exists (Datatypes.S fuel). intros [|f] Hf; [lia|]. cbn. rewrite (steepest_elem nd (Node E None None)) by exact Hnd. rewrite S. cbn.
      apply Hfu. lia.
  Qed.

  (** cache invariant *)
  Definition sound_cache (c : dfs_cache) : Prop := forall K nd, In (K, nd) (snd c) -> goes_to K (elem nd).
  Lemma lookup_In E es nd : lookup E es = Some nd -> In (E, nd) es.
  Proof.
    induction es as [|[K n] es IH]; cbn; [discriminate|]. destruct (mat_eqb E K) eqn:C; [|auto].
    intros H. injection H as ->. apply mat_eqb_eq in C. subst. now left.
  Qed.
  Lemma fold_cache_In (m : node) passed es K nd :
    In (K, nd) (fold_left (fun es nd => (elem nd, m) :: es) passed es) -> In (K, nd) es \/ (nd = m /\ exists x, In x passed /\ K = elem x).
  Proof.
    revert es. induction passed as [|x passed IH]; intros es; cbn; [auto|]. intros H. apply IH in H.
    destruct H as [[H|H]|(-> & y & Hy & ->)]; auto.
    - injection H as <- <-. right. eauto.
    - right. eauto.
  Qed.

  Lemma dfs_sound fuel start c m c' : wf 3 3 (elem start) -> sound_cache c -> dfs dist fuel start c = Ok (m, c') ->
    goes_to (elem start) (elem m) /\ sound_cache c' /\ (fst c = None <-> fst c' = None).
  Proof.
    intros WE HC H. unfold dfs in H. destruct (lookup (elem start) (snd c)) as [nd|] eqn:L.
    - apply lookup_In in L. destruct (fst c) as [k|] eqn:F; [|discriminate]. injection H as <- <-.
      split; [now apply HC|]. split; [exact HC|]. cbn. split; discriminate.
    - destruct (descend dist fuel start [start]) as [[m' passed]| |] eqn:D; [|discriminate|discriminate]. cbn in H.
      injection H as <- <-. destruct (descend_sound _ _ _ _ _ WE D) as (G & more & -> & F).
      split; [exact G|]. split; [|reflexivity]. intros K nd HK. cbn [snd] in HK. apply fold_cache_In in HK.
      destruct HK as [HK|(-> & x & Hx & ->)]; [now apply HC|]. destruct Hx as [<-|Hx]; [exact G|].
      rewrite Forall_forall in F. now apply F.
  Qed.

  Lemma history_sound c0 c : snd c0 = [] -> cache_history dist c0 c -> sound_cache c /\ (fst c0 = None <-> fst c = None).
  Proof.
    intros H0. induction 1 as [|c fuel start m c' H [IH1 IH2] WE D].
    - split; [|reflexivity]. intros K nd HK. rewrite H0 in HK. destruct HK.
    - destruct (dfs_sound _ _ _ _ _ WE IH1 D) as (_ & S & F). split; [exact S|]. now rewrite IH2.
  Qed.

  Lemma dfs_total c start : finitely_many_closer dist -> wf 3 3 (elem start) -> sound_cache c -> fst c <> None ->
    exists fuel, forall f, (fuel <= f)%nat -> exists m c', dfs dist f start c = Ok (m, c').
  Proof.
    intros HF WE HC Hc. destruct (goes_total (elem start) HF WE) as [M G].
    destruct (descend_complete _ _ G WE start [start] eq_refl) as (fuel & Hfu).
    exists fuel. intros f Hf. unfold dfs. destruct (lookup (elem start) (snd c)) as [nd|].
    - destruct (fst c) as [k|]; [eauto|congruence].
    - destruct (Hfu f Hf) as (m & passed & ->). cbn. eauto.
  Qed.

  Theorem dfs_correct c start : finitely_many_closer dist -> wf 3 3 (elem start) -> cache_history dist (Some 0%Z, []) c ->
    exists fuel, forall f, (fuel <= f)%nat -> exists m c', dfs dist f start c = Ok (m, c') /\
      cache_history dist (Some 0%Z, []) c' /\
      dist (elem m) <= dist (elem start) /\ local_min dist (elem m) /\
      (exists P, SL3 P /\ elem m = mmul (elem start) P) /\
      exists m0 c0, dfs dist f start (Some 0%Z, []) = Ok (m0, c0) /\ elem m0 = elem m.
  Proof.
    intros HF WE HH. destruct (history_sound (Some 0%Z, []) c eq_refl HH) as [HC HN].
    assert (Hc : fst c <> None) by (intros E; apply HN in E; discriminate).
    destruct (dfs_total c start HF WE HC Hc) as (f1 & H1).
    assert (HC0 : sound_cache (Some 0%Z, [])) by (intros ? ? []).
    destruct (dfs_total (Some 0%Z, []) start HF WE HC0 ltac:(discriminate)) as (f2 & H2).
    exists (max f1 f2). intros f Hf. destruct (H1 f ltac:(lia)) as (m & c' & D). destruct (H2 f ltac:(lia)) as (m0 & c0 & D0).
    destruct (dfs_sound _ _ _ _ _ WE HC D) as (G & _). destruct (dfs_sound _ _ _ _ _ WE HC0 D0) as (G0 & _).
    exists m, c'. split; [exact D|]. split; [exact (cache_call dist _ c f start m c' HH WE D)|].
    destruct (goes_le _ _ G) as [L1 L2]. split; [exact L1|]. split; [exact L2|].
    split; [now apply (goes_SL (elem start))|]. exists m0, c0. split; [exact D0|]. now apply (goes_det (elem start)).
  Qed.

  Lemma lookup_here m passed es x : In x passed -> exists nd, lookup (elem x) (fold_left (fun es nd => (elem nd, m) :: es) passed es) = Some nd.
  Proof.
    assert (A : forall passed es E nd, lookup E es = Some nd ->
              exists nd', lookup E (fold_left (fun es nd => (elem nd, m) :: es) passed es) = Some nd').
    { clear. induction passed as [|y passed IH]; intros es E nd H; cbn; [eauto|].
      destruct (mat_eqb E (elem y)) eqn:C; apply (IH _ E (if mat_eqb E (elem y) then m else nd)); cbn; rewrite C; auto. }
    revert es. induction passed as [|y passed IH]; intros es Hx; [destruct Hx|]. cbn. destruct Hx as [->|Hx]; [|now apply IH].
    apply (A passed _ (elem x) m). cbn. now rewrite (proj2 (mat_eqb_eq _ _) eq_refl).
  Qed.

  (** with the default cache ({} without 'counter'), repeating a call raises *)
  Lemma dfs_default_raises fuel fuel' start m c : dfs dist fuel start (None, []) = Ok (m, c) ->
    dfs dist fuel' start c = Raise KeyError.
  Proof.
    unfold dfs at 1. cbn [snd fst lookup]. destruct (descend dist fuel start [start]) as [[m' passed]| |] eqn:D; [|discriminate|discriminate].
    cbn. intros H. injection H as <- <-. unfold dfs. cbn [snd fst].
    assert (In start passed).
    { assert (A : forall f nd ps m p, descend dist f nd ps = Ok (m, p) -> incl ps p).
      { clear. induction f as [|f IH]; intros nd ps m p H; [discriminate|]. cbn in H.
        destruct (steepest_des dist nd) as [[nx|]| |]; cbn in H; try discriminate.
        - apply IH in H. intros x Hx. apply H, in_or_app. now left.
        - injection H as <- <-. apply incl_refl. }
      apply (A _ _ _ _ _ D). now left. }
    destruct (lookup_here m' passed [] start H) as [nd ->]. reflexivity.
  Qed.
End Dfs.

(** 2x2 matrices cannot be multiplied by the 3x3 shears *)
Lemma dfs_dim2_raises dist fuel start c : wf 2 2 (elem start) -> lookup (elem start) (snd c) = None ->
  dfs dist (S fuel) start c = Raise ValueError.
Proof.
  intros W L. unfold dfs. rewrite L. cbn [descend]. unfold steepest_des.
  change T_ with (nth 0 T_ (eye 3) :: skipn 1 T_). cbn [steep_loop].
  assert (np_dot (elem start) (nth 0 T_ (eye 3)) = Raise ValueError) as ->; [|reflexivity].
  unfold np_dot. rewrite (ncols_wf' 2 2) by (auto; lia). reflexivity.
Qed.

Lemma dfs_default_first dist start : finitely_many_closer dist -> wf 3 3 (elem start) ->
  exists fuel m c, dfs dist fuel start (None, []) = Ok (m, c).
Proof.
  intros HF W. destruct (goes_total dist (elem start) HF W) as [M G].
  destruct (descend_complete dist _ _ G W start [start] eq_refl) as (fuel & H).
  destruct (H fuel (le_n _)) as (m & p & D). exists fuel. unfold dfs. cbn [snd lookup]. rewrite D. cbn. eauto.
Qed.
