(** Proofs about the whole search lat_opt (C51, C70). *)
From Verif Require Import LinAlg ReduceProofs DirectProofs BestProofs TreeSpec TreeProofs TreeDfs TreeSols.
Local Open Scope Z_scope.

Section LatOpt.
  Variable dist : mat Z -> R.
  Variables LG1 LG2 : list (mat Z).
  Hypothesis Hfin : finitely_many_closer dist.
  Variable nsol : nat.
  (** what is known of the solution list after some visits *)
  Variable sols_ok : list (mat Z) -> sol_state -> Prop.
  Hypothesis Hinit : sols_ok [] ([], []).
  Hypothesis Hupd : forall seen st E, sols_ok seen st -> wf 3 3 E -> sols_ok (E :: seen) (visit dist LG1 LG2 nsol st E).
  Variables miniter maxiter : nat.
  Variable lo : mat Z.
  Hypothesis Wlo : wf 3 3 lo.

  Definition coset (E : mat Z) : Prop := exists P, SL3 P /\ E = mmul lo P.
  Lemma coset_wf E : coset E -> wf 3 3 E.
  Proof. intros (P & [W _] & ->). apply (wf_mmul 3 3 3); auto; lia. Qed.
  Lemma coset_lo : coset lo.
  Proof. exists (eye 3). split; [split; [apply wf_eye|reflexivity]|]. now rewrite (mmul_eye_r 3 3) by (auto; lia). Qed.
  Lemma coset_mul E P : coset E -> SL3 P -> coset (mmul E P).
  Proof.
    intros (Q & [WQ DQ] & ->) [WP DP]. exists (mmul Q P). split.
    - split; [apply (wf_mmul 3 3 3); auto; lia|]. rewrite (det_mmul_Z 3) by (auto; now right). now rewrite DQ, DP.
    - apply (mmul_assoc 3 3 3 3); auto; lia.
  Qed.
  Lemma coset_step E i : coset E -> (i < 12)%nat -> coset (step_in E i).
  Proof.
    intros H Hi. apply coset_mul; [exact H|]. split; [now apply wf_T|].
    destruct (T_shear i Hi) as (a & b & s & Ha & Hb & Hab & _ & ->). now rewrite det_shear.
  Qed.
  Lemma coset_goes E M : coset E -> goes_to dist E M -> coset M.
  Proof.
    intros H HG. destruct (goes_SL dist E M (coset_wf E H) HG) as (P & HP & ->). now apply coset_mul.
  Qed.

  Lemma descend_mono f : forall f' nd p r, (f <= f')%nat -> descend dist f nd p = Ok r -> descend dist f' nd p = Ok r.
  Proof.
    induction f as [|f IH]; intros f' nd p r Hf H; [discriminate|]. destruct f' as [|f']; [lia|]. cbn in *.
    destruct (steepest_des dist nd) as [[nx|]| |]; cbn in *; try discriminate; auto. apply IH; [lia|exact H].
  Qed.
  Lemma dfs_mono f f' s c r : (f <= f')%nat -> dfs dist f s c = Ok r -> dfs dist f' s c = Ok r.
  Proof.
    intros Hf. unfold dfs. destruct (lookup (elem s) (snd c)); [auto|].
    destruct (descend dist f s [s]) as [r0| |] eqn:D; cbn; try discriminate. now rewrite (descend_mono f f' _ _ _ Hf D).
  Qed.

  Definition cache_ok (c : dfs_cache) : Prop := sound_cache dist c /\ fst c <> None.
  Lemma dfs_runs s c : coset (elem s) -> cache_ok c ->
    exists f0 m c', (forall f, (f0 <= f)%nat -> dfs dist f s c = Ok (m, c')) /\ cache_ok c' /\ goes_to dist (elem s) (elem m).
  Proof.
    intros HS [HC HN]. pose proof (coset_wf _ HS) as W. destruct (dfs_total dist c s Hfin W HC HN) as (f0 & H).
    destruct (H f0 (le_n _)) as (m & c' & D). exists f0, m, c'. split; [intros f Hf; exact (dfs_mono f0 f s c _ Hf D)|].
    destruct (dfs_sound dist f0 s c m c' W HC D) as (Gt & S & F). split; [|exact Gt]. split; [exact S|]. tauto.
  Qed.

  (** invariant of the loops inside bfs *)
  Definition binv (seen : list (mat Z)) (b : bstate) : Prop :=
    sols_ok seen (b_sols b) /\ cache_ok (b_cache b) /\ incl (b_explored b) seen /\
    Forall coset seen /\ Forall (fun nd => coset (elem nd)) (b_new b).

  Definition restart_ok (seen : list (mat Z)) (source ns : node) (b : bstate) : Prop :=
    exists seen', incl seen seen' /\ sols_ok seen' (b_sols b) /\ cache_ok (b_cache b) /\ Forall coset seen' /\
      coset (elem ns) /\ (dist (elem ns) < dist (elem source))%R.

  Notation kids := (kids_loop dist LG1 LG2 nsol miniter).
  Lemma kids_ok source root depth : coset (elem root) -> forall is_ seen b, Forall (fun i => i < 12)%nat is_ -> binv seen b ->
    exists f0 x, (forall f, (f0 <= f)%nat -> kids f depth source root is_ b = Ok x) /\
      match x with
      | inl (ns, b') => restart_ok seen source ns b'
      | inr b' => exists seen', incl seen seen' /\ binv seen' b' /\ incl (b_explored b) (b_explored b') /\
                    forall i, In i is_ -> In (step_in (elem root) i) (b_explored b')
      end.
  Proof.
    intros HR. induction is_ as [|i is_ IH]; intros seen b HF HB.
    - exists 0%nat, (inr b). split; [reflexivity|]. exists seen. split; [apply incl_refl|]. split; [exact HB|].
      split; [apply incl_refl|]. intros i [].
    - inversion HF as [|? ? Hi HF']; subst. cbn [kids_loop].
      assert (ED : np_dot (elem root) (nth i T_ (eye 3)) = Ok (step_in (elem root) i)).
      { apply np_dot_3; [now apply coset_wf|now apply wf_T]. }
      pose proof (coset_step (elem root) i HR Hi) as CE. set (E := step_in (elem root) i) in *.
      destruct (mem_mat E (b_explored b)) eqn:M.
      + apply mem_mat_In in M. destruct (IH seen b HF' HB) as (f0 & x & Hx & Px).
        exists f0, x. split; [intros f Hf; rewrite ED; cbn [bind]; rewrite (proj2 (mem_mat_In E _) M); now apply Hx|].
        destruct x as [[ns b']|b']; [exact Px|]. destruct Px as (seen' & I1 & B & I2 & P).
        exists seen'. split; [exact I1|]. split; [exact B|]. split; [exact I2|].
        intros j [<-|Hj]; [now apply I2|now apply P].
      + pose proof HB as (SO & CO & IE & CS & NW).
        (* the rest after the (optional) dfs *)
        assert (Rest : forall c', cache_ok c' ->
          let t := Node E (Some i) (parent root) in
          exists f0 x, (forall f, (f0 <= f)%nat ->
            (let '(u, s') := update_solutions dist LG1 LG2 nsol E (b_sols b) in
             kids f depth source root is_ (BState s' c' (E :: b_explored b) (b_new b ++ [t]) (b_upd b || u))) = Ok x) /\
          match x with
          | inl (ns, b') => restart_ok seen source ns b'
          | inr b' => exists seen', incl seen seen' /\ binv seen' b' /\ incl (b_explored b) (b_explored b') /\
                        forall j, In j (i :: is_) -> In (step_in (elem root) j) (b_explored b')
          end).
        { intros c' Hc' t.
          pose proof (Hupd seen (b_sols b) E SO (coset_wf E CE)) as SO'.
          unfold visit in SO'. destruct (update_solutions dist LG1 LG2 nsol E (b_sols b)) as [u s'] eqn:U. cbn [snd] in SO'.
          destruct (IH (E :: seen) (BState s' c' (E :: b_explored b) (b_new b ++ [t]) (b_upd b || u)) HF') as (f0 & x & Hx & Px).
          { split; [exact SO'|]. split; [exact Hc'|]. cbn [b_explored b_new].
            split; [intros y [<-|Hy]; [now left|right; now apply IE]|].
            split; [now constructor|]. apply Forall_app. split; [exact NW|]. constructor; [exact CE|constructor]. }
          exists f0, x. split; [exact Hx|]. destruct x as [[ns b']|b'].
          - destruct Px as (seen' & I1 & Q). exists seen'. split; [|exact Q]. intros y Hy. apply I1. now right.
          - destruct Px as (seen' & I1 & B & I2 & P). cbn [b_explored] in I2. exists seen'.
            split; [intros y Hy; apply I1; now right|]. split; [exact B|].
            split; [intros y Hy; apply I2; now right|].
            intros j [<-|Hj]; [apply I2; now left|now apply P]. }
        cbn zeta. destruct (Nat.leb_spec depth miniter) as [Hd|Hd].
        * destruct (dfs_runs (Node E (Some i) (parent root)) (b_cache b) CE CO) as (f1 & m & c' & D & CO' & Gt).
          cbn [elem] in Gt. destruct (Rltb (dist (elem m)) (dist (elem source))) eqn:L.
          -- apply Rltb_spec in L. exists f1. eexists. split.
             { intros f Hf. rewrite ED. cbn [bind]. rewrite M. cbn [b_cache]. rewrite (D f Hf). cbn [bind].
               rewrite (proj2 (Rltb_spec _ _) L). reflexivity. }
             cbn. exists seen. split; [apply incl_refl|]. split; [exact SO|]. split; [exact CO'|]. split; [exact CS|].
             split; [now apply (coset_goes E)|exact L].
          -- destruct (Rest c' CO') as (f2 & x & Hx & Px). exists (max f1 f2), x. split; [|exact Px].
             intros f Hf. rewrite ED. cbn [bind]. rewrite M. cbn [b_cache]. rewrite (D f ltac:(lia)). cbn [bind].
             rewrite L. apply Hx. lia.
        * destruct (Rest (b_cache b) CO) as (f2 & x & Hx & Px). exists f2, x. split; [|exact Px].
          intros f Hf. rewrite ED. cbn [bind]. rewrite M. apply Hx. exact Hf.
  Qed.

  Lemma child_idx_lt p g : Forall (fun i => i < 12)%nat (child_indices 3 p g).
  Proof. apply Forall_forall. intros i Hi. now apply child_lt in Hi. Qed.

  Lemma roots_ok source depth : forall roots seen b, Forall (fun nd => coset (elem nd)) roots -> binv seen b ->
    exists f0 x, (forall f, (f0 <= f)%nat -> roots_loop 3 dist LG1 LG2 nsol miniter f depth source roots b = Ok x) /\
      match x with
      | inl (ns, b') => restart_ok seen source ns b'
      | inr b' => exists seen', incl seen seen' /\ binv seen' b' /\ incl (b_explored b) (b_explored b') /\
                    forall r i, In r roots -> In i (child_indices 3 (parent r) (grandpa r)) ->
                      In (step_in (elem r) i) (b_explored b')
      end.
  Proof.
    induction roots as [|r rs IH]; intros seen b HF HB.
    - exists 0%nat, (inr b). split; [reflexivity|]. exists seen. split; [apply incl_refl|]. split; [exact HB|].
      split; [apply incl_refl|]. intros r i [].
    - inversion HF as [|? ? Hr HF']; subst. cbn [roots_loop].
      destruct (kids_ok source r depth Hr _ seen b (child_idx_lt (parent r) (grandpa r)) HB) as (f1 & x & Hx & Px).
      destruct x as [[ns b']|b'].
      + exists f1. eexists. split; [intros f Hf; rewrite (Hx f Hf); reflexivity|exact Px].
      + destruct Px as (seen1 & I1 & B1 & I2 & P1). destruct (IH seen1 b' HF' B1) as (f2 & y & Hy & Py).
        exists (max f1 f2), y. split; [intros f Hf; rewrite (Hx f) by lia; cbn [bind]; apply Hy; lia|].
        destruct y as [[ns b'']|b''].
        * destruct Py as (seen2 & J1 & Q). exists seen2. split; [|exact Q]. now apply (incl_tran I1).
        * destruct Py as (seen2 & J1 & B2 & J2 & P2). exists seen2. split; [now apply (incl_tran I1)|]. split; [exact B2|].
          split; [now apply (incl_tran I2)|]. intros q i [<-|Hq] Hi; [apply J2; now apply P1|now apply (P2 q i)].
  Qed.

  Lemma levels_ok source : forall k depth roots seen b, (max miniter maxiter <= k + depth)%nat ->
    Forall (fun nd => coset (elem nd)) roots -> binv seen b ->
    exists f0 x, (forall f, (f0 <= f)%nat -> levels 3 dist LG1 LG2 nsol miniter maxiter k f depth source roots b = Ok x) /\
      match x with
      | (Some ns, b') => restart_ok seen source ns b'
      | (None, b') => exists seen', incl seen seen' /\ binv seen' b' /\ incl (b_explored b) (b_explored b') /\
           ((depth < miniter)%nat -> forall r i, In r roots -> In i (child_indices 3 (parent r) (grandpa r)) ->
              In (step_in (elem r) i) (b_explored b'))
      end.
  Proof.
    induction k as [|k IH]; intros depth roots seen b Hk HF HB; cbn [levels].
    - exists 0%nat. destruct (Nat.ltb_spec depth miniter); [lia|]. destruct (Nat.ltb_spec depth maxiter); [lia|].
      rewrite andb_false_r. cbn. eexists. split; [reflexivity|]. cbn. exists seen. split; [apply incl_refl|]. split; [exact HB|].
      split; [apply incl_refl|]. lia.
    - destruct ((depth <? miniter)%nat || b_upd b && (depth <? maxiter)%nat) eqn:C.
      2:{ exists 0%nat. eexists. split; [reflexivity|]. cbn. exists seen. split; [apply incl_refl|]. split; [exact HB|].
          split; [apply incl_refl|]. intros Hd. apply Nat.ltb_lt in Hd. rewrite Hd in C. discriminate. }
      pose proof HB as (SO & CO & IE & CS & NW).
      destruct (roots_ok source (S depth) roots seen (BState (b_sols b) (b_cache b) (b_explored b) [] false) HF) as (f1 & x & Hx & Px).
      { split; [exact SO|]. split; [exact CO|]. split; [exact IE|]. split; [exact CS|constructor]. }
      destruct x as [[ns b']|b'].
      + exists f1. eexists. split; [intros f Hf; rewrite (Hx f Hf); reflexivity|exact Px].
      + destruct Px as (seen1 & I1 & B1 & I2 & P1). cbn [b_explored] in I2.
        destruct (IH (S depth) (b_new b') seen1 b' ltac:(lia) (proj2 (proj2 (proj2 (proj2 B1)))) B1) as (f2 & y & Hy & Py).
        exists (max f1 f2), y. split; [intros f Hf; rewrite (Hx f) by lia; cbn [bind]; apply Hy; lia|].
        destruct y as [[ns|] b''].
        * destruct Py as (seen2 & J1 & Q). exists seen2. split; [|exact Q]. now apply (incl_tran I1).
        * destruct Py as (seen2 & J1 & B2 & J2 & P2). exists seen2. split; [now apply (incl_tran I1)|]. split; [exact B2|].
          split; [now apply (incl_tran I2)|]. intros _ r i Hr Hi. apply J2. now apply (P1 r i).
  Qed.

  Lemma bfs_ok source s c seen : coset (elem source) -> sols_ok seen s -> cache_ok c -> Forall coset seen ->
    exists f0 x, (forall f, (f0 <= f)%nat -> bfs 3 dist LG1 LG2 nsol miniter maxiter f source s c = Ok x) /\
      match x with
      | (Some ns, b') => restart_ok seen source ns b'
      | (None, b') => exists seen', incl seen seen' /\ binv seen' b' /\ In (elem source) seen' /\
           ((0 < miniter)%nat -> forall i, In i (child_indices 3 (parent source) (grandpa source)) ->
              In (step_in (elem source) i) seen')
      end.
  Proof.
    intros HS SO CO CS. unfold bfs.
    pose proof (Hupd seen s (elem source) SO (coset_wf _ HS)) as SO'.
    unfold visit in SO'. destruct (update_solutions dist LG1 LG2 nsol (elem source) s) as [u s'] eqn:U. cbn [snd] in SO'.
    destruct (levels_ok source (max miniter maxiter) 0 [source] (elem source :: seen) (BState s' c [elem source] [] true)) as (f0 & x & Hx & Px).
    - lia.
    - constructor; [exact HS|constructor].
    - split; [exact SO'|]. split; [exact CO|]. split; [intros y [<-|[]]; now left|]. split; [now constructor|constructor].
    - exists f0, x. split; [exact Hx|]. destruct x as [[ns|] b'].
      + destruct Px as (seen2 & J1 & Q). exists seen2. split; [|exact Q]. intros y Hy. apply J1. now right.
      + destruct Px as (seen2 & J1 & B2 & J2 & P2). exists seen2. split; [intros y Hy; apply J1; now right|].
        split; [exact B2|]. split; [apply J1; now left|]. intros Hm i Hi.
        apply (proj1 (proj2 (proj2 B2))). apply (P2 Hm source i); [now left|exact Hi].
  Qed.

  Definition outcome (s0 : mat Z) (st : sol_state) : Prop :=
    exists m seen, sols_ok seen st /\ Forall coset seen /\
      In (elem m) seen /\ local_min dist (elem m) /\ (dist (elem m) <= dist s0)%R /\
      ((0 < miniter)%nat -> forall i, In i (child_indices 3 (parent m) (grandpa m)) ->
         In (mmul (elem m) (nth i T_ (eye 3))) seen).

  Lemma count_lt S E E' : In E' S -> (dist E' < dist E)%R ->
    (length (filter (fun X => Rltb (dist X) (dist E')) S) < length (filter (fun X => Rltb (dist X) (dist E)) S))%nat.
  Proof.
    intros Hin HL. induction S as [|X S IH]; [destruct Hin|]. cbn.
    assert (Mono : (length (filter (fun X => Rltb (dist X) (dist E')) S) <= length (filter (fun X => Rltb (dist X) (dist E)) S))%nat).
    { clear -HL. induction S as [|Y S IHS]; [auto|]. cbn.
      destruct (Rltb (dist Y) (dist E')) eqn:A; destruct (Rltb (dist Y) (dist E)) eqn:B; cbn; try lia.
      apply Rltb_spec in A. apply Rltb_false in B. lra. }
    destruct Hin as [HX|Hin].
    - subst X. rewrite (proj2 (Rltb_false (dist E') (dist E'))) by lra.
      rewrite (proj2 (Rltb_spec (dist E') (dist E))) by lra. cbn. lia.
    - specialize (IH Hin). destruct (Rltb (dist X) (dist E')) eqn:A; destruct (Rltb (dist X) (dist E)) eqn:B; cbn; try lia.
      apply Rltb_spec in A. apply Rltb_false in B. lra.
  Qed.

  Lemma restarts_ok d0 S (HS : forall E, wf 3 3 E -> (dist E <= d0)%R -> In E S) : forall N start s c seen,
    (dist (elem start) <= d0)%R ->
    (length (filter (fun X => Rltb (dist X) (dist (elem start))) S) <= N)%nat ->
    coset (elem start) -> sols_ok seen s -> cache_ok c -> Forall coset seen ->
    exists f0 st, (forall f k, (f0 <= f)%nat -> (Datatypes.S N <= k)%nat ->
        restarts 3 dist LG1 LG2 nsol miniter maxiter k f start s c = Ok st) /\ outcome (elem start) st.
  Proof.
    induction N as [N IH] using lt_wf_ind; intros start s c seen Hd HN HC SO CO CS.
    destruct (dfs_runs start c HC CO) as (f1 & m & c' & D & CO' & Gt).
    pose proof (coset_goes _ _ HC Gt) as Cm. destruct (goes_le dist _ _ Gt) as [Lm Mm].
    destruct (bfs_ok m s c' seen Cm SO CO' CS) as (f2 & x & Hx & Px). destruct x as [[ns|] b'].
    - destruct Px as (seen' & I1 & SO2 & CO2 & CS2 & Cns & Ln).
      assert (Hlt : (length (filter (fun X => Rltb (dist X) (dist (elem ns))) S) < length (filter (fun X => Rltb (dist X) (dist (elem start))) S))%nat).
      { apply count_lt; [|lra]. apply HS; [now apply coset_wf|lra]. }
      destruct (IH (length (filter (fun X => Rltb (dist X) (dist (elem ns))) S)) ltac:(lia) ns (b_sols b') (b_cache b') seen'
                  ltac:(lra) (le_n _) Cns SO2 CO2 CS2) as (f3 & st & Hst & Pst).
      exists (max f1 (max f2 f3)), st. split.
      + intros f [|k] Hf Hk; [lia|]. cbn [restarts]. rewrite (D f) by lia. cbn [bind]. rewrite (Hx f) by lia. cbn [bind]. apply Hst; lia.
      + destruct Pst as (m' & sn & P1 & P2 & P3 & P4 & P5 & P6). exists m', sn. repeat (split; [assumption|]). split; [lra|exact P6].
    - destruct Px as (seen' & I1 & (SO2 & CO2 & IE & CS2 & _) & Hm & P). exists (max f1 f2), (b_sols b'). split.
      + intros f [|k] Hf Hk; [lia|]. cbn [restarts]. rewrite (D f) by lia. cbn [bind]. rewrite (Hx f) by lia. reflexivity.
      + exists m, seen'. split; [exact SO2|].
        split; [exact CS2|]. split; [exact Hm|]. split; [exact Mm|]. split; [exact Lm|exact P].
  Qed.

  Theorem lat_opt_general : exists k0 f0 st, (forall k f, (k0 <= k)%nat -> (f0 <= f)%nat ->
      lat_opt_core 3 dist LG1 LG2 nsol miniter maxiter k f lo = Ok (fst st)) /\ outcome lo st.
  Proof.
    destruct (Hfin (dist lo)) as [S HS].
    destruct (restarts_ok (dist lo) S HS _ (Node lo None None) ([], []) (Some 0%Z, []) [] (Rle_refl _) (le_n _) coset_lo Hinit) as (f0 & st & Hst & P).
    - split; [intros ? ? []|discriminate].
    - constructor.
    - eexists. exists f0, st. split; [|exact P]. intros k f Hk Hf. unfold lat_opt_core. rewrite (Hst f k Hf Hk). reflexivity.
  Qed.
End LatOpt.

(** for a distance that respects the symmetries the list is the best of what was visited *)
Theorem lat_opt_total dist LG1 LG2 : matrix_group 3 LG1 -> matrix_group 3 LG2 -> symmetric_dist 3 LG1 LG2 dist ->
  finitely_many_closer dist -> forall nsol, (1 <= nsol)%nat -> forall miniter maxiter lo, wf 3 3 lo ->
  exists k0 f0 sols, (forall k f, (k0 <= k)%nat -> (f0 <= f)%nat ->
      lat_opt_core 3 dist LG1 LG2 nsol miniter maxiter k f lo = Ok sols) /\
    exists m seen, best_list (equiv_mat LG1 LG2) dist nsol seen sols /\ Forall (coset lo) seen /\
      In (elem m) seen /\ local_min dist (elem m) /\ (dist (elem m) <= dist lo)%R /\
      ((0 < miniter)%nat -> forall i, In i (child_indices 3 (parent m) (grandpa m)) ->
         In (mmul (elem m) (nth i T_ (eye 3))) seen).
Proof.
  intros G1 G2 Hd Hf nsol Hs miniter maxiter lo Wlo.
  destruct (lat_opt_general dist LG1 LG2 Hf nsol (sols_ok 3 LG1 LG2 dist nsol) (init_sols_ok 3 LG1 LG2 dist nsol)
              (update_ok 3 ltac:(lia) LG1 LG2 G1 G2 dist Hd nsol Hs) miniter maxiter lo Wlo) as (k0 & f0 & st & Run & m & seen & SO & P).
  exists k0, f0, (fst st). split; [exact Run|]. exists m, seen. split; [|exact P].
  apply (good_best' 3 ltac:(lia) LG1 LG2 G1 G2 dist nsol Hs). apply SO.
Qed.
(** in any case the search ends, after visiting a local minimum *)
Theorem lat_opt_terminates dist LG1 LG2 nsol miniter maxiter lo : finitely_many_closer dist -> wf 3 3 lo ->
  exists k0 f0 sols, forall k f, (k0 <= k)%nat -> (f0 <= f)%nat ->
      lat_opt_core 3 dist LG1 LG2 nsol miniter maxiter k f lo = Ok sols.
Proof.
  intros Hf Wlo.
  destruct (lat_opt_general dist LG1 LG2 Hf nsol (fun _ _ => True) I (fun _ _ _ _ _ => I) miniter maxiter lo Wlo) as (k0 & f0 & st & Run & _).
  eauto.
Qed.
