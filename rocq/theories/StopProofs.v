(** Proofs about when the tree search stops (C103). *)
From Coq Require Import Sorted.
From Verif Require Import LinAlg ReduceProofs BestSpec BestProofs TreeSpec TreeProofs TreeDfs TreeSols TreeLatOpt LatCorTree DepthProofs.
Local Open Scope Z_scope.

Section Stop.
  Variable dist : mat Z -> R.
  Variables LG1 LG2 : list (mat Z).
  Variable nsol : nat.
  Variable miniter : nat.
  Variable lo : mat Z.
  Hypothesis Wlo : wf 3 3 lo.
  Hypothesis I1 : In (eye 3) LG1.
  Hypothesis I2 : In (eye 3) LG2.
  Hypothesis Hnsol : (1 <= nsol)%nat.
  Notation coset := (coset lo).

  (** what is known of the solutions and of the matrices that are not to be stored again *)
  Definition keeps (st : sol_state) : Prop :=
    StronglySorted le_sol (fst st) /\
    (forall s t, In s (fst st) -> nth_error (fst st) (nsol - 1) = Some t -> (snd s <= snd t)%R) /\
    (forall s, In s (fst st) -> In (fst s) (snd st)) /\ (fst st = [] -> snd st = []).

  Lemma self_ext E : wf 3 3 E -> In E (ext_sols LG1 LG2 E).
  Proof.
    intros W. unfold ext_sols. apply in_flat_map. exists (eye 3). split; [exact I1|]. apply in_map_iff. exists (eye 3). split; [|exact I2].
    rewrite (mmul_eye_l 3 3), (mmul_eye_r 3 3) by (auto; lia). reflexivity.
  Qed.

  Lemma update_keeps E st u st' : keeps st -> wf 3 3 E -> update_solutions dist LG1 LG2 nsol E st = (u, st') ->
    keeps st' /\ incl (snd st) (snd st') /\ (u = false -> st' = st) /\ (u = true -> exists s, In s (fst st') /\ ~ In (fst s) (snd st)).
  Proof.
    destruct st as [sols ext]. intros (K1 & K2 & K3 & K4) W H. cbn [fst snd] in *. pose proof (self_ext E W) as SE. unfold update_solutions in H.
    destruct sols as [|s0 sols0] eqn:Es.
    - injection H as <- <-. cbn [fst snd]. rewrite K4 by reflexivity. split; [|split; [|split]].
      + split; [repeat constructor|]. split; [|split; [|discriminate]].
        * intros s t [<-|[]] Ht. apply nth_error_In in Ht. destruct Ht as [<-|[]]. lra.
        * intros s [<-|[]]. cbn. exact SE.
      + intros x [].
      + discriminate.
      + intros _. eexists. split; [now left|]. auto.
    - rewrite <- Es in *. assert (Ne : sols <> []) by (rewrite Es; discriminate).
      destruct (mem_mat E ext) eqn:M.
      { injection H as <- <-. split; [|split; [apply incl_refl|split; [reflexivity|discriminate]]]. repeat (split; [assumption|]). assumption. }
      assert (Nin : ~ In E ext) by (intros X; apply mem_mat_In in X; congruence).
      pose proof (ins_sorted (E, dist E) sols K1) as SI.
      destruct (insert_sol_ins (E, dist E) sols) as [[EI (t0 & Ht0 & Lt0)]|[EI Hlt]]; rewrite EI in H.
      + injection H as <- <-. cbn [fst snd]. rewrite (truncate_trunc nsol Hnsol) by (auto; lia).
        destruct (trunc_prefix nsol _ SI) as (rest & Sp & Ht & Hn).
        assert (Kept : In (E, dist E) (trunc nsol (ins (E, dist E) sols))).
        { assert (HI : In (E, dist E) (ins (E, dist E) sols)) by (apply ins_in; now left).
          rewrite Sp in HI. apply in_app_or in HI. destruct HI as [HI|HI]; [exact HI|]. exfalso.
          destruct (nth_error (ins (E, dist E) sols) (nsol - 1)) as [t|] eqn:Et; [|rewrite (Hn eq_refl) in HI; destruct HI].
          destruct (Ht t eq_refl) as (_ & _ & HR). pose proof (HR _ HI) as L. apply dlt_spec, Rleb_false in L. cbn [snd] in L.
          assert (Same : forall l k t, StronglySorted le_sol l -> nth_error (ins (E, dist E) l) k = Some t -> (snd t < dist E)%R -> nth_error l k = Some t).
          { clear. induction l as [|a l IH]; intros k t HS H L; cbn in H.
            - destruct k as [|k]; [injection H as <-; cbn in L; lra|destruct k; discriminate].
            - apply StronglySorted_inv in HS. destruct HS as [HS HF]. destruct (Rleb (dist E) (snd a)) eqn:C.
              + exfalso. apply Rleb_spec in C. rewrite Forall_forall in HF.
                destruct k as [|[|k]]; cbn in H; [injection H as <-; cbn in L; lra|injection H as <-; lra|].
                apply nth_error_In in H. specialize (HF t H). apply Rleb_spec in HF. lra.
              + destruct k as [|k]; [exact H|]. cbn in *. now apply IH. }
          pose proof (K2 t0 t Ht0 (Same _ _ _ K1 Et L)). cbn [snd] in Lt0. lra. }
        assert (Sub : forall s, In s (trunc nsol (ins (E, dist E) sols)) -> s = (E, dist E) \/ In s sols).
        { intros s Hs. apply trunc_incl in Hs. now apply ins_in in Hs. }
        split; [|split; [|split; [discriminate|]]].
        * split; [rewrite Sp in SI; now apply SS_app in SI|]. cbn [fst snd]. split; [|split].
          -- intros s t Hs Et. destruct (nth_error (ins (E, dist E) sols) (nsol - 1)) as [t'|] eqn:Et'.
             ++ destruct (Ht t' eq_refl) as (A & B & _). assert (t' = t) by congruence. subst t'. apply Rleb_spec. now apply B.
             ++ rewrite (Hn eq_refl), app_nil_r in Sp. rewrite <- Sp in Et. congruence.
          -- intros s Hs. apply in_or_app. destruct (Sub s Hs) as [->|Hs']; [right; exact SE|left; now apply K3].
          -- intros X. rewrite X in Kept. destruct Kept.
        * intros x Hx. apply in_or_app. now left.
        * intros _. exists (E, dist E). split; [exact Kept|exact Nin].
      + destruct (Nat.ltb_spec (length sols) nsol) as [Hl|Hl].
        * injection H as <- <-. cbn [fst snd].
          assert (HI : ins (E, dist E) sols = sols ++ [(E, dist E)]).
          { apply ins_last. intros v Hv. apply dlt_spec, Rleb_false. now apply Hlt. }
          rewrite HI in SI. split; [|split; [|split; [discriminate|]]].
          -- split; [exact SI|]. cbn [fst snd]. split; [|split].
             ++ intros s t Hs Et. apply In_nth_error in Hs. destruct Hs as [i Hi].
                assert (Li : (i < length (sols ++ [(E, dist E)]))%nat) by (apply nth_error_Some; congruence). rewrite app_length in Li. cbn in Li.
                apply Rleb_spec. apply (SS_nth nsol Hnsol (sols ++ [(E, dist E)]) i (nsol - 1) s t SI); auto. lia.
             ++ intros s Hs. apply in_or_app. apply in_app_or in Hs. destruct Hs as [Hs|[<-|[]]]; [left; now apply K3|right; exact SE].
             ++ intros X. now apply app_eq_nil in X.
          -- intros x Hx. apply in_or_app. now left.
          -- intros _. exists (E, dist E). split; [apply in_or_app; right; now left|exact Nin].
        * injection H as <- <-. split; [|split; [apply incl_refl|split; [reflexivity|discriminate]]]. repeat (split; [assumption|]). assumption.
  Qed.

  (** * The loops *)
  (** [st0] is what was known when the level began *)
  Definition fresh_or_same (st0 : sol_state) (b : bstate) : Prop :=
    keeps (b_sols b) /\ incl (snd st0) (snd (b_sols b)) /\
    if b_upd b then exists s, In s (fst (b_sols b)) /\ ~ In (fst s) (snd st0) else b_sols b = st0.
  Definition linv (st0 : sol_state) (b : bstate) : Prop :=
    fresh_or_same st0 b /\ sound_cache dist (b_cache b) /\ Forall (fun nd => coset (elem nd)) (b_new b).

  Lemma update_fresh st0 E b c ex nw u st' : fresh_or_same st0 b -> wf 3 3 E -> update_solutions dist LG1 LG2 nsol E (b_sols b) = (u, st') ->
    fresh_or_same st0 (BState st' c ex nw (b_upd b || u)).
  Proof.
    intros (K & I & F) W H. destruct (update_keeps E (b_sols b) u st' K W H) as (K' & I' & S & N). unfold fresh_or_same. cbn [b_sols b_upd].
    split; [exact K'|]. split; [exact (incl_tran I I')|]. destruct u.
    - rewrite orb_true_r. destruct (N eq_refl) as (s & Hs & Hn). exists s. split; [exact Hs|]. intros X. apply Hn. now apply I.
    - rewrite orb_false_r, (S eq_refl). exact F.
  Qed.

  Lemma kids_fresh st0 fuel depth source root : coset (elem root) -> forall is_ b x, Forall (fun i => i < 12)%nat is_ -> linv st0 b ->
    kids_loop dist LG1 LG2 nsol miniter fuel depth source root is_ b = Ok x ->
    match x with inl (ns, b') => coset (elem ns) /\ keeps (b_sols b') /\ sound_cache dist (b_cache b') /\ (depth <= miniter)%nat | inr b' => linv st0 b' end.
  Proof.
    intros HR. induction is_ as [|i is_ IH]; intros b x HF HB H.
    - cbn in H. injection H as <-. exact HB.
    - inversion HF as [|? ? Hi HF']; subst. cbn [kids_loop] in H.
      assert (ED : np_dot (elem root) (nth i T_ (eye 3)) = Ok (step_in (elem root) i))
        by (apply np_dot_3; [now apply (coset_wf lo Wlo)|now apply wf_T]).
      rewrite ED in H. cbn [bind] in H. pose proof (coset_step lo Wlo (elem root) i HR Hi) as CE. set (E := step_in (elem root) i) in *.
      pose proof (coset_wf lo Wlo _ CE) as WE.
      destruct (mem_mat E (b_explored b)); [exact (IH b x HF' HB H)|]. destruct HB as (OK & CA & NW). cbn zeta in H.
      assert (NW' : Forall (fun nd => coset (elem nd)) (b_new b ++ [Node E (Some i) (parent root)])).
      { apply Forall_app. split; [exact NW|]. constructor; [exact CE|constructor]. }
      destruct (Nat.leb_spec depth miniter) as [Hd|Hd].
      + cbn [b_cache b_sols b_explored b_new b_upd] in H.
        destruct (dfs dist fuel (Node E (Some i) (parent root)) (b_cache b)) as [[m c']| |] eqn:D; cbn [bind] in H; try discriminate.
        destruct (dfs_coset dist lo Wlo fuel (Node E (Some i) (parent root)) (b_cache b) m c' CE CA D) as [Cm Sc].
        destruct (Rltb (dist (elem m)) (dist (elem source))).
        * injection H as <-. split; [exact Cm|]. split; [apply OK|]. split; [exact Sc|exact Hd].
        * destruct (update_solutions dist LG1 LG2 nsol E (b_sols b)) as [u s'] eqn:EU.
          refine (IH _ x HF' _ H). split; [exact (update_fresh st0 E b _ _ _ u s' OK WE EU)|]. split; [exact Sc|exact NW'].
      + cbn [b_cache b_sols b_explored b_new b_upd] in H.
        destruct (update_solutions dist LG1 LG2 nsol E (b_sols b)) as [u s'] eqn:EU.
        refine (IH _ x HF' _ H). split; [exact (update_fresh st0 E b _ _ _ u s' OK WE EU)|]. split; [exact CA|exact NW'].
  Qed.
  Lemma roots_fresh st0 fuel depth source : forall roots b x, Forall (fun nd => coset (elem nd)) roots -> linv st0 b ->
    roots_loop 3 dist LG1 LG2 nsol miniter fuel depth source roots b = Ok x ->
    match x with inl (ns, b') => coset (elem ns) /\ keeps (b_sols b') /\ sound_cache dist (b_cache b') /\ (depth <= miniter)%nat | inr b' => linv st0 b' end.
  Proof.
    induction roots as [|r rs IH]; intros b x HF HB H; cbn [roots_loop] in H; [injection H as <-; exact HB|]. inversion HF as [|? ? Hr HF']; subst.
    destruct (kids_loop dist LG1 LG2 nsol miniter fuel depth source r (child_indices 3 (parent r) (grandpa r)) b) as [y| |] eqn:K; try discriminate.
    pose proof (kids_fresh st0 fuel depth source r Hr _ _ _ (child_idx_lt (parent r) (grandpa r)) HB K) as KS.
    cbn [bind] in H. destruct y as [[ns b']|b']; [injection H as <-; exact KS|exact (IH b' x HF' KS H)].
  Qed.
  Definition start_of (b : bstate) : bstate := BState (b_sols b) (b_cache b) (b_explored b) [] false.
  Lemma start_linv b : keeps (b_sols b) -> sound_cache dist (b_cache b) -> linv (b_sols b) (start_of b).
  Proof. intros K C. split; [|split; [exact C|constructor]]. split; [exact K|]. split; [apply incl_refl|reflexivity]. Qed.

  Definition lv (maxiter : nat) := levels 3 dist LG1 LG2 nsol miniter maxiter.
  Definition pool (b : bstate) : Prop := keeps (b_sols b) /\ sound_cache dist (b_cache b) /\ Forall (fun nd => coset (elem nd)) (b_new b).
  Lemma linv_pool st0 b : linv st0 b -> pool b.
  Proof. intros ((K & _) & C & N). split; auto. Qed.

  (** a run with a larger maximum repeats the run with the smaller one, and may go on from there *)
  Lemma levels_more n fuel source : (miniter <= n)%nat -> forall k depth roots b, (k + depth = n)%nat ->
    Forall (fun nd => coset (elem nd)) roots -> pool b ->
    forall x, lv n k fuel depth source roots b = Ok x ->
    match x with
    | (Some ns, b') => coset (elem ns) /\ keeps (b_sols b') /\ sound_cache dist (b_cache b') /\
        forall j, lv (n + j) (k + j) fuel depth source roots b = Ok x
    | (None, b') => exists roots', Forall (fun nd => coset (elem nd)) roots' /\ pool b' /\
        forall j, lv (n + j) (k + j) fuel depth source roots b = lv (n + j) j fuel n source roots' b'
    end.
  Proof.
    intros Hn. induction k as [|k IH]; intros depth roots b Hk HR HP x H.
    - cbn in Hk. subst depth. unfold lv in H. cbn [levels] in H. destruct (Nat.ltb_spec n miniter); [lia|]. rewrite Nat.ltb_irrefl, andb_false_r in H. cbn [orb] in H.
      injection H as <-. exists roots. split; [exact HR|]. split; [exact HP|]. intros j. reflexivity.
    - assert (Hd : (depth < n)%nat) by lia. unfold lv in H. cbn [levels] in H.
      assert (EC : forall j, ((depth <? miniter)%nat || b_upd b && (depth <? n + j)%nat) = ((depth <? miniter)%nat || b_upd b)).
      { intros j. rewrite (proj2 (Nat.ltb_lt depth (n + j))) by lia. now rewrite andb_true_r. }
      pose proof (EC 0%nat) as EC0. rewrite Nat.add_0_r in EC0. rewrite EC0 in H.
      destruct ((depth <? miniter)%nat || b_upd b) eqn:C.
      + change (BState (b_sols b) (b_cache b) (b_explored b) [] false) with (start_of b) in H.
        destruct (roots_loop 3 dist LG1 LG2 nsol miniter fuel (S depth) source roots (start_of b)) as [y| |] eqn:R; cbn [bind] in H; try discriminate.
        pose proof (roots_fresh (b_sols b) fuel (S depth) source roots _ _ HR (start_linv b (proj1 HP) (proj1 (proj2 HP))) R) as RS.
        destruct y as [[ns b']|b'].
        * injection H as <-. destruct RS as (A1 & A2 & A3 & _). split; [exact A1|]. split; [exact A2|]. split; [exact A3|].
          intros j. unfold lv. cbn [plus levels]. rewrite EC. change (BState (b_sols b) (b_cache b) (b_explored b) [] false) with (start_of b).
          rewrite R. reflexivity.
        * pose proof (linv_pool _ _ RS) as PB.
          specialize (IH (S depth) (b_new b') b' ltac:(lia) (proj2 (proj2 PB)) PB x H).
          assert (U : forall j, lv (n + j) (S k + j) fuel depth source roots b = lv (n + j) (k + j) fuel (S depth) source (b_new b') b').
          { intros j. unfold lv. cbn [plus levels]. rewrite EC. change (BState (b_sols b) (b_cache b) (b_explored b) [] false) with (start_of b).
            rewrite R. reflexivity. }
          destruct x as [[ns|] b''].
          -- destruct IH as (A1 & A2 & A3 & A4). repeat (split; [assumption|]). intros j. now rewrite U.
          -- destruct IH as (rt & A1 & A2 & A3). exists rt. repeat (split; [assumption|]). intros j. now rewrite U.
      + injection H as <-. apply orb_false_iff in C. destruct C as [C1 C2]. exists roots. split; [exact HR|]. split; [exact HP|].
        intros j. unfold lv. destruct j; cbn [plus levels]; rewrite ?Nat.add_0_r; cbn [levels]; rewrite C2; cbn [andb]; rewrite ?orb_false_r, ?C1;
          (destruct (Nat.ltb_spec n miniter); [lia|]); reflexivity.
  Qed.

  (** one more level that changes nothing is the last *)
  Lemma level_stops n fuel source roots b b1 : (miniter <= n)%nat -> Forall (fun nd => coset (elem nd)) roots -> pool b ->
    lv (n + 1) 1 fuel n source roots b = Ok (None, b1) -> fst (b_sols b1) = fst (b_sols b) ->
    forall j, exists b', lv (n + j) j fuel n source roots b = Ok (None, b') /\ fst (b_sols b') = fst (b_sols b).
  Proof.
    intros Hn HR HP H ES j. unfold lv in *. destruct j as [|j].
    { exists b. cbn [levels]. rewrite Nat.add_0_r, Nat.ltb_irrefl, andb_false_r. destruct (Nat.ltb_spec n miniter); [lia|]. auto. }
    cbn [levels] in *. destruct (Nat.ltb_spec n miniter); [lia|]. cbn [orb] in *.
    rewrite (proj2 (Nat.ltb_lt n (n + 1))) in H by lia. rewrite (proj2 (Nat.ltb_lt n (n + S j))) by lia. rewrite andb_true_r in *.
    destruct (b_upd b); [|eauto]. change (BState (b_sols b) (b_cache b) (b_explored b) [] false) with (start_of b) in *.
    destruct (roots_loop 3 dist LG1 LG2 nsol miniter fuel (S n) source roots (start_of b)) as [y| |] eqn:R; cbn [bind] in *; try discriminate.
    pose proof (roots_fresh (b_sols b) fuel (S n) source roots _ _ HR (start_linv b (proj1 HP) (proj1 (proj2 HP))) R) as RS.
    destruct y as [[ns b']|b']; [destruct RS as (_ & _ & _ & X); lia|].
    replace (n + 1)%nat with (S n) in H by lia. rewrite Nat.ltb_irrefl, andb_false_r in H.
    destruct (Nat.ltb_spec (S n) miniter); [lia|]. cbn [orb] in H. injection H as <-.
    destruct RS as ((K & I & F) & _). destruct (b_upd b') eqn:U.
    - exfalso. destruct F as (s & Hs & Hn'). apply Hn'. rewrite ES in Hs. now apply (proj1 HP).
    - exists b'. split; [|exact ES]. destruct j; cbn [levels]; rewrite U; (destruct (Nat.ltb_spec (S n) miniter); [lia|]); reflexivity.
  Qed.

  Definition rs (maxiter : nat) := restarts 3 dist LG1 LG2 nsol miniter maxiter.
  Lemma restarts_stop n fuel : (miniter <= n)%nat -> forall k start s c st st1, coset (elem start) -> keeps s -> sound_cache dist c ->
    rs n k fuel start s c = Ok st -> rs (n + 1) k fuel start s c = Ok st1 -> fst st1 = fst st ->
    forall j, exists st', rs (n + j) k fuel start s c = Ok st' /\ fst st' = fst st.
  Proof.
    intros Hn. induction k as [|k IH]; intros start s c st st1 HC HK CA H H1 ES j; unfold rs in *; cbn [restarts] in *; [discriminate|].
    destruct (dfs dist fuel start c) as [[m c']| |] eqn:D; try discriminate. cbn [bind] in *.
    destruct (dfs_coset dist lo Wlo _ _ _ _ _ HC CA D) as [Cm Sc]. unfold bfs in *.
    destruct (update_solutions dist LG1 LG2 nsol (elem m) s) as [u s'] eqn:EU.
    destruct (update_keeps (elem m) s u s' HK (coset_wf lo Wlo _ Cm) EU) as (K' & _).
    replace (max miniter n) with n in H by lia. replace (max miniter (n + 1)) with (n + 1)%nat in H1 by lia. replace (max miniter (n + j)) with (n + j)%nat by lia.
    set (b0 := BState s' c' [elem m] [] true) in *. assert (P0 : pool b0) by (split; [exact K'|split; [exact Sc|constructor]]).
    assert (R0 : Forall (fun nd => coset (elem nd)) [m]) by (constructor; [exact Cm|constructor]).
    destruct (levels 3 dist LG1 LG2 nsol miniter n n fuel 0 m [m] b0) as [x| |] eqn:L; cbn [bind] in H; try discriminate.
    pose proof (levels_more n fuel m Hn n 0%nat [m] b0 ltac:(lia) R0 P0 x L) as LM. destruct x as [[ns|] b'].
    - destruct LM as (A1 & A2 & A3 & A4). pose proof (A4 1%nat) as E1. pose proof (A4 j) as Ej. unfold lv in E1, Ej. rewrite E1 in H1. rewrite Ej.
      cbn [bind] in *. exact (IH ns (b_sols b') (b_cache b') st st1 A1 A2 A3 H H1 ES j).
    - injection H as <-. destruct LM as (rt & A1 & A2 & A4). pose proof (A4 1%nat) as E1. pose proof (A4 j) as Ej. unfold lv in E1, Ej. rewrite E1 in H1. rewrite Ej.
      destruct (levels 3 dist LG1 LG2 nsol miniter (n + 1) 1 fuel n m rt b') as [[[ns|] b1]| |] eqn:L1; cbn [bind] in H1; try discriminate.
      + exfalso. cbn [levels] in L1. destruct (Nat.ltb_spec n miniter); [lia|]. cbn [orb] in L1.
        destruct (b_upd b' && (n <? n + 1)%nat); [|discriminate]. change (BState (b_sols b') (b_cache b') (b_explored b') [] false) with (start_of b') in L1.
        destruct (roots_loop 3 dist LG1 LG2 nsol miniter fuel (S n) m rt (start_of b')) as [y| |] eqn:R; cbn [bind] in L1; try discriminate.
        pose proof (roots_fresh (b_sols b') fuel (S n) m rt _ _ A1 (start_linv b' (proj1 A2) (proj1 (proj2 A2))) R) as RS.
        destruct y as [[ns' b'']|b'']; [destruct RS as (_ & _ & _ & X); lia|].
        destruct ((S n <? miniter)%nat || b_upd b'' && (S n <? n + 1)%nat); discriminate.
      + injection H1 as <-. destruct (level_stops n fuel m rt b' b1 Hn A1 A2 L1 ES j) as (b2 & L2 & E2). unfold lv in L2. rewrite L2. cbn [bind]. eauto.
  Qed.
  Theorem lat_opt_stops n k fuel sols : (miniter <= n)%nat ->
    lat_opt_core 3 dist LG1 LG2 nsol miniter n k fuel lo = Ok sols -> lat_opt_core 3 dist LG1 LG2 nsol miniter (S n) k fuel lo = Ok sols ->
    forall m, (n <= m)%nat -> lat_opt_core 3 dist LG1 LG2 nsol miniter m k fuel lo = Ok sols.
  Proof.
    intros Hn H H1 m Hm. unfold lat_opt_core in *.
    destruct (restarts 3 dist LG1 LG2 nsol miniter n k fuel (Node lo None None) ([], []) (Some 0, [])) as [st| |] eqn:R; try discriminate. cbn [bind] in H.
    destruct (restarts 3 dist LG1 LG2 nsol miniter (S n) k fuel (Node lo None None) ([], []) (Some 0, [])) as [st1| |] eqn:R1; try discriminate. cbn [bind] in H1.
    replace (S n) with (n + 1)%nat in R1 by lia. replace m with (n + (m - n))%nat by lia.
    destruct (restarts_stop n fuel Hn k (Node lo None None) ([], []) (Some 0, []) st st1 (coset_lo lo Wlo)) with (j := (m - n)%nat) as (st' & R' & E').
    - split; [constructor|]. split; [intros ? ? []|]. split; [intros ? []|reflexivity].
    - intros ? ? [].
    - exact R.
    - exact R1.
    - congruence.
    - unfold rs in R'. rewrite R'. cbn [bind]. congruence.
  Qed.

  (** * The search stops by itself *)
  Hypothesis Hfin : finitely_many_closer dist.
  Lemma update_counts E sols ext u st' : keeps (sols, ext) -> wf 3 3 E -> update_solutions dist LG1 LG2 nsol E (sols, ext) = (u, st') ->
    (length sols <= length (fst st') \/ nsol <= length (fst st'))%nat /\
    (u = true -> (length sols < nsol -> length sols < length (fst st'))%nat /\
                 (forall d, (forall s, In s sols -> (snd s <= d)%R) -> (nsol <= length sols)%nat ->
                    (dist E <= d)%R /\ ~ In E ext /\ In E (snd st') /\ forall s, In s (fst st') -> (snd s <= d)%R)) /\
    (forall d, (forall s, In s sols -> (snd s <= d)%R) -> (nsol <= length sols)%nat -> (forall s, In s (fst st') -> (snd s <= d)%R) /\ (nsol <= length (fst st'))%nat).
  Proof.
    intros (K1 & K2 & K3 & K4) W H. cbn [fst snd] in *. pose proof (self_ext E W) as SE. unfold update_solutions in H.
    destruct sols as [|s0 sols0] eqn:Es.
    - injection H as <- <-. cbn [fst snd length]. split; [left; lia|]. split; [intros _; split; intros; lia|]. intros; lia.
    - rewrite <- Es in *. destruct (mem_mat E ext) eqn:M; [injection H as <- <-; cbn [fst snd]; split; [left; lia|]; split; [discriminate|auto]|].
      assert (Nin : ~ In E ext) by (intros X; apply mem_mat_In in X; congruence).
      pose proof (ins_sorted (E, dist E) sols K1) as SI.
      destruct (insert_sol_ins (E, dist E) sols) as [[EI (t0 & Ht0 & Lt0)]|[EI Hlt]]; rewrite EI in H.
      + injection H as <- <-. cbn [fst snd]. rewrite (truncate_trunc nsol Hnsol) by (auto; lia). pose proof (ins_length (E, dist E) sols) as IL.
        assert (B : forall d, (forall s, In s sols -> (snd s <= d)%R) -> (dist E <= d)%R /\ forall s, In s (trunc nsol (ins (E, dist E) sols)) -> (snd s <= d)%R).
        { intros d Hd. assert (LE : (dist E <= d)%R) by (pose proof (Hd t0 Ht0); cbn in Lt0; lra). split; [exact LE|].
          intros s Hs. apply trunc_incl, ins_in in Hs. destruct Hs as [->|Hs]; [exact LE|auto]. }
        assert (L : (length sols < nsol -> length (trunc nsol (ins (E, dist E) sols)) = S (length sols))%nat /\ (nsol <= length sols -> nsol <= length (trunc nsol (ins (E, dist E) sols)))%nat).
        { split; intros HL.
          - rewrite (trunc_short nsol Hnsol) by (auto; lia). exact IL.
          - destruct (trunc_prefix nsol _ SI) as (rest & Sp & Ht & Hn). destruct (nth_error (ins (E, dist E) sols) (nsol - 1)) as [t|] eqn:Et.
            + destruct (Ht t eq_refl) as (A & _). assert (nsol - 1 < length (trunc nsol (ins (E, dist E) sols)))%nat by (apply nth_error_Some; congruence). lia.
            + apply nth_error_None in Et. lia. }
        destruct L as [L1 L2]. split; [destruct (Nat.lt_ge_cases (length sols) nsol) as [X|X]; [left; rewrite L1 by exact X; lia|right; auto]|].
        split; [|intros d Hd HL; split; [now apply B|auto]]. intros _.
        destruct (Nat.lt_ge_cases (length sols) nsol) as [X|X]; [split; intros; [rewrite L1; lia|lia]|split; [lia|]].
        intros d Hd _. split; [now apply B|]. split; [exact Nin|]. split; [apply in_or_app; now right|now apply B].
      + destruct (Nat.ltb_spec (length sols) nsol) as [Hl|Hl]; injection H as <- <-; cbn [fst snd].
        * rewrite app_length. cbn [length]. split; [left; lia|]. split; [intros _; split; intros; lia|]. intros; lia.
        * split; [left; lia|]. split; [discriminate|auto].
  Qed.

  (** bound on what can still be stored: either few solutions, or finitely many matrices left *)
  Definition left_in (S : list (mat Z)) (ext : list (mat Z)) : nat := length (filter (fun X => negb (mem_mat X ext)) S).
  Lemma left_le S ext ext' : incl ext ext' -> (left_in S ext' <= left_in S ext)%nat.
  Proof.
    intros I. unfold left_in. induction S as [|X S IH]; cbn; [lia|]. destruct (mem_mat X ext) eqn:A, (mem_mat X ext') eqn:B; cbn; try lia.
    apply mem_mat_In in A. assert (In X ext') by auto. apply mem_mat_In in H. congruence.
  Qed.
  Lemma left_lt S ext ext' E : incl ext ext' -> In E S -> ~ In E ext -> In E ext' -> (left_in S ext' < left_in S ext)%nat.
  Proof.
    intros I. unfold left_in. induction S as [|X S IH]; intros HS N H; [destruct HS|]. cbn. pose proof (left_le S ext ext' I) as L. unfold left_in in L.
    destruct HS as [->|HS].
    - assert (A : mem_mat E ext = false) by (destruct (mem_mat E ext) eqn:A; [apply mem_mat_In in A; tauto|reflexivity]).
      apply mem_mat_In in H. rewrite A, H. cbn. lia.
    - specialize (IH HS N H). destruct (mem_mat X ext) eqn:A, (mem_mat X ext') eqn:B; cbn; try lia.
      apply mem_mat_In in A. assert (In X ext') by auto. apply mem_mat_In in H0. congruence.
  Qed.

  (** [P len S d]: how the solutions have moved since the level began *)
  Definition few (st0 st : sol_state) : Prop := (length (fst st0) <= length (fst st) \/ nsol <= length (fst st))%nat.
  Definition bounded (S : list (mat Z)) (d : R) (st : sol_state) : Prop :=
    (nsol <= length (fst st))%nat /\ forall s, In s (fst st) -> (snd s <= d)%R.
  Definition moved (st0 : sol_state) (b : bstate) : Prop :=
    keeps (b_sols b) /\ incl (snd st0) (snd (b_sols b)) /\ few st0 (b_sols b) /\
    (b_upd b = true -> (length (fst st0) < nsol -> length (fst st0) < length (fst (b_sols b)) \/ nsol <= length (fst (b_sols b)))%nat) /\
    forall S d, (forall X, wf 3 3 X -> (dist X <= d)%R -> In X S) -> bounded S d st0 ->
      bounded S d (b_sols b) /\ (b_upd b = true -> (left_in S (snd (b_sols b)) < left_in S (snd st0))%nat).
  Lemma update_moved st0 E b c ex nw u st' : moved st0 b -> wf 3 3 E -> update_solutions dist LG1 LG2 nsol E (b_sols b) = (u, st') ->
    moved st0 (BState st' c ex nw (b_upd b || u)).
  Proof.
    intros (K & I & F & G & B) W H. destruct (update_keeps E (b_sols b) u st' K W H) as (K' & I' & S & N).
    destruct b as [[sols ext] bc be bn bu]. cbn [b_sols b_upd fst snd] in *. destruct (update_counts E sols ext u st' K W H) as (C1 & C2 & C3).
    unfold moved. cbn [b_sols b_upd]. split; [exact K'|]. split; [exact (incl_tran I I')|]. unfold few in *. cbn [fst] in *. split; [|split].
    - destruct C1; [|tauto]. destruct F; [left; lia|]. right. lia.
    - intros U HL. apply orb_true_iff in U. destruct (Nat.lt_ge_cases (length (fst st')) nsol) as [X|X]; [left|now right].
      destruct C1 as [C1|C1]; [|lia]. destruct U as [U|U].
      + destruct (G U HL); lia.
      + destruct (C2 U) as [C4 _]. destruct F as [F|F]; [|lia]. destruct (Nat.lt_ge_cases (length sols) nsol) as [Y|Y]; [specialize (C4 Y)|]; lia.
    - intros T d HT HB. destruct (B T d HT HB) as [[B1 B2] B3]. cbn [fst snd] in *. destruct (C3 d B2 B1) as [C4 C5].
      split; [split; [exact C5|exact C4]|]. intros U. apply orb_true_iff in U. pose proof (left_le T ext (snd st') I') as L1. destruct U as [U|U].
      + specialize (B3 U). lia.
      + pose proof (left_le T _ _ I) as L2. cbn [snd] in L2. destruct (C2 U) as [_ C6]. destruct (C6 d B2 B1) as (D1 & D2 & D3 & _).
        pose proof (left_lt T ext (snd st') E I' (HT E W D1) D2 D3). lia.
  Qed.

  (** below the minimum depth nothing can go wrong *)
  Lemma kids_moved st0 depth source root : (miniter < depth)%nat -> coset (elem root) -> forall is_ b, Forall (fun i => i < 12)%nat is_ -> moved st0 b ->
    exists b', (forall f, kids_loop dist LG1 LG2 nsol miniter f depth source root is_ b = Ok (inr b')) /\ moved st0 b'.
  Proof.
    intros Hd HR. induction is_ as [|i is_ IH]; intros b HF HB.
    - exists b. split; [reflexivity|exact HB].
    - inversion HF as [|? ? Hi HF']; subst. cbn [kids_loop].
      assert (ED : np_dot (elem root) (nth i T_ (eye 3)) = Ok (step_in (elem root) i))
        by (apply np_dot_3; [now apply (coset_wf lo Wlo)|now apply wf_T]).
      rewrite ED. cbn [bind]. pose proof (coset_step lo Wlo (elem root) i HR Hi) as CE. set (E := step_in (elem root) i) in *.
      pose proof (coset_wf lo Wlo _ CE) as WE.
      destruct (mem_mat E (b_explored b)); [exact (IH b HF' HB)|]. cbn zeta. destruct (Nat.leb_spec depth miniter); [lia|].
      cbn [b_cache b_sols b_explored b_new b_upd]. destruct (update_solutions dist LG1 LG2 nsol E (b_sols b)) as [u s'] eqn:EU.
      apply (IH _ HF'). exact (update_moved st0 E b _ _ _ u s' HB WE EU).
  Qed.
  Lemma roots_moved st0 depth source : (miniter < depth)%nat -> forall roots b, Forall (fun nd => coset (elem nd)) roots -> moved st0 b ->
    exists b', (forall f, roots_loop 3 dist LG1 LG2 nsol miniter f depth source roots b = Ok (inr b')) /\ moved st0 b'.
  Proof.
    intros Hd. induction roots as [|r rs IH]; intros b HF HB; [exists b; split; [reflexivity|exact HB]|]. inversion HF as [|? ? Hr HF']; subst. cbn [roots_loop].
    destruct (kids_moved st0 depth source r Hd Hr _ b (child_idx_lt (parent r) (grandpa r)) HB) as (b1 & K1 & M1).
    destruct (IH b1 HF' M1) as (b2 & K2 & M2). exists b2. split; [|exact M2]. intros f. rewrite K1. cbn [bind]. apply K2.
  Qed.
  Lemma start_moved b : keeps (b_sols b) -> moved (b_sols b) (start_of b).
  Proof.
    intros K. split; [exact K|]. split; [apply incl_refl|]. split; [left; apply le_n|]. split; [discriminate|]. intros S d _ HB. split; [exact HB|discriminate].
  Qed.

  Definition settles (source : node) (n : nat) (roots : list node) (b : bstate) : Prop :=
    exists j0 b', forall j f, (j0 <= j)%nat -> lv (n + j) j f n source roots b = Ok (None, b').

  (** the next level, and what follows *)
  Lemma settle_step source n roots b : (miniter <= n)%nat -> Forall (fun nd => coset (elem nd)) roots -> pool b ->
    (forall roots' b', Forall (fun nd => coset (elem nd)) roots' -> pool b' -> moved (b_sols b) b' -> b_upd b' = true -> settles source (S n) roots' b') ->
    settles source n roots b.
  Proof.
    intros Hn HR HP Next. destruct (b_upd b) eqn:U.
    2:{ exists 0%nat, b. intros j f _. unfold lv. destruct j; cbn [levels]; rewrite U; (destruct (Nat.ltb_spec n miniter); [lia|]); reflexivity. }
    destruct (roots_moved (b_sols b) (S n) source ltac:(lia) roots (start_of b) HR (start_moved b (proj1 HP))) as (b1 & R & M).
    pose proof (roots_fresh (b_sols b) 0 (S n) source roots _ _ HR (start_linv b (proj1 HP) (proj1 (proj2 HP))) (R 0%nat)) as RS.
    pose proof (linv_pool _ _ RS) as P1.
    assert (Step : forall j f, lv (n + S j) (S j) f n source roots b = lv (S n + j) j f (S n) source (b_new b1) b1).
    { intros j f. unfold lv. cbn [levels]. rewrite U. destruct (Nat.ltb_spec n miniter); [lia|]. rewrite (proj2 (Nat.ltb_lt n (n + S j))) by lia. cbn [orb andb].
      change (BState (b_sols b) (b_cache b) (b_explored b) [] false) with (start_of b). rewrite R. cbn [bind]. f_equal. lia. }
    assert (ST : settles source (S n) (b_new b1) b1).
    { destruct (b_upd b1) eqn:U1; [exact (Next _ _ (proj2 (proj2 P1)) P1 M U1)|].
      exists 0%nat, b1. intros j f _. unfold lv. destruct j; cbn [levels]; rewrite U1; (destruct (Nat.ltb_spec (S n) miniter); [lia|]); reflexivity. }
    destruct ST as (j0 & b' & HS). exists (S j0), b'. intros [|j] f Hj; [lia|]. rewrite Step. apply HS. lia.
  Qed.
  Lemma settle_full source S d : (forall X, wf 3 3 X -> (dist X <= d)%R -> In X S) -> forall N n roots b, (miniter <= n)%nat ->
    (left_in S (snd (b_sols b)) <= N)%nat -> bounded S d (b_sols b) -> Forall (fun nd => coset (elem nd)) roots -> pool b -> settles source n roots b.
  Proof.
    intros HS. induction N as [|N IH]; intros n roots b Hn HN HB HR HP; apply settle_step; auto; intros roots' b' HR' HP' M U;
      destruct M as (_ & _ & _ & _ & M); destruct (M S d HS HB) as [B1 B2]; specialize (B2 U); [lia|]. apply IH; auto. lia.
  Qed.
  Lemma settle source : forall N n roots b, (miniter <= n)%nat -> (nsol - length (fst (b_sols b)) <= N)%nat ->
    Forall (fun nd => coset (elem nd)) roots -> pool b -> settles source n roots b.
  Proof.
    assert (Full : forall n roots b, (miniter <= n)%nat -> (nsol <= length (fst (b_sols b)))%nat -> Forall (fun nd => coset (elem nd)) roots -> pool b -> settles source n roots b).
    { intros n roots b Hn HL HR HP. destruct (nth_error (fst (b_sols b)) (nsol - 1)) as [t|] eqn:Et; [|apply nth_error_None in Et; lia].
      destruct (Hfin (snd t)) as [S HS]. apply (settle_full source S (snd t) HS _ n roots b Hn (le_n _)); auto.
      split; [exact HL|]. intros s Hs. apply (proj1 (proj2 (proj1 HP)) s t Hs Et). }
    induction N as [|N IH]; intros n roots b Hn HN HR HP; [apply Full; auto; lia|].
    destruct (Nat.lt_ge_cases (length (fst (b_sols b))) nsol) as [L|L]; [|now apply Full].
    apply settle_step; auto. intros roots' b' HR' HP' (_ & _ & _ & G & _) U. destruct (G U L) as [X|X]; [apply IH; auto; lia|apply Full; auto].
  Qed.

  (** * More steps allowed for the loops change nothing *)
  Lemma kids_mono f f' depth source root : (f <= f')%nat -> forall is_ b x,
    kids_loop dist LG1 LG2 nsol miniter f depth source root is_ b = Ok x -> kids_loop dist LG1 LG2 nsol miniter f' depth source root is_ b = Ok x.
  Proof.
    intros Hf. induction is_ as [|i is_ IH]; intros b x H; [exact H|]. cbn [kids_loop] in *.
    destruct (np_dot (elem root) (nth i T_ (eye 3))) as [E| |]; cbn [bind] in *; try discriminate.
    destruct (mem_mat E (b_explored b)); [now apply IH|]. cbn zeta in *. destruct (depth <=? miniter)%nat; cbn [b_cache b_sols b_explored b_new b_upd] in *.
    - destruct (dfs dist f (Node E (Some i) (parent root)) (b_cache b)) as [[m c']| |] eqn:D; cbn [bind] in H; try discriminate.
      rewrite (dfs_mono dist f f' _ _ _ Hf D). cbn [bind]. destruct (Rltb (dist (elem m)) (dist (elem source))); [exact H|].
      destruct (update_solutions dist LG1 LG2 nsol E (b_sols b)). now apply IH.
    - destruct (update_solutions dist LG1 LG2 nsol E (b_sols b)). now apply IH.
  Qed.
  Lemma roots_mono f f' depth source : (f <= f')%nat -> forall roots b x,
    roots_loop 3 dist LG1 LG2 nsol miniter f depth source roots b = Ok x -> roots_loop 3 dist LG1 LG2 nsol miniter f' depth source roots b = Ok x.
  Proof.
    intros Hf. induction roots as [|r rs' IH]; intros b x H; [exact H|]. cbn [roots_loop] in *.
    destruct (kids_loop dist LG1 LG2 nsol miniter f depth source r (child_indices 3 (parent r) (grandpa r)) b) as [y| |] eqn:K; cbn [bind] in H; try discriminate.
    rewrite (kids_mono f f' _ _ _ Hf _ _ _ K). cbn [bind]. destruct y as [n|b']; [exact H|now apply IH].
  Qed.
  Lemma levels_mono maxiter f f' source : (f <= f')%nat -> forall k depth roots b x,
    levels 3 dist LG1 LG2 nsol miniter maxiter k f depth source roots b = Ok x -> levels 3 dist LG1 LG2 nsol miniter maxiter k f' depth source roots b = Ok x.
  Proof.
    intros Hf. induction k as [|k IH]; intros depth roots b x H; cbn [levels] in *;
      destruct ((depth <? miniter)%nat || b_upd b && (depth <? maxiter)%nat); try discriminate; try exact H.
    destruct (roots_loop 3 dist LG1 LG2 nsol miniter f (S depth) source roots _) as [y| |] eqn:R; cbn [bind] in H; try discriminate.
    rewrite (roots_mono f f' _ _ Hf _ _ _ R). cbn [bind]. destruct y as [[ns b']|b']; [exact H|now apply IH].
  Qed.
  Lemma restarts_mono maxiter f f' : (f <= f')%nat -> forall k k' start s c st, (k <= k')%nat ->
    restarts 3 dist LG1 LG2 nsol miniter maxiter k f start s c = Ok st -> restarts 3 dist LG1 LG2 nsol miniter maxiter k' f' start s c = Ok st.
  Proof.
    intros Hf. induction k as [|k IH]; intros [|k'] start s c st Hk H; try discriminate; [lia|]. cbn [restarts] in *.
    destruct (dfs dist f start c) as [[m c']| |] eqn:D; cbn [bind] in H; try discriminate. rewrite (dfs_mono dist f f' _ _ _ Hf D). cbn [bind].
    unfold bfs in *. destruct (update_solutions dist LG1 LG2 nsol (elem m) s) as [u s'].
    destruct (levels 3 dist LG1 LG2 nsol miniter maxiter (max miniter maxiter) f 0 m [m] _) as [y| |] eqn:L; cbn [bind] in H; try discriminate.
    rewrite (levels_mono maxiter f f' m Hf _ _ _ _ _ L). cbn [bind]. destruct y as [[ns|] b]; [apply IH; [lia|exact H]|exact H].
  Qed.

  (** a run with a larger maximum repeats the run with the smaller one, and may go on *)
  Lemma restarts_more n fuel : (miniter <= n)%nat -> forall k start s c st, coset (elem start) -> keeps s -> sound_cache dist c ->
    rs n k fuel start s c = Ok st -> exists source roots b, Forall (fun nd => coset (elem nd)) roots /\ pool b /\ st = b_sols b /\
      forall j b', lv (n + j) j fuel n source roots b = Ok (None, b') -> rs (n + j) k fuel start s c = Ok (b_sols b').
  Proof.
    intros Hn. induction k as [|k IH]; intros start s c st HC HK CA H; unfold rs in *; cbn [restarts] in *; [discriminate|].
    destruct (dfs dist fuel start c) as [[m c']| |] eqn:D; try discriminate. cbn [bind] in *.
    destruct (dfs_coset dist lo Wlo _ _ _ _ _ HC CA D) as [Cm Sc]. unfold bfs in *.
    destruct (update_solutions dist LG1 LG2 nsol (elem m) s) as [u s'] eqn:EU.
    destruct (update_keeps (elem m) s u s' HK (coset_wf lo Wlo _ Cm) EU) as (K' & _).
    replace (max miniter n) with n in H by lia.
    set (b0 := BState s' c' [elem m] [] true) in *. assert (P0 : pool b0) by (split; [exact K'|split; [exact Sc|constructor]]).
    assert (R0 : Forall (fun nd => coset (elem nd)) [m]) by (constructor; [exact Cm|constructor]).
    destruct (levels 3 dist LG1 LG2 nsol miniter n n fuel 0 m [m] b0) as [x| |] eqn:L; cbn [bind] in H; try discriminate.
    pose proof (levels_more n fuel m Hn n 0%nat [m] b0 ltac:(lia) R0 P0 x L) as LM. destruct x as [[ns|] b'].
    - destruct LM as (A1 & A2 & A3 & A4). destruct (IH ns (b_sols b') (b_cache b') st A1 A2 A3 H) as (sr & rt & b & B1 & B2 & B3 & B4).
      exists sr, rt, b. split; [exact B1|]. split; [exact B2|]. split; [exact B3|]. intros j b1 Hj. replace (max miniter (n + j)) with (n + j)%nat by lia.
      pose proof (A4 j) as Ej. unfold lv in Ej. rewrite Ej. cbn [bind]. now apply B4.
    - injection H as <-. destruct LM as (rt & A1 & A2 & A4). exists m, rt, b'. split; [exact A1|]. split; [exact A2|]. split; [reflexivity|].
      intros j b1 Hj. replace (max miniter (n + j)) with (n + j)%nat by lia. pose proof (A4 j) as Ej. unfold lv in Ej, Hj. rewrite Ej, Hj. reflexivity.
  Qed.
  Theorem lat_opt_settles : exists n0 k0 f0 sols, (miniter <= n0)%nat /\ forall n k f, (n0 <= n)%nat -> (k0 <= k)%nat -> (f0 <= f)%nat ->
    lat_opt_core 3 dist LG1 LG2 nsol miniter n k f lo = Ok sols.
  Proof.
    destruct (lat_opt_general dist LG1 LG2 Hfin nsol (fun _ _ => True) I (fun _ _ _ _ _ => I) miniter miniter lo Wlo) as (k0 & f0 & st & Run & _).
    specialize (Run k0 f0 (le_n _) (le_n _)). unfold lat_opt_core in Run.
    destruct (restarts 3 dist LG1 LG2 nsol miniter miniter k0 f0 (Node lo None None) ([], []) (Some 0, [])) as [st1| |] eqn:R; try discriminate.
    destruct (restarts_more miniter f0 (le_n _) k0 (Node lo None None) ([], []) (Some 0, []) st1 (coset_lo lo Wlo)) as (sr & rt & b & B1 & B2 & _ & B4).
    - split; [constructor|]. split; [intros ? ? []|]. split; [intros ? []|reflexivity].
    - intros ? ? [].
    - exact R.
    - destruct (settle sr _ miniter rt b (le_n _) (le_n _) B1 B2) as (j0 & b' & HS).
      exists (miniter + j0)%nat, k0, f0, (fst (b_sols b')). split; [lia|]. intros n k f Hn Hk Hf. unfold lat_opt_core.
      assert (X : rs n k0 f0 (Node lo None None) ([], []) (Some 0, []) = Ok (b_sols b')).
      { replace n with (miniter + (n - miniter))%nat by lia. apply B4. apply HS. lia. }
      unfold rs in X. rewrite (restarts_mono n f0 f Hf k0 k _ _ _ _ Hk X). reflexivity.
  Qed.
End Stop.
