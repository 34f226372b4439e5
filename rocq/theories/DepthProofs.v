(** How deep the breadth first search of lat_opt goes (C100). *)
From Verif Require Import LinAlg ReduceProofs TreeSpec TreeProofs TreeDfs TreeSols TreeLatOpt LatCorTree DepthSpec.
Local Open Scope Z_scope.

Lemma within_le E d d' E' : within E d E' -> (d <= d')%nat -> within E d' E'.
Proof.
  intros H. revert d'. induction H as [d|d X E' H IH N]; intros d' L; [constructor|]. destruct d' as [|d']; [lia|].
  apply (within_step _ _ X); [apply IH; lia|exact N].
Qed.

Section Depth.
  Variable dist : mat Z -> R.
  Variables LG1 LG2 : list (mat Z).
  Variable nsol : nat.
  Variables miniter maxiter : nat.
  Variable lo : mat Z.
  Hypothesis Wlo : wf 3 3 lo.
  Notation coset := (coset lo).
  Let D := max miniter maxiter.

  (** E is at most D shears away from a local minimum *)
  Definition shallow (E : mat Z) : Prop := exists m, coset m /\ local_min dist m /\ within m D E.
  Definition oks (sols : list (mat Z * R)) : Prop := Forall (fun s => shallow (fst s)) sols.

  Lemma update_shallow E st : oks (fst st) -> shallow E -> oks (fst (snd (update_solutions dist LG1 LG2 nsol E st))).
  Proof.
    destruct st as [sols ext]. intros HF HC. unfold update_solutions.
    destruct sols as [|s sols]; [cbn; constructor; [exact HC|constructor]|].
    destruct (mem_mat E ext); [assumption|]. remember (s :: sols) as l.
    destruct (insert_sol (E, dist E) l) as [r|] eqn:I.
    - cbn [snd fst]. destruct (truncate_prefix nsol (length r) r) as [tl H].
      pose proof (insert_forall _ _ _ _ I HF HC) as RF. rewrite H in RF. now apply Forall_app in RF.
    - destruct (length l <? nsol)%nat; [|assumption]. cbn [snd fst]. apply Forall_app. split; [exact HF|constructor; [exact HC|constructor]].
  Qed.

  Section From.
    Variable source : node.
    Hypothesis Cs : coset (elem source).
    Hypothesis Ms : local_min dist (elem source).
    Definition at_depth (d : nat) (nd : node) : Prop := coset (elem nd) /\ within (elem source) d (elem nd).
    Definition inv' (d : nat) (b : bstate) : Prop :=
      oks (fst (b_sols b)) /\ sound_cache dist (b_cache b) /\ Forall (at_depth d) (b_new b).
    Definition stop' (ns : node) (b : bstate) : Prop :=
      coset (elem ns) /\ oks (fst (b_sols b)) /\ sound_cache dist (b_cache b).

    Lemma step_neighbour E i : (i < 12)%nat -> neighbour E (step_in E i).
    Proof. intros Hi. destruct (T_shear i Hi) as (a & b & s & Ha & Hb & Hab & Hs & E0). exists a, b, s. unfold step_in. rewrite E0. auto 10. Qed.

    Lemma kids_depth fuel depth root : (S depth <= D)%nat -> at_depth depth root -> forall is_ b x, Forall (fun i => i < 12)%nat is_ -> inv' (S depth) b ->
      kids_loop dist LG1 LG2 nsol miniter fuel (S depth) source root is_ b = Ok x ->
      match x with inl (ns, b') => stop' ns b' | inr b' => inv' (S depth) b' end.
    Proof.
      intros HD [HR WR]. induction is_ as [|i is_ IH]; intros b x HF HB H.
      - cbn in H. injection H as <-. exact HB.
      - inversion HF as [|? ? Hi HF']; subst. cbn [kids_loop] in H.
        assert (ED : np_dot (elem root) (nth i T_ (eye 3)) = Ok (step_in (elem root) i))
          by (apply np_dot_3; [now apply (coset_wf lo Wlo)|now apply wf_T]).
        rewrite ED in H. cbn [bind] in H. pose proof (coset_step lo Wlo (elem root) i HR Hi) as CE.
        pose proof (within_step _ _ _ _ WR (step_neighbour (elem root) i Hi)) as WE. set (E := step_in (elem root) i) in *.
        assert (SE : shallow E) by (exists (elem source); split; [exact Cs|split; [exact Ms|exact (within_le _ _ _ _ WE HD)]]).
        destruct (mem_mat E (b_explored b)); [exact (IH b x HF' HB H)|]. destruct HB as (OK & CA & NW). cbn zeta in H.
        assert (NW' : Forall (at_depth (S depth)) (b_new b ++ [Node E (Some i) (parent root)])).
        { apply Forall_app. split; [exact NW|]. constructor; [split; [exact CE|exact WE]|constructor]. }
        destruct (S depth <=? miniter)%nat.
        + cbn [b_cache b_sols b_explored b_new b_upd] in H.
          destruct (dfs dist fuel (Node E (Some i) (parent root)) (b_cache b)) as [[m c']| |] eqn:DD; cbn [bind] in H; try discriminate.
          destruct (dfs_coset dist lo Wlo fuel (Node E (Some i) (parent root)) (b_cache b) m c' CE CA DD) as [Cm Sc].
          destruct (Rltb (dist (elem m)) (dist (elem source))).
          * injection H as <-. split; [exact Cm|]. split; [exact OK|exact Sc].
          * pose proof (update_shallow E (b_sols b) OK SE) as U.
            destruct (update_solutions dist LG1 LG2 nsol E (b_sols b)) as [u s'] eqn:EU. cbn [snd] in U.
            refine (IH _ x HF' _ H). split; [exact U|]. split; [exact Sc|exact NW'].
        + cbn [b_cache b_sols b_explored b_new b_upd] in H. pose proof (update_shallow E (b_sols b) OK SE) as U.
          destruct (update_solutions dist LG1 LG2 nsol E (b_sols b)) as [u s'] eqn:EU. cbn [snd] in U.
          refine (IH _ x HF' _ H). split; [exact U|]. split; [exact CA|exact NW'].
    Qed.
    Lemma roots_depth fuel depth : (S depth <= D)%nat -> forall roots b x, Forall (at_depth depth) roots -> inv' (S depth) b ->
      roots_loop 3 dist LG1 LG2 nsol miniter fuel (S depth) source roots b = Ok x ->
      match x with inl (ns, b') => stop' ns b' | inr b' => inv' (S depth) b' end.
    Proof.
      intros HD. induction roots as [|r rs IH]; intros b x HF HB H; cbn [roots_loop] in H; [injection H as <-; exact HB|]. inversion HF as [|? ? Hr HF']; subst.
      destruct (kids_loop dist LG1 LG2 nsol miniter fuel (S depth) source r (child_indices 3 (parent r) (grandpa r)) b) as [y| |] eqn:K; try discriminate.
      pose proof (kids_depth fuel depth r HD Hr _ _ _ (child_idx_lt (parent r) (grandpa r)) HB K) as KS.
      cbn [bind] in H. destruct y as [[ns b']|b']; [injection H as <-; exact KS|exact (IH b' x HF' KS H)].
    Qed.
    Lemma levels_depth fuel : forall k depth roots b x, Forall (at_depth depth) roots -> inv' depth b ->
      levels 3 dist LG1 LG2 nsol miniter maxiter k fuel depth source roots b = Ok x ->
      match x with (Some ns, b') => stop' ns b' | (None, b') => oks (fst (b_sols b')) /\ sound_cache dist (b_cache b') end.
    Proof.
      induction k as [|k IH]; intros depth roots b x HF HB H; cbn [levels] in H;
        destruct ((depth <? miniter)%nat || b_upd b && (depth <? maxiter)%nat) eqn:C; try discriminate;
        try (injection H as <-; split; apply HB).
      assert (HD : (S depth <= D)%nat).
      { apply orb_true_iff in C. rewrite andb_true_iff, !Nat.ltb_lt in C. unfold D. lia. }
      destruct (roots_loop 3 dist LG1 LG2 nsol miniter fuel (S depth) source roots _) as [y| |] eqn:R; try discriminate. cbn [bind] in H.
      assert (HB' : inv' (S depth) (BState (b_sols b) (b_cache b) (b_explored b) [] false)) by (split; [apply HB|split; [apply HB|constructor]]).
      pose proof (roots_depth _ _ HD _ _ _ HF HB' R) as RS.
      destruct y as [[ns b']|b']; [injection H as <-; exact RS|]. refine (IH _ _ b' x _ RS H). apply RS.
    Qed.
    Lemma bfs_depth fuel s c x : oks (fst s) -> sound_cache dist c ->
      bfs 3 dist LG1 LG2 nsol miniter maxiter fuel source s c = Ok x ->
      match x with (Some ns, b') => stop' ns b' | (None, b') => oks (fst (b_sols b')) /\ sound_cache dist (b_cache b') end.
    Proof.
      intros OK CA H. unfold bfs in H.
      assert (S0 : shallow (elem source)) by (exists (elem source); split; [exact Cs|split; [exact Ms|constructor]]).
      pose proof (update_shallow (elem source) s OK S0) as U.
      destruct (update_solutions dist LG1 LG2 nsol (elem source) s) as [u s']. cbn [snd] in U.
      refine (levels_depth _ _ _ _ _ _ _ _ H); [constructor; [split; [exact Cs|constructor]|constructor]|].
      split; [exact U|]. split; [exact CA|constructor].
    Qed.
  End From.

  Lemma restarts_depth fuel : forall k start s c st, coset (elem start) -> oks (fst s) -> sound_cache dist c ->
    restarts 3 dist LG1 LG2 nsol miniter maxiter k fuel start s c = Ok st -> oks (fst st).
  Proof.
    induction k as [|k IH]; intros start s c st HC OK CA H; cbn [restarts] in H; [discriminate|].
    destruct (dfs dist fuel start c) as [[m c']| |] eqn:DD; try discriminate. cbn [bind] in H.
    destruct (dfs_coset dist lo Wlo _ _ _ _ _ HC CA DD) as [Cm Sc].
    destruct (dfs_sound dist fuel start c m c' (coset_wf lo Wlo _ HC) CA DD) as (G & _ & _). destruct (goes_le dist _ _ G) as [_ Mm].
    destruct (bfs 3 dist LG1 LG2 nsol miniter maxiter fuel m s c') as [x| |] eqn:B; try discriminate. cbn [bind] in H.
    pose proof (bfs_depth m Cm Mm _ _ _ _ OK Sc B) as BS. destruct x as [[ns|] b].
    - destruct BS as (B1 & B2 & B3). exact (IH _ _ _ _ B1 B2 B3 H).
    - injection H as <-. apply BS.
  Qed.
  Theorem lat_opt_depth k fuel sols : lat_opt_core 3 dist LG1 LG2 nsol miniter maxiter k fuel lo = Ok sols -> oks sols.
  Proof.
    intros H. unfold lat_opt_core in H.
    destruct (restarts 3 dist LG1 LG2 nsol miniter maxiter k fuel (Node lo None None) ([], []) (Some 0, [])) as [st| |] eqn:R; try discriminate.
    injection H as <-. refine (restarts_depth _ _ _ _ _ _ _ _ _ R).
    - exact (coset_lo lo Wlo).
    - constructor.
    - intros ? ? [].
  Qed.
End Depth.

(** maxiter below miniter changes nothing *)
Section Small.
  Variable dim : nat.
  Variable dist : mat Z -> R.
  Variables LG1 LG2 : list (mat Z).
  Variables nsol miniter a b : nat.
  Hypothesis Ha : (a <= miniter)%nat.
  Hypothesis Hb : (b <= miniter)%nat.
  Lemma small_levels fuel source : forall k depth roots s,
    levels dim dist LG1 LG2 nsol miniter a k fuel depth source roots s = levels dim dist LG1 LG2 nsol miniter b k fuel depth source roots s.
  Proof.
    induction k as [|k IH]; intros depth roots s; cbn [levels];
      (replace ((depth <? miniter)%nat || b_upd s && (depth <? a)%nat) with ((depth <? miniter)%nat || b_upd s && (depth <? b)%nat);
       [|destruct (Nat.ltb_spec depth miniter); [reflexivity|]; cbn [orb]; destruct (Nat.ltb_spec depth a), (Nat.ltb_spec depth b); try lia; reflexivity]);
      destruct ((depth <? miniter)%nat || b_upd s && (depth <? b)%nat); try reflexivity.
    destruct (roots_loop dim dist LG1 LG2 nsol miniter fuel (S depth) source roots _) as [[[ns b']|b']| |]; cbn [bind]; auto.
  Qed.
  Lemma small_restarts fuel : forall k start s c,
    restarts dim dist LG1 LG2 nsol miniter a k fuel start s c = restarts dim dist LG1 LG2 nsol miniter b k fuel start s c.
  Proof.
    induction k as [|k IH]; intros start s c; cbn [restarts]; [reflexivity|].
    destruct (dfs dist fuel start c) as [[m c']| |]; cbn [bind]; try reflexivity. unfold bfs.
    destruct (update_solutions dist LG1 LG2 nsol (elem m) s) as [u s'].
    replace (max miniter a) with (max miniter b) by lia. rewrite small_levels.
    destruct (levels dim dist LG1 LG2 nsol miniter b _ fuel 0 m [m] _) as [[[ns|] b']| |]; cbn [bind]; auto.
  Qed.
  Lemma small_maxiter k fuel lo :
    lat_opt_core dim dist LG1 LG2 nsol miniter a k fuel lo = lat_opt_core dim dist LG1 LG2 nsol miniter b k fuel lo.
  Proof. unfold lat_opt_core. now rewrite small_restarts. Qed.
End Small.
