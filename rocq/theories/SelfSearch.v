(** The search of lat_opt on distances that are integer multiples of a unit: a run in integer arithmetic that can be computed (C106). *)
From Verif Require Import LinAlg HnfProofs DirectProofs TreeModel TreeSpec TreeProofs.
Local Open Scope Z_scope.

Section Int.
  Variable dz : mat Z -> Z.
  Variable N : Z.
  Hypothesis HN : 0 < N.
  Variable dist : mat Z -> R.
  Hypothesis Hd : forall E, wf 3 3 E -> dist E = (IZR (dz E) / IZR N)%R.
  Let NR : (0 < IZR N)%R.
  Proof. now apply IZR_lt. Qed.
  Lemma ratio_lt a b : Rltb (IZR a / IZR N) (IZR b / IZR N) = (a <? b).
  Proof.
    destruct (Z.ltb_spec a b) as [H|H].
    - apply Rltb_spec. apply IZR_lt in H. unfold Rdiv. apply Rmult_lt_compat_r; [apply Rinv_0_lt_compat; exact NR|exact H].
    - destruct (Rltb _ _) eqn:C; [|reflexivity]. exfalso. apply Rltb_spec in C. apply IZR_le in H. unfold Rdiv in C.
      apply Rmult_lt_reg_r in C; [lra|]. apply Rinv_0_lt_compat. exact NR.
  Qed.
  Lemma ratio_sub a b : (IZR a / IZR N - IZR b / IZR N)%R = (IZR (a - b) / IZR N)%R.
  Proof. rewrite minus_IZR. field. apply Rgt_not_eq. exact NR. Qed.

  (** [steep_loop] of TreeModel.v (slnode.py:90-102) in integers; the model is TreeModel.v, what follows only mirrors it, and the lemmas
      [.._sim] prove that it does *)
  Fixpoint zsteep (E : mat Z) (i : nat) (ts : list (mat Z)) (dmin : Z) (nb : option nat) : Z * option nat :=
    match ts with
    | [] => (dmin, nb)
    | t :: ts' => let c := dz (mmul E t) - dz E in if c <? dmin then zsteep E (S i) ts' c (Some i) else zsteep E (S i) ts' dmin nb
    end.
  (** [steepest_des], slnode.py:95-103 *)
  Definition znext (E : mat Z) : option (mat Z) :=
    match zsteep E 0 T_ (10000000000 * N) None with
    | (dmin, Some i) => if dmin <? 0 then Some (mmul E (nth i T_ (eye 3))) else None
    | (_, None) => None
    end.
  (** [descend], dfs.py:27-37 *)
  Fixpoint zdescend (fuel : nat) (nd : node) (passed : list node) : option (node * list node) :=
    match fuel with
    | O => None
    | S k => match znext (elem nd) with None => Some (nd, passed) | Some E => let nd' := Node E None None in zdescend k nd' (passed ++ [nd']) end
    end.
  (** [dfs], dfs.py:14-44 *)
  Definition zdfs (fuel : nat) (start : node) (cache : list (mat Z * node)) : option (node * list (mat Z * node)) :=
    match lookup (elem start) cache with
    | Some nd => Some (nd, cache)
    | None => match zdescend fuel start [start] with
              | None => None
              | Some (m, passed) => Some (m, fold_left (fun es nd => (elem nd, m) :: es) passed cache)
              end
    end.
  (** the cache, the matrices explored, the new roots, and every matrix whose solution may have been recorded *)
  Record zs := ZS { z_cache : list (mat Z * node); z_expl : list (mat Z); z_new : list node; z_seen : list (mat Z) }.
  Variables miniter maxiter : nat.
  (** lat_opt.py:197-215 *)
  Fixpoint zkids (fuel depth : nat) (source root : node) (is_ : list nat) (z : zs) : option ((node * zs) + zs) :=
    match is_ with
    | [] => Some (inr z)
    | i :: is' =>
      let E := mmul (elem root) (nth i T_ (eye 3)) in
      if mem_mat E (z_expl z) then zkids fuel depth source root is' z
      else
        let t := Node E (Some i) (parent root) in
        if (depth <=? miniter)%nat then
          match zdfs fuel t (z_cache z) with
          | None => None
          | Some (ns, c') =>
            if dz (elem ns) <? dz (elem source) then Some (inl (ns, ZS c' (E :: z_expl z) (z_new z ++ [t]) (z_seen z)))
            else zkids fuel depth source root is' (ZS c' (E :: z_expl z) (z_new z ++ [t]) (E :: z_seen z))
          end
        else zkids fuel depth source root is' (ZS (z_cache z) (E :: z_expl z) (z_new z ++ [t]) (E :: z_seen z))
    end.
  (** lat_opt.py:191-215 *)
  Fixpoint zroots (fuel depth : nat) (source : node) (roots : list node) (z : zs) : option ((node * zs) + zs) :=
    match roots with
    | [] => Some (inr z)
    | r :: rs =>
      match zkids fuel depth source r (child_indices 3 (parent r) (grandpa r)) z with
      | None => None
      | Some (inl n) => Some (inl n)
      | Some (inr z') => zroots fuel depth source rs z'
      end
    end.
  (** lat_opt.py:186-224 *)
  (** [k] levels; after the first [miniter] of them the search may stop earlier *)
  Fixpoint zlevels (k fuel depth : nat) (source : node) (roots : list node) (z : zs) : option (option node * zs) :=
    match k with
    | O => Some (None, z)
    | S k' =>
      match zroots fuel (S depth) source roots (ZS (z_cache z) (z_expl z) [] (z_seen z)) with
      | None => None
      | Some (inl (ns, z')) => Some (Some ns, z')
      | Some (inr z') => zlevels k' fuel (S depth) source (z_new z') z'
      end
    end.
  (** lat_opt.py:227-236 *)
  Fixpoint zrestarts (k fuel : nat) (start : node) (c : list (mat Z * node)) (seen : list (mat Z)) : option (list (mat Z)) :=
    match k with
    | O => None
    | S k' =>
      match zdfs fuel start c with
      | None => None
      | Some (m, c') =>
        match zlevels (max miniter maxiter) fuel 0 m [m] (ZS c' [elem m] [] (elem m :: seen)) with
        | None => None
        | Some (None, z) => Some (z_seen z)
        | Some (Some ns, z) => zrestarts k' fuel ns (z_cache z) (z_seen z)
        end
      end
    end.

  (** * It runs like the search *)
  Definition okn (nd : node) : Prop := wf 3 3 (elem nd).
  Definition okc (c : list (mat Z * node)) : Prop := Forall (fun e => okn (snd e)) c.
  Lemma wf_T i : wf 3 3 (nth i T_ (eye 3)).
  Proof. do 12 (destruct i as [|i]; [now apply wfb_spec|]). destruct i; now apply wfb_spec. Qed.
  Lemma dotE (E t : mat Z) : wf 3 3 E -> wf 3 3 t -> np_dot E t = Ok (mmul E t).
  Proof. apply np_dot_3. Qed.
  Lemma wfm (E t : mat Z) : wf 3 3 E -> wf 3 3 t -> wf 3 3 (mmul E t).
  Proof. intros. apply (wf_mmul 3 3 3); auto; lia. Qed.

  Lemma steep_sim (E : mat Z) : wf 3 3 E -> forall ts, Forall (wf 3 3) ts -> forall i dm nb,
    steep_loop dist E i ts (IZR dm / IZR N) nb = Ok (IZR (fst (zsteep E i ts dm nb)) / IZR N, snd (zsteep E i ts dm nb))%R.
  Proof.
    intros WE ts HT. induction HT as [|t ts Wt HT IH]; intros i dm nb; cbn [steep_loop zsteep]; [reflexivity|].
    rewrite (dotE E t WE Wt). cbn [bind]. rewrite !Hd, ratio_sub, ratio_lt by auto using wfm. destruct (_ <? dm); apply IH.
  Qed.
  Lemma next_sim nd : okn nd -> steepest_des dist nd = Ok (option_map (fun E => Node E None None) (znext (elem nd))) /\
    (forall E, znext (elem nd) = Some E -> wf 3 3 E).
  Proof.
    intros W. assert (HT : Forall (wf 3 3) T_) by (repeat (apply Forall_cons; [now apply wfb_spec|]); apply Forall_nil).
    unfold steepest_des, znext.
    replace 10000000000%R with (IZR (10000000000 * N) / IZR N)%R by (rewrite mult_IZR; field; apply Rgt_not_eq; exact NR).
    rewrite (steep_sim _ W T_ HT). cbn [bind]. destruct (zsteep _ _ _ _ _) as [dm [i|]]; cbn [fst snd]; [|split; [reflexivity|discriminate]].
    replace 0%R with (IZR 0 / IZR N)%R by (unfold Rdiv; apply Rmult_0_l). rewrite ratio_lt. destruct (dm <? 0); [|split; [reflexivity|discriminate]].
    rewrite (dotE _ _ W (wf_T i)). cbn [bind option_map]. split; [reflexivity|]. intros E [= <-]. apply wfm; [exact W|apply wf_T].
  Qed.
  Lemma descend_sim : forall fuel nd passed m ps, okn nd -> zdescend fuel nd passed = Some (m, ps) -> descend dist fuel nd passed = Ok (m, ps) /\ okn m.
  Proof.
    induction fuel as [|fuel IH]; intros nd passed m ps W H; [discriminate|]. cbn [zdescend descend] in *.
    destruct (next_sim nd W) as [E1 E2]. rewrite E1. cbn [bind]. destruct (znext (elem nd)) as [E|]; cbn [option_map].
    - apply IH; [exact (E2 E eq_refl)|exact H].
    - injection H as <- <-. auto.
  Qed.
  Lemma lookup_ok E c nd : okc c -> lookup E c = Some nd -> okn nd.
  Proof.
    intros H. induction H as [|[K n] c Hn Hc IH]; cbn; [discriminate|]. destruct (mat_eqb E K); [intros [= <-]; exact Hn|exact IH].
  Qed.
  Lemma fold_ok m : okn m -> forall ps c, okc c -> okc (fold_left (fun es nd => (elem nd, m) :: es) ps c).
  Proof. intros Hm. induction ps as [|p ps IH]; intros c Hc; cbn; [exact Hc|]. apply IH. constructor; auto. Qed.
  Lemma dfs_sim fuel start c n m c' : okn start -> okc c -> zdfs fuel start c = Some (m, c') ->
    exists n', dfs dist fuel start (Some n, c) = Ok (m, (Some n', c')) /\ okn m /\ okc c'.
  Proof.
    intros W Hc H. unfold zdfs, dfs in *. cbn [fst snd]. destruct (lookup (elem start) c) as [nd|] eqn:L.
    - injection H as <- <-. exists (n + 1). split; [reflexivity|]. split; [now apply (lookup_ok (elem start) c)|exact Hc].
    - destruct (zdescend fuel start [start]) as [[m' ps]|] eqn:D; [|discriminate]. injection H as <- <-.
      destruct (descend_sim _ _ _ _ _ W D) as [-> Wm]. cbn [bind]. exists n. split; [reflexivity|]. split; [exact Wm|now apply fold_ok].
  Qed.

  Variables LG1 LG2 : list (mat Z).
  Variable nsol : nat.
  (** the solutions kept are matrices that were seen, with their distances *)
  Definition sols_ok (seen : list (mat Z)) (s : sol_state) : Prop :=
    forall L d, In (L, d) (fst s) -> In L seen /\ d = dist L.
  Lemma insert_In s : forall sols r x, insert_sol s sols = Some r -> In x r -> x = s \/ In x sols.
  Proof.
    induction sols as [|t sols IH]; cbn; intros r x H Hx; [discriminate|]. destruct (Rleb _ _).
    - injection H as <-. destruct Hx as [<-|Hx]; auto.
    - destruct (insert_sol s sols) as [r'|]; [|discriminate]. injection H as <-. destruct Hx as [<-|Hx]; [auto|]. destruct (IH r' x eq_refl Hx); auto.
  Qed.
  Lemma removelast_In {A} (x : A) : forall l, In x (removelast l) -> In x l.
  Proof. induction l as [|a l IH]; cbn; [auto|]. destruct l; [intros []|]. intros [<-|H]; auto. Qed.
  Lemma truncate_In x : forall fuel sols, In x (truncate_sols nsol fuel sols) -> In x sols.
  Proof.
    induction fuel as [|fuel IH]; intros sols H; [exact H|]. cbn [truncate_sols] in H. destruct (last _ _); [|exact H]. destruct (nth_error _ _); [|exact H].
    destruct (_ && _); [|exact H]. now apply removelast_In, IH.
  Qed.
  Lemma update_ok E seen s : sols_ok seen s -> sols_ok (E :: seen) (snd (update_solutions dist LG1 LG2 nsol E s)).
  Proof.
    intros H. assert (H' : sols_ok (E :: seen) s) by (intros L d HL; destruct (H L d HL); split; [now right|assumption]).
    destruct s as [sols ext]. unfold update_solutions. destruct sols as [|t sols]; [intros L d [[= <- <-]|[]]; split; [now left|reflexivity]|].
    destruct (mem_mat E ext); [exact H'|]. destruct (insert_sol _ _) as [r|] eqn:I.
    - intros L d HL. cbn [snd fst] in HL. apply truncate_In in HL. destruct (insert_In _ _ _ _ I HL) as [[= -> ->]|HL']; [split; [now left|reflexivity]|now apply H'].
    - destruct (_ <? _)%nat; [|exact H']. intros L d HL. cbn [snd fst] in HL. apply in_app_iff in HL. destruct HL as [HL|[[= <- <-]|[]]]; [now apply H'|]. split; [now left|reflexivity].
  Qed.
  Lemma sols_more E seen s : sols_ok seen s -> sols_ok (E :: seen) s.
  Proof. intros H L d HL. destruct (H L d HL). split; [now right|assumption]. Qed.

  Definition rel (z : zs) (b : bstate) : Prop :=
    (exists n, b_cache b = (Some n, z_cache z)) /\ okc (z_cache z) /\ b_explored b = z_expl z /\ b_new b = z_new z /\ Forall okn (z_new z) /\ sols_ok (z_seen z) (b_sols b).
  Lemma mkrel z b n : b_cache b = (Some n, z_cache z) -> okc (z_cache z) -> b_explored b = z_expl z -> b_new b = z_new z -> Forall okn (z_new z) -> sols_ok (z_seen z) (b_sols b) -> rel z b.
  Proof. intros H1 H2 H3 H4 H5 H6. split; [eauto|]. split; [exact H2|]. split; [exact H3|]. split; [exact H4|]. split; [exact H5|exact H6]. Qed.
  Definition rel2 (z : (node * zs) + zs) (b : (node * bstate) + bstate) : Prop :=
    match z, b with inl (n, z), inl (n', b) => n = n' /\ okn n /\ rel z b | inr z, inr b => rel z b | _, _ => False end.

  Lemma kids_sim fuel depth source root : okn source -> okn root -> forall is_ z b z', rel z b -> zkids fuel depth source root is_ z = Some z' ->
    exists b', kids_loop dist LG1 LG2 nsol miniter fuel depth source root is_ b = Ok b' /\ rel2 z' b'.
  Proof.
    intros Ws Wr. induction is_ as [|i is' IH]; intros z b z' R H; cbn [zkids kids_loop] in *.
    - injection H as <-. exists (inr b). auto.
    - pose proof (wfm _ _ Wr (wf_T i)) as WE. rewrite (dotE _ _ Wr (wf_T i)). cbn [bind]. set (E := mmul (elem root) (nth i T_ (eye 3))) in *.
      destruct R as ((n & R1) & R2 & R3 & R4 & R5 & R6). rewrite R3. destruct (mem_mat E (z_expl z)) eqn:M; [apply (IH z b); [now apply (mkrel z b n)|exact H]|].
      cbv zeta in H |- *. cbn [b_sols b_cache b_explored b_new b_upd].
      assert (Wt : okn (Node E (Some i) (parent root))) by exact WE.
      assert (Hn : Forall okn (z_new z ++ [Node E (Some i) (parent root)])) by (apply Forall_app; auto).
      destruct (depth <=? miniter)%nat.
      + rewrite R1. destruct (zdfs fuel (Node E (Some i) (parent root)) (z_cache z)) as [[ns c']|] eqn:D; [|discriminate].
        destruct (dfs_sim _ _ _ n _ _ Wt R2 D) as (n' & -> & Wn & Oc). cbn [bind]. rewrite !Hd, ratio_lt by assumption.
        destruct (dz (elem ns) <? dz (elem source)).
        * injection H as <-. eexists. split; [reflexivity|]. cbn [rel2]. split; [reflexivity|]. split; [exact Wn|]. apply (mkrel _ _ n'); cbn; auto; now rewrite R4.
        * cbn [b_sols b_cache b_explored b_new b_upd]. pose proof (update_ok E _ _ R6) as U. destruct (update_solutions dist LG1 LG2 nsol E (b_sols b)) as [u s'].
          eapply IH; [|exact H]. apply (mkrel _ _ n'); cbn; auto; now rewrite R4.
      + pose proof (update_ok E _ _ R6) as U. destruct (update_solutions dist LG1 LG2 nsol E (b_sols b)) as [u s'].
        eapply IH; [|exact H]. apply (mkrel _ _ n); cbn; auto; now rewrite R4.
  Qed.
  Lemma roots_sim fuel depth source : okn source -> forall roots z b z', Forall okn roots -> rel z b -> zroots fuel depth source roots z = Some z' ->
    exists b', roots_loop 3 dist LG1 LG2 nsol miniter fuel depth source roots b = Ok b' /\ rel2 z' b'.
  Proof.
    intros Ws. induction roots as [|r rs IH]; intros z b z' HF R H; cbn [zroots roots_loop] in *.
    - injection H as <-. exists (inr b). auto.
    - inversion HF as [|? ? Wr HF']; subst. destruct (zkids _ _ _ _ _ _) as [x|] eqn:K; [|discriminate].
      destruct (kids_sim _ _ _ _ Ws Wr _ _ _ _ R K) as (b' & -> & R'). cbn [bind]. destruct x as [[n z1]|z1], b' as [[n' b1]|b1]; try destruct R' as (E & R'); try contradiction.
      + injection H as <-. exists (inl (n', b1)). split; [reflexivity|]. split; [exact E|exact R'].
      + apply (IH z1); auto. exact (conj E R').
  Qed.
  Lemma kids_late fuel depth source root : (miniter < depth)%nat -> forall is_ z x, zkids fuel depth source root is_ z = Some x ->
    exists z', x = inr z' /\ incl (z_seen z) (z_seen z').
  Proof.
    intros Hlt. induction is_ as [|i is' IH]; intros z x H; cbn [zkids] in H; [injection H as <-; exists z; split; [reflexivity|apply incl_refl]|].
    destruct (mem_mat _ _); [now apply IH|]. cbv zeta in H. replace (depth <=? miniter)%nat with false in H by (symmetry; apply Nat.leb_gt; exact Hlt).
    destruct (IH _ _ H) as (z' & -> & HI). exists z'. split; [reflexivity|]. intros L HL. apply HI. now right.
  Qed.
  Lemma roots_late fuel depth source : (miniter < depth)%nat -> forall roots z x, zroots fuel depth source roots z = Some x ->
    exists z', x = inr z' /\ incl (z_seen z) (z_seen z').
  Proof.
    intros Hlt. induction roots as [|r rs IH]; intros z x H; cbn [zroots] in H; [injection H as <-; exists z; split; [reflexivity|apply incl_refl]|].
    destruct (zkids _ _ _ _ _ _) as [y|] eqn:K; [|discriminate]. destruct (kids_late _ _ _ _ Hlt _ _ _ K) as (z1 & -> & H1).
    destruct (IH _ _ H) as (z2 & -> & H2). exists z2. split; [reflexivity|]. intros L HL. auto.
  Qed.
  Lemma levels_late fuel source : forall k depth roots z o z', (miniter <= depth)%nat -> zlevels k fuel depth source roots z = Some (o, z') ->
    o = None /\ incl (z_seen z) (z_seen z').
  Proof.
    induction k as [|k IH]; intros depth roots z o z' Hle H; cbn [zlevels] in H; [injection H as <- <-; split; [reflexivity|apply incl_refl]|].
    destruct (zroots _ _ _ _ _) as [y|] eqn:K; [|discriminate]. destruct (roots_late fuel (S depth) source ltac:(lia) _ _ _ K) as (z1 & -> & H1).
    destruct (IH (S depth) _ _ _ _ ltac:(lia) H) as [-> H2]. split; [reflexivity|]. intros L HL. apply H2, H1. exact HL.
  Qed.
  Lemma levels_sim fuel source : okn source -> forall k depth roots z b o z', (depth + k = max miniter maxiter)%nat -> Forall okn roots -> rel z b -> zlevels k fuel depth source roots z = Some (o, z') ->
    exists b' z'', levels 3 dist LG1 LG2 nsol miniter maxiter k fuel depth source roots b = Ok (o, b') /\ rel z'' b' /\ incl (z_seen z'') (z_seen z') /\
      (forall n, o = Some n -> okn n /\ z'' = z').
  Proof.
    intros Ws. induction k as [|k IH]; intros depth roots z b o z' Hk HF R H; cbn [levels].
    - cbn [zlevels] in H. injection H as <- <-. replace (depth <? miniter)%nat with false by (symmetry; apply Nat.ltb_ge; lia). replace (depth <? maxiter)%nat with false by (symmetry; apply Nat.ltb_ge; lia).
      rewrite Bool.andb_false_r. exists b, z. split; [reflexivity|]. split; [exact R|]. split; [apply incl_refl|discriminate].
    - destruct ((depth <? miniter)%nat || (b_upd b && (depth <? maxiter)%nat)) eqn:C.
      + cbn [zlevels] in H. destruct R as ((n & R1) & R2 & R3 & R4 & R5 & R6).
        assert (R' : rel (ZS (z_cache z) (z_expl z) [] (z_seen z)) (BState (b_sols b) (b_cache b) (b_explored b) [] false)) by (apply (mkrel _ _ n); cbn; auto).
        destruct (zroots _ _ _ _ _) as [x|] eqn:K; [|discriminate]. destruct (roots_sim _ _ _ Ws _ _ _ _ HF R' K) as (b' & -> & R''). cbn [bind].
        destruct x as [[n1 z1]|z1], b' as [[n2 b1]|b1]; try contradiction.
        * destruct R'' as (-> & Wn & R''). injection H as <- <-. exists b1, z1. split; [reflexivity|]. split; [exact R''|]. split; [apply incl_refl|]. now intros ? [= <-].
        * cbn [rel2] in R''. pose proof R'' as (_ & _ & _ & E4 & F & _). rewrite E4. apply (IH (S depth) _ z1); auto. lia.
      + apply Bool.orb_false_iff in C. destruct C as [C _]. apply Nat.ltb_ge in C. destruct (levels_late _ _ _ _ _ _ _ _ C H) as [-> HI].
        exists b, z. split; [reflexivity|]. split; [exact R|]. split; [exact HI|discriminate].
  Qed.
  Lemma restarts_sim fuel : forall k start c n seen s seen', okn start -> okc c -> sols_ok seen s -> zrestarts k fuel start c seen = Some seen' ->
    exists s', restarts 3 dist LG1 LG2 nsol miniter maxiter k fuel start s (Some n, c) = Ok s' /\ sols_ok seen' s'.
  Proof.
    induction k as [|k IH]; intros start c n seen s seen' Ws Hc HS H; [discriminate|]. cbn [zrestarts restarts] in *.
    destruct (zdfs fuel start c) as [[m c']|] eqn:D; [|discriminate]. destruct (dfs_sim _ _ _ n _ _ Ws Hc D) as (n' & -> & Wm & Oc). cbn [bind].
    unfold bfs. pose proof (update_ok (elem m) _ _ HS) as U. destruct (update_solutions dist LG1 LG2 nsol (elem m) s) as [u s1]. cbn [snd] in U.
    destruct (zlevels _ _ _ _ _ _) as [[o z]|] eqn:K; [|discriminate].
    assert (R0 : rel (ZS c' [elem m] [] (elem m :: seen)) (BState s1 (Some n', c') [elem m] [] true)) by (apply (mkrel _ _ n'); cbn; auto).
    destruct (levels_sim fuel m Wm (max miniter maxiter) 0 [m] _ _ o z (Nat.add_0_l _) (Forall_cons _ Wm (Forall_nil _)) R0 K) as (b & z' & -> & R & HI & Ho).
    cbn [bind]. destruct R as ((n2 & R1) & R2 & _ & _ & _ & R6). destruct o as [ns|].
    - destruct (Ho ns eq_refl) as [Wn ->]. rewrite R1. apply (IH _ _ _ (z_seen z)); auto.
    - injection H as <-. eexists. split; [reflexivity|]. intros L d HL. destruct (R6 L d HL). auto.
  Qed.
  Lemma core_sim k fuel lo seen : wf 3 3 lo -> zrestarts k fuel (Node lo None None) [] [] = Some seen ->
    exists sols, lat_opt_core 3 dist LG1 LG2 nsol miniter maxiter k fuel lo = Ok sols /\ forall L d, In (L, d) sols -> In L seen /\ d = dist L.
  Proof.
    intros W H. unfold lat_opt_core. destruct (restarts_sim fuel k (Node lo None None) [] 0 [] ([], []) seen W (Forall_nil _) ltac:(intros ? ? []) H) as (s & -> & HS).
    cbn [bind]. eauto.
  Qed.
End Int.
