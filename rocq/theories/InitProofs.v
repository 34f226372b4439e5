(** When the random initialisation of the direct search can end, and when it cannot (C90, C91). *)
From Coq Require Import Lia Sorted.
From Verif Require Import Ord Flat LinAlg DirectModel DirectSpec HnfModel HnfSpec DirectProofs.
Local Open Scope Z_scope.

(** the matrices that np.random.random_integers(-1, 1, (n, n)) can return *)
Definition shift_of (n : nat) (s : mat Z) : Prop := wf n n s /\ forall r x, In r s -> In x r -> -1 <= x <= 1.

(** all flat lists of k entries in -1..1 *)
Fixpoint cube (k : nat) : list (list Z) :=
  match k with O => [[]] | S k => flat_map (fun l => [-1 :: l; 0 :: l; 1 :: l]) (cube k) end.
Lemma cube_len k : length (cube k) = (3 ^ k)%nat.
Proof.
  assert (X : forall A B (f : A -> list B) c l, (forall x, length (f x) = c) -> length (flat_map f l) = (c * length l)%nat).
  { intros A B f c l H. induction l as [|x l IH]; cbn; [lia|]. rewrite app_length, H, IH. lia. }
  induction k as [|k IH]; [reflexivity|]. cbn [cube]. rewrite (X _ _ _ 3%nat) by reflexivity. rewrite IH. reflexivity.
Qed.
Lemma in_cube l : (forall x, In x l -> -1 <= x <= 1) -> In l (cube (length l)).
Proof.
  induction l as [|x l IH]; intros H; [now left|]. cbn [length cube]. apply in_flat_map. exists l.
  split; [apply IH; intros; apply H; now right|]. specialize (H x (or_introl eq_refl)).
  assert (x = -1 \/ x = 0 \/ x = 1) as [->|[->| ->]] by lia; cbn; auto.
Qed.

Section Init.
  Context {D : Type} {T : TotalOrder D}.
  Variable n : nat.
  Variables LG_A LG_M : list (mat Z).
  Variable dist : list Z -> D.
  Variable nsol : nat.
  Hypothesis Hd : dim23 n.
  Hypothesis HA : matrix_group n LG_A.
  Hypothesis HM : matrix_group n LG_M.
  Hypothesis Hdist : forall l l', length l = (n * n)%nat -> length l' = (n * n)%nat ->
    equivalent n LG_A LG_M l l' -> dist l = dist l'.
  Hypothesis Hnsol : (1 <= nsol)%nat.
  Variable volok : Z -> bool.
  Hypothesis Hvol : volok 0 = false.
  Variable L0 : mat Z.
  Hypothesis HL0 : wf n n L0.
  Notation equiv := (equivalent n LG_A LG_M).
  Notation hist := (history n LG_A LG_M dist nsol).
  Notation iloop := (init_loop n LG_A LG_M dist nsol volok L0).

  Definition candidate (l : list Z) : Prop :=
    exists s, shift_of n s /\ l = flatten (madd L0 s) /\ volok (det (madd L0 s)) = true.

  Lemma cand_len l : candidate l -> length l = (n * n)%nat.
  Proof. intros (s & [W _] & -> & _). apply length_flatten, wf_madd; auto. Qed.
  Lemma cand_ns l : candidate l -> nonsingular n l.
  Proof.
    intros (s & [W _] & -> & V). unfold nonsingular. rewrite reshape_flatten by (apply wf_madd; auto).
    intros Z. rewrite Z in V. congruence.
  Qed.

  (** no admissible matrix: the first draw never ends *)
  Lemma draw_none stream ext : Forall (shift_of n) stream -> (forall l, ~ candidate l) -> draw volok L0 stream ext = NoFuel.
  Proof.
    induction 1 as [|s stream Hs Hf IH]; intros H; [reflexivity|]. cbn.
    destruct (volok (det (madd L0 s))) eqn:E.
    - exfalso. apply (H (flatten (madd L0 s))). exists s. auto.
    - rewrite orb_true_r. apply IH. exact H.
  Qed.
  Lemma init_none k stream : Forall (shift_of n) stream -> (forall l, ~ candidate l) -> (1 <= k)%nat ->
    iloop k stream ([], [], None) = NoFuel.
  Proof. intros Hs H Hk. destruct k as [|k]; [lia|]. cbn. now rewrite draw_none. Qed.

  (** all candidates, as a list *)
  Definition all_cands : list (list Z) := map (fun l => flatten (madd L0 (reshape n l))) (cube (n * n)).
  Lemma cand_in l : candidate l -> In l all_cands.
  Proof.
    intros (s & [W B] & -> & _). unfold all_cands. apply in_map_iff. exists (flatten s).
    rewrite reshape_flatten by exact W. split; [reflexivity|]. rewrite <- (length_flatten n n s W). apply in_cube.
    intros x Hx. unfold flatten in Hx. apply in_concat in Hx. destruct Hx as (r & Hr & Hx). eauto.
  Qed.
  Lemma all_len : length all_cands = (3 ^ (n * n))%nat.
  Proof. unfold all_cands. now rewrite map_length, cube_len. Qed.

  Lemma kept_nodup seen sols ext dmax : hist seen (sols, ext, dmax) -> NoDup (map fst sols).
  Proof.
    intros H. destruct (history_inv n LG_A LG_M dist nsol Hd HA HM Hdist Hnsol _ _ H) as ((_ & C2 & _) & _).
    clear H. induction C2 as [|a l Ha Hl IH]; cbn; constructor; [|exact IH].
    intros X. apply in_map_iff in X. destruct X as (b & Eb & Hb). rewrite Forall_forall in Ha.
    apply (Ha b Hb). rewrite Eb. now apply equiv_refl.
  Qed.

  (** more solutions asked for than there are candidates: the initialisation never ends *)
  Lemma too_many : (3 ^ (n * n) <= nsol)%nat -> forall k stream seen sols ext dmax st',
    Forall (shift_of n) stream -> hist seen (sols, ext, dmax) -> (forall l, In l seen -> candidate l) ->
    (length sols <= nsol)%nat -> (nsol < length sols + k)%nat ->
    iloop k stream (sols, ext, dmax) <> Ok st'.
  Proof.
    intros Hbig. induction k as [|k IH]; intros stream seen sols ext dmax st' Hst HI Hc Hl Hk E; [lia|].
    cbn in E.
    assert (Hst' : Forall (wf n n) stream) by (eapply Forall_impl; [|exact Hst]; intros a [W _]; exact W).
    destruct (draw_ok n volok L0 stream ext Hst') as [X|(sh & l & stream' & X & H1 & H2 & H3 & H4 & H5)];
      rewrite X in E; [discriminate|]. cbn [bind] in E.
    destruct (history_inv n LG_A LG_M dist nsol Hd HA HM Hdist Hnsol _ _ HI) as (HC & HT & HD).
    assert (Cl : candidate l) by (exists sh; split; [rewrite Forall_forall in Hst; auto|auto]).
    pose proof (cand_len l Cl) as Ll. pose proof (cand_ns l Cl) as Nl.
    assert (ND : NoDup (l :: map fst sols)).
    { constructor; [|eapply kept_nodup; exact HI]. intros Y. apply H4.
      destruct HC as (_ & _ & _ & C4 & _). apply C4; auto. apply in_map_iff in Y. destruct Y as (s & Es & Hs).
      exists s. split; [exact Hs|]. rewrite Es. now apply equiv_refl. }
    assert (LE : (length (l :: map fst sols) <= length all_cands)%nat).
    { apply NoDup_incl_length; [exact ND|]. intros x [<-|Hx]; apply cand_in; [exact Cl|].
      apply in_map_iff in Hx. destruct Hx as (s & <- & Hs). apply Hc.
      destruct HC as (_ & _ & C3 & _). now apply C3. }
    rewrite all_len in LE. cbn [length] in LE. rewrite map_length in LE.
    destruct (add_sol_ok n LG_A LG_M dist nsol Hd HA HM Hdist Hnsol seen sols ext l HC HT Ll (or_introl Nl))
        as (s1 & e1 & d1 & E1 & HC1 & HT1 & HL1 & HM1 & HM2 & _).
    rewrite E1 in E. cbn [bind] in E. specialize (HM2 Nl H4 ltac:(lia)).
    refine (IH stream' (l :: seen) s1 e1 (Some d1) st' _ _ _ _ _ E).
    - rewrite Forall_forall in *. auto.
    - exact (h_add n LG_A LG_M dist nsol seen sols ext dmax l s1 e1 d1 HI Ll Nl E1).
    - intros x [<-|Hx]; auto.
    - lia.
    - lia.
  Qed.

  (** a candidate is always free when there are nsol inequivalent candidates and a farther one *)
  Variable cs : list (list Z).
  Variable far : list Z.
  Hypothesis Hcs : forall c, In c cs -> candidate c /\ dlt (dist c) (dist far) = true.
  Hypothesis Hfar : candidate far.
  Hypothesis Hlen : length cs = nsol.
  Hypothesis Hap : ForallOrdPairs (fun a b => ~ equiv a b) cs.

  Lemma pick sols l : ForallOrdPairs (fun a b => ~ equiv a b) l -> (forall c, In c l -> exists s, In s sols /\ equiv c (fst s)) ->
    exists r : list (list Z * D), length r = length l /\ NoDup r /\ forall s, In s r -> In s sols /\ exists c, In c l /\ equiv c (fst s).
  Proof.
    induction 1 as [|a l Ha Hl IH]; intros H.
    - exists []. split; [reflexivity|]. split; [constructor|]. intros s [].
    - destruct IH as (r & R1 & R2 & R3); [intros; apply H; now right|].
      destruct (H a (or_introl eq_refl)) as (s & Hs & Es).
      exists (s :: r). split; [cbn; lia|]. split.
      + constructor; [|exact R2]. intros X. destruct (R3 s X) as (_ & c & Hc & Ec). rewrite Forall_forall in Ha.
        apply (Ha c Hc). apply (equiv_trans n LG_A LG_M Hd HA HM a (fst s)); [exact Es|]. apply equiv_sym; auto.
      + intros t [<-|Ht]; [split; [exact Hs|]; exists a; split; [now left|exact Es]|].
        destruct (R3 t Ht) as (X & c & Hc & Ec). split; [exact X|]. exists c. split; [now right|exact Ec].
  Qed.

  Lemma list_dec (l l' : list Z) : {l = l'} + {l <> l'}.
  Proof. apply list_eq_dec, Z.eq_dec. Qed.

  Lemma some_free seen sols ext dmax : hist seen (sols, ext, dmax) -> exists c, candidate c /\ ~ In c ext.
  Proof.
    intros H. destruct (history_inv n LG_A LG_M dist nsol Hd HA HM Hdist Hnsol _ _ H) as (HC & HT & _).
    destruct HC as (C1 & C2 & C3 & C4 & _).
    destruct (in_dec list_dec far ext) as [F|F]; [|eauto].
    destruct (Forall_Exists_dec (fun c => In c ext) (fun c => in_dec list_dec c ext) cs) as [A|A].
    2: { apply Exists_exists in A. destruct A as (c & Hc & Nc). exists c. split; [now apply Hcs|exact Nc]. }
    exfalso. rewrite Forall_forall in A.
    destruct (pick sols cs Hap) as (r & R1 & R2 & R3).
    { intros c Hc. destruct (Hcs c Hc) as [Cc _]. apply C4; auto using cand_len, cand_ns. }
    apply C4 in F; [|now apply cand_len|now apply cand_ns]. destruct F as (f & Hf & Ef).
    assert (Df : snd f = dist far).
    { destruct (C3 f Hf) as (Lf & _ & _ & ->). symmetry. apply Hdist; auto using cand_len. }
    assert (I : incl r (firstn (nsol - 1) sols)).
    { intros s Hs. destruct (R3 s Hs) as (Is & c & Hc & Ec). destruct (Hcs c Hc) as [Cc Dc].
      assert (Ds : dlt (snd s) (snd f) = true).
      { destruct (C3 s Is) as (Ls & _ & _ & ->). rewrite Df. rewrite <- (Hdist c (fst s)); auto using cand_len. }
      destruct (In_nth_error _ _ Is) as [i Hi].
      destruct (Nat.lt_ge_cases i (nsol - 1)) as [Hlt|Hge].
      - rewrite <- (firstn_skipn (nsol - 1) sols) in Hi. rewrite nth_error_app1 in Hi.
        + eapply nth_error_In. exact Hi.
        + rewrite firstn_length. assert (i < length sols)%nat by (apply nth_error_Some; rewrite firstn_skipn in Hi; congruence). lia.
      - assert (i < length sols)%nat by (apply nth_error_Some; congruence).
        destruct (nth_error sols (nsol - 1)) as [t|] eqn:Ht; [|apply nth_error_None in Ht; lia].
        pose proof (HT f t Hf Ht) as X1.
        pose proof (nth_in_sorted n nsol Hd Hnsol sols (nsol - 1) i t s C1 Hge Ht Hi) as X2.
        assert (X3 : dle (snd f) (snd s) = true) by (eapply dle_trans; eassumption). apply dlt_false in X3. congruence. }
    apply NoDup_incl_length in I; [|exact R2]. rewrite firstn_length in I. lia.
  Qed.

  (** every unfinished initialisation can still end *)
  Lemma draw_app stream more ext l rest : draw volok L0 stream ext = Ok (l, rest) ->
    draw volok L0 (stream ++ more) ext = Ok (l, rest ++ more).
  Proof.
    induction stream as [|s stream IH]; cbn; [discriminate|].
    destruct (mem_vec _ _ || _); [apply IH|]. intros E. injection E as <- <-. reflexivity.
  Qed.
  Lemma draw_skip stream more ext : draw volok L0 stream ext = NoFuel ->
    draw volok L0 (stream ++ more) ext = draw volok L0 more ext.
  Proof.
    induction stream as [|s stream IH]; cbn; [reflexivity|].
    destruct (mem_vec _ _ || _); [apply IH|discriminate].
  Qed.

  Lemma can_finish : forall k stream seen st, Forall (wf n n) stream -> hist seen st ->
    exists more st', Forall (shift_of n) more /\ iloop k (stream ++ more) st = Ok st'.
  Proof.
    induction k as [|k IH]; intros stream seen st Hst HI.
    - exists [], st. split; [constructor|reflexivity].
    - destruct st as [[sols ext] dmax]. 
      destruct (history_inv n LG_A LG_M dist nsol Hd HA HM Hdist Hnsol _ _ HI) as (HC & HT & HD).
      assert (go : forall m1 l rest, Forall (shift_of n) m1 -> Forall (wf n n) rest ->
        length l = (n * n)%nat -> nonsingular n l ->
        (forall more, draw volok L0 (stream ++ m1 ++ more) ext = Ok (l, rest ++ more)) ->
        exists more st', Forall (shift_of n) more /\ iloop (S k) (stream ++ more) (sols, ext, dmax) = Ok st').
      { intros m1 l rest F1 F2 Ll Nl E.
        destruct (add_sol_ok n LG_A LG_M dist nsol Hd HA HM Hdist Hnsol seen sols ext l HC HT Ll (or_introl Nl))
          as (s1 & e1 & d1 & E1 & _).
        destruct (IH rest (l :: seen) (s1, e1, Some d1) F2
          (h_add n LG_A LG_M dist nsol seen sols ext dmax l s1 e1 d1 HI Ll Nl E1)) as (more & st' & F3 & E3).
        exists (m1 ++ more), st'. split; [apply Forall_app; auto|]. cbn [init_loop]. rewrite E. cbn [bind]. rewrite E1.
        exact E3. }
      destruct (draw_ok n volok L0 stream ext Hst) as [X|(sh & l & stream' & X & H1 & H2 & H3 & H4 & H5)].
      + destruct (some_free _ _ _ _ HI) as (c & Cc & Nc). pose proof Cc as (s & Hs & Es & Vs).
        apply (go [s] c []); auto using cand_len, cand_ns.
        intros more. rewrite draw_skip by exact X. cbn. rewrite <- Es, Vs.
        replace (mem_vec c ext) with false; [reflexivity|]. symmetry. apply not_true_iff_false. intros Y. now apply mem_vec_In in Y.
      + rewrite Forall_forall in Hst.
        assert (Wsh : wf n n (madd L0 sh)) by (apply wf_madd; auto).
        apply (go [] l stream'); auto.
        * apply Forall_forall. auto.
        * subst l. now apply length_flatten.
        * subst l. unfold nonsingular. rewrite reshape_flatten by exact Wsh. intros Z. rewrite Z in H3. congruence.
        * intros more. cbn [app]. now apply draw_app.
  Qed.
End Init.
