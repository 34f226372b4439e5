(** C66, C76, C77: what the caller can change from outside. *)
From Verif Require Import HeapModel LinAlg LatticeSpec LatticeProofs LatticeComplete PropLattice PropBravais BravaisSpec MartSpec MartProofs PropMart.
Local Open Scope R_scope.

(** ** Specification *)
(** A history of one object: calls of its methods, and changes of single elements of arrays that the caller holds.  [held] lists these
    arrays, with the query that returned them, or None for the caller's own arrays; [ok] says which of them the caller changes.
    The last argument lists the calls and their answers. *)
Inductive history {O Q} (ask : heap -> O -> Q -> res value * heap * O * list nat) (ok : option Q -> nat -> Prop) :
    heap -> O -> list (option Q * nat) -> list (Q * res value) -> Prop :=
  | history_end h o held : history ask ok h o held []
  | history_call h o held q r h' o' new tr : ask h o q = (r, h', o', new) ->
      history ask ok h' o' (map (pair (Some q)) new ++ held) tr -> history ask ok h o held ((q, r) :: tr)
  | history_change h o held org l k i j x tr : In (org, l) held -> ok org l ->
      history ask ok (poke h l k i j x) o held tr -> history ask ok h o held tr.
(** the answers of a lattice that never changes *)
Definition lat_answer (E : mat R) (q : lat_query) : res value :=
  match q with
  | QBase => Ok (VMat E)
  | QDim => Ok (VNat (length E))
  | QLaue => let* G := Laue_group E in Ok (VGroup G)
  | QPoint => let* G := point_group E in Ok (VGroup G)
  | QSpecial => let* G := special_lattice_group E in Ok (VIGroup G)
  | QLattice => let* G := lattice_group E in Ok (VIGroup G)
  | QInPoint Q => let* b := inpointgroup E Q in Ok (VBool b)
  | QInLat M => let* b := inlatticegroup E M in Ok (VBool b)
  | QEq E2 => let* b := lat_eq E E2 in Ok (VBool b)
  end.
Definition brav_answer (b : bravais) (q : brav_query) : res value :=
  match q with
  | QTrans => Ok (VMat (conventional_trans b))
  | QParam => Ok (VVec (b_par b))
  | QCBase => Ok (VMat (conventional_base b))
  | QToPrim i => let* r := to_primitive_Miller b i in Ok (VIdx r)
  | QToConv i => let* r := to_conventional_Miller b i in Ok (VIdx r)
  | QStr => Ok (VText (description b))
  end.
Definition mart_answer (m : mart) (q : mart_query) : res value :=
  match q with
  | QU => let* U := getU m in Ok (VMat U)
  | QVariants => let* r := getvariants m in Ok (VGroup (fst r))
  | QVariant n => let* r := getvariant m n in Ok (VMat (fst r))
  | QReversible => let* b := isreversible m in Ok (VBool b)
  end.
(** the caller's arrays exist *)
Definition exist {Q} (h : heap) (held : list (option Q * nat)) : Prop := forall org l, In (org, l) held -> org = None /\ (l < length h)%nat.
(** the contents of an argument *)
Definition contents (h : heap) (a : harg) : mat R := match a with Nested M => M | Shared l => mat_at h l end.

(** ** Proofs *)
Lemma update_length {A} (s : list A) i f : length (update s i f) = length s.
Proof. revert i; induction s as [|a s IH]; intros [|i]; cbn; auto. Qed.
Lemma update_other {A} (s : list A) i j f d : i <> j -> nth j (update s i f) d = nth j s d.
Proof. revert i j; induction s as [|a s IH]; intros [|i] [|j] H; cbn; auto; try lia. Qed.
Lemma poke_other h l k i j x l' : l <> l' -> arr (poke h l k i j x) l' = arr h l'.
Proof. intros. unfold arr, poke. now apply update_other. Qed.
Lemma poke_length h l k i j x : length (poke h l k i j x) = length h. Proof. apply update_length. Qed.
Lemma arr_app h a l : (l < length h)%nat -> arr (h ++ a) l = arr h l.
Proof. intros. unfold arr. now apply app_nth1. Qed.
Lemma arr_new h a : arr (h ++ [a]) (length h) = a.
Proof. unfold arr. now rewrite app_nth2, Nat.sub_diag by lia. Qed.

(** every history satisfies what every step preserves *)
Lemma history_inv {O Q} (ask : heap -> O -> Q -> res value * heap * O * list nat) (ok : option Q -> nat -> Prop) (Inv : heap -> O -> list (option Q * nat) -> Prop) (pure : Q -> res value) :
  (forall h o held q r h' o' new, Inv h o held -> ask h o q = (r, h', o', new) -> r = pure q /\ Inv h' o' (map (pair (Some q)) new ++ held)) ->
  (forall h o held org l k i j x, Inv h o held -> In (org, l) held -> ok org l -> Inv (poke h l k i j x) o held) ->
  forall h o held tr, history ask ok h o held tr -> Inv h o held -> Forall (fun a => snd a = pure (fst a)) tr.
Proof.
  intros H1 H2 h o held tr H. induction H as [|h o held q r h' o' new tr E H IH|h o held org l k i j x tr I K H IH]; intros J.
  - constructor.
  - destruct (H1 _ _ _ _ _ _ _ _ J E) as [A B]. constructor; [exact A|now apply IH].
  - apply IH. eapply H2; eauto.
Qed.

(** * C66 *)
Section Lat.
  Variable E : mat R.
  Hypothesis VE : new_lattice E = Ok E.
  Variable ok : option lat_query -> nat -> Prop.
  Definition lat_inv (h : heap) (o : lat_obj) (held : list (option lat_query * nat)) : Prop :=
    arr h (o_E o) = [E] /\ (o_E o < length h)%nat /\ (forall org l, In (org, l) held -> ok org l -> l <> o_E o) /\
    (forall org l, In (org, l) held -> (l < length h)%nat) /\
    (forall G, o_Laue o = Some G -> Laue_group E = Ok G) /\ (forall G, o_point o = Some G -> point_group E = Ok G).
  Lemma inv_E : (length E = 2%nat \/ length E = 3%nat) -> exists Ei, inv E = Ok Ei.
  Proof.
    intros D. unfold new_lattice in VE. destruct (is_square E) eqn:S; [|discriminate]. unfold is_square in S. apply andb_prop in S. destruct S as [_ S].
    apply wfb_spec in S. destruct (Rleb (det E * det E) 0) eqn:N; [discriminate|]. assert (ND : det E <> 0). { intros K. rewrite K in N. rewrite (proj2 (Rleb_spec _ _)) in N by lra. discriminate. }
    rewrite (inv_Ok (length E)); [eauto|destruct D as [-> | ->]; [now left|now right]|exact S|exact ND].
  Qed.
  Lemma h_Laue_ok h o held : lat_inv h o held -> forall r o', h_Laue h o = (r, o') -> r = Laue_group E /\ lat_inv h o' held.
  Proof.
    intros (A & L & N & B & C & D) r o' H. unfold h_Laue in H. assert (M : mat_at h (o_E o) = E) by (unfold mat_at; now rewrite A).
    destruct (o_Laue o) as [G|] eqn:Q.
    - injection H as <- <-. split; [symmetry; now apply C|]. unfold lat_inv. rewrite Q. auto 10.
    - rewrite M in H. injection H as <- <-. split; [reflexivity|]. destruct (Laue_group E) as [G| |] eqn:EG; unfold lat_inv; cbn [o_E o_Laue o_point]; rewrite ?Q; (split; [exact A|split; [exact L|split; [exact N|split; [exact B|split]]]]); auto; intros; congruence.
  Qed.
  Lemma h_point_ok h o held : lat_inv h o held -> forall r o', h_point h o = (r, o') -> r = point_group E /\ lat_inv h o' held.
  Proof.
    intros J r o' H. pose proof J as (A & L & N & B & C & D). unfold h_point in H. assert (M : mat_at h (o_E o) = E) by (unfold mat_at; now rewrite A). rewrite M in H.
    destruct (o_point o) as [G|] eqn:Q; [injection H as <- <-; split; [symmetry; now apply D|]; unfold lat_inv; rewrite Q; auto 10|].
    match type of H with (let (_, _) := ?X in _) = _ => destruct X as [r0 o0] eqn:E0 end.
    assert (K : r0 = point_group E /\ lat_inv h o0 held).
    { unfold point_group in *. destruct (length E) as [|[|[|[|]]]]; try (injection E0 as <- <-; split; [reflexivity|exact J]).
      destruct (h_Laue h o) as [r1 o1] eqn:E1. injection E0 as <- <-. destruct (h_Laue_ok h o held J r1 o1 E1) as [-> J1]. split; [reflexivity|exact J1]. }
    destruct K as [-> J0]. injection H as <- <-. split; [reflexivity|]. destruct (point_group E) as [G| |] eqn:EG; [|exact J0|exact J0].
    destruct J0 as (A0 & L0 & N0 & B0 & C0 & D0). unfold lat_inv; cbn [o_E o_Laue o_point]. split; [exact A0|split; [exact L0|split; [exact N0|split; [exact B0|split; [exact C0|]]]]]. intros; congruence.
  Qed.
  Lemma h_integer_ok h o held group pure : lat_inv h o held -> (forall r o', group h o = (r, o') -> r = pure E /\ lat_inv h o' held) ->
    (length E <> 2%nat -> length E <> 3%nat -> pure E = Raise AttributeError) ->
    forall r o', h_integer h o group = (r, o') -> r = (let* G := pure E in to_integer_rep E G) /\ lat_inv h o' held.
  Proof.
    intros J H PE r o' K. pose proof J as (A & _). unfold h_integer in K. assert (M : mat_at h (o_E o) = E) by (unfold mat_at; now rewrite A). rewrite M in K.
    assert (main : (length E = 2%nat \/ length E = 3%nat) -> match inv E with Ok Ei => let (r, o) := group h o in ((let* G := r in Ok (map (fun Q => rintm (mmul Ei (mmul Q E))) G)), o)
      | Raise e => (Raise e, o) | NoFuel => (NoFuel, o) end = (r, o') -> r = (let* G := pure E in to_integer_rep E G) /\ lat_inv h o' held).
    { clear K. intros D K. destruct (inv_E D) as (Ei & EI). rewrite EI in K. destruct (group h o) as [r1 o1] eqn:E1. injection K as <- <-. destruct (H r1 o1 eq_refl) as [-> J1]. split; [|exact J1].
      unfold to_integer_rep. rewrite EI. reflexivity. }
    destruct (length E) as [|[|[|[|n]]]] eqn:L; try (apply main; [tauto|exact K]); injection K as <- <-; rewrite PE by congruence; split; reflexivity || exact J.
  Qed.
  Lemma lat_inv_grow h o held q a : lat_inv h o held -> lat_inv (h ++ [a]) o (map (pair (Some q)) [length h] ++ held).
  Proof.
    intros (A & L & N & B & C & D). unfold lat_inv. rewrite app_length, arr_app by exact L. cbn [length map app]. repeat split; auto; try lia.
    - intros org l [K|K] O; [injection K as _ <-; lia|now apply (N org)].
    - intros org l [K|K]; [injection K as _ <-; lia|specialize (B org l K); lia].
  Qed.
  Lemma lat_step h o held q r h' o' new : lat_inv h o held -> lat_ask h o q = (r, h', o', new) -> r = lat_answer E q /\ lat_inv h' o' (map (pair (Some q)) new ++ held).
  Proof.
    intros J H. assert (M : mat_at h (o_E o) = E) by (destruct J as (A & _); unfold mat_at; now rewrite A). destruct q; cbn [lat_ask lat_answer] in *; rewrite ?M in H.
    - injection H as <- <- <- <-. split; [reflexivity|now apply lat_inv_grow].
    - injection H as <- <- <- <-. split; [reflexivity|exact J].
    - destruct (h_Laue h o) as [r1 o1] eqn:E1. destruct (h_Laue_ok h o held J r1 o1 E1) as [-> J1]. destruct (Laue_group E); injection H as <- <- <- <-; (split; [reflexivity|]); [now apply lat_inv_grow|exact J1..].
    - destruct (h_point h o) as [r1 o1] eqn:E1. destruct (h_point_ok h o held J r1 o1 E1) as [-> J1]. destruct (point_group E); injection H as <- <- <- <-; (split; [reflexivity|]); [now apply lat_inv_grow|exact J1..].
    - destruct (h_integer h o h_Laue) as [r1 o1] eqn:E1. injection H as <- <- <- <-. destruct (h_integer_ok h o held h_Laue Laue_group J (h_Laue_ok h o held J)) with (r := r1) (o' := o1) as [-> J1]; [|exact E1|split; [reflexivity|exact J1]].
      intros. unfold Laue_group. destruct (length E) as [|[|[|[|]]]]; try reflexivity; congruence.
    - destruct (h_integer h o h_point) as [r1 o1] eqn:E1. injection H as <- <- <- <-. destruct (h_integer_ok h o held h_point point_group J (h_point_ok h o held J)) with (r := r1) (o' := o1) as [-> J1]; [|exact E1|split; [reflexivity|exact J1]].
      intros. unfold point_group. destruct (length E) as [|[|[|[|]]]]; try reflexivity; congruence.
    - injection H as <- <- <- <-. split; [reflexivity|exact J].
    - injection H as <- <- <- <-. split; [reflexivity|exact J].
    - injection H as <- <- <- <-. split; [reflexivity|exact J].
  Qed.
  Lemma lat_poke h o held org l k i j x : lat_inv h o held -> In (org, l) held -> ok org l -> lat_inv (poke h l k i j x) o held.
  Proof.
    intros (A & L & N & B & C & D) I K. unfold lat_inv. rewrite poke_length, poke_other by now apply (N org). repeat split; auto.
  Qed.
End Lat.

(** A Lattice made from a nested list is not affected by any change of any array; one made from an array is not affected by any change
    of other arrays.  Missing: changes of the array passed to the constructor, see C66_refuted. *)
Theorem C66_isolated_partial : forall h a h' o held tr, init_lattice h a = Ok (h', o) -> exist h held ->
  history lat_ask (fun org l => org = None -> a <> Shared l) h' o held tr ->
  Forall (fun qr => snd qr = lat_answer (contents h a) (fst qr)) tr.
Proof.
  intros h a h' o held tr I X H. unfold init_lattice in I. destruct (take h a) as [h1 l] eqn:T.
  destruct (arr h1 l) as [|M [|]] eqn:AM; try discriminate. destruct (new_lattice M) as [M'| |] eqn:NM; try discriminate. cbn [bind] in I. injection I as <- <-.
  assert (VM : new_lattice M = Ok M) by (rewrite NM; unfold new_lattice in NM; destruct (is_square M); [|discriminate]; destruct (Rleb (det M * det M) 0); [discriminate|]; now injection NM as <-).
  assert (CE : contents h a = M). { destruct a as [M0|l0]; cbn in *; injection T as <- <-; [rewrite arr_new in AM; now injection AM|unfold mat_at; now rewrite AM]. }
  rewrite CE. refine (history_inv _ _ (lat_inv M (fun org l => org = None -> a <> Shared l)) (lat_answer M) _ _ _ _ _ _ H _).
  - intros. eapply lat_step; eauto.
  - intros. eapply lat_poke; eauto.
  - assert (LT : (l < length h1)%nat). { destruct (Nat.lt_ge_cases l (length h1)) as [K|K]; [exact K|]. unfold arr in AM. rewrite nth_overflow in AM by exact K. discriminate. }
    assert (LE : (length h <= length h1)%nat) by (destruct a; injection T as <- <-; rewrite ?app_length; lia).
    unfold lat_inv. cbn [o_E o_Laue o_point]. repeat split; auto; try discriminate.
    + intros org l' K O ->. destruct (X _ _ K) as [-> K']. specialize (O eq_refl). destruct a as [M0|l0]; injection T as <- <-; [lia|now apply O].
    + intros org l' K. destruct (X _ _ K) as [_ K']. lia.
Qed.
Print Assumptions C66_isolated_partial.

(** The array passed in is shared: changing it changes base(), while the Laue group that was already computed stays. *)
Theorem C66_refuted : exists h h' o tr E' G,
  init_lattice h (Shared 0) = Ok (h', o) /\ exist h [(None : option lat_query, 0%nat)] /\
  history lat_ask (fun _ _ => True) h' o [(None, 0%nat)] tr /\
  tr = [(QBase, Ok (VMat (M2 1 0 0 1))); (QLaue, Ok (VGroup G)); (QBase, Ok (VMat E')); (QLaue, Ok (VGroup G))] /\
  E' <> M2 1 0 0 1 /\ Laue_group E' <> Ok G.
Proof.
  assert (B1 : base 2 (M2 1 0 0 1)) by (apply base2; lra). assert (B2 : base 2 (M2 1 0 0 3)) by (apply base2; lra).
  assert (A : forall Q, In Q SQUARE_GROUP -> inpointgroup (M2 1 0 0 1) (IntArr Q) = Ok true).
  { intros Q HQ. assert (K : wf 2 2 Q /\ orthogonal 2 (RZ Q) /\ mmul (RZ Q) (M2 1 0 0 1) = mmul (M2 1 0 0 1) (RZ Q)).
    { cbn in HQ. destruct HQ as [<-|[<-|[<-|[<-|[]]]]]; (split; [apply wfZ2|]); (split; [split; [apply wfM2|meq ltac:(ring)]|meq ltac:(ring)]). }
    destruct K as (K1 & K2 & K3). apply (C13_accepts_symmetries 2); [exact B1|exact K2|]. apply (preserves_iff 2 _ B1); [exact K2|]. now exists Q. }
  assert (EG : Laue_group (M2 1 0 0 1) = Ok (map RZ SQUARE_GROUP)).
  { unfold Laue_group. change (length (M2 1 0 0 1)) with 2%nat. unfold pick_group, square_arr. rewrite (PropMart.keep_filter (M2 1 0 0 1) (fun _ => true)) by exact A. reflexivity. }
  exists [[M2 1 0 0 1]], [[M2 1 0 0 1]], {| o_E := 0; o_Laue := None; o_point := None |}. eexists _, (M2 1 0 0 3), (map RZ SQUARE_GROUP).
  split; [|split; [|split; [|split; [reflexivity|split]]]].
  - unfold init_lattice. cbn [take arr nth]. assert (K : new_lattice (M2 1 0 0 1) = Ok (M2 1 0 0 1)).
    { unfold new_lattice. replace (is_square (M2 1 0 0 1)) with true by reflexivity. rewrite (proj2 (Rleb_false _ _)); [reflexivity|]. unfold M2. rewrite det2. cbn. lra. }
    rewrite K. reflexivity.
  - intros org l [K|[]]. injection K as <- <-. split; [reflexivity|cbn; lia].
  - eapply history_call; [reflexivity|]. eapply history_call; [cbn [lat_ask]; unfold h_Laue; cbn [o_Laue]; replace (mat_at _ _) with (M2 1 0 0 1) by reflexivity; rewrite EG; reflexivity|].
    eapply (history_change _ _ _ _ _ None 0 0 1 1 3); [cbn; tauto|exact I|].
    eapply history_call; [reflexivity|]. eapply history_call; [cbn [lat_ask]; reflexivity|]. constructor.
  - intros K. injection K. lra.
  - intros K. destruct (C14_laue_partial 2 _ B2) as (G' & EG' & _ & _ & AG & _). rewrite K in EG'. injection EG' as <-.
    destruct (AG (RZ [[0;-1];[1;0]]%Z)) as [_ F]; [right; left; reflexivity|].
    rewrite (inpoint_red 2 _ B2) in F; [|split; [apply wfM2|meq ltac:(ring)]].
    assert (N : lat_eq (M2 1 0 0 3) (mmul (RZ [[0;-1];[1;0]]%Z) (M2 1 0 0 3)) = Ok false).
    { eapply (lat_eq_false 2 _ B2 _ (M2 0 (-3) (1/3) 0) 1 0 0); [apply wfM2|meq ltac:(field)|lia|lia|..]; cbn; rabs; lra. }
    cbn [values] in F. rewrite N in F. discriminate.
Qed.
Print Assumptions C66_refuted.
Example C66_case : exists h' o, init_lattice [] (Nested (M2 1 0 0 3)) = Ok (h', o).
Proof.
  unfold init_lattice. cbn [take app arr nth length]. unfold new_lattice. replace (is_square (M2 1 0 0 3)) with true by reflexivity. rewrite (proj2 (Rleb_false _ _)); [cbn [bind]; eauto|]. unfold M2. rewrite det2. cbn. lra.
Qed.

(** * C76 *)
Section Brav.
  Variable b : bravais.
  Variable ok : option brav_query -> nat -> Prop.
  Definition brav_inv (h : heap) (o : brav_obj) (held : list (option brav_query * nat)) : Prop :=
    look h o = b /\ (v_par o < length h)%nat /\ (v_E o < length h)%nat /\ (v_C o < length h)%nat /\
    (forall org l, In (org, l) held -> (l < length h)%nat /\ (ok org l -> l <> v_par o /\ l <> v_E o /\ l <> v_C o)).
  Hypothesis no_trans : forall l, ~ ok (Some QTrans) l.
  Hypothesis no_param : forall l, ~ ok (Some QParam) l.
  Lemma look_same h h' o : arr h' (v_par o) = arr h (v_par o) -> arr h' (v_E o) = arr h (v_E o) -> arr h' (v_C o) = arr h (v_C o) -> look h' o = look h o.
  Proof. intros H1 H2 H3. unfold look, vec_at, mat_at. now rewrite H1, H2, H3. Qed.
  Lemma brav_step h o held q r h' o' new : brav_inv h o held -> brav_ask h o q = (r, h', o', new) -> r = brav_answer b q /\ brav_inv h' o' (map (pair (Some q)) new ++ held).
  Proof.
    intros (L & P1 & P2 & P3 & H) E. assert (same : brav_inv h o held) by (repeat (split; [assumption|]); exact H).
    destruct q; cbn [brav_ask brav_answer] in *; injection E as <- <- <- <-; (split; [rewrite <- L; reflexivity|]); try exact same.
    - split; [exact L|]. repeat (split; [assumption|]). intros org l [K|K]; [|now apply (H org)]. injection K as <- <-. split; [exact P3|]. intros K. now apply no_trans in K.
    - split; [exact L|]. repeat (split; [assumption|]). intros org l [K|K]; [|now apply (H org)]. injection K as <- <-. split; [exact P1|]. intros K. now apply no_param in K.
    - unfold brav_inv. rewrite app_length. cbn [length]. rewrite (look_same h) by now apply arr_app. repeat (split; [assumption || lia|]). intros org l [K|K]; [injection K as <- <-; split; lia|]. destruct (H org l K) as [K1 K2]. split; [lia|exact K2].
  Qed.
  Lemma brav_poke h o held org l k i j x : brav_inv h o held -> In (org, l) held -> ok org l -> brav_inv (poke h l k i j x) o held.
  Proof.
    intros (L & P1 & P2 & P3 & H) I K. destruct (H org l I) as [_ D]. destruct (D K) as (D1 & D2 & D3). unfold brav_inv. rewrite poke_length.
    rewrite (look_same h) by now apply poke_other. repeat (split; [assumption|]). exact H.
  Qed.
End Brav.

(** Missing: changes of the arrays returned by conventional_trans() and lat_param() and of the array of parameters passed in, see C76_refuted. *)
Theorem C76_isolated_partial : forall h id a dim h' o held tr, init_bravais h id a dim = Ok (h', o) -> exist h held ->
  (forall l, a = Shared l -> (l < length h)%nat) ->
  history brav_ask (fun org l => org <> Some QTrans /\ org <> Some QParam /\ (org = None -> a <> Shared l)) h' o held tr ->
  exists b, new_bravais id (nth 0 (contents h a) []) dim = Ok b /\ Forall (fun qr => snd qr = brav_answer b (fst qr)) tr.
Proof.
  intros h id a dim h' o held tr I X SH H. unfold init_bravais in I. destruct (take h a) as [h1 l] eqn:T.
  assert (CE : vec_at h1 l = nth 0 (contents h a) []). { destruct a as [M0|l0]; cbn in *; injection T as <- <-; [unfold vec_at, mat_at; now rewrite arr_new|reflexivity]. }
  rewrite CE in I. destruct (new_bravais id _ dim) as [b| |] eqn:NB; try discriminate. cbn [bind] in I. injection I as <- <-. exists b. split; [reflexivity|].
  assert (LT : (l < length h1)%nat) by (destruct a as [M0|l0]; injection T as <- <-; [rewrite app_length; cbn; lia|now apply SH]).
  assert (LE : (length h <= length h1)%nat) by (destruct a; injection T as <- <-; rewrite ?app_length; lia).
  assert (Fb : b_id b = id /\ b_par b = nth 0 (contents h a) []).
  { unfold new_bravais in NB. destruct (existsb _ _); [discriminate|]. destruct (dim =? 3)%Z.
    - destruct (_ && _)%bool; [|discriminate]. destruct (_ =? _)%nat; [|discriminate]. destruct (base3D _ _) as [EC| |]; try discriminate. cbn [bind] in NB. destruct (inv (snd EC)); try discriminate. cbn [bind] in NB. destruct (new_lattice (fst EC)); try discriminate. cbn [bind] in NB. injection NB as <-. now split.
    - destruct (dim =? 2)%Z; [|discriminate]. destruct (_ && _)%bool; [|discriminate]. destruct (_ =? _)%nat; [|discriminate]. destruct (inv _); try discriminate. cbn [bind] in NB. destruct (new_lattice _); try discriminate. cbn [bind] in NB. injection NB as <-. now split. }
  match type of H with history _ ?k _ _ _ _ => refine (history_inv _ _ (brav_inv b k) (brav_answer b) _ _ _ _ _ _ H _) end.
  - intros until 2. eapply brav_step; eauto; cbv beta; intros; tauto.
  - intros. eapply brav_poke; eauto.
  - unfold brav_inv. cbn [v_par v_E v_C]. rewrite app_length. cbn [length]. split; [|split; [lia|split; [lia|split; [lia|]]]].
    + unfold look. cbn [v_id v_par v_E v_C]. destruct Fb as [F1 F2]. unfold vec_at, mat_at. rewrite arr_app by exact LT. fold (mat_at h1 l). fold (vec_at h1 l). rewrite CE.
      unfold arr. rewrite !app_nth2 by lia. rewrite Nat.sub_diag. replace (S (length h1) - length h1)%nat with 1%nat by lia. cbn [nth]. destruct b; cbn in *. now subst.
    + intros org l' K. destruct (X _ _ K) as [-> K']. split; [lia|]. intros (_ & _ & O). specialize (O eq_refl). repeat split; try lia. intros ->. destruct a as [M0|l0]; injection T as <- <-; [lia|now apply O].
Qed.
Print Assumptions C76_isolated_partial.

Lemma prim_one h o r : length (mat_at h (v_E o)) = 3%nat -> mvmul (mat_at h (v_C o)) [1; 0; 0] = r ->
  brav_ask h o (QToPrim (One [1; 0; 0])) = (Ok (VIdx (One r)), h, o, []).
Proof. intros H1 H2. cbn [brav_ask]. unfold to_primitive_Miller. cbn [b_base look]. rewrite H1. cbn [index_rows length Nat.eqb bind b_C]. unfold apply_rows. cbn [map]. change (b_C (look h o)) with (mat_at h (v_C o)). now rewrite H2. Qed.
(** conventional_trans() hands out the matrix that the conversions use. *)
Theorem C76_refuted : exists h' o tr r1 r2, init_bravais [] 1 (Nested [[2]]) 3 = Ok (h', o) /\ history brav_ask (fun _ _ => True) h' o [] tr /\
  tr = [(QToPrim (One [1; 0; 0]), Ok (VIdx (One r1))); (QTrans, Ok (VMat (eye 3))); (QToPrim (One [1; 0; 0]), Ok (VIdx (One r2)))] /\ r1 <> r2.
Proof.
  assert (NB : new_bravais 1 [2] 3 = Ok {| b_id := 1; b_par := [2]; b_base := mscale 2 (eye 3); b_C := eye 3 |}).
  { unfold new_bravais. cbn [existsb]. rewrite (proj2 (Rleb_false 2 0)) by lra. cbn [orb].
    change ((let* C := inv (eye 3) in let* E := new_lattice (cols3 [2; 0; 0] [0; 2; 0] [0; 0; 2]) in Ok {| b_id := 1; b_par := [2]; b_base := E; b_C := C |}) = Ok {| b_id := 1; b_par := [2]; b_base := mscale 2 (eye 3); b_C := eye 3 |}).
    rewrite (inv_Ok 3) by (exact (or_intror eq_refl) || apply wf_eye || (rewrite det_eye by exact (or_intror eq_refl); lra)). rewrite minv_eye by exact (or_intror eq_refl). cbn [bind].
    assert (K : cols3 [2; 0; 0] [0; 2; 0] [0; 0; 2] = mscale 2 (eye 3)) by (unfold cols3; mat_eq ltac:(ring)). rewrite K.
    unfold new_lattice. replace (is_square (mscale 2 (eye 3))) with true by reflexivity. rewrite <- K. rewrite (proj2 (Rleb_false _ _)); [reflexivity|]. unfold cols3, tr. cbn [mk ncols nrows length nth seq map]. rewrite det3. cbn. lra. }
  eexists _, _, _, [1; 0; 0], [2; 0; 0]. split; [|split; [|split; [reflexivity|intros K; injection K; lra]]].
  - unfold init_bravais. cbn [take app length]. cbv [vec_at mat_at arr nth]. rewrite NB. reflexivity.
  - assert (L3 : forall x y w x' y' w' : R, x = x' -> y = y' -> w = w' -> [x; y; w] = [x'; y'; w']) by congruence.
    eapply history_call; [apply prim_one; [reflexivity|apply L3; cbn; ring]|]. eapply history_call; [reflexivity|].
    eapply (history_change _ _ _ _ _ (Some QTrans) 2 0 0 0 2); [left; reflexivity|exact I|].
    eapply history_call; [apply prim_one; [reflexivity|apply L3; cbn; ring]|].
    constructor.
Qed.
Print Assumptions C76_refuted.

(** * C77 *)
Section Mart.
  Variables (U : mat R) (G : list (mat R)).
  Variable ok : option mart_query -> nat -> Prop.
  Hypothesis no_variants : forall l, ~ ok (Some QVariants) l.
  Hypothesis no_variant : forall n l, ~ ok (Some (QVariant n)) l.
  Definition mt : mart := new_mart (Some U) (Some G).
  Definition mart_inv (h : heap) (o : mart_obj) (held : list (option mart_query * nat)) : Prop :=
    exists l, t_U o = Some l /\ (l < length h)%nat /\ mat_at h l = U /\ t_Laue o = G /\
      (forall l2, t_Ulist o = Some l2 -> (l2 < length h)%nat /\ exists m', getvariants mt = Ok (arr h l2, m')) /\
      (forall org l', In (org, l') held -> (l' < length h)%nat /\ (ok org l' -> l' <> l /\ t_Ulist o <> Some l')).
  Lemma view_none h o held : mart_inv h o held -> t_Ulist o = None -> view h o = mt.
  Proof. intros (l & H1 & H2 & H3 & H4 & _) N. unfold view, mt, new_mart. rewrite H1, H4, N. cbn [option_map]. now rewrite H3. Qed.
  Lemma view_U h o held : mart_inv h o held -> m_U (view h o) = Some U /\ m_Laue (view h o) = G.
  Proof. intros (l & H1 & H2 & H3 & H4 & _). unfold view. cbn [m_U m_Laue]. rewrite H1, H4. cbn [option_map]. now rewrite H3. Qed.
  Lemma inv_grow h o held a q : mart_inv h o held -> mart_inv (h ++ [a]) o ((Some q, length h) :: held).
  Proof.
    intros (l & H1 & H2 & H3 & H4 & H5 & H6). exists l. rewrite app_length. cbn [length]. split; [exact H1|]. split; [lia|]. split; [unfold mat_at; rewrite arr_app by exact H2; exact H3|]. split; [exact H4|]. split.
    - intros l2 K. destruct (H5 l2 K) as (K1 & m' & K2). split; [lia|]. exists m'. now rewrite arr_app.
    - intros org l' [K|K]; [injection K as <- <-; split; [lia|]; intros _; split; [lia|]; intros K; apply H5 in K; lia|]. destruct (H6 org l' K). split; [lia|assumption].
  Qed.
  Lemma calc_inv h o held : mart_inv h o held ->
    match h_calc h o with
    | Ok (h', o', l) => mart_inv h' o' held /\ t_Ulist o' = Some l /\ (l < length h')%nat /\ exists m', getvariants mt = Ok (arr h' l, m')
    | Raise e => getvariants mt = Raise e
    | NoFuel => getvariants mt = NoFuel
    end.
  Proof.
    intros J. unfold h_calc. destruct (t_Ulist o) as [l|] eqn:N.
    - pose proof J as (l0 & H1 & H2 & H3 & H4 & H5 & H6). destruct (H5 l N) as [K1 K2]. auto.
    - rewrite (view_none h o held J N). destruct (getvariants mt) as [[vs m']| |] eqn:V; try reflexivity. cbn [bind fst].
      destruct J as (l0 & H1 & H2 & H3 & H4 & H5 & H6). split; [|split; [reflexivity|split; [rewrite app_length; cbn; lia|exists m'; now rewrite arr_new]]].
      exists l0. cbn [t_U t_Laue t_Ulist]. rewrite app_length. cbn [length]. split; [exact H1|]. split; [lia|]. split; [unfold mat_at; rewrite arr_app by exact H2; exact H3|]. split; [exact H4|]. split.
      + intros l2 [= <-]. split; [lia|]. exists m'. now rewrite arr_new.
      + intros org l' K. destruct (H6 org l' K) as [K1 K2]. split; [lia|]. intros O. split; [now apply K2|]. intros K3. injection K3. lia.
  Qed.
  Lemma getvariant_of n : getvariant mt n = (let* r := getvariants mt in let* V := py_index (fst r) (n - 1) in Ok (V, snd r)).
  Proof. unfold getvariant, getvariants. cbn [mt new_mart m_Ulist]. fold mt. destruct (calcvariants mt) as [m'| |]; try reflexivity. cbn [bind]. destruct (filled (m_Ulist m')); reflexivity. Qed.
  Lemma mart_step h o held q r h' o' new : mart_inv h o held -> mart_ask h o q = (r, h', o', new) -> r = mart_answer mt q /\ mart_inv h' o' (map (pair (Some q)) new ++ held).
  Proof.
    intros J E. destruct (view_U h o held J) as [VU VG]. destruct q; cbn [mart_ask mart_answer] in *.
    - unfold getU in *. rewrite VU in E. injection E as <- <- <- <-. split; [reflexivity|]. now apply inv_grow.
    - pose proof (calc_inv h o held J) as C. destruct (h_calc h o) as [[[h1 o1] l]| |]; injection E as <- <- <- <-.
      + destruct C as (J1 & C1 & C2 & m' & C3). rewrite C3. split; [reflexivity|]. destruct J1 as (l0 & H1 & H2 & H3 & H4 & H5 & H6). exists l0. repeat (split; [assumption|]).
        intros org l' [K|K]; [|now apply (H6 org)]. injection K as <- <-. split; [exact C2|]. intros K. now apply no_variants in K.
      + rewrite C. split; [reflexivity|exact J].
      + rewrite C. split; [reflexivity|exact J].
    - rewrite getvariant_of. pose proof (calc_inv h o held J) as C. destruct (h_calc h o) as [[[h1 o1] l]| |].
      + destruct C as (J1 & C1 & C2 & m' & C3). rewrite C3. cbn [bind fst snd]. destruct (py_index (arr h1 l) (n - 1)); injection E as <- <- <- <-; (split; [reflexivity|]); [|exact J1..].
        destruct J1 as (l0 & H1 & H2 & H3 & H4 & H5 & H6). exists l0. repeat (split; [assumption|]).
        intros org l' [K|K]; [|now apply (H6 org)]. injection K as <- <-. split; [exact C2|]. intros K. now apply no_variant in K.
      + rewrite C. injection E as <- <- <- <-. split; [reflexivity|exact J].
      + rewrite C. injection E as <- <- <- <-. split; [reflexivity|exact J].
    - injection E as <- <- <- <-. split; [|exact J]. unfold isreversible, getU, getLaue. rewrite VU, VG. reflexivity.
  Qed.
  Lemma mart_poke h o held org l k i j x : mart_inv h o held -> In (org, l) held -> ok org l -> mart_inv (poke h l k i j x) o held.
  Proof.
    intros (l0 & H1 & H2 & H3 & H4 & H5 & H6) I K. destruct (H6 org l I) as [_ D]. destruct (D K) as [D1 D2]. exists l0. rewrite poke_length. unfold mat_at. rewrite poke_other by exact D1. repeat (split; [assumption|]). split; [|exact H6].
    intros l2 K2. destruct (H5 l2 K2) as [K3 K4]. split; [exact K3|]. rewrite poke_other by congruence. exact K4.
  Qed.
End Mart.

(** An object made by setU answers as if nothing was ever changed, as long as the caller leaves the arrays returned by getvariants() and
    getvariant() alone; in particular changes of the array passed to setU and of those returned by getU() do not matter.  An object made by the constructor
    depends on the array it was given.  Missing: changes of the returned variants, see C77_refuted. *)
Theorem C77_isolated_partial :
  (forall h o args h' o' held tr, h_setU h o args = Ok (h', o') -> exist h held ->
     history mart_ask (fun org _ => org <> Some QVariants /\ forall n, org <> Some (QVariant n)) h' o' held tr ->
     exists m, setU (view h o) args = Ok m /\ Forall (fun qr => snd qr = mart_answer m (fst qr)) tr) /\
  (forall h l U G held tr, arr h l = [U] -> exist h held ->
     history mart_ask (fun org l' => org <> Some QVariants /\ (forall n, org <> Some (QVariant n)) /\ (org = None -> l' <> l)) h (init_mart (Some l) G) held tr ->
     Forall (fun qr => snd qr = mart_answer (new_mart (Some U) (Some G)) (fst qr)) tr).
Proof.
  split.
  - intros h o args h' o' held tr I X H. unfold h_setU in I. destruct (setU (view h o) args) as [m| |] eqn:S; try discriminate. cbn [bind] in I. exists m. split; [reflexivity|].
    assert (M : exists U, m = new_mart (Some U) (Some (t_Laue o))).
    { unfold setU in S. destruct (described args) as [[U|]| |]; try discriminate. cbn [bind] in S. destruct (negb _); [discriminate|]. destruct (negb _); [discriminate|]. injection S as <-. exists U. reflexivity. }
    destruct M as (U & ->). cbn [m_U new_mart m_Laue] in I. injection I as <- <-.
    match type of H with history _ ?k _ _ _ _ => refine (history_inv _ _ (mart_inv U (t_Laue o) k) (mart_answer (new_mart (Some U) (Some (t_Laue o)))) _ _ _ _ _ _ H _) end.
    + intros until 2. eapply mart_step; eauto; cbv beta; intros; intros (K1 & K2); [now apply K1|now apply (K2 n)].
    + intros. eapply mart_poke; eauto.
    + exists (length h). cbn [t_U t_Laue t_Ulist]. rewrite app_length. cbn [length]. split; [reflexivity|]. split; [lia|]. split; [unfold mat_at; now rewrite arr_new|]. split; [reflexivity|]. split; [discriminate|].
      intros org l' K. destruct (X _ _ K) as [_ K']. split; [lia|]. intros _. split; [lia|discriminate].
  - intros h l U G held tr A X H.
    assert (LT : (l < length h)%nat). { destruct (Nat.lt_ge_cases l (length h)) as [K|K]; [exact K|]. unfold arr in A. rewrite nth_overflow in A by exact K. discriminate. }
    match type of H with history _ ?k _ _ _ _ => refine (history_inv _ _ (mart_inv U G k) (mart_answer (new_mart (Some U) (Some G))) _ _ _ _ _ _ H _) end.
    + intros until 2. eapply mart_step; eauto; cbv beta; intros; intros (K1 & K2 & _); [now apply K1|now apply (K2 n)].
    + intros. eapply mart_poke; eauto.
    + exists l. cbn [init_mart t_U t_Laue t_Ulist]. split; [reflexivity|]. split; [exact LT|]. split; [unfold mat_at; now rewrite A|]. split; [reflexivity|]. split; [discriminate|].
      intros org l' K. destruct (X _ _ K) as [-> K']. split; [lia|]. intros (_ & _ & O). split; [now apply O|discriminate].
Qed.
Print Assumptions C77_isolated_partial.

(** getvariants() returns the array of the object itself; after a change of it the first variant is no longer U. *)
Theorem C77_refuted : exists h' o' tr Us Us', h_setU [] (init_mart None (map RZ CUBIC_LAUE_GROUP)) [Seq (Some Utet)] = Ok (h', o') /\
  history mart_ask (fun _ _ => True) h' o' [] tr /\
  tr = [(QVariants, Ok (VGroup Us)); (QVariants, Ok (VGroup Us')); (QU, Ok (VMat Utet))] /\ hd_error Us = Some Utet /\ hd_error Us' <> Some Utet.
Proof.
  destruct (C27_tolerance_partial Mtet Utet (r_new _ _) eq_refl Mtet_reversible) as (Us & idx & m' & EV & _ & _ & HD & _).
  assert (S : setU (view [] (init_mart None (map RZ CUBIC_LAUE_GROUP))) [Seq (Some Utet)] = Ok Mtet).
  { unfold setU. cbn [described]. replace (wfb 3 3 Utet) with true by reflexivity. cbn [bind].
    replace (array_equal Utet (tr Utet)) with true. 2:{ symmetry. unfold array_equal, Utet, M3. cbn. repeat (rewrite (proj2 (Reqb_spec _ _)) by reflexivity). reflexivity. }
    cbn [negb]. rewrite (proj2 (Rltb_spec _ _)); [reflexivity|]. unfold Utet, M3. rewrite det3. cbn. lra. }
  destruct Us as [|V Us]; [discriminate|]. injection HD as ->.
  eexists _, _, _, (Utet :: Us), (M3 1 0 0 0 (9/10) 0 0 0 (11/10) :: Us). split; [unfold h_setU; rewrite S; reflexivity|]. split; [|split; [reflexivity|split; [reflexivity|]]].
  - eapply history_call. { cbn [mart_ask]. unfold h_calc. cbn [t_Ulist Mtet new_mart m_U m_Laue]. replace (view _ _) with Mtet by reflexivity. rewrite EV. reflexivity. }
    eapply (history_change _ _ _ _ _ (Some QVariants) 1 0 0 0 1); [left; reflexivity|exact I|].
    eapply history_call; [reflexivity|]. eapply history_call; [reflexivity|]. constructor.
  - intros K. injection K. lra.
Qed.
Print Assumptions C77_refuted.
