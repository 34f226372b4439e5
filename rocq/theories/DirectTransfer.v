(** The direct search only compares distances: running it with distances relabelled
    by an order embedding gives the relabelled result.  Used to evaluate examples whose
    (real) distances are integers. *)
From Verif Require Import LinAlg DirectModel.
Local Open Scope Z_scope.

Definition rmap {A B} (f : A -> B) (r : res A) : res B :=
  match r with Ok a => Ok (f a) | Raise e => Raise e | NoFuel => NoFuel end.

Section Transfer.
  Context {D1 D2 : Type} {T1 : TotalOrder D1} {T2 : TotalOrder D2}.
  Variable f : D1 -> D2.
  Hypothesis Hf : forall a b, dle (f a) (f b) = dle a b.
  Variable n : nat.
  Variables LG_A LG_M : list (mat Z).
  Variable dist : list Z -> D1.
  Variable dist' : list Z -> D2.
  Hypothesis Hdist : forall l, length l = (n * n)%nat -> dist' l = f (dist l).
  Variable nsol : nat.
  Notation flat l := (length l = (n * n)%nat).

  Definition fs (s : list Z * D1) : list Z * D2 := (fst s, f (snd s)).
  Definition fst_ (st : @state D1) : @state D2 :=
    let '(sols, ext, dmax) := st in (map fs sols, ext, option_map f dmax).

  Lemma dlt_f a b : dlt (f a) (f b) = dlt a b.
  Proof. unfold dlt. now rewrite Hf. Qed.

  Lemma searchsorted_f sols d : searchsorted (map fs sols) (f d) = searchsorted sols d.
  Proof. induction sols as [|s sols IH]; [reflexivity|]. cbn. now rewrite dlt_f, IH. Qed.

  Lemma insert_f i s sols : insert_at i (fs s) (map fs sols) = map fs (insert_at i s sols).
  Proof. unfold insert_at. now rewrite map_app, firstn_map, skipn_map. Qed.

  Lemma last_f sols : last (map Some (map fs sols)) None = option_map fs (last (map Some sols) None).
  Proof.
    induction sols as [|s sols IH]; [reflexivity|]. destruct sols as [|t sols]; [reflexivity|].
    cbn in *. exact IH.
  Qed.
  Lemma removelast_f sols : removelast (map fs sols) = map fs (removelast sols).
  Proof.
    induction sols as [|s sols IH]; [reflexivity|]. destruct sols as [|t sols]; [reflexivity|].
    cbn in *. now rewrite IH.
  Qed.

  Lemma pop_f : forall fuel sols ext,
    pop_loop n LG_A LG_M nsol fuel (map fs sols) ext =
    rmap (fun p => (map fs (fst p), snd p)) (pop_loop n LG_A LG_M nsol fuel sols ext).
  Proof.
    induction fuel as [|k IH]; intros sols ext; cbn;
      rewrite last_f, nth_error_map;
      destruct (last (map Some sols) None) as [s|]; try reflexivity;
      destruct (nth_error sols (nsol - 1)) as [t|]; try reflexivity; cbn; rewrite dlt_f;
      destruct (dlt (snd t) (snd s)); try reflexivity.
    rewrite removelast_f. apply IH.
  Qed.

  Lemma add_f s sols ext :
    add_sol n LG_A LG_M nsol (fs s) (map fs sols) ext =
    rmap (fun p => (map fs (fst (fst p)), snd (fst p), f (snd p))) (add_sol n LG_A LG_M nsol s sols ext).
  Proof.
    unfold add_sol. cbn [fst snd fs].
    destruct (mem_vec (fst s) ext).
    - cbn. rewrite last_f. destruct (last (map Some sols) None); reflexivity.
    - rewrite searchsorted_f.
      replace (if det (reshape n (fst s)) =? 0 then map fs sols
               else insert_at (searchsorted sols (snd s)) (fst s, f (snd s)) (map fs sols))
        with (map fs (if det (reshape n (fst s)) =? 0 then sols else insert_at (searchsorted sols (snd s)) s sols))
        by (destruct (_ =? 0); [reflexivity|symmetry; apply (insert_f _ s)]).
      set (s1 := if _ =? 0 then sols else _). rewrite map_length.
      destruct (nsol <? length s1)%nat.
      + rewrite pop_f. destruct (pop_loop n LG_A LG_M nsol (length s1) s1 _) as [[a b]|e|]; try reflexivity.
        cbn. rewrite last_f. destruct (last (map Some a) None); reflexivity.
      + cbn. rewrite last_f. destruct (last (map Some s1) None); reflexivity.
  Qed.

  Lemma argmin_flat : forall ls m rest, Forall (fun l => flat l) ls -> argmin dist ls = Some (m, rest) ->
    flat m /\ Forall (fun l => flat l) rest.
  Proof.
    induction ls as [|l ls IH]; intros m rest H E; [discriminate|]. inversion H as [|? ? H1 H2]; subst.
    cbn in E. destruct (argmin dist ls) as [[m' r']|] eqn:E'.
    - destruct (IH m' r' H2 eq_refl) as [A B]. destruct (dlt _ _); injection E as <- <-; split; auto.
    - injection E as <- <-. split; auto.
  Qed.
  Lemma argmin_f ls : Forall (fun l => flat l) ls -> argmin dist' ls = argmin dist ls.
  Proof.
    induction 1 as [|l ls H1 H2 IH]; [reflexivity|]. cbn. rewrite IH.
    destruct (argmin dist ls) as [[m r]|] eqn:E; [|reflexivity].
    destruct (argmin_flat ls m r H2 E) as [A _]. rewrite !Hdist, dlt_f by assumption. reflexivity.
  Qed.

  Lemma update_loop_f : forall k ls st, Forall (fun l => flat l) ls ->
    update_loop n LG_A LG_M dist' nsol k ls (fst_ st) = rmap fst_ (update_loop n LG_A LG_M dist nsol k ls st).
  Proof.
    induction k as [|k IH]; intros ls st H; [reflexivity|]. cbn. rewrite argmin_f by exact H.
    destruct (argmin dist ls) as [[m rest]|] eqn:E; [|reflexivity].
    destruct (argmin_flat ls m rest H E) as [A B].
    destruct st as [[sols ext] dmax]. cbn [fst_]. rewrite !(Hdist m A).
    replace (dle_inf (f (dist m)) (option_map f dmax)) with (dle_inf (dist m) dmax)
      by (destruct dmax; cbn; [now rewrite Hf|reflexivity]).
    destruct (dle_inf (dist m) dmax); [|reflexivity].
    pose proof (add_f (m, dist m) sols ext) as X. unfold fs at 1 in X. cbn [fst snd] in X. rewrite X.
    destruct (add_sol n LG_A LG_M nsol (m, dist m) sols ext) as [[[a b] c]|e|]; try reflexivity.
    cbn [rmap bind fst snd]. apply (IH rest (a, b, Some c) B).
  Qed.
  Lemma update_f ls st : Forall (fun l => flat l) ls ->
    update_sol n LG_A LG_M dist' nsol ls (fst_ st) =
    rmap (fun p => (fst p, fst_ (snd p))) (update_sol n LG_A LG_M dist nsol ls st).
  Proof.
    intros H. unfold update_sol. rewrite update_loop_f by exact H.
    destruct (update_loop n LG_A LG_M dist nsol (length ls) ls st) as [[[a b] c]|e|]; try reflexivity.
    destruct st as [[sols ext] dmax]. cbn. destruct c as [c|], dmax as [d|]; cbn; rewrite ?dlt_f; reflexivity.
  Qed.

  Variable volok : Z -> bool.
  Variable L0 : mat Z.
  Hypothesis Hn : (0 < n)%nat.
  Hypothesis HL0 : wf n n L0.
  Lemma draw_flat : forall stream ext l s', Forall (wf n n) stream -> draw volok L0 stream ext = Ok (l, s') ->
    flat l /\ Forall (wf n n) s'.
  Proof.
    induction stream as [|a stream IH]; intros ext l s' H E; [discriminate|]. inversion H; subst.
    cbn in E. destruct (_ || _); [now apply (IH ext)|]. injection E as <- <-. split; [|assumption].
    apply length_flatten, wf_madd; assumption.
  Qed.
  Lemma init_loop_f : forall k stream st, Forall (wf n n) stream ->
    init_loop n LG_A LG_M dist' nsol volok L0 k stream (fst_ st) =
    rmap fst_ (init_loop n LG_A LG_M dist nsol volok L0 k stream st).
  Proof.
    induction k as [|k IH]; intros stream st H; [reflexivity|].
    destruct st as [[sols ext] dmax]. cbn.
    destruct (draw volok L0 stream ext) as [[l s']|e|] eqn:E; try reflexivity. cbn [bind].
    destruct (draw_flat stream ext l s' H E) as [A B]. rewrite (Hdist l A).
    pose proof (add_f (l, dist l) sols ext) as X. unfold fs at 1 in X. cbn [fst snd] in X. rewrite X.
    destruct (add_sol n LG_A LG_M nsol (l, dist l) sols ext) as [[[a b] c]|e|]; try reflexivity.
    cbn [rmap bind fst snd]. apply (IH s' (a, b, Some c) B).
  Qed.

  Variable slice_sz : nat.
  Lemma inner_f : forall fuel g st, Forall (fun l => flat l) g ->
    inner n LG_A LG_M dist' nsol slice_sz fuel g (fst_ st) =
    rmap (fun p => (fst_ (fst p), snd p)) (inner n LG_A LG_M dist nsol slice_sz fuel g st).
  Proof.
    assert (Sp : forall g, Forall (fun l : list Z => flat l) g ->
      Forall (fun l => flat l) (firstn slice_sz g) /\ Forall (fun l => flat l) (skipn slice_sz g)).
    { intros g H. rewrite <- (firstn_skipn slice_sz g), Forall_app in H. exact H. }
    induction fuel as [|k IH]; intros g st H; cbn; destruct (Sp g H) as [A B];
      destruct (firstn slice_sz g) as [|y ys]; try reflexivity.
    rewrite update_f by exact A.
    destruct (update_sol n LG_A LG_M dist nsol (y :: ys) st) as [[u st']|e|]; try reflexivity.
    cbn [rmap bind fst snd]. destruct u.
    - destruct (skipn slice_sz g); reflexivity.
    - apply IH. exact B.
  Qed.
End Transfer.
