(** Histories of TwinPair and TwinSystem objects: what the caches may hold. *)
From Verif Require Export TwinAxis2.
Local Open Scope R_scope.

Section Pair.
  Variable eig : mat R -> list R * mat R.
  Variable npnew : bool.

  Definition fresh (p : tp) : Prop := p_conventional p = None /\ p_ax p = None /\ p_XI p = None /\ p_XII p = None /\ p_twinparam p = None.
  Definition XI_of (p0 : tp) (x : R) : Prop := exists a t Ui, fst (ax p0) = Ok a /\ py_index a 0 = Ok t /\ inv (p_Ui p0) = Ok Ui /\ x = vnorm (mvmul Ui t).
  Definition XII_of (p0 : tp) (x : R) : Prop := exists a t, fst (ax p0) = Ok a /\ py_index a 0 = Ok t /\ x = vnorm (mvmul (p_Ui p0) t).
  (** p is p0 with some caches filled, each with what the method returns on p0 *)
  Record Inv (p0 p : tp) : Prop := {
    i_Ui : p_Ui p = p_Ui p0; i_Uj : p_Uj p = p_Uj p0; i_e : p_e p = p_e p0; i_v : p_v p = p_v p0;
    i_tw : p_twinnable p = p_twinnable p0;
    i_ax : forall a, p_ax p = Some a -> fst (ax p0) = Ok a;
    i_XI : forall x, p_XI p = Some x -> XI_of p0 x;
    i_XII : forall x, p_XII p = Some x -> XII_of p0 x;
    i_par : forall t, p_twinparam p = Some t -> fst (twinparam eig npnew p0) = Ok (Some t) }.
  Lemma Inv_refl p0 : fresh p0 -> Inv p0 p0.
  Proof. intros (_ & A & B & C & D). split; auto; intros x E; congruence. Qed.

  Section P0.
    Variable p0 : tp.
    Hypothesis F : fresh p0.
    (** the same outcome on every object that satisfies the invariant, which is kept *)
    Definition stable {A} (m : st A) : Prop := forall p, Inv p0 p -> fst (m p) = fst (m p0) /\ Inv p0 (snd (m p)).
    Lemma stable_ret {A} (a : A) : stable (ret a).
    Proof. intros p I. now split. Qed.
    Lemma stable_lift {A} (r : res A) : stable (lift r).
    Proof. intros p I. now split. Qed.
    Lemma stable_bind {A B} (m : st A) (f : A -> st B) : stable m -> (forall a, stable (f a)) -> stable (bindS m f).
    Proof.
      intros M Hf p I. unfold bindS. destruct (M p I) as (E & I1). destruct (M p0 (Inv_refl p0 F)) as (_ & I0).
      destruct (m p) as [r p1], (m p0) as [r0 p2]. cbn [fst snd] in *. subst r0. destruct r as [a| |]; cbn [fst snd]; auto.
      destruct (Hf a p1 I1) as (E1 & I1'). destruct (Hf a p2 I0) as (E2 & _). split; [now rewrite E1, E2|exact I1'].
    Qed.
    Lemma istwinnable_stable p : Inv p0 p -> istwinnable p = istwinnable p0.
    Proof. intros []. unfold istwinnable. now rewrite i_Ui0, i_Uj0, i_e0. Qed.
    Lemma ax_stable : stable ax.
    Proof.
      intros p I. pose proof I as []. destruct F as (_ & Fx & _). unfold ax at 1 3. destruct (p_ax p) as [a|] eqn:E.
      - cbn [fst snd]. split; [|exact I]. now rewrite (i_ax0 a eq_refl).
      - assert (E0 : fst (ax p0) = if negb (istwinnable p0) then Raise AttributeError else axes (p_Ui p0) (p_v p0) (p_e p0)).
        { unfold ax. rewrite Fx. destruct (negb (istwinnable p0)); [reflexivity|]. now destruct (axes _ _ _). }
        rewrite E0. rewrite (istwinnable_stable p I). destruct (istwinnable p0) eqn:T; cbn [negb fst snd]; [|now split].
        rewrite i_Ui0, i_v0, i_e0. cbn [negb] in E0. destruct (axes (p_Ui p0) (p_v p0) (p_e p0)) as [a| |] eqn:X; cbn [fst snd]; [|now split|now split].
        split; [reflexivity|]. split; cbn [set_ax p_Ui p_Uj p_e p_v p_twinnable p_ax p_XI p_XII p_twinparam]; auto.
        intros a' [= <-]. exact E0.
    Qed.
    Lemma compound_stable : stable iscompound.
    Proof. apply stable_bind; [apply ax_stable|intros; apply stable_ret]. Qed.
    Lemma typeI_stable : stable istypeI.
    Proof. apply stable_bind; [apply compound_stable|intros; apply stable_ret]. Qed.
    Lemma typeII_stable : stable istypeII.
    Proof. apply stable_bind; [apply compound_stable|intros; apply stable_ret]. Qed.
    Lemma XI_stable : stable XI.
    Proof.
      apply stable_bind; [apply compound_stable|]. intros []; [apply stable_lift|].
      intros p I. destruct F as (_ & _ & FX & _). rewrite FX. set (body := bindS ax _ p0).
      assert (Hb : forall p, Inv p0 p -> p_XI p = None \/ True -> True) by auto. clear Hb.
      destruct (ax_stable p0 (Inv_refl p0 F)) as (_ & I0). destruct (ax_stable p I) as (Ea & Ia).
      unfold body. unfold bindS at 2. unfold bindS in *.
      destruct (p_XI p) as [x|] eqn:E.
      - cbn [fst snd]. split; [|exact I]. destruct (i_XI _ _ I x E) as (a & t & Ui & E1 & E2 & E3 & ->).
        destruct (ax p0) as [r p1]. cbn [fst] in E1. subst r. unfold lift. rewrite E2, E3. reflexivity.
      - destruct (ax p) as [r p1] eqn:X. destruct (ax p0) as [r0 p2] eqn:X0. cbn [fst snd] in *. subst r0.
        destruct r as [a| |]; cbn [fst snd]; auto. unfold lift. destruct (py_index a 0) as [t| |] eqn:T; cbn [fst snd]; auto.
        rewrite (i_Ui _ _ I). destruct (inv (p_Ui p0)) as [Ui| |] eqn:V; cbn [fst snd]; auto. split; [reflexivity|].
        destruct Ia. split; cbn [set_XI p_Ui p_Uj p_e p_v p_twinnable p_ax p_XI p_XII p_twinparam]; auto.
        intros x [= <-]. exists a, t, Ui. rewrite X0. auto.
    Qed.
    Lemma XII_stable : stable XII.
    Proof.
      apply stable_bind; [apply compound_stable|]. intros []; [apply stable_lift|].
      intros p I. destruct F as (_ & _ & _ & FX & _). rewrite FX. set (body := bindS ax _ p0).
      destruct (ax_stable p0 (Inv_refl p0 F)) as (_ & I0). destruct (ax_stable p I) as (Ea & Ia).
      unfold body. unfold bindS at 2. unfold bindS in *.
      destruct (p_XII p) as [x|] eqn:E.
      - cbn [fst snd]. split; [|exact I]. destruct (i_XII _ _ I x E) as (a & t & E1 & E2 & ->).
        destruct (ax p0) as [r p1]. cbn [fst snd] in E1, I0. subst r. unfold lift. rewrite E2. cbn [fst]. now rewrite (i_Ui _ _ I0).
      - destruct (ax p) as [r p1] eqn:X. destruct (ax p0) as [r0 p2] eqn:X0. cbn [fst snd] in *. subst r0.
        destruct r as [a| |]; cbn [fst snd]; auto. unfold lift. destruct (py_index a 0) as [t| |] eqn:T; cbn [fst snd]; auto.
        rewrite (i_Ui _ _ Ia), (i_Ui _ _ I0). split; [reflexivity|].
        destruct Ia. split; cbn [set_XII p_Ui p_Uj p_e p_v p_twinnable p_ax p_XI p_XII p_twinparam]; auto.
        intros x [= <-]. exists a, t. rewrite X0. auto.
    Qed.
    Lemma twinparam_stable : stable (twinparam eig npnew).
    Proof.
      intros p I. pose proof (istwinnable_stable p I) as T. unfold twinparam at 1 3. rewrite T.
      destruct (ax_stable p0 (Inv_refl p0 F)) as (_ & I0). destruct (ax_stable p I) as (Ea & Ia).
      assert (E0 : fst (twinparam eig npnew p0) = if negb (istwinnable p0) then Raise AttributeError else
        let* a := fst (ax p0) in solvetwin eig npnew (p_Ui p0) (p_Uj p0) (match a with [] => None | x :: _ => Some x end)).
      { unfold twinparam. destruct (negb (istwinnable p0)); [reflexivity|]. destruct F as (_ & _ & _ & _ & FX). rewrite FX.
        unfold bindS, lift. destruct (ax p0) as [[a| |] p1]; cbn [fst bind]; try reflexivity. now destruct (solvetwin _ _ _ _ _). }
      rewrite E0. destruct (negb (istwinnable p0)) eqn:N; [cbn [fst snd]; now split|].
      destruct (p_twinparam p) as [t|] eqn:E.
      - cbn [fst snd]. split; [|exact I]. rewrite <- E0. symmetry. now apply I.
      - unfold bindS, lift. destruct (ax p) as [r p1] eqn:X. cbn [fst snd] in *. rewrite <- Ea in E0 |- *.
        destruct r as [a| |]; cbn [fst snd bind] in *; auto.
        rewrite (i_Ui _ _ I), (i_Uj _ _ I). destruct (solvetwin _ _ _ _ _) as [t| |] eqn:ST; cbn [fst snd]; auto.
        split; [reflexivity|]. destruct Ia. split; cbn [set_twinparam p_Ui p_Uj p_e p_v p_twinnable p_ax p_XI p_XII p_twinparam]; auto.
        intros t' ->. exact E0.
    Qed.
    Lemma some_param_stable : stable (some_param eig npnew).
    Proof. apply stable_bind; [apply twinparam_stable|]. intros []; [apply stable_ret|apply stable_lift]. Qed.
    Lemma direct_stable : stable (direct_cof eig npnew).
    Proof. intros p I. unfold direct_cof. rewrite (i_Ui _ _ I). revert p I. apply stable_bind; [apply some_param_stable|]. intros t. apply stable_ret. Qed.
    Lemma volume_stable : stable (volumefrac eig npnew).
    Proof.
      intros p I. unfold volumefrac. rewrite (i_Ui _ _ I). revert p I. apply stable_bind; [apply some_param_stable|]. intros t.
      apply stable_bind; [apply stable_lift|]. intros f. apply stable_bind; [apply stable_lift|]. intros g. apply stable_ret.
    Qed.
    Lemma compatible_stable t : stable (iscompatible eig npnew t).
    Proof.
      destruct t; try (apply stable_bind; [apply volume_stable|]; intros f; apply stable_ret); [|apply stable_lift].
      apply stable_bind; [apply volume_stable|]. intros f. destruct (some (fst f)); [apply stable_ret|].
      apply stable_bind; [apply volume_stable|]. intros g. apply stable_ret.
    Qed.
    Lemma habit_stable t : stable (habitplanes eig npnew t).
    Proof.
      assert (H : stable (bindS (iscompatible eig npnew TC) (fun c => if negb c then lift (Raise AttributeError) else
        bindS (some_param eig npnew) (fun tpar => bindS (volumefrac eig npnew) (fun fs => fun p =>
          (let* h0 := habit eig (p_Ui p) (fst tpar) (fst fs) in let* h1 := habit eig (p_Ui p) (snd tpar) (snd fs) in Ok (h0 ++ h1), p)))))).
      { apply stable_bind; [apply compatible_stable|]. intros []; cbn [negb]; [|apply stable_lift].
        apply stable_bind; [apply some_param_stable|]. intros tpar. apply stable_bind; [apply volume_stable|]. intros fs.
        intros p I. cbn [fst snd]. rewrite (i_Ui _ _ I). now split. }
      destruct t; try exact H. apply stable_lift.
    Qed.
    Lemma conventional_keeps g p : Inv p0 p -> Inv p0 (snd (isconventional g p)).
    Proof.
      intros I. unfold isconventional. destruct (p_conventional p); [exact I|]. destruct (negb (p_twinnable p)); [exact I|].
      cbn [snd]. destruct I. now split.
    Qed.
    Lemma step_keeps o p : Inv p0 p -> Inv p0 (pair_step eig npnew o p).
    Proof.
      intros I. destruct o; cbn [pair_step]; auto using conventional_keeps.
      - now apply ax_stable. - now apply compound_stable. - now apply typeI_stable. - now apply XI_stable. - now apply XII_stable.
      - now apply direct_stable. - now apply twinparam_stable. - now apply compatible_stable. - now apply volume_stable. - now apply habit_stable.
    Qed.
    Lemma run_keeps h : forall p, Inv p0 p -> Inv p0 (pair_run eig npnew h p).
    Proof. induction h as [|o h IH]; intros p I; [exact I|]. apply IH. now apply step_keeps. Qed.
  End P0.
  Lemma new_fresh skip U V p : new_pair eig skip U V = Ok p -> fresh p /\ p_Ui p = U /\ p_Uj p = V /\ p_twinnable p = istwinnable p.
  Proof.
    unfold new_pair. destruct (_ && _); [discriminate|]. destruct (inv U); cbn [bind]; try discriminate.
    destruct (sort_eig _) as [e v]. intros [= <-]. split; [split; auto|]. now split.
  Qed.
  Lemma run_stable {A} (m : st A) skip U V h p p0 : (forall p0, fresh p0 -> stable p0 m) ->
    new_pair eig skip U V = Ok p0 -> p = pair_run eig npnew h p0 -> fst (m p) = fst (m p0).
  Proof. intros S N ->. destruct (new_fresh _ _ _ _ N) as (F & _). apply S; auto. apply run_keeps; auto. now apply Inv_refl. Qed.
End Pair.
