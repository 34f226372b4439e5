(** Property C39: habit planes. *)
From Verif Require Import PropTwin PropTwin2 PropTwin3 TwinMono RankOneConn.
Local Open Scope R_scope.

(** Whatever was called before: if one of the two volume fractions is None, habitplanes never returns, although
    iscompatible is true when the other one is not None. *)
Theorem C39_one_fraction : forall eig npnew skip U V h p t f1 f2, pair_after eig npnew skip U V h p ->
  fst (volumefrac eig npnew p) = Ok (f1, f2) -> f1 = None \/ f2 = None ->
  (f1 <> None \/ f2 <> None -> fst (iscompatible eig npnew TC p) = Ok true) /\
  forall l, fst (habitplanes eig npnew t p) <> Ok l.
Proof.
  intros eig npnew skip U V h p t f1 f2 PA VF N.
  assert (ST : exists p0, fresh p0 /\ Inv eig npnew p0 p).
  { destruct PA as (p0 & N0 & ->). destruct (new_fresh eig skip U V p0 N0) as (F & _). exists p0. split; [exact F|]. apply run_keeps; auto. now apply Inv_refl. }
  destruct ST as (p0 & F & I). pose proof (volume_stable eig npnew p0 F) as VS.
  assert (V0 : fst (volumefrac eig npnew p0) = Ok (f1, f2)) by (rewrite <- VF; symmetry; now apply VS).
  split.
  - intros K. unfold iscompatible, bindS. pose proof (VS p I) as (E1 & I1). destruct (volumefrac eig npnew p) as [r p'] eqn:E. cbn [fst snd] in *. rewrite VF in *.
    cbn [fst snd]. destruct (some f1) eqn:S1; [reflexivity|]. pose proof (VS p' I1) as (E2 & _). destruct (volumefrac eig npnew p') as [r2 p2]. cbn [fst] in E2. rewrite E2, V0.
    unfold ret. cbn [fst snd]. destruct f1; [discriminate|]. destruct f2; [reflexivity|]. destruct K as [K|K]; now elim K.
  - intros l H.
    assert (H' : fst (bindS (iscompatible eig npnew TC) (fun c => if negb c then lift (Raise AttributeError) else
      bindS (some_param eig npnew) (fun tpar => bindS (volumefrac eig npnew) (fun fs => fun p => (let* h0 := habit eig (p_Ui p) (fst tpar) (fst fs) in
                let* h1 := habit eig (p_Ui p) (snd tpar) (snd fs) in Ok (h0 ++ h1), p)))) p) = Ok l).
    { destruct t; try exact H. cbn in H. discriminate. }
    clear H. unfold bindS in H' at 1. pose proof (compatible_stable eig npnew p0 F TC p I) as (_ & I1). destruct (iscompatible eig npnew TC p) as [[[|]| |] p1]; try discriminate.
    cbn [negb fst snd] in *. unfold bindS in H' at 1. pose proof (some_param_stable eig npnew p0 F p1 I1) as (_ & I2).
    destruct (some_param eig npnew p1) as [[tpar| |] p2]; try discriminate. cbn [snd] in I2. unfold bindS in H'. pose proof (VS p2 I2) as (E3 & _).
    destruct (volumefrac eig npnew p2) as [r p3]. cbn [fst] in E3. rewrite E3, V0 in H'. cbn [fst snd] in H'.
    destruct N as [-> | ->].
    + discriminate.
    + destruct (habit eig (p_Ui p3) (fst tpar) f1); discriminate.
Qed.
Print Assumptions C39_one_fraction.

(** A pair of variants of the cubic lattice for which this happens, in every history and for every eigensolver. *)
Theorem C39_refuted : exists U V, positive_definite U /\ positive_definite V /\ isvariant U V = Ok true /\ nearly_twinned U V /\
  (exists eig p, is_eig (twin_matrix U V) (eig (twin_matrix U V)) /\ new_pair eig true U V = Ok p) /\
  forall eig skip h p, is_eig (twin_matrix U V) (eig (twin_matrix U V)) -> pair_after eig false skip U V h p ->
    fst (iscompatible eig false TC p) = Ok true /\ forall t l, fst (habitplanes eig false t p) <> Ok l.
Proof.
  exists Um, Vm. split; [apply pd_Um|]. split; [apply pd_Vm|]. split; [apply Um_isvariant|]. split.
  { split; [apply distinct_Um|]. exists (1/4), 1, 4. split; [apply ev_Um|]. rewrite Rminus_diag_eq, Rabs_R0 by reflexivity. lra. }
  split.
  { destruct (eig_exists (twin_matrix Um Vm)) as (eg & E); [apply (twin_posdef _ _ pd_Um pd_Vm)|].
    destruct (new_pair_ok (fun _ => eg) Um Vm _ _ _ pd_Um E ev_Um) as (v0 & v1 & v2 & p & _ & Np & _). exists (fun _ => eg), p. auto. }
  intros eig skip h p E PA.
  destruct (C40_complete eig false skip Um Vm h p _ _ pd_Um pd_Vm E variants_Um distinct_Um ev_Um PA) as (l & Al & Ll & _ & _ & AL).
  destruct (ax_after _ _ _ _ _ _ _ _ _ pd_Um pd_Vm E variants_Um distinct_Um ev_Um PA) as (v0 & v1 & v2 & p0 & N & F & I & U1 & U2 & T & NE & ES & A & Ax).
  assert (HD : exists e l', l = e :: l' /\ In e [[1; 0; 0]; [-1; 0; 0]; [0; 1; 0]; [0; -1; 0]]).
  { destruct (AL _ axis_1) as (x & k & Hx & Hk & Ex). destruct (AL _ axis_2) as (y & k' & Hy & Hk' & Ey).
    assert (X : x = vscale k [1; 0; 0]) by (rewrite Ex; unfold vscale; rewrite map_map; rewrite <- (map_id x) at 1; apply map_ext; intros z; destruct Hk as [-> | ->]; ring).
    assert (Y : y = vscale k' [0; 1; 0]) by (rewrite Ey; unfold vscale; rewrite map_map; rewrite <- (map_id y) at 1; apply map_ext; intros z; destruct Hk' as [-> | ->]; ring).
    assert (XY : x <> y) by (intros Q; rewrite X, Y in Q; unfold vscale in Q; cbn [map] in Q; injection Q; destruct Hk as [-> | ->]; lra).
    assert (IX : In x [[1; 0; 0]; [-1; 0; 0]; [0; 1; 0]; [0; -1; 0]]).
    { rewrite X. destruct Hk as [-> | ->]; [left|right; left]; unfold vscale; cbn [map]; apply list3_eq; ring. }
    assert (IY : In y [[1; 0; 0]; [-1; 0; 0]; [0; 1; 0]; [0; -1; 0]]).
    { rewrite Y. destruct Hk' as [-> | ->]; [right; right; left|right; right; right; left]; unfold vscale; cbn [map]; apply list3_eq; ring. }
    destruct l as [|a [|b [|c l]]]; [easy| | |cbn in Ll; lia].
    - destruct Hx as [<-|[]], Hy as [<-|[]]. now elim XY.
    - exists a, [b]. split; [reflexivity|]. destruct Hx as [<-|[<-|[]]]; [exact IX|]. destruct Hy as [<-|[<-|[]]]; [exact IY|now elim XY]. }
  destruct HD as (e & l' & -> & He). rewrite Ax in Al. injection Al as Al. rewrite Al in A.
  pose proof (param_first eig Um Vm p0 T (proj2 (proj2 (proj2 (proj2 F)))) U1 U2 _ _ A) as P. cbn [solvetwin] in P.
  destruct (mono_axes e He) as (t1 & t2 & St & K). rewrite St in P.
  assert (VF : exists f1 f2, fst (volumefrac eig false p) = Ok (f1, f2) /\ (f1 = None \/ f2 = None) /\ (f1 <> None \/ f2 <> None)).
  { rewrite (proj1 (volume_stable eig false p0 F p I)). unfold volumefrac, bindS at 1, some_param, bindS at 1.
    destruct (twinparam eig false p0) as [r p'] eqn:TP. cbn [fst] in P. subst r. cbn [ret fst]. unfold ret, bindS, lift. cbn [fst snd]. rewrite U1.
    destruct K as [(K1 & K2)|(K1 & K2)].
    - rewrite (solve_kept _ _ K1), (solve_lost _ _ K2). cbn [fst]. eexists _, _. split; [reflexivity|]. split; [now right|left; discriminate].
    - rewrite (solve_lost _ _ K1), (solve_kept _ _ K2). cbn [fst]. eexists _, _. split; [reflexivity|]. split; [now left|right; discriminate]. }
  destruct VF as (f1 & f2 & VF & N1 & N2).
  split; [now apply (C39_one_fraction eig false skip Um Vm h p TC f1 f2 PA VF N1)|].
  intros t. apply (C39_one_fraction eig false skip Um Vm h p t f1 f2 PA VF N1).
Qed.
Print Assumptions C39_refuted.

(** C38: the type I twin of this pair has such a volume fraction. *)
Example C38_case : exists Q a n f, positive_definite Um /\ positive_definite Vm /\ twinning Um Vm Q a n /\
  det (msub (mmul Vm Vm) (eye 3)) = det (msub (mmul Um Um) (eye 3)) /\ solve_f Um a n = Ok (Some f) /\ 0 < f < 1 /\ laminate_gap Um a n f = 0.
Proof.
  exists [[3/5; 4/5; 0]; [-4/5; 3/5; 0]; [0; 0; 1]], [-3/5; -6/5; 0], [1; 0; 0], (1/2 + sqrt (4/45)).
  assert (T : twinning Um Vm [[3/5; 4/5; 0]; [-4/5; 3/5; 0]; [0; 0; 1]] [-3/5; -6/5; 0] [1; 0; 0]).
  { split; [split; [now apply wfb_spec|mat_eq ltac:(lra)]|]. split; [rewrite det3; cbv [get nth]; lra|]. split; [reflexivity|]. split; [reflexivity|].
    split; [mat_unfold_goal; ring|]. unfold Um, Vm. mat_eq ltac:(lra). }
  assert (D : det (msub (mmul Vm Vm) (eye 3)) = det (msub (mmul Um Um) (eye 3))) by exact (C38_variants Um Vm pd_Um variants_Um).
  assert (S : solve_f Um [-3/5; -6/5; 0] [1; 0; 0] = Ok (Some (1/2 + sqrt (4/45)))) by (apply solve_kept; left; auto).
  assert (B : 0 < 1/2 + sqrt (4/45) < 1).
  { pose proof (sqrt_pos (4/45)). pose proof (sqrt_sqrt (4/45) ltac:(lra)). split; nra. }
  split; [apply pd_Um|]. split; [apply pd_Vm|]. split; [exact T|]. split; [exact D|]. split; [exact S|]. split; [exact B|].
  exact (C38_root Um Vm _ _ _ _ pd_Um pd_Vm T D S B).
Qed.
