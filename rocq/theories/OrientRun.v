(** A short run of the search, computed in integers (C112): one level of children of the identity. *)
From Verif Require Import LinAlg RMat GroupModel GroupSpec GroupProofs LatticeModel LatticeSpec LatticeProofs LatticeLaue LatticeComplete
  LLLModel DistModel TreeModel TreeProofs TreeSpec LatCorModel LatCorCase SelfSearch PropLattice DirectProofs.
Local Open Scope R_scope.

Section Run.
  Variable dz : mat Z -> Z.
  Variable dist : mat Z -> R.
  Hypothesis Hd : forall E, wf 3 3 E -> dist E = IZR (dz E).
  Variables LG1 LG2 : list (mat Z).
  Variable nsol : nat.
  (** [truncate_sols], [insert_sol] and [update_solutions] of TreeModel.v (lat_opt.py:138-168) on integer distances *)
  Fixpoint ztrunc (fuel : nat) (sols : list (mat Z * Z)) : list (mat Z * Z) :=
    match fuel with
    | O => sols
    | S k =>
      match last (map Some sols) None, nth_error sols (nsol - 1) with
      | Some s, Some t => if (nsol <? length sols)%nat && (snd t <? snd s)%Z then ztrunc k (removelast sols) else sols
      | _, _ => sols
      end
    end.
  Fixpoint zins (s : mat Z * Z) (sols : list (mat Z * Z)) : option (list (mat Z * Z)) :=
    match sols with
    | [] => None
    | t :: sols' => if (snd s <=? snd t)%Z then Some (s :: t :: sols') else match zins s sols' with Some r => Some (t :: r) | None => None end
    end.
  Definition zstate : Type := (list (mat Z * Z) * list (mat Z))%type.
  Definition zupd (E : mat Z) (st : zstate) : bool * zstate :=
    let '(sols, ext) := st in
    match sols with
    | [] => (true, ([(E, dz E)], ext ++ ext_sols LG1 LG2 E))
    | _ =>
      if mem_mat E ext then (false, st)
      else match zins (E, dz E) sols with
           | Some sols1 => (true, (ztrunc (length sols1) sols1, ext ++ ext_sols LG1 LG2 E))
           | None => if (length sols <? nsol)%nat then (true, (sols ++ [(E, dz E)], ext ++ ext_sols LG1 LG2 E)) else (false, st)
           end
    end.
  Definition up1 (p : mat Z * Z) : mat Z * R := (fst p, IZR (snd p)).
  Definition up (st : zstate) : sol_state := (map up1 (fst st), snd st).
  Lemma up_lt a b : Rltb (IZR a) (IZR b) = (a <? b)%Z.
  Proof. apply Bool.eq_true_iff_eq. rewrite Rltb_spec, Z.ltb_lt. split; [apply lt_IZR|apply IZR_lt]. Qed.
  Lemma up_le a b : Rleb (IZR a) (IZR b) = (a <=? b)%Z.
  Proof. apply Bool.eq_true_iff_eq. rewrite Rleb_spec, Z.leb_le. split; [apply le_IZR|apply IZR_le]. Qed.
  Lemma up_ins s : forall sols, insert_sol (up1 s) (map up1 sols) = option_map (map up1) (zins s sols).
  Proof.
    induction sols as [|t sols IH]; cbn [map insert_sol zins]; [reflexivity|]. unfold up1 at 1 2. cbn [snd]. rewrite up_le. destruct (_ <=? _)%Z; [reflexivity|].
    rewrite IH. destruct (zins s sols); reflexivity.
  Qed.
  Lemma up_last (sols : list (mat Z * Z)) : last (map Some (map up1 sols)) None = option_map up1 (last (map Some sols) None).
  Proof. induction sols as [|a [|b sols] IH]; [reflexivity|reflexivity|]. cbn [map last] in IH |- *. exact IH. Qed.
  Lemma up_removelast (sols : list (mat Z * Z)) : removelast (map up1 sols) = map up1 (removelast sols).
  Proof. induction sols as [|a [|b sols] IH]; [reflexivity|reflexivity|]. cbn [map removelast] in IH |- *. now rewrite IH. Qed.
  Lemma up_trunc : forall fuel sols, truncate_sols nsol fuel (map up1 sols) = map up1 (ztrunc fuel sols).
  Proof.
    induction fuel as [|fuel IH]; intros sols; cbn [truncate_sols ztrunc]; [reflexivity|]. rewrite up_last, nth_error_map, map_length.
    destruct (last (map Some sols) None) as [s|]; cbn [option_map]; [|reflexivity]. destruct (nth_error sols (nsol - 1)) as [t|]; cbn [option_map]; [|reflexivity].
    unfold up1 at 1 2. cbn [snd]. rewrite up_lt. destruct (_ && _)%bool; [|reflexivity]. rewrite up_removelast. apply IH.
  Qed.
  Lemma up_update E st : wf 3 3 E -> update_solutions dist LG1 LG2 nsol E (up st) = (fst (zupd E st), up (snd (zupd E st))).
  Proof.
    intros W. destruct st as [sols ext]. unfold update_solutions, zupd, up. cbn [fst snd]. rewrite (Hd E W). destruct sols as [|a sols]; [reflexivity|]. cbn [map].
    destruct (mem_mat E ext); [reflexivity|]. change (up1 a :: map up1 sols) with (map up1 (a :: sols)). change (E, IZR (dz E)) with (up1 (E, dz E)). rewrite up_ins.
    destruct (zins (E, dz E) (a :: sols)) as [r|]; cbn [option_map].
    - rewrite up_trunc, map_length. reflexivity.
    - rewrite map_length. destruct (_ <? nsol)%nat; [|reflexivity]. cbn [fst snd]. now rewrite map_app.
  Qed.
  Fixpoint zkid (root : mat Z) (is_ : list nat) (st : zstate) (expl : list (mat Z)) : zstate :=
    match is_ with
    | [] => st
    | i :: is' =>
      let E := mmul root (nth i T_ (eye 3)) in
      if mem_mat E expl then zkid root is' st expl else zkid root is' (snd (zupd E st)) (E :: expl)
    end.
  Lemma kids_run fuel source root : wf 3 3 (elem root) -> forall is_ b st, b_sols b = up st -> exists b',
    kids_loop dist LG1 LG2 nsol 0 fuel 1 source root is_ b = Ok (Datatypes.inr b') /\ b_sols b' = up (zkid (elem root) is_ st (b_explored b)).
  Proof.
    intros WR. induction is_ as [|i is_ IH]; intros b st H; cbn [kids_loop zkid]; [exists b; auto|].
    rewrite (np_dot_3 _ _ WR (wf_T i)). cbn [bind]. assert (WE : wf 3 3 (mmul (elem root) (nth i T_ (eye 3)))) by (apply (wf_mmul 3 3 3); auto using wf_T; lia).
    destruct (mem_mat _ (b_explored b)); [now apply IH|]. cbn [Nat.leb b_sols b_cache b_explored b_new b_upd]. rewrite H, (up_update _ _ WE).
    edestruct IH as (b' & K1 & K2); [|exists b'; split; [exact K1|exact K2]]. reflexivity.
  Qed.
  Lemma core_run k fuel : znext dz 1 (eye 3) = None ->
    lat_opt_core 3 dist LG1 LG2 nsol 0 1 (S k) (S fuel) (eye 3) = Ok (fst (up (zkid (eye 3) (seq 0 12) (snd (zupd (eye 3) ([], []))) [eye 3]))).
  Proof.
    intros NZ. assert (We : wf 3 3 (@eye Z _ 3)) by apply wf_eye. unfold lat_opt_core. cbn [restarts]. unfold dfs. cbn [snd lookup descend].
    assert (Hd1 : forall E, wf 3 3 E -> dist E = IZR (dz E) / IZR 1) by (intros E W; rewrite (Hd E W); field).
    destruct (next_sim dz 1 ltac:(lia) dist Hd1 (Node (eye 3) None None) We) as (NX & _). cbn [elem] in NX. rewrite NZ in NX. cbn [option_map] in NX. rewrite NX. cbn [bind fold_left fst snd].
    unfold bfs. cbn [elem]. pose proof (up_update (eye 3) ([], []) We) as U. change (up ([], [])) with (@nil (mat Z * R), @nil (mat Z)) in U. rewrite U.
    change (Nat.max 0 1) with 1%nat. cbn [levels Nat.ltb Nat.leb orb andb b_upd b_sols b_cache b_explored].
    cbn [roots_loop parent grandpa]. change (child_indices 3 None None) with (seq 0 12).
    match goal with |- context [kids_loop _ _ _ _ _ _ _ ?s ?r ?l ?b] => destruct (kids_run (S fuel) s r We l b (snd (zupd (eye 3) ([], []))) eq_refl) as (b' & K1 & K2) end.
    rewrite K1. cbn [bind]. rewrite Bool.andb_false_r. cbn [bind]. rewrite K2. reflexivity.
  Qed.
End Run.

(** |x x^T - I|^2 *)
Definition dsq (x : mat Z) : Z := let v := concat (msub (mmul x (tr x)) (eye 3)) in dot v v.
Lemma dist_eye x : wf 3 3 x -> Cauchy_dist (map IZR (flatten x)) (eye 3) (minv (eye 3)) = IZR (dsq x).
Proof.
  intros W. assert (E : minv (@eye R _ 3) = eye 3) by (apply minv_eye; now right). rewrite E. unfold Cauchy_dist, dsq. change (length (@eye R _ 3)) with 3%nat.
  destruct (wf3_inv x W) as (a&b&c&e&f&g&h&i&k&->). cbn [flatten concat app map].
  change (reshape 3 _) with [[IZR a; IZR b; IZR c]; [IZR e; IZR f; IZR g]; [IZR h; IZR i; IZR k]].
  rewrite (mmul_eye_l 3 3), (mmul_eye_r 3 3) by (try lia; now apply wfb_spec). cbv [flatten concat]. mat_unfold_goal. repeat rewrite ?plus_IZR, ?mult_IZR, ?minus_IZR, ?opp_IZR. ring.
Qed.
