(** Property C94: the class Microstructure.  Model: MicroModel.v. *)
From Coq Require Import Lra.
From Verif Require Import GroupSpec PropGroups MicroModel.
Local Open Scope R_scope.

(** the stretch that a call describes: a matrix, or the entries of a cubic, tetragonal, orthorhombic or monoclinic one *)
Definition stretch_entries (a : uargs) (M : mat R) : Prop :=
  match a with
  | OneArray N => M = N
  | Numbers l => wf 3 3 M /\ (forall i, (i < 2)%nat -> get M i 2 = 0 /\ get M 2 i = 0) /\ get M 0 1 = get M 1 0 /\
    match l with
    | [a] => get M 0 0 = a /\ get M 1 1 = a /\ get M 2 2 = a /\ get M 0 1 = 0
    | [a; c] => get M 0 0 = a /\ get M 1 1 = a /\ get M 2 2 = c /\ get M 0 1 = 0
    | [a; b; c] => get M 0 0 = a /\ get M 1 1 = a /\ get M 0 1 = b /\ get M 2 2 = c
    | [a; b; d; c] => get M 0 0 = a /\ get M 1 1 = d /\ get M 0 1 = b /\ get M 2 2 = c
    | _ => False
    end
  end.
(** a call with an array or with one to four numbers *)
Definition describes (a : uargs) : Prop := match a with OneArray _ => True | Numbers l => (1 <= length l <= 4)%nat end.

Lemma setU_ok m a : describes a -> exists M, micro_setU m a = Ok {| mi_U := Some M; mi_Laue := mi_Laue m |} /\ stretch_entries a M.
Proof.
  destruct a as [N|l]; intros H; [exists N; split; reflexivity|].
  destruct l as [|a [|b [|c [|d [|e l]]]]]; cbn in H; try lia; eexists; (split; [reflexivity|]); cbn -[diag];
    (split; [now apply wfb_spec|]); (split; [intros [|[|i]] Hi; try lia; split; reflexivity|]); repeat split.
Qed.
Lemma setU_bad m a : ~ describes a -> micro_setU m a = Raise NameError.
Proof.
  destruct a as [N|l]; intros H; [now elim H|].
  destruct l as [|a [|b [|c [|d [|e l]]]]]; cbn in H; try lia; reflexivity.
Qed.

(** After any calls, getU returns the stretch of the last call of setU with an array or one to four numbers, whatever other
    calls come after it; before the first such call it returns the constructor's or raises AttributeError. *)
Theorem C94_last_set : forall m before a after, describes a ->
  (forall b, In (SetU b) after -> ~ describes b) ->
  exists M, micro_getU (micro_run m (before ++ SetU a :: after)) = Ok M /\ stretch_entries a M.
Proof.
  intros m before a after Ha Hb. unfold micro_run. rewrite fold_left_app. cbn [fold_left].
  set (m0 := fold_left micro_do before m). unfold micro_do at 2. destruct (setU_ok m0 a Ha) as (M & -> & HM).
  exists M. split; [|exact HM]. set (m1 := {| mi_U := Some M; mi_Laue := mi_Laue m0 |}).
  assert (E : mi_U m1 = Some M) by reflexivity. clearbody m1. clear -E Hb. revert m1 E. induction after as [|c after IH]; intros m1 E; cbn [fold_left].
  - unfold micro_getU. now rewrite E.
  - apply IH; [intros b Hin; apply Hb; now right|]. unfold micro_do. destruct c as [b|k].
    + rewrite setU_bad by (apply Hb; now left). exact E.
    + unfold micro_setLaue. destruct k as [k|]; [|exact E]. destruct ((0 <? k) && (k <=? 14))%Z; [|exact E]. destruct (new_bravais _ _ _); exact E.
Qed.
Print Assumptions C94_last_set.
Example C94_case : micro_getU (micro_run (new_micro None None) [SetU (Numbers [1; 2]); SetU (Numbers []); SetLaue (Some 5%Z)]) = Ok (diag [1; 1; 2]) /\
  micro_getU (new_micro None None) = Raise AttributeError.
Proof.
  split; [|reflexivity]. destruct (C94_last_set (new_micro None None) [] (Numbers [1; 2]) [SetU (Numbers []); SetLaue (Some 5%Z)]) as (M & E & _).
  - cbn. lia.
  - intros b [Hb|[Hb|[]]]; [injection Hb as <-; cbn; lia|discriminate].
  - cbn [app] in E. revert E. unfold micro_run. cbn [fold_left]. unfold micro_do at 3. cbn [micro_setU]. unfold micro_do at 2. cbn [micro_setU].
    unfold micro_do, micro_setLaue. destruct ((0 <? 5) && (5 <=? 14))%Z; [destruct (new_bravais _ _ _)|]; reflexivity.
Qed.

(** The group cannot be changed: setLaue raises for every argument, and getLaue returns the constructor's group after any
    calls.  A wrong number of arguments of setU is a NameError. *)
Theorem C94_setLaue_refuted : forall m a m', micro_setLaue m a <> Ok m'.
Proof.
  intros m a m'. unfold micro_setLaue. destruct a as [k|]; [|discriminate]. destruct ((0 <? k) && (k <=? 14))%Z; [|discriminate].
  destruct (new_bravais _ _ _); discriminate.
Qed.
Print Assumptions C94_setLaue_refuted.
Theorem C94_group_kept : forall U G cs, micro_getLaue (micro_run (new_micro U (Some G)) cs) = G.
Proof.
  intros U G cs. assert (E : mi_Laue (new_micro U (Some G)) = G) by reflexivity. revert E. generalize (new_micro U (Some G)).
  unfold micro_getLaue, micro_run. induction cs as [|c cs IH]; intros m E; [exact E|]. cbn [fold_left]. apply IH. unfold micro_do. destruct c as [b|k].
  - destruct b as [N|l]; [exact E|]. destruct l as [|a [|b [|c [|d [|e l]]]]]; exact E.
  - unfold micro_setLaue. destruct k as [k|]; [|exact E]. destruct ((0 <? k) && (k <=? 14))%Z; [|exact E]. destruct (new_bravais _ _ _); exact E.
Qed.
Print Assumptions C94_group_kept.
(** Without a group the object keeps the 24 rotations of the cube: the rotation matrices whose entries are integers. *)
Theorem C94_default_group : forall U cs, let G := micro_getLaue (micro_run (new_micro U None) cs) in
  length G = 24%nat /\ forall Q : mat R, In Q G <-> exists M : mat Z, orthogonal 3 M /\ det M = 1%Z /\ Q = RZ M.
Proof.
  intros U cs G. assert (E : G = map RZ CUBIC_LAUE_GROUP).
  { unfold G. rewrite <- (C94_group_kept U (map RZ CUBIC_LAUE_GROUP) cs). reflexivity. }
  rewrite E, map_length. split; [reflexivity|]. intros Q. rewrite in_map_iff. pose proof (proj2 C10_cubic_table) as T. split.
  - intros (M & <- & HM). apply T in HM. exists M. split; [apply HM|]. split; [apply HM|reflexivity].
  - intros (M & O & D & ->). exists M. split; [reflexivity|]. apply T. now split.
Qed.
Print Assumptions C94_default_group.
Theorem C94_arguments_refuted : forall m l, ~ (1 <= length l <= 4)%nat -> micro_setU m (Numbers l) = Raise NameError.
Proof. intros m l H. now apply setU_bad. Qed.
Print Assumptions C94_arguments_refuted.
