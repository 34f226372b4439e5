(** From rejection to the group *)
From Verif Require Import RMat LinAlg GroupSpec GroupModel GroupProofs LatticeModel LatticeSpec LatticeProofs LatticeGroups LatticeLaue LatticeComplete
  BravaisModel BravaisSpec BravaisProofs BravaisLaue BravaisHex BravaisSym Eig LaueSamples.
Local Open Scope R_scope.

Lemma laue_kept E : base 3 E -> Laue_group E = Ok (if (length (kept E cubic_arr) =? 4)%nat then
  if (length (kept E cubic_arr) <? length (kept E hex_arr))%nat then kept E hex_arr else kept E cubic_arr else kept E cubic_arr).
Proof.
  intros B. pose proof (keep_kept 3 E B cubic_arr (proj2 cubic_T)) as K1. pose proof (keep_kept 3 E B hex_arr (proj2 hex_T)) as K2.
  pose proof (len_base 3 E B) as Hl. unfold Laue_group, pick_group. rewrite Hl, K1, K2. cbn [bind]. now destruct (_ =? 4)%nat.
Qed.
Lemma laue_exact E L G : base 3 E -> Laue_group E = Ok G ->
  (forall Q, In Q CUBIC_LAUE_GROUP -> lat_eq E (mmul (RZ Q) E) = Ok true -> In Q L) ->
  ((4 <= length L)%nat -> forall Q, In Q HEX_LAUE_GROUP -> lat_eq E (mmul Q E) = Ok true -> In Q (map RZ L)) ->
  (length L <= length G)%nat -> NoDup G /\ length G = length L /\ forall Q, In Q G <-> In Q (map RZ L).
Proof.
  intros B EG HC HH HL. rewrite (laue_kept E B) in EG.
  assert (N1 : NoDup (kept E cubic_arr)) by (apply (kept_NoDup 3); apply cubic_T). assert (N2 : NoDup (kept E hex_arr)) by (apply (kept_NoDup 3); apply hex_T).
  assert (A1 : incl (kept E cubic_arr) (map RZ L)).
  { intros X HX. apply (in_kept 3 E B cubic_arr (proj2 cubic_T)) in HX. destruct HX as [HX HY]. unfold cubic_arr in HX. rewrite map_values_int in HX.
    apply in_map_iff in HX. destruct HX as (Q & <- & HQ). assert (OQ : orthogonal 3 Q) by now apply cubic_iff.
    rewrite (inpoint_red 3 E B) in HY by exact (orth_arr_values 3 (IntArr Q) OQ). now apply in_map, HC. }
  assert (A2 : (length (kept E cubic_arr) = 4)%nat -> incl (kept E hex_arr) (map RZ L)).
  { intros K X HX. apply (in_kept 3 E B hex_arr (proj2 hex_T)) in HX. destruct HX as [HX HY]. unfold hex_arr in HX. rewrite map_values_flt in HX.
    rewrite (inpoint_red 3 E B) in HY by exact (proj1 (proj2 HEX_group X HX)). apply HH; auto.
    pose proof (NoDup_incl_length N1 A1) as K'. rewrite map_length in K'. lia. }
  assert (NG : NoDup G /\ incl G (map RZ L)).
  { destruct (Nat.eqb_spec (length (kept E cubic_arr)) 4) as [K|K]; [|injection EG as <-; auto].
    destruct (Nat.ltb _ _) in EG; injection EG as <-; auto. }
  destruct NG as [NG IG]. pose proof (NoDup_incl_length NG IG) as K. rewrite map_length in K. split; [exact NG|]. split; [lia|].
  intros Q. split; [apply IG|]. apply (NoDup_length_incl NG); [now rewrite map_length|exact IG].
Qed.
(** 24 elements cannot come from the table with 12. *)
Lemma laue_cubic E G : base 3 E -> Laue_group E = Ok G -> length G = 24%nat -> NoDup G /\ forall Q, In Q G <-> In Q (map RZ CUBIC_LAUE_GROUP).
Proof.
  intros B EG HL. rewrite (laue_kept E B) in EG.
  assert (N1 : NoDup (kept E cubic_arr)) by (apply (kept_NoDup 3); apply cubic_T).
  assert (A1 : incl (kept E cubic_arr) (map RZ CUBIC_LAUE_GROUP)).
  { intros X HX. apply (in_kept 3 E B cubic_arr (proj2 cubic_T)) in HX. destruct HX as [HX HY]. unfold cubic_arr in HX. now rewrite map_values_int in HX. }
  assert (EG' : G = kept E cubic_arr).
  { destruct (_ =? 4)%nat; [|now injection EG]. destruct (Nat.ltb _ _) in EG; injection EG as <-; [|reflexivity]. exfalso.
    pose proof (kept_le E hex_arr) as K. change (length hex_arr) with 12%nat in K. lia. }
  subst G. split; [exact N1|]. intros Q. split; [apply A1|]. apply (NoDup_length_incl N1); [rewrite map_length; change (length CUBIC_LAUE_GROUP) with 24%nat; lia|exact A1].
Qed.
