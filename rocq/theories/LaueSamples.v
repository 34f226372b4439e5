(** The rotations accepted for the sample lattices of setLaue (types 6 to 14). *)
From Verif Require Import RMat LinAlg GroupSpec GroupModel GroupProofs LatticeModel LatticeSpec LatticeProofs LatticeGroups LatticeLaue LatticeComplete
  BravaisModel BravaisSpec BravaisProofs BravaisLaue BravaisHex BravaisSym Eig.
Local Open Scope R_scope.

Lemma nearby x m : IZR m + (1 / 100000000 + 1 / 100000 * (Rabs (IZR m) + 1)) < x < IZR m + 1 - (1 / 100000000 + 1 / 100000 * (Rabs (IZR m) + 1)) ->
  forall z, Rabs (x - IZR z) <= 1 / 2 -> 1 / 100000000 + 1 / 100000 * Rabs (IZR z) < Rabs (x - IZR z).
Proof.
  intros H z Hz. pose proof (Rabs_pos (IZR m)) as Pm.
  assert (z = m \/ z = m + 1)%Z as [-> | ->].
  { assert (m - 1 < z < m + 2)%Z; [|lia]. split; apply lt_IZR; rewrite ?minus_IZR, ?plus_IZR; unfold Rabs in Hz; destruct (Rcase_abs (x - IZR z)) in Hz; lra. }
  - rewrite (Rabs_pos_eq (x - IZR m)) by lra. lra.
  - rewrite plus_IZR in *. pose proof (Rabs_triang (IZR m) 1) as T. rewrite (Rabs_pos_eq 1) in T by lra.
    rewrite (Rabs_left (x - _)) by lra. lra.
Qed.

Lemma wfm {A} {O : Ops A} (P Q : mat A) : wf 3 3 P -> wf 3 3 Q -> wf 3 3 (mmul P Q).
Proof. intros. apply (wf_mmul 3 3 3); auto; lia. Qed.
Ltac wfs := repeat first [assumption | apply wfm | apply wf_RZ | apply wf_mscale; [lia|] | now apply wfb_spec | lia].
(** Rejection of Q for the base E with inverse F: an entry of F Q E is far from all integers. *)
Lemma rejects E F Q i j m : base 3 E -> wf 3 3 F -> wf 3 3 Q -> mmul E F = eye 3 -> (i < 3)%nat -> (j < 3)%nat ->
  IZR m + (1 / 100000000 + 1 / 100000 * (Rabs (IZR m) + 1)) < get (mmul F (mmul Q E)) i j < IZR m + 1 - (1 / 100000000 + 1 / 100000 * (Rabs (IZR m) + 1)) ->
  lat_eq E (mmul Q E) = Ok false.
Proof.
  intros B WF WQ EF Hi Hj H. pose proof (proj1 (proj2 B)) as WE.
  assert (WA : wf 3 3 (mmul F (mmul Q E))) by wfs.
  apply (lat_eq_false2 3 E B _ (mmul F (mmul Q E)) i j WA); auto; [|now apply (nearby _ m)].
  rewrite <- (mmul_assoc 3 3 3 3), EF, (mmul_eye_l 3 3) by wfs. reflexivity.
Qed.

(** * Rational bases *)
Definition adj3 (M : mat Z) : mat Z :=
  match M with
  | [[a; b; c]; [d; e; f]; [g; h; i]] =>
    [[e * i - f * h; c * h - b * i; b * f - c * e]; [f * g - d * i; a * i - c * g; c * d - a * f]; [d * h - e * g; b * g - a * h; a * e - b * d]]%Z
  | _ => []
  end.
Definition far_entry (d n : Z) : bool :=
  let q := (n / d)%Z in let r := (n mod d)%Z in let t := (d * (1 + 1000 * (Z.abs q + 1)))%Z in
  ((0 <? d) && (t <? 100000000 * r) && (t <? 100000000 * (d - r)))%Z.
Definition rejectb (M Q : mat Z) : bool :=
  let A := mmul (adj3 M) (mmul Q M) in existsb (fun i => existsb (fun j => far_entry (det M) (get A i j)) [0; 1; 2]%nat) [0; 1; 2]%nat.
Lemma far_entry_ok d n : far_entry d n = true ->
  let m := (n / d)%Z in
  IZR m + (1 / 100000000 + 1 / 100000 * (Rabs (IZR m) + 1)) < IZR n / IZR d < IZR m + 1 - (1 / 100000000 + 1 / 100000 * (Rabs (IZR m) + 1)).
Proof.
  unfold far_entry. cbn zeta. rewrite !andb_true_iff, !Z.ltb_lt. intros ((D & H1) & H2). pose proof (Z.div_mod n d ltac:(lia)) as E.
  set (q := (n / d)%Z) in *. set (r := (n mod d)%Z) in *. clearbody q r. subst n. rewrite plus_IZR, mult_IZR, <- abs_IZR.
  assert (D' : 0 < IZR d) by now apply (IZR_lt 0).
  apply IZR_lt in H1, H2. rewrite !mult_IZR, plus_IZR, mult_IZR, plus_IZR in H1, H2. rewrite minus_IZR in H2.
  set (x := IZR (Z.abs q)) in *. set (y := IZR q). set (e := IZR d) in *. set (s := IZR r) in *. clearbody x y e s.
  replace ((e * y + s) / e) with (y + s / e) by (field; lra). assert (S : s / e * e = s) by (field; lra). set (f := s / e) in *. clearbody f. subst s.
  assert (A : 1 + 1000 * (x + 1) < 100000000 * f) by nra. assert (C : 1 + 1000 * (x + 1) < 100000000 * (1 - f)) by nra. lra.
Qed.
Lemma adj3_l M : wf 3 3 M -> mmul M (adj3 M) = mscale (det M) (eye 3).
Proof. intros W. destruct (wf3_inv M W) as (a & b & c & d & e & f & g & h & i & ->). unfold adj3. mat_eq ltac:(ring). Qed.
Lemma adj3_R M : wf 3 3 M -> mmul (RZ M) (RZ (adj3 M)) = mscale (IZR (det M)) (eye 3).
Proof. intros W. rewrite <- RZ_mmul, adj3_l by exact W. unfold RZ, mmap. set (d := det M). mat_eq ltac:(rewrite ?mult_IZR; ring). Qed.
Lemma mscale2 a b (X : mat R) : wf 3 3 X -> mscale a (mscale b X) = mscale (a * b) X.
Proof. intros W. destruct (wf3_inv X W) as (x1 & x2 & x3 & x4 & x5 & x6 & x7 & x8 & x9 & ->). mat_eq ltac:(ring). Qed.
Lemma mscale_one (X : mat R) : wf 3 3 X -> mscale 1 X = X.
Proof. intros W. destruct (wf3_inv X W) as (x1 & x2 & x3 & x4 & x5 & x6 & x7 & x8 & x9 & ->). mat_eq ltac:(ring). Qed.
Lemma rejectb_ok E k M Q : base 3 E -> wf 3 3 M -> wf 3 3 Q -> k <> 0 -> E = mscale k (RZ M) -> rejectb M Q = true -> lat_eq E (mmul (RZ Q) E) = Ok false.
Proof.
  intros B WM WQ K EE H. unfold rejectb in H. apply existsb_exists in H. destruct H as (i & Hi & H). apply existsb_exists in H. destruct H as (j & Hj & H).
  assert (D : 0 < IZR (det M)) by (apply (IZR_lt 0); unfold far_entry in H; rewrite !andb_true_iff, !Z.ltb_lt in H; tauto).
  apply far_entry_ok in H. cbn zeta in H.
  assert (I3 : forall l, In l [0; 1; 2]%nat -> (l < 3)%nat) by (cbn; intuition lia).
  assert (WA : wf 3 3 (adj3 M)) by (destruct (wf3_inv M WM) as (? & ? & ? & ? & ? & ? & ? & ? & ? & ->); now apply wfb_spec).
  assert (WX : wf 3 3 (mmul (adj3 M) (mmul Q M))) by wfs.
  assert (WY : wf 3 3 (mmul Q M)) by wfs.
  apply (lat_eq_false2 3 E B _ (mscale (/ IZR (det M)) (RZ (mmul (adj3 M) (mmul Q M)))) i j); auto using wf_RZ.
  - apply wf_mscale; [lia|now apply wf_RZ].
  - rewrite EE, (mmul_mscale_l 3), !(mmul_mscale_r 3), mscale2 by wfs.
    rewrite !RZ_mmul, <- !(mmul_assoc 3 3 3 3), adj3_R by wfs.
    rewrite (mmul_assoc 3 3 3 3), <- RZ_mmul, (mmul_mscale_l 3), (mmul_eye_l 3 3), mscale2 by wfs.
    f_equal. field. lra.
  - rewrite (get_mscale 3 3), get_RZ by (wfs; auto). cbn [mul R_ops]. replace (/ IZR (det M) * _) with (IZR (get (mmul (adj3 M) (mmul Q M)) i j) / IZR (det M)) by (unfold Rdiv; apply Rmult_comm).
    apply (nearby _ _ H).
Qed.

Lemma rejects_small E F Q i j m : base 3 E -> wf 3 3 F -> wf 3 3 Q -> mmul E F = eye 3 -> (i < 3)%nat -> (j < 3)%nat -> (Z.abs m <= 9)%Z ->
  IZR m + 1 / 1000 < get (mmul F (mmul Q E)) i j < IZR m + 999 / 1000 -> lat_eq E (mmul Q E) = Ok false.
Proof.
  intros B WF WQ EF Hi Hj Hm H. apply (rejects E F Q i j m); auto. apply IZR_le in Hm. rewrite abs_IZR in Hm. lra.
Qed.

(** * The six sample lattices with right angles *)
Definition sample (k : nat) : mat Z :=
  match k with
  | 6%nat => [[141; 0; 0]; [0; 141; 0]; [0; 0; 200]]
  | 7%nat => [[141; -141; -141]; [141; 141; -141]; [200; 200; 200]]
  | 8%nat => [[141; 0; 0]; [0; 142; 0]; [0; 0; 200]]
  | 9%nat => [[141; -141; 0]; [142; 142; 0]; [0; 0; 400]]
  | 10%nat => [[141; 0; 141]; [142; 142; 0]; [0; 200; 200]]
  | _ => [[141; -141; -141]; [142; 142; -142]; [200; 200; 200]]
  end%Z.
Definition unit (k : nat) : R := match k with 6%nat | 8%nat => / 100 | _ => / 200 end.
Definition turn_kept (k : nat) (Q : mat Z) : bool :=
  let d i := (Z.abs (get Q i i) =? 1)%Z in
  if (k <? 8)%nat then d 2%nat else d 0%nat && d 1%nat && d 2%nat.
Definition right (k : nat) : Prop := (6 <= k <= 11)%nat.
Lemma right_cases k : right k -> (k = 6 \/ k = 7 \/ k = 8 \/ k = 9 \/ k = 10 \/ k = 11)%nat.
Proof. unfold right. lia. Qed.
Lemma sample_table k : right k -> forallb (fun Q => turn_kept k Q || rejectb (sample k) Q) CUBIC_LAUE_GROUP = true.
Proof. intros H. apply right_cases in H. repeat destruct H as [-> | H]; [vm_compute; reflexivity..|subst; vm_compute; reflexivity]. Qed.
Definition Es (k : nat) : mat R := mscale (unit k) (RZ (sample k)).
Lemma Es_base k : right k -> base 3 (Es k).
Proof.
  intros H. apply right_cases in H. assert (W : wf 3 3 (Es k)) by (apply wf_mscale; [lia|]; apply wf_RZ; repeat destruct H as [-> | H]; [..|subst]; now apply wfb_spec).
  split; [now right|]. split; [exact W|]. unfold Es, RZ, mmap. repeat destruct H as [-> | H]; [..|subst]; cbn [unit sample]; mat_unfold_goal; lra.
Qed.
Lemma Es_cubic k Q : right k -> In Q CUBIC_LAUE_GROUP -> lat_eq (Es k) (mmul (RZ Q) (Es k)) = Ok true -> turn_kept k Q = true.
Proof.
  intros H HQ I. pose proof (proj1 (forallb_forall _ _) (sample_table k H) Q HQ) as T. cbn beta in T. apply orb_true_iff in T. destruct T as [T|T]; [exact T|].
  pose proof (Es_base k H) as B. pose proof (proj1 (cubic_iff Q) HQ) as [OQ _].
  rewrite (rejectb_ok (Es k) (unit k) (sample k) Q B) in I; auto; [discriminate| |apply OQ|].
  - apply right_cases in H. repeat destruct H as [-> | H]; [..|subst]; now apply wfb_spec.
  - apply right_cases in H. repeat destruct H as [-> | H]; [..|subst]; cbn [unit]; lra.
Qed.
Definition Fs (k : nat) : mat R :=
  let f (u v w : R) := [u * (100 / 141); v * (if (k <? 8)%nat then 100 / 141 else 100 / 142); w / 2] in
  match k with
  | 6%nat | 8%nat => [f 1 0 0; f 0 1 0; f 0 0 1]
  | 9%nat => [f 1 1 0; f (-1) 1 0; f 0 0 1]
  | 10%nat => [f 1 1 (-1); f (-1) 1 1; f 1 (-1) 1]
  | _ => [f 1 0 1; f (-1) 1 0; f 0 (-1) 1]
  end.
Definition entry00 (k : nat) (p q r s t : R) : R :=
  match k with
  | 6%nat | 8%nat => p
  | 7%nat => p / 2 + q / 2 + t / 2
  | 9%nat | 10%nat => p / 2 + q * (142 / 282) + r * (141 / 284) + s / 2
  | _ => p / 2 + q * (142 / 282) + t / 2
  end.
Lemma Es_entry k p q r s t : right k -> get (mmul (Fs k) (mmul [[p; q; 0]; [r; s; 0]; [0; 0; t]] (Es k))) 0 0 = entry00 k p q r s t.
Proof.
  intros H. apply right_cases in H. repeat destruct H as [-> | H]; [..|subst]; unfold Es, Fs, RZ, mmap; cbn [unit sample entry00 Nat.ltb Nat.leb]; mat_unfold_goal; field.
Qed.
Lemma Es_hex k Q : right k -> In Q HEX_LAUE_GROUP -> lat_eq (Es k) (mmul Q (Es k)) = Ok true -> In Q two_folds.
Proof.
  intros H HQ I. pose proof (Es_base k H) as B. destruct C1S1 as (_ & HC & HS). pose proof sqrt3_bounds as S3.
  assert (WF : wf 3 3 (Fs k)) by (apply right_cases in H; repeat destruct H as [-> | H]; [..|subst]; now apply wfb_spec).
  assert (WQ : wf 3 3 Q) by (apply HEX_group; exact HQ).
  assert (EF : mmul (Es k) (Fs k) = eye 3) by (apply right_cases in H; repeat destruct H as [-> | H]; [..|subst]; unfold Es, Fs, RZ, mmap; cbn [unit sample Nat.ltb Nat.leb]; mat_eq ltac:(field)).
  assert (J : forall p q r s t m, Q = [[p; q; 0]; [r; s; 0]; [0; 0; t]] -> (Z.abs m <= 9)%Z -> IZR m + 1 / 1000 < entry00 k p q r s t < IZR m + 999 / 1000 -> In Q two_folds).
  { intros p q r s t m EQ Hm J. rewrite <- Es_entry, <- EQ in J by exact H. rewrite (rejects_small (Es k) (Fs k) Q 0 0 m) in I by (auto; lia). discriminate. }
  unfold HEX_LAUE_GROUP in HQ. rewrite HC, HS in HQ. set (h := sqrt 3) in *. clearbody h. clear HC HS.
  apply right_cases in H. unfold two_folds, M3. cbn [In] in HQ.
  repeat (destruct HQ as [HQ|HQ]; [first [solve [subst Q; cbn [In]; auto 6] |
    repeat destruct H as [-> | H]; [..|subst k];
    first [ apply (J _ _ _ _ _ (-2)%Z (eq_sym HQ)); [lia|cbn [entry00]; split; lra] | apply (J _ _ _ _ _ (-1)%Z (eq_sym HQ)); [lia|cbn [entry00]; split; lra]
          | apply (J _ _ _ _ _ 0%Z (eq_sym HQ)); [lia|cbn [entry00]; split; lra] | apply (J _ _ _ _ _ 1%Z (eq_sym HQ)); [lia|cbn [entry00]; split; lra]]]|]).
  destruct HQ.
Qed.

(** * The oblique sample lattices *)
Lemma inv_near w : 999 / 1000 <= w <= 1 -> 1 <= / w <= 1002 / 1000 /\ w * / w = 1.
Proof.
  intros H. assert (E : w * / w = 1) by (apply Rinv_r; lra). split; [|exact E]. set (v := / w) in *. clearbody v. split; nra.
Qed.
Section Oblique.
  Variables u w : R.
  Hypothesis Hu : 1 / 100 <= u <= 1 / 40.
  Hypothesis Hw : 999 / 1000 <= w <= 1.
  Definition E12 : mat R := [[141/100; 0; 2 * u]; [0; 142/100; 0]; [0; 0; 2 * w]].
  Definition F12 : mat R := [[100/141; 0; - (100/141) * u * / w]; [0; 100/142; 0]; [0; 0; / w / 2]].
  Definition E13 : mat R := [[141/200; - (141/200); 2 * u]; [142/200; 142/200; 0]; [0; 0; 2 * w]].
  Definition F13 : mat R := [[100/141; 100/142; - (100/141) * u * / w]; [- (100/141); 100/142; 100/141 * u * / w]; [0; 0; / w / 2]].
  Lemma base12 : base 3 E12.
  Proof. split; [now right|]. split; [now apply wfb_spec|]. unfold E12. mat_unfold_goal. lra. Qed.
  Lemma base13 : base 3 E13.
  Proof. split; [now right|]. split; [now apply wfb_spec|]. unfold E13. mat_unfold_goal. lra. Qed.
  Lemma inv12 : mmul E12 F12 = eye 3.
  Proof. unfold E12, F12. mat_eq ltac:(field; lra). Qed.
  Lemma inv13 : mmul E13 F13 = eye 3.
  Proof. unfold E13, F13. mat_eq ltac:(field; lra). Qed.
  Definition mono : list (mat Z) := [I3Z; Qb].
  Ltac at_m J E F v i j m := apply (J i j m); [lia|lia|lia|unfold E, F, RZ, mmap; mat_unfold_goal; fold v; split; lra].
  Ltac at_ij J E F v i j := first [at_m J E F v i j 0%Z | at_m J E F v i j (-1)%Z | at_m J E F v i j 1%Z | at_m J E F v i j (-2)%Z].
  Ltac each_case J E F v := first [ solve [unfold mono, I3Z, Qb; cbn [In]; auto] | exfalso; first [
      at_ij J E F v 0%nat 1%nat | at_ij J E F v 2%nat 1%nat | at_ij J E F v 2%nat 0%nat | at_ij J E F v 0%nat 2%nat | at_ij J E F v 0%nat 0%nat | at_ij J E F v 1%nat 0%nat ]].
  Lemma accept12 Q : In Q CUBIC_LAUE_GROUP -> lat_eq E12 (mmul (RZ Q) E12) = Ok true -> In Q mono.
  Proof.
    intros HQ I. destruct (inv_near w Hw) as (V & WV).
    assert (J : forall i j m, (i < 3)%nat -> (j < 3)%nat -> (Z.abs m <= 9)%Z -> ~ (IZR m + 1 / 1000 < get (mmul F12 (mmul (RZ Q) E12)) i j < IZR m + 999 / 1000)).
    { intros i j m Hi Hj Hm J. rewrite (rejects_small E12 F12 (RZ Q) i j m) in I; auto using base12, inv12; [discriminate|now apply wfb_spec|apply wf_RZ; now apply cubic_iff]. }
    clear I. set (v := / w) in *. assert (UV : 1 / 100 <= u * v <= 26 / 1000) by nra. assert (UVW : u * v * w = u) by (rewrite Rmult_assoc, (Rmult_comm v), WV; ring).
    unfold CUBIC_LAUE_GROUP in HQ. cbn [In] in HQ.
    repeat (destruct HQ as [<-|HQ]; [each_case J E12 F12 v|]). destruct HQ.
  Qed.
  Lemma accept13 Q : In Q CUBIC_LAUE_GROUP -> lat_eq E13 (mmul (RZ Q) E13) = Ok true -> In Q mono.
  Proof.
    intros HQ I. destruct (inv_near w Hw) as (V & WV).
    assert (J : forall i j m, (i < 3)%nat -> (j < 3)%nat -> (Z.abs m <= 9)%Z -> ~ (IZR m + 1 / 1000 < get (mmul F13 (mmul (RZ Q) E13)) i j < IZR m + 999 / 1000)).
    { intros i j m Hi Hj Hm J. rewrite (rejects_small E13 F13 (RZ Q) i j m) in I; auto using base13, inv13; [discriminate|now apply wfb_spec|apply wf_RZ; now apply cubic_iff]. }
    clear I. set (v := / w) in *. assert (UV : 1 / 100 <= u * v <= 26 / 1000) by nra. assert (UVW : u * v * w = u) by (rewrite Rmult_assoc, (Rmult_comm v), WV; ring).
    unfold CUBIC_LAUE_GROUP in HQ. cbn [In] in HQ.
    repeat (destruct HQ as [<-|HQ]; [each_case J E13 F13 v|]). destruct HQ.
  Qed.
End Oblique.
Section Triclinic.
  Variables g h s y z : R.
  Hypothesis Hg : - (1 / 20) <= g <= - (1 / 50).
  Hypothesis Hs : 999 / 1000 <= s <= 1.
  Hypothesis Hy : 1 / 100 <= y <= 1 / 10.
  Hypothesis Hz : 197 / 100 <= z <= 201 / 100.
  Definition E14 : mat R := [[141/100; 142/100 * g; 2 * h]; [0; 142/100 * s; y]; [0; 0; z]].
  Definition F14 : mat R := [[100/141; - (100/141) * g * / s; 100/141 * (g * y * / s - 2 * h) * / z]; [0; 100/142 * / s; - (100/142) * y * / s * / z]; [0; 0; / z]].
  Lemma base14 : base 3 E14.
  Proof. split; [now right|]. split; [now apply wfb_spec|]. unfold E14. mat_unfold_goal. nra. Qed.
  Lemma inv14 : mmul E14 F14 = eye 3.
  Proof. unfold E14, F14. mat_eq ltac:(field; lra). Qed.
  Ltac at_m J v p i j m := apply (J i j m); [lia|lia|lia|unfold E14, F14, RZ, mmap; mat_unfold_goal; fold v; fold p; split; lra].
  Ltac at_ij J v p i j := first [at_m J v p i j 0%Z | at_m J v p i j (-1)%Z | at_m J v p i j 1%Z | at_m J v p i j (-2)%Z].
  Lemma accept14 Q : In Q CUBIC_LAUE_GROUP -> lat_eq E14 (mmul (RZ Q) E14) = Ok true -> In Q [I3Z].
  Proof.
    intros HQ I. destruct (inv_near s Hs) as (V & SV).
    assert (J : forall i j m, (i < 3)%nat -> (j < 3)%nat -> (Z.abs m <= 9)%Z -> ~ (IZR m + 1 / 1000 < get (mmul F14 (mmul (RZ Q) E14)) i j < IZR m + 999 / 1000)).
    { intros i j m Hi Hj Hm J. rewrite (rejects_small E14 F14 (RZ Q) i j m) in I; auto using base14, inv14; [discriminate|now apply wfb_spec|apply wf_RZ; now apply cubic_iff]. }
    clear I. assert (ZP : z * / z = 1) by (apply Rinv_r; lra). set (v := / s) in *. set (p := / z) in *.
    assert (P : 49 / 100 <= p <= 51 / 100) by (clear - ZP Hz; clearbody p; split; nra).
    assert (SP : 48 / 100 <= s * p <= 52 / 100) by nra. assert (GVS : g * v * s = g) by (rewrite Rmult_assoc, (Rmult_comm v), SV; ring).
    assert (YV : 1 / 100 <= y * v <= 11 / 100) by nra. assert (YVPZ : y * v * p * z = y * v) by (rewrite Rmult_assoc, (Rmult_comm p), ZP; ring).
    unfold CUBIC_LAUE_GROUP in HQ. cbn [In] in HQ.
    repeat (destruct HQ as [<-|HQ]; [first [ solve [unfold I3Z; cbn [In]; auto] | exfalso; first [
      at_ij J v p 2%nat 0%nat | at_ij J v p 1%nat 0%nat | at_ij J v p 2%nat 1%nat | at_ij J v p 0%nat 1%nat | at_ij J v p 1%nat 2%nat ]]|]). destruct HQ.
  Qed.
End Triclinic.

