(** C12-C16: lattice equality, point groups, Laue groups, integer representations. *)
From Coq Require Logic.FinFun.
From Verif Require Import LinAlg GroupSpec GroupModel GroupProofs LatticeModel LatticeSpec LatticeProofs LatticeGroups LatticeLaue LatticeComplete LatticeMore.
Local Open Scope R_scope.

Definition eps : R := 9 / 1000000.
Ltac meq tac := unfold values, RZ, mmap; mat_eq tac.

(** * C12 *)
(** Two lattices that are the same compare equal, in both directions. *)
Theorem C12_same_lattice_equal_partial n E1 E2 : base n E1 -> base n E2 -> same_lattice n E1 E2 ->
  lat_eq E1 E2 = Ok true /\ lat_eq E2 E1 = Ok true.
Proof.
  intros B1 B2 H. split.
  - assert (S : sub_lattice n E2 E1) by (intros x; apply H). apply (sub_lattice_iff n E1 B1) in S; [|apply B2].
    destruct S as (M & WM & ->). now apply (lat_eq_exact n).
  - assert (S : sub_lattice n E1 E2) by (intros x; apply H). apply (sub_lattice_iff n E2 B2) in S; [|apply B1].
    destruct S as (M & WM & ->). now apply (lat_eq_exact n).
Qed.
Theorem C12_reflexive n E : base n E -> lat_eq E E = Ok true.
Proof. intros B. apply (C12_same_lattice_equal_partial n E E B B). intros x. tauto. Qed.
(** The comparison always answers, and it answers true exactly when E1^-1 E2 is integer within the tolerance. *)
Theorem C12_meaning_partial n E1 E2 : base n E1 -> base n E2 ->
  exists A M, wf n n A /\ wf n n M /\ mmul E1 A = E2 /\
    (forall i j, (i < n)%nat -> (j < n)%nat -> Rabs (get A i j - IZR (get M i j)) <= 1 / 2) /\
    exists b, lat_eq E1 E2 = Ok b /\
      (b = true <-> forall i j, (i < n)%nat -> (j < n)%nat ->
         Rabs (get A i j - IZR (get M i j)) <= 1 / 100000000 + 1 / 100000 * Rabs (IZR (get M i j))).
Proof.
  intros B1 B2. pose proof (dim23_pos n (proj1 B1)) as Hn. pose proof (proj1 (proj2 B1)) as W1. pose proof (proj1 (proj2 B2)) as W2.
  pose proof (wf_minv n E1 (proj1 B1) W1) as WI.
  exists (mmul (minv E1) E2), (rintm (mmul (minv E1) E2)). assert (WA : wf n n (mmul (minv E1) E2)) by now apply (wf_mmul n n n).
  split; [exact WA|]. split; [now apply wf_rintm|]. split; [symmetry; now apply (solve_left n E1 B1)|]. split.
  - intros i j Hi Hj. unfold rintm. rewrite (get_mmap rint rint_0). apply rint_close.
  - destruct (lat_eq_total n E1 B1 E2 W2) as [b Hb]. exists b. split; [exact Hb|].
    pose proof (lat_eq_near n E1 B1 E2 W2) as K. rewrite Hb in K. unfold near_integer in K. rewrite <- K.
    split; [now intros ->|]. intros [= ->]. reflexivity.
Qed.
(** Lattices of different dimensions are compared without an error and are never equal. *)
Theorem C12_dimensions n1 n2 E1 E2 : base n1 E1 -> base n2 E2 -> n1 <> n2 ->
  lat_eq E1 E2 = Ok false /\ ~ exists x, in_lattice n1 E1 x /\ in_lattice n2 E2 x.
Proof.
  intros (D1 & W1 & _) (D2 & W2 & _) H. pose proof (proj1 W1) as L1. pose proof (proj1 W2) as L2. split.
  - unfold lat_eq. rewrite L1, L2. destruct (Nat.eqb_spec n1 n2); [contradiction|reflexivity].
  - intros (x & (z1 & _ & X1) & (z2 & _ & X2)). apply H. apply (f_equal (@length R)) in X1, X2.
    unfold mvmul in X1, X2. rewrite length_mkv in X1, X2. unfold nrows in X1, X2. congruence.
Qed.
(** For bases of equal cell volume whose change-of-basis matrix is exactly integer when it is accepted, equality
    is exactly "same lattice". *)
Theorem C12_exact_partial n E1 E2 : base n E1 -> base n E2 -> Rabs (det E1) = Rabs (det E2) ->
  (lat_eq E1 E2 = Ok true -> exists M : mat Z, wf n n M /\ E2 = mmul E1 (RZ M)) ->
  (lat_eq E1 E2 = Ok true <-> same_lattice n E1 E2).
Proof.
  intros B1 B2 HV HE. split.
  - intros H. destruct (HE H) as (M & WM & E). pose proof (wf_RZ n n M WM) as WR.
    pose proof (dim23_pos n (proj1 B1)) as Hn. pose proof (proj1 (proj2 B1)) as W1.
    assert (DM : (det M = 1 \/ det M = -1)%Z).
    { rewrite E, (det_mmul n), <- RZ_det, Rabs_mult in HV; [|exact (proj1 B1)|exact W1|exact WR].
      assert (Rabs (IZR (det M)) = 1).
      { apply (Rmult_eq_reg_l (Rabs (det E1))); [lra|]. apply Rabs_no_R0. apply B1. }
      rewrite <- abs_IZR in H0. apply eq_IZR in H0. lia. }
    destruct (unimod_inv n M (proj1 B1) WM DM) as (N & WN & MN & NM).
    assert (S1 : sub_lattice n E2 E1) by (apply (sub_lattice_iff n E1 B1); [apply B2|eauto]).
    assert (S2 : sub_lattice n E1 E2).
    { apply (sub_lattice_iff n E2 B2); [exact W1|]. exists N. split; [exact WN|].
      rewrite E, (mmul_assoc n n n n), <- RZ_mmul, MN, RZ_eye, (mmul_eye_r n n); auto using wf_RZ. }
    intros x. split; [apply S2|apply S1].
  - intros H. now apply (C12_same_lattice_equal_partial n).
Qed.

Definition E3I : mat R := M2 3 0 0 3.
Lemma base2 a b c d : a * d - b * c <> 0 -> base 2 (M2 a b c d).
Proof. intros H. split; [now left|]. split; [split; [reflexivity|cbn; intros r [<-|[<-|[]]]; reflexivity]|]. unfold M2. rewrite det2. cbn. exact H. Qed.
Lemma wfM2 a b c d : wf 2 2 (M2 a b c d).
Proof. split; [reflexivity|cbn; intros r [<-|[<-|[]]]; reflexivity]. Qed.
Lemma wfZ2 (a b c d : Z) : wf 2 2 [[a; b]; [c; d]].
Proof. split; [reflexivity|cbn; intros r [<-|[<-|[]]]; reflexivity]. Qed.
Lemma lt2 (P : nat -> nat -> Prop) : P 0%nat 0%nat -> P 0%nat 1%nat -> P 1%nat 0%nat -> P 1%nat 1%nat ->
  forall i j, (i < 2)%nat -> (j < 2)%nat -> P i j.
Proof. intros ? ? ? ? i j Hi Hj. destruct i as [|[|?]], j as [|[|?]]; try lia; auto. Qed.
Ltac rabs := repeat (match goal with |- context [Rabs ?x] => first [rewrite (Rabs_pos_eq x) by lra | rewrite (Rabs_left1 x) by lra] end).

(** == is not symmetric: the unit square lattice equals every sublattice of itself, but not conversely; the two
    lattices differ. *)
Theorem C12_symmetric_refuted : exists E1 E2, base 2 E1 /\ base 2 E2 /\
  lat_eq E1 E2 = Ok true /\ lat_eq E2 E1 = Ok false /\ ~ same_lattice 2 E1 E2.
Proof.
  assert (B1 : base 2 (M2 1 0 0 1)) by (apply base2; lra). assert (B2 : base 2 E3I) by (apply base2; lra).
  exists (M2 1 0 0 1), E3I. split; [exact B1|]. split; [exact B2|].
  assert (F : lat_eq E3I (M2 1 0 0 1) = Ok false).
  { eapply (lat_eq_false 2 _ B2 _ (M2 (1/3) 0 0 (1/3)) 0 0 0); [apply wfM2|unfold E3I; meq ltac:(field)|lia|lia|..]; cbn; rabs; lra. }
  split; [|split; [exact F|]].
  - eapply (lat_eq_true 2 _ B1 _ E3I [[3;0];[0;3]]%Z); [apply wfM2|apply wfZ2|unfold E3I; meq ltac:(ring)|].
    apply lt2; cbn; rabs; lra.
  - intros K. pose proof (proj2 (C12_same_lattice_equal_partial 2 _ _ B1 B2 K)) as K'. rewrite F in K'. discriminate.
Qed.
Theorem C12_transitive_refuted : exists E1 E2 E3, base 2 E1 /\ base 2 E2 /\ base 2 E3 /\
  lat_eq E1 E2 = Ok true /\ lat_eq E2 E3 = Ok true /\ lat_eq E1 E3 = Ok false.
Proof.
  pose (x := 1 + eps). assert (Hx : x = 1 + 9 / 1000000) by reflexivity.
  assert (B1 : base 2 (M2 1 0 0 1)) by (apply base2; lra). assert (B2 : base 2 (M2 x 0 0 1)) by (apply base2; lra).
  assert (B3 : base 2 (M2 (x * x) 0 0 1)) by (apply base2; nra).
  exists (M2 1 0 0 1), (M2 x 0 0 1), (M2 (x * x) 0 0 1). split; [exact B1|]. split; [exact B2|]. split; [exact B3|]. split; [|split].
  - eapply (lat_eq_true 2 _ B1 _ (M2 x 0 0 1) [[1;0];[0;1]]%Z); [apply wfM2|apply wfZ2|meq ltac:(ring)|]. apply lt2; cbn; rabs; lra.
  - eapply (lat_eq_true 2 _ B2 _ (M2 x 0 0 1) [[1;0];[0;1]]%Z); [apply wfM2|apply wfZ2|meq ltac:(ring)|]. apply lt2; cbn; rabs; lra.
  - eapply (lat_eq_false 2 _ B1 _ (M2 (x * x) 0 0 1) 0 0 1); [apply wfM2|meq ltac:(ring)|lia|lia|..]; cbn.
    + rewrite Hx. rabs; lra.
    + rewrite Hx. rabs; lra.
Qed.
Lemma wfM3 a b c d e f g h i : wf 3 3 (M3 a b c d e f g h i).
Proof. split; [reflexivity|cbn; intros r [<-|[<-|[<-|[]]]]; reflexivity]. Qed.
Lemma base3 a b c d e f g h i : a * (e * i - f * h) - b * (d * i - f * g) + c * (d * h - e * g) <> 0 -> base 3 (M3 a b c d e f g h i).
Proof. intros H. split; [now right|]. split; [apply wfM3|]. unfold M3. rewrite det3. cbn. lra. Qed.
Example C12_dimensions_case : lat_eq (M2 1 0 0 1) (M3 1 0 0 0 1 0 0 0 1) = Ok false.
Proof. apply (C12_dimensions 2 3); [apply base2; lra|apply base3; lra|discriminate]. Qed.
Example C12_case : same_lattice 2 (M2 1 0 0 1) (M2 1 1 0 1) /\ lat_eq (M2 1 0 0 1) (M2 1 1 0 1) = Ok true.
Proof.
  assert (B1 : base 2 (M2 1 0 0 1)) by (apply base2; lra). assert (B2 : base 2 (M2 1 1 0 1)) by (apply base2; lra).
  assert (K : same_lattice 2 (M2 1 0 0 1) (M2 1 1 0 1)).
  { assert (S1 : sub_lattice 2 (M2 1 0 0 1) (M2 1 1 0 1)).
    { apply (sub_lattice_iff 2 _ B2); [apply wfM2|]. exists [[1;-1];[0;1]]%Z. split; [apply wfZ2|meq ltac:(ring)]. }
    assert (S2 : sub_lattice 2 (M2 1 1 0 1) (M2 1 0 0 1)).
    { apply (sub_lattice_iff 2 _ B1); [apply wfM2|]. exists [[1;1];[0;1]]%Z. split; [apply wfZ2|meq ltac:(ring)]. }
    intros x. split; [apply S1|apply S2]. }
  split; [exact K|]. now apply (C12_same_lattice_equal_partial 2).
Qed.

(** * C13 *)
Theorem C13_accepts_symmetries n E Q : base n E -> orthogonal n (values Q) -> preserves n (values Q) E ->
  inpointgroup E Q = Ok true.
Proof.
  intros B OQ HP. apply (inpoint_preserves n E B); [|exact HP]. destruct Q as [M|M]; cbn in *; [|exact OQ].
  destruct OQ as [W K]. assert (WM : wf n n M).
  { unfold RZ, mmap in W. destruct W as [L Hr]. split; [now rewrite map_length in L|]. intros r Hin.
    specialize (Hr (map IZR r) ltac:(now apply in_map)). now rewrite map_length in Hr. }
  split; [exact WM|]. apply RZ_inj. now rewrite RZ_mmul, RZ_tr, RZ_eye.
Qed.
(** It answers for every matrix; true means: Q is square of the right size, orthogonal within tolerance, and
    E^-1 Q E is an integer matrix within tolerance. *)
Theorem C13_meaning n E Q : base n E ->
  exists b, inpointgroup E Q = Ok b /\
    (b = true -> wf n n (values Q) /\
       Rabs (Rabs (det (values Q)) - 1) < 1 / 1000000 /\
       (forall i j, (i < n)%nat -> (j < n)%nat ->
          Rabs (get (mmul (values Q) (tr (values Q))) i j - get (eye n) i j) <= 1 / 100000000 + 1 / 100000 * Rabs (get (eye n) i j)) /\
       exists A M, wf n n A /\ wf n n M /\ mmul (values Q) E = mmul E A /\
         forall i j, (i < n)%nat -> (j < n)%nat ->
           Rabs (get A i j - IZR (get M i j)) <= 1 / 100000000 + 1 / 100000 * Rabs (IZR (get M i j))).
Proof. exact (inpoint_meaning n E Q). Qed.
(** When it answers true and the tolerances are met exactly, Q maps the lattice onto itself. *)
Theorem C13_sound n E Q : base n E -> inpointgroup E Q = Ok true ->
  mmul (values Q) (tr (values Q)) = eye n ->
  (forall A, wf n n A -> mmul (values Q) E = mmul E A -> exists M : mat Z, A = RZ M) -> preserves n (values Q) E.
Proof.
  intros B HA HO HX. destruct (C13_meaning n E Q B) as (b & Hb & K). rewrite HA in Hb. injection Hb as <-.
  destruct (K eq_refl) as (WQ & _ & _ & A & M & WA & _ & EA & _).
  apply (preserves_iff n E B); [now split|]. destruct (HX A WA EA) as (N & ->). exists N. split; [|exact EA].
  now apply wf_RZ_inv.
Qed.
Example C13_case : inpointgroup (M2 2 1 0 1) (IntArr [[-1;0];[0;-1]]%Z) = Ok true /\ inpointgroup (M2 1 0 0 3) (IntArr [[0;-1];[1;0]]%Z) = Ok false.
Proof.
  assert (B1 : base 2 (M2 2 1 0 1)) by (apply base2; lra). assert (B2 : base 2 (M2 1 0 0 3)) by (apply base2; lra). split.
  - apply (C13_accepts_symmetries 2); [exact B1|split; [apply wfM2|meq ltac:(ring)]|].
    apply (preserves_iff 2 _ B1); [split; [apply wfM2|meq ltac:(ring)]|]. exists [[-1;0];[0;-1]]%Z. split; [apply wfZ2|meq ltac:(ring)].
  - rewrite (inpoint_red 2 _ B2); [|split; [apply wfZ2|reflexivity]].
    eapply (lat_eq_false 2 _ B2 _ (M2 0 (-3) (1/3) 0) 1 0 0); [apply wfM2|meq ltac:(field)|lia|lia|..]; cbn; rabs; lra.
Qed.

(** * C14 *)
Theorem C14_laue_partial n E : base n E -> exists G, Laue_group E = Ok G /\ NoDup G /\ In (eye n) G /\
  (forall Q, In Q G -> rotation_matrix n Q /\ inpointgroup E (FltArr Q) = Ok true) /\
  (resolved n E -> is_group n G).
Proof.
  intros B. destruct (laue_result n E B) as (G & EG & ND & I & A & C). exists G. split; [exact EG|]. split; [exact ND|]. split; [exact I|]. split.
  - intros Q HQ. destruct (A Q HQ) as (A1 & A2 & A3). split; [|exact A3]. split; [exact A2|]. now apply (tabled_det n Q (proj1 B)).
  - intros RS. apply C. intros Q HQ. apply RS. now apply rot_in_iso.
Qed.
Theorem C14_point_group_partial n E : base n E -> exists G, point_group E = Ok G /\ NoDup G /\ In (eye n) G /\
  (forall Q, In Q G -> orthogonal n Q /\ inpointgroup E (FltArr Q) = Ok true) /\
  (resolved n E -> is_group n G).
Proof.
  intros B. destruct (point_result n E B) as (G & EG & ND & I & A & C). exists G. split; [exact EG|]. split; [exact ND|]. split; [exact I|]. split.
  - intros Q HQ. destruct (A Q HQ) as (A1 & A2 & A3). auto.
  - intros RS. now apply C.
Qed.
Theorem C14_other_dimensions n E : wf n n E -> n <> 2%nat -> n <> 3%nat -> Laue_group E = Raise AttributeError.
Proof. intros [L _] H2 H3. unfold Laue_group. rewrite L. destruct n as [|[|[|[|n]]]]; try reflexivity; congruence. Qed.

Definition E_ortho : mat R := M3 1 0 0 0 (1 + eps) 0 0 0 (1 + 2 * eps).
Lemma wfZ3 (a b c d e f g h i : Z) : wf 3 3 [[a; b; c]; [d; e; f]; [g; h; i]].
Proof. split; [reflexivity|cbn; intros r [<-|[<-|[<-|[]]]]; reflexivity]. Qed.
Lemma lt3 (P : nat -> nat -> Prop) :
  (P 0 0 /\ P 0 1 /\ P 0 2 /\ P 1 0 /\ P 1 1 /\ P 1 2 /\ P 2 0 /\ P 2 1 /\ P 2 2)%nat ->
  forall i j, (i < 3)%nat -> (j < 3)%nat -> P i j.
Proof. intros ? i j Hi Hj. destruct i as [|[|[|?]]], j as [|[|[|?]]]; try lia; tauto. Qed.
Lemma E_ortho_base : base 3 E_ortho.
Proof. apply base3. unfold eps. lra. Qed.

(** The Laue group of a nearly cubic orthorhombic lattice, as computed, is not closed under products: the tolerance of == accepts
    the swaps of neighbouring axes and rejects their product. *)
Theorem C14_refuted : exists E G P Q, base 3 E /\ Laue_group E = Ok G /\ In P G /\ In Q G /\ ~ In (mmul P Q) G.
Proof.
  pose (P := [[0;-1;0];[1;0;0];[0;0;1]]%Z). pose (Q := [[1;0;0];[0;0;-1];[0;1;0]]%Z).
  pose (D1 := [[1;0;0];[0;-1;0];[0;0;-1]]%Z). pose (D2 := [[-1;0;0];[0;1;0];[0;0;-1]]%Z). pose (D0 := [[1;0;0];[0;1;0];[0;0;1]]%Z).
  pose proof E_ortho_base as B. set (a := 1 + eps). set (b := 1 + 2 * eps).
  assert (Ha : a = 1 + 9 / 1000000) by reflexivity. assert (Hb : b = 1 + 18 / 1000000) by (unfold b, eps; lra).
  assert (ia : / a * a = 1) by (apply Rinv_l; lra). assert (ib : / b * b = 1) by (apply Rinv_l; lra).
  assert (Ia : 1 - 9 / 1000000 < / a < 1) by nra. assert (Ib : 1 - 18 / 1000000 < / b < 1) by nra.
  assert (Iba : 1 < b * / a < 1 + 9 / 1000000) by nra. assert (Iab : 1 - 9 / 1000000 < a * / b < 1) by nra.
  assert (HE : E_ortho = M3 1 0 0 0 a 0 0 0 b) by reflexivity. clearbody a b.
  assert (acc : forall M A, In M CUBIC_LAUE_GROUP -> wf 3 3 A -> mmul (RZ M) E_ortho = mmul E_ortho A ->
     (forall i j, (i < 3)%nat -> (j < 3)%nat -> Rabs (get A i j - IZR (get M i j)) < 1/2 /\
        Rabs (get A i j - IZR (get M i j)) <= 1 / 100000000 + 1 / 100000 * Rabs (IZR (get M i j))) -> In (RZ M) (kept E_ortho cubic_arr)).
  { intros M A HM WA EA HA. apply (in_kept 3 _ B cubic_arr (proj2 cubic_T)). split.
    - unfold cubic_arr. rewrite map_values_int. now apply in_map.
    - assert (OM : orthogonal 3 (RZ M)) by exact (proj1 (proj2 CUBIC_good (RZ M) (in_map RZ _ _ HM))).
      rewrite (inpoint_red 3 _ B); [|exact OM]. cbn [values].
      eapply (lat_eq_true 3 _ B _ A M); auto. apply cubic_iff in HM. apply HM. }
  assert (HP : In (RZ P) (kept E_ortho cubic_arr)).
  { apply (acc P (M3 0 (- a) 0 (/ a) 0 0 0 0 1)); [cbn; auto 30|apply wfM3|rewrite HE; unfold P, Q; meq ltac:(first [ring | field; lra])|].
    apply lt3; cbn. repeat split; rabs; lra. }
  assert (HQ : In (RZ Q) (kept E_ortho cubic_arr)).
  { apply (acc Q (M3 1 0 0 0 0 (- (b * / a)) 0 (a * / b) 0)); [cbn; auto 30|apply wfM3|rewrite HE; unfold P, Q; meq ltac:(first [ring | field; lra])|].
    apply lt3; cbn. repeat split; rabs; lra. }
  assert (HD0 : In (RZ D0) (kept E_ortho cubic_arr)).
  { apply (acc D0 (M3 1 0 0 0 1 0 0 0 1)); [cbn; auto 30|apply wfM3|unfold E_ortho, D0, D1, D2; meq ltac:(ring)|]. apply lt3; cbn. repeat split; rabs; lra. }
  assert (HD1 : In (RZ D1) (kept E_ortho cubic_arr)).
  { apply (acc D1 (M3 1 0 0 0 (-1) 0 0 0 (-1))); [cbn; auto 30|apply wfM3|unfold E_ortho, D0, D1, D2; meq ltac:(ring)|]. apply lt3; cbn. repeat split; rabs; lra. }
  assert (HD2 : In (RZ D2) (kept E_ortho cubic_arr)).
  { apply (acc D2 (M3 (-1) 0 0 0 1 0 0 0 (-1))); [cbn; auto 30|apply wfM3|unfold E_ortho, D0, D1, D2; meq ltac:(ring)|]. apply lt3; cbn. repeat split; rabs; lra. }
  exists E_ortho, (kept E_ortho cubic_arr), (RZ P), (RZ Q). split; [exact B|]. split; [|split; [exact HP|split; [exact HQ|]]].
  - unfold Laue_group. cbn [length E_ortho M3]. unfold pick_group. change ([[1;0;0];[0;1+eps;0];[0;0;1+2*eps]]) with E_ortho.
    rewrite (keep_kept 3 _ B cubic_arr (proj2 cubic_T)). cbn [bind].
    assert (5 <= length (kept E_ortho cubic_arr))%nat.
    { change 5%nat with (length (map RZ [P; Q; D0; D1; D2])). apply NoDup_incl_length.
      - assert (NZ : NoDup [P; Q; D0; D1; D2]) by (unfold P, Q, D0, D1, D2; repeat constructor; cbn; intuition discriminate).
        apply (Coq.Logic.FinFun.Injective_map_NoDup RZ_inj NZ).
      - intros x. cbn [map In]. intuition (subst; assumption). }
    destruct (_ =? 4)%nat eqn:L; [|reflexivity]. apply Nat.eqb_eq in L. lia.
  - rewrite <- RZ_mmul. intros K. apply (in_kept 3 _ B cubic_arr (proj2 cubic_T)) in K. destruct K as [K1 K2].
    assert (OM : orthogonal 3 (RZ (mmul P Q))).
    { apply (proj1 (proj2 CUBIC_good _ ltac:(unfold cubic_arr in K1; rewrite map_values_int in K1; exact K1))). }
    rewrite (inpoint_red 3 _ B) in K2; [|exact OM]. cbn [values] in K2.
    assert (F : lat_eq E_ortho (mmul (RZ (mmul P Q)) E_ortho) = Ok false); [|congruence].
    eapply (lat_eq_false 3 _ B _ (M3 0 0 b (/ a) 0 0 0 (a * / b) 0) 0 2 1); [apply wfM3|rewrite HE; change (mmul P Q) with [[0;0;1];[1;0;0];[0;1;0]]%Z; meq ltac:(first [ring | field; lra])|lia|lia|..]; cbn; rabs; lra.
Qed.

Example C14_case : exists G, Laue_group (M2 1 0 0 1) = Ok G /\ In R90 G.
Proof.
  assert (B : base 2 (M2 1 0 0 1)) by (apply base2; lra).
  assert (P : preserves 2 R90 (M2 1 0 0 1)).
  { apply (preserves_iff 2 _ B); [split; [apply wfM2|unfold R90; meq ltac:(ring)]|]. exists [[0;-1];[1;0]]%Z. split; [apply wfZ2|unfold R90; meq ltac:(ring)]. }
  assert (K : exists G, Laue_group (M2 1 0 0 1) = Ok G /\ (G = kept (M2 1 0 0 1) square_arr)).
  { unfold Laue_group. cbn [length M2]. unfold pick_group. change [[1; 0]; [0; 1]] with (M2 1 0 0 1).
    rewrite (keep_kept 2 _ B square_arr (proj2 square_T)). cbn [bind].
    assert (3 <= length (kept (M2 1 0 0 1) square_arr))%nat.
    { apply (NoDup3 (eye 2) R180 R90); try (rewrite ?eye2; apply M2_neq; left; lra);
        apply (kept_complete 2 _ B square_arr (proj2 square_T)); try (unfold square_arr; rewrite map_values_int, in_square; tauto); auto.
      - apply orth_eye; lia.
      - now apply (preserves_eye 2).
      - split; [apply wfM2|unfold R180; meq ltac:(ring)].
      - apply (preserves_iff 2 _ B); [split; [apply wfM2|unfold R180; meq ltac:(ring)]|]. exists [[-1;0];[0;-1]]%Z. split; [apply wfZ2|unfold R180; meq ltac:(ring)].
      - split; [apply wfM2|unfold R90; meq ltac:(ring)]. }
    destruct (_ =? 2)%nat eqn:L; [apply Nat.eqb_eq in L; lia|]. eauto. }
  destruct K as (G & EG & ->). eexists. split; [exact EG|]. apply (kept_complete 2 _ B square_arr (proj2 square_T)).
  - unfold square_arr. rewrite map_values_int, in_square. auto.
  - split; [apply wfM2|unfold R90; meq ltac:(ring)].
  - exact P.
Qed.

(** * C15 *)
(** Same order as the point group; when the tolerances resolve the symmetries, E M = Q E, the determinants agree, the
    integer matrices form a group, and each is accepted by inlatticegroup. *)
Definition integer_representation (n : nat) (E : mat R) (G : list (mat R)) (L : list (mat Z)) : Prop :=
  Forall2 (fun Q M => wf n n M /\ mmul E (RZ M) = mmul Q E /\ IZR (det M) = det Q) G L /\
  is_group n L /\ forall M, In M L -> inlatticegroup E (RZ M) = Ok true.
Lemma int_rep_ok n E G : base n E -> is_group n G -> (forall Q, In Q G -> orthogonal n Q) -> (forall Q, In Q G -> preserves n Q E) ->
  integer_representation n E G (map (irep E) G).
Proof.
  intros B IG OG PG. split; [|split].
  - clear IG. induction G as [|Q G IH]; cbn; constructor.
    + assert (OQ : orthogonal n Q) by (apply OG; now left). assert (PQ : preserves n Q E) by (apply PG; now left).
      split; [apply irep_wf; auto; apply OQ|]. split; [now apply (irep_exact n E B)|now apply (irep_det n E B)].
    + apply IH; intros; [apply OG|apply PG]; now right.
  - now apply irep_group.
  - intros M HM. apply in_map_iff in HM. destruct HM as (Q & <- & HQ). apply (irep_inlattice n); auto.
Qed.
Theorem C15_special_partial n E : base n E -> exists G L, Laue_group E = Ok G /\ special_lattice_group E = Ok L /\
  length L = length G /\ (resolved n E -> integer_representation n E G L /\ forall M, In M L -> det M = 1%Z).
Proof.
  intros B. destruct (laue_result n E B) as (G & EG & ND & I & A & C). exists G, (map (irep E) G).
  unfold special_lattice_group. rewrite EG. cbn [bind]. rewrite (to_integer_rep_ok n E B), map_length.
  split; [reflexivity|]. split; [reflexivity|]. split; [reflexivity|]. intros RS.
  assert (PG : forall Q, In Q G -> preserves n Q E).
  { intros Q HQ. destruct (A Q HQ) as (A1 & A2 & A3). apply RS; [now apply rot_in_iso|exact A3]. }
  assert (OG : forall Q, In Q G -> orthogonal n Q) by (intros Q HQ; apply (A Q HQ)).
  split.
  - apply int_rep_ok; auto. apply C. intros Q HQ. apply RS. now apply rot_in_iso.
  - intros M HM. apply in_map_iff in HM. destruct HM as (Q & <- & HQ). apply eq_IZR. rewrite (irep_det n E B) by auto.
    apply (tabled_det n Q (proj1 B)). apply (A Q HQ).
Qed.
Theorem C15_lattice_group_partial n E : base n E -> exists G L, point_group E = Ok G /\ lattice_group E = Ok L /\
  length L = length G /\ (resolved n E -> integer_representation n E G L /\ forall M, In M L -> det M = 1%Z \/ det M = (-1)%Z).
Proof.
  intros B. destruct (point_result n E B) as (G & EG & ND & I & A & C). exists G, (map (irep E) G).
  unfold lattice_group. rewrite EG. cbn [bind]. rewrite (to_integer_rep_ok n E B), map_length.
  split; [reflexivity|]. split; [reflexivity|]. split; [reflexivity|]. intros RS. destruct (C RS) as [IG PG].
  assert (OG : forall Q, In Q G -> orthogonal n Q) by (intros Q HQ; apply (A Q HQ)).
  split; [now apply int_rep_ok|].
  intros M HM. apply in_map_iff in HM. destruct HM as (Q & <- & HQ). pose proof (irep_det n E B Q (OG Q HQ) (PG Q HQ)) as D.
  destruct (orth_det n E B Q (OG Q HQ)) as [D'|D']; rewrite D' in D; [left|right]; now apply eq_IZR.
Qed.
(** Every matrix of the list is integer and within the tolerance of E^-1 Q E, always. *)
Theorem C15_near_partial n E : base n E -> exists G, Laue_group E = Ok G /\ exists L, special_lattice_group E = Ok L /\
  Forall2 (fun Q M => wf n n M /\ exists A, wf n n A /\ mmul E A = mmul Q E /\ forall i j, (i < n)%nat -> (j < n)%nat ->
    Rabs (get A i j - IZR (get M i j)) <= 1 / 100000000 + 1 / 100000 * Rabs (IZR (get M i j))) G L.
Proof.
  intros B. destruct (laue_result n E B) as (G & EG & ND & I & A & C). exists G. split; [exact EG|]. exists (map (irep E) G).
  unfold special_lattice_group. rewrite EG. cbn [bind]. rewrite (to_integer_rep_ok n E B). split; [reflexivity|].
  clear EG ND I C. pose proof (dim23_pos n (proj1 B)) as Hn. pose proof (proj1 (proj2 B)) as WE. pose proof (wf_minv n E (proj1 B) WE) as WI.
  induction G as [|Q G IH]; cbn; constructor; [|apply IH; intros P HP; apply A; now right].
  destruct (A Q (or_introl eq_refl)) as (_ & OQ & HA). pose proof (proj1 OQ) as WQ.
  assert (WX : wf n n (mmul Q E)) by now apply (wf_mmul n n n).
  assert (WA : wf n n (mmul (minv E) (mmul Q E))) by now apply (wf_mmul n n n).
  split; [now apply irep_wf|]. exists (mmul (minv E) (mmul Q E)). split; [exact WA|]. split; [symmetry; now apply (solve_left n E B)|].
  rewrite (inpoint_red n E B) in HA; [|exact OQ]. now apply (lat_eq_near n E B) in HA.
Qed.
(** For a very skewed base of a near-square lattice the rounding destroys the representation: a "lattice group" element of determinant 80001. *)
Theorem C15_refuted : exists E G L M, base 2 E /\ Laue_group E = Ok G /\ special_lattice_group E = Ok L /\ In M L /\
  det M = 80001%Z /\ ~ exists Q, In Q G /\ mmul E (RZ M) = mmul Q E.
Proof.
  pose (c := 100000 + 4 / 10). pose (E := M2 1 c 0 1). assert (B : base 2 E) by (apply base2; lra).
  pose (M := [[-100000; -10000080001];[1; 100000]]%Z).
  assert (Hc : c = 100000 + 4 / 10) by reflexivity.
  assert (K : lat_eq E (mmul R90 E) = Ok true /\ rintm (mmul (minv E) (mmul R90 E)) = M).
  { eapply (lat_eq_true 2 _ B _ (M2 (- c) (- 1 - c * c) 1 c) M); [apply wfM2|apply wfZ2|unfold E, R90; meq ltac:(ring)|].
    clearbody c. subst c. apply lt2; cbn; rabs; lra. }
  destruct K as [K1 K2].
  assert (O90 : orthogonal 2 R90) by (split; [apply wfM2|unfold R90; meq ltac:(ring)]).
  assert (H90 : In R90 (kept E square_arr)).
  { apply (in_kept 2 _ B square_arr (proj2 square_T)). split; [unfold square_arr; rewrite map_values_int, in_square; auto|].
    rewrite (inpoint_red 2 _ B); [exact K1|exact O90]. }
  assert (I1 : In (eye 2) (kept E square_arr)) by (apply (kept_eye 2 _ B); apply square_T).
  assert (O180 : orthogonal 2 R180) by (split; [apply wfM2|unfold R180; meq ltac:(ring)]).
  assert (I2 : In R180 (kept E square_arr)).
  { apply (kept_complete 2 _ B square_arr (proj2 square_T)); [unfold square_arr; rewrite map_values_int, in_square; auto|exact O180|].
    apply (preserves_iff 2 _ B); [exact O180|]. exists [[-1;0];[0;-1]]%Z. split; [apply wfZ2|unfold R180, E; meq ltac:(ring)]. }
  assert (L3 : (3 <= length (kept E square_arr))%nat).
  { apply (NoDup3 (eye 2) R180 R90); auto; rewrite ?eye2; apply M2_neq; left; lra. }
  assert (EG : Laue_group E = Ok (kept E square_arr)).
  { unfold Laue_group. rewrite (len_base 2 E B). unfold pick_group. rewrite (keep_kept 2 _ B square_arr (proj2 square_T)). cbn [bind].
    destruct (_ =? 2)%nat eqn:L; [apply Nat.eqb_eq in L; lia|reflexivity]. }
  exists E, (kept E square_arr), (map (irep E) (kept E square_arr)), M. split; [exact B|]. split; [exact EG|].
  split; [unfold special_lattice_group; rewrite EG; cbn [bind]; apply (to_integer_rep_ok 2 E B)|].
  split; [apply in_map_iff; exists R90; split; [exact K2|exact H90]|]. split; [reflexivity|].
  intros (Q & HQ & EQ). pose proof (kept_orth 2 E B square_arr (proj2 square_T) Q HQ) as OQ.
  pose proof (int_det_of 2 E B Q M OQ (wfZ2 _ _ _ _) (eq_sym EQ)) as D. change (det M) with 80001%Z in D.
  destruct (orth_det 2 E B Q OQ) as [D'|D']; rewrite D' in D; lra.
Qed.
(** the square lattice resolves its symmetries *)
Lemma resolved_square : resolved 2 (M2 1 0 0 1).
Proof.
  assert (B : base 2 (M2 1 0 0 1)) by (apply base2; lra). destruct C1S1 as (HC2 & HC & HS).
  intros Q HQ HA. pose proof (tabled_orth 2 Q ltac:(now left) HQ) as OQ.
  cbn [tabled_isometries Nat.eqb] in HQ. apply in_app_iff in HQ.
  assert (KZ : forall M : mat Z, wf 2 2 M -> Q = RZ M -> preserves 2 Q (M2 1 0 0 1)).
  { intros M WM ->. apply (preserves_iff 2 _ B); [exact OQ|]. exists M. split; [exact WM|].
    change (M2 1 0 0 1) with (@eye R _ 2). rewrite (mmul_eye_l 2 2), (mmul_eye_r 2 2); auto using wf_RZ. }
  assert (KF : get Q 0 0 = C1 \/ get Q 0 0 = - C1 -> preserves 2 Q (M2 1 0 0 1)).
  { intros HQ0. exfalso. rewrite (inpoint_red 2 _ B) in HA; [|exact OQ]. cbn [values] in HA.
    assert (WQ : wf 2 2 (mmul Q (M2 1 0 0 1))) by (apply (wf_mmul 2 2 2); [apply OQ|apply wfM2|lia]).
    apply (lat_eq_near 2 _ B) in HA; [|exact WQ].
    rewrite (proj1 (solve_left 2 _ B Q _ WQ (proj1 OQ))) in HA.
    2:{ change (M2 1 0 0 1) with (@eye R _ 2). rewrite (mmul_eye_l 2 2), (mmul_eye_r 2 2); auto; apply OQ. }
    specialize (HA 0%nat 0%nat ltac:(lia) ltac:(lia)).
    set (z := get (rintm Q) 0 0) in HA. clearbody z. rewrite HC in HQ0.
    assert (Z : (z <= -1 \/ z = 0 \/ 1 <= z)%Z) by lia.
    destruct Z as [Z|[->|Z]]; [apply IZR_le in Z| |apply IZR_le in Z]; revert HA; destruct HQ0 as [-> | ->]; rabs; lra. }
  destruct HQ as [HQ|HQ].
  - apply in_map_iff in HQ. destruct HQ as (M & <- & HM). apply (KZ M); [|reflexivity]. apply square_ext_iff in HM. apply HM.
  - unfold HEX2D_EXT_GROUP in HQ. cbn in HQ.
    repeat (destruct HQ as [HQ|HQ]; [first [apply KF; rewrite <- HQ; cbn; lra
      | apply (KZ [[1;0];[0;1]]%Z); [apply wfZ2|now rewrite <- HQ] | apply (KZ [[-1;0];[0;-1]]%Z); [apply wfZ2|now rewrite <- HQ]
      | apply (KZ [[1;0];[0;-1]]%Z); [apply wfZ2|now rewrite <- HQ] | apply (KZ [[-1;0];[0;1]]%Z); [apply wfZ2|now rewrite <- HQ] ]|]). destruct HQ.
Qed.
Example C15_case : exists G L, special_lattice_group (M2 1 0 0 1) = Ok L /\ integer_representation 2 (M2 1 0 0 1) G L.
Proof.
  assert (B : base 2 (M2 1 0 0 1)) by (apply base2; lra).
  destruct (C15_special_partial 2 _ B) as (G & L & _ & EL & _ & K). exists G, L. split; [exact EL|]. now apply K, resolved_square.
Qed.

(** * C16 *)
(** In two dimensions every rotational symmetry is found, in every orientation. *)
Theorem C16_two_dimensions_partial E : base 2 E -> resolved 2 E ->
  exists G, Laue_group E = Ok G /\ NoDup G /\ forall Q, In Q G <-> rotation_matrix 2 Q /\ preserves 2 Q E.
Proof.
  intros B RS. apply laue_complete2; [exact B|]. intros Q HQ. apply RS. now apply rot_in_iso.
Qed.
(** In three dimensions, when the lattice is aligned with the axes of one of the tables. *)
Theorem C16_cubic_axes_partial E : base 3 E -> resolved 3 E ->
  (forall Q, rotation_matrix 3 Q -> preserves 3 Q E -> In Q (map RZ CUBIC_LAUE_GROUP)) ->
  exists G, Laue_group E = Ok G /\ NoDup G /\ forall Q, In Q G <-> rotation_matrix 3 Q /\ preserves 3 Q E.
Proof. exact (laue_complete_cubic E). Qed.
Theorem C16_hexagonal_axes_partial E : base 3 E -> resolved 3 E ->
  (forall Q, rotation_matrix 3 Q -> preserves 3 Q E -> In Q HEX_LAUE_GROUP) ->
  (forall Q, In Q two_folds -> preserves 3 Q E) ->
  exists G, Laue_group E = Ok G /\ NoDup G /\ forall Q, In Q G <-> rotation_matrix 3 Q /\ preserves 3 Q E.
Proof. exact (laue_complete_hex E). Qed.
(** The simple cubic lattice turned about z by the 3-4-5 angle: a two-fold rotation about its own edge is missed. *)
Definition E345 : mat R := M3 (3/5) (-(4/5)) 0 (4/5) (3/5) 0 0 0 1.
Definition Q345 : mat R := M3 (-(7/25)) (24/25) 0 (24/25) (7/25) 0 0 0 (-1).
Theorem C16_refuted : exists E Q G, base 3 E /\ rotation_matrix 3 Q /\ preserves 3 Q E /\ Laue_group E = Ok G /\ ~ In Q G.
Proof.
  assert (B : base 3 E345) by (apply base3; lra).
  assert (O : orthogonal 3 Q345) by (split; [apply wfM3|unfold Q345; meq ltac:(lra)]).
  destruct (laue_result 3 E345 B) as (G & EG & _ & _ & A & _).
  exists E345, Q345, G. split; [exact B|]. split; [split; [exact O|unfold Q345, M3; rewrite det3; cbn; lra]|]. split; [|split; [exact EG|]].
  - apply (preserves_iff 3 _ B); [exact O|]. exists [[1;0;0];[0;-1;0];[0;0;-1]]%Z. split; [apply wfZ3|]. unfold E345, Q345. meq ltac:(lra).
  - intros K. apply A in K. destruct K as [K _]. cbn [tabled_rotations Nat.eqb] in K. apply in_app_iff in K. destruct C1S1 as (_ & HC & _). destruct K as [K|K].
    + apply in_map_iff in K. destruct K as (M & EM & _). apply (f_equal (fun X => get X 0 0)) in EM. rewrite get_RZ in EM. cbn in EM.
      assert (EZ : IZR (25 * get M 0 0) = IZR (-7)) by (rewrite mult_IZR; lra). apply eq_IZR in EZ. lia.
    + unfold HEX_LAUE_GROUP in K. repeat (destruct K as [K|K]; [apply (f_equal (fun X => get X 0 0)) in K; cbn in K; lra|]). destruct K.
Qed.
Example C16_case : exists G, Laue_group (M2 1 0 0 1) = Ok G /\ forall Q, In Q G <-> rotation_matrix 2 Q /\ preserves 2 Q (M2 1 0 0 1).
Proof.
  assert (B : base 2 (M2 1 0 0 1)) by (apply base2; lra).
  destruct (C16_two_dimensions_partial _ B resolved_square) as (G & EG & _ & K). eauto.
Qed.

Print Assumptions C12_same_lattice_equal_partial.
Print Assumptions C12_dimensions.
Print Assumptions C12_exact_partial.
Print Assumptions C12_symmetric_refuted.
Print Assumptions C12_transitive_refuted.
Print Assumptions C13_meaning.
Print Assumptions C13_sound.
Print Assumptions C14_laue_partial.
Print Assumptions C14_point_group_partial.
Print Assumptions C14_refuted.
Print Assumptions C15_special_partial.
Print Assumptions C15_lattice_group_partial.
Print Assumptions C15_refuted.
Print Assumptions C16_two_dimensions_partial.
Print Assumptions C16_cubic_axes_partial.
Print Assumptions C16_hexagonal_axes_partial.
Print Assumptions C16_refuted.
