(** C125: how many symmetry operations a lattice has and of which orders. *)
From Coq Require Logic.FinFun.
From Verif Require Import LinAlg GroupSpec GroupModel GroupProofs LatticeModel LatticeSpec LatticeProofs LatticeGroups LatticeLaue LatticeComplete LatticeMore PropLattice LatCorCase.
Local Open Scope R_scope.

(** Q applied k times *)
Fixpoint power (n : nat) (Q : mat R) (k : nat) : mat R := match k with O => eye n | S k => mmul Q (power n Q k) end.
(** Q returns everything to its place after k applications and not before *)
Definition has_order (n : nat) (Q : mat R) (k : nat) : Prop :=
  (0 < k)%nat /\ power n Q k = eye n /\ forall i, (0 < i < k)%nat -> power n Q i <> eye n.

Lemma order_below n Q k : (0 < k)%nat -> power n Q k = eye n -> exists d, (d <= k)%nat /\ has_order n Q d.
Proof.
  induction k as [k IH] using lt_wf_ind. intros Hk HP.
  destruct (Classical_Prop.classic (exists i, (0 < i < k)%nat /\ power n Q i = eye n)) as [(i & Hi & Pi)|N].
  - destruct (IH i ltac:(lia) ltac:(lia) Pi) as (d & Hd & O). exists d. split; [lia|exact O].
  - exists k. split; [lia|]. split; [exact Hk|]. split; [exact HP|]. intros i Hi Pi. apply N. eauto.
Qed.
Lemma power_wf n Q k : (0 < n)%nat -> wf n n Q -> wf n n (power n Q k).
Proof. intros Hn W. induction k as [|k IH]; cbn [power]; [apply wf_eye|]. now apply (wf_mmul n n n). Qed.
Lemma power_add n Q i j : (0 < n)%nat -> wf n n Q -> power n Q (i + j) = mmul (power n Q i) (power n Q j).
Proof.
  intros Hn W. induction i as [|i IH]; cbn [power Nat.add].
  - symmetry. apply (mmul_eye_l n n); auto. now apply power_wf.
  - rewrite IH. symmetry. apply (mmul_assoc n n n n); auto using power_wf.
Qed.
Lemma order_divides n Q d k : (0 < n)%nat -> wf n n Q -> has_order n Q d -> power n Q k = eye n -> Nat.divide d k.
Proof.
  intros Hn W (Hd & Pd & Nd). induction k as [k IH] using lt_wf_ind. intros Pk.
  destruct (Nat.eq_dec k 0) as [->|Hk]; [apply Nat.divide_0_r|]. destruct (le_lt_dec d k) as [H|H].
  - assert (E : (k = d + (k - d))%nat) by lia. rewrite E in Pk. rewrite power_add, Pd, (mmul_eye_l n n) in Pk by (auto; now apply power_wf).
    destruct (IH (k - d)%nat ltac:(lia) Pk) as [q Hq]. exists (S q). lia.
  - exfalso. apply (Nd k); [lia|exact Pk].
Qed.
(** what returns after 4 or after 6 applications has one of the five orders *)
Lemma order_46 n Q : (0 < n)%nat -> wf n n Q -> power n Q 4 = eye n \/ power n Q 6 = eye n ->
  exists k, In k [1; 2; 3; 4; 6]%nat /\ has_order n Q k.
Proof.
  intros Hn W [H|H]; (edestruct order_below as (d & Hd & O); [|exact H|]; [lia|]); pose proof (order_divides n Q d _ Hn W O H) as [q Hq];
    exists d; (split; [|exact O]); destruct O as [Hd0 _].
  - assert (d = 1 \/ d = 2 \/ d = 3 \/ d = 4)%nat as [->|[->|[->| ->]]] by lia; cbn; auto 8.
  - assert (d = 1 \/ d = 2 \/ d = 3 \/ d = 4 \/ d = 5 \/ d = 6)%nat as [->|[->|[->|[->|[->| ->]]]]] by lia; cbn; auto 8; lia.
Qed.

Fixpoint powerZ (n : nat) (M : mat Z) (k : nat) : mat Z := match k with O => eye n | S k => mmul M (powerZ n M k) end.
Lemma RZ_eye n : RZ (eye n) = eye n.
Proof. unfold RZ, eye, mk, mmap. rewrite map_map. apply map_ext. intros i. rewrite map_map. apply map_ext. intros j. now destruct (i =? j)%nat. Qed.
Lemma power_RZ n M k : power n (RZ M) k = RZ (powerZ n M k).
Proof. induction k as [|k IH]; cbn [power powerZ]; [symmetry; apply RZ_eye|]. now rewrite IH, RZ_mmul. Qed.
Lemma int_returns n T : forallb (fun M => if list_eq_dec (list_eq_dec Z.eq_dec) (powerZ n M 4) (eye n) then true
    else if list_eq_dec (list_eq_dec Z.eq_dec) (powerZ n M 6) (eye n) then true else false) T = true ->
  forall Q, In Q (map RZ T) -> power n Q 4 = eye n \/ power n Q 6 = eye n.
Proof.
  intros H Q HQ. apply in_map_iff in HQ. destruct HQ as (M & <- & HM). rewrite forallb_forall in H. specialize (H M HM).
  rewrite !power_RZ. destruct (list_eq_dec _ (powerZ n M 4) _) as [E|_]; [left; rewrite E; apply RZ_eye|].
  destruct (list_eq_dec _ (powerZ n M 6) _) as [E|_]; [right; rewrite E; apply RZ_eye|discriminate].
Qed.

(** the same for the tables with entries in Z[sqrt 3] / 2 *)
Definition mulT (T : list (mat S3)) (M N : mat S3) : option (mat S3) := find (fun P => mdecb (mmul M N) (dbl P)) T.
Fixpoint powT (T : list (mat S3)) (n : nat) (M : mat S3) (k : nat) : option (mat S3) :=
  match k with O => Some (GroupProofs.eye2 n) | S k => match powT T n M k with Some X => mulT T M X | None => None end end.
Lemma powT_ok T n M k X : (0 < n)%nat -> (forall N, In N T -> wf n n N) -> In M T -> powT T n M k = Some X ->
  wf n n X /\ power n (mmap phi2 M) k = mmap phi2 X.
Proof.
  intros Hn W HM. revert X. induction k as [|k IH]; cbn [powT power]; intros X H.
  - injection H as <-. split; [unfold GroupProofs.eye2, eye; rewrite mmap_mk; apply wf_mk|symmetry; apply phi2_eye].
  - destruct (powT T n M k) as [Y|]; [|discriminate]. destruct (IH Y eq_refl) as [WY ->]. unfold mulT in H.
    apply find_some in H. destruct H as [HX E]. apply mdecb_eq in E. split; [now apply W|]. apply (phi2_mmul _ _ _ n); auto.
Qed.
Lemma hex_returns n T : (0 < n)%nat -> forallb (fun M => wfb n n M) T = true ->
  forallb (fun M => match powT T n M 6 with Some X => mdecb X (GroupProofs.eye2 n) | None => false end) T = true ->
  forall Q, In Q (map (mmap phi2) T) -> power n Q 6 = eye n.
Proof.
  intros Hn HW H Q HQ. apply in_map_iff in HQ. destruct HQ as (M & <- & HM). rewrite forallb_forall in H, HW. specialize (H M HM).
  destruct (powT T n M 6) as [X|] eqn:E; [|discriminate]. apply mdecb_eq in H. subst X.
  destruct (powT_ok T n M 6 _ Hn ltac:(intros N HN; apply wfb_spec; auto) HM E) as [_ ->]. apply phi2_eye.
Qed.
Lemma tabled_returns n Q : dim23 n -> In Q (tabled_isometries n) -> power n Q 4 = eye n \/ power n Q 6 = eye n.
Proof.
  intros [->| ->]; cbn [tabled_isometries Nat.eqb]; rewrite in_app_iff; intros [H|H].
  - revert Q H. apply int_returns. vm_compute. reflexivity.
  - right. revert Q H. rewrite hex2_eq. apply hex_returns; [lia|vm_compute; reflexivity|vm_compute; reflexivity].
  - revert Q H. apply int_returns. vm_compute. reflexivity.
  - right. revert Q H. rewrite hex3_eq. apply hex_returns; [lia|vm_compute; reflexivity|vm_compute; reflexivity].
Qed.
Lemma power_mopp n E (B : base n E) Q k : wf n n Q -> power n (mopp Q) (2 * k) = power n Q (2 * k).
Proof.
  intros W. pose proof (dim23_pos n (proj1 B)) as Hn. induction k as [|k IH]; [reflexivity|].
  replace (2 * S k)%nat with (S (S (2 * k))) by lia. cbn [power]. rewrite IH. pose proof (power_wf n Q (2 * k) Hn W) as WP.
  pose proof (wf_mmul n n n Q _ W WP Hn) as WM.
  rewrite !(mopp_mul_l n E B), (mopp_mul_r n E B), (mopp_mopp n E B); auto; repeat first [apply wf_mopp | apply (wf_mmul n n n) | assumption].
Qed.

(** * C125 *)
(** Every rotation listed has order 1, 2, 3, 4 or 6, and so has every element of the point group; no lattice, however close to a
    more symmetric one, is said to have a five-fold or an eight-fold axis. *)
Theorem C125_orders : forall n E, base n E -> exists G P, Laue_group E = Ok G /\ point_group E = Ok P /\
  forall Q, In Q G \/ In Q P -> exists k, In k [1; 2; 3; 4; 6]%nat /\ has_order n Q k.
Proof.
  intros n E B. pose proof (dim23_pos n (proj1 B)) as Hn. destruct (laue_result n E B) as (G & EG & _ & _ & AG & _). destruct (point_result n E B) as (P & EP & _ & _ & AP & _).
  exists G, P. split; [exact EG|]. split; [exact EP|]. intros Q [HQ|HQ].
  - destruct (AG Q HQ) as (A1 & A2 & _). apply order_46; [exact Hn|apply A2|]. apply tabled_returns; [apply B|now apply rot_in_iso].
  - destruct (AP Q HQ) as (A1 & [A2|A2] & _); (apply order_46; [exact Hn|apply A1|]); [apply tabled_returns; [apply B|exact A2]|].
    apply tabled_returns in A2; [|apply B]. pose proof (power_mopp n E B Q 2 (proj1 A1)) as P4. pose proof (power_mopp n E B Q 3 (proj1 A1)) as P6.
    cbn [Nat.mul Nat.add] in P4, P6. rewrite P4, P6 in A2. exact A2.
Qed.

Lemma kept_table n E T1 T2 k G : base n E ->
  good_table n (map values T1) /\ (forall Q, In Q T1 -> orth_arr n Q) ->
  good_table n (map values T2) /\ (forall Q, In Q T2 -> orth_arr n Q) ->
  (forall Q, In Q (map values T1 ++ map values T2) -> inpointgroup E (FltArr Q) = Ok true -> preserves n Q E) ->
  pick_group E T1 T2 k = Ok G -> Nat.divide (length G) (length T1) \/ Nat.divide (length G) (length T2).
Proof.
  intros B H1 H2 RS HG. pose proof (dim23_pos n (proj1 B)) as Hn. destruct (pick_spec n E B T1 T2 k H1 H2) as (T & HT & E1). rewrite E1 in HG. injection HG as <-.
  assert (D : forall T', T' = T -> good_table n (map values T') /\ (forall Q, In Q T' -> orth_arr n Q) ->
     (forall Q, In Q (map values T') -> inpointgroup E (FltArr Q) = Ok true -> preserves n Q E) -> Nat.divide (length (kept E T)) (length T')).
  { intros T' -> [GT OT] HR. rewrite <- (map_length values T). apply (group_lagrange n); [exact Hn|apply GT| |].
    - now apply (kept_group n E B T GT OT).
    - intros X HX. now apply (in_kept n E B T OT) in HX. }
  destruct HT as [HT|HT]; [left|right]; apply D; auto; intros Q HQ; apply RS; rewrite in_app_iff; auto.
Qed.
(** When the tolerance separates symmetries from near symmetries, the number of rotations divides 24 in space (12 in the plane), and
    the point group has twice as many elements in space (their number divides 24 in the plane). *)
Theorem C125_number_partial : forall n E, base n E -> resolved n E -> exists G P, Laue_group E = Ok G /\ point_group E = Ok P /\
  (n = 3%nat -> Nat.divide (length G) 24 /\ length P = (2 * length G)%nat) /\
  (n = 2%nat -> Nat.divide (length G) 12 /\ Nat.divide (length P) 24).
Proof.
  intros n E B RS. destruct (laue_result n E B) as (G & EG & _ & _ & AG & _). destruct (point_result n E B) as (P & EP & _ & _ & AP & _).
  exists G, P. split; [exact EG|]. split; [exact EP|]. pose proof (len_base n E B) as Hl. unfold Laue_group in EG. rewrite Hl in EG.
  assert (T : forall a b c, Nat.divide a b -> Nat.divide b c -> Nat.divide a c) by (intros a b c; apply Nat.divide_trans).
  destruct (proj1 B) as [->| ->]; (split; [intros K|intros K]); try discriminate.
  - split.
    + assert (R' : forall Q, In Q (map values square_arr ++ map values hex2d_arr) -> inpointgroup E (FltArr Q) = Ok true -> preserves 2 Q E).
      { intros Q HQ. apply RS. apply rot_in_iso. cbn [tabled_rotations Nat.eqb]. unfold square_arr, hex2d_arr in HQ. now rewrite map_values_int, map_values_flt in HQ. }
      destruct (kept_table 2 E _ _ 2 G B square_T hex2d_T R' EG) as [D|D].
      * apply (T _ _ _ D). exists 3%nat. reflexivity.
      * apply (T _ _ _ D). exists 2%nat. reflexivity.
    + unfold point_group in EP. rewrite Hl in EP.
      assert (R' : forall Q, In Q (map values square_ext_arr ++ map values hex2d_ext_arr) -> inpointgroup E (FltArr Q) = Ok true -> preserves 2 Q E).
      { intros Q HQ. apply RS. cbn [tabled_isometries Nat.eqb]. unfold square_ext_arr, hex2d_ext_arr in HQ. now rewrite map_values_int, map_values_flt in HQ. }
      destruct (kept_table 2 E _ _ 4 P B square_ext_T hex2d_ext_T R' EP) as [D|D].
      * apply (T _ _ _ D). exists 3%nat. reflexivity.
      * apply (T _ _ _ D). exists 2%nat. reflexivity.
  - split.
    + assert (R' : forall Q, In Q (map values cubic_arr ++ map values hex_arr) -> inpointgroup E (FltArr Q) = Ok true -> preserves 3 Q E).
      { intros Q HQ. apply RS. cbn [tabled_isometries Nat.eqb]. unfold cubic_arr, hex_arr in HQ. now rewrite map_values_int, map_values_flt in HQ. }
      destruct (kept_table 3 E _ _ 4 G B cubic_T hex_T R' EG) as [D|D].
      * apply (T _ _ _ D). exists 1%nat. reflexivity.
      * apply (T _ _ _ D). exists 2%nat. reflexivity.
    + unfold point_group, Laue_group in EP. rewrite Hl, EG in EP. cbn [bind] in EP. injection EP as <-. rewrite app_length, map_length. lia.
Qed.

(** The integer matrices of the lattice group have these orders too: their powers are exactly the identity. *)
Definition has_orderZ (n : nat) (M : mat Z) (k : nat) : Prop :=
  (0 < k)%nat /\ powerZ n M k = eye n /\ forall i, (0 < i < k)%nat -> powerZ n M i <> eye n.
Lemma powerZ_wf n M k : (0 < n)%nat -> wf n n M -> wf n n (powerZ n M k).
Proof. intros Hn W. induction k as [|k IH]; cbn [powerZ]; [apply wf_eye|]. now apply (wf_mmul n n n). Qed.
Lemma power_conj n E Q (M : mat Z) k : base n E -> wf n n Q -> wf n n M -> mmul E (RZ M) = mmul Q E -> mmul E (RZ (powerZ n M k)) = mmul (power n Q k) E.
Proof.
  intros B WQ WM H. pose proof (dim23_pos n (proj1 B)) as Hn. pose proof (proj1 (proj2 B)) as WE. induction k as [|k IH]; cbn [power powerZ].
  - rewrite RZ_eye, (mmul_eye_r n n), (mmul_eye_l n n); auto.
  - pose proof (powerZ_wf n M k Hn WM) as WP. rewrite RZ_mmul, <- (mmul_assoc n n n n), H by (auto using wf_RZ).
    rewrite !(mmul_assoc n n n n), IH by (auto using wf_RZ, power_wf). reflexivity.
Qed.
Lemma power_eye_iff n E Q (M : mat Z) k : base n E -> wf n n Q -> wf n n M -> mmul E (RZ M) = mmul Q E -> powerZ n M k = eye n <-> power n Q k = eye n.
Proof.
  intros B WQ WM H. pose proof (dim23_pos n (proj1 B)) as Hn. destruct B as (D & WE & DE) eqn:EB. pose proof (power_conj n E Q M k B WQ WM H) as K. split; intros A.
  - rewrite A, RZ_eye, (mmul_eye_r n n) in K by auto. apply (mmul_cancel_r n E); auto using power_wf; [apply wf_eye|]. rewrite (mmul_eye_l n n); auto.
  - rewrite A, (mmul_eye_l n n) in K by auto. apply RZ_inj. rewrite RZ_eye. apply (mmul_cancel_l n E); auto; [apply wf_RZ, powerZ_wf; auto|apply wf_eye|]. rewrite (mmul_eye_r n n); auto.
Qed.
Theorem C125_integer_partial : forall n E, base n E -> resolved n E -> exists L, lattice_group E = Ok L /\
  forall M, In M L -> wf n n M /\ exists k, In k [1; 2; 3; 4; 6]%nat /\ has_orderZ n M k.
Proof.
  intros n E B RS. destruct (C15_lattice_group_partial n E B) as (G & L & EG & EL & _ & C). destruct (C RS) as [[F _] _].
  exists L. split; [exact EL|]. destruct (C125_orders n E B) as (G1 & P & _ & EP & O1). assert (P = G) by congruence. subst P. assert (O : forall Q, In Q G -> exists k, In k [1; 2; 3; 4; 6]%nat /\ has_order n Q k) by (intros Q HQ; apply O1; now right). clear O1.
  destruct (C14_point_group_partial n E B) as (G' & EG' & _ & _ & A & _). assert (G' = G) by congruence. subst G'. clear EP EG EG' EL C RS.
  induction F as [|Q M G L (WM & HM & _) F IH]; [intros M []|]. intros N [<-|HN].
  - split; [exact WM|]. destruct (O Q ltac:(now left)) as (k & Hk & Hk0 & Pk & Nk). destruct (A Q ltac:(now left)) as [[WQ _] _]. exists k. split; [exact Hk|]. split; [exact Hk0|]. split.
    + now apply (power_eye_iff n E Q M k B WQ WM HM).
    + intros i Hi Ki. apply (Nk i Hi). now apply (power_eye_iff n E Q M i B WQ WM HM).
  - apply IH; auto; intros X HX; [apply O|apply A]; now right.
Qed.

(** A cube sheared by nine parts in a thousand million: 22 of the 24 rotations of the cube are listed, which no group has. *)
Definition sh : R := 9 / 1000000000.
Definition E_shear : mat R := M3 1 sh 0 0 1 0 0 0 1.
Definition E_unshear : mat R := M3 1 (- sh) 0 0 1 0 0 0 1.
Lemma E_shear_base : base 3 E_shear.
Proof. apply base3. unfold sh. lra. Qed.
Definition lost (M : mat Z) : bool :=
  if list_eq_dec (list_eq_dec Z.eq_dec) M [[1; 0; 0]; [0; -1; 0]; [0; 0; -1]]%Z then true
  else if list_eq_dec (list_eq_dec Z.eq_dec) M [[-1; 0; 0]; [0; 1; 0]; [0; 0; -1]]%Z then true else false.
Definition listed : list (mat Z) := filter (fun M => negb (lost M)) CUBIC_LAUE_GROUP.
(** what a rotation of the cube must satisfy to survive the shear *)
Definition smallb (M : mat Z) : bool :=
  (Z.abs (get M 0 0 - get M 1 1) <=? 1)%Z && (Z.abs (get M 1 0) <=? 1)%Z && (Z.abs (get M 1 2) <=? 1)%Z && (Z.abs (get M 2 0) <=? 1)%Z.
Lemma small_R z : (Z.abs z <= 1)%Z -> Rabs (IZR z) <= 1.
Proof. intros H. rewrite <- abs_IZR. now apply IZR_le. Qed.
Lemma Rabs_def2' x : Rabs x <= 1 -> - (1) <= x <= 1.
Proof. unfold Rabs. destruct (Rcase_abs x); lra. Qed.
Lemma close_enough A z x y : A - z = sh * x + sh * sh * y -> Rabs x <= 1 -> Rabs y <= 1 ->
  Rabs (A - z) < 1 / 2 /\ Rabs (A - z) <= 1 / 100000000 + 1 / 100000 * Rabs z.
Proof.
  intros -> Hx Hy. pose proof (Rabs_pos z). apply Rabs_def2' in Hx. apply Rabs_def2' in Hy. assert (Rabs (sh * x + sh * sh * y) <= 1 / 100000000); [|lra].
  apply Rabs_le. unfold sh. lra.
Qed.
Lemma shear_conj (a b c d e f g h i : R) :
  mmul E_unshear (mmul (M3 a b c d e f g h i) E_shear) =
    M3 (a - sh * d) (b + sh * a - sh * (e + sh * d)) (c - sh * f) d (e + sh * d) f g (h + sh * g) i /\
  mmul (M3 a b c d e f g h i) E_shear = mmul E_shear (mmul E_unshear (mmul (M3 a b c d e f g h i) E_shear)).
Proof. unfold E_shear, E_unshear. generalize sh. intros s. split; mat_eq ltac:(ring). Qed.
Lemma shear_close (a b c d e f g h i : R) : Rabs (a - e) <= 1 -> Rabs d <= 1 -> Rabs f <= 1 -> Rabs g <= 1 ->
  forall k l, (k < 3)%nat -> (l < 3)%nat ->
    Rabs (get (M3 (a - sh * d) (b + sh * a - sh * (e + sh * d)) (c - sh * f) d (e + sh * d) f g (h + sh * g) i) k l - get (M3 a b c d e f g h i) k l) < 1 / 2 /\
    Rabs (get (M3 (a - sh * d) (b + sh * a - sh * (e + sh * d)) (c - sh * f) d (e + sh * d) f g (h + sh * g) i) k l - get (M3 a b c d e f g h i) k l)
      <= 1 / 100000000 + 1 / 100000 * Rabs (get (M3 a b c d e f g h i) k l).
Proof.
  intros H1 H2 H3 H4. assert (Z0 : Rabs 0 <= 1) by (rewrite Rabs_R0; lra). apply lt3. cbn [get nth M3].
  split; [apply (close_enough _ _ (- d) 0); [ring| |]; rewrite ?Rabs_Ropp; assumption|].
  split; [apply (close_enough _ _ (a - e) (- d)); [ring| |]; rewrite ?Rabs_Ropp; assumption|].
  split; [apply (close_enough _ _ (- f) 0); [ring| |]; rewrite ?Rabs_Ropp; assumption|].
  split; [apply (close_enough _ _ 0 0); [ring| |]; rewrite ?Rabs_Ropp; assumption|].
  split; [apply (close_enough _ _ d 0); [ring| |]; rewrite ?Rabs_Ropp; assumption|].
  split; [apply (close_enough _ _ 0 0); [ring| |]; rewrite ?Rabs_Ropp; assumption|].
  split; [apply (close_enough _ _ 0 0); [ring| |]; rewrite ?Rabs_Ropp; assumption|].
  split; [apply (close_enough _ _ g 0); [ring| |]; rewrite ?Rabs_Ropp; assumption|].
  apply (close_enough _ _ 0 0); [ring| |]; rewrite ?Rabs_Ropp; assumption.
Qed.
Lemma listed_small : forallb smallb listed = true.
Proof. vm_compute. reflexivity. Qed.
Lemma filtered {A} (f : A -> bool) T x : In x (filter f T) -> In x T.
Proof. intros H. apply filter_In in H. apply H. Qed.
Lemma listed_cubic M : In M listed -> In M CUBIC_LAUE_GROUP.
Proof. exact (filtered (fun M => negb (lost M)) CUBIC_LAUE_GROUP M). Qed.
Opaque listed.
Lemma shear_accept M : In M CUBIC_LAUE_GROUP -> smallb M = true -> lat_eq E_shear (mmul (RZ M) E_shear) = Ok true.
Proof.
  intros HC HS. pose proof E_shear_base as B.
  apply cubic_iff in HC. destruct HC as [[WM _] _]. destruct (wf3_inv M WM) as (a&b&c&d&e&f&g&h&i&EM).
  assert (ER : RZ M = M3 (IZR a) (IZR b) (IZR c) (IZR d) (IZR e) (IZR f) (IZR g) (IZR h) (IZR i)) by (rewrite EM; reflexivity).
  assert (K : Rabs (IZR a - IZR e) <= 1 /\ Rabs (IZR d) <= 1 /\ Rabs (IZR f) <= 1 /\ Rabs (IZR g) <= 1).
  { rewrite EM in HS. unfold smallb in HS. rewrite !Bool.andb_true_iff, !Z.leb_le in HS. destruct HS as [[[H1 H2] H3] H4].
    apply small_R in H1, H2, H3, H4. rewrite minus_IZR in H1. auto. }
  destruct K as (K1 & K2 & K3 & K4). clear HS.
  destruct (shear_conj (IZR a) (IZR b) (IZR c) (IZR d) (IZR e) (IZR f) (IZR g) (IZR h) (IZR i)) as [C1' C2'].
  rewrite C1', <- ER in C2'.
  refine (proj1 (lat_eq_true 3 _ B _ _ M (wfM3 _ _ _ _ _ _ _ _ _) WM C2' _)).
  intros k l Hk Hl. rewrite <- get_RZ, ER. now apply shear_close.
Qed.
Lemma shear_listed M : In M listed -> In (RZ M) (kept E_shear cubic_arr).
Proof.
  intros HM. pose proof E_shear_base as B. pose proof (listed_cubic M HM) as HC.
  apply (in_kept 3 _ B cubic_arr (proj2 cubic_T)). split; [unfold cubic_arr; rewrite map_values_int; now apply in_map|].
  assert (OM : orthogonal 3 (RZ M)) by exact (proj1 (proj2 CUBIC_good (RZ M) (in_map RZ _ _ HC))).
  rewrite (inpoint_red 3 _ B); [|exact OM]. cbn [values]. clear OM.
  apply shear_accept; [exact HC|]. exact (proj1 (forallb_forall _ _) listed_small M HM).
Qed.
Lemma count_below {A} (x : A) G T : NoDup (x :: G) -> incl (x :: G) T -> (length G < length T)%nat.
Proof. intros N I. exact (NoDup_incl_length N I). Qed.
Lemma len24 : length (map RZ CUBIC_LAUE_GROUP) = 24%nat.
Proof. now rewrite map_length. Qed.
Local Opaque kept.
(** The number of rotations need not divide 24. *)
Theorem C125_refuted : exists E G, base 3 E /\ Laue_group E = Ok G /\ ~ Nat.divide (length G) 24.
Proof.
  pose proof E_shear_base as B. set (G := kept E_shear cubic_arr). exists E_shear, G.
  assert (L1 : (22 <= length G)%nat).
  { change 22%nat with (length (map RZ listed)). apply NoDup_incl_length.
    - apply (Coq.Logic.FinFun.Injective_map_NoDup RZ_inj). Transparent listed. apply NoDup_filter. apply (NoDup_map_inv RZ). apply CUBIC_good.
    - intros X HX. apply in_map_iff in HX. destruct HX as (M & <- & HM). now apply shear_listed. }
  assert (L2 : (length G < 24)%nat).
  { pose (D := [[1; 0; 0]; [0; -1; 0]; [0; 0; -1]]%Z). assert (ND : NoDup (RZ D :: G)).
    { constructor; [|apply (kept_NoDup 3 _ _ (proj1 cubic_T))]. intros K.
      apply (in_kept 3 _ B cubic_arr (proj2 cubic_T)) in K. destruct K as [K1 K2]. unfold cubic_arr in K1. rewrite map_values_int in K1.
      rewrite (inpoint_red 3 _ B) in K2; [|exact (proj1 (proj2 CUBIC_good _ K1))]. cbn [values] in K2.
      destruct (shear_conj (IZR 1) (IZR 0) (IZR 0) (IZR 0) (IZR (-1)) (IZR 0) (IZR 0) (IZR 0) (IZR (-1))) as [C1' C2'].
      assert (F : lat_eq E_shear (mmul (RZ D) E_shear) = Ok false); [|congruence]. rewrite C1' in C2'.
      eapply (lat_eq_false 3 _ B _ _ 0 1 0); [|exact C2'|lia|lia|..]; [apply wfM3|..]; cbn; unfold sh; rabs; lra. }
    assert (I : incl (RZ D :: G) (map RZ CUBIC_LAUE_GROUP)).
    { intros X [<-|HX]; [apply in_map; cbn; auto 30|]. apply (in_kept 3 _ B cubic_arr (proj2 cubic_T)) in HX. destruct HX as [HX _].
      unfold cubic_arr in HX. now rewrite map_values_int in HX. }
    pose proof (count_below _ _ _ ND I) as H. rewrite len24 in H. exact H. }
  split; [exact B|]. split.
  - unfold Laue_group. cbn [length E_shear M3]. change [[1; sh; 0]; [0; 1; 0]; [0; 0; 1]] with E_shear. unfold pick_group.
    rewrite (keep_kept 3 _ B cubic_arr (proj2 cubic_T)). cbn [bind]. fold G. destruct (length G =? 4)%nat eqn:L; [|reflexivity]. apply Nat.eqb_eq in L. lia.
  - intros [q Hq]. assert (q = 0 \/ q = 1 \/ 2 <= q)%nat as [->|[->|H]] by lia; nia.
Qed.
(** The hypotheses are met by a tetragonal lattice, and an order greater than 2 occurs. *)
Example C125_case : base 3 (Etet (21/20)) /\ resolved 3 (Etet (21/20)) /\ has_order 2 R90 4.
Proof.
  split; [apply base3; lra|]. split; [apply resolved_tet; now right|].
  assert (P : power 2 R90 1 = M2 0 (-1) 1 0 /\ power 2 R90 2 = M2 (-1) 0 0 (-1) /\ power 2 R90 3 = M2 0 1 (-1) 0 /\ power 2 R90 4 = eye 2).
  { cbn [power]. unfold R90. repeat split; mat_eq ltac:(ring). }
  assert (eye2_R : eye 2 = M2 1 0 0 1) by mat_eq ltac:(ring). destruct P as (P1 & P2 & P3 & P4). split; [lia|]. split; [exact P4|]. intros i Hi.
  assert (i = 1 \/ i = 2 \/ i = 3)%nat as [->|[->| ->]] by lia; rewrite ?P1, ?P2, ?P3, eye2_R; unfold M2; intros K; injection K; intros; lra.
Qed.
Print Assumptions C125_orders.
Print Assumptions C125_number_partial.
Print Assumptions C125_integer_partial.
Print Assumptions C125_refuted.
