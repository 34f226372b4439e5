(** C63: the unit cell drawn by visualization.py.  C74: the points that box keeps. *)
From Verif Require Import VisModel LLLProofs LLLProofs2 LatticeProofs.
Local Open Scope R_scope.

(** ** Specification *)
(** The point o + sum of the base vectors (rows of E) selected by bits *)
Definition corner (o : vec R) (E : mat R) (bits : list bool) : vec R :=
  fold_left (fun p i => if nth i bits false then vadd p (nth i E []) else p) (seq 0 (length E)) o.
Definition corner_bits (n : nat) (v : vec R) (o : vec R) (E : mat R) (bits : list bool) : Prop :=
  length bits = n /\ v = corner o E bits.
(** v is a corner of the parallelepiped (parallelogram) at o spanned by the rows of E *)
Definition is_corner (n : nat) (o : vec R) (E : mat R) (v : vec R) : Prop := exists bits, corner_bits n v o E bits.
(** u and v are corners that differ by one base vector *)
Definition is_edge (n : nat) (o : vec R) (E : mat R) (u v : vec R) : Prop :=
  is_corner n o E u /\ is_corner n o E v /\ exists i, (i < n)%nat /\ (v = vadd u (nth i E []) \/ u = vadd v (nth i E [])).

(** * C63 *)
Definition b2r (b : bool) : R := if b then 1 else 0.
Lemma b2r_inj b b' : b2r b = b2r b' -> b = b'. Proof. destruct b, b'; cbn; intros; auto; lra. Qed.
Lemma bits3 (bits : list bool) : length bits = 3%nat -> exists a b c, bits = [a; b; c].
Proof. destruct bits as [|a [|b [|c [|]]]]; try discriminate. eauto. Qed.
Lemma bits2 (bits : list bool) : length bits = 2%nat -> exists a b, bits = [a; b].
Proof. destruct bits as [|a [|b [|]]]; try discriminate. eauto. Qed.
Ltac elim_in H := repeat (destruct H as [H|H]); try contradiction.
Lemma l3 (x y z x' y' z' : R) : x = x' -> y = y' -> z = z' -> [x; y; z] = [x'; y'; z'].
Proof. congruence. Qed.
Lemma l2 (x y x' y' : R) : x = x' -> y = y' -> [x; y] = [x'; y'].
Proof. congruence. Qed.
Lemma nodup_map {X Y} (f : X -> Y) l : (forall x y, f x = f y -> x = y) -> NoDup l -> NoDup (map f l).
Proof.
  intros I N. induction N as [|x l H N IH]; cbn; constructor; auto. intros K. apply in_map_iff in K. destruct K as (y & E & Hy). apply I in E. now subst.
Qed.

Section D3.
  Variables x y z a b c d e f g h i : R.
  Let o := [x; y; z].
  Let E := [[a; b; c]; [d; e; f]; [g; h; i]].
  (** the point with coordinates k relative to o and the rows of E *)
  Definition at3 (k : R * R * R) : vec R := let '(k0, k1, k2) := k in
    [x + k0 * a + k1 * d + k2 * g; y + k0 * b + k1 * e + k2 * h; z + k0 * c + k1 * f + k2 * i].
  Definition c3 (t : bool * bool * bool) : vec R := let '(p, q, r) := t in at3 (b2r p, b2r q, b2r r).
  Lemma corner3 p q r : corner o E [p; q; r] = c3 (p, q, r).
  Proof. unfold corner, o, E, c3, at3, b2r. destruct p, q, r; cbn [fold_left seq length nth]; un; apply l3; ring. Qed.
  Definition verts3 : list (bool * bool * bool) :=
    [(false, false, false); (true, false, false); (false, true, false); (false, false, true);
     (true, true, false); (false, true, true); (true, false, true); (true, true, true)].
  Lemma vertex3 : vertex o E 3 = Val (Some (map c3 verts3)).
  Proof.
    unfold vertex, o, E. cbn [Z.eqb Pos.eqb has_shape wfb length Nat.eqb andb forallb nth]. do 2 f_equal.
    unfold verts3. cbn [map]. unfold c3, at3, b2r.
    repeat (apply f_equal2; [un; try (apply l3; ring)|]). reflexivity.
  Qed.
  Hypothesis D : det E <> 0.
  Lemma at3_inj k k' : at3 k = at3 k' -> k = k'.
  Proof.
    destruct k as [[k0 k1] k2], k' as [[l0 l1] l2]. unfold at3. intros H. injection H as H0 H1 H2.
    unfold E in D. rewrite det3 in D. set (dd := a * (e * i - f * h) - b * (d * i - f * g) + c * (d * h - e * g)) in *.
    assert (E0 : (k0 - l0) * dd = 0).
    { replace ((k0 - l0) * dd) with ((k0 * a + k1 * d + k2 * g - (l0 * a + l1 * d + l2 * g)) * (e * i - f * h) - (k0 * b + k1 * e + k2 * h - (l0 * b + l1 * e + l2 * h)) * (d * i - f * g) + (k0 * c + k1 * f + k2 * i - (l0 * c + l1 * f + l2 * i)) * (d * h - e * g)) by (unfold dd; ring).
      replace (k0 * a + k1 * d + k2 * g - (l0 * a + l1 * d + l2 * g)) with 0 by lra. replace (k0 * b + k1 * e + k2 * h - (l0 * b + l1 * e + l2 * h)) with 0 by lra. replace (k0 * c + k1 * f + k2 * i - (l0 * c + l1 * f + l2 * i)) with 0 by lra. ring. }
    assert (E1 : (k1 - l1) * dd = 0).
    { replace ((k1 - l1) * dd) with (- (k0 * a + k1 * d + k2 * g - (l0 * a + l1 * d + l2 * g)) * (b * i - c * h) + (k0 * b + k1 * e + k2 * h - (l0 * b + l1 * e + l2 * h)) * (a * i - c * g) - (k0 * c + k1 * f + k2 * i - (l0 * c + l1 * f + l2 * i)) * (a * h - b * g)) by (unfold dd; ring).
      replace (k0 * a + k1 * d + k2 * g - (l0 * a + l1 * d + l2 * g)) with 0 by lra. replace (k0 * b + k1 * e + k2 * h - (l0 * b + l1 * e + l2 * h)) with 0 by lra. replace (k0 * c + k1 * f + k2 * i - (l0 * c + l1 * f + l2 * i)) with 0 by lra. ring. }
    assert (E2 : (k2 - l2) * dd = 0).
    { replace ((k2 - l2) * dd) with ((k0 * a + k1 * d + k2 * g - (l0 * a + l1 * d + l2 * g)) * (b * f - c * e) - (k0 * b + k1 * e + k2 * h - (l0 * b + l1 * e + l2 * h)) * (a * f - c * d) + (k0 * c + k1 * f + k2 * i - (l0 * c + l1 * f + l2 * i)) * (a * e - b * d)) by (unfold dd; ring).
      replace (k0 * a + k1 * d + k2 * g - (l0 * a + l1 * d + l2 * g)) with 0 by lra. replace (k0 * b + k1 * e + k2 * h - (l0 * b + l1 * e + l2 * h)) with 0 by lra. replace (k0 * c + k1 * f + k2 * i - (l0 * c + l1 * f + l2 * i)) with 0 by lra. ring. }
    clearbody dd. clear H0 H1 H2. apply Rmult_integral in E0, E1, E2.
    assert (k0 = l0) by (destruct E0; [lra|contradiction]). assert (k1 = l1) by (destruct E1; [lra|contradiction]). assert (k2 = l2) by (destruct E2; [lra|contradiction]). now subst.
  Qed.
  Lemma c3_inj t t' : c3 t = c3 t' -> t = t'.
  Proof. destruct t as [[p q] r], t' as [[p' q'] r']. unfold c3. intros H. apply at3_inj in H. injection H as H0 H1 H2. apply b2r_inj in H0, H1, H2. now subst. Qed.
  Definition bonds3 : list ((bool * bool * bool) * (bool * bool * bool)) :=
    map (fun p => (nth (fst p) verts3 (false, false, false), nth (snd p) verts3 (false, false, false))) (combine idx_1 idx_2).
  Lemma bonds3_eq : bonds (map c3 verts3) = Val (map (fun p => (c3 (fst p), c3 (snd p))) bonds3).
  Proof. reflexivity. Qed.
  (** adding base vector j to the point with coordinates k *)
  Definition step (k : R * R * R) (j : nat) : R * R * R := let '(k0, k1, k2) := k in
    match j with 0%nat => (k0 + 1, k1, k2) | 1%nat => (k0, k1 + 1, k2) | _ => (k0, k1, k2 + 1) end.
  Lemma at3_step k j : (j < 3)%nat -> vadd (at3 k) (nth j E []) = at3 (step k j).
  Proof. intros H. destruct k as [[k0 k1] k2]. unfold E. destruct j as [|[|[|]]]; [..|lia]; cbn [nth step at3]; un; apply l3; ring. Qed.
  Definition flip (t : bool * bool * bool) (j : nat) : bool * bool * bool := let '(p, q, r) := t in
    match j with 0%nat => (true, q, r) | 1%nat => (p, true, r) | _ => (p, q, true) end.
  Lemma c3_step t t' j : (j < 3)%nat -> c3 t' = vadd (c3 t) (nth j E []) -> t' = flip t j /\ t <> flip t j.
  Proof.
    destruct t as [[p q] r], t' as [[p' q'] r']. unfold c3. intros Hj H. rewrite at3_step in H by exact Hj. apply at3_inj in H.
    destruct j as [|[|[|]]]; [..|lia]; cbn [step flip] in *; injection H as H0 H1 H2; destruct p, q, r, p', q', r'; cbn in H0, H1, H2; try lra; split; auto; discriminate.
  Qed.
  Lemma edges3 u v : is_edge 3 o E u v <-> In (u, v) (map (fun p => (c3 (fst p), c3 (snd p))) bonds3) \/ In (v, u) (map (fun p => (c3 (fst p), c3 (snd p))) bonds3).
  Proof.
    split.
    - intros ((s & Ls & Hu) & (t & Lt & Hv) & j & Hj & K). destruct (bits3 s Ls) as (s0 & s1 & s2 & ->). destruct (bits3 t Lt) as (t0 & t1 & t2 & ->).
      rewrite corner3 in Hu, Hv. subst u v. rewrite !in_map_iff.
      assert (X : forall s t, t = flip s j /\ s <> flip s j -> In (s, t) bonds3 \/ In (t, s) bonds3).
      { intros [[p q] r] t' [-> N]. clear - Hj N. destruct j as [|[|[|]]]; [..|lia]; destruct p, q, r; cbn in N |- *; try (now elim N); tauto. }
      destruct K as [K|K]; apply c3_step in K; auto; apply X in K; destruct K as [K|K]; [left|right|right|left]; (eexists; split; [|exact K]; reflexivity).
    - assert (X : forall p, In p bonds3 -> is_edge 3 o E (c3 (fst p)) (c3 (snd p)) /\ is_edge 3 o E (c3 (snd p)) (c3 (fst p))).
      { assert (C : forall t, is_corner 3 o E (c3 t)) by (intros [[p q] r]; exists [p; q; r]; split; [reflexivity|now rewrite corner3]).
        assert (Sx : forall t j, (j < 3)%nat -> t <> flip t j -> c3 (flip t j) = vadd (c3 t) (nth j E [])).
        { intros [[p q] r] j Hj N. unfold c3 at 2. rewrite at3_step by exact Hj. destruct j as [|[|[|]]]; [..|lia]; destruct p, q, r; cbn in N |- *; try (now elim N); apply l3; ring. }
        intros p Hp. split; (split; [apply C|]; split; [apply C|]).
        - cbn in Hp. elim_in Hp; subst p; cbn [fst snd];
          match goal with |- exists i, _ /\ (c3 ?t' = vadd (c3 ?t) _ \/ _) => 
            first [ exists 0%nat; split; [lia|]; left; exact (Sx t 0%nat ltac:(lia) ltac:(discriminate)) | exists 1%nat; split; [lia|]; left; exact (Sx t 1%nat ltac:(lia) ltac:(discriminate)) | exists 2%nat; split; [lia|]; left; exact (Sx t 2%nat ltac:(lia) ltac:(discriminate))
                  | exists 0%nat; split; [lia|]; right; exact (Sx t' 0%nat ltac:(lia) ltac:(discriminate)) | exists 1%nat; split; [lia|]; right; exact (Sx t' 1%nat ltac:(lia) ltac:(discriminate)) | exists 2%nat; split; [lia|]; right; exact (Sx t' 2%nat ltac:(lia) ltac:(discriminate)) ] end.
        - cbn in Hp. elim_in Hp; subst p; cbn [fst snd];
          match goal with |- exists i, _ /\ (c3 ?t' = vadd (c3 ?t) _ \/ _) => 
            first [ exists 0%nat; split; [lia|]; left; exact (Sx t 0%nat ltac:(lia) ltac:(discriminate)) | exists 1%nat; split; [lia|]; left; exact (Sx t 1%nat ltac:(lia) ltac:(discriminate)) | exists 2%nat; split; [lia|]; left; exact (Sx t 2%nat ltac:(lia) ltac:(discriminate))
                  | exists 0%nat; split; [lia|]; right; exact (Sx t' 0%nat ltac:(lia) ltac:(discriminate)) | exists 1%nat; split; [lia|]; right; exact (Sx t' 1%nat ltac:(lia) ltac:(discriminate)) | exists 2%nat; split; [lia|]; right; exact (Sx t' 2%nat ltac:(lia) ltac:(discriminate)) ] end. }
      rewrite !in_map_iff. intros [(p & [= <- <-] & Hp)|(p & [= <- <-] & Hp)]; apply X in Hp; tauto.
  Qed.
End D3.

Section D2.
  Variables x y a b c d : R.
  Let o := [x; y].
  Let E := [[a; b]; [c; d]].
  Definition at2 (k : R * R) : vec R := let '(k0, k1) := k in [x + k0 * a + k1 * c; y + k0 * b + k1 * d].
  Definition c2 (t : bool * bool) : vec R := let '(p, q) := t in at2 (b2r p, b2r q).
  Lemma corner2 p q : corner o E [p; q] = c2 (p, q).
  Proof. unfold corner, o, E, c2, at2, b2r. destruct p, q; cbn [fold_left seq length nth]; un; apply l2; ring. Qed.
  Definition verts2 : list (bool * bool) := [(false, false); (true, false); (false, true); (true, true)].
  Lemma vertex2 : vertex o E 2 = Val (Some (map c2 verts2)).
  Proof.
    unfold vertex, o, E. cbn [Z.eqb Pos.eqb has_shape wfb length Nat.eqb andb forallb nth]. do 2 f_equal.
    unfold verts2. cbn [map]. unfold c2, at2, b2r.
    repeat (apply f_equal2; [un; try (apply l2; ring)|]). reflexivity.
  Qed.
  Hypothesis D : det E <> 0.
  Lemma c2_inj t t' : c2 t = c2 t' -> t = t'.
  Proof.
    destruct t as [p q], t' as [p' q']. unfold c2, at2. intros H. injection H as H0 H1. unfold E in D. rewrite det2 in D.
    set (k0 := b2r p) in *. set (k1 := b2r q) in *. set (m0 := b2r p') in *. set (m1 := b2r q') in *.
    assert (E0 : (k0 - m0) * (a * d - b * c) = 0).
    { replace ((k0 - m0) * (a * d - b * c)) with ((k0 * a + k1 * c - (m0 * a + m1 * c)) * d - (k0 * b + k1 * d - (m0 * b + m1 * d)) * c) by ring.
      replace (k0 * a + k1 * c - (m0 * a + m1 * c)) with 0 by lra. replace (k0 * b + k1 * d - (m0 * b + m1 * d)) with 0 by lra. ring. }
    assert (E1 : (k1 - m1) * (a * d - b * c) = 0).
    { replace ((k1 - m1) * (a * d - b * c)) with ((k0 * b + k1 * d - (m0 * b + m1 * d)) * a - (k0 * a + k1 * c - (m0 * a + m1 * c)) * b) by ring.
      replace (k0 * a + k1 * c - (m0 * a + m1 * c)) with 0 by lra. replace (k0 * b + k1 * d - (m0 * b + m1 * d)) with 0 by lra. ring. }
    apply Rmult_integral in E0, E1. clear H0 H1.
    assert (K0 : k0 = m0) by (destruct E0; [lra|contradiction]). assert (K1 : k1 = m1) by (destruct E1; [lra|contradiction]).
    apply b2r_inj in K0, K1. now subst.
  Qed.
End D2.
Lemma verts3_nodup : NoDup verts3.
Proof. unfold verts3. repeat constructor; cbn; intuition discriminate. Qed.
Lemma verts2_nodup : NoDup verts2.
Proof. unfold verts2. repeat constructor; cbn; intuition discriminate. Qed.

(** vertex returns the 2^n corners; each once if the base is nonsingular. *)
Theorem C63_vertices : forall n o E, n = 2%nat \/ n = 3%nat -> wf n n E -> length o = n ->
  exists vs, vertex o E (Z.of_nat n) = Val (Some vs) /\ length vs = (2 ^ n)%nat /\ (forall v, In v vs <-> is_corner n o E v) /\
    (det E <> 0 -> NoDup vs).
Proof.
  intros n o E [-> | ->] W Lo.
  - apply wf2_inv in W. destruct W as (a & b & c & d & ->). apply len2_inv in Lo. destruct Lo as (x & y & ->).
    exists (map (c2 x y a b c d) verts2). split; [apply vertex2|]. split; [reflexivity|]. split.
    + intros v. rewrite in_map_iff. split.
      * intros ([p q] & <- & _). exists [p; q]. split; [reflexivity|]. now rewrite corner2.
      * intros (bits & L & ->). destruct (bits2 bits L) as (p & q & ->). exists (p, q). split; [now rewrite corner2|]. destruct p, q; cbn; tauto.
    + intros D. apply nodup_map; [now apply c2_inj|exact verts2_nodup].
  - apply wf3_inv in W. destruct W as (a & b & c & d & e & f & g & h & i & ->). apply len3_inv in Lo. destruct Lo as (x & y & z & ->).
    exists (map (c3 x y z a b c d e f g h i) verts3). split; [apply vertex3|]. split; [reflexivity|]. split.
    + intros v. rewrite in_map_iff. split.
      * intros ([[p q] r] & <- & _). exists [p; q; r]. split; [reflexivity|]. now rewrite corner3.
      * intros (bits & L & ->). destruct (bits3 bits L) as (p & q & r & ->). exists (p, q, r). split; [now rewrite corner3|]. destruct p, q, r; cbn; tauto.
    + intros D. apply nodup_map; [now apply c3_inj|exact verts3_nodup].
Qed.
Print Assumptions C63_vertices.

(** vertex refuses (a message and None) exactly the bases and origins of the wrong shape, and raises visualError exactly
    for other dimensions. *)
Theorem C63_shapes : forall o E k,
  (vertex o E k = visualError <-> k <> 2%Z /\ k <> 3%Z) /\
  (forall n, n = 2%nat \/ n = 3%nat -> (vertex o E (Z.of_nat n) = Val None <-> ~ (wf n n E /\ length o = n))).
Proof.
  intros o E k. unfold vertex. split.
  - destruct (Z.eqb_spec k 3) as [-> | N3]; [destruct (has_shape 3 E && _); split; [discriminate|lia|discriminate|lia]|].
    destruct (Z.eqb_spec k 2) as [-> | N2]; [destruct (has_shape 2 E && _); split; [discriminate|lia|discriminate|lia]|]. tauto.
  - assert (T : forall n, has_shape n E && (length o =? n)%nat = true <-> wf n n E /\ length o = n)
      by (intros n; unfold has_shape; rewrite andb_true_iff, wfb_spec, Nat.eqb_eq; tauto).
    intros n [-> | ->]; [change (Z.of_nat 2) with 2%Z; rewrite <- (T 2%nat); cbn [Z.eqb Pos.eqb]; destruct (has_shape 2 E && _)|
                         change (Z.of_nat 3) with 3%Z; rewrite <- (T 3%nat); cbn [Z.eqb Pos.eqb]; destruct (has_shape 3 E && _)];
      split; intros H; try discriminate; try reflexivity; exfalso; now apply H.
Qed.
Print Assumptions C63_shapes.

Lemma bonds3_nodup : NoDup (bonds3 ++ map (fun p => (snd p, fst p)) bonds3).
Proof. repeat constructor; cbn; intuition discriminate. Qed.
(** In three dimensions, for every nonsingular base, the twelve bonds of the vertices are the edges of the
    parallelepiped, each once, in one of its two directions.  Missing: two dimensions, and UnitCell objects. *)
Theorem C63_bonds_partial : forall o E, wf 3 3 E -> det E <> 0 -> length o = 3%nat ->
  exists vs bs, vertex o E 3 = Val (Some vs) /\ bonds vs = Val bs /\ length bs = 12%nat /\
    (forall u v, is_edge 3 o E u v <-> In (u, v) bs \/ In (v, u) bs) /\ NoDup (bs ++ map (fun p => (snd p, fst p)) bs).
Proof.
  intros o E W D Lo. apply wf3_inv in W. destruct W as (a & b & c & d & e & f & g & h & i & ->). apply len3_inv in Lo. destruct Lo as (x & y & z & ->).
  set (C := c3 x y z a b c d e f g h i). exists (map C verts3), (map (fun p => (C (fst p), C (snd p))) bonds3).
  split; [apply vertex3|]. split; [apply bonds3_eq|]. split; [reflexivity|]. split; [intros u v; now apply edges3|].
  rewrite map_map. cbn [fst snd]. rewrite <- (map_map (fun p => (snd p, fst p)) (fun p => (C (fst p), C (snd p)))), <- map_app.
  apply nodup_map; [|exact bonds3_nodup]. intros [s t] [s' t']. cbn [fst snd]. intros [= H H']. apply c3_inj in H, H'; auto. now subst.
Qed.
Print Assumptions C63_bonds_partial.

(** For every base in two dimensions bonds raises a TypeError, and every call of UnitCell does. *)
Theorem C63_refuted :
  (forall o E, wf 2 2 E -> length o = 2%nat -> exists vs, vertex o E 2 = Val (Some vs) /\ bonds vs = Err TypeError) /\
  (forall L (new : res L) origin n, UnitCell new origin n = Raise TypeError).
Proof.
  split.
  - intros o E W Lo. apply wf2_inv in W. destruct W as (a & b & c & d & ->). apply len2_inv in Lo. destruct Lo as (x & y & ->).
    exists (map (c2 x y a b c d) verts2). split; [apply vertex2|reflexivity].
  - reflexivity.
Qed.
Print Assumptions C63_refuted.
Example C63_case : wf 3 3 [[2; 0; 0]; [0; 3; 0]; [1; 0; 4]] /\ det [[2; 0; 0]; [0; 3; 0]; [1; 0; 4]] <> 0.
Proof. split; [now apply wfb_spec|rewrite det3; lra]. Qed.

(** * C74: box *)
(** ** Specification: the columns of E are the edges of a rectangular box with a corner at the origin *)
Definition rectangular (n : nat) (E : mat R) : Prop :=
  wf n n E /\ (forall i, (i < n)%nat -> dot (col E i) (col E i) <> 0) /\
  (forall i j, (i < n)%nat -> (j < n)%nat -> i <> j -> dot (col E i) (col E j) = 0).
(** v is in the box, which is enlarged by 5% away from the origin: v = t_0 e_0 + t_1 e_1 + ... with 0 <= t_j < 1.05 *)
Definition in_box (n : nat) (E : mat R) (v : vec R) : Prop :=
  exists ts, length ts = n /\ v = mvmul E ts /\ forall j, (j < n)%nat -> 0 <= vget ts j < 105 / 100.

Lemma vnorm_pos e : dot e e <> 0 -> 0 < vnorm e.
Proof. intros H. unfold vnorm. apply sqrt_lt_R0. now apply dot_pos. Qed.
Lemma vnorm2 e : vnorm e * vnorm e = dot e e.
Proof. rewrite <- vnorm_sq. ring. Qed.
(** the test of box on one direction *)
Lemma side_test n v e : length v = n -> length e = n -> dot e e <> 0 ->
  negb (Reqb (vnorm e) 0) && Rltb (dot v (vscale (/ vnorm e) e)) (105 / 100 * vnorm e) && Rleb 0 (dot v (vscale (/ vnorm e) e)) = true
  <-> 0 <= dot v e / dot e e < 105 / 100.
Proof.
  intros Lv Le N. pose proof (vnorm_pos e N) as P. rewrite (dot_scale_r n) by auto. rewrite <- vnorm2. set (r := vnorm e) in *.
  assert (X : / r * dot v e = dot v e / (r * r) * r) by (field; lra). rewrite X. set (t := dot v e / (r * r)).
  rewrite !andb_true_iff, Rltb_spec, Rleb_spec. assert (Y : negb (Reqb r 0) = true) by (apply Bool.negb_true_iff, Reqb_false; lra).
  split; [intros [[_ H1] H2]|intros [H1 H2]; split; [split; [exact Y|]|]]; nra.
Qed.
Lemma mvmul3 (M : mat R) t0 t1 t2 : wf 3 3 M -> mvmul M [t0; t1; t2] = vadd (vadd (vscale t0 (col M 0)) (vscale t1 (col M 1))) (vscale t2 (col M 2)).
Proof. intros W. apply wf3_inv in W. destruct W as (a & b & c & d & e & f & g & h & i & ->). un. apply l3; ring. Qed.
Lemma rect_det E : rectangular 3 E -> det E <> 0.
Proof.
  intros (W & N & O). pose proof (N 0%nat ltac:(lia)) as N0. pose proof (N 1%nat ltac:(lia)) as N1. pose proof (N 2%nat ltac:(lia)) as N2.
  pose proof (O 0%nat 1%nat ltac:(lia) ltac:(lia) ltac:(lia)) as O1. pose proof (O 0%nat 2%nat ltac:(lia) ltac:(lia) ltac:(lia)) as O2. pose proof (O 1%nat 2%nat ltac:(lia) ltac:(lia) ltac:(lia)) as O3.
  clear N O. assert (K : det E * det E = dot (col E 0) (col E 0) * dot (col E 1) (col E 1) * dot (col E 2) (col E 2)).
  { rewrite <- (det_tr 3 E) at 1 by (auto; now right). rewrite <- (det_mmul 3) by (auto; try (now right); apply wf_tr'; auto; lia).
    assert (G : mmul (tr E) E = [[dot (col E 0) (col E 0); 0; 0]; [0; dot (col E 1) (col E 1); 0]; [0; 0; dot (col E 2) (col E 2)]]).
    { revert O1 O2 O3. clear - W. apply wf3_inv in W. destruct W as (a & b & c & d & e & f & g & h & i & ->).
      cbv [dot sumn length vget nth add mul zero R_ops col mkv map seq nrows get]. intros O1 O2 O3. mat_unfold_goal.
      apply f_equal2; [apply l3; lra|]. apply f_equal2; [apply l3; lra|]. apply f_equal2; [apply l3; lra|reflexivity]. }
    rewrite G, det3. ring. }
  intros D. rewrite D in K. assert (dot (col E 0) (col E 0) * dot (col E 1) (col E 1) * dot (col E 2) (col E 2) <> 0) by (repeat apply Rmult_integral_contrapositive_currified; assumption). lra.
Qed.
Lemma len_col3 (E : mat R) j : wf 3 3 E -> length (col E j) = 3%nat.
Proof. intros W. unfold col, mkv. rewrite map_length, seq_length. apply W. Qed.
Lemma in_box_dots E v : rectangular 3 E -> length v = 3%nat ->
  (in_box 3 E v <-> forall j, (j < 3)%nat -> 0 <= dot v (col E j) / dot (col E j) (col E j) < 105 / 100).
Proof.
  intros RE Lv. pose proof (rect_det E RE) as D. pose proof RE as (W & N & O).
  assert (K : forall t0 t1 t2 j, (j < 3)%nat -> dot (mvmul E [t0; t1; t2]) (col E j) / dot (col E j) (col E j) = vget [t0; t1; t2] j).
  { intros t0 t1 t2 j Hj. rewrite mvmul3 by exact W. rewrite !dot_add_l, !dot_scale_l by (rewrite ?len_vadd, ?len_vscale, !len_col3; auto).
    specialize (N j Hj). unfold vget.
    destruct j as [|[|[|]]]; [..|lia]; cbn [nth]; rewrite ?(O 0%nat 1%nat), ?(O 0%nat 2%nat), ?(O 1%nat 0%nat), ?(O 1%nat 2%nat), ?(O 2%nat 0%nat), ?(O 2%nat 1%nat) by lia; field; exact N. }
  split.
  - intros (ts & L & -> & H). apply len3_inv in L. destruct L as (t0 & t1 & t2 & ->). intros j Hj. rewrite K by exact Hj. now apply H.
  - intros H. set (ts := mvmul (minv E) v). assert (Wi : wf 3 3 (minv E)) by (apply wf_minv; [now right|exact W]).
    assert (L : length ts = 3%nat) by (unfold ts; now apply (length_mvmul 3 3)).
    assert (Ev : v = mvmul E ts).
    { unfold ts. rewrite <- (mvmul_mmul 3) by (auto; lia). rewrite (minv_r 3) by (auto; now right). symmetry. now apply mvmul_eye. }
    exists ts. split; [exact L|]. split; [exact Ev|]. intros j Hj. specialize (H j Hj). rewrite Ev in H. clearbody ts. apply len3_inv in L. destruct L as (t0 & t1 & t2 & ->). now rewrite K in H by exact Hj.
Qed.
Lemma inside3_spec E v : rectangular 3 E -> length v = 3%nat -> (inside3 E v = true <-> in_box 3 E v).
Proof.
  intros RE Lv. rewrite in_box_dots by auto. destruct RE as (W & N & _).
  unfold inside3. rewrite forallb_forall. split.
  - intros H j Hj. apply (side_test 3); auto using len_col3. apply H. destruct j as [|[|[|]]]; [..|lia]; cbn; auto.
  - intros H j Hj. assert (j < 3)%nat by (cbn in Hj; lia). apply (side_test 3); auto using len_col3.
Qed.

(** In three dimensions box returns exactly the points of the list that are in the box, in their order; when there are
    none, a vector of three zeros.  Missing: two dimensions. *)
Theorem C74_box_partial : forall E vs, rectangular 3 E -> vs <> [] -> (forall v, In v vs -> length v = 3%nat) ->
  exists ws, box vs E 3 = Val (Some (match ws with [] => Zeros | _ => Rows ws end)) /\
    (forall v, In v ws <-> In v vs /\ in_box 3 E v) /\
    (exists keep, ws = filter keep vs).
Proof.
  intros E vs RE NE L. exists (filter (inside3 E) vs). split.
  - unfold box. cbn [Z.eqb Pos.eqb]. destruct vs as [|v vs]; [congruence|]. unfold has_shape.
    rewrite (proj2 (wfb_spec 3 3 E)) by apply RE. rewrite (L v) by now left. reflexivity.
  - split; [|eauto]. intros v. rewrite filter_In. split; intros [H1 H2]; (split; [exact H1|]); apply (inside3_spec E v RE (L v H1)); exact H2.
Qed.
Print Assumptions C74_box_partial.

(** In two dimensions box keeps points outside the box and drops points inside, and the result changes with the unit of
    length; and with an empty result in two dimensions the vector returned has three components. *)
Theorem C74_refuted :
  (exists E v, rectangular 2 E /\ length v = 2%nat /\ ~ in_box 2 E v /\ box [v] E 2 = Val (Some (Rows [v]))) /\
  (exists E v, rectangular 2 E /\ length v = 2%nat /\ in_box 2 E v /\ box [v] E 2 = Val (Some Zeros)).
Proof.
  assert (Rd : forall k, k <> 0 -> rectangular 2 [[k; 0]; [0; k]]).
  { intros k K. split; [now apply wfb_spec|]. split.
    - intros i Hi. destruct i as [|[|]]; [..|lia]; cbv [dot sumn length vget nth add mul zero R_ops col mkv map seq nrows get]; nra.
    - intros i j Hi Hj Hn. destruct i as [|[|]]; [..|lia]; (destruct j as [|[|]]; [..|lia]); try lia; cbv [dot sumn length vget nth add mul zero R_ops col mkv map seq nrows get]; ring. }
  assert (S2 : forall k, 0 <= k -> sqrt (k * k + 0 * 0) = k) by (intros; replace (k * k + 0 * 0) with (k * k) by ring; now apply sqrt_square).
  assert (C0 : forall k, 0 <= k -> vnorm (col [[k; 0]; [0; k]] 0) = k) by (intros k K; unfold vnorm; replace (dot _ _) with (k * k) by (cbv [dot sumn length vget nth add mul zero R_ops col mkv map seq nrows get]; ring); now apply sqrt_square).
  assert (C1 : forall k, 0 <= k -> vnorm (col [[k; 0]; [0; k]] 1) = k) by (intros k K; unfold vnorm; replace (dot _ _) with (k * k) by (cbv [dot sumn length vget nth add mul zero R_ops col mkv map seq nrows get]; ring); now apply sqrt_square).
  split.
  - exists [[1; 0]; [0; 1]], [-1; 0]. split; [apply Rd; lra|]. split; [reflexivity|]. split.
    + intros (ts & L & Ev & H). apply len2_inv in L. destruct L as (s & t & ->). assert (X : mvmul [[1; 0]; [0; 1]] [s; t] = [s; t]) by (un; apply l2; ring). rewrite X in Ev. injection Ev as <- <-.
      specialize (H 0%nat ltac:(lia)). cbv [vget nth] in H. lra.
    + unfold box. cbn [Z.eqb Pos.eqb has_shape wfb length Nat.eqb andb forallb filter]. replace (inside2 _ _) with true; [reflexivity|]. symmetry.
      unfold inside2. rewrite C0, C1 by lra. apply Rleb_spec. replace (mkv 2 _) with [-1; 0] by (un; apply l2; ring).
      unfold vnorm. replace (dot [-1; 0] [-1; 0]) with (1 * 1) by (cbv [dot sumn length vget nth add mul zero R_ops]; ring). rewrite sqrt_square by lra. lra.
  - exists [[10; 0]; [0; 10]], [5; 0]. split; [apply Rd; lra|]. split; [reflexivity|]. split.
    + exists [1/2; 0]. split; [reflexivity|]. split; [un; apply l2; lra|]. intros j Hj. destruct j as [|[|]]; [..|lia]; cbv [vget nth]; lra.
    + unfold box. cbn [Z.eqb Pos.eqb has_shape wfb length Nat.eqb andb forallb filter]. replace (inside2 _ _) with false; [reflexivity|]. symmetry.
      unfold inside2. rewrite C0, C1 by lra. apply Rleb_false. replace (mkv 2 _) with [50; 0] by (un; apply l2; ring).
      unfold vnorm. replace (dot [50; 0] [50; 0]) with (50 * 50) by (cbv [dot sumn length vget nth add mul zero R_ops]; ring). rewrite sqrt_square by lra. lra.
Qed.
Print Assumptions C74_refuted.
(** Hypotheses and conclusion for a concrete box: of three points one is kept. *)
Example C74_case : rectangular 3 [[0; 1; 0]; [2; 0; 0]; [0; 0; 3]] /\ in_box 3 [[0; 1; 0]; [2; 0; 0]; [0; 0; 3]] [1/2; 1; 0] /\ ~ in_box 3 [[0; 1; 0]; [2; 0; 0]; [0; 0; 3]] [1/2; -1; 0].
Proof.
  split; [|split].
  - split; [now apply wfb_spec|]. split.
    + intros i Hi. destruct i as [|[|[|]]]; [..|lia]; cbv [dot sumn length vget nth add mul zero R_ops col mkv map seq nrows get]; lra.
    + intros i j Hi Hj Hn. destruct i as [|[|[|]]]; [..|lia]; (destruct j as [|[|[|]]]; [..|lia]); try lia; cbv [dot sumn length vget nth add mul zero R_ops col mkv map seq nrows get]; ring.
  - exists [1/2; 1/2; 0]. split; [reflexivity|]. split; [un; apply l3; lra|]. intros j Hj. destruct j as [|[|[|]]]; [..|lia]; cbv [vget nth]; lra.
  - intros (ts & L & Ev & H). apply len3_inv in L. destruct L as (r & s & t & ->).
    assert (X : mvmul [[0; 1; 0]; [2; 0; 0]; [0; 0; 3]] [r; s; t] = [s; 2 * r; 3 * t]) by (un; apply l3; ring). rewrite X in Ev. injection Ev as E0 E1 E2.
    specialize (H 0%nat ltac:(lia)). cbv [vget nth] in H. lra.
Qed.
