(** Loops over the columns of an array of flattened matrices. *)
From Verif Require Export MatMathModel.

Section P.
  Context {A : Type} {O : Ops A}.

  (** * Row by row *)
  Lemma zipw_map {P X Y Z} (f : X -> Y -> Z) (F : P -> X) (G : P -> Y) l : zipw f (map F l) (map G l) = map (fun p => f (F p) (G p)) l.
  Proof. induction l as [|p l IH]; cbn; [reflexivity|now rewrite IH]. Qed.
  Lemma getcol_map {P} (F : P -> vec A) l c : getcol (map F l) c = map (fun p => vget (F p) c) l.
  Proof. unfold getcol. now rewrite map_map. Qed.
  Lemma setcol_map {P} (F : P -> vec A) (v : P -> A) l c : setcol (map F l) c (map v l) = map (fun p => upd c (v p) (F p)) l.
  Proof. unfold setcol. apply zipw_map. Qed.
  Lemma fold_rows {P T X} (l : list P) (step : list X -> T -> list X) (rstep : P -> X -> T -> X) :
    (forall F t, step (map F l) t = map (fun p => rstep p (F p) t) l) ->
    forall ts F, fold_left step ts (map F l) = map (fun p => fold_left (rstep p) ts (F p)) l.
  Proof. intros H. induction ts as [|t ts IH]; intros F; cbn; [reflexivity|]. rewrite H. apply (IH (fun p => rstep p (F p) t)). Qed.

  (** * One row *)
  Lemma length_upd c x (r : vec A) : length (upd c x r) = length r.
  Proof. revert c; induction r as [|y r IH]; intros [|c]; cbn; auto. Qed.
  Lemma vget_upd c x (r : vec A) i : i < length r -> vget (upd c x r) i = if c =? i then x else vget r i.
  Proof.
    unfold vget. revert c i; induction r as [|y r IH]; intros c i H; cbn in H; [lia|].
    destruct c as [|c], i as [|i]; cbn; auto. apply IH. lia.
  Qed.
  Lemma fold_upd {T} (c : T -> nat) (g : T -> A -> A) ts : forall r,
    length (fold_left (fun r t => upd (c t) (g t (vget r (c t))) r) ts r) = length r /\
    forall i, i < length r -> vget (fold_left (fun r t => upd (c t) (g t (vget r (c t))) r) ts r) i =
      fold_left (fun a t => if c t =? i then g t a else a) ts (vget r i).
  Proof.
    induction ts as [|t ts IH]; intros r; cbn [fold_left]; [split; reflexivity|].
    destruct (IH (upd (c t) (g t (vget r (c t))) r)) as [L E]. rewrite length_upd in *. split; [exact L|].
    intros i Hi. rewrite E, vget_upd by auto. destruct (Nat.eqb_spec (c t) i); [now subst|reflexivity].
  Qed.
  Lemma fold_skip {T} (c : T -> nat) (g : T -> A -> A) i ts : (forall t, In t ts -> c t <> i) ->
    forall a, fold_left (fun a t => if c t =? i then g t a else a) ts a = a.
  Proof.
    induction ts as [|t ts IH]; intros H a; cbn; [reflexivity|]. destruct (Nat.eqb_spec (c t) i) as [E|_]; [elim (H t); cbn; auto|].
    apply IH. intros; apply H; cbn; auto.
  Qed.

  Lemma seq_split d i : i < d -> seq 0 d = seq 0 i ++ i :: seq (S i) (d - S i).
  Proof. intros H. replace d with (i + S (d - S i)) at 1 by lia. rewrite seq_app. reflexivity. Qed.
  Lemma pairs_split d i j : i < d -> j < d -> exists u v, pairs d = u ++ (i, j) :: v /\
    (forall t, In t (u ++ v) -> (fst t < d /\ snd t < d /\ t <> (i, j))).
  Proof.
    intros Hi Hj. unfold pairs. set (row := fun i => map (fun j => (i, j)) (seq 0 d)). rewrite (seq_split d i Hi), flat_map_app. cbn [flat_map].
    assert (R : row i = map (fun j => (i, j)) (seq 0 j) ++ (i, j) :: map (fun j => (i, j)) (seq (S j) (d - S j))) by (unfold row; rewrite (seq_split d j Hj), map_app; reflexivity).
    rewrite R, <- app_assoc. cbn [app]. rewrite app_assoc. unfold row.
    eexists _, _. split; [reflexivity|]. intros [p q] H. cbn [fst snd].
    assert (F : forall (x y n : nat) (b : list nat), In (x, y) (flat_map (fun i => map (fun j => (i, j)) (seq 0 n)) b) <-> In x b /\ y < n).
    { intros x y n b. rewrite in_flat_map. split.
      - intros (z & Hz & Hy). apply in_map_iff in Hy. destruct Hy as (w & [= -> ->] & Hw). apply in_seq in Hw. split; [auto|lia].
      - intros [Hx Hy]. exists x. split; [exact Hx|]. apply in_map_iff. exists y. split; [reflexivity|]. apply in_seq. lia. }
    rewrite !in_app_iff, !F, !in_map_iff in H.
    destruct H as [[[H H']|(y & [= <- <-] & Hy)]|[(y & [= <- <-] & Hy)|[H H']]].
    - apply in_seq in H. repeat split; try lia. intros [= ? ?]; lia.
    - apply in_seq in Hy. repeat split; try lia. intros [= ?]; lia.
    - apply in_seq in Hy. repeat split; try lia. intros [= ?]; lia.
    - apply in_seq in H. repeat split; try lia. intros [= ? ?]; lia.
  Qed.
  Lemma idx_inj d i j i' j' : j < d -> j' < d -> i * d + j = i' * d + j' -> i = i' /\ j = j'.
  Proof. intros H H' E. assert (i = i') by nia. subst. split; [reflexivity|lia]. Qed.
  Lemma fold_pairs d (g : nat * nat -> A -> A) i j a : i < d -> j < d ->
    fold_left (fun a t => if fst t * d + snd t =? i * d + j then g t a else a) (pairs d) a = g (i, j) a.
  Proof.
    intros Hi Hj. destruct (pairs_split d i j Hi Hj) as (u & v & -> & H). rewrite fold_left_app. cbn [fold_left fst snd]. rewrite Nat.eqb_refl.
    rewrite !(fold_skip (fun t => fst t * d + snd t)); [reflexivity| |].
    - intros [p q] Ht E. destruct (H (p, q) ltac:(apply in_or_app; auto)) as (Hp & Hq & Hn). cbn [fst snd] in *. apply idx_inj in E; auto. destruct E as [-> ->]. auto.
    - intros [p q] Ht E. destruct (H (p, q) ltac:(apply in_or_app; auto)) as (Hp & Hq & Hn). cbn [fst snd] in *. apply idx_inj in E; auto. destruct E as [-> ->]. auto.
  Qed.

  (** * Flattened matrices *)
  Lemma length_concat n m (M : mat A) : wf n m M -> length (concat M) = n * m.
  Proof.
    intros [L F]. subst n. induction M as [|r M IH]; [reflexivity|]. cbn [concat length]. rewrite app_length, IH.
    - rewrite (F r) by now left. lia.
    - intros; apply F; now right.
  Qed.
  Lemma vget_concat n m (M : mat A) i j : wf n m M -> i < n -> j < m -> vget (concat M) (i * m + j) = get M i j.
  Proof.
    unfold vget, get. intros W. revert n W i. induction M as [|r M IH]; intros n [L F] i Hi Hj; cbn in L; [lia|].
    assert (Lr : length r = m) by (apply F; now left). cbn [concat]. destruct i as [|i]; cbn [Nat.mul Nat.add nth].
    - rewrite app_nth1 by lia. reflexivity.
    - rewrite app_nth2 by lia. replace (m + i * m + j - length r) with (i * m + j) by lia. apply (IH (n - 1)); try lia. split; [cbn in L; lia|]. intros; apply F; now right.
  Qed.
  Lemma flat_ext d (u v : vec A) : length u = d * d -> length v = d * d -> (forall i j, i < d -> j < d -> vget u (i * d + j) = vget v (i * d + j)) -> u = v.
  Proof.
    intros Lu Lv H. apply (vec_ext (d * d)); auto. intros k Hk. assert (d <> 0) by (intros ->; lia).
    rewrite (Nat.div_mod k d) by lia. rewrite (Nat.mul_comm d). apply H; [apply Nat.div_lt_upper_bound; lia|now apply Nat.mod_upper_bound].
  Qed.
  Lemma side_flat d (M : mat A) Ms : wf d d M -> side (map (@concat A) (M :: Ms)) = Ok d.
  Proof. intros W. cbn [map side]. rewrite (length_concat d d) by exact W. now rewrite Nat.sqrt_square. Qed.
  Lemma fold_sum n (f : nat -> A) : fold_left (fun a k => add a (f k)) (seq 0 n) zero = sumn n f.
  Proof. induction n as [|n IH]; [reflexivity|]. rewrite seq_S, fold_left_app, IH. reflexivity. Qed.
End P.

Section Q.
  Context {A : Type} {O : Ops A}.

  Lemma mat_dot_ok d (Ms Ns : list (mat A)) : 0 < d -> Ms <> [] -> length Ms = length Ns ->
    (forall M, In M Ms \/ In M Ns -> wf d d M) ->
    mat_dot false (map (@concat A) Ms) (map (@concat A) Ns) = Ok (map (fun p => concat (mmul (fst p) (snd p))) (combine Ms Ns)).
  Proof.
    intros Hd NE L W. destruct Ms as [|M0 Ms']; [congruence|]. unfold mat_dot. rewrite (side_flat d) by (apply W; left; now left). cbn [bind].
    set (Ms := M0 :: Ms') in *. replace (_ =? _) with true by (symmetry; apply Nat.eqb_eq; rewrite !map_length; exact L). cbn [negb]. f_equal.
    set (P := combine Ms Ns).
    assert (E1 : Ms = map fst P) by (unfold P; clear - L; revert Ns L; induction Ms as [|x l IH]; intros [|y m]; cbn; try discriminate; auto; intros [= L]; f_equal; auto).
    assert (E2 : Ns = map snd P) by (unfold P; clear - L; revert Ns L; induction Ms as [|x l IH]; intros [|y m]; cbn; try discriminate; auto; intros [= L]; f_equal; auto).
    assert (WP : forall p, In p P -> wf d d (fst p) /\ wf d d (snd p)).
    { intros [x y] Hp. split; apply W; [left; rewrite E1|right; rewrite E2]; [now apply (in_map fst) in Hp|now apply (in_map snd) in Hp]. }
    clearbody P. clearbody Ms. rewrite E1, E2. rewrite !map_map.
    rewrite (fold_rows P _ (fun p r ij => fold_left (fun r k => upd (fst ij * d + snd ij) (add (vget r (fst ij * d + snd ij))
      (mul (vget (concat (fst p)) (fst ij * d + k)) (vget (concat (snd p)) (k * d + snd ij)))) r) (seq 0 d) r)).
    - apply map_ext_in. intros [M N] Hp. destruct (WP _ Hp) as [WM WN]. cbn [fst snd] in *.
      assert (WMN : wf d d (mmul M N)) by (apply (wf_mmul d d d); auto).
      set (v := fun i j k => mul (vget (concat M) (i * d + k)) (vget (concat N) (k * d + j))).
      assert (Inner : forall i j ks r, i * d + j < length r -> fold_left (fun r k => upd (i * d + j) (add (vget r (i * d + j)) (v i j k)) r) ks r
        = upd (i * d + j) (fold_left (fun a k => add a (v i j k)) ks (vget r (i * d + j))) r).
      { intros i j ks r Hr. destruct (fold_upd (fun _ : nat => i * d + j) (fun k a => add a (v i j k)) ks r) as [Lr Er].
        apply (vec_ext (length r)); [exact Lr|apply length_upd|]. intros x Hx. rewrite Er, vget_upd by auto.
        destruct (Nat.eqb_spec (i * d + j) x); [now subst|]. clear. induction ks; cbn; auto. }
      assert (Outer : forall ts r, (forall t, In t ts -> fst t * d + snd t < length r) ->
        fold_left (fun r ij => fold_left (fun r k => upd (fst ij * d + snd ij) (add (vget r (fst ij * d + snd ij)) (v (fst ij) (snd ij) k)) r) (seq 0 d) r) ts r
        = fold_left (fun r t => upd (fst t * d + snd t) (fold_left (fun a k => add a (v (fst t) (snd t) k)) (seq 0 d) (vget r (fst t * d + snd t))) r) ts r).
      { induction ts as [|t ts IH]; intros r Ht; cbn [fold_left]; [reflexivity|]. rewrite Inner by (apply Ht; now left). apply IH.
        intros t' Ht'. rewrite length_upd. apply Ht. now right. }
      set (z := map (fun _ => zero) (concat M)). assert (Lz : length z = d * d) by (unfold z; rewrite map_length; now apply length_concat).
      assert (Vz : forall x, vget z x = zero). { intros x. unfold z, vget. clear. revert x. induction (concat M) as [|y l IH]; intros [|x]; cbn; auto. }
      assert (PB : forall t, In t (pairs d) -> fst t * d + snd t < length z).
      { intros [p q] Ht. unfold pairs in Ht. apply in_flat_map in Ht. destruct Ht as (x & Hx & Hq). apply in_map_iff in Hq. destruct Hq as (y & [= -> ->] & Hy).
        apply in_seq in Hx, Hy. cbn [fst snd]. rewrite Lz. nia. }
      transitivity (fold_left (fun r t => upd (fst t * d + snd t) (fold_left (fun a k => add a (v (fst t) (snd t) k)) (seq 0 d) (vget r (fst t * d + snd t))) r) (pairs d) z).
      { apply (Outer (pairs d) z PB). }
      destruct (fold_upd (fun t : nat * nat => fst t * d + snd t) (fun t a => fold_left (fun a k => add a (v (fst t) (snd t) k)) (seq 0 d) a) (pairs d) z) as [Lf Ef].
      apply (flat_ext d); [now rewrite Lf|now apply length_concat|]. intros i j Hi Hj.
      rewrite Ef by (rewrite Lz; nia). rewrite fold_pairs by auto. cbn [fst snd]. rewrite Vz, fold_sum.
      rewrite (vget_concat d d) by auto. rewrite (get_mmul d d d) by auto. apply sumn_ext. intros k Hk. unfold v. now rewrite !(vget_concat d d) by auto.
    - intros F [i j]. cbn [fst snd].
      apply (fold_rows P _ (fun p r k => upd (i * d + j) (add (vget r (i * d + j)) (mul (vget (concat (fst p)) (i * d + k)) (vget (concat (snd p)) (k * d + j)))) r)).
      intros G k. rewrite !getcol_map, !zipw_map. apply setcol_map.
  Qed.

  Lemma mat_T_ok d (Ms : list (mat A)) (mem : list (vec A)) : 0 < d -> Ms <> [] -> (forall M, In M Ms -> wf d d M) ->
    length mem = length Ms -> (forall r, In r mem -> length r = d * d) ->
    mat_T false mem (map (@concat A) Ms) = Ok (map (fun M => concat (tr M)) Ms).
  Proof.
    intros Hd NE W L Wm. destruct Ms as [|M0 Ms']; [congruence|]. unfold mat_T. rewrite (side_flat d) by (apply W; now left). cbn [bind]. f_equal.
    set (Ms := M0 :: Ms') in *. set (P := combine mem Ms).
    assert (E1 : mem = map fst P) by (unfold P; clear - L; revert mem L; induction Ms as [|x l IH]; intros [|y m]; cbn; try discriminate; auto; intros [= L]; f_equal; auto).
    assert (E2 : Ms = map snd P) by (unfold P; clear - L; revert mem L; induction Ms as [|x l IH]; intros [|y m]; cbn; try discriminate; auto; intros [= L]; f_equal; auto).
    assert (WP : forall p, In p P -> length (fst p) = d * d /\ wf d d (snd p)).
    { intros [x y] Hp. split; [apply Wm; rewrite E1; now apply (in_map fst) in Hp|apply W; rewrite E2; now apply (in_map snd) in Hp]. }
    clearbody P. clearbody Ms. rewrite E1, E2. rewrite !map_map.
    rewrite (fold_rows P _ (fun p r ij => upd (fst ij * d + snd ij) (vget (concat (snd p)) (snd ij * d + fst ij)) r)).
    - apply map_ext_in. intros [m M] Hp. destruct (WP _ Hp) as [Lm WM]. cbn [fst snd] in *.
      assert (WT : wf d d (tr M)) by (destruct d; [lia|]; now apply wf_tr).
      destruct (fold_upd (fun t : nat * nat => fst t * d + snd t) (fun t a => vget (concat M) (snd t * d + fst t)) (pairs d) m) as [Lf Ef].
      apply (flat_ext d); [now rewrite Lf|now apply length_concat|]. intros i j Hi Hj.
      rewrite Ef by (rewrite Lm; nia). rewrite (fold_pairs d (fun t a => vget (concat M) (snd t * d + fst t))) by auto. cbn [fst snd].
      rewrite !(vget_concat d d) by auto. destruct d as [|d']; [lia|]. now rewrite (get_tr d' (S d')) by auto.
    - intros F [i j]. cbn [fst snd]. rewrite getcol_map. apply setcol_map.
  Qed.

  Lemma mat_trace_ok d (Ms : list (mat A)) (mem : vec A) : Ms <> [] -> (forall M, In M Ms -> wf d d M) -> length mem = length Ms ->
    mat_trace false mem (map (@concat A) Ms) = Ok (map (fun p => fold_left (fun t i => add t (get (snd p) i i)) (seq 0 d) (fst p)) (combine mem Ms)).
  Proof.
    intros NE W L. destruct Ms as [|M0 Ms']; [congruence|]. unfold mat_trace. rewrite (side_flat d) by (apply W; now left). cbn [bind]. f_equal.
    set (Ms := M0 :: Ms') in *. set (P := combine mem Ms).
    assert (E1 : mem = map fst P) by (unfold P; clear - L; revert mem L; induction Ms as [|x l IH]; intros [|y m]; cbn; try discriminate; auto; intros [= L]; f_equal; auto).
    assert (E2 : Ms = map snd P) by (unfold P; clear - L; revert mem L; induction Ms as [|x l IH]; intros [|y m]; cbn; try discriminate; auto; intros [= L]; f_equal; auto).
    assert (WP : forall p, In p P -> wf d d (snd p)) by (intros [x y] Hp; apply W; rewrite E2; now apply (in_map snd) in Hp).
    clearbody P. clearbody Ms. rewrite E1, E2. rewrite !map_map.
    rewrite (fold_rows P _ (fun p t i => add t (vget (concat (snd p)) (i * d + i)))).
    - apply map_ext_in. intros [m M] Hp. specialize (WP _ Hp). cbn [fst snd] in *.
      assert (K : forall l m, (forall i, In i l -> i < d) -> fold_left (fun t i => add t (vget (concat M) (i * d + i))) l m = fold_left (fun t i => add t (get M i i)) l m).
      { induction l as [|i l IH]; intros m' H; cbn; [reflexivity|]. rewrite (vget_concat d d) by (auto; apply H; now left). apply IH. intros; apply H; now right. }
      apply K. intros i Hi. apply in_seq in Hi. lia.
    - intros F i. now rewrite getcol_map, zipw_map.
  Qed.

  (** * Minors *)
  Lemma filter_false {X} (f : X -> bool) l : (forall x, In x l -> f x = false) -> filter f l = [].
  Proof. induction l as [|x l IH]; intros H; cbn; [reflexivity|]. rewrite H by now left. apply IH. intros; apply H; now right. Qed.
  Lemma filter_all {X} (f : X -> bool) l : (forall x, In x l -> f x = true) -> filter f l = l.
  Proof. induction l as [|x l IH]; intros H; cbn; [reflexivity|]. rewrite H by now left. f_equal. apply IH. intros; apply H; now right. Qed.
  Lemma in_rm d n i j : i < d -> j < d -> n < d -> existsb (Nat.eqb (i * d + j)) (rm_idx d n) = ((i =? 0) || (j =? n)).
  Proof.
    intros Hi Hj Hn. apply eq_true_iff_eq. rewrite existsb_exists, orb_true_iff, !Nat.eqb_eq. unfold rm_idx. split.
    - intros (x & Hx & E). apply Nat.eqb_eq in E. subst x. apply in_app_or in Hx. destruct Hx as [Hx|Hx].
      + apply in_seq in Hx. left. nia.
      + apply in_map_iff in Hx. destruct Hx as (y & Ey & _). right. symmetry in Ey. apply idx_inj in Ey; auto. apply Ey.
    - intros [-> | ->].
      + exists (0 * d + j). split; [|apply Nat.eqb_refl]. apply in_or_app. left. apply in_seq. lia.
      + exists (i * d + n). split; [|apply Nat.eqb_refl]. apply in_or_app. destruct (Nat.eq_dec i 0) as [->|Hi0]; [left; apply in_seq; lia|].
        right. apply in_map_iff. exists i. split; [reflexivity|]. apply in_seq. lia.
  Qed.
  Lemma seq_grid d m : forall s, seq (s * d) (m * d) = flat_map (fun i => map (fun j => i * d + j) (seq 0 d)) (seq s m).
  Proof.
    induction m as [|m IH]; intros s; [reflexivity|]. cbn [seq flat_map Nat.mul]. rewrite seq_app, <- IH. f_equal; [|f_equal; lia].
    clear. change (seq (s * d) d) with (seq (s * d) d). rewrite <- (Nat.add_0_r (s * d)) at 1. generalize 0 as b. generalize (s * d) as c.
    induction d as [|d IH]; intros c b; [reflexivity|]. cbn [seq map]. f_equal. rewrite <- IH. f_equal. lia.
  Qed.
  Lemma filter_flat_map {X Y} (f : Y -> bool) (g : X -> list Y) l : filter f (flat_map g l) = flat_map (fun x => filter f (g x)) l.
  Proof. induction l as [|x l IH]; cbn; [reflexivity|]. now rewrite filter_app, IH. Qed.
  Lemma filter_map_comm {X Y} (f : Y -> bool) (g : X -> Y) l : filter f (map g l) = map g (filter (fun x => f (g x)) l).
  Proof. induction l as [|x l IH]; cbn; [reflexivity|]. destruct (f (g x)); cbn; now rewrite IH. Qed.
  Lemma mn_idx_eq d n : n < d -> mn_idx d n = flat_map (fun i => map (fun j => i * d + j) (seq 0 n ++ seq (S n) (d - S n))) (seq 1 (d - 1)).
  Proof.
    intros Hn. unfold mn_idx. change (seq 0 (d * d)) with (seq (0 * d) (d * d)). rewrite seq_grid. replace (seq 0 d) with (0 :: seq 1 (d - 1)) at 1 by (destruct d; [lia|cbn; now rewrite Nat.sub_0_r]).
    cbn [flat_map]. rewrite filter_app, filter_false, app_nil_l.
    - rewrite filter_flat_map. assert (K : forall b, (forall i, In i b -> 1 <= i < d) -> flat_map (fun i => filter (fun i0 => negb (existsb (Nat.eqb i0) (rm_idx d n))) (map (fun j => i * d + j) (seq 0 d))) b
        = flat_map (fun i => map (fun j => i * d + j) (seq 0 n ++ seq (S n) (d - S n))) b).
      { induction b as [|i b IH]; intros Hb; [reflexivity|]. cbn [flat_map]. rewrite IH by (intros; apply Hb; now right). f_equal.
        assert (1 <= i < d) by (apply Hb; now left). rewrite filter_map_comm. f_equal. rewrite (seq_split d n Hn), filter_app. cbn [filter].
        rewrite in_rm, Nat.eqb_refl, orb_true_r by lia. cbn [negb]. rewrite !filter_all; [reflexivity| |].
        - intros j Hj. apply in_seq in Hj. rewrite in_rm by lia. destruct (Nat.eqb_spec i 0); [lia|]. destruct (Nat.eqb_spec j n); [lia|reflexivity].
        - intros j Hj. apply in_seq in Hj. rewrite in_rm by lia. destruct (Nat.eqb_spec i 0); [lia|]. destruct (Nat.eqb_spec j n); [lia|reflexivity]. }
      apply K. intros i Hi. apply in_seq in Hi. lia.
    - intros x Hx. apply in_map_iff in Hx. destruct Hx as (j & <- & Hj). apply in_seq in Hj. rewrite in_rm by lia. reflexivity.
  Qed.
  Lemma row_without d (r : vec A) n : length r = d -> n < d -> map (vget r) (seq 0 n ++ seq (S n) (d - S n)) = firstn n r ++ skipn (S n) r.
  Proof.
    intros L Hn. rewrite map_app. f_equal.
    - apply (vec_ext n); [now rewrite map_length, seq_length|rewrite firstn_length; lia|]. intros i Hi. unfold vget at 1. rewrite (nth_map_seq (vget r)) by auto.
      unfold vget. clear - Hi. revert n Hi r. induction i as [|i IH]; intros [|n] Hi [|x r]; cbn; try lia; auto. apply IH. lia.
    - apply (vec_ext (d - S n)); [now rewrite map_length, seq_length|rewrite skipn_length; lia|]. intros i Hi. unfold vget at 1.
      rewrite nth_indep with (d' := vget r 0) by (now rewrite map_length, seq_length). rewrite map_nth, seq_nth by auto. unfold vget.
      generalize (S n) as m. clear. intros m. revert r. induction m as [|m IH]; intros [|x r]; cbn; auto. now destruct i.
  Qed.
  Lemma minor_flat d (M : mat A) n : wf d d M -> n < d -> map (vget (concat M)) (mn_idx d n) = concat (minor M n).
  Proof.
    intros W Hn. rewrite mn_idx_eq by auto. unfold minor. pose proof W as [L F]. destruct M as [|r0 M]; [cbn in L; lia|]. cbn [tl].
    rewrite flat_map_concat_map, concat_map, map_map.
    f_equal. transitivity (map (fun i => (fun r => firstn n r ++ skipn (S n) r) (nth i (r0 :: M) [])) (seq 1 (d - 1))).
    - apply map_ext_in. intros i Hi. apply in_seq in Hi. rewrite <- (row_without d) by (auto; apply (wf_row_length d d); auto; lia).
      rewrite map_map. apply map_ext_in. intros j Hj. rewrite (vget_concat d d); [reflexivity|exact W|lia|]. apply in_app_or in Hj. destruct Hj as [Hj|Hj]; apply in_seq in Hj; lia.
    - rewrite <- seq_shift, map_map. cbn [nth]. cbn [length] in L. replace (d - 1) with (length M) by lia. clear.
      induction M as [|r M IH]; [reflexivity|]. cbn [length seq map nth]. f_equal. rewrite <- seq_shift, map_map. exact IH.
  Qed.
  Lemma wf_minor d (M : mat A) n : wf (S d) (S d) M -> n < S d -> wf d d (minor M n).
  Proof.
    intros [L F] Hn. destruct M as [|r0 M]; [discriminate|]. cbn in L. unfold minor. cbn [tl]. split; [rewrite map_length; lia|].
    intros r Hr. apply in_map_iff in Hr. destruct Hr as (r' & <- & Hr'). rewrite app_length, firstn_length, skipn_length. rewrite (F r') by now right. lia.
  Qed.
End Q.

Section D.
  Context {A : Type} {O : Ops A} {L : RingLaws A}.
  Add Ring Aring : (@ring_laws A O L).
  Lemma sign_mul n (x : A) : mul (sign n) x = if Nat.even n then x else opp x.
  Proof. unfold sign. destruct (Nat.even n); ring. Qed.
  Lemma mat_det_fuel_ok d : 1 <= d -> forall fuel (Ms : list (mat A)), d <= fuel -> (forall M, In M Ms -> wf d d M) ->
    mat_det_fuel false fuel (map (@concat A) Ms) = Ok (map (@det A O) Ms).
  Proof.
    induction d as [|d IH]; [lia|]. intros _ fuel Ms Hf W. destruct fuel as [|fuel]; [lia|].
    destruct (Nat.eq_dec d 0) as [->|Hd].
    - cbn [mat_det_fuel]. replace (match side _ with Ok d => d | _ => 1 end) with 1 by (destruct Ms as [|M Ms]; [reflexivity|]; rewrite (side_flat 1) by (apply W; now left); reflexivity).
      cbn [Nat.eqb]. f_equal. clear - W L. induction Ms as [|M Ms IH]; [reflexivity|]. cbn [map concat]. rewrite IH by (intros; apply W; now right).
      assert (wf 1 1 M) as [LM FM] by (apply W; now left). destruct M as [|r [|]]; try discriminate. specialize (FM r (or_introl eq_refl)). destruct r as [|x [|]]; try discriminate.
      cbn [concat app]. f_equal. unfold det. cbn. ring.
    - destruct Ms as [|M0 Ms'].
      { reflexivity. }
      cbn [mat_det_fuel]. rewrite (side_flat (S d)) by (apply W; now left). destruct (Nat.eqb_spec (S d) 1); [lia|]. set (Ms := M0 :: Ms') in *. clearbody Ms. clear M0 Ms'.
      assert (K : forall m, m <= S d -> fold_left (fun det n => let* det := det in
          let* minor := mat_det_fuel false fuel (getcols (map (@concat A) Ms) (mn_idx (S d) n)) in
          Ok (zipw add det (zipw mul (map (mul (sign n)) (getcol (map (@concat A) Ms) n)) minor))) (seq 0 m) (Ok (map (fun _ => zero) (map (@concat A) Ms)))
        = Ok (map (fun M => sumn m (fun j => mul (if Nat.even j then get M 0 j else opp (get M 0 j)) (det_n d (minor M j)))) Ms)).
      { induction m as [|m IHm]; intros Hm.
        - cbn [seq fold_left sumn]. now rewrite map_map.
        - rewrite seq_S, fold_left_app, IHm by lia. cbn [fold_left Nat.add bind].
          assert (G : getcols (map (@concat A) Ms) (mn_idx (S d) m) = map (@concat A) (map (fun M => minor M m) Ms)).
          { unfold getcols. rewrite !map_map. apply map_ext_in. intros M HM. now apply minor_flat; [apply W|]. }
          rewrite G, IH; [|lia|lia|]. 
          + cbn [bind]. f_equal. rewrite getcol_map, !map_map, zipw_map, zipw_map. apply map_ext_in. intros M HM. cbn [sumn].
            rewrite sign_mul. f_equal. f_equal.
            * rewrite <- (vget_concat (S d) (S d) M 0 m) by (auto; lia). reflexivity.
            * unfold det. now rewrite (nrows_wf d d) by (apply wf_minor; [now apply W|lia]).
          + intros M HM. apply in_map_iff in HM. destruct HM as (M' & <- & HM'). apply wf_minor; [now apply W|lia]. }
      etransitivity; [exact (K (S d) (le_n _))|]. f_equal. apply map_ext_in. intros M HM. unfold det. rewrite (nrows_wf (S d) (S d)) by now apply W. reflexivity.
  Qed.
End D.
