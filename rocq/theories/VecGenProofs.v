From Verif Require Import RMat VecGenModel VecGenSpec ReduceSpec HnfEnum Lagrange.
Local Open Scope Z_scope.

(** ** lists *)
Lemma zrange_cons a b : a < b -> zrange a b = a :: zrange (a + 1) b.
Proof.
  intros H. unfold zrange. replace (Z.to_nat (b - a)) with (S (Z.to_nat (b - (a + 1)))) by lia.
  cbn [seq map]. f_equal; [lia|]. rewrite <- seq_shift, map_map. apply map_ext. intros; lia.
Qed.
Lemma zrange_nil a b : b <= a -> zrange a b = [].
Proof. intros H. unfold zrange. now replace (Z.to_nat (b - a)) with O by lia. Qed.
Lemma zrange_app a b c : a <= b <= c -> zrange a c = zrange a b ++ zrange b c.
Proof.
  intros [H1 H2]. remember (Z.to_nat (b - a)) as k eqn:Ek. revert a H1 Ek.
  induction k as [|k IH]; intros a H1 Ek.
  - assert (a = b) by lia. subst. now rewrite (zrange_nil b b) by lia.
  - rewrite (zrange_cons a c), (zrange_cons a b) by lia. cbn [app]. f_equal. apply IH; lia.
Qed.

Lemma sublist_refl {A} (l : list A) : sublist l l.
Proof. induction l; constructor; assumption. Qed.
Lemma sublist_app {A} (a b c d : list A) : sublist a b -> sublist c d -> sublist (a ++ c) (b ++ d).
Proof. intros H1 H2. induction H1; cbn; [assumption|constructor; assumption|constructor; assumption]. Qed.
Lemma sublist_map {A B} (f : A -> B) a b : sublist a b -> sublist (map f a) (map f b).
Proof. induction 1; cbn; constructor; assumption. Qed.
Lemma sublist_length {A} (a b : list A) : sublist a b -> (length a <= length b)%nat.
Proof. induction 1; cbn; lia. Qed.
Lemma sublist_skip_l {A} (p a b : list A) : sublist a b -> sublist a (p ++ b).
Proof. intros H. induction p; cbn; [assumption|constructor; assumption]. Qed.
Lemma sublist_eq {A} (a b : list A) : sublist a b -> length a = length b -> a = b.
Proof.
  induction 1; cbn; intros E; [reflexivity| |].
  - apply sublist_length in H. lia.
  - f_equal. apply IHsublist. lia.
Qed.

(** ** closed forms *)
Definition both (sub : list (list Z)) (f : Z) : list (list Z) :=
  map (cons f) sub ++ (if 0 <? f then map (cons (- f)) sub else []).
Fixpoint full (d : nat) (m : Z) : list (list Z) :=
  match d with
  | O => [[]]
  | S d' => flat_map (fun f => both (full d' (m - f * f)) f) (zrange 0 (Z.sqrt m + 1))
  end.
Definition tail (d : nat) (m f : Z) : list (list Z) :=
  flat_map (fun f => both (full d (m - f * f)) f) (zrange f (Z.sqrt m + 1)).
Fixpoint resume (d : nat) (m : Z) (x : list Z) : list (list Z) :=
  match d, x with
  | S d', f :: xs =>
    both (resume d' (m - f * f) xs) f ++ tail d' m (Z.abs f + 1)
  | _, _ => [[]]
  end.

Lemma tail_cons d m f : f <= Z.sqrt m -> tail d m f = both (full d (m - f * f)) f ++ tail d m (f + 1).
Proof. intros H. unfold tail. rewrite zrange_cons by lia. reflexivity. Qed.
Lemma tail_nil d m f : Z.sqrt m < f -> tail d m f = [].
Proof. intros H. unfold tail. now rewrite zrange_nil by lia. Qed.

Lemma le_sqrt f m : 0 <= m -> (Z.abs f <= Z.sqrt m <-> f * f <= m).
Proof.
  intros Hm. rewrite <- Z.sqrt_le_square by lia. replace (Z.abs f * Z.abs f) with (f * f) by nia. reflexivity.
Qed.
Lemma shrinkZ_eq m f : 0 <= m -> Z.abs f <= Z.sqrt m -> shrinkZ m f = m - f * f /\ 0 <= m - f * f.
Proof. intros Hm Hf. rewrite (le_sqrt f m Hm) in Hf. unfold shrinkZ. lia. Qed.

Lemma loop1_tail m : 0 <= m -> forall k f, 0 <= f -> Z.sqrt m + 1 - f <= Z.of_nat k ->
  loop1 Z leZ k m f = Ok (tail 0 m f).
Proof.
  intros Hm. induction k as [|k IH]; intros f Hf Hk; cbn [loop1]; unfold leZ at 1;
    destruct (Z.leb_spec f (Z.sqrt m)) as [L|L]; try lia; try (now rewrite tail_nil).
  rewrite IH by lia. cbn [bind]. rewrite (tail_cons _ m f) by assumption. rewrite Z.abs_eq by lia. unfold both.
  cbn [full map app]. now destruct (0 <? f).
Qed.

Lemma loopN_tail d m sub : 0 <= m ->
  (forall m', 0 <= m' -> sub m' None = Ok (full d m')) ->
  forall k f, 0 <= f -> Z.sqrt m + 1 - f <= Z.of_nat k ->
  loopN Z leZ shrinkZ sub k m f None = Ok (tail d m f).
Proof.
  intros Hm Hsub. induction k as [|k IH]; intros f Hf Hk; cbn [loopN]; unfold leZ at 1;
    destruct (Z.leb_spec f (Z.sqrt m)) as [L|L]; try lia; try (now rewrite tail_nil).
  destruct (shrinkZ_eq m f) as [E1 E2]; [assumption|lia|].
  rewrite E1, Hsub by assumption. cbn [bind]. rewrite IH by lia.
  rewrite (tail_cons _ m f) by assumption. rewrite Z.abs_eq by lia. unfold both.
  destruct (0 <? f); cbn [bind]; now rewrite <- app_assoc.
Qed.

(** the first turn of the while loop, from a checkpoint *)
Lemma loopN_first d m sub k f xs a : 0 <= m ->
  (forall m', 0 <= m' -> sub m' None = Ok (full d m')) ->
  Z.abs f <= Z.sqrt m -> sub (m - f * f) (Some xs) = Ok a ->
  Z.sqrt m + 1 <= Z.of_nat k ->
  loopN Z leZ shrinkZ sub (S k) m f (Some xs) = Ok (both a f ++ tail d m (Z.abs f + 1)).
Proof.
  intros Hm Hsub Hf Ha Hk. cbn [loopN]. unfold leZ at 1.
  destruct (Z.leb_spec f (Z.sqrt m)) as [L|L]; [|lia].
  destruct (shrinkZ_eq m f) as [E1 E2]; [assumption|lia|]. rewrite E1, Ha. cbn [bind].
  rewrite (loopN_tail d) by (auto; lia). unfold both.
  destruct (0 <? f); cbn [bind]; now rewrite <- app_assoc.
Qed.

Lemma fuel_ok m : 0 <= m -> exists k, fuel Z Z.sqrt m = S k /\ Z.sqrt m + 1 <= Z.of_nat k.
Proof.
  intros Hm. unfold fuel. exists (Z.to_nat (Z.sqrt m) + 1)%nat. pose proof (Z.sqrt_nonneg m). lia.
Qed.

Lemma norm2_nonneg v : 0 <= norm2 v.
Proof. induction v; cbn -[Z.mul]; nia. Qed.

Lemma gen_sq d : forall m, 0 <= m ->
  vec_generator_sq m (S d) None = Ok (full (S d) m) /\
  forall x, length x = S d -> norm2 x <= m -> vec_generator_sq m (S d) (Some x) = Ok (resume (S d) m x).
Proof.
  assert (Hfull : forall d m, 0 <= m -> full (S d) m = both (full d (m - 0 * 0)) 0 ++ tail d m (Z.abs 0 + 1)).
  { intros e m Hm. change (full (S e) m) with (tail e m 0). rewrite tail_cons by (apply Z.sqrt_nonneg). reflexivity. }
  induction d as [|d IH]; intros m Hm; unfold vec_generator_sq; destruct (fuel_ok m Hm) as [k [Ek Hk]].
  - split.
    + cbn [vec_gen repeat]. rewrite loop1_tail; [reflexivity|assumption|lia|lia].
    + intros [|f [|]] Hx Hn; try discriminate. cbn [vec_gen]. rewrite Ek. cbn [norm2] in Hn. cbn [loop1].
      assert (Hf : Z.abs f <= Z.sqrt m) by (apply le_sqrt; lia).
      unfold leZ at 1. destruct (Z.leb_spec f (Z.sqrt m)) as [L|L]; [|lia].
      rewrite loop1_tail by lia. cbn [bind resume]. unfold both. cbn [map app].
      now destruct (0 <? f).
  - assert (IH1 : forall m', 0 <= m' -> vec_gen Z leZ shrinkZ Z.sqrt (S d) m' None = Ok (full (S d) m')).
    { intros m' Hm'. apply (IH m' Hm'). }
    assert (IH2 : forall m' x, 0 <= m' -> length x = S d -> norm2 x <= m' ->
       vec_gen Z leZ shrinkZ Z.sqrt (S d) m' (Some x) = Ok (resume (S d) m' x)).
    { intros m' x Hm'. apply (IH m' Hm'). }
    split.
    + change (vec_gen Z leZ shrinkZ Z.sqrt (S (S d)) m None)
        with (loopN Z leZ shrinkZ (vec_gen Z leZ shrinkZ Z.sqrt (S d)) (fuel Z Z.sqrt m) m 0 (Some (repeat 0 (S d)))).
      rewrite Ek. rewrite (loopN_first (S d) m _ k 0 (repeat 0 (S d)) (full (S d) (m - 0 * 0))); auto.
      * now rewrite <- Hfull.
      * cbn. apply Z.sqrt_nonneg.
      * change (vec_gen Z leZ shrinkZ Z.sqrt (S d) (m - 0 * 0) None = Ok (full (S d) (m - 0 * 0))).
        apply IH1. lia.
    + intros [|f xs] Hx Hn; [discriminate|]. injection Hx as Hx. cbn [norm2] in Hn.
      pose proof (norm2_nonneg xs). assert (Hf : Z.abs f <= Z.sqrt m) by (apply le_sqrt; lia).
      change (vec_gen Z leZ shrinkZ Z.sqrt (S (S d)) m (Some (f :: xs)))
        with (loopN Z leZ shrinkZ (vec_gen Z leZ shrinkZ Z.sqrt (S d)) (fuel Z Z.sqrt m) m f (Some xs)).
      rewrite Ek. rewrite (loopN_first (S d) m _ k f xs (resume (S d) (m - f * f) xs)); auto.
      apply IH2; lia.
Qed.

(** ** contents *)
Lemma in_both sub f v : 0 <= f -> In v (both sub f) <-> exists g w, v = g :: w /\ Z.abs g = f /\ In w sub.
Proof.
  intros Hf. unfold both. rewrite in_app_iff. split.
  - intros [H|H].
    + apply in_map_iff in H. destruct H as [w [<- Hw]]. exists f, w. repeat split; auto. lia.
    + destruct (Z.ltb_spec 0 f); [|destruct H]. apply in_map_iff in H. destruct H as [w [<- Hw]].
      exists (- f), w. repeat split; auto. lia.
  - intros (g & w & -> & Hg & Hw). destruct (Z.eq_dec g f) as [->|Hn].
    + left. now apply in_map.
    + right. destruct (Z.ltb_spec 0 f); [|lia]. replace g with (- f) by lia. now apply in_map.
Qed.

Lemma in_full d : forall m v, 0 <= m -> In v (full d m) <-> length v = d /\ norm2 v <= m.
Proof.
  induction d as [|d IH]; intros m v Hm; cbn [full].
  - split.
    + intros [<-|[]]. cbn. auto.
    + intros [H _]. destruct v; [now left|discriminate].
  - rewrite in_flat_map. split.
    + intros [f [Hf Hv]]. apply in_zrange in Hf. apply in_both in Hv; [|lia].
      destruct Hv as (g & w & -> & Hg & Hw).
      assert (f * f <= m) by (apply le_sqrt; lia).
      assert (g * g = f * f) by nia.
      apply IH in Hw; [|lia]. cbn [length norm2]. destruct Hw. split; [congruence|lia].
    + intros [Hl Hn]. destruct v as [|g w]; [discriminate|]. cbn [length norm2] in *.
      pose proof (norm2_nonneg w). assert (Z.abs g <= Z.sqrt m) by (apply le_sqrt; lia).
      exists (Z.abs g). split; [apply in_zrange; lia|]. apply in_both; [lia|].
      exists g, w. split; [reflexivity|]. split; [reflexivity|]. apply IH; [nia|]. split; [lia|nia].
Qed.

Lemma NoDup_both sub f : NoDup sub -> NoDup (both sub f).
Proof.
  intros H. unfold both. apply NoDup_app_intro.
  - apply NoDup_map_inj_in; [|assumption]. intros x y _ _ E. now injection E.
  - destruct (0 <? f); [|constructor]. apply NoDup_map_inj_in; [|assumption]. intros x y _ _ E. now injection E.
  - intros v H1 H2. apply in_map_iff in H1. destruct H1 as [w [<- _]].
    destruct (Z.ltb_spec 0 f); [|destruct H2]. apply in_map_iff in H2. destruct H2 as [w' [E _]].
    injection E. lia.
Qed.

Lemma NoDup_zrange a b : NoDup (zrange a b).
Proof. unfold zrange. apply NoDup_map_inj_in; [|apply seq_NoDup]. intros; lia. Qed.

Lemma NoDup_full d : forall m, NoDup (full d m).
Proof.
  induction d as [|d IH]; intros m; cbn [full].
  - constructor; [intros []|constructor].
  - apply NoDup_flat_map.
    + intros f _. apply NoDup_both, IH.
    + intros f g v Hf Hg H1 H2. apply in_zrange in Hf, Hg.
      apply in_both in H1; [|lia]. apply in_both in H2; [|lia].
      destruct H1 as (x & w & -> & Hx & _). destruct H2 as (y & w' & E & Hy & _).
      injection E as <- <-. lia.
    + apply NoDup_zrange.
Qed.

Lemma full_head d : forall m, 0 <= m -> exists l, full d m = repeat 0 d :: l.
Proof.
  induction d as [|d IH]; intros m Hm; cbn [full repeat]; [eauto|].
  rewrite zrange_cons by (pose proof (Z.sqrt_nonneg m); lia). cbn [flat_map].
  destruct (IH (m - 0 * 0)) as [l E]; [lia|]. rewrite E. unfold both. cbn [map app]. eauto.
Qed.

Lemma tail_split d m f : 0 <= f <= Z.sqrt m ->
  exists pre, full (S d) m = pre ++ both (full d (m - f * f)) f ++ tail d m (f + 1).
Proof.
  intros Hf. change (full (S d) m) with (tail d m 0). unfold tail.
  rewrite (zrange_app 0 f) by lia. rewrite (zrange_cons f) by lia.
  rewrite flat_map_app. cbn [flat_map]. eauto.
Qed.

Lemma resume_spec d : forall m x, 0 <= m -> length x = d -> norm2 x <= m ->
  exists pre suf l, full d m = pre ++ x :: suf /\ resume d m x = x :: l /\ sublist l suf /\
    (l = suf <-> clean x).
Proof.
  induction d as [|d IH]; intros m x Hm Hl Hn.
  - destruct x; [|discriminate]. exists [], [], []. cbn. repeat split; constructor.
  - destruct x as [|f xs]; [discriminate|]. injection Hl as Hl. cbn [norm2] in Hn.
    pose proof (norm2_nonneg xs) as Hp.
    assert (Hf : Z.abs f <= Z.sqrt m) by (apply le_sqrt; lia).
    destruct (IH (m - f * f) xs) as (pre' & suf' & l' & E1 & E2 & Hs & Hc); [lia|assumption|lia|].
    destruct (tail_split d m (Z.abs f)) as [pre Ep]; [lia|].
    cbn [resume clean]. rewrite E2.
    assert (Eabs : m - Z.abs f * Z.abs f = m - f * f) by nia. rewrite Eabs in Ep.
    destruct (Z.ltb_spec 0 f) as [Pf|Pf].
    + (* positive first entry *)
      rewrite Z.abs_eq in * by lia. unfold both in Ep. rewrite E1 in Ep.
      destruct (Z.ltb_spec 0 f); [|lia].
      exists (pre ++ map (cons f) pre'),
        (map (cons f) suf' ++ map (cons (-f)) (pre' ++ xs :: suf') ++ tail d m (f + 1)),
        (map (cons f) l' ++ map (cons (-f)) (xs :: l') ++ tail d m (f + 1)).
      split; [|split; [|split]].
      * rewrite Ep. rewrite (map_app (cons f)). cbn [map]. repeat (rewrite <- app_assoc; cbn [app]).
        reflexivity.
      * unfold both. destruct (Z.ltb_spec 0 f); [|lia]. cbn [map app]. now rewrite <- app_assoc.
      * apply sublist_app; [now apply sublist_map|]. apply sublist_app; [|apply sublist_refl].
        apply sublist_map. apply sublist_skip_l. now constructor.
      * split.
        -- intros E. apply (f_equal (@length _)) in E.
           rewrite !app_length, !map_length, !app_length in E. cbn [length] in E.
           apply sublist_length in Hs. assert (length pre' = 0%nat) by lia.
           destruct pre'; [|discriminate]. cbn [app] in E1.
           destruct (full_head d (m - f * f)) as [l0 E0]; [lia|]. rewrite E0 in E1. injection E1 as E1 _.
           intros y Hy. rewrite <- E1 in Hy. now apply repeat_spec in Hy.
        -- intros Hz. assert (Ex : xs = repeat 0 d).
           { rewrite <- Hl. apply Forall_eq_repeat. apply Forall_forall. intros y Hy. symmetry. now apply Hz. }
           destruct (full_head d (m - f * f)) as [l0 E0]; [lia|].
           assert (pre' = []).
           { pose proof (NoDup_full d (m - f * f)) as ND. destruct pre' as [|p pre']; [reflexivity|].
             rewrite E0 in E1. cbn [app] in E1. injection E1 as Ep0 E1.
             rewrite E0, E1, <- Ex in ND. exfalso. inversion ND as [|? ? Hni _]. apply Hni.
             apply in_app_iff. right. now left. }
           subst pre'. cbn [app].
           assert (l' = suf').
           { apply Hc. rewrite Ex. clear. induction d; cbn; [trivial|assumption]. }
           now subst l'.
    + (* zero or negative first entry *)
      assert (Hb : exists q, both (full d (m - f * f)) (Z.abs f) = q ++ map (cons f) (full d (m - f * f))).
      { unfold both. destruct (Z.eq_dec f 0) as [->|].
        - exists []. cbn. now rewrite app_nil_r.
        - destruct (Z.ltb_spec 0 (Z.abs f)); [|lia]. replace (- Z.abs f) with f by lia. eauto. }
      destruct Hb as [q Eq]. rewrite Eq, E1 in Ep.
      exists (pre ++ q ++ map (cons f) pre'), (map (cons f) suf' ++ tail d m (Z.abs f + 1)),
             (map (cons f) l' ++ tail d m (Z.abs f + 1)).
      split; [|split; [|split]].
      * rewrite Ep. rewrite map_app. cbn [map]. repeat (rewrite <- app_assoc; cbn [app]). reflexivity.
      * unfold both. destruct (Z.ltb_spec 0 f); [lia|]. cbn [map app]. now rewrite app_nil_r.
      * apply sublist_app; [now apply sublist_map|apply sublist_refl].
      * rewrite <- Hc. split.
        -- intros E. apply app_inv_tail in E. clear -E. revert suf' E.
           induction l' as [|a l' IHl]; intros [|b s'] E; try discriminate; [reflexivity|].
           cbn in E. injection E as E1 E2. f_equal; auto.
        -- now intros ->.
Qed.

(** ** the real radius *)
Lemma Rfloor_le x z : (IZR z <= x)%R <-> z <= Rfloor x.
Proof.
  pose proof (Rfloor_spec x) as [H1 H2]. split; intros H.
  - apply Z.lt_succ_r. apply lt_IZR. rewrite succ_IZR. lra.
  - apply IZR_le in H. lra.
Qed.

Definition rel (r : R) (m : Z) : Prop := (0 <= r)%R /\ m = Rfloor (r * r).

Lemma rel_nonneg r m : rel r m -> 0 <= m.
Proof. intros [Hr ->]. apply Rfloor_le. nra. Qed.

Lemma rel_le_iff r m n : rel r m -> ((IZR n <= r)%R <-> n <= Z.sqrt m).
Proof.
  intros HR. pose proof (rel_nonneg r m HR) as Hm. pose proof (Z.sqrt_nonneg m).
  destruct HR as [Hr ->].
  destruct (Z.neg_nonneg_cases n) as [Hn|Hn].
  - assert (IZR n < 0)%R by now apply IZR_lt. split; intros; [lia|lra].
  - assert (0 <= IZR n)%R by now apply IZR_le.
    rewrite <- Z.sqrt_le_square by assumption. rewrite <- Rfloor_le, mult_IZR. split; intros; nra.
Qed.

Lemma rel_le r m n : rel r m -> leR n r = leZ n m.
Proof.
  intros HR. apply eq_true_iff_eq. unfold leR, leZ. rewrite Rleb_spec, Z.leb_le. now apply rel_le_iff.
Qed.

Lemma rel_shrink r m f : rel r m -> rel (shrinkR r f) (shrinkZ m f).
Proof.
  intros [Hr ->]. unfold shrinkR, shrinkZ. split; [apply sqrt_pos|].
  rewrite sqrt_sqrt by apply Rmax_l. symmetry. apply Rfloor_unique.
  pose proof (Rfloor_spec (r * r)) as [H1 H2].
  set (k := Rfloor (r * r)) in *.
  destruct (Z.max_spec 0 (k - f * f)) as [[Hc ->]|[Hc ->]].
  - rewrite minus_IZR, mult_IZR. assert (0 <= r * r - IZR f * IZR f)%R.
    { apply IZR_lt in Hc. rewrite minus_IZR, mult_IZR in Hc. lra. }
    rewrite Rmax_right by assumption. lra.
  - assert (r * r - IZR f * IZR f < 1)%R.
    { apply IZR_le in Hc. rewrite minus_IZR, mult_IZR in Hc. lra. }
    split; [apply Rmax_l|]. apply Rmax_lub_lt; lra.
Qed.

Lemma rel_bound r m : rel r m -> Rfloor r = Z.sqrt m.
Proof.
  intros HR. apply Z.le_antisymm.
  - apply (rel_le_iff r m); [assumption|]. apply Rfloor_spec.
  - apply Rfloor_le. now apply (rel_le_iff r m).
Qed.

Lemma loop1_rel r m : rel r m -> forall k n, loop1 R leR k r n = loop1 Z leZ k m n.
Proof.
  intros HR. induction k as [|k IH]; intros n; cbn [loop1]; rewrite (rel_le r m) by assumption;
    destruct (leZ n m); auto. now rewrite IH.
Qed.
Lemma loopN_rel r m subR subZ : rel r m ->
  (forall r' m' xs, rel r' m' -> subR r' xs = subZ m' xs) ->
  forall k f xs, loopN R leR shrinkR subR k r f xs = loopN Z leZ shrinkZ subZ k m f xs.
Proof.
  intros HR Hsub. induction k as [|k IH]; intros f xs; cbn [loopN]; rewrite (rel_le r m) by assumption;
    destruct (leZ f m); auto.
  rewrite IH. now rewrite (Hsub _ (shrinkZ m f)) by now apply rel_shrink.
Qed.

Lemma vec_gen_rel d : forall r m x0, rel r m -> vec_generator r d x0 = vec_generator_sq m d x0.
Proof.
  unfold vec_generator, vec_generator_sq. induction d as [|d IH]; intros r m x0 HR; [reflexivity|].
  cbn [vec_gen]. destruct (match x0 with None => _ | Some x => x end) as [|f0 xs]; [reflexivity|].
  assert (Ef : fuel R Rfloor r = fuel Z Z.sqrt m) by (unfold fuel; now rewrite (rel_bound r m)).
  rewrite Ef. destruct d as [|d].
  - now apply loop1_rel.
  - apply loopN_rel; assumption.
Qed.

Lemma rel_floor r : (0 <= r)%R -> rel r (Rfloor (r * r)).
Proof. now split. Qed.

Lemma gen_fresh r d : (0 <= r)%R -> (0 < d)%nat ->
  exists l, vec_generator r d None = Ok l /\ vec_generator r d (Some (repeat 0 d)) = Ok l /\ NoDup l /\
    forall v, In v l <-> length v = d /\ (sqrt (IZR (norm2 v)) <= r)%R.
Proof.
  intros Hr Hd. destruct d as [|d]; [lia|].
  pose proof (rel_floor r Hr) as HR. pose proof (rel_nonneg _ _ HR) as Hm.
  exists (full (S d) (Rfloor (r * r))). rewrite (vec_gen_rel _ r _ None HR), (vec_gen_rel _ r _ (Some _) HR).
  destruct (gen_sq d _ Hm) as [E _]. split; [assumption|]. split; [exact E|].
  split; [apply NoDup_full|]. intros v. rewrite in_full by assumption. rewrite <- Rfloor_le.
  assert (Hn : (0 <= IZR (norm2 v))%R) by (apply IZR_le, norm2_nonneg).
  assert (Hs := sqrt_sqrt _ Hn). pose proof (sqrt_pos (IZR (norm2 v))).
  split; intros [H1 H2]; (split; [assumption|]); nra.
Qed.

Lemma gen_fresh_neg r d : (r < 0)%R -> (0 < d)%nat -> vec_generator r d None = Ok [].
Proof.
  intros Hr Hd. assert (L : leR 0 r = false) by (apply Rleb_false; exact Hr).
  assert (F : forall k f, leR f r = false -> loop1 R leR k r f = Ok []) by (intros [|k] f E; cbn; now rewrite E).
  assert (F2 : forall s k f xs, leR f r = false -> loopN R leR shrinkR s k r f xs = Ok []) by (intros s [|k] f xs E; cbn; now rewrite E).
  destruct d as [|[|d]]; [lia| |]; unfold vec_generator; cbn [vec_gen repeat]; auto.
Qed.

Lemma app_unique {A} (x : A) p1 s1 p2 s2 : NoDup (p1 ++ x :: s1) ->
  p1 ++ x :: s1 = p2 ++ x :: s2 -> p1 = p2 /\ s1 = s2.
Proof.
  revert p2. induction p1 as [|a p1 IH]; intros [|b p2] ND E; cbn in *.
  - injection E as E. auto.
  - injection E as E1 E2. subst b. exfalso. inversion ND as [|? ? Hni _]. apply Hni. rewrite E2.
    apply in_app_iff. right. now left.
  - injection E as E1 E2. subst a. exfalso. inversion ND as [|? ? Hni _]. apply Hni.
    apply in_app_iff. right. now left.
  - injection E as E1 E2. subst b. inversion ND as [|? ? _ ND']. destruct (IH p2 ND' E2). subst. auto.
Qed.

Lemma gen_resume r d : (0 <= r)%R -> (0 < d)%nat -> forall pre x suf,
  vec_generator r d None = Ok (pre ++ x :: suf) ->
  exists l, vec_generator r d (Some x) = Ok (x :: l) /\ sublist l suf /\ (l = suf <-> clean x).
Proof.
  intros Hr Hd pre x suf E. destruct d as [|d]; [lia|].
  pose proof (rel_floor r Hr) as HR. pose proof (rel_nonneg _ _ HR) as Hm.
  rewrite (vec_gen_rel (S d) r _ None HR) in E. rewrite (vec_gen_rel (S d) r _ (Some x) HR). destruct (gen_sq d _ Hm) as [E0 E1].
  assert (E' : full (S d) (Rfloor (r * r)) = pre ++ x :: suf) by congruence. clear E. rename E' into E.
  assert (Hx : In x (full (S d) (Rfloor (r * r)))) by (rewrite E; apply in_app_iff; right; now left).
  apply in_full in Hx; [|assumption]. destruct Hx as [Hl Hn].
  rewrite E1 by assumption.
  destruct (resume_spec (S d) _ x Hm Hl Hn) as (p & s' & l & E2 & E3 & Hs & Hc).
  assert (ND := NoDup_full (S d) (Rfloor (r * r))). rewrite E in ND, E2.
  destruct (app_unique x pre suf p s' ND E2) as [-> ->].
  exists l. rewrite E3. auto.
Qed.
