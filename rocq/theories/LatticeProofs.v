From Verif Require Import LinAlg GroupSpec GroupModel GroupProofs LatticeModel LatticeSpec ReduceProofs.
Local Open Scope R_scope.

(** ** matrix times vector *)
Section MV.
  Context {A : Type} {O : Ops A} {L : RingLaws A}.
  Lemma length_mvmul n m (M : mat A) v : wf n m M -> length (mvmul M v) = n.
  Proof. intros W. unfold mvmul. rewrite length_mkv. unfold nrows. apply W. Qed.
  Lemma vget_mvmul n m (M : mat A) v i : wf n m M -> (i < n)%nat ->
    vget (mvmul M v) i = sumn (length v) (fun k => mul (get M i k) (vget v k)).
  Proof. intros W Hi. unfold mvmul. rewrite vget_mkv; [reflexivity|]. unfold nrows. destruct W as [-> _]. exact Hi. Qed.
  Lemma vec_ext (u v : list A) n : length u = n -> length v = n ->
    (forall i, (i < n)%nat -> vget u i = vget v i) -> u = v.
  Proof.
    intros Hu Hv H. apply (nth_ext _ _ zero zero); [congruence|]. intros i Hi. apply H. congruence.
  Qed.
End MV.

Lemma mvmul_mmul n (A B : mat R) v : (0 < n)%nat -> wf n n A -> wf n n B -> length v = n ->
  mvmul (mmul A B) v = mvmul A (mvmul B v).
Proof.
  intros Hn WA WB Hv. assert (W : wf n n (mmul A B)) by (apply (wf_mmul n n n); auto).
  apply (vec_ext _ _ n); [now apply (length_mvmul n n)|now apply (length_mvmul n n)|]. intros i Hi.
  rewrite !(vget_mvmul n n) by auto. rewrite (length_mvmul n n), Hv by auto.
  transitivity (sumn n (fun k => sumn n (fun l => get A i l * (get B l k * vget v k)))).
  - apply sumn_ext. intros k Hk. rewrite (get_mmul n n n) by auto. cbn [mul R_ops]. rewrite Rmult_comm, <- sumn_mult.
    apply sumn_ext. intros; cbn; ring.
  - rewrite (@sumn_swap R R_ops R_laws). apply sumn_ext. intros l Hl. rewrite (vget_mvmul n n) by auto. rewrite Hv.
    rewrite sumn_mult. reflexivity.
Qed.
Lemma mvmul_eye n (v : list R) : length v = n -> mvmul (eye n) v = v.
Proof.
  intros Hv. apply (vec_ext _ _ n); [apply (length_mvmul n n), wf_eye|exact Hv|]. intros i Hi.
  rewrite (vget_mvmul n n) by (first [apply wf_eye | assumption]). rewrite Hv.
  assert (K : forall m (f : nat -> R), (i < m)%nat -> (forall k, (k < m)%nat -> k <> i -> f k = 0) -> sumn m f = f i).
  { induction m as [|m IH]; intros f Hm Hf; [lia|]. cbn. destruct (Nat.eq_dec i m) as [->|Hne].
    - rewrite sumn_R0 by (intros; apply Hf; lia). cbn. ring.
    - rewrite IH by (try lia; intros; apply Hf; lia). rewrite (Hf m) by lia. cbn. ring. }
  rewrite K; [|exact Hi|intros k Hk Hne; rewrite get_eye by lia; destruct (Nat.eqb_spec i k); [lia|cbn; ring]].
  rewrite get_eye, Nat.eqb_refl by lia. cbn. ring.
Qed.
Lemma IZR_sumn m (f : nat -> Z) : IZR (sumn m f) = sumn m (fun k => IZR (f k)).
Proof. induction m as [|m IH]; [reflexivity|]. cbn [sumn]. cbn [add Z_ops R_ops]. now rewrite plus_IZR, IH. Qed.
Lemma mvmul_RZ n (M : mat Z) z : wf n n M -> length z = n -> mvmul (RZ M) (map IZR z) = map IZR (mvmul M z).
Proof.
  intros W Hz. pose proof (wf_RZ n n M W) as WR.
  apply (vec_ext _ _ n); [now apply (length_mvmul n n)|rewrite map_length; now apply (length_mvmul n n)|].
  intros i Hi. rewrite (vget_mvmul n n) by auto. rewrite map_length.
  transitivity (IZR (vget (mvmul M z) i)).
  - rewrite (vget_mvmul n n) by auto. rewrite IZR_sumn. apply sumn_ext. intros k _. rewrite get_RZ. unfold vget.
    change (@zero R R_ops) with (IZR 0). rewrite map_nth. cbn [mul R_ops Z_ops]. now rewrite mult_IZR.
  - unfold vget. change (@zero R R_ops) with (IZR 0). now rewrite map_nth.
Qed.

(** ** integer matrices with determinant +-1 *)
Lemma unimod_inv n (M : mat Z) : dim23 n -> wf n n M -> (det M = 1 \/ det M = -1)%Z ->
  exists N, wf n n N /\ mmul M N = eye n /\ mmul N M = eye n.
Proof.
  intros [->| ->] W D.
  - apply wf2_inv in W. destruct W as (a & b & c & d & ->).
    assert (E : det [[a; b]; [c; d]] = (a * d - b * c)%Z) by (cbv [det det_n minor nrows length sumn get nth tl map firstn skipn app Nat.even add mul sub opp zero one Z_ops]; ring).
    rewrite E in D. set (t := (a * d - b * c)%Z) in *.
    exists [[t * d; - (t * b)]; [- (t * c); t * a]]%Z. split; [apply wfb_spec; reflexivity|].
    assert (T : (t * t = 1)%Z) by nia. unfold t in *.
    split; mat_unfold_goal; repeat (f_equal; try nia).
  - apply wf3_inv in W. destruct W as (a & b & c & d & e & f & g & h & i & ->).
    assert (E : det [[a; b; c]; [d; e; f]; [g; h; i]] = (a * (e * i - f * h) - b * (d * i - f * g) + c * (d * h - e * g))%Z)
      by (cbv [det det_n minor nrows length sumn get nth tl map firstn skipn app Nat.even add mul sub opp zero one Z_ops]; ring).
    rewrite E in D. set (t := (a * (e * i - f * h) - b * (d * i - f * g) + c * (d * h - e * g))%Z) in *.
    assert (T : (t * t = 1)%Z) by nia.
    exists [[t * (e * i - f * h); t * (c * h - b * i); t * (b * f - c * e)];
            [t * (f * g - d * i); t * (a * i - c * g); t * (c * d - a * f)];
            [t * (d * h - e * g); t * (b * g - a * h); t * (a * e - b * d)]]%Z.
    split; [apply wfb_spec; reflexivity|].
    assert (T' : forall x, (x = t -> t * x = 1)%Z) by (intros x ->; exact T).
    assert (Z' : forall x, (x = 0 -> t * x = 0)%Z) by (intros x ->; ring).
    split; mat_unfold_goal.
    + repeat (apply f_equal2; try reflexivity);
      first [ match goal with |- ?l = 1%Z => transitivity (t * t)%Z; [unfold t; ring|exact T] end
            | match goal with |- ?l = 0%Z => ring end ].
    + repeat (apply f_equal2; try reflexivity);
      first [ match goal with |- ?l = 1%Z => transitivity (t * t)%Z; [unfold t; ring|exact T] end
            | match goal with |- ?l = 0%Z => ring end ].
Qed.

Section Base.
  Variable n : nat.
  Variable E : mat R.
  Hypothesis B : base n E.
  Let Hd : dim23 n := proj1 B.
  Let WE : wf n n E := proj1 (proj2 B).
  Let DE : det E <> 0 := proj2 (proj2 B).
  Let Hn : (0 < n)%nat := dim23_pos n Hd.
  Let WI : wf n n (minv E) := wf_minv n E Hd WE.

  Lemma mm_wf (P Q : mat R) : wf n n P -> wf n n Q -> wf n n (mmul P Q).
  Proof. intros; apply (wf_mmul n n n); auto. Qed.
  Lemma len_base : length E = n. Proof. apply WE. Qed.

  Lemma solve_left M (X : mat R) : wf n n X -> wf n n M -> X = mmul E M <-> mmul (minv E) X = M.
  Proof.
    intros WX WM. split.
    - intros ->. rewrite <- (mmul_assoc n n n n), (minv_l n), (mmul_eye_l n n) by auto. reflexivity.
    - intros <-. rewrite <- (mmul_assoc n n n n), (minv_r n), (mmul_eye_l n n) by auto. reflexivity.
  Qed.

  (** inclusion of lattices = integer transition matrix *)
  Lemma sub_lattice_iff E1 : wf n n E1 ->
    (sub_lattice n E1 E <-> exists M : mat Z, wf n n M /\ E1 = mmul E (RZ M)).
  Proof.
    intros W1. split.
    - intros H.
      assert (Hc : forall j, (j < n)%nat -> exists z, length z = n /\ forall i, (i < n)%nat -> get E1 i j = vget (mvmul E (map IZR z)) i).
      { intros j Hj. set (e := map (fun k => if (k =? j)%nat then 1%Z else 0%Z) (seq 0 n)).
        assert (Le : length e = n) by (unfold e; now rewrite map_length, seq_length).
        destruct (H (mvmul E1 (map IZR e))) as (z & Hz & Ez); [exists e; auto|].
        exists z. split; [exact Hz|]. intros i Hi. rewrite <- Ez, (vget_mvmul n n) by auto. rewrite map_length, Le.
        assert (K : forall k, (k < n)%nat -> vget (map IZR e) k = if (k =? j)%nat then 1 else 0).
        { intros k Hk. unfold vget. change (@zero R R_ops) with (IZR 0). rewrite map_nth. unfold e.
          rewrite (nth_indep _ 0%Z ((fun k => if (k =? j)%nat then 1%Z else 0%Z) 0%nat)) by (rewrite map_length, seq_length; lia).
          rewrite (map_nth (fun k => if (k =? j)%nat then 1%Z else 0%Z)), seq_nth by lia. cbn [Nat.add]. now destruct (k =? j)%nat. }
        symmetry.
        assert (S : forall m (f : nat -> R), (j < m)%nat -> (forall k, (k < m)%nat -> k <> j -> f k = 0) -> sumn m f = f j).
        { induction m as [|m IH]; intros f Hm Hf; [lia|]. cbn. destruct (Nat.eq_dec j m) as [->|Hne].
          - rewrite sumn_R0 by (intros; apply Hf; lia). cbn. ring.
          - rewrite IH by (try lia; intros; apply Hf; lia). rewrite (Hf m) by lia. cbn. ring. }
        rewrite (S n); [|exact Hj|intros k Hk Hne; rewrite K by exact Hk; destruct (Nat.eqb_spec k j); [lia|cbn; ring]].
        rewrite K by auto. rewrite Nat.eqb_refl. cbn. ring. }
      assert (Hch : forall m, (m <= n)%nat -> exists zs : list (list Z), length zs = m /\ forall j, (j < m)%nat ->
        length (nth j zs []) = n /\ forall i, (i < n)%nat -> get E1 i j = vget (mvmul E (map IZR (nth j zs []))) i).
      { induction m as [|m IH]; intros Hm; [exists []; split; [reflexivity|intros; lia]|].
        destruct IH as (zs & Hl & Hz); [lia|]. destruct (Hc m ltac:(lia)) as (z & Lz & Ez).
        exists (zs ++ [z]). split; [rewrite app_length; cbn; lia|]. intros j Hj. destruct (Nat.eq_dec j m) as [->|Hne].
        - rewrite app_nth2, Hl, Nat.sub_diag by lia. cbn. auto.
        - rewrite app_nth1 by lia. apply Hz. lia. }
      destruct (Hch n (le_n n)) as (zs & Hl & Hz).
      set (M := mk n n (fun i j => nth i (nth j zs []) 0%Z) : mat Z).
      assert (WM : wf n n M) by apply wf_mk. exists M. split; [exact WM|].
      apply (mat_ext n n); auto; [apply mm_wf; auto using wf_RZ|].
      intros i j Hi Hj. destruct (Hz j Hj) as [Lz Ez]. rewrite Ez, (get_mmul n n n) by auto using wf_RZ.
      rewrite (vget_mvmul n n) by auto. rewrite map_length, Lz. apply sumn_ext. intros k Hk.
      rewrite get_RZ. unfold M. rewrite get_mk by auto. unfold vget. change (@zero R R_ops) with (IZR 0). now rewrite map_nth.
    - intros (M & WM & ->) x (z & Lz & ->). exists (mvmul M z). split; [now apply (length_mvmul n n)|].
      rewrite <- (mvmul_RZ n) by auto. apply (mvmul_mmul n); auto using wf_RZ. now rewrite map_length.
  Qed.

  (** the test of == *)
  Definition near_integer (A : mat R) (M : mat Z) : Prop :=
    forall i j, (i < n)%nat -> (j < n)%nat ->
      Rabs (get A i j - IZR (get M i j)) <= 1 / 100000000 + 1 / 100000 * Rabs (IZR (get M i j)).

  Lemma allclose_n (P Q : mat R) : wf n n P -> allclose P Q = true <->
    forall i j, (i < n)%nat -> (j < n)%nat -> Rabs (get P i j - get Q i j) <= atol0 + rtol0 * Rabs (get Q i j).
  Proof. intros W. destruct n as [|k]; [lia|]. now apply allclose_spec. Qed.
  Lemma rint_0 : rint zero = zero. Proof. apply (rint_IZR 0). Qed.
  Lemma wf_rintm A : wf n n A -> wf n n (rintm A).
  Proof. intros W. unfold rintm. now apply wf_mmap. Qed.
  Lemma rintm_RZ M : rintm (RZ M) = M.
  Proof.
    unfold rintm, RZ, mmap. rewrite map_map. rewrite <- (map_id M) at 2. apply map_ext. intros r.
    rewrite map_map. rewrite <- (map_id r) at 2. apply map_ext. apply rint_IZR.
  Qed.

  Lemma lat_eq_red E2 : wf n n E2 -> lat_eq E E2 = Ok (allclose (mmul (minv E) E2) (RZ (rintm (mmul (minv E) E2)))).
  Proof.
    intros W. unfold lat_eq. rewrite len_base. destruct W as [-> W']. rewrite Nat.eqb_refl. rewrite (inv_Ok n) by auto. reflexivity.
  Qed.
  Lemma lat_eq_near E2 : wf n n E2 -> lat_eq E E2 = Ok true <->
    near_integer (mmul (minv E) E2) (rintm (mmul (minv E) E2)).
  Proof.
    intros W. rewrite lat_eq_red by auto. set (A := mmul (minv E) E2). assert (WA : wf n n A) by now apply mm_wf.
    split.
    - intros H. injection H as H. rewrite allclose_n in H by auto. intros i j Hi Hj. specialize (H i j Hi Hj).
      rewrite get_RZ in H. exact H.
    - intros H. f_equal. apply allclose_n; auto. intros i j Hi Hj. rewrite get_RZ. now apply H.
  Qed.
  Lemma lat_eq_total E2 : wf n n E2 -> exists b, lat_eq E E2 = Ok b.
  Proof. intros W. rewrite lat_eq_red by auto. eauto. Qed.
  Lemma lat_eq_exact M : wf n n M -> lat_eq E (mmul E (RZ M)) = Ok true.
  Proof.
    intros WM. pose proof (wf_RZ n n M WM). rewrite lat_eq_red by now apply mm_wf.
    rewrite (proj1 (solve_left (RZ M) (mmul E (RZ M)) ltac:(now apply mm_wf) ltac:(assumption)) eq_refl).
    rewrite rintm_RZ, allclose_refl. reflexivity.
  Qed.

  (** ** isometries that preserve the lattice *)
  Lemma orth_det Q : orthogonal n Q -> det Q = 1 \/ det Q = -1.
  Proof.
    intros [WQ HQ]. assert (det Q * det Q = 1).
    { rewrite <- (det_tr n Q) at 2 by auto. rewrite <- (det_mmul n); [|exact Hd|exact WQ|apply wf_tr'; [exact Hn|exact WQ]]. rewrite HQ. apply (det_eye n); auto. }
    assert ((det Q - 1) * (det Q + 1) = 0) as H0 by lra. apply Rmult_integral in H0. lra.
  Qed.
  Lemma int_det_of Q M : orthogonal n Q -> wf n n M -> mmul Q E = mmul E (RZ M) -> IZR (det M) = det Q.
  Proof.
    intros HQ WM H. rewrite RZ_det. apply (f_equal det) in H.
    rewrite !(det_mmul n) in H by (auto using wf_RZ; apply HQ). apply (Rmult_eq_reg_l (det E)); [lra|exact DE].
  Qed.
  Lemma preserves_iff Q : orthogonal n Q ->
    (preserves n Q E <-> exists M : mat Z, wf n n M /\ mmul Q E = mmul E (RZ M)).
  Proof.
    intros HQ. pose proof (proj1 HQ) as WQ. split.
    - intros [H _]. apply sub_lattice_iff; [now apply mm_wf|]. intros x (z & Lz & ->).
      rewrite (mvmul_mmul n) by (auto; now rewrite map_length). apply H. exists z. auto.
    - intros (M & WM & H).
      assert (forall z, length z = n -> mvmul Q (mvmul E (map IZR z)) = mvmul E (map IZR (mvmul M z))) as K.
      { intros z Lz. rewrite <- mvmul_RZ with (n := n) by auto.
        rewrite <- !mvmul_mmul with (n := n) by (auto using wf_RZ; now rewrite map_length). now rewrite H. }
      split.
      + intros x (z & Lz & ->). exists (mvmul M z). split; [now apply (length_mvmul n n)|now apply K].
      + intros y (z & Lz & ->).
        assert (DM : (det M = 1 \/ det M = -1)%Z).
        { pose proof (int_det_of Q M HQ WM H) as D. destruct (orth_det Q HQ) as [D1|D1]; rewrite D1 in D; [left|right]; now apply eq_IZR. }
        destruct (unimod_inv n M Hd WM DM) as (N & WN & HMN & _).
        exists (mvmul E (map IZR (mvmul N z))). assert (Ln : length (mvmul N z) = n) by now apply (length_mvmul n n).
        split; [exists (mvmul N z); auto|]. rewrite K by auto. f_equal.
        rewrite <- mvmul_RZ with (n := n) by auto. rewrite <- mvmul_RZ with (n := n) by auto.
        rewrite <- mvmul_mmul with (n := n) by (auto using wf_RZ; now rewrite map_length).
        rewrite <- RZ_mmul, HMN, RZ_eye. symmetry. apply mvmul_eye. now rewrite map_length.
  Qed.

  Lemma new_lattice_ok E2 : wf n n E2 -> det E2 <> 0 -> new_lattice E2 = Ok E2.
  Proof.
    intros W D. unfold new_lattice, is_square. destruct W as [Hl Hr]. rewrite Hl.
    rewrite (proj2 (Nat.ltb_lt 0 n) Hn), (proj2 (wfb_spec n n E2)) by (split; auto). cbn [andb].
    rewrite (proj2 (Rleb_false _ _)); [reflexivity|]. nra.
  Qed.
  Lemma is_square_wf {A} (M : mat A) : wf n n M -> is_square M = true.
  Proof.
    intros W. unfold is_square. pose proof W as [Hl _]. rewrite Hl. rewrite (proj2 (Nat.ltb_lt 0 n) Hn). now rewrite (proj2 (wfb_spec n n M)).
  Qed.
  Lemma in_O3_float Q : orthogonal n Q -> in_O3 (FltArr Q) = true.
  Proof.
    intros HQ. pose proof (proj1 HQ) as WQ. cbn [in_O3]. rewrite is_square_wf by auto. cbn [andb].
    rewrite (proj2 HQ). destruct WQ as [-> _]. rewrite allclose_refl, andb_true_r. apply Rltb_spec.
    assert (Rabs (det Q) = 1) as ->; [destruct (orth_det Q HQ) as [->| ->]; unfold Rabs; destruct (Rcase_abs _); lra|].
    replace (1 - 1) with 0 by ring. rewrite Rabs_R0. lra.
  Qed.
  Lemma in_O3_int Q : orthogonal n Q -> in_O3 (IntArr Q) = true.
  Proof.
    intros HQ. pose proof (proj1 HQ) as WQ. cbn [in_O3]. rewrite is_square_wf by auto. cbn [andb].
    rewrite (proj2 HQ). destruct WQ as [Hl _]. rewrite Hl. rewrite (proj2 (mat_eqb_eq _ _) eq_refl), andb_true_r.
    assert (OR : orthogonal n (RZ Q)).
    { split; [now apply wf_RZ, HQ|]. rewrite <- RZ_tr, <- RZ_mmul, (proj2 HQ), RZ_eye. reflexivity. }
    apply Z.eqb_eq. destruct (orth_det _ OR) as [D|D]; rewrite <- RZ_det in D; apply eq_IZR in D; rewrite D; reflexivity.
  Qed.

  (** an element of O(n), as an int or float array *)
  Definition orth_arr (Q : nparray) : Prop :=
    match Q with IntArr M => orthogonal n M | FltArr M => orthogonal n M end.
  Lemma orth_arr_values Q : orth_arr Q -> orthogonal n (values Q).
  Proof.
    destruct Q as [M|M]; cbn; [|auto]. intros HQ. split; [now apply wf_RZ, HQ|].
    rewrite <- RZ_tr, <- RZ_mmul, (proj2 HQ), RZ_eye. reflexivity.
  Qed.
  Lemma inpoint_red Q : orth_arr Q -> inpointgroup E Q = lat_eq E (mmul (values Q) E).
  Proof.
    intros HQ. pose proof (orth_arr_values Q HQ) as HV. pose proof (proj1 HV) as WV. unfold inpointgroup.
    replace (in_O3 Q) with true by (destruct Q; symmetry; [now apply in_O3_int|now apply in_O3_float]).
    destruct WV as [Hl Hr]. rewrite Hl, len_base, Nat.eqb_refl. rewrite new_lattice_ok; [reflexivity|apply mm_wf; [split|]; auto|].
    rewrite (det_mmul n) by (auto; split; auto). apply Rmult_integral_contrapositive_currified; [|exact DE].
    destruct (orth_det _ HV); lra.
  Qed.
  Lemma inpoint_total Q : orth_arr Q -> exists b, inpointgroup E Q = Ok b.
  Proof. intros HQ. rewrite inpoint_red by auto. apply lat_eq_total, mm_wf; auto. apply (orth_arr_values Q HQ). Qed.
  Lemma inpoint_preserves Q : orth_arr Q -> preserves n (values Q) E -> inpointgroup E Q = Ok true.
  Proof.
    intros HQ HP. rewrite inpoint_red by auto. apply preserves_iff in HP; [|now apply orth_arr_values].
    destruct HP as (M & WM & ->). now apply lat_eq_exact.
  Qed.

  (** ** the groups *)
  Definition acceptb (Q : nparray) : bool := match inpointgroup E Q with Ok b => b | _ => false end.
  Lemma keep_filter T : (forall Q, In Q T -> orth_arr Q) -> keep E T = Ok (map values (filter acceptb T)).
  Proof.
    induction T as [|Q T IH]; intros H; [reflexivity|]. cbn [keep filter].
    destruct (inpoint_total Q (H Q (or_introl eq_refl))) as [b Hb]. rewrite Hb. cbn [bind].
    rewrite IH by (intros; apply H; now right). cbn [bind]. replace (acceptb Q) with b by (unfold acceptb; now rewrite Hb). now destruct b.
  Qed.
End Base.
