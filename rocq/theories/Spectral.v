(** Functions of symmetric matrices given by an eigendecomposition (used for C32, C56). *)
From Verif Require Import LinAlg Eig.
Local Open Scope R_scope.

Definition symmetric (C : mat R) : Prop := tr C = C.

(** the quadratic form x . C x, for x given by its coordinates *)
Definition qform (n : nat) (C : mat R) (x : nat -> R) : R :=
  sumn n (fun i => sumn n (fun j => x i * get C i j * x j)).
Definition nonzero (n : nat) (x : nat -> R) : Prop := exists i, (i < n)%nat /\ x i <> 0.
Definition posdef (n : nat) (C : mat R) : Prop := forall x, nonzero n x -> 0 < qform n C x.

Lemma sumn_pos n (f : nat -> R) k : (forall i, (i < n)%nat -> 0 <= f i) -> (k < n)%nat -> 0 < f k -> 0 < sumn n f.
Proof.
  induction n as [|n IH]; intros H Hk Hp; [lia|]. cbn.
  pose proof (H n ltac:(lia)). assert (0 <= sumn n f) by (apply sumn_nonneg; intros; apply H; lia).
  destruct (Nat.eq_dec k n) as [->|Hne]; [cbn in *; lra|].
  pose proof (IH ltac:(intros; apply H; lia) ltac:(lia) Hp). cbn in *. lra.
Qed.
Lemma sumn_single_R n k (f : nat -> R) : (k < n)%nat -> (forall i, (i < n)%nat -> i <> k -> f i = 0) -> sumn n f = f k.
Proof.
  induction n as [|n IH]; intros Hk H; [lia|]. cbn. destruct (Nat.eq_dec k n) as [->|Hne].
  - rewrite sumn_R0 by (intros; apply H; lia). cbn. ring.
  - rewrite IH by (try lia; intros; apply H; lia). rewrite (H n) by lia. cbn. ring.
Qed.

Lemma col_nonzero_gen n (V : mat R) j : dim23 n -> wf n n V -> det V <> 0 -> (j < n)%nat -> nonzero n (fun i => get V i j).
Proof.
  intros Hd WV DV Hj. destruct Hd as [->| ->].
  - apply wf2_inv in WV. destruct WV as (a & b & c & d & E). rewrite E in *. rewrite det2 in DV.
    destruct j as [|[|]]; [| |lia]; cbn.
    + destruct (Req_dec a 0) as [->|]; [|exists 0%nat; split; [lia|assumption]].
      exists 1%nat. split; [lia|]. cbn. intros ->. apply DV. ring.
    + destruct (Req_dec b 0) as [->|]; [|exists 0%nat; split; [lia|assumption]].
      exists 1%nat. split; [lia|]. cbn. intros ->. apply DV. ring.
  - apply wf3_inv in WV.
    destruct WV as (a & b & c & d & e & f & g & h & i & E). rewrite E in *. rewrite det3 in DV.
    assert (K : forall x y z : R, ~ (x = 0 /\ y = 0 /\ z = 0) -> forall v : nat -> R, v 0%nat = x -> v 1%nat = y -> v 2%nat = z -> nonzero 3 v).
    { intros x y z H v H0 H1 H2. destruct (Req_dec x 0) as [->|]; [|exists 0%nat; split; [lia|congruence]].
      destruct (Req_dec y 0) as [->|]; [|exists 1%nat; split; [lia|congruence]].
      exists 2%nat. split; [lia|]. rewrite H2. intros ->. apply H. auto. }
    destruct j as [|[|[|]]]; [| | |lia].
    + apply (K a d g); try reflexivity. intros (-> & -> & ->). apply DV. ring.
    + apply (K b e h); try reflexivity. intros (-> & -> & ->). apply DV. ring.
    + apply (K c f i); try reflexivity. intros (-> & -> & ->). apply DV. ring.
Qed.

Section Spectral.
  Variable n : nat.
  Hypothesis Hd : dim23 n.
  Let Hn : (0 < n)%nat := dim23_pos n Hd.

  Lemma get_mmul_diag_r (M : mat R) d i j : wf n n M -> length d = n -> (i < n)%nat -> (j < n)%nat ->
    get (mmul M (diag d)) i j = get M i j * nth j d 0.
  Proof.
    intros WM Hl Hi Hj. rewrite (get_mmul n n n) by auto using wf_diag.
    etransitivity; [apply (sumn_single_R n j); [exact Hj|]|].
    - intros k Hk Hne. rewrite (get_diag n) by auto. destruct (Nat.eqb_spec k j); [lia|]. cbn. ring.
    - rewrite (get_diag n) by auto. rewrite Nat.eqb_refl. reflexivity.
  Qed.
  Lemma get_mmul_diag_l (M : mat R) d i j : wf n n M -> length d = n -> (i < n)%nat -> (j < n)%nat ->
    get (mmul (diag d) M) i j = nth i d 0 * get M i j.
  Proof.
    intros WM Hl Hi Hj. rewrite (get_mmul n n n) by auto using wf_diag.
    etransitivity; [apply (sumn_single_R n i); [exact Hi|]|].
    - intros k Hk Hne. rewrite (get_diag n) by auto. destruct (Nat.eqb_spec i k); [lia|]. cbn. ring.
    - rewrite (get_diag n) by auto. rewrite Nat.eqb_refl. reflexivity.
  Qed.
  Lemma nth_map0 (f : R -> R) (lam : list R) i : length lam = n -> (i < n)%nat -> nth i (map f lam) 0 = f (nth i lam 0) :> R.
  Proof. intros Hl Hi. rewrite (nth_indep _ 0 (f 0)) by (rewrite map_length; lia). apply map_nth. Qed.
  Lemma diag_fun_mul (f g : R -> R) (lam : list R) : length lam = n ->
    mmul (diag (map f lam)) (diag (map g lam)) = diag (map (fun x => f x * g x) lam).
  Proof.
    intros Hl. assert (Lf : forall h : R -> R, length (map h lam) = n) by (intros; now rewrite map_length).
    apply (mat_ext n n); [apply (wf_mmul n n n); auto using wf_diag|auto using wf_diag|].
    intros i j Hi Hj. rewrite get_mmul_diag_r, !(get_diag n) by auto using wf_diag.
    destruct (Nat.eqb_spec i j) as [->|]; [|cbn; ring]. cbn [zero R_ops]. rewrite !nth_map0 by auto. reflexivity.
  Qed.
  Lemma tr_diag d : length d = n -> tr (diag d) = diag d :> mat R.
  Proof.
    intros Hl. apply (mat_ext n n); auto using wf_tr', wf_diag.
    intros i j Hi Hj. rewrite (get_tr' n n), !(get_diag n) by auto using wf_diag.
    rewrite Nat.eqb_sym. destruct (Nat.eqb_spec i j) as [->|]; reflexivity.
  Qed.

  (** f applied to the matrix with eigenvalues lam and eigenvectors V *)
  Definition matfun (V : mat R) (lam : list R) (f : R -> R) : mat R := mmul (mmul V (diag (map f lam))) (minv V).

  Variables (C : mat R) (lam : list R) (V : mat R).
  Hypothesis HE : eigen n C lam V.
  Let WC : wf n n C := proj1 HE.
  Let WV : wf n n V := proj1 (proj2 HE).
  Let Hl : length lam = n := proj1 (proj2 (proj2 HE)).
  Let DV : det V <> 0 := proj1 (proj2 (proj2 (proj2 HE))).
  Let EV : mmul C V = mmul V (diag lam) := proj2 (proj2 (proj2 (proj2 HE))).
  Let WI : wf n n (minv V) := wf_minv n V Hd WV.

  Lemma len_map (f : R -> R) : length (map f lam) = n :> nat.
  Proof. now rewrite map_length. Qed.
  Lemma wf_dg (f : R -> R) : wf n n (diag (map f lam)).
  Proof. apply wf_diag, len_map. Qed.
  Lemma wf_mm (A B : mat R) : wf n n A -> wf n n B -> wf n n (mmul A B).
  Proof. intros; apply (wf_mmul n n n); auto. Qed.
  Lemma wf_matfun f : wf n n (matfun V lam f).
  Proof. apply wf_mm; [apply wf_mm|]; auto using wf_dg. Qed.

  Lemma matfun_mul f g : mmul (matfun V lam f) (matfun V lam g) = matfun V lam (fun x => f x * g x).
  Proof.
    pose proof (wf_dg f) as Wf. pose proof (wf_dg g) as Wg. unfold matfun.
    assert (W1 : wf n n (mmul V (diag (map f lam)))) by now apply wf_mm.
    assert (W2 : wf n n (mmul V (diag (map g lam)))) by now apply wf_mm.
    rewrite (mmul_assoc n n n n _ (minv V)) by (auto; now apply wf_mm).
    rewrite <- (mmul_assoc n n n n (minv V)) by auto. rewrite <- (mmul_assoc n n n n (minv V) V) by auto.
    rewrite (minv_l n), (mmul_eye_l n n) by auto.
    rewrite <- (mmul_assoc n n n n _ (diag (map g lam))) by auto.
    rewrite (mmul_assoc n n n n V) by auto. rewrite diag_fun_mul by auto. reflexivity.
  Qed.
  Lemma matfun_id : matfun V lam (fun x => x) = C.
  Proof. unfold matfun. rewrite map_id. symmetry. now apply (eigen_form n C lam V). Qed.
  Lemma matfun_ext f g : (forall i, (i < n)%nat -> f (nth i lam 0) = g (nth i lam 0)) -> matfun V lam f = matfun V lam g.
  Proof.
    intros H. unfold matfun. f_equal. f_equal. f_equal. apply map_ext_in. intros x Hx.
    apply (In_nth _ _ 0) in Hx. destruct Hx as (i & Hi & <-). apply H. lia.
  Qed.
  Lemma det_matfun f : det (matfun V lam f) = det (diag (map f lam)).
  Proof.
    unfold matfun. rewrite !(det_mmul n), (det_minv n) by (auto using wf_dg; apply wf_mm; auto using wf_dg). field. exact DV.
  Qed.

  (** for symmetric C, V^T V commutes with the eigenvalues, hence with any function of them *)
  Lemma gram_commutes f : symmetric C ->
    mmul (mmul (tr V) V) (diag (map f lam)) = mmul (diag (map f lam)) (mmul (tr V) V).
  Proof.
    intros HS. assert (WT : wf n n (tr V)) by auto using wf_tr'.
    assert (WG : wf n n (mmul (tr V) V)) by now apply wf_mm.
    assert (K : mmul (mmul (tr V) V) (diag lam) = mmul (diag lam) (mmul (tr V) V)).
    { assert (WD : wf n n (diag lam)) by auto using wf_diag.
      rewrite (mmul_assoc n n n n (tr V)), <- EV by auto.
      rewrite <- (mmul_assoc n n n n (tr V) C V) by auto.
      replace (mmul (tr V) C) with (tr (mmul C V)).
      - rewrite EV. rewrite (tr_mmul n n n) by auto. rewrite tr_diag by auto.
        rewrite (mmul_assoc n n n n) by auto. reflexivity.
      - rewrite (tr_mmul n n n) by auto. now rewrite HS. }
    apply (mat_ext n n); [apply wf_mm; auto using wf_dg|apply wf_mm; auto using wf_dg|].
    intros i j Hi Hj. rewrite get_mmul_diag_r, get_mmul_diag_l by auto using len_map.
    pose proof (f_equal (fun M => get M i j) K) as Kij. cbn beta in Kij.
    rewrite get_mmul_diag_r, get_mmul_diag_l in Kij by auto.
    rewrite !nth_map0 by auto. set (w := get (mmul (tr V) V) i j) in *.
    destruct (Req_dec w 0) as [->|Hw]; [ring|].
    assert (nth j lam 0 = nth i lam 0) as -> by (apply (Rmult_eq_reg_l w); [lra|exact Hw]). ring.
  Qed.

  Lemma matfun_sym f : symmetric C -> symmetric (matfun V lam f).
  Proof.
    intros HS. unfold symmetric. pose proof (wf_dg f) as Wf.
    assert (WT : wf n n (tr V)) by auto using wf_tr'.
    assert (WIT : wf n n (minv (tr V))) by now apply wf_minv.
    assert (W1 : wf n n (mmul V (diag (map f lam)))) by now apply wf_mm.
    assert (DT : det (tr V) <> 0) by (rewrite (det_tr n); auto).
    assert (E : mmul (tr V) (tr (matfun V lam f)) = mmul (tr V) (matfun V lam f)).
    { unfold matfun. rewrite (tr_mmul n n n), (tr_mmul n n n) by auto. rewrite tr_diag by apply len_map.
      rewrite <- (minv_tr n) by auto.
      rewrite <- (mmul_assoc n n n n (tr V)) by (auto; now apply wf_mm).
      rewrite (minv_r n), (mmul_eye_l n n) by (auto; now apply wf_mm).
      rewrite <- (mmul_assoc n n n n (tr V) (mmul V _)) by auto.
      rewrite <- (mmul_assoc n n n n (tr V) V) by auto.
      rewrite gram_commutes by exact HS.
      rewrite (mmul_assoc n n n n _ _ (minv V)) by (auto; now apply wf_mm).
      rewrite (mmul_assoc n n n n (tr V) V) by auto. rewrite (minv_r n), (mmul_eye_r n n) by auto. reflexivity. }
    apply (mmul_cancel_l n (tr V)); auto using wf_matfun, wf_tr'.
  Qed.

  (** eigenvalues of a positive (semi)definite matrix *)
  Lemma qform_cols j : (j < n)%nat -> qform n C (fun i => get V i j) = nth j lam 0 * sumn n (fun i => get V i j * get V i j).
  Proof.
    intros Hj. unfold qform. rewrite <- sumn_mult. apply sumn_ext. intros i Hi.
    pose proof (f_equal (fun M => get M i j) EV) as K. cbn beta in K. rewrite get_mmul_diag_r, (get_mmul n n n) in K by auto.
    transitivity (get V i j * sumn n (fun l => get C i l * get V l j)).
    - rewrite <- sumn_mult. apply sumn_ext. intros l Hl'. cbn. ring.
    - cbn [mul R_ops] in K. rewrite K. ring.
  Qed.
  Lemma col_nonzero j : (j < n)%nat -> nonzero n (fun i => get V i j).
  Proof. intros Hj. now apply col_nonzero_gen. Qed.
  Lemma col_norm_pos j : (j < n)%nat -> 0 < sumn n (fun i => get V i j * get V i j).
  Proof.
    intros Hj. destruct (col_nonzero j Hj) as (i & Hi & Hne). apply (sumn_pos n _ i); [intros; nra|exact Hi|nra].
  Qed.
  Lemma eig_nonneg j : (forall x, 0 <= qform n C x) -> (j < n)%nat -> 0 <= nth j lam 0.
  Proof.
    intros HP Hj. pose proof (HP (fun i => get V i j)) as Q. rewrite qform_cols in Q by exact Hj.
    pose proof (col_norm_pos j Hj). nra.
  Qed.
  Lemma eig_pos j : posdef n C -> (j < n)%nat -> 0 < nth j lam 0.
  Proof.
    intros HP Hj. pose proof (HP _ (col_nonzero j Hj)) as Q. rewrite qform_cols in Q by exact Hj.
    pose proof (col_norm_pos j Hj). nra.
  Qed.
End Spectral.

(** M^T M *)
Lemma qform_gram n (M : mat R) x : (0 < n)%nat -> wf n n M ->
  qform n (mmul (tr M) M) x = sumn n (fun k => (sumn n (fun j => get M k j * x j)) * (sumn n (fun j => get M k j * x j))).
Proof.
  intros Hn WM. unfold qform.
  transitivity (sumn n (fun i => sumn n (fun j => sumn n (fun k => (get M k i * x i) * (get M k j * x j))))).
  - apply sumn_ext. intros i Hi. apply sumn_ext. intros j Hj. rewrite (get_mmul n n n) by auto using wf_tr'.
    rewrite Rmult_comm, <- Rmult_assoc, <- sumn_mult. apply sumn_ext. intros k Hk. rewrite (get_tr' n n) by auto. cbn. ring.
  - transitivity (sumn n (fun i => sumn n (fun k => (get M k i * x i) * sumn n (fun j => get M k j * x j)))).
    + apply sumn_ext. intros i Hi. rewrite (@sumn_swap R R_ops R_laws). apply sumn_ext. intros k Hk. rewrite <- sumn_mult. apply sumn_ext. intros; cbn; ring.
    + rewrite (@sumn_swap R R_ops R_laws). apply sumn_ext. intros k Hk.
      rewrite <- sumn_mult. apply sumn_ext. intros; cbn; ring.
Qed.
Lemma gram_psd n (M : mat R) x : (0 < n)%nat -> wf n n M -> 0 <= qform n (mmul (tr M) M) x.
Proof. intros Hn WM. rewrite qform_gram by auto. apply sumn_nonneg. intros. nra. Qed.
Lemma gram_sym n (M : mat R) : (0 < n)%nat -> wf n n M -> symmetric (mmul (tr M) M).
Proof.
  intros Hn WM. unfold symmetric. rewrite (tr_mmul n n n) by auto using wf_tr'. rewrite (tr_tr n n) by auto. reflexivity.
Qed.
Lemma kernel_trivial n (M : mat R) x : dim23 n -> wf n n M -> det M <> 0 -> nonzero n x ->
  exists k, (k < n)%nat /\ sumn n (fun j => get M k j * x j) <> 0.
Proof.
  intros Hd WM D (i & Hi & Hx). pose proof (dim23_pos n Hd) as Hn.
  destruct (Nat.eq_dec (length (filter (fun k => negb (Reqb (sumn n (fun j => get M k j * x j)) 0)) (seq 0 n))) 0) as [E|E].
  - exfalso. apply Hx.
    assert (Z : forall k, (k < n)%nat -> sumn n (fun j => get M k j * x j) = 0).
    { intros k Hk. destruct (Req_EM_T (sumn n (fun j => get M k j * x j)) 0) as [H|H]; [exact H|exfalso].
      apply length_zero_iff_nil in E. assert (In k (filter (fun k => negb (Reqb (sumn n (fun j => get M k j * x j)) 0)) (seq 0 n))) as Hin.
      { apply filter_In. split; [apply in_seq; lia|]. apply negb_true_iff, Reqb_false. exact H. }
      rewrite E in Hin. destruct Hin. }
    pose proof (minv_l n M Hd WM D) as I. pose proof (wf_minv n M Hd WM) as WI.
    transitivity (sumn n (fun j => get (mmul (minv M) M) i j * x j)).
    + rewrite I. symmetry. etransitivity; [apply (sumn_single_R n i); [exact Hi|]|].
      * intros j Hj Hne. rewrite get_eye by auto. destruct (Nat.eqb_spec i j); [lia|]. cbn. ring.
      * rewrite get_eye, Nat.eqb_refl by auto. cbn. ring.
    + transitivity (sumn n (fun j => sumn n (fun k => (get (minv M) i k * (get M k j * x j))))).
      * apply sumn_ext. intros j Hj. rewrite (get_mmul n n n) by auto. rewrite Rmult_comm, <- sumn_mult. apply sumn_ext. intros; cbn; ring.
      * rewrite (@sumn_swap R R_ops R_laws). apply sumn_R0. intros k Hk. rewrite sumn_mult, Z by exact Hk. ring.
  - destruct (filter _ (seq 0 n)) as [|k l] eqn:F; [cbn in E; lia|].
    assert (In k (k :: l)) as Hin by now left. rewrite <- F in Hin. apply filter_In in Hin. destruct Hin as [Hin Hk].
    apply in_seq in Hin. apply negb_true_iff, Reqb_false in Hk. exists k. split; [lia|exact Hk].
Qed.
Lemma gram_posdef n (M : mat R) : dim23 n -> wf n n M -> det M <> 0 -> posdef n (mmul (tr M) M).
Proof.
  intros Hd WM D x Hx. rewrite qform_gram by auto. destruct (kernel_trivial n M x Hd WM D Hx) as (k & Hk & Hne).
  apply (sumn_pos n _ k); [intros; nra|exact Hk|nra].
Qed.
