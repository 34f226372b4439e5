(** Proofs for C119: products and factors of Hermite normal forms. *)
From Verif Require Import HnfModel HnfSpec HnfEnum HnfProofs HnfCanon.
From Coq Require Import Znumtheory.
Local Open Scope Z_scope.

(** lower triangular with a positive diagonal *)
Definition ltri (n : nat) (M : mat Z) : Prop :=
  wf n n M /\ (forall i j, (i < j < n)%nat -> get M i j = 0) /\ (forall i, (i < n)%nat -> 0 < get M i i).
Lemma hnf_ltri n H : is_hnf n H -> ltri n H.
Proof. intros (W & U & D & _). now split. Qed.
Lemma diag_pos n M k : ltri n M -> (k <= n)%nat -> 0 < diag_prod k M.
Proof. intros (_ & _ & D) Hk. induction k as [|k IH]; cbn [diag_prod]; [lia|]. specialize (IH ltac:(lia)). specialize (D k ltac:(lia)). nia. Qed.
Lemma diag_ext M N k : (forall i, (i < k)%nat -> get M i i = get N i i) -> diag_prod k M = diag_prod k N.
Proof. induction k as [|k IH]; cbn [diag_prod]; intros H; [reflexivity|]. rewrite IH, H by (intros; try apply H; lia). reflexivity. Qed.

(** ** Products *)
Lemma ltri_mmul n M N : (0 < n)%nat -> ltri n M -> ltri n N ->
  ltri n (mmul M N) /\ forall i, (i < n)%nat -> get (mmul M N) i i = get M i i * get N i i.
Proof.
  intros Hn (WM & UM & DM) (WN & UN & DN).
  assert (G : forall i, (i < n)%nat -> get (mmul M N) i i = get M i i * get N i i).
  { intros i Hi. rewrite (get_mmul n n n) by auto. rewrite (sumn_single n i); auto. intros k Hk Hne. cbn [mul zero Z_ops].
    destruct (Nat.lt_ge_cases k i); [rewrite UN by lia; lia|rewrite UM by lia; lia]. }
  split; [|exact G]. split; [now apply (wf_mmul n n n)|]. split.
  - intros i j Hij. rewrite (get_mmul n n n) by (auto; lia). apply sumZ_zero. intros k Hk. cbn [mul Z_ops].
    destruct (Nat.le_gt_cases k i); [rewrite (UN k j) by lia; lia|rewrite UM by lia; lia].
  - intros i Hi. rewrite G by auto. specialize (DM i Hi). specialize (DN i Hi). nia.
Qed.
Lemma diag_mmul n M N k : (0 < n)%nat -> ltri n M -> ltri n N -> (k <= n)%nat -> diag_prod k (mmul M N) = diag_prod k M * diag_prod k N.
Proof.
  intros Hn HM HN Hk. pose proof (proj2 (ltri_mmul n M N Hn HM HN)) as G. induction k as [|k IH]; cbn [diag_prod]; [reflexivity|]. rewrite IH, G by lia. ring.
Qed.
Lemma ltri_full_rank n M : (0 < n)%nat -> ltri n M -> full_rank n M.
Proof.
  intros Hn (HH & Hu & Hd). split; [assumption|]. intros y Hy.
  assert (Hk : forall k i, (n - k <= i < n)%nat -> y i = 0).
  { induction k as [|k IH]; intros i Hi; [lia|].
    destruct (Nat.eq_dec i (n - S k)) as [->|Hne]; [|apply IH; lia].
    assert (Hlt : (n - S k < n)%nat) by lia. set (c := (n - S k)%nat) in *.
    specialize (Hy c Hlt). rewrite (sumn_single n c) in Hy; [|assumption|].
    - specialize (Hd c Hlt). nia.
    - intros i Hi' Hne. destruct (Nat.lt_ge_cases i c).
      + rewrite Hu by lia. apply Z.mul_0_r.
      + rewrite IH by lia. reflexivity. }
  intros i Hi. apply (Hk n). lia.
Qed.
Lemma ltri_quot n T H L : (0 < n)%nat -> ltri n T -> ltri n H -> wf n n L -> T = mmul H L ->
  (forall i j, (i < j < n)%nat -> get L i j = 0) /\ forall i, (i < n)%nat -> get T i i = get H i i * get L i i.
Proof.
  intros Hn (WT & UT & DT) (WH & UH & DH) WL E.
  assert (G : forall i j, (i < j < n)%nat -> get L i j = 0).
  { induction i as [i IH] using (well_founded_induction lt_wf). intros j Hij.
    pose proof (UT i j Hij) as Z0. rewrite E, (get_mmul n n n) in Z0 by (auto; lia). rewrite (sumn_single n i) in Z0; [|lia|].
    - cbn [mul Z_ops] in Z0. specialize (DH i ltac:(lia)). nia.
    - intros k Hk Hne. cbn [mul zero Z_ops]. destruct (Nat.lt_ge_cases k i); [rewrite (IH k) by lia; lia|rewrite UH by lia; lia]. }
  split; [exact G|]. intros i Hi. rewrite E at 1. rewrite (get_mmul n n n) by auto. rewrite (sumn_single n i); auto. intros k Hk Hne. cbn [mul zero Z_ops].
  destruct (Nat.lt_ge_cases k i); [rewrite (G k) by lia; lia|rewrite UH by lia; lia].
Qed.
Lemma requiv_diag n T H : (0 < n)%nat -> ltri n T -> ltri n H -> requiv n T H -> diag_prod n T = diag_prod n H.
Proof.
  intros Hn HT HH (WT & L & V & WL & WV & E1 & E2 & E). apply diag_ext. intros i Hi.
  pose proof (ltri_quot n H T L Hn HH HT WL E) as (_ & Q1).
  assert (E' : T = mmul H V) by (rewrite E, (mmul_assoc n n n n), E1, (mmul_eye_r n n); auto).
  pose proof (ltri_quot n T H V Hn HT HH WV E') as (_ & Q2).
  specialize (Q1 i Hi). specialize (Q2 i Hi). pose proof (proj2 (proj2 HT) i Hi) as P1. pose proof (proj2 (proj2 HH) i Hi) as P2.
  assert (0 < get L i i) by nia. assert (0 < get V i i) by nia. nia.
Qed.

(** ** The adjugate of a triangular matrix *)
Definition blk (n : nat) (M : nat -> nat -> Z) (r : nat -> Z) (d : Z) (i j : nat) : Z :=
  if (i <? n)%nat then (if (j <? n)%nat then M i j else 0) else if (j <? n)%nat then r j else d.
Definition ftri (n : nat) (M : nat -> nat -> Z) : Prop := (forall i j, (i < j < n)%nat -> M i j = 0) /\ forall i, (i < n)%nat -> 0 < M i i.
Fixpoint fprod (n : nat) (M : nat -> nat -> Z) : Z := match n with O => 1 | S k => fprod k M * M k k end.
Definition delta (i j : nat) (c : Z) : Z := if (i =? j)%nat then c else 0.
Lemma fprod_pos n M : ftri n M -> 0 < fprod n M.
Proof. intros (_ & D). induction n as [|n IH]; cbn [fprod]; [lia|]. assert (0 < fprod n M) by (apply IH; intros; apply D; lia). specialize (D n ltac:(lia)). nia. Qed.
Lemma fprod_ext n M N : (forall i, (i < n)%nat -> M i i = N i i) -> fprod n M = fprod n N.
Proof. induction n as [|n IH]; cbn [fprod]; intros H; [reflexivity|]. rewrite IH, H by (intros; try apply H; lia). reflexivity. Qed.
Lemma ftri_S n M : ftri (S n) M -> ftri n M.
Proof. intros (U & D). split; intros; [apply U|apply D]; lia. Qed.
Ltac lt_tac := repeat match goal with |- context [(?a <? ?b)%nat] => destruct (Nat.ltb_spec a b); try lia end.
Ltac sub_tac n := unfold blk; rewrite ?Nat.ltb_irrefl; repeat match goal with H : (?i < n)%nat |- context [(?i <? n)%nat] => rewrite (proj2 (Nat.ltb_lt i n) H) end.
Lemma sumZ_ext n (f g : nat -> Z) : (forall k, (k < n)%nat -> f k = g k) -> sumn n f = sumn n g.
Proof. apply sumn_ext. Qed.
Lemma sumZ_S n (f : nat -> Z) : sumn (S n) f = sumn n f + f n.
Proof. reflexivity. Qed.
Lemma sumZ_scale n c (f : nat -> Z) : sumn n (fun k => c * f k) = c * sumn n f.
Proof. induction n as [|n IH]; [cbn; ring|]. rewrite !sumZ_S, IH. ring. Qed.
Lemma sumZ_scale_r n c (f : nat -> Z) : sumn n (fun k => f k * c) = sumn n f * c.
Proof. induction n as [|n IH]; [reflexivity|]. rewrite !sumZ_S, IH. ring. Qed.
Lemma sumZ_add n (f g : nat -> Z) : sumn n (fun k => f k + g k) = sumn n f + sumn n g.
Proof. induction n as [|n IH]; [reflexivity|]. rewrite !sumZ_S, IH. ring. Qed.
Lemma sumZ_swap n m (f : nat -> nat -> Z) : sumn n (fun i => sumn m (f i)) = sumn m (fun j => sumn n (fun i => f i j)).
Proof. apply sumn_swap. Qed.
(** the product of two such blocks *)
Lemma blk_mul n M r d M' r' d' i j : (i < S n)%nat -> (j < S n)%nat ->
  sumn (S n) (fun k => blk n M r d i k * blk n M' r' d' k j) =
  blk n (fun i j => sumn n (fun k => M i k * M' k j)) (fun j => sumn n (fun k => r k * M' k j) + d * r' j) (d * d') i j.
Proof.
  intros Hi Hj. rewrite sumZ_S. unfold blk at 3. rewrite (sumZ_ext n _ (fun k => (if (i <? n)%nat then M i k else r k) * (if (j <? n)%nat then M' k j else 0))).
  2:{ intros k Hk. sub_tac n. reflexivity. }
  sub_tac n. lt_tac; rewrite ?(sumZ_zero n (fun k => _ * 0)) by (intros; lia); lia.
Qed.
Lemma fadj n : forall M, ftri n M -> exists W,
  (forall i j, (i < n)%nat -> (j < n)%nat -> sumn n (fun k => W i k * M k j) = delta i j (fprod n M)) /\
  (forall i j, (i < n)%nat -> (j < n)%nat -> sumn n (fun k => M i k * W k j) = delta i j (fprod n M)).
Proof.
  induction n as [|n IH]; intros M T; [exists (fun _ _ => 0); split; intros; lia|].
  destruct (IH M (ftri_S n M T)) as (W & L & R). destruct T as (U & D).
  set (z := fun j => - sumn n (fun k => M n k * W k j)).
  exists (blk n (fun i j => M n n * W i j) z (fprod n M)).
  assert (EM : forall i j, (i < S n)%nat -> (j < S n)%nat -> M i j = blk n M (M n) (M n n) i j).
  { intros i j Hi Hj. unfold blk. destruct (Nat.ltb_spec i n), (Nat.ltb_spec j n); auto.
    - apply U; lia.
    - now replace i with n by lia.
    - now replace i with n by lia; replace j with n by lia. }
  cbn [fprod]. split; intros i j Hi Hj.
  - rewrite (sumZ_ext (S n) _ (fun k => blk n (fun i j => M n n * W i j) z (fprod n M) i k * blk n M (M n) (M n n) k j)) by (intros k Hk; rewrite <- EM by lia; reflexivity).
    rewrite blk_mul by lia. unfold blk, delta. destruct (Nat.ltb_spec i n), (Nat.ltb_spec j n).
    + rewrite (sumZ_ext n _ (fun k => M n n * (W i k * M k j))) by (intros; ring). rewrite (sumZ_scale n (M n n) (fun k => W i k * M k j)). rewrite L by lia.
      unfold delta. destruct (Nat.eqb_spec i j); ring.
    + destruct (Nat.eqb_spec i j); lia.
    + destruct (Nat.eqb_spec i j); [lia|]. unfold z.
      rewrite (sumZ_ext n _ (fun k => - 1 * sumn n (fun l => M n l * W l k * M k j))).
      2:{ intros k Hk. rewrite (sumZ_scale_r n (M k j) (fun l => M n l * W l k)). ring. }
      rewrite (sumZ_scale n (- 1) (fun k => sumn n (fun l => M n l * W l k * M k j))). rewrite sumZ_swap.
      rewrite (sumZ_ext n _ (fun l => M n l * delta l j (fprod n M))).
      2:{ intros l Hl. rewrite <- (L l j) by lia. rewrite <- (sumZ_scale n (M n l) (fun k => W l k * M k j)). apply sumZ_ext. intros; cbn [mul Z_ops]; ring. }
      rewrite (sumn_single n j); [|assumption|intros k Hk Hne; unfold delta; destruct (Nat.eqb_spec k j); [lia|cbn [zero Z_ops]; lia]].
      unfold delta. rewrite Nat.eqb_refl. ring.
    + destruct (Nat.eqb_spec i j); [|lia]. ring.
  - rewrite (sumZ_ext (S n) _ (fun k => blk n M (M n) (M n n) i k * blk n (fun i j => M n n * W i j) z (fprod n M) k j)) by (intros k Hk; rewrite <- EM by lia; reflexivity).
    rewrite blk_mul by lia. unfold blk, delta. destruct (Nat.ltb_spec i n), (Nat.ltb_spec j n).
    + rewrite (sumZ_ext n _ (fun k => M n n * (M i k * W k j))) by (intros; ring). rewrite (sumZ_scale n (M n n) (fun k => M i k * W k j)). rewrite R by lia.
      unfold delta. destruct (Nat.eqb_spec i j); ring.
    + destruct (Nat.eqb_spec i j); lia.
    + destruct (Nat.eqb_spec i j); [lia|]. unfold z.
      rewrite (sumZ_ext n _ (fun k => M n n * (M n k * W k j))) by (intros; ring). rewrite (sumZ_scale n (M n n) (fun k => M n k * W k j)). ring.
    + destruct (Nat.eqb_spec i j); [|lia]. ring.
Qed.

(** ** Factors *)
Lemma fsplit N : forall H m n, ftri N H -> 0 < m -> 0 < n -> fprod N H = m * n ->
  exists A B, ftri N A /\ ftri N B /\ fprod N A = m /\ fprod N B = n /\
    forall i j, (i < N)%nat -> (j < N)%nat -> sumn N (fun k => A i k * B k j) = H i j.
Proof.
  induction N as [|N IH]; intros H m n T Hm Hn E.
  { cbn [fprod] in E. assert (m = 1) by nia. assert (n = 1) by nia. subst. exists (fun _ _ => 0), (fun _ _ => 0). repeat split; intros; lia. }
  cbn [fprod] in E. pose proof (proj2 T N ltac:(lia)) as Ph. pose proof (fprod_pos N H (ftri_S N H T)) as Pp.
  set (h := H N N) in *. set (b := Z.gcd n h).
  destruct (Z.gcd_divide_l n h) as [n' En]. destruct (Z.gcd_divide_r n h) as [a Ea]. fold b in En, Ea.
  assert (Pb : 0 < b) by (pose proof (Z.gcd_nonneg n h); unfold b; destruct (Z.eq_dec (Z.gcd n h) 0) as [G|]; [apply Z.gcd_eq_0_l in G|]; lia).
  assert (Pa : 0 < a) by nia. assert (Pn : 0 < n') by nia.
  assert (G1 : Z.gcd n' a = 1).
  { assert (G : b = b * Z.gcd n' a) by (unfold b at 1; rewrite En, Ea, (Z.mul_comm n'), (Z.mul_comm a), Z.gcd_mul_mono_l_nonneg by lia; reflexivity). nia. }
  (* a divides m *)
  assert (E' : fprod N H * a = m * n').
  { assert (b * (fprod N H * a) = b * (m * n')) by (transitivity (fprod N H * h); [rewrite Ea; ring|rewrite E, En; ring]). nia. }
  assert (Da : (a | m)) by (apply (Z.gauss a n' m); [exists (fprod N H); rewrite E'; ring|now rewrite Z.gcd_comm]).
  destruct Da as [m' Em]. assert (Pm : 0 < m') by nia.
  destruct (IH H m' n' (ftri_S N H T) Pm Pn) as (A & B & TA & TB & EA & EB & M); [nia|].
  destruct (fadj N B TB) as (W & WL & _). rewrite EB in WL.
  destruct (Z.gcd_bezout n' a 1 G1) as (t & s & BZ).
  set (y := fun j => s * H N j). set (x := fun k => t * sumn N (fun l => H N l * W l k)).
  exists (blk N A x a), (blk N B y b).
  assert (FT : forall M r d, ftri N M -> 0 < d -> ftri (S N) (blk N M r d)).
  { intros M0 r d (U0 & D0) Pd. split; intros.
    - unfold blk. lt_tac; auto. apply U0; lia.
    - unfold blk. lt_tac; auto. }
  assert (FP : forall M r d, fprod (S N) (blk N M r d) = fprod N M * d).
  { intros M0 r d. cbn [fprod]. rewrite (fprod_ext N _ M0) by (intros i Hi; sub_tac N; reflexivity). sub_tac N. reflexivity. }
  split; [now apply FT|]. split; [now apply FT|]. rewrite !FP, EA, EB. split; [nia|]. split; [nia|].
  intros i j Hi Hj. rewrite blk_mul by lia. unfold blk. destruct (Nat.ltb_spec i N), (Nat.ltb_spec j N).
  - now apply M.
  - symmetry. apply T; lia.
  - replace i with N by lia. unfold x, y.
    rewrite (sumZ_ext N _ (fun k => t * sumn N (fun l => H N l * W l k * B k j))).
    2:{ intros k Hk. rewrite (sumZ_scale_r N (B k j) (fun l => H N l * W l k)). ring. }
    rewrite (sumZ_scale N t (fun k => sumn N (fun l => H N l * W l k * B k j))). rewrite sumZ_swap.
    rewrite (sumZ_ext N _ (fun l => H N l * delta l j n')).
    2:{ intros l Hl. rewrite <- (WL l j) by lia. rewrite <- (sumZ_scale N (H N l) (fun k => W l k * B k j)). apply sumZ_ext. intros; cbn [mul Z_ops]; ring. }
    rewrite (sumn_single N j); [|assumption|intros k Hk Hne; unfold delta; destruct (Nat.eqb_spec k j); [lia|cbn [zero Z_ops]; lia]].
    unfold delta. rewrite Nat.eqb_refl. transitivity (H N j * (t * n' + s * a)); [ring|rewrite BZ; ring].
  - replace i with N by lia. replace j with N by lia. fold h. lia.
Qed.

(** ** The same for matrices *)
Lemma ltri_f n M : ltri n M -> ftri n (get M).
Proof. now intros (_ & U & D). Qed.
Lemma f_ltri n F : ftri n F -> ltri n (mk n n F) /\ diag_prod n (mk n n F) = fprod n F.
Proof.
  intros (U & D). split.
  - split; [apply wf_mk|]. split; intros; rewrite get_mk by lia; [apply U|apply D]; lia.
  - assert (G : forall k, (k <= n)%nat -> diag_prod k (mk n n F) = fprod k F); [|now apply G].
    induction k as [|k IH]; cbn [diag_prod fprod]; intros Hk; [reflexivity|]. rewrite IH, get_mk by lia. reflexivity.
Qed.
Lemma diag_fprod n M : diag_prod n M = fprod n (get M).
Proof. induction n as [|n IH]; cbn [diag_prod fprod]; congruence. Qed.
Lemma ltri_split N H m n : (0 < N)%nat -> ltri N H -> 0 < m -> 0 < n -> diag_prod N H = m * n ->
  exists A B, ltri N A /\ ltri N B /\ diag_prod N A = m /\ diag_prod N B = n /\ mmul A B = H.
Proof.
  intros HN T Hm Hn E. rewrite diag_fprod in E. destruct (fsplit N (get H) m n (ltri_f N H T) Hm Hn E) as (A & B & TA & TB & EA & EB & M).
  destruct (f_ltri N A TA) as (LA & PA). destruct (f_ltri N B TB) as (LB & PB).
  exists (mk N N A), (mk N N B). split; [exact LA|]. split; [exact LB|]. split; [congruence|]. split; [congruence|].
  apply (mat_ext N N); [apply (wf_mmul N N N); auto using wf_mk|apply T|]. intros i j Hi Hj. rewrite (get_mmul N N N) by auto using wf_mk.
  rewrite <- (M i j Hi Hj). apply sumZ_ext. intros k Hk. rewrite !get_mk by lia. reflexivity.
Qed.
Definition scal (N : nat) (c : Z) : mat Z := mk N N (fun i j => delta i j c).
Lemma wf_scal N c : wf N N (scal N c).
Proof. apply wf_mk. Qed.
Lemma get_scal_l N c M i j : wf N N M -> (i < N)%nat -> (j < N)%nat -> get (mmul (scal N c) M) i j = c * get M i j.
Proof.
  intros W Hi Hj. rewrite (get_mmul N N N) by (auto using wf_scal; lia). rewrite (sumn_single N i); auto; unfold scal.
  - rewrite get_mk by lia. unfold delta. now rewrite Nat.eqb_refl.
  - intros k Hk Hne. rewrite get_mk by lia. unfold delta. destruct (Nat.eqb_spec i k); [lia|reflexivity].
Qed.
Lemma get_scal_r N c M i j : wf N N M -> (i < N)%nat -> (j < N)%nat -> get (mmul M (scal N c)) i j = c * get M i j.
Proof.
  intros W Hi Hj. rewrite (get_mmul N N N) by (auto using wf_scal; lia). rewrite (sumn_single N j); auto; unfold scal; cbn [mul zero Z_ops].
  - rewrite get_mk by lia. unfold delta. rewrite Nat.eqb_refl. ring.
  - intros k Hk Hne. rewrite get_mk by lia. unfold delta. destruct (Nat.eqb_spec k j); [lia|ring].
Qed.
Lemma ltri_adj N M : (0 < N)%nat -> ltri N M -> exists W, wf N N W /\ mmul W M = scal N (diag_prod N M) /\ mmul M W = scal N (diag_prod N M).
Proof.
  intros HN T. destruct (fadj N (get M) (ltri_f N M T)) as (W & L & R). rewrite <- diag_fprod in L, R. pose proof T as (WM & _).
  exists (mk N N W). split; [apply wf_mk|]. unfold scal. split; apply (mat_ext N N); auto using wf_mk; try (now apply (wf_mmul N N N); auto using wf_mk); intros i j Hi Hj;
    rewrite (get_mmul N N N), get_mk by auto using wf_mk; [rewrite <- (L i j Hi Hj)|rewrite <- (R i j Hi Hj)]; apply sumZ_ext; intros k Hk; rewrite get_mk by lia; reflexivity.
Qed.

(** ** Hermite normal forms of triangular matrices *)
Lemma ltri_hnf N T : (0 < N)%nat -> ltri N T -> exists H L, hnfd py3 T = Ok (H, L) /\ is_hnf N H /\ requiv N T H /\ diag_prod N H = diag_prod N T.
Proof.
  intros HN HT. destruct (hnfd_py3 N T HN (ltri_full_rank N T HN HT)) as [H [L [E [I [_ [_ R]]]]]].
  exists H, L. split; [exact E|]. split; [exact I|]. split; [exact R|]. symmetry. apply requiv_diag; auto using hnf_ltri.
Qed.
Lemma requiv_l N M A B : (0 < N)%nat -> wf N N M -> requiv N A B -> requiv N (mmul M A) (mmul M B).
Proof.
  intros HN WM (WA & L & V & WL & WV & E1 & E2 & E). split; [now apply (wf_mmul N N N)|]. exists L, V. repeat (split; [assumption|]). rewrite E. now rewrite (mmul_assoc N N N N) by auto.
Qed.
Lemma chain_split N H m n : (0 < N)%nat -> is_hnf N H -> 0 < m -> 0 < n -> diag_prod N H = m * n ->
  exists H1 H2 L, is_hnf N H1 /\ diag_prod N H1 = m /\ is_hnf N H2 /\ diag_prod N H2 = n /\ hnfd py3 (mmul H1 H2) = Ok (H, L).
Proof.
  intros HN HH Hm Hn D. destruct (ltri_split N H m n HN (hnf_ltri N H HH) Hm Hn D) as (A & B & TA & TB & DA & DB & E).
  destruct (ltri_hnf N A HN TA) as (H1 & _ & _ & I1 & R1 & D1). apply requiv_sym in R1; [|exact HN]. destruct R1 as (W1 & U & V & WU & WV & E1 & E2 & EA).
  pose proof TB as (WB & _). assert (WC : wf N N (mmul U B)) by now apply (wf_mmul N N N).
  assert (EC : H = mmul H1 (mmul U B)) by (rewrite <- E, EA; now rewrite (mmul_assoc N N N N) by auto).
  pose proof (hnf_ltri N H HH) as TH. pose proof (hnf_ltri N H1 I1) as T1.
  destruct (ltri_quot N H H1 (mmul U B) HN TH T1 WC EC) as (UC & DC).
  assert (TC : ltri N (mmul U B)).
  { split; [exact WC|]. split; [exact UC|]. intros i Hi. specialize (DC i Hi). pose proof (proj2 (proj2 TH) i Hi). pose proof (proj2 (proj2 T1) i Hi). nia. }
  destruct (ltri_hnf N _ HN TC) as (H2 & _ & _ & I2 & R2 & D2).
  assert (DP : diag_prod N (mmul U B) = n).
  { pose proof (diag_mmul N H1 (mmul U B) N HN T1 TC (le_n N)) as X. rewrite <- EC, D, D1, DA in X. nia. }
  pose proof (requiv_l N H1 _ _ HN W1 R2) as R3. rewrite <- EC in R3. pose proof (hnf_ltri N H2 I2) as T2.
  destruct (ltri_hnf N (mmul H1 H2) HN (proj1 (ltri_mmul N H1 H2 HN T1 T2))) as (H' & L & EL & I' & R' & _).
  assert (X : H = H') by (apply (hnf_unique N); auto; now apply (requiv_trans N H (mmul H1 H2))). subst H'.
  exists H1, H2, L. split; [exact I1|]. split; [congruence|]. split; [exact I2|]. split; [congruence|exact EL].
Qed.
Lemma chain_compose N H1 H2 : (0 < N)%nat -> is_hnf N H1 -> is_hnf N H2 ->
  exists H L, hnfd py3 (mmul H1 H2) = Ok (H, L) /\ is_hnf N H /\ diag_prod N H = diag_prod N H1 * diag_prod N H2 /\ requiv N (mmul H1 H2) H.
Proof.
  intros HN I1 I2. pose proof (hnf_ltri N H1 I1) as T1. pose proof (hnf_ltri N H2 I2) as T2.
  destruct (ltri_hnf N (mmul H1 H2) HN (proj1 (ltri_mmul N H1 H2 HN T1 T2))) as (H & L & E & I & R & D). exists H, L. split; [exact E|]. split; [exact I|]. split; [|exact R].
  rewrite D. now apply (diag_mmul N).
Qed.

(** ** Coprime sizes *)
Lemma chain_divides N H1 H2 H1' H2' : (0 < N)%nat -> is_hnf N H1 -> is_hnf N H2 -> is_hnf N H1' -> is_hnf N H2' ->
  diag_prod N H1' = diag_prod N H1 -> Z.gcd (diag_prod N H1) (diag_prod N H2) = 1 ->
  requiv N (mmul H1' H2') (mmul H1 H2) -> exists X, wf N N X /\ H1 = mmul H1' X.
Proof.
  intros HN I1 I2 I1' I2' D G (_ & U & V & WU & WV & _ & _ & E).
  pose proof (hnf_ltri N _ I1) as T1. pose proof (hnf_ltri N _ I2) as T2. pose proof (hnf_ltri N _ I1') as T1'.
  pose proof (proj1 I1) as W1. pose proof (proj1 I2) as W2. pose proof (proj1 I1') as W1'. pose proof (proj1 I2') as W2'.
  destruct (ltri_adj N H2 HN T2) as (A & WA & _ & EA). destruct (ltri_adj N H1' HN T1') as (B & WB & _ & EB). rewrite D in EB.
  set (m := diag_prod N H1) in *. set (n := diag_prod N H2) in *. destruct (Z.gcd_bezout m n 1 G) as (s & t & BZ).
  set (P := mmul (mmul H2' U) A). set (Q := mmul B H1).
  assert (WHU : wf N N (mmul H2' U)) by now apply (wf_mmul N N N). assert (WP : wf N N P) by now apply (wf_mmul N N N). assert (WQ : wf N N Q) by now apply (wf_mmul N N N).
  assert (EP : mmul H1' P = mmul H1 (scal N n)).
  { unfold P. rewrite <- (mmul_assoc N N N N H1' (mmul H2' U) A) by auto. rewrite <- (mmul_assoc N N N N H1' H2' U) by auto. rewrite <- E.
    rewrite (mmul_assoc N N N N H1 H2 A) by auto. now rewrite EA. }
  assert (EQ : mmul H1' Q = mmul (scal N m) H1) by (unfold Q; rewrite <- (mmul_assoc N N N N) by auto; now rewrite EB).
  exists (mk N N (fun i j => t * get P i j + s * get Q i j)). split; [apply wf_mk|].
  apply (mat_ext N N); auto; [apply (wf_mmul N N N); auto using wf_mk|]. intros i j Hi Hj. rewrite (get_mmul N N N) by auto using wf_mk.
  rewrite (sumZ_ext N _ (fun k => t * (get H1' i k * get P k j) + s * (get H1' i k * get Q k j))) by (intros k Hk; rewrite get_mk by lia; cbn [mul Z_ops]; ring).
  rewrite sumZ_add, !sumZ_scale.
  pose proof (f_equal (fun X => get X i j) EP) as FP. pose proof (f_equal (fun X => get X i j) EQ) as FQ. cbn beta in FP, FQ.
  rewrite get_scal_r in FP by auto. rewrite get_scal_l in FQ by auto. rewrite (get_mmul N N N) in FP, FQ by auto. cbn [mul Z_ops] in FP, FQ. rewrite FP, FQ.
  transitivity ((s * m + t * n) * get H1 i j); [rewrite BZ; ring|ring].
Qed.
Lemma chain_unique N H1 H2 H1' H2' : (0 < N)%nat -> is_hnf N H1 -> is_hnf N H2 -> is_hnf N H1' -> is_hnf N H2' ->
  diag_prod N H1' = diag_prod N H1 -> diag_prod N H2' = diag_prod N H2 -> Z.gcd (diag_prod N H1) (diag_prod N H2) = 1 ->
  requiv N (mmul H1' H2') (mmul H1 H2) -> H1' = H1 /\ H2' = H2.
Proof.
  intros HN I1 I2 I1' I2' D1 D2 G R. pose proof (proj1 I1) as W1. pose proof (proj1 I2) as W2. pose proof (proj1 I1') as W1'. pose proof (proj1 I2') as W2'.
  destruct (chain_divides N H1 H2 H1' H2' HN I1 I2 I1' I2' D1 G R) as (X & WX & EX).
  destruct (chain_divides N H1' H2' H1 H2 HN I1' I2' I1 I2 (eq_sym D1)) as (Y & WY & EY); [congruence|now apply requiv_sym|].
  assert (E1 : H1' = H1).
  { apply (hnf_unique N); auto. split; [exact W1'|]. exists X, Y. split; [exact WX|]. split; [exact WY|]. split; [|split; [|exact EX]].
    - apply (mmul_hnf_inj N H1'); auto; [now apply (wf_mmul N N N)|]. now rewrite <- (mmul_assoc N N N N), <- EX by auto.
    - apply (mmul_hnf_inj N H1); auto; [now apply (wf_mmul N N N)|]. now rewrite <- (mmul_assoc N N N N), <- EY by auto. }
  split; [exact E1|]. subst H1'. apply (hnf_unique N); auto. destruct R as (_ & U & V & WU & WV & F1 & F2 & E). split; [exact W2'|]. exists U, V. repeat (split; [assumption|]).
  destruct (ltri_adj N H1 HN (hnf_ltri N H1 I1)) as (B & WB & EB & _).
  assert (P : 0 < diag_prod N H1) by (apply (diag_pos N); [now apply hnf_ltri|lia]).
  assert (WU' : wf N N (mmul H2' U)) by now apply (wf_mmul N N N).
  apply (mat_ext N N); auto. intros i j Hi Hj. rewrite (mmul_assoc N N N N) in E by auto.
  assert (E0 : mmul B (mmul H1 H2) = mmul B (mmul H1 (mmul H2' U))) by congruence. rewrite <- (mmul_assoc N N N N B H1 H2), <- (mmul_assoc N N N N B H1 (mmul H2' U)), EB in E0 by auto.
  apply (f_equal (fun X => get X i j)) in E0. rewrite !get_scal_l in E0 by auto. nia.
Qed.
