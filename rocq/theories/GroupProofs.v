From Verif Require Import RMat Hom Lagrange HnfModel HnfEnum ReduceModel ReduceProofs GroupModel GroupSpec.
From Coq Require Import Ring.

(** ** The ring Z[sqrt 3], with decidable equality *)
Definition S3 : Type := (Z * Z)%type.
#[export] Instance S3_ops : Ops S3 := {|
  zero := (0, 0)%Z; one := (1, 0)%Z;
  add := fun x y => (fst x + fst y, snd x + snd y)%Z;
  mul := fun x y => (fst x * fst y + 3 * (snd x * snd y), fst x * snd y + snd x * fst y)%Z;
  sub := fun x y => (fst x - fst y, snd x - snd y)%Z;
  opp := fun x => (- fst x, - snd x)%Z |}.
#[export] Instance S3_laws : RingLaws S3.
Proof.
  constructor; intros; repeat match goal with x : S3 |- _ => destruct x end;
    unfold add, mul, sub, opp, zero, one; cbn -[Z.mul Z.add Z.sub]; f_equal; ring.
Qed.
Definition s3_dec : forall x y : S3, {x = y} + {x <> y}.
Proof. decide equality; apply Z.eq_dec. Defined.
Definition ms3_dec : forall M N : mat S3, {M = N} + {M <> N}.
Proof. apply list_eq_dec, list_eq_dec, s3_dec. Defined.

Local Open Scope R_scope.
(** twice the number denoted *)
Definition phi (x : S3) : R := IZR (fst x) + IZR (snd x) * sqrt 3.
Definition phi2 (x : S3) : R := phi x / 2.

Lemma s33 : sqrt 3 * sqrt 3 = 3.
Proof. apply sqrt_sqrt. lra. Qed.
Lemma phi_add x y : phi (add x y) = add (phi x) (phi y).
Proof. unfold phi. cbn -[IZR]. rewrite !plus_IZR. ring. Qed.
Lemma phi_mul x y : phi (mul x y) = mul (phi x) (phi y).
Proof.
  unfold phi. cbn -[IZR Z.mul]. rewrite !plus_IZR, !mult_IZR.
  transitivity (IZR (fst x) * IZR (fst y) + IZR (snd x) * IZR (snd y) * (sqrt 3 * sqrt 3) +
    (IZR (fst x) * IZR (snd y) + IZR (snd x) * IZR (fst y)) * sqrt 3); [rewrite s33|]; ring.
Qed.
Lemma phi_zero : phi zero = zero.
Proof. unfold phi. cbn. ring. Qed.
Lemma phi2_zero : phi2 zero = zero.
Proof. unfold phi2. rewrite phi_zero. cbn. field. Qed.

(** entries 0, +-1, +-C1, +-S1 doubled *)
Definition z : S3 := (0, 0)%Z.
Definition p1 : S3 := (2, 0)%Z.   Definition m1 : S3 := (-2, 0)%Z.
Definition pC : S3 := (1, 0)%Z.   Definition mC : S3 := (-1, 0)%Z.
Definition pS : S3 := (0, 1)%Z.   Definition mS : S3 := (0, -1)%Z.

Definition hex3 : list (mat S3) := [
  [[p1; z; z]; [z; p1; z]; [z; z; p1]];
  [[p1; z; z]; [z; m1; z]; [z; z; m1]];
  [[m1; z; z]; [z; p1; z]; [z; z; m1]];
  [[m1; z; z]; [z; m1; z]; [z; z; p1]];
  [[pC; mS; z]; [pS; pC; z]; [z; z; p1]];
  [[pC; pS; z]; [mS; pC; z]; [z; z; p1]];
  [[mC; mS; z]; [pS; mC; z]; [z; z; p1]];
  [[mC; pS; z]; [mS; mC; z]; [z; z; p1]];
  [[pC; mS; z]; [mS; mC; z]; [z; z; m1]];
  [[pC; pS; z]; [pS; mC; z]; [z; z; m1]];
  [[mC; mS; z]; [mS; pC; z]; [z; z; m1]];
  [[mC; pS; z]; [pS; pC; z]; [z; z; m1]]
].
Definition hex2 : list (mat S3) := [
  [[p1; z]; [z; p1]];
  [[pC; mS]; [pS; pC]];
  [[mC; mS]; [pS; mC]];
  [[m1; z]; [z; m1]];
  [[pC; pS]; [mS; pC]];
  [[mC; pS]; [mS; mC]];
  [[p1; z]; [z; m1]];
  [[pC; mS]; [mS; mC]];
  [[pC; pS]; [pS; mC]];
  [[m1; z]; [z; p1]];
  [[mC; mS]; [mS; pC]];
  [[mC; pS]; [pS; pC]]
].

Lemma phi2_vals : phi2 z = 0 /\ phi2 p1 = 1 /\ phi2 m1 = -1 /\
  phi2 pC = C1 /\ phi2 mC = - C1 /\ phi2 pS = S1 /\ phi2 mS = - S1.
Proof.
  unfold phi2, phi, C1, S1. rewrite cos_PI3, sin_PI3. cbn -[IZR]. repeat split; lra.
Qed.

Ltac use_vals :=
  pose proof phi2_vals as [V1 [V2 [V3' [V4 [V5 [V6 V7]]]]]];
  unfold mmap; cbn [map firstn]; rewrite ?V1, ?V2, ?V3', ?V4, ?V5, ?V6, ?V7.

Lemma hex3_eq : HEX_LAUE_GROUP = map (mmap phi2) hex3.
Proof. unfold HEX_LAUE_GROUP, hex3. use_vals. reflexivity. Qed.
Lemma hex2_eq : HEX2D_EXT_GROUP = map (mmap phi2) hex2.
Proof. unfold HEX2D_EXT_GROUP, hex2. use_vals. reflexivity. Qed.
Lemma hex2r_eq : HEX2D_GROUP = map (mmap phi2) (firstn 6 hex2).
Proof. unfold HEX2D_GROUP. now rewrite hex2_eq, firstn_map. Qed.

Lemma quarter a b : a / 2 * (b / 2) = 1 / 4 * (a * b).
Proof. field. Qed.
Lemma quarter2 t a : t = 2 -> 1 / 4 * (t * a) = a / 2.
Proof. intros ->. field. Qed.

(** If twice P is the product in Z[sqrt 3], then P denotes the product. *)
Lemma phi2_mmul M N P n : mmul M N = mmap (mul (2, 0)%Z) P -> (0 < n)%nat -> wf n n M -> wf n n N -> wf n n P ->
  mmul (mmap phi2 M) (mmap phi2 N) = mmap phi2 P.
Proof.
  intros E Hn HM HN HP.
  assert (W1 : wf n n (mmap phi2 M)) by now apply wf_mmap.
  assert (W2 : wf n n (mmap phi2 N)) by now apply wf_mmap.
  apply (mat_ext n n); [now apply (wf_mmul n n n)|now apply wf_mmap|].
  intros i j Hi Hj. rewrite (get_mmul n n n) by assumption.
  rewrite (get_mmap phi2 phi2_zero).
  assert (Eij : get (mmul M N) i j = mul (2, 0)%Z (get P i j)).
  { rewrite E. apply (get_mmap (mul (2,0)%Z)). reflexivity. }
  rewrite (get_mmul n n n) in Eij by assumption.
  apply (f_equal phi) in Eij. rewrite phi_mul in Eij.
  rewrite (f_sumn phi phi_zero phi_add) in Eij.
  rewrite (sumn_ext n _ (fun k => mul (1/4) (phi (mul (get M i k) (get N k j))))).
  2:{ intros k Hk. rewrite !(get_mmap phi2 phi2_zero). unfold phi2. rewrite phi_mul.
      cbn [mul R_ops]. apply quarter. }
  rewrite sumn_scale, Eij. unfold phi2. cbn [mul R_ops]. apply quarter2. unfold phi. cbn. ring.
Qed.

Definition eye2 (n : nat) : mat S3 := mmap (mul (2, 0)%Z) (eye n).
Lemma phi2_eye n : mmap phi2 (eye2 n) = eye n.
Proof.
  unfold eye2, eye. rewrite !mmap_mk. apply mk_ext. intros i j _ _.
  destruct (i =? j)%nat; unfold phi2, phi; cbn; field.
Qed.

Definition dbl (M : mat S3) : mat S3 := mmap (mul (2, 0)%Z) M.
Definition mdecb (M N : mat S3) : bool := if ms3_dec M N then true else false.
Lemma mdecb_eq M N : mdecb M N = true -> M = N.
Proof. unfold mdecb. now destruct (ms3_dec M N). Qed.

(** all decidable facts about a table of doubled matrices *)
Definition far (x y : S3) : bool :=
  negb ((fst x - fst y) * (fst x - fst y) =? 3 * ((snd x - snd y) * (snd x - snd y)))%Z.
Definition mfar n (M N : mat S3) : bool :=
  existsb (fun i => existsb (fun j => far (get M i j) (get N i j)) (seq 0 n)) (seq 0 n).
Fixpoint allfar n (T : list (mat S3)) : bool :=
  match T with [] => true | M :: T' => forallb (mfar n M) T' && allfar n T' end.
Definition table_ok (n : nat) (T : list (mat S3)) : bool :=
  forallb (fun M => wfb n n M) T &&
  existsb (mdecb (eye2 n)) T &&
  forallb (fun M => forallb (fun N => existsb (fun P => mdecb (mmul M N) (dbl P)) T) T) T &&
  forallb (fun M => existsb (mdecb (tr M)) T && mdecb (mmul M (tr M)) (dbl (eye2 n))
                    && mdecb (mmul (tr M) M) (dbl (eye2 n))) T &&
  allfar n T.

Lemma far_neq x y : far x y = true -> phi2 x <> phi2 y.
Proof.
  unfold far, phi2, phi. intros H E. apply negb_true_iff, Z.eqb_neq in H. apply H.
  apply eq_IZR. rewrite !mult_IZR, !minus_IZR.
  assert (D : IZR (fst x) - IZR (fst y) = (IZR (snd y) - IZR (snd x)) * sqrt 3) by lra.
  rewrite D. transitivity ((IZR (snd y) - IZR (snd x)) * (IZR (snd y) - IZR (snd x)) * (sqrt 3 * sqrt 3)); [ring|].
  rewrite s33. ring.
Qed.

Lemma mfar_neq n M N : mfar n M N = true -> mmap phi2 M <> mmap phi2 N.
Proof.
  unfold mfar. intros H E. apply existsb_exists in H. destruct H as [i [_ H]].
  apply existsb_exists in H. destruct H as [j [_ H]]. apply (far_neq _ _ H).
  now rewrite <- !(get_mmap phi2 phi2_zero), E.
Qed.

Lemma allfar_NoDup n T : allfar n T = true -> NoDup (map (mmap phi2) T).
Proof.
  induction T as [|M T IH]; cbn; constructor; apply andb_true_iff in H; destruct H as [H1 H2].
  - intros Hin. apply in_map_iff in Hin. destruct Hin as [N [E HN]].
    rewrite forallb_forall in H1. apply (mfar_neq n M N); auto.
  - auto.
Qed.

Lemma table_group n T : (0 < n)%nat -> table_ok n T = true ->
  is_group n (map (mmap phi2) T) /\
  (forall Q, In Q (map (mmap phi2) T) -> orthogonal n Q /\ In (tr Q) (map (mmap phi2) T) /\ mmul (tr Q) Q = eye n).
Proof.
  intros Hn H. unfold table_ok in H.
  apply andb_true_iff in H. destruct H as [H Hfar].
  apply andb_true_iff in H. destruct H as [H Htr].
  apply andb_true_iff in H. destruct H as [H Hcl].
  apply andb_true_iff in H. destruct H as [Hwf Hid].
  rewrite forallb_forall in Hwf, Hcl, Htr.
  assert (W : forall M, In M T -> wf n n M) by (intros M HM; apply wfb_spec; auto).
  assert (WE : wf n n (eye2 n)) by (unfold eye2, eye; rewrite mmap_mk; apply wf_mk).
  assert (HTR : forall M, In M T -> In (tr M) T /\ mmul (mmap phi2 M) (mmap phi2 (tr M)) = eye n
                          /\ mmul (mmap phi2 (tr M)) (mmap phi2 M) = eye n).
  { intros M HM. specialize (Htr M HM). apply andb_true_iff in Htr. destruct Htr as [Htr H3].
    apply andb_true_iff in Htr. destruct Htr as [H1 H2].
    apply existsb_exists in H1. destruct H1 as [N [HN E1]]. apply mdecb_eq in E1. subst N.
    apply mdecb_eq in H2. apply mdecb_eq in H3.
    split; [assumption|]. split; rewrite <- phi2_eye; apply (phi2_mmul _ _ _ n); auto. }
  assert (TRm : forall M, tr (mmap phi2 M) = mmap phi2 (tr M)).
  { intros M. symmetry. apply mmap_tr. exact phi2_zero. }
  split.
  - split; [|split; [|split; [|split]]].
    + intros g Hg. apply in_map_iff in Hg. destruct Hg as [M [<- HM]]. apply wf_mmap; auto.
    + now apply (allfar_NoDup n).
    + apply existsb_exists in Hid. destruct Hid as [M [HM E]]. apply mdecb_eq in E.
      rewrite <- phi2_eye, E. now apply in_map.
    + intros g h Hg Hh. apply in_map_iff in Hg, Hh. destruct Hg as [M [<- HM]], Hh as [N [<- HN]].
      specialize (Hcl M HM). rewrite forallb_forall in Hcl. specialize (Hcl N HN).
      apply existsb_exists in Hcl. destruct Hcl as [P [HP E]]. apply mdecb_eq in E.
      rewrite (phi2_mmul M N P n) by auto. now apply in_map.
    + intros g Hg. apply in_map_iff in Hg. destruct Hg as [M [<- HM]].
      destruct (HTR M HM) as [H1 [H2 H3]]. exists (mmap phi2 (tr M)).
      split; [now apply in_map|]. auto.
  - intros Q HQ. apply in_map_iff in HQ. destruct HQ as [M [<- HM]].
    destruct (HTR M HM) as [H1 [H2 H3]]. rewrite TRm. split; [|split; [now apply in_map|assumption]].
    split; [apply wf_mmap; auto|]. now rewrite TRm.
Qed.

Lemma hex3_ok : table_ok 3 hex3 = true.
Proof. vm_compute. reflexivity. Qed.
Lemma hex2_ok : table_ok 2 hex2 = true.
Proof. vm_compute. reflexivity. Qed.
Lemma hex2r_ok : table_ok 2 (firstn 6 hex2) = true.
Proof. vm_compute. reflexivity. Qed.

Definition good_table (n : nat) (G : list (mat R)) : Prop :=
  is_group n G /\
  (forall Q, In Q G -> orthogonal n Q /\ In (tr Q) G /\ mmul (tr Q) Q = eye n).

Lemma HEX_group : good_table 3 HEX_LAUE_GROUP.
Proof. rewrite hex3_eq. apply table_group; [lia|apply hex3_ok]. Qed.
Lemma HEX2D_EXT_good : good_table 2 HEX2D_EXT_GROUP.
Proof. rewrite hex2_eq. apply table_group; [lia|apply hex2_ok]. Qed.
Lemma HEX2D_good : good_table 2 HEX2D_GROUP.
Proof. rewrite hex2r_eq. apply table_group; [lia|apply hex2r_ok]. Qed.

Lemma C1S1 : C1 * C1 + S1 * S1 = 1 /\ C1 = 1/2 /\ S1 = sqrt 3 / 2.
Proof. unfold C1, S1. rewrite cos_PI3, sin_PI3. pose proof s33. nra. Qed.

Ltac each_in H := repeat (destruct H as [H|H]; [subst|]); [..|destruct H].

Lemma HEX_det : forall Q, In Q HEX_LAUE_GROUP -> det Q = 1.
Proof.
  destruct C1S1 as [HC _]. intros Q HQ. unfold HEX_LAUE_GROUP in HQ. each_in HQ; mat_unfold_goal; lra.
Qed.
Lemma HEX2D_det : forall Q, In Q HEX2D_GROUP -> det Q = 1.
Proof.
  destruct C1S1 as [HC _]. intros Q HQ. unfold HEX2D_GROUP, HEX2D_EXT_GROUP in HQ. cbn [firstn] in HQ.
  each_in HQ; mat_unfold_goal; lra.
Qed.

(** ** Integer tables *)
Local Open Scope Z_scope.

Lemma unit3 a b c : a * a + b * b + c * c = 1 ->
  In [a; b; c] [[1;0;0]; [-1;0;0]; [0;1;0]; [0;-1;0]; [0;0;1]; [0;0;-1]].
Proof.
  intros H. assert (-1 <= a <= 1 /\ -1 <= b <= 1 /\ -1 <= c <= 1) as [Ha [Hb Hc]] by (repeat split; nia).
  assert (a = -1 \/ a = 0 \/ a = 1) as [->|[->| ->]] by lia;
  assert (b = -1 \/ b = 0 \/ b = 1) as [->|[->| ->]] by lia;
  assert (c = -1 \/ c = 0 \/ c = 1) as [->|[->| ->]] by lia; cbn in H; try lia; cbn; tauto.
Qed.
Lemma unit2 a b : a * a + b * b = 1 -> In [a; b] [[1;0]; [-1;0]; [0;1]; [0;-1]].
Proof.
  intros H. assert (-1 <= a <= 1 /\ -1 <= b <= 1) as [Ha Hb] by (split; nia).
  assert (a = -1 \/ a = 0 \/ a = 1) as [->|[->| ->]] by lia;
  assert (b = -1 \/ b = 0 \/ b = 1) as [->|[->| ->]] by lia; cbn in H; try lia; cbn; tauto.
Qed.

Definition rows3 := [[1;0;0]; [-1;0;0]; [0;1;0]; [0;-1;0]; [0;0;1]; [0;0;-1]].
Definition rows2 := [[1;0]; [-1;0]; [0;1]; [0;-1]].

Lemma cubic_check : forallb (fun r1 => forallb (fun r2 => forallb (fun r3 =>
    let Q := [r1; r2; r3] in
    Bool.eqb (mat_eqb (mmul Q (tr Q)) (eye 3) && (det Q =? 1)) (mem_mat Q CUBIC_LAUE_GROUP))
  rows3) rows3) rows3 = true.
Proof. vm_compute. reflexivity. Qed.
Lemma square_check : forallb (fun r1 => forallb (fun r2 =>
    let Q := [r1; r2] in
    Bool.eqb (mat_eqb (mmul Q (tr Q)) (eye 2)) (mem_mat Q SQUARE_EXT_GROUP) &&
    Bool.eqb (mat_eqb (mmul Q (tr Q)) (eye 2) && (det Q =? 1)) (mem_mat Q SQUARE_GROUP))
  rows2) rows2 = true.
Proof. vm_compute. reflexivity. Qed.

Lemma wf_rows_cubic Q : In Q CUBIC_LAUE_GROUP -> exists r1 r2 r3, Q = [r1; r2; r3] /\ In r1 rows3 /\ In r2 rows3 /\ In r3 rows3.
Proof.
  intros H. unfold CUBIC_LAUE_GROUP in H. each_in H; do 3 eexists; (split; [reflexivity|]);
    unfold rows3; cbn; tauto.
Qed.
Lemma wf_rows_square Q : In Q SQUARE_EXT_GROUP -> exists r1 r2, Q = [r1; r2] /\ In r1 rows2 /\ In r2 rows2.
Proof.
  intros H. unfold SQUARE_EXT_GROUP in H. each_in H; do 2 eexists; (split; [reflexivity|]);
    unfold rows2; cbn; tauto.
Qed.

Lemma diag_of_orth3 Q : orthogonal 3 Q -> exists r1 r2 r3, Q = [r1; r2; r3] /\ In r1 rows3 /\ In r2 rows3 /\ In r3 rows3.
Proof.
  intros [HW E]. destruct (wf3_inv Q HW) as (a&b&c&d&e&f&g&h&i&->).
  assert (E0 := f_equal (fun M => get M 0 0) E). assert (E1 := f_equal (fun M => get M 1 1) E).
  assert (E2 := f_equal (fun M => get M 2 2) E). cbn -[Z.mul Z.add] in E0, E1, E2.
  do 3 eexists. split; [reflexivity|].
  split; [apply unit3; lia|]. split; apply unit3; lia.
Qed.
Lemma diag_of_orth2 Q : orthogonal 2 Q -> exists r1 r2, Q = [r1; r2] /\ In r1 rows2 /\ In r2 rows2.
Proof.
  intros [HW E]. destruct (wf2_inv Q HW) as (a&b&c&d&->).
  assert (E0 := f_equal (fun M => get M 0 0) E). assert (E1 := f_equal (fun M => get M 1 1) E).
  cbn -[Z.mul Z.add] in E0, E1.
  do 2 eexists. split; [reflexivity|]. split; apply unit2; lia.
Qed.

Lemma wf_rows3 r1 r2 r3 : In r1 rows3 -> In r2 rows3 -> In r3 rows3 -> wf 3 3 [r1; r2; r3].
Proof.
  intros H1 H2 H3. split; [reflexivity|]. assert (HL : forall r, In r rows3 -> length r = 3%nat).
  { intros r Hr. unfold rows3 in Hr. each_in Hr; reflexivity. }
  intros r [<-|[<-|[<-|[]]]]; auto.
Qed.
Lemma wf_rows2 r1 r2 : In r1 rows2 -> In r2 rows2 -> wf 2 2 [r1; r2].
Proof.
  intros H1 H2. split; [reflexivity|]. assert (HL : forall r, In r rows2 -> length r = 2%nat).
  { intros r Hr. unfold rows2 in Hr. each_in Hr; reflexivity. }
  intros r [<-|[<-|[]]]; auto.
Qed.

Lemma cubic_iff Q : In Q CUBIC_LAUE_GROUP <-> orthogonal 3 Q /\ det Q = 1.
Proof.
  assert (Main : forall r1 r2 r3, In r1 rows3 -> In r2 rows3 -> In r3 rows3 ->
    (mmul [r1;r2;r3] (tr [r1;r2;r3]) = eye 3 /\ det [r1;r2;r3] = 1 <-> In [r1;r2;r3] CUBIC_LAUE_GROUP)).
  { intros r1 r2 r3 H1 H2 H3. pose proof cubic_check as C. rewrite forallb_forall in C.
    specialize (C r1 H1). rewrite forallb_forall in C. specialize (C r2 H2).
    rewrite forallb_forall in C. specialize (C r3 H3). cbv zeta in C. apply Bool.eqb_prop in C.
    rewrite <- mem_mat_In, <- C, andb_true_iff, mat_eqb_eq, Z.eqb_eq. reflexivity. }
  split.
  - intros H. destruct (wf_rows_cubic Q H) as (r1&r2&r3&->&H1&H2&H3).
    apply Main in H; auto. destruct H. split; [split; [now apply wf_rows3|assumption]|assumption].
  - intros [H D]. destruct (diag_of_orth3 Q H) as (r1&r2&r3&->&H1&H2&H3).
    apply Main; auto. split; [apply H|assumption].
Qed.

Lemma square_main r1 r2 : In r1 rows2 -> In r2 rows2 ->
  (mmul [r1;r2] (tr [r1;r2]) = eye 2 <-> In [r1;r2] SQUARE_EXT_GROUP) /\
  (mmul [r1;r2] (tr [r1;r2]) = eye 2 /\ det [r1;r2] = 1 <-> In [r1;r2] SQUARE_GROUP).
Proof.
  intros H1 H2. pose proof square_check as C. rewrite forallb_forall in C.
  specialize (C r1 H1). rewrite forallb_forall in C. specialize (C r2 H2).
  cbv zeta in C. apply andb_true_iff in C. destruct C as [C D].
  apply Bool.eqb_prop in C. apply Bool.eqb_prop in D. split.
  - now rewrite <- mem_mat_In, <- C, mat_eqb_eq.
  - rewrite <- mem_mat_In, <- D, andb_true_iff, mat_eqb_eq, Z.eqb_eq. reflexivity.
Qed.

Lemma square_ext_iff Q : In Q SQUARE_EXT_GROUP <-> orthogonal 2 Q.
Proof.
  split.
  - intros H. destruct (wf_rows_square Q H) as (r1&r2&->&H1&H2).
    apply square_main in H; auto. split; [now apply wf_rows2|assumption].
  - intros H. destruct (diag_of_orth2 Q H) as (r1&r2&->&H1&H2).
    apply square_main; auto. apply H.
Qed.
Lemma square_iff Q : In Q SQUARE_GROUP <-> orthogonal 2 Q /\ det Q = 1.
Proof.
  split.
  - intros H. assert (H' : In Q SQUARE_EXT_GROUP).
    { unfold SQUARE_GROUP in H. rewrite <- (firstn_skipn 4 SQUARE_EXT_GROUP). apply in_app_iff. now left. }
    split; [now apply square_ext_iff|].
    destruct (wf_rows_square Q H') as (r1&r2&->&H1&H2). now apply square_main in H.
  - intros [H D]. destruct (diag_of_orth2 Q H) as (r1&r2&->&H1&H2).
    apply square_main; auto. split; [apply H|assumption].
Qed.

Fixpoint nodupb (l : list (mat Z)) : bool :=
  match l with [] => true | x :: l' => negb (mem_mat x l') && nodupb l' end.
Lemma nodupb_NoDup l : nodupb l = true -> NoDup l.
Proof.
  induction l as [|x l IH]; cbn; constructor; apply andb_true_iff in H; destruct H as [H1 H2]; auto.
  intros Hin. apply mem_mat_In in Hin. rewrite Hin in H1. discriminate.
Qed.
Lemma cubic_NoDup : NoDup CUBIC_LAUE_GROUP.
Proof. apply nodupb_NoDup. vm_compute. reflexivity. Qed.
Lemma square_ext_NoDup : NoDup SQUARE_EXT_GROUP.
Proof. apply nodupb_NoDup. vm_compute. reflexivity. Qed.
Lemma square_NoDup : NoDup SQUARE_GROUP.
Proof. apply nodupb_NoDup. vm_compute. reflexivity. Qed.

(** the integer tables as real tables *)
Lemma IZR_zero : IZR zero = zero. Proof. reflexivity. Qed.
Definition ztable_ok (n : nat) (T : list (mat Z)) : bool :=
  forallb (fun M => wfb n n M) T && mem_mat (eye n) T &&
  forallb (fun M => forallb (fun N => mem_mat (mmul M N) T) T) T &&
  forallb (fun M => mem_mat (tr M) T && mat_eqb (mmul M (tr M)) (eye n) && mat_eqb (mmul (tr M) M) (eye n)) T &&
  nodupb T.
Lemma RZ_mmul M N : RZ (mmul M N) = mmul (RZ M) (RZ N).
Proof. apply mmap_mmul; [reflexivity|apply plus_IZR|apply mult_IZR]. Qed.
Lemma RZ_eye n : RZ (eye n) = eye n.
Proof. apply mmap_eye; reflexivity. Qed.
Lemma RZ_tr M : RZ (tr M) = tr (RZ M).
Proof. apply mmap_tr. reflexivity. Qed.
Lemma RZ_det M : IZR (det M) = det (RZ M).
Proof. apply f_det; [reflexivity|reflexivity|apply plus_IZR|apply mult_IZR|apply opp_IZR]. Qed.
Lemma RZ_inj M N : RZ M = RZ N -> M = N.
Proof. apply mmap_inj. apply eq_IZR. Qed.
Lemma get_RZ M i j : get (RZ M) i j = IZR (get M i j).
Proof. apply get_mmap. reflexivity. Qed.
Lemma wf_RZ n m M : wf n m M -> wf n m (RZ M).
Proof. apply wf_mmap. Qed.

Lemma ztable_good n T : ztable_ok n T = true -> good_table n (map RZ T).
Proof.
  intros H. unfold ztable_ok in H.
  apply andb_true_iff in H. destruct H as [H Hnd].
  apply andb_true_iff in H. destruct H as [H Htr].
  apply andb_true_iff in H. destruct H as [H Hcl].
  apply andb_true_iff in H. destruct H as [Hwf Hid].
  rewrite forallb_forall in Hwf, Hcl, Htr.
  assert (HTR : forall M, In M T -> In (tr M) T /\ mmul M (tr M) = eye n /\ mmul (tr M) M = eye n).
  { intros M HM. specialize (Htr M HM). apply andb_true_iff in Htr. destruct Htr as [Htr H3].
    apply andb_true_iff in Htr. destruct Htr as [H1 H2].
    apply mem_mat_In in H1. apply mat_eqb_eq in H2, H3. auto. }
  split.
  - split; [|split; [|split; [|split]]].
    + intros g Hg. apply in_map_iff in Hg. destruct Hg as [M [<- HM]]. apply wf_mmap, wfb_spec. auto.
    + apply NoDup_map_inj_in; [|now apply nodupb_NoDup]. intros x y _ _. apply RZ_inj.
    + rewrite <- RZ_eye. apply in_map. now apply mem_mat_In.
    + intros g h Hg Hh. apply in_map_iff in Hg, Hh. destruct Hg as [M [<- HM]], Hh as [N [<- HN]].
      specialize (Hcl M HM). rewrite forallb_forall in Hcl. specialize (Hcl N HN).
      rewrite <- RZ_mmul. apply in_map. now apply mem_mat_In.
    + intros g Hg. apply in_map_iff in Hg. destruct Hg as [M [<- HM]].
      destruct (HTR M HM) as [H1 [H2 H3]]. exists (RZ (tr M)).
      split; [now apply in_map|]. rewrite <- !RZ_mmul, H2, H3, RZ_eye. auto.
  - intros Q HQ. apply in_map_iff in HQ. destruct HQ as [M [<- HM]].
    destruct (HTR M HM) as [H1 [H2 H3]]. rewrite <- RZ_tr.
    split; [|split; [now apply in_map|now rewrite <- RZ_mmul, H3, RZ_eye]].
    split; [apply wf_mmap, wfb_spec; auto|]. now rewrite <- RZ_tr, <- RZ_mmul, H2, RZ_eye.
Qed.
Lemma CUBIC_good : good_table 3 (map RZ CUBIC_LAUE_GROUP).
Proof. apply ztable_good. vm_compute. reflexivity. Qed.
Lemma SQUARE_EXT_good : good_table 2 (map RZ SQUARE_EXT_GROUP).
Proof. apply ztable_good. vm_compute. reflexivity. Qed.
Lemma SQUARE_good : good_table 2 (map RZ SQUARE_GROUP).
Proof. apply ztable_good. vm_compute. reflexivity. Qed.

(** ** hassubgroup *)
Lemma mem_divisors_nat (a b : nat) : (0 < b)%nat ->
  existsb (Z.eqb (Z.of_nat a)) (divisors (Z.of_nat b)) = true <-> (0 < a)%nat /\ Nat.divide a b.
Proof.
  intros Hb. rewrite existsb_exists. split.
  - intros [d [Hd E]]. apply Z.eqb_eq in E. subst d. apply in_divisors in Hd; [|lia].
    destruct Hd as [H1 [q Hq]]. split; [lia|]. exists (Z.to_nat q).
    apply Nat2Z.inj. rewrite Nat2Z.inj_mul, Z2Nat.id; [lia|nia].
  - intros [Ha [q Hq]]. exists (Z.of_nat a). split; [|apply Z.eqb_refl].
    apply in_divisors; [lia|]. split; [lia|]. exists (Z.of_nat q). lia.
Qed.

Lemma hassubgroup_iff G g : G <> [] ->
  hassubgroup G (Some g) = Ok true <->
  ((0 < length g)%nat /\ Nat.divide (length g) (length G)) /\
  (forall m1, In m1 g -> exists m2, In m2 G /\ allclose m1 m2 = true).
Proof.
  intros HG. assert (Hl : (0 < length G)%nat) by (destruct G; [congruence|cbn; lia]).
  unfold hassubgroup. rewrite <- (mem_divisors_nat (length g) (length G) Hl).
  destruct (existsb _ (divisors _)).
  - split.
    + intros [= H]. split; [reflexivity|]. intros m1 H1. rewrite forallb_forall in H.
      specialize (H m1 H1). apply existsb_exists in H. exact H.
    + intros [_ H]. f_equal. apply forallb_forall. intros m1 H1. apply existsb_exists. auto.
  - split; [discriminate|]. intros [? _]. discriminate.
Qed.

Lemma hassubgroup_total G g : exists b, hassubgroup G (Some g) = Ok b.
Proof. unfold hassubgroup. destruct (existsb _ _); eauto. Qed.

Lemma hassubgroup_empty g : hassubgroup [] (Some g) = Ok true <-> g = [].
Proof.
  unfold hassubgroup. cbn [length Z.of_nat]. change (divisors 0) with [0].
  cbn [existsb]. destruct g as [|m g]; cbn -[Z.eqb]; [split; reflexivity|].
  split; discriminate.
Qed.

Lemma hassubgroup_refl G : hassubgroup G (Some G) = Ok true.
Proof.
  destruct G as [|m G]; [now apply hassubgroup_empty|]. apply hassubgroup_iff; [congruence|]. split.
  - split; [cbn; lia|apply Nat.divide_refl].
  - intros m1 H1. exists m1. split; [assumption|apply allclose_refl].
Qed.

Definition mR_dec : forall M N : mat R, {M = N} + {M <> N}.
Proof. apply list_eq_dec, list_eq_dec, Req_EM_T. Defined.

Lemma group_lagrange n (G g : list (mat R)) : (0 < n)%nat -> is_group n G -> is_group n g -> incl g G ->
  Nat.divide (length g) (length G).
Proof.
  intros Hn [W [ND [E [C I1]]]] [w [nd [e [c i]]]] Hs.
  apply (lagrange mR_dec mmul G g ND nd) with (e := eye n); auto.
  - intros x y z0 Hx Hy Hz. symmetry. apply (mmul_assoc n n n n); auto.
  - intros x y z0 Hx Hy Hz F. destruct (I1 x Hx) as [x' [Hx' [_ F2]]].
    apply (f_equal (mmul x')) in F. rewrite <- !(mmul_assoc n n n n) in F by auto.
    rewrite F2, !(mmul_eye_l n n) in F by auto. exact F.
  - intros x Hx. apply (mmul_eye_r n n); auto.
  - intros h Hh. destruct (i h Hh) as [h' [Hh' [F _]]]. eauto.
Qed.

Lemma group_nonempty n (G : list (mat R)) : is_group n G -> G <> [].
Proof. intros [_ [_ [E _]]] ->. destruct E. Qed.

(** on groups whose elements the tolerance tells apart, it is the subgroup relation *)
Lemma hassubgroup_groups n G g : (0 < n)%nat -> is_group n G -> is_group n g ->
  (forall m1 m2, In m1 g -> In m2 G -> allclose m1 m2 = true -> m1 = m2) ->
  (hassubgroup G (Some g) = Ok true <-> incl g G).
Proof.
  intros Hn HG Hg Hsep. rewrite hassubgroup_iff by (eapply group_nonempty; eassumption). split.
  - intros [_ H] m Hm. destruct (H m Hm) as [m2 [H2 C]]. now rewrite (Hsep m m2).
  - intros Hi. split; [split|].
    + pose proof (group_nonempty n g Hg). destruct g; [congruence|cbn; lia].
    + eapply group_lagrange; eassumption.
    + intros m Hm. exists m. split; [auto|apply allclose_refl].
Qed.

(** integer matrices of moderate size are told apart *)
Lemma allclose_integers n (M N : mat Z) : wf (S n) (S n) M -> wf (S n) (S n) N ->
  (forall i j, (i < S n)%nat -> (j < S n)%nat -> Z.abs (get N i j) < 90000) ->
  allclose (RZ M) (RZ N) = true -> M = N.
Proof.
  intros HM HN HB H. rewrite (allclose_spec n (S n)) in H by now apply wf_RZ.
  apply (mat_ext (S n) (S n)); auto. intros i j Hi Hj. specialize (H i j Hi Hj). specialize (HB i j Hi Hj).
  rewrite !get_RZ, <- minus_IZR, <- !abs_IZR in H.
  apply IZR_lt in HB. unfold atol0, rtol0 in H.
  assert (D : (IZR (Z.abs (get M i j - get N i j)) < 1)%R) by lra.
  apply lt_IZR in D. lia.
Qed.
