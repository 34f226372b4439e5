(** C61: the batch helpers of mat_math act matrix by matrix.  C62: cofactor matrices. *)
From Verif Require Import MatMathModel MatMathProofs LinAlg RMat.

(** ** Specification: an array holds the matrices Ms when its rows are these matrices read row by row *)
Definition array_of {A} (Ms : list (mat A)) : list (vec A) := map (fun M => concat M) Ms.
(** d x d matrices *)
Definition squares {A} (d : nat) (Ms : list (mat A)) : Prop := forall M, In M Ms -> wf d d M.
(** an array of shape (N, m) *)
Definition shape {A} (N m : nat) (l : list (vec A)) : Prop := length l = N /\ forall r, In r l -> length r = m.

(** * C61 *)
Theorem C61_dot_partial : forall A (O : Ops A) d (Ms Ns : list (mat A)), 0 < d -> Ms <> [] -> length Ms = length Ns ->
  squares d Ms -> squares d Ns ->
  mat_dot false (array_of Ms) (array_of Ns) = Ok (array_of (map (fun p => mmul (fst p) (snd p)) (combine Ms Ns))).
Proof.
  intros A O d Ms Ns Hd NE L W W'. unfold array_of at 3. rewrite map_map. apply mat_dot_ok with (d := d); auto. intros M [H|H]; auto.
Qed.
Print Assumptions C61_dot_partial.
Theorem C61_T_partial : forall A (O : Ops A) d (Ms : list (mat A)) mem, 0 < d -> Ms <> [] -> squares d Ms -> shape (length Ms) (d * d) mem ->
  mat_T false mem (array_of Ms) = Ok (array_of (map (fun M => tr M) Ms)).
Proof. intros A O d Ms mem Hd NE W [S1 S2]. unfold array_of at 2. rewrite map_map. now apply mat_T_ok with (d := d). Qed.
Print Assumptions C61_T_partial.
Theorem C61_det_partial : forall A (O : Ops A) (L : RingLaws A) d (Ms : list (mat A)), 1 <= d -> squares d Ms ->
  mat_det false (array_of Ms) = Ok (map (fun M => det M) Ms).
Proof.
  intros A O L d Ms Hd W. unfold mat_det, array_of. destruct Ms as [|M Ms]; [reflexivity|]. apply (mat_det_fuel_ok d); auto. cbn [nth map].
  rewrite (length_concat d d) by (apply W; now left). nia.
Qed.
Print Assumptions C61_det_partial.
(** Missing for mat_trace: it adds to memory that np.empty does not initialise. *)
Theorem C61_trace_partial : forall A (O : Ops A) d (Ms : list (mat A)), Ms <> [] -> squares d Ms ->
  mat_trace false (map (fun _ => zero) Ms) (array_of Ms) = Ok (map (fun M => trace M) Ms).
Proof.
  intros A O d Ms NE W. unfold array_of. rewrite (mat_trace_ok d) by (auto; now rewrite map_length). f_equal.
  assert (K : forall l : list (mat A), squares d l -> map (fun p => fold_left (fun t i => add t (get (snd p) i i)) (seq 0 d) (fst p)) (combine (map (fun _ => zero) l) l) = map (fun M => trace M) l).
  { induction l as [|M l IH]; intros H; [reflexivity|]. cbn [map combine fst snd]. rewrite fold_sum. f_equal; [|apply IH; intros x Hx; apply H; now right].
    unfold trace. now rewrite (nrows_wf d d) by (apply H; now left). }
  now apply K.
Qed.
Print Assumptions C61_trace_partial.

(** For every array of integer matrices there is a content of the memory with which mat_trace is wrong for every matrix;
    and under Python 3 the helpers raise a NameError for every array. *)
Theorem C61_refuted :
  (forall d (Ms : list (mat Z)), Ms <> [] -> squares d Ms -> exists mem, length mem = length Ms /\
    exists t, mat_trace false mem (array_of Ms) = Ok t /\ Forall2 (fun x M => x <> trace M) t Ms) /\
  (forall A (O : Ops A) r (l l' : list (vec A)) mem mem', mat_dot true (r :: l) l' = Raise NameError /\
    mat_T true mem (r :: l) = Raise NameError /\ mat_trace true mem' (r :: l) = Raise NameError /\
    (4 <= length r -> mat_det true (r :: l) = Raise NameError)).
Proof.
  split.
  - intros d Ms NE W. exists (map (fun _ => 1%Z) Ms). split; [now rewrite map_length|]. eexists. split; [apply (mat_trace_ok d); auto; now rewrite map_length|].
    clear NE. induction Ms as [|M Ms IH]; [constructor|]. cbn [map combine]. constructor; [|apply IH; intros x Hx; apply W; now right]. cbn [fst snd].
    unfold trace. rewrite (nrows_wf d d) by (apply W; now left). clear.
    assert (K : forall n, fold_left (fun t i => add t (get M i i)) (seq 0 n) 1%Z = (sumn n (fun i => get M i i) + 1)%Z).
    { induction n as [|n IH]; [reflexivity|]. rewrite seq_S, fold_left_app, IH. cbn [fold_left sumn Nat.add]. cbn [add Z_ops]. lia. }
    change (@add Z Z_ops) with Z.add in *. rewrite K. lia.
  - intros A O r l l' mem mem'. split; [reflexivity|]. split; [reflexivity|]. split; [reflexivity|]. intros H.
    unfold mat_det. cbn [nth]. destruct (length r) as [|n] eqn:E; [lia|]. cbn [mat_det_fuel side]. rewrite E.
    destruct (Nat.eqb_spec (Nat.sqrt (S n)) 1) as [K|K]; [|reflexivity]. pose proof (Nat.sqrt_spec' (S n)). rewrite K in H0. lia.
Qed.
Print Assumptions C61_refuted.

(** Two 2 x 2 integer matrices: the hypotheses hold. *)
Example C61_case : let Ms := [[[1; 2]; [3; 4]]; [[0; 1]; [1; 5]]]%Z in
  squares 2 Ms /\ mat_det false (array_of Ms) = Ok [-2; -1]%Z /\ mat_dot false (array_of Ms) (array_of Ms) = Ok [[7; 10; 15; 22]; [1; 5; 5; 26]]%Z.
Proof. split; [|split; reflexivity]. intros M [<-|[<-|[]]]; now apply wfb_spec. Qed.

(** * C62 *)
Local Open Scope R_scope.
Lemma cof_brute A : wf 3 3 A -> reshape33 (cof_entries A 3) = Ok (brute_cof A).
Proof. intros W. reflexivity. Qed.
Lemma l3 {X} (x y z x' y' z' : X) : x = x' -> y = y' -> z = z' -> [x; y; z] = [x'; y'; z'].
Proof. congruence. Qed.
Lemma cof_identity A : wf 3 3 A -> mmul A (tr (brute_cof A)) = mscale (det A) (eye 3).
Proof.
  intros W. apply wf3_inv in W. destruct W as (a & b & c & d & e & f & g & h & i & ->). cbv [brute_cof drop]. mat_unfold_goal. cbn [pow Nat.add].
  apply l3; apply l3; ring.
Qed.

(** _brute_cof of twin.py is right for every 3 x 3 array and rejects every other shape. *)
Theorem C62_twin : forall m n A, wf m n A ->
  (m = 3%nat -> n = 3%nat -> exists C, twin_brute_cof m n A = Ok C /\ wf 3 3 C /\ mmul A (tr C) = mscale (det A) (eye 3)) /\
  (m = n -> m <> 3%nat -> twin_brute_cof m n A = Raise ValueError) /\
  (m <> n -> twin_brute_cof m n A = Raise TypeError).
Proof.
  intros m n A W. split; [|split].
  - intros -> ->. exists (brute_cof A). split; [now apply cof_brute|]. split; [apply wf_mk|]. now apply cof_identity.
  - intros -> H. unfold twin_brute_cof. rewrite Nat.eqb_refl. unfold reshape33. destruct (Nat.eqb_spec (length (cof_entries A n)) 9) as [E|]; [|reflexivity]. exfalso.
    unfold cof_entries in E. assert (K : forall (f : nat -> nat -> R) b, length (flat_map (fun i => map (f i) (seq 0 n)) b) = (length b * n)%nat).
    { induction b as [|x b IH]; [reflexivity|]. cbn [flat_map length]. rewrite app_length, IH, map_length, seq_length. reflexivity. }
    rewrite (K (fun i j => (-1) ^ (i + j) * det (map (drop j) (drop i A)))), seq_length in E. nia.
  - intros H. unfold twin_brute_cof. now destruct (Nat.eqb_spec m n).
Qed.
Print Assumptions C62_twin.
(** cofactor of mat_math.py does the same under Python 2. *)
Theorem C62_mat_math_partial : forall A, wf 3 3 A ->
  exists C, cofactor false 3 3 A = Ok (Some C) /\ mmul A (tr C) = mscale (det A) (eye 3).
Proof.
  intros A W. exists (brute_cof A). split; [|now apply cof_identity]. unfold cofactor. cbn [Nat.eqb]. rewrite cof_brute by exact W. reflexivity.
Qed.
Print Assumptions C62_mat_math_partial.
(** Under Python 3 it raises for every square array. *)
Theorem C62_refuted : forall n A, cofactor true n n A = Raise NameError.
Proof. intros n A. unfold cofactor. now rewrite Nat.eqb_refl. Qed.
Print Assumptions C62_refuted.
(** A matrix of determinant -3: its cofactor matrix *)
Example C62_case : twin_brute_cof 3 3 [[1; 2; 3]; [4; 5; 6]; [7; 8; 10]] = Ok [[2; 2; -3]; [4; -11; 6]; [-3; 6; -3]].
Proof. unfold twin_brute_cof. cbn [Nat.eqb]. rewrite cof_brute by now apply wfb_spec. f_equal. cbv [brute_cof drop]. mat_unfold_goal. cbn [pow Nat.add]. apply l3; apply l3; lra. Qed.
