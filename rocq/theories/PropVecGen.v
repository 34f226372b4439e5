(** Property theorems C44, C45.  Specification: VecGenSpec.v; model: VecGenModel.v. *)
From Verif Require Import RMat VecGenModel VecGenSpec VecGenProofs ReduceSpec.
Local Open Scope Z_scope.

(** C44: started without a checkpoint or from zero, the generator yields exactly the
    integer vectors of length at most maxlen, each once. *)
Theorem C44_every_vector_once : forall maxlen dim, (0 <= maxlen)%R -> (0 < dim)%nat ->
  exists l, vec_generator maxlen dim None = Ok l /\
    vec_generator maxlen dim (Some (repeat 0 dim)) = Ok l /\ NoDup l /\
    forall v, In v l <-> length v = dim /\ (sqrt (IZR (norm2 v)) <= maxlen)%R.
Proof. exact gen_fresh. Qed.
Print Assumptions C44_every_vector_once.

Theorem C44_negative_radius : forall maxlen dim, (maxlen < 0)%R -> (0 < dim)%nat ->
  vec_generator maxlen dim None = Ok [].
Proof. exact gen_fresh_neg. Qed.
Print Assumptions C44_negative_radius.

(** computing with the squared radius instead of the real one changes nothing *)
Theorem C44_integer_radius : forall maxlen dim x0, (0 <= maxlen)%R ->
  vec_generator maxlen dim x0 = vec_generator_sq (Rfloor (maxlen * maxlen)) dim x0.
Proof. exact (fun r d x0 H => vec_gen_rel d r _ x0 (rel_floor r H)). Qed.
Print Assumptions C44_integer_radius.
Example C44_case : vec_generator_sq 1 2 None = Ok [[0; 0]; [0; 1]; [0; -1]; [1; 0]; [-1; 0]].
Proof. reflexivity. Qed.

(** C45, what holds: resumed at a vector x that it yields, the generator yields x
    first and then a subsequence of the vectors after x; it yields all of them exactly
    when every entry of x to the right of a positive entry is zero. *)
Theorem C45_resume_partial : forall maxlen dim, (0 <= maxlen)%R -> (0 < dim)%nat ->
  forall pre x suf, vec_generator maxlen dim None = Ok (pre ++ x :: suf) ->
  exists l, vec_generator maxlen dim (Some x) = Ok (x :: l) /\ sublist l suf /\ (l = suf <-> clean x).
Proof. exact gen_resume. Qed.
Print Assumptions C45_resume_partial.

(** C45 is false as stated: in dimension 2, radius sqrt 2, resuming at (1, 1) skips
    (-1, 0) (the branch with negated first entry is restarted at the checkpoint too). *)
Theorem C45_resume_refuted : exists maxlen dim pre x suf l v,
  (0 <= maxlen)%R /\ (0 < dim)%nat /\
  vec_generator maxlen dim None = Ok (pre ++ x :: suf) /\
  vec_generator maxlen dim (Some x) = Ok (x :: l) /\ In v suf /\ ~ In v l.
Proof.
  exists (sqrt 2), 2%nat, [[0; 0]; [0; 1]; [0; -1]; [1; 0]], [1; 1],
    [[1; -1]; [-1; 0]; [-1; 1]; [-1; -1]], [[1; -1]; [-1; 1]; [-1; -1]], [-1; 0].
  assert (E : Rfloor (sqrt 2 * sqrt 2) = 2) by (rewrite sqrt_sqrt by lra; apply Rfloor_IZR).
  split; [apply sqrt_pos|]. split; [lia|].
  rewrite !C44_integer_radius, E by apply sqrt_pos.
  split; [reflexivity|]. split; [reflexivity|]. split; [cbn; auto|].
  intros H. repeat (destruct H as [H|H]; [discriminate|]). destruct H.
Qed.
Print Assumptions C45_resume_refuted.
