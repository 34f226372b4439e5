(** Property C80: reduce_hnfs under the integer division of Python 2.  Specification: ReduceSpec.v. *)
From Verif Require Import GroupModel GroupProofs HnfModel HnfSpec ReduceModel ReduceSpec ReduceProofs ReducePy2 DirectExample.
Local Open Scope Z_scope.

(** Nothing is lost: the result is a sublist and every input is equivalent to a member. *)
Theorem C80_covers_partial : forall n G hnfs, (0 < n)%nat -> matrix_group n G -> (forall h, In h hnfs -> is_hnf n h) ->
  exists r, reduce_hnfs py2 hnfs G 3 = Ok r /\ sublist r hnfs /\ forall h, In h hnfs -> exists y, In y r /\ sym_equiv n G h y.
Proof. exact (fun n G hnfs Hn HG => reduce_hnfs_any py2 (or_intror eq_refl) n Hn G HG hnfs). Qed.
Print Assumptions C80_covers_partial.

(** But equivalent sublattices may both be kept: two sublattices of size 5 of the simple cubic lattice. *)
Definition h80 : mat Z := [[1;0;0];[0;1;0];[-2;-1;5]].
Definition h80' : mat Z := [[1;0;0];[0;1;0];[-3;-1;5]].
Definition g80 : mat Z := [[1;0;0];[0;-1;0];[0;0;-1]].
Definition A80 : mat Z := [[1;0;0];[0;-1;0];[1;0;-1]].
Lemma hnf80 a b : -5 < a <= 0 -> -5 < b <= 0 -> is_hnf 3 [[1;0;0];[0;1;0];[a;b;5]].
Proof.
  intros Ha Hb. split; [apply wfb_spec; reflexivity|]. split; [|split].
  - intros i j Hij. assert ((i = 0 /\ j = 1 \/ i = 0 /\ j = 2 \/ i = 1 /\ j = 2)%nat) as C by lia. decompose [and or] C; subst; reflexivity.
  - intros i Hi. assert ((i = 0 \/ i = 1 \/ i = 2)%nat) as C by lia. decompose [and or] C; subst; cbn; lia.
  - intros i j Hij. assert ((j = 0 /\ i = 1 \/ j = 0 /\ i = 2 \/ j = 1 /\ i = 2)%nat) as C by lia. decompose [and or] C; subst; cbn; lia.
Qed.
Theorem C80_refuted : exists G h h', matrix_group 3 G /\ is_hnf 3 h /\ is_hnf 3 h' /\ h <> h' /\ sym_equiv 3 G h h' /\
  reduce_hnfs py2 [h; h'] G 3 = Ok [h; h'] /\ reduce_hnfs py3 [h; h'] G 3 = Ok [h].
Proof.
  assert (Z : ztable_ok 3 CUBIC_LAUE_GROUP = true) by (vm_compute; reflexivity).
  exists CUBIC_LAUE_GROUP, h80, h80'. split; [now apply ztable_group|]. split; [apply hnf80; lia|]. split; [apply hnf80; lia|].
  split; [discriminate|]. split; [|split; vm_compute; reflexivity].
  exists g80, A80. split; [apply mem_mat_In; vm_compute; reflexivity|]. split; [|vm_compute; reflexivity].
  split; [apply wfb_spec; reflexivity|]. exists A80. split; [apply wfb_spec; reflexivity|]. split; vm_compute; reflexivity.
Qed.
Print Assumptions C80_refuted.
Example C80_case : exists r, reduce_hnfs py2 [h80; h80'; [[1;0;0];[0;1;0];[0;0;5]]; [[1;0;0];[0;5;0];[0;0;1]]] CUBIC_LAUE_GROUP 3 = Ok r /\ length r = 3%nat.
Proof. eexists. split; [vm_compute; reflexivity|reflexivity]. Qed.
