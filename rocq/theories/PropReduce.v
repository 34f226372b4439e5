(** Property theorems C08, C09.  Specification: ReduceSpec.v, HnfSpec.v; model:
    ReduceModel.v. *)
From Verif Require Import HnfModel HnfSpec ReduceModel ReduceSpec ReduceProofs.
Local Open Scope Z_scope.

(** C08: reduce_hnfs((hnfs, G, lprint)) keeps exactly one representative per orbit. *)
Theorem C08_reduce_hnfs_transversal : forall n G hnfs, (0 < n)%nat -> matrix_group n G ->
  (forall h, In h hnfs -> is_hnf n h) ->
  exists r, reduce_hnfs py3 hnfs G 3 = Ok r /\ transversal (sym_equiv n G) hnfs r.
Proof. exact (fun n G hnfs Hn HG => reduce_hnfs_transversal n Hn G HG hnfs). Qed.
Print Assumptions C08_reduce_hnfs_transversal.

(** the relation used in C08 is an equivalence relation on n x n matrices *)
Theorem C08_orbits_are_classes : forall n G, (0 < n)%nat -> matrix_group n G ->
  (forall h, wf n n h -> sym_equiv n G h h) /\
  (forall h h', wf n n h -> wf n n h' -> sym_equiv n G h h' -> sym_equiv n G h' h) /\
  (forall h1 h2 h3, wf n n h1 -> wf n n h2 -> wf n n h3 ->
     sym_equiv n G h1 h2 -> sym_equiv n G h2 h3 -> sym_equiv n G h1 h3).
Proof.
  exact (fun n G Hn HG => conj (sym_equiv_refl n Hn G HG)
          (conj (sym_equiv_sym n Hn G HG) (sym_equiv_trans n Hn G HG))).
Qed.
Print Assumptions C08_orbits_are_classes.

(** the two-element group generated by the exchange of the axes merges the two
    diagonal sublattices of index 2 and keeps the third one *)
Example C08_case : matrix_group 2 [eye 2; [[0; 1]; [1; 0]]] /\
  reduce_hnfs py3 [[[1; 0]; [0; 2]]; [[1; 0]; [-1; 2]]; [[2; 0]; [0; 1]]] [eye 2; [[0; 1]; [1; 0]]] 3
  = Ok [[[1; 0]; [0; 2]]; [[1; 0]; [-1; 2]]].
Proof.
  split; [|vm_compute; reflexivity]. split; [|split; [|split]].
  - intros g [<-|[<-|[]]]; apply wfb_spec; reflexivity.
  - now left.
  - intros g h [<-|[<-|[]]] [<-|[<-|[]]]; vm_compute; auto.
  - intros g Hg. exists g. split; [assumption|]. destruct Hg as [<-|[<-|[]]]; split; reflexivity.
Qed.

(** C09: divide_work loses and duplicates nothing, whatever the chunk size. *)
Theorem C09_divide_work : forall A (W : list A) size, (0 < size)%nat ->
  exists gs, divide_work W size = Ok gs /\ concat gs = W /\
    forall g, In g gs -> (0 < length g <= size)%nat.
Proof. exact @divide_work_concat. Qed.
Print Assumptions C09_divide_work.
Example C09_divide_work_case : divide_work [1; 2; 3; 4; 5] 2 = Ok [[1; 2]; [3; 4]; [5]].
Proof. reflexivity. Qed.

(** C09: for every way of splitting the list into consecutive chunks, reducing each
    chunk and then the concatenation gives the same list as the serial reduction. *)
Theorem C09_any_split : forall n G chunks, (0 < n)%nat -> matrix_group n G ->
  (forall h, In h (concat chunks) -> is_hnf n h) ->
  (let* rs := mapM (fun c => reduce_hnfs py3 c G 3) chunks in reduce_hnfs py3 (concat rs) G 3)
  = reduce_hnfs py3 (concat chunks) G 3.
Proof. exact (fun n G chunks Hn HG => chunked_reduction n Hn G HG chunks). Qed.
Print Assumptions C09_any_split.

(** C09: lat_cor's parallel path equals the serial path for every pool size, if the
    mapped worker is given the three arguments reduce_hnfs expects. *)
Theorem C09_parallel_equals_serial : forall n G p hnfs, (0 < n)%nat -> matrix_group n G ->
  (0 < p)%nat -> (forall h, In h hnfs -> is_hnf n h) ->
  reduce_parallel py3 (mapM (fun a => reduce_hnfs py3 (fst a) (snd a) 3)) p hnfs G
  = reduce_hnfs py3 hnfs G 3.
Proof. exact (fun n G p hnfs Hn HG => reduce_parallel_serial n G Hn HG p hnfs). Qed.
Print Assumptions C09_parallel_equals_serial.
Example C09_parallel_case :
  let hnfs := repeat [[1; 0]; [0; 2]] 25 ++ [[[1; 0]; [-1; 2]]] in
  reduce_parallel py3 (mapM (fun a => reduce_hnfs py3 (fst a) (snd a) 3)) 1 hnfs [eye 2]
  = Ok [[[1; 0]; [0; 2]]; [[1; 0]; [-1; 2]]].
Proof. vm_compute. reflexivity. Qed.

(** C09 finding: lat_cor zips 2-tuples (chunk, group), but reduce_hnfs reads args[2]:
    mapping reduce_hnfs itself over the chunks always raises IndexError. *)
Theorem C09_two_tuples_refuted : forall p hnfs lg, (0 < p)%nat -> (p * 20 < length hnfs)%nat ->
  reduce_parallel py3 (mapM (fun a => reduce_hnfs py3 (fst a) (snd a) 2)) p hnfs lg = Raise IndexError.
Proof. exact reduce_parallel_raises. Qed.
Print Assumptions C09_two_tuples_refuted.
