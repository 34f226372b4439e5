(** C120: mat_eig.  Model: MatEigModel.v. *)
From Verif Require Import MatEigModel MatMathProofs PropMatMath.

(** Missing: Python 3 and numpy 1.12 or later.  Row i of the result is what eig gives for matrix i; in particular anything eig guarantees
    about its result (P: being the eigenvalues) holds row by row, whatever the memory of the new array contained. *)
Theorem C120_rows_partial : forall A (O : Ops A) (eig : mat A -> vec A) (P : mat A -> vec A -> Prop) d mem (Ms : list (mat A)),
  squares d Ms -> (forall M, wf d d M -> length (eig M) = d /\ P M (eig M)) -> length mem = length Ms ->
  exists rows, mat_eig false false eig mem (d * d) (array_of Ms) = Ok rows /\ Forall2 P Ms rows.
Proof.
  intros A O eig P d mem Ms S E. unfold mat_eig. rewrite Nat.sqrt_square. revert mem.
  induction Ms as [|M Ms IH]; intros [|x mem] L; try discriminate; cbn [array_of map eig_rows]; [eauto|].
  assert (W : wf d d M) by (apply S; now left). unfold reshape_sq. rewrite (length_concat d d) by exact W. rewrite Nat.eqb_refl. cbn [bind].
  replace (mk d d (fun i j => vget (concat M) (i * d + j))) with M.
  2:{ apply (mat_ext d d); auto using wf_mk. intros i j Hi Hj. rewrite get_mk by assumption. now rewrite (vget_concat d d). }
  destruct (E M W) as (Lv & HP). rewrite Lv, Nat.eqb_refl. destruct (IH ltac:(intros N J; apply S; now right) mem) as (rows & X & F); [now injection L|].
  unfold array_of in X. rewrite X. cbn [bind]. eauto.
Qed.
Print Assumptions C120_rows_partial.
(** With a current numpy, or with Python 3, no call returns. *)
Theorem C120_refuted : forall A (O : Ops A) (eig : mat A -> vec A) py3 mem m (l : list (vec A)),
  mat_eig py3 true eig mem m l = Raise TypeError /\ mat_eig true false eig mem m l = Raise NameError.
Proof. now split. Qed.
Print Assumptions C120_refuted.
(** A row whose length is not a square is rejected. *)
Theorem C120_not_square_partial : forall A (O : Ops A) (eig : mat A -> vec A) mem m (l : list (vec A)),
  length mem = length l -> l <> [] -> (forall r, In r l -> length r = m) -> (forall d, m <> d * d) -> mat_eig false false eig mem m l = Raise ValueError.
Proof.
  intros A O eig mem m [|r l] L NE W N; [now elim NE|]. destruct mem as [|x mem]; [discriminate|]. unfold mat_eig. cbn [eig_rows]. unfold reshape_sq.
  rewrite (W r) by now left. destruct (Nat.eqb_spec m (Nat.sqrt m * Nat.sqrt m)) as [E|]; [now elim (N _ E)|reflexivity].
Qed.
Print Assumptions C120_not_square_partial.

(** Two diagonal matrices, and eig reading the diagonal: hypotheses and result. *)
Definition diag_eig (M : mat Z) : vec Z := mkv (nrows M) (fun i => get M i i).
Example C120_case : squares 2 [[[2; 0]; [0; 5]]; [[7; 0]; [0; 3]]]%Z /\ (forall M, wf 2 2 M -> length (diag_eig M) = 2 /\ forall i, i < 2 -> vget (diag_eig M) i = get M i i) /\
  mat_eig false false diag_eig [[9; 9]; [8; 8]]%Z 4 (array_of [[[2; 0]; [0; 5]]; [[7; 0]; [0; 3]]]%Z) = Ok [[2; 5]; [7; 3]]%Z.
Proof.
  split; [intros M [<-|[<-|[]]]; apply wfb_spec; reflexivity|]. split; [|reflexivity].
  intros M W. unfold diag_eig. rewrite (nrows_wf 2 2) by exact W. split; [reflexivity|]. intros i Hi. now rewrite vget_mkv.
Qed.
