(** C119: sublattices of sublattices.  Specification: HnfSpec.v; model: HnfModel.v. *)
From Verif Require Import HnfModel HnfSpec HnfEnum HnfProofs HnfCanon HnfCountSpec HnfCount HnfChain.
From Coq Require Import Permutation.
Local Open Scope Z_scope.

(** The base H1 H2 is the H2-sublattice of the H1-sublattice.  Its canonical form is one of those listed for the product of the sizes. *)
Theorem C119_product : forall N m n l1 l2 l H1 H2, (0 < N)%nat -> 0 < m -> 0 < n ->
  hnf_from_det m N = Ok (Some l1) -> hnf_from_det n N = Ok (Some l2) -> hnf_from_det (m * n) N = Ok (Some l) ->
  In H1 l1 -> In H2 l2 -> exists H L, hnfd py3 (mmul H1 H2) = Ok (H, L) /\ In H l.
Proof.
  intros N m n l1 l2 l H1 H2 HN Hm Hn E1 E2 E J1 J2.
  destruct (hnf_from_det_spec m N Hm HN) as (l1' & E1' & _ & S1). rewrite E1 in E1'. injection E1' as <-.
  destruct (hnf_from_det_spec n N Hn HN) as (l2' & E2' & _ & S2). rewrite E2 in E2'. injection E2' as <-.
  destruct (hnf_from_det_spec (m * n) N ltac:(nia) HN) as (l' & E' & _ & S). rewrite E in E'. injection E' as <-.
  apply S1 in J1 as (I1 & D1). apply S2 in J2 as (I2 & D2). destruct (chain_compose N H1 H2 HN I1 I2) as (H & L & X & I & D & _).
  exists H, L. split; [exact X|]. apply S. split; [exact I|congruence].
Qed.
Print Assumptions C119_product.

(** Every sublattice of size m n is a sublattice of size n of some sublattice of size m. *)
Theorem C119_factor : forall N m n l1 l2 l H, (0 < N)%nat -> 0 < m -> 0 < n ->
  hnf_from_det m N = Ok (Some l1) -> hnf_from_det n N = Ok (Some l2) -> hnf_from_det (m * n) N = Ok (Some l) ->
  In H l -> exists H1 H2 L, In H1 l1 /\ In H2 l2 /\ hnfd py3 (mmul H1 H2) = Ok (H, L).
Proof.
  intros N m n l1 l2 l H HN Hm Hn E1 E2 E J.
  destruct (hnf_from_det_spec m N Hm HN) as (l1' & E1' & _ & S1). rewrite E1 in E1'. injection E1' as <-.
  destruct (hnf_from_det_spec n N Hn HN) as (l2' & E2' & _ & S2). rewrite E2 in E2'. injection E2' as <-.
  destruct (hnf_from_det_spec (m * n) N ltac:(nia) HN) as (l' & E' & _ & S). rewrite E in E'. injection E' as <-.
  apply S in J as (I & D). destruct (chain_split N H m n HN I Hm Hn D) as (H1 & H2 & L & I1 & D1 & I2 & D2 & X).
  exists H1, H2, L. split; [now apply S1|]. split; [now apply S2|exact X].
Qed.
Print Assumptions C119_factor.

(** When the two sizes have no common factor, in exactly one way. *)
Theorem C119_unique : forall N m n l1 l2 H1 H2 H1' H2' H L L', (0 < N)%nat -> 0 < m -> 0 < n -> Z.gcd m n = 1 ->
  hnf_from_det m N = Ok (Some l1) -> hnf_from_det n N = Ok (Some l2) ->
  In H1 l1 -> In H2 l2 -> In H1' l1 -> In H2' l2 ->
  hnfd py3 (mmul H1 H2) = Ok (H, L) -> hnfd py3 (mmul H1' H2') = Ok (H, L') -> H1 = H1' /\ H2 = H2'.
Proof.
  intros N m n l1 l2 H1 H2 H1' H2' H L L' HN Hm Hn G E1 E2 J1 J2 J1' J2' X X'.
  destruct (hnf_from_det_spec m N Hm HN) as (k1 & E1' & _ & S1). rewrite E1 in E1'. injection E1' as <-.
  destruct (hnf_from_det_spec n N Hn HN) as (k2 & E2' & _ & S2). rewrite E2 in E2'. injection E2' as <-.
  apply S1 in J1 as (I1 & D1), J1' as (I1' & D1'). apply S2 in J2 as (I2 & D2), J2' as (I2' & D2').
  destruct (chain_compose N H1 H2 HN I1 I2) as (K & M & Y & _ & _ & R). rewrite X in Y. injection Y as <- _.
  destruct (chain_compose N H1' H2' HN I1' I2') as (K & M' & Y & _ & _ & R'). rewrite X' in Y. injection Y as <- _.
  apply (chain_unique N H1' H2' H1 H2); auto; try congruence. apply (requiv_trans N _ H); auto. now apply requiv_sym.
Qed.
Print Assumptions C119_unique.

Lemma nodup_prod {A B} (l : list A) (l' : list B) : NoDup l -> NoDup l' -> NoDup (list_prod l l').
Proof.
  intros Nl Nl'. induction Nl as [|x l Hx Nl IH]; cbn [list_prod]; [constructor|]. apply NoDup_app_intro; [|exact IH|].
  - apply NoDup_map_inj; [|exact Nl']. intros a b _ _ E. now injection E.
  - intros [a b] J K. apply in_map_iff in J as (c & E & _). injection E as <- <-. apply in_prod_iff in K. now apply Hx.
Qed.
(** So the numbers of sublattices multiply. *)
Theorem C119_count : forall N m n, (0 < N)%nat -> 0 < m -> 0 < n -> Z.gcd m n = 1 ->
  exists l1 l2 l, hnf_from_det m N = Ok (Some l1) /\ hnf_from_det n N = Ok (Some l2) /\ hnf_from_det (m * n) N = Ok (Some l) /\
    length l = (length l1 * length l2)%nat.
Proof.
  intros N m n HN Hm Hn G.
  destruct (hnf_from_det_spec m N Hm HN) as (l1 & E1 & N1 & S1). destruct (hnf_from_det_spec n N Hn HN) as (l2 & E2 & N2 & S2).
  destruct (hnf_from_det_spec (m * n) N ltac:(nia) HN) as (l & E & ND & S). exists l1, l2, l. do 3 (split; [assumption|]).
  set (f := fun p : mat Z * mat Z => match hnfd py3 (mmul (fst p) (snd p)) with Ok (H, _) => H | _ => [] end).
  rewrite <- prod_length, <- (map_length f). apply Permutation_length. apply NoDup_Permutation; [exact ND| |].
  - apply NoDup_map_inj.
    + intros [a b] [c d] J J' F. apply in_prod_iff in J as (Ja & Jb), J' as (Jc & Jd). unfold f in F. cbn [fst snd] in F.
      destruct (C119_product N m n l1 l2 l a b HN Hm Hn E1 E2 E Ja Jb) as (H & L & X & _). destruct (C119_product N m n l1 l2 l c d HN Hm Hn E1 E2 E Jc Jd) as (H' & L' & X' & _).
      rewrite X, X' in F. subst H'. destruct (C119_unique N m n l1 l2 a b c d H L L' HN Hm Hn G E1 E2 Ja Jb Jc Jd X X') as (-> & ->). reflexivity.
    + now apply nodup_prod.
  - intros H. rewrite in_map_iff. split.
    + intros J. destruct (C119_factor N m n l1 l2 l H HN Hm Hn E1 E2 E J) as (H1 & H2 & L & J1 & J2 & X). exists (H1, H2). split; [unfold f; cbn [fst snd]; now rewrite X|now apply in_prod].
    + intros ([a b] & F & J). apply in_prod_iff in J as (Ja & Jb). destruct (C119_product N m n l1 l2 l a b HN Hm Hn E1 E2 E Ja Jb) as (H' & L & X & K).
      unfold f in F. cbn [fst snd] in F. rewrite X in F. now subst H'.
Qed.
Print Assumptions C119_count.
(** In terms of the divisor sums of C96. *)
Theorem C119_sums : forall N m n, (0 < N)%nat -> 0 < m -> 0 < n -> Z.gcd m n = 1 -> sublattices N (m * n) = sublattices N m * sublattices N n.
Proof.
  intros N m n HN Hm Hn G. destruct (C119_count N m n HN Hm Hn G) as (l1 & l2 & l & E1 & E2 & E & L).
  destruct (count_det m N Hm HN) as (k1 & F1 & <-). destruct (count_det n N Hn HN) as (k2 & F2 & <-). destruct (count_det (m * n) N ltac:(nia) HN) as (k & F & <-).
  rewrite E1 in F1. rewrite E2 in F2. rewrite E in F. injection F1 as <-. injection F2 as <-. injection F as <-. rewrite L. lia.
Qed.
Print Assumptions C119_sums.

(** Sizes 2 and 3 in three dimensions: 7 * 13 = 91 sublattices of size 6.  For 2 and 2 several products give the same sublattice. *)
Example C119_case : exists l1 l2 l, hnf_from_det 2 3 = Ok (Some l1) /\ hnf_from_det 3 3 = Ok (Some l2) /\ hnf_from_det (2 * 3) 3 = Ok (Some l) /\
  length l1 = 7%nat /\ length l2 = 13%nat /\ length l = 91%nat.
Proof. do 3 eexists. do 3 (split; [vm_compute; reflexivity|]). vm_compute. auto. Qed.
Example C119_not_coprime : exists l H1 H2 H1' H2' H L L', hnf_from_det 2 2 = Ok (Some l) /\ In H1 l /\ In H2 l /\ In H1' l /\ In H2' l /\ H1 <> H1' /\
  hnfd py3 (mmul H1 H2) = Ok (H, L) /\ hnfd py3 (mmul H1' H2') = Ok (H, L').
Proof.
  exists [[[1; 0]; [0; 2]]; [[1; 0]; [-1; 2]]; [[2; 0]; [0; 1]]], [[1; 0]; [0; 2]], [[2; 0]; [0; 1]], [[2; 0]; [0; 1]], [[1; 0]; [0; 2]]. do 3 eexists.
  split; [vm_compute; reflexivity|]. split; [cbn; auto|]. split; [cbn; auto|]. split; [cbn; auto|]. split; [cbn; auto|]. split; [discriminate|]. split; vm_compute; reflexivity.
Qed.
