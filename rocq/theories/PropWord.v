(** Property C111: hnfd on numpy's machine integers.  Specification: HnfSpec.v (is_hnf, unimodular, full_rank). *)
From Verif Require Import FloatDiv FloatProofs HnfSpec HnfProofs LinAlg DirectProofs HnfFloat HnfWord HnfWordProofs PropFloat PropHnf.
Local Open Scope Z_scope.

Lemma hnfdw_congr n M W D D' : (1 < n)%nat -> wf n n M -> hnf_Hw W D n M = hnf_H D' n M -> hnfdw W D M = hnfd D' M.
Proof.
  intros Hn WM E. destruct n as [|[|n]]; [lia|lia|]. destruct M as [|r M]; [destruct WM; discriminate|].
  unfold hnfdw, hnfd. rewrite (ncols_wf _ _ _ WM). now rewrite E.
Qed.
(** all entries are at most K in size *)
Definition entries_below (n : nat) (K : Z) (M : mat Z) : Prop := forall i j, (i < n)%nat -> (j < n)%nat -> Z.abs (get M i j) <= K.

Lemma word3 W B K M : 1 <= W -> B < 2 ^ (W - 1) -> B <= 2 ^ 53 -> 1 <= K -> 18 * K ^ 6 <= B -> full_rank 3 M -> entries_below 3 K M ->
  exists H L, hnfdw W py3_double M = Ok (H, L) /\ M = mmul H L /\ is_hnf 3 H /\ unimodular 3 L /\ hnfd py3 M = Ok (H, L).
Proof.
  intros HW HB H53 HK H18 F BM. destruct (C04_hnfd_factors 3 M ltac:(lia) F) as (H & L & E & P). exists H, L.
  rewrite (hnfdw_congr 3 M W py3_double py3); [tauto|lia|apply F|].
  apply (hnf_H3_word W HW py3_double B HB) with (K := K); auto. intros a b Ha Hb. apply double_agree; lia.
Qed.
Lemma word2 W B K M : 1 <= W -> B < 2 ^ (W - 1) -> B <= 2 ^ 53 -> 1 <= K -> 2 * K * K <= B -> full_rank 2 M -> entries_below 2 K M ->
  exists H L, hnfdw W py3_double M = Ok (H, L) /\ M = mmul H L /\ is_hnf 2 H /\ unimodular 2 L /\ hnfd py3 M = Ok (H, L).
Proof.
  intros HW HB H53 HK H2 F BM. destruct (C04_hnfd_factors 2 M ltac:(lia) F) as (H & L & E & P). exists H, L.
  rewrite (hnfdw_congr 2 M W py3_double py3); [tauto|lia|apply F|].
  apply (hnf_H2_word W HW py3_double B HB) with (K := K); auto. intros a b Ha Hb. apply double_agree; lia.
Qed.

(** 64 bit integers and quotients in double precision: for 3x3 matrices with entries up to 281, *)
Theorem C111_hnfd3 : forall M, full_rank 3 M -> entries_below 3 281 M ->
  exists H L, hnfdw 64 py3_double M = Ok (H, L) /\ M = mmul H L /\ is_hnf 3 H /\ unimodular 3 L /\ hnfd py3 M = Ok (H, L).
Proof. intros M. apply (word3 64 (2 ^ 53)); vm_compute; congruence. Qed.
Print Assumptions C111_hnfd3.
(** and for 2x2 matrices with entries up to 2^26. *)
Theorem C111_hnfd2 : forall M, full_rank 2 M -> entries_below 2 (2 ^ 26) M ->
  exists H L, hnfdw 64 py3_double M = Ok (H, L) /\ M = mmul H L /\ is_hnf 2 H /\ unimodular 2 L /\ hnfd py3 M = Ok (H, L).
Proof. intros M. apply (word2 64 (2 ^ 53)); vm_compute; congruence. Qed.
Print Assumptions C111_hnfd2.
(** Where numpy's default integer has 32 bits (Windows, before numpy 2): entries up to 22 for 3x3, up to 2^15 - 1 for 2x2. *)
Theorem C111_int32_3 : forall M, full_rank 3 M -> entries_below 3 22 M ->
  exists H L, hnfdw 32 py3_double M = Ok (H, L) /\ M = mmul H L /\ is_hnf 3 H /\ unimodular 3 L /\ hnfd py3 M = Ok (H, L).
Proof. intros M. apply (word3 32 (2 ^ 31 - 1)); vm_compute; congruence. Qed.
Print Assumptions C111_int32_3.
Theorem C111_int32_2 : forall M, full_rank 2 M -> entries_below 2 32767 M ->
  exists H L, hnfdw 32 py3_double M = Ok (H, L) /\ M = mmul H L /\ is_hnf 2 H /\ unimodular 2 L /\ hnfd py3 M = Ok (H, L).
Proof. intros M. apply (word2 32 (2 ^ 31 - 1)); vm_compute; congruence. Qed.
Print Assumptions C111_int32_2.

(** Without a bound it fails silently: entries of 2^32 (2^16 for 32 bits) are enough.  The columns span a lattice of index
    2^64 - 1 (2^32 - 1), the matrix returned is the normal form of the integer lattice, and H L is not M. *)
Theorem C111_limit : exists M H L, full_rank 2 M /\ entries_below 2 (2 ^ 32) M /\ det M = 2 ^ 64 - 1 /\
  hnfdw 64 py3_double M = Ok (H, L) /\ is_hnf 2 H /\ det H = 1 /\ (forall L', unimodular 2 L' -> M <> mmul H L') /\
  exists M' H' L', full_rank 2 M' /\ entries_below 2 (2 ^ 16) M' /\ det M' = 2 ^ 32 - 1 /\ hnfdw 32 py3_double M' = Ok (H', L') /\ det H' = 1.
Proof.
  exists [[2 ^ 32; 1]; [1; 2 ^ 32]]. eexists. eexists.
  assert (FR : forall a, 1 < a -> full_rank 2 [[a; 1]; [1; a]]).
  { intros a Ha. split; [apply wfb_spec; reflexivity|]. intros y H i Hi. pose proof (H 0%nat ltac:(lia)) as H0. pose proof (H 1%nat ltac:(lia)) as H1. unfold get in *. cbn -[Z.mul Z.add] in H0, H1. destruct i as [|[|]]; nia. }
  assert (EB : forall a, 1 < a -> entries_below 2 a [[a; 1]; [1; a]]) by (intros a Ha i j Hi Hj; destruct i as [|[|i]], j as [|[|j]]; cbn; lia).
  split; [apply FR; lia|]. split; [apply EB; lia|]. split; [vm_compute; reflexivity|]. split; [vm_compute; reflexivity|].
  split; [|split; [vm_compute; reflexivity|split]].
  - split; [apply wfb_spec; reflexivity|]. split; [|split].
    all: intros; repeat match goal with i : nat |- _ => destruct i as [|[|i]]; try lia end; cbn; lia.
  - intros L' (WL & L2 & W2 & E1 & E2) E. apply (f_equal det) in E. rewrite (det_mmul_Z 2) in E; [|left; reflexivity|apply wfb_spec; reflexivity|exact WL].
    assert (DU : Z.abs (det L') = 1).
    { pose proof (det_mmul_Z 2 L' L2 (or_introl eq_refl) WL W2) as DM. rewrite E1 in DM. change (det (eye 2)) with 1 in DM. destruct (Z.mul_eq_1 (det L') (det L2) (eq_sym DM)) as [-> | ->]; reflexivity. }
    revert DU E. generalize (det L'). intros d DU E. assert (E3 : 18446744073709551615 = 1 * d) by exact E. lia.
  - exists [[2 ^ 16; 1]; [1; 2 ^ 16]]. eexists. eexists. split; [apply FR; lia|]. split; [apply EB; lia|]. split; [vm_compute; reflexivity|]. split; vm_compute; reflexivity.
Qed.
Print Assumptions C111_limit.

(** cases of the hypotheses *)
Example C111_case : let M := [[2; 3; 1]; [4; -1; 7]; [0; 5; 281]] in full_rank 3 M /\ entries_below 3 281 M /\
  let M' := [[2; 3]; [4; -67108864]] in full_rank 2 M' /\ entries_below 2 (2 ^ 26) M' /\
  let N := [[2; 3; 1]; [4; -1; 7]; [0; 5; 22]] in full_rank 3 N /\ entries_below 3 22 N.
Proof.
  assert (F3 : forall a, 0 < a -> full_rank 3 [[2; 3; 1]; [4; -1; 7]; [0; 5; a]]).
  { intros a Ha. split; [apply wfb_spec; reflexivity|]. intros y H i Hi. pose proof (H 0%nat ltac:(lia)) as H0. pose proof (H 1%nat ltac:(lia)) as H1. pose proof (H 2%nat ltac:(lia)) as H2. unfold get in *. cbn -[Z.mul Z.add] in H0, H1, H2. destruct i as [|[|[|]]]; nia. }
  split; [apply F3; lia|]. split; [intros i j Hi Hj; destruct i as [|[|[|]]], j as [|[|[|]]]; cbn; lia|].
  split; [split; [apply wfb_spec; reflexivity|]; intros y H i Hi; pose proof (H 0%nat ltac:(lia)) as H0; pose proof (H 1%nat ltac:(lia)) as H1; unfold get in *; cbn -[Z.mul Z.add] in H0, H1; destruct i as [|[|]]; lia|].
  split; [intros i j Hi Hj; destruct i as [|[|]], j as [|[|]]; cbn; lia|].
  split; [apply F3; lia|]. intros i j Hi Hj; destruct i as [|[|[|]]], j as [|[|[|]]]; cbn; lia.
Qed.
