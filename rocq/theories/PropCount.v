(** Property C96: how many Hermite normal forms there are.  Specification: HnfCountSpec.v; model: HnfModel.v. *)
From Coq Require Import Lia.
From Verif Require Import HnfModel HnfCountSpec HnfCount.
Local Open Scope Z_scope.

(** For every diagonal d_0, ..., d_(N-1) of positive numbers: d_1 d_2^2 ... d_(N-1)^(N-1) matrices. *)
Theorem C96_diag : forall dg, (forall d, In d dg -> 0 < d) -> Z.of_nat (length (hnf_from_diag dg)) = powers 0 dg.
Proof. exact count_diag. Qed.
Print Assumptions C96_diag.
(** For every determinant and dimension. *)
Theorem C96_det : forall n N, 0 < n -> (0 < N)%nat ->
  exists l, hnf_from_det n N = Ok (Some l) /\ Z.of_nat (length l) = sublattices N n.
Proof. exact count_det. Qed.
Print Assumptions C96_det.

Lemma sub1 n : 0 < n -> sublattices 1 n = 1.
Proof.
  intros Hn. cbn [sublattices]. unfold divisor_sum, divisors_of. replace (Z.to_nat n) with (S (Z.to_nat (n - 1))) by lia.
  cbn [seq map filter]. change (Z.of_nat 1) with 1. rewrite Z.mod_1_r. cbn [Z.eqb map fold_right Pos.eqb].
  assert (K : forall l, (forall d, In d l -> 1 < d) -> fold_right Z.add 0 (map (fun m => m * (if m =? 1 then 1 else 0)) l) = 0).
  { induction l as [|x l IH]; intros Hl; [reflexivity|]. cbn [map fold_right]. rewrite IH by (intros; apply Hl; now right).
    destruct (Z.eqb_spec x 1); [specialize (Hl x (or_introl eq_refl)); lia|lia]. }
  rewrite K; [reflexivity|]. intros d Hd. apply filter_In in Hd. destruct Hd as [Hd _]. apply in_map_iff in Hd. destruct Hd as (k & <- & Hk). apply in_seq in Hk. lia.
Qed.
(** In two dimensions: the sum of the divisors of n.  In three dimensions: the sum of m sigma(m) over the divisors m of n. *)
Theorem C96_two_three : forall n, 0 < n ->
  (exists l, hnf_from_det n 2 = Ok (Some l) /\ Z.of_nat (length l) = sigma n) /\
  (exists l, hnf_from_det n 3 = Ok (Some l) /\ Z.of_nat (length l) = divisor_sum n (fun m => m * sigma m)).
Proof.
  intros n Hn.
  assert (S2 : forall n, 0 < n -> sublattices 2 n = sigma n).
  { intros m Hm. change (lsum (fun d => d * sublattices 1 d) (divisors_of m) = lsum (fun d => d) (divisors_of m)). apply lsum_ext.
    intros d Hd. apply in_divisors_of in Hd; [|exact Hm]. rewrite sub1 by lia. lia. }
  split.
  - destruct (count_det n 2 Hn ltac:(lia)) as (l & E & L). exists l. now rewrite L, S2.
  - destruct (count_det n 3 Hn ltac:(lia)) as (l & E & L). exists l. split; [exact E|]. rewrite L.
    change (lsum (fun d => d * sublattices 2 d) (divisors_of n) = lsum (fun d => d * sigma d) (divisors_of n)). apply lsum_ext.
    intros d Hd. apply in_divisors_of in Hd; [|exact Hn]. rewrite S2 by lia. reflexivity.
Qed.
Print Assumptions C96_two_three.
Example C96_case : powers 0 [2; 3; 2] = 12 /\ sigma 6 = 12 /\ divisor_sum 4 (fun m => m * sigma m) = 35 /\ sublattices 4 6 = 600.
Proof. repeat split. Qed.
