(** Specification vocabulary for C96: divisor sums. *)
From Coq Require Import ZArith List.
Import ListNotations.
Local Open Scope Z_scope.

(** the numbers 1 <= d <= n that divide n *)
Definition divisors_of (n : Z) : list Z := filter (fun d => n mod d =? 0) (map Z.of_nat (seq 1 (Z.to_nat n))).
(** f summed over the divisors of n *)
Definition divisor_sum (n : Z) (f : Z -> Z) : Z := fold_right Z.add 0 (map f (divisors_of n)).
(** the sum of the divisors *)
Definition sigma (n : Z) : Z := divisor_sum n (fun d => d).
(** the number of sublattices of index n of an N-dimensional lattice: 1, sigma(n), the sum of m sigma(m) over the divisors m of n, ... *)
Fixpoint sublattices (N : nat) (n : Z) : Z :=
  match N with O => if n =? 1 then 1 else 0 | S N' => divisor_sum n (fun m => m * sublattices N' m) end.
(** d_k^k d_(k+1)^(k+1) ... *)
Fixpoint powers (k : Z) (dg : list Z) : Z := match dg with [] => 1 | d :: r => d ^ k * powers (k + 1) r end.
