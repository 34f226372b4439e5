(** Python run-time values shared by all models: results with exceptions. *)
From Coq Require Export List Arith ZArith Lia Bool.
Export ListNotations.

(** The exception classes raised anywhere in the modelled code. *)
Inductive exn :=
| ValueError | TypeError | AttributeError | IndexError | KeyError
| ZeroDivisionError | OverflowError | StopIteration | NameError
| UnboundLocalError | LinAlgError | CompatibilityError | NaN.
(* [NaN] is not an exception in Python: numpy computes nan and continues.  The
   model stops at the first nan/inf and reports it as this outcome. *)

(** Outcome of a call: a value, a raised exception, or "ran out of the fuel the
    model gives a while loop" (never a Python outcome). *)
Inductive res (A : Type) :=
| Ok (a : A)
| Raise (e : exn)
| NoFuel.
Arguments Ok {A} a.
Arguments Raise {A} e.
Arguments NoFuel {A}.

Definition bind {A B} (r : res A) (f : A -> res B) : res B :=
  match r with Ok a => f a | Raise e => Raise e | NoFuel => NoFuel end.

Notation "'let*' x := r 'in' k" := (bind r (fun x => k))
  (at level 200, x pattern, r at level 100, k at level 200, right associativity).

Definition is_ok {A} (r : res A) : bool := match r with Ok _ => true | _ => false end.

Fixpoint mapM {A B} (f : A -> res B) (l : list A) : res (list B) :=
  match l with
  | [] => Ok []
  | x :: xs => let* y := f x in let* ys := mapM f xs in Ok (y :: ys)
  end.

(** Python list/array subscription [l[i]] with negative indices.
    CPython: index i is valid iff -len <= i < len. *)
Definition py_index {A} (l : list A) (i : Z) : res A :=
  let n := Z.of_nat (length l) in
  let j := if (i <? 0)%Z then (i + n)%Z else i in
  if ((0 <=? j) && (j <? n))%Z
  then match nth_error l (Z.to_nat j) with Some a => Ok a | None => Raise IndexError end
  else Raise IndexError.

(** Python [range(a, b)] over integers. *)
Definition zrange (a b : Z) : list Z :=
  map (fun k => (a + Z.of_nat k)%Z) (seq 0 (Z.to_nat (b - a))).

Lemma in_zrange a b x : In x (zrange a b) <-> (a <= x < b)%Z.
Proof.
  unfold zrange. rewrite in_map_iff. split.
  - intros [k [<- Hk]]. apply in_seq in Hk. lia.
  - intros H. exists (Z.to_nat (x - a)). split; [lia|]. apply in_seq. lia.
Qed.

Lemma zrange_length a b : length (zrange a b) = Z.to_nat (b - a).
Proof. unfold zrange. now rewrite map_length, seq_length. Qed.
