(** mat_math.unique_rows and mat_math.tuple (structrans/mat_math.py:83-92).

    An array of integers is the list of its rows.  The bytes of two rows are compared by memcmp; [le] stands for that order,
    about which only that it is a total order is used. *)
From Verif Require Export Py Mat HnfModel ReduceModel.
Local Open Scope Z_scope.

Section Unique.
  Variable le : list Z -> list Z -> bool.
  Variable a : list (list Z).
  Definition row (i : nat) : list Z := nth i a [].

  (** argsort(kind='mergesort') inside np.unique, mat_math.py:85: a stable sort of the row numbers *)
  Fixpoint insert (i : nat) (l : list nat) : list nat :=
    match l with
    | [] => [i]
    | j :: l' => if le (row i) (row j) then i :: l else j :: insert i l'
    end.
  Definition argsort : list nat := fold_right insert [] (seq 0 (length a)).
  (** the flags aux[1:] != aux[:-1] inside np.unique, mat_math.py:85: the numbers of the rows that differ from the one before *)
  Fixpoint firsts (prev : option (list Z)) (l : list nat) : list nat :=
    match l with
    | [] => []
    | i :: l' =>
      if match prev with Some r => row_eqb r (row i) | None => false end then firsts (Some (row i)) l'
      else i :: firsts (Some (row i)) l'
    end.
  (** mat_math.py:83-86 *)
  Definition unique_rows : list (list Z) * list nat :=
    let idx := firsts None argsort in (map row idx, idx).
End Unique.

(** np.arange(start, end), mat_math.py:89 *)
Definition arange (start stop : Z) : list Z := map (fun i => start + Z.of_nat i) (seq 0 (Z.to_nat (stop - start))).
(** mat_math.py:88-92 *)
Definition tuples (start stop : Z) : list (list Z) :=
  let x := arange start stop in flat_map (fun p => flat_map (fun q => map (fun r => [p; q; r]) x) x) x.
