(** structrans/mat_math.py: helpers for arrays of matrices, each matrix flattened to a row, and cofactor, with its copy in
    marttrans/twin.py.  unique_rows and tuple are in UniqueModel.v; mat_eig is in MatEigModel.v; eigSort is in RankOneModel.v ([sort_eig]).

    The module uses xrange without defining it: under Python 3 every use raises a NameError.  The entries are of any type
    with ring operations (ints or exact floats).  An array of shape (N, m) is the list of its N rows of length m.  All
    column indices are below d ** 2, so that for rows of length d ** 2 no IndexError is possible. *)
From Verif Require Export Py Mat RankOneModel.

Section Batch.
  Context {A : Type} {O : Ops A}.
  Variable py3 : bool.

  (** l[:, c] *)
  Definition getcol (l : list (vec A)) (c : nat) : vec A := map (fun r => vget r c) l.
  (** an elementwise binary operation on arrays of the same length *)
  Fixpoint zipw {X Y Z} (f : X -> Y -> Z) (u : list X) (v : list Y) : list Z :=
    match u, v with
    | x :: u', y :: v' => f x y :: zipw f u' v'
    | _, _ => []
    end.
  (** r with entry c replaced by x *)
  Fixpoint upd (c : nat) (x : A) (r : vec A) : vec A :=
    match r, c with
    | [], _ => []
    | _ :: r', 0 => x :: r'
    | y :: r', S c' => y :: upd c' x r'
    end.
  (** l[:, c] = v *)
  Definition setcol (l : list (vec A)) (c : nat) (v : vec A) : list (vec A) := zipw (upd c) v l.
  (** int(sqrt(len(l[0]))) *)
  Definition side (l : list (vec A)) : res nat :=
    match l with
    | [] => Raise IndexError
    | r :: _ => Ok (Nat.sqrt (length r))
    end.
  (** for i in xrange(d): for j in xrange(d) *)
  Definition pairs (d : nat) : list (nat * nat) := flat_map (fun i => map (fun j => (i, j)) (seq 0 d)) (seq 0 d).

  (** mat_math.py:14-28.  For arrays with different numbers of rows the product in line 26 does not broadcast and raises a
      ValueError; a single row, which does broadcast, is not modelled. *)
  Definition mat_dot (la lb : list (vec A)) : res (list (vec A)) :=
    let* d := side la in
    let lc := map (fun r => map (fun _ => zero) r) la in
    if py3 then Raise NameError else
    if negb (length la =? length lb) then Raise ValueError else
    Ok (fold_left (fun lc ij => let '(i, j) := ij in
          fold_left (fun lc k =>
            setcol lc (i * d + j) (zipw add (getcol lc (i * d + j)) (zipw mul (getcol la (i * d + k)) (getcol lb (k * d + j)))))
          (seq 0 d) lc) (pairs d) lc).

  (** mat_math.py:31-39.  [mem] is the content of the memory that np.empty returns. *)
  Definition mat_trace (mem : vec A) (l : list (vec A)) : res (vec A) :=
    let* d := side l in
    if py3 then Raise NameError else
    Ok (fold_left (fun t i => zipw add t (getcol l (i * d + i))) (seq 0 d) mem).

  (** mat_math.py:65-73.  [mem] is the content of the array that np.empty_like returns. *)
  Definition mat_T (mem l : list (vec A)) : res (list (vec A)) :=
    let* d := side l in
    if py3 then Raise NameError else
    Ok (fold_left (fun T ij => let '(i, j) := ij in setcol T (i * d + j) (getcol l (j * d + i))) (pairs d) mem).

  (** mat_math.py:55-58 *)
  Definition rm_idx (d n : nat) : list nat := seq 0 d ++ map (fun i => i * d + n) (seq 1 (d - 1)).
  Definition mn_idx (d n : nat) : list nat :=
    filter (fun i => negb (existsb (Nat.eqb i) (rm_idx d n))) (seq 0 (d * d)).
  (** mat_math.py:53 *)
  Definition sign (n : nat) : A := if Nat.even n then one else opp one.
  (** l[:, idx] *)
  Definition getcols (l : list (vec A)) (idx : list nat) : list (vec A) := map (fun r => map (vget r) idx) l.
  (** mat_math.py:41-63: the depth of the recursion is bounded by [fuel]; an empty list makes l[0] raise an IndexError,
      which is caught (lines 44-45). *)
  Fixpoint mat_det_fuel (fuel : nat) (l : list (vec A)) : res (vec A) :=
    let d := match side l with Ok d => d | _ => 1 end in
    if d =? 1 then Ok (concat l) else
    if py3 then Raise NameError else
    match fuel with
    | 0 => NoFuel
    | S fuel =>
      fold_left (fun det n =>
        let* det := det in
        let* minor := mat_det_fuel fuel (getcols l (mn_idx d n)) in
        Ok (zipw add det (zipw mul (map (mul (sign n)) (getcol l n)) minor))) (seq 0 d) (Ok (map (fun _ => zero) l))
    end.
  Definition mat_det (l : list (vec A)) : res (vec A) := mat_det_fuel (length (nth 0 l [])) l.
End Batch.

Local Open Scope R_scope.
(** What cofactor returns: an array or, after printing a message, None *)
(** mat_math.py:107-110: np.delete(A, i, axis=0), np.delete(a, j, axis=1), det; the entries in row-major order *)
Definition cof_entries (A : mat R) (m : nat) : list R :=
  flat_map (fun i => map (fun j => (-1) ^ (i + j) * det (map (drop j) (drop i A))) (seq 0 m)) (seq 0 m).
(** np.array(minor).reshape(3, 3) *)
Definition reshape33 (l : list R) : res (mat R) :=
  if (length l =? 9)%nat then Ok [firstn 3 l; firstn 3 (skipn 3 l); skipn 6 l] else Raise ValueError.
(** mat_math.py:102-114, for an array of shape (m, n) *)
Definition cofactor (py3 : bool) (m n : nat) (A : mat R) : res (option (mat R)) :=
  if (m =? n)%nat then
    if py3 then Raise NameError else let* M := reshape33 (cof_entries A m) in Ok (Some M)
  else Ok None.
(** twin.py:494-506: xrange is defined in this module *)
Definition twin_brute_cof (m n : nat) (A : mat R) : res (mat R) :=
  if (m =? n)%nat then reshape33 (cof_entries A m) else Raise TypeError.
