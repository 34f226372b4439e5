(** Model of crystallography/hnf.py (= crystallography/sublattice.py, the two
    files are identical) and of util/utils.py:31-44. *)
From Verif Require Export Mat.
From Coq Require Import QArith Qcanon Qround.
Local Open Scope Z_scope.

(** util/utils.py:31-44  divisors.
    [xrange(int(np.floor(n / 2)))] is [zrange 0 (n / 2)] (floor division); the
    float n/2 is exact.  [n % (i+1)] has a positive divisor: Python's and Coq's
    [mod] agree. *)
Definition divisors (n : Z) : list Z :=
  map (fun i => i + 1) (filter (fun i => n mod (i + 1) =? 0) (zrange 0 (n / 2))) ++ [n].

(** M[i, j] = v, on a copy (hnf.py:23-24). *)
Definition set_entry (M : mat Z) (i j : nat) (v : Z) : mat Z :=
  mk (nrows M) (ncols M)
     (fun a b => if (a =? i)%nat && (b =? j)%nat then v else get M a b).

(** hnf.py:19-27  set_ij. *)
Definition set_ij (hnfs : list (mat Z)) (modif : nat * nat * Z) : list (mat Z) :=
  let '(i, j, v) := modif in
  hnfs ++ map (fun H => set_entry H i j v) (filter (fun H => get H i j =? 0) hnfs).

(** hnf.py:29  the generator [modifs]. *)
Definition modifs (diagl : list Z) : list (nat * nat * Z) :=
  flat_map (fun i =>
    flat_map (fun j =>
      map (fun d => (i, j, - d)) (zrange 1 (nth i diagl 0)))
    (seq 0 i))
  (seq 0 (length diagl)).

(** hnf.py:10-31  hnf_from_diag (on a list of ints). *)
Definition hnf_from_diag (diagl : list Z) : list (mat Z) :=
  fold_left set_ij (modifs diagl) [diag diagl].

(** itertools.product(l, repeat=N), in its order. *)
Fixpoint product {A} (l : list A) (N : nat) : list (list A) :=
  match N with
  | O => [[]]
  | S k => flat_map (fun x => map (cons x) (product l k)) l
  end.

Definition prodl (d : list Z) : Z := fold_left Z.mul d 1.

(** hnf.py:33-51  hnf_from_det.  [None] is Python's None (no diagonal found).
    N = 0: itertools.product yields one empty tuple and reduce(mul, ()) raises
    TypeError (hnf.py:44). *)
Definition hnf_from_det (n : Z) (N : nat) : res (option (list (mat Z))) :=
  if n <? 0 then Raise ValueError
  else match N with
  | O => Raise TypeError
  | _ =>
    match filter (fun d => prodl d =? n) (product (divisors n) N) with
    | [] => Ok None
    | ds => Ok (Some (flat_map hnf_from_diag ds))
    end
  end.

(** The two uses of [/] in hnf.py, which has no [from __future__ import division]
    of its own (general_imports does, but that is per module): [fdiv a b] is
    int(math.floor(a/b)), [cdiv a b] is int(math.ceil(a/b)). *)
Record division := { fdiv : Z -> Z -> res Z; cdiv : Z -> Z -> res Z }.

(** Python 3: true division of numpy ints, here in exact arithmetic (for binary64
    see FloatDiv.v).  x/0 is inf or nan (numpy warns); floor/ceil of these raise
    OverflowError resp. ValueError. *)
Definition py3 : division := {|
  fdiv a b := if b =? 0 then Raise (if a =? 0 then ValueError else OverflowError) else Ok (a / b);
  cdiv a b := if b =? 0 then Raise (if a =? 0 then ValueError else OverflowError) else Ok (- ((- a) / b)) |}.

(** Python 2: floor division of numpy ints; division by zero gives 0 (with a
    warning). floor and ceil of an int are the int. *)
Definition py2 : division := {|
  fdiv a b := if b =? 0 then Ok 0 else Ok (a / b);
  cdiv a b := if b =? 0 then Ok 0 else Ok (a / b) |}.

(** hnf.py:54-59  __swap_cols. *)
Definition swap_cols (M : mat Z) (c1 c2 : nat) : mat Z :=
  mk (nrows M) (ncols M) (fun i j =>
    if (j =? c2)%nat then get M i c1 else if (j =? c1)%nat then get M i c2 else get M i j).

(** hnf.py:61-66  __add_col: column c1 += t * column c2. *)
Definition add_col (M : mat Z) (c1 c2 : nat) (t : Z) : mat Z :=
  mk (nrows M) (ncols M) (fun i j =>
    if (j =? c1)%nat then get M i c1 + t * get M i c2 else get M i j).

(** hnf.py:68-74  __nonneg_row with r = 0 (the only use).  The loop tests M[0, j]
    for each j once and changes only column j, so it is one pass. *)
Definition nonneg_row0 (M : mat Z) : mat Z :=
  mk (nrows M) (ncols M) (fun i j => if get M 0 j <? 0 then - get M i j else get M i j).

(** hnf.py:82-85  the while loop of __gcd_cols. *)
Fixpoint gcd_loop (D : division) (fuel : nat) (M : mat Z) (c1 c2 : nat) : res (mat Z) :=
  if get M 0 c2 =? 0 then Ok M
  else match fuel with
  | O => NoFuel
  | S f =>
    let* t := fdiv D (get M 0 c1) (get M 0 c2) in
    gcd_loop D f (swap_cols (add_col M c1 c2 (- t)) c1 c2) c1 c2
  end.

(** Fuel for the Euclidean loop: logarithmic in the entry. *)
Definition gcd_fuel (M : mat Z) (c1 c2 : nat) : nat :=
  2 * Z.to_nat (Z.log2 (Z.abs (get M 0 c2)) + 1) + 1.

(** hnf.py:76-87  __gcd_cols. *)
Definition gcd_cols (D : division) (M : mat Z) (c1 c2 : nat) : res (mat Z) :=
  let M := if get M 0 c1 <? get M 0 c2 then swap_cols M c1 c2 else M in
  gcd_loop D (gcd_fuel M c1 c2) M c1 c2.

(** hnf.py:107-108  for i in xrange(m - 1): H = __gcd_cols(H, -i-2, -i-1).
    [clear_row D k H] performs the remaining steps for the columns
    (k-1, k), (k-2, k-1), ..., (0, 1): columns -i-2 = m-2-i and -i-1 = m-1-i. *)
Fixpoint clear_row (D : division) (k : nat) (H : mat Z) : res (mat Z) :=
  match k with
  | O => Ok H
  | S j => let* H' := gcd_cols D H j (S j) in clear_row D j H'
  end.

(** H[1:, 1:] and H[1:, 1:] = S (hnf.py:110-111). *)
Definition subblock (H : mat Z) : mat Z :=
  mk (nrows H - 1) (ncols H - 1) (fun i j => get H (S i) (S j)).
Definition set_subblock (H S : mat Z) : mat Z :=
  mk (nrows H) (ncols H) (fun i j =>
    match i, j with S i', S j' => get S i' j' | _, _ => get H i j end).

(** hnf.py:114-117  body of the last loop. *)
Definition fix_row (D : division) (H : mat Z) (i : nat) : res (mat Z) :=
  if (ncols H <=? i)%nat then Raise IndexError else
  let* H := (if 0 <? get H i 0
             then let* q := cdiv D (get H i 0) (get H i i) in Ok (add_col H 0 i (- q))
             else Ok H) in
  if get H i 0 <=? - get H i i
  then let* q := fdiv D (- get H i 0) (get H i i) in Ok (add_col H 0 i q)
  else Ok H.

(** hnf.py:113-117  for i in xrange(1, H.shape[0]). *)
Fixpoint fix_rows (D : division) (is : list nat) (H : mat Z) : res (mat Z) :=
  match is with
  | [] => Ok H
  | i :: is' => let* H' := fix_row D H i in fix_rows D is' H'
  end.

(** hnf.py:98-119  hnfd(M, onlyH=True) for an array with m columns. Recursion on
    the number of columns.  m = 0: the recursion strips rows until H[0] fails. *)
Fixpoint hnf_H (D : division) (m : nat) (M : mat Z) : res (mat Z) :=
  match M with
  | [] => Raise IndexError
  | _ :: _ =>
    match m with
    | O => Raise IndexError
    | S O => Ok (if 0 <? get M 0 0 then M else mopp M)
    | S (S _ as m') =>
      let* H := clear_row D m' (nonneg_row0 M) in
      let* Hsub := hnf_H D m' (subblock H) in
      fix_rows D (seq 1 (nrows M - 1)) (set_subblock H Hsub)
    end
  end.

(** np.rint on an exact rational: nearest integer, ties to even. *)
Definition rintQ (q : Qc) : Z :=
  let f := Qfloor q in
  match Qcompare (q - inject_Z f)%Q (1 # 2) with
  | Lt => f
  | Gt => f + 1
  | Eq => if Z.even f then f else f + 1
  end.

(** la.inv(H).dot(M) (hnf.py:121) in exact rational arithmetic, for the lower
    triangular H at hand: forward substitution, row by row.  LinAlgError if a
    diagonal entry is 0 (H singular). *)
Definition Q2Qc' (z : Z) : Qc := Q2Qc (inject_Z z).
Fixpoint qsum (n : nat) (f : nat -> Qc) : Qc :=
  match n with O => 0%Qc | S k => (qsum k f + f k)%Qc end.
Fixpoint fsubst (H M : mat Z) (m i : nat) : res (list (list Qc)) :=
  match i with
  | O => Ok []
  | S k =>
    let* X := fsubst H M m k in
    if get H k k =? 0 then Raise LinAlgError
    else Ok (X ++ [map (fun j =>
      ((Q2Qc' (get M k j)
        - qsum k (fun l => Q2Qc' (get H k l) * nth j (nth l X []) 0%Qc)) / Q2Qc' (get H k k))%Qc)
      (seq 0 m)])
  end.

(** hnf.py:89-121  hnfd(M) -> (H, L).  One column: (H, [1]) or (-H, [-1])
    without looking at the other rows.  A non-square H makes la.inv raise
    LinAlgError; for one column and square M the general formula is not used. *)
Definition hnfd (D : division) (M : mat Z) : res (mat Z * mat Z) :=
  match M with
  | [] => Raise IndexError
  | _ =>
    match ncols M with
    | 1%nat => Ok (if 0 <? get M 0 0 then (M, eye 1) else (mopp M, mopp (eye 1)))
    | m =>
      let* H := hnf_H D m M in
      if (nrows H =? m)%nat then
        let* X := fsubst H M m m in
        Ok (H, map (map rintQ) X)
      else Raise LinAlgError
    end
  end.
