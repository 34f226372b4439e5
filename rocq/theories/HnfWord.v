(** Model of hnfd (crystallography/hnf.py:54-121) on arrays of machine integers: numpy stores the entries in W bits and
    lets the operations on arrays wrap around silently.  HnfModel.v is the same code on integers without a bound. *)
From Verif Require Export HnfModel.
Local Open Scope Z_scope.

(** the W bit two's complement value of z: what numpy's +, * and unary - leave in an array of that type *)
Definition wrap (W : Z) (z : Z) : Z := (z + 2 ^ (W - 1)) mod 2 ^ W - 2 ^ (W - 1).
(** z is a W bit integer *)
Definition in_word (W z : Z) : bool := (- 2 ^ (W - 1) <=? z) && (z <? 2 ^ (W - 1)).

(** hnf.py:61-66  __add_col: M[:, c1] += t * M[:, c2].  The product and the sum wrap.  t is a Python int: numpy raises
    OverflowError if it does not fit (numpy >= 2; older releases go on with other types, which is not modelled). *)
Definition add_colw (W : Z) (M : mat Z) (c1 c2 : nat) (t : Z) : res (mat Z) :=
  if in_word W t then Ok (mk (nrows M) (ncols M) (fun i j =>
    if (j =? c1)%nat then wrap W (get M i c1 + wrap W (t * get M i c2)) else get M i j))
  else Raise OverflowError.

(** hnf.py:68-74  __nonneg_row with r = 0: M[:, j] *= -1 wraps. *)
Definition nonneg_row0w (W : Z) (M : mat Z) : mat Z :=
  mk (nrows M) (ncols M) (fun i j => if get M 0 j <? 0 then wrap W (- get M i j) else get M i j).

(** hnf.py:82-85  the while loop of __gcd_cols; fuel as in HnfModel.v. *)
Fixpoint gcd_loopw (W : Z) (D : division) (fuel : nat) (M : mat Z) (c1 c2 : nat) : res (mat Z) :=
  if get M 0 c2 =? 0 then Ok M
  else match fuel with
  | O => NoFuel
  | S f =>
    let* t := fdiv D (get M 0 c1) (get M 0 c2) in
    let* N := add_colw W M c1 c2 (- t) in
    gcd_loopw W D f (swap_cols N c1 c2) c1 c2
  end.

(** hnf.py:76-87  __gcd_cols. *)
Definition gcd_colsw (W : Z) (D : division) (M : mat Z) (c1 c2 : nat) : res (mat Z) :=
  let M := if get M 0 c1 <? get M 0 c2 then swap_cols M c1 c2 else M in
  gcd_loopw W D (gcd_fuel M c1 c2) M c1 c2.

(** hnf.py:107-108 *)
Fixpoint clear_roww (W : Z) (D : division) (k : nat) (H : mat Z) : res (mat Z) :=
  match k with
  | O => Ok H
  | S j => let* H' := gcd_colsw W D H j (S j) in clear_roww W D j H'
  end.

(** hnf.py:114-117  body of the last loop; - H[i, i] and - H[i, 0] are machine integers. *)
Definition fix_roww (W : Z) (D : division) (H : mat Z) (i : nat) : res (mat Z) :=
  if (ncols H <=? i)%nat then Raise IndexError else
  let* H := (if 0 <? get H i 0
             then let* q := cdiv D (get H i 0) (get H i i) in add_colw W H 0 i (- q)
             else Ok H) in
  if get H i 0 <=? wrap W (- get H i i)
  then let* q := fdiv D (wrap W (- get H i 0)) (get H i i) in add_colw W H 0 i q
  else Ok H.

(** hnf.py:113-117 *)
Fixpoint fix_rowsw (W : Z) (D : division) (is : list nat) (H : mat Z) : res (mat Z) :=
  match is with
  | [] => Ok H
  | i :: is' => let* H' := fix_roww W D H i in fix_rowsw W D is' H'
  end.

(** hnf.py:98-119  hnfd(M, onlyH=True); -H wraps. *)
Definition moppw (W : Z) (M : mat Z) : mat Z := mk (nrows M) (ncols M) (fun i j => wrap W (- get M i j)).
Fixpoint hnf_Hw (W : Z) (D : division) (m : nat) (M : mat Z) : res (mat Z) :=
  match M with
  | [] => Raise IndexError
  | _ :: _ =>
    match m with
    | O => Raise IndexError
    | S O => Ok (if 0 <? get M 0 0 then M else moppw W M)
    | S (S _ as m') =>
      let* H := clear_roww W D m' (nonneg_row0w W M) in
      let* Hsub := hnf_Hw W D m' (subblock H) in
      fix_rowsw W D (seq 1 (nrows M - 1)) (set_subblock H Hsub)
    end
  end.

(** hnf.py:89-121  hnfd(M) -> (H, L) on an array of W bit integers.  Only the integer arithmetic and the quotients are those
    of the machine: la.inv(H).dot(M) (line 121) is exact, as in HnfModel.v. *)
Definition hnfdw (W : Z) (D : division) (M : mat Z) : res (mat Z * mat Z) :=
  match M with
  | [] => Raise IndexError
  | _ =>
    match ncols M with
    | 1%nat => Ok (if 0 <? get M 0 0 then (M, eye 1) else (moppw W M, mopp (eye 1)))
    | m =>
      let* H := hnf_Hw W D m M in
      if (nrows H =? m)%nat then
        let* X := fsubst H M m m in
        Ok (H, map (map rintQ) X)
      else Raise LinAlgError
    end
  end.
