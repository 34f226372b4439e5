(** Model of class Lattice, crystallography/lattice.py.  A lattice object is its base matrix
    (the caches of the groups only avoid recomputation; sharing of the array with the caller is
    modelled with the other heap effects, C66).  Floats are exact reals. *)
From Verif Require Export LinAlg GroupModel ReduceModel.
Local Open Scope R_scope.

(** lattice.py:192-195 _is_square_mat, for an array given as nested rows.  np.array([]) is 1-d. *)
Definition is_square {A} (M : mat A) : bool := (0 <? length M)%nat && wfb (length M) (length M) M.

(** lattice.py:13-30.  Every exception inside the try becomes ValueError. *)
Definition new_lattice (E : mat R) : res (mat R) :=
  if is_square E then if Rleb (det E * det E) 0 then Raise ValueError else Ok E
  else Raise ValueError.

(** np.rint of an array, as integers *)
Definition rintm (A : mat R) : mat Z := mmap rint A.

(** lattice.py:172-184  self == other, for two Lattice objects *)
Definition lat_eq (E1 E2 : mat R) : res bool :=
  if (length E1 =? length E2)%nat then
    let* I1 := inv E1 in
    let A := mmul I1 E2 in
    Ok (allclose A (RZ (rintm A)))
  else Ok false.

(** an array of dtype int or float *)
Inductive nparray := IntArr (M : mat Z) | FltArr (M : mat R).
Definition values (Q : nparray) : mat R := match Q with IntArr M => RZ M | FltArr M => M end.

(** lattice.py:198-206  _in_O3.  The integer branch computes la.det in floating point, here exactly. *)
Definition in_O3 (Q : nparray) : bool :=
  match Q with
  | IntArr M => is_square M && ((Z.abs (det M) =? 1)%Z && mat_eqb (mmul M (tr M)) (eye (length M)))
  | FltArr M => is_square M && (Rltb (Rabs (Rabs (det M) - 1)) (1 / 1000000) &&
                                allclose (mmul M (tr M)) (eye (length M)))
  end.

(** lattice.py:53-67 *)
Definition inpointgroup (E : mat R) (Q : nparray) : res bool :=
  if in_O3 Q then
    if (length (values Q) =? length E)%nat then
      let* E' := new_lattice (mmul (values Q) E) in lat_eq E E'
    else Ok false
  else Ok false.

(** lattice.py:69-85, for a matrix M of the right shape *)
Definition inlatticegroup (E : mat R) (M : mat R) : res bool :=
  if allclose M (RZ (rintm M)) then
    let* Ei := inv E in Ok (in_O3 (FltArr (mmul (mmul E M) Ei)))
  else Ok false.

(** [Q for Q in T if self.inpointgroup(Q)] *)
Fixpoint keep (E : mat R) (T : list nparray) : res (list (mat R)) :=
  match T with
  | [] => Ok []
  | Q :: T' =>
    let* b := inpointgroup E Q in
    let* r := keep E T' in
    Ok (if b then values Q :: r else r)
  end.

(** the tables: matrices() yields np.array(m) for each m, of dtype int when all its entries are
    ints (matrix_group.py:82-87); in the hexagonal tables those are the elements without C1, S1 *)
Definition cubic_arr : list nparray := map IntArr CUBIC_LAUE_GROUP.
Definition square_arr : list nparray := map IntArr SQUARE_GROUP.
Definition square_ext_arr : list nparray := map IntArr SQUARE_EXT_GROUP.
(** For the integer elements of the hexagonal tables the float test of _in_O3 is used; both tests accept
    every element of the tables (LatticeProofs.v, in_O3_float, in_O3_int). *)
Definition hex_arr : list nparray := map FltArr HEX_LAUE_GROUP.
Definition hex2d_arr : list nparray := map FltArr HEX2D_GROUP.
Definition hex2d_ext_arr : list nparray := map FltArr HEX2D_EXT_GROUP.

(** lattice.py:93-106 and 122-129: the first table; if the result has [k] elements, try the second *)
Definition pick_group (E : mat R) (T1 T2 : list nparray) (k : nat) : res (list (mat R)) :=
  let* g := keep E T1 in
  if (length g =? k)%nat then
    let* h := keep E T2 in Ok (if (length g <? length h)%nat then h else g)
  else Ok g.

(** lattice.py:87-107; the dimension is len(E) *)
Definition Laue_group (E : mat R) : res (list (mat R)) :=
  match length E with
  | 3%nat => pick_group E cubic_arr hex_arr 4
  | 2%nat => pick_group E square_arr hex2d_arr 2
  | _ => Raise AttributeError
  end.

(** lattice.py:113-130 *)
Definition point_group (E : mat R) : res (list (mat R)) :=
  match length E with
  | 3%nat => let* lg := Laue_group E in Ok (lg ++ map mopp lg)
  | 2%nat => pick_group E square_ext_arr hex2d_ext_arr 4
  | _ => Raise AttributeError
  end.

(** lattice.py:144-147 and 162-165 *)
Definition to_integer_rep (E : mat R) (G : list (mat R)) : res (list (mat Z)) :=
  let* Ei := inv E in Ok (map (fun Q => rintm (mmul Ei (mmul Q E))) G).
(** lattice.py:136-148 *)
Definition special_lattice_group (E : mat R) : res (list (mat Z)) :=
  let* G := Laue_group E in to_integer_rep E G.
(** lattice.py:154-166 *)
Definition lattice_group (E : mat R) : res (list (mat Z)) :=
  let* G := point_group E in to_integer_rep E G.
