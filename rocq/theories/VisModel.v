(** structrans/crystallography/visualization.py.

    The arguments are numpy arrays of floats (exact reals); E is given by its rows, as the code uses it. *)
From Verif Require Export Py LinAlg RMat RankOneModel.
Local Open Scope R_scope.

(** Outcomes of a call: besides exceptions of Python, the class visualError of this module (lines 5-6) *)
Inductive vis (A : Type) := Val (a : A) | Err (e : exn) | visualError.
Arguments Val {A} a.
Arguments Err {A} e.
Arguments visualError {A}.

(** np.array(E).shape: (number of rows, number of columns) *)
Definition has_shape (n : nat) (E : mat R) : bool := wfb n n E.

(** visualization.py:8-28: None after a message was printed.  [dim] is the argument n. *)
Definition vertex (o : vec R) (E : mat R) (dim : Z) : vis (option (list (vec R))) :=
  let e0 := nth 0 E [] in let e1 := nth 1 E [] in let e2 := nth 2 E [] in
  if (dim =? 3)%Z then
    if has_shape 3 E && (length o =? 3)%nat then
      Val (Some [o;
                 vadd o e0; vadd o e1; vadd o e2;
                 vadd (vadd o e0) e1; vadd (vadd o e1) e2; vadd (vadd o e0) e2;
                 vadd (vadd (vadd o e0) e1) e2])
    else Val None
  else if (dim =? 2)%Z then
    if has_shape 2 E && (length o =? 2)%nat then
      Val (Some [o;
                 vadd o e0; vadd o e1;
                 vadd (vadd o e0) e1])
    else Val None
  else visualError.

(** visualization.py:38-39, 125-126 *)
Definition idx_1 : list nat := [0; 0; 0; 1; 1; 4; 4; 7; 7; 6; 3; 5]%nat.
Definition idx_2 : list nat := [1; 2; 3; 4; 6; 2; 7; 6; 5; 3; 5; 2]%nat.
(** verts[i] for a non-negative i *)
Definition at_row (verts : list (vec R)) (i : nat) : vis (vec R) :=
  match nth_error verts i with Some v => Val v | None => Err IndexError end.
Fixpoint bond_rows (verts : list (vec R)) (idx : list (nat * nat)) : vis (list (vec R * vec R)) :=
  match idx with
  | [] => Val []
  | (i, j) :: idx' =>
    match at_row verts i, at_row verts j, bond_rows verts idx' with
    | Val a, Val b, Val l => Val ((a, b) :: l)
    | _, _, _ => Err IndexError
    end
  end.
(** visualization.py:30-48 and 117-135: len(idx) in line 46 is an int, over which one cannot iterate *)
Definition bonds (verts : list (vec R)) : vis (list (vec R * vec R)) :=
  match verts with
  | [] => Err IndexError
  | v :: _ =>
    if (length v =? 3)%nat then bond_rows verts (combine idx_1 idx_2)
    else if (length v =? 2)%nat then Err TypeError
    else visualError
  end.

(** visualization.py:59-65: the test of one vector; E[:, j]/norm(E[:, j]) is nan for a zero column, and then the
    comparisons are false *)
Definition inside3 (E : mat R) (v : vec R) : bool :=
  forallb (fun j =>
    let e := col E j in
    let vj := dot v (vscale (/ vnorm e) e) in
    negb (Reqb (vnorm e) 0) && Rltb vj (105 / 100 * vnorm e) && Rleb 0 vj) [0; 1; 2]%nat.
(** visualization.py:71-74 *)
Definition inside2 (E : mat R) (v : vec R) : bool :=
  let cr := vnorm (col E 0) + vnorm (col E 1) in
  let w := mkv 2 (fun j => dot v (col E j)) in
  Rleb (vnorm w) (105 / 100 * cr).
(** What box returns: a list of vectors, or a single vector with three zeros *)
Inductive boxed := Rows (l : list (vec R)) | Zeros.
(** visualization.py:79-82 *)
Definition pack (l : list (vec R)) : boxed := match l with [] => Zeros | _ => Rows l end.
(** visualization.py:50-82, for a list of vectors of the same length *)
Definition box (v_list : list (vec R)) (E : mat R) (dim : Z) : vis (option boxed) :=
  if (dim =? 3)%Z then
    match v_list with
    | [] => if has_shape 3 E then Err IndexError else Val None
    | v :: _ => if has_shape 3 E && (length v =? 3)%nat then Val (Some (pack (filter (inside3 E) v_list))) else Val None
    end
  else if (dim =? 2)%Z then
    match v_list with
    | [] => if has_shape 2 E then Err IndexError else Val (Some (pack []))
    | v :: _ => if has_shape 2 E && (length v =? 2)%nat then Val (Some (pack (filter (inside2 E) v_list))) else Val (Some (pack []))
    end
  else visualError.

(** bravais_lattice.py:14: the names of the parameters of BravaisLattice.__init__ *)
Inductive kwarg := latID | latParam | dim | N.
Definition BravaisLattice_params : list kwarg := [latID; latParam; dim].
Definition kw_eqb (a b : kwarg) : bool :=
  match a, b with latID, latID | latParam, latParam | dim, dim | N, N => true | _, _ => false end.
(** calling a function with keyword arguments that are not parameters raises a TypeError *)
Definition call_kw {A} (params kws : list kwarg) (body : res A) : res A :=
  if forallb (fun k => existsb (kw_eqb k) params) kws then body else Raise TypeError.
(** visualization.py:107-113: [new] is BravaisLattice(lat_ID, lat_Params), of whatever type its objects are *)
Definition UnitCell {L} (new : res L) (origin : vec R) (n : Z) : res (L * vec R * Z) :=
  let* lattice := call_kw BravaisLattice_params [N] new in
  Ok (lattice, origin, n).
