(** Arrays shared with the caller: Lattice, BravaisLattice and Martensite objects as references into a heap of numpy arrays.
    An array is a stack of matrices: a matrix is a stack of one, a vector a stack of one matrix of one row.  The caller changes
    arrays one element at a time, which leaves their shapes alone.  Numbers are exact reals. *)
From Verif Require Export LatticeModel BravaisModel MartModel.
Local Open Scope R_scope.

Definition array := list (mat R).
Definition heap := list array.
Definition arr (h : heap) (l : nat) : array := nth l h [].
Definition mat_at (h : heap) (l : nat) : mat R := nth 0 (arr h l) [].
Definition vec_at (h : heap) (l : nat) : vec R := nth 0 (mat_at h l) [].
Fixpoint update {A} (s : list A) (i : nat) (f : A -> A) : list A :=
  match s, i with
  | [], _ => []
  | a :: s, 0%nat => f a :: s
  | a :: s, S i => a :: update s i f
  end.
(** a[k, i, j] = x, in place *)
Definition poke (h : heap) (l k i j : nat) (x : R) : heap :=
  update h l (fun a => update a k (fun M => update M i (fun r => update r j (fun _ => x)))).

(** an argument: a nested list, of which np.array makes a new array, or an array *)
Inductive harg := Nested (M : mat R) | Shared (l : nat).
(** if not isinstance(E, np.ndarray): E = np.array(E) *)
Definition take (h : heap) (a : harg) : heap * nat :=
  match a with Nested M => (h ++ [[M]], length h) | Shared l => (h, l) end.

(** What the caller sees.  Arrays are shown with their contents at the time of the call. *)
Inductive value :=
  | VMat (M : mat R) | VGroup (G : list (mat R)) | VIGroup (G : list (mat Z)) | VBool (b : bool) | VNat (n : nat)
  | VIdx (i : index_arg) | VVec (p : vec R) | VText (d : list (pname * R)).

(** * Lattice *)
(** lattice.py:25-30; __N is the length of the array.  The cached groups are not arrays: MatrixGroup.matrices copies
    (matrix_group.py:82-87) and nothing else gives access to them. *)
Record lat_obj := { o_E : nat; o_Laue : option (list (mat R)); o_point : option (list (mat R)) }.
(** lattice.py:13-30: E is not copied *)
Definition init_lattice (h : heap) (a : harg) : res (heap * lat_obj) :=
  let (h, l) := take h a in
  match arr h l with
  | [M] => let* _ := new_lattice M in Ok (h, {| o_E := l; o_Laue := None; o_point := None |})
  | _ => Raise ValueError
  end.

Inductive lat_query := QBase | QDim | QLaue | QPoint | QSpecial | QLattice | QInPoint (Q : nparray) | QInLat (M : mat R) | QEq (E2 : mat R).

(** lattice.py:87-107 with the cache; __LaueGroup is assigned only if the first list of matrices could be made, and then the second
    one can be made, too *)
Definition h_Laue (h : heap) (o : lat_obj) : res (list (mat R)) * lat_obj :=
  match o_Laue o with
  | Some G => (Ok G, o)
  | None => let r := Laue_group (mat_at h (o_E o)) in
            (r, match r with Ok G => {| o_E := o_E o; o_Laue := Some G; o_point := o_point o |} | _ => o end)
  end.
(** lattice.py:113-130 with the cache *)
Definition h_point (h : heap) (o : lat_obj) : res (list (mat R)) * lat_obj :=
  let E := mat_at h (o_E o) in
  match o_point o with
  | Some G => (Ok G, o)
  | None =>
    let (r, o) := match length E with
      | 3%nat => let (r, o) := h_Laue h o in ((let* lg := r in Ok (lg ++ map mopp lg)), o)
      | _ => (point_group E, o)
      end in
    (r, match r with Ok G => {| o_E := o_E o; o_Laue := o_Laue o; o_point := Some G |} | _ => o end)
  end.
(** lattice.py:136-148, 154-166: la.inv first; the fields tested in lines 143 and 161 are never assigned *)
Definition h_integer (h : heap) (o : lat_obj) (group : heap -> lat_obj -> res (list (mat R)) * lat_obj) : res (list (mat Z)) * lat_obj :=
  let E := mat_at h (o_E o) in
  match length E with
  | 2%nat | 3%nat =>
    match inv E with
    | Ok Ei => let (r, o) := group h o in ((let* G := r in Ok (map (fun Q => rintm (mmul Ei (mmul Q E))) G)), o)
    | Raise e => (Raise e, o)
    | NoFuel => (NoFuel, o)
    end
  | _ => (Raise AttributeError, o)
  end.

(** One call: the answer, the heap and the object after it, and the arrays handed to the caller.  Only arrays of reals are followed;
    the integer matrices of the lattice groups are new in each call. *)
Definition lat_ask (h : heap) (o : lat_obj) (q : lat_query) : res value * heap * lat_obj * list nat :=
  let E := mat_at h (o_E o) in
  match q with
  | QBase => (Ok (VMat E), h ++ [[E]], o, [length h])                                                (* lattice.py:32-39 *)
  | QDim => (Ok (VNat (length E)), h, o, [])                                                         (* 45-51 *)
  | QLaue => let (r, o) := h_Laue h o in
             match r with Ok G => (Ok (VGroup G), h ++ [G], o, [length h]) | Raise e => (Raise e, h, o, []) | NoFuel => (NoFuel, h, o, []) end
  | QPoint => let (r, o) := h_point h o in
             match r with Ok G => (Ok (VGroup G), h ++ [G], o, [length h]) | Raise e => (Raise e, h, o, []) | NoFuel => (NoFuel, h, o, []) end
  | QSpecial => let (r, o) := h_integer h o h_Laue in ((let* G := r in Ok (VIGroup G)), h, o, [])
  | QLattice => let (r, o) := h_integer h o h_point in ((let* G := r in Ok (VIGroup G)), h, o, [])
  | QInPoint Q => ((let* b := inpointgroup E Q in Ok (VBool b)), h, o, [])
  | QInLat M => ((let* b := inlatticegroup E M in Ok (VBool b)), h, o, [])
  | QEq E2 => ((let* b := lat_eq E E2 in Ok (VBool b)), h, o, [])
  end.

(** * BravaisLattice *)
(** bravais_lattice.py:47-50.  The base is the private array of the Lattice. *)
Record brav_obj := { v_id : Z; v_par : nat; v_E : nat; v_C : nat }.
(** bravais_lattice.py:14-50; latParam is not copied if it is an array; the base and C are new arrays *)
Definition init_bravais (h : heap) (id : Z) (a : harg) (dim : Z) : res (heap * brav_obj) :=
  let (h, l) := take h a in
  let* b := new_bravais id (vec_at h l) dim in
  Ok (h ++ [[b_base b]; [b_C b]], {| v_id := id; v_par := l; v_E := length h; v_C := S (length h) |}).
(** the object as a value *)
Definition look (h : heap) (o : brav_obj) : bravais :=
  {| b_id := v_id o; b_par := vec_at h (v_par o); b_base := mat_at h (v_E o); b_C := mat_at h (v_C o) |}.
Inductive brav_query := QTrans | QParam | QCBase | QToPrim (i : index_arg) | QToConv (i : index_arg) | QStr.
(** bravais_lattice.py:294-321, 327-347, 353-374, 221-282: conventional_trans and lat_param return the arrays of the object *)
Definition brav_ask (h : heap) (o : brav_obj) (q : brav_query) : res value * heap * brav_obj * list nat :=
  match q with
  | QTrans => (Ok (VMat (conventional_trans (look h o))), h, o, [v_C o])
  | QParam => (Ok (VVec (b_par (look h o))), h, o, [v_par o])
  | QCBase => let M := conventional_base (look h o) in (Ok (VMat M), h ++ [[M]], o, [length h])
  | QToPrim i => ((let* r := to_primitive_Miller (look h o) i in Ok (VIdx r)), h, o, [])
  | QToConv i => ((let* r := to_conventional_Miller (look h o) i in Ok (VIdx r)), h, o, [])
  | QStr => (Ok (VText (description (look h o))), h, o, [])
  end.

(** * Martensite *)
(** martensite.py:17-21.  __Laueidx, an array of integers, is left out. *)
Record mart_obj := { t_U : option nat; t_Laue : list (mat R); t_Ulist : option nat }.
(** the object as a value *)
Definition view (h : heap) (o : mart_obj) : mart :=
  {| m_U := option_map (mat_at h) (t_U o); m_Laue := t_Laue o; m_Ulist := option_map (arr h) (t_Ulist o); m_idx := None |}.
(** martensite.py:17-21: the constructor keeps the array it is given *)
Definition init_mart (U : option nat) (Laue : list (mat R)) : mart_obj := {| t_U := U; t_Laue := Laue; t_Ulist := None |}.
(** martensite.py:23-53: np.array, np.diag make a new array *)
Definition h_setU (h : heap) (o : mart_obj) (args : list marg) : res (heap * mart_obj) :=
  let* m := setU (view h o) args in
  match m_U m with
  | Some U => Ok (h ++ [[U]], {| t_U := Some (length h); t_Laue := m_Laue m; t_Ulist := None |})
  | None => Raise TypeError
  end.
Inductive mart_query := QU | QVariants | QVariant (n : Z) | QReversible.
(** martensite.py:140-169 with the new array *)
Definition h_calc (h : heap) (o : mart_obj) : res (heap * mart_obj * nat) :=
  match t_Ulist o with
  | Some l => Ok (h, o, l)
  | None =>
    let* lm := getvariants (view h o) in
    Ok (h ++ [fst lm], {| t_U := t_U o; t_Laue := t_Laue o; t_Ulist := Some (length h) |}, length h)
  end.
(** martensite.py:55-64, 93-133: getU copies; getvariants returns the array of the object and getvariant a view of it *)
Definition mart_ask (h : heap) (o : mart_obj) (q : mart_query) : res value * heap * mart_obj * list nat :=
  match q with
  | QU => match getU (view h o) with
          | Ok U => (Ok (VMat U), h ++ [[U]], o, [length h]) | Raise e => (Raise e, h, o, []) | NoFuel => (NoFuel, h, o, []) end
  | QVariants => match h_calc h o with
          | Ok (h, o, l) => (Ok (VGroup (arr h l)), h, o, [l]) | Raise e => (Raise e, h, o, []) | NoFuel => (NoFuel, h, o, []) end
  | QVariant n => match h_calc h o with
          | Ok (h, o, l) => match py_index (arr h l) (n - 1) with
             | Ok U => (Ok (VMat U), h, o, [l]) | Raise e => (Raise e, h, o, []) | NoFuel => (NoFuel, h, o, []) end
          | Raise e => (Raise e, h, o, []) | NoFuel => (NoFuel, h, o, []) end
  | QReversible => ((let* b := isreversible (view h o) in Ok (VBool b)), h, o, [])
  end.
