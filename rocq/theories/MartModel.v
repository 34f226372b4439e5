(** Model of class Martensite, marttrans/martensite.py.  Floats are exact reals.  An object is a record: the
    stretch tensor, the group of the parent phase and the two lazily filled fields.  Sharing of arrays with the
    caller is modelled with the other heap effects (C66). *)
From Verif Require Export LatticeModel BravaisModel.
Local Open Scope R_scope.

Record mart := {
  m_U : option (mat R);
  m_Laue : list (mat R);
  m_Ulist : option (list (mat R));
  m_idx : option (list (list nat))
}.

(** martensite.py:17-21; the constructor checks nothing *)
Definition new_mart (U : option (mat R)) (Laue : option (list (mat R))) : mart :=
  {| m_U := U;
     m_Laue := match Laue with Some g => g | None => map RZ CUBIC_LAUE_GROUP end;
     m_Ulist := None; m_idx := None |}.

(** An argument of setU: a number, or an ndarray or list.  [Seq None] is an array or list of numbers whose
    np.array is not two-dimensional (a vector, a ragged or deeper nesting). *)
Inductive marg := Num (x : R) | Seq (M : option (mat R)).

(** martensite.py:28-45: the matrix described by the arguments.  [None] is Python's None: with five or more
    arguments no branch assigns U.  A sequence after a leading number makes np.diag / np.array fail. *)
Definition described (args : list marg) : res (option (mat R)) :=
  match args with
  | [] => Raise TypeError                                  (* args[0]: IndexError, caught *)
  | Seq None :: _ => Raise TypeError
  | Seq (Some M) :: _ => if wfb 3 3 M then Ok (Some M) else Raise TypeError
  | [Num a] => Ok (Some (diag [a; a; a]))
  | [Num a; Num c] => Ok (Some (diag [a; a; c]))
  | [Num a; Num b; Num c] => Ok (Some [[a; b; 0]; [b; a; 0]; [0; 0; c]])
  | [Num a; Num b; Num d; Num c] => Ok (Some [[a; b; 0]; [b; d; 0]; [0; 0; c]])
  | [_; _] | [_; _; _] | [_; _; _; _] => Raise TypeError
  | _ => Ok None
  end.

(** np.array_equal on arrays of reals *)
Definition array_equal (A B : mat R) : bool :=
  (length A =? length B)%nat &&
  forallb (fun rs => (length (fst rs) =? length (snd rs))%nat &&
                     forallb (fun xy => Reqb (fst xy) (snd xy)) (combine (fst rs) (snd rs))) (combine A B).

(** martensite.py:23-53 *)
Definition setU (m : mart) (args : list marg) : res mart :=
  let* U := described args in
  match U with
  | None => Raise AttributeError                           (* U.T of None *)
  | Some U =>
    if negb (array_equal U (tr U)) then Raise TypeError
    else if negb (Rltb 0 (det U)) then Raise TypeError
    else Ok (new_mart (Some U) (Some (m_Laue m)))
  end.

(** martensite.py:55-64 *)
Definition getU (m : mart) : res (mat R) :=
  match m_U m with None => Raise AttributeError | Some U => Ok U end.
(** martensite.py:66-71 *)
Definition getLaue (m : mart) : list (mat R) := m_Laue m.

(** martensite.py:77-83 *)
Definition latParam : list (list R) :=
  [[2]; [2]; [2]; [2; 3]; [2; 120]; [141/100; 2]; [141/100; 2];
   [141/100; 142/100; 2]; [141/100; 142/100; 2]; [141/100; 142/100; 2]; [141/100; 142/100; 2];
   [141/100; 142/100; 2; 89]; [141/100; 142/100; 2; 89]; [141/100; 142/100; 2; 89; 88; 92]].

(** an argument of setLaue: a MatrixGroup, an int, anything else *)
Inductive larg := Grp (g : list (mat R)) | Int (k : Z) | OtherArg.
(** martensite.py:73-91 *)
Definition setLaue (m : mart) (a : larg) : res mart :=
  match a with
  | Grp g => Ok (new_mart (m_U m) (Some g))
  | Int k =>
    if ((0 <? k) && (k <=? 14))%Z then
      let* b := new_bravais k (nth (Z.to_nat (k - 1)) latParam []) 3 in
      let* g := Laue_group (b_base b) in
      Ok (new_mart (m_U m) (Some g))
    else Raise ValueError
  | OtherArg => Raise ValueError
  end.

(** martensite.py:118-133.  Lattice(self.getU()) may raise ValueError. *)
Definition isreversible (m : mart) : res bool :=
  let* U := getU m in
  let* E := new_lattice U in
  let* lg := Laue_group E in
  if (length lg <=? length (getLaue m))%nat then hassubgroup (getLaue m) (Some lg) else Ok false.

(** martensite.py:156-166: one pass of the loop for the group element number [i].  There is no break: the index
    is added to every variant that matches. *)
Definition calc_step (U1 : mat R) (acc : list (mat R * list nat)) (iQ : nat * mat R) : list (mat R * list nat) :=
  let V := mmul (mmul (snd iQ) U1) (tr (snd iQ)) in
  if existsb (fun b => allclose (fst b) V) acc
  then map (fun b => if allclose (fst b) V then (fst b, snd b ++ [fst iQ]) else b) acc
  else acc ++ [(V, [fst iQ])].
(** enumerate(G) *)
Definition enumerate {A} (l : list A) : list (nat * A) := combine (seq 0 (length l)) l.
Definition variants_of (U1 : mat R) (G : list (mat R)) : list (mat R * list nat) :=
  fold_left (calc_step U1) (enumerate G) [(U1, [])].

(** martensite.py:140-169.  Returns the updated object.  np.array(idx) of blocks of different sizes (an object
    array, or ValueError in recent numpy) is modelled as the list of blocks. *)
Definition calcvariants (m : mart) : res mart :=
  match m_Ulist m with
  | Some _ => Ok m
  | None =>
    let* r := isreversible m in
    if negb r then Raise AttributeError else
    let* U1 := getU m in
    let l := variants_of U1 (m_Laue m) in
    Ok {| m_U := m_U m; m_Laue := m_Laue m; m_Ulist := Some (map fst l); m_idx := Some (map snd l) |}
  end.
(** reading a field that calcvariants filled *)
Definition filled {A} (o : option A) : res A := match o with Some a => Ok a | None => Raise TypeError end.

(** martensite.py:93-105, 107-116, 135-138: value and updated object *)
Definition getvariants (m : mart) : res (list (mat R) * mart) :=
  let* m' := match m_Ulist m with None => calcvariants m | Some _ => Ok m end in
  let* l := filled (m_Ulist m') in Ok (l, m').
Definition getvariant (m : mart) (n : Z) : res (mat R * mart) :=
  let* m' := match m_Ulist m with None => calcvariants m | Some _ => Ok m end in
  let* l := filled (m_Ulist m') in
  let* U := py_index l (n - 1) in Ok (U, m').
Definition getLaueidx (m : mart) : res (list (list nat) * mart) :=
  let* m' := match m_idx m with None => calcvariants m | Some _ => Ok m end in
  let* l := filled (m_idx m') in Ok (l, m').
