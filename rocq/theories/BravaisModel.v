(** Model of class BravaisLattice, crystallography/bravais_lattice.py, with Python 3 division and exact real
    arithmetic.  A NaN base (square root of a negative number, or division by zero) is accepted by the
    constructor of Lattice, because nan <= 0 is False; that outcome is [Raise NaN] here. *)
From Verif Require Export LatticeModel.
Local Open Scope R_scope.

(** p*np.pi/180 and math.radians *)
Definition deg (x : R) : R := x * PI / 180.
(** np.sqrt and / on floats *)
Definition np_sqrt (x : R) : res R := if Rltb x 0 then Raise NaN else Ok (sqrt x).
Definition np_div (x y : R) : res R := if Reqb y 0 then Raise NaN else Ok (x / y).

Definition par (p : list R) (i : nat) : R := nth i p 0.

(** columns to matrix: np.array([e1, e2, e3]).T, lines 80 and 219 *)
Definition cols2 (e1 e2 : list R) : mat R := tr [e1; e2].
Definition cols3 (e1 e2 e3 : list R) : mat R := tr [e1; e2; e3].

(** bravais_lattice.py:52-80  __primitiveBase2D__: the base, and the matrix C before inversion *)
Definition base2D (n : nat) (p : list R) : mat R * mat R :=
  match n with
  | 1%nat => (cols2 [par p 0; 0] [0; par p 0], eye 2)
  | 2%nat => (cols2 [par p 0; 0] [0; par p 1], eye 2)
  | 3%nat => (cols2 [/2 * par p 0; /2 * par p 1] [/2 * - par p 0; /2 * par p 1], mscale (/2) [[1; -1]; [1; 1]])
  | 4%nat => (cols2 [par p 0; 0] [par p 0 * /2; par p 0 * /2 * sqrt 3], eye 2)
  | _ => (cols2 [par p 0; 0] [par p 1 * cos (deg (par p 2)); par p 1 * sin (deg (par p 2))], eye 2)
  end.

Definition C_face : mat R := mscale (/2) [[1; 0; 1]; [1; 1; 0]; [0; 1; 1]].
Definition C_body : mat R := mscale (/2) [[1; -1; -1]; [1; 1; -1]; [1; 1; 1]].
Definition C_base : mat R := [[/2; - / 2; 0]; [/2; /2; 0]; [0; 0; 1]].

(** bravais_lattice.py:82-219  __primitiveBase3D__ *)
Definition base3D (n : nat) (p : list R) : res (mat R * mat R) :=
  let a := par p 0 in
  match n with
  | 1%nat => Ok (cols3 [a; 0; 0] [0; a; 0] [0; 0; a], eye 3)
  | 2%nat => Ok (cols3 [/2 * a; /2 * a; 0] [0; /2 * a; /2 * a] [/2 * a; 0; /2 * a], C_face)
  | 3%nat => Ok (cols3 [/2 * a; /2 * a; /2 * a] [- (/2 * a); /2 * a; /2 * a] [- (/2 * a); - (/2 * a); /2 * a], C_body)
  | 4%nat => Ok (cols3 [a; 0; 0] [a * /2; a * (sqrt 3 / 2); 0] [0; 0; par p 1], eye 3)
  | 5%nat =>
    let c := cos (deg (par p 1)) in
    let* ty := np_sqrt ((1 - c) / 6) in
    let* tz := np_sqrt ((1 + 2 * c) / 3) in
    let u := tz - 2 * sqrt 2 * ty in
    let v := tz + sqrt 2 * ty in
    let k := a / sqrt 3 in
    Ok (cols3 [k * u; k * v; k * v] [k * v; k * u; k * v] [k * v; k * v; k * u], eye 3)
  | 6%nat => let c := par p 1 in Ok (cols3 [a; 0; 0] [0; a; 0] [0; 0; c], eye 3)
  | 7%nat => let c := par p 1 in
    let h := a / 2 in
    Ok (cols3 [h * 1; h * 1; h * (c / a)] [h * -1; h * 1; h * (c / a)] [h * -1; h * -1; h * (c / a)], C_body)
  | 8%nat => Ok (cols3 [a; 0; 0] [0; par p 1; 0] [0; 0; par p 2], eye 3)
  | 9%nat => let b := par p 1 in let c := par p 2 in
    Ok (cols3 [a / 2; b / 2; 0] [- a / 2; b / 2; 0] [0; 0; c], C_base)
  | 10%nat => let b := par p 1 in let c := par p 2 in
    Ok (cols3 [a / 2; b / 2; 0] [0; b / 2; c / 2] [a / 2; 0; c / 2], C_face)
  | 11%nat => let b := par p 1 in let c := par p 2 in
    Ok (cols3 [a / 2; b / 2; c / 2] [- a / 2; b / 2; c / 2] [- a / 2; - b / 2; c / 2], C_body)
  | 12%nat => let b := par p 1 in let c := par p 2 in let beta := deg (par p 3) in
    Ok (cols3 [a; 0; 0] [0; b; 0] [c * cos beta; 0; c * sin beta], eye 3)
  | 13%nat => let b := par p 1 in let c := par p 2 in let beta := deg (par p 3) in
    Ok (cols3 [a / 2; b / 2; 0] [- a / 2; b / 2; 0] [c * cos beta; 0; c * sin beta], C_base)
  | _ => let b := par p 1 in let c := par p 2 in
    let alpha := deg (par p 3) in let beta := deg (par p 4) in let gamma := deg (par p 5) in
    let* y := np_div (c * (cos alpha - cos beta * cos gamma)) (sin gamma) in
    let* r := np_sqrt (1 + 2 * cos alpha * cos beta * cos gamma - cos alpha * cos alpha - cos beta * cos beta - cos gamma * cos gamma) in
    let* z := np_div (c * r) (sin gamma) in
    Ok (cols3 [a; 0; 0] [b * cos gamma; b * sin gamma; 0] [c * cos beta; y; z], eye 3)
  end.

Record bravais := { b_id : Z; b_par : list R; b_base : mat R; b_C : mat R }.

(** bravais_lattice.py:34, 41 *)
Definition pramlen3 : list nat := [1; 1; 1; 2; 2; 2; 2; 3; 3; 3; 3; 4; 4; 6]%nat.
Definition pramlen2 : list nat := [1; 2; 2; 1; 3]%nat.

(** bravais_lattice.py:14-50.  latParam is a list of real numbers (a single number is the list of length one);
    latID an integer.  For dim other than 2 and 3 the names E and C are never bound. *)
Definition new_bravais (latID : Z) (p : list R) (dim : Z) : res bravais :=
  if existsb (fun x => Rleb x 0) p then Raise ValueError else
  let finish (EC : mat R * mat R) :=
    let* C := inv (snd EC) in
    let* E := new_lattice (fst EC) in
    Ok {| b_id := latID; b_par := p; b_base := E; b_C := C |} in
  if (dim =? 3)%Z then
    if ((1 <=? latID) && (latID <? 15))%Z then
      if (length p =? nth (Z.to_nat (latID - 1)) pramlen3 0)%nat then
        let* EC := base3D (Z.to_nat latID) p in finish EC
      else Raise ValueError
    else Raise ValueError
  else if (dim =? 2)%Z then
    if ((1 <=? latID) && (latID <? 6))%Z then
      if (length p =? nth (Z.to_nat (latID - 1)) pramlen2 0)%nat then finish (base2D (Z.to_nat latID) p)
      else Raise ValueError
    else Raise ValueError
  else Raise UnboundLocalError.

(** bravais_lattice.py:304-321 *)
Definition conventional_trans (b : bravais) : mat R := b_C b.
Definition conventional_base (b : bravais) : mat R := mmul (b_base b) (conventional_trans b).

(** An index argument: one index, or a list of indices (a rectangular 2-d array).  np.array([]) has ndim 1,
    and deeper or ragged nestings are rejected with ValueError. *)
Inductive index_arg := One (x : list R) | Many (xs : list (list R)).
(** the conversion of the argument, bravais_lattice.py:335-344 and 361-371; the row count and length check *)
Definition index_rows (d : nat) (i : index_arg) : res (list (list R)) :=
  let xs := match i with One x => [x] | Many xs => xs end in
  match xs with
  | [] => Raise ValueError
  | x :: _ => if (length x =? d)%nat then Ok xs else Raise ValueError
  end.
(** (M.dot(idx.T)).T and the unwrapping of a single row, lines 346-347 and 373-374 *)
Definition apply_rows (M : mat R) (xs : list (list R)) : index_arg :=
  let r := map (mvmul M) xs in
  match r with [y] => One y | _ => Many r end.
(** bravais_lattice.py:327-347 *)
Definition to_primitive_Miller (b : bravais) (i : index_arg) : res index_arg :=
  let* xs := index_rows (length (b_base b)) i in Ok (apply_rows (b_C b) xs).
(** bravais_lattice.py:353-374 *)
Definition to_conventional_Miller (b : bravais) (i : index_arg) : res index_arg :=
  let* xs := index_rows (length (b_base b)) i in
  let* Ci := inv (b_C b) in Ok (apply_rows Ci xs).

(** bravais_lattice.py:221-282  __str__: the printed (name, value) pairs in order.  The title and the
    rounding of {:g} to six digits are not modelled. *)
Inductive pname := Na | Nb | Nc | Nalpha | Nbeta | Ngamma.
Definition inr (x : Z) (l : list Z) : bool := existsb (Z.eqb x) l.
Definition description (b : bravais) : list (pname * R) :=
  let p := par (b_par b) in
  if (length (b_base b) =? 3)%nat then
    [(Na, p 0%nat)]
    ++ (if inr (b_id b) [8;9;10;11;12;13;14]%Z then [(Nb, p 1%nat)] else [])
    ++ (if inr (b_id b) [4;6;7]%Z then [(Nc, p 1%nat)] else [])
    ++ (if inr (b_id b) [8;9;10;11;12;13;14]%Z then [(Nc, p 2%nat)] else [])
    ++ (if inr (b_id b) [5;14]%Z then [(Nalpha, p 1%nat)] else [])
    ++ (if inr (b_id b) [12;13]%Z then [(Nbeta, p 3%nat)] else [])
    ++ (if (b_id b =? 14)%Z then [(Nbeta, p 4%nat); (Ngamma, p 5%nat)] else [])
  else
    [(Na, p 0%nat)]
    ++ (if inr (b_id b) [2;3;5]%Z then [(Nb, p 1%nat)] else [])
    ++ (if (b_id b =? 5)%Z then [(Ngamma, p 2%nat)] else []).
