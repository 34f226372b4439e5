(** Crystallographic specification of the Bravais lattices: independent of bravais_lattice.py. *)
From Verif Require Export LatticeSpec.
Local Open Scope R_scope.

(** the parameter list of each type, by the usual names *)
Inductive system := Cubic | Hexagonal | Trigonal | Tetragonal | Orthorhombic | Monoclinic | Triclinic
  | Square | Rectangular | Hexagonal2 | Oblique.
Inductive centring := P | Ccen | Icen | F.
Definition bravais_type (dim id : Z) : option (system * centring) :=
  match dim, id with
  | 3, 1 => Some (Cubic, P) | 3, 2 => Some (Cubic, F) | 3, 3 => Some (Cubic, Icen)
  | 3, 4 => Some (Hexagonal, P) | 3, 5 => Some (Trigonal, P)
  | 3, 6 => Some (Tetragonal, P) | 3, 7 => Some (Tetragonal, Icen)
  | 3, 8 => Some (Orthorhombic, P) | 3, 9 => Some (Orthorhombic, Ccen)
  | 3, 10 => Some (Orthorhombic, F) | 3, 11 => Some (Orthorhombic, Icen)
  | 3, 12 => Some (Monoclinic, P) | 3, 13 => Some (Monoclinic, Ccen) | 3, 14 => Some (Triclinic, P)
  | 2, 1 => Some (Square, P) | 2, 2 => Some (Rectangular, P) | 2, 3 => Some (Rectangular, Icen)
  | 2, 4 => Some (Hexagonal2, P) | 2, 5 => Some (Oblique, P)
  | _, _ => None
  end%Z.
(** edge lengths a, b, c and angles alpha (b^c), beta (a^c), gamma (a^b) in degrees; this library describes hexagonal
    cells by two edges at 60 degrees.  In two dimensions c, alpha, beta are unused. *)
Record cell := { edge : nat -> R; angle : nat -> nat -> R }.
Definition mk_cell (a b c al be ga : R) : cell :=
  {| edge := fun i => match i with 0%nat => a | 1%nat => b | _ => c end;
     angle := fun i j => match i, j with
       | 0%nat, 1%nat | 1%nat, 0%nat => ga
       | 0%nat, 2%nat | 2%nat, 0%nat => be
       | 1%nat, 2%nat | 2%nat, 1%nat => al
       | _, _ => 0 end |}.
Definition requested (s : system) (p : list R) : option cell :=
  match s, p with
  | Cubic, [a] => Some (mk_cell a a a 90 90 90)
  | Hexagonal, [a; c] => Some (mk_cell a a c 90 90 60)
  | Trigonal, [a; al] => Some (mk_cell a a a al al al)
  | Tetragonal, [a; c] => Some (mk_cell a a c 90 90 90)
  | Orthorhombic, [a; b; c] => Some (mk_cell a b c 90 90 90)
  | Monoclinic, [a; b; c; be] => Some (mk_cell a b c 90 be 90)
  | Triclinic, [a; b; c; al; be; ga] => Some (mk_cell a b c al be ga)
  | Square, [a] => Some (mk_cell a a 0 0 0 90)
  | Rectangular, [a; b] => Some (mk_cell a b 0 0 0 90)
  | Hexagonal2, [a] => Some (mk_cell a a 0 0 0 60)
  | Oblique, [a; b; ga] => Some (mk_cell a b 0 0 0 ga)
  | _, _ => None
  end.
(** a cell with these parameters exists *)
Definition cosd (x : R) : R := cos (x * PI / 180).
(** the squared volume (area) of the cell divided by the squared product of its edges *)
Definition planar (s : system) : bool := match s with Square | Rectangular | Hexagonal2 | Oblique => true | _ => false end.
Definition volume_factor (s : system) (c : cell) : R :=
  let cg := cosd (angle c 0 1) in
  if planar s then 1 - cg * cg
  else let ca := cosd (angle c 1 2) in let cb := cosd (angle c 0 2) in
       1 + 2 * ca * cb * cg - ca * ca - cb * cb - cg * cg.
Definition admissible (s : system) (p : list R) (c : cell) : Prop :=
  requested s p = Some c /\ (forall x, In x p -> 0 < x) /\ 0 < volume_factor s c.

(** the columns of B are the edges of the cell: lengths and angles *)
Definition has_cell (n : nat) (B : mat R) (c : cell) : Prop :=
  wf n n B /\
  (forall i, (i < n)%nat -> 0 < edge c i /\ dot (col B i) (col B i) = edge c i * edge c i) /\
  (forall i j, (i < n)%nat -> (j < n)%nat -> i <> j ->
     dot (col B i) (col B j) = edge c i * edge c j * cosd (angle c i j)).

Definition points_per_cell (c : centring) : Z := match c with P => 1 | Ccen => 2 | Icen => 2 | F => 4 end.

(** orders of the rotation groups of the crystal systems (holohedry) *)
Definition laue_order (s : system) : nat :=
  match s with
  | Cubic => 24 | Hexagonal => 12 | Trigonal => 6 | Tetragonal => 8 | Orthorhombic => 4 | Monoclinic => 2 | Triclinic => 1
  | Square => 4 | Rectangular => 2 | Hexagonal2 => 6 | Oblique => 2
  end.
Definition point_order (s : system) : nat :=
  match s with
  | Oblique => 2
  | _ => 2 * laue_order s
  end.
