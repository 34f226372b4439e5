(** Model of crystallography/matrix_group.py: the symmetry tables and
    MatrixGroup.order / hassubgroup.  A MatrixGroup is the list of its matrices
    (constructor :72-77 stores its argument unchecked; matrices() :80-85 returns
    copies; order() :87-92 is the length). *)
From Verif Require Export RMat Hom.
From Verif Require Import HnfModel.
Local Open Scope R_scope.

(** matrix_group.py:138-172 *)
Definition CUBIC_LAUE_GROUP : list (mat Z) := [
  [[1; 0; 0]; [0; 1; 0]; [0; 0; 1]];
  [[1; 0; 0]; [0; (-1); 0]; [0; 0; (-1)]];
  [[(-1); 0; 0]; [0; 1; 0]; [0; 0; (-1)]];
  [[(-1); 0; 0]; [0; (-1); 0]; [0; 0; 1]];
  [[0; 1; 0]; [1; 0; 0]; [0; 0; (-1)]];
  [[0; (-1); 0]; [(-1); 0; 0]; [0; 0; (-1)]];
  [[0; 0; 1]; [0; (-1); 0]; [1; 0; 0]];
  [[0; 0; (-1)]; [0; (-1); 0]; [(-1); 0; 0]];
  [[(-1); 0; 0]; [0; 0; 1]; [0; 1; 0]];
  [[(-1); 0; 0]; [0; 0; (-1)]; [0; (-1); 0]];
  [[1; 0; 0]; [0; 0; (-1)]; [0; 1; 0]];
  [[1; 0; 0]; [0; 0; 1]; [0; (-1); 0]];
  [[0; 0; 1]; [0; 1; 0]; [(-1); 0; 0]];
  [[0; 0; (-1)]; [0; 1; 0]; [1; 0; 0]];
  [[0; (-1); 0]; [1; 0; 0]; [0; 0; 1]];
  [[0; 1; 0]; [(-1); 0; 0]; [0; 0; 1]];
  [[0; 1; 0]; [0; 0; 1]; [1; 0; 0]];
  [[0; 0; 1]; [1; 0; 0]; [0; 1; 0]];
  [[0; 0; (-1)]; [(-1); 0; 0]; [0; 1; 0]];
  [[0; (-1); 0]; [0; 0; 1]; [(-1); 0; 0]];
  [[0; 1; 0]; [0; 0; (-1)]; [(-1); 0; 0]];
  [[0; 0; (-1)]; [1; 0; 0]; [0; (-1); 0]];
  [[0; 0; 1]; [(-1); 0; 0]; [0; (-1); 0]];
  [[0; (-1); 0]; [0; 0; (-1)]; [1; 0; 0]]
]%Z.

(** matrix_group.py:194-211 *)
Definition SQUARE_EXT_GROUP : list (mat Z) := [
  [[1; 0]; [0; 1]];
  [[0; (-1)]; [1; 0]];
  [[0; 1]; [(-1); 0]];
  [[(-1); 0]; [0; (-1)]];
  [[1; 0]; [0; (-1)]];
  [[(-1); 0]; [0; 1]];
  [[0; 1]; [1; 0]];
  [[0; (-1)]; [(-1); 0]]
]%Z.

(** matrix_group.py:212 *)
Definition SQUARE_GROUP : list (mat Z) := firstn 4 SQUARE_EXT_GROUP.

(** matrix_group.py:174-175 (exact cosine and sine) *)
Definition C1 : R := cos (PI / 3).
Definition S1 : R := sin (PI / 3).

(** matrix_group.py:176-191 *)
Definition HEX_LAUE_GROUP : list (mat R) := [
  [[1; 0; 0]; [0; 1; 0]; [0; 0; 1]];
  [[1; 0; 0]; [0; (-1); 0]; [0; 0; (-1)]];
  [[(-1); 0; 0]; [0; 1; 0]; [0; 0; (-1)]];
  [[(-1); 0; 0]; [0; (-1); 0]; [0; 0; 1]];
  [[C1; (-S1); 0]; [S1; C1; 0]; [0; 0; 1]];
  [[C1; S1; 0]; [(-S1); C1; 0]; [0; 0; 1]];
  [[(-C1); (-S1); 0]; [S1; (-C1); 0]; [0; 0; 1]];
  [[(-C1); S1; 0]; [(-S1); (-C1); 0]; [0; 0; 1]];
  [[C1; (-S1); 0]; [(-S1); (-C1); 0]; [0; 0; (-1)]];
  [[C1; S1; 0]; [S1; (-C1); 0]; [0; 0; (-1)]];
  [[(-C1); (-S1); 0]; [(-S1); C1; 0]; [0; 0; (-1)]];
  [[(-C1); S1; 0]; [S1; C1; 0]; [0; 0; (-1)]]
].

(** matrix_group.py:214-228 *)
Definition HEX2D_EXT_GROUP : list (mat R) := [
  [[1; 0]; [0; 1]];
  [[C1; (-S1)]; [S1; C1]];
  [[(-C1); (-S1)]; [S1; (-C1)]];
  [[(-1); 0]; [0; (-1)]];
  [[C1; S1]; [(-S1); C1]];
  [[(-C1); S1]; [(-S1); (-C1)]];
  [[1; 0]; [0; (-1)]];
  [[C1; (-S1)]; [(-S1); (-C1)]];
  [[C1; S1]; [S1; (-C1)]];
  [[(-1); 0]; [0; 1]];
  [[(-C1); (-S1)]; [(-S1); C1]];
  [[(-C1); S1]; [S1; C1]]
].

(** matrix_group.py:229 *)
Definition HEX2D_GROUP : list (mat R) := firstn 6 HEX2D_EXT_GROUP.

(** The integer tables as the real matrices numpy computes with. *)
Definition RZ (M : mat Z) : mat R := mmap IZR M.

(** matrix_group.py:113-136  self.hassubgroup(g); [None] stands for an argument that
    is not a MatrixGroup.  All matrices of both groups are n x n for one n (arrays of
    different shapes would make np.allclose broadcast or raise). *)
Definition hassubgroup (self : list (mat R)) (g : option (list (mat R))) : res bool :=
  match g with
  | None => Raise TypeError
  | Some g =>
    if existsb (Z.eqb (Z.of_nat (length g))) (divisors (Z.of_nat (length self)))
    then Ok (forallb (fun m1 => existsb (fun m2 => allclose m1 m2) self) g)
    else Ok false
  end.
