(** Rotations about an axis, independently of utils.py. *)
From Verif Require Export LinAlg LatticeSpec.
Local Open Scope R_scope.
(** Rodrigues' formula for the right-handed rotation by t about the unit vector (x,y,z):
    cos t I + sin t [k]x + (1 - cos t) k k^T *)
Definition rodrigues (t x y z : R) : mat R :=
  let c := cos t in let s := sin t in let v := 1 - cos t in
  [[c + v * x * x; v * x * y - s * z; v * x * z + s * y];
   [v * x * y + s * z; c + v * y * y; v * y * z - s * x];
   [v * x * z - s * y; v * y * z + s * x; c + v * z * z]].
(** the coordinate axes by letter *)
Inductive axis := AX | AY | AZ.
Definition about (a : axis) (t : R) : mat R :=
  match a with AX => rodrigues t 1 0 0 | AY => rodrigues t 0 1 0 | AZ => rodrigues t 0 0 1 end.
