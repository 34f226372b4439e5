(** structrans/crystallography/spacegroup.py and stereogram.py. *)
From Verif Require Export Py LinAlg RMat RotModel RankOneModel.
Local Open Scope R_scope.

(** spacegroup.py:11-24 for integers n, p and an axis of three numbers.  The module does not import division from
    __future__: under Python 2 the quotient in line 23 is that of the integers.  Python's % is [Z.modulo]. *)
Definition skew (py3 : bool) (n p : Z) (T : vec R) : res (mat R * vec R) :=
  let* t := normalize T in
  if (n =? 0)%Z then Raise ZeroDivisionError else
  let theta := 2 * PI / IZR n in
  let p := if (n <? p)%Z then (p mod n)%Z else p in
  let* Q := rotation theta t false in
  let q := if py3 then IZR p / IZR n else IZR (p / n) in
  Ok (Q, vscale q T).

(** round(x, 6): to a multiple of 1e-6, half to even (Python 2 rounds ties away from zero) *)
Definition round6 (x : R) : R := IZR (rint (x * 10 ^ 6)) / 10 ^ 6.

(** stereogram.py:16-23 *)
Definition stereo_frame (z : vec R) : res (vec R * vec R) :=
  if Rltb (1 / 10 ^ 6) (vget z 0 ^ 2 + vget z 1 ^ 2) then
    let* z_1 := normalize [vget z 1; - vget z 0; 0] in
    let* z_2 := normalize (cross z z_1) in
    Ok (z_1, z_2)
  else Ok ([1; 0; 0], [0; 1; 0]).

(** stereogram.py:31-41; the square roots are those of math, which raise a ValueError for negative numbers.  The quotient
    (1-c_theta)/(1+c_theta) is only computed for -1 < c_theta <= 1. *)
Definition stereo_point (phat z z_1 z_2 : vec R) : res (vec R) :=
  let r := vnorm z in
  let c_theta := dot phat z / r in
  let sq_temp := round6 (1 - c_theta ^ 2) in
  if Rltb sq_temp 0 then Raise ValueError else
  let sq_theta := sqrt sq_temp in
  if Rltb sq_theta (1 / 10 ^ 6) then Ok [0; 0]
  else Ok [r * sqrt ((1 - c_theta) / (1 + c_theta)) * dot phat z_1 / sq_theta;
           r * sqrt ((1 - c_theta) / (1 + c_theta)) * dot phat z_2 / sq_theta].

(** stereogram.py:5-45 for vectors of three numbers *)
Definition stereo_proj (p z : vec R) : res (vec R) :=
  let* zhat := normalize z in
  let Q := madd (mopp (eye 3)) (mscale 2 (outer zhat zhat)) in
  let* f := stereo_frame z in
  if Rltb (1 / 10 ^ 6) (vnorm p) then
    let phat := if Rltb (1 / 10 ^ 6) (dot p z) then vscale (/ vnorm p) p
                else vscale (/ vnorm p) (vscale (-1) (mvmul Q p)) in
    stereo_point phat z (fst f) (snd f)
  else Ok [0; 0].

(** stereogram.py:47-72 for a list of rows of the same length; None after a message.  The frame in lines 49-56 is not
    used. *)
Definition pole_figure (plist : list (vec R)) (z : vec R) : res (option (list (vec R))) :=
  if (length (nth 0 plist []) =? 3)%nat then let* l := mapM (fun p => stereo_proj p z) plist in Ok (Some l)
  else Ok None.
