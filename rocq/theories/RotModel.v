(** Model of Euler and rotation (util/utils.py) and of marttrans/orientation_relationship.py. *)
From Coq Require Import Ascii String.
From Verif Require Export LinAlg BravaisModel.
Local Open Scope R_scope.

(** math.radians *)
Definition radians (x : R) : R := x * PI / 180.
(** "unit is 'deg'": [true] for the default unit, [false] for anything else *)
Definition to_rad (unit_deg : bool) (x : R) : R := if unit_deg then radians x else x.

(** utils.py:52-56  canonical_rotation *)
Definition rotX (x : R) : mat R := [[1; 0; 0]; [0; cos x; - sin x]; [0; sin x; cos x]].
Definition rotY (x : R) : mat R := [[cos x; 0; sin x]; [0; 1; 0]; [- sin x; 0; cos x]].
Definition rotZ (x : R) : mat R := [[cos x; - sin x; 0]; [sin x; cos x; 0]; [0; 0; 1]].
(** a.upper() followed by the dictionary lookup; None when a is not in "XYZxyz" *)
Definition canonical_rotation (a : ascii) : option (R -> mat R) :=
  if (a =? "X")%char || (a =? "x")%char then Some rotX
  else if (a =? "Y")%char || (a =? "y")%char then Some rotY
  else if (a =? "Z")%char || (a =? "z")%char then Some rotZ
  else None.
(** utils.py:58-64, the loop over enumerate(order) *)
Fixpoint euler_loop (angles : list R) (unit_deg : bool) (i : nat) (order : list ascii) (R0 : mat R) : res (mat R) :=
  match order with
  | [] => Ok R0
  | a :: order =>
    match canonical_rotation a with
    | None => Raise ValueError
    | Some f => euler_loop angles unit_deg (S i) order (mmul (f (to_rad unit_deg (nth i angles 0))) R0)
    end
  end.
(** utils.py:46-64  Euler; the index angles[i] is always in range after the length check *)
Definition Euler (angles : list R) (order : string) (unit_deg : bool) : res (mat R) :=
  if negb (List.length angles =? 3)%nat || negb (String.length order =? 3)%nat then Raise ValueError
  else euler_loop angles unit_deg 0 (list_ascii_of_string order) (eye 3).

(** la.norm of a vector *)
Definition vnorm (v : list R) : R := sqrt (dot v v).
(** np.cross of two vectors of length 3 *)
Definition cross (u v : list R) : list R :=
  [vget u 1 * vget v 2 - vget u 2 * vget v 1;
   vget u 2 * vget v 0 - vget u 0 * vget v 2;
   vget u 0 * vget v 1 - vget u 1 * vget v 0].
Definition vscale (k : R) (v : list R) : list R := map (Rmult k) v.
(** v / la.norm(v): division by a zero norm gives NaNs *)
Definition normalize (v : list R) : res (list R) :=
  if Reqb (vnorm v) 0 then Raise NaN else Ok (map (fun x => x / vnorm v) v).
(** utils.py:67-87  rotation, for an axis of three numbers *)
Definition rotation (angle : R) (axis : list R) (unit_deg : bool) : res (mat R) :=
  let* z := normalize axis in
  let t := to_rad unit_deg angle in
  let z1 := if Rltb (dot z [1; 0; 0]) (9 / 10) then cross z [1; 0; 0] else cross z [0; 1; 0] in
  let z2 := cross z z1 in
  let* z1 := normalize z1 in
  let* z2 := normalize z2 in
  let R1 := mscale (cos t) (madd (outer z1 z1) (outer z2 z2)) in
  let R2 := mscale (sin t) (msub (outer z2 z1) (outer z1 z2)) in
  Ok (madd (madd R1 R2) (outer z z)).

(** orientation_relationship.py: rows of the argument; the product Linv.dot(n_list.T) raises ValueError when the
    row length is not the size of L (np.array([]) is reshaped to one row of length 0) *)
Definition or_rows (n : nat) (i : index_arg) : res (list (list R)) :=
  let xs := match i with One x => [x] | Many [] => [[]] | Many xs => xs end in
  if forallb (fun x => (List.length x =? n)%nat) xs then Ok xs else Raise ValueError.
(** orientation_relationship.py:3-21 *)
Definition direc_trans (L : mat R) (i : index_arg) : res index_arg :=
  let* Li := inv L in let* xs := or_rows (List.length L) i in Ok (apply_rows Li xs).
(** orientation_relationship.py:23-38 *)
Definition plane_trans (L : mat R) (i : index_arg) : res index_arg :=
  let* xs := or_rows (List.length L) i in Ok (apply_rows (tr L) xs).
