(** Model of the class Microstructure, marttrans/Compatibility.py:68-119.  Floats are exact reals; an object is the record of
    its fields _U (missing until it is set) and _Laue; the fields _uList and _laueIdx are never used.  Arguments of setU are one
    array, or numbers: lists and mixtures are not modelled. *)
From Verif Require Export MartModel.
Local Open Scope R_scope.

Record micro := { mi_U : option (mat R); mi_Laue : list (mat R) }.

(** Compatibility.py:78-89, for an array (or nothing) and a group (or nothing); nothing is checked *)
Definition new_micro (U : option (mat R)) (Laue : option (list (mat R))) : micro :=
  {| mi_U := U; mi_Laue := match Laue with Some g => g | None => map RZ CUBIC_LAUE_GROUP end |}.

(** Compatibility.py:91-92 *)
Definition micro_getU (m : micro) : res (mat R) :=
  match mi_U m with None => Raise AttributeError | Some U => Ok U end.

Inductive uargs := OneArray (M : mat R) | Numbers (l : list R).
(** Compatibility.py:94-107; MartensiteError is not imported, so line 107 raises a NameError *)
Definition micro_setU (m : micro) (a : uargs) : res micro :=
  let put U := Ok {| mi_U := Some U; mi_Laue := mi_Laue m |} in
  match a with
  | OneArray M => put M
  | Numbers [a] => put (diag [a; a; a])
  | Numbers [a; c] => put (diag [a; a; c])
  | Numbers [a; b; c] => put [[a; b; 0]; [b; a; 0]; [0; 0; c]]
  | Numbers [a; b; d; c] => put [[a; b; 0]; [b; d; 0]; [0; 0; c]]
  | Numbers _ => Raise NameError
  end.

(** Compatibility.py:110-111 *)
Definition micro_getLaue (m : micro) : list (mat R) := mi_Laue m.
(** Compatibility.py:112-119, for an int or anything else; latParam is the list of martensite.py:77-83.  BravaisLattice has
    no method getLaueGroup, and MartensiteError is not imported. *)
Definition micro_setLaue (m : micro) (a : option Z) : res micro :=
  match a with
  | Some k =>
    if ((0 <? k) && (k <=? 14))%Z then
      let* b := new_bravais k (nth (Z.to_nat (k - 1)) latParam []) 3 in Raise AttributeError
    else Raise NameError
  | None => Raise NameError
  end.

(** calls on an object, one after the other; a call that raises leaves the object as it is *)
Inductive micro_call := SetU (a : uargs) | SetLaue (a : option Z).
Definition micro_do (m : micro) (c : micro_call) : micro :=
  match match c with SetU a => micro_setU m a | SetLaue a => micro_setLaue m a end with Ok m' => m' | _ => m end.
Definition micro_run (m : micro) (cs : list micro_call) : micro := fold_left micro_do cs m.
