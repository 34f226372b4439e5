(** Model of SLNode.is_min (marttrans/lat_cor/slnode.py:105-106), beside TreeModel.v. *)
From Verif Require Export TreeModel.
Local Open Scope R_scope.

(** slnode.py:90-93 and 105-106, in three dimensions.  The comparison of a list with a NumPy float goes entry by entry; [dist]
    is taken to return NumPy floats. *)
Definition is_min (dist : mat Z -> R) (nd : node) : res bool :=
  let* ds := mapM (fun t => let* c := np_dot (elem nd) t in Ok (dist c)) T_ in
  Ok (forallb (fun d => Rleb (dist (elem nd)) d) ds).
