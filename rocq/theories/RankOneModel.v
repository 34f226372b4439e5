(** Model of the rank-one solvers: util/utils.py (pos_def_sym, sort_eig, solve_rank1),
    marttrans/Compatibility.py (isCompatible, AM_Solver) and marttrans/twin.py:458-492 (_solve_am).
    Floats are exact reals.  la.eig is the argument [eig] (its decomposition is real here: complex
    eigenvalues, whose imaginary part the code drops, are outside the model).  All matrix arguments are
    3 x 3 arrays.  The messages printed by the code are not modelled. *)
From Verif Require Export RotModel Eig.
Local Open Scope R_scope.

(** general_imports.py:14 *)
Definition SMALL : R := 1 / 1000000000000.

(** math.sqrt raises ValueError on a negative number (np.sqrt gives nan: [np_sqrt] of BravaisModel) *)
Definition math_sqrt (x : R) : res R := if Rltb x 0 then Raise ValueError else Ok (sqrt x).
(** u + v *)
Definition vadd (u v : vec R) : vec R := mkv (length u) (fun i => vget u i + vget v i).
Definition vsub (u v : vec R) : vec R := mkv (length u) (fun i => vget u i - vget v i).

(** utils.py:4-8: the tuple display is a new object, so "is not (3, 3)" is always true *)
Definition is_3_by_3 (U : mat R) : bool := true.
(** utils.py:10-16 *)
Definition pos_def_sym (U : mat R) : bool :=
  is_3_by_3 U && Rltb 0 (det U) && Rltb (sqrt (fro2 3 3 (msub U (tr U)))) (1 / 1000000).

(** sorted(..., key=lambda x: x[0]): a stable sort by the eigenvalue *)
Fixpoint insert_key (x : R * vec R) (l : list (R * vec R)) : list (R * vec R) :=
  match l with
  | [] => [x]
  | y :: l' => if Rleb (fst x) (fst y) then x :: l else y :: insert_key x l'
  end.
Fixpoint sort_key (l : list (R * vec R)) : list (R * vec R) :=
  match l with [] => [] | x :: l' => insert_key x (sort_key l') end.
(** utils.py:18-29, mat_math.py:94-100, Compatibility.py:40-44: eigenvalues in ascending order and the
    eigenvectors as rows; the product with the identity matrix in the last step is left out *)
Definition sort_eig (eg : list R * mat R) : list R * mat R :=
  let e := sort_key (map (fun i => (vget (fst eg) i, col (snd eg) i)) (seq 0 3)) in
  (map fst e, map snd e).

Definition pair2 := ((vec R * vec R) * (vec R * vec R))%type.
(** utils.py:110-117, Compatibility.py:56-63, twin.py:478-485: m1, m2, b1, b2 (kappa = 1) *)
Definition bm_pairs (sq : R -> res R) (eval : list R) (evec : mat R) (c c1 c3 : R) : res pair2 :=
  let kappa := 1 in
  let v0 := nth 0 evec [] in let v2 := nth 2 evec [] in
  let* s2 := sq (vget eval 2) in
  let* s0 := sq (vget eval 0) in
  let m1 := vscale ((s2 - s0) / c) (vadd (vscale (- c1) v0) (vscale (kappa * c3) v2)) in
  let m2 := vscale ((s2 - s0) / c) (vsub (vscale (- c1) v0) (vscale (kappa * c3) v2)) in
  let rho1 := vnorm m1 in
  let rho2 := vnorm m2 in
  let* m1 := normalize m1 in
  let* m2 := normalize m2 in
  let b1 := vscale rho1 (vadd (vscale (s2 * c1 / c) v0) (vscale (kappa * (s0 * c3 / c)) v2)) in
  let b2 := vscale rho2 (vsub (vscale (s2 * c1 / c) v0) (vscale (kappa * (s0 * c3 / c)) v2)) in
  Ok ((b1, m1), (b2, m2)).

Section Eig.
  Variable eig : mat R -> list R * mat R.

  (** utils.py:89-124; [None] is Python's None *)
  Definition solve_rank1 (C : mat R) : res (option pair2) :=
    if negb (pos_def_sym C) then Raise TypeError
    else
      let '(eval, evec) := sort_eig (eig C) in
      let* c := np_sqrt (vget eval 2 - vget eval 0) in
      let* c1 := np_sqrt (Rabs (1 - vget eval 0)) in
      let* c3 := np_sqrt (Rabs (vget eval 2 - 1)) in
      if Rltb c SMALL then Ok None
      else let* p := bm_pairs np_sqrt eval evec c c1 c3 in Ok (Some p).

  (** Compatibility.py:30-65; len(A) is 3 *)
  Definition AM_Solver (A : mat R) : res (option pair2) :=
    if Rltb (1 / 1000000000) (sqrt (fro2 3 3 (msub (tr A) A))) then Raise CompatibilityError
    else
      let '(eval, evec) := sort_eig (eig A) in
      let* c := math_sqrt (vget eval 2 - vget eval 0) in
      let* c1 := math_sqrt (1 - vget eval 0) in
      let* c3 := math_sqrt (vget eval 2 - 1) in
      if Rltb c (1 / 1000000) then Ok None
      else if Rltb (Rabs (vget eval 1 - 1)) (1 / 10000)
      then let* p := bm_pairs math_sqrt eval evec c c1 c3 in Ok (Some p)
      else Ok None.

  (** twin.py:458-492 *)
  Definition solve_am (C : mat R) : res (option ((mat R * vec R * vec R) * (mat R * vec R * vec R))) :=
    if negb (pos_def_sym C) then Raise TypeError
    else
      let '(eval, evec) := sort_eig (eig C) in
      let* c := math_sqrt (vget eval 2 - vget eval 0) in
      let* c1 := math_sqrt (Rabs (1 - vget eval 0)) in
      let* c3 := math_sqrt (Rabs (vget eval 2 - 1)) in
      if Rltb c SMALL then Ok None
      else
        let* p := bm_pairs math_sqrt eval evec c c1 c3 in
        let '((b1, m1), (b2, m2)) := p in
        let '(ec, vc) := eig C in
        let* ec := mapM np_sqrt ec in
        let* vci := inv vc in
        let Csqrt := mmul (mmul vc (diag ec)) vci in
        let* Ci := inv Csqrt in
        let R1 := mmul (madd (eye 3) (outer b1 m1)) Ci in
        let R2 := mmul (madd (eye 3) (outer b2 m2)) Ci in
        Ok (Some ((R1, b1, m1), (R2, b2, m2))).

  (** Compatibility.py:13-24, for two arrays.  [py3] says which Python runs the code: mat_math.py uses
      xrange without defining it, so under Python 3 eigSort raises NameError (mat_math.py:96). *)
  Definition isCompatible (py3 : bool) (A B : mat R) : res bool :=
    let* Bti := inv (tr B) in
    let* Bi := inv B in
    let C := mmul (mmul Bti (tr A)) (mmul A Bi) in
    if py3 then Raise NameError
    else
      let '(eval, _) := sort_eig (eig C) in
      Ok (Rltb (Rabs (vget eval 1) - 1) (1 / 100000)).
End Eig.

(** mat_math.py:102-114, twin.py:494-506, for a 3 x 3 array: np.delete of row i and column j *)
Definition drop {A} (i : nat) (l : list A) : list A := firstn i l ++ skipn (S i) l.
Definition brute_cof (A : mat R) : mat R :=
  mk 3 3 (fun i j => (-1) ^ (i + j) * det (map (drop j) (drop i A))).
