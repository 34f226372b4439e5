(** structrans/crystallography/lattice_reduction.py, and the use made of it by lat_opt (lat_opt.py:80-83).

    The arrays of this module are only accessed by columns, E[:, i], so a d x d array is modelled by the list of its
    columns; [LLL] converts from and to matrices.  Doubles are exact reals; a division by zero, which gives inf or nan
    in numpy, is the value [Raise NaN].  The argument is an array of floats: for an array of ints the in-place
    subtraction in line 14 raises a TypeError. *)
From Verif Require Export Py LinAlg RMat BravaisModel RankOneModel.
Local Open Scope R_scope.

(** lattice_reduction.py:12-14: the loop over j; [a] is E[:, i], [b] the local b, [Eo] the columns Eo[:, j] for the
    remaining j.  B[j] is the squared norm of Eo[:, j] (lines 15-16). *)
Fixpoint gs_inner (a : vec R) (Eo : list (vec R)) (b : vec R) : res (list R * vec R) :=
  match Eo with
  | [] => Ok ([], b)
  | c :: Eo' =>
    let* m := np_div (dot a c) (dot c c) in
    let* r := gs_inner a Eo' (vsub b (vscale m c)) in
    Ok (m :: fst r, snd r)
  end.
(** lattice_reduction.py:10-16: the loop over i; [E] the columns still to come, [Eo] and [M] what has been found.
    Of M only the entries below the diagonal are kept, row by row: the others are those of the identity. *)
Fixpoint gs_outer (E Eo : list (vec R)) (M : list (list R)) : res (list (vec R) * list (list R)) :=
  match E with
  | [] => Ok (Eo, M)
  | a :: E' => let* r := gs_inner a Eo a in gs_outer E' (Eo ++ [snd r]) (M ++ [fst r])
  end.
(** lattice_reduction.py:5-17 *)
Definition Gram_Schmidt (E : list (vec R)) := gs_outer E [] [].

(** lattice_reduction.py:25-27: the loop over j, for column b = B[:, i], row ms = M[i, :i] and the columns B[:, :i],
    which have been reduced already; np.round is rounding half to even *)
Fixpoint gauss_inner (ms : list R) (B : list (vec R)) (b : vec R) : vec R :=
  match ms, B with
  | m :: ms', c :: B' => gauss_inner ms' B' (vsub b (vscale (IZR (rint m)) c))
  | _, _ => b
  end.
(** lattice_reduction.py:24-27: the loop over i *)
Fixpoint gauss_outer (E : list (vec R)) (M : list (list R)) (B : list (vec R)) : list (vec R) :=
  match E, M with
  | a :: E', ms :: M' => gauss_outer E' M' (B ++ [gauss_inner ms B a])
  | _, _ => B
  end.
(** lattice_reduction.py:20-28 *)
Definition Gauss_reduction (E : list (vec R)) : res (list (vec R)) :=
  let* r := Gram_Schmidt E in Ok (gauss_outer E (snd r) []).

(** lattice_reduction.py:35-36 *)
Fixpoint proj_loop (x : vec R) (Eo : list (vec R)) (p : vec R) : res (vec R) :=
  match Eo with
  | [] => Ok p
  | c :: Eo' =>
    let* t := mapM (fun y => np_div y (vnorm c ^ 2)) (vscale (dot x c) c) in
    proj_loop x Eo' (vadd p t)
  end.
(** lattice_reduction.py:31-38 *)
Definition projection (i : nat) (x : vec R) (E : list (vec R)) : res (vec R) :=
  let* r := Gram_Schmidt E in
  proj_loop x (skipn i (fst r)) (map (fun _ => 0) x).

(** lattice_reduction.py:43-49: None is (False, -1) and Some i is (True, i) *)
Fixpoint swap_loop (E : list (vec R)) (is : list nat) : res (option nat) :=
  match is with
  | [] => Ok None
  | i :: is' =>
    let* p1 := projection i (nth i E []) E in
    let* p2 := projection i (nth (i + 1) E []) E in
    if Rltb (4 / 3 * dot p2 p2) (dot p1 p1) then Ok (Some i) else swap_loop E is'
  end.
(** lattice_reduction.py:41-49 *)
Definition swapping (E : list (vec R)) : res (option nat) := swap_loop E (seq 0 (length E - 1)).

(** lattice_reduction.py:62-64 *)
Definition swap_at (i : nat) (B : list (vec R)) : list (vec R) :=
  firstn i B ++ [nth (i + 1) B []; nth i B []] ++ skipn (i + 2) B.

(** lattice_reduction.py:58-65: the loop; [k] is the number of rounds the cap still allows.  The result is B, Niter and
    swap. *)
Fixpoint lll_loop (k : nat) (B : list (vec R)) (niter : nat) : res (list (vec R) * nat * bool) :=
  match k with
  | 0%nat => Ok (B, niter, true)
  | S k' =>
    let* B := Gauss_reduction B in
    let* sw := swapping B in
    match sw with
    | Some i => lll_loop k' (swap_at i B) (niter + 1)
    | None => Ok (B, (niter + 1)%nat, false)
    end
  end.
(** lattice_reduction.py:58 *)
Definition max_rounds : nat := 1000.

(** What LLL returns: an array, or the pair (array, False) *)
Inductive lll_result := Plain (B : mat R) | Failed (B : mat R).

(** math.copysign(1, x) *)
Definition sign1 (x : R) : R := if Rltb x 0 then -1 else 1.
(** lattice_reduction.py:70-71 *)
Definition fix_sign (E : mat R) (B : list (vec R)) : list (vec R) :=
  if negb (Reqb (sign1 (det (tr B))) (sign1 (det E))) then
    match B with b :: B' => vscale (-1) b :: B' | [] => [] end
  else B.
(** lattice_reduction.py:52-73 *)
Definition LLL (E : mat R) : res lll_result :=
  let* r := lll_loop max_rounds (tr E) 0 in
  let '(B, niter, _) := r in
  if (niter =? 100)%nat then Ok (Failed (tr B)) else Ok (Plain (tr (fix_sign E B))).

(** lat_opt.py:81-83: the starting point of the search.  When LLL returns a pair np.dot or np.rint raise, which
    exception depends on the version of numpy. *)
Definition start_point (E1 : mat R) : res (mat Z) :=
  let* Er1 := LLL E1 in
  match Er1 with
  | Plain Er1 => let* Ei := inv E1 in Ok (mmap rint (mmul Ei Er1))
  | Failed _ => Raise ValueError
  end.
