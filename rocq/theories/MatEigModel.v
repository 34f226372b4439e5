(** structrans/mat_math.py:75-81, mat_eig.

    [py3]: Python 3, where xrange is not defined in this module.  [npnew]: numpy 1.12 or later, which rejects floats as array
    dimensions; earlier releases cut off the fraction with a warning.  [eig M] are the real parts of the eigenvalues that
    eig(M)[0] lists (scipy.linalg.eig or numpy.linalg.eig), as many as M has rows.  The array of shape (N, m) is the list of its N
    rows together with m; the parameter MAX_MEM is not used by the code. *)
From Verif Require Export MatMathModel.

(** l[i].reshape(d, d) *)
Definition reshape_sq {A} {O : Ops A} (d : nat) (r : vec A) : res (mat A) :=
  if length r =? d * d then Ok (mk d d (fun i j => vget r (i * d + j))) else Raise ValueError.
(** the loop of lines 78-80: row i of eigs is overwritten; [mem] is what np.empty left in eigs *)
Fixpoint eig_rows {A} {O : Ops A} (eig : mat A -> vec A) (d : nat) (mem : list (vec A)) (l : list (vec A)) : res (list (vec A)) :=
  match l, mem with
  | r :: l', _ :: mem' =>
    let* M := reshape_sq d r in
    let v := eig M in
    if length v =? d then let* e := eig_rows eig d mem' l' in Ok (v :: e) else Raise ValueError
  | _, _ => Ok []
  end.
(** mat_math.py:75-81 *)
Definition mat_eig {A} {O : Ops A} (py3 npnew : bool) (eig : mat A -> vec A) (mem : list (vec A)) (m : nat) (l : list (vec A)) : res (list (vec A)) :=
  let dim := Nat.sqrt m in
  if npnew then Raise TypeError else
  if py3 then Raise NameError else
  eig_rows eig dim mem l.
