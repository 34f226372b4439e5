(** Model of quartic_opt.py: the minimum of a quartic form on unit vectors.  Tensors are functions of their indices; floats
    are exact reals.  Random numbers, scipy's minimize and la.inv are arguments. *)
From Verif Require Export DistModel RotModel.
Local Open Scope R_scope.

Definition tensor4 := nat -> nat -> nat -> nat -> R.
(** T.dot(x).dot(x) and T.dot(x).dot(x).dot(x) *)
Definition contract2 (N : nat) (T : tensor4) (x : list R) (p q : nat) : R :=
  sumn N (fun r => sumn N (fun s => T p q r s * nth s x 0) * nth r x 0).
Definition contract3 (N : nat) (T : tensor4) (x : list R) (p : nat) : R :=
  sumn N (fun q => contract2 N T x p q * nth q x 0).
(** T.transpose(a, b, c, d): axis 0 of the result is axis a of T, and so on *)
Definition tr0123 (T : tensor4) : tensor4 := fun p q r s => T p q r s.
Definition tr0231 (T : tensor4) : tensor4 := fun p q r s => T p s q r.
Definition tr0312 (T : tensor4) : tensor4 := fun p q r s => T p r s q.
Definition tr1230 (T : tensor4) : tensor4 := fun p q r s => T s p q r.
Definition tr1302 (T : tensor4) : tensor4 := fun p q r s => T r p s q.
Definition tr1023 (T : tensor4) : tensor4 := fun p q r s => T q p r s.
Definition tr2301 (T : tensor4) : tensor4 := fun p q r s => T r s p q.
Definition tr2013 (T : tensor4) : tensor4 := fun p q r s => T q r p s.
Definition tr2130 (T : tensor4) : tensor4 := fun p q r s => T s q p r.
Definition tr3012 (T : tensor4) : tensor4 := fun p q r s => T q r s p.
Definition tr3120 (T : tensor4) : tensor4 := fun p q r s => T s q r p.
Definition tr3201 (T : tensor4) : tensor4 := fun p q r s => T r s q p.

(** quartic_opt.py:19-24 (jac) and 47-50: the gradient of the form *)
Definition gradient (N : nat) (T : tensor4) (x : list R) : list R :=
  mkv N (fun p => contract3 N (tr0123 T) x p + contract3 N (tr1230 T) x p + contract3 N (tr2301 T) x p + contract3 N (tr3012 T) x p).

(** quartic_opt.py:43-53: func, for xs = (x, lam) *)
Definition roots_func (N : nat) (T : tensor4) (xs : list R) : list R :=
  let x := firstn N xs in let lam := last xs 0 in
  mkv N (fun p => nth p (gradient N T x) 0 - 2 * lam * nth p x 0) ++ [1 - dot x x].
(** quartic_opt.py:55-80: jac.  (The derivative of the term - 2 lam x is left out by the code: the diagonal lacks - 2 lam.) *)
Definition roots_jac (N : nat) (T : tensor4) (xs : list R) : mat R :=
  let x := firstn N xs in
  mk (N + 1) (N + 1) (fun p q =>
    if (p <? N)%nat then
      if (q <? N)%nat then
        contract2 N (tr0123 T) x p q + contract2 N (tr0231 T) x p q + contract2 N (tr0312 T) x p q
        + contract2 N (tr1230 T) x p q + contract2 N (tr1302 T) x p q + contract2 N (tr1023 T) x p q
        + contract2 N (tr2301 T) x p q + contract2 N (tr2013 T) x p q + contract2 N (tr2130 T) x p q
        + contract2 N (tr3012 T) x p q + contract2 N (tr3120 T) x p q + contract2 N (tr3201 T) x p q
      else - 2 * nth p x 0
    else if (q <? N)%nat then - 2 * nth q x 0 else 0).
(** u + k v *)
Definition axpy (k : R) (u v : list R) : list R := mkv (length u) (fun i => nth i u 0 + k * nth i v 0).
Definition vmax (x : list R) : R := fold_left Rmax (tl x) (hd 0 x).

(** quartic_opt.py:82-91: the iteration; [k] is maxiter - itr, [df = None] is inf.  [linv] is la.inv. *)
Section Roots.
  Variable linv : mat R -> res (mat R).
  Fixpoint roots_loop (N : nat) (T : tensor4) (k : nat) (x f : list R) (df : option R) : res (list R) :=
    match k with
    | O => Ok x
    | S k =>
        if Rltb (1 / 10000) (vnorm f) && match df with None => true | Some d => Rltb (1 / 1000) d end && Rltb (vmax x) (10 ^ 20) then
          let* g := linv (roots_jac N T x) in
          let x1 := axpy (- (2 / 10)) x (mvmul g f) in
          let f1 := roots_func N T x1 in
          roots_loop N T k x1 f1 (Some (vnorm (axpy (-1) f1 f) / vnorm f))
        else Ok x
    end.
  (** quartic_opt.py:34-92: _quartic_roots(T, x0), the first component of the result *)
  Definition quartic_roots (N : nat) (T : tensor4) (x0 : list R) : res (list R) :=
    let x := x0 ++ [1 / 10] in
    let* x := roots_loop N T 1000 x (roots_func N T x) None in Ok (firstn N x).
End Roots.

(** fmin = min(fmin, f) for f in fs, from inf (None) *)
Definition min_of (fs : list R) : option R :=
  fold_left (fun m f => Some (match m with None => f | Some m => Rmin m f end)) fs None.
(** l0 = np.random.rand(dim**2); l0 /= la.norm(l0) *)
Definition start (draw : list R) : res (list R) := normalize draw.
(** quartic_opt.py:94-106, without scipy: [draws] are the 20 results of np.random.rand *)
Definition quart_min_fallback (linv : mat R -> res (mat R)) (N : nat) (T : tensor4) (draws : list (list R)) : res (option R) :=
  let* xs := mapM (fun d => let* l0 := start d in quartic_roots linv N T l0) draws in
  Ok (min_of (map (quartic_form N T) xs)).
(** quartic_opt.py:8-30, with scipy: [minimize l0] is the point res.x found from l0, at which res.fun is the form; 100 draws *)
Definition quart_min_scipy (minimize : list R -> list R) (N : nat) (T : tensor4) (draws : list (list R)) : res (option R) :=
  let* xs := mapM (fun d => let* l0 := start d in Ok (minimize l0)) draws in
  Ok (min_of (map (quartic_form N T) xs)).
