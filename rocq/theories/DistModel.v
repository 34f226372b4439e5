(** Model of the distance functions, marttrans/lat_cor/dist.py.  Inputs are assumed to
    have matching shapes (x of length dim**2, E1, E2, E2inv dim x dim). *)
From Verif Require Export Flat LinAlg.
Local Open Scope R_scope.

(** dist.py:5-13.  The quotient is the exact one; nf = 0 (only for E2 = 0) is the nan
    outcome of numpy. *)
Definition Eric_dist (x : list R) (E1 E2 : mat R) : res R :=
  let dim := length E1 in
  let L := reshape dim x in
  let g1 := mmul (tr E1) E1 in
  let g2 := mmul (tr E2) E2 in
  let M := msub (mmul (tr L) (mmul g1 L)) g2 in
  let nf := trace (mmul (tr g2) g2) in
  if Reqb nf 0 then Raise NaN else Ok (trace (mmul (tr M) M) / nf).

(** dist.py:16-24.  [lam] is the list of eigenvalues la.eig(Cinv)[0] (the eigenvalue
    solver is not modelled; see [eigenvalues] in Eig.v for what it must satisfy).
    np.sqrt of a negative number would be nan. *)
Definition strain_Cinv (x : list R) (E1 E2inv : mat R) : mat R :=
  let dim := length E1 in
  let L := reshape dim x in
  let Finv := mmul (mmul E1 L) E2inv in
  mmul Finv (tr Finv).
Definition vsum (l : list R) : R := sumn (length l) (fun k => nth k l 0).
Definition strain_dist (lam : list R) : R := vsum lam - 2 * vsum (map sqrt lam) + 3.

(** dist.py:27-34 *)
Definition Cauchy_dist (x : list R) (E1 E2inv : mat R) : R :=
  let dim := length E1 in
  let L := reshape dim x in
  let Finv := mmul (mmul E1 L) E2inv in
  let Cinv := mmul Finv (tr Finv) in
  let v := flatten (msub Cinv (eye dim)) in
  dot v v.

(** dist.py:37-49.  The long branch: tensors are functions of their indices, each
    np.tensordot is its defining sum.
    F1 = tensordot(xs, E2inv, ([2],[0])); Fts = tensordot(F1, E1, ([1],[1]));
    Cs = diagonal(tensordot(Fts, Fts, ([1],[1])), axis1=0, axis2=2).transpose(2,0,1);
    Es = (Cs - I).reshape(len(xs), dim**2); [e.dot(e) for e in Es] *)
Definition Cauchy_dist_vec (xs : list (list R)) (E1 E2inv : mat R) : list R :=
  if (length xs <? 100)%nat then map (fun x => Cauchy_dist x E1 E2inv) xs
  else
    let dim := length E1 in
    let X a i k := nth (i * dim + k) (nth a xs []) 0 in
    let F1 a i j := sumn dim (fun k => X a i k * get E2inv k j) in
    let Fts a j m := sumn dim (fun i => F1 a i j * get E1 m i) in
    let T a m b m' := sumn dim (fun j => Fts a j m * Fts b j m') in
    let Cs a m m' := T a m a m' in
    let Id := eye dim in
    let Es a p := Cs a (p / dim)%nat (p mod dim)%nat - get Id (p / dim)%nat (p mod dim)%nat in
    map (fun a => sumn (dim * dim) (fun p => Es a p * Es a p)) (seq 0 (length xs)).

(** main_direct.py:142  gamma *)
Definition gamma (x : R) : R := 3 + 2 * sqrt (3 * x) + x.
(** main_direct.py:205  rmax(d) = (gamma(d) / alpha) ** 0.25, for alpha > 0 *)
Definition rmax (alpha d : R) : R := sqrt (sqrt (gamma d / alpha)).

(** main_direct.py:147-151: C1[i,l,j,k] = E_A[i,j] E_Minv[k,l]; C2[(i,i'),(j,k),(j',k')];
    D[(j,k),(j',k'),(p,q),(p',q')] (flat indices p = row*dim + column). *)
Definition quartic_C1 (EA EMi : mat R) (i l j k : nat) : R := get EA i j * get EMi k l.
Definition quartic_C2 (dim : nat) (EA EMi : mat R) (ii p q : nat) : R :=
  sumn dim (fun l => quartic_C1 EA EMi (ii / dim)%nat l (p / dim)%nat (p mod dim)%nat *
                     quartic_C1 EA EMi (ii mod dim)%nat l (q / dim)%nat (q mod dim)%nat).
Definition quartic_D (dim : nat) (EA EMi : mat R) (p q r s : nat) : R :=
  sumn (dim * dim) (fun ii => quartic_C2 dim EA EMi ii p q * quartic_C2 dim EA EMi ii r s).
(** quartic_opt.py:28: T.dot(x).dot(x).dot(x).dot(x) (contracts the last index first) *)
Definition quartic_form (N : nat) (T : nat -> nat -> nat -> nat -> R) (x : list R) : R :=
  sumn N (fun p => sumn N (fun q => sumn N (fun r => sumn N (fun s =>
    T p q r s * nth s x 0) * nth r x 0) * nth q x 0) * nth p x 0).
