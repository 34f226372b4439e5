(** Model of the whole of lat_opt (marttrans/lat_cor/lat_opt.py:20-265) and of the serial run of
    lat_cor (marttrans/lat_cor/main_hnf.py:37-322), put together from the models of their parts.

    Left out: printing, logging and timing; the cache objects of lat_opt are those of TreeModel.v.
    np.int (main_hnf.py:114) and tostring() are taken to exist, as in the numpy of the time.  The
    sublattice size of the fallback (main_hnf.py:138) is the integer the float equals.  [nsol],
    [maxiter] and [miniter] are naturals.  The bound [k] on restarts and [fuel] on descents are not
    in the code: NoFuel stands for a run that has not ended yet. *)
From Verif Require Import HnfModel ReduceModel LatticeModel BravaisModel LLLModel.
From Verif Require Export DistModel TreeModel HnfSearchModel OutputModel.
Local Open Scope R_scope.

(** lat_opt.py:86-98: the values of the option 'dist' *)
Inductive dist_name := Cauchy | Ericksen | Strain | OtherName.
(** lat_opt.py:90-98.  [None]: the local name dist stays unbound.  [eigvals] is la.eig(..)[0]. *)
Definition distance_fn (eigvals : mat R -> list R) (name : dist_name) (E1 E2r : mat R) : res (option (mat Z -> R)) :=
  match name with
  | Ericksen =>
    (* dist.py:5-13; the norm of the metric of E2r does not depend on x *)
    let* _ := Eric_dist (map IZR (flatten (eye (length E1)))) E1 E2r in
    Ok (Some (fun x => match Eric_dist (map IZR (flatten x)) E1 E2r with Ok d => d | _ => 0 end))
  | Strain => let* E2inv := inv E2r in Ok (Some (fun x => strain_dist (eigvals (strain_Cinv (map IZR (flatten x)) E1 E2inv))))
  | Cauchy => let* E2inv := inv E2r in Ok (Some (fun x => Cauchy_dist (map IZR (flatten x)) E1 E2inv))
  | OtherName => Ok None
  end.

(** lat_opt.py:43-51 *)
Definition maxiter_by_nsol (nsol : nat) : nat := if (nsol <? 3)%nat then 3 else if (nsol <? 10)%nat then 4 else 5.

(** lat_opt.py:54-57, 86, 102: the keyword arguments read; None = not given *)
Record options := { o_nsol : nat; o_dist : dist_name; o_maxiter : option nat; o_miniter : option nat;
                    o_SOLG2 : option (list (mat Z)) }.

(** lat_opt.py:20-265: the pairs of lopt and dopt *)
Definition lat_opt (eigvals : mat R -> list R) (o : options) (k fuel : nat) (E1 E2r : mat R) : res (list (mat Z * R)) :=
  let maxiter := match o_maxiter o with Some m => m | None => maxiter_by_nsol (o_nsol o) end in
  let miniter := match o_miniter o with Some m => m | None => 3%nat end in
  let dim := length E1 in
  let* lo := start_point E1 in
  let* dist := distance_fn eigvals (o_dist o) E1 E2r in
  let* L1 := new_lattice E1 in
  let* LG1 := special_lattice_group L1 in
  let* SOLG2 := match o_SOLG2 o with
                | Some g => Ok g
                | None => let* L2 := new_lattice E2r in special_lattice_group L2
                end in
  match dist with
  | None => Raise UnboundLocalError
  | Some dist => lat_opt_core dim dist LG1 SOLG2 (o_nsol o) miniter maxiter k fuel lo
  end.

(** main_hnf.py:140; iterating over None raises TypeError *)
Definition all_hnfs (vf : list Z) (dim : nat) : res (list (mat Z)) :=
  let* ls := mapM (fun i => let* o := hnf_from_det i dim in
                            match o with Some l => Ok l | None => Raise TypeError end) vf in
  Ok (concat ls).

(** main_hnf.py:270-273 *)
Fixpoint search (run : mat Z -> res (list (mat Z * R))) (LG_A LG_M : list (mat Z)) (nsol : nat)
    (hnfs : list (mat Z)) (st : mstate) : res mstate :=
  match hnfs with
  | [] => Ok st
  | h :: hs =>
    let* r := run h in
    search run LG_A LG_M nsol hs (merge_sols LG_A LG_M nsol st (map (fun ld => HSol (snd ld) (fst ld) h) r))
  end.

(** main_hnf.py:74-78, 182-185: the keyword arguments of lat_cor *)
Record request := { q_nsol : nat; q_vol_th : R; q_dim : Z; q_dist : dist_name;
                    q_maxiter : option nat; q_miniter : option nat }.
(** the defaults *)
Definition default_request : request :=
  {| q_nsol := 1; q_vol_th := 1/10; q_dim := 3; q_dist := Cauchy; q_maxiter := None; q_miniter := None |}.

(** main_hnf.py:37-322 without lat_opt_par and reduce_hnfs_par: the list sols, each entry with what
    lines 277-289 store in it *)
Definition lat_cor (D : division) (eig : mat R -> list R * mat R) (q : request) (k fuel : nat)
    (ibrava : Z) (pbrava : list R) (ibravm : Z) (pbravm : list R) : res (list (hsol * output)) :=
  let* Lat_A := new_bravais ibrava pbrava (q_dim q) in
  let* Lat_M := new_bravais ibravm pbravm (q_dim q) in
  let E_A := b_base Lat_A in
  let E_M := b_base Lat_M in
  let C_A := conventional_trans Lat_A in
  let C_M := conventional_trans Lat_M in
  let* LG_A := special_lattice_group E_A in
  let* E_Mr := new_lattice E_M in
  let* LG_M := special_lattice_group E_Mr in
  let* r := np_div (det E_M) (det E_A) in
  let dim := Z.to_nat (q_dim q) in
  let* hnfs := all_hnfs (vol_factors r (q_vol_th q)) dim in
  let* hnfs := reduce_hnfs D hnfs LG_A 3 in
  let o := {| o_nsol := q_nsol q; o_dist := q_dist q; o_maxiter := q_maxiter q; o_miniter := q_miniter q;
              o_SOLG2 := Some LG_M |} in
  let* st := search (fun h => lat_opt (fun C => fst (eig C)) o k fuel (mmul E_A (RZ h)) E_Mr) LG_A LG_M (q_nsol q) hnfs ([], []) in
  mapM (fun s => let* out := report_hnf dim E_A E_M C_A C_M eig (hh s) (hl s) in Ok (s, out)) (fst st).
