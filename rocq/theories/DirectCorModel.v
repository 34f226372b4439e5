(** Model of the whole of lat_cor, the direct search (marttrans/lat_cor/main_direct.py:46-282, exported as structrans.lat_cor
    and lat_cor_direct), put together from the models of its parts.

    Left out: printing, logging and timing, and the layout of the printed table (_sols_tostr).  np.int and
    np.random.random_integers are taken to exist, as in the numpy of the time.  The bound [fuel] on the turns of the
    search loop is not in the code; NoFuel stands for a run that has not ended, because the search goes on or because
    the random matrices given in [w_shifts] are used up. *)
From Verif Require Import LatticeModel BravaisModel.
From Verif Require Export QuartModel DirectConcrete OutputModel LatCorModel.
Local Open Scope R_scope.

(** quartic_opt.py:4-7, 32: which of the two versions of quart_min is defined depends on scipy being installed *)
Inductive minimiser :=
| Scipy (minimize : list R -> list R)
| Fallback (linv : mat R -> res (mat R)).

(** What the run gets from outside: numpy's eigenvalues, scipy, the random numbers, and the order in which Python goes
    through a set of tuples *)
Record world := {
  w_eig : mat R -> list R * mat R;
  w_min : minimiser;
  w_draws : nat -> list R;              (* the i-th np.random.rand of quart_min *)
  w_shifts : list (mat Z);              (* np.random.random_integers, main_direct.py:195, 199 *)
  w_order : list (list Z) -> list (list Z) }.

(** quartic_opt.py:8-30 (100 starts), 94-106 (20 starts); N = int(np.sqrt(len(T)))**2 = dim**2 *)
Definition quart_min (w : world) (N : nat) (T : tensor4) : res (option R) :=
  match w_min w with
  | Scipy minimize => quart_min_scipy minimize N T (map (w_draws w) (seq 0 100))
  | Fallback linv => quart_min_fallback linv N T (map (w_draws w) (seq 0 20))
  end.

(** main_direct.py:75-80: the keyword arguments; the value of 'dist' is only printed *)
Record drequest := { d_nsol : nat; d_vol_th : R; d_dim : Z; d_slice_sz : nat; d_dist : dist_name }.
Definition default_drequest : drequest :=
  {| d_nsol := 1; d_vol_th := 1/10; d_dim := 3; d_slice_sz := 100; d_dist := Cauchy |}.

(** main_direct.py:46-282: SOLS, each entry with its distance and what lines 229-248 store in it.  The radius
    of line 207 divides by alpha: for alpha <= 0 it is infinite or not a number, which the model does not follow (NaN). *)
Definition lat_cor_direct (w : world) (q : drequest) (fuel : nat)
    (brava : Z) (pa : list R) (bravm : Z) (pm : list R) : res (list (R * output)) :=
  let* Lat_A := new_bravais brava pa (d_dim q) in
  let* Lat_M := new_bravais bravm pm (d_dim q) in
  let dim := Z.to_nat (d_dim q) in
  let E_A := b_base Lat_A in
  let E_M := b_base Lat_M in
  let* E_Minv := inv E_M in
  let C_A := conventional_trans Lat_A in
  let C_M := conventional_trans Lat_M in
  let* LG_A := lattice_group E_A in
  let* LG_M := lattice_group E_M in
  let* alpha := quart_min w (dim * dim) (quartic_D dim E_A E_Minv) in
  let* st := direct_init dim E_A E_M LG_A LG_M (d_nsol q) (d_vol_th q) (w_shifts w) in
  match alpha with
  | None => Raise NaN
  | Some alpha =>
    if Rleb alpha 0 then Raise NaN
    else
      let* st := direct_search dim E_A E_M LG_A LG_M (d_nsol q) alpha (d_slice_sz q) fuel st in
      mapM (fun s => let* o := report_direct dim E_A E_M C_A C_M (w_eig w) (fst s)
                                 (w_order w (eqlatcor dim LG_A LG_M (fst s))) in
                     Ok (snd s, o)) (fst (fst st))
  end.
