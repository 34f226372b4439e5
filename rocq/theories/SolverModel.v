(** Model of the class Solver, marttrans/lat_cor/solver.py:13-184.  The module imports main_direct by its bare name
    (line 3), so it can only be imported under Python 2 and from its own directory; the model starts after that.

    add_sol and update_sol (lines 125-157) are the same text as main_direct.py:157-186, modelled in DirectModel.v; load_input
    sets up the same data as main_direct.py:84-155.  Left out: printing, logging, the conventional cells (lines 96-97),
    which are not used, and alpha, which only enters the radius of line 180, which is not used either. *)
From Verif Require Import LatticeModel BravaisModel.
From Verif Require Export DirectCorModel.
Local Open Scope R_scope.

(** solver.py:160-184: initialize, for the lattices and groups set up by load_input *)
Definition solver_init (n : nat) (EA EM : mat R) (LG_A LG_M : list (mat Z)) (nsol : nat) (vol_th : R)
    (stream : list (mat Z)) : res (@state R) :=
  init_loop n LG_A LG_M (lat_dist EA EM) nsol (vol_ok vol_th) (guess EA EM) (max 20 (5 * nsol)) stream ([], [], None).

(** solver.py:79-184: Solver(...).load_input() and then initialize(); the state is the triple that is returned.  A value of
    alpha that is not a number, or zero, does not stop the call: the radius of line 180 is a NumPy float *)
Definition solver_run (w : world) (q : drequest) (brava : Z) (pa : list R) (bravm : Z) (pm : list R) : res (@state R) :=
  let* Lat_A := new_bravais brava pa (d_dim q) in
  let* Lat_M := new_bravais bravm pm (d_dim q) in
  let dim := Z.to_nat (d_dim q) in
  let E_A := b_base Lat_A in
  let E_M := b_base Lat_M in
  let* E_Minv := inv E_M in
  let* LG_A := lattice_group E_A in
  let* LG_M := lattice_group E_M in
  let* alpha := quart_min w (dim * dim) (quartic_D dim E_A E_Minv) in
  solver_init dim E_A E_M LG_A LG_M (d_nsol q) (d_vol_th q) (w_shifts w).
