(** lat_cor_direct's search for given lattices: DirectModel instantiated with the
    Cauchy distance, the vector generator and the initial guess of
    marttrans/lat_cor/main_direct.py:121-227.
    [alpha] is quart_min(D) (modelled in QuartModel.v; C46 says what alpha must satisfy); [stream] are the successive random matrices. *)
From Verif Require Export RMat DistModel VecGenModel DirectModel.

(** main_direct.py:122: dist = lambda x: Cauchy_dist(x, E_A, E_Minv), E_Minv = la.inv(E_M) *)
Definition lat_dist (EA EM : mat R) (l : list Z) : R := Cauchy_dist (map IZR l) EA (minv EM).

(** main_direct.py:198: 1 - vol_th < la.det(L0 + shift) < 1 + vol_th *)
Definition vol_ok (vol_th : R) (d : Z) : bool := (Rltb (1 - vol_th) (IZR d) && Rltb (IZR d) (1 + vol_th))%R.

(** main_direct.py:189: np.floor(la.inv(E_A).dot(E_M)).astype(np.int) *)
Definition guess (EA EM : mat R) : mat Z := map (map Rfloor) (mmul (minv EA) EM).

(** main_direct.py:213: vec_generator(maxRadius, dim**2, checkpoint), maxRadius = rmax(DMAX).
    With an infinite radius the generator would not end. *)
Definition ball_gen (n : nat) (alpha : R) (dmax : option R) (x : list Z) : res (list (list Z)) :=
  match dmax with Some d => vec_generator (rmax alpha d) (n * n) (Some x) | None => NoFuel end.

(** main_direct.py:188-203 *)
Definition direct_init (n : nat) (EA EM : mat R) (LG_A LG_M : list (mat Z)) (nsol : nat) (vol_th : R)
    (stream : list (mat Z)) : res (@state R) :=
  init_search n LG_A LG_M (lat_dist EA EM) nsol (vol_ok vol_th) (guess EA EM) stream.
(** main_direct.py:205-227 *)
Definition direct_search (n : nat) (EA EM : mat R) (LG_A LG_M : list (mat Z)) (nsol : nat) (alpha : R)
    (slice_sz fuel : nat) (st : @state R) : res (@state R) :=
  search n LG_A LG_M (lat_dist EA EM) nsol slice_sz (ball_gen n alpha) fuel st.
(** main_direct_para.py:196-223 *)
Definition direct_para (n : nat) (EA EM : mat R) (LG_A LG_M : list (mat Z)) (nsol : nat) (alpha : R)
    (slice_sz nb fuel : nat) (st : @state R) : res (@state R) :=
  par_loop n LG_A LG_M (lat_dist EA EM) nsol slice_sz (ball_gen n alpha) fuel nb (repeat 0%Z (n * n)) st.
