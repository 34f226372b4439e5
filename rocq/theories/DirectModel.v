(** Model of the direct search, marttrans/lat_cor/main_direct.py:131-227 (the same
    add_sol/update_sol/initialisation text is in main_direct_para.py:98-170) and of
    the parallel loop main_direct_para.py:179-223.

    Correspondences are flat lists of dim*dim integers.  [dist] is the closure dist /
    dist_vec of lines 122-123 (C42: both compute the same values).  [volok] is
    the test 1 - vol_th < det < 1 + vol_th of line 198.  Determinants are exact
    integers (la.det computes them in floating point).  A set of tuples is a list
    without regard to order. *)
From Verif Require Export Ord Flat HnfModel ReduceModel.
Local Open Scope Z_scope.

Definition mem_vec (l : list Z) (s : list (list Z)) : bool := existsb (row_eqb l) s.

Section Direct.
  Context {D : Type} {T : TotalOrder D}.
  Variable dim : nat.
  Variables LG_A LG_M : list (mat Z).     (* lattice groups, main_direct.py:128-129 *)
  Variable dist : list Z -> D.
  Variable nsol : nat.

  (** main_direct.py:131-133 *)
  Definition eqlatcor (l : list Z) : list (list Z) :=
    flat_map (fun M1 => map (fun M2 => flatten (mmul (mmul M1 (reshape dim l)) M2)) LG_M) LG_A.

  Notation sol := (list Z * D)%type.
  Definition state : Type := (list sol * list (list Z) * option D)%type.   (* SOLS, EXT_SOLS, DMAX; None = inf *)

  (** np.searchsorted([s['d'] for s in sols], d): first index whose value is >= d (the
      list is always ascending, see C47) *)
  Fixpoint searchsorted (sols : list sol) (d : D) : nat :=
    match sols with
    | [] => 0
    | s :: sols' => if dlt (snd s) d then S (searchsorted sols' d) else 0
    end%nat.
  Definition insert_at (i : nat) (s : sol) (sols : list sol) : list sol :=
    firstn i sols ++ s :: skipn i sols.

  (** main_direct.py:166-169, the pop loop; sols[-1], sols[nsol-1] (nsol >= 1) *)
  Fixpoint pop_loop (fuel : nat) (sols : list sol) (ext : list (list Z)) : res (list sol * list (list Z)) :=
    match last (map Some sols) None, nth_error sols (nsol - 1) with
    | Some s, Some t =>
      if dlt (snd t) (snd s) then
        match fuel with
        | O => NoFuel
        | S k => pop_loop k (removelast sols) (filter (fun l => negb (mem_vec l (eqlatcor (fst s)))) ext)
        end
      else Ok (sols, ext)
    | _, _ => Raise IndexError
    end.

  (** main_direct.py:157-170  add_sol *)
  Definition add_sol (s : sol) (sols : list sol) (ext : list (list Z)) : res (list sol * list (list Z) * D) :=
    let* p :=
      (if mem_vec (fst s) ext then Ok (sols, ext)
       else
         let idx := searchsorted sols (snd s) in
         let sols1 := if det (reshape dim (fst s)) =? 0 then sols else insert_at idx s sols in
         let ext1 := ext ++ eqlatcor (fst s) in
         if (nsol <? length sols1)%nat then pop_loop (length sols1) sols1 ext1 else Ok (sols1, ext1)) in
    let '(sols', ext') := p in
    match last (map Some sols') None with
    | Some t => Ok (sols', ext', snd t)
    | None => Raise IndexError
    end.

  (** np.argmin(ds): index of the first minimum *)
  Fixpoint argmin (ls : list (list Z)) : option (list Z * list (list Z)) :=
    match ls with
    | [] => None
    | l :: ls' =>
      match argmin ls' with
      | None => Some (l, [])
      | Some (m, rest) => if dlt (dist m) (dist l) then Some (m, l :: rest) else Some (l, ls')
      end
    end.

  Definition dle_inf (d : D) (dmax : option D) : bool := match dmax with None => true | Some m => dle d m end.

  (** main_direct.py:175-184, the while loop of update_sol; one turn per candidate *)
  Fixpoint update_loop (k : nat) (ls : list (list Z)) (st : state) : res state :=
    match k with
    | O => Ok st
    | S k' =>
      match argmin ls with
      | None => Ok st
      | Some (lmin, rest) =>
        let '(sols, ext, dmax) := st in
        if dle_inf (dist lmin) dmax then
          let* r := add_sol (lmin, dist lmin) sols ext in
          let '(sols', ext', d') := r in
          update_loop k' rest (sols', ext', Some d')
        else Ok st
      end
    end.

  (** main_direct.py:172-186  update_sol, with its flag "updated" *)
  Definition update_sol (ls : list (list Z)) (st : state) : res (bool * state) :=
    let* st' := update_loop (length ls) ls st in
    let upd := match snd st', snd st with
               | Some d', Some d => dlt d' d
               | Some _, None => true
               | None, _ => false
               end in
    Ok (upd, st').

  (** main_direct.py:194-203, initialisation.  [stream] is the sequence of matrices
      that np.random.random_integers(-1, 1, (dim, dim)) will return; when the modelled
      prefix is used up the outcome is NoFuel. *)
  Variable volok : Z -> bool.
  Variable L0 : mat Z.
  Fixpoint draw (stream : list (mat Z)) (ext : list (list Z)) : res (list Z * list (mat Z)) :=
    match stream with
    | [] => NoFuel
    | shift :: stream' =>
      let L := madd L0 shift in
      if mem_vec (flatten L) ext || negb (volok (det L)) then draw stream' ext
      else Ok (flatten L, stream')
    end.
  Fixpoint init_loop (k : nat) (stream : list (mat Z)) (st : state) : res state :=
    match k with
    | O => Ok st
    | S k' =>
      let '(sols, ext, _) := st in
      let* p := draw stream ext in
      let '(l, stream') := p in
      let* r := add_sol (l, dist l) sols ext in
      let '(sols', ext', d') := r in
      init_loop k' stream' (sols', ext', Some d')
    end.
  Definition init_search (stream : list (mat Z)) : res state :=
    init_loop (20 * nsol) stream ([], [], None).

  (** main_direct.py:213-227.  [gen d x] is vec_generator(rmax(d), dim**2, x).
      [inner] is the inner while loop over slices: it returns the state, and the new
      checkpoint when the list was updated. *)
  Variable slice_sz : nat.
  Variable gen : option D -> list Z -> res (list (list Z)).
  Fixpoint inner (fuel : nat) (g : list (list Z)) (st : state) : res (state * option (list Z)) :=
    match firstn slice_sz g with
    | [] => Ok (st, None)
    | ary =>
      match fuel with
      | O => NoFuel
      | S k =>
        let* r := update_sol ary st in
        let '(updated, st') := r in
        if updated then
          match skipn slice_sz g with
          | [] => Raise StopIteration          (* np.array(next(g)), line 224 *)
          | x :: _ => Ok (st', Some x)
          end
        else inner k (skipn slice_sz g) st'
      end
    end.
  Fixpoint outer (fuel : nat) (checkpoint : list Z) (st : state) : res state :=
    match fuel with
    | O => NoFuel
    | S k =>
      let* g := gen (snd st) checkpoint in
      let* r := inner (length g) g st in
      match r with
      | (st', None) => Ok st'
      | (st', Some x) => outer k x st'
      end
    end.
  Definition search (fuel : nat) (st : state) : res state := outer fuel (repeat 0 (dim * dim)) st.

  (** main_direct_para.py:179-192  calc_dist: the candidates a worker reports.
      np.min of an empty slice raises ValueError. *)
  Definition calc_dist (ary : list (list Z)) (dmax : option D) : res (list (list Z)) :=
    match argmin ary with
    | None => Raise ValueError
    | Some (m, _) =>
      if dle_inf (dist m) dmax then Ok (filter (fun l => dle (dist l) (dist m)) ary) else Ok []
    end.

  Fixpoint slices (k : nat) (g : list (list Z)) : list (list (list Z)) * list (list Z) :=
    match k with
    | O => ([], g)
    | S k' => let '(ss, rest) := slices k' (skipn slice_sz g) in (firstn slice_sz g :: ss, rest)
    end.

  (** main_direct_para.py:196-223; [nb] = ncpu * batch slices per round.  Results are
      only collected (res.get()) when next(g) succeeds. *)
  Fixpoint par_loop (fuel nb : nat) (checkpoint : list Z) (st : state) : res state :=
    match fuel with
    | O => NoFuel
    | S k =>
      let* g := gen (snd st) checkpoint in
      match slices nb g with
      | (_, []) => Ok st                     (* except StopIteration: break *)
      | (ss, x :: _) =>
        let* cs := mapM (fun a => calc_dist a (snd st)) ss in
        let* st' := (match concat cs with
                     | [] => Ok st
                     | c => let* r := update_sol c st in Ok (snd r)
                     end) in
        par_loop k nb x st'
      end
    end.
End Direct.
