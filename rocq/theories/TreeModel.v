(** Model of the tree search for one sublattice: marttrans/lat_cor/slnode.py,
    marttrans/lat_cor/dfs.py and the core of marttrans/lat_cor/lat_opt.py.

    Matrices are integer; the bytes of an array (tostring()) used as dictionary keys are
    represented by the array itself (all keys are C-contiguous int arrays of one shape).
    Distances are exact reals.  A dictionary is an association list. *)
From Verif Require Export RMat ReduceModel.
Local Open Scope Z_scope.

(** numpy's a.dot(b) for 2-d arrays: shapes are checked *)
Definition np_dot (a b : mat Z) : res (mat Z) :=
  if (ncols a =? nrows b)%nat then Ok (mmul a b) else Raise ValueError.

(** slnode.py:17  onetotwo *)
Definition onetotwo : list (nat * nat) := [(0, 1); (0, 2); (1, 0); (1, 2); (2, 0); (2, 1)]%nat.

(** slnode.py:9-16  the transvections I + e_i (x) e_j, then I - e_i (x) e_j *)
Definition transvection (s : Z) (ij : nat * nat) : mat Z :=
  mk 3 3 (fun a b => (if (a =? b)%nat then 1 else 0) + (if (a =? fst ij)%nat && (b =? snd ij)%nat then s else 0)).
Definition T_ : list (mat Z) := map (transvection 1) onetotwo ++ map (transvection (-1)) onetotwo.

(** slnode.py:58-61 with N = 3 * 2 (the tests are only made for dim = 3) *)
Definition gobacktoparent (child : nat) (parent : option nat) : bool :=
  match parent with None => false | Some p => (child =? (p + 6) mod 6)%nat end.

Definition pair_of (i : nat) : nat * nat := nth (i mod 6) onetotwo (0, 0)%nat.

(** slnode.py:63-75 *)
Definition gobacktouncle (child : nat) (parent grandpa : option nat) : bool :=
  match parent, grandpa with
  | Some p, Some g =>
    let '(ic, kc) := pair_of child in
    let '(jp, kp) := pair_of p in
    let '(ig, jg) := pair_of g in
    ((ic =? ig) && (jg =? jp) && (kp =? kc))%nat
  | _, _ => false
  end.

(** Python's comparison of pairs *)
Definition pair_gt (a b : nat * nat) : bool :=
  ((fst b <? fst a) || ((fst a =? fst b) && (snd b <? snd a)))%nat.
(** slnode.py:77-88 *)
Definition gobacktosibling (child : nat) (parent : option nat) : bool :=
  match parent with None => false | Some p => pair_gt (pair_of child) (pair_of p) end.

(** slnode.py:31-43: the indices kept by generate_children *)
Definition child_indices (dim : nat) (parent grandpa : option nat) : list nat :=
  filter (fun i => negb (dim =? 3)%nat ||
    (negb (gobacktoparent i parent) && negb (gobacktouncle i parent grandpa) && negb (gobacktosibling i parent)))
    (seq 0 (length T_)).

(** slnode.py:19-29: what later code reads of a node *)
Record node := Node { elem : mat Z; parent : option nat; grandpa : option nat }.

Section Tree.
  Variable dim : nat.                 (* SLNode.dim, lat_opt.py:75 *)
  Variable dist : mat Z -> R.         (* cache['dist'], slnode.py:46-48 *)
  Local Open Scope R_scope.

  (** slnode.py:90-102, the loop over calc_neighbor_dist(): (dmin, nbmin) *)
  Fixpoint steep_loop (E : mat Z) (i : nat) (ts : list (mat Z)) (dmin : R) (nbmin : option nat)
    : res (R * option nat) :=
    match ts with
    | [] => Ok (dmin, nbmin)
    | t :: ts' =>
      let* c := np_dot E t in
      if Rltb (dist c - dist E) dmin then steep_loop E (S i) ts' (dist c - dist E) (Some i)
      else steep_loop E (S i) ts' dmin nbmin
    end.
  (** slnode.py:95-103; 10000000000 is 1E10.  nbmin is set whenever dmin < 0. *)
  Definition steepest_des (nd : node) : res (option node) :=
    let* r := steep_loop (elem nd) 0 T_ 10000000000 None in
    match r with
    | (dmin, Some i) =>
      if Rltb dmin 0 then
        let* E := np_dot (elem nd) (nth i T_ (eye 3)) in Ok (Some (Node E None None))
      else Ok None
    | (_, None) => Ok None
    end.

  (** a dfs cache: the 'counter' entry, and the nodes stored under the flattened matrices *)
  Definition dfs_cache : Type := (option Z * list (mat Z * node))%type.
  Fixpoint lookup (E : mat Z) (entries : list (mat Z * node)) : option node :=
    match entries with
    | [] => None
    | (K, nd) :: es => if mat_eqb E K then Some nd else lookup E es
    end.

  (** dfs.py:27-37, the while loop: the last node and the list of nodes passed *)
  Fixpoint descend (fuel : nat) (nd : node) (passed : list node) : res (node * list node) :=
    match fuel with
    | O => NoFuel
    | S k =>
      let* nx := steepest_des nd in
      match nx with
      | None => Ok (nd, passed)
      | Some nd' => descend k nd' (passed ++ [nd'])
      end
    end.

  (** dfs.py:14-44 *)
  Definition dfs (fuel : nat) (start : node) (cache : dfs_cache) : res (node * dfs_cache) :=
    match lookup (elem start) (snd cache) with
    | Some nd =>
      match fst cache with
      | None => Raise KeyError                              (* cache['counter'] += 1 *)
      | Some c => Ok (nd, (Some (c + 1)%Z, snd cache))
      end
    | None =>
      let* r := descend fuel start [start] in
      let '(m, passed) := r in
      Ok (m, (fst cache, fold_left (fun es nd => (elem nd, m) :: es) passed (snd cache)))
    end.

  Variables LG1 SOLG2 : list (mat Z).  (* lat_opt.py:101-102 *)
  Variable nsol : nat.

  (** lat_opt.py:134-136 *)
  Definition ext_sols (l : mat Z) : list (mat Z) :=
    flat_map (fun q1 => map (fun q2 => mmul (mmul q1 l) q2) SOLG2) LG1.

  (** lat_opt.py:138-143; dopt and lopt are kept as one list of pairs *)
  Fixpoint truncate_sols (fuel : nat) (sols : list (mat Z * R)) : list (mat Z * R) :=
    match fuel with
    | O => sols
    | S k =>
      match last (map Some sols) None, nth_error sols (nsol - 1) with
      | Some s, Some t =>
        if (nsol <? length sols)%nat && Rltb (snd t) (snd s) then truncate_sols k (removelast sols) else sols
      | _, _ => sols
      end
    end.

  (** lat_opt.py:150-156: insertion before the first entry that is not smaller, if any *)
  Fixpoint insert_sol (s : mat Z * R) (sols : list (mat Z * R)) : option (list (mat Z * R)) :=
    match sols with
    | [] => None
    | t :: sols' =>
      if Rleb (snd s) (snd t) then Some (s :: t :: sols')
      else match insert_sol s sols' with Some r => Some (t :: r) | None => None end
    end.

  Definition sol_state : Type := (list (mat Z * R) * list (mat Z))%type.  (* (dopt, lopt), EXT_SOLS *)

  (** lat_opt.py:146-168 *)
  Definition update_solutions (E : mat Z) (st : sol_state) : bool * sol_state :=
    let '(sols, ext) := st in
    match sols with
    | [] => (true, ([(E, dist E)], ext ++ ext_sols E))
    | _ =>
      if mem_mat E ext then (false, st)
      else
        match insert_sol (E, dist E) sols with
        | Some sols1 => (true, (truncate_sols (length sols1) sols1, ext ++ ext_sols E))
        | None =>
          if (length sols <? nsol)%nat then (true, (sols ++ [(E, dist E)], ext ++ ext_sols E))
          else (false, st)
        end
    end.

  Variables miniter maxiter : nat.

  (** State inside bfs: solutions, DFS cache, EXPLORED, new_roots, updated *)
  Record bstate := BState { b_sols : sol_state; b_cache : dfs_cache; b_explored : list (mat Z);
                            b_new : list node; b_upd : bool }.

  (** lat_opt.py:197-215: the children of one root.  [inl nd] is the early return of a
      new starting point (with the state at that moment). *)
  Fixpoint kids_loop (fuel depth : nat) (source root : node) (is_ : list nat) (b : bstate)
    : res ((node * bstate) + bstate) :=
    match is_ with
    | [] => Ok (inr b)
    | i :: is' =>
      let* E := np_dot (elem root) (nth i T_ (eye 3)) in
      if mem_mat E (b_explored b) then kids_loop fuel depth source root is' b
      else
        let t := Node E (Some i) (parent root) in
        let b1 := BState (b_sols b) (b_cache b) (E :: b_explored b) (b_new b ++ [t]) (b_upd b) in
        let finish (b2 : bstate) :=
          let '(u, s') := update_solutions E (b_sols b2) in
          kids_loop fuel depth source root is' (BState s' (b_cache b2) (b_explored b2) (b_new b2) (b_upd b2 || u)) in
        if (depth <=? miniter)%nat then
          let* r := dfs fuel t (b_cache b1) in
          let '(ns, c') := r in
          let b2 := BState (b_sols b1) c' (b_explored b1) (b_new b1) (b_upd b1) in
          if Rltb (dist (elem ns)) (dist (elem source)) then Ok (inl (ns, b2)) else finish b2
        else finish b1
    end.
  Fixpoint roots_loop (fuel depth : nat) (source : node) (roots : list node) (b : bstate)
    : res ((node * bstate) + bstate) :=
    match roots with
    | [] => Ok (inr b)
    | r :: rs =>
      let* x := kids_loop fuel depth source r (child_indices dim (parent r) (grandpa r)) b in
      match x with
      | inl n => Ok (inl n)
      | inr b' => roots_loop fuel depth source rs b'
      end
    end.
  (** lat_opt.py:186-224; [k] counts the remaining turns of the while loop (at most
      max(miniter, maxiter)) *)
  Fixpoint levels (k fuel depth : nat) (source : node) (roots : list node) (b : bstate)
    : res (option node * bstate) :=
    if (depth <? miniter)%nat || (b_upd b && (depth <? maxiter)%nat) then
      match k with
      | O => NoFuel
      | S k' =>
        let* x := roots_loop fuel (S depth) source roots
                    (BState (b_sols b) (b_cache b) (b_explored b) [] false) in
        match x with
        | inl (ns, b') => Ok (Some ns, b')
        | inr b' => levels k' fuel (S depth) source (b_new b') b'
        end
      end
    else Ok (None, b).
  Definition bfs (fuel : nat) (source : node) (s : sol_state) (c : dfs_cache) : res (option node * bstate) :=
    let '(_, s') := update_solutions (elem source) s in
    levels (max miniter maxiter) fuel 0 source [source] (BState s' c [elem source] [] true).

  (** lat_opt.py:227-236: the restart loop *)
  Fixpoint restarts (k fuel : nat) (start : node) (s : sol_state) (c : dfs_cache) : res sol_state :=
    match k with
    | O => NoFuel
    | S k' =>
      let* r := dfs fuel start c in
      let '(m, c') := r in
      let* x := bfs fuel m s c' in
      match x with
      | (None, b) => Ok (b_sols b)
      | (Some ns, b) => restarts k' fuel ns (b_sols b) (b_cache b)
      end
    end.
  (** lat_opt.py:118-241: from the starting point lo to (dopt, lopt) *)
  Definition lat_opt_core (k fuel : nat) (lo : mat Z) : res (list (mat Z * R)) :=
    let* s := restarts k fuel (Node lo None None) ([], []) (Some 0%Z, []) in Ok (fst s).
End Tree.
