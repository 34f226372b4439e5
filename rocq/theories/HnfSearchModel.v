(** Model of the outer part of lat_cor in marttrans/lat_cor/main_hnf.py: sublattice sizes
    (133-138), the list of solutions over all sublattices (187-231), and the serial and
    asynchronous loops (233-274). *)
From Verif Require Export RMat ReduceModel.
Local Open Scope Z_scope.

(** main_hnf.py:133-138.  arange(a, b) with integers a, b; np.round is round-half-even.
    (In the fallback the code gets a float; the model uses the integer it equals.) *)
Definition Rceil (x : R) : Z := - Rfloor (- x).
Definition vol_factors (r vol_th : R) : list Z :=
  let lo := Rceil ((1 - vol_th) * r) in
  let hi := Rfloor ((1 + vol_th) * r) + 1 in
  let vf := map (fun k => lo + Z.of_nat k) (seq 0 (Z.to_nat (hi - lo))) in
  match vf with [] => [rint r] | _ => vf end.

(** a solution: the dictionary {'d', 'l', 'h'} of main_hnf.py:255 and 273 *)
Record hsol := HSol { hd_ : R; hl : mat Z; hh : mat Z }.

Section Merge.
  Variables LG_A LG_M : list (mat Z).
  Variable nsol : nat.

  (** main_hnf.py:196 *)
  Definition ltot (s : hsol) : mat Z := mmul (hh s) (hl s).
  (** main_hnf.py:188-192 *)
  Definition ext_sols2 (l : mat Z) : list (mat Z) :=
    flat_map (fun q1 => map (fun q2 => mmul (mmul q1 l) q2) LG_M) LG_A.

  (** main_hnf.py:199-204 *)
  Fixpoint insert_at (s : hsol) (sols : list hsol) : list hsol :=
    match sols with
    | [] => [s]
    | t :: sols' => if Rleb (hd_ s) (hd_ t) then s :: t :: sols' else t :: insert_at s sols'
    end.
  (** main_hnf.py:208-219, for nsol >= 1: t counts from the end *)
  Fixpoint count_tail (bound : R) (limit : nat) (rsols : list hsol) : nat :=
    match limit, rsols with
    | S limit', s :: rsols' => if Rltb bound (hd_ s) then S (count_tail bound limit' rsols') else O
    | _, _ => O
    end.
  Definition truncate (sols : list hsol) : list hsol :=
    if (nsol <? length sols)%nat then
      match nth_error sols (nsol - 1) with
      | Some b => firstn (length sols - count_tail (hd_ b) (length sols - nsol) (rev sols)) sols
      | None => sols
      end
    else sols.
  Definition mstate : Type := (list hsol * list (mat Z))%type.     (* sols, EXT_SOLS2 *)
  (** main_hnf.py:194-206 *)
  Definition add_sol (st : mstate) (s : hsol) : mstate :=
    let '(sols, ext) := st in
    if mem_mat (ltot s) ext then st
    else (truncate (insert_at s sols), ext ++ ext_sols2 (ltot s)).

  (** main_hnf.py:227-231 *)
  Fixpoint merge_loop (st : mstate) (new : list hsol) : mstate :=
    match new with
    | [] => st
    | s :: new' =>
      match last (map Some (fst st)) None with
      | Some t => if Rleb (hd_ s) (hd_ t) then merge_loop (add_sol st s) new' else st
      | None => st                       (* not reached: sols is not empty *)
      end
    end.
  (** main_hnf.py:221-231 *)
  Definition merge_sols (st : mstate) (new : list hsol) : mstate :=
    match fst st with
    | [] => fold_left add_sol new st
    | _ => merge_loop st new
    end.
  (** main_hnf.py:270-273: results merged in the given order *)
  Definition merge_all (results : list (list hsol)) : mstate := fold_left merge_sols results ([], []).
End Merge.

(** main_hnf.py:242-263.  Task i is the sublattice hnfs[i]; [N] = len(hnfs).  [ready t i]
    is the answer of the t-th call of ready(), made on the result of task i.  [acc] is the
    state changed by merging ([merge acc i]: lines 253-255).  The log records the calls of
    lat_opt_par and the merges, most recent last. *)
Inductive event := Submit (i : nat) | Merge (i : nat).
Section Async.
  Context {A : Type}.
  Variable N poolsize : nat.
  Variable ready : nat -> nat -> bool.
  Variable merge : A -> nat -> A.

  (** main_hnf.py:243-247; [next] is the index of nextarg, exhausted at N *)
  Fixpoint fill (k : nat) (queue : list nat) (next : nat) (log : list event) : list nat * nat * list event :=
    match k with
    | O => (queue, next, log)
    | S k' =>
      if (next <? N)%nat && (length queue <? poolsize)%nat
      then fill k' (queue ++ [next]) (S next) (log ++ [Submit next])
      else (queue, next, log)
    end.
  (** main_hnf.py:250-262 *)
  Fixpoint poll (fuel t : nat) (queue : list nat) (next : nat) (acc : A) (log : list event) : res (A * list event) :=
    match queue with
    | [] => Ok (acc, log)
    | i :: q =>
      match fuel with
      | O => NoFuel
      | S fuel' =>
        if ready t i then
          let acc' := merge acc i in
          let log' := log ++ [Merge i] in
          if (next <? N)%nat
          then poll fuel' (S t) (q ++ [next]) (S next) acc' (log' ++ [Submit next])
          else poll fuel' (S t) q next acc' log'
        else poll fuel' (S t) (q ++ [i]) next acc log
      end
    end.
  Definition async_loop (fuel : nat) (acc : A) : res (A * list event) :=
    let '(queue, next, log) := fill N [] 0 [] in poll fuel 0 queue next acc log.
End Async.
