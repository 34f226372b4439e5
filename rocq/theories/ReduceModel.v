(** Model of marttrans/lat_cor/main_hnf.py:16-34 (reduce_hnfs) and :148-166
    (serial and parallel use of it).  Integer matrices; the byte string
    [h.tostring()] of an int array of fixed shape determines the array and is
    determined by it, so keys are the matrices themselves. *)
From Verif Require Export HnfModel.
Local Open Scope Z_scope.

Definition row_eqb (r s : list Z) : bool :=
  (length r =? length s)%nat && forallb (fun p => fst p =? snd p) (combine r s).
Definition mat_eqb (M N : mat Z) : bool :=
  (length M =? length N)%nat && forallb (fun p => row_eqb (fst p) (snd p)) (combine M N).
Definition mem_mat (M : mat Z) (l : list (mat Z)) : bool := existsb (mat_eqb M) l.

(** main_hnf.py:26-31  the lazily evaluated orbit loop: true iff some
    hnfd(M.h, onlyH=True) is a key; an exception in hnfd propagates. *)
Fixpoint orbit_hits (D : division) (lg : list (mat Z)) (h : mat Z) (keys : list (mat Z)) : res bool :=
  match lg with
  | [] => Ok false
  | g :: lg' =>
    let gh := mmul g h in
    let* o := hnf_H D (ncols gh) gh in
    if mem_mat o keys then Ok true else orbit_hits D lg' h keys
  end.

(** main_hnf.py:24-34.  A dict keeps insertion order (Python >= 3.7); assigning to
    an existing key keeps its place. *)
Fixpoint reduce_loop (D : division) (lg : list (mat Z)) (hnfs keys : list (mat Z)) : res (list (mat Z)) :=
  match hnfs with
  | [] => Ok keys
  | h :: hs =>
    let* hit := orbit_hits D lg h keys in
    reduce_loop D lg hs (if hit then keys else if mem_mat h keys then keys else keys ++ [h])
  end.

(** main_hnf.py:16-34  reduce_hnfs(args): args = (hnfs, lg, lprint, ...).
    [nargs] is len(args); line 22 reads args[2] unconditionally. *)
Definition reduce_hnfs (D : division) (hnfs lg : list (mat Z)) (nargs : nat) : res (list (mat Z)) :=
  if (nargs <=? 2)%nat then Raise IndexError else reduce_loop D lg hnfs [].

(** main_hnf.py:152-154  divide_work(W, size).  size = 0 divides by 0.0 (only
    possible if W is empty; excluded by the guard on line 151). *)
Definition divide_work {A} (W : list A) (size : nat) : res (list (list A)) :=
  match size with
  | O => Raise ZeroDivisionError
  | _ =>
    let ngrp := ((length W + size - 1) / size)%nat in     (* ceil(len/size) *)
    Ok (map (fun g => firstn (min ((g + 1) * size) (length W) - g * size) (skipn (g * size) W))
            (seq 0 ngrp))
  end.

(** main_hnf.py:148-166.  [par] is the user's reduce_hnfs_par applied to the zipped
    argument tuples (chunk, LG_A), which have length 2. *)
Definition reduce_parallel (D : division)
    (par : list (list (mat Z) * list (mat Z)) -> res (list (list (mat Z))))
    (poolsize : nat) (hnfs lg : list (mat Z)) : res (list (mat Z)) :=
  let* hnfs' :=
    (if (poolsize * 20 <? length hnfs)%nat then
       let size := ((length hnfs + poolsize - 1) / poolsize)%nat in
       let* subs := divide_work hnfs size in
       let* rs := par (map (fun s => (s, lg)) subs) in
       Ok (concat rs)
     else Ok hnfs) in
  reduce_hnfs D hnfs' lg 3.
