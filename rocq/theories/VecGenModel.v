(** Model of vec_generator, marttrans/lat_cor/main_direct.py:14-43 (the same text is in
    main_direct_para.py).  The generator is the list of the vectors it yields.  The
    radius is abstract: the code's real maxlen ([vec_generator]) and, for
    computation, its integer squared version ([vec_generator_sq]); VecGenProofs
    proves that both yield the same vectors. *)
From Verif Require Export RMat.
Local Open Scope Z_scope.

Section Gen.
  Variable rad : Type.
  Variable le : Z -> rad -> bool.          (* n <= maxlen *)
  Variable shrink : rad -> Z -> rad.       (* np.sqrt(max(0, maxlen**2 - f**2)) *)
  Variable bound : rad -> Z.               (* floor(maxlen), for the fuel only *)

  Definition fuel (r : rad) : nat := Z.to_nat (bound r) + 2.

  (** main_direct.py:21-26, dim == 1 *)
  Fixpoint loop1 (k : nat) (r : rad) (n : Z) : res (list (list Z)) :=
    if le n r then
      match k with
      | O => NoFuel
      | S k' =>
        let* rest := loop1 k' r (Z.abs n + 1) in
        Ok ([n] :: (if 0 <? n then [[- n]] else []) ++ rest)
      end
    else Ok [].

  (** main_direct.py:30-43, the while loop, given the generator for dim - 1 *)
  Fixpoint loopN (sub : rad -> option (list Z) -> res (list (list Z)))
      (k : nat) (r : rad) (f : Z) (xs : option (list Z)) : res (list (list Z)) :=
    if le f r then
      match k with
      | O => NoFuel
      | S k' =>
        let* a := sub (shrink r f) xs in
        let* b := (if 0 <? f then let* b := sub (shrink r f) xs in Ok (map (cons (- f)) b) else Ok []) in
        let* rest := loopN sub k' r (Z.abs f + 1) None in
        Ok (map (cons f) a ++ b ++ rest)
      end
    else Ok [].

  (** main_direct.py:14-43.  x0 has length dim (a shorter one raises IndexError). *)
  Fixpoint vec_gen (dim : nat) (r : rad) (x0 : option (list Z)) : res (list (list Z)) :=
    match dim with
    | O => Raise IndexError
    | S d =>
      match (match x0 with None => repeat 0 dim | Some x => x end) with
      | [] => Raise IndexError
      | f0 :: xs =>
        match d with
        | O => loop1 (fuel r) r f0
        | S _ => loopN (vec_gen d) (fuel r) r f0 (Some xs)
        end
      end
    end.
End Gen.

(** real radius, as in the code *)
Definition leR (n : Z) (r : R) : bool := Rleb (IZR n) r.
Definition shrinkR (r : R) (f : Z) : R := sqrt (Rmax 0 (r * r - IZR f * IZR f)).
Definition vec_generator (maxlen : R) (dim : nat) (x0 : option (list Z)) : res (list (list Z)) :=
  vec_gen R leR shrinkR Rfloor dim maxlen x0.

(** squared integer radius m = floor(maxlen^2), maxlen >= 0 *)
Definition leZ (n m : Z) : bool := n <=? Z.sqrt m.
Definition shrinkZ (m f : Z) : Z := Z.max 0 (m - f * f).
Definition vec_generator_sq (m : Z) (dim : nat) (x0 : option (list Z)) : res (list (list Z)) :=
  vec_gen Z leZ shrinkZ Z.sqrt dim m x0.
