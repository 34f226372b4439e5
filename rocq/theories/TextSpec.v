(** Specification vocabulary for C95: how a reader takes the numbers out of a printed report. *)
From Coq Require Import Ascii String List ZArith Reals Bool.
Import ListNotations.
Local Open Scope list_scope.
Local Open Scope R_scope.

Definition is_digit (c : ascii) : bool := let n := nat_of_ascii c in ((48 <=? n) && (n <=? 57))%nat.
(** the number that a row of digits denotes *)
Definition digits_value (s : list ascii) : Z := fold_left (fun a c => 10 * a + (Z.of_nat (nat_of_ascii c) - 48))%Z s 0%Z.
Fixpoint span {A} (p : A -> bool) (s : list A) : list A * list A :=
  match s with [] => ([], []) | c :: r => if p c then let (a, b) := span p r in (c :: a, b) else ([], s) end.
(** what follows the mantissa m: nothing, or an exponent with its sign *)
Definition read_exponent (m : R) (r : list ascii) : option R :=
  match r with
  | [] => Some m
  | e :: sg :: t =>
    if (Ascii.eqb e "e" && (0 <? List.length t)%nat && forallb is_digit t)%bool then
      if Ascii.eqb sg "+" then Some (m * 10 ^ Z.to_nat (digits_value t))
      else if Ascii.eqb sg "-" then Some (m / 10 ^ Z.to_nat (digits_value t)) else None
    else None
  | _ => None
  end.
(** digits, perhaps a point and digits, perhaps an exponent *)
Definition read_unsigned (s : list ascii) : option R :=
  let (i, r) := span is_digit s in
  let (f, r) := match r with c :: r' => if Ascii.eqb c "." then span is_digit r' else ([], r) | [] => ([], []) end in
  if (List.length i =? 0)%nat then None else read_exponent (IZR (digits_value (i ++ f)) / 10 ^ List.length f) r.
Definition read_number (s : list ascii) : option R :=
  match s with c :: r => if Ascii.eqb c "-" then option_map Ropp (read_unsigned r) else read_unsigned s | [] => None end.

(** the parts of a text between the characters that satisfy p *)
Fixpoint split (p : ascii -> bool) (s : list ascii) : list (list ascii) :=
  match s with
  | [] => [[]]
  | c :: r => if p c then [] :: split p r else match split p r with w :: ws => (c :: w) :: ws | [] => [[c]] end
  end.
Definition lines (s : list ascii) : list (list ascii) := split (Ascii.eqb "010") s.
(** words are separated by blanks, brackets, commas and colons *)
Definition separator (c : ascii) : bool := existsb (Ascii.eqb c) [" "; "["; "]"; ","; ":"]%char.
Definition words (s : list ascii) : list (list ascii) := filter (fun w => negb (List.length w =? 0)%nat) (split separator s).
(** the numbers in a line, from left to right; words that are not numbers are skipped *)
Definition numbers (s : list ascii) : list R := flat_map (fun w => match read_number w with Some x => [x] | None => [] end) (words s).

(** y is x rounded to p places after the point; y is x rounded to six significant digits *)
Definition rounded (p : nat) (x y : R) : Prop := Rabs (x - y) <= / (2 * 10 ^ p).
Definition rounded6 (x y : R) : Prop := Rabs (x - y) <= 5 / 10 ^ 6 * Rabs x.

(** a title and dim lines, the j-th of which satisfies [row j] *)
Definition titled (title : string) (dim : nat) (row : nat -> list ascii -> Prop) (b : list (list ascii)) : Prop :=
  exists rows, b = list_ascii_of_string title :: rows /\ List.length rows = dim /\ forall j s, nth_error rows j = Some s -> row j s.
(** "[column j of cor] ==> [unit vector j]" *)
Definition shows_column (dim : nat) (cor : nat -> nat -> R) (j : nat) (s : list ascii) : Prop :=
  exists l r, s = l ++ list_ascii_of_string "==>" ++ r /\
    Forall2 (rounded 2) (map (fun k => cor k j) (seq 0 dim)) (numbers l) /\
    numbers r = map (fun k => if (k =? j)%nat then 1 else 0) (seq 0 dim).
Definition shows_row (close : R -> R -> Prop) (dim : nat) (m : nat -> nat -> R) (j : nat) (s : list ascii) : Prop :=
  Forall2 close (map (fun k => m j k) (seq 0 dim)) (numbers s).
(** what the report of lat_cor shows for the solution number i (from 0): the numbers i + 1 and nsol, the correspondence column
    by column, the stretch row by row, the eigenvalues in their order, the name of the distance and the distance *)
Definition dist_title (name : option string) : string :=
  match name with Some n => " - Assigned distance " ++ n | None => " - Assigned distance " end.
Definition tail_shows (lams : list R) (name : option string) (d : R) (b : list (list ascii)) : Prop :=
  exists body dl, b = [list_ascii_of_string " - Sorted eigen strains:"; body ++ list_ascii_of_string ".";
                       list_ascii_of_string (dist_title name); dl; list_ascii_of_string " "]%list /\
    Forall2 rounded6 lams (numbers body) /\ Forall2 rounded6 [d] (numbers dl).
Definition shows_solution (i nsol dim : nat) (name : option string) (d : R) (cor u : nat -> nat -> R) (lams : list R) (b : list (list ascii)) : Prop :=
  exists header b1 b2 b3, b = [header; list_ascii_of_string "----------------------"] ++ b1 ++ b2 ++ b3 /\
    numbers header = [INR (i + 1); INR nsol] /\
    titled " - Lattice correspondence:" dim (shows_column dim cor) b1 /\
    titled " - Transformation stretch matrix:" dim (shows_row (rounded 6) dim u) b2 /\
    tail_shows lams name d b3.
(** the same with the Hermite normal form *)
Definition shows_solution_hnf (i nsol dim : nat) (name : option string) (d : R) (cor u h : nat -> nat -> R) (lams : list R) (b : list (list ascii)) : Prop :=
  exists header b1 b2 bh b3, b = [header; list_ascii_of_string "----------------------"] ++ b1 ++ b2 ++ bh ++ b3 /\
    numbers header = [INR (i + 1); INR nsol] /\
    titled " - Lattice correspondence:" dim (shows_column dim cor) b1 /\
    titled " - Transformation stretch matrix:" dim (shows_row (rounded 6) dim u) b2 /\
    titled " - Hermite normal form:" dim (shows_row rounded6 dim h) bh /\
    tail_shows lams name d b3.
