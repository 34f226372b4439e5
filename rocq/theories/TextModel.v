(** Model of the printed reports: marttrans/lat_cor/main_direct.py:285-335 and marttrans/lat_cor/main_hnf.py:325-386.
    A text is a list of characters.  Formatting is correctly rounded, ties to even, from the exact value, as Python's is from
    the value of the float; zero has no sign. *)
From Coq Require Import Ascii String.
From Verif Require Import LinAlg RMat.
From Verif Require Export OutputModel LatCorModel.
From Coq Require Export List ZArith Reals.
Local Open Scope list_scope.
Local Open Scope R_scope.

Definition text := list ascii.
Definition lit (s : string) : text := list_ascii_of_string s.
Definition nl : ascii := "010"%char.

(** the last w decimal digits of z *)
Definition digit (d : Z) : ascii := ascii_of_nat (48 + Z.to_nat d).
Fixpoint digits (w : nat) (z : Z) : text :=
  match w with 0%nat => [] | S w' => digits w' (z / 10) ++ [digit (z mod 10)] end.
Fixpoint ndig (fuel : nat) (z : Z) : nat :=
  match fuel with 0%nat => 1%nat | S f => if (z <? 10)%Z then 1%nat else S (ndig f (z / 10)) end.
(** '{:d}' and '%d' of an integer z >= 0 *)
Definition dec (z : Z) : text := digits (ndig (Z.to_nat (Z.log2 z)) z) z.
(** '{:.pf}', p >= 1 *)
Definition minus (x : R) : text := if Rltb x 0 then lit "-" else [].
Definition fixed (p : nat) (x : R) : text :=
  let k := rint (10 ^ p * Rabs x) in
  minus x ++ dec (k / 10 ^ Z.of_nat p) ++ lit "." ++ digits p k.
(** '{:>w...}' *)
Definition pad (w : nat) (s : text) : text := repeat " "%char (w - length s) ++ s.

(** the digits after the point without the zeros at the end, and without the point if none is left *)
Fixpoint strip0 (s : text) : text :=
  match s with
  | [] => []
  | c :: r => match strip0 r with [] => if ascii_dec c "0"%char then [] else [c] | r' => c :: r' end
  end.
Definition point (i f : text) : text := match strip0 f with [] => i | f' => i ++ lit "." ++ f' end.
(** '{:g}' and '%g': six significant digits m * 10^(e-5), with an exponent when e < -4 or e >= 6 *)
Definition general (x : R) : text :=
  if Reqb x 0 then lit "0"
  else
    let a := Rabs x in
    let e0 := Rfloor (ln a / ln 10) in
    let m0 := rint (a * powerRZ 10 (5 - e0)) in
    let '(m, e) := (if (m0 =? 1000000)%Z then (100000, e0 + 1) else (m0, e0))%Z in
    minus x ++
    (if ((-4 <=? e) && (e <? 6))%Z
     then let q := Z.to_nat (5 - e) in point (dec (m / 10 ^ Z.of_nat q)) (digits q m)
     else point (dec (m / 100000)) (digits 5 m) ++ lit "e" ++ (if (e <? 0)%Z then lit "-" else lit "+") ++
          (if (Z.abs e <? 10)%Z then digits 2 (Z.abs e) else dec (Z.abs e))).

(** msg = head; msg += f(v) + ' ' for each v; msg[:-1] *)
Definition row_msg (head : text) (f : R -> text) (vs : list R) : text :=
  removelast (head ++ concat (map (fun v => f v ++ lit " ") vs)).
(** main_direct.py:296-303: the line for column j; np.eye(dim)[j, k] is printed with '%1d ' *)
Definition cor_line (dim : nat) (cor : mat R) (j : nat) : text :=
  row_msg (lit "    [") (fun v => pad 5 (fixed 2 v)) (map (fun k => get cor k j) (seq 0 dim)) ++ lit "] ==> [ " ++
  concat (map (fun k => dec (get (eye dim) j k) ++ lit " ") (seq 0 dim)) ++ lit "]".
(** main_direct.py:306-314 *)
Definition u_line (dim : nat) (u : mat R) (j : nat) : text :=
  row_msg (if (j =? 0)%nat then lit "   U = [" else lit "       [") (fun v => pad 9 (fixed 6 v)) (map (fun k => get u j k) (seq 0 dim)) ++ lit "]".
(** main_hnf.py:356-364; '{:>4g}' turns the integer into a float *)
Definition h_line (dim : nat) (h : mat Z) (j : nat) : text :=
  row_msg (if (j =? 0)%nat then lit "   H = [" else lit "       [") (fun v => pad 4 (general v)) (map (fun k => IZR (get h j k)) (seq 0 dim)) ++ lit "]".
(** main_direct.py:319-322 *)
Definition lams_line (dim : nat) (lams : list R) : text :=
  let msg := lit "    " ++ concat (map (fun j => lit "lambda_" ++ dec (Z.of_nat (S j)) ++ lit " = " ++ general (nth j lams 0) ++ lit ", ") (seq 0 dim)) in
  removelast (removelast msg) ++ lit ".".
(** main_direct.py:326-333 *)
Definition dist_line (d : dist_name) : text :=
  lit " - Assigned distance " ++
  match d with Ericksen => lit "(Ericksen distance):" | Strain => lit "(strain):" | Cauchy => lit "(Cauchy distance)" | OtherName => [] end.

Definition line (s : text) : text := s ++ [nl].
(** main_direct.py:288-334, one turn of the loop *)
Definition sol_tostr (i nsol dim : nat) (dist : dist_name) (d : R) (cor u : mat R) (lams : list R) : text :=
  line (lit "Solution " ++ dec (Z.of_nat (i + 1)) ++ lit " out of " ++ dec (Z.of_nat nsol) ++ lit ":") ++
  line (lit "----------------------") ++
  line (lit " - Lattice correspondence:") ++ concat (map (fun j => line (cor_line dim cor j)) (seq 0 dim)) ++
  line (lit " - Transformation stretch matrix:") ++ concat (map (fun j => line (u_line dim u j)) (seq 0 dim)) ++
  line (lit " - Sorted eigen strains:") ++ line (lams_line dim lams) ++
  line (dist_line dist) ++ line (lit "    dist = " ++ general d) ++ line (lit " ").
(** main_hnf.py:328-385, one turn of the loop *)
Definition sol_tostr_hnf (i nsol dim : nat) (dist : dist_name) (d : R) (cor u : mat R) (h : mat Z) (lams : list R) : text :=
  line (lit "Solution " ++ dec (Z.of_nat (i + 1)) ++ lit " out of " ++ dec (Z.of_nat nsol) ++ lit ":") ++
  line (lit "----------------------") ++
  line (lit " - Lattice correspondence:") ++ concat (map (fun j => line (cor_line dim cor j)) (seq 0 dim)) ++
  line (lit " - Transformation stretch matrix:") ++ concat (map (fun j => line (u_line dim u j)) (seq 0 dim)) ++
  line (lit " - Hermite normal form:") ++ concat (map (fun j => line (h_line dim h j)) (seq 0 dim)) ++
  line (lit " - Sorted eigen strains:") ++ line (lams_line dim lams) ++
  line (dist_line dist) ++ line (lit "    dist = " ++ general d) ++ line (lit " ").

(** for i, sol in enumerate(sols) *)
Fixpoint enum_from {A} (i : nat) (f : nat -> A -> text) (l : list A) : text :=
  match l with [] => [] | x :: l' => f i x ++ enum_from (S i) f l' end.
(** main_direct.py:285-335 *)
Definition sols_tostr (sols : list (R * output)) (nsol dim : nat) (dist : dist_name) : text :=
  enum_from 0 (fun i s => sol_tostr i nsol dim dist (fst s) (o_cor (snd s)) (o_u (snd s)) (o_lams (snd s))) sols.
(** main_hnf.py:325-386 *)
Definition sols_tostr_hnf (sols : list (hsol * output)) (nsol dim : nat) (dist : dist_name) : text :=
  enum_from 0 (fun i s => sol_tostr_hnf i nsol dim dist (hd_ (fst s)) (o_cor (snd s)) (o_u (snd s)) (hh (fst s)) (o_lams (snd s))) sols.
