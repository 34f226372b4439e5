(** The two divisions of crystallography/hnf.py in double precision. *)
From Verif Require Export HnfModel.
From Flocq Require Import Core IEEE754.BinarySingleNaN.
Local Open Scope Z_scope.

Definition double := binary_float 53 1024.
Lemma double_prec : FLX.Prec_gt_0 53. Proof. reflexivity. Qed.
Lemma double_emax : Prec_lt_emax 53 1024. Proof. reflexivity. Qed.

(** numpy's true division of two integers (hnf.py:83, 115, 117 under Python 3): both are converted to double, rounding to
    nearest even, and divided with rounding to nearest even.  x/0 is an infinity or nan. *)
Definition to_double (z : Z) : double := binary_normalize 53 1024 double_prec double_emax mode_NE z 0 false.
Definition true_divide (a b : Z) : double :=
  @Bdiv 53 1024 double_prec double_emax mode_NE (to_double a) (to_double b).
(** int(math.floor(x)) and int(math.ceil(x)) *)
Definition int_floor (x : double) : res Z :=
  match x with
  | B754_zero _ => Ok 0
  | B754_infinity _ => Raise OverflowError
  | B754_nan => Raise ValueError
  | B754_finite s m e _ =>
      let v := if s then Z.neg m else Z.pos m in
      Ok (if 0 <=? e then v * 2 ^ e else v / 2 ^ (- e))
  end.
Definition int_ceil (x : double) : res Z :=
  match x with
  | B754_zero _ => Ok 0
  | B754_infinity _ => Raise OverflowError
  | B754_nan => Raise ValueError
  | B754_finite s m e _ =>
      let v := if s then Z.neg m else Z.pos m in
      Ok (if 0 <=? e then v * 2 ^ e else - ((- v) / 2 ^ (- e)))
  end.
(** hnf.py with these divisions.  The entries of the matrices are integers without a bound (numpy's are 64 bit). *)
Definition py3_double : division := {|
  fdiv a b := int_floor (true_divide a b);
  cdiv a b := int_ceil (true_divide a b) |}.
