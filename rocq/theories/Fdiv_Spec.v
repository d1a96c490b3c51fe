(* Floor division and remainder of floats in Python. *)
From Coq Require Import ZArith Bool.
From Verif Require Import Math_Model Root_Model Fdiv_Model.
Open Scope Z_scope.

(* The greatest integer that is not greater than a / b (division of Z rounds down). *)
Definition py_floor (a b : float) : Z := num a b / den a b.
(* The distance of a / b to the next integer above it, as a multiple of 1 / |den a b|: (q + 1) * |b| - a * sgn b *)
Definition gap (a b : float) : Z := Z.abs (den a b) - (num a b * Z.sgn (den a b)) mod Z.abs (den a b).
(* the sign bit of a result: that of the number, z for a zero; infinities have none here *)
Definition py_sign (z : bool) (x : double) : bool * double :=
  match x with
  | Fin f => (match mant f with Z0 => z | Zpos _ => false | Zneg _ => true end, x)
  | Other => (false, x)
  end.
(* a % b, CPython's float_rem (Objects/floatobject.c): the double of a - floor(a / b) * b; a zero has the sign of b *)
Definition py_mod (a b : signed) : bool * double :=
  let r := ieee ((num (num_of a) (num_of b)) mod (den (num_of a) (num_of b))) (low (num_of a) (num_of b)) in
  py_sign (neg b) r.
(* a double, and the sign bit of one that is not zero *)
Definition is_double (x : float) : Prop := Z.abs (mant x) < 2 ^ 53 /\ -1074 <= expo x /\ Z.log2 (Z.abs (mant x)) + expo x < 1024.
Definition is_signed (a : signed) : Prop :=
  is_double (num_of a) /\ (mant (num_of a) < 0 -> neg a = true) /\ (0 < mant (num_of a) -> neg a = false).
(* the same number, whatever the mantissa and the exponent *)
Definition same_value (x y : double) : Prop :=
  match x, y with Fin f, Fin g => num f g = den f g | Other, Other => True | _, _ => False end.
