(* round of floats in the generated code.
   Sources: pyccel/stdlib/math/pyc_math_c.c 46-63 (fpyc_bankers_round), pyccel/stdlib/math/pyc_math_f90.F90
   354-376 (pyc_bankers_round_float), pyccel/codegen/printing/ccode.py 1003-1013,
   pyccel/codegen/printing/fcode.py 1386-1406, pyccel/ast/builtins.py 535-582.
   A float is an integer of at most 53 bits times a power of two (Math_Model); no bounds on exponents.
   Results are given before the division by the factor, which is 1 when there are no digits. *)
From Coq Require Import ZArith List Bool.
From Verif Require Import Math_Model.
Open Scope Z_scope.

(* x + y, rounded to the nearest float *)
Definition fadd (x y : float) : float :=
  let e := Z.min (expo x) (expo y) in
  mkf (nearest (mant x * 2 ^ (expo x - e) + mant y * 2 ^ (expo y - e))) e.
(* x * n for a float n that is an integer *)
Definition fscale (x : float) (n : Z) : float := mkf (nearest (mant x * n)) (expo x).
Definition fopp (x : float) : float := mkf (- mant x) (expo x).
(* x * 0.5 is exact *)
Definition fhalf (x : float) : float := mkf (mant x) (expo x - 1).
Definition feq (x y : float) : bool :=
  let e := Z.min (expo x) (expo y) in mant x * 2 ^ (expo x - e) =? mant y * 2 ^ (expo y - e).
Definition half : float := mkf 1 (-1).
(* copysign(0.5, arg) *)
Definition signed_half (x : float) : float := if mant x <? 0 then fopp half else half.

Section Machine.
Variable junk64 : Z -> Z.

(* pyc_math_c.c 48-62, arg is the argument times the factor; digits: ndigits > 0 *)
Definition c_integer (digits : bool) (arg : float) : float :=
  let fix_ := signed_half arg in
  let rnd := whole (nearest (to64 junk64 (ftrunc (fadd arg fix_)))) in
  let diff := fadd arg (fopp rnd) in
  if negb digits && (feq diff half || feq diff (fopp half))
  then whole (2 * nearest (to64 junk64 (ftrunc (fadd (fhalf arg) fix_))))
  else rnd.
(* round(x), round(x, 0): the factor is pow(10.0, 0) *)
Definition c_round (x : float) : float := c_integer false (fscale x 1).
(* round(x, n) for 0 < n <= 22, when pow(10.0, n) is exact; before the division by it *)
Definition c_digits (n : Z) (x : float) : float := c_integer true (fscale x (10 ^ n)).

(* nint: the nearest integer, the one away from zero of two *)
Definition nint (x : float) : Z :=
  if 0 <=? expo x then mant x * 2 ^ expo x
  else Z.sgn (mant x) * ((Z.abs (mant x) + 2 ^ (- expo x - 1)) / 2 ^ (- expo x)).
(* pyc_math_f90.F90 364-374 *)
Definition f_integer (digits : bool) (arg : float) : float :=
  let rnd := whole (nearest (to64 junk64 (nint arg))) in
  let diff := fadd arg (fopp rnd) in
  if negb digits && (feq diff half || feq diff (fopp half))
  then whole (nearest (to64 junk64 (nint (fhalf arg)) * 2))
  else rnd.
Definition f_round (x : float) : float := f_integer false (fscale x 1).
Definition f_digits (n : Z) (x : float) : float := f_integer true (fscale x (10 ^ n)).
End Machine.

(* round(x) has an integer type without digits (builtins.py 556-564); in C the call is a double, ccode.py 1013;
   in Fortran it is converted, fcode.py 1402-1404 *)
Definition c_round_value (junk64 : Z -> Z) (x : float) : value := VReal (c_round junk64 x).
Definition f_round_value (junk64 : Z -> Z) (x : float) : value := VInt (to64 junk64 (ftrunc (f_round junk64 x))).
