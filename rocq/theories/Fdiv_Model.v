(* a // b and a % b for floats.

   Sources: CCodePrinter._print_PyccelFloorDiv (pyccel/codegen/printing/ccode.py 3264-3286) and _print_PyccelMod
   (1445-1459), pyc_fmodulo (pyccel/stdlib/math/pyc_math_c.h 104-111), FCodePrinter._print_PyccelFloorDiv
   (pyccel/codegen/printing/fcode.py 3633-3645).
   Doubles as in area Root: mant * 2 ^ expo, rounded to the nearest, ties to even; Other: an infinity or a NaN.
   Simplifications: double precision; the result of floor is an integer (the sign of a zero is lost there, not in
   the remainder); MODULO of Fortran is not modelled. *)
From Coq Require Import ZArith Bool.
From Verif Require Import Math_Model Root_Model.
Open Scope Z_scope.

(* a and b as multiples of the same power of two: a / b = num a b / den a b *)
Definition low (a b : float) : Z := Z.min (expo a) (expo b).
Definition num (a b : float) : Z := mant a * 2 ^ (expo a - low a b).
Definition den (a b : float) : Z := mant b * 2 ^ (expo b - low a b).

(* The division of C and Fortran: the quotient of integers to at least 60 bits, with a last bit that says whether
   there is a remainder, is rounded to a double. *)
Definition ddiv (a b : float) : double :=
  let x := Z.abs (num a b) in
  let y := Z.abs (den a b) in
  if y =? 0 then Other
  else if x =? 0 then Fin (mkf 0 0)
  else
    let s := 60 + Z.max 0 (Z.log2 y - Z.log2 x) in
    let q := x * 2 ^ s / y in
    let t := if x * 2 ^ s mod y =? 0 then 0 else 1 in
    ieee (Z.sgn (num a b) * Z.sgn (den a b) * (2 * q + t)) (- s - 1).

(* ccode.py 3277-3286: floor(a / b); None: no finite number *)
Definition c_floordiv (a b : float) : option Z :=
  match ddiv a b with Fin x => Some (ffloor x) | Other => None end.
(* fcode.py 3644: real(FLOOR(a / b, f64), f64), an integer of 64 bits; None: outside its range *)
Definition f_floordiv (a b : float) : option Z :=
  match ddiv a b with
  | Fin x => if (- 2 ^ 63 <=? ffloor x) && (ffloor x <? 2 ^ 63) then Some (ffloor x) else None
  | Other => None
  end.

(* A number with its sign bit, which only matters for zero *)
Record signed := { neg : bool; num_of : float }.
(* a < 0 in C *)
Definition below (a : signed) : bool := mant (num_of a) <? 0.
(* fmod of C is exact: the remainder of the division that is rounded to zero; it has the sign of a *)
Definition fmod (a b : float) : float := mkf (Z.rem (num a b) (den a b)) (low a b).
(* the sum of C *)
Definition dadd (a b : float) : double := ieee (num a b + den a b) (low a b).
(* the sign of a number that is not zero is the one of its mantissa; infinities have none here *)
Definition with_sign (z : bool) (x : double) : bool * double :=
  match x with Fin f => (if mant f =? 0 then z else mant f <? 0, x) | Other => (false, x) end.
(* pyc_math_c.h 104-111 *)
Definition pyc_fmodulo (a b : signed) : bool * double :=
  let m := fmod (num_of a) (num_of b) in
  if negb (xorb (below a) (below b)) || (mant m =? 0) then with_sign (neg a) (Fin m)
  else with_sign false (dadd m (num_of b)).
