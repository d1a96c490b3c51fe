(* Calls of functions of math in the generated C and Fortran code.
   Sources: pyccel/ast/mathext.py 860-930 (ceil, floor, trunc), pyccel/codegen/printing/ccode.py
   2710-2808, pyccel/codegen/printing/fcode.py 2148-2159 (floor), 3977-4017 (ceil, trunc, pow).
   A finite float of 64 bits is an integer times a power of two. Not modelled: infinities, NaN. *)
From Coq Require Import ZArith List Bool String.
From Verif Require Import Expr_Model.
Import ListNotations.
Open Scope Z_scope.

(* mant * 2 ^ expo *)
Record float := mkf { mant : Z; expo : Z }.
Inductive arg := AInt (n : Z) | AFloat (x : float) | ABool (b : bool).

(* the functions floor, ceil and trunc of C, whose results are floats without fraction; FLOOR, CEILING
   and DINT of Fortran *)
Definition ffloor (x : float) : Z :=
  if 0 <=? expo x then mant x * 2 ^ expo x else mant x / 2 ^ (- expo x).
Definition fceil (x : float) : Z :=
  if 0 <=? expo x then mant x * 2 ^ expo x else - (- mant x / 2 ^ (- expo x)).
Definition ftrunc (x : float) : Z :=
  if 0 <=? expo x then mant x * 2 ^ expo x else Z.quot (mant x) (2 ^ (- expo x)).

(* NumpyFloat of an integer, (double)n and Real(n, f64): the nearest float, the even one of two. It is an integer. *)
Definition nearest (n : Z) : Z :=
  let a := Z.abs n in
  if a <? 2 ^ 53 then n else
  let k := Z.log2 a - 52 in
  let q := a / 2 ^ k in
  let r := a mod 2 ^ k in
  let q' := if 2 * r <? 2 ^ k then q else if 2 ^ k <? 2 * r then q + 1 else if Z.even q then q else q + 1 in
  Z.sgn n * (q' * 2 ^ k).
Definition whole (n : Z) : float := mkf n 0.

Definition fits32 (z : Z) : bool := (- 2 ^ 31 <=? z) && (z <? 2 ^ 31).
Definition fits64 (z : Z) : bool := (- 2 ^ 63 <=? z) && (z <? 2 ^ 63).

(* the value of an expression: an integer or a float, or the compiler rejects the code *)
Inductive value := VInt (z : Z) | VReal (x : float) | Rejected.

Section Machine.
(* what the conversion of a float that is too large gives: some integer of the type *)
Variable junk32 junk64 : Z -> Z.
Definition to32 (z : Z) : Z := if fits32 z then z else junk32 z.
Definition to64 (z : Z) : Z := if fits64 z then z else junk64 z.

(* ccode.py 2744-2755: arguments that are not floats become floats *)
Definition c_arg (a : arg) : float :=
  match a with AInt n => whole (nearest n) | AFloat x => x | ABool b => whole (if b then 1 else 0) end.
(* ccode.py 2757-2760: (int64_t)floor(x), (int64_t)ceil(x) *)
Definition c_floor (a : arg) : value := VInt (to64 (ffloor (c_arg a))).
Definition c_ceil (a : arg) : value := VInt (to64 (fceil (c_arg a))).
(* ccode.py 2798-2808: trunc(x), without a cast; a bool is converted by the call *)
Definition c_trunc (a : arg) : value := VReal (whole (ftrunc (c_arg a))).

(* fcode.py 2148-2159 *)
Definition f_floor (a : arg) : value :=
  match a with
  | AInt n => VInt n
  | AFloat x => VInt (to64 (ffloor x))
  | ABool _ => Rejected
  end.
(* fcode.py 3977-3986: ceiling(x), an integer of the default kind *)
Definition f_ceil (a : arg) : value :=
  match a with
  | AInt n => VInt (to32 (fceil (whole (nearest n))))
  | AFloat x => VInt (to32 (fceil x))
  | ABool _ => Rejected
  end.
(* fcode.py 3999-4008: dint(x), a float *)
Definition f_trunc (a : arg) : value :=
  match a with
  | AInt n => VReal (whole (ftrunc (whole (nearest n))))
  | AFloat x => VReal (whole (ftrunc x))
  | ABool _ => Rejected
  end.

(* n = f(x), where n has the type of 64 bits that Pyccel gives to the call: C and Fortran convert *)
Definition assigned (v : value) : option Z :=
  match v with
  | VInt z => Some z
  | VReal x => Some (to64 (ftrunc x))
  | Rejected => None
  end.
(* print(f(x)): the format is that of an integer, "%" PRId64 or I0; it does not convert *)
Definition printed (v : value) : option Z :=
  match v with VInt z => Some z | _ => None end.
End Machine.

(* math.pow(a, b) in Fortran, fcode.py 4010-4017: the texts of the arguments, without parentheses or conversions *)
Open Scope string_scope.
Definition f_pow (a b : pe) : txt := In "**" (f_print a) (f_print b).
(* and in C, ccode.py 2744-2760: pow, with conversions *)
Definition c_pow (a b : pe) : txt := Call2 "pow" (c_double a (c_print a)) (c_double b (c_print b)).

(* ** between integers in Fortran: the result is an integer, 10.1.5.2.1 of the standard *)
Definition f_int_pow (a b : Z) : Z :=
  (if b <? 0 then Z.quot 1 (a ^ (- b)) else a ^ b)%Z.
