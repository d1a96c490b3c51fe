(* Square roots of squares: math.sqrt(x * x), math.sqrt(e ** 2).
   Sources: pyccel/parser/semantic.py 7556-7618 (_build_MathSqrt), 4724-4764 (_visit_PyccelPow, an exponent 2).
   Doubles: an integer of 53 bits times a power of two, rounded to the nearest, ties to even, with the largest and the
   smallest exponents. Other: an infinity or a NaN.
   Simplifications: operands are floats; pow(x, 2.0) of the target languages is correctly rounded; the sign of zero is lost. *)
From Coq Require Import ZArith List Bool.
From Verif Require Import Math_Model.
Import ListNotations.
Open Scope Z_scope.

Inductive double := Fin (x : float) | Other.

(* a / 2 ^ k to the nearest integer, the even one of two *)
Definition rne (a k : Z) : Z :=
  let q := a / 2 ^ k in
  let r := a mod 2 ^ k in
  if 2 * r <? 2 ^ k then q else if 2 ^ k <? 2 * r then q + 1 else if Z.even q then q else q + 1.
(* m * 2 ^ e rounded to a double *)
Definition ieee (m e : Z) : double :=
  let a := Z.abs m in
  let k := Z.max (Z.log2 a - 52) (-1074 - e) in
  let '(q, f) := if k <=? 0 then (a, e) else (rne a k, e + k) in
  if q =? 0 then Fin (mkf 0 0)
  else if 1024 <=? Z.log2 q + f then Other
  else Fin (mkf (Z.sgn m * q) f).
Definition dmul (x y : double) : double :=
  match x, y with Fin x, Fin y => ieee (mant x * mant y) (expo x + expo y) | _, _ => Other end.
(* the nearest integer to the root of an integer: (s + 1 / 2)^2 is not an integer *)
Definition iroot (n : Z) : Z := let s := Z.sqrt n in if s * s + s <? n then s + 1 else s.
(* the root of r * 2 ^ e: r is extended to 105 or 106 bits, and the exponent is even *)
Definition dsqrt (x : double) : double :=
  match x with
  | Fin x =>
    if mant x =? 0 then Fin (mkf 0 0)
    else if mant x <? 0 then Other
    else
      let j := 104 - Z.log2 (mant x) in
      let j := j + (expo x - j) mod 2 in
      Fin (mkf (iroot (mant x * 2 ^ j)) ((expo x - j) / 2))
  | Other => Other
  end.
Definition dabs (x : double) : double :=
  match x with Fin x => if mant x =? 0 then Fin (mkf 0 0) else Fin (mkf (Z.abs (mant x)) (expo x)) | Other => Other end.

(* variables, calls of functions, products, squares e ** 2, and the functions of math *)
Inductive ex := Var (x : nat) | Call (f : nat) | Mul (a b : ex) | Sq (a : ex) | Sqrt (a : ex) | Fabs (a : ex).

(* semantic.py 4738-4739 *)
Definition build_pow (a : ex) : ex := match a with Var x => Mul (Var x) (Var x) | _ => Sq a end.
(* semantic.py 7586-7616: "is" holds for the nodes of a variable *)
Definition build_sqrt (a : ex) : ex :=
  match a with
  | Mul (Var x) (Var y) => if Nat.eqb x y then Fabs (Var x) else Sqrt a
  | Sq b => Fabs b
  | _ => Sqrt a
  end.
Fixpoint visit (e : ex) : ex :=
  match e with
  | Var _ | Call _ => e
  | Mul a b => Mul (visit a) (visit b)
  | Sq a => build_pow (visit a)
  | Sqrt a => build_sqrt (visit a)
  | Fabs a => Fabs (visit a)
  end.

(* evaluation, from left to right; what a function returns may depend on the calls before it *)
Section Eval.
Variable env : nat -> double.
Variable fn : nat -> list nat -> double.
Fixpoint eval (e : ex) (log : list nat) : double * list nat :=
  match e with
  | Var x => (env x, log)
  | Call f => (fn f log, log ++ [f])
  | Mul a b => let (u, l) := eval a log in let (v, m) := eval b l in (dmul u v, m)
  | Sq a => let (u, l) := eval a log in (dmul u u, l)
  | Sqrt a => let (u, l) := eval a log in (dsqrt u, l)
  | Fabs a => let (u, l) := eval a log in (dabs u, l)
  end.
End Eval.
