(* Powers and quotients of integers.

   Modelled: the rewriting of powers (pyccel/parser/semantic.py 4725-4762), what is printed for powers
   and for the operators around them in C (pyccel/codegen/printing/ccode.py 1363-1374, 1445-1453,
   1461-1491, 1659-1686, 2283-2308, 3245-3275, 3315-3327; pyccel/stdlib/math/pyc_math_c.h 98-128) and in
   Fortran (pyccel/codegen/printing/fcode.py 3558-3645, 3667-3671).

   A power of integers has the type int64 in pyccel, but the C code is pow(...), a double: _cast_to
   (2305-2308) compares the type of the node with itself and adds no cast. So the operators around it
   work on doubles until a function argument or an assignment makes an integer of it.

   Simplifications: variables and literals of type int (64 bits) and variables of type bool; numbers
   above 2 ^ 1023 are not infinite; sums of booleans are not limited to 32 bits; doubles that are not
   integers are not followed (Beyond), apart from small powers that are stored or the quotients at the
   end of the file. *)
From Coq Require Import Bool ZArith List.
Import ListNotations.
Open Scope Z_scope.
Open Scope list_scope.

(* ------------------------------ source ------------------------------ *)

(* the literal exponents: 3, 2.0 (the value as a quotient), (1/2) *)
Inductive exponent := EInt (n : Z) | EFloat (p q : Z) | EQuot (p q : Z).
Inductive expr :=
| Var (x : nat)
| Flag (x : nat)                             (* a variable of type bool *)
| Lit (n : Z)
| Neg (a : expr)
| Add (a b : expr)
| Sub (a b : expr)
| Mul (a b : expr)
| FDiv (a b : expr)
| Rem (a b : expr)
| BAnd (a b : expr)
| Pow (a b : expr)                           (* an exponent that is not a literal *)
| PowLit (a : expr) (e : exponent).

(* ------------------------------ the semantic stage ------------------------------ *)

Inductive node :=
| NVar (x : nat) | NFlag (x : nat) | NLit (n : Z) | NNeg (a : node)
| NAdd (a b : node) | NSub (a b : node) | NMul (a b : node) | NFDiv (a b : node) | NRem (a b : node) | NBAnd (a b : node)
| NPow (a b : node)                          (* the type is int *)
| NPowF (a : node) (e : exponent)            (* the type is float *)
| NSqrt (a : node).                          (* math.sqrt, the type is float *)

Definition is_atom (n : node) : bool := match n with NVar _ | NFlag _ | NLit _ => true | _ => false end.
(* exp_val == c for c = p / q; None: Python divides by zero in the compiler *)
Definition exp_is (e : exponent) (p q : Z) : option bool :=
  match e with
  | EInt n => Some (n * q =? p)
  | EFloat a b => Some (a * q =? p * b)
  | EQuot a b => if b =? 0 then None else Some (a * q =? p * b)
  end.
Definition obind {A B : Type} (o : option A) (f : A -> option B) : option B := match o with Some x => f x | None => None end.
Definition visit_pow (a : node) (e : exponent) : option node :=
  obind (exp_is e 2 1) (fun two =>
  if is_atom a && two then Some (NMul a a) else
  obind (exp_is e 1 2) (fun half =>
  if half then Some (NSqrt a) else
  Some (match e with EInt n => NPow a (NLit n) | _ => NPowF a e end))).
Fixpoint visit (e : expr) : option node :=
  match e with
  | Var x => Some (NVar x)
  | Flag x => Some (NFlag x)
  | Lit n => Some (NLit n)
  | Neg a => option_map NNeg (visit a)
  | Add a b => obind (visit a) (fun m => option_map (NAdd m) (visit b))
  | Sub a b => obind (visit a) (fun m => option_map (NSub m) (visit b))
  | Mul a b => obind (visit a) (fun m => option_map (NMul m) (visit b))
  | FDiv a b => obind (visit a) (fun m => option_map (NFDiv m) (visit b))
  | Rem a b => obind (visit a) (fun m => option_map (NRem m) (visit b))
  | BAnd a b => obind (visit a) (fun m => option_map (NBAnd m) (visit b))
  | Pow a b => obind (visit a) (fun m => option_map (NPow m) (visit b))
  | PowLit a e => obind (visit a) (fun m => visit_pow m e)
  end.
(* the type of the node in pyccel: is it an integer (or bool)? *)
Fixpoint int_type (n : node) : bool :=
  match n with
  | NVar _ | NFlag _ | NLit _ => true
  | NNeg a => int_type a
  | NAdd a b | NSub a b | NMul a b | NFDiv a b | NRem a b | NBAnd a b | NPow a b => int_type a && int_type b
  | NPowF _ _ | NSqrt _ => false
  end.

(* ------------------------------ doubles ------------------------------ *)

(* the double nearest to an integer, ties to even (53 bits) *)
Definition nearest (z : Z) : Z :=
  if Z.abs z <=? 2 ^ 53 then z else
  let u := 2 ^ (Z.log2 (Z.abs z) - 52) in
  let q := z / u in let r := z mod u in
  (if 2 * r <? u then q else if u <? 2 * r then q + 1 else if Z.even q then q else q + 1) * u.
Definition in64 (z : Z) : bool := (- 2 ^ 63 <=? z) && (z <? 2 ^ 63).

(* ------------------------------ C ------------------------------ *)

Inductive res (A : Type) := Ok (v : A) | Undef | NoCompile | Beyond.
Arguments Ok {A}. Arguments Undef {A}. Arguments NoCompile {A}. Arguments Beyond {A}.
Definition rbind {A B : Type} (r : res A) (f : A -> res B) : res B :=
  match r with Ok v => f v | Undef => Undef | NoCompile => NoCompile | Beyond => Beyond end.
(* an int64_t; a double that is an integer; a double d with 0 < |d| < 1 *)
Inductive cval := CI (z : Z) | CD (z : Z) | CSmall.
Definition check (z : Z) : res cval := if in64 z then Ok (CI z) else Undef.
Definition to_double (v : cval) : Z := match v with CI z => nearest z | CD z => z | CSmall => 0 end.
Definition arith (f : Z -> Z -> Z) (a b : cval) : res cval :=
  match a, b with
  | CSmall, _ | _, CSmall => Beyond
  | CI x, CI y => check (f x y)
  | _, _ => Ok (CD (nearest (f (to_double a) (to_double b))))
  end.
(* the conversion of an argument or of the right-hand side of an assignment to int64_t *)
Definition to_int (v : cval) : res Z :=
  match v with
  | CI z => Ok z
  | CD z => if in64 z then Ok z else Undef
  | CSmall => Ok 0
  end.
Definition cfun (f : Z -> Z -> Z) (a b : cval) : res cval :=
  rbind (to_int a) (fun x => rbind (to_int b) (fun y => if y =? 0 then Undef else check (f x y))).

Definition env : Type := nat -> Z.
Definition flags : Type := nat -> bool.
Definition b2z (b : bool) : Z := if b then 1 else 0.
(* fpow: the function pow of the library for integers and a positive exponent *)
Definition cpow (fpow : Z -> Z -> Z) (a b : cval) : res cval :=
  match a, b with
  | CSmall, _ | _, CSmall => Beyond
  | _, _ =>
    let x := to_double a in let y := to_double b in
    if 0 <=? y then Ok (CD (fpow x y))
    else if x =? 0 then Undef                          (* infinite *)
    else if Z.abs x =? 1 then Ok (CD (if Z.even y then 1 else x))
    else Ok CSmall
  end.
Fixpoint ceval (fpow : Z -> Z -> Z) (r : env) (p : flags) (n : node) : res cval :=
  match n with
  | NVar x => Ok (CI (r x))
  | NFlag x => Ok (CI (b2z (p x)))
  | NLit z => Ok (CI z)
  | NNeg a => rbind (ceval fpow r p a) (fun v => match v with CI z => check (- z) | CD z => Ok (CD (- z)) | CSmall => Ok CSmall end)
  | NAdd a b => rbind (ceval fpow r p a) (fun v => rbind (ceval fpow r p b) (arith Z.add v))
  | NSub a b => rbind (ceval fpow r p a) (fun v => rbind (ceval fpow r p b) (arith Z.sub v))
  | NMul a b => rbind (ceval fpow r p a) (fun v => rbind (ceval fpow r p b) (arith Z.mul v))
  | NFDiv a b => rbind (ceval fpow r p a) (fun v => rbind (ceval fpow r p b) (cfun Z.div v))
  | NRem a b => rbind (ceval fpow r p a) (fun v => rbind (ceval fpow r p b) (cfun Z.modulo v))
  | NBAnd a b => rbind (ceval fpow r p a) (fun v => rbind (ceval fpow r p b) (fun w =>
      match v, w with CI x, CI y => Ok (CI (Z.land x y)) | _, _ => NoCompile end))
  | NPow a b => rbind (ceval fpow r p a) (fun v => rbind (ceval fpow r p b) (cpow fpow v))
  | NPowF _ _ | NSqrt _ => Beyond
  end.
(* v = e;   printf("%ld\n", e);   e == y *)
Definition c_store (fpow : Z -> Z -> Z) (r : env) (p : flags) (n : node) : res Z := rbind (ceval fpow r p n) to_int.
Definition c_print (fpow : Z -> Z -> Z) (r : env) (p : flags) (n : node) : res Z :=
  rbind (ceval fpow r p n) (fun v => match v with CI z => Ok z | _ => Undef end).
Definition c_equal (fpow : Z -> Z -> Z) (r : env) (p : flags) (m n : node) : res bool :=
  rbind (ceval fpow r p m) (fun v => rbind (ceval fpow r p n) (fun w =>
    match v, w with
    | CSmall, _ | _, CSmall => Beyond
    | CI x, CI y => Ok (x =? y)
    | _, _ => Ok (to_double v =? to_double w)
    end)).

(* ------------------------------ Fortran ------------------------------ *)

Definition fcheck (z : Z) : res Z := if in64 z then Ok z else Undef.
Definition fpow_int (x y : Z) : res Z :=
  if 0 <=? y then fcheck (x ^ y)
  else if x =? 0 then Undef
  else if Z.abs x =? 1 then Ok (if Z.even y then 1 else x)
  else Ok 0.
(* a boolean is cast by +, -, * and // only *)
Definition is_flag (n : node) : bool := match n with NFlag _ => true | _ => false end.
Fixpoint feval (r : env) (p : flags) (n : node) : res Z :=
  match n with
  | NVar x => Ok (r x)
  | NFlag x => Ok (b2z (p x))
  | NLit z => Ok z
  | NNeg a => if is_flag a then NoCompile else rbind (feval r p a) (fun z => fcheck (- z))
  | NAdd a b => rbind (feval r p a) (fun x => rbind (feval r p b) (fun y => fcheck (x + y)))
  | NSub a b => rbind (feval r p a) (fun x => rbind (feval r p b) (fun y => fcheck (x - y)))
  | NMul a b => rbind (feval r p a) (fun x => rbind (feval r p b) (fun y => fcheck (x * y)))
  | NFDiv a b => rbind (feval r p a) (fun x => rbind (feval r p b) (fun y => if y =? 0 then Undef else fcheck (x / y)))
  | NRem a b => if is_flag a || is_flag b then NoCompile else
      rbind (feval r p a) (fun x => rbind (feval r p b) (fun y => if y =? 0 then Undef else fcheck (x mod y)))
  | NBAnd a b => if is_flag a && is_flag b then Beyond else if is_flag a || is_flag b then NoCompile else
      rbind (feval r p a) (fun x => rbind (feval r p b) (fun y => Ok (Z.land x y)))
  | NPow a b => if is_flag a || is_flag b then NoCompile else rbind (feval r p a) (fun x => rbind (feval r p b) (fpow_int x))
  | NPowF _ _ | NSqrt _ => Beyond
  end.

(* ------------------------------ quotients ------------------------------ *)

(* an operand of a / b: a value and its type *)
Inductive operand := OInt (z : Z) | OBool (b : bool).
Definition oval (o : operand) : Z := match o with OInt z => z | OBool b => b2z b end.
Definition is_int (o : operand) : bool := match o with OInt _ => true | OBool _ => false end.
(* the quotient of doubles (rounded), or a double made of the quotient of integers *)
Inductive quotient := QDouble (a b : Z) | QInt (z : Z).
(* ccode.py 3257-3262 *)
Definition c_div (a b : operand) : quotient :=
  if is_int a && is_int b then QDouble (oval a) (oval b) else QInt (Z.quot (oval a) (oval b)).
