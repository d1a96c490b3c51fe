(* Simplification of expressions (make_simplified). *)
From Coq Require Import List Bool ZArith QArith Qround String Lia.
From Verif Require Import Common Types_Model.
Import ListNotations.
Open Scope Z_scope.

(* ast/literals.py:86-330.  Complex literals only with a zero imaginary part
   (simplification); a number is kept as an exact rational. *)
Inductive lit := LTrue (t : fty) | LFalse (t : fty) | LInt (n : Z) (t : fty) | LFloat (q : Q) (t : fty) | LComplex (q : Q) (t : fty).
Definition lval (l : lit) : Q :=
  match l with LTrue _ => 1 | LFalse _ => 0 | LInt n _ => inject_Z n | LFloat q _ | LComplex q _ => q end%Q.
Definition lty (l : lit) : fty :=
  match l with LTrue t | LFalse t | LInt _ t | LFloat _ t | LComplex _ t => t end.
(* Leaves: ELeaf is a variable or an element of an array, compared by name
   (variable.py:433-436, 932-936). Operators: operators.py; EPar: 510-530. *)
Inductive ex := ELeaf (x : nat) (t : fty) | ELit (l : lit) | EPar (e : ex) | ENeg (e : ex)
  | EAdd (a b : ex) | ESub (a b : ex) | EMul (a b : ex) | EDiv (a b : ex)
  | EGt (a b : ex) | EEq (a b : ex) | ENe (a b : ex) | ENot (e : ex)
  | EAnd (l : list ex) | EOr (l : list ex).

(* total: Types_Thms.C25_order_independent *)
Definition tadd (a b : fty) : fty := match ty_add a b with Some c => c | None => a end.
(* operators.py:1059-1069: the type of a quotient *)
Definition tdiv (a b : fty) : fty :=
  match prim (tadd a b) with KInt | KBool => TFloat | _ => tadd a b end.
(* operators.py:312-332 (unary), 556-600 (binary), 1168-1193 (comparisons), 1375-1395 (and, or) *)
Fixpoint ty (e : ex) : fty :=
  match e with
  | ELeaf _ t => t
  | ELit l => lty l
  | EPar e | ENeg e => ty e
  | EAdd a b | ESub a b | EMul a b => tadd (ty a) (ty b)
  | EDiv a b => tdiv (ty a) (ty b)
  | _ => TBool
  end.
(* numpytypes.py:74-85: == on types; Python's own types are singletons *)
Definition fty_eqb (a b : fty) : bool :=
  match a, b with
  | TBool, TBool | TInt, TInt | TFloat, TFloat | TComplex, TComplex | I8, I8 | I16, I16 | I32, I32 | I64, I64
  | F32, F32 | F64, F64 | F128, F128 | C64, C64 | C128, C128 | C256, C256 => true
  | _, _ => false
  end.
Definition ty_eqb (a b : fty) : bool :=
  fty_eqb a b || (xorb (native a) (native b) && kind_eqb (prim a) (prim b) && (precision a =? precision b)).

(* the _precedence attributes; leaves: 17 *)
Definition prec (e : ex) : Z :=
  match e with
  | ELeaf _ _ | ELit _ => 17
  | EPar _ => 18
  | ENeg _ => 14
  | EAdd _ _ | ESub _ _ => 12
  | EMul _ _ | EDiv _ _ => 13
  | EGt _ _ | EEq _ _ | ENe _ _ => 7
  | ENot _ => 6
  | EAnd _ => 5
  | EOr _ => 4
  end.
(* operators.py:244-281 then 647-653 (a unary operand of an arithmetic operator) *)
Definition hp (self : Z) (first : bool) (e : ex) : ex :=
  if (prec e <? self) || ((prec e =? self) && negb first) then EPar e else e.
Definition par_neg (e : ex) : ex := match e with ENeg _ => EPar e | _ => e end.
Definition hpa (self : Z) (first : bool) (e : ex) : ex := par_neg (hp self first e).
Definition mkAdd (a b : ex) : ex := EAdd (hpa 12 true a) (hpa 12 false b).
Definition mkSub (a b : ex) : ex := ESub (hpa 12 true a) (hpa 12 false b).
Definition mkMul (a b : ex) : ex := EMul (hpa 13 true a) (hpa 13 false b).
Definition mkDiv (a b : ex) : ex := EDiv (hpa 13 true a) (hpa 13 false b).
Definition mkNeg (a : ex) : ex := ENeg (par_neg (hp 14 true a)).
Definition mkGt (a b : ex) : ex := EGt (hp 7 true a) (hp 7 false b).
Definition mkEq (a b : ex) : ex := EEq (hp 7 true a) (hp 7 false b).
Definition mkNe (a b : ex) : ex := ENe (hp 7 true a) (hp 7 false b).
Definition mkNot (a : ex) : ex := ENot (hp 6 true a).
(* operators.py:1477-1492: and within and is flattened; or within and gets parentheses
   (the arguments of an and are never and themselves, so equal precedence does not occur) *)
Definition and_arg (x : ex) : ex := match x with EOr _ => EPar x | _ => if prec x <? 5 then EPar x else x end.
Definition flat_and (x : ex) : list ex := match x with EAnd r => r | _ => [x] end.
Definition mkAnd (l : list ex) : ex := EAnd (map and_arg (flat_map flat_and l)).
(* operators.py:1539-1556 *)
Definition or_arg (x : ex) : ex := match x with EAnd _ => EPar x | _ => if prec x <? 4 then EPar x else x end.
Definition flat_or (x : ex) : list ex := match x with EOr r => r | _ => [x] end.
Definition mkOr (l : list ex) : ex := EOr (map or_arg (flat_map flat_or l)).

(* e == n for a Python int n: literals.py:80, operators.py:419-423, variable.py:433-436 *)
Fixpoint is_int (e : ex) (n : Z) : bool :=
  match e with
  | ELit l => Qeq_bool (lval l) (inject_Z n)
  | ENeg x => is_int x (- n)
  | _ => false
  end.
(* literals.py:73-80: same class and value *)
Definition lit_eqb (a b : lit) : bool :=
  match a, b with
  | LTrue _, LTrue _ | LFalse _, LFalse _ => true
  | LInt m _, LInt n _ => m =? n
  | LFloat p _, LFloat q _ | LComplex p _, LComplex q _ => Qeq_bool p q
  | _, _ => false
  end.
Definition is_lit (e : ex) : option lit := match e with ELit l => Some l | _ => None end.

(* literals.py:478-539 *)
Definition conv (q : Q) (t : fty) : ex :=
  match prim t with
  | KInt => if Qle_bool 0 q then ELit (LInt (Qfloor q) t) else mkNeg (ELit (LInt (- Qfloor q) t))
  | KFloat => ELit (LFloat q t)
  | KComplex => ELit (LComplex q t)
  | KBool => if Qeq_bool q 0 then ELit (LFalse t) else ELit (LTrue t)
  end.

(* a == b for two nodes; same: Python's "is" on the other nodes, which are one object *)
Definition node_eq (same : ex -> ex -> bool) (a b : ex) : bool :=
  match a, b with
  | ELit l, ELit m => lit_eqb l m
  | ELit _, _ | _, ELit _ => false
  | ELeaf x _, ELeaf y _ => Nat.eqb x y
  | ELeaf _ _, _ | _, ELeaf _ _ => false
  | _, _ => same a b
  end.

(* operators.py:749-773 *)
Definition add_base (same : ex -> ex -> bool) (a b : ex) : ex :=
  let t := tadd (ty a) (ty b) in
  match is_lit a, is_lit b with
  | Some l, Some m => conv (lval l + lval m) t
  | _, _ =>
    if ty_eqb t (ty b) && is_int a 0 then b
    else if ty_eqb t (ty a) && is_int b 0 then a
    else
      match a with
      | ESub x y => if node_eq same y b && ty_eqb (ty x) t then x else mkAdd a b
      | EAdd x (ELit l) =>
          match is_lit b with Some m => mkAdd x (conv (lval l + lval m) (tadd (lty l) (lty m))) | None => mkAdd a b end
      | _ => mkAdd a b
      end
  end.
(* operators.py:932-965 *)
Definition sub_base (same : ex -> ex -> bool) (a b : ex) : ex :=
  let t := tadd (ty a) (ty b) in
  match is_lit a, is_lit b with
  | Some l, Some m => conv (lval l - lval m) t
  | _, _ =>
    if ty_eqb t (ty b) && is_int a 0 then mkNeg b
    else if ty_eqb t (ty a) && is_int b 0 then a
    else
      match a with
      | EAdd x y =>
          if node_eq same y b && ty_eqb (ty x) t then x
          else match is_lit y, is_lit b with
               | Some l, Some m => mkAdd x (conv (lval l - lval m) (tadd (lty l) (lty m)))
               | _, _ => mkSub a b
               end
      | ESub x (ELit l) =>
          match is_lit b with Some m => mkSub x (conv (lval l + lval m) (tadd (lty l) (lty m))) | None => mkSub a b end
      | _ => mkSub a b
      end
  end.
(* operators.py:746-747, 930-931: a + (-b) is a - b and a - (-b) is a + b *)
Fixpoint addsub (same : ex -> ex -> bool) (neg : bool) (a b : ex) : ex :=
  match b with
  | ENeg x => addsub same (negb neg) a x
  | _ => if neg then sub_base same a b else add_base same a b
  end.
Definition add_s (same : ex -> ex -> bool) : ex -> ex -> ex := addsub same false.
Definition sub_s (same : ex -> ex -> bool) : ex -> ex -> ex := addsub same true.
(* operators.py:851-883 *)
Definition mul_s (a b : ex) : ex :=
  let t := tadd (ty a) (ty b) in
  if is_int a 1 && ty_eqb (ty b) t then b
  else if is_int b 1 && ty_eqb (ty b) t then a
  else if is_int a 0 || is_int b 0 then conv 0 t
  else if (match a with ENeg x => is_int x 1 | _ => false end) && ty_eqb (ty b) t then mkNeg b
  else if (match b with ENeg x => is_int x 1 | _ => false end) && ty_eqb (ty a) t then mkNeg a
  else match is_lit a, is_lit b with
       | Some l, Some m => conv (lval l * lval m) t
       | _, _ => mkMul a b
       end.
(* operators.py:1014-1034; None: ZeroDivisionError *)
Definition div_s (a b : ex) : option ex :=
  let t := tdiv (ty a) (ty b) in
  if is_int b 1 && ty_eqb (ty a) t then Some a
  else match is_lit a, is_lit b with
       | Some l, Some m => if Qeq_bool (lval m) 0 then None else Some (conv (lval l / lval m) t)
       | _, _ => Some (mkDiv a b)
       end.
(* operators.py:454-471 *)
Definition not_s (a : ex) : ex :=
  match a with EEq x y => mkNe x y | ENe x y => mkEq x y | _ => mkNot a end.
(* operators.py:1335-1368 *)
Definition lit_or_neg (e : ex) : option Q :=
  match e with ELit l => Some (lval l) | ENeg (ELit l) => Some (- lval l)%Q | _ => None end.
Definition gt_s (a b : ex) : ex :=
  match lit_or_neg a, lit_or_neg b with
  | Some p, Some q => if negb (Qle_bool p q) then ELit (LTrue TBool) else ELit (LFalse TBool)
  | _, _ => mkGt a b
  end.
Definition is_true (e : ex) : bool := match e with ELit (LTrue _) => true | _ => false end.
Definition is_false (e : ex) : bool := match e with ELit (LFalse _) => true | _ => false end.
(* operators.py:1458-1475 *)
Definition and_s (l : list ex) : ex :=
  if existsb is_false l then ELit (LFalse TBool)
  else if forallb is_true l then ELit (LTrue TBool)
  else mkAnd (filter (fun e => negb (is_true e)) l).
(* operators.py:1520-1537 *)
Definition or_s (l : list ex) : ex :=
  if existsb is_true l then ELit (LTrue TBool)
  else if forallb is_false l then ELit (LFalse TBool)
  else mkOr (filter (fun e => negb (is_false e)) l).
