(* Expressions: how parentheses are put in when they are built, and how they are
   printed in Python, C and Fortran.

   Scalars of type bool, int and float; operators, conditional expressions, the
   cast bool(...).  The text is a list of words (tokens); splitting text into
   words is not modelled.  Not modelled: complex numbers, strings, arrays, None,
   `in` in C and Fortran. *)
From Coq Require Import List Bool Arith String.
Import ListNotations.
Open Scope list_scope.
Open Scope string_scope.
Open Scope nat_scope.

(* ast/operators.py and ast/bitwise_operators.py: one constructor per class *)
Inductive uop := Plus | Minus | Not | Inv.
Inductive bop := Pow | Add | Sub | Mul | Div | Mod | FloorDiv
  | Eq | Ne | Lt | Le | Gt | Ge | Is | IsNot | InOp
  | LSh | RSh | BXor | BOr | BAnd | And | Or.
Inductive ptype := TBool | TInt | TFloat.

(* Python's syntax tree, after ast.parse.  SMore is one more link of a chain of
   comparisons: SMore (SCmp a < b) < c is a < b < c. *)
Inductive se :=
| SAt (a : string) (t : ptype)
| SUn (o : uop) (e : se)
| SBin (o : bop) (a b : se)
| SMore (prev : se) (o : bop) (b : se)
| STern (c a b : se)
| SBool (e : se).

(* Pyccel's tree.  PyccelAnd and PyccelOr have any number of arguments: here
   they are nested on the left, and PBin And (PBin And a b) c has the three
   arguments a, b, c. *)
Inductive pe :=
| PAt (a : string) (t : ptype)
| PUn (o : uop) (e : pe)
| PBin (o : bop) (a b : pe)
| PTern (c a b : pe)
| PPar (e : pe)
| PBool (e : pe).

(* operators.py:371, 443, 529, 687, 757, 851 ... (the _precedence attributes);
   bitwise_operators.py:52, 168, 191, 262, 285, 308; operators.py:267 (17 for
   what has no precedence) *)
Definition bprec (o : bop) : nat :=
  match o with
  | Pow => 15
  | Mul | Div | Mod | FloorDiv => 13
  | Add | Sub => 12
  | LSh | RSh => 11
  | BAnd => 10
  | BXor => 9
  | BOr => 8
  | Eq | Ne | Lt | Le | Gt | Ge | Is | IsNot | InOp => 7
  | And => 5
  | Or => 4
  end.
Definition uprec (o : uop) : nat := match o with Plus | Minus | Inv => 14 | Not => 6 end.
Definition prec (e : pe) : nat :=
  match e with
  | PAt _ _ | PBool _ => 17
  | PUn o _ => uprec o
  | PBin o _ _ => bprec o
  | PTern _ _ _ => 3
  | PPar _ => 18
  end.

(* ---- types ---- *)
(* ast/datatypes.py:412-507: + and & of the three types *)
Definition tadd (a b : ptype) : ptype :=
  match a, b with
  | TBool, TBool => TInt
  | TFloat, _ | _, TFloat => TFloat
  | _, _ => TInt
  end.
Definition tand (a b : ptype) : ptype :=
  match a, b with TBool, TBool => TBool | TBool, t => t | t, _ => t end.
Definition same_type (a b : ptype) : bool :=
  match a, b with TBool, TBool | TInt, TInt | TFloat, TFloat => true | _, _ => false end.
(* operators.py:309-330, 440, 582-588, 1066, 1170-1193, 1407; 1793-1806 (conditional);
   bitwise_operators.py:72-84, 129-144, 236-254 *)
Fixpoint ty (e : pe) : ptype :=
  match e with
  | PAt _ t => t
  | PUn (Plus | Minus) x => ty x
  | PUn Not _ => TBool
  | PUn Inv x => TInt
  | PBin (Pow | Add | Sub | Mul | Mod | FloorDiv | LSh | RSh) a b => tadd (ty a) (ty b)
  | PBin Div a b => TFloat
  | PBin (BXor | BOr | BAnd) a b => tand (ty a) (ty b)
  | PBin _ _ _ => TBool
  | PTern _ a b => if same_type (ty a) (ty b) then ty a else tadd (ty a) (ty b)
  | PPar x => ty x
  | PBool _ => TBool
  end.
Definition is_bool (t : ptype) : bool := match t with TBool => true | _ => false end.
Definition is_int (t : ptype) : bool := match t with TInt => true | _ => false end.
Definition is_float (t : ptype) : bool := match t with TFloat => true | _ => false end.

(* operators.py:267-281: argument i of an operator *)
Definition hp (self : nat) (first : bool) (x : pe) : pe :=
  if (prec x <? self) || ((prec x =? self) && negb first) then PPar x else x.
(* operators.py:369-375, 647-653: further parentheses around a sign *)
Definition sign_par (x : pe) : pe :=
  match x with PUn Plus _ | PUn Minus _ => PPar x | _ => x end.

(* operators.py:369-375 (signs), 443 (not), bitwise_operators.py:52 *)
Definition mk_un (o : uop) (x : pe) : pe :=
  match o with
  | Plus | Minus => PUn o (sign_par (hp 14 true x))
  | Not => PUn Not (hp 6 true x)
  | Inv => PUn Inv (hp 14 true x)
  end.
(* operators.py:1476-1488 and 1538-1551: the arguments of an argument of the same
   class are taken over as they are (they are never of the same class); the
   others are put in parentheses: Or and conditional expressions inside And, And
   and conditional expressions inside Or. *)
Definition and_arg (x : pe) : pe :=
  let x := if prec x <? 5 then PPar x else x in
  match x with PBin Or _ _ => PPar x | _ => x end.
Definition or_arg (x : pe) : pe :=
  let x := if prec x <? 4 then PPar x else x in
  match x with PBin And _ _ => PPar x | _ => x end.
Fixpoint and_join (l : pe) (r : pe) : pe :=
  match r with
  | PBin And r1 r2 => PBin And (and_join l r1) r2
  | _ => PBin And l (and_arg r)
  end.
Fixpoint or_join (l : pe) (r : pe) : pe :=
  match r with
  | PBin Or r1 r2 => PBin Or (or_join l r1) r2
  | _ => PBin Or l (or_arg r)
  end.
Definition mk_and (a b : pe) : pe :=
  and_join (match a with PBin And _ _ => a | _ => and_arg a end) b.
Definition mk_or (a b : pe) : pe :=
  or_join (match a with PBin Or _ _ => a | _ => or_arg a end) b.
(* parser/semantic.py:4680-4683: the operands of and, or that are not boolean are cast
   (a conditional expression loses the parentheses it already had) *)
Definition to_bool (x : pe) : pe := if is_bool (ty x) then x else PBool x.
(* operators.py:694-709 (power: the base, not the exponent), 647-653 (arithmetic),
   267-281 (the rest) *)
Definition mk_bin (o : bop) (a b : pe) : pe :=
  match o with
  | Pow => PBin Pow (hp 15 false a) (hp 15 true b)
  | Add | Sub | Mul | Div | Mod | FloorDiv =>
      PBin o (sign_par (hp (bprec o) true a)) (sign_par (hp (bprec o) false b))
  | And => mk_and (to_bool a) (to_bool b)
  | Or => mk_or (to_bool a) (to_bool b)
  | _ => PBin o (hp (bprec o) true a) (hp (bprec o) false b)
  end.
(* operators.py:1726-1730: the arguments are (condition, true, false), in this order *)
Definition mk_tern (c a b : pe) : pe := PTern (hp 3 true c) (hp 3 false a) (hp 3 false b).

(* parser/syntactic.py:932-1049.  build_chain also gives the last operand, which
   the next link of a chain of comparisons uses again (lines 1046-1047). *)
Fixpoint build_chain (e : se) : pe * pe :=
  match e with
  | SAt a t => (PAt a t, PAt a t)
  | SUn o x => let r := mk_un o (fst (build_chain x)) in (r, r)
  | SBin o a b => (mk_bin o (fst (build_chain a)) (fst (build_chain b)), fst (build_chain b))
  | SMore p o b =>
      let '(cmp, second) := build_chain p in
      let b' := fst (build_chain b) in
      (mk_and cmp (mk_bin o second b'), b')
  | STern c a b => let r := mk_tern (fst (build_chain c)) (fst (build_chain a)) (fst (build_chain b)) in (r, r)
  | SBool x => let r := PBool (fst (build_chain x)) in (r, r)
  end.
Definition build (e : se) : pe := fst (build_chain e).

(* ---- text ---- *)
(* What is printed, with its structure.  TQ is C's conditional in its parentheses,
   TIf Python's. *)
Inductive txt :=
| At (a : string)
| Par (t : txt)
| Pre (o : string) (t : txt)
| In (o : string) (a b : txt)
| Call1 (f : string) (a : txt)
| Call2 (f : string) (a b : txt)
| Call3 (f : string) (a b c : txt)
| TQ (c a b : txt)
| TIf (a c b : txt).
Inductive tok := KAt (a : string) | KOp (o : string) | KFun (f : string)
  | KL | KR | KComma | KQ | KColon | KIf | KElse.
(* the words *)
Fixpoint words (t : txt) : list tok :=
  match t with
  | At a => [KAt a]
  | Par t => KL :: words t ++ [KR]
  | Pre o t => KOp o :: words t
  | In o a b => words a ++ KOp o :: words b
  | Call1 f a => KFun f :: KL :: words a ++ [KR]
  | Call2 f a b => KFun f :: KL :: words a ++ KComma :: words b ++ [KR]
  | Call3 f a b c => KFun f :: KL :: words a ++ KComma :: words b ++ KComma :: words c ++ [KR]
  | TQ c a b => KL :: words c ++ KQ :: words a ++ KColon :: words b ++ [KR]
  | TIf a c b => words a ++ KIf :: words c ++ KElse :: words b
  end.

(* ---- Python ---- *)
Definition py_op (o : bop) : string :=
  match o with
  | Pow => "**" | Add => "+" | Sub => "-" | Mul => "*" | Div => "/" | Mod => "%" | FloorDiv => "//"
  | Eq => "==" | Ne => "!=" | Lt => "<" | Le => "<=" | Gt => ">" | Ge => ">="
  | Is => "is" | IsNot => "is not" | InOp => "in"
  | LSh => "<<" | RSh => ">>" | BXor => "^" | BOr => "|" | BAnd => "&" | And => "and" | Or => "or"
  end.
Definition py_uop (o : uop) : string :=
  match o with Plus => "+" | Minus => "-" | Not => "not" | Inv => "~" end.
(* pycode.py:1669-1704, 1875-1974 *)
Fixpoint py_print (e : pe) : txt :=
  match e with
  | PAt a _ => At a
  | PUn o x => Pre (py_uop o) (py_print x)
  | PBin o a b => In (py_op o) (py_print a) (py_print b)
  | PTern c a b => TIf (py_print a) (py_print c) (py_print b)
  | PPar x => Par (py_print x)
  | PBool x => Call1 "bool" (py_print x)
  end.

(* ---- C ---- *)
(* isinstance(a, PyccelOperator) and not a PyccelAssociativeParenthesis *)
Definition is_operator (e : pe) : bool :=
  match e with PUn _ _ | PBin _ _ _ | PTern _ _ _ => true | _ => false end.
(* ccode.py:1132-1141: the type in parentheses, as one word, before parentheses *)
Definition c_cast (t : string) (x : txt) : txt := Pre t (Par x).
Definition c_double (e : pe) (x : txt) : txt := if is_float (ty e) then x else c_cast "(double)" x.
(* the cast bitwise_operators.py:82, 142, 252 puts around an argument *)
Definition c_bitarg (t : ptype) (e : pe) (x : txt) : txt :=
  if same_type (ty e) t then x else c_cast (if is_int t then "(int64_t)" else "(double)") x.
Definition wrap (e : pe) (x : txt) : txt := if is_operator e then Par x else x.
(* ccode.py:1339-1361, 3301-3327: the argument of && || | & *)
Definition c_bitwrap (t : ptype) (e : pe) (x : txt) : txt :=
  if same_type (ty e) t then wrap e x else c_bitarg t e x.
Definition is_and (e : pe) : bool := match e with PBin And _ _ => true | _ => false end.
Definition is_or (e : pe) : bool := match e with PBin Or _ _ => true | _ => false end.
(* ccode.py:1327-1331, 1339-1431, 1445-1491, 3245-3343, 1143-1145 *)
Fixpoint c_print (e : pe) : txt :=
  match e with
  | PAt a _ => At a
  | PPar x => Par (c_print x)
  | PUn Plus x => Pre "+" (c_print x)
  | PUn Minus x => Pre "-" (c_print x)
  | PUn Not x => Pre "!" (wrap x (c_print x))
  | PUn Inv x => Pre "~" (c_bitarg TInt x (c_print x))
  | PBin o a b =>
      let x := c_print a in
      let y := c_print b in
      match o with
      | Pow => Call2 "pow" (c_double a x) (c_double b y)
      | Add => In "+" x y
      | Sub => In "-" x y
      | Mul => In "*" x y
      | Div => if is_int (ty a) && is_int (ty b) then In "/" (c_cast "(double)" x) (c_cast "(double)" y)
               else In "/" x y
      | Mod => if is_int (ty e) then Call2 "pyc_modulo" x y
               else Call2 "pyc_fmodulo" (if is_int (ty a) then c_cast "(double)" x else x)
                                        (if is_int (ty b) then c_cast "(double)" y else y)
      | FloorDiv => if negb (is_float (ty a)) && negb (is_float (ty b)) then Call2 "py_floor_div_int64_t" x y
                    else Call1 "floor" (In "/" (c_double a x) (c_double b y))
      | Eq | Is => In "==" x y
      | Ne | IsNot => In "!=" x y
      | Lt => In "<" x y
      | Le => In "<=" x y
      | Gt => In ">" x y
      | Ge => In ">=" x y
      | InOp => Call2 "contains" y x
      | LSh => In "<<" (c_bitarg (ty e) a x) (c_bitarg (ty e) b y)
      | RSh => In ">>" (c_bitarg (ty e) a x) (c_bitarg (ty e) b y)
      | BXor => if is_bool (ty e) then In "!=" x y else In "^" (c_bitarg (ty e) a x) (c_bitarg (ty e) b y)
      | BOr => In (if is_bool (ty e) then "||" else "|") (c_bitwrap (ty e) a x) (c_bitwrap (ty e) b y)
      | BAnd => In (if is_bool (ty e) then "&&" else "&") (c_bitwrap (ty e) a x) (c_bitwrap (ty e) b y)
      | And => In "&&" (if is_and a then x else wrap a x) (wrap b y)
      | Or => In "||" (if is_or a then x else wrap a x) (wrap b y)
      end
  | PTern c a b => TQ (c_print c) (c_print a) (c_print b)
  | PBool x => Par (In "!=" (c_print x) (At "0"))
  end.

(* ---- Fortran ---- *)
(* fcode.py:2108-2124, the casts; the kind is left out *)
Definition f_int (e : pe) (x : txt) : txt := if is_bool (ty e) then Call3 "MERGE" (At "1") (At "0") x else x.
Definition f_real (e : pe) (x : txt) : txt :=
  match ty e with
  | TBool => Call3 "MERGE" (At "1.0") (At "0.0") x
  | TInt => Call1 "Real" x
  | TFloat => x
  end.
Definition f_as (t : ptype) (e : pe) (x : txt) : txt :=
  match t with TFloat => f_real e x | TInt => f_int e x | TBool => x end.
(* fcode.py:2140-2146 *)
Definition f_bool (e : pe) (x : txt) : txt := if is_bool (ty e) then x else Par (In "/=" x (At "0")).
(* fcode.py:3476-3510 (both operands bool), 3540-3640, 3650-3800 *)
Fixpoint f_print (e : pe) : txt :=
  match e with
  | PAt a _ => At a
  | PPar x => Par (f_print x)
  | PUn Plus x => Pre "+" (f_print x)
  | PUn Minus x => Pre "-" (f_print x)
  | PUn Not x => if is_bool (ty x) then Pre ".not." (f_print x) else In "==" (f_print x) (At "0")
  | PUn Inv x => Call1 "NOT" (f_int x (f_print x))
  | PBin o a b =>
      let x := f_print a in
      let y := f_print b in
      match o with
      | Pow => In "**" x y
      | Add => In "+" (f_int a x) (f_int b y)
      | Sub => In "-" (f_int a x) (f_int b y)
      | Mul => In "*" (f_int a x) (f_int b y)
      | Div => if negb (is_float (ty a)) && negb (is_float (ty b)) then In "/" (f_real a x) (f_real b y) else In "/" x y
      | Mod => Call2 "MODULO" (if is_float (ty e) && is_int (ty a) then Call1 "Real" x else x)
                              (if is_float (ty e) && is_int (ty b) then Call1 "Real" y else y)
      | FloorDiv => if negb (is_float (ty a)) && negb (is_float (ty b))
                    then Call2 "pyc_floor_div" (f_as (ty e) a x) (f_as (ty e) b y)
                    else Call1 "real" (Call1 "FLOOR" (In "/" (f_as (ty e) a x) (f_as (ty e) b y)))
      | Eq => In (if is_bool (ty a) && is_bool (ty b) then ".eqv." else "==") x y
      | Ne => In (if is_bool (ty a) && is_bool (ty b) then ".neqv." else "/=") x y
      | Is => In ".eqv." x y
      | IsNot => In ".neqv." x y
      | Lt => In "<" (f_int a x) (f_int b y)
      | Le => In "<=" (f_int a x) (f_int b y)
      | Gt => In ">" (f_int a x) (f_int b y)
      | Ge => In ">=" (f_int a x) (f_int b y)
      | InOp => In "/=" (Call2 "count" y x) (At "0")
      | LSh => Call2 "LSHIFT" (f_int a x) (f_int b y)
      | RSh => Call2 "RSHIFT" (f_int a x) (f_int b y)
      | BXor => if is_bool (ty e) then In ".neqv." x y else Call2 "IEOR" (f_int a x) (f_int b y)
      | BOr => if is_bool (ty e) then In ".or." x y else Call2 "IOR" (f_int a x) (f_int b y)
      | BAnd => if is_bool (ty e) then In ".and." x y else Call2 "IAND" (f_int a x) (f_int b y)
      | And => In ".and." (if is_and a then x else f_bool a x) (f_bool b y)
      | Or => In ".or." (if is_or a then x else f_bool a x) (f_bool b y)
      end
  | PTern c a b => Call3 "merge" (f_as (ty e) a (f_print a)) (f_as (ty e) b (f_print b)) (f_bool c (f_print c))
  | PBool x => if is_bool (ty x) then Call1 "logical" (f_print x) else Par (In "/=" (f_print x) (At "0"))
  end.
