From Coq Require Import List String ZArith.
From Verif Require Import Expr_Model Expr_Spec.
Import ListNotations.
Open Scope string_scope.
Open Scope list_scope.

(* The text of np.where in C. *)

(* An expression on one element of the arrays (pyccel/ast/utilities.py:586-650 leaves
   elemental functions such as np.where in place, pyccel/ast/numpyext.py:1683-1690).
   Parts without np.where are taken as their text in C, which is modelled in Expr_Model. *)
Inductive we :=
| E (t : txt)                        (* no np.where in it *)
| W (c a b : we)                     (* np.where(c, a, b) *)
| B (o : string) (a b : we).         (* a o b *)

(* pyccel/codegen/printing/ccode.py:2813-2820 (_print_NumpyWhere): "{cond} ? {true} : {false}",
   no parentheses.  pyccel/ast/operators.py:268-276 (_handle_precedence): an operand that is no
   operator has precedence 17, so an operator puts no parentheses around np.where either.
   Simplified: the parentheses around operands that are operators are part of the text of E;
   operators between operands with np.where in them get none; calls of functions on an
   np.where are not modelled. *)
Fixpoint c_text (e : we) : list tok :=
  match e with
  | E t => words t
  | W c a b => c_text c ++ KQ :: c_text a ++ KColon :: c_text b
  | B o a b => c_text a ++ KOp o :: c_text b
  end.

(* pyccel/codegen/printing/fcode.py:1970-1983 (_print_NumpyWhere): merge(true, false, cond).
   Simplified: the conversion of the values to the type of the result (1975-1980) is left out;
   operators are printed by the symbols of C, which are those of Fortran for + - * / and < >. *)
Fixpoint f_text (e : we) : list tok :=
  match e with
  | E t => words t
  | W c a b => KFun "merge" :: KL :: f_text a ++ KComma :: f_text b ++ KComma :: f_text c ++ [KR]
  | B o a b => f_text a ++ KOp o :: f_text b
  end.
