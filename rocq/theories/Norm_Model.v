From Coq Require Import List String Ascii.
From Verif Require Import Expr_Model Expr_Spec.
Import ListNotations.
Open Scope string_scope.
Open Scope list_scope.

(* np.linalg.norm of an array in expressions: the text in Fortran and in C. *)

(* The order of the norm; a power comes with the text of the order and of 1 / order, both
   converted by _apply_cast (pyccel/codegen/printing/fcode.py:810-842), so literals or calls of
   Real(...). *)
Inductive kind := Two | Inf | MinusInf | Zero | One | MinusOne | Power (p q : string).

(* the absolute values of the array, with their cast: one word *)
Definition arr : txt := At "x".
Definition one : txt := At "1.0".
(* pyccel/codegen/printing/fcode.py:1816-1854 (_print_NumpyNorm), arrays of rank 1 or more.
   Simplified: the brackets in Norm2([...]) are left out. *)
Definition norm_text (k : kind) : txt :=
  match k with
  | Two => Call1 "Norm2" arr
  | Inf => Call1 "maxval" arr
  | MinusInf => Call1 "minval" arr
  | Zero => Call1 "count" (In ">" arr (At "0"))
  | One => Call1 "sum" arr
  | MinusOne => In "/" one (Call1 "sum" (In "/" one arr))
  | Power p q => In "**" (Call1 "sum" (In "**" arr (At p))) (At q)
  end.

(* Expressions; parts without norm are taken as their text (area Expr). *)
Inductive ne :=
| E (t : txt)
| N (k : kind)
| B (o : string) (a b : ne).
(* pyccel/codegen/printing/fcode.py:3558-3616: operands joined by the operator;
   pyccel/ast/operators.py:268-276: a function has precedence 17 and gets no parentheses. *)
Fixpoint f_text (e : ne) : list tok :=
  match e with
  | E t => words t
  | N k => words (norm_text k)
  | B o a b => f_text a ++ KOp o :: f_text b
  end.

(* In C a norm is computed by statements.  Where it stands: on the right of an assignment to a
   variable, of an augmented assignment, or inside an expression. *)
Inductive place := Assigned | Augmented | Inside.
Open Scope string_scope.
(* pyccel/codegen/printing/ccode.py:2890-2928: orders whose sum is raised to a power at the end *)
Definition final_power (k : kind) : bool :=
  match k with Two | MinusOne | Power _ _ => true | _ => false end.
(* pyccel/codegen/printing/ccode.py:843-848, with the body of the loop as one word *)
Definition loop_code (lhs body : string) : string :=
  lhs ++ " = 0.0; for (c_each) { " ++ lhs ++ " = " ++ body ++ "; } ".
(* pyccel/codegen/printing/ccode.py:2946-2948 *)
Definition pow_code (lhs p : string) : string := lhs ++ " = pow(" ++ lhs ++ ", " ++ p ++ "); ".
(* pyccel/codegen/printing/ccode.py:800-855 (_handle_numpy_functional): only for an assignment is
   the loop the code itself; otherwise it goes to _additional_code and the temporary is printed *)
Definition functional (u : place) (lhs tmp body : string) : string * string :=
  match u with
  | Assigned => ("", loop_code lhs body)
  | Augmented | Inside => (loop_code tmp body, tmp)
  end.
(* pyccel/codegen/printing/ccode.py:2931-2956: the code put in front of the statement, and the
   text in the place of the norm.  The assignment found by get_direct_user_nodes (2940-2945) is
   the one to the temporary, built at 851. *)
Definition c_norm (u : place) (k : kind) (lhs tmp body p : string) : string * string :=
  let '(add, code) := functional u lhs tmp body in
  if final_power k then
    match u with
    | Augmented => (add ++ pow_code tmp p, code)
    | Assigned => (add, code ++ pow_code lhs p)
    | Inside => (add, code ++ pow_code tmp p)
    end
  else (add, code).
