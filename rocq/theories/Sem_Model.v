(* Statements x op= e, on top of the printing of expressions in Expr_Model.

   Scalars of type bool and int; the left hand side is a variable. *)
From Coq Require Import List Bool ZArith String.
From Verif Require Import Expr_Model.
Import ListNotations.
Open Scope string_scope.

(* What is printed for an assignment: lhs = rhs, or lhs op= rhs. *)
Inductive stmt := Asg (x : string) (rhs : txt) | OpAsg (x : string) (op : string) (rhs : txt).

(* ast/core.py:765-776 *)
Definition aug_ops : list bop := [Add; Sub; Mul; Div; FloorDiv; Mod; BOr; BAnd; LSh; RSh].
(* ast/core.py:806-825, AugAssign.to_basic_assign *)
Definition basic_rhs (x : string) (t : ptype) (o : bop) (e : pe) : pe := mk_bin o (PAt x t) e.
(* ccode.py:3345-3360.  The operator is printed with the letters Python uses. *)
Definition c_aug (x : string) (t : ptype) (o : bop) (e : pe) : stmt :=
  let basic := match o with FloorDiv => true | Mod => is_float t | _ => false end in
  if basic then Asg x (c_print (basic_rhs x t o e)) else OpAsg x (py_op o) (c_print e).
(* fcode.py:3097-3101 *)
Definition f_aug (x : string) (t : ptype) (o : bop) (e : pe) : stmt :=
  Asg x (f_print (basic_rhs x t o e)).
