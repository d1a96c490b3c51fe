(* What is said of blocks, if, while, for and return (C65).  The meaning of Python's statements
   is py_block, that of the translation is exec_block, both in Flow_Model. *)
From Coq Require Import Bool Arith ZArith List String.
From Verif Require Import Flow_Model.
Import ListNotations.
Open Scope list_scope.

(* ------------------------------------------------------------------ the same effects *)

(* Both end in the same way, have printed the same, and all variables of the program and the
   result have the same value *)
Definition alike (r r' : result) : Prop :=
  match r, r' with
  | Done g s, Done g' t =>
      g = g' /\ out s = out t /\ (forall x, vars s (User x) = vars t (User x)) /\
      vars s Result = vars t Result
  | Timeout, Timeout => True
  | _, _ => False
  end.

(* ------------------------------------------------------------------ kinds of expressions *)

(* No part is computed in a statement of its own *)
Fixpoint plain (e : expr) : bool :=
  match e with
  | Num _ | Lit _ | Get _ | Bump _ => true
  | Bin _ a b | And a b | Or a b => plain a && plain b
  | Not a | Tell a => plain a
  | Choose c a b => plain c && plain a && plain b
  | Early _ | Late _ | Held _ | Pick _ _ _ => false
  end.

(* No part is computed in a statement of its own by the semantic stage *)
Fixpoint no_early (e : expr) : bool :=
  match e with
  | Num _ | Lit _ | Get _ | Bump _ => true
  | Bin _ a b | And a b | Or a b => no_early a && no_early b
  | Not a | Tell a | Late a | Held a => no_early a
  | Choose c a b => no_early c && no_early a && no_early b
  | Early _ | Pick _ _ _ => false
  end.

(* ... by the printer *)
Fixpoint no_late (e : expr) : bool :=
  match e with
  | Num _ | Lit _ | Get _ | Bump _ => true
  | Bin _ a b | And a b | Or a b => no_late a && no_late b
  | Not a | Tell a | Early a => no_late a
  | Choose c a b | Pick c a b => no_late c && no_late a && no_late b
  | Late _ | Held _ => false
  end.

(* Evaluation has no visible effect *)
Fixpoint silent (e : expr) : bool :=
  match e with
  | Num _ | Lit _ | Get _ => true
  | Bin _ a b | And a b | Or a b => silent a && silent b
  | Not a | Early a | Late a | Held a => silent a
  | Choose c a b | Pick c a b => silent c && silent a && silent b
  | Tell _ | Bump _ => false
  end.

(* Evaluation changes no variable *)
Fixpoint steady (e : expr) : bool :=
  match e with
  | Num _ | Lit _ | Get _ => true
  | Bin _ a b | And a b | Or a b => steady a && steady b
  | Not a | Early a | Late a | Held a | Tell a => steady a
  | Choose c a b | Pick c a b => steady c && steady a && steady b
  | Bump _ => false
  end.

(* The left operand a is a constant or is itself in a temporary when b is computed *)
Definition settled (a b : expr) : bool :=
  match a with
  | Num _ | Lit _ | Get (Tmp _) | Early _ | Pick _ _ _ => true
  | Late _ | Held _ => no_early b
  | _ => false
  end.

(* A part computed in a statement of its own is always evaluated, and moving it before the
   statement does not move an effect over another: what is to the left of it is constant, or in
   a temporary, or has no effects where the part changes no variable *)
Fixpoint ok (e : expr) : bool :=
  match e with
  | Num _ | Lit _ | Get _ | Bump _ => true
  | Bin _ a b => ok a && ok b && (plain b || settled a b || (silent a && steady b))
  | Not a | Tell a | Early a | Late a => ok a
  | Held a => ok a && no_late a
  | And a b | Or a b => ok a && plain b
  | Choose c a b => ok c && plain a && plain b
  | Pick c a b =>
      ok c && plain a && (plain b || match b with Early b1 => plain b1 | _ => false end)
  end.

(* The conditions of array-valued conditional expressions need no code of the printer *)
Fixpoint picks (e : expr) : bool :=
  match e with
  | Num _ | Lit _ | Get _ | Bump _ => true
  | Bin _ a b | And a b | Or a b => picks a && picks b
  | Not a | Tell a | Early a | Late a | Held a => picks a
  | Choose c a b => picks c && picks a && picks b
  | Pick c a b => no_late c && picks c && picks a && picks b
  end.

(* An expression of the program does not use temporaries of the translation *)
Fixpoint user (e : expr) : bool :=
  match e with
  | Num _ | Lit _ | Bump _ => true
  | Get (Tmp _) => false
  | Get _ => true
  | Bin _ a b | And a b | Or a b => user a && user b
  | Not a | Tell a | Early a | Late a | Held a => user a
  | Choose c a b | Pick c a b => user c && user a && user b
  end.

(* fortran: the statement is translated to Fortran *)
Definition good (fortran : bool) (e : expr) : bool :=
  user e && ok e && (if fortran then picks e else true).

(* An expression in the head of an if or a for *)
Definition head (fortran : bool) (e : expr) : bool :=
  good fortran e && (if fortran then no_late e else true).

Definition empty (b : pblock) : bool := match b with PNil => true | _ => false end.

(* The programs for which the translation is right.  elif: an if here is an elif *)
Fixpoint safe (fortran elif : bool) (c : pstmt) : bool :=
  match c with
  | PPut _ e | PDo e | PReturn e => good fortran e
  | PIf e b1 b2 =>
      (if elif then user e && plain e else head fortran e) &&
      safe_block fortran b1 &&
      match b2 with
      | PCons c2 PNil => safe fortran true c2
      | _ => safe_block fortran b2
      end
  | PWhile e b1 b2 => user e && plain e && safe_block fortran b1 && empty b2
  | PFor _ e b1 b2 => head fortran e && safe_block fortran b1 && empty b2
  | PBreak | PContinue => true
  end
with safe_block (fortran : bool) (b : pblock) : bool :=
  match b with
  | PNil => true
  | PCons c b' => safe fortran false c && safe_block fortran b'
  end.
