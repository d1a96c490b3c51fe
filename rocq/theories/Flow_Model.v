(* Blocks, if, while, for and return, with the statements that the translation puts in front
   of others to compute temporaries.
   Sources: pyccel/parser/syntactic.py 1051 (Return), 1369-1382 (For), 1574-1629 (If),
   1639-1648 (While); pyccel/parser/semantic.py 4099-4127 (CodeBlock), 5657-5694 (For),
   6114-6121 (While), 6123-6142 (IfSection), 6207-6218 (If), 6243-6267 (IfTernaryOperator),
   6269-6330 (Return), and the places which append to _additional_exprs (1215, 1235, 1761,
   4013, 6109 and others); pyccel/codegen/printing/ccode.py 1083-1098, 1294-1325, 3513-3524,
   3526-3541; pyccel/codegen/printing/fcode.py 1556-1595, 2168, 2464-2481, 3134-3209,
   3424-3430, 3512-3538, 4271.
   Simplifications: values are integers; a condition is true if it is not zero; the operands of
   an operator are evaluated from left to right in all three languages, `and`/`or` and scalar
   conditional expressions evaluate what Python evaluates (C11, C12 treat that); a for loop is
   over range(n), with n evaluated once and the loop variable left as Python leaves it
   (C29 treats that).  An exception, and in the translation undefined behaviour, is Fault.
   Two kinds of calls with visible effects stand for all: Tell prints its argument and returns
   it, Bump x subtracts one from x and returns it (as x.pop() changes x).  Names of temporaries
   are fresh (C01, C02): they are numbers. *)
From Coq Require Import Bool Arith ZArith List String.
Import ListNotations.
Open Scope list_scope.

(* Result: the result variable of the function *)
Inductive var := User (x : string) | Result | Tmp (n : nat).

Inductive op := Add | Sub | Mul | Div | Lt | Eq.

(* Early: a part which the semantic stage computes in a statement of its own, e.g. a call of a
   function with an array as result (semantic.py 1755-1763).
   Pick: a conditional expression for arrays or strings (semantic.py 6245).
   Late: a part which the printer computes in a statement of its own: in C an argument of
   min/max (ccode.py 1083-1098), in Fortran l.pop() (fcode.py 1556).
   Held: as Late, where the code is added by `self._additional_code += self._print(...)`: in
   Fortran the object whose method is called, if it is the result of a call (fcode.py 4271). *)
Inductive expr :=
| Num (z : Z)
| Lit (b : bool)
| Get (v : var)
| Bin (o : op) (a b : expr)
| Not (a : expr)
| And (a b : expr)
| Or (a b : expr)
| Choose (c a b : expr)
| Tell (a : expr)
| Bump (x : string)
| Early (a : expr)
| Pick (c a b : expr)
| Late (a : expr)
| Held (a : expr).

(* The statements of pyccel and of the target languages *)
Inductive stmt :=
| Put (v : var) (e : expr)
| Do (e : expr)
| If (s : sections)
| While (c : expr) (b : block)
| For (v : var) (e : expr) (b : block)
| Break
| Continue
| Leave
with block := Nil | Cons (s : stmt) (b : block)
with sections := Nothing | Section (c : expr) (b : block) (rest : sections).

(* The statements of Python (module ast), with the else of loops.  PAgain: continue *)
Inductive pstmt :=
| PPut (x : string) (e : expr)
| PDo (e : expr)
| PIf (c : expr) (b e : pblock)
| PWhile (c : expr) (b e : pblock)
| PFor (x : string) (n : expr) (b e : pblock)
| PBreak
| PContinue
| PReturn (e : expr)
with pblock := PNil | PCons (s : pstmt) (b : pblock).

(* ------------------------------------------------------------------ meaning *)

Record state := mk { vars : var -> option Z; out : list Z }.

Definition var_eqb (v w : var) : bool :=
  match v, w with
  | User x, User y => String.eqb x y
  | Result, Result => true
  | Tmp n, Tmp m => Nat.eqb n m
  | _, _ => false
  end.

Definition store (v : var) (z : Z) (s : state) : state :=
  mk (fun w => if var_eqb w v then Some z else vars s w) (out s).

Definition tell (z : Z) (s : state) : state := mk (vars s) (out s ++ [z]).

Definition truth (z : Z) : bool := negb (Z.eqb z 0).

Definition of_bool (b : bool) : Z := if b then 1%Z else 0%Z.

Definition apply (o : op) (a b : Z) : option Z :=
  match o with
  | Add => Some (a + b)%Z
  | Sub => Some (a - b)%Z
  | Mul => Some (a * b)%Z
  | Div => if Z.eqb b 0 then None else Some (a / b)%Z
  | Lt => Some (of_bool (Z.ltb a b))
  | Eq => Some (of_bool (Z.eqb a b))
  end.

(* Python's evaluation of an expression; the marks Early, Late, Held mean nothing.  None: an
   exception, or a variable that has no value *)
Fixpoint eval (e : expr) (s : state) : option (Z * state) :=
  match e with
  | Num z => Some (z, s)
  | Lit b => Some (of_bool b, s)
  | Get v => match vars s v with Some z => Some (z, s) | None => None end
  | Bin o a b =>
      match eval a s with
      | Some (x, s1) =>
          match eval b s1 with
          | Some (y, s2) => match apply o x y with Some z => Some (z, s2) | None => None end
          | None => None
          end
      | None => None
      end
  | Not a =>
      match eval a s with
      | Some (x, s1) => Some (of_bool (negb (truth x)), s1)
      | None => None
      end
  | And a b =>
      match eval a s with
      | Some (x, s1) => if truth x then eval b s1 else Some (x, s1)
      | None => None
      end
  | Or a b =>
      match eval a s with
      | Some (x, s1) => if truth x then Some (x, s1) else eval b s1
      | None => None
      end
  | Choose c a b | Pick c a b =>
      match eval c s with
      | Some (x, s1) => if truth x then eval a s1 else eval b s1
      | None => None
      end
  | Tell a =>
      match eval a s with
      | Some (x, s1) => Some (x, tell x s1)
      | None => None
      end
  | Bump x =>
      match vars s (User x) with
      | Some z => Some ((z - 1)%Z, store (User x) (z - 1)%Z s)
      | None => None
      end
  | Early a | Late a | Held a => eval a s
  end.

(* How a statement ends.  Left: by return *)
Inductive signal := Next | Broke | Again | Left.

(* Timeout: a loop has made more iterations than allowed *)
Inductive result := Done (g : signal) (s : state) | Fault | Timeout.

(* A while loop of at most k iterations.  Done Broke: it was left by break *)
Fixpoint loop (cond : state -> option (Z * state)) (body : state -> result) (k : nat)
              (s : state) : result :=
  match k with
  | O => Timeout
  | S k' =>
      match cond s with
      | None => Fault
      | Some (v, s1) =>
          if truth v then
            match body s1 with
            | Done Next s2 | Done Again s2 => loop cond body k' s2
            | r => r
            end
          else Done Next s1
      end
  end.

(* The iterations of `for v in range(...)` for the values i, i+1, ... (k of them) *)
Fixpoint count (v : var) (body : state -> result) (k : nat) (i : Z) (s : state) : result :=
  match k with
  | O => Done Next s
  | S k' =>
      match body (store v i s) with
      | Done Next s1 | Done Again s1 => count v body k' (i + 1)%Z s1
      | r => r
      end
  end.

(* The end of a loop without else *)
Definition stop (r : result) : result :=
  match r with Done Broke s => Done Next s | _ => r end.

(* The end of a loop with else: the else runs unless the loop was left *)
Definition otherwise (f : state -> result) (r : result) : result :=
  match r with Done Broke s => Done Next s | Done Next s => f s | _ => r end.

(* The meaning of pyccel's statements and of those of the target languages; each loop may make
   n iterations *)
Fixpoint exec (n : nat) (c : stmt) (s : state) : result :=
  match c with
  | Put v e =>
      match eval e s with Some (z, s1) => Done Next (store v z s1) | None => Fault end
  | Do e => match eval e s with Some (_, s1) => Done Next s1 | None => Fault end
  | If x => exec_sections n x s
  | While e b => stop (loop (eval e) (exec_block n b) n s)
  | For v e b =>
      match eval e s with
      | Some (z, s1) => stop (count v (exec_block n b) (Z.to_nat z) 0%Z s1)
      | None => Fault
      end
  | Break => Done Broke s
  | Continue => Done Again s
  | Leave => Done Left s
  end
with exec_block (n : nat) (b : block) (s : state) : result :=
  match b with
  | Nil => Done Next s
  | Cons c b' =>
      match exec n c s with
      | Done Next s1 => exec_block n b' s1
      | r => r
      end
  end
with exec_sections (n : nat) (x : sections) (s : state) : result :=
  match x with
  | Nothing => Done Next s
  | Section e b rest =>
      match eval e s with
      | None => Fault
      | Some (z, s1) => if truth z then exec_block n b s1 else exec_sections n rest s1
      end
  end.

(* The meaning of Python's statements *)
Fixpoint py (n : nat) (c : pstmt) (s : state) : result :=
  match c with
  | PPut x e =>
      match eval e s with Some (z, s1) => Done Next (store (User x) z s1) | None => Fault end
  | PDo e => match eval e s with Some (_, s1) => Done Next s1 | None => Fault end
  | PIf e b1 b2 =>
      match eval e s with
      | None => Fault
      | Some (z, s1) => if truth z then py_block n b1 s1 else py_block n b2 s1
      end
  | PWhile e b1 b2 => otherwise (py_block n b2) (loop (eval e) (py_block n b1) n s)
  | PFor x e b1 b2 =>
      match eval e s with
      | Some (z, s1) =>
          otherwise (py_block n b2) (count (User x) (py_block n b1) (Z.to_nat z) 0%Z s1)
      | None => Fault
      end
  | PBreak => Done Broke s
  | PContinue => Done Again s
  | PReturn e =>
      match eval e s with Some (z, s1) => Done Left (store Result z s1) | None => Fault end
  end
with py_block (n : nat) (b : pblock) (s : state) : result :=
  match b with
  | PNil => Done Next s
  | PCons c b' =>
      match py n c s with
      | Done Next s1 => py_block n b' s1
      | r => r
      end
  end.

(* ------------------------------------------------------------------ syntactic stage *)

(* The statements of pyccel before the semantic stage have a return with an expression: it is
   the assignment to the result variable followed by Leave (semantic.py 6301-6330, where the
   visit of the return makes that assignment) *)
Fixpoint put (p : list stmt) (b : block) : block :=
  match p with [] => b | c :: p' => Cons c (put p' b) end.

(* syntactic.py 1622-1629: the else of an if which is one if becomes its elif sections; the
   else of while and for (1369-1382, 1639-1648) is not looked at *)
Fixpoint parse (c : pstmt) : list stmt :=
  match c with
  | PPut x e => [Put (User x) e]
  | PDo e => [Do e]
  | PIf e b1 b2 =>
      let els :=
        match b2 with
        | PNil => Nothing
        | PCons c2 PNil =>
            match parse c2 with
            | [If x] => x
            | p => Section (Lit true) (put p Nil) Nothing
            end
        | _ => Section (Lit true) (parse_block b2) Nothing
        end in
      [If (Section e (parse_block b1) els)]
  | PWhile e b _ => [While e (parse_block b)]
  | PFor x e b _ => [For (User x) e (parse_block b)]
  | PBreak => [Break]
  | PContinue => [Continue]
  | PReturn e => [Put Result e; Leave]
  end
with parse_block (b : pblock) : block :=
  match b with PNil => Nil | PCons c b' => put (parse c) (parse_block b') end.

(* ------------------------------------------------------------------ semantic stage *)

(* What SymPy knows of a condition (semantic.py 6128-6138 with pyccel_to_sympy in
   ast/sympy_helper.py): comparisons of constants and what `not`, `and`, `or` make of them.
   Simplification: SymPy also knows that x == x and similar *)
Fixpoint constant (e : expr) : option Z :=
  match e with
  | Num z => Some z
  | Bin o a b =>
      match constant a, constant b with
      | Some x, Some y =>
          match o with Lt | Eq => None | _ => apply o x y end
      | _, _ => None
      end
  | _ => None
  end.

(* pyccel_to_sympy raises no TypeError *)
Fixpoint symbolic (e : expr) : bool :=
  match e with
  | Num _ | Lit _ | Get _ => true
  | Bin _ a b | And a b | Or a b => symbolic a && symbolic b
  | Not a => symbolic a
  | _ => false
  end.

Fixpoint known (e : expr) : option bool :=
  match e with
  | Lit b => Some b
  | Bin o a b =>
      match constant a, constant b with
      | Some x, Some y =>
          match o with
          | Lt => Some (Z.ltb x y)
          | Eq => Some (Z.eqb x y)
          | _ => None
          end
      | _, _ => None
      end
  | Not a => option_map negb (known a)
  | And a b =>
      if symbolic a && symbolic b then
        match known a, known b with
        | Some false, _ | _, Some false => Some false
        | Some true, Some true => Some true
        | _, _ => None
        end
      else None
  | Or a b =>
      if symbolic a && symbolic b then
        match known a, known b with
        | Some true, _ | _, Some true => Some true
        | Some false, Some false => Some false
        | _, _ => None
        end
      else None
  | _ => None
  end.

(* The visit of an expression: the statements appended to _additional_exprs[-1], what stands
   for the expression, and the next free number of a temporary.
   Pick (semantic.py 6244-6257): the first value is visited to know its type, and again in its
   assignment *)
Fixpoint visit (e : expr) (k : nat) : list stmt * expr * nat :=
  match e with
  | Num _ | Lit _ | Get _ | Bump _ => ([], e, k)
  | Bin o a b =>
      let '(p, a', k1) := visit a k in
      let '(q, b', k2) := visit b k1 in (p ++ q, Bin o a' b', k2)
  | Not a => let '(p, a', k1) := visit a k in (p, Not a', k1)
  | And a b =>
      let '(p, a', k1) := visit a k in
      let '(q, b', k2) := visit b k1 in (p ++ q, And a' b', k2)
  | Or a b =>
      let '(p, a', k1) := visit a k in
      let '(q, b', k2) := visit b k1 in (p ++ q, Or a' b', k2)
  | Choose c a b =>
      let '(pa, a', k1) := visit a k in
      let '(pc, c', k2) := visit c k1 in
      let '(pb, b', k3) := visit b k2 in (pa ++ pc ++ pb, Choose c' a' b', k3)
  | Tell a => let '(p, a', k1) := visit a k in (p, Tell a', k1)
  | Early a =>
      let '(p, a', k1) := visit a k in (p ++ [Put (Tmp k1) a'], Get (Tmp k1), S k1)
  | Pick c a b =>
      let '(pa, _, k1) := visit a k in
      let lhs := Tmp k1 in
      let '(pc, c', k2) := visit c (S k1) in
      let '(pt, a', k3) :=
        match a with Early a1 => visit a1 k2 | _ => visit a k2 end in
      let '(pf, b', k4) :=
        match b with Early b1 => visit b1 k3 | _ => visit b k3 end in
      (pa ++ pc ++ pt ++ pf ++
       [If (Section c' (Cons (Put lhs a') Nil)
             (Section (Lit true) (Cons (Put lhs b') Nil) Nothing))],
       Get lhs, k4)
  | Late a => let '(p, a', k1) := visit a k in (p, Late a', k1)
  | Held a => let '(p, a', k1) := visit a k in (p, Held a', k1)
  end.

(* The right-hand side of an assignment: a call which is assigned needs no temporary
   (semantic.py 1746, 1755) *)
Definition visit_rhs (e : expr) (k : nat) : list stmt * expr * nat :=
  match e with Early a => visit a k | _ => visit e k end.

Fixpoint flatten (b : block) : list stmt :=
  match b with Nil => [] | Cons c b' => c :: flatten b' end.

(* A visited statement: what is appended to _additional_exprs[-1], the statements, the number.
   visit_sections: _visit_If 6207-6218 with the part of _visit_IfSection 6123-6142 that
   treats conditions with a known value *)
Fixpoint visit_stmt (c : stmt) (k : nat) : list stmt * list stmt * nat :=
  match c with
  | Put v e => let '(p, e', k1) := visit_rhs e k in (p, [Put v e'], k1)
  | Do e => let '(p, e', k1) := visit e k in (p, [Do e'], k1)
  | If x =>
      let '(p, x', k1) := visit_sections x k in
      (p,
       match x' with
       | Section (Lit true) b _ => flatten b
       | _ => [If x']
       end, k1)
  | While e b =>
      let '(p, e', k1) := visit e k in
      let '(b', k2) := visit_block b k1 in (p, [While e' b'], k2)
  | For v e b =>
      let '(p, e', k1) := visit e k in
      let '(b', k2) := visit_block b k1 in (p, [For v e' b'], k2)
  | Break | Continue | Leave => ([], [c], k)
  end
with visit_block (b : block) (k : nat) : block * nat :=
  match b with
  | Nil => (Nil, k)
  | Cons c b' =>
      let '(p, q, k1) := visit_stmt c k in
      let '(r, k2) := visit_block b' k1 in (put p (put q r), k2)
  end
with visit_sections (x : sections) (k : nat) : list stmt * sections * nat :=
  match x with
  | Nothing => ([], Nothing, k)
  | Section e b rest =>
      let '(p, e', k1) := visit e k in
      match known e' with
      | Some false => let '(q, r, k2) := visit_sections rest k1 in (p ++ q, r, k2)
      | Some true =>
          let '(b', k2) := visit_block b k1 in (p, Section (Lit true) b' Nothing, k2)
      | None =>
          let '(b', k2) := visit_block b k1 in
          let '(q, r, k3) := visit_sections rest k2 in (p ++ q, Section e' b' r, k3)
      end
  end.

(* ------------------------------------------------------------------ printers *)

(* Printing an expression: w is self._additional_code.  For Held the attribute is read before
   its argument is printed, and what that added is overwritten *)
Fixpoint print (e : expr) (w : list stmt) (k : nat) : list stmt * expr * nat :=
  match e with
  | Num _ | Lit _ | Get _ | Bump _ => (w, e, k)
  | Bin o a b =>
      let '(w1, a', k1) := print a w k in
      let '(w2, b', k2) := print b w1 k1 in (w2, Bin o a' b', k2)
  | Not a => let '(w1, a', k1) := print a w k in (w1, Not a', k1)
  | And a b =>
      let '(w1, a', k1) := print a w k in
      let '(w2, b', k2) := print b w1 k1 in (w2, And a' b', k2)
  | Or a b =>
      let '(w1, a', k1) := print a w k in
      let '(w2, b', k2) := print b w1 k1 in (w2, Or a' b', k2)
  | Choose c a b | Pick c a b =>
      let '(w1, c', k1) := print c w k in
      let '(w2, a', k2) := print a w1 k1 in
      let '(w3, b', k3) := print b w2 k2 in (w3, Choose c' a' b', k3)
  | Tell a => let '(w1, a', k1) := print a w k in (w1, Tell a', k1)
  | Early a => print a w k
  | Late a =>
      let '(w1, a', k1) := print a w k in (w1 ++ [Put (Tmp k1) a'], Get (Tmp k1), S k1)
  | Held a =>
      let '(_, a', k1) := print a w k in (w ++ [Put (Tmp k1) a'], Get (Tmp k1), S k1)
  end.

(* C: ccode.py.  A statement gives what it leaves in _additional_code and its code.
   if (1301-1325): the code for the conditions is put before the whole statement.
   while (1294-1299), for (3433-3519), blocks (3526-3541) *)
Fixpoint c_stmt (c : stmt) (k : nat) : list stmt * list stmt * nat :=
  match c with
  | Put v e => let '(w, e', k1) := print e [] k in (w, [Put v e'], k1)
  | Do e => let '(w, e', k1) := print e [] k in (w, [Do e'], k1)
  | If x =>
      match x with
      | Section (Lit true) b Nothing => let '(b', k1) := c_block b k in ([], flatten b', k1)
      | _ => let '(w, x', k1) := c_sections x k in ([], w ++ [If x'], k1)
      end
  | While e b =>
      let '(b', k1) := c_block b k in
      let '(w, e', k2) := print e [] k1 in (w, [While e' b'], k2)
  | For v e b =>
      let '(w, e', k1) := print e [] k in
      let '(b', k2) := c_block b k1 in ([], w ++ [For v e' b'], k2)
  | Break | Continue | Leave => ([], [c], k)
  end
with c_block (b : block) (k : nat) : block * nat :=
  match b with
  | Nil => (Nil, k)
  | Cons c b' =>
      let '(w, q, k1) := c_stmt c k in
      let '(r, k2) := c_block b' k1 in (put w (put q r), k2)
  end
with c_sections (x : sections) (k : nat) : list stmt * sections * nat :=
  match x with
  | Nothing => ([], Nothing, k)
  | Section e b rest =>
      let '(b', k1) := c_block b k in
      let '(w, e', k2) := print e [] k1 in
      let '(w', r, k3) := c_sections rest k2 in (w ++ w', Section e' b' r, k3)
  end.

(* Fortran: fcode.py.  w is self._additional_code before and after.  A call that is assigned is
   printed with its variable (1563-1566, 1589-1591).  Nothing but a block (2476-2481) empties
   _additional_code: not if (3512-3538; an if that is an else only is printed as its body), while (3424-3430), for (3134-3209) *)
Fixpoint f_stmt (c : stmt) (w : list stmt) (k : nat) : list stmt * list stmt * nat :=
  match c with
  | Put v e =>
      let '(w1, e', k1) := match e with Late a => print a w k | _ => print e w k end in
      (w1, [Put v e'], k1)
  | Do e => let '(w1, e', k1) := print e w k in (w1, [Do e'], k1)
  | If x => let '(w1, x', k1) := f_sections x w k in (w1, [If x'], k1)
  | While e b =>
      let '(w1, b', k1) := f_block b w k in
      let '(w2, e', k2) := print e w1 k1 in (w2, [While e' b'], k2)
  | For v e b =>
      let '(w1, e', k1) := print e w k in
      let '(w2, b', k2) := f_block b w1 k1 in (w2, [For v e' b'], k2)
  | Break | Continue | Leave => (w, [c], k)
  end
with f_block (b : block) (w : list stmt) (k : nat) : list stmt * block * nat :=
  match b with
  | Nil => (w, Nil, k)
  | Cons c b' =>
      let '(w1, q, k1) := f_stmt c w k in
      let '(w2, r, k2) := f_block b' [] k1 in (w2, put w1 (put q r), k2)
  end
with f_sections (x : sections) (w : list stmt) (k : nat) : list stmt * sections * nat :=
  match x with
  | Nothing => (w, Nothing, k)
  | Section e b rest =>
      let '(w1, e', k1) := print e w k in
      let '(w2, b', k2) := f_block b w1 k1 in
      let '(w3, r, k3) := f_sections rest w2 k2 in (w3, Section e' b' r, k3)
  end.

(* The body of a function, from Python to C and to Fortran *)
Definition to_c (b : pblock) : block :=
  let '(b1, k) := visit_block (parse_block b) 0 in fst (c_block b1 k).

Definition to_fortran (b : pblock) : block :=
  let '(b1, k) := visit_block (parse_block b) 0 in
  let '(_, b2, _) := f_block b1 [] k in b2.
