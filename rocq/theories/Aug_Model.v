(* Augmented assignments: x op= e, a[i] op= e with integers of 64 bits.
   Sources: pyccel/parser/syntactic.py 691-716, pyccel/parser/semantic.py 5595-5655 (_visit_AugAssign: the branch for numbers),
   pyccel/ast/core.py 764-775 and 807-822 (AugAssign.to_basic_assign), pyccel/codegen/printing/ccode.py 3345-3360 and 3362-3386,
   1445-1459, 3264-3313, pyccel/codegen/printing/fcode.py 3097-3100 and 3617-3671.
   Simplifications: the operands of an expression are evaluated from left to right and an index is printed once; indices are not
   wrapped and not checked; the two parts of a statement are evaluated in an order that the compiler chooses; an operator with
   a float (op = /) is not modelled. *)
From Coq Require Import ZArith List Bool.
From Verif Require Import Common RtInt_Model.
Import ListNotations.
Open Scope Z_scope.
Open Scope run_scope.

Inductive op := Add | Sub | Mul | FloorDiv | Mod | BitOr | BitAnd | LShift | RShift.
Inductive ex := Num (n : Z) | Var (x : nat) | Elem (a : nat) (i : ex) | Call (f : nat) | Bin (o : op) (l r : ex).
Inductive target := TVar (x : nat) | TElem (a : nat) (i : ex).

(* scalar variables and elements of arrays *)
Inductive loc := V (x : nat) | E (a : nat) (i : Z).
Definition loc_eqb (p q : loc) : bool :=
  match p, q with
  | V x, V y => Nat.eqb x y
  | E a i, E b j => Nat.eqb a b && (i =? j)
  | _, _ => false
  end.
Definition memory := loc -> Z.
Definition upd (m : memory) (l : loc) (v : Z) : memory := fun p => if loc_eqb p l then v else m p.
(* the calls that were made are counted *)
Record st := mk { mem : memory; calls : list nat }.

(* ccode.py 3288-3313, 1445-1453, 3264-3275. C11 6.5.7: a negative number must not be shifted to the left *)
Definition c_op (o : op) (a b : Z) : run Z :=
  match o with
  | Add => chk 64 (a + b) | Sub => chk 64 (a - b) | Mul => chk 64 (a * b)
  | FloorDiv => c_floor_div 64 a b
  | Mod => c_modulo a b
  | BitOr => Ret (Z.lor a b) | BitAnd => Ret (Z.land a b)
  | LShift => if (0 <=? a) && (0 <=? b) && (b <? 64) then chk 64 (Z.shiftl a b) else Undef
  | RShift => if (0 <=? b) && (b <? 64) then Ret (Z.shiftr a b) else Undef
  end.
(* the operators of C: a op= b *)
Definition c_aug_op (o : op) (a b : Z) : run Z := match o with Mod => c_rem 64 a b | _ => c_op o a b end.
(* fcode.py 3617-3671; LSHIFT shifts bits, RSHIFT keeps the sign *)
Definition f_op (o : op) (a b : Z) : run Z :=
  match o with
  | Add => chk 64 (a + b) | Sub => chk 64 (a - b) | Mul => chk 64 (a * b)
  | FloorDiv => f_floor_div 64 a b
  | Mod => f_modulo a b
  | BitOr => Ret (Z.lor a b) | BitAnd => Ret (Z.land a b)
  | LShift => if (0 <=? b) && (b <? 64) then Ret (wrap 64 (Z.shiftl a b)) else Undef
  | RShift => if (0 <=? b) && (b <? 64) then Ret (Z.shiftr a b) else Undef
  end.

Section Run.
(* what a function returns and changes, given the calls before it *)
Variable body : nat -> list nat -> memory -> Z * memory.
Variable sem : op -> Z -> Z -> run Z.

Fixpoint eval (e : ex) (s : st) : run (Z * st) :=
  match e with
  | Num n => Ret (n, s)
  | Var x => Ret (mem s (V x), s)
  | Elem a i => r <- eval i s ;; Ret (mem (snd r) (E a (fst r)), snd r)
  | Call f => let (v, m) := body f (calls s) (mem s) in Ret (v, mk m (calls s ++ [f]))
  | Bin o l r => u <- eval l s ;; v <- eval r (snd u) ;; w <- sem o (fst u) (fst v) ;; Ret (w, snd v)
  end.
Definition place (t : target) (s : st) : run (loc * st) :=
  match t with TVar x => Ret (V x, s) | TElem a i => r <- eval i s ;; Ret (E a (fst r), snd r) end.
Definition store (l : loc) (v : Z) (s : st) : st := mk (upd (mem s) l v) (calls s).

(* Python: the place, its value, the operand, the operator *)
Definition python (o : op) (t : target) (e : ex) (s : st) : run st :=
  p <- place t s ;;
  v <- eval e (snd p) ;;
  w <- sem o (mem (snd p) (fst p)) (fst v) ;;
  Ret (store (fst p) w (snd v)).

(* the order that the compiler chooses *)
Record order := mk_order { place_late : bool; read_late : bool }.

(* lhs op= rhs in C, with the operator aug: the place is evaluated once *)
Definition aug_stmt (aug : op -> Z -> Z -> run Z) (c : order) (o : op) (t : target) (e : ex) (s : st) : run st :=
  if place_late c then
    v <- eval e s ;;
    p <- place t (snd v) ;;
    w <- aug o (mem (snd p) (fst p)) (fst v) ;;
    Ret (store (fst p) w (snd p))
  else
    p <- place t s ;;
    v <- eval e (snd p) ;;
    w <- aug o (mem (if read_late c then snd v else snd p) (fst p)) (fst v) ;;
    Ret (store (fst p) w (snd v)).
(* core.py 822: lhs = lhs op rhs. read_late: the second operand is evaluated first *)
Definition value (c : order) (o : op) (t : target) (e : ex) (s : st) : run (Z * st) :=
  if read_late c then
    v <- eval e s ;;
    p <- place t (snd v) ;;
    w <- sem o (mem (snd p) (fst p)) (fst v) ;;
    Ret (w, snd p)
  else
    p <- place t s ;;
    v <- eval e (snd p) ;;
    w <- sem o (mem (snd p) (fst p)) (fst v) ;;
    Ret (w, snd v).
Definition basic_stmt (c : order) (o : op) (t : target) (e : ex) (s : st) : run st :=
  if place_late c then
    w <- value c o t e s ;;
    p <- place t (snd w) ;;
    Ret (store (fst p) (fst w) (snd p))
  else
    p <- place t s ;;
    w <- value c o t e (snd p) ;;
    Ret (store (fst p) (fst w) (snd w)).
End Run.

(* ccode.py 3345-3360, for integers *)
Definition c_stmt body (c : order) (o : op) (t : target) (e : ex) (s : st) : run st :=
  match o with FloorDiv => basic_stmt body c_op c o t e s | _ => aug_stmt body c_op c_aug_op c o t e s end.
(* fcode.py 3097-3100 *)
Definition f_stmt body (c : order) (o : op) (t : target) (e : ex) (s : st) : run st := basic_stmt body f_op c o t e s.
