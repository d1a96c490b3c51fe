(* The operators of Python, and what a target reads. *)
From Coq Require Import ZArith List Bool.
From Verif Require Import Common Aug_Model.
Import ListNotations.
Open Scope Z_scope.

Definition py_op (o : op) (a b : Z) : option Z :=
  match o with
  | Add => Some (a + b) | Sub => Some (a - b) | Mul => Some (a * b)
  | FloorDiv => if b =? 0 then None else Some (a / b)
  | Mod => if b =? 0 then None else Some (a mod b)
  | BitOr => Some (Z.lor a b) | BitAnd => Some (Z.land a b)
  | LShift => if b <? 0 then None else Some (a * 2 ^ b)
  | RShift => if b <? 0 then None else Some (a / 2 ^ b)
  end.
(* Python; None: an exception *)
Definition py_sem (o : op) (a b : Z) : run Z := match py_op o a b with Some v => Ret v | None => Undef end.
(* operations whose operands and result have 64 bits; the least integer is not divided by -1; only numbers that are not
   negative are shifted to the left, shifts are of at most 63 places *)
Definition fits (o : op) (a b : Z) : bool :=
  in_rangeb 64 a && in_rangeb 64 b && (match py_op o a b with Some v => in_rangeb 64 v | None => false end) &&
  match o with
  | Mod => negb ((a =? int_min 64) && (b =? -1))
  | LShift => (0 <=? a) && (b <? 64)
  | RShift => b <? 64
  | _ => true
  end.
(* Python, as long as everything fits *)
Definition py64 (o : op) (a b : Z) : run Z := if fits o a b then py_sem o a b else Undef.

Fixpoint no_calls (e : ex) : Prop :=
  match e with
  | Num _ | Var _ => True
  | Elem _ i => no_calls i
  | Call _ => False
  | Bin _ l r => no_calls l /\ no_calls r
  end.
Definition plain (t : target) : Prop := match t with TVar _ => True | TElem _ i => no_calls i end.
(* how often a function is called *)
Fixpoint count (f : nat) (e : ex) : nat :=
  match e with
  | Num _ | Var _ => 0
  | Elem _ i => count f i
  | Call g => if Nat.eqb g f then 1 else 0
  | Bin _ l r => count f l + count f r
  end.
Definition count_target (f : nat) (t : target) : nat := match t with TVar _ => 0 | TElem _ i => count f i end.

(* what an expression without calls reads *)
Fixpoint reads body (e : ex) (s : st) : list loc :=
  match e with
  | Num _ | Call _ => []
  | Var x => [V x]
  | Elem a i => reads body i s ++ match eval body py64 i s with Ret (v, _) => [E a v] | _ => [] end
  | Bin _ l r => reads body l s ++ reads body r s
  end.
Definition target_reads body (t : target) (s : st) : list loc :=
  match t with TVar x => [V x] | TElem a i => reads body (Elem a i) s end.
