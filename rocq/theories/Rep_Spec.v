(* Joined and repeated tuples and lists in Python. *)
From Coq Require Import Bool ZArith List Arith.
From Verif Require Import Rep_Model.
Import ListNotations.

Definition pstore := nat -> option (list Z).
(* None: NameError *)
Fixpoint py_exp (inp : nat -> Z) (s : pstore) (e : exp) : option (list Z) :=
  match e with
  | EVar y => s y
  | ELit l => Some l
  | ECat a b => match py_exp inp s a, py_exp inp s b with Some l, Some m => Some (l ++ m) | _, _ => None end
  | EDup a n => match py_exp inp s a with
                | Some l => Some (concat (repeat l (Z.to_nat (match n with LLit n => Z.of_nat n | LVar k => inp k end))))
                | None => None end
  end.
Definition py_stmt (inp : nat -> Z) (s : pstore) (c : stmt) : option pstore :=
  let '(x, e) := match c with SLit x l => (x, ELit l) | SCat x a b => (x, ECat a b) | SDup x a n => (x, EDup a n) end in
  match py_exp inp s e with Some l => Some (fun y => if Nat.eqb y x then Some l else s y) | None => None end.
Fixpoint python (inp : nat -> Z) (s : pstore) (p : list stmt) : option pstore :=
  match p with [] => Some s | c :: p' => match py_stmt inp s c with Some s' => python inp s' p' | None => None end end.

Fixpoint vars (e : exp) : list nat :=
  match e with EVar y => [y] | ELit _ => [] | ECat a b => vars a ++ vars b | EDup a _ => vars a end.
(* x is not an operand of what is assigned to x *)
Definition fresh_target (c : stmt) : Prop :=
  match c with SLit _ _ => True | SCat x a b => ~ In x (vars a) /\ ~ In x (vars b) | SDup x a _ => ~ In x (vars a) end.
Fixpoint lens (e : exp) : list len :=
  match e with EVar _ | ELit _ => [] | ECat a b => lens a ++ lens b | EDup a n => n :: lens a end.
Definition lengths (c : stmt) : list len := lens (match c with SLit x l => ELit l | SCat x a b => ECat a b | SDup x a n => EDup a n end).
Definition not_negative (inp : nat -> Z) (c : stmt) : Prop := forall k, In (LVar k) (lengths c) -> (0 <= inp k)%Z.
Definition is_cat (c : stmt) : bool := match c with SCat _ _ _ => true | _ => false end.

(* operands that are not sums or products themselves; a product with 0 counts as empty *)
Definition operand (e : exp) : bool := match e with EVar _ | ELit _ | EDup _ (LLit 0) => true | _ => false end.
Definition flat (c : stmt) : bool :=
  match c with SLit _ _ => true | SCat _ a b => operand a && operand b | SDup _ _ (LLit 0) => true | SDup _ a _ => operand a end.
(* all tuples and lists that are written out have elements *)
Fixpoint has_elements (e : exp) : bool :=
  match e with EVar _ => true | ELit l => negb (Nat.eqb (length l) 0) | ECat a b => has_elements a && has_elements b | EDup a _ => has_elements a end.
Definition all_elements (c : stmt) : bool :=
  match c with SLit _ l => negb (Nat.eqb (length l) 0) | SCat _ a b => has_elements a && has_elements b | SDup _ a _ => has_elements a end.
