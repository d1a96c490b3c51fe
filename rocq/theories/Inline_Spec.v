(* What is said of functions with the decorator inline (C69) *)
From Coq Require Import Bool Arith ZArith List String.
From Verif Require Import Inline_Model.
Import ListNotations.
Open Scope list_scope.

(* The variables of the caller have the same values *)
Definition agree (l : list string) (s c : store) : Prop := forall x, In x l -> s x = c x.

(* get_new_name returns a name that is not in use *)
Definition fresh (new : list string -> string -> string) : Prop := forall u b, ~ In (new u b) u.

Fixpoint pure {A} (t : term A) : bool :=
  match t with
  | Const _ | Var _ => true | Plus a b => pure a && pure b | Call _ => false
  end.

Fixpoint vars {A} (t : term A) : list A :=
  match t with
  | Const _ => [] | Var x => [x] | Plus a b => vars a ++ vars b | Call t => vars t
  end.

(* The names read in the body of a function *)
Fixpoint reads (c : stmt string) : list string :=
  match c with
  | Set_ _ t | Return t => vars t
  | If t b1 b2 => vars t ++ reads_block b1 ++ reads_block b2
  | For _ t b => vars t ++ reads_block b
  end
with reads_block (b : block string) : list string :=
  match b with Nil => [] | Cons c b' => reads c ++ reads_block b' end.

(* return is the last statement, or the last statement of each branch of the last statement *)
Fixpoint last_stmt (c : stmt string) : bool :=
  match c with
  | Return _ => true
  | If _ b1 b2 => last_block b1 && last_block b2
  | _ => false
  end
with last_block (b : block string) : bool :=
  match b with
  | Nil => false
  | Cons c Nil => last_stmt c
  | Cons c b' => match returns c with [] => last_block b' | _ => false end
  end.

(* The function returns at its end, assigns to none of its arguments, and what it returns is an
   expression or always the same variable, not an argument *)
Definition fine (f : fdef) : Prop :=
  last_block (body f) = true /\
  (forall x, In x (assigned_block (body f)) -> ~ In x (args f)) /\
  (forall x, In (Var x) (returns_block (body f)) -> result_name f = Some x).

(* A call from a function with the variables l: no argument has an effect; the variables of the
   module that f reads have other names than the variables of the caller *)
Definition call_ok (l : list string) (f : fdef) (ts : list (term string)) : Prop :=
  fine f /\ forallb pure ts = true /\
  (forall x, In x (reads_block (body f)) -> In x (locals f) \/ ~ In x l).

Fixpoint ok (l : list string) (c : cstmt) : Prop :=
  match c with
  | CSet x _ => In x l
  | CIf _ b1 b2 => ok_block l b1 /\ ok_block l b2
  | CFor x _ b => In x l /\ ok_block l b
  | CCall y f ts =>
      In y l /\ call_ok l f ts /\
      ((forall t, In t ts -> ~ In y (vars t)) \/ result_name f = None)
  | COp y t f ts => In y l /\ pure t = true /\ call_ok l f ts
  end
with ok_block (l : list string) (b : cblock) : Prop :=
  match b with CNil => True | CCons c b' => ok l c /\ ok_block l b' end.

(* A function called in an expression: all names are bound, and only expressions are returned *)
Definition bound (gs l : list string) (f : fdef) (ts : list (term string)) : Prop :=
  (forall t x, In t ts -> In x (vars t) -> In x l \/ In x gs) /\
  (forall x, In x (reads_block (body f)) -> In x (locals f) \/ In x gs) /\
  result_name f = None.

Fixpoint usable (gs l : list string) (c : cstmt) : Prop :=
  match c with
  | CSet _ _ | CCall _ _ _ => True
  | CIf _ b1 b2 => usable_block gs l b1 /\ usable_block gs l b2
  | CFor _ _ b => usable_block gs l b
  | COp _ _ f ts => bound gs l f ts
  end
with usable_block (gs l : list string) (b : cblock) : Prop :=
  match b with CNil => True | CCons c b' => usable gs l c /\ usable_block gs l b' end.

(* The generated code ends with another value of a variable of the caller, or after other effects *)
Definition wrong (new : list string -> string -> string) (G : store) (gs l : list string)
                 (p : cblock) (s : store) : Prop :=
  exists code sc s' k' c' k'',
    translate_block new gs l p = Code (code, sc) /\
    py_block G l p s 0 = Next s' k' /\ run G code s 0 = Next c' k'' /\
    ((exists x, In x l /\ s' x <> c' x) \/ k' <> k'').
