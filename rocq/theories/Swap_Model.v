(* Assignment of a tuple of expressions to a tuple of targets.
   Sources: pyccel/parser/semantic.py 5064-5151 (_visit_Assign, tuple on both sides);
   pyccel/ast/basic.py 188-240 (get_attribute_nodes), 294-400 (substitute);
   pyccel/ast/variable.py 929-936 (equality of indexed elements).
   Simplifications: values are integers, arrays have one index and are given by a partial map
   (no index is negative); expressions are sums; no calls.  The two sides have the same shape.
   Names created by get_new_name are numbers (C09 treats names). *)
From Coq Require Import Bool Arith ZArith List String.
Import ListNotations.
Open Scope list_scope.

(* ------------------------------------------------------------------ programs *)

(* Tmp n: a variable created by the translation *)
Inductive var := Name (x : string) | Tmp (n : nat).

Inductive term := Const (z : Z) | Var (x : var) | Plus (a b : term) | Elem (a : string) (t : term).

Inductive place := To (x : var) | At (a : string) (t : term).

(* (p1, (p2, p3)) = (t1, (t2, t3)) *)
Inductive item := One (p : place) (t : term) | Group (l : items)
with items := INil | ICons (i : item) (l : items).

Record store := { sc : var -> option Z; ar : string -> Z -> option Z }.

Definition var_eqb (x y : var) : bool :=
  match x, y with
  | Name a, Name b => String.eqb a b
  | Tmp n, Tmp m => Nat.eqb n m
  | _, _ => false
  end.

Fixpoint eval (s : store) (t : term) : option Z :=
  match t with
  | Const z => Some z
  | Var x => sc s x
  | Plus a b =>
      match eval s a, eval s b with Some x, Some y => Some (x + y)%Z | _, _ => None end
  | Elem a t => match eval s t with Some i => ar s a i | None => None end
  end.

Definition set_var (x : var) (z : Z) (s : store) : store :=
  {| sc := fun y => if var_eqb y x then Some z else sc s y; ar := ar s |}.

Definition set_elem (a : string) (i z : Z) (s : store) : store :=
  {| sc := sc s;
     ar := fun b j => if String.eqb b a && Z.eqb j i then Some z else ar s b j |}.

(* None: a variable without a value, or an index out of range *)
Definition write (p : place) (z : Z) (s : store) : option store :=
  match p with
  | To x => Some (set_var x z s)
  | At a t =>
      match eval s t with
      | Some i => match ar s a i with Some _ => Some (set_elem a i z s) | None => None end
      | None => None
      end
  end.

(* ------------------------------------------------------------------ Python *)

(* All expressions are evaluated first, then the targets are assigned from left to right *)
Fixpoint flat_item (i : item) : list (place * term) :=
  match i with One p t => [(p, t)] | Group l => flat l end
with flat (l : items) : list (place * term) :=
  match l with INil => [] | ICons i l' => flat_item i ++ flat l' end.

Fixpoint values (s : store) (l : list (place * term)) : option (list (place * Z)) :=
  match l with
  | [] => Some []
  | (p, t) :: l' =>
      match eval s t, values s l' with
      | Some z, Some r => Some ((p, z) :: r)
      | _, _ => None
      end
  end.

Fixpoint writes (l : list (place * Z)) (s : store) : option store :=
  match l with
  | [] => Some s
  | (p, z) :: l' => match write p z s with Some s1 => writes l' s1 | None => None end
  end.

Definition py (l : items) (s : store) : option store :=
  match values s (flat l) with Some r => writes r s | None => None end.

(* ------------------------------------------------------------------ semantic stage *)

(* get_attribute_nodes((PyccelSymbol, IndexedElement)): what is found is not searched further *)
Fixpoint nodes (t : term) : list place :=
  match t with
  | Const _ => []
  | Var x => [To x]
  | Plus a b => nodes a ++ nodes b
  | Elem a t => [At a t]
  end.

(* Equality of symbols and indexed elements; operators are compared by identity *)
Definition place_eqb (p q : place) : bool :=
  match p, q with
  | To x, To y => var_eqb x y
  | At a (Const z), At b (Const w) => String.eqb a b && Z.eqb z w
  | At a (Var x), At b (Var y) => String.eqb a b && var_eqb x y
  | _, _ => false
  end.

Definition mem (p : place) (l : list place) : bool := existsb (place_eqb p) l.

(* rhs.substitute(l, temp) *)
Fixpoint subst (p : place) (n : nat) (t : term) : term :=
  match t with
  | Const z => Const z
  | Var x => if place_eqb (To x) p then Var (Tmp n) else Var x
  | Plus a b => Plus (subst p n a) (subst p n b)
  | Elem a u => if place_eqb (At a u) p then Var (Tmp n) else Elem a (subst p n u)
  end.

(* The substitutions made so far, the first one first *)
Definition app_ (rho : list (place * nat)) (t : term) : term :=
  fold_left (fun t q => subst (fst q) (snd q) t) rho t.

(* The nodes of the expressions, and of the targets *)
Fixpoint rhs_item (rho : list (place * nat)) (i : item) : list place :=
  match i with One _ t => nodes (app_ rho t) | Group l => rhs rho l end
with rhs (rho : list (place * nat)) (l : items) : list place :=
  match l with INil => [] | ICons i l' => rhs_item rho i ++ rhs rho l' end.

Fixpoint lhs_item (i : item) : list place :=
  match i with One p _ => [p] | Group l => lhs l end
with lhs (l : items) : list place :=
  match l with INil => [] | ICons i l' => lhs_item i ++ lhs l' end.

Definition simple (p : place) : bool :=
  match p with At _ (Const _) | At _ (Var _) | To _ => true | _ => false end.

(* 5076-5107: trivial_assign, all_indexed_are_simple (used_vars is unsaved_vars, so the other
   test is never true) *)
Definition accepts (rho : list (place * nat)) (l : items) : bool :=
  negb (existsb (fun p => mem p (rhs rho l)) (lhs l)) || forallb simple (lhs l).

Definition read (p : place) : term := match p with To x => Var x | At a t => Elem a t end.

(* 5109-5151.  n: the number of variables created; the substitutions made in a group are made in
   the group only *)
Fixpoint visit_item (n : nat) (rho : list (place * nat)) (i : item) (later : list place)
  : option (list (place * term) * nat * list (place * nat)) :=
  match i with
  | One p t =>
      if mem p later then
        let rho' := rho ++ [(p, n)] in
        Some ([(To (Tmp n), read p); (p, app_ rho' t)], S n, rho')
      else Some ([(p, app_ rho t)], n, rho)
  | Group g =>
      if accepts rho g then
        match visit n rho g with Some (c, n', _) => Some (c, n', rho) | None => None end
      else None
  end
with visit (n : nat) (rho : list (place * nat)) (l : items)
  : option (list (place * term) * nat * list (place * nat)) :=
  match l with
  | INil => Some ([], n, rho)
  | ICons i l' =>
      match visit_item n rho i (rhs rho l') with
      | Some (c1, n1, rho1) =>
          match visit n1 rho1 l' with
          | Some (c2, n2, rho2) => Some (c1 ++ c2, n2, rho2)
          | None => None
          end
      | None => None
      end
  end.

Definition translate (n : nat) (l : items) : option (list (place * term)) :=
  if accepts [] l then
    match visit n [] l with Some (c, _, _) => Some c | None => None end
  else None.

(* The parsed program after the visit: the expressions were changed in place (without groups) *)
Fixpoint changed (rho : list (place * nat)) (l : items) : items :=
  match l with
  | INil => INil
  | ICons (One p t) l' => ICons (One p (app_ rho t)) (changed rho l')
  | ICons i l' => ICons i (changed rho l')
  end.

Definition after (n : nat) (l : items) : items :=
  match visit n [] l with Some (_, _, rho) => changed rho l | None => l end.

(* ------------------------------------------------------------------ the generated code *)

Fixpoint run (c : list (place * term)) (s : store) : option store :=
  match c with
  | [] => Some s
  | (p, t) :: c' =>
      match eval s t with
      | Some z => match write p z s with Some s1 => run c' s1 | None => None end
      | None => None
      end
  end.
