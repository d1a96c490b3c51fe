(* What is said of assignments of tuples to tuples (C68) *)
From Coq Require Import Bool Arith ZArith List String.
From Verif Require Import Swap_Model.
Import ListNotations.
Open Scope list_scope.

(* The variables of the program and the elements of arrays have the same values *)
Definition agree (s t : store) : Prop :=
  (forall x, sc s (Name x) = sc t (Name x)) /\ (forall a i, ar s a i = ar t a i).

(* The variables and the array elements (with their indices) read in an expression *)
Fixpoint vars (t : term) : list var :=
  match t with
  | Const _ => [] | Var x => [x] | Plus a b => vars a ++ vars b | Elem _ t => vars t
  end.

Fixpoint elems (t : term) : list (string * term) :=
  match t with
  | Const _ | Var _ => []
  | Plus a b => elems a ++ elems b
  | Elem a t => (a, t) :: elems t
  end.

(* The expressions of an assignment, the expressions in its targets *)
Definition exprs (l : items) : list term := map snd (flat l).
Definition targets (l : items) : list place := map fst (flat l).

Definition index (p : place) : list term := match p with To _ => [] | At _ t => [t] end.

(* A program as it was written *)
Definition named (x : var) : bool := match x with Name _ => true | Tmp _ => false end.
Definition target_named (p : place) : bool :=
  match p with To x => named x | At _ t => forallb named (vars t) end.
Definition source (l : items) : bool :=
  forallb (fun t => forallb named (vars t)) (exprs l) && forallb target_named (targets l).

(* Only variables: no arrays and no tuples in tuples *)
Fixpoint scalars (l : items) : bool :=
  match l with
  | INil => true
  | ICons (One (To _) t) l' => match elems t with [] => scalars l' | _ => false end
  | ICons _ _ => false
  end.

(* The target p, assigned when the store is s, and the later expressions ts (values in s0).
   done: the targets assigned before.
   A variable read in an index is also read outside of an index; an element of the same array
   is another element, or is read with the same constant or variable as index, which was
   not assigned before, outside of an index *)
Definition apart (s0 : store) (done : list place) (s : store) (p : place) (ts : list term) : Prop :=
  match p with
  | To x => (exists t, In t ts /\ In x (vars t)) -> exists t, In t ts /\ In (To x) (nodes t)
  | At a i =>
      forall t u, In t ts -> In (a, u) (elems t) ->
        (forall z w, eval s i = Some z -> eval s0 u = Some w -> z <> w) \/
        ((exists t', In t' ts /\ In (At a i) (nodes t')) /\ u = i /\
         ((exists z, i = Const z) \/ (exists y, i = Var y /\ ~ In (To y) done)))
  end.

(* No target of l is read in the expressions ts *)
Definition unread (l : items) (ts : list term) : Prop :=
  forall t, In t ts ->
    (forall x, In (To x) (targets l) -> ~ In x (vars t)) /\
    (forall a i u, In (At a i) (targets l) -> ~ In (a, u) (elems t)).

(* The targets of l are assigned in turn, from the store s, with values from s0 *)
Fixpoint separate_item (s0 : store) (done : list place) (s : store) (i : item) (ts : list term)
  : Prop :=
  match i with
  | One p _ => apart s0 done s p ts
  | Group g => separate s0 done s g /\ unread g ts
  end
with separate (s0 : store) (done : list place) (s : store) (l : items) : Prop :=
  match l with
  | INil => True
  | ICons i l' =>
      separate_item s0 done s i (exprs l') /\
      forall r s', values s0 (flat_item i) = Some r -> writes r s = Some s' ->
        separate s0 (map fst (flat_item i) ++ done) s' l'
  end.
