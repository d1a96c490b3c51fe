(* A tuple as a user sees it: a tree whose leaves are variables. *)
From Coq Require Import List Arith.
From Verif Require Import Common Tuple_Model.
Import ListNotations.
Open Scope nat_scope.

Inductive tree := Leaf (v : nat) | Node (children : list tree).

(* Leaves from left to right. *)
Fixpoint leaves (t : tree) : list nat :=
  match t with
  | Leaf v => [v]
  | Node ts => (fix go ts := match ts with [] => [] | t :: ts' => leaves t ++ go ts' end) ts
  end.

(* The subtree at an index path. *)
Fixpoint subtree (t : tree) (path : list nat) : option tree :=
  match path with
  | [] => Some t
  | i :: path' => match t with
                  | Leaf _ => None
                  | Node ts => match nth_error ts i with Some t' => subtree t' path' | None => None end
                  end
  end.

(* Variable v stands for the tree t in state s. *)
Inductive stands_for (s : st) : nat -> tree -> Prop :=
| sf_leaf v b : type_of s v = Some (TBase b) -> stands_for s v (Leaf v)
| sf_node v ts trs : type_of s v = Some (TTup ts) -> elements_stand_for s v 0 ts trs -> stands_for s v (Node trs)
with elements_stand_for (s : st) : nat -> nat -> list ty -> list tree -> Prop :=
| esf_nil v i : elements_stand_for s v i [] []
| esf_cons v i t ts w tr trs :
    alias_get (st_alias s) v i = Some w -> type_of s w = Some t -> stands_for s w tr ->
    elements_stand_for s v (S i) ts trs -> elements_stand_for s v i (t :: ts) (tr :: trs).

(* Same shape and same leaf types. *)
Inductive same_type (s s' : st) : tree -> tree -> Prop :=
| st_leaf v v' : type_of s v = type_of s' v' -> same_type s s' (Leaf v) (Leaf v')
| st_node ts ts' : Forall2 (same_type s s') ts ts' -> same_type s s' (Node ts) (Node ts').
