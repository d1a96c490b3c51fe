(* C90: a function of several types has an overload for each choice of types, with the defaults of its definition. *)
From Coq Require Import Bool ZArith QArith List Arith.
From Verif Require Import Poly_Model.
Import ListNotations.
Open Scope list_scope.
Open Scope nat_scope.

(* a choice of types: one type for each type variable, one of the types of the annotation for each parameter *)
Definition choice (d : def) (s : nat -> ty) (ts : list ty) : Prop :=
  (forall p x, In p (params d) -> In (IV x) (annot p) -> In (s x) (avail d x)) /\
  Forall2 (fun p t => exists i, In i (annot p) /\ t = match i with IT u => u | IV x => s x end) (params d) ts.

(* the number that a literal stands for *)
Definition number (v : lit) : Q * Q :=
  match v with LBool b => ((if b then 1 else 0), 0) | LInt n => (inject_Z (Z.of_nat n), 0) | LFloat q => (q, 0) | LComplex re im => (re, im) end%Q.
Definition same_number (v w : lit) : Prop := (fst (number v) == fst (number w) /\ snd (number v) == snd (number w))%Q.
Definition same_default (v w : dflt) : Prop :=
  match v, w with DNone, DNone => True | DLit l _, DLit k _ => same_number l k | DMinus n, DMinus m => n = m | _, _ => False end.

Definition level (p : prim) : nat := match p with PBool => 0 | PInt => 1 | PFloat => 2 | PComplex => 3 end.
Fixpoint rising (n : nat) (ts : list ty) : Prop := match ts with [] => True | t :: ts' => n <= level (kind t) /\ rising (level (kind t)) ts' end.
(* no number of type p is accepted as a literal of type q *)
Definition bad (p q : prim) : Prop := (p = PFloat /\ q = PInt) \/ (p = PComplex /\ (q = PInt \/ q = PFloat)).
Fixpoint bad_pair (p : prim) (ts : list ty) : Prop := match ts with [] => False | t :: ts' => bad p (kind t) \/ bad_pair (kind t) ts' end.

(* a parameter is a type variable alone *)
Definition stands_alone (d : def) (x : nat) : Prop := exists p, In p (params d) /\ annot p = [IV x].

(* only unions of different types *)
Definition plain (d : def) : Prop := forall p, In p (params d) -> exists ts, annot p = map IT ts /\ NoDup ts.
(* the types of a parameter with a literal as default come in an order in which each holds the values of the ones before *)
Definition ordered (d : def) : Prop := forall p, In p (params d) ->
  match value p with
  | DLit v _ => (exists ts, annot p = map IT ts /\ NoDup ts /\ rising (level (prim_of v)) ts)
      \/ (exists x, annot p = [IV x] /\ forall t, In t (avail d x) -> level (prim_of v) <= level (kind t))
  | _ => True
  end.
