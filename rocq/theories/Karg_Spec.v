(* The arguments of a call in Python. *)
From Coq Require Import Bool Arith ZArith List.
From Verif Require Import Karg_Model.
Import ListNotations.

(* f(e1, ..., en, k1=e1', ..., km=em') *)
Definition written (pos : list expr) (kws : list (nat * expr)) : list carg :=
  map (fun e => (None, e)) pos ++ map (fun k => (Some (fst k), snd k)) kws.

(* Parameter number i gets the positional argument i; otherwise the argument with its name; otherwise its
   default.  No parameter gets two arguments, no keyword is unknown. *)
Definition py_param (pos : list expr) (kws : list (nat * expr)) (i : nat) (p : param) : option val :=
  match nth_error pos i, find (fun k => Nat.eqb (fst k) (name p)) kws with
  | Some e, None => Some (value e)
  | Some _, Some _ => None
  | None, Some k => Some (value (snd k))
  | None, None => default p
  end.
Definition is_binding (ps : list param) (pos : list expr) (kws : list (nat * expr)) (vs : list val) : Prop :=
  length pos <= length ps /\ (forall k, In k kws -> In (fst k) (map name ps)) /\
  length vs = length ps /\
  forall i p, nth_error ps i = Some p -> exists v, py_param pos kws i p = Some v /\ nth_error vs i = Some v.

(* Only parameters whose default is None get None. *)
Definition none_allowed (ps : list param) (vs : list val) : Prop :=
  forall i p, nth_error ps i = Some p -> nth_error vs i = Some VNone -> optional p = true.

Definition is_array (e : expr) : bool := match e with EArray _ => true | _ => false end.
Definition is_none (e : expr) : bool := match e with ENone => true | _ => false end.
(* no array expression is passed by keyword *)
Definition no_array_keyword (kws : list (nat * expr)) : Prop := forall k, In k kws -> is_array (snd k) = false.
(* after None only None is passed by position *)
Definition none_last (pos : list expr) : Prop :=
  exists a b, pos = a ++ repeat ENone b /\ forall e, In e a -> is_none e = false.
(* the arguments that are not None *)
Definition present (pos : list expr) : list expr := filter (fun e => negb (is_none e)) pos.
