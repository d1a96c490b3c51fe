(* What is said of conditions on optional arguments (C66).  The meaning of Python's if is py_if,
   that of the translation is run, both in Opt_Model. *)
From Coq Require Import Bool Arith ZArith List String.
From Verif Require Import Opt_Model.
Import ListNotations.
Open Scope list_scope.

(* No division *)
Fixpoint total (t : term) : bool :=
  match t with
  | Plus a b => total a && total b
  | Quot _ _ => false
  | _ => true
  end.

(* No calls with effects, no divisions, no optional boolean as a condition, no `not` of an
   optional argument alone *)
Fixpoint simple (p : pcond) : bool :=
  match p with
  | PPresent _ | PMissing _ => true
  | PTerm t => total t
  | PLess a b => total a && total b
  | PFlag _ | PCall _ _ => false
  | PAnd p q | POr p q => simple p && simple q
  | PNot (PTerm (Opt _)) => false
  | PNot p => simple p
  end.

(* The optional arguments whose value is used *)
Fixpoint reads (p : pcond) : list string :=
  match p with
  | PPresent _ | PMissing _ | PCall _ _ => []
  | PTerm t => opts t
  | PFlag v => [v]
  | PLess a b => opts a ++ opts b
  | PAnd p q | POr p q => reads p ++ reads q
  | PNot p => reads p
  end.

(* The optional arguments which must be there for the condition to be true, because it is a
   conjunction of `v is not None` (or `v`) and other conditions *)
Fixpoint checked (p : pcond) : list string :=
  match p with
  | PPresent v | PTerm (Opt v) => [v]
  | PAnd p q => checked p ++ checked q
  | _ => []
  end.

(* The optional arguments that the condition mentions; `v` as a condition is `v is not None`
   and its truth value *)
Fixpoint names (p : pcond) : list string :=
  match p with
  | PPresent v | PMissing v | PFlag v => [v]
  | PCall _ _ => []
  | PTerm (Opt v) => [v; v]
  | PTerm t => opts t
  | PLess a b => opts a ++ opts b
  | PAnd p q | POr p q => names p ++ names q
  | PNot p => names p
  end.

(* Every argument whose value is used was given or is checked *)
Definition guarded (st : state) (p : pcond) : Prop :=
  forall v, In v (reads p) -> given st v <> None \/ In v (checked p).

(* At most one argument is checked and mentioned once more *)
Definition one (p : pcond) : Prop :=
  forall v w, In v (checked p) -> In w (checked p) ->
    2 <= count_occ string_dec (names p) v -> 2 <= count_occ string_dec (names p) w -> v = w.

(* All branches but the last of an if without else *)
Definition early (s : pif) : list (pcond * nat) :=
  match otherwise s with Some _ => branches s | None => removelast (branches s) end.

(* No argument is tested *)
Fixpoint untested (p : pcond) : bool :=
  match p with
  | PPresent _ | PTerm (Opt _) => false
  | PAnd p q | POr p q => untested p && untested q
  | PNot p => untested p
  | _ => true
  end.

(* Arguments are tested only as operands of `and` *)
Fixpoint clean (p : pcond) : bool :=
  match p with
  | PPresent _ | PTerm (Opt _) => true
  | PAnd p q => clean p && clean q
  | _ => untested p
  end.
