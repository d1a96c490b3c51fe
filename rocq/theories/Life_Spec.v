(** What a user relies on when compiled objects are used from Python: what can
    be reached through an object that still exists has not been released, nothing
    is released twice, and nothing is kept once it cannot be reached any more. *)

From Coq Require Import List Bool Arith Relations.
From Verif Require Import Life_Model.
Import ListNotations.

(** The object exists. *)
Definition exists_obj (st : state) (o : nat) : Prop := exists ob, objs st o = Some ob.

(** The memory has been allocated and not been released. *)
Definition alive (st : state) (m : nat) : Prop := exists c, mems st m = Some c.

(** The memory a Python object gives access to. *)
Inductive shows (st : state) (o : nat) : nat -> Prop :=
| shows_arr : forall c d own base,
    objs st o = Some (Obj c (PArr d own base)) -> shows st o d
| shows_inst : forall c i alias refs,
    objs st o = Some (Obj c (PInst i alias refs)) -> shows st o i
| shows_cap : forall c d, objs st o = Some (Obj c (PCap d)) -> shows st o d.

(** The memory of an instance leads to the memory of its attributes. *)
Inductive leads (st : state) : nat -> nat -> Prop :=
| leads_arr : forall m fs n, mems st m = Some (CStruct fs) -> In (FArr n) fs -> leads st m n
| leads_inst : forall m fs n, mems st m = Some (CStruct fs) -> In (FInst n) fs -> leads st m n
| leads_ptr : forall m fs a n,
    mems st m = Some (CStruct fs) -> In (FPtr a (Some n)) fs -> leads st m n.

Definition sees (st : state) (o m : nat) : Prop :=
  exists m0, shows st o m0 /\ clos_refl_trans _ (leads st) m0 m.

(** One Python object refers to another, directly or not. *)
Definition refers_to (st : state) (o k : nat) : Prop :=
  exists ob, objs st o = Some ob /\ In k (kids (pay ob)).

Definition holds (st : state) : nat -> nat -> Prop :=
  clos_refl_trans _ (refers_to st).

(** ** The histories the theorems are about *)

(** The instance belongs to the object: it is not an alias for another one. *)
Definition owner (st : state) (o : nat) : Prop :=
  exists c i refs, objs st o = Some (Obj c (PInst i false refs)).

(** Only attributes of self are set to point somewhere, nothing is reallocated,
    and an instance which is created and returned points at nothing. *)
Definition tame_func (f : func) : Prop :=
  (forall s, In s (body f) -> exists j s', s = SPoint 0 j s') /\
  (body f <> [] -> bound f = true) /\
  (forall c inits, out f = RNewInst c inits -> inits = []).

(** No pointer is stored through an alias, and attributes which are instances
    are not read. *)
Definition tame (st : state) (p : op) : Prop :=
  match p with
  | New _ f _ => tame_func f
  | Call f args =>
      tame_func f /\
      (body f <> [] -> exists self rest, args = self :: rest /\ owner st self)
  | Get o j =>
      forall i fs m, fields_of st o = Ok (i, fs) -> nth_error fs j <> Some (FInst m)
  | Set_ o _ _ => owner st o
  | _ => True
  end.

Fixpoint tame_run (L : lang) (ops : list op) (st : state) : Prop :=
  match ops with
  | [] => True
  | p :: ops' =>
      tame st p /\
      match step L p st with
      | Ok st' => tame_run L ops' st'
      | _ => tame_run L ops' st
      end
  end.

(** No alias for an instance is made by a module in C. *)
Definition quiet (L : lang) (st : state) (p : op) : Prop :=
  L = LFortran \/
  match p with
  | Call f _ => is_ptr_inst (out f) = false
  | Get o j =>
      forall i fs m, fields_of st o = Ok (i, fs) -> nth_error fs j <> Some (FPtr false m)
  | _ => True
  end.

Fixpoint quiet_run (L : lang) (ops : list op) (st : state) : Prop :=
  match ops with
  | [] => True
  | p :: ops' =>
      quiet L st p /\
      match step L p st with
      | Ok st' => quiet_run L ops' st'
      | _ => quiet_run L ops' st
      end
  end.

(** No object leads back to itself. *)
Definition acyclic (st : state) : Prop :=
  exists rank : nat -> nat, forall o k, refers_to st o k -> rank k < rank o.
