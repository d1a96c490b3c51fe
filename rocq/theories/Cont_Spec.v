(* What Python's list, set and dict methods do, and when a history of managed
   pointers is disciplined.  Independent of the model. *)
From Coq Require Import ZArith List Bool Arith.
From Verif Require Import Common Cont_Model.
Import ListNotations.
Open Scope list_scope.
Open Scope Z_scope.

(* ---- list ---- *)
Definition zlen {A} (l : list A) : Z := Z.of_nat (List.length l).

(* l.insert(i, v): negative i counts from the end, then clamped to 0..len *)
Definition py_insert {A} (l : list A) (i : Z) (v : A) : list A :=
  let i := if i <? 0 then i + zlen l else i in
  let k := Z.to_nat (Z.max 0 (Z.min i (zlen l))) in
  firstn k l ++ v :: skipn k l.

(* l.pop(i): negative i counts from the end; IndexError (None) out of range *)
Definition py_pop {A} (l : list A) (i : Z) : option (A * list A) :=
  let i := if i <? 0 then i + zlen l else i in
  if (i <? 0) || (zlen l <=? i) then None
  else let k := Z.to_nat i in
       match nth_error l k with
       | Some v => Some (v, firstn k l ++ skipn (S k) l)
       | None => None
       end.

(* min(l), max(l): the first element, replaced by each later one that is
   smaller (greater); ValueError (None) on an empty list *)
Definition py_min {A} (less : A -> A -> bool) (l : list A) : option A :=
  match l with
  | [] => None
  | x :: r => Some (fold_left (fun m y => if less y m then y else m) r x)
  end.
Definition py_max {A} (less : A -> A -> bool) (l : list A) : option A :=
  match l with
  | [] => None
  | x :: r => Some (fold_left (fun m y => if less m y then y else m) r x)
  end.

(* Python's run of a sequence of list statements; None is an exception. *)
Definition arg_index (a : pop_arg) : Z :=
  match a with NoArg => -1 | Written i => i | Computed i => i end.
Fixpoint py_list_run {A} (l : list A) (ops : list (@list_op A)) : option (list A * list A) :=
  match ops with
  | [] => Some (l, [])
  | Append v :: r => py_list_run (l ++ [v]) r
  | Insert i v :: r => py_list_run (py_insert l i v) r
  | Pop a :: r =>
      match py_pop l (arg_index a) with
      | None => None
      | Some (v, l') =>
          match py_list_run l' r with
          | None => None
          | Some (l'', out) => Some (l'', v :: out)
          end
      end
  | Reverse :: r => py_list_run (rev l) r
  | Clear :: r => py_list_run [] r
  end.
(* No index that is computed at run time is negative. *)
Definition no_computed_negative {A} (ops : list (@list_op A)) : Prop :=
  forall i, In (Pop (Computed i)) ops -> 0 <= i.

(* ---- sets ---- *)
Definition equality {A} (eqb : A -> A -> bool) : Prop := forall x y, eqb x y = true <-> x = y.
(* s is sorted by less (iteration order of a search tree) *)
Fixpoint sorted {A} (less : A -> A -> bool) (s : list A) : Prop :=
  match s with
  | [] => True
  | x :: r => (forall y, In y r -> less x y = true) /\ sorted less r
  end.
Definition strict_order {A} (less : A -> A -> bool) : Prop :=
  (forall x, less x x = false) /\
  (forall x y z, less x y = true -> less y z = true -> less x z = true) /\
  (forall x y, less x y = true \/ x = y \/ less y x = true).

(* ---- dicts ---- *)
(* A Python dict as the list of its items in insertion order. *)
Definition keys {K V} (m : list (K * V)) : list K := map fst m.
Definition has {K V} (m : list (K * V)) (k : K) (v : V) : Prop := In (k, v) m.
(* popitem removes the last inserted item *)
Definition py_popitem {K V} (m : list (K * V)) : option ((K * V) * list (K * V)) :=
  match rev m with [] => None | kv :: r => Some (kv, rev r) end.
(* d[k] = v: in place for a known key, at the end otherwise *)
Fixpoint py_dict_set {K V} (eqb : K -> K -> bool) (m : list (K * V)) (k : K) (v : V) : list (K * V) :=
  match m with
  | [] => [(k, v)]
  | (k', v') :: r => if eqb k k' then (k', v) :: r else (k', v') :: py_dict_set eqb r k v
  end.

(* ---- managed memory ---- *)
(* The pointer an operation uses up. *)
Definition uses_up (o : mop) : option nat :=
  match o with
  | MSteal p | MDrop p | MRelease p => Some p
  | _ => None
  end.
Definition used_up (ops : list mop) (p : nat) : Prop := exists o, In o ops /\ uses_up o = Some p.
(* Ownership discipline on a history: a pointer that was stolen from, dropped or
   released is not stolen from, dropped or released again. *)
Definition linear (ops : list mop) : Prop :=
  forall before o after p, ops = before ++ o :: after -> uses_up o = Some p -> ~ used_up before p.
(* Number of pointers a history creates. *)
Definition creates (o : mop) : bool :=
  match o with MDrop _ | MRelease _ => false | _ => true end.
Definition npointers (ops : list mop) : nat := List.length (filter creates ops).
(* Every pointer mentioned was created before. *)
Definition mentions (o : mop) : option nat :=
  match o with MClone p | MSteal p | MDrop p | MRelease p => Some p | _ => None end.
Definition well_scoped (ops : list mop) : Prop :=
  forall before o after p, ops = before ++ o :: after -> mentions o = Some p ->
  (p < npointers before)%nat.
(* The allocation each pointer of a history owns: make owns the allocation it
   makes, a thief owns what its victim owned, nothing else owns. *)
Definition own_step (s : list (option nat) * nat) (o : mop) : list (option nat) * nat :=
  let (l, n) := s in
  match o with
  | MInit | MFromPtr _ | MClone _ => (l ++ [None], n)
  | MMake => (l ++ [Some n], S n)
  | MSteal p => (l ++ [nth p l None], n)
  | MDrop _ | MRelease _ => s
  end.
Definition owned (ops : list mop) : list (option nat) := fst (fold_left own_step ops ([], 0%nat)).
Definition nmakes (ops : list mop) : nat := snd (fold_left own_step ops ([], 0%nat)).
(* release (which asserts ownership) is only applied to owners *)
Definition releases_owners (ops : list mop) : Prop :=
  forall before p after, ops = before ++ MRelease p :: after ->
  exists c, nth_error (owned before) p = Some (Some c).
(* Allocation c has an owner that was not used up. *)
Definition has_owner (ops : list mop) (c : nat) : Prop :=
  exists p, nth_error (owned ops) p = Some (Some c) /\ ~ used_up ops p.

(* A Python dict as a partial function, and Python's run of a sequence of
   statements on it (None: KeyError). *)
Definition fn_set {K V} (eqb : K -> K -> bool) (d : K -> option V) (k : K) (v : option V) : K -> option V :=
  fun k' => if eqb k' k then v else d k'.
Fixpoint py_dict_run {K V} (eqb : K -> K -> bool) (d : K -> option V) (ops : list (dict_op K V))
    : option ((K -> option V) * list V) :=
  match ops with
  | [] => Some (d, [])
  | DPut k v :: r => py_dict_run eqb (fn_set eqb d k (Some v)) r
  | DPop k :: r =>
      match d k with
      | None => None
      | Some v => match py_dict_run eqb (fn_set eqb d k None) r with
                  | Some (d', out) => Some (d', v :: out)
                  | None => None
                  end
      end
  | DPopDefault k dv :: r =>
      match py_dict_run eqb (fn_set eqb d k None) r with
      | Some (d', out) => Some (d', (match d k with Some v => v | None => dv end) :: out)
      | None => None
      end
  | DGet k dv :: r =>
      match py_dict_run eqb d r with
      | Some (d', out) => Some (d', (match d k with Some v => v | None => dv end) :: out)
      | None => None
      end
  end.
(* The container m holds the items of d, each key once. *)
Definition holds {K V} (m : list (K * V)) (d : K -> option V) : Prop :=
  NoDup (keys m) /\ forall k v, has m k v <-> d k = Some v.
