(** What a user relies on when values go from Python to a compiled function and
    back: the objects they hold stay as they are, and the objects nobody holds
    are released. *)

From Coq Require Import List Bool Arith ZArith Relations.
From Verif Require Import Refs_Model.
Import ListNotations.

Definition exists_obj (st : state) (o : nat) : Prop := exists ob, objs (mem st) o = Some ob.

(** One object refers to another. *)
Definition refers_to (st : state) (o k : nat) : Prop :=
  exists ob, objs (mem st) o = Some ob /\ In k (kids (pay ob)).

(** The user can get at the object. *)
Definition reachable (st : state) (k : nat) : Prop :=
  exists o, In o (names st) /\ clos_refl_trans _ (refers_to st) o k.

(** The value of an object. *)
Fixpoint denotes (h : heap) (v : cval) (o : nat) : Prop :=
  match v with
  | CLeaf z => exists n, objs h o = Some (Obj n (PLeaf z))
  | CSeq k l =>
      exists n es, objs h o = Some (Obj n (PSeq k es)) /\
        (fix all l es :=
           match l, es with
           | [], [] => True
           | x :: l', e :: es' => denotes h x e /\ all l' es'
           | _, _ => False
           end) l es
  | CDict l =>
      exists n es, objs h o = Some (Obj n (PDict es)) /\
        (fix all l es :=
           match l, es with
           | [], [] => True
           | (x, y) :: l', (a, b) :: es' => denotes h x a /\ denotes h y b /\ all l' es'
           | _, _ => False
           end) l es
  | CTup l =>
      exists n es, objs h o = Some (Obj n (PSeq KTuple es)) /\
        (fix all l es :=
           match l, es with
           | [], [] => True
           | x :: l', e :: es' => denotes h x e /\ all l' es'
           | _, _ => False
           end) l es
  end.

(** The references to an object: from other objects and from names. *)
Fixpoint from_objs (f : nat -> option obj) (o n : nat) : nat :=
  match n with
  | 0 => 0
  | S m => from_objs f o m
           + match f m with Some ob => count_occ Nat.eq_dec (kids (pay ob)) o | None => 0 end
  end.

Definition references (st : state) (o : nat) : nat :=
  from_objs (objs (mem st)) o (next (mem st)) + count_occ Nat.eq_dec (names st) o.

(** The count of an object is the number of references to it. *)
Definition counted (st : state) : Prop :=
  forall o ob, objs (mem st) o = Some ob -> rc ob = references st o.

(** The number of references which are counted and which nobody holds. *)
Fixpoint surplus (f : nat -> option obj) (st : state) (n : nat) : nat :=
  match n with
  | 0 => 0
  | S m => surplus f st m
           + match f m with Some ob => rc ob - references st m | None => 0 end
  end.

Definition lost (st : state) : nat := surplus (objs (mem st)) st (next (mem st)).

(** No object leads back to itself. *)
Definition acyclic (st : state) : Prop :=
  exists rank : nat -> nat, forall o k, refers_to st o k -> rank k < rank o.

(** Values in which there is no set and no dictionary. *)
Fixpoint plain (v : cval) : bool :=
  match v with
  | CLeaf _ => true
  | CSeq KSet _ | CDict _ => false
  | CSeq _ l | CTup l => forallb plain l
  end.

(** Functions of numbers and strings which return plain values. *)
Definition simple (f : func) : Prop :=
  (forall p, In p (params f) -> p = TScalar) /\
  (forall vs v, result f vs = Some v -> plain v = true).

Definition simple_op (p : op) : Prop :=
  match p with Call f _ => simple f | _ => True end.

(** The value of an argument. *)
Definition arg_value (h : heap) (p : param) (o : nat) (a : aval) : Prop :=
  match p, a with
  | TScalar, AScalar z => leaf h o = Some z
  | TSeq k _, ASeq zs =>
      exists n l, objs h o = Some (Obj n (PSeq k l)) /\ Forall2 (fun e z => leaf h e = Some z) l zs
  | _, _ => False
  end.

(** The references which a call loses: for an argument which is a container of n
    elements, an iterator and a reference to each element when its type is
    checked, the same when it is converted (not for a tuple), and a reference to
    each of its m new elements when they are copied back ... *)
Definition arg_cost (L : lang) (p : param) (n m : nat) : nat :=
  match p with
  | TScalar => 0
  | TSeq KTuple _ => 1 + n
  | TSeq _ const =>
      2 * (1 + n) + match L, const with LC, false => m | _, _ => 0 end
  end.

(** ... and for the result, a reference to each element of a set and to each key
    and value of a dictionary. *)
Fixpoint result_cost (v : cval) : nat :=
  match v with
  | CLeaf _ => 0
  | CSeq KSet l => length l + list_sum (map result_cost l)
  | CSeq _ l | CTup l => list_sum (map result_cost l)
  | CDict l => 2 * length l + list_sum (map (fun '(k, v) => result_cost k + result_cost v) l)
  end.

Definition size (a : aval) : nat := match a with AScalar _ => 0 | ASeq l => length l end.

Definition args_cost (L : lang) (f : func) (vs : list aval) : nat :=
  list_sum (map (fun '(i, (p, a)) => arg_cost L p (size a) (length (after f vs i)))
                (combine (seq 0 (length vs)) (combine (params f) vs))).

Definition args_value (h : heap) (ps : list param) (args : list nat) (vs : list aval) : Prop :=
  length ps = length args /\
  Forall2 (fun '(p, o) a => arg_value h p o a) (combine ps args) vs.

(** In C the lists and sets which are not declared const are copied back; in
    Fortran there is a warning that they are not (lines 3696-3704). *)
Definition copied_back (L : lang) (p : param) : Prop :=
  L = LC /\ (p = TSeq KList false \/ p = TSeq KSet false).

Definition arg_at (f : func) (args : list nat) (i : nat) (p : param) (o : nat) : Prop :=
  nth_error (params f) i = Some p /\ nth_error args i = Some o.
