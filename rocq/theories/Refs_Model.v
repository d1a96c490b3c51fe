(** The references to Python objects in the calls of a wrapped function.

    Models /repo/pyccel/codegen/wrapper/c_to_python_wrapper.py lines 539-610 (the
    type check of a container), 2155-2240 (the order of the steps of a wrapper),
    2307-2347 (one argument), 3383-3460 (tuples), 3460-3602 (sets) and 3604-3735
    (lists) as arguments, 4120-4169 (a tuple of different results), 4171-4274
    (lists, sets and tuples) and 4276-4368 (dictionaries) as results.

    Simplifications: integers, floats, booleans and strings are all called
    leaves; each conversion makes a new one (CPython shares the small integers).
    Arrays and instances of classes are in Life_Model.v.  The memory of the
    compiled program is not counted here.  No call of the Python library fails.
    The elements of a set which comes from the compiled program are different
    (C21), so that PySet_Add always adds. *)

From Coq Require Import List Bool Arith ZArith.
Import ListNotations.

(** ** Python objects *)

Inductive kind := KList | KTuple | KSet.

Definition kind_eqb (a b : kind) : bool :=
  match a, b with
  | KList, KList | KTuple, KTuple | KSet, KSet => true
  | _, _ => false
  end.

Inductive pobj :=
| PLeaf (z : Z)
| PSeq (k : kind) (items : list nat)
| PDict (items : list (nat * nat))
| PIter (over : nat).                   (* an iterator which is not at its end *)

Record obj := Obj { rc : nat; pay : pobj }.

Record heap := Heap { objs : nat -> option obj; next : nat }.

Definition upd (f : nat -> option obj) (k : nat) (v : option obj) : nat -> option obj :=
  fun x => if x =? k then v else f x.

(** The references an object holds. *)
Definition kids (p : pobj) : list nat :=
  match p with
  | PLeaf _ => []
  | PSeq _ l => l
  | PDict l => flat_map (fun '(k, v) => [k; v]) l
  | PIter o => [o]
  end.

(** In what follows None stands for the use of an object which was released. *)
Definition bind {A B} (r : option A) (f : A -> option B) : option B :=
  match r with Some a => f a | None => None end.

(** A new object has one reference. *)
Definition new (p : pobj) (h : heap) : nat * heap :=
  (next h, Heap (upd (objs h) (next h) (Some (Obj 1 p))) (S (next h))).

(** Py_INCREF *)
Definition incref (o : nat) (h : heap) : option heap :=
  match objs h o with
  | Some ob => Some (Heap (upd (objs h) o (Some (Obj (S (rc ob)) (pay ob)))) (next h))
  | None => None
  end.

Fixpoint increfs (l : list nat) (h : heap) : option heap :=
  match l with
  | [] => Some h
  | o :: l' => bind (incref o h) (increfs l')
  end.

(** Py_DECREF of the objects in the list, and of the references of the objects
    which are then destroyed. *)
Fixpoint release (fuel : nat) (work : list nat) (h : heap) : option heap :=
  match work with
  | [] => Some h
  | o :: work' =>
      match fuel with
      | 0 => None
      | S k =>
          match objs h o with
          | None => None
          | Some ob =>
              match rc ob with
              | 0 => None
              | 1 => release k (kids (pay ob) ++ work') (Heap (upd (objs h) o None) (next h))
              | S n => release k work' (Heap (upd (objs h) o (Some (Obj n (pay ob)))) (next h))
              end
          end
      end
  end.

Fixpoint count_rc (f : nat -> option obj) (n : nat) : nat :=
  match n with
  | 0 => 0
  | S k => count_rc f k + match f k with Some ob => rc ob | None => 0 end
  end.

Definition decrefs (l : list nat) (h : heap) : option heap :=
  release (count_rc (objs h) (next h)) l h.

(** ** The functions of the Python library which are used *)

(** The elements of a list, a tuple or a set. *)
Definition items_of (o : nat) (h : heap) : option (kind * list nat) :=
  match objs h o with
  | Some (Obj _ (PSeq k l)) => Some (k, l)
  | _ => None
  end.

(** The object is put at the end; the reference to it is not counted. *)
Definition put (c e : nat) (h : heap) : option heap :=
  match objs h c with
  | Some (Obj n (PSeq k l)) =>
      Some (Heap (upd (objs h) c (Some (Obj n (PSeq k (l ++ [e]))))) (next h))
  | _ => None
  end.

(** PyList_SetItem and PyTuple_SetItem take the reference over. *)
Definition set_item (c e : nat) (h : heap) : option heap := put c e h.

(** PyList_Append and PySet_Add make their own reference. *)
Definition append (c e : nat) (h : heap) : option heap := bind (incref e h) (put c e).

(** PyDict_SetItem *)
Definition dict_set (c k v : nat) (h : heap) : option heap :=
  bind (incref k h) (fun h =>
    bind (incref v h) (fun h =>
      match objs h c with
      | Some (Obj n (PDict l)) =>
          Some (Heap (upd (objs h) c (Some (Obj n (PDict (l ++ [(k, v)]))))) (next h))
      | _ => None
      end)).

(** PyList_Clear, PySet_Clear *)
Definition clear (c : nat) (h : heap) : option heap :=
  match objs h c with
  | Some (Obj n (PSeq k l)) =>
      decrefs l (Heap (upd (objs h) c (Some (Obj n (PSeq k [])))) (next h))
  | _ => None
  end.

(** PyObject_GetIter: the iterator has a reference to the container. *)
Definition get_iter (o : nat) (h : heap) : option (nat * heap) :=
  bind (incref o h) (fun h => Some (new (PIter o) h)).

(** PyIter_Next, in a loop over all the elements: each one comes with a new
    reference (lines 582-596, 3536-3551 and 3673-3691). *)
Definition iter_all (l : list nat) (h : heap) : option heap := increfs l h.

(** ** Arguments *)

Inductive param :=
| TScalar
| TSeq (k : kind) (const : bool).

Inductive aval :=
| AScalar (z : Z)
| ASeq (l : list Z).

Definition leaf (h : heap) (o : nat) : option Z :=
  match objs h o with
  | Some (Obj _ (PLeaf z)) => Some z
  | _ => None
  end.

Fixpoint leaves (h : heap) (l : list nat) : option (list Z) :=
  match l with
  | [] => Some []
  | o :: r =>
      match leaf h o, leaves h r with
      | Some z, Some zs => Some (z :: zs)
      | _, _ => None
      end
  end.

(** Lines 539-610: the container has the right kind, and then all the elements
    are looked at; nothing is released. *)
Definition check (p : param) (o : nat) (h : heap) : option (bool * heap) :=
  match p with
  | TScalar =>
      match objs h o with
      | None => None
      | Some _ => Some (match leaf h o with Some _ => true | None => false end, h)
      end
  | TSeq k _ =>
      match objs h o with
      | None => None
      | Some (Obj _ (PSeq k' l)) =>
          if kind_eqb k k' then
            bind (get_iter o h) (fun '(_, h) =>
              bind (iter_all l h) (fun h =>
                Some (match leaves h l with Some _ => true | None => false end, h)))
          else Some (false, h)
      | Some _ => Some (false, h)
      end
  end.

(** Lines 3383-3460: the elements of a tuple are borrowed (PyTuple_GetItem).
    Lines 3536-3551 and 3673-3691: the others come from an iterator. *)
Definition extract (p : param) (o : nat) (h : heap) : option (aval * heap) :=
  match p with
  | TScalar => match leaf h o with Some z => Some (AScalar z, h) | None => None end
  | TSeq k _ =>
      bind (items_of o h) (fun '(_, l) =>
        bind (leaves h l) (fun zs =>
          match k with
          | KTuple => Some (ASeq zs, h)
          | KList | KSet =>
              bind (get_iter o h) (fun '(_, h) =>
                bind (iter_all l h) (fun h => Some (ASeq zs, h)))
          end))
  end.

(** The outcome of a call. *)
Inductive outcome (A : Type) := Done (a : A) (h : heap) | TypeError (h : heap).
Arguments Done {A}. Arguments TypeError {A}.

(** Lines 2307-2347: each argument is checked and converted. *)
Fixpoint convert (ps : list param) (args : list nat) (h : heap) : option (outcome (list aval)) :=
  match ps, args with
  | [], [] => Some (Done [] h)
  | p :: ps', o :: args' =>
      bind (check p o h) (fun '(b, h) =>
        if b then
          bind (extract p o h) (fun '(a, h) =>
            bind (convert ps' args' h) (fun r =>
              Some match r with
                   | Done l h => Done (a :: l) h
                   | TypeError h => TypeError h
                   end))
        else Some (TypeError h))
  | _, _ => Some (TypeError h)        (* the wrong number of arguments *)
  end.

(** ** Results *)

Inductive cval :=
| CLeaf (z : Z)
| CSeq (k : kind) (l : list cval)
| CDict (l : list (cval * cval))
| CTup (l : list cval).                 (* several results *)

(** Lines 4222-4265: how an element is put in the container. *)
Definition add (k : kind) : nat -> nat -> heap -> option heap :=
  match k with
  | KSet => append
  | KList | KTuple => set_item
  end.

(** Lines 4171-4274, 4276-4368 and 4120-4169. *)
Fixpoint to_py (v : cval) (h : heap) : option (nat * heap) :=
  match v with
  | CLeaf z => Some (new (PLeaf z) h)
  | CSeq k l =>
      let (c, h) := new (PSeq k []) h in
      bind ((fix fill l h :=
               match l with
               | [] => Some h
               | x :: r => bind (to_py x h) (fun '(e, h) => bind (add k c e h) (fill r))
               end) l h)
           (fun h => Some (c, h))
  | CDict l =>
      let (c, h) := new (PDict []) h in
      bind ((fix fill l h :=
               match l with
               | [] => Some h
               | (x, y) :: r =>
                   bind (to_py x h) (fun '(ek, h) =>
                     bind (to_py y h) (fun '(ev, h) =>
                       bind (dict_set c ek ev h) (fill r)))
               end) l h)
           (fun h => Some (c, h))
  | CTup l =>
      bind ((fix each l h :=
               match l with
               | [] => Some ([], h)
               | x :: r => bind (to_py x h) (fun '(e, h) =>
                             bind (each r h) (fun '(es, h) => Some (e :: es, h)))
               end) l h)
           (fun '(es, h) =>
              bind (increfs es h) (fun h =>          (* PyTuple_Pack *)
                let (c, h) := new (PSeq KTuple es) h in
                bind (decrefs es h) (fun h => Some (c, h))))
  end.

(** Lines 3566-3600 and 3699-3733: in C the elements of a list or a set which is
    not const are replaced by the elements after the call. *)
Inductive lang := LC | LFortran.

Fixpoint refill (c : nat) (l : list Z) (h : heap) : option heap :=
  match l with
  | [] => Some h
  | z :: r => let (e, h) := new (PLeaf z) h in bind (append c e h) (refill c r)
  end.

Definition written (L : lang) (p : param) : bool :=
  match L, p with
  | LC, TSeq KList false | LC, TSeq KSet false => true
  | _, _ => false
  end.

Fixpoint clean_up (L : lang) (ps : list param) (args : list nat) (i : nat) (after : nat -> list Z)
  (h : heap) : option heap :=
  match ps, args with
  | p :: ps', o :: args' =>
      bind (if written L p then bind (clear o h) (refill o (after i)) else Some h)
           (clean_up L ps' args' (S i) after)
  | _, _ => Some h
  end.

(** A compiled function: its result, None if there is no result, and what the
    arguments which are containers have in them afterwards. *)
Record func := Fn {
  params : list param;
  result : list aval -> option cval;
  after : list aval -> nat -> list Z }.

(** Lines 2155-2240 *)
Definition call (L : lang) (f : func) (args : list nat) (h : heap) : option (outcome (option nat)) :=
  bind (convert (params f) args h) (fun r =>
    match r with
    | TypeError h => Some (TypeError h)
    | Done vs h =>
        bind (match result f vs with
              | None => Some (None, h)
              | Some v => bind (to_py v h) (fun '(o, h) => Some (Some o, h))
              end) (fun '(res, h) =>
          bind (clean_up L (params f) args 0 (after f vs) h) (fun h => Some (Done res h)))
    end).

(** ** What the user does *)

Record state := St { mem : heap; names : list nat }.

Inductive op :=
| MkLeaf (z : Z)                        (* x = 3 *)
| MkSeq (k : kind) (l : list nat)       (* x = [a, b] *)
| Call (f : func) (args : list nat)     (* x = f(a, b) *)
| Copy (o : nat)                        (* y = x *)
| Del (o : nat).                        (* del x *)

Definition has (st : state) (o : nat) : bool := existsb (Nat.eqb o) (names st).

Fixpoint remove1 (o : nat) (l : list nat) : list nat :=
  match l with
  | [] => []
  | x :: r => if x =? o then r else x :: remove1 o r
  end.

(** What the user cannot do changes nothing; after an exception the user goes on. *)
Definition step (L : lang) (p : op) (st : state) : option state :=
  match p with
  | MkLeaf z => let (o, h) := new (PLeaf z) (mem st) in Some (St h (o :: names st))
  | MkSeq k l =>
      if forallb (has st) l then
        bind (increfs l (mem st)) (fun h =>
          let (o, h) := new (PSeq k l) h in Some (St h (o :: names st)))
      else Some st
  | Call f args =>
      if forallb (has st) args then
        bind (call L f args (mem st)) (fun r =>
          Some match r with
               | Done (Some o) h => St h (o :: names st)
               | Done None h | TypeError h => St h (names st)
               end)
      else Some st
  | Copy o =>
      if has st o then bind (incref o (mem st)) (fun h => Some (St h (o :: names st)))
      else Some st
  | Del o =>
      if has st o then bind (decrefs [o] (mem st)) (fun h => Some (St h (remove1 o (names st))))
      else Some st
  end.

Fixpoint run (L : lang) (ops : list op) (st : state) : option state :=
  match ops with
  | [] => Some st
  | p :: ops' => bind (step L p st) (run L ops')
  end.

Definition empty : state := St (Heap (fun _ => None) 0) [].
