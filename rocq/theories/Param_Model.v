(* Assignments to optional arguments inside a function.
   Sources: pyccel/parser/semantic.py 403 (_optional_params), 4239-4242, 4351 (reading), 5320-5347
   (assignment of several results), 5462-5500 (assignment), 5629 (augmented assignment),
   6650-6656 (the copies at the start of the function), 7116-7141 (is, is not);
   pyccel/codegen/printing/ccode.py 3114-3132 (an optional argument is passed by its address).
   Simplifications: values are integers; the only call with several results is one that returns
   its two arguments; loops are over range; `and` stops at the first false operand, as in C
   (C66 treats conditions and Fortran).  The variable of a loop is not an optional argument. *)
From Coq Require Import Bool Arith ZArith List String.
Import ListNotations.
Open Scope list_scope.

(* ------------------------------------------------------------------ programs *)

(* A: the names of variables *)
Inductive term (A : Type) :=
| Const (z : Z) | Var (x : A) | Plus (a b : term A) | Quot (a b : term A).
Arguments Const {A}. Arguments Var {A}. Arguments Plus {A}. Arguments Quot {A}.

(* Lit: a condition known to the translation *)
Inductive cond (A : Type) :=
| Present (x : A) | Missing (x : A) | Less (a b : term A)
| Both (c d : cond A) | Not (c : cond A) | Lit (b : bool).
Arguments Present {A}. Arguments Missing {A}. Arguments Less {A}. Arguments Both {A}.
Arguments Not {A}. Arguments Lit {A}.

(* Aug x t: x += t; Pair x y t u: x, y = f(t, u) where f returns its arguments *)
Inductive stmt (A : Type) :=
| Set_ (x : A) (t : term A) | Aug (x : A) (t : term A) | Pair (x y : A) (t u : term A)
| If (c : cond A) (b1 b2 : block A) | For (x : A) (t : term A) (b : block A)
| Return (t : term A)
with block (A : Type) := Nil | Cons (s : stmt A) (b : block A).
Arguments Set_ {A}. Arguments Aug {A}. Arguments Pair {A}. Arguments If {A}.
Arguments For {A}. Arguments Return {A}. Arguments Nil {A}. Arguments Cons {A}.

(* The meaning of statements over a store.  None in the store: an argument that was not given
   (Python: the value is None), or a variable without a value.
   read and write may fail: an exception, or in the translation undefined behaviour *)
Inductive result (S : Type) := Next (s : S) | Left (z : Z) (s : S) | Fault.
Arguments Next {S}. Arguments Left {S}. Arguments Fault {S}.

Definition store (A : Type) := A -> option Z.

Fixpoint eval {A} (s : store A) (t : term A) : option Z :=
  match t with
  | Const z => Some z
  | Var x => s x
  | Plus a b =>
      match eval s a, eval s b with Some x, Some y => Some (x + y)%Z | _, _ => None end
  | Quot a b =>
      match eval s a, eval s b with
      | Some x, Some y => if Z.eqb y 0 then None else Some (Z.div x y)
      | _, _ => None
      end
  end.

(* is: `x is not None`; it may fail *)
Fixpoint test {A} (is : A -> store A -> option bool) (s : store A) (c : cond A) : option bool :=
  match c with
  | Present x => is x s
  | Missing x => option_map negb (is x s)
  | Less a b =>
      match eval s a, eval s b with Some x, Some y => Some (Z.ltb x y) | _, _ => None end
  | Both c d =>
      match test is s c with Some true => test is s d | r => r end
  | Not c => option_map negb (test is s c)
  | Lit b => Some b
  end.

Fixpoint repeat_ {S} (body : Z -> S -> result S) (n : nat) (i : Z) (s : S) : result S :=
  match n with
  | O => Next s
  | Datatypes.S n' =>
      match body i s with Next s1 => repeat_ body n' (i + 1)%Z s1 | r => r end
  end.

Fixpoint exec {A} (is : A -> store A -> option bool) (put : A -> Z -> store A -> option (store A))
              (c : stmt A) (s : store A) : result (store A) :=
  match c with
  | Set_ x t =>
      match eval s t with
      | Some z => match put x z s with Some s1 => Next s1 | None => Fault end
      | None => Fault
      end
  | Aug x t =>
      match s x, eval s t with
      | Some y, Some z =>
          match put x (y + z)%Z s with Some s1 => Next s1 | None => Fault end
      | _, _ => Fault
      end
  | Pair x y t u =>
      match eval s t, eval s u with
      | Some z, Some w =>
          match put x z s with
          | Some s1 => match put y w s1 with Some s2 => Next s2 | None => Fault end
          | None => Fault
          end
      | _, _ => Fault
      end
  | If c b1 b2 =>
      match test is s c with
      | Some true => exec_block is put b1 s
      | Some false => exec_block is put b2 s
      | None => Fault
      end
  | For x t b =>
      match eval s t with
      | Some z =>
          repeat_ (fun i s =>
                     match put x i s with
                     | Some s1 => exec_block is put b s1
                     | None => Fault
                     end) (Z.to_nat z) 0%Z s
      | None => Fault
      end
  | Return t => match eval s t with Some z => Left z s | None => Fault end
  end
with exec_block {A} (is : A -> store A -> option bool)
                (put : A -> Z -> store A -> option (store A))
                (b : block A) (s : store A) : result (store A) :=
  match b with
  | Nil => Next s
  | Cons c b' =>
      match exec is put c s with Next s1 => exec_block is put b' s1 | r => r end
  end.

(* ------------------------------------------------------------------ Python *)

(* opt: the optional arguments.  A variable that is not an optional argument and has no value
   is unbound *)
Definition py_is (opt : string -> bool) (x : string) (s : store string) : option bool :=
  match s x with
  | Some _ => Some true
  | None => if opt x then Some false else None
  end.

Definition py_put (x : string) (z : Z) (s : store string) : option (store string) :=
  Some (fun y => if String.eqb y x then Some z else s y).

Definition py (opt : string -> bool) : block string -> store string -> result (store string) :=
  exec_block (py_is opt) py_put.

(* ------------------------------------------------------------------ semantic stage *)

(* Own x: a variable or an argument passed by value; Given x: the optional argument x, a
   pointer; Copy x: the variable x_loc *)
Inductive place := Own (x : string) | Given (x : string) | Copy (x : string).

Definition mem (x : string) (l : list string) : bool := existsb (String.eqb x) l.

(* d: the keys of _optional_params *)
Definition at_ (opt : string -> bool) (d : list string) (x : string) : place :=
  if opt x then (if mem x d then Copy x else Given x) else Own x.

Fixpoint visit_term (opt : string -> bool) (d : list string) (t : term string) : term place :=
  match t with
  | Const z => Const z
  | Var x => Var (at_ opt d x)
  | Plus a b => Plus (visit_term opt d a) (visit_term opt d b)
  | Quot a b => Quot (visit_term opt d a) (visit_term opt d b)
  end.

(* _visit_PyccelIs 7134-7140: a variable that is not optional is not None *)
Fixpoint visit_cond (opt : string -> bool) (d : list string) (c : cond string) : cond place :=
  match c with
  | Present x =>
      match at_ opt d x with Given y => Present (Given y) | _ => Lit true end
  | Missing x =>
      match at_ opt d x with Given y => Missing (Given y) | _ => Lit false end
  | Less a b => Less (visit_term opt d a) (visit_term opt d b)
  | Both a b => Both (visit_cond opt d a) (visit_cond opt d b)
  | Not a => Not (visit_cond opt d a)
  | Lit b => Lit b
  end.

(* Assignment: the right-hand side is visited first.  Pair: the variables themselves are the
   targets (5326-5339) *)
Fixpoint visit (opt : string -> bool) (d : list string) (c : stmt string)
  : stmt place * list string :=
  match c with
  | Set_ x t =>
      let d' := if opt x then x :: d else d in (Set_ (at_ opt d' x) (visit_term opt d t), d')
  | Aug x t => (Aug (at_ opt d x) (visit_term opt d t), d)
  | Pair x y t u =>
      (Pair (at_ opt [] x) (at_ opt [] y) (visit_term opt d t) (visit_term opt d u), d)
  | If c b1 b2 =>
      let c' := visit_cond opt d c in
      let '(b1', d1) := visit_block opt d b1 in
      let '(b2', d2) := visit_block opt d1 b2 in (If c' b1' b2', d2)
  | For x t b =>
      let t' := visit_term opt d t in
      let '(b', d1) := visit_block opt d b in (For (at_ opt d x) t' b', d1)
  | Return t => (Return (visit_term opt d t), d)
  end
with visit_block (opt : string -> bool) (d : list string) (b : block string)
  : block place * list string :=
  match b with
  | Nil => (Nil, d)
  | Cons c b' =>
      let '(c', d1) := visit opt d c in
      let '(b'', d2) := visit_block opt d1 b' in (Cons c' b'', d2)
  end.

(* optional_inits (6650-6656): if x is not None: x_loc = x *)
Fixpoint inits (d : list string) (b : block place) : block place :=
  match d with
  | [] => b
  | x :: d' => Cons (If (Present (Given x)) (Cons (Set_ (Copy x) (Var (Given x))) Nil) Nil)
                    (inits d' b)
  end.

Definition translate (opt : string -> bool) (b : block string) : block place :=
  let '(b', d) := visit_block opt [] b in inits (nodup string_dec d) b'.

(* ------------------------------------------------------------------ C *)

Definition place_eqb (a b : place) : bool :=
  match a, b with
  | Own x, Own y | Given x, Given y | Copy x, Copy y => String.eqb x y
  | _, _ => false
  end.

Definition c_is (x : place) (s : store place) : option bool :=
  Some (match s x with Some _ => true | None => false end).

(* Writing to an argument that was not given: a null pointer *)
Definition c_put (x : place) (z : Z) (s : store place) : option (store place) :=
  match x, s x with
  | Given _, None => None
  | _, _ => Some (fun y => if place_eqb y x then Some z else s y)
  end.

(* At the start: no copy has a value *)
Definition enter (opt : string -> bool) (s : store string) : store place :=
  fun x => match x with
           | Own y => if opt y then None else s y
           | Given y => if opt y then s y else None
           | Copy _ => None
           end.

Definition run (opt : string -> bool) (b : block string) (s : store string)
  : result (store place) := exec_block c_is c_put (translate opt b) (enter opt s).
