(** [isinstance] and [in], decided when the program is translated.

    pyccel replaces a call of [isinstance] by a literal, and the operator
    [in] by a literal if the type of the element is not that of the elements
    of the container. *)

From Coq Require Import List Bool Arith ZArith.
Import ListNotations.

(** The types of NumPy scalars, /repo/pyccel/ast/numpytypes.py. *)
Inductive npk : Type := NBool | NI8 | NI16 | NI32 | NI64 | NF32 | NF64 | NC64 | NC128.

(** The types of pyccel, /repo/pyccel/ast/datatypes.py and numpytypes.py.
    Not modelled: the generic and symbolic types; Final[T] is equal to T. *)
Inductive ty : Type :=
  | TBool | TInt | TFloat | TComplex | TStr
  | TNp (k : npk)
  | TList (t : ty) | TSet (t : ty) | TDict (k v : ty)
  | TTup (l : list ty)
  | TArr (k : npk)
  | TCls (c : nat).

Definition npk_eqb (a b : npk) : bool :=
  match a, b with
  | NBool, NBool | NI8, NI8 | NI16, NI16 | NI32, NI32 | NI64, NI64
  | NF32, NF32 | NF64, NF64 | NC64, NC64 | NC128, NC128 => true
  | _, _ => false
  end.

(** Equality of types, datatypes.py, the methods [__eq__]. *)
Fixpoint ty_eqb (a b : ty) {struct a} : bool :=
  match a, b with
  | TBool, TBool | TInt, TInt | TFloat, TFloat | TComplex, TComplex | TStr, TStr => true
  | TNp j, TNp k => npk_eqb j k
  | TList s, TList t => ty_eqb s t
  | TSet s, TSet t => ty_eqb s t
  | TDict j s, TDict k t => ty_eqb j k && ty_eqb s t
  | TTup l, TTup m =>
      (fix go (l m : list ty) : bool :=
         match l, m with
         | [], [] => true
         | s :: l', t :: m' => ty_eqb s t && go l' m'
         | _, _ => false
         end) l m
  | TArr j, TArr k => npk_eqb j k
  | TCls c, TCls d => Nat.eqb c d
  | _, _ => false
  end.

(** The class definitions, /repo/pyccel/ast/class_defs.py lines 95-377, and
    the classes of the program.  ListClass, SetClass, DictClass, TupleClass
    and NumpyArrayClass have no [class_type]. *)
Inductive base : Type :=
  | BScalar (t : ty)      (* complex, float, integer, boolean, string *)
  | BContainer            (* list, set, dict, tuple, numpy.ndarray *)
  | BUser (c : nat).

(** get_cls_base, semantic.py lines 706-741, and get_builtin_cls_base,
    class_defs.py lines 393-430: NumPy scalars have the class of arrays. *)
Definition get_cls_base (t : ty) : base :=
  match t with
  | TBool | TInt | TFloat | TComplex | TStr => BScalar t
  | TNp _ | TArr _ | TList _ | TSet _ | TDict _ _ | TTup _ => BContainer
  | TCls c => BUser c
  end.

Definition class_type (b : base) : option ty :=
  match b with BScalar t => Some t | BContainer => None | BUser c => Some (TCls c) end.

(** The superclasses: class_defs.py line 177, and for the classes of the
    program [_find_superclasses], semantic.py lines 3028-3063. *)
Definition superclasses (sups : nat -> list nat) (b : base) : list base :=
  match b with
  | BScalar TBool => [BScalar TInt]
  | BUser c => map BUser (sups c)
  | _ => []
  end.

(** The loop of _build_PythonIsInstance, semantic.py lines 8284-8291.  The
    head of [stack] is the last element of [cls_base_to_insert].  [None] if
    the fuel is used up. *)
Fixpoint possible (fuel : nat) (sups : nat -> list nat) (stack : list base)
  (acc : list ty) : option (list ty) :=
  match stack with
  | [] => Some acc
  | b :: rest =>
      match fuel with
      | O => None
      | S fuel' =>
          possible fuel' sups (rev (superclasses sups b) ++ rest)
            (match class_type b with Some t => t :: acc | None => acc end)
      end
  end.

(** The container types which are classes of Python's implementation of
    pyccel: [static_type] of tuple, list, set, dict and ndarray,
    /repo/pyccel/ast/builtins.py lines 801, 936, 1054, 1170 and numpyext.py
    line 3483. *)
Inductive kind : Type := KTuple | KList | KSet | KDict | KArr.

Definition of_kind (k : kind) (t : ty) : bool :=
  match k, t with
  | KTuple, TTup _ | KList, TList _ | KSet, TSet _ | KDict, TDict _ _ | KArr, TArr _ => true
  | _, _ => false
  end.

(** The second argument of [isinstance]. *)
Inductive target : Type :=
  | GType (t : ty)          (* a scalar type or a class of the program *)
  | GKind (k : kind)
  | GUnknown                (* a function without static type *)
  | GMany (l : list target).  (* a tuple or a union of types *)

(** A literal, an error, or no answer yet (fuel). *)
Inductive answer : Type := Lit (b : bool) | Reported | Unfinished.

(** PyccelOr.make_simplified on literals, /repo/pyccel/ast/operators.py
    lines 1519-1537.  An error found is kept. *)
Definition or_answer (a b : answer) : answer :=
  match a, b with
  | Unfinished, _ | _, Unfinished => Unfinished
  | Reported, _ | _, Reported => Reported
  | Lit x, Lit y => Lit (x || y)
  end.

(** _build_PythonIsInstance, semantic.py lines 8222-8306. *)
Fixpoint build_isinstance (fuel : nat) (sups : nat -> list nat) (obj : ty)
  (g : target) : answer :=
  match g with
  | GMany l =>
      (fix go (l : list target) : answer :=
         match l with
         | [] => Lit false
         | h :: l' => or_answer (build_isinstance fuel sups obj h) (go l')
         end) l
  | GKind k => Lit (of_kind k obj)
  | GType t =>
      match possible fuel sups [get_cls_base obj] [obj] with
      | None => Unfinished
      | Some l => Lit (existsb (ty_eqb t) l)
      end
  | GUnknown => Reported
  end.

(** An expression: its type, whether it is a variable which may be [None],
    and the calls its evaluation makes. *)
Record expr : Type := mke { e_type : ty; e_optional : bool; e_calls : list nat }.

(** The translated expression: a value, and the calls left in the program. *)
Record translated : Type := mkt { t_answer : answer; t_calls : list nat }.

(** The whole call is replaced by the literal. *)
Definition isinstance_call (fuel : nat) (sups : nat -> list nat) (e : expr)
  (g : target) : translated :=
  mkt (build_isinstance fuel sups (e_type e) g) [].

(** * Membership *)

(** Values.  Simplification: floats are the integers and the half-integers
    (enough to be equal to integers or not) and NaN; an object has an
    identity because NaN is found in a list only if it is the same object. *)
Inductive val : Type :=
  | VBool (b : bool)
  | VInt (k : option npk) (z : Z)            (* int, or a NumPy integer *)
  | VFloat (k : option npk) (twice : option Z)
      (* float, or a NumPy float, of value half of [twice]; [None]: NaN *)
  | VStr (s : list nat).

Definition type_of (v : val) : ty :=
  match v with
  | VBool _ => TBool
  | VInt None _ => TInt
  | VInt (Some k) _ => TNp k
  | VFloat None _ => TFloat
  | VFloat (Some k) _ => TNp k
  | VStr _ => TStr
  end.

(** The comparison of two values of the same type in C and Fortran. *)
Definition same_eqb (a b : val) : bool :=
  match a, b with
  | VBool x, VBool y => Bool.eqb x y
  | VInt _ x, VInt _ y => Z.eqb x y
  | VFloat _ (Some x), VFloat _ (Some y) => Z.eqb x y
  | VStr s, VStr t => if list_eq_dec Nat.eq_dec s t then true else false
  | _, _ => false
  end.

(** [X_find(&l, x).ref != X_end(&l).ref], ccode.py lines 1433-1443: the
    position of the first equal element, or the end. *)
Fixpoint c_find (x : val) (l : list val) (at_ : nat) : nat :=
  match l with
  | [] => at_
  | y :: l' => if same_eqb x y then at_ else c_find x l' (S at_)
  end.

Definition c_in (x : val) (l : list val) : bool :=
  negb (Nat.eqb (c_find x l 0) (length l)).

(** [l % get_index(x) /= 0], fcode.py lines 3805-3814: positions start at 1
    and 0 means not found.  For sets and dictionaries [count], the number of
    equal elements. *)
Fixpoint f_index (x : val) (l : list val) (at_ : nat) : nat :=
  match l with
  | [] => 0
  | y :: l' => if same_eqb x y then at_ else f_index x l' (S at_)
  end.

Definition f_in_list (x : val) (l : list val) : bool :=
  negb (Nat.eqb (f_index x l 1) 0).

Fixpoint f_count (x : val) (l : list val) : nat :=
  match l with
  | [] => 0
  | y :: l' => (if same_eqb x y then 1 else 0) + f_count x l'
  end.

Definition f_in_set (x : val) (l : list val) : bool := negb (Nat.eqb (f_count x l) 0).

Inductive lang : Type := C | Fortran.
Inductive shape : Type := List_ | Set_or_dict.

Definition search (g : lang) (s : shape) (x : val) (l : list val) : bool :=
  match g, s with
  | C, _ => c_in x l
  | Fortran, List_ => f_in_list x l
  | Fortran, Set_or_dict => f_in_set x l
  end.

(** _visit_PyccelIn, semantic.py lines 4764-4779: [et] is the type of the
    elements of the container.  [None]: the literal False; [Some tt]: a
    search. *)
Definition visit_in (e : ty) (et : ty) : option unit :=
  if ty_eqb e et then Some tt else None.

(** The value of [x in l] in the translated program, and the calls of the
    two operands which are left in it. *)
Definition translated_in (g : lang) (s : shape) (x : val) (et : ty) (l : list val) : bool :=
  match visit_in (type_of x) et with
  | Some _ => search g s x l
  | None => false
  end.

Definition in_calls (x : expr) (et : ty) (container_calls : list nat) : list nat :=
  match visit_in (e_type x) et with
  | Some _ => e_calls x ++ container_calls
  | None => []
  end.
