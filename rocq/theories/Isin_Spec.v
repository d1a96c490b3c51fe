(** [isinstance] and [in] in Python. *)

From Coq Require Import List Bool Arith ZArith.
From Verif Require Import Isin_Model.
Import ListNotations.

(** The classes of Python. *)
Inductive pycls : Type :=
  | PBool | PInt | PFloat | PComplex | PStr
  | PNp (k : npk)
  | PTuple | PList | PSet | PDict | PArr
  | PUser (c : nat)
  | PNone.

(** The class of the objects of a type of pyccel. *)
Definition class_of (t : ty) : pycls :=
  match t with
  | TBool => PBool | TInt => PInt | TFloat => PFloat | TComplex => PComplex
  | TStr => PStr
  | TNp k => PNp k
  | TList _ => PList | TSet _ => PSet | TDict _ _ => PDict | TTup _ => PTuple
  | TArr _ => PArr
  | TCls c => PUser c
  end.

(** Subclasses: [bool] of [int], [numpy.float64] of [float],
    [numpy.complex128] of [complex], and the classes of the program. *)
Inductive subclass (sups : nat -> list nat) : pycls -> pycls -> Prop :=
  | sub_refl : forall p, subclass sups p p
  | sub_bool : subclass sups PBool PInt
  | sub_f64 : subclass sups (PNp NF64) PFloat
  | sub_c128 : subclass sups (PNp NC128) PComplex
  | sub_user : forall c d p, In d (sups c) -> subclass sups (PUser d) p ->
      subclass sups (PUser c) p.

(** The classes named by the second argument of [isinstance]. *)
Definition kind_class (k : kind) : pycls :=
  match k with
  | KTuple => PTuple | KList => PList | KSet => PSet | KDict => PDict | KArr => PArr
  end.

Inductive names : target -> pycls -> Prop :=
  | names_type : forall t, names (GType t) (class_of t)
  | names_kind : forall k, names (GKind k) (kind_class k)
  | names_many : forall l g p, In g l -> names g p -> names (GMany l) p.

(** [isinstance(v, g)] for an object [v] of class [p]. *)
Definition py_isinstance (sups : nat -> list nat) (p : pycls) (g : target) : Prop :=
  exists q, names g q /\ subclass sups p q.

(** The targets which can be written: [isinstance] refuses parametrised types
    such as list[int]. *)
Definition plain (t : ty) : bool :=
  match t with
  | TList _ | TSet _ | TDict _ _ | TTup _ | TArr _ => false
  | _ => true
  end.

Inductive legal : target -> Prop :=
  | legal_type : forall t, plain t = true -> legal (GType t)
  | legal_kind : forall k, legal (GKind k)
  | legal_many : forall l, (forall g, In g l -> legal g) -> legal (GMany l).

(** A class is declared after its superclasses. *)
Definition ordered (sups : nat -> list nat) : Prop :=
  forall c d, In d (sups c) -> d < c.

(** An object of the static type [t] when the program runs. *)
Definition exact (t : ty) (p : pycls) : Prop := p = class_of t.

(** The two NumPy types whose class is a subclass of a class of Python. *)
Definition numpy_exception (obj : ty) (q : pycls) : Prop :=
  (obj = TNp NF64 /\ q = PFloat) \/ (obj = TNp NC128 /\ q = PComplex).

(** Python's [==] between two values, after Python's numeric tower. *)
Definition number (v : val) : option (option Z) :=
  match v with
  | VBool b => Some (Some (if b then 2 else 0)%Z)
  | VInt _ z => Some (Some (2 * z)%Z)
  | VFloat _ t => Some t
  | VStr _ => None
  end.

Definition py_eq (a b : val) : Prop :=
  match number a, number b with
  | Some (Some x), Some (Some y) => x = y
  | None, None => a = b
  | _, _ => False
  end.

(** [x in l]: some element is the same object or is equal.  [same] says which
    elements are the object [x]. *)
Definition py_in (same : nat -> bool) (x : val) (l : list val) : Prop :=
  exists i y, nth_error l i = Some y /\ (same i = true \/ py_eq x y).

(** The same object has the same value. *)
Definition identity (same : nat -> bool) (x : val) (l : list val) : Prop :=
  forall i y, nth_error l i = Some y -> same i = true -> y = x.

Definition is_nan (v : val) : bool :=
  match v with VFloat _ None => true | _ => false end.

(** The values which exist: NumPy integers have an integer type, NumPy floats
    a float type. *)
Definition wf_val (v : val) : bool :=
  match v with
  | VInt (Some k) _ => match k with NI8 | NI16 | NI32 | NI64 => true | _ => false end
  | VFloat (Some k) _ => match k with NF32 | NF64 => true | _ => false end
  | _ => true
  end.

(** A container of pyccel: its elements are values of one type. *)
Definition container (et : ty) (l : list val) : Prop :=
  forall y, In y l -> wf_val y = true /\ type_of y = et.
