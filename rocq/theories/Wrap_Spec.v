(* Specification of C63 and C64: the types and values of Python objects. *)
From Coq Require Import Bool Arith ZArith Lia List Sorted.
From Verif Require Import View_Model Wrap_Model.
Import ListNotations.
Open Scope Z_scope.
Open Scope list_scope.

(* ------------------------------ types ------------------------------ *)

(* np.float64 is a subclass of float, and np.complex128 of complex.  NumPy's booleans are taken as
   booleans *)
Definition scalar_instance (s : scalar) (o : obj) : Prop :=
  match s with
  | SBool => exists b, o = OBool b \/ o = ONpBool b
  | SInt => exists z, o = OInt z
  | SInt8 => exists z, o = ONpInt 8 z
  | SInt16 => exists z, o = ONpInt 16 z
  | SInt32 => exists z, o = ONpInt 32 z
  | SInt64 => exists z, o = ONpInt 64 z
  | SFloat => exists d, o = OFloat d \/ o = ONpFloat64 d
  | SFloat32 => exists d, o = ONpFloat32 d
  | SFloat64 => exists d, o = ONpFloat64 d
  | SComplex => exists a b, o = OComplex a b \/ o = ONpComplex128 a b
  | SComplex64 => exists a b, o = ONpComplex64 a b
  | SComplex128 => exists a b, o = ONpComplex128 a b
  end.
(* the rank, the ordering, and for C no empty dimension *)
Definition array_instance (l : lang) (rank : nat) (c_order : bool) (a : nparray) : Prop :=
  length (a_shape a) = rank /\ (l = LC -> Forall (fun n => n <> 0) (a_shape a))
  /\ ((1 < rank)%nat -> Sorted (fun x y => if c_order then y <= x else x <= y) (a_strides a)).
Fixpoint instance (l : lang) (h : heap) (t : ty) (o : obj) : Prop :=
  match t with
  | Scalar s => scalar_instance s o
  | Str => exists s, o = OStr s
  | Arr s rank c_order => exists a, o = OArray s a /\ array_instance l rank c_order a
  | TList t' => exists i, o = OList i /\ Forall (instance l h t') (h i)
  | TSet t' => exists i, o = OSet i /\ Forall (instance l h t') (h i)
  | TTuple t' => exists os, o = OTuple os /\ Forall (instance l h t') os
  | TClass c => exists p, o = OInst c p
  end.
(* an argument is not given (None), or has the type of the parameter *)
Definition accepted (l : lang) (h : heap) (p : param) (o : obj) : Prop :=
  (p_default p <> None /\ o = ONone) \/ instance l h (p_ty p) o.

(* ------------------------------ values ------------------------------ *)

Definition scalar_value (o : obj) : option cval :=
  match o with
  | OBool b | ONpBool b => Some (CBool b)
  | OInt z | ONpInt _ z => Some (CInt z)
  | OFloat d | ONpFloat64 d | ONpFloat32 d => Some (CFloat d)
  | OComplex a b | ONpComplex128 a b | ONpComplex64 a b => Some (CComplex a b)
  | _ => None
  end.
(* the object o of type t has the value v *)
Fixpoint same (h : heap) (t : ty) (o : obj) (v : cval) : Prop :=
  match t with
  | Scalar _ => scalar_value o = Some v
  | Str => exists s, o = OStr s /\ v = CStr (flat_map utf8 s)
  | Arr _ _ _ => exists s a, o = OArray s a /\ v = CArr a
  | TList t' => exists i vs, o = OList i /\ v = CSeq vs /\ Forall2 (same h t') (h i) vs
  | TSet t' => exists i vs, o = OSet i /\ v = CSeq vs /\ Forall2 (same h t') (h i) vs
  | TTuple t' => exists os vs, o = OTuple os /\ v = CSeq vs /\ Forall2 (same h t') os vs
  | TClass _ => exists c p, o = OInst c p /\ v = CInst p
  end.
(* the value that a parameter should have *)
Definition sees (h : heap) (p : param) (o : obj) (v : cval) : Prop :=
  (o = ONone /\ p_default p = Some v) \/ (o <> ONone /\ same h (p_ty p) o v).

(* ------------------------------ which objects exist ------------------------------ *)

Definition in_range (bits z : Z) : Prop := - 2 ^ (bits - 1) <= z < 2 ^ (bits - 1).
Definition valid_char (c : Z) : Prop := 0 <= c < 1114112.
(* what is true of all objects *)
Definition real (rnd : Z -> Z) (o : obj) : Prop :=
  match o with
  | ONpInt bits z => In bits [8; 16; 32; 64] /\ in_range bits z
  | ONpFloat32 d => rnd d = d
  | ONpComplex64 a b => rnd a = a /\ rnd b = b
  | OStr s => Forall valid_char s
  | _ => True
  end.
(* the restrictions: no boolean of NumPy, no integer beyond 64 bits, no 0 in a string, and only
   ASCII characters for Fortran *)
Definition simple (l : lang) (o : obj) : Prop :=
  match o with
  | ONpBool _ => False
  | OInt z => in_range 64 z
  | OStr s => Forall (fun c => c <> 0 /\ (l = LFortran -> c < 128)) s
  | _ => True
  end.
Definition leaves (h : heap) (o : obj) : list obj :=
  match o with OList i | OSet i => h i | OTuple os => os | _ => [o] end.
(* containers of containers cannot be passed *)
Definition wrappable (t : ty) : Prop :=
  match t with TList t' | TSet t' | TTuple t' => match t' with Scalar _ | Str => True | _ => False end | _ => True end.

(* the values of a type in the translated function *)
Definition typed (rnd : Z -> Z) (s : scalar) (v : cval) : Prop :=
  match s with
  | SBool => exists b, v = CBool b
  | SInt | SInt64 => exists z, v = CInt z /\ in_range 64 z
  | SInt8 => exists z, v = CInt z /\ in_range 8 z
  | SInt16 => exists z, v = CInt z /\ in_range 16 z
  | SInt32 => exists z, v = CInt z /\ in_range 32 z
  | SFloat | SFloat64 => exists d, v = CFloat d
  | SFloat32 => exists d, v = CFloat d /\ rnd d = d
  | SComplex | SComplex128 => exists a b, v = CComplex a b
  | SComplex64 => exists a b, v = CComplex a b /\ rnd a = a /\ rnd b = b
  end.
Definition typed_elem (rnd : Z -> Z) (t : ty) (v : cval) : Prop :=
  match t with
  | Scalar s => typed rnd s v
  | Str => exists s, v = CStr (flat_map utf8 s) /\ Forall valid_char s /\ Forall (fun c => c <> 0) s
  | _ => False
  end.

(* the lists and sets whose changes must get back *)
Fixpoint changeable (ps : list param) (os : list obj) : list nat :=
  match ps, os with
  | p :: ps', o :: os' =>
    (if p_final p then [] else match p_ty p, o with TList _, OList i => [i] | TSet _, OSet i => [i] | _, _ => [] end)
    ++ changeable ps' os'
  | _, _ => []
  end.

(* ------------------------------ overloads ------------------------------ *)

Definition types_of (f : list param) : list ty := map p_ty f.
Definition fits (l : lang) (h : heap) (f : list param) (os : list obj) : Prop := Forall2 (instance l h) (types_of f) os.
Definition no_defaults (fs : list (list param)) : Prop := forall f p, In f fs -> In p f -> p_default p = None.
(* an object belongs to at most one of the types that the overloads have for an argument *)
Definition unambiguous (l : lang) (h : heap) (fs : list (list param)) (os : list obj) : Prop :=
  forall f g k t u o, In f fs -> In g fs ->
    nth_error (types_of f) k = Some t -> nth_error (types_of g) k = Some u -> nth_error os k = Some o ->
    instance l h t o -> instance l h u o -> t = u.
(* the objects that belong to two types: subclasses, arrays whose strides are in both orderings, and
   containers all of whose elements do, such as the empty ones *)
Fixpoint overlap (h : heap) (t u : ty) (o : obj) : Prop :=
  match t, u with
  | Scalar SFloat, Scalar SFloat64 | Scalar SFloat64, Scalar SFloat => exists d, o = ONpFloat64 d
  | Scalar SComplex, Scalar SComplex128 | Scalar SComplex128, Scalar SComplex => exists a b, o = ONpComplex128 a b
  | Arr s n b, Arr s' n' b' =>
    s = s' /\ n = n' /\ b' = negb b
    /\ exists a, o = OArray s a /\ ((1 < n)%nat -> Sorted (fun x y => x = y) (a_strides a))
  | TList t', TList u' => exists i, o = OList i /\ Forall (overlap h t' u') (h i)
  | TSet t', TSet u' => exists i, o = OSet i /\ Forall (overlap h t' u') (h i)
  | TTuple t', TTuple u' => exists os, o = OTuple os /\ Forall (overlap h t' u') os
  | _, _ => False
  end.
