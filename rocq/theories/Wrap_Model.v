(* How the arguments of a translated function are checked and converted when it is called from
   Python, how results are made, how changes of lists and sets get back to Python, and how the
   overload is chosen when there are several.
   Sources: pyccel/codegen/wrapper/c_to_python_wrapper.py 431-628 (_get_type_check_condition),
   630-790 (_get_type_check_function), 1941-2058 (_wrap_Interface), 2060-2252 (_wrap_FunctionDef),
   2253-2350 (_wrap_FunctionDefArgument), 3051-3128 (_extract_FixedSizeType_FunctionDefArgument),
   3344-3463 (tuples), 3465-3601 (sets), 3603-3737 (lists), 3739-3850 (strings), 4180-4270 and
   4370-4394 (results); pyccel/codegen/wrapper/fortran_to_c_wrapper.py 620-686 (strings) and
   688-760; pyccel/stdlib/cwrapper/cwrapper.h 80-225, cwrapper.c 24-125, 439-510; pyccel/ast/
   cwrapper.py 1303-1313, 1755-1760 and numpy_wrapper.py 344-368 (the tables);
   pyccel/ast/core.py 3201-3244 (Interface.point).
   Simplifications: a double is an integer that names it, and rounding to single precision is a
   parameter; sets keep an order; reference counts and memory are not modelled; a class is known
   by its number; which argument is given for which parameter is in Call_Model; the contents of
   arrays are in View_Model. *)
From Coq Require Import Bool Arith ZArith Lia List.
From Verif Require Import View_Model.
Import ListNotations.
Open Scope Z_scope.
Open Scope list_scope.

(* ------------------------------ types, objects and values ------------------------------ *)

(* the keys of check_type_registry *)
Inductive scalar :=
  | SBool | SInt | SInt8 | SInt16 | SInt32 | SInt64
  | SFloat | SFloat32 | SFloat64 | SComplex | SComplex64 | SComplex128.
Inductive ty :=
  | Scalar (s : scalar) | Str | Arr (s : scalar) (rank : nat) (c_order : bool)
  | TList (t : ty) | TSet (t : ty) | TTuple (t : ty) | TClass (c : nat).
Definition scalar_eq_dec : forall a b : scalar, {a = b} + {a <> b}. Proof. decide equality. Defined.
Definition ty_eq_dec : forall a b : ty, {a = b} + {a <> b}.
Proof. decide equality; try apply scalar_eq_dec; try apply Nat.eq_dec; apply bool_dec. Defined.

(* objects of Python.  NumPy scalars have their own constructors; lists and sets are in the heap *)
Inductive obj :=
  | ONone | OBool (b : bool) | ONpBool (b : bool) | OInt (z : Z) | ONpInt (bits z : Z)
  | OFloat (d : Z) | ONpFloat64 (d : Z) | ONpFloat32 (d : Z)
  | OComplex (re im : Z) | ONpComplex128 (re im : Z) | ONpComplex64 (re im : Z)
  | OStr (s : list Z) | OTuple (l : list obj) | OList (i : nat) | OSet (i : nat)
  | OArray (s : scalar) (a : nparray) | OInst (c : nat) (address : nat) | OOther (n : nat).
Definition heap := nat -> list obj.

(* values in the translated function *)
Inductive cval :=
  | CBool (b : bool) | CInt (z : Z) | CFloat (d : Z) | CComplex (re im : Z) | CStr (bytes : list Z)
  | CSeq (l : list cval) | CArr (a : nparray) | CInst (address : nat) | CNone | CRefused.

(* ------------------------------ type checks ------------------------------ *)

Definition np_int (bits : Z) (o : obj) : bool := match o with ONpInt b _ => b =? bits | _ => false end.
(* cwrapper.h 166-224.  PyFloat_Check and PyComplex_Check accept subclasses: np.float64 is one of
   float and np.complex128 one of complex *)
Definition check_scalar (s : scalar) (o : obj) : bool :=
  match s, o with
  | SBool, OBool _ | SBool, ONpBool _ => true
  | SInt, OInt _ => true
  | SInt8, _ => np_int 8 o
  | SInt16, _ => np_int 16 o
  | SInt32, _ => np_int 32 o
  | SInt64, _ => np_int 64 o
  | SFloat, OFloat _ | SFloat, ONpFloat64 _ => true
  | SFloat32, ONpFloat32 _ => true
  | SFloat64, ONpFloat64 _ => true
  | SComplex, OComplex _ _ | SComplex, ONpComplex128 _ _ => true
  | SComplex64, ONpComplex64 _ _ => true
  | SComplex128, ONpComplex128 _ _ => true
  | _, _ => false
  end.
(* 431-628: allow_empty is is_bind_c, that is, the target language is Fortran *)
Fixpoint check (l : lang) (h : heap) (t : ty) (o : obj) : bool :=
  match t, o with
  | Scalar s, _ => check_scalar s o
  | Str, OStr _ => true
  | Arr s rank c_order, OArray s' a =>
    (if scalar_eq_dec s s' then true else false)
    && array_check c_order rank match l with LC => false | LFortran => true end a
  | TList t', OList i => forallb (check l h t') (h i)
  | TSet t', OSet i => forallb (check l h t') (h i)
  | TTuple t', OTuple os => forallb (check l h t') os
  | TClass c, OInst c' _ => Nat.eqb c c'
  | _, _ => false
  end.

(* ------------------------------ conversion of arguments ------------------------------ *)

Definition in_int (bits z : Z) : bool := (- 2 ^ (bits - 1) <=? z) && (z <? 2 ^ (bits - 1)).
(* a cast of an integer to an integer of so many bits *)
Definition wrap (bits z : Z) : Z := (z + 2 ^ (bits - 1)) mod 2 ^ bits - 2 ^ (bits - 1).
(* PyLong_AsLongLong and PyLong_AsLong (64 bits): the second is whether an exception is pending *)
Definition as_long (o : obj) : Z * bool :=
  match o with
  | OInt z => if in_int 64 z then (z, false) else (-1, true)
  | OBool b => ((if b then 1 else 0), false)
  | ONpInt _ z => (z, false)
  | _ => (-1, true)
  end.
Definition as_double (o : obj) : Z * bool :=
  match o with OFloat d | ONpFloat64 d | ONpFloat32 d => (d, false) | _ => (-1, true) end.
Definition as_complex (o : obj) : Z * Z * bool :=
  match o with
  | OComplex a b | ONpComplex128 a b | ONpComplex64 a b => (a, b, false)
  | _ => (-1, 0, true)
  end.
(* cwrapper.h 80-113, cwrapper.c 24-53 *)
Definition conv_scalar (rnd : Z -> Z) (s : scalar) (o : obj) : cval * bool :=
  let int bits := let '(z, e) := as_long o in (CInt (wrap bits z), e) in
  match s with
  | SBool => (CBool match o with OBool true => true | _ => false end, false)
  | SInt | SInt64 => int 64
  | SInt8 => int 8
  | SInt16 => int 16
  | SInt32 => int 32
  | SFloat | SFloat64 => let '(d, e) := as_double o in (CFloat d, e)
  | SFloat32 => let '(d, e) := as_double o in (CFloat (rnd d), e)
  | SComplex | SComplex128 => let '(a, b, e) := as_complex o in (CComplex a b, e)
  | SComplex64 =>
    match o with
    | ONpComplex64 a b => (CComplex a b, false)
    | _ => let '(a, b, e) := as_complex o in (CComplex (rnd a) (rnd b), e)
    end
  end.

(* PyUnicode_AsUTF8 *)
Definition utf8 (c : Z) : list Z :=
  if c <? 128 then [c]
  else if c <? 2048 then [192 + c / 64; 128 + c mod 64]
  else if c <? 65536 then [224 + c / 4096; 128 + (c / 64) mod 64; 128 + c mod 64]
  else [240 + c / 262144; 128 + (c / 4096) mod 64; 128 + (c / 64) mod 64; 128 + c mod 64].
Definition encode (s : list Z) : list Z := flat_map utf8 s.
(* a C string ends at the first 0 *)
Fixpoint c_string (l : list Z) : list Z :=
  match l with [] => [] | b :: l' => if b =? 0 then [] else b :: c_string l' end.
(* 3739-3850.  C: a string is made from the bytes.  Fortran: the bytes are read one by one, as
   many as PyUnicode_GetLength says *)
Definition conv_str (l : lang) (s : list Z) : list Z :=
  match l with LC => c_string (encode s) | LFortran => firstn (length s) (encode s) end.

Definition elements (t : ty) : bool := match t with Scalar _ | Str => true | _ => false end.
Definition conv_elem (l : lang) (rnd : Z -> Z) (t : ty) (o : obj) : cval * bool :=
  match t, o with
  | Scalar s, _ => conv_scalar rnd s o
  | Str, OStr s => (CStr (conv_str l s), false)
  | _, _ => (CRefused, false)
  end.
Definition conv_all (l : lang) (rnd : Z -> Z) (t : ty) (os : list obj) : cval * bool :=
  let cs := map (conv_elem l rnd t) os in (CSeq (map fst cs), existsb snd cs).
(* containers of containers are refused when the wrapper is made *)
Definition conv (l : lang) (rnd : Z -> Z) (h : heap) (t : ty) (o : obj) : cval * bool :=
  match t, o with
  | Scalar _, _ | Str, _ => conv_elem l rnd t o
  | Arr _ _ _, OArray _ a => (CArr a, false)
  | TList t', OList i | TSet t', OSet i => conv_all l rnd t' (h i)
  | TTuple t', OTuple os => conv_all l rnd t' os
  | TClass _, OInst _ p => (CInst p, false)
  | _, _ => (CRefused, false)
  end.

(* ------------------------------ results ------------------------------ *)

(* c_to_py_registry *)
Definition to_py_scalar (s : scalar) (v : cval) : obj :=
  match s, v with
  | SBool, CBool b => OBool b
  | SInt, CInt z => OInt z
  | SInt8, CInt z => ONpInt 8 z
  | SInt16, CInt z => ONpInt 16 z
  | SInt32, CInt z => ONpInt 32 z
  | SInt64, CInt z => ONpInt 64 z
  | SFloat, CFloat d => OFloat d
  | SFloat32, CFloat d => ONpFloat32 d
  | SFloat64, CFloat d => ONpFloat64 d
  | SComplex, CComplex a b => OComplex a b
  | SComplex64, CComplex a b => ONpComplex64 a b
  | SComplex128, CComplex a b => ONpComplex128 a b
  | _, _ => ONone
  end.
(* Py_BuildValue("s"): the bytes up to the first 0 are decoded.  Invalid bytes are an error, and
   cannot come from a string *)
Fixpoint decode_from (fuel : nat) (l : list Z) : list Z :=
  match fuel, l with
  | S n, a :: l1 =>
    if a <? 128 then a :: decode_from n l1
    else match l1 with
         | b :: l2 =>
           if a <? 224 then (a - 192) * 64 + (b - 128) :: decode_from n l2
           else match l2 with
                | c :: l3 =>
                  if a <? 240 then (a - 224) * 4096 + (b - 128) * 64 + (c - 128) :: decode_from n l3
                  else match l3 with
                       | d :: l4 => (a - 240) * 262144 + (b - 128) * 4096 + (c - 128) * 64 + (d - 128) :: decode_from n l4
                       | [] => []
                       end
                | [] => []
                end
         | [] => []
         end
  | _, _ => []
  end.
Definition decode (l : list Z) : list Z := decode_from (length l) l.
Definition to_py_elem (t : ty) (v : cval) : obj :=
  match t, v with
  | Scalar s, _ => to_py_scalar s v
  | Str, CStr b => OStr (decode (c_string b))
  | _, _ => ONone
  end.

(* ------------------------------ the wrapper of a function ------------------------------ *)

(* a parameter: the type, whether it is Final, and its default value *)
Record param := mk_param { p_ty : ty; p_final : bool; p_default : option cval }.

(* _wrap_FunctionDefArgument, 2253-2350.  checked: the function is not in an interface.  None: a
   TypeError *)
Definition wrap_arg (l : lang) (rnd : Z -> Z) (h : heap) (checked : bool) (p : param) (o : obj) : option (cval * bool) :=
  match p_default p with
  | Some v =>
    match o with
    | ONone => Some (v, false)
    | _ => if check l h (p_ty p) o then Some (conv l rnd h (p_ty p) o) else None
    end
  | None => if negb checked || check l h (p_ty p) o then Some (conv l rnd h (p_ty p) o) else None
  end.
Fixpoint wrap_args (l : lang) (rnd : Z -> Z) (h : heap) (checked : bool) (ps : list param) (os : list obj) : option (list (cval * bool)) :=
  match ps, os with
  | p :: ps', o :: os' =>
    match wrap_arg l rnd h checked p o with
    | Some c => match wrap_args l rnd h checked ps' os' with Some cs => Some (c :: cs) | None => None end
    | None => None
    end
  | _, _ => Some []
  end.

Definition set_heap (h : heap) (i : nat) (os : list obj) : heap := fun j => if Nat.eqb j i then os else h j.
(* the clean_up of 3568-3601 and 3704-3737: the list or set is cleared and filled again *)
Definition write_back (l : lang) (p : param) (o : obj) (v : cval) (h : heap) : heap :=
  match l, p_final p, p_ty p, o, v with
  | LC, false, TList t, OList i, CSeq vs => set_heap h i (map (to_py_elem t) vs)
  | LC, false, TSet t, OSet i, CSeq vs => set_heap h i (map (to_py_elem t) vs)
  | _, _, _, _, _ => h
  end.
Fixpoint clean_up (l : lang) (ps : list param) (os : list obj) (vs : list cval) (h : heap) : heap :=
  match ps, os, vs with
  | p :: ps', o :: os', v :: vs' => clean_up l ps' os' vs' (write_back l p o v h)
  | _, _, _ => h
  end.

(* what happens: a TypeError, or the function runs with these values, with an exception that is
   pending or not, and leaves the heap *)
Inductive outcome := TypeErr | Ran (seen : list cval) (pending : bool) (h : heap).
(* 2060-2252.  f: the values of the arguments after the call *)
Definition call_wrapper (l : lang) (rnd : Z -> Z) (checked : bool) (ps : list param) (f : list cval -> list cval) (os : list obj) (h : heap) : outcome :=
  match wrap_args l rnd h checked ps os with
  | None => TypeErr
  | Some cs => Ran (map fst cs) (existsb snd cs) (clean_up l ps os (f (map fst cs)) h)
  end.

(* ------------------------------ interfaces ------------------------------ *)

Fixpoint index_of (t : ty) (ts : list ty) : Z :=
  match ts with [] => 0 | u :: ts' => if ty_eq_dec t u then 0 else 1 + index_of t ts' end.
(* the keys of a dictionary, in the order they were first added *)
Definition add_key (ts : list ty) (t : ty) : list ty := if in_dec ty_eq_dec t ts then ts else ts ++ [t].
Definition keys (ts : list ty) : list ty := fold_left add_key ts [].

(* for each argument: whether it has a default in the first function, and the possible types *)
Fixpoint columns (fs : list (list param)) (first : list param) : list (bool * list ty) :=
  match first with
  | [] => []
  | p :: first' =>
    (match p_default p with Some _ => true | None => false end,
     keys (map (fun f => match f with q :: _ => p_ty q | [] => p_ty p end) fs))
    :: columns (map (@tl param) fs) first'
  end.
(* argument_type_flags, 704-735 *)
Fixpoint flag_of (step : Z) (cols : list (bool * list ty)) (f : list param) : Z :=
  match cols, f with
  | (dflt, ts) :: cols', p :: f' =>
    (if dflt then 0 else if Nat.eqb (length ts) 1 then 0 else index_of (p_ty p) ts * step)
    + flag_of (step * Z.of_nat (length ts)) cols' f'
  | _, _ => 0
  end.
(* the first type that is accepted: the chain of 741-770 *)
Fixpoint first_type (l : lang) (h : heap) (ts : list ty) (o : obj) : option Z :=
  match ts with
  | [] => None
  | t :: ts' => if check l h t o then Some 0 else match first_type l h ts' o with Some k => Some (1 + k) | None => None end
  end.
(* the function that is made, 700-790: -1 with a TypeError *)
Fixpoint indicator (l : lang) (h : heap) (step acc : Z) (cols : list (bool * list ty)) (os : list obj) : Z :=
  match cols, os with
  | (dflt, ts) :: cols', o :: os' =>
    let next := fun acc' => indicator l h (step * Z.of_nat (length ts)) acc' cols' os' in
    if dflt then next acc
    else if negb (Nat.eqb (length ts) 1) then
      match first_type l h ts o with Some k => next (acc + k * step) | None => -1 end
    else if forallb (fun t => check l h t o) ts then next acc else -1
  | _, _ => acc
  end.
(* _wrap_Interface: the chain of conditions, 2005-2040.  None: a TypeError *)
Fixpoint select (cols : list (bool * list ty)) (fs : list (list param)) (n : nat) (z : Z) : option nat :=
  match fs with
  | [] => None
  | f :: fs' => if z =? flag_of 1 cols f then Some n else select cols fs' (S n) z
  end.
Definition choose (l : lang) (h : heap) (fs : list (list param)) (os : list obj) : option nat :=
  match fs with
  | [] => None
  | f :: _ => let cols := columns fs f in select cols fs O (indicator l h 1 0 cols os)
  end.
(* a call of an interface: the overload that runs, and what happens *)
Definition call_interface (l : lang) (rnd : Z -> Z) (fs : list (list param)) (bodies : nat -> list cval -> list cval) (os : list obj) (h : heap) : option (nat * outcome) :=
  match choose l h fs os with
  | None => None
  | Some k => Some (k, call_wrapper l rnd false (nth k fs []) (bodies k) os h)
  end.

(* Interface.point, core.py 3201-3244: a call in the translated code, by the types of the
   arguments.  The rank is known from the type.  None: a fatal error *)
Fixpoint matches (args : list ty) (f : list param) : bool :=
  match args, f with
  | [], _ => true
  | a :: args', p :: f' => (if ty_eq_dec a (p_ty p) then true else false) && matches args' f'
  | _, _ => false
  end.
Fixpoint point (fs : list (list param)) (args : list ty) (n : nat) : option nat :=
  match fs with [] => None | f :: fs' => if matches args f then Some n else point fs' args (S n) end.
