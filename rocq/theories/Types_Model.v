(* Numeric types, array types, container types and shapes. *)
From Coq Require Import List Bool ZArith String Lia.
From Verif Require Import Common.
Import ListNotations.
Open Scope Z_scope.

(* ---- scalar types ---- *)
(* ast/datatypes.py:398-507, ast/numpytypes.py:138-280: one constructor per class *)
Inductive fty := TBool | TInt | TFloat | TComplex
  | I8 | I16 | I32 | I64 | F32 | F64 | F128 | C64 | C128 | C256.
Inductive kind := KBool | KInt | KFloat | KComplex.
(* the _primitive_type attributes *)
Definition prim (t : fty) : kind :=
  match t with
  | TBool => KBool
  | TInt | I8 | I16 | I32 | I64 => KInt
  | TFloat | F32 | F64 | F128 => KFloat
  | TComplex | C64 | C128 | C256 => KComplex
  end.
(* the _precision attributes *)
Definition precision (t : fty) : Z :=
  match t with
  | TBool => -1
  | I8 => 1 | I16 => 2
  | I32 | F32 | C64 => 4
  | TInt | TFloat | TComplex | I64 | F64 | C128 => 8
  | F128 | C256 => 16
  end.
Definition native (t : fty) : bool :=
  match t with TBool | TInt | TFloat | TComplex => true | _ => false end.
Definition kind_eqb (a b : kind) : bool :=
  match a, b with KBool, KBool | KInt, KInt | KFloat, KFloat | KComplex, KComplex => true | _, _ => false end.
Definition kind_le (a b : kind) : bool :=
  match a, b with
  | KBool, _ => true
  | KInt, (KInt | KFloat | KComplex) => true
  | KFloat, (KFloat | KComplex) => true
  | KComplex, KComplex => true
  | _, _ => false
  end.
(* numpytypes.py:500-512: numpy_precision_map (None: KeyError) *)
Definition precision_map (k : kind) (p : Z) : option fty :=
  match k with
  | KBool => if p =? -1 then Some TBool else None
  | KInt => if p =? 1 then Some I8 else if p =? 2 then Some I16 else if p =? 4 then Some I32
            else if p =? 8 then Some I64 else None
  | KFloat => if p =? 4 then Some F32 else if p =? 8 then Some F64 else if p =? 16 then Some F128 else None
  | KComplex => if p =? 4 then Some C64 else if p =? 8 then Some C128 else if p =? 16 then Some C256 else None
  end.

(* np.result_type on two zeros (NumPy >= 2.1, pyproject.toml:20).  Trusted: NumPy's
   tables.  A Python int, float or complex is weak: it only raises the kind; bool is
   NumPy's.  An integer of more than two bytes needs a float of eight. *)
Definition np_float_for (t : fty) : Z :=
  match prim t with KBool => 4 | KInt => if precision t <=? 2 then 4 else 8 | _ => precision t end.
Definition np_weak (t : fty) : bool := match t with TInt | TFloat | TComplex => true | _ => false end.
Definition np_strong (a b : fty) : option fty :=
  match prim a, prim b with
  | KBool, _ => Some b
  | _, KBool => Some a
  | KInt, KInt => precision_map KInt (Z.max (precision a) (precision b))
  | KComplex, _ | _, KComplex => precision_map KComplex (Z.max (np_float_for a) (np_float_for b))
  | _, _ => precision_map KFloat (Z.max (np_float_for a) (np_float_for b))
  end.
Definition np_with_weak (w t : fty) : option fty :=
  if kind_le (prim w) (prim t) then Some t
  else match prim w, prim t with
       | KInt, _ => Some I64
       | KFloat, _ => Some F64
       | KComplex, KFloat => precision_map KComplex (precision t)
       | KComplex, _ => Some C128
       | KBool, _ => None
       end.
Definition np_result_type (a b : fty) : option fty :=
  match np_weak a, np_weak b with
  | false, false => np_strong a b
  | true, false => np_with_weak a b
  | false, true => np_with_weak b a
  | true, true => None
  end.

(* t1 + t2: datatypes.py:412-418, 440-446, 470-476, 491-495 (Python's types);
   numpytypes.py:57-72 (one of NumPy's; __radd__ is __add__) *)
Definition ty_add (a b : fty) : option fty :=
  if native a && native b then
    match a, b with
    | TBool, TBool => Some TInt
    | TBool, _ => Some b
    | TInt, TBool => Some TInt
    | TInt, _ => Some b
    | TFloat, TComplex => Some TComplex
    | TFloat, _ => Some TFloat
    | _, _ => Some TComplex
    end
  else if native b then np_result_type a b else np_result_type (if native a then b else a) (if native a then a else b).
Definition is_np_int (t : fty) : bool := match t with I8 | I16 | I32 | I64 => true | _ => false end.
(* t1 & t2: datatypes.py:420-426, 448-453; numpytypes.py:114-132.  None: TypeError *)
Definition np_int_and (a b : fty) : option fty :=
  match b with TBool => Some a | _ => precision_map KInt (Z.max (precision a) (precision b)) end.
Definition ty_and (a b : fty) : option fty :=
  if is_np_int a then np_int_and a b
  else match a with
       | TBool => if native b then Some b else if is_np_int b then np_int_and b a else None
       | TInt => if native b then Some TInt else if is_np_int b then np_int_and b a else None
       | _ => if is_np_int b then np_int_and b a else None
       end.

(* ---- arrays ---- *)
Inductive ord := OC | OF.
(* numpytypes.py:286-340: element type, rank, order *)
Record nd := mkND { nd_elem : fty; nd_rank : nat; nd_order : option ord }.
Definition ord_f (o : option ord) : bool := match o with Some OC => false | _ => true end.
Definition add_order (rank : nat) (o1 o2 : option ord) : option ord :=
  if (rank <? 2)%nat then None else Some (if ord_f o2 && ord_f o1 then OF else OC).
(* numpytypes.py:347-368: array + array, array + number.  The elements of an array are
   NumPy's own, so never weak. *)
Definition nd_add (a b : nd) : option nd :=
  match np_result_type (nd_elem a) (nd_elem b) with
  | Some e => let r := Nat.max (nd_rank b) (nd_rank a) in Some (mkND e r (add_order r (nd_order a) (nd_order b)))
  | None => None
  end.
Definition nd_add_scalar (a : nd) (t : fty) : option nd :=
  match np_result_type (nd_elem a) t with
  | Some e => Some (mkND e (nd_rank a) (add_order (nd_rank a) (nd_order a) None))
  | None => None
  end.
(* numpytypes.py:388-414: switch_basic_type *)
Definition nd_switch_basic (a : nd) (t : fty) : option nd :=
  match precision_map (prim t) (precision t) with
  | Some e => Some (mkND e (nd_rank a) (nd_order a))
  | None => None
  end.
(* numpytypes.py:374-386 *)
Definition nd_and (a b : nd) : option nd :=
  match ty_and (nd_elem a) (nd_elem b) with Some e => nd_switch_basic a e | None => None end.
(* numpytypes.py:443-458 *)
Definition swap_order (a : nd) : nd :=
  mkND (nd_elem a) (nd_rank a) (match nd_order a with None => None | Some OF => Some OC | Some OC => Some OF end).

(* ---- containers ---- *)
(* datatypes.py:858-1039: lists, homogeneous tuples, sets; numpytypes.py arrays *)
Inductive cty := Sc (t : fty) | CList (t : cty) | CTuple (t : cty) | CSet (t : cty) | CND (a : nd).
(* datatypes.py:783-791, numpytypes.py:460-468 *)
Fixpoint rank (t : cty) : nat :=
  match t with
  | Sc _ => 0
  | CList t | CTuple t | CSet t => (1 + rank t)%nat
  | CND a => nd_rank a
  end.
(* datatypes.py:793-802 with 893-897, 961-965, 1017: lists and tuples compute it *)
Fixpoint order (t : cty) : option ord :=
  match t with
  | Sc _ => None
  | CList t | CTuple t =>
      match order t with Some OC => Some OC | _ => if (rank t =? 1)%nat then Some OC else None end
  | CSet _ => None
  | CND a => nd_order a
  end.
(* datatypes.py:668-674: datatype *)
Fixpoint datatype (t : cty) : fty :=
  match t with
  | Sc t => t
  | CList t | CTuple t | CSet t => datatype t
  | CND a => nd_elem a
  end.
(* numpytypes.py:416-441 (get_new with rank 0 gives the element type) *)
Definition nd_switch_rank (a : nd) (new : Z) : py cty :=
  if new =? 0 then POk (Sc (nd_elem a))
  else if new <? 0 then PErr "rank"
  else POk (CND (mkND (nd_elem a) (Z.to_nat new) (if new >? 1 then nd_order a else None))).
(* datatypes.py:741-771; the order is not given *)
Fixpoint switch_rank (t : cty) (new : Z) : py cty :=
  match t with
  | Sc _ => PErr "AttributeError: switch_rank"
  | CND a => nd_switch_rank a new
  | CList e | CTuple e | CSet e =>
      let r := Z.of_nat (1 + rank e) in
      if new >=? r then PErr "AssertionError"
      else if r - new =? 1 then POk e
      else switch_rank e (new - 1)
  end.
(* datatypes.py:717-739, 346-364 *)
Fixpoint switch_basic (t : cty) (b : fty) : option cty :=
  match t with
  | Sc _ => Some (Sc b)
  | CList t => option_map CList (switch_basic t b)
  | CTuple t => option_map CTuple (switch_basic t b)
  | CSet t => option_map CSet (switch_basic t b)
  | CND a => option_map CND (nd_switch_basic a b)
  end.

(* ---- shapes ---- *)
(* A dimension: a number, or name + number (what sympy sees; simplification: sympy's
   expressions are more general). *)
Inductive dim := Lit (n : Z) | Sym (x : string) (k : Z).
Definition dim_eqb (a b : dim) : bool :=
  match a, b with
  | Lit m, Lit n => m =? n
  | Sym x k, Sym y l => String.eqb x y && (k =? l)
  | _, _ => false
  end.
Definition is_one (a : dim) : bool := match a with Lit n => n =? 1 | _ => false end.
Definition is_const (a : dim) : bool := match a with Lit _ => true | _ => false end.
(* (a - b).is_constant() for two symbolic dimensions *)
Definition diff_const (a b : dim) : bool :=
  match a, b with Sym x _, Sym y _ => String.eqb x y | Lit _, Lit _ => true | _, _ => false end.
(* operators.py:121-155: one pair of dimensions *)
Definition bcast1 (e1 e2 : dim) : option dim :=
  if dim_eqb e1 e2 then Some e1
  else if is_one e1 then Some e2
  else if is_one e2 then Some e1
  else if is_const e1 && negb (is_const e2) then Some e1
  else if is_const e2 && negb (is_const e1) then Some e2
  else if negb (is_const e2) && negb (is_const e1) && negb (diff_const e1 e2) then Some e1
  else None.
Fixpoint bcast_zip (s1 s2 : list dim) : option (list dim) :=
  match s1, s2 with
  | a :: r1, b :: r2 =>
      match bcast1 a b with
      | Some d => match bcast_zip r1 r2 with Some r => Some (d :: r) | None => None end
      | None => None
      end
  | _, _ => Some []
  end.
Definition ones (n : nat) : list dim := repeat (Lit 1) n.
(* operators.py:78-156; None is the shape of a scalar; the result None is an error *)
Definition broadcast (s1 s2 : option (list dim)) : option (option (list dim)) :=
  match s1, s2 with
  | None, None => Some None
  | None, Some s2 => option_map Some (bcast_zip (ones (List.length s2)) s2)
  | Some s1, None => option_map Some (bcast_zip s1 (ones (List.length s1)))
  | Some s1, Some s2 =>
      let a := List.length s1 in
      let b := List.length s2 in
      if (b <? a)%nat then option_map Some (bcast_zip s1 (ones (a - b) ++ s2))
      else if (a <? b)%nat then option_map Some (bcast_zip (ones (b - a) ++ s1) s2)
      else option_map Some (bcast_zip s1 s2)
  end.
