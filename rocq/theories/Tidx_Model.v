(* Elements and slices of inhomogeneous tuples.

   Modelled: pyccel/parser/semantic.py 1160-1315 (_extract_indexed_from_var) and 4254-4294 (_visit_IndexedElement) for
   tuple expressions (PythonTuple, pyccel/ast/builtins.py 725-754) and variables of inhomogeneous tuple types
   (pyccel/ast/variable.py 507-521, 674-740; pyccel/parser/scope.py 1124-1180); pyccel/ast/operators.py 416-417 and
   pyccel/ast/literals.py 179-180 (__index__); is_literal_integer, pyccel/ast/utilities.py 1093-1115.

   Simplifications: one index in each pair of brackets; an expression of a scalar type stands for its value; a
   variable of a tuple type is the list of the variables of its elements (C45 is about the lookup); homogeneous tuple
   variables, which are arrays, and indices of tuple expressions that are not literals are not modelled. *)
From Coq Require Import ZArith List Bool.
Import ListNotations.
Open Scope Z_scope.

(* n, -n for a literal n, or another expression, with its value *)
Inductive bound := Lit (n : nat) | Neg (n : nat) | Dyn (z : Z).
Inductive index := At (b : bound) | Sl (start stop step : option bound).
Inductive expr := ENum (z : Z) | EVar (x : nat) | ETup (l : list expr) | EIdx (e : expr) (i : index).

(* what the semantic stage has for an expression: a scalar, a variable of an inhomogeneous tuple type, a PythonTuple *)
Inductive obj := OScalar (z : Z) | OVar (l : list obj) | OTup (l : list obj).
Inductive res := Ok (o : obj) | Rejected | Unmodelled.

(* is_literal_integer, utilities.py 1111-1115; None counts as literal at each call *)
Definition literal (b : option bound) : bool := match b with Some (Dyn _) => false | _ => true end.
(* to_int, builtins.py 732-738; __index__ *)
Definition to_int (b : bound) : Z := match b with Lit n => Z.of_nat n | Neg n => - Z.of_nat n | Dyn z => z end.

(* l[i] and l[a:b:s] of the Python that runs Pyccel: list_subscript, PySlice_AdjustIndices of CPython *)
Definition host_at {A : Type} (l : list A) (i : Z) : option A :=
  let n := Z.of_nat (length l) in
  let j := if i <? 0 then i + n else i in
  if (j <? 0) || (n <=? j) then None else nth_error l (Z.to_nat j).
Definition adjust (n s : Z) (i : Z) : Z :=
  if i <? 0 then (if i + n <? 0 then (if s <? 0 then -1 else 0) else i + n)
  else if n <=? i then (if s <? 0 then n - 1 else n) else i.
Fixpoint host_loop {A : Type} (l : list A) (fuel : nat) (cur stop s : Z) : list A :=
  match fuel with
  | O => []
  | S f =>
    if if s <? 0 then stop <? cur else cur <? stop
    then match nth_error l (Z.to_nat cur) with Some a => a :: host_loop l f (cur + s) stop s | None => [] end
    else []
  end.
Definition host_slice {A : Type} (l : list A) (a b s : option Z) : option (list A) :=
  let n := Z.of_nat (length l) in
  let st := match s with Some s => s | None => 1 end in
  if st =? 0 then None else
  let start := match a with Some i => adjust n st i | None => if st <? 0 then n - 1 else 0 end in
  let stop := match b with Some i => adjust n st i | None => if st <? 0 then -1 else n end in
  Some (host_loop l (length l) start stop st).

(* PythonTuple.__getitem__, builtins.py 725-754; other indices: semantic.py 1212-1219 *)
Definition tuple_item (l : list obj) (i : index) : res :=
  match i with
  | At b =>
    if literal (Some b) then match host_at l (to_int b) with Some o => Ok o | None => Rejected end else Unmodelled
  | Sl a b s =>
    if literal a && literal b && literal s
    then match host_slice l (option_map to_int a) (option_map to_int b) (option_map to_int s) with
         | Some r => Ok (OTup r) | None => Rejected end
    else Unmodelled
  end.
(* semantic.py 1243-1292: the step is not used *)
Definition var_item (l : list obj) (i : index) : res :=
  match i with
  | Sl a b _ =>
    if literal a && literal b
    then match host_slice l (option_map to_int a) (option_map to_int b) None with
         | Some r => Ok (OTup r) | None => Rejected end
    else Rejected                                    (* INDEXED_TUPLE *)
  | At (Lit n) => match nth_error l n with Some o => Ok o | None => Rejected end     (* IndexError, variable.py 738 *)
  | At _ => Rejected                                 (* INDEXED_TUPLE *)
  end.
Definition item (o : obj) (i : index) : res :=
  match o with OScalar _ => Rejected | OVar l => var_item l i | OTup l => tuple_item l i end.

Fixpoint all_ok (l : list res) : res :=
  match l with
  | [] => Ok (OTup [])
  | Ok o :: l' => match all_ok l' with Ok (OTup r) => Ok (OTup (o :: r)) | Ok _ => Rejected | r => r end
  | r :: _ => r
  end.
(* semantic.py 4254-4294 *)
Fixpoint visit (env : nat -> option obj) (e : expr) : res :=
  match e with
  | ENum z => Ok (OScalar z)
  | EVar x => match env x with Some o => Ok o | None => Rejected end
  | ETup l => all_ok (map (visit env) l)
  | EIdx e i => match visit env e with Ok o => item o i | r => r end
  end.
