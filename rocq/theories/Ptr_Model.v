(* Calls of functions in C: which variables are pointers, and what is passed.
   Source: pyccel/codegen/printing/ccode.py 451-507 (is_c_pointer), 1984-2034 (get_declare_type), 2102-2193 (function_signature),
   2195-2283 (_print_IndexedElement: an element), 3114-3158 (_print_FunctionCall), 3362-3371 (_print_Assign: several results),
   3674-3681 (_print_Variable), 3689-3698 (_print_ObjectAddress).
   Simplifications: tuples are already split into their elements, no managed memory, no stack arrays, no pointer casts; other
   expressions are given by their value; "( *" at the start and ")" at the end of printed code is the outermost dereference. *)
From Coq Require Import ZArith List Bool.
Import ListNotations.

Inductive kind := Scalar | Array | Container | Object.
(* uid: the identity of the variable *)
Record var := mk { uid : nat; name : nat; kd : kind; alias : bool; optional : bool; argument : bool; final : bool }.
(* the elements of self._additional_args, compared by identity *)
Definition listed (extra : list nat) (v : var) : bool := existsb (Nat.eqb (uid v)) extra.

(* memory: cells of variables in the frames of functions, and the elements of arrays *)
Inductive addr := Cell (frame x : nat) | Item (data i : nat).
Inductive val := Num (z : Z) | Ptr (a : addr) | Null | Span (data : nat).
Definition store := addr -> val.
Definition addr_eqb (a b : addr) : bool :=
  match a, b with
  | Cell f x, Cell g y => Nat.eqb f g && Nat.eqb x y
  | Item d i, Item e j => Nat.eqb d e && Nat.eqb i j
  | _, _ => false
  end.
Definition set (s : store) (a : addr) (v : val) : store := fun b => if addr_eqb b a then v else s b.

(* arguments: a variable, an element of an array, None, a value, the result of a call with result variable r *)
Inductive exp := EVar (v : var) | EElem (v : var) (i : nat) | ENone | EVal (z : Z) | ECall (r : var) (w : val).
(* the code *)
Inductive code := CName (x : nat) | CDeref (c : code) | CAddr (c : code) | CAt (c : code) (i : nat) | CNull | CRes (w : val).

(* ccode.py 486-507, for variables *)
Definition var_ptr (extra : list nat) (a : var) : bool :=
  match kd a with
  | Array => optional a || listed extra a
  | Scalar => alias a || optional a || listed extra a
  | Container | Object => (argument a && negb (final a)) || (alias a || optional a || listed extra a)
  end.
(* ccode.py 476-487 *)
Definition is_c_pointer (extra : list nat) (e : exp) : bool :=
  match e with
  | ENone => true
  | ECall r _ => var_ptr extra r
  | EElem _ _ => true
  | EVar v => var_ptr extra v
  | EVal _ => false
  end.
(* ccode.py 3678-3681 *)
Definition print_var (extra : list nat) (v : var) : code :=
  if var_ptr extra v then CDeref (CName (name v)) else CName (name v).
(* ccode.py 3689-3698 *)
Definition address_code (ptr : bool) (c : code) : code :=
  match c with CDeref d => d | _ => if ptr then c else CAddr c end.
Definition print (extra : list nat) (e : exp) : code :=
  match e with
  | EVar v => print_var extra v
  | EElem v i => CDeref (CAt (address_code (var_ptr extra v) (print_var extra v)) i)
  | ENone => CNull
  | EVal z => CRes (Num z)
  | ECall _ w => CRes w
  end.
Definition print_address (extra : list nat) (e : exp) : code := address_code (is_c_pointer extra e) (print extra e).

Record func := mkf { bound : bool; params : list var; results : list var; multi : bool; globals : list var }.
(* ccode.py 2125-2162: the declared arguments and the additional pointers of the function *)
Definition out_vars (f : func) : list var := if multi f then results f else [].
Definition insert_results {A} (b : bool) (rs ps : list A) : list A :=
  if b then firstn 1 ps ++ rs ++ skipn 1 ps else rs ++ ps.
Definition signature (f : func) : list var := insert_results (bound f) (out_vars f) (params f) ++ globals f.
Definition inner_extra (f : func) : list nat := map uid (out_vars f ++ globals f).

(* ccode.py 3118-3133: n is the number of the next temporary; the assignments of temporaries and the arguments *)
Fixpoint build_args (extra : list nat) (n : nat) (ps : list var) (es : list exp) : list (nat * code) * list code :=
  match ps, es with
  | p :: ps', e :: es' =>
    let plain := let (t, a) := build_args extra n ps' es' in (t, print extra e :: a) in
    if var_ptr extra p then
      match e with
      | EVar v => let (t, a) := build_args extra n ps' es' in (t, print_address extra e :: a)
      | _ =>
        if is_c_pointer extra e then plain
        else let (t, a) := build_args extra (S n) ps' es' in ((n, print extra e) :: t, CAddr (CName n) :: a)
      end
    else plain
  | _, _ => ([], [])
  end.
(* ccode.py 3135-3143 with the addresses of 3368 *)
Definition call_codes (extra : list nat) (n : nat) (f : func) (lhs : list var) (es : list exp) : list (nat * code) * list code :=
  let (t, a) := build_args extra n (params f) es in
  (t, insert_results (bound f) (if multi f then map (fun v => print_address extra (EVar v)) lhs else []) a ++
      map (fun v => print_address extra (EVar v)) (globals f)).

(* evaluation of code in frame fr *)
Fixpoint lval (fr : nat) (s : store) (c : code) : option addr :=
  match c with
  | CName x => Some (Cell fr x)
  | CDeref d => match rval fr s d with Some (Ptr a) => Some a | _ => None end
  | _ => None
  end
with rval (fr : nat) (s : store) (c : code) : option val :=
  match c with
  | CName x => Some (s (Cell fr x))
  | CDeref d => match rval fr s d with Some (Ptr a) => Some (s a) | _ => None end
  | CAddr d => match lval fr s d with Some a => Some (Ptr a) | None => None end
  | CAt d i => match rval fr s d with Some (Ptr a) => match s a with Span k => Some (Ptr (Item k i)) | _ => None end | _ => None end
  | CNull => Some Null
  | CRes w => Some w
  end.
Fixpoint run_temps (fr : nat) (t : list (nat * code)) (s : store) : option store :=
  match t with
  | [] => Some s
  | (x, c) :: t' => match rval fr s c with Some v => run_temps fr t' (set s (Cell fr x) v) | None => None end
  end.
(* the parameters in the new frame *)
Fixpoint bind_params (fr fr' : nat) (s : store) (ps : list var) (cs : list code) (r : store) : option store :=
  match ps, cs with
  | [], [] => Some r
  | p :: ps', c :: cs' =>
    match rval fr s c with Some v => bind_params fr fr' s ps' cs' (set r (Cell fr' (name p)) v) | None => None end
  | _, _ => None
  end.
(* the memory when the body of the function starts *)
Definition call (fr fr' : nat) (extra : list nat) (n : nat) (f : func) (lhs : list var) (es : list exp) (s : store) : option store :=
  let (t, cs) := call_codes extra n f lhs es in
  match run_temps fr t s with
  | Some s1 => bind_params fr fr' s1 (signature f) cs s1
  | None => None
  end.
