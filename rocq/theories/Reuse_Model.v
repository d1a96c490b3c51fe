(* Assignments of the results of a function to variables that are also its arguments.

   Modelled: SemanticParser._visit_Assign for calls of functions (pyccel/parser/semantic.py 5234-5262, the
   temporary variable for a slice, and 5341-5358, several targets), the Allocate statement made by
   _ensure_inferred_type_matches_existing (2745-2876) with its code in C (pyccel/codegen/printing/ccode.py
   2444-2483, 2535-2573) and Fortran (pyccel/codegen/printing/fcode.py 2591-2614, 2680-2707);
   CCodePrinter._print_Assign (ccode.py 3362-3371 and 3381-3386) and _print_FunctionCall (3114-3158);
   FCodePrinter._print_FunctionCall (fcode.py 4240-4328) with function_signature (2902-2946) and the
   attributes of parameters (2378-2390).

   Simplifications: the functions called do not change their arguments; the local variables of a function
   that are not results are left out; elements and slices have literal indices, slices are v[i:]; the
   arguments are not optional, except scalar variables (the code of an element that is passed to an optional
   parameter is in the area Ptr); arrays have one dimension; targets are not attributes of objects. *)
From stdpp Require Import gmap.
From Coq Require Import ZArith List.

Inductive value := VZ (z : Z) | VL (l : list Z).            (* a number; an array or a list *)
Notation env := (gmap nat value).                           (* the variables that have a value, or memory *)

Inductive lang := C | Fortran.
Inductive kind := Scalar | Array | Lst.

(* What an argument of the call is. *)
Inductive arg :=
| AVar (x : nat) (opt : bool)                               (* a variable with a number; opt: the parameter is optional *)
| ACont (x : nat)                                           (* an array or a list *)
| ASlice (x i : nat)                                        (* x[i:] of an array *)
| AElem (x i : nat)                                         (* x[i] *)
| AExp (xs : list nat) (f : list value -> value).           (* an expression with the numbers xs *)

Inductive target :=
| TVar (x : nat) (k : kind)
| TElem (x i : nat)                                         (* x[i] = ... *)
| TAll (x : nat).                                           (* x[:] = ... *)

(* A statement of the function: result [dst] is assigned the value of an expression with the parameters and
   the results [rds]. *)
Record step := { dst : nat; rds : list nat; fn : list value -> list value -> value }.

(* targets = f(args): the statement, with the body of f *)
Record stmt := { targets : list target; body : list step; args : list arg }.

Fixpoint all_some {A} (l : list (option A)) : option (list A) :=
  match l with
  | [] => Some []
  | a :: l' => match a, all_some l' with Some x, Some xs => Some (x :: xs) | _, _ => None end
  end.

(* The value of an argument; None: a variable has no value or no memory. *)
Definition get_arg (m : env) (a : arg) : option value :=
  match a with
  | AVar x _ | ACont x => m !! x
  | ASlice x i => match m !! x with Some (VL w) => Some (VL (drop i w)) | _ => None end
  | AElem x i => match m !! x with Some (VL w) => option_map VZ (w !! i) | _ => None end
  | AExp xs f => option_map f (all_some (map (fun x => m !! x) xs))
  end.

(* The value at the place of a target, and the same memory with a new value there. *)
Definition get (m : env) (t : target) : option value :=
  match t with
  | TVar x _ | TAll x => m !! x
  | TElem x i => get_arg m (AElem x i)
  end.
Definition upd (m : env) (t : target) (v : value) : env :=
  match t with
  | TVar x _ | TAll x => <[x := v]> m
  | TElem x i =>
      match m !! x, v with Some (VL w), VZ z => <[x := VL (<[i := z]> w)]> m | _, _ => m end
  end.
(* A value fits a target: a number in an existing element, as many elements as x[:] has, and a number or a
   container in a variable of this type. *)
Definition is_num (v : value) : bool := match v with VZ _ => true | VL _ => false end.
Definition num_target (t : target) : bool :=
  match t with TVar _ Scalar => true | TVar _ _ => false | TElem _ _ => true | TAll _ => false end.
Definition fits (m : env) (t : target) (v : value) : bool :=
  Bool.eqb (num_target t) (is_num v) &&
  match t, v with
  | TVar _ _, _ => true
  | TElem x i, _ => match m !! x with Some (VL w) => Nat.ltb i (length w) | _ => false end
  | TAll x, VL u => match m !! x with Some (VL w) => Nat.eqb (length u) (length w) | _ => false end
  | TAll _, _ => false
  end.
Definition store (m : env) (t : target) (v : value) : option env :=
  if fits m t v then Some (upd m t v) else None.

(* ------------------------------ generated code ------------------------------ *)

(* The status of the Allocate statement of a target, semantic.py 2812-2853 and 2366-2385. *)
Inductive status := Unallocated | Allocated | Unknown.

(* The code of Allocate before the call; None: memory is freed that was not allocated.
   ccode.py 2446-2456 (lists: the free of status Unknown has no condition) and 2470-2483, 2535-2573;
   fcode.py 2593-2614 and 2696-2698 (lists become empty).  Only containers have an Allocate: semantic.py
   1992-2003 and 2759. *)
Definition release (l : lang) (st : nat -> status) (m : env) (t : target) : option env :=
  match t with
  | TVar x Scalar | TElem x _ | TAll x => Some m
  | TVar x k =>
      match st x with
      | Unallocated => Some m
      | s =>
          match l, k with
          | Fortran, Lst => Some (<[x := VL []]> m)
          | C, Lst => match m !! x with Some _ => Some (delete x m) | None => None end
          | _, _ =>
              match m !! x, s with
              | Some _, _ => Some (delete x m)
              | None, Unknown => Some m
              | None, _ => None
              end
          end
      end
  end.
Fixpoint release_all (l : lang) (st : nat -> status) (m : env) (ts : list target) : option env :=
  match ts with
  | [] => Some m
  | t :: ts' => match release l st m t with Some m' => release_all l st m' ts' | None => None end
  end.

(* A parameter of the running function: its own copy, or the memory of the argument. *)
Inductive param := PV (v : value) | PR (a : arg).
Definition get_param (m : env) (p : param) : option value :=
  match p with PV v => Some v | PR a => get_arg m a end.

(* arg in lhs_vars.values(), fcode.py 4286; IndexedElement.__eq__, pyccel/ast/variable.py 932-936.  A slice
   on the left is a new variable by now. *)
Definition same (a : arg) (t : target) : bool :=
  match a, t with
  | AVar x _, TVar y _ | ACont x, TVar y _ => Nat.eqb x y
  | AElem x i, TElem y j => Nat.eqb x y && Nat.eqb i j
  | _, _ => false
  end.
(* fcode.py 4283-4293: the copy is made by a method [clone], which elements of arrays do not have *)
Definition has_clone (a : arg) : bool := match a with AElem _ _ => false | _ => true end.

(* The parameter for an argument that can be read.  In C numbers are passed by value and optional arguments
   by address (ccode.py 3121-3133); in Fortran numbers have the attribute value unless they are optional
   (fcode.py 2378-2388).  Arrays and lists are not copied. *)
Definition by_ref (a : arg) : bool :=
  match a with AVar _ opt => opt | ACont _ | ASlice _ _ => true | AElem _ _ | AExp _ _ => false end.
Definition pass (l : lang) (ts : list target) (m : env) (a : arg) : option param :=
  match get_arg m a with
  | None => None
  | Some v =>
      let copied := match l with C => false | Fortran => existsb (same a) ts end in
      Some (if by_ref a && negb copied then PR a else PV v)
  end.

(* Where the function stores its results: its own variable, whose value the call returns, or the target of
   the caller, which is passed by address.
   C: one result is returned (ccode.py 3153-3156, 3386), the addresses of several are passed (3365-3371).
   Fortran: one number is returned (fcode.py 2910, 4262), all else are arguments with intent(out) (2912-2913,
   4299); the slice of an array is stored in a temporary first (semantic.py 5249-5253). *)
Definition own_result (l : lang) (ts : list target) : bool :=
  match ts, l with
  | [_], C => true
  | [TVar _ Scalar], Fortran | [TElem _ _], Fortran | [TAll _], Fortran => true
  | _, _ => false
  end.

Definition locals := nat -> option value.
Definition set (ls : locals) (j : nat) (v : value) : locals := fun i => if Nat.eqb i j then Some v else ls i.

(* One statement of the function and all of them. *)
Definition run_step (own : bool) (ts : list target) (ps : list param) (m : env) (ls : locals) (s : step)
    : option (env * locals) :=
  match all_some (map (get_param m) ps),
        all_some (map (fun j => if own then ls j else match ts !! j with Some t => get m t | None => None end) (rds s)) with
  | Some vs, Some rs =>
      match ts !! dst s with
      | None => None
      | Some t =>
          if own then (if Bool.eqb (num_target t) (is_num (fn s vs rs)) then Some (m, set ls (dst s) (fn s vs rs)) else None)
          else match store m t (fn s vs rs) with Some m' => Some (m', ls) | None => None end
      end
  | _, _ => None
  end.
Fixpoint run_body (own : bool) (ts : list target) (ps : list param) (m : env) (ls : locals) (b : list step)
    : option (env * locals) :=
  match b with
  | [] => Some (m, ls)
  | s :: b' => match run_step own ts ps m ls s with Some (m', ls') => run_body own ts ps m' ls' b' | None => None end
  end.

Inductive outcome :=
| Done (m : env)
| Freed          (* memory is freed or passed to the function that is not allocated *)
| Crash          (* an exception in pyccel *)
| Stuck.         (* any other error *)

Definition exec (l : lang) (st : nat -> status) (m : env) (s : stmt) : outcome :=
  let ts := targets s in
  let crash := match l with C => false | Fortran => existsb (fun a => negb (has_clone a) && existsb (same a) ts) (args s) end in
  if crash then Crash
  else
    match release_all l st m ts with
    | None => Freed
    | Some m1 =>
        match all_some (map (pass l ts m1) (args s)) with
        | None => Freed
        | Some ps =>
            match run_body (own_result l ts) ts ps m1 (fun _ => None) (body s) with
            | None => Stuck
            | Some (m2, ls) =>
                if own_result l ts
                then match ts, ls 0 with
                     | t :: _, Some v => match store m2 t v with Some m3 => Done m3 | None => Stuck end
                     | _, _ => Stuck
                     end
                else Done m2
            end
        end
    end.
