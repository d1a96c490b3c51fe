(* The values that functions return.

   Modelled: SyntaxParser._get_unique_name (pyccel/parser/syntactic.py 418-473) and its use for the
   results of a function (1159-1175); SemanticParser._visit_Return (pyccel/parser/semantic.py
   6305-6338) with the assignments made by _visit_Assign for the results: tuples element by element
   (5154-5178), sum, min and max of a generator (5186-5196 and 2891-3030), conditional expressions
   of strings (5197-5208); CCodePrinter._print_Return (pyccel/codegen/printing/ccode.py 3160-3230)
   with Basic.get_attribute_nodes (pyccel/ast/basic.py 188-236) and the declaration of the result in
   _print_FunctionDef (ccode.py 3071-3077); FCodePrinter._print_Return (pyccel/codegen/printing/fcode.py
   3034-3039).

   Not modelled: Allocate statements for the results (area Alloc), pointers (area Alias), classes,
   tuples in tuples, returns with different numbers of values, the types of the numbers. *)
From Coq Require Import Bool Arith ZArith List String.
Import ListNotations.
Open Scope Z_scope.
Open Scope list_scope.

(* A name that the user has written, or a name from Scope.get_new_name (distinct from all others). *)
Inductive name := User (n : nat) | Temp (i : nat).
Definition name_eqb (a b : name) : bool :=
  match a, b with User x, User y => Nat.eqb x y | Temp x, Temp y => Nat.eqb x y | _, _ => false end.
Definition mem (x : name) (l : list name) : bool := existsb (name_eqb x) l.

Inductive obj := OInt (n : Z) | OStr (s : string) | OArr (f : Z -> Z).

(* Simplification: binary operations on integers stand for all operators and functions with
   scalar arguments. *)
Inductive expr :=
| EInt (n : Z)
| EStr (s : string)                                    (* LiteralString *)
| EVar (x : name)                                      (* Variable *)
| EOp (f : Z -> Z -> Z) (a b : expr)
| EElem (x : name) (i : expr)                          (* IndexedElement *)
| EStrOf (a : expr).                                   (* PythonStr *)

(* The objects in the variables; None: freed or never assigned. *)
Definition state := name -> option obj.
Definition set (st : state) (x : name) (v : option obj) : state := fun y => if name_eqb y x then v else st y.

Fixpoint eval (st : state) (e : expr) : option obj :=
  match e with
  | EInt n => Some (OInt n)
  | EStr s => Some (OStr s)
  | EVar x => st x
  | EOp f a b => match eval st a, eval st b with Some (OInt m), Some (OInt n) => Some (OInt (f m n)) | _, _ => None end
  | EElem x i => match st x, eval st i with Some (OArr f), Some (OInt n) => Some (OInt (f n)) | _, _ => None end
  | EStrOf a => match eval st a with Some (OStr s) => Some (OStr s) | _ => None end
  end.

(* ------------------------------ the names of the results ------------------------------ *)

(* syntactic.py 464-466: the expressions that are only a symbol, each once *)
Fixpoint symbols (es : list expr) : list name :=
  match es with
  | [] => []
  | EVar x :: es' => let l := symbols es' in if mem x l then l else x :: l
  | _ :: es' => symbols es'
  end.
(* 467-473: one symbol gives its name unless it is forbidden (an argument, 1173, or imported) or not
   a symbol of the function *)
Definition unique_name (valid forbidden : list name) (es : list expr) (i : nat) : name :=
  match symbols es with
  | [x] => if negb (mem x forbidden) && mem x valid then x else Temp i
  | _ => Temp i
  end.
(* 446-463: tuples of the same length; the names of the elements, one by one.  returns: the
   elements in each return *)
Definition column (i : nat) (returns : list (list expr)) : list expr := map (fun es => nth i es (EInt 0)) returns.
Definition result_names (valid forbidden : list name) (returns : list (list expr)) : list name :=
  match returns with
  | [] => []
  | es :: _ => map (fun i => unique_name valid forbidden (column i returns) i) (seq 0 (List.length es))
  end.

(* semantic.py 5159-5163 and 5172-5178 (also 5436-5460 the first time): an Assign for each element, in order; an
   assignment of a variable to itself is left out (5459, 6314) *)
Definition itself (r : name) (e : expr) : bool := match e with EVar x => name_eqb r x | _ => false end.
Fixpoint assign_all (rs : list name) (es : list expr) (st : state) : option state :=
  match rs, es with
  | r :: rs', e :: es' =>
    if itself r e then assign_all rs' es' st
    else match eval st e with Some v => assign_all rs' es' (set st r (Some v)) | None => None end
  | _, _ => Some st
  end.
(* what the caller gets from one of the returns: the values in the results (C: the output arguments,
   ccode.py 3172-3175; Fortran: the arguments with intent(out)) *)
Definition tuple_results (rs : list name) (es : list expr) (st : state) : option (list (option obj)) :=
  match assign_all rs es st with Some st' => Some (map st' rs) | None => None end.

(* ------------------------------ one value ------------------------------ *)

(* The expression of a return.  PSum x n e: sum(e for x in range(n)); PIf c a b: a if c else b,
   for strings. *)
Inductive fold_kind := KSum | KMax | KMin.
Inductive pexpr :=
| PE (e : expr)
| PFold (k : fold_kind) (x : name) (n e : expr)
| PIf (c a b : expr).

Inductive stmt :=
| NAssign (x : name) (e : expr)
| NAug (x : name) (f : Z -> Z -> Z) (e : expr)
| NIf (c : expr) (a b : list stmt)
| NFor (x : name) (n : expr) (b : list stmt)
| NGen (b : list stmt)                                 (* GeneratorComprehension *)
| NFree (x : name).                                    (* Deallocate *)

(* MinLimit and MaxLimit of int64, semantic.py 2966-2971, ccode.py 3757-3779 *)
Definition lowest : Z := - 2 ^ 63.
Definition highest : Z := 2 ^ 63 - 1.

(* syntactic.py 1515-1520 (the statement in the loop, with the result in place of "_", semantic.py
   5187), semantic.py 2957-3009 *)
Definition fold_node (r : name) (k : fold_kind) (x : name) (n e : expr) : stmt :=
  match k with
  | KSum => NGen [NAssign r (EInt 0); NFor x n [NAug r Z.add e]]
  | KMax => NGen [NAssign r (EInt lowest); NFor x n [NAssign r (EOp Z.max (EVar r) e)]]
  | KMin => NGen [NAssign r (EInt highest); NFor x n [NAssign r (EOp Z.min (EVar r) e)]]
  end.
(* semantic.py 6305-6318 *)
Definition visit_value (r : name) (p : pexpr) : list stmt :=
  match p with
  | PE e => if itself r e then [] else [NAssign r e]
  | PFold k x n e => [fold_node r k x n e]
  | PIf c a b => [NIf c [NAssign r a] [NAssign r b]]
  end.
(* semantic.py 6326-6336: the statements in front of the return *)
Definition visit_return (r : name) (frees : list name) (p : pexpr) : list stmt := visit_value r p ++ map NFree frees.

(* get_attribute_nodes((Assign, AliasAssign)): the last one in the tree, and whether it is itself in
   the list (ccode.py 3189-3192 and 3222 "a is not last_assign") *)
Fixpoint assigns (s : stmt) : list stmt :=
  match s with
  | NAssign _ _ | NAug _ _ _ => [s]
  | NIf _ a b => flat_map assigns a ++ flat_map assigns b
  | NFor _ _ b | NGen b => flat_map assigns b
  | NFree _ => []
  end.
Definition last_of (l : list stmt) : option stmt := match rev l with s :: _ => Some s | [] => None end.
(* the list without the last Assign, when that is an element of the list; l in the reverse order *)
Fixpoint without_last (l : list stmt) : list stmt :=
  match l with
  | [] => []
  | s :: l' =>
    match s with
    | NAssign _ _ | NAug _ _ _ => l'
    | _ => match assigns s with [] => s :: without_last l' | _ => s :: l' end
    end
  end.
(* get_attribute_nodes(Variable) of the right hand side: the variables under it, not itself; the
   label and the indices of an element *)
Fixpoint vars (e : expr) : list name :=
  match e with
  | EInt _ | EStr _ => []
  | EVar x => [x]
  | EOp _ a b => vars a ++ vars b
  | EElem x i => x :: vars i
  | EStrOf a => vars a
  end.
Definition inner_vars (e : expr) : list name := match e with EVar _ => [] | _ => vars e end.
Definition freed (l : list stmt) : list name := flat_map (fun s => match s with NFree x => [x] | _ => [] end) l.

Inductive kind := VInt | VStr | VArr.
Definition has_rank (k : kind) : bool := match k with VInt => false | _ => true end.

(* ccode.py 3160-3230: the statements, the expression in "return e;" and whether is_temp of the
   result is set to False *)
Definition print_return (ty : name -> kind) (r : name) (l : list stmt) : list stmt * expr * bool :=
  match last_of (flat_map assigns l) with
  | None => (l, EVar r, false)
  | Some (NAssign x e) =>
    if negb (existsb (fun v => mem v (freed l) || has_rank (ty v)) (inner_vars e)) && negb (match ty x with VArr => true | _ => false end)
    then (rev (without_last (rev l)), e, false)
    else (l, EVar r, true)
  | Some _ => (l, EVar r, true)
  end.

(* ------------------------------ running it ------------------------------ *)

Definition bind (o : option state) (f : state -> option state) : option state := match o with Some st => f st | None => None end.
Fixpoint times (k : nat) (f : Z -> state -> option state) (st : state) (i : Z) : option state :=
  match k with O => Some st | S k' => bind (f i st) (fun st' => times k' f st' (i + 1)) end.

(* The loop of C: for (x = 0; x < n; x += 1), so that x is n after it.  The loop of Fortran: do x =
   0, n - 1, with the same value after it. *)
Fixpoint run (s : stmt) (st : state) : option state :=
  let fix runs (l : list stmt) (st : state) : option state := match l with [] => Some st | s :: l' => bind (run s st) (runs l') end in
  match s with
  | NAssign x e => match eval st e with Some v => Some (set st x (Some v)) | None => None end
  | NAug x f e => match st x, eval st e with Some (OInt m), Some (OInt n) => Some (set st x (Some (OInt (f m n)))) | _, _ => None end
  | NIf c a b => match eval st c with Some (OInt 0) => runs b st | Some (OInt _) => runs a st | _ => None end
  | NFor x n b =>
    match eval st n with
    | Some (OInt n) =>
      bind (times (Z.to_nat n) (fun i st => runs b (set st x (Some (OInt i)))) st 0)
        (fun st' => Some (set st' x (Some (OInt (Z.max 0 n)))))
    | _ => None
    end
  | NGen b => runs b st
  | NFree x => Some (set st x None)
  end.
Definition runs : list stmt -> state -> option state :=
  fix runs (l : list stmt) (st : state) : option state := match l with [] => Some st | s :: l' => bind (run s st) (runs l') end.

Definition outcome : Type := option (obj * state).
(* C: the statements, then the value of the expression *)
Definition return_c (ty : name -> kind) (r : name) (frees : list name) (p : pexpr) (st : state) : outcome :=
  match print_return ty r (visit_return r frees p) with
  | (code, e, _) => match runs code st with Some st' => match eval st' e with Some v => Some (v, st') | None => None end | None => None end
  end.
(* Fortran: the statements, then "return"; the value of the function is in the variable *)
Definition return_fortran (r : name) (frees : list name) (p : pexpr) (st : state) : outcome :=
  match runs (visit_return r frees p) st with Some st' => match st' r with Some v => Some (v, st') | None => None end | None => None end.

(* ccode.py 3071-3077, after the body has been printed: is the result declared in the function?
   returns: all its returns, with the variables that they free *)
Definition is_temp (r : name) : bool := match r with Temp _ => true | User _ => false end.
Definition declared (ty : name -> kind) (r : name) (returns : list (list name * pexpr)) : bool :=
  has_rank (ty r) || negb (is_temp r && negb (existsb (fun q => snd (print_return ty r (visit_return r (fst q) (snd q)))) returns)).
(* does the printed code contain the name of the result? *)
Fixpoint mentions (r : name) (s : stmt) : bool :=
  match s with
  | NAssign x e | NAug x _ e => name_eqb r x || mem r (vars e)
  | NIf c a b => mem r (vars c) || existsb (mentions r) a || existsb (mentions r) b
  | NFor x n b => name_eqb r x || mem r (vars n) || existsb (mentions r) b
  | NGen b => existsb (mentions r) b
  | NFree x => name_eqb r x
  end.
Definition used (ty : name -> kind) (r : name) (q : list name * pexpr) : bool :=
  match print_return ty r (visit_return r (fst q) (snd q)) with (code, e, _) => existsb (mentions r) code || mem r (vars e) end.
