(* The memory of arrays: which Allocate and Deallocate statements are added, and what they do.
   Sources: pyccel/parser/semantic.py 835-867 (_garbage_collector), 1969-2003
   (is_memory_allocated_in_function), 2366-2470 (_assign_lhs_variable: first assignment), 2549-2890
   (_ensure_inferred_type_matches_existing: later assignments), 6123-6241 (_visit_IfSection,
   _visit_If), 6269-6340 (_visit_Return), 6585-6590 (_visit_FunctionDef), 5657-5694, 6114-6121
   (_visit_For, _visit_While), pyccel/ast/variable.py 206-303 (process_shape,
   set_changeable_shape), pyccel/ast/basic.py 151-186 (get_user_nodes),
   pyccel/codegen/printing/ccode.py 2036-2068, 2444-2576 and fcode.py 2591-2707 (declarations,
   Allocate, Deallocate).
   Simplifications: local NumPy arrays of one function only (no arguments, aliases, stack arrays,
   lists, classes or tuples); the elements of an array are one number; expressions combine arrays
   of the same shape; conditions and values are functions of the integer variables; for and while
   are the same. *)
From Coq Require Import Bool Arith ZArith Lia List.
Import ListNotations.
Open Scope Z_scope.
Open Scope list_scope.

(* ------------------------------ programs ------------------------------ *)

(* a dimension: a literal, an integer variable, or the dimension i of an array *)
Inductive dim := DLit (n : Z) | DVar (v : nat) | DShape (y i : nat).
Definition env := nat -> Z.

Inductive rhs :=
| RNew (dims : list dim) (f : env -> Z)                        (* np.zeros(dims), np.full(dims, v), ...: PyccelFunction *)
| RElem (call : bool) (y : nat) (ys : list nat) (f : list Z -> Z)  (* element by element; call: a PyccelFunction as np.sin, else an operator *)
| RUser (dims : list dim) (f : env -> Z).                      (* a call of a function of the user that returns an array *)

Inductive cond := CTrue | CFalse | CDyn (f : env -> bool).     (* else is CTrue *)

Inductive stmt :=
| SAssign (x : nat) (r : rhs)
| SAug (x : nat) (f : Z -> Z)                                  (* x += ... *)
| SRead (v x : nat)                                            (* v = an element of x *)
| SLen (v x i : nat)                                           (* v = x.shape[i] *)
| SInt (v : nat) (f : env -> Z)
| SIf (b : branches)
| SLoop (c : env -> bool) (b : block)
| SBreak
| SReturn (xs : option (list nat))                             (* None: return without a value; the arrays returned *)
with block := BNil | BCons (s : stmt) (b : block)
with branches := NoBranch | Branch (c : cond) (b : block) (rest : branches).

(* ------------------------------ generated code ------------------------------ *)

Inductive status := Unallocated | Allocated | Unknown.
Inductive gstmt :=
| GAlloc (x : nat) (dims : list dim) (st : status) (fn : bool) (* fn: alloc_type is "function" *)
| GAssign (x : nat) (r : rhs)
| GAug (x : nat) (f : Z -> Z)
| GRead (v x : nat)
| GLen (v x i : nat) (n : option Z)                            (* the literal, if the dimension is known *)
| GInt (v : nat) (f : env -> Z)
| GIf (b : gbranches)
| GLoop (c : env -> bool) (b : gblock)
| GBreak
| GReturn (value : bool) (frees xs : list nat)               (* value: an expression is returned *)
with gblock := GNil | GCons (s : gstmt) (b : gblock)
with gbranches := GNo | GBranch (c : cond) (b : gblock) (rest : gbranches).

Fixpoint gapp (b b' : gblock) : gblock := match b with GNil => b' | GCons s b1 => GCons s (gapp b1 b') end.

(* ------------------------------ the analysis ------------------------------ *)

(* The nodes above an Allocate, from the inside; nodes still under construction are not there. *)
Inductive frame := FSec | FIf | FLoop.
(* the last Allocate of a variable.  i_orphan: it is in an IfSection that has been replaced by
   its body (_visit_If 6215-6217): the section still is a user of the body *)
Record info := mk_info { i_status : status; i_path : list frame; i_orphan : bool; i_id : nat }.
Record an := mk_an {
  a_last : nat -> option info;
  a_shape : nat -> list (option Z);      (* Variable.shape: Some for a literal, None for PyccelArrayShapeElement *)
  a_frees : list nat;                    (* _allocs[-1] *)
  a_next : nat
}.
Definition an0 : an := mk_an (fun _ => None) (fun _ => []) [] O.

Definition dim_eqb (a b : dim) : bool :=
  match a, b with
  | DLit m, DLit n => m =? n
  | DVar v, DVar w => Nat.eqb v w
  | DShape y i, DShape z j => Nat.eqb y z && Nat.eqb i j
  | _, _ => false
  end.
Fixpoint dims_eqb (a b : list dim) : bool :=
  match a, b with
  | [], [] => true
  | x :: a', y :: b' => dim_eqb x y && dims_eqb a' b'
  | _, _ => false
  end.
(* process_shape *)
Definition static_of (d : dim) : option Z := match d with DLit n => Some n | _ => None end.
(* the shape of a variable as dimensions *)
Fixpoint own_dims (y i : nat) (sh : list (option Z)) : list dim :=
  match sh with
  | [] => []
  | Some n :: sh' => DLit n :: own_dims y (S i) sh'
  | None :: sh' => DShape y i :: own_dims y (S i) sh'
  end.
(* _infer_type: the shape of the right hand side *)
Definition rhs_dims (a : an) (r : rhs) : list dim :=
  match r with
  | RNew ds _ | RUser ds _ => ds
  | RElem _ y _ _ => own_dims y 0 (a_shape a y)
  end.
(* the shape of a result of a function is not known *)
Definition rhs_static (a : an) (r : rhs) : list (option Z) :=
  match r with
  | RUser ds _ => map (fun _ => None) ds
  | _ => map static_of (rhs_dims a r)
  end.
Definition is_user (r : rhs) : bool := match r with RUser _ _ => true | _ => false end.
Definition is_call (r : rhs) : bool := match r with RNew _ _ | RUser _ _ => true | RElem c _ _ _ => c end.

Definition has_sec (i : info) : bool := i_orphan i || existsb (fun f => match f with FSec => true | _ => false end) (i_path i).
Definition has_if (i : info) : bool := existsb (fun f => match f with FIf => true | _ => false end) (i_path i).
Definition has_if_or_loop (i : info) : bool := existsb (fun f => match f with FSec => false | _ => true end) (i_path i).
(* the outermost IfSection is not yet in an If (2820-2842) *)
Fixpoint open_path (p : list frame) : bool :=
  match p with
  | [] => false
  | FSec :: FIf :: p' => open_path p'
  | FSec :: p' => negb (existsb (fun f => match f with FSec => true | _ => false end) p') || open_path p'
  | _ :: p' => open_path p'
  end.
Definition open_sec (i : info) : bool :=
  open_path (i_path i) || (i_orphan i && negb (existsb (fun f => match f with FSec => true | _ => false end) (i_path i))).

Definition upd {A : Type} (m : nat -> A) (x : nat) (v : A) : nat -> A := fun y => if Nat.eqb y x then v else m y.
Definition add_alloc (x : nat) (st : status) (sh : list (option Z)) (fr : list nat) (a : an) : an :=
  mk_an (upd (a_last a) x (Some (mk_info st [] false (a_next a)))) (upd (a_shape a) x sh) fr (S (a_next a)).

(* 2366-2470 and 2745-2890 *)
Definition visit_assign (lp : bool) (x : nat) (r : rhs) (a : an) : gblock * an :=
  let ds := rhs_dims a r in
  match a_last a x with
  | None =>
    let st := if lp then Unknown else Unallocated in
    (GCons (GAlloc x ds st (is_user r)) (GCons (GAssign x r) GNil), add_alloc x st (rhs_static a r) (x :: a_frees a) a)
  | Some i =>
    let same := dims_eqb ds (own_dims x 0 (a_shape a x)) in
    let literal := forallb (fun o => match o with Some _ => true | None => false end) (a_shape a x) in
    if negb same || is_user r || (negb literal && is_call r) then
      let st := if open_sec i then i_status i else if has_if_or_loop i then Unknown else Allocated in
      (GCons (GAlloc x ds st (is_user r)) (GCons (GAssign x r) GNil),
       add_alloc x st (map (fun _ => None) (a_shape a x)) (match st with Unallocated => x :: a_frees a | _ => a_frees a end) a)
    else if has_sec i && negb (has_if i) then
      (GCons (GAlloc x ds (i_status i) false) (GCons (GAssign x r) GNil), add_alloc x (i_status i) (a_shape a x) (a_frees a) a)
    else (GCons (GAssign x r) GNil, a)
  end.

(* a node is built around the Allocates made since the counter was n *)
Definition close_info (n : nat) (f : frame) (orphan : bool) (i : info) : info :=
  if (i_id i <? n)%nat then i
  else if orphan then mk_info (i_status i) (i_path i) true (i_id i)
  else mk_info (i_status i) (i_path i ++ [f]) (i_orphan i) (i_id i).
Definition close (n : nat) (f : frame) (orphan : bool) (a : an) : an :=
  mk_an (fun x => option_map (close_info n f orphan) (a_last a x)) (a_shape a) (a_frees a) (a_next a).

(* the last shape of each variable allocated in a block, as in the dictionaries of 6222 *)
Fixpoint allocs_stmt (s : gstmt) : list (nat * list dim) :=
  match s with
  | GAlloc x ds _ _ => [(x, ds)]
  | GIf b => allocs_branches b
  | GLoop _ b => allocs_block b
  | _ => []
  end
with allocs_block (b : gblock) : list (nat * list dim) :=
  match b with GNil => [] | GCons s b' => allocs_stmt s ++ allocs_block b' end
with allocs_branches (b : gbranches) : list (nat * list dim) :=
  match b with GNo => [] | GBranch _ b1 b' => allocs_block b1 ++ allocs_branches b' end.
Definition last_shape (x : nat) (l : list (nat * list dim)) : option (list dim) :=
  fold_left (fun o p => if Nat.eqb (fst p) x then Some (snd p) else o) l None.
Fixpoint branch_allocs (b : gbranches) : list (list (nat * list dim)) :=
  match b with GNo => [] | GBranch _ b1 b' => allocs_block b1 :: branch_allocs b' end.
Definition same_shapes (x : nat) (l : list (list (nat * list dim))) : bool :=
  match map (last_shape x) l with
  | Some ds :: rest => forallb (fun o => match o with Some ds' => dims_eqb ds ds' | None => false end) rest
  | _ => false
  end.
(* 6220-6239 *)
Definition merge_shapes (b : gbranches) (a : an) : an :=
  let l := branch_allocs b in
  mk_an (a_last a)
    (fun x => if existsb (fun p => Nat.eqb (fst p) x) (concat l) && negb (same_shapes x l) then map (fun _ => None) (a_shape a x) else a_shape a x)
    (a_frees a) (a_next a).

(* n: the counter before the first section.  first: no section has been kept yet.  The result
   is a body that replaces the if statement, or the sections *)
Inductive vbranches := VBody (b : gblock) | VIf (b : gbranches).

Fixpoint visit_stmt (lp : bool) (s : stmt) (a : an) : gblock * an :=
  match s with
  | SAssign x r => visit_assign lp x r a
  | SAug x f => (GCons (GAug x f) GNil, a)
  | SRead v x => (GCons (GRead v x) GNil, a)
  | SLen v x i => (GCons (GLen v x i (nth i (a_shape a x) None)) GNil, a)
  | SInt v f => (GCons (GInt v f) GNil, a)
  | SIf b =>
    match visit_branches lp true b a with
    | (VBody g, a') => (g, a')
    | (VIf g, a') => (GCons (GIf g) GNil, merge_shapes g (close (a_next a) FIf false a'))
    end
  | SLoop c b => let (g, a') := visit_block true b a in (GCons (GLoop c g) GNil, close (a_next a) FLoop false a')
  | SBreak => (GCons GBreak GNil, a)
  | SReturn xs =>
    let res := match xs with Some l => l | None => [] end in
    (GCons (GReturn (match xs with Some _ => true | None => false end) (filter (fun x => negb (existsb (Nat.eqb x) res)) (a_frees a)) res) GNil, a)
  end
with visit_block (lp : bool) (b : block) (a : an) : gblock * an :=
  match b with
  | BNil => (GNil, a)
  | BCons s b' => let (g, a1) := visit_stmt lp s a in let (g', a2) := visit_block lp b' a1 in (gapp g g', a2)
  end
with visit_branches (lp first : bool) (b : branches) (a : an) : vbranches * an :=
  match b with
  | NoBranch => (VIf GNo, a)
  | Branch CFalse _ rest => visit_branches lp first rest a
  | Branch CTrue b1 _ =>
    let (g, a1) := visit_block lp b1 a in
    if first then (VBody g, close (a_next a) FSec true a1) else (VIf (GBranch CTrue g GNo), close (a_next a) FSec false a1)
  | Branch (CDyn c) b1 rest =>
    let (g, a1) := visit_block lp b1 a in
    match visit_branches lp false rest (close (a_next a) FSec false a1) with
    | (VIf g', a2) => (VIf (GBranch (CDyn c) g g'), a2)
    | (VBody g', a2) => (VIf (GBranch (CDyn c) g (GBranch CTrue g' GNo)), a2)
    end
  end.

(* a return with a value *)
Fixpoint returns_stmt (s : stmt) : bool :=
  match s with
  | SReturn (Some _) => true
  | SIf b => returns_branches b
  | SLoop _ b => returns_block b
  | _ => false
  end
with returns_block (b : block) : bool := match b with BNil => false | BCons s b' => returns_stmt s || returns_block b' end
with returns_branches (b : branches) : bool :=
  match b with
  | NoBranch => false
  | Branch CFalse _ rest => returns_branches rest
  | Branch CTrue b1 _ => returns_block b1
  | Branch (CDyn _) b1 rest => returns_block b1 || returns_branches rest
  end.

(* the body of a function, with the frees at its end *)
Definition visit_function (b : block) : gblock * list nat :=
  let (g, a) := visit_block false b an0 in (g, if returns_block b then [] else a_frees a).

(* ------------------------------ execution ------------------------------ *)

Inductive outcome (A : Type) := ONext (s : A) | OBreak (s : A) | OReturn (s : A) (xs : list nat) | OErr | OUndef | OFuel.
Arguments ONext {A} _.
Arguments OBreak {A} _.
Arguments OReturn {A} _ _.
Arguments OErr {A}.
Arguments OUndef {A}.
Arguments OFuel {A}.
Definition bind {A : Type} (o : outcome A) (k : A -> outcome A) : outcome A := match o with ONext s => k s | r => r end.
Fixpoint iterate {A : Type} (fuel : nat) (c : A -> bool) (body : A -> outcome A) (s : A) : outcome A :=
  match fuel with
  | O => OFuel
  | S f =>
    if c s then
      match body s with
      | ONext s2 => iterate f c body s2
      | OBreak s2 => ONext s2
      | r => r
      end
    else ONext s
  end.

Inductive lang := LC | LFortran.
(* The data of an array: None is NULL or not allocated; Some None is memory that has not been
   assigned.  In C the shape stays readable after the memory has been freed. *)
Record cell := mk_cell { c_shape : list Z; c_data : option (option Z) }.
Record gstate := mk_gstate { g_env : env; g_arr : nat -> cell; g_leak : nat }.
Definition set_env (s : gstate) (v : nat) (n : Z) : gstate := mk_gstate (upd (g_env s) v n) (g_arr s) (g_leak s).
Definition set_cell (s : gstate) (x : nat) (c : cell) : gstate := mk_gstate (g_env s) (upd (g_arr s) x c) (g_leak s).
Definition is_null (c : cell) : bool := match c_data c with None => true | Some _ => false end.
(* memory that is overwritten without being freed *)
Definition lose (s : gstate) (x : nat) : gstate := if is_null (g_arr s x) then s else mk_gstate (g_env s) (g_arr s) (S (g_leak s)).

Definition eval_dim (l : lang) (s : gstate) (d : dim) : option Z :=
  match d with
  | DLit n => Some n
  | DVar v => Some (g_env s v)
  | DShape y i => match l with LFortran => if is_null (g_arr s y) then None else nth_error (c_shape (g_arr s y)) i | LC => nth_error (c_shape (g_arr s y)) i end
  end.
Fixpoint eval_dims (l : lang) (s : gstate) (ds : list dim) : option (list Z) :=
  match ds with
  | [] => Some []
  | d :: ds' => match eval_dim l s d, eval_dims l s ds' with Some n, Some r => Some (n :: r) | _, _ => None end
  end.
Definition free (s : gstate) (x : nat) : gstate := set_cell s x (mk_cell (c_shape (g_arr s x)) None).
Fixpoint free_all (s : gstate) (xs : list nat) : gstate := match xs with [] => s | x :: xs' => free_all (free s x) xs' end.
(* malloc, allocate *)
Definition fresh (l : lang) (s : gstate) (x : nat) (ds : list dim) : outcome gstate :=
  match eval_dims l s ds with
  | Some sh => ONext (set_cell s x (mk_cell sh (Some None)))
  | None => OUndef
  end.
Definition product (l : list Z) : Z := fold_right Z.mul 1 l.

Definition run_alloc (l : lang) (x : nat) (ds : list dim) (st : status) (fn : bool) (s : gstate) : outcome gstate :=
  let null := is_null (g_arr s x) in
  match l with
  | LC =>
    (* free(NULL) does nothing *)
    let s1 := match st with Unallocated => s | Allocated | Unknown => free s x end in
    if fn then ONext s1 else fresh l (lose s1 x) x ds
  | LFortran =>
    let realloc :=
      if null then OUndef
      else match eval_dims l s ds with
           | None => OUndef
           | Some sh => if existsb (fun n => negb (product (c_shape (g_arr s x)) =? n)) sh then fresh l (free s x) x ds else ONext s
           end in
    if fn then
      match st with
      | Unallocated => ONext s
      | Unknown => ONext (free s x)
      | Allocated => if null then OUndef else ONext (free s x)
      end
    else
      match st with
      | Unallocated => if null then fresh l s x ds else OUndef
      | Unknown => if null then fresh l s x ds else realloc
      | Allocated => realloc
      end
  end.

Fixpoint contents (s : gstate) (ys : list nat) : option (list (option Z)) :=
  match ys with
  | [] => Some []
  | y :: ys' => match c_data (g_arr s y), contents s ys' with Some v, Some r => Some (v :: r) | _, _ => None end
  end.
Fixpoint all_some (l : list (option Z)) : option (list Z) :=
  match l with
  | [] => Some []
  | Some v :: l' => option_map (cons v) (all_some l')
  | None :: _ => None
  end.
Fixpoint zlist_eqb (a b : list Z) : bool :=
  match a, b with
  | [], [] => true
  | x :: a', y :: b' => (x =? y) && zlist_eqb a' b'
  | _, _ => false
  end.
Definition run_assign (l : lang) (x : nat) (r : rhs) (s : gstate) : outcome gstate :=
  let sh := c_shape (g_arr s x) in
  match r with
  | RNew _ f => if is_null (g_arr s x) then OUndef else ONext (set_cell s x (mk_cell sh (Some (Some (f (g_env s))))))
  | RElem _ y ys f =>
    if is_null (g_arr s x) then OUndef
    else match contents s (y :: ys) with
         | None => OUndef
         | Some vs =>
           if forallb (fun z => zlist_eqb (c_shape (g_arr s z)) sh) (y :: ys) then
             ONext (set_cell s x (mk_cell sh (Some (option_map f (all_some vs)))))
           else OUndef
         end
  | RUser ds f =>
    match eval_dims l s ds with
    | None => OUndef
    | Some sh' =>
      let s1 := match l with LC => lose s x | LFortran => s end in
      ONext (set_cell s1 x (mk_cell sh' (Some (Some (f (g_env s))))))
    end
  end.

Definition holds (c : cond) (e : env) : bool := match c with CTrue => true | CFalse => false | CDyn f => f e end.

Fixpoint run_stmt (l : lang) (fuel : nat) (s : gstmt) (st : gstate) : outcome gstate :=
  match s with
  | GAlloc x ds t fn => run_alloc l x ds t fn st
  | GAssign x r => run_assign l x r st
  | GAug x f => match c_data (g_arr st x) with None => OUndef | Some v => ONext (set_cell st x (mk_cell (c_shape (g_arr st x)) (Some (option_map f v)))) end
  | GRead v x => match c_data (g_arr st x) with Some (Some n) => ONext (set_env st v n) | _ => OUndef end
  | GLen v x i n =>
    match n with
    | Some n => ONext (set_env st v n)
    | None => match eval_dim l st (DShape x i) with Some n => ONext (set_env st v n) | None => OUndef end
    end
  | GInt v f => ONext (set_env st v (f (g_env st)))
  | GIf b => run_branches l fuel b st
  | GLoop c b => iterate fuel (fun s => c (g_env s)) (run_block l fuel b) st
  | GBreak => OBreak st
  | GReturn value fr xs =>
    (* ccode.py 3170-3189: a return without a value is printed as "return;" and its stmt, the
       Deallocates, is not printed; fcode.py 3034-3039 prints stmt *)
    match l, value with LC, false => OReturn st xs | _, _ => OReturn (free_all st fr) xs end
  end
with run_block (l : lang) (fuel : nat) (b : gblock) (st : gstate) : outcome gstate :=
  match b with
  | GNil => ONext st
  | GCons s b' => bind (run_stmt l fuel s st) (run_block l fuel b')
  end
with run_branches (l : lang) (fuel : nat) (b : gbranches) (st : gstate) : outcome gstate :=
  match b with
  | GNo => ONext st
  | GBranch c b1 rest => if holds c (g_env st) then run_block l fuel b1 st else run_branches l fuel rest st
  end.

(* all arrays are NULL at first: ccode.py 2068 *)
Definition gstate0 (e : env) : gstate := mk_gstate e (fun _ => mk_cell [] None) O.
Definition run_function (l : lang) (fuel : nat) (b : block) (e : env) : outcome gstate :=
  let (g, fr) := visit_function b in
  match run_block l fuel g (gstate0 e) with
  | ONext s => OReturn (free_all s fr) []
  | r => r
  end.
