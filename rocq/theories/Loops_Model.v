(* The unrolling of array statements to loops.
   Sources: pyccel/ast/utilities.py 241-281 (compatible_operation), 285-312
   (get_deep_indexed_element), 316-442 (insert_index), 451-760 (collect_loops, the branch of
   elementwise assignments), 902-949 (insert_fors), 1032-1089 (expand_to_loops).
   Simplifications: arrays are NumPy arrays of one order; the operands are variables and
   slices of variables (no transpose, no indexable function such as linspace); functions that
   are not elemental are reductions of an expression to a number; the integers in subscripts
   are not assigned in the block; values are integers. *)
From Coq Require Import Bool Arith ZArith Lia List.
Import ListNotations.
Open Scope list_scope.

Inductive var := VUser (n : nat) | VTemp (n : nat).

(* An element of a shape: a literal, or an expression that is known by its name *)
Inductive len := LConst (n : nat) | LSym (k : nat).

(* The start of a slice: absent, a literal, an integer variable *)
Inductive start := SNone | SLit (z : Z) | SVar (k : nat).

(* A subscript.  DIdx: after insert_index; the number of the loop, or the literal 0 *)
Inductive dim :=
| DAt (k : nat)
| DSlice (st : start) (step : option Z) (l base : len)
| DIdx (lev : option nat) (st : start) (step : option Z) (base : len).

(* Variable has a slice (:) for each dimension. *)
Record operand := mk_op { o_var : var; o_dims : list dim }.

(* ERed: a function that is not elemental, e.g. numpy.sum, of an expression of the given shape *)
Inductive expr :=
| ELit (z : Z)
| EOp (o : operand)
| EUn (f : Z -> Z) (e : expr)
| EBin (f : Z -> Z -> Z) (e1 e2 : expr)
| ERed (g : list Z -> Z) (sh : list len) (e : expr).

Record stmt := mk_stmt { s_lhs : operand; s_rhs : expr }.

Definition is_slice (d : dim) : bool := match d with DSlice _ _ _ _ => true | _ => false end.
Definition dims_shape (l : list dim) : list len := flat_map (fun d => match d with DSlice _ _ n _ => [n] | _ => [] end) l.
Definition shape (o : operand) : list len := dims_shape (o_dims o).
Definition rank (o : operand) : nat := List.length (shape o).

Definition len_eqb (a b : len) : bool :=
  match a, b with
  | LConst x, LConst y => Nat.eqb x y
  | LSym x, LSym y => Nat.eqb x y
  | _, _ => false
  end.
Definition is_one (l : len) : bool := len_eqb l (LConst 1).

Definition var_eqb (a b : var) : bool :=
  match a, b with
  | VUser x, VUser y => Nat.eqb x y
  | VTemp x, VTemp y => Nat.eqb x y
  | _, _ => false
  end.

(* utilities.py 262-281: compatible_operation *)
Fixpoint bools_eqb (a b : list bool) : bool :=
  match a, b with
  | [], [] => true
  | x :: a', y :: b' => Bool.eqb x y && bools_eqb a' b'
  | _, _ => false
  end.
Definition compatible (vectors : bool) (os : list operand) : bool :=
  let ranked := filter (fun o => negb (Nat.eqb (rank o) 0)) os in
  if vectors && negb (Nat.eqb (List.length ranked) 0) then
    match map (fun o => map is_one (shape o)) ranked with
    | [] => true
    | s :: l => forallb (bools_eqb s) l
    end
  else forallb (fun o => Nat.eqb (rank o) 0) os.

(* utilities.py 393-399: the position of the slice, counted from the end; i, p: -i, -pos *)
Fixpoint find_slice (l : list dim) (i p : nat) : nat :=
  match l with
  | [] => p
  | d :: l' => if Nat.leb i p then find_slice l' (S i) (if is_slice d then p else S p) else p
  end.

Fixpoint set_dim (l : list dim) (n : nat) (f : dim -> dim) : list dim :=
  match l, n with
  | [], _ => []
  | d :: l', O => f d :: l'
  | d :: l', S n' => d :: set_dim l' n' f
  end.

(* utilities.py 350-421: insert_index; p is -pos, lev the number of index_var *)
Definition insert_index (lev p : nat) (o : operand) : operand :=
  if Nat.eqb (rank o) 0 || Nat.ltb (rank o) p then o
  else
    let r := rev (o_dims o) in
    let q := find_slice r 1 p in
    mk_op (o_var o) (rev (set_dim r (q - 1) (fun d =>
      match d with
      | DSlice st step l base => DIdx (if is_one l then None else Some lev) st step base
      | d => d
      end))).

Fixpoint insert_expr (lev p : nat) (e : expr) : expr :=
  match e with
  | ELit z => ELit z
  | EOp o => EOp (insert_index lev p o)
  | EUn f e1 => EUn f (insert_expr lev p e1)
  | EBin f e1 e2 => EBin f (insert_expr lev p e1) (insert_expr lev p e2)
  | ERed g sh e1 => ERed g sh e1
  end.
Definition insert_stmt (lev p : nat) (s : stmt) : stmt := mk_stmt (insert_index lev p (s_lhs s)) (insert_expr lev p (s_rhs s)).

(* utilities.py 566-622: the operands into which indices are inserted *)
Fixpoint operands (e : expr) : list operand :=
  match e with
  | ELit _ => []
  | EOp o => [o]
  | EUn _ e1 => operands e1
  | EBin _ e1 e2 => operands e1 ++ operands e2
  | ERed _ _ _ => []
  end.
Definition accesses (s : stmt) : list operand := s_lhs s :: operands (s_rhs s).

(* the variables in calls *)
Fixpoint all_vars (e : expr) : list var :=
  match e with
  | ELit _ => []
  | EOp o => [o_var o]
  | EUn _ e1 => all_vars e1
  | EBin _ e1 e2 => all_vars e1 ++ all_vars e2
  | ERed _ _ e1 => all_vars e1
  end.
(* utilities.py 658-667: dependencies *)
Fixpoint dependencies (e : expr) : list var :=
  match e with
  | ELit _ | EOp _ => []
  | EUn _ e1 => dependencies e1
  | EBin _ e1 e2 => dependencies e1 ++ dependencies e2
  | ERed _ _ e1 => all_vars e1
  end.

(* utilities.py 669-699: calls become temporaries; the assigns and the new expression *)
Fixpoint pull (k : nat) (e : expr) : nat * list stmt * expr :=
  match e with
  | ELit z => (k, [], ELit z)
  | EOp o => (k, [], EOp o)
  | EUn f e1 => let '(k1, l1, e1') := pull k e1 in (k1, l1, EUn f e1')
  | EBin f e1 e2 =>
    let '(k1, l1, e1') := pull k e1 in
    let '(k2, l2, e2') := pull k1 e2 in
    (k2, l1 ++ l2, EBin f e1' e2')
  | ERed g sh e1 => let t := mk_op (VTemp k) [] in (S k, [mk_stmt t (ERed g sh e1)], EOp t)
  end.

(* utilities.py 712-735: insert indices until the statement is compatible *)
Fixpoint levels (vectors : bool) (p lev : nat) (s : stmt) : nat * stmt :=
  match p with
  | O => (lev, s)
  | S p' =>
    let s' := insert_stmt lev p s in
    if compatible vectors (accesses s') then (S lev, s') else levels vectors p' (S lev) s'
  end.

(* LoopCollection; lists of items are written as sequences *)
Inductive items :=
| INil
| ILine (s : stmt) (rest : items)
| ILoop (l : len) (modified : list var) (body rest : items).

(* utilities.py 781-787: new loops *)
Fixpoint nest (sh : list len) (x : var) (s : stmt) : items :=
  match sh with
  | [] => ILine s INil
  | l :: sh' => ILoop l [x] (nest sh' x s) INil
  end.

(* utilities.py 765-791: the line is saved in the last loops while their lengths match; m:
   min(new_level, current_level) *)
Fixpoint place (m : nat) (deps : list var) (sh : list len) (x : var) (s : stmt) (r : items) : items :=
  match r with
  | INil => nest sh x s
  | ILine t rest => ILine t (place m deps sh x s rest)
  | ILoop l mods body INil =>
    match m, sh with
    | S m', l' :: sh' =>
      if len_eqb l l' && negb (existsb (fun u => existsb (var_eqb u) mods) deps)
      then ILoop l (x :: mods) (place m' deps sh' x s body) INil
      else ILoop l mods body (nest sh x s)
    | _, _ => ILoop l mods body (nest sh x s)
    end
  | ILoop l mods body rest => ILoop l mods body (place m deps sh x s rest)
  end.

Fixpoint append (r r' : items) : items :=
  match r with
  | INil => r'
  | ILine t rest => ILine t (append rest r')
  | ILoop l mods body rest => ILoop l mods body (append rest r')
  end.
Fixpoint lines (l : list stmt) : items := match l with [] => INil | s :: l' => ILine s (lines l') end.

(* utilities.py 524-792: one assignment; the state is the result, current_level and the
   number of temporaries *)
Record state := mk_state { st_result : items; st_level : nat; st_temps : nat }.
Definition collect_line (vectors : bool) (st : state) (s : stmt) : state :=
  if compatible vectors (accesses s) then mk_state (append (st_result st) (ILine s INil)) 0 (st_temps st)
  else
    let '(k, assigns, rhs) := pull (st_temps st) (s_rhs s) in
    let level := match assigns with [] => st_level st | _ => 0 end in
    let result := append (st_result st) (lines assigns) in
    let '(new_level, s') := levels vectors (rank (s_lhs s)) 0 (mk_stmt (s_lhs s) rhs) in
    mk_state (place (Nat.min new_level level) (dependencies (s_rhs s)) (firstn new_level (shape (s_lhs s))) (o_var (s_lhs s)) s' result)
      new_level k.

Definition collect_loops (vectors : bool) (block : list stmt) : items :=
  st_result (fold_left (collect_line vectors) block (mk_state INil 0 0)).

(* The generated code *)
Inductive code :=
| CNil
| CLine (s : stmt) (rest : code)
| CFor (lev : nat) (l : len) (body rest : code).

(* substitute(indices[lev], LiteralInteger(0)) *)
Definition zero_dim (lev : nat) (d : dim) : dim :=
  match d with
  | DIdx (Some k) st step base => if Nat.eqb k lev then DIdx None st step base else d
  | d => d
  end.
Definition zero_op (lev : nat) (o : operand) : operand := mk_op (o_var o) (map (zero_dim lev) (o_dims o)).
Fixpoint zero_expr (lev : nat) (e : expr) : expr :=
  match e with
  | ELit z => ELit z
  | EOp o => EOp (zero_op lev o)
  | EUn f e1 => EUn f (zero_expr lev e1)
  | EBin f e1 e2 => EBin f (zero_expr lev e1) (zero_expr lev e2)
  | ERed g sh e1 => ERed g sh (zero_expr lev e1)
  end.
Fixpoint zero_code (lev : nat) (c : code) : code :=
  match c with
  | CNil => CNil
  | CLine s rest => CLine (mk_stmt (zero_op lev (s_lhs s)) (zero_expr lev (s_rhs s))) (zero_code lev rest)
  | CFor k l body rest => CFor k l (zero_code lev body) (zero_code lev rest)
  end.
Fixpoint code_app (c c' : code) : code :=
  match c with
  | CNil => c'
  | CLine s rest => CLine s (code_app rest c')
  | CFor k l body rest => CFor k l body (code_app rest c')
  end.

(* utilities.py 902-949: insert_fors *)
Fixpoint insert_fors (lev : nat) (r : items) : code :=
  match r with
  | INil => CNil
  | ILine s rest => CLine s (insert_fors lev rest)
  | ILoop l _ body rest =>
    let b := insert_fors (S lev) body in
    if is_one l then code_app (zero_code lev b) (insert_fors lev rest) else CFor lev l b (insert_fors lev rest)
  end.

(* utilities.py 1076-1089: expand_to_loops *)
Definition expand (vectors : bool) (block : list stmt) : code := insert_fors 0 (collect_loops vectors block).

(* ------------------- execution of the generated code ------------------- *)

(* The values of the names in shapes and subscripts, and of the loop indices *)
Definition mem := var -> list Z -> Z.

Definition len_val (rho : nat -> nat) (l : len) : nat := match l with LConst n => n | LSym k => rho k end.
Definition step_val (step : option Z) : Z := match step with Some z => z | None => 1%Z end.

(* utilities.py 406-414: the start that is added to the index *)
Definition start_val (rho : nat -> nat) (sg : nat -> Z) (st : start) (base : len) : Z :=
  match st with
  | SNone => 0
  | SLit z => if Z.ltb z 0 then Z.of_nat (len_val rho base) + z else z
  | SVar k => sg k
  end%Z.

(* The address of an element: v is a position in the remaining slices; slices of length one
   are broadcast. *)
Fixpoint addr (rho : nat -> nat) (sg : nat -> Z) (env : nat -> nat) (l : list dim) (v : list nat) : list Z :=
  match l with
  | [] => []
  | DAt k :: l' => Z.of_nat k :: addr rho sg env l' v
  | DIdx lev st step base :: l' =>
    (start_val rho sg st base + step_val step * Z.of_nat (match lev with Some k => env k | None => 0 end))%Z :: addr rho sg env l' v
  | DSlice st step n base :: l' =>
    let i := if Nat.eqb (len_val rho n) 1 then 0 else hd 0 v in
    (start_val rho sg st base + step_val step * Z.of_nat i)%Z :: addr rho sg env l' (tl v)
  end.

(* Positions align on the right. *)
Definition op_addr (rho : nat -> nat) (sg : nat -> Z) (env : nat -> nat) (o : operand) (v : list nat) : list Z :=
  addr rho sg env (o_dims o) (skipn (List.length v - rank o) v).

(* All positions of an array, the last index fastest *)
Fixpoint box (sh : list nat) : list (list nat) :=
  match sh with
  | [] => [[]]
  | n :: sh' => flat_map (fun i => map (cons i) (box sh')) (seq 0 n)
  end.

Fixpoint eval (rho : nat -> nat) (sg : nat -> Z) (env : nat -> nat) (m : mem) (e : expr) (v : list nat) : Z :=
  match e with
  | ELit z => z
  | EOp o => m (o_var o) (op_addr rho sg env o v)
  | EUn f e1 => f (eval rho sg env m e1 v)
  | EBin f e1 e2 => f (eval rho sg env m e1 v) (eval rho sg env m e2 v)
  | ERed g sh e1 => g (map (eval rho sg env m e1) (box (map (len_val rho) sh)))
  end.

Fixpoint zs_eqb (a b : list Z) : bool :=
  match a, b with
  | [], [] => true
  | x :: a', y :: b' => Z.eqb x y && zs_eqb a' b'
  | _, _ => false
  end.
Definition write (m : mem) (x : var) (a : list Z) (z : Z) : mem := fun y b => if var_eqb y x && zs_eqb b a then z else m y b.

(* A line whose operands have slices left is an array statement of the target language *)
Definition exec_line (rho : nat -> nat) (sg : nat -> Z) (env : nat -> nat) (s : stmt) (m : mem) : mem :=
  fold_left (fun m1 v => write m1 (o_var (s_lhs s)) (op_addr rho sg env (s_lhs s) v) (eval rho sg env m (s_rhs s) v))
    (box (map (len_val rho) (shape (s_lhs s)))) m.

Definition set_env (env : nat -> nat) (k i : nat) : nat -> nat := fun j => if Nat.eqb j k then i else env j.

Fixpoint exec (rho : nat -> nat) (sg : nat -> Z) (env : nat -> nat) (c : code) (m : mem) : mem :=
  match c with
  | CNil => m
  | CLine s rest => exec rho sg env rest (exec_line rho sg env s m)
  | CFor k l body rest =>
    exec rho sg env rest (fold_left (fun m1 i => exec rho sg (set_env env k i) body m1) (seq 0 (len_val rho l)) m)
  end.
