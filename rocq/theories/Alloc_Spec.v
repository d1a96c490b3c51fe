(* What Python does with the arrays of Alloc_Model, and the programs for which the memory is
   handled as it should be. *)
From Coq Require Import Bool Arith ZArith List.
From Verif Require Import Alloc_Model.
Import ListNotations.
Open Scope Z_scope.
Open Scope list_scope.

(* ------------------------------ Python ------------------------------ *)

(* An array has a shape and contents.  There is no memory to handle. *)
Record pstate := mk_pstate { p_env : env; p_arr : nat -> option (list Z * Z) }.

Definition py_dim (s : pstate) (d : dim) : option Z :=
  match d with
  | DLit n => Some n
  | DVar v => Some (p_env s v)
  | DShape y i => match p_arr s y with Some (sh, _) => nth_error sh i | None => None end
  end.
Fixpoint py_dims (s : pstate) (ds : list dim) : option (list Z) :=
  match ds with
  | [] => Some []
  | d :: ds' => match py_dim s d, py_dims s ds' with Some n, Some r => if n <? 0 then None else Some (n :: r) | _, _ => None end
  end.
(* the operands of an element by element expression: all of the shape sh *)
Fixpoint py_operands (s : pstate) (sh : list Z) (ys : list nat) : option (list Z) :=
  match ys with
  | [] => Some []
  | y :: ys' =>
    match p_arr s y, py_operands s sh ys' with
    | Some (sh', v), Some r => if list_eq_dec Z.eq_dec sh sh' then Some (v :: r) else None
    | _, _ => None
    end
  end.
Definition py_rhs (s : pstate) (r : rhs) : option (list Z * Z) :=
  match r with
  | RNew ds f | RUser ds f => option_map (fun sh => (sh, f (p_env s))) (py_dims s ds)
  | RElem _ y ys f =>
    match p_arr s y with
    | Some (sh, _) => option_map (fun vs => (sh, f vs)) (py_operands s sh (y :: ys))
    | None => None
    end
  end.
Definition py_set (s : pstate) (v : nat) (n : Z) : pstate := mk_pstate (fun w => if Nat.eqb w v then n else p_env s w) (p_arr s).
Definition py_bind (s : pstate) (x : nat) (a : list Z * Z) : pstate := mk_pstate (p_env s) (fun y => if Nat.eqb y x then Some a else p_arr s y).

Fixpoint py_stmt (fuel : nat) (st : stmt) (s : pstate) : outcome pstate :=
  match st with
  | SAssign x r => match py_rhs s r with Some a => ONext (py_bind s x a) | None => OErr end
  | SAug x f => match p_arr s x with Some (sh, v) => ONext (py_bind s x (sh, f v)) | None => OErr end
  | SRead v x => match p_arr s x with Some (_, n) => ONext (py_set s v n) | None => OErr end
  | SLen v x i => match py_dim s (DShape x i) with Some n => ONext (py_set s v n) | None => OErr end
  | SInt v f => ONext (py_set s v (f (p_env s)))
  | SIf b => py_branches fuel b s
  | SLoop c b => iterate fuel (fun s => c (p_env s)) (py_block fuel b) s
  | SBreak => OBreak s
  | SReturn (Some xs) => if forallb (fun x => match p_arr s x with Some _ => true | None => false end) xs then OReturn s xs else OErr
  | SReturn None => OReturn s []
  end
with py_block (fuel : nat) (b : block) (s : pstate) : outcome pstate :=
  match b with BNil => ONext s | BCons st b' => bind (py_stmt fuel st s) (py_block fuel b') end
with py_branches (fuel : nat) (b : branches) (s : pstate) : outcome pstate :=
  match b with
  | NoBranch => ONext s
  | Branch c b1 rest =>
    if (match c with CTrue => true | CFalse => false | CDyn f => f (p_env s) end) then py_block fuel b1 s else py_branches fuel rest s
  end.

(* does a function return arrays?  (statements that can never be reached are not counted) *)
Fixpoint gives_stmt (s : stmt) : bool :=
  match s with
  | SReturn (Some _) => true
  | SIf b => gives_branches b
  | SLoop _ b => gives_block b
  | _ => false
  end
with gives_block (b : block) : bool := match b with BNil => false | BCons s b' => gives_stmt s || gives_block b' end
with gives_branches (b : branches) : bool :=
  match b with
  | NoBranch => false
  | Branch CFalse _ rest => gives_branches rest
  | Branch CTrue b1 _ => gives_block b1
  | Branch (CDyn _) b1 rest => gives_block b1 || gives_branches rest
  end.

(* The function has no "return" without a value. *)
Fixpoint no_bare_stmt (s : stmt) : bool :=
  match s with
  | SReturn None => false
  | SIf b => no_bare_branches b
  | SLoop _ b => no_bare b
  | _ => true
  end
with no_bare (b : block) : bool := match b with BNil => true | BCons s b' => no_bare_stmt s && no_bare b' end
with no_bare_branches (b : branches) : bool :=
  match b with NoBranch => true | Branch _ b1 rest => no_bare b1 && no_bare_branches rest end.

(* A call of the function: the integers at the end and the arrays returned.  A function that
   returns arrays must not end without a return. *)
Definition py_function (fuel : nat) (b : block) (e : env) : outcome pstate :=
  match py_block fuel b (mk_pstate e (fun _ => None)) with
  | ONext s => if gives_block b then OErr else OReturn s []
  | r => r
  end.

(* ------------------------------ the generated code does the same ------------------------------ *)

(* It ends with the same integers and returns the same arrays; the memory of every other array
   has been freed, and no memory has been lost. *)
Definition same_result (ps : pstate) (xs : list nat) (o : outcome gstate) : Prop :=
  exists cs, o = OReturn cs xs
  /\ (forall v, g_env cs v = p_env ps v)
  /\ (forall x, In x xs -> exists sh v, p_arr ps x = Some (sh, v) /\ g_arr cs x = mk_cell sh (Some (Some v)))
  /\ (forall x, ~ In x xs -> c_data (g_arr cs x) = None)
  /\ g_leak cs = O.

(* ------------------------------ the programs ------------------------------ *)

(* Fixed: the shape of the variable is always the same literal.  Loose: no dimension of the
   variable is ever known before the program runs.  Free: any, but the variable may only be
   given another shape outside the loops that use it. *)
Inductive skind := Fixed (ds : list Z) | Loose | Free.
Definition mem (x : nat) (l : list nat) : bool := existsb (Nat.eqb x) l.
Definition minus (l l' : list nat) : list nat := filter (fun x => negb (mem x l')) l.
Definition both (l l' : list nat) : list nat := filter (fun x => mem x l') l.
Definition all_in (l l' : list nat) : bool := forallb (fun x => mem x l') l.
Definition is_fixed (k : skind) : bool := match k with Fixed _ => true | _ => false end.
Definition loose_names (kind : nat -> skind) (l : list nat) : list nat := filter (fun x => negb (is_fixed (kind x))) l.

(* the variables assigned in a block *)
Fixpoint assigned_stmt (s : stmt) : list nat :=
  match s with
  | SAssign x _ => [x]
  | SIf b => assigned_branches b
  | SLoop _ b => assigned b
  | _ => []
  end
with assigned (b : block) : list nat := match b with BNil => [] | BCons s b' => assigned_stmt s ++ assigned b' end
with assigned_branches (b : branches) : list nat :=
  match b with
  | NoBranch => []
  | Branch CFalse _ rest => assigned_branches rest
  | Branch CTrue b1 _ => assigned b1
  | Branch (CDyn _) b1 rest => assigned b1 ++ assigned_branches rest
  end.

(* known: surely assigned.  seen: assigned above, perhaps on another path.  pend: seen only in
   the branches above of an if statement, in which it was introduced once and not assigned
   again.  once: introduced in this block and not assigned since.  dirty: assigned in a branch
   above of an if statement that is not finished, or in a branch "if True:". *)
Record cst := mk_cst { known : list nat; seen : list nat; pend : list nat; once : list nat; dirty : list nat }.

Definition dim_reads (d : dim) : list nat := match d with DShape y _ => [y] | _ => [] end.
Definition rhs_reads (r : rhs) : list nat :=
  match r with
  | RNew ds _ | RUser ds _ => flat_map dim_reads ds
  | RElem _ y ys _ => y :: ys
  end.
Definition rhs_rank (rank : nat -> nat) (r : rhs) : nat := match r with RNew ds _ | RUser ds _ => length ds | RElem _ y _ _ => rank y end.
Fixpoint literals (ds : list dim) (ns : list Z) : bool :=
  match ds, ns with
  | [], [] => true
  | DLit n :: ds', m :: ns' => (n =? m) && literals ds' ns'
  | _, _ => false
  end.
Definition fixed_rhs (kind : nat -> skind) (r : rhs) (ns : list Z) : bool :=
  match r with
  | RNew ds _ => literals ds ns
  | RElem _ y _ _ => match kind y with Fixed ms => if list_eq_dec Z.eq_dec ms ns then true else false | _ => false end
  | RUser _ _ => false
  end.
Definition loose_rhs (kind : nat -> skind) (r : rhs) : bool :=
  match r with
  | RNew ds _ => forallb (fun d => match d with DLit _ => false | _ => true end) ds
  | RElem _ y _ _ => match kind y with Loose => true | _ => false end
  | RUser _ _ => true
  end.
(* x = x + ... *)
Definition own_update (x : nat) (r : rhs) : bool := match r with RElem false y _ _ => Nat.eqb x y | _ => false end.

Definition check_assign (kind : nat -> skind) (rank : nat -> nat) (fz : list nat) (x : nat) (r : rhs) (c : cst) : option cst :=
  if all_in (rhs_reads r) (known c) && Nat.eqb (rhs_rank rank r) (rank x) then
    if mem x (known c) then
      match kind x with
      | Fixed ns => if fixed_rhs kind r ns then Some c else None
      | k =>
        if own_update x r && negb (mem x (dirty c)) then Some c
        else if negb (mem x (rhs_reads r)) && match k with Free => negb (mem x fz) | _ => true end then
          Some (mk_cst (known c) (seen c) (pend c) (minus (once c) [x]) (minus (dirty c) [x]))
        else None
      end
    else if (negb (mem x (seen c)) || mem x (pend c))
         && match kind x with Fixed ns => negb (mem x (seen c)) && fixed_rhs kind r ns | Loose => loose_rhs kind r | Free => true end then
      Some (mk_cst (x :: known c) (x :: seen c) (minus (pend c) [x]) (x :: once c) (minus (dirty c) [x]))
    else None
  else None.

(* before the next branch of an if statement *)
Definition next_branch (kind : nat -> skind) (b : block) (c c1 : cst) : cst :=
  mk_cst (known c) (seen c1)
    (minus (pend c) (assigned b) ++ loose_names kind (minus (once c1) (known c)))
    (minus (once c) (assigned b))
    (dirty c ++ loose_names kind (assigned b)).
Definition enter_branch (c : cst) : cst := mk_cst (known c) (seen c) (pend c) [] (dirty c).
Definition enter_loop (c : cst) : cst := mk_cst (known c) (seen c) [] [] (dirty c).

(* inl: an "if True:", inr: the names introduced in every branch of an if statement with else *)
Fixpoint check_stmt (kind : nat -> skind) (rank : nat -> nat) (lp : bool) (fz U : list nat) (s : stmt) (c : cst) : option cst :=
  match s with
  | SAssign x r => check_assign kind rank fz x r c
  | SAug x _ | SRead _ x | SLen _ x _ => if mem x (known c) then Some c else None
  | SInt _ _ => Some c
  | SIf b =>
    match check_branches kind rank lp fz U true b c with
    | Some (c', inl _) => Some c'
    | Some (c', inr E) =>
      let E' := loose_names kind E in
      Some (mk_cst (E' ++ known c) (seen c') (minus (pend c) (assigned_branches b)) (minus (once c) (assigned_branches b)) (minus (dirty c) E'))
    | None => None
    end
  | SLoop _ b =>
    match check_block kind rank true (fz ++ known c) (U ++ assigned b) b (enter_loop c) with
    | Some c' => Some (mk_cst (known c) (seen c') (pend c) (minus (once c) (assigned b)) (dirty c'))
    | None => None
    end
  | SBreak => if lp then Some c else None
  | SReturn xs => if all_in (match xs with Some l => l | None => [] end) (known c) && all_in U (seen c) then Some c else None
  end
with check_block (kind : nat -> skind) (rank : nat -> nat) (lp : bool) (fz U : list nat) (b : block) (c : cst) : option cst :=
  match b with
  | BNil => Some c
  | BCons s b' => match check_stmt kind rank lp fz U s c with Some c1 => check_block kind rank lp fz U b' c1 | None => None end
  end
with check_branches (kind : nat -> skind) (rank : nat -> nat) (lp : bool) (fz U : list nat) (first : bool) (b : branches) (c : cst) : option (cst * (unit + list nat)) :=
  match b with
  | NoBranch => Some (c, inr [])
  | Branch CFalse _ rest => check_branches kind rank lp fz U first rest c
  | Branch CTrue b1 _ =>
    match check_block kind rank lp fz U b1 (enter_branch c) with
    | Some c1 =>
      if first then
        Some (mk_cst (known c) (seen c1) (minus (pend c) (assigned b1)) (minus (once c) (assigned b1)) (dirty c1 ++ loose_names kind (assigned b1)), inl tt)
      else Some (next_branch kind b1 c c1, inr (minus (known c1) (known c)))
    | None => None
    end
  | Branch (CDyn _) b1 rest =>
    match check_block kind rank lp fz U b1 (enter_branch c) with
    | Some c1 =>
      match check_branches kind rank lp fz U false rest (next_branch kind b1 c c1) with
      | Some (c2, inr E) => Some (c2, inr (both (minus (known c1) (known c)) E))
      | _ => None
      end
    | None => None
    end
  end.

Definition tidy (kind : nat -> skind) (rank : nat -> nat) (b : block) : Prop :=
  check_block kind rank false [] [] b (mk_cst [] [] [] [] []) <> None.

(* no return statement at all *)
Fixpoint no_return_stmt (s : stmt) : bool :=
  match s with
  | SReturn _ => false
  | SIf b => no_return_branches b
  | SLoop _ b => no_return b
  | _ => true
  end
with no_return (b : block) : bool := match b with BNil => true | BCons s b' => no_return_stmt s && no_return b' end
with no_return_branches (b : branches) : bool := match b with NoBranch => true | Branch _ b1 rest => no_return b1 && no_return_branches rest end.
