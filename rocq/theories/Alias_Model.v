(** Pointers to arrays and the lifetime of what they point at.

    Models /repo/pyccel/parser/semantic.py lines 835-928 (_garbage_collector,
    _check_pointer_targets), 930-1060 (_indicate_pointer_target), 2126-2172
    (_ensure_target), 2232-2530 (_assign_lhs_variable), 2607-2672
    (_ensure_inferred_type_matches_existing), 5535-5566 (the end of
    _visit_Assign), 6325-6340 (the end of _visit_Return) and 6554-6651 (the end
    of _visit_FunctionDef), with the meaning of Allocate, Deallocate and
    AliasAssign in /repo/pyccel/codegen/printing/ccode.py lines 2535-2576 and
    3388-3414 and /repo/pyccel/codegen/printing/fcode.py lines 2441-2462 and
    2680-2707.

    Simplifications: one function; its variables are NumPy arrays of rank 1, the
    arguments or local ones; an array is created with known contents, or a
    variable is assigned another one or a slice of it.  What conditions and
    loops decide is given by a list of numbers.  All the Return statements
    return the same variable (or nothing), which is then the result of the
    function.  Managed memory, lists, classes and temporaries are not modelled. *)

From Coq Require Import List ZArith Bool Arith.
Import ListNotations.

Notation var := nat (only parsing).

(** ** The source *)

Inductive stmt :=
| Skip
| Seq (a b : stmt)
| New (x : var) (vs : list Z)          (* x = np.array(vs) *)
| Point (x y : var) (k : nat)          (* x = y, or x = y[k:] *)
| Write (x : var) (i : nat) (v : Z)    (* x[i] = v *)
| Read (x : var) (i : nat)             (* print(x[i]) *)
| If (a b : stmt)
| Loop (a : stmt)
| Return.

Record function := Fun { args : list var; body : stmt; result : option var }.

(** ** The semantic stage *)

(* memory_handling: an argument (on the heap of the caller), "heap" or "alias". *)
Inductive kind := Argument | Heap | Alias.

(* What the semantic parser knows: the variables of the scope, the pairs of
   _pointer_targets[-1] (a key without targets is never made), the variables
   with is_target. *)
Record scope := Scope {
  kinds : list (var * kind);
  targets : list (var * var);
  is_target : list var }.

Definition kind_of (s : scope) (x : var) : option kind :=
  match find (fun p => fst p =? x) (kinds s) with Some p => Some (snd p) | None => None end.

Definition mem (x : var) (l : list var) : bool := existsb (Nat.eqb x) l.

(* _allocs[-1]: every local array, 2448-2469. *)
Definition is_local (s : scope) (x : var) : bool :=
  match kind_of s x with Some Heap | Some Alias => true | _ => false end.

(* The targets of a pointer. *)
Definition targets_of (s : scope) (x : var) : list var :=
  map snd (filter (fun p => fst p =? x) (targets s)).

(* 2614-2620: some pointer has the variable among its targets. *)
Definition pointed_at (s : scope) (x : var) : bool :=
  existsb (fun p => snd p =? x) (targets s).

Definition declare (s : scope) (x : var) (k : kind) : scope :=
  Scope ((x, k) :: kinds s) (targets s) (is_target s).

Definition mark (s : scope) (x : var) : scope :=
  Scope (kinds s) (targets s) (x :: is_target s).

(* The statements which are generated. *)
Inductive code :=
| CSkip
| CSeq (a b : code)
| CNew (x : var) (vs : list Z)         (* Allocate and Assign *)
| CPoint (x y : var) (k : nat)         (* AliasAssign *)
| CCopy (x y : var) (k : nat)          (* Allocate and Assign *)
| CWrite (x : var) (i : nat) (v : Z)
| CRead (x : var) (i : nat)
| CIf (a b : code)
| CLoop (a : code)
| CReturn (frees : list var).          (* Deallocate ..., Return *)

(* 2607-2672 for the assignment of a new array: an error, or go on. *)
Definition reassign_new (s : scope) (x : var) (k : kind) : bool :=
  if mem x (is_target s) then
    (if pointed_at s x then false
     else match k with Argument => false (* ARRAY_IS_ARG *) | _ => true end)
  else
    match k with
    | Argument => false      (* ARRAY_IS_ARG, 2795 *)
    | Alias => false         (* INVALID_POINTER_REASSIGN *)
    | Heap => true
    end.

(* 930-1015: the target is a variable, or an IndexedElement of it. *)
Definition indicate (s : scope) (x y : var) : option scope :=
  if x =? y then Some s
  else
    match kind_of s y with
    | None => None
    | Some Alias =>
      match targets_of s y with
      | [] => None           (* "Pointer cannot point at a non-local pointer" *)
      | ts => Some (Scope (kinds s) (map (fun t => (x, t)) ts ++ targets s) (is_target s))
      end
    | Some _ =>
      Some (Scope (kinds s) ((x, y) :: targets s) (y :: is_target s))
    end.

(* 2126-2163: the variable of the right-hand side becomes a target. *)
Definition ensure_target (s : scope) (y : var) : scope :=
  match kind_of s y with
  | Some Alias | None => s
  | Some _ => mark s y
  end.

(* 895-915: the pointers which are released are removed; is a released variable
   still a target? *)
Definition pop_pointers (s : scope) (r : option var) : scope :=
  Scope (kinds s)
        (filter (fun p => negb (is_local s (fst p)
                                && match r with Some x => negb (fst p =? x) | None => true end))
                (targets s))
        (is_target s).

Definition check_targets (s : scope) (r : option var) : option scope :=
  let s' := pop_pointers s r in
  if existsb (fun p => is_local s (snd p)
                       && match r with Some x => negb (snd p =? x) | None => true end)
             (targets s')
  then None else Some s'.

(* 6330: what is deallocated.  Deallocate does nothing for an alias. *)
Definition frees (s : scope) (r : option var) : list var :=
  map fst (filter (fun p => match snd p with Heap => true | _ => false end
                            && match r with Some x => negb (fst p =? x) | None => true end)
                  (kinds s)).

Fixpoint visit (r : option var) (c : stmt) (s : scope) : option (code * scope) :=
  match c with
  | Skip => Some (CSkip, s)
  | Seq a b =>
    match visit r a s with
    | None => None
    | Some (a', s1) =>
      match visit r b s1 with
      | None => None
      | Some (b', s2) => Some (CSeq a' b', s2)
      end
    end
  | New x vs =>
    match kind_of s x with
    | None => Some (CNew x vs, declare s x Heap)
    | Some k => if reassign_new s x k then Some (CNew x vs, s) else None
    end
  | Point x y k =>
    match kind_of s y with
    | None => None           (* undefined variable *)
    | Some _ =>
      let s1 := ensure_target s y in
      match kind_of s1 x with
      | None =>
        match indicate (declare s1 x Alias) x y with
        | Some s2 => Some (CPoint x y k, s2)
        | None => None
        end
      | Some kx =>
        if mem x (is_target s1) && pointed_at s1 x then None
        else
          match kx with
          | Alias =>
            match indicate s1 x y with
            | Some s2 => Some (CPoint x y k, s2)
            | None => None
            end
          | Heap => if mem x (is_target s1) then Some (CCopy x y k, s1)
                    else None (* ASSIGN_ARRAYS_ONE_ANOTHER *)
          | Argument => None (* ASSIGN_ARRAYS_ONE_ANOTHER, ARRAY_IS_ARG *)
          end
      end
    end
  | Write x i v =>
    match kind_of s x with None => None | Some _ => Some (CWrite x i v, s) end
  | Read x i =>
    match kind_of s x with None => None | Some _ => Some (CRead x i, s) end
  | If a b =>
    match visit r a s with
    | None => None
    | Some (a', s1) =>
      match visit r b s1 with
      | None => None
      | Some (b', s2) => Some (CIf a' b', s2)
      end
    end
  | Loop a =>
    match visit r a s with
    | None => None
    | Some (a', s1) => Some (CLoop a', s1)
    end
  | Return =>
    match match r with Some x => kind_of s x | None => Some Heap end with
    | None => None           (* undefined variable *)
    | Some _ =>
      match check_targets s r with
      | None => None
      | Some s' => Some (CReturn (frees s r), s')
      end
    end
  end.

Definition start_scope (l : list var) : scope :=
  Scope (map (fun x => (x, Argument)) l) [] [].

Fixpoint position (x : var) (l : list var) : option nat :=
  match l with
  | [] => None
  | y :: r => if y =? x then Some 0 else
                match position x r with Some n => Some (S n) | None => None end
  end.

Fixpoint positions (ts l : list var) : option (list nat) :=
  match ts with
  | [] => Some []
  | t :: r =>
    match position t l, positions r l with
    | Some n, Some ns => Some (n :: ns)
    | _, _ => None           (* UNSUPPORTED_POINTER_RETURN_VALUE *)
    end
  end.

(* What is generated: the body, what is released at its end if no Return has a
   value (_garbage_collector), and the result_pointer_map of the result. *)
Record compiled := Compiled {
  cbody : code;
  cend : list var;
  cmap : list nat }.

(* 6585-6651 *)
Definition compile (f : function) : option compiled :=
  match visit (result f) (body f) (start_scope (args f)) with
  | None => None
  | Some (c, s) =>
    match check_targets s (result f) with
    | None => None
    | Some s' =>
      match result f with
      | None => Some (Compiled c (frees s None) [])
      | Some r =>
        match kind_of s' r with
        | Some Alias =>
          match positions (targets_of s' r) (args f) with
          | Some ns => Some (Compiled c [] ns)
          | None => None
          end
        | _ => Some (Compiled c [] [])
        end
      end
    end
  end.

(** ** Python *)

(* A variable refers to an object from an offset on. *)
Notation place := (nat * nat)%type (only parsing).

Definition upd (f : var -> option (nat * nat)) (x : var) (v : option (nat * nat)) :=
  fun y => if y =? x then v else f y.

Fixpoint set_nth {A : Type} (n : nat) (v : A) (l : list A) : list A :=
  match l, n with
  | [], _ => []
  | _ :: r, O => v :: r
  | x :: r, S m => x :: set_nth m v r
  end.

Record pstate := P {
  penv : var -> option (nat * nat);
  pheap : list (list Z);
  ptrace : list Z;
  pdone : bool }.

Definition punder (s : pstate) (x : var) (i : nat) : option (nat * nat * Z) :=
  match penv s x with
  | Some (o, k) =>
    match nth_error (pheap s) o with
    | Some vs => match nth_error vs (k + i) with Some v => Some (o, k + i, v) | None => None end
    | None => None
    end
  | None => None
  end.

Fixpoint iterate {S : Type} (n : nat) (f : S -> option S) (s : S) : option S :=
  match n with
  | O => Some s
  | Datatypes.S m => match f s with Some s' => iterate m f s' | None => None end
  end.

(* The decisions: what the next condition or number of iterations is. *)
Definition decide (l : list nat) : nat * list nat :=
  match l with [] => (0, []) | n :: r => (n, r) end.

Fixpoint prun (r : option var) (c : stmt) (w : pstate * list nat) : option (pstate * list nat) :=
  let '(s, ds) := w in
  if pdone s then Some w
  else
  match c with
  | Skip => Some w
  | Seq a b => match prun r a w with Some w1 => prun r b w1 | None => None end
  | New x vs =>
    Some (P (upd (penv s) x (Some (List.length (pheap s), 0))) (pheap s ++ [vs]) (ptrace s) false, ds)
  | Point x y k =>
    match penv s y with
    | Some (o, j) => Some (P (upd (penv s) x (Some (o, j + k))) (pheap s) (ptrace s) false, ds)
    | None => None
    end
  | Write x i v =>
    match punder s x i with
    | Some (o, j, _) =>
      match nth_error (pheap s) o with
      | Some vs => Some (P (penv s) (set_nth o (set_nth j v vs) (pheap s)) (ptrace s) false, ds)
      | None => None
      end
    | None => None
    end
  | Read x i =>
    match punder s x i with
    | Some (_, _, v) => Some (P (penv s) (pheap s) (ptrace s ++ [v]) false, ds)
    | None => None
    end
  | If a b => let '(d, ds') := decide ds in prun r (if d =? 0 then b else a) (s, ds')
  | Loop a => let '(d, ds') := decide ds in iterate d (prun r a) (s, ds')
  | Return =>
    match r with
    | None => Some (P (penv s) (pheap s) (ptrace s) true, ds)
    | Some x =>
      match penv s x with
      | Some _ => Some (P (penv s) (pheap s) (ptrace s) true, ds)
      | None => None
      end
    end
  end.

(** ** The generated code *)

(* A block of memory is an array, or was released. *)
Record gstate := G {
  genv : var -> option (nat * nat);
  blocks : list (option (list Z));
  gtrace : list Z;
  gdone : bool }.

Definition gunder (s : gstate) (x : var) (i : nat) : option (nat * nat * Z) :=
  match genv s x with
  | Some (o, k) =>
    match nth_error (blocks s) o with
    | Some (Some vs) =>
      match nth_error vs (k + i) with Some v => Some (o, k + i, v) | None => None end
    | _ => None              (* released memory *)
    end
  | None => None
  end.

(* Allocate and Assign: the memory is used again if its size is the same, it is
   released and allocated otherwise. *)
Definition gnew (s : gstate) (x : var) (vs : list Z) : option gstate :=
  match genv s x with
  | None =>
    Some (G (upd (genv s) x (Some (List.length (blocks s), 0))) (blocks s ++ [Some vs]) (gtrace s) (gdone s))
  | Some (b, _) =>
    match nth_error (blocks s) b with
    | Some (Some old) =>
      if List.length old =? List.length vs then
        Some (G (genv s) (set_nth b (Some vs) (blocks s)) (gtrace s) (gdone s))
      else
        Some (G (upd (genv s) x (Some (List.length (blocks s), 0)))
                (set_nth b None (blocks s) ++ [Some vs]) (gtrace s) (gdone s))
    | _ => None
    end
  end.

(* Allocate with the size of the right-hand side, and then Assign.  If the
   memory is released and allocated again, the elements are read afterwards:
   none may come from what was released. *)
Definition gcopy (s : gstate) (x y : var) (k : nat) : option gstate :=
  match genv s y with
  | Some (b, j) =>
    match nth_error (blocks s) b with
    | Some (Some vs) =>
      let ws := skipn (j + k) vs in
      match genv s x with
      | Some (bx, _) =>
        match nth_error (blocks s) bx with
        | Some (Some old) =>
          if (List.length old =? List.length ws) || negb (bx =? b) || (List.length ws =? 0)
          then gnew s x ws else None
        | _ => None
        end
      | None => gnew s x ws
      end
    | _ => None
    end
  | None => None
  end.

(* Deallocate: nothing for memory which was never allocated. *)
Fixpoint gfree (xs : list var) (s : gstate) : option gstate :=
  match xs with
  | [] => Some s
  | x :: r =>
    match genv s x with
    | None => gfree r s
    | Some (b, _) =>
      match nth_error (blocks s) b with
      | Some (Some _) =>
        gfree r (G (genv s) (set_nth b None (blocks s)) (gtrace s) (gdone s))
      | _ => None            (* released twice *)
      end
    end
  end.

Fixpoint grun (c : code) (w : gstate * list nat) : option (gstate * list nat) :=
  let '(s, ds) := w in
  if gdone s then Some w
  else
  match c with
  | CSkip => Some w
  | CSeq a b => match grun a w with Some w1 => grun b w1 | None => None end
  | CNew x vs => match gnew s x vs with Some s' => Some (s', ds) | None => None end
  | CPoint x y k =>
    match genv s y with
    | Some (b, j) => Some (G (upd (genv s) x (Some (b, j + k))) (blocks s) (gtrace s) false, ds)
    | None => None
    end
  | CCopy x y k => match gcopy s x y k with Some s' => Some (s', ds) | None => None end
  | CWrite x i v =>
    match gunder s x i with
    | Some (b, j, _) =>
      match nth_error (blocks s) b with
      | Some (Some vs) =>
        Some (G (genv s) (set_nth b (Some (set_nth j v vs)) (blocks s)) (gtrace s) false, ds)
      | _ => None
      end
    | None => None
    end
  | CRead x i =>
    match gunder s x i with
    | Some (_, _, v) => Some (G (genv s) (blocks s) (gtrace s ++ [v]) false, ds)
    | None => None
    end
  | CIf a b => let '(d, ds') := decide ds in grun (if d =? 0 then b else a) (s, ds')
  | CLoop a => let '(d, ds') := decide ds in iterate d (grun a) (s, ds')
  | CReturn xs =>
    match gfree xs (G (genv s) (blocks s) (gtrace s) true) with
    | Some s' => Some (s', ds)
    | None => None
    end
  end.

(** ** A call *)

(* The arrays of the caller, and which of them (from which element on) each
   argument is. *)
Fixpoint bind (l : list var) (ps : list (nat * nat)) : var -> option (nat * nat) :=
  match l, ps with
  | x :: l', p :: ps' => upd (bind l' ps') x (Some p)
  | _, _ => fun _ => None
  end.

Definition pcall (f : function) (arrays : list (list Z)) (ps : list (nat * nat)) (ds : list nat)
  : option pstate :=
  match prun (result f) (body f) (P (bind (args f) ps) arrays [] false, ds) with
  | Some (s, _) => Some s
  | None => None
  end.

Definition gcall (f : function) (c : compiled) (arrays : list (list Z)) (ps : list (nat * nat))
  (ds : list nat) : option gstate :=
  match grun (cbody c) (G (bind (args f) ps) (map Some arrays) [] false, ds) with
  | Some (s, _) => if gdone s then Some s else gfree (cend c) s
  | None => None
  end.
