(** Assignments to lists and sets, and the methods which are written as several
    statements.

    Models /repo/pyccel/parser/semantic.py lines 7493-7554 (extend), 7913-7977
    (update and |=), 7979-8050 (union and |), 8052-8100 (intersection and &),
    8152-8220 (set()), 8380-8428 (difference and -), 5696-6091 (list comprehensions:
    the allocation and which operations are used), 2366-2470 and 2746-2875 (the
    Allocate statements for lists and sets), 1969-2003;
    /repo/pyccel/codegen/printing/ccode.py lines 2057-2068, 2444-2469, 2535-2555,
    3362-3386, 3433-3526, 3880-4036; /repo/pyccel/codegen/printing/fcode.py lines
    1431-1465, 1551-1554, 1617-1697, 2488-2493, 2591-2677, 3134-3216; and
    /repo/pyccel/stdlib/STC_Extensions/Set_extensions.h and
    /repo/pyccel/stdlib/gFTL_functions/Set_extensions.inc (C21).

    Simplifications: the elements are integers.  A set is the sorted list of its
    elements: the order of the iteration over a set is not modelled, so a list is
    not extended by a set.  No variable is an alias of another or an argument of the
    function, and all variables have one type.  A function which is called has no
    effect but its result.  A program is a list of statements and loops. *)

From Coq Require Import List Bool Arith ZArith.
Import ListNotations.

Inductive kind := KList | KSet.

(** An element: a number, len(v), or v[i]. *)
Inductive elem := EInt (z : Z) | ELen (v : nat) | EAt (v i : nat).

(** An argument: a variable, or a list, tuple or set which is written out. *)
Inductive iter := IVar (v : nat) | ILit (k : kind) (l : list elem).

Inductive stmt :=
| SLit (x : nat) (l : list elem)                          (* x = [...] or {...} *)
| SCopy (x y : nat)                                       (* x = y.copy(), sets *)
| SCall (x : nat) (args : list nat) (f : list (list Z) -> list Z)
| SComp (x y : nat) (f : Z -> Z) (c : Z -> bool)          (* x = [f(i) for i in y if c(i)] *)
| SUnion (x s : nat) (its : list iter)                    (* x = s.union(...) or s | ... *)
| SInter (x : nat) (s : iter) (its : list iter)           (* x = s.intersection(...) or s & ... *)
| SDiff (x : nat) (s : iter) (its : list iter)            (* x = s.difference(...) or s - ... *)
| SSetOf (x : nat) (it : iter)                            (* x = set(it) *)
| SAdd (x : nat) (e : elem)                               (* x.append(e) or x.add(e) *)
| SExtend (x : nat) (its : list iter)                     (* x.extend(it), x.update(...) or x |= it *)
| SInterU (x : nat) (its : list iter)                     (* x.intersection_update(...) or x &= it *)
| SDiffU (x : nat) (its : list iter).                     (* x.difference_update(...) or x -= it *)

Inductive item := One (s : stmt) | Repeat (n : nat) (body : list stmt).

(** ** The statements which are generated *)

(** alloc_type: init, reserve with the size of a variable, any type when the shape
    is not known, function. *)
Inductive alloc := Init | Reserve (y : nat) | NoSize | Func.

Inductive gstmt :=
| GAlloc (x : nat) (a : alloc) (known : bool)  (* known: the status is not unallocated *)
| GLit (x : nat) (l : list elem)
| GClone (x y : nat)
| GCall (x : nat) (args : list nat) (f : list (list Z) -> list Z)
| GLoop (x y : nat) (f : Z -> Z) (c : Z -> bool) (* for i in y: if c(i): x.append(f(i)) *)
| GInPlace (x : nat) (f : Z -> Z) (c : Z -> bool) (* k = 0; for i in x: if c(i): x[k] = f(i); k += 1 *)
| GUnion (x s : nat) (its : list iter)
| GInter (x : nat) (its : list iter)
| GDiff (x : nat) (its : list iter)
| GPush (x : nat) (e : elem).

Definition is_set (K : nat -> kind) (it : iter) : bool :=
  match it with
  | IVar v => match K v with KSet => true | KList => false end
  | ILit k _ => match k with KSet => true | KList => false end
  end.

(** semantic.py lines 7524-7554 and 7951-7972 *)
Definition add_all (x : nat) (it : iter) : list gstmt :=
  match it with
  | ILit _ l => map (GPush x) l
  | IVar v => [GLoop x v (fun i => i) (fun _ => true)]
  end.

(** semantic.py lines 8078-8093 and 8406-8421 *)
Definition start (known : bool) (x : nat) (s : iter) : list gstmt :=
  match s with
  | IVar v => [GAlloc x (Reserve v) known; GClone x v]
  | ILit _ l => [GAlloc x Init known; GLit x l]
  end.

(** known: x has been assigned before, or the statement is in a loop (semantic.py
    lines 2379-2394 and 2815-2845).  before: x has been assigned before. *)
Definition compile (K : nat -> kind) (before known : bool) (s : stmt) : list gstmt :=
  match s with
  | SLit x l => [GAlloc x Init known; GLit x l]
  | SCopy x y => [GAlloc x (Reserve y) known; GClone x y]
  | SCall x args f => [GAlloc x Func known; GCall x args f]
  | SComp x y f c =>
      (* the shape is that of x: no Allocate (2762-2770), and the operations for arrays (6007-6024) *)
      if before && (x =? y) then [GInPlace x f c]
      else [GAlloc x (Reserve y) known; GLoop x y f c]
  | SUnion x s its =>
      if forallb (is_set K) its then [GAlloc x NoSize known; GUnion x s its]
      else GAlloc x (Reserve s) known :: GClone x s :: flat_map (add_all x) its
  | SInter x s its => start known x s ++ map (fun it => GInter x [it]) its
  | SDiff x s its => start known x s ++ map (fun it => GDiff x [it]) its
  | SSetOf x it =>
      match it with
      | ILit _ l => [GAlloc x Init known; GLit x l]
      | IVar v =>
          match K v with
          | KSet => [GAlloc x (Reserve v) known; GClone x v]
          | KList => [GAlloc x (Reserve v) known; GLoop x v (fun i => i) (fun _ => true)]
          end
      end
  | SAdd x e => [GPush x e]
  | SExtend x its => flat_map (add_all x) its
  | SInterU x its => [GInter x its]
  | SDiffU x its => [GDiff x its]
  end.

(** The variable which is assigned. *)
Definition target (s : stmt) : option nat :=
  match s with
  | SLit x _ | SCopy x _ | SCall x _ _ | SComp x _ _ _ | SUnion x _ _ | SInter x _ _ | SDiff x _ _
  | SSetOf x _ => Some x
  | SAdd _ _ | SExtend _ _ | SInterU _ _ | SDiffU _ _ => None
  end.

(** A is the set of the variables which have been assigned. *)
Definition seen (A : nat -> bool) (s : stmt) : nat -> bool :=
  match target s with
  | Some x => fun v => if v =? x then true else A v
  | None => A
  end.

Definition before_of (A : nat -> bool) (s : stmt) : bool :=
  match target s with Some x => A x | None => false end.

Fixpoint compile_all (K : nat -> kind) (loop : bool) (A : nat -> bool) (p : list stmt) : list gstmt :=
  match p with
  | [] => []
  | s :: r => compile K (before_of A s) (before_of A s || loop) s ++ compile_all K loop (seen A s) r
  end.

Fixpoint seen_all (A : nat -> bool) (p : list stmt) : nat -> bool :=
  match p with
  | [] => A
  | s :: r => seen_all (seen A s) r
  end.

Inductive gitem := GOne (l : list gstmt) | GRepeat (n : nat) (l : list gstmt).

Fixpoint program (K : nat -> kind) (A : nat -> bool) (p : list item) : list gitem :=
  match p with
  | [] => []
  | One s :: r => GOne (compile_all K false A [s]) :: program K (seen_all A [s]) r
  | Repeat n b :: r => GRepeat n (compile_all K true A b) :: program K (seen_all A b) r
  end.

(** ** What they do *)

Inductive lang := C | Fortran.

(** A variable in C: its memory has been released, or it is a container; owns: it
    has a block of memory. *)
Inductive cell := Dropped | Live (owns : bool) (l : list Z).

(** lost: the number of blocks which nothing points at. *)
Record state := State { cells : nat -> cell; lost : nat }.

(** ccode.py lines 2057-2068: = {0} *)
Definition initial : state := State (fun _ => Live false []) 0.

Definition bind {A B} (r : option A) (f : A -> option B) : option B :=
  match r with Some a => f a | None => None end.

Fixpoint traverse {A B} (f : A -> option B) (l : list A) : option (list B) :=
  match l with
  | [] => Some []
  | x :: r => bind (f x) (fun y => bind (traverse f r) (fun ys => Some (y :: ys)))
  end.

(** None: the program uses memory which has been released. *)
Definition read (st : state) (v : nat) : option (list Z) :=
  match cells st v with Live _ l => Some l | Dropped => None end.

Definition set_cell (st : state) (x : nat) (c : cell) : state :=
  State (fun v => if v =? x then c else cells st v) (lost st).

(** x = ...: in C the block of x is lost. *)
Definition overwrite (L : lang) (st : state) (x : nat) (l : list Z) : state :=
  let st' := set_cell st x (Live true l) in
  match L, cells st x with
  | C, Live true _ => State (cells st') (S (lost st'))
  | _, _ => st'
  end.

(** Adding a value to a set. *)
Fixpoint sadd (z : Z) (s : list Z) : list Z :=
  match s with
  | [] => [z]
  | y :: r => if Z.ltb z y then z :: s else if Z.eqb z y then s else y :: sadd z r
  end.

Definition insert (k : kind) (z : Z) (l : list Z) : list Z :=
  match k with KList => l ++ [z] | KSet => sadd z l end.

(** The container with these values. *)
Definition build (k : kind) (l : list Z) : list Z := fold_left (fun s z => insert k z s) l [].

Definition mem (z : Z) (l : list Z) : bool := existsb (Z.eqb z) l.

Definition get (st : state) (e : elem) : option Z :=
  match e with
  | EInt z => Some z
  | ELen v => bind (read st v) (fun l => Some (Z.of_nat (length l)))
  | EAt v i => bind (read st v) (fun l => nth_error l i)
  end.

Definition values (st : state) (it : iter) : option (list Z) :=
  match it with
  | IVar v => read st v
  | ILit _ l => traverse (get st) l
  end.

(** The literals are put in variables before the statement (ccode.py lines
    4030-4036 and 3537-3541, fcode.py lines 1656-1661). *)
Definition resolve (st : state) (it : iter) : option (nat + list Z) :=
  match it with
  | IVar v => Some (inl v)
  | ILit _ l => bind (traverse (get st) l) (fun zs => Some (inr zs))
  end.

Definition content (st : state) (r : nat + list Z) : option (list Z) :=
  match r with inl v => read st v | inr l => Some l end.

(** keep is applied for one argument after the other. *)
Fixpoint update_with (keep : list Z -> list Z -> list Z) (x : nat) (rs : list (nat + list Z)) (st : state)
  : option state :=
  match rs with
  | [] => Some st
  | r :: rs' =>
      bind (read st x) (fun l =>
        bind (content st r) (fun a =>
          update_with keep x rs' (set_cell st x (Live true (keep l a)))))
  end.

Fixpoint update_each (keep : list Z -> list Z -> list Z) (x : nat) (its : list iter) (st : state) : option state :=
  match its with
  | [] => Some st
  | it :: its' =>
      bind (resolve st it) (fun r => bind (update_with keep x [r] st) (update_each keep x its'))
  end.

Definition inter (l a : list Z) : list Z := filter (fun z => mem z a) l.
Definition diff (l a : list Z) : list Z := filter (fun z => negb (mem z a)) l.
Definition join (l a : list Z) : list Z := fold_left (fun s z => sadd z s) a l.

(** In C the arguments of one statement are all there before it; in Fortran there is
    a statement for each (fcode.py lines 1674-1697). *)
Definition update (L : lang) (keep : list Z -> list Z -> list Z) (x : nat) (its : list iter) (st : state)
  : option state :=
  match L with
  | C => bind (traverse (resolve st) its) (fun rs => update_with keep x rs st)
  | Fortran => update_each keep x its st
  end.

Definition loop_over (k : kind) (f : Z -> Z) (c : Z -> bool) (ly lx : list Z) : list Z :=
  fold_left (fun s i => if c i then insert k (f i) s else s) ly lx.

Definition exec (L : lang) (K : nat -> kind) (g : gstmt) (st : state) : option state :=
  match g with
  | GAlloc x a known =>
      match L with
      | C =>  (* ccode.py lines 2444-2469 *)
          match a, known with
          | Reserve y, true => bind (read st x) (fun _ =>                     (* clear, reserve *)
                                 let st' := set_cell st x (Live true []) in bind (read st' y) (fun _ => Some st'))
          | Reserve y, false => bind (read st y) (fun _ => bind (read st x) (fun l => Some (set_cell st x (Live true l))))
          | _, true => bind (read st x) (fun _ => Some (set_cell st x Dropped)) (* drop *)
          | _, false => Some st
          end
      | Fortran =>  (* fcode.py lines 2591-2677 *)
          match K x, a, known with
          | KList, Reserve _, true | KList, Func, true => Some (set_cell st x (Live true []))
          | _, _, _ => Some st
          end
      end
  | GLit x l => bind (traverse (get st) l) (fun zs => Some (overwrite L st x (build (K x) zs)))
  | GClone x y => bind (read st y) (fun l => Some (overwrite L st x l))
  | GCall x args f => bind (traverse (read st) args) (fun ls => Some (overwrite L st x (build (K x) (f ls))))
  | GLoop x y f c =>
      bind (read st y) (fun ly => bind (read st x) (fun lx =>
        match L, x =? y, ly with
        | C, true, _ :: _ => None  (* the memory may be moved while the loop runs *)
        | _, _, _ => Some (set_cell st x (Live true (loop_over (K x) f c ly lx)))
        end))
  | GInPlace x f c =>
      bind (read st x) (fun l =>
        let kept := map f (filter c l) in
        Some (set_cell st x (Live true (kept ++ skipn (length kept) l))))
  | GUnion x s its =>
      match L with
      | C =>  (* Set_extensions.h lines 25-41 *)
          bind (read st s) (fun l => bind (traverse (values st) its) (fun ls =>
            Some (overwrite C st x (fold_left join ls l))))
      | Fortran =>  (* fcode.py lines 1640-1672 *)
          bind (traverse (resolve st) its) (fun rs =>
            bind (read st s) (fun l => update_with join x rs (overwrite Fortran st x l)))
      end
  | GInter x its => update L inter x its st
  | GDiff x its => update L diff x its st
  | GPush x e => bind (get st e) (fun z => bind (read st x) (fun l =>
                   Some (set_cell st x (Live true (insert (K x) z l)))))
  end.

Fixpoint exec_all (L : lang) (K : nat -> kind) (l : list gstmt) (st : state) : option state :=
  match l with
  | [] => Some st
  | g :: r => bind (exec L K g st) (exec_all L K r)
  end.

Fixpoint times {S} (n : nat) (f : S -> option S) (s : S) : option S :=
  match n with
  | 0 => Some s
  | S n' => bind (f s) (times n' f)
  end.

Fixpoint run (L : lang) (K : nat -> kind) (p : list gitem) (st : state) : option state :=
  match p with
  | [] => Some st
  | GOne l :: r => bind (exec_all L K l st) (run L K r)
  | GRepeat n l :: r => bind (times n (exec_all L K l) st) (run L K r)
  end.
