(* Objects of classes: the memory of their attributes, constructors and destructors.

   Modelled: the attributes that are created by assignments to "self" (pyccel/parser/semantic.py
   2235-2300, 2366-2470, 3278-3313), later assignments to them (2236-2252, 2747-2890; a new
   DottedVariable is made for each of them, so that no earlier Allocate is found), the end of
   methods (835-867, 6269-6340), destructors (1451-1528, 3871), calls of constructors (4879-4967,
   2888-2889) and the end of functions with local objects (835-867), with the names of the
   destructors (pyccel/naming/cnameclashchecker.py 190-215, fortrannameclashchecker.py 190-225), and
   what is printed for all of this (pyccel/codegen/printing/ccode.py 2036-2100, 2474-2508, 2535-2576,
   3170-3189; pyccel/codegen/printing/fcode.py 2591-2660, 2681-2707, 3034-3039).

   Simplifications: one class whose attributes are NumPy arrays; the elements of an array are one
   number; sizes and values are functions of the arguments of the method; no loops and no early
   return in methods; the constructor is analysed first and then the methods in their order; each
   object has one name. *)
From Coq Require Import Bool Arith ZArith List String.
From Verif Require Import Alloc_Model.
Import ListNotations.
Open Scope Z_scope.
Open Scope list_scope.

(* ------------------------------ classes ------------------------------ *)

Inductive size := Lit (n : Z) | Arg (i : nat).
Inductive mstmt :=
| MNew (x : nat) (ds : list size) (f : list Z -> Z)          (* self.x = np.full(ds, f(args)) *)
| MUpdate (x : nat) (f : list Z -> Z -> Z)                   (* self.x[:] = f(args, self.x) *)
| MPrint (x : nat)                                           (* print(self.x) *)
| MIf (c : list Z -> bool) (a b : list mstmt).
Inductive ending := NoReturn | ReturnNone | ReturnValue.
Record method := mk_method { m_body : list mstmt; m_end : ending }.
Record class := mk_class { k_init : method; k_methods : list method; k_del : list mstmt }.

(* ------------------------------ the analysis of the class ------------------------------ *)

Inductive gm :=
| GNew (x : nat) (alloc : bool) (ds : list size) (f : list Z -> Z)  (* alloc: after Allocate, status "unallocated" *)
| GUpdate (x : nat) (f : list Z -> Z -> Z)
| GPrint (x : nat)
| GIf (c : list Z -> bool) (a b : list gm).

(* the shape of the attribute in the class: that of the first assignment; None for sizes that are not
   literals (variable.py 195-236) *)
Definition shapes := nat -> option (list (option Z)).
Definition static (d : size) : option Z := match d with Lit n => Some n | Arg _ => None end.
(* semantic.py 2762-2772: d_var["shape"] != shape, or a shape that is not literal *)
Fixpoint same_shape (ds : list size) (sh : list (option Z)) : bool :=
  match ds, sh with
  | [], [] => true
  | Lit n :: ds', Some m :: sh' => (n =? m) && same_shape ds' sh'
  | _, _ => false
  end.
Definition needs_alloc (ds : list size) (old : option (list (option Z))) : bool :=
  match old with None => true | Some sh => negb (same_shape ds sh) end.

(* the shapes known so far and _allocs[-1] *)
Definition mst : Type := shapes * list nat.
Fixpoint mvisit (s : mstmt) (st : mst) : gm * mst :=
  let fix mvisits (l : list mstmt) (st : mst) : list gm * mst :=
    match l with
    | [] => ([], st)
    | s :: l' => let '(g, st1) := mvisit s st in let '(g', st2) := mvisits l' st1 in (g :: g', st2)
    end in
  match s with
  | MNew x ds f =>
    let alloc := needs_alloc ds (fst st x) in
    (GNew x alloc ds f,
     (match fst st x with None => upd (fst st) x (Some (map static ds)) | Some _ => fst st end,
      if alloc then x :: snd st else snd st))
  | MUpdate x f => (GUpdate x f, st)
  | MPrint x => (GPrint x, st)
  | MIf c a b => let '(g, st1) := mvisits a st in let '(g', st2) := mvisits b st1 in (GIf c g g', st2)
  end.
Definition mvisits : list mstmt -> mst -> list gm * mst :=
  fix mvisits (l : list mstmt) (st : mst) : list gm * mst :=
    match l with
    | [] => ([], st)
    | s :: l' => let '(g, st1) := mvisit s st in let '(g', st2) := mvisits l' st1 in (g :: g', st2)
    end.
(* the code of a method, what it frees at a return (semantic.py 6326-6336: everything in _allocs, with
   the attributes), and the shapes afterwards *)
Definition gmethod : Type := list gm * ending * list nat.
Definition visit_method (m : method) (sh : shapes) : gmethod * shapes :=
  let '(g, st) := mvisits (m_body m) (sh, []) in
  ((g, m_end m, nodup Nat.eq_dec (snd st)), fst st).
Fixpoint visit_methods (l : list method) (sh : shapes) : list gmethod * shapes :=
  match l with
  | [] => ([], sh)
  | m :: l' => let '(g, sh1) := visit_method m sh in let '(g', sh2) := visit_methods l' sh1 in (g :: g', sh2)
  end.

(* the name of the destructor in the language *)
Definition del_name (l : lang) : string := match l with LC => "A__drop" | LFortran => "free" end.
(* 1508-1519 and 855-864: the attributes freed by the destructor *)
Definition del_frees (l : lang) (attrs : list nat) : list nat :=
  if String.eqb (del_name l) "__del__" then attrs else [].
Fixpoint made (s : mstmt) : list nat :=
  match s with
  | MNew x _ _ => [x]
  | MUpdate _ _ | MPrint _ => []
  | MIf _ a b => flat_map made a ++ flat_map made b
  end.
Definition attributes (k : class) : list nat :=
  nodup Nat.eq_dec (flat_map made (m_body (k_init k) ++ flat_map m_body (k_methods k) ++ k_del k)).

Record gclass := mk_gclass { gk_init : gmethod; gk_methods : list gmethod; gk_del : list gm; gk_frees : list nat }.
Definition visit_class (l : lang) (k : class) : gclass :=
  let '(gi, sh1) := visit_method (k_init k) (fun _ => None) in
  let '(gs, sh2) := visit_methods (k_methods k) sh1 in
  let '(gd, _) := mvisits (k_del k) (sh2, []) in
  mk_gclass gi gs gd (del_frees l (attributes k)).

(* ------------------------------ running methods ------------------------------ *)

Inductive cell := Uninit | Null | Arr (sh : list Z) (v : Z).
Record obj := mk_obj { o_freed : option bool; o_attr : nat -> cell }.
(* what has been printed *)
Definition out : Type := list (list Z * Z).
Record mem := mk_mem { g_live : nat; g_made : nat; g_out : out }.
Definition eval (args : list Z) (d : size) : Z := match d with Lit n => n | Arg i => nth i args 0 end.

(* None: undefined behaviour, or the program stops with an error *)
Definition obind {A B : Type} (o : option A) (f : A -> option B) : option B := match o with Some x => f x | None => None end.
Definition set_attr (x : nat) (c : cell) (o : obj) : obj := mk_obj (o_freed o) (upd (o_attr o) x c).
Definition st : Type := obj * mem.
Definition say (c : list Z * Z) (m : mem) : mem := mk_mem (g_live m) (g_made m) (g_out m ++ [c]).
Definition alloc_one (m : mem) : mem := mk_mem (S (g_live m)) (S (g_made m)) (g_out m).

Fixpoint grun (l : lang) (args : list Z) (g : gm) (s : st) : option st :=
  let fix gruns (b : list gm) (s : st) : option st := match b with [] => Some s | g :: b' => obind (grun l args g s) (gruns b') end in
  match g with
  | GNew x true ds f =>
    let new := Some (set_attr x (Arr (map (eval args) ds) (f args)) (fst s), alloc_one (snd s)) in
    match l, o_attr (fst s) x with
    | LC, _ => new                                   (* malloc; the old block, if any, is lost *)
    | LFortran, Arr _ _ => None                      (* allocate of an allocated array *)
    | LFortran, _ => new
    end
  | GNew x false ds f =>
    (* the elements are set, as many as there are *)
    match o_attr (fst s) x with Arr sh _ => Some (set_attr x (Arr sh (f args)) (fst s), snd s) | _ => None end
  | GUpdate x f => match o_attr (fst s) x with Arr sh v => Some (set_attr x (Arr sh (f args v)) (fst s), snd s) | _ => None end
  | GPrint x => match o_attr (fst s) x with Arr sh v => Some (fst s, say (sh, v) (snd s)) | _ => None end
  | GIf c a b => if c args then gruns a s else gruns b s
  end.
Definition gruns (l : lang) (args : list Z) : list gm -> st -> option st :=
  fix gruns (b : list gm) (s : st) : option st := match b with [] => Some s | g :: b' => obind (grun l args g s) (gruns b') end.
(* free(self->x.data); self->x.data = NULL / if (allocated(self%x)) deallocate(self%x) *)
Definition free_attr (x : nat) (s : st) : option st :=
  match o_attr (fst s) x with
  | Uninit => None
  | Null => Some s
  | Arr _ _ => Some (set_attr x Null (fst s), mk_mem (pred (g_live (snd s))) (g_made (snd s)) (g_out (snd s)))
  end.
Fixpoint free_attrs (xs : list nat) (s : st) : option st := match xs with [] => Some s | x :: xs' => obind (free_attr x s) (free_attrs xs') end.
(* ccode.py 3170-3189: a return without a value prints nothing else; fcode.py 3034-3039 *)
Definition run_method (l : lang) (m : gmethod) (args : list Z) (s : st) : option st :=
  let '(b, e, frees) := m in
  obind (gruns l args b s) (fun s' =>
    match e, l with
    | NoReturn, _ => Some s'
    | ReturnNone, LC => Some s'
    | _, _ => free_attrs frees s'
    end).
(* 1488: self.is_freed = False is the first statement *)
Definition run_init (l : lang) (k : gclass) (args : list Z) (s : st) : option st :=
  run_method l (gk_init k) args (mk_obj (Some false) (o_attr (fst s)), snd s).
(* 1521-1527: if not self.is_freed: the body, the frees, self.is_freed = True *)
Definition run_del (l : lang) (k : gclass) (s : st) : option st :=
  match o_freed (fst s) with
  | None => None
  | Some true => Some s
  | Some false =>
    obind (gruns l [] (gk_del k) s) (fun s1 =>
    obind (free_attrs (gk_frees k) s1) (fun s2 =>
    Some (mk_obj (Some true) (o_attr (fst s2)), snd s2)))
  end.

(* ------------------------------ functions with objects ------------------------------ *)

Inductive ostmt :=
| OCreate (a : nat) (args : list Z -> list Z)                (* a = A(args) *)
| OCall (a m : nat) (args : list Z -> list Z)                (* a.m(args) *)
| OIf (c : list Z -> bool) (p q : list ostmt)
| OLoop (n : nat) (p : list ostmt).
Inductive gstm :=
| HDel (a : nat)
| HInit (a : nat) (args : list Z -> list Z)
| HCall (a m : nat) (args : list Z -> list Z)
| HIf (c : list Z -> bool) (p q : list gstm)
| HLoop (n : nat) (p : list gstm).

(* 4879-4967 and 2888-2889: a variable that exists is destroyed first; the variables so far *)
Fixpoint ovisit (s : ostmt) (seen : list nat) : list gstm * list nat :=
  let fix ovisits (p : list ostmt) (seen : list nat) : list gstm * list nat :=
    match p with
    | [] => ([], seen)
    | s :: p' => let '(g, seen1) := ovisit s seen in let '(g', seen2) := ovisits p' seen1 in (g ++ g', seen2)
    end in
  match s with
  | OCreate a args => if existsb (Nat.eqb a) seen then ([HDel a; HInit a args], seen) else ([HInit a args], seen ++ [a])
  | OCall a m args => ([HCall a m args], seen)
  | OIf c p q => let '(g, seen1) := ovisits p seen in let '(g', seen2) := ovisits q seen1 in ([HIf c g g'], seen2)
  | OLoop n p => let '(g, seen1) := ovisits p seen in ([HLoop n g], seen1)
  end.
Definition ovisits : list ostmt -> list nat -> list gstm * list nat :=
  fix ovisits (p : list ostmt) (seen : list nat) : list gstm * list nat :=
    match p with
    | [] => ([], seen)
    | s :: p' => let '(g, seen1) := ovisit s seen in let '(g', seen2) := ovisits p' seen1 in (g ++ g', seen2)
    end.

Definition hst : Type := (nat -> obj) * mem.
Definition on (a : nat) (f : st -> option st) (h : hst) : option hst :=
  match f (fst h a, snd h) with Some (o, m) => Some (upd (fst h) a o, m) | None => None end.
Fixpoint iter_o {A : Type} (n : nat) (f : A -> option A) (x : A) : option A := match n with O => Some x | S n' => obind (f x) (iter_o n' f) end.
Fixpoint hrun (l : lang) (k : gclass) (inp : list Z) (g : gstm) (h : hst) : option hst :=
  let fix hruns (b : list gstm) (h : hst) : option hst := match b with [] => Some h | g :: b' => obind (hrun l k inp g h) (hruns b') end in
  match g with
  | HDel a => on a (run_del l k) h
  | HInit a args => on a (run_init l k (args inp)) h
  | HCall a m args => match nth_error (gk_methods k) m with Some gm => on a (run_method l gm (args inp)) h | None => None end
  | HIf c p q => if c inp then hruns p h else hruns q h
  | HLoop n p => iter_o n (hruns p) h
  end.
Definition hruns (l : lang) (k : gclass) (inp : list Z) : list gstm -> hst -> option hst :=
  fix hruns (b : list gstm) (h : hst) : option hst := match b with [] => Some h | g :: b' => obind (hrun l k inp g h) (hruns b') end.

(* the declaration: no initial value in C; the components are not allocated in Fortran *)
Definition declared (l : lang) : obj := mk_obj None (fun _ => match l with LC => Uninit | LFortran => Null end).
(* the objects are destroyed at the end in the order of a Python set *)
Definition g_function (l : lang) (order : list nat -> list nat) (k : class) (p : list ostmt) (inp : list Z) : option hst :=
  let '(g, seen) := ovisits p [] in
  let gk := visit_class l k in
  obind (hruns l gk inp g (fun _ => declared l, mk_mem 0 0 [])) (fun h =>
  hruns l gk inp (map HDel (order seen)) h).
