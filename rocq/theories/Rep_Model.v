(* Tuples and lists that are joined and repeated.

   Modelled: x = a + b and x = a * n for homogeneous tuples and lists of integers. pyccel/ast/core.py 198-276
   (Duplicate, Concatenate); pyccel/ast/operators.py 850-883 (PyccelMul.make_simplified, for shapes);
   pyccel/parser/semantic.py 1106-1120 and 1128-1145 (the memory), 2366-2450 and 2746-2860 (the Allocate
   statements), 4681-4722 (_visit_PyccelAdd, _visit_PyccelMul), 1391-1446; pyccel/ast/variable.py 206-286
   (shapes of variables), 860-909 (a slice of a slice); pyccel/ast/utilities.py 775-881 (collect_loops:
   tuples and lists that are written out, Concatenate, Duplicate); pyccel/codegen/printing/ccode.py 542-640,
   2444-2514; pyccel/codegen/printing/fcode.py 2591-2677.

   Simplifications: the elements are integers and all variables of a program are tuples, or all are lists; tuples
   and lists that are written out have elements; programs are sequences of assignments, and each is
   expanded by itself (C30 is about loops that are joined); x = y, which makes an alias, is not modelled; arrays on the stack are declared
   where they are assigned. *)
From Coq Require Import Bool ZArith List Arith.
Import ListNotations.
Open Scope list_scope.
Open Scope nat_scope.

Inductive lang := LC | LFortran.
Inductive kind := KTuple | KList.
(* a literal, or any other integer expression *)
Inductive len := LLit (n : nat) | LVar (k : nat).
Inductive exp := EVar (y : nat) | ELit (l : list Z) | ECat (a b : exp) | EDup (a : exp) (n : len).
Inductive stmt := SLit (x : nat) (l : list Z) | SCat (x : nat) (a b : exp) | SDup (x : nat) (a : exp) (n : len).

(* ------------------------------ the semantic stage ------------------------------ *)

(* vsh: the shape if it is a literal; otherwise it is the size of the variable (variable.py 206-249) *)
Record info := mk_info { heap : bool; vsh : option nat }.
Definition infos := nat -> option info.
Definition upd {A : Type} (f : nat -> A) (x : nat) (v : A) : nat -> A := fun y => if Nat.eqb y x then v else f y.

Inductive shape := ShLit (n : nat) | ShOf (y : nat) | ShExp.
(* operators.py 850-883 *)
Definition mul (s : shape) (n : len) : shape :=
  match s, n with
  | ShLit 1, LLit k => ShLit k
  | ShLit 1, LVar _ => ShExp
  | _, LLit 1 => s
  | ShLit 0, _ => ShLit 0
  | _, LLit 0 => ShLit 0
  | ShLit a, LLit b => ShLit (a * b)
  | _, _ => ShExp
  end.
(* core.py 219-228 and 262-271: the sum of the shapes is not simplified. None: a variable that is not defined *)
Fixpoint shape_of (st : infos) (e : exp) : option shape :=
  match e with
  | EVar y => match st y with Some i => Some (match vsh i with Some n => ShLit n | None => ShOf y end) | None => None end
  | ELit l => match l with [] => None | _ => Some (ShLit (length l)) end
  | ECat a b => match shape_of st a, shape_of st b with Some _, Some _ => Some ShExp | _, _ => None end
  | EDup a n => match shape_of st a with Some s => Some (mul s n) | None => None end
  end.
(* semantic.py 1106-1112: on the stack unless a variable is on the heap *)
Definition on_heap (st : infos) (e : exp) : bool :=
  match e with EVar y => match st y with Some i => heap i | None => false end | _ => false end.

(* sizes, as they are printed in an Allocate *)
Inductive size := ZLit (n : nat) | ZLen (y : nat) | ZAdd (a b : size) | ZMul (a : size) (n : len).
Fixpoint size_of (st : infos) (e : exp) : size :=
  match e with
  | EVar y => match st y with Some {| vsh := Some n |} => ZLit n | _ => ZLen y end
  | ELit l => ZLit (length l)
  | ECat a b => ZAdd (size_of st a) (size_of st b)
  | EDup a n => ZMul (size_of st a) n
  end.

(* ------------------------------ the expansion (utilities.py 775-881) ------------------------------ *)

(* the start of the slice on the left: 0, the size of the first operand, or its product with a literal or the index of the loop *)
Inductive offset := OZero | OSize (s : size) | OTimes (s : size) (i : nat) | OLoop (s : size).
Inductive atom := AVar (y : nat) | ALit (l : list Z).
Record copy := mk_copy { c_off : offset; c_src : atom; c_size : size }.
Inductive code := COne (c : copy) | CLoop (n : len) (c : copy).

(* an assignment to a slice; None: a slice of a slice (variable.py 876-880) *)
Definition put (st : infos) (off : offset) (e : exp) : option (list copy) :=
  match e with
  | EVar y => Some [mk_copy off (AVar y) (size_of st e)]
  | ELit l => Some [mk_copy off (ALit l) (size_of st e)]
  | EDup _ (LLit 0) => Some []                       (* range(0): no assignment *)
  | ECat _ _ | EDup _ _ => None
  end.
Definition obind {A B : Type} (o : option A) (f : A -> option B) : option B := match o with Some x => f x | None => None end.
Fixpoint unroll (st : infos) (a : exp) (i n : nat) : option (list code) :=
  match n with
  | 0 => Some []
  | S n' => obind (put st (OTimes (size_of st a) i) a) (fun c => option_map (app (map COne c)) (unroll st a (S i) n'))
  end.
Definition expand (st : infos) (s : stmt) : option (list code) :=
  match s with
  | SLit x l => Some [COne (mk_copy OZero (ALit l) (ZLit (length l)))]
  | SCat x a b =>
    obind (put st OZero a) (fun c => option_map (fun d => map COne (c ++ d)) (put st (OSize (size_of st a)) b))
  | SDup x a (LLit n) =>
    if n <=? 10 then unroll st a 0 n else option_map (map (CLoop (LLit n))) (put st (OLoop (size_of st a)) a)
  | SDup x a n => option_map (map (CLoop n)) (put st (OLoop (size_of st a)) a)
  end.

(* ------------------------------ statements ------------------------------ *)

Definition target (s : stmt) : nat := match s with SLit x _ | SCat x _ _ | SDup x _ _ => x end.
Definition rhs (s : stmt) : exp := match s with SLit _ l => ELit l | SCat _ a b => ECat a b | SDup _ a n => EDup a n end.
(* semantic.py 2431-2440, 2803-2812, and the default; Stack: no Allocate but a declaration *)
Inductive alloc := Malloc | Resize | Reserve | Init | Stack.
Definition alloc_type (k : kind) (s : stmt) : alloc :=
  match k, s with KTuple, _ => Malloc | KList, SLit _ _ => Init | KList, SCat _ _ _ => Reserve | KList, SDup _ _ _ => Resize end.
Definition same (x : nat) (i : info) (s : shape) : bool :=
  match s, vsh i with ShLit n, Some m => Nat.eqb n m | ShOf y, None => Nat.eqb y x | _, _ => false end.
Definition literal (k : kind) (s : shape) : option nat := match k, s with KTuple, ShLit n => Some n | _, _ => None end.

Inductive gstmt := GAlloc (x : nat) (a : alloc) (fresh : bool) (z : size) | GCode (x : nat) (c : list code).
(* None: an error or a crash *)
Definition visit (k : kind) (st : infos) (s : stmt) : option (list gstmt * infos) :=
  let x := target s in
  obind (shape_of st (rhs s)) (fun sh =>
  match st x with
  | None =>
    let on_stack := match k, s with KTuple, SCat _ a b => negb (on_heap st a || on_heap st b) | _, _ => false end in
    let st' := upd st x (Some (mk_info (negb on_stack) (literal k sh))) in
    option_map (fun c => ([GAlloc x (if on_stack then Stack else alloc_type k s) true (size_of st (rhs s)); GCode x c], st')) (expand st' s)
  | Some i =>
    if same x i sh then option_map (fun c => ([GCode x c], st)) (expand st s)
    else if heap i then                              (* 2790-2860: set_changeable_shape *)
      let st' := upd st x (Some (mk_info true None)) in
      option_map (fun c => ([GAlloc x (alloc_type k s) false (size_of st (rhs s)); GCode x c], st')) (expand st' s)
    else None                                        (* INCOMPATIBLE_REDEFINITION_STACK_ARRAY *)
  end).
Fixpoint translate (k : kind) (st : infos) (p : list stmt) : option (list gstmt * infos) :=
  match p with
  | [] => Some ([], st)
  | s :: p' => obind (visit k st s) (fun g => option_map (fun h => (fst g ++ fst h, snd h)) (translate k (snd g) p'))
  end.

(* ------------------------------ running the code ------------------------------ *)

(* None in an array: an element that has not been given a value *)
Definition cells := list (option Z).
Definition store := nat -> option cells.
Definition value (inp : nat -> Z) (n : len) : Z := match n with LLit n => Z.of_nat n | LVar k => inp k end.
Fixpoint size_val (inp : nat -> Z) (s : store) (z : size) : option Z :=
  match z with
  | ZLit n => Some (Z.of_nat n)
  | ZLen y => option_map (fun l => Z.of_nat (length l)) (s y)
  | ZAdd a b => match size_val inp s a, size_val inp s b with Some m, Some n => Some (m + n)%Z | _, _ => None end
  | ZMul a n => option_map (fun m => (m * value inp n)%Z) (size_val inp s a)
  end.
Definition resize (l : cells) (n : nat) : cells := firstn n l ++ repeat (Some 0%Z) (n - length l).

(* None: undefined behaviour. In C a negative number of elements is malloc of a huge size, and sizes of lists cannot be
   negative; Fortran allocates an empty array (0:n-1), and keeps an array that has the right size *)
Definition run_alloc (l : lang) (inp : nat -> Z) (s : store) (x : nat) (a : alloc) (fresh : bool) (z : size) : option store :=
  obind (size_val inp s z) (fun n =>
  let old := match s x with Some o => o | None => [] end in
  let new := upd s x (Some (repeat None (Z.to_nat n))) in
  match a with
  | Malloc | Stack =>
    match l with
    | LC => if (n <? 0)%Z then None else Some new
    | LFortran => Some (if negb fresh && (Z.of_nat (length old) =? n)%Z then s else new)
    end
  | Resize =>
    if (n <? 0)%Z then None
    else Some (match l with LC => upd s x (Some (resize (if fresh then [] else old) (Z.to_nat n))) | LFortran => new end)
  | Reserve => Some (upd s x (Some []))
  | Init => Some new
  end).

Fixpoint set_at (l : cells) (i : nat) (v : option Z) : option cells :=
  match l, i with [], _ => None | _ :: l', 0 => Some (v :: l') | a :: l', S i' => option_map (cons a) (set_at l' i' v) end.
Definition assign (s : store) (x i : nat) (v : option Z) : option store :=
  obind (s x) (fun l => option_map (fun l' => upd s x (Some l')) (set_at l i v)).
(* x[off + j], ..., x[off + j + n - 1] = y[j], ..., y[j + n - 1] *)
Fixpoint copy_var (s : store) (x off y j n : nat) : option store :=
  match n with
  | 0 => Some s
  | S n' => obind (obind (s y) (fun l => nth_error l j)) (fun v => obind (assign s x (off + j) v) (fun s' => copy_var s' x off y (S j) n'))
  end.
Fixpoint copy_lit (s : store) (x off : nat) (l : list Z) : option store :=
  match l with [] => Some s | v :: l' => obind (assign s x off (Some v)) (fun s' => copy_lit s' x (S off) l') end.
Definition off_val (inp : nat -> Z) (s : store) (o : offset) (i : nat) : option Z :=
  match o with
  | OZero => Some 0%Z
  | OSize z => size_val inp s z
  | OTimes z j => option_map (fun m => (m * Z.of_nat j)%Z) (size_val inp s z)
  | OLoop z => option_map (fun m => (m * Z.of_nat i)%Z) (size_val inp s z)
  end.
Definition run_copy (inp : nat -> Z) (s : store) (x : nat) (c : copy) (i : nat) : option store :=
  obind (off_val inp s (c_off c) i) (fun off =>
  match c_src c with
  | AVar y => obind (size_val inp s (c_size c)) (fun n => copy_var s x (Z.to_nat off) y 0 (Z.to_nat n))
  | ALit l => copy_lit s x (Z.to_nat off) l
  end).
Fixpoint run_loop (inp : nat -> Z) (s : store) (x : nat) (c : copy) (i n : nat) : option store :=
  match n with 0 => Some s | S n' => obind (run_copy inp s x c i) (fun s' => run_loop inp s' x c (S i) n') end.
Fixpoint run_codes (inp : nat -> Z) (s : store) (x : nat) (l : list code) : option store :=
  match l with
  | [] => Some s
  | COne c :: l' => obind (run_copy inp s x c 0) (fun s' => run_codes inp s' x l')
  | CLoop n c :: l' => obind (run_loop inp s x c 0 (Z.to_nat (value inp n))) (fun s' => run_codes inp s' x l')
  end.
Fixpoint run (l : lang) (inp : nat -> Z) (s : store) (p : list gstmt) : option store :=
  match p with
  | [] => Some s
  | GAlloc x a fresh z :: p' => obind (run_alloc l inp s x a fresh z) (fun s' => run l inp s' p')
  | GCode x c :: p' => obind (run_codes inp s x c) (fun s' => run l inp s' p')
  end.
(* the function: the program in the language l with the inputs inp *)
Definition compiled (l : lang) (k : kind) (p : list stmt) (inp : nat -> Z) : option store :=
  obind (translate k (fun _ => None) p) (fun g => run l inp (fun _ => None) (fst g)).
