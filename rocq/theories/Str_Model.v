(* Strings.

   Modelled: the Allocate and Deallocate statements for local strings (pyccel/parser/semantic.py
   2366-2470, 2602-2890, 6123-6241, 835-867), what they print in C (pyccel/codegen/printing/ccode.py
   2445-2470, 2535-2576, the declaration without an initial value 2036-2100, assignments 3362-3386,
   str() 4130-4134, literals 1622-1636) and in Fortran (pyccel/codegen/printing/fcode.py 2349-2402,
   2673, 2703-2707, 1763, 3567-3568), comparisons (ccode.py 1363-1400, fcode.py 3711-3745), strings
   as arguments and results of wrapped functions (pyccel/codegen/wrapper/c_to_python_wrapper.py
   3739-3846, 4370-4395, 2185-2205, pyccel/codegen/wrapper/fortran_to_c_wrapper.py 620-684,
   1450-1512).

   The string type of the C library (STC, not in the repository) keeps short strings in the variable
   and long ones in memory from malloc; which strings are long is a parameter ("big").

   Simplifications: local strings of one function which returns one of them; loops have a fixed
   number of iterations; conditions are comparisons of strings. *)
From Coq Require Import Bool Arith ZArith List.
From Verif Require Import Alloc_Model.
Import ListNotations.
Open Scope Z_scope.
Open Scope list_scope.

(* the code points *)
Definition str := list Z.

Inductive sarg := AVar (y : nat) | ALit (s : str).
Inductive srhs :=
| RLit (s : str)
| RCopy (y : nat)                                      (* y, or a call of a function that returns its argument y *)
| RStr (y : nat)                                       (* str(y) *)
| RFun (f : list str -> str) (l : list sarg)           (* a call of a function that returns a string of its own *)
| RCat (y z : nat).                                    (* y + z *)
Inductive scond := CEq (x y : sarg) | CNe (x y : sarg).
Inductive sstmt :=
| TAssign (x : nat) (r : srhs)
| TPrint (x : nat)
| TIf (c : scond) (a b : list sstmt)
| TLoop (n : nat) (b : list sstmt).

(* ------------------------------ the analysis ------------------------------ *)

Inductive tstmt :=
| UDrop (x : nat)                                      (* Allocate with a status other than "unallocated" *)
| UAssign (x : nat) (r : srhs)
| UPrint (x : nat)
| UIf (c : scond) (a b : list tstmt)
| ULoop (n : nat) (b : list tstmt).

Definition drop_if (st : status) (x : nat) : list tstmt := match st with Unallocated => [] | _ => [UDrop x] end.
(* semantic.py 2366-2470 and 2745-2890.  The shape of a string is that of the variable itself
   (variable.py 235-241), so that the shape of the right hand side is the same only for x = x. *)
Definition sassign (lp : bool) (x : nat) (r : srhs) (a : an) : list tstmt * an :=
  match a_last a x with
  | None =>
    let st := if lp then Unknown else Unallocated in
    (drop_if st x ++ [UAssign x r], add_alloc x st [] (x :: a_frees a) a)
  | Some i =>
    let same := match r with RCopy y => Nat.eqb y x | _ => false end in
    if negb same then
      let st := if open_sec i then i_status i else if has_if_or_loop i then Unknown else Allocated in
      (drop_if st x ++ [UAssign x r], add_alloc x st [] (a_frees a) a)
    else if has_sec i && negb (has_if i) then (drop_if (i_status i) x ++ [UAssign x r], add_alloc x (i_status i) [] (a_frees a) a)
    else ([UAssign x r], a)
  end.
(* 6123-6241: the sections one after the other, then the if statement around them; 5657-5694: the
   loop around its body *)
Fixpoint svisit (lp : bool) (s : sstmt) (a : an) : list tstmt * an :=
  let fix svisits (lp : bool) (l : list sstmt) (a : an) : list tstmt * an :=
    match l with
    | [] => ([], a)
    | s :: l' => let '(c, a1) := svisit lp s a in let '(c', a2) := svisits lp l' a1 in (c ++ c', a2)
    end in
  match s with
  | TAssign x r => sassign lp x r a
  | TPrint x => ([UPrint x], a)
  | TIf c l l' =>
    let '(g, a1) := svisits lp l a in
    let a1' := close (a_next a) FSec false a1 in
    let '(g', a2) := svisits lp l' a1' in
    let a2' := close (a_next a1') FSec false a2 in
    ([UIf c g g'], close (a_next a) FIf false a2')
  | TLoop n l => let '(g, a1) := svisits true l a in ([ULoop n g], close (a_next a) FLoop false a1)
  end.
Definition svisits : bool -> list sstmt -> an -> list tstmt * an :=
  fix svisits (lp : bool) (l : list sstmt) (a : an) : list tstmt * an :=
    match l with
    | [] => ([], a)
    | s :: l' => let '(c, a1) := svisit lp s a in let '(c', a2) := svisits lp l' a1 in (c ++ c', a2)
    end.
(* 835-867 and 6326-6336: the strings that are freed by "return x" *)
Definition sfrees (x : nat) (a : an) : list nat := filter (fun y => negb (Nat.eqb y x)) (nodup Nat.eq_dec (a_frees a)).

(* ------------------------------ bytes and comparisons ------------------------------ *)

(* UTF-8 *)
Definition utf8_char (c : Z) : list Z :=
  if c <? 128 then [c]
  else if c <? 2048 then [192 + c / 64; 128 + c mod 64]
  else if c <? 65536 then [224 + c / 4096; 128 + c / 64 mod 64; 128 + c mod 64]
  else [240 + c / 262144; 128 + c / 4096 mod 64; 128 + c / 64 mod 64; 128 + c mod 64].
Definition utf8 (s : str) : list Z := flat_map utf8_char s.

Fixpoint bytes_eqb (a b : list Z) : bool :=
  match a, b with
  | [], [] => true
  | x :: a', y :: b' => (x =? y) && bytes_eqb a' b'
  | _, _ => false
  end.
(* what strcmp and strlen see: the bytes before the first 0 *)
Fixpoint to_nul (l : list Z) : list Z := match l with [] => [] | c :: l' => if c =? 0 then [] else c :: to_nul l' end.
(* ccode.py 1363-1370: !strcmp(cstr_str(&a), cstr_str(&b)) *)
Definition eq_c (a b : str) : bool := bytes_eqb (to_nul (utf8 a)) (to_nul (utf8 b)).
(* fcode.py 3711-3724: a == b; Fortran adds blanks to the shorter string *)
Fixpoint blank (l : list Z) : bool := match l with [] => true | c :: l' => (c =? 32) && blank l' end.
Fixpoint padded_eqb (a b : list Z) : bool :=
  match a, b with
  | x :: a', y :: b' => (x =? y) && padded_eqb a' b'
  | _, [] => blank a
  | [], _ => blank b
  end.
Definition eq_f (a b : str) : bool := padded_eqb (utf8 a) (utf8 b).

(* ------------------------------ C ------------------------------ *)

Inductive cval := Short (s : str) | Block (b : nat).
Record cst := mk_cst {
  c_var : nat -> option cval;            (* None: not initialised *)
  c_heap : nat -> option str;            (* the blocks in use *)
  c_new : nat;
  c_out : list str
}.
Definition cst0 : cst := mk_cst (fun _ => None) (fun _ => None) O [].

(* None in all of the following: undefined behaviour *)
Definition c_val (st : cst) (v : cval) : option str := match v with Short s => Some s | Block b => c_heap st b end.
Definition c_read (st : cst) (x : nat) : option str := match c_var st x with Some v => c_val st v | None => None end.
(* cstr_drop: nothing for a short string *)
Definition c_drop (x : nat) (st : cst) : option cst :=
  match c_var st x with
  | None => None
  | Some (Short _) => Some st
  | Some (Block b) =>
    match c_heap st b with
    | Some _ => Some (mk_cst (c_var st) (upd (c_heap st) b None) (c_new st) (c_out st))
    | None => None
    end
  end.
Definition c_set (x : nat) (v : cval) (st : cst) : cst := mk_cst (upd (c_var st) x (Some v)) (c_heap st) (c_new st) (c_out st).
(* a new string in the variable *)
Definition c_make (big : str -> bool) (x : nat) (s : str) (st : cst) : cst :=
  if big s then mk_cst (upd (c_var st) x (Some (Block (c_new st)))) (upd (c_heap st) (c_new st) (Some s)) (S (c_new st)) (c_out st)
  else c_set x (Short s) st.
(* the arguments of a call; cstr_lit("...") for a literal is a new string that no variable has *)
Fixpoint c_args (big : str -> bool) (l : list sarg) (st : cst) : option (list str * cst) :=
  match l with
  | [] => Some ([], st)
  | AVar y :: l' =>
    match c_read st y, c_args big l' st with Some s, Some (ss, st') => Some (s :: ss, st') | _, _ => None end
  | ALit s :: l' =>
    let st1 := if big s then mk_cst (c_var st) (upd (c_heap st) (c_new st) (Some s)) (S (c_new st)) (c_out st) else st in
    match c_args big l' st1 with Some (ss, st') => Some (s :: ss, st') | None => None end
  end.
(* ccode.py 3362-3386: x = the C expression *)
Definition c_assign (big : str -> bool) (x : nat) (r : srhs) (st : cst) : option cst :=
  match r with
  | RLit s => Some (c_make big x s st)
  | RCopy y => match c_var st y with Some v => Some (c_set x v st) | None => None end
  | RStr y => match c_read st y with Some s => Some (c_make big x s st) | None => None end
  | RFun f l => match c_args big l st with Some (ss, st') => Some (c_make big x (f ss) st') | None => None end
  | RCat _ _ => None                                   (* the C code cannot be compiled *)
  end.
(* ccode.py 4122-4128: a literal is printed without cstr_lit *)
Definition c_operand (st : cst) (a : sarg) : option str := match a with AVar y => c_read st y | ALit s => Some s end.
Definition c_cond (st : cst) (c : scond) : option bool :=
  match c with
  | CEq x y => match c_operand st x, c_operand st y with Some s, Some t => Some (eq_c s t) | _, _ => None end
  | CNe x y => match c_operand st x, c_operand st y with Some s, Some t => Some (negb (eq_c s t)) | _, _ => None end
  end.

Definition obind {A B : Type} (o : option A) (f : A -> option B) : option B := match o with Some x => f x | None => None end.
Fixpoint iter_o {A : Type} (n : nat) (f : A -> option A) (x : A) : option A := match n with O => Some x | S n' => obind (f x) (iter_o n' f) end.

Fixpoint c_run (big : str -> bool) (s : tstmt) (st : cst) : option cst :=
  let fix c_runs (l : list tstmt) (st : cst) : option cst := match l with [] => Some st | s :: l' => obind (c_run big s st) (c_runs l') end in
  match s with
  | UDrop x => c_drop x st
  | UAssign x r => c_assign big x r st
  | UPrint x => match c_read st x with Some s => Some (mk_cst (c_var st) (c_heap st) (c_new st) (c_out st ++ [s])) | None => None end
  | UIf c a b => match c_cond st c with Some true => c_runs a st | Some false => c_runs b st | None => None end
  | ULoop n b => iter_o n (c_runs b) st
  end.
Definition c_runs (big : str -> bool) : list tstmt -> cst -> option cst :=
  fix c_runs (l : list tstmt) (st : cst) : option cst := match l with [] => Some st | s :: l' => obind (c_run big s st) (c_runs l') end.
Fixpoint c_drops (xs : list nat) (st : cst) : option cst := match xs with [] => Some st | x :: xs' => obind (c_drop x st) (c_drops xs') end.
(* a function with the statements p and "return x": its value and the state afterwards *)
Definition c_function (big : str -> bool) (p : list sstmt) (x : nat) : option (str * cst) :=
  let '(code, a) := svisits false p an0 in
  match obind (c_runs big code cst0) (c_drops (sfrees x a)) with
  | Some st => match c_read st x with Some s => Some (s, st) | None => None end
  | None => None
  end.

(* ------------------------------ Fortran ------------------------------ *)

(* character(len=:), allocatable: an assignment copies; Allocate prints nothing (fcode.py 2673) *)
Definition fst_ : Type := (nat -> option str) * list str.
Definition f_operand (e : nat -> option str) (a : sarg) : option str := match a with AVar y => e y | ALit s => Some s end.
Fixpoint f_reads (e : nat -> option str) (l : list sarg) : option (list str) :=
  match l with
  | [] => Some []
  | x :: l' => match f_operand e x, f_reads e l' with Some s, Some ss => Some (s :: ss) | _, _ => None end
  end.
Definition f_value (e : nat -> option str) (r : srhs) : option str :=
  match r with
  | RLit s => Some s
  | RCopy y | RStr y => e y
  | RFun f ys => option_map f (f_reads e ys)
  | RCat y z => match e y, e z with Some s, Some t => Some (s ++ t) | _, _ => None end
  end.
Definition f_cond (e : nat -> option str) (c : scond) : option bool :=
  match c with
  | CEq x y => match f_operand e x, f_operand e y with Some s, Some t => Some (eq_f s t) | _, _ => None end
  | CNe x y => match f_operand e x, f_operand e y with Some s, Some t => Some (negb (eq_f s t)) | _, _ => None end
  end.
Fixpoint f_run (s : tstmt) (st : fst_) : option fst_ :=
  let fix f_runs (l : list tstmt) (st : fst_) : option fst_ := match l with [] => Some st | s :: l' => obind (f_run s st) (f_runs l') end in
  match s with
  | UDrop _ => Some st
  | UAssign x r => match f_value (fst st) r with Some v => Some (upd (fst st) x (Some v), snd st) | None => None end
  | UPrint x => match fst st x with Some s => Some (fst st, snd st ++ [s]) | None => None end
  | UIf c a b => match f_cond (fst st) c with Some true => f_runs a st | Some false => f_runs b st | None => None end
  | ULoop n b => iter_o n (f_runs b) st
  end.
Definition f_runs : list tstmt -> fst_ -> option fst_ :=
  fix f_runs (l : list tstmt) (st : fst_) : option fst_ := match l with [] => Some st | s :: l' => obind (f_run s st) (f_runs l') end.
(* if (allocated(x)) deallocate(x) *)
Definition f_frees (xs : list nat) (st : fst_) : fst_ := (fun y => if existsb (Nat.eqb y) xs then None else fst st y, snd st).
Definition f_function (p : list sstmt) (x : nat) : option (str * fst_) :=
  let '(code, a) := svisits false p an0 in
  match f_runs code (fun _ => None, []) with
  | Some st => let st' := f_frees (sfrees x a) st in match fst st' x with Some s => Some (s, st') | None => None end
  | None => None
  end.

(* ------------------------------ the wrappers ------------------------------ *)

(* c_to_python_wrapper.py 3830: cstr_from(PyUnicode_AsUTF8(obj)), the bytes before the first 0 *)
Definition argument_c (s : str) : list Z := to_nul (utf8 s).
(* c_to_python_wrapper.py 3806-3820: the bytes of PyUnicode_AsUTF8 and the number PyUnicode_GetLength
   of code points; fortran_to_c_wrapper.py 653-669: as many bytes *)
Definition argument_fortran (s : str) : list Z := firstn (List.length s) (utf8 s).
(* c_to_python_wrapper.py 4390: Py_BuildValue("s", ...) with the bytes before the first 0;
   fortran_to_c_wrapper.py 1497-1505: the bytes followed by 0 *)
Definition result_c (b : list Z) : list Z := to_nul b.
Definition result_fortran (b : list Z) : list Z := to_nul (b ++ [0]).

(* the blocks of strings in use after a call of a wrapped C function with these arguments, which
   gives a string of its own: the copies of the arguments and the result are not freed
   (c_to_python_wrapper.py 2188-2205 frees arrays, 3845 and 4395 have no clean-up in C) *)
Definition left_over (big : str -> bool) (args : list str) (f : list str -> str) : nat :=
  List.length (filter big (args ++ [f args])).
