(* Conditions of an if which test whether optional arguments were given.
   Sources: pyccel/parser/semantic.py 4680-4683 (and, or), 6123-6205 (IfSection), 6207-6218 (If),
   7116-7141 (is, is not); pyccel/ast/builtins.py 259-265 (PythonBool); pyccel/ast/operators.py
   1436-1560 (PyccelAnd, PyccelOr); pyccel/ast/basic.py 188-240 (get_attribute_nodes), 257-292
   (is_user_of), 480-502 (get_direct_user_nodes); pyccel/codegen/printing/ccode.py 1301-1325,
   3600-3622; pyccel/codegen/printing/fcode.py 3447-3474, 3512-3538, 3689-3709, 3799-3803.
   Simplifications: arguments are integers, or booleans where PFlag is used; the bodies of the
   if are numbers, a run says which body is run; the values that SymPy knows (C65) are not
   treated here.  In Fortran all operands of .and. and .or. are evaluated, as compilers may. *)
From Coq Require Import Bool Arith ZArith List String.
Import ListNotations.
Open Scope list_scope.

(* ------------------------------------------------------------------ expressions *)

(* Opt: an argument whose default is None *)
Inductive term :=
| Const (z : Z) | Local (x : string) | Opt (v : string)
| Plus (a b : term) | Quot (a b : term).

Record state := mk { local : string -> Z; given : string -> option Z }.

(* None: an exception in Python; in C and in Fortran an argument that was not given is read, or
   a division by zero *)
Fixpoint value (st : state) (t : term) : option Z :=
  match t with
  | Const z => Some z
  | Local x => Some (local st x)
  | Opt v => given st v
  | Plus a b =>
      match value st a, value st b with Some x, Some y => Some (x + y)%Z | _, _ => None end
  | Quot a b =>
      match value st a, value st b with
      | Some x, Some y => if Z.eqb y 0 then None else Some (Z.div x y)
      | _, _ => None
      end
  end.

Definition truth (z : Z) : bool := negb (Z.eqb z 0).

Definition here (st : state) (v : string) : bool :=
  match given st v with Some _ => true | None => false end.

(* ------------------------------------------------------------------ Python *)

(* PTerm t: the term as a condition; PFlag v: the optional boolean v as a condition;
   PCall z b: a call that prints z and returns b *)
Inductive pcond :=
| PPresent (v : string) | PMissing (v : string)
| PTerm (t : term) | PFlag (v : string) | PLess (a b : term) | PCall (z : Z) (b : bool)
| PAnd (p q : pcond) | POr (p q : pcond) | PNot (p : pcond).

(* The truth value of None is False.  The result: what is printed, and the value *)
Fixpoint py (st : state) (p : pcond) : option (list Z * bool) :=
  match p with
  | PPresent v => Some ([], here st v)
  | PMissing v => Some ([], negb (here st v))
  | PTerm (Opt v) | PFlag v =>
      Some ([], match given st v with Some z => truth z | None => false end)
  | PTerm t => match value st t with Some z => Some ([], truth z) | None => None end
  | PLess a b =>
      match value st a, value st b with
      | Some x, Some y => Some ([], Z.ltb x y)
      | _, _ => None
      end
  | PCall z b => Some ([z], b)
  | PAnd p q =>
      match py st p with
      | Some (o, true) =>
          match py st q with Some (o', b) => Some (o ++ o', b) | None => None end
      | r => r
      end
  | POr p q =>
      match py st p with
      | Some (o, false) =>
          match py st q with Some (o', b) => Some (o ++ o', b) | None => None end
      | r => r
      end
  | PNot p => match py st p with Some (o, b) => Some (o, negb b) | None => None end
  end.

(* if ..: elif ..: else: *)
Record pif := mk_if { branches : list (pcond * nat); otherwise : option nat }.

(* What is printed by the conditions, and the body that is run *)
Fixpoint py_branches (st : state) (l : list (pcond * nat)) (o : option nat)
  : option (list Z * option nat) :=
  match l with
  | [] => Some ([], o)
  | (p, n) :: l' =>
      match py st p with
      | None => None
      | Some (t, true) => Some (t, Some n)
      | Some (t, false) =>
          match py_branches st l' o with Some (t', r) => Some (t ++ t', r) | None => None end
      end
  end.

Definition py_if (st : state) (s : pif) : option (list Z * option nat) :=
  py_branches st (branches s) (otherwise s).

(* ------------------------------------------------------------------ semantic stage *)

(* Present, Missing: PyccelIsNot and PyccelIs with Nil; Truth: PythonBool; Flag: the variable
   itself; Temp k: a variable made by treat_condition *)
Inductive cond :=
| Present (v : string) | Missing (v : string)
| Truth (t : term) | Flag (v : string) | Less (a b : term) | Call (z : Z) (b : bool)
| All (l : list cond) | Any (l : list cond) | Neg (c : cond) | Temp (k : nat).

(* operators.py 1477-1481, 1539-1543 *)
Definition and_args (c : cond) : list cond := match c with All l => l | _ => [c] end.
Definition or_args (c : cond) : list cond := match c with Any l => l | _ => [c] end.

(* builtins.py 259-265 *)
Definition python_bool (t : term) : cond :=
  match t with Opt v => All [Present v; Truth t] | _ => Truth t end.

(* PyccelNot takes its argument as it is (operators.py 432) *)
Fixpoint visit (p : pcond) : cond :=
  match p with
  | PPresent v => Present v
  | PMissing v => Missing v
  | PTerm t => python_bool t
  | PFlag v => Flag v
  | PLess a b => Less a b
  | PCall z b => Call z b
  | PAnd p q => All (and_args (visit p) ++ and_args (visit q))
  | POr p q => Any (or_args (visit p) ++ or_args (visit q))
  | PNot (PTerm t) => Neg (Truth t)
  | PNot p => Neg (visit p)
  end.

(* get_attribute_nodes(PyccelIsNot), for the node itself or in it *)
Fixpoint tests (c : cond) : list string :=
  match c with
  | Present v => [v]
  | All l | Any l => flat_map tests l
  | Neg c => tests c
  | _ => []
  end.

(* The uses of optional arguments *)
Fixpoint opts (t : term) : list string :=
  match t with
  | Opt v => [v]
  | Plus a b | Quot a b => opts a ++ opts b
  | _ => []
  end.

Fixpoint mentions (c : cond) : list string :=
  match c with
  | Present v | Missing v | Flag v => [v]
  | Truth t => opts t
  | Less a b => opts a ++ opts b
  | All l | Any l => flat_map mentions l
  | Neg c => mentions c
  | Call _ _ | Temp _ => []
  end.

(* var_use (semantic.py 6159): the direct users of the variable which the condition uses; the
   condition is not a user of itself, so that a variable that is itself an operand does not
   count *)
Definition below (d : cond) : list string :=
  match d with Flag _ => [] | _ => mentions d end.

Definition children (c : cond) : list cond :=
  match c with All l | Any l => l | Neg d => [d] | _ => [] end.

Definition uses (v : string) (c : cond) : nat :=
  count_occ string_dec (flat_map below (children c)) v.

Definition twice (c : cond) (v : string) : bool := 1 <? uses v c.

(* The loop over non_conditional_list for a condition which is an `and` *)
Inductive found := Free | Direct (v : string) (rest : list cond) | Inside.

Fixpoint search (c : cond) (front l : list cond) : found :=
  match l with
  | [] => Free
  | Present v :: l' =>
      if twice c v then Direct v (rev front ++ l') else search c (Present v :: front) l'
  | d :: l' => if existsb (twice c) (tests d) then Inside else search c (d :: front) l'
  end.

(* remaining_cond (6164-6170) *)
Definition join (l : list cond) : cond := match l with [d] => d | _ => All l end.

(* The body of a section after treat_condition, and an if put before the whole statement:
   if (present v) then (Temp k = c) else (Temp k = False) *)
Inductive body := Body (n : nat) | Inner (c : cond) (b : body).
Definition hoist : Type := string * nat * cond.

(* treat_condition (6146-6203); None: an error is reported *)
Fixpoint treat (fuel : nat) (last : bool) (c : cond) (b : body) (k : nat)
  : option (list hoist * cond * body * nat) :=
  match fuel with
  | O => None
  | S f =>
      match c with
      | All l =>
          match search c [] l with
          | Free => Some ([], c, b, k)
          | Inside => None
          | Direct v rest =>
              match treat f last (join rest) b (S k) with
              | None => None
              | Some (h, c', b', k') =>
                  if last then Some (h, Present v, Inner c' b', k')
                  else Some (h ++ [(v, k, c')], Temp k, b', k')
              end
          end
      | _ =>
          if existsb (twice c) (flat_map tests (children c)) then None
          else Some ([], c, b, k)
      end
  end.

Record code := mk_code { before : list hoist; sections : list (cond * body);
                         final : option nat }.

(* is_last_block (6142): an else is the last block *)
Fixpoint treat_all (l : list (pcond * nat)) (o : option nat) (k : nat)
  : option (list hoist * list (cond * body)) :=
  match l with
  | [] => Some ([], [])
  | (p, n) :: l' =>
      let last := match l', o with [], None => true | _, _ => false end in
      let c := visit p in
      match treat (S (List.length (children c))) last c (Body n) k with
      | None => None
      | Some (h, c', b, k') =>
          match treat_all l' o k' with
          | Some (h', r) => Some (h ++ h', (c', b) :: r)
          | None => None
          end
      end
  end.

Definition translate (s : pif) : option code :=
  match treat_all (branches s) (otherwise s) 0 with
  | Some (h, l) => Some (mk_code h l (otherwise s))
  | None => None
  end.

(* ------------------------------------------------------------------ C and Fortran *)

Inductive lang := C | Fortran.

Definition temps := nat -> option bool.

(* && and || in C stop at the first operand that decides; in Fortran all are evaluated *)
Fixpoint test (g : lang) (m : temps) (st : state) (c : cond) : option (list Z * bool) :=
  match c with
  | Present v => Some ([], here st v)
  | Missing v => Some ([], negb (here st v))
  | Truth t => match value st t with Some z => Some ([], truth z) | None => None end
  | Flag v => match given st v with Some z => Some ([], truth z) | None => None end
  | Less a b =>
      match value st a, value st b with
      | Some x, Some y => Some ([], Z.ltb x y)
      | _, _ => None
      end
  | Call z b => Some ([z], b)
  | All l =>
      (fix all l :=
         match l with
         | [] => Some ([], true)
         | d :: l' =>
             match test g m st d with
             | None => None
             | Some (o, b) =>
                 match g, b with
                 | C, false => Some (o, false)
                 | _, _ =>
                     match all l' with
                     | Some (o', b') => Some (o ++ o', b && b')
                     | None => None
                     end
                 end
             end
         end) l
  | Any l =>
      (fix any l :=
         match l with
         | [] => Some ([], false)
         | d :: l' =>
             match test g m st d with
             | None => None
             | Some (o, b) =>
                 match g, b with
                 | C, true => Some (o, true)
                 | _, _ =>
                     match any l' with
                     | Some (o', b') => Some (o ++ o', b || b')
                     | None => None
                     end
                 end
             end
         end) l
  | Neg c => match test g m st c with Some (o, b) => Some (o, negb b) | None => None end
  | Temp k => match m k with Some b => Some ([], b) | None => None end
  end.

Definition set (m : temps) (k : nat) (b : bool) : temps :=
  fun j => if Nat.eqb j k then Some b else m j.

Fixpoint run_before (g : lang) (st : state) (l : list hoist) (m : temps)
  : option (list Z * temps) :=
  match l with
  | [] => Some ([], m)
  | (v, k, c) :: l' =>
      match (if here st v then test g m st c else Some ([], false)) with
      | None => None
      | Some (o, b) =>
          match run_before g st l' (set m k b) with
          | Some (o', m') => Some (o ++ o', m')
          | None => None
          end
      end
  end.

Fixpoint run_body (g : lang) (m : temps) (st : state) (b : body)
  : option (list Z * option nat) :=
  match b with
  | Body n => Some ([], Some n)
  | Inner c b' =>
      match test g m st c with
      | None => None
      | Some (o, false) => Some (o, None)
      | Some (o, true) =>
          match run_body g m st b' with Some (o', r) => Some (o ++ o', r) | None => None end
      end
  end.

Fixpoint run_sections (g : lang) (m : temps) (st : state) (l : list (cond * body))
                      (e : option nat) : option (list Z * option nat) :=
  match l with
  | [] => Some ([], e)
  | (c, b) :: l' =>
      match test g m st c with
      | None => None
      | Some (o, true) =>
          match run_body g m st b with Some (o', r) => Some (o ++ o', r) | None => None end
      | Some (o, false) =>
          match run_sections g m st l' e with
          | Some (o', r) => Some (o ++ o', r)
          | None => None
          end
      end
  end.

Definition run (g : lang) (st : state) (x : code) : option (list Z * option nat) :=
  match run_before g st (before x) (fun _ => None) with
  | None => None
  | Some (o, m) =>
      match run_sections g m st (sections x) (final x) with
      | Some (o', r) => Some (o ++ o', r)
      | None => None
      end
  end.
