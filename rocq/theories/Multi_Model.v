(* Assignments with several targets: x = y = e, and x, y = e where e is not a display of names.
   Sources: pyccel/parser/syntactic.py 673-689 (_visit_Assign), pyccel/parser/semantic.py 5063-5183
   (a tuple or list is on the right), 5208 (visit of the right side), 5320-5345 (a name is on the left),
   5361-5400 (several names are on the left), 5421-5495 (split in several assignments),
   pyccel/ast/variable.py 507-521, 860-880 (__getitem__, by which zip iterates over a variable or an element:
   IndexError and StopIteration end the iteration).
   Simplifications: targets are names, or tuples of names; tuples on the right are made of values (see
   Unpack_Model for names); no strings, objects, generators; functions are not inlined or elemental. *)
From Coq Require Import ZArith List Bool Arith.
Import ListNotations.

(* numbers; arrays, lists and tuples *)
Inductive value := Num (z : Z) | Seq (l : list value).

(* the right side: a literal number, an operation, or a function of Python or NumPy that has not several
   results; a display of values; a variable or an element of one; a call of a function of the user *)
Inductive rhs := RExpr (v : value) | RDisplay (l : list value) | RName (x : nat) | RCall (f : nat).
Inductive target := Name (x : nat) | Tuple (l : list nat).

Definition state := nat -> option value.
Definition set (s : state) (x : nat) (v : value) : state := fun y => if Nat.eqb y x then Some v else s y.
(* the variables, and the functions that have been called *)
Record world := mkw { vars : state; calls : list nat }.

Inductive outcome := Ran (w : world) | Rejected | OutOfBounds | NotModelled.

(* syntactic.py 673-689: several targets become a tuple *)
Inductive tree := TName (x : nat) | TTuple (l : list tree).
Definition visit_target (t : target) : tree :=
  match t with Name x => TName x | Tuple l => TTuple (map TName l) end.
Definition visit_targets (ts : list target) : tree :=
  match map visit_target ts with
  | [l] => l
  | ls => TTuple ls
  end.

Section Program.
(* the functions; which of them return a tuple of several results, not an array or a list; the variables
   whose length is known when the code is generated *)
Variable fn : nat -> state -> value.
Variable tuple_result : nat -> bool.
Variable known_length : nat -> bool.

Fixpoint rank (v : value) : nat :=
  match v with Num _ => 0 | Seq [] => 1 | Seq (v :: _) => S (rank v) end.
(* a variable keeps its rank, semantic.py 5336 (_assign_lhs_variable) *)
Definition accepts (s : state) (x : nat) (v : value) : bool :=
  match s x with None => true | Some u => Nat.eqb (rank u) (rank v) end.

(* for l, r in zip(lhs, rhs): l = r. Without a known length the iteration over rhs does not end, and the
   code reads elements that do not exist. *)
Fixpoint give (known : bool) (ts : list nat) (vs : list value) (w : world) : outcome :=
  match ts, vs with
  | [], _ => Ran w
  | _ :: _, [] => if known then Ran w else OutOfBounds
  | t :: ts', v :: vs' =>
      if accepts (vars w) t v then give known ts' vs' (mkw (set (vars w) t v) (calls w)) else Rejected
  end.

Fixpoint names (ls : list tree) : option (list nat) :=
  match ls with
  | [] => Some []
  | TName x :: ls' => match names ls' with Some xs => Some (x :: xs) | None => None end
  | TTuple _ :: _ => None
  end.

Definition assign_name (x : nat) (v : value) (w : world) : outcome :=
  if accepts (vars w) x v then Ran (mkw (set (vars w) x v) (calls w)) else Rejected.

(* semantic.py 5361-5400 *)
Definition assign_names (ts : list nat) (e : rhs) (w : world) : outcome :=
  match e with
  | RExpr _ => Rejected                                  (* TypeError of zip; AssertionError for functions, 5378 *)
  | RDisplay l => if length l <? length ts then Rejected else give true ts l w   (* IndexError of rhs[i], 5111 *)
  | RName x =>
      if existsb (Nat.eqb x) ts then NotModelled else
      match vars w x with
      | None => Rejected                                (* an undefined variable *)
      | Some (Num _) => Ran w                           (* IndexError of __getitem__: zip is empty *)
      | Some (Seq vs) => give (known_length x) ts vs w
      end
  | RCall f =>
      let w' := mkw (vars w) (calls w ++ [f]) in
      match fn f (vars w) with
      | Num _ => Ran w'                                 (* tmp = f(), and zip is empty *)
      | Seq vs =>
          if tuple_result f
          then if Nat.eqb (length ts) (length vs) then give true ts vs w' else Rejected
          else give false ts vs w'
      end
  end.

Definition assign (l : tree) (e : rhs) (w : world) : outcome :=
  match l with
  | TName x =>
      match e with
      | RExpr v => assign_name x v w
      | RDisplay l => assign_name x (Seq l) w
      | RName y => match vars w y with Some v => assign_name x v w | None => Rejected end
      | RCall f => assign_name x (fn f (vars w)) (mkw (vars w) (calls w ++ [f]))
      end
  | TTuple ls => match names ls with Some ts => assign_names ts e w | None => NotModelled end
  end.

(* the statement t1 = t2 = ... = e *)
Definition run (ts : list target) (e : rhs) (w : world) : outcome := assign (visit_targets ts) e w.
End Program.
