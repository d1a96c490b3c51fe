(* Shared vocabulary of the model: outcomes of running low-level code and
   fixed-width machine integers.  Nothing here models a particular function of
   pyccel; it fixes the meaning of the C11 / Fortran constructs used in the
   support library of /repo/pyccel/stdlib. *)
From Coq Require Import ZArith List Bool String.
Import ListNotations.
Open Scope Z_scope.

(* Outcome of a piece of low-level code: a value, undefined behaviour of the
   target language (or a failed assert / abort), or the model ran out of fuel. *)
Inductive run (A : Type) : Type :=
| Ret (a : A)
| Undef
| NoFuel.
Arguments Ret {A} a.
Arguments Undef {A}.
Arguments NoFuel {A}.

Definition bind {A B} (m : run A) (k : A -> run B) : run B :=
  match m with
  | Ret a => k a
  | Undef => Undef
  | NoFuel => NoFuel
  end.

Declare Scope run_scope.
Notation "x <- m ;; k" := (bind m (fun x => k))
  (at level 61, m at next level, right associativity) : run_scope.
Open Scope run_scope.

(* Two's complement range of a signed integer type with w bits. *)
Definition int_min (w : Z) : Z := - 2 ^ (w - 1).
Definition int_max (w : Z) : Z := 2 ^ (w - 1) - 1.
Definition in_rangeb (w z : Z) : bool := (int_min w <=? z) && (z <=? int_max w).
Definition in_range (w z : Z) : Prop := int_min w <= z <= int_max w.

(* C11 6.5p5: signed overflow is undefined. *)
Definition chk (w z : Z) : run Z := if in_rangeb w z then Ret z else Undef.

(* Conversion to a narrower signed type (C11 6.3.1.3p3, as done by gcc, clang). *)
Definition wrap (w z : Z) : Z := (z + 2 ^ (w - 1)) mod 2 ^ w - 2 ^ (w - 1).

(* C11 6.5.5: truncating division; undefined on division by zero, and both
   x/y and x%y are undefined if the quotient is not representable. *)
Definition c_div (w x y : Z) : run Z :=
  if y =? 0 then Undef else chk w (Z.quot x y).
Definition c_rem (w x y : Z) : run Z :=
  if y =? 0 then Undef
  else if in_rangeb w (Z.quot x y) then Ret (Z.rem x y) else Undef.

Definition b2z (b : bool) : Z := if b then 1 else 0.

(* Outcome of a piece of Python code of pyccel itself: a value, an exception
   (with a word naming it), or the model ran out of fuel. *)
Inductive py (A : Type) : Type :=
| POk (a : A)
| PErr (e : String.string)
| PFuel.
Arguments POk {A} a.
Arguments PErr {A} e.
Arguments PFuel {A}.

Definition pbind {A B} (m : py A) (k : A -> py B) : py B :=
  match m with
  | POk a => k a
  | PErr e => PErr e
  | PFuel => PFuel
  end.
Declare Scope py_scope.
Notation "x <~ m ;; k" := (pbind m (fun x => k))
  (at level 61, m at next level, right associativity) : py_scope.
