(** np.arange and np.linspace.

    Models /repo/pyccel/ast/numpyext.py lines 1013-1082 (NumpyArange) and
    1463-1616 (NumpyLinspace), /repo/pyccel/codegen/printing/ccode.py lines
    2853-2880 (_print_NumpyLinspace), 2710-2760 (the printing of ceil),
    3257-3262 (the printing of a division) and 3362-3386 (_print_Assign),
    /repo/pyccel/codegen/printing/fcode.py lines 1855-1908
    (_print_NumpyLinspace), 2048-2064 (_print_NumpyArange), and
    /repo/pyccel/ast/utilities.py lines 700-745 (the loop put around the
    assignment of such an array when the language is C).

    Numbers are exact rationals, except for the size of an arange of integers
    which is computed with the double precision operations of the generated
    code.  Integers do not overflow. *)

From Coq Require Import List ZArith Bool Reals QArith Qcanon Qround.
From Flocq Require Import Core.
Import ListNotations.

(** ** The size of np.arange for integers *)

(* A double: rounding to nearest, ties to even, 53 bits, smallest exponent
   -1074 (IEEE 754).  Overflow cannot happen: the arguments come from 64-bit
   integers. *)
Definition double (x : R) : R := round radix2 (FLT_exp (-1074) 53) ZnearestE x.

(* numpyext.py 1054-1056, with ccode.py 3257-3262 (both operands of the
   division are integers: both are converted to doubles) and ccode.py
   2747-2759 ((int64_t)ceil(...)); fcode.py 3605-3615 has the same division.
   Simplified: the step is not 0 (see [quotient] for that). *)
Definition int_size (start stop step : Z) : Z :=
  Zceil (double (double (IZR (stop - start)) / double (IZR step))).

(** ** Rationals *)

(* An integer as a number. *)
Definition num (z : Z) : Qc := Q2Qc (inject_Z z).

(* A division of floating point numbers: infinite or not a number, hence
   [None], if the divisor is 0. *)
Definition quotient (a b : Qc) : option Qc :=
  if Qc_eq_dec b 0%Qc then None else Some (a / b)%Qc.

(* C's and Fortran's conversion of a floating point number to an integer:
   towards 0. *)
Definition truncate (q : Qc) : Qc :=
  if Qclt_le_dec q 0%Qc then num (Qceiling q) else num (Qfloor q).

(* The type of the elements of the array: an integer type or not. *)
Inductive dtype := Int | Float.

(* The implicit conversion done by an assignment (ccode.py 3386) and the
   explicit ones of ccode.py 2856 (_cast_to) and fcode.py 1857-1859
   (_apply_cast). *)
Definition convert (d : dtype) (q : Qc) : Qc :=
  match d with Int => truncate q | Float => q end.

(** ** np.arange *)

(* numpyext.py 1042-1048: the arguments left out. *)
Definition arange_args {A : Type} (zero one : A) (start : A) (stop step : option A)
  : A * A * A :=
  let '(a, b) := match stop with None => (zero, start) | Some b => (start, b) end in
  (a, b, match step with None => one | Some s => s end).

(* numpyext.py 1054-1057: the size. *)
Definition size (start stop step : Qc) : option Z :=
  match quotient (stop - start)%Qc step with
  | Some q => Some (Qceiling q)
  | None => None
  end.

(* What the array is: its length, as len(x) gives it, and its elements. *)
Record array := Arr { len : Z; items : list Qc }.

(* The indices of a loop from 0 to n - 1: none if n is negative. *)
Definition indices (n : Z) : list Z := map Z.of_nat (seq 0 (Z.to_nat n)).

(* numpyext.py 1070-1072: start + index * step. *)
Definition element (start step : Qc) (i : Z) : Qc := (start + num i * step)%Qc.

(* C: the array is declared with that size (the length of the array is the
   size it is declared with, even a negative one) and filled by a loop. *)
Definition c_arange (d : dtype) (start stop step : Qc) : option array :=
  match size start stop step with
  | None => None
  | Some n => Some (Arr n (map (fun i => convert d (element start step i)) (indices n)))
  end.

(* np.arange with some arguments left out. *)
Definition c_call (d : dtype) (start : Qc) (stop step : option Qc) : option array :=
  let '(a, b, s) := arange_args 0%Qc 1%Qc start stop step in c_arange d a b s.

(* The step as it is written: the terms of a sum.  A product, a quotient, a
   name, a number or a call is a single term. *)
Notation terms := (list Qc) (only parsing).

Definition total (ts : terms) : Qc := fold_right Qcplus 0%Qc ts.

(* How Fortran reads "t1 + ... + tk * index": the product binds tighter than
   the sums, so only the last term is multiplied. *)
Fixpoint times_index (ts : terms) (i : Z) : Qc :=
  match ts with
  | [] => 0%Qc
  | [t] => (t * num i)%Qc
  | t :: r => (t + times_index r i)%Qc
  end.

(* fcode.py 2054 "[({start} + {step} * {index}, {index} = 0, size - 1, 1)]":
   the text of the step is put there as it is.  The array is allocated with the
   bounds 0 and size - 1: its length is 0 if the size is negative. *)
Definition f_arange (d : dtype) (start stop : Qc) (step : terms) : option array :=
  match size start stop (total step) with
  | None => None
  | Some n =>
    Some (Arr (Z.max 0 n)
              (map (fun i => convert d (start + times_index step i)%Qc) (indices n)))
  end.

(** ** np.linspace *)

(* The memory of the array which is assigned: [None] is an undefined or
   infinite number. *)
Notation cell := (option Qc) (only parsing).
Notation memory := (list (option Qc)) (only parsing).

(* The argument endpoint: a literal, or an expression with that value. *)
Inductive endpoint := Always | Never | Value (b : bool).

(* numpyext.py 1547-1559: the number of intervals. *)
Definition intervals (n : nat) (e : endpoint) : Z :=
  match e with
  | Never => Z.of_nat n
  | Always => Z.of_nat n - 1
  | Value b => Z.of_nat n - (if b then 1 else 0)
  end.

(* The start and the stop: expressions which may read the array that is
   assigned. *)
Notation reader := (list (option Qc) -> option Qc) (only parsing).

Definition lift2 (f : Qc -> Qc -> option Qc) (a b : cell) : cell :=
  match a, b with Some x, Some y => f x y | _, _ => None end.

(* numpyext.py 1547-1559: the step. *)
Definition step (n : nat) (e : endpoint) (start stop : cell) : cell :=
  lift2 (fun a b => quotient (b - a)%Qc (num (intervals n e))) start stop.

(* ccode.py 2859 and 2876-2878, fcode.py 1897-1901: the value at an index, and
   its floor for an integer type. *)
Definition value (d : dtype) (n : nat) (e : endpoint) (start stop : cell) (i : nat) : cell :=
  lift2 (fun a s =>
           let v := (a + num (Z.of_nat i) * s)%Qc in
           Some (match d with Int => num (Qfloor v) | Float => v end))
        start (step n e start stop).

(* ccode.py 2856, fcode.py 1857-1861: the last value. *)
Definition last_value (d : dtype) (stop : cell) : cell :=
  match stop with Some q => Some (convert d q) | None => None end.

(* A store, at an index of the array or outside of it: [None]. *)
Fixpoint store {A : Type} (m : list A) (i : nat) (v : A) : option (list A) :=
  match m, i with
  | [], _ => None
  | _ :: r, O => Some (v :: r)
  | x :: r, Datatypes.S j =>
    match store r j v with Some r' => Some (x :: r') | None => None end
  end.

(* The store of the endpoint at num - 1; there is no index -1.  With an
   endpoint which is not a literal, the old value is stored if it is false
   (ccode.py 2873-2874, fcode.py 1889-1890). *)
Definition store_end (d : dtype) (n : nat) (e : endpoint) (stop : reader) (m : memory)
  : option memory :=
  match e with
  | Never => Some m
  | _ =>
    match n with
    | O => None
    | Datatypes.S k =>
      match e with
      | Value false => match nth_error m k with Some v => store m k v | None => None end
      | _ => store m k (last_value d (stop m))
      end
    end
  end.

(* ccode.py 2853-2880 and 3381-3386, utilities.py 723-725: the body of the loop
   is the assignment of the element followed by the one of the last element. *)
Fixpoint c_loop (d : dtype) (n : nat) (e : endpoint) (start stop : reader)
  (is : list nat) (m : memory) : option memory :=
  match is with
  | [] => Some m
  | i :: r =>
    match store m i (value d n e (start m) (stop m) i) with
    | None => None
    | Some m1 =>
      match store_end d n e stop m1 with
      | None => None
      | Some m2 => c_loop d n e start stop r m2
      end
    end
  end.

Definition c_linspace (d : dtype) (n : nat) (e : endpoint) (start stop : reader)
  (m : memory) : option memory :=
  c_loop d n e start stop (seq 0 n) m.

(* fcode.py 1855-1908 for the rank 1: the array constructor, whose values are
   all computed before they are stored, and then the last element. *)
Definition f_linspace (d : dtype) (n : nat) (e : endpoint) (start stop : reader)
  (m : memory) : option memory :=
  store_end d n e stop (map (value d n e (start m) (stop m)) (seq 0 n)).

(** *** Arrays of starts and stops *)

(* numpyext.py 1541-1545 (the shape, (num,) followed by the shape of the starts
   and stops) and fcode.py 1873-1893, ccode.py 2863-2874 for a rank of 2: the
   loop over the first index contains one over the second, or a vector
   expression in Fortran.  Simplified: the starts and stops do not read the
   array; the endpoint is stored in each iteration in both languages. *)
Definition row (d : dtype) (n : nat) (e : endpoint) (starts stops : list Qc) (i : nat)
  : list (option Qc) :=
  map (fun '(a, b) => value d n e (Some a) (Some b) i) (combine starts stops).

Definition last_row (d : dtype) (stops : list Qc) : list (option Qc) :=
  map (fun b => last_value d (Some b)) stops.

Definition includes (e : endpoint) : bool :=
  match e with Always => true | Never => false | Value b => b end.

Fixpoint rows_loop (d : dtype) (n : nat) (e : endpoint) (starts stops : list Qc)
  (is : list nat) (m : list (list (option Qc))) : option (list (list (option Qc))) :=
  match is with
  | [] => Some m
  | i :: r =>
    match store m i (row d n e starts stops i) with
    | None => None
    | Some m1 =>
      match (if includes e then store m1 (n - 1) (last_row d stops) else Some m1) with
      | None => None
      | Some m2 => rows_loop d n e starts stops r m2
      end
    end
  end.

Definition linspace_rows (d : dtype) (n : nat) (e : endpoint) (starts stops : list Qc)
  (m : list (list (option Qc))) : option (list (list (option Qc))) :=
  rows_loop d n e starts stops (seq 0 n) m.
