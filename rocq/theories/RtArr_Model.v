(* Array routines of pyccel's support library: extremal elements of complex
   arrays, matrix products, cross product. *)
From Coq Require Import ZArith List Bool Arith.
From Verif Require Import Common.
Import ListNotations.
Open Scope nat_scope.
Open Scope run_scope.

(* ---- complex minimum / maximum ---- *)
Section Complex.
  (* R with [ltb] and [eqb] stands for float/double without NaN. *)
  Context {R : Type} (ltb eqb : R -> R -> bool).

  Record cplx := Cplx { re : R; im : R }.

  (* /repo/pyccel/stdlib/math/pyc_math_c.h:153-156, complex_min. *)
  Definition complex_min (a b : cplx) : cplx :=
    let lt := if eqb (re a) (re b) then ltb (im a) (im b) else ltb (re a) (re b) in
    if lt then a else b.

  (* pyc_math_c.h:158-161, complex_max. *)
  Definition complex_max (a b : cplx) : cplx :=
    let lt := if eqb (re a) (re b) then ltb (im a) (im b) else ltb (re a) (re b) in
    if lt then b else a.

  (* pyc_math_f90.F90:241-248 (263-270), the loop of amax_4 / amax_8 over
     elements 1 .. size-1. *)
  Fixpoint amax_loop (rest : list cplx) (max_value : cplx) : cplx :=
    match rest with
    | [] => max_value
    | a :: rest' =>
      amax_loop rest'
        (if ltb (re max_value) (re a)
            || (eqb (re a) (re max_value) && ltb (im max_value) (im a))
         then a else max_value)
    end.

  (* pyc_math_f90.F90:231-273, amax_4 / amax_8.  arr(0) of an empty array is an
     out-of-bounds access. *)
  Definition f_amax (arr : list cplx) : run cplx :=
    match arr with
    | [] => Undef
    | a :: rest => Ret (amax_loop rest a)
    end.

  (* pyc_math_f90.F90:286-293 (308-315). *)
  Fixpoint amin_loop (rest : list cplx) (min_value : cplx) : cplx :=
    match rest with
    | [] => min_value
    | a :: rest' =>
      amin_loop rest'
        (if ltb (re a) (re min_value)
            || (eqb (re a) (re min_value) && ltb (im a) (im min_value))
         then a else min_value)
    end.

  (* pyc_math_f90.F90:276-318, amin_4 / amin_8. *)
  Definition f_amin (arr : list cplx) : run cplx :=
    match arr with
    | [] => Undef
    | a :: rest => Ret (amin_loop rest a)
    end.
End Complex.
Arguments cplx R : clear implicits.

(* ---- for loops ---- *)
(* for (int i = i0; i < i0 + n; ++i) s = f(i, s), stopping at undefined
   behaviour.  The C loops use an int counter; sizes above INT_MAX are not
   modelled. *)
Fixpoint for_from {S} (i0 n : nat) (f : nat -> S -> run S) (s : S) : run S :=
  match n with
  | O => Ret s
  | Datatypes.S n' => s' <- f i0 s ;; for_from (Datatypes.S i0) n' f s'
  end.

Section Matmul.
  (* The element type with its +, * and 0 (any of the types of
     pyc_math_c.c:139-198). *)
  Context {A : Type} (zero : A) (add mul : A -> A -> A).

  (* A cspan of rank 1 or 2 with contiguous C-ordered data (STC cspan; strides
     of views are not modelled). *)
  Record span2 := Span2 { rows : nat; cols : nat; data2 : list A }.
  Record span1 := Span1 { len1 : nat; data1 : list A }.

  Definition of_opt {B} (o : option B) : run B :=
    match o with Some b => Ret b | None => Undef end.

  (* cspan_at(&s, i, j): bounds-checked access. *)
  Definition at2 (s : span2) (i j : nat) : run A :=
    if (i <? rows s) && (j <? cols s) then of_opt (nth_error (data2 s) (i * cols s + j)) else Undef.
  Definition at1 (s : span1) (i : nat) : run A :=
    if i <? len1 s then of_opt (nth_error (data1 s) i) else Undef.

  Fixpoint upd {B} (l : list B) (i : nat) (v : B) : list B :=
    match l, i with
    | [], _ => []
    | _ :: t, O => v :: t
    | h :: t, S i' => h :: upd t i' v
    end.

  Definition set2 (s : span2) (i j : nat) (v : A) : run span2 :=
    if (i <? rows s) && (j <? cols s)
    then Ret (Span2 (rows s) (cols s) (upd (data2 s) (i * cols s + j) v)) else Undef.
  Definition set1 (s : span1) (i : nat) (v : A) : run span1 :=
    if i <? len1 s then Ret (Span1 (len1 s) (upd (data1 s) i v)) else Undef.

  Definition c_assert (b : bool) {B} (k : run B) : run B := if b then k else Undef.

  (* pyc_math_c.c:117-137, PYC_MATMUL_TYPE.  out is a separate array. *)
  Definition c_matmul (out a b : span2) : run span2 :=
    let n := rows a in let m := cols a in let p := cols b in
    c_assert (m =? rows b) (
    c_assert (n =? rows out) (
    c_assert (p =? cols out) (
    for_from 0 n (fun i out =>
      for_from 0 p (fun k out =>
        out0 <- set2 out i k zero ;;
        for_from 0 m (fun j out =>
          o <- at2 out i k ;;
          x <- at2 a i j ;;
          y <- at2 b j k ;;
          set2 out i k (add o (mul x y))) out0) out) out))).

  (* pyc_math_c.c:148-163, PYC_MATVECMUL_TYPE. *)
  Definition c_matvecmul (out : span1) (a : span2) (b : span1) : run span1 :=
    let n := rows a in let m := cols a in
    c_assert (m =? len1 b) (
    c_assert (n =? len1 out) (
    for_from 0 n (fun i out =>
      out0 <- set1 out i zero ;;
      for_from 0 m (fun j out =>
        o <- at1 out i ;;
        x <- at2 a i j ;;
        y <- at1 b j ;;
        set1 out i (add o (mul x y))) out0) out)).

  (* pyc_math_c.c:174-189, PYC_VECMATMUL_TYPE. *)
  Definition c_vecmatmul (out : span1) (a : span1) (b : span2) : run span1 :=
    let n := rows b in let m := cols b in
    c_assert (n =? len1 a) (
    c_assert (m =? len1 out) (
    for_from 0 m (fun i out =>
      out0 <- set1 out i zero ;;
      for_from 0 n (fun j out =>
        o <- at1 out i ;;
        x <- at1 a j ;;
        y <- at2 b j i ;;
        set1 out i (add o (mul x y))) out0) out)).
End Matmul.
Arguments span1 A : clear implicits.
Arguments span2 A : clear implicits.

(* pyc_math_f90.F90:454-556, cross_product_*: the size checks (NDEBUG not
   defined) and the three assignments; arrays are 1-based lists. *)
Open Scope Z_scope.
Definition f_cross_product (a b c : list Z) : run (list Z) :=
  if negb (Nat.eqb (length a) 3) then Undef
  else if negb (Nat.eqb (length b) 3) then Undef
  else if negb (Nat.eqb (length c) 3) then Undef
  else
    match a, b with
    | [a1; a2; a3], [b1; b2; b3] =>
        Ret [a2 * b3 - a3 * b2; a3 * b1 - a1 * b3; a1 * b2 - a2 * b1]
    | _, _ => Undef
    end.
