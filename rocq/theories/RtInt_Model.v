(* Integer routines of pyccel's support library.
   Models /repo/pyccel/stdlib/math/pyc_math_c.c, pyc_math_c.h and
   pyc_math_f90.F90.  Machine integers are Z with explicit range checks:
   leaving the range is [Undef], as in C and Fortran. *)
From Coq Require Import ZArith List Bool.
From Verif Require Import Common.
Import ListNotations.
Open Scope Z_scope.
Open Scope run_scope.

(* ---------------------------------------------------------------- C ---- *)

(* pyc_math_c.h:120-128, PY_FLOOR_DIV_TYPE.  Operands narrower than int are
   promoted to int (32 bits), the result is cast back to the w-bit type. *)
Definition c_floor_div (w x y : Z) : run Z :=
  let wp := Z.max 32 w in
  q <- c_div wp x y ;;
  r <- c_rem wp x y ;;
  d <- chk wp (q - b2z (negb (r =? 0) && xorb (x <? 0) (y <? 0))) ;;
  Ret (wrap w d).

(* pyc_math_c.h:98-105, pyc_modulo (int64_t arguments). *)
Definition c_modulo (a b : Z) : run Z :=
  m <- c_rem 64 a b ;;
  if negb (xorb (a <? 0) (b <? 0)) || (m =? 0)
  then Ret m
  else chk 64 (m + b).

(* pyc_math_c.c:17-18, the loop  for (i = 2; i <= n; i++) res *= i;  *)
Fixpoint c_factorial_loop (fuel : nat) (i n res : Z) : run Z :=
  match fuel with
  | O => NoFuel
  | S f =>
    if i <=? n
    then res' <- chk 64 (res * i) ;;
         i' <- chk 64 (i + 1) ;;
         c_factorial_loop f i' n res'
    else Ret res
  end.

(* pyc_math_c.c:10-20, pyc_factorial. *)
Definition c_factorial (fuel : nat) (n : Z) : run Z :=
  if n <? 0 then Ret 0 else c_factorial_loop fuel 2 n 1.

(* pyc_math_c.c:24-25: x > 0 ? x : -x. *)
Definition c_absolute (w x : Z) : run Z := if 0 <? x then Ret x else chk w (- x).

(* pyc_math_c.c:26-33: while (b) { a %= b; swap a and b by xor }.
   The three xors are written out as in the source. *)
Fixpoint c_gcd_loop (fuel : nat) (a b : Z) : run Z :=
  match fuel with
  | O => NoFuel
  | S f =>
    if b =? 0 then Ret a
    else
      a1 <- c_rem 64 a b ;;
      let a2 := Z.lxor a1 b in
      let b1 := Z.lxor b a2 in
      let a3 := Z.lxor a2 b1 in
      c_gcd_loop f a3 b1
  end.

(* pyc_math_c.c:22-35, pyc_gcd. *)
Definition c_gcd (fuel : nat) (a b : Z) : run Z :=
  a' <- c_absolute 64 a ;;
  b' <- c_absolute 64 b ;;
  c_gcd_loop fuel a' b'.

(* pyc_math_c.c:37-42, pyc_lcm. *)
Definition c_lcm (fuel : nat) (a b : Z) : run Z :=
  a' <- c_absolute 64 a ;;
  b' <- c_absolute 64 b ;;
  g <- c_gcd fuel a' b' ;;
  q <- c_div 64 a' g ;;
  chk 64 (q * b').

(* pyc_math_c.c:73-75: mul_fact *= 10, -ndigits times. *)
Fixpoint c_pow10 (k : nat) : run Z :=
  match k with
  | O => Ret 1
  | S k' => p <- c_pow10 k' ;; chk 64 (p * 10)
  end.

(* pyc_math_c.c:77: copysign(v, arg) for an integer v >= 0, converted back to
   int64_t.  Simplification: the round trip through double is taken as exact;
   it is for the values 5 * 10^j, j <= 18, which occur here (5^(j+1) < 2^53). *)
Definition c_copysign (v arg : Z) : Z := if arg <? 0 then - v else v.

(* pyc_math_c.c:65-89, ipyc_bankers_round(arg, ndigits). *)
Definition c_bankers_round (arg ndigits : Z) : run Z :=
  if 0 <=? ndigits then Ret arg
  else
    mul_fact <- c_pow10 (Z.to_nat (- ndigits)) ;;
    five <- chk 64 (5 * mul_fact) ;;
    half <- c_div 64 five 10 ;;
    let pivot_point := c_copysign half arg in
    remainder <- c_rem 64 arg mul_fact ;;
    if remainder =? pivot_point
    then
      d <- chk 64 (mul_fact - remainder) ;;
      val <- c_div 64 d mul_fact ;;
      s <- chk 64 (val + Z.land val 1) ;;
      chk 64 (s * mul_fact)
    else
      s <- chk 64 (arg + pivot_point) ;;
      q <- c_div 64 s mul_fact ;;
      chk 64 (q * mul_fact).

(* pyc_math_c.h:164-167, PY_SIGN_TYPE: (x > 0) - (x < 0), on integers. *)
Definition c_sign (w x : Z) : Z := wrap w (b2z (0 <? x) - b2z (x <? 0)).

(* ------------------------------------------------------------ Fortran ---- *)

(* Fortran integer division and MOD truncate; kind with w bits. *)
Definition f_div := c_div.
Definition f_mod := c_rem.

(* Fortran intrinsic MODULO(a, p): result has the sign of p. *)
Definition f_modulo (a p : Z) : run Z :=
  if p =? 0 then Undef else Ret (a mod p).

(* pyc_math_f90.F90:407-429, pyc_floor_div_i8 .. i64. *)
Definition f_floor_div (w x y : Z) : run Z :=
  q <- f_div w x y ;;
  r <- f_mod w x y ;;
  chk w (q - (if negb (r =? 0) && xorb (x <? 0) (y <? 0) then 1 else 0)).

(* pyc_math_f90.F90:107-110 / 123-126: do i = 2, x ; fx = fx * i.
   The trip count max(0, x - 1) is fixed on entry, as in Fortran. *)
Fixpoint f_factorial_loop (trips : nat) (w i fx : Z) : run Z :=
  match trips with
  | O => Ret fx
  | S t => fx' <- chk w (fx * i) ;; f_factorial_loop t w (i + 1) fx'
  end.

(* pyc_math_f90.F90:99-128, pyc_factorial_4 / pyc_factorial_8. *)
Definition f_factorial (w x : Z) : run Z :=
  f_factorial_loop (Z.to_nat (x - 1)) w 2 1.

(* pyc_math_f90.F90:139-140: MERGE(a, -a, a > 0); both arms are evaluated. *)
Definition f_absolute (w a : Z) : run Z :=
  m <- chk w (- a) ;; Ret (if 0 <? a then a else m).

(* pyc_math_f90.F90:141-146 / 162-167: do while (y > 0). *)
Fixpoint f_gcd_loop (fuel : nat) (w x y : Z) : run Z :=
  match fuel with
  | O => NoFuel
  | S f =>
    if 0 <? y
    then
      x1 <- f_mod w x y ;;
      let x2 := Z.lxor x1 y in
      let y1 := Z.lxor y x2 in
      let x3 := Z.lxor x2 y1 in
      f_gcd_loop f w x3 y1
    else Ret x
  end.

(* pyc_math_f90.F90:131-171, pyc_gcd_4 / pyc_gcd_8. *)
Definition f_gcd (fuel : nat) (w a b : Z) : run Z :=
  x <- f_absolute w a ;;
  y <- f_absolute w b ;;
  f_gcd_loop fuel w x y.

(* pyc_math_f90.F90:174-202, pyc_lcm_4 / pyc_lcm_8. *)
Definition f_lcm (fuel : nat) (w a b : Z) : run Z :=
  a' <- f_absolute w a ;;
  b' <- f_absolute w b ;;
  g <- f_gcd fuel w a' b' ;;
  q <- f_div w a' g ;;
  chk w (q * b').

(* Fortran intrinsic SIGN(a, b). *)
Definition f_sign (a b : Z) : Z := if b <? 0 then - Z.abs a else Z.abs a.

(* pyc_math_f90.F90:378-405, pyc_bankers_round_int. *)
Definition f_bankers_round (arg ndigits : Z) : run Z :=
  if 0 <=? ndigits then Ret arg
  else
    mul_fact <- chk 64 (10 ^ (- ndigits)) ;;
    half <- chk 64 (5 * 10 ^ (- ndigits - 1)) ;;
    let pivot_point := f_sign half arg in
    remainder <- f_modulo arg mul_fact ;;
    if remainder =? pivot_point
    then
      d <- chk 64 (mul_fact - remainder) ;;
      val <- f_div 64 d mul_fact ;;
      s <- chk 64 (val + Z.land val 1) ;;
      chk 64 (s * mul_fact)
    else
      s <- chk 64 (arg + pivot_point) ;;
      q <- f_div 64 s mul_fact ;;
      chk 64 (q * mul_fact).
