(* C99: round(x) is the integer of Python. *)
From Coq Require Import ZArith List Bool Lia.
From Verif Require Import Expr_Proofs Math_Model Math_Proofs Round_Model Round_Spec Round_Proofs.
Open Scope Z_scope.

(* There is one value in Python. *)
Theorem C99_unique : forall x, exists z, is_round x z /\ forall y, is_round x y -> y = z.
Proof. exact round_unique. Qed.
Print Assumptions C99_unique.

(* Fortran: every float whose result has 64 bits, ties and large numbers included *)
Theorem C99_fortran : forall junk x z, is_float x -> is_round x z -> Z.abs z < 2 ^ 63 ->
  f_round junk x = whole z /\ f_round_value junk x = VInt z.
Proof. exact fortran_ok. Qed.
Print Assumptions C99_fortran.
(* -2.5 is a tie: -2 *)
Example C99_fortran_ex : is_float (mkf (-5) (-1)) /\ is_round (mkf (-5) (-1)) (-2) /\ ~ is_round (mkf (-5) (-1)) (-3).
Proof. unfold is_float, is_round, is_round_of. cbn. split; [lia|]. split; [split; [lia|reflexivity]|]. intros [_ H]. discriminate H. reflexivity. Qed.

(* C: exactly the odd integers of 53 bits are wrong; also when the result is assigned. *)
Theorem C99_c_exact_partial : forall junk x z, is_float x -> is_round x z -> Z.abs z < 2 ^ 63 ->
  (c_round junk x = whole z <-> ~ exceptional x) /\
  (assigned junk (c_round_value junk x) = Some z <-> ~ exceptional x).
Proof. exact c_exact. Qed.
Print Assumptions C99_c_exact_partial.
(* the float before 1 / 2: the sum with 1 / 2 is 1, but the result is 0 *)
Example C99_c_exact_ex : let x := mkf (2 ^ 53 - 1) (-54) in
  is_float x /\ is_round x 0 /\ ~ exceptional x /\ ftrunc (fadd x half) = 1.
Proof.
  cbv zeta. split; [unfold is_float; cbn; lia|]. split; [split; cbn; [lia|intros; reflexivity]|].
  split; [intros [_ [_ H]]; discriminate|vm_compute; reflexivity].
Qed.

(* and there the result is the even integer that is next to it, away from zero. *)
Theorem C99_c_odd_refuted : forall junk x, is_float x -> exceptional x ->
  is_round x (mant x) /\ c_round junk x = whole (mant x + Z.sgn (mant x)).
Proof. exact c_odd. Qed.
Print Assumptions C99_c_odd_refuted.
(* round(4503599627370497.0) *)
Example C99_c_odd_ex : is_float (mkf (2 ^ 52 + 1) 0) /\ exceptional (mkf (2 ^ 52 + 1) 0).
Proof. unfold is_float, exceptional. cbn [mant expo]. repeat split; try lia. Qed.

(* print(round(x)) is right in Fortran; in C it passes a double for the format of an integer, whatever x is. *)
Theorem C99_printed_refuted : forall junk x z, is_float x -> is_round x z -> Z.abs z < 2 ^ 63 ->
  printed (f_round_value junk x) = Some z /\ printed (c_round_value junk x) <> Some z.
Proof. intros junk x z F R B. destruct (fortran_ok junk x z F R B) as [_ ->]. split; [reflexivity|discriminate]. Qed.
Print Assumptions C99_printed_refuted.
Example C99_printed_ex : is_float (mkf 7 (-1)) /\ is_round (mkf 7 (-1)) 4.
Proof. unfold is_float, is_round, is_round_of. cbn. split; [lia|split; [lia|reflexivity]]. Qed.

(* round(x, n) with n > 0: when x has the half k + 1 / 2 in the units of the last digit, and k is even,
   Python has k and both languages k + 1. *)
Theorem C99_digits_refuted : forall junk x n k, 0 < n -> 0 <= k -> Z.even k = true -> expo x < 0 ->
  mant x * 10 ^ n = (2 * k + 1) * 2 ^ (- expo x - 1) -> mant x * 10 ^ n < 2 ^ 53 ->
  c_digits junk n x = whole (k + 1) /\ f_digits junk n x = whole (k + 1) /\ is_round_of (10 ^ n) x k.
Proof. exact digits_tie. Qed.
Print Assumptions C99_digits_refuted.
(* round(0.125, 2) is 0.12 in Python *)
Example C99_digits_ex : mant (mkf 1 (-3)) * 10 ^ 2 = (2 * 12 + 1) * 2 ^ (- expo (mkf 1 (-3)) - 1).
Proof. reflexivity. Qed.
