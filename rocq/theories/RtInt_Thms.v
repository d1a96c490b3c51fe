(* Properties C13-C16 and the integer part of C17.
   Only property theorems, the witnesses that their hypotheses can be met, and
   refutations. *)
From Coq Require Import ZArith Lia.
From Verif Require Import Common RtInt_Model RtInt_Spec RtInt_Proofs.
Open Scope Z_scope.

(* in_range w z for literals *)
Ltac rng := apply in_rangeb_spec; reflexivity.

(* ---- C13: integer floor division, any width w. ---- *)

Theorem C13_c_floor_div : forall w x y q,
  1 <= w -> in_range w x -> in_range w y ->
  py_floordiv x y q -> in_range w q ->
  c_floor_div w x y = Ret q.
Proof. exact c_floor_div_ok. Qed.
Print Assumptions C13_c_floor_div.

Example C13_c_floor_div_ex :
  in_range 8 (-7) /\ in_range 8 2 /\ py_floordiv (-7) 2 (-4) /\ in_range 8 (-4)
  /\ c_floor_div 8 (-7) 2 = Ret (-4).
Proof. repeat match goal with |- _ /\ _ => split end; try rng; try reflexivity; unfold py_floordiv; lia. Qed.

Theorem C13_f_floor_div : forall w x y q,
  1 <= w -> in_range w x -> in_range w y ->
  py_floordiv x y q -> in_range w q ->
  f_floor_div w x y = Ret q.
Proof. exact f_floor_div_ok. Qed.
Print Assumptions C13_f_floor_div.

Example C13_f_floor_div_ex :
  in_range 64 7 /\ in_range 64 (-2) /\ py_floordiv 7 (-2) (-4) /\ in_range 64 (-4)
  /\ f_floor_div 64 7 (-2) = Ret (-4).
Proof. repeat match goal with |- _ /\ _ => split end; try rng; try reflexivity; unfold py_floordiv; lia. Qed.

(* A zero divisor is never given a value. *)
Theorem C13_c_floor_div_by_zero : forall w x, c_floor_div w x 0 = Undef.
Proof. exact c_floor_div_zero. Qed.
Print Assumptions C13_c_floor_div_by_zero.

(* ---- C14: modulo. ---- *)

(* Full statement: the same without the hypothesis on (int_min, -1).  It fails
   there: C's % is undefined when the quotient overflows. *)
Theorem C14_c_modulo_partial : forall a b r,
  in_range 64 a -> in_range 64 b -> ~ (a = int_min 64 /\ b = -1) ->
  py_mod a b r -> c_modulo a b = Ret r.
Proof. exact c_modulo_ok. Qed.
Print Assumptions C14_c_modulo_partial.

Example C14_c_modulo_partial_ex :
  in_range 64 (-7) /\ in_range 64 3 /\ ~ (-7 = int_min 64 /\ 3 = -1) /\ py_mod (-7) 3 2
  /\ c_modulo (-7) 3 = Ret 2.
Proof.
  repeat match goal with |- _ /\ _ => split end; try rng; try reflexivity; try lia.
  exists (-3). unfold py_floordiv. lia.
Qed.

Theorem C14_c_modulo_refuted :
  exists a b r, in_range 64 a /\ in_range 64 b /\ py_mod a b r /\ in_range 64 r
             /\ c_modulo a b = Undef.
Proof. exact c_modulo_overflow. Qed.
Print Assumptions C14_c_modulo_refuted.

Theorem C14_f_modulo : forall a b r, py_mod a b r -> f_modulo a b = Ret r.
Proof. exact f_modulo_ok. Qed.
Print Assumptions C14_f_modulo.

Example C14_f_modulo_ex : py_mod 7 (-3) (-2) /\ f_modulo 7 (-3) = Ret (-2).
Proof. split; [exists (-3); unfold py_floordiv; lia | reflexivity]. Qed.

(* x == y * (x // y) + x % y in generated C and Fortran code. *)
Theorem C14_c_divmod_identity : forall x y q r,
  in_range 64 x -> in_range 64 y ->
  c_floor_div 64 x y = Ret q -> c_modulo x y = Ret r -> x = y * q + r.
Proof. exact c_divmod_identity_ok. Qed.
Print Assumptions C14_c_divmod_identity.

Example C14_c_divmod_identity_ex :
  in_range 64 (-17) /\ in_range 64 5 /\ c_floor_div 64 (-17) 5 = Ret (-4) /\ c_modulo (-17) 5 = Ret 3.
Proof. repeat match goal with |- _ /\ _ => split end; try rng; reflexivity. Qed.

Theorem C14_f_divmod_identity : forall w x y q r,
  1 <= w -> in_range w x -> in_range w y ->
  f_floor_div w x y = Ret q -> f_modulo x y = Ret r -> x = y * q + r.
Proof. exact f_divmod_identity_ok. Qed.
Print Assumptions C14_f_divmod_identity.

Example C14_f_divmod_identity_ex :
  in_range 32 (-17) /\ in_range 32 (-5) /\ f_floor_div 32 (-17) (-5) = Ret 3 /\ f_modulo (-17) (-5) = Ret (-2).
Proof. repeat match goal with |- _ /\ _ => split end; try rng; reflexivity. Qed.

(* ---- C15: gcd, lcm, factorial. ---- *)

(* Full statement: without the two hypotheses on int_min.  It fails there:
   negating int_min overflows although the gcd may be representable. *)
Theorem C15_c_gcd_partial : forall a b g,
  in_range 64 a -> in_range 64 b -> a <> int_min 64 -> b <> int_min 64 ->
  py_gcd a b g ->
  exists N, forall fuel, (N <= fuel)%nat -> c_gcd fuel a b = Ret g.
Proof. exact c_gcd_terminates. Qed.
Print Assumptions C15_c_gcd_partial.

Example C15_c_gcd_partial_ex :
  in_range 64 (-12) /\ in_range 64 18 /\ -12 <> int_min 64 /\ 18 <> int_min 64 /\ py_gcd (-12) 18 6.
Proof. repeat match goal with |- _ /\ _ => split end; try rng; try (unfold int_min; lia). exact py_gcd_ex. Qed.

Theorem C15_c_gcd_refuted :
  exists a b g, in_range 64 a /\ in_range 64 b /\ py_gcd a b g /\ in_range 64 g
             /\ forall fuel, c_gcd fuel a b = Undef.
Proof. exact c_gcd_overflow. Qed.
Print Assumptions C15_c_gcd_refuted.

Theorem C15_f_gcd_partial : forall w a b g,
  1 <= w -> in_range w a -> in_range w b -> a <> int_min w -> b <> int_min w ->
  py_gcd a b g ->
  exists N, forall fuel, (N <= fuel)%nat -> f_gcd fuel w a b = Ret g.
Proof. exact f_gcd_terminates. Qed.
Print Assumptions C15_f_gcd_partial.

Example C15_f_gcd_partial_ex :
  in_range 32 (-12) /\ in_range 32 18 /\ -12 <> int_min 32 /\ 18 <> int_min 32 /\ py_gcd (-12) 18 6.
Proof. repeat match goal with |- _ /\ _ => split end; try rng; try (unfold int_min; lia). exact py_gcd_ex. Qed.

(* Full statement: without the hypothesis excluding lcm(0,0) and int_min. *)
Theorem C15_c_lcm_partial : forall a b m,
  in_range 64 a -> in_range 64 b -> a <> int_min 64 -> b <> int_min 64 ->
  ~ (a = 0 /\ b = 0) ->
  py_lcm a b m -> in_range 64 m ->
  exists N, forall fuel, (N <= fuel)%nat -> c_lcm fuel a b = Ret m.
Proof. exact c_lcm_terminates. Qed.
Print Assumptions C15_c_lcm_partial.

Example C15_c_lcm_partial_ex :
  in_range 64 (-4) /\ in_range 64 6 /\ -4 <> int_min 64 /\ 6 <> int_min 64
  /\ ~ (-4 = 0 /\ 6 = 0) /\ py_lcm (-4) 6 12 /\ in_range 64 12.
Proof. repeat match goal with |- _ /\ _ => split end; try rng; try (unfold int_min; lia). exact py_lcm_ex. Qed.

(* math.lcm(0, 0) is 0 in Python; the C and Fortran routines divide by zero. *)
Theorem C15_c_lcm_refuted :
  py_lcm 0 0 0 /\ forall fuel, (1 <= fuel)%nat -> c_lcm fuel 0 0 = Undef.
Proof. exact c_lcm_zero. Qed.
Print Assumptions C15_c_lcm_refuted.

Theorem C15_f_lcm_partial : forall w a b m,
  1 <= w -> in_range w a -> in_range w b -> a <> int_min w -> b <> int_min w ->
  ~ (a = 0 /\ b = 0) ->
  py_lcm a b m -> in_range w m ->
  exists N, forall fuel, (N <= fuel)%nat -> f_lcm fuel w a b = Ret m.
Proof. exact f_lcm_terminates. Qed.
Print Assumptions C15_f_lcm_partial.

Example C15_f_lcm_partial_ex :
  in_range 64 (-4) /\ in_range 64 6 /\ -4 <> int_min 64 /\ 6 <> int_min 64
  /\ ~ (-4 = 0 /\ 6 = 0) /\ py_lcm (-4) 6 12 /\ in_range 64 12.
Proof. exact C15_c_lcm_partial_ex. Qed.

Theorem C15_f_lcm_refuted :
  py_lcm 0 0 0 /\ forall fuel, (1 <= fuel)%nat -> f_lcm fuel 64 0 0 = Undef.
Proof. exact f_lcm_zero. Qed.
Print Assumptions C15_f_lcm_refuted.

Theorem C15_c_factorial : forall n v,
  py_factorial n v -> in_range 64 v ->
  exists N, forall fuel, (N <= fuel)%nat -> c_factorial fuel n = Ret v.
Proof. exact c_factorial_terminates. Qed.
Print Assumptions C15_c_factorial.

Example C15_c_factorial_ex : py_factorial 3 6 /\ in_range 64 6.
Proof. split; [exact py_factorial_ex | rng]. Qed.

Theorem C15_f_factorial : forall w n v,
  1 <= w -> py_factorial n v -> in_range w v -> f_factorial w n = Ret v.
Proof. exact f_factorial_ok. Qed.
Print Assumptions C15_f_factorial.

Example C15_f_factorial_ex : py_factorial 3 6 /\ in_range 32 6 /\ f_factorial 32 3 = Ret 6.
Proof. repeat split; try rng; exact py_factorial_ex. Qed.

(* ---- C16: round(n, -k). ---- *)

(* Full statement: c_bankers_round n (-k) = Ret r whenever py_round n k r and r
   is representable.  Missing: ties (refuted below) and arguments for which
   n +- 10^k/2 leaves the 64-bit range (refuted below). *)
Theorem C16_c_round_partial : forall n k r,
  1 <= k <= 18 -> in_range 64 n ->
  in_range 64 (if n <? 0 then n - 5 * 10 ^ (k - 1) else n + 5 * 10 ^ (k - 1)) ->
  ~ is_tie n k -> py_round n k r -> c_bankers_round n (- k) = Ret r.
Proof. exact c_bankers_round_nontie'. Qed.
Print Assumptions C16_c_round_partial.

Example C16_c_round_partial_ex :
  1 <= 2 <= 18 /\ in_range 64 (-1234) /\ ~ is_tie (-1234) 2 /\ py_round (-1234) 2 (-1200)
  /\ c_bankers_round (-1234) (-2) = Ret (-1200).
Proof. exact c_round_ex. Qed.

(* round(n, k) with k >= 0 is the identity on integers. *)
Theorem C16_round_nonneg : forall n k, 0 <= k ->
  c_bankers_round n k = Ret n /\ f_bankers_round n k = Ret n.
Proof. exact round_nonneg. Qed.
Print Assumptions C16_round_nonneg.

(* Exact behaviour on ties: the argument is lost. *)
Theorem C16_c_round_ties : forall n k,
  1 <= k <= 18 -> in_range 64 n -> is_tie n k ->
  c_bankers_round n (- k) = Ret (if n <? 0 then 2 * 10 ^ k else 0).
Proof. exact c_bankers_round_tie. Qed.
Print Assumptions C16_c_round_ties.

Example C16_c_round_ties_ex : 1 <= 1 <= 18 /\ in_range 64 25 /\ is_tie 25 1.
Proof. repeat split; try lia; try rng. exists 2. reflexivity. Qed.

(* round(25, -1) is 20 in Python and 0 in generated C; round(-5, -1) is 0 in
   Python and 20 in generated C. *)
Theorem C16_c_round_refuted :
  py_round 25 1 20 /\ c_bankers_round 25 (-1) = Ret 0 /\
  py_round (-5) 1 0 /\ c_bankers_round (-5) (-1) = Ret 20.
Proof. exact c_round_wrong. Qed.
Print Assumptions C16_c_round_refuted.

(* Overflow although Python's result is representable. *)
Theorem C16_c_round_overflow_refuted :
  exists n k r, in_range 64 n /\ py_round n k r /\ in_range 64 r /\ c_bankers_round n (- k) = Undef.
Proof. exact c_round_overflow. Qed.
Print Assumptions C16_c_round_overflow_refuted.

Theorem C16_f_round_partial : forall n k r,
  1 <= k <= 18 -> in_range 64 n ->
  in_range 64 (if n <? 0 then n - 5 * 10 ^ (k - 1) else n + 5 * 10 ^ (k - 1)) ->
  ~ is_tie n k -> py_round n k r -> f_bankers_round n (- k) = Ret r.
Proof. exact f_bankers_round_nontie'. Qed.
Print Assumptions C16_f_round_partial.

Theorem C16_f_round_refuted :
  py_round 25 1 20 /\ f_bankers_round 25 (-1) = Ret 0 /\
  py_round (-25) 1 (-20) /\ f_bankers_round (-25) (-1) = Ret (-30).
Proof. exact f_round_wrong. Qed.
Print Assumptions C16_f_round_refuted.

(* ---- C17 (integers): sign. ---- *)
Theorem C17_c_sign : forall w x, 2 <= w ->
  (0 < x -> c_sign w x = 1) /\ (x = 0 -> c_sign w x = 0) /\ (x < 0 -> c_sign w x = -1).
Proof. exact c_sign_cases. Qed.
Print Assumptions C17_c_sign.
