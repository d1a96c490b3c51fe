(* C50, C51: quotients, and powers of integers. *)
From Coq Require Import Bool ZArith List Lia.
From Verif Require Import Pow_Model Pow_Spec Pow_Proofs.
Import ListNotations.
Open Scope Z_scope.

Definition libm (b e : Z) : Z := nearest (b ^ e).
Lemma libm_good : good_pow libm.
Proof. exact nearest_pow_good. Qed.

(* C51: in C an expression with powers has the value of Python when assigned, if every value
   computed is at most 2 ** 53 and no operand of & is a power, or a sum of one. *)
Theorem C51_c_exact_partial : forall fpow r p e,
  good_pow fpow -> within below53 r p e -> bits_ok e = true ->
  exists n v, visit e = Some n /\ int_type n = true /\ py r p e = Some v /\ c_store fpow r p n = Ok v.
Proof. exact c_exact. Qed.
Print Assumptions C51_c_exact_partial.

(* (x ** 3 - y // 2 + 5 ** y % 4) * p with x = -7, y = 9 *)
Definition sum : expr :=
  Mul (Add (Sub (PowLit (Var 0%nat) (EInt 3)) (FDiv (Var 1%nat) (Lit 2))) (Rem (Pow (Lit 5) (Var 1%nat)) (Lit 4))) (Flag 0%nat).
Definition r1 : env := fun x => match x with 0%nat => -7 | _ => 9 end.
Ltac ranges := repeat (split; try exact Logic.I; try reflexivity); try (eexists; split; reflexivity).
Example C51_c_exact_case :
  within below53 r1 (fun _ => true) sum /\ bits_ok sum = true /\ exposed sum = true /\
  py r1 (fun _ => true) sum = Some (-346) /\
  match visit sum with Some n => c_store libm r1 (fun _ => true) n = Ok (-346) | None => False end.
Proof. split; [ranges|]. repeat split; vm_compute; reflexivity. Qed.

(* C51: in Fortran such an expression has the value of Python if every value computed fits 64 bits
   and no operand of -, %, & or ** is a boolean. *)
Theorem C51_fortran_partial : forall r p e, within fits64 r p e -> numbers e = true ->
  exists n v, visit e = Some n /\ py r p e = Some v /\ feval r p n = Ok v.
Proof. exact f_value. Qed.
Print Assumptions C51_fortran_partial.

Definition r2 : env := fun x => match x with 0%nat => 3 | _ => 39 end.
Example C51_fortran_case : within fits64 r2 (fun _ => true) (Add (Pow (Var 0%nat) (Var 1%nat)) (Flag 0%nat)) /\
  feval r2 (fun _ => true) (NAdd (NPow (NVar 0%nat) (NVar 1%nat)) (NFlag 0%nat)) = Ok (3 ^ 39 + 1).
Proof. split; [ranges|reflexivity]. Qed.

(* ... and `p ** n` does not compile for a boolean p, unless n is the literal 2. *)
Theorem C51_fortran_bool_refuted : forall r p x e n, visit (PowLit (Flag x) (EInt e)) = Some n ->
  (feval r p n = NoCompile <-> e <> 2).
Proof.
  intros r p x e n. cbn [visit obind]. rewrite visit_int_pow. cbn [is_atom andb].
  destruct (Z.eqb_spec e 2) as [->|N]; intros H; injection H as <-; cbn [feval is_flag orb].
  - split; [cbn; destruct (p x); cbn; discriminate|congruence].
  - split; [intros _; exact N|reflexivity].
Qed.
Print Assumptions C51_fortran_bool_refuted.

Example C51_fortran_bool_case : exists n, visit (PowLit (Flag 0%nat) (EInt 3)) = Some n.
Proof. eexists. reflexivity. Qed.

(* C51: x ** y of two variables that fits 64 bits is assigned exactly in C if and only if it is a double. *)
Theorem C51_power_iff : forall fpow r p x y,
  good_pow fpow -> 0 <= r y -> below53 (r x) = true -> below53 (r y) = true -> fits64 (r x ^ r y) = true ->
  (c_store fpow r p (NPow (NVar x) (NVar y)) = Ok (r x ^ r y) <-> is_double (r x ^ r y)).
Proof. exact c_power. Qed.
Print Assumptions C51_power_iff.

Definition r3 : env := fun x => match x with 0%nat => 6 | _ => 24 end.
(* 6 ** 24 is 3 ** 24 * 2 ** 24 *)
Example C51_power_case : is_double (r3 0%nat ^ r3 1%nat) /\ 2 ^ 53 < r3 0%nat ^ r3 1%nat /\ fits64 (r3 0%nat ^ r3 1%nat) = true /\
  c_store libm r3 (fun _ => true) (NPow (NVar 0%nat) (NVar 1%nat)) = Ok (6 ^ 24).
Proof.
  split; [exists (3 ^ 24), 24; split; [vm_compute; discriminate|split; [lia|reflexivity]]|].
  split; [reflexivity|]. split; reflexivity.
Qed.

(* C51: a power of an odd integer that is over 2 ** 53 is never what is assigned in C. *)
Theorem C51_odd_refuted : forall fpow r p x y v,
  good_pow fpow -> Z.odd (r x) = true -> 0 <= r y -> below53 (r x) = true -> below53 (r y) = true ->
  2 ^ 53 < Z.abs (r x ^ r y) -> c_store fpow r p (NPow (NVar x) (NVar y)) = Ok v -> v <> r x ^ r y.
Proof. exact c_odd_wrong. Qed.
Print Assumptions C51_odd_refuted.

Example C51_odd_case : 2 ^ 53 < Z.abs (r2 0%nat ^ r2 1%nat) /\ fits64 (3 ^ 39) = true /\
  c_store libm r2 (fun _ => true) (NPow (NVar 0%nat) (NVar 1%nat)) = Ok (3 ^ 39 - 11).
Proof. repeat split; vm_compute; reflexivity. Qed.

(* C51: such a power equals in C an integer that it is not. *)
Theorem C51_compare_refuted : forall fpow r p x y,
  good_pow fpow -> Z.odd (r x) = true -> 0 <= r y -> below53 (r x) = true -> below53 (r y) = true ->
  2 ^ 53 < Z.abs (r x ^ r y) ->
  exists d, d <> r x ^ r y /\ forall z, r z = d -> c_equal fpow r p (NPow (NVar x) (NVar y)) (NVar z) = Ok true.
Proof. exact c_compare. Qed.
Print Assumptions C51_compare_refuted.

Definition r4 : env := fun x => match x with 0%nat => 3 | 1%nat => 39 | _ => 3 ^ 39 - 11 end.
Example C51_compare_case : c_equal libm r4 (fun _ => true) (NPow (NVar 0%nat) (NVar 1%nat)) (NVar 2%nat) = Ok true.
Proof. vm_compute. reflexivity. Qed.

(* C51: 2 ** k + 1 is 2 ** k in C for every k from 53 to 62. *)
Theorem C51_sum_refuted : forall fpow r p y, good_pow fpow -> 53 <= r y < 63 ->
  exists n, visit (Add (Pow (Lit 2) (Var y)) (Lit 1)) = Some n /\ c_store fpow r p n = Ok (2 ^ r y) /\
    py r p (Add (Pow (Lit 2) (Var y)) (Lit 1)) = Some (2 ^ r y + 1) /\ fits64 (2 ^ r y + 1) = true.
Proof. exact c_sum. Qed.
Print Assumptions C51_sum_refuted.

Example C51_sum_case : good_pow libm /\ 53 <= 60 < 63.
Proof. split; [exact libm_good|lia]. Qed.

(* C51: printed directly, such an expression is printed as in Python if and only if its C code is
   not a double: a power other than `variable ** 2`, or a sum, a difference, a product or the
   opposite of one, is passed to printf as a double for %ld. *)
Theorem C51_print_iff : forall fpow r p e, good_pow fpow -> within below53 r p e -> bits_ok e = true ->
  exists n v, visit e = Some n /\ py r p e = Some v /\ (c_print fpow r p n = Ok v <-> exposed e = false).
Proof. exact c_prints. Qed.
Print Assumptions C51_print_iff.

Example C51_print_case : exposed (Add (PowLit (Var 0%nat) (EInt 2)) (Lit 1)) = false /\ exposed (Add (PowLit (Var 0%nat) (EInt 3)) (Lit 1)) = true /\
  c_print libm r1 (fun _ => true) (NAdd (NMul (NVar 0%nat) (NVar 0%nat)) (NLit 1)) = Ok 50 /\
  c_print libm r1 (fun _ => true) (NAdd (NPow (NVar 0%nat) (NLit 3)) (NLit 1)) = Undef.
Proof. repeat split; vm_compute; reflexivity. Qed.

(* C51: the C code of `a & b` does not compile if a or b is such an expression. *)
Theorem C51_bits_refuted : forall fpow r p a b, good_pow fpow ->
  within below53 r p a -> bits_ok a = true -> within below53 r p b -> bits_ok b = true -> exposed a || exposed b = true ->
  exists n, visit (BAnd a b) = Some n /\ c_store fpow r p n = NoCompile.
Proof. exact c_bits. Qed.
Print Assumptions C51_bits_refuted.

Example C51_bits_case : within below53 r1 (fun _ => true) (Pow (Lit 2) (Var 1%nat)) /\ py r1 (fun _ => true) (BAnd (Pow (Lit 2) (Var 1%nat)) (Lit 512)) = Some 512.
Proof. split; [ranges|reflexivity]. Qed.

(* C51: a negative power, which is a fraction in Python, is 0 in both languages. *)
Theorem C51_negative_refuted : forall fpow r p x y, 2 <= Z.abs (r x) -> r y < 0 -> below53 (r x) = true -> below53 (r y) = true ->
  c_store fpow r p (NPow (NVar x) (NVar y)) = Ok 0 /\ feval r p (NPow (NVar x) (NVar y)) = Ok 0.
Proof. exact negative. Qed.
Print Assumptions C51_negative_refuted.

Example C51_negative_case : 2 <= Z.abs 10 /\ -1 < 0 /\ below53 10 = true /\ below53 (-1) = true.
Proof. repeat split; vm_compute; discriminate. Qed.

(* C51: x ** 2.0 and x ** (4 / 2) of an integer variable, which are floats in Python, are the
   integer x * x, and undefined where that overflows ... *)
Theorem C51_float_two_refuted : forall r p fpow x q ex, 0 < q -> ex = EFloat (2 * q) q \/ ex = EQuot (2 * q) q ->
  visit (PowLit (Var x) ex) = Some (NMul (NVar x) (NVar x)) /\ int_type (NMul (NVar x) (NVar x)) = true /\
  (2 ^ 63 <= r x * r x -> c_store fpow r p (NMul (NVar x) (NVar x)) = Undef /\ feval r p (NMul (NVar x) (NVar x)) = Undef).
Proof. exact float_two. Qed.
Print Assumptions C51_float_two_refuted.

Example C51_float_two_case : 2 ^ 63 <= 4000000000 * 4000000000 /\ visit (PowLit (Var 0%nat) (EQuot 4 2)) = Some (NMul (NVar 0%nat) (NVar 0%nat)).
Proof. split; [vm_compute; discriminate|reflexivity]. Qed.

(* ... while (-x) ** 2.0 is a float. *)
Theorem C51_float_two_other : forall a m, visit a = Some m -> atom a = false ->
  exists n, visit (PowLit a (EFloat 2 1)) = Some n /\ int_type n = false.
Proof. exact float_two_other. Qed.
Print Assumptions C51_float_two_other.

Example C51_float_two_other_case : visit (Neg (Var 0%nat)) = Some (NNeg (NVar 0%nat)).
Proof. reflexivity. Qed.

(* C51: the compiler fails on an exponent (p / 0), whose exception Python raises only if it is evaluated. *)
Theorem C51_compiler_refuted : forall a p, visit (PowLit a (EQuot p 0)) = None.
Proof. intros a p. cbn [visit]. destruct (visit a); reflexivity. Qed.
Print Assumptions C51_compiler_refuted.

Example C51_compiler_case : visit (PowLit (Var 0%nat) (EQuot 1 2)) = Some (NSqrt (NVar 0%nat)).
Proof. reflexivity. Qed.

(* C50: a / b of ints and bools is the quotient in C, unless it is True / n with |n| >= 2. *)
Theorem C50_c_quotient_iff : forall a b, oval b <> 0 ->
  (match c_div a b with QDouble x y => x = oval a /\ y = oval b | QInt z => z * oval b = oval a end <->
   ~ (a = OBool true /\ exists z, b = OInt z /\ 2 <= Z.abs z)).
Proof. exact quot_iff. Qed.
Print Assumptions C50_c_quotient_iff.

Example C50_c_quotient_case : c_div (OBool true) (OInt 2) = QInt 0 /\ c_div (OInt 7) (OBool true) = QInt 7 /\ c_div (OInt 7) (OInt 2) = QDouble 7 2.
Proof. repeat split. Qed.
