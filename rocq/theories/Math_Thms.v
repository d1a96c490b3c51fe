(* C97: functions of math have the values of Python. *)
From Coq Require Import ZArith List Bool String Lia.
From Verif Require Import Expr_Model Expr_Spec Expr_Proofs Math_Model Math_Spec Math_Proofs.
Import ListNotations.
Open Scope Z_scope.

(* The functions that the statements below speak of: every float has one floor, ceiling and truncation. *)
Theorem C97_unique : forall x,
  (exists z, is_floor x z /\ forall y, is_floor x y -> y = z) /\
  (exists z, is_ceil x z /\ forall y, is_ceil x y -> y = z) /\
  (exists z, is_trunc x z /\ forall y, is_trunc x y -> y = z).
Proof.
  intros x. split; [|split]; eexists; (split; [|intros y H]).
  - apply floor_ok.
  - exact (is_floor_fun _ _ _ H (floor_ok x)).
  - apply ceil_ok.
  - exact (is_ceil_fun _ _ _ H (ceil_ok x)).
  - apply trunc_ok.
  - exact (is_trunc_fun _ _ _ H (trunc_ok x)).
Qed.
Print Assumptions C97_unique.

(* C, floats: floor, ceil, and trunc assigned to a variable *)
Theorem C97_c_float : forall junk64 x f c t,
  is_floor x f -> is_ceil x c -> is_trunc x t ->
  fits64 f = true -> fits64 c = true -> fits64 t = true ->
  c_floor junk64 (AFloat x) = VInt f /\ c_ceil junk64 (AFloat x) = VInt c /\
  assigned junk64 (c_trunc (AFloat x)) = Some t.
Proof.
  intros. split; [|split]; [now apply c_floor_float|now apply c_ceil_float|now apply c_trunc_float].
Qed.
Print Assumptions C97_c_float.
(* -2.5 *)
Example C97_c_float_ex : is_floor (mkf (-5) (-1)) (-3) /\ is_ceil (mkf (-5) (-1)) (-2) /\ is_trunc (mkf (-5) (-1)) (-2).
Proof.
  split; [|split]; [exact (floor_ok (mkf (-5) (-1)))|exact (ceil_ok (mkf (-5) (-1)))|exact (trunc_ok (mkf (-5) (-1)))].
Qed.

(* Fortran, floats: floor, and trunc assigned to a variable; ceil if the result has 32 bits *)
Theorem C97_fortran_float_partial : forall junk32 junk64 x f c t,
  is_floor x f -> is_ceil x c -> is_trunc x t ->
  fits64 f = true -> fits32 c = true -> fits64 t = true ->
  f_floor junk64 (AFloat x) = VInt f /\ f_ceil junk32 (AFloat x) = VInt c /\
  assigned junk64 (f_trunc (AFloat x)) = Some t.
Proof.
  intros. split; [|split]; [now apply f_floor_float|now apply f_ceil_float|now apply f_trunc_float].
Qed.
Print Assumptions C97_fortran_float_partial.
Example C97_fortran_float_ex : fits32 (fceil (mkf 7 (-1))) = true /\ is_ceil (mkf 7 (-1)) 4.
Proof. split; [reflexivity|exact (ceil_ok (mkf 7 (-1)))]. Qed.

(* Fortran, ceil, any argument: never right when the result needs more than 32 bits *)
Theorem C97_fortran_ceil_refuted : forall junk32 a z,
  (forall y, fits32 (junk32 y) = true) ->
  is_ceil (number a) z -> fits32 z = false -> f_ceil junk32 a <> VInt z.
Proof.
  intros junk32 a z J _ F H. rewrite (f_ceil_large junk32 a z J H) in F. discriminate.
Qed.
Print Assumptions C97_fortran_ceil_refuted.
(* ceil(3000000000.5), where C has the right value *)
Example C97_fortran_ceil_ex : is_ceil (mkf 6000000001 (-1)) 3000000001 /\ fits32 3000000001 = false /\
  c_ceil (fun _ => 0) (AFloat (mkf 6000000001 (-1))) = VInt 3000000001.
Proof. split; [exact (ceil_ok (mkf 6000000001 (-1)))|split; reflexivity]. Qed.

(* C, integers and booleans: the value is kept up to 2 ^ 53 *)
Theorem C97_c_int_partial : forall junk64 n, Z.abs n <= 2 ^ 53 ->
  c_floor junk64 (AInt n) = VInt n /\ c_ceil junk64 (AInt n) = VInt n /\
  assigned junk64 (c_trunc (AInt n)) = Some n.
Proof.
  intros junk64 n H. pose proof (nearest_small n H) as E.
  destruct (c_int junk64 n) as [A [B [C _]]]; [rewrite E; now apply fits_small|]. rewrite E in *. auto.
Qed.
Print Assumptions C97_c_int_partial.
Theorem C97_c_bool : forall junk64 b,
  c_floor junk64 (ABool b) = VInt (if b then 1 else 0) /\ c_ceil junk64 (ABool b) = VInt (if b then 1 else 0) /\
  assigned junk64 (c_trunc (ABool b)) = Some (if b then 1 else 0).
Proof. intros junk64 [|]; auto. Qed.
Print Assumptions C97_c_bool.
(* beyond, it is right for the integers that are floats, and no odd integer is *)
Theorem C97_c_int_exact : forall junk64 n, fits64 n = true -> fits64 (nearest n) = true ->
  2 ^ 53 <= Z.abs n ->
  (c_floor junk64 (AInt n) = VInt n <-> (2 ^ (Z.log2 (Z.abs n) - 52) | n)) /\
  (c_ceil junk64 (AInt n) = VInt n <-> (2 ^ (Z.log2 (Z.abs n) - 52) | n)) /\
  (assigned junk64 (c_trunc (AInt n)) = Some n <-> (2 ^ (Z.log2 (Z.abs n) - 52) | n)).
Proof.
  intros junk64 n F Fn H. destruct (c_int junk64 n Fn) as [A [B [C _]]].
  destruct (nearest_step n H) as [k [-> [_ [_ E]]]]. rewrite A, B, C.
  split; [|split]; (rewrite <- E; split; [intros G; now injection G|intros ->; reflexivity]).
Qed.
Print Assumptions C97_c_int_exact.
Theorem C97_c_int_refuted : forall junk64 n, 2 ^ 53 < Z.abs n -> Z.odd n = true -> fits64 (nearest n) = true ->
  c_floor junk64 (AInt n) <> VInt n /\ c_ceil junk64 (AInt n) <> VInt n /\
  assigned junk64 (c_trunc (AInt n)) <> Some n /\ assigned junk64 (f_trunc (AInt n)) <> Some n.
Proof.
  intros junk64 n H O F. pose proof (nearest_odd n H O) as E.
  destruct (c_int junk64 n F) as [A [B [C D]]]. rewrite A, B, C, D. repeat split; congruence.
Qed.
Print Assumptions C97_c_int_refuted.
(* the error is at most half of the distance between floats *)
Theorem C97_c_int_error : forall junk64 n, 2 ^ 53 <= Z.abs n -> fits64 (nearest n) = true ->
  exists r, c_floor junk64 (AInt n) = VInt r /\ c_ceil junk64 (AInt n) = VInt r /\
    2 * Z.abs (r - n) <= 2 ^ (Z.log2 (Z.abs n) - 52).
Proof.
  intros junk64 n H F. exists (nearest n). destruct (c_int junk64 n F) as [A [B _]].
  split; [exact A|split; [exact B|exact (nearest_dist n H)]].
Qed.
Print Assumptions C97_c_int_error.
Example C97_c_int_ex : Z.odd (2 ^ 53 + 1) = true /\ fits64 (nearest (2 ^ 53 + 1)) = true /\
  nearest (2 ^ 53 + 1) = 2 ^ 53 /\ nearest (2 ^ 53 + 3) = 2 ^ 53 + 4 /\ nearest (- 2 ^ 54 - 6) = - 2 ^ 54 - 8.
Proof. repeat split; vm_compute; reflexivity. Qed.

(* Fortran, integers: floor keeps every integer; trunc up to 2 ^ 53; ceil those of 32 bits *)
Theorem C97_fortran_int_partial : forall junk32 junk64 n,
  f_floor junk64 (AInt n) = VInt n /\
  (Z.abs n <= 2 ^ 53 -> assigned junk64 (f_trunc (AInt n)) = Some n) /\
  (fits32 n = true -> f_ceil junk32 (AInt n) = VInt n).
Proof.
  intros junk32 junk64 n. split; [reflexivity|]. split.
  - intros H. pose proof (nearest_small n H) as E.
    destruct (c_int junk64 n) as [_ [_ [_ D]]]; [rewrite E; now apply fits_small|]. now rewrite E in D.
  - intros H. unfold f_ceil. rewrite whole_ceil, nearest_small.
    + unfold to32. now rewrite H.
    + unfold fits32 in H. apply andb_true_iff in H. destruct H as [H1 H2].
      apply Z.leb_le in H1. apply Z.ltb_lt in H2. lia.
Qed.
Print Assumptions C97_fortran_int_partial.

(* trunc printed, or passed where an integer is written by a format: it is a float, in C and in Fortran *)
Theorem C97_trunc_printed_refuted : forall a z,
  printed (c_trunc a) <> Some z /\ printed (f_trunc a) <> Some z.
Proof. intros a z. split; destruct a; discriminate. Qed.
Print Assumptions C97_trunc_printed_refuted.

(* Fortran: booleans are rejected by the compiler *)
Theorem C97_fortran_bool_refuted : forall junk32 junk64 b v,
  assigned junk64 (f_floor junk64 (ABool b)) <> Some v /\
  assigned junk64 (f_ceil junk32 (ABool b)) <> Some v /\ assigned junk64 (f_trunc (ABool b)) <> Some v.
Proof. intros. repeat split; discriminate. Qed.
Print Assumptions C97_fortran_bool_refuted.

(* pow. ok L t: every operand in t binds at least as tightly as its operator asks, so that t is read as it is
   written (read_ok). top L t: how tightly t binds. In C the arguments are read as they are written, as floats *)
Open Scope string_scope.
Open Scope nat_scope.
Theorem C97_c_pow : forall a b, ok c_lang (c_print a) -> ok c_lang (c_print b) ->
  read c_lang (words (c_pow a b)) =
    Some (Call2 "pow" (if is_float (ty a) then c_print a else Pre "(double)" (Par (c_print a)))
                      (if is_float (ty b) then c_print b else Pre "(double)" (Par (c_print b)))).
Proof. exact c_pow_text. Qed.
Print Assumptions C97_c_pow.
Definition fl (s : string) : pe := PAt s TFloat.
Example C97_c_pow_ex : ok c_lang (c_print (PBin Add (fl "x") (fl "y"))) /\
  c_pow (PBin Add (fl "x") (fl "y")) (PAt "n" TInt) =
    Call2 "pow" (In "+" (At "x") (At "y")) (Pre "(double)" (Par (At "n"))).
Proof. split; [cbn; repeat split; auto; lia|reflexivity]. Qed.

(* In Fortran this is so for names, calls and indices *)
Theorem C97_fortran_pow_partial : forall a b,
  ok f_lang (f_print a) -> ok f_lang (f_print b) ->
  16 <= top f_lang (f_print a) -> 15 <= top f_lang (f_print b) ->
  read f_lang (words (f_pow a b)) = Some (In "**" (f_print a) (f_print b)).
Proof. intros a b. exact (pow_simple (f_print a) (f_print b)). Qed.
Print Assumptions C97_fortran_pow_partial.
Example C97_fortran_pow_ex : 16 <= top f_lang (f_print (fl "x")) /\ 15 <= top f_lang (f_print (PBin Pow (fl "y") (fl "z"))).
Proof. cbn. lia. Qed.

(* math.pow(u + v, b) is u + v ** b, and likewise for -, * and / *)
Theorem C97_fortran_pow_base_refuted : forall o u v b, arith o -> ty u = TFloat -> ty v = TFloat ->
  ok f_lang (f_print (PBin o u v)) -> ok f_lang (f_print b) ->
  16 <= top f_lang (f_print v) -> 15 <= top f_lang (f_print b) ->
  read f_lang (words (f_pow (PBin o u v) b)) =
    Some (In (op_name o) (f_print u) (In "**" (f_print v) (f_print b))).
Proof. exact f_pow_left. Qed.
Print Assumptions C97_fortran_pow_base_refuted.
Example C97_fortran_pow_base_ex :
  ok f_lang (f_print (PBin Add (fl "x") (fl "y"))) /\
  words (f_pow (PBin Add (fl "x") (fl "y")) (fl "z")) = [KAt "x"; KOp "+"; KAt "y"; KOp "**"; KAt "z"].
Proof. split; [cbn; repeat split; auto; lia|reflexivity]. Qed.

(* math.pow(a, u + v) is a ** u + v *)
Theorem C97_fortran_pow_exponent_refuted : forall o a u v, arith o -> ty u = TFloat -> ty v = TFloat ->
  ok f_lang (f_print a) -> ok f_lang (f_print (PBin o u v)) ->
  16 <= top f_lang (f_print a) -> 15 <= top f_lang (f_print u) ->
  read f_lang (words (f_pow a (PBin o u v))) =
    Some (In (op_name o) (In "**" (f_print a) (f_print u)) (f_print v)).
Proof. exact f_pow_right. Qed.
Print Assumptions C97_fortran_pow_exponent_refuted.

(* Integers are not converted in Fortran: the power of a negative exponent is 0, while a * pow(a, -1) is 1 *)
Theorem C97_fortran_pow_int_refuted : forall a b,
  (2 <= Z.abs a)%Z -> (b < 0)%Z ->
  f_pow (PAt "a" TInt) (PAt "b" TInt) = In "**" (At "a") (At "b") /\
  f_int_pow a b = 0%Z /\ (a ^ (- b) * f_int_pow a b <> 1)%Z.
Proof.
  intros a b Ha Hb. rewrite (int_pow_neg a b Ha Hb). split; [reflexivity|]. split; [reflexivity|].
  rewrite Z.mul_0_r. discriminate.
Qed.
Print Assumptions C97_fortran_pow_int_refuted.
Example C97_fortran_pow_int_ex : f_int_pow (-2) (-1) = 0%Z /\ f_int_pow (-1) (-3) = (-1)%Z /\ f_int_pow 2 5 = 32%Z.
Proof. repeat split. Qed.
