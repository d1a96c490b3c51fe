From Coq Require Import ZArith Lia.
From Verif Require Import Rnd_Model Rnd_Spec Rnd_Proofs.
Open Scope Z_scope.

(* C110: randint(a) is in 0 .. a - 1 for every random number: the rounding of the product never
   reaches a. *)
Theorem C110_high_partial : forall a k, 0 < a < 2 ^ 53 -> is_random k ->
  exists n, randint a None k = Some n /\ in_range a None n.
Proof. exact high_main. Qed.
Print Assumptions C110_high_partial.
(* the largest random number *)
Example C110_high_ex : is_random (2 ^ 53 - 1) /\ randint 6 None (2 ^ 53 - 1) = Some 5 /\ randint 6 None 0 = Some 0 /\
  randint 6 None (2 ^ 52) = Some 3.
Proof. unfold is_random. split; [lia|]. repeat split; vm_compute; reflexivity. Qed.

(* C110: randint(a, b) is in a .. b: never below a, never above b.
   Missing: bounds or differences that do not fit into 53 bits; that b itself is not given,
   which is wrong. *)
Theorem C110_range_partial : forall a b k, - 2 ^ 53 < a < b -> b < 2 ^ 53 -> b - a < 2 ^ 53 ->
  is_random k ->
  exists n, randint a (Some b) k = Some n /\ a <= n <= b.
Proof. exact range_main. Qed.
Print Assumptions C110_range_partial.
Example C110_range_ex : randint (-3) (Some 2) 0 = Some (-3) /\ randint (-3) (Some 2) (2 ^ 52) = Some (-1) /\
  randint 2 (Some 7) 0 = Some 2 /\ randint 2 (Some 7) (2 ^ 52) = Some 4 /\
  randint 2 (Some 7) (2 ^ 53 - 2 ^ 10) = Some 6.
Proof. repeat split; vm_compute; reflexivity. Qed.

(* C110: the sum with the lower bound is rounded up to the upper bound.  For a of j + 1 bits and
   b = a + 1 it is for all random numbers greater than 1 - 2 ^ (j - 53): one for a = 2 and 3,
   half of them for a above 2 ^ 52. *)
Theorem C110_limit_refuted : forall j a k, 0 <= j -> 2 ^ j <= a -> a + 1 <= 2 ^ (j + 1) -> a + 1 < 2 ^ 53 ->
  is_random k -> 2 ^ 53 - k < 2 ^ j ->
  randint a (Some (a + 1)) k = Some (a + 1) /\ ~ in_range a (Some (a + 1)) (a + 1).
Proof.
  intros j a k J A1 A2 A3 K1 K2. split; [exact (top_main j a k J A1 A2 A3 K1 K2)|].
  unfold in_range. cbn [limit]. lia.
Qed.
Print Assumptions C110_limit_refuted.
Example C110_limit_ex : 2 ^ 1 <= 3 /\ 3 + 1 <= 2 ^ (1 + 1) /\ is_random (2 ^ 53 - 1) /\ 2 ^ 53 - (2 ^ 53 - 1) < 2 ^ 1 /\
  randint 3 (Some 4) (2 ^ 53 - 1) = Some 4 /\
  randint (2 ^ 52 + 2) (Some (2 ^ 52 + 3)) (2 ^ 52 + 1) = Some (2 ^ 52 + 3).
Proof. unfold is_random. repeat split; try lia; vm_compute; reflexivity. Qed.

(* C110: every number of the range is given by some random number. *)
Theorem C110_every_partial : forall a b n, - 2 ^ 52 < lowest a b -> limit a b <= 2 ^ 52 ->
  limit a b - lowest a b <= 2 ^ 52 -> in_range a b n ->
  exists k, is_random k /\ randint a b k = Some n.
Proof.
  intros a [b|] n A L D R; unfold in_range in R; cbn [lowest limit] in *.
  - apply range_onto; lia.
  - apply high_onto; lia.
Qed.
Print Assumptions C110_every_partial.
Example C110_every_ex : in_range 6 None 5 /\ in_range 2 (Some 7) 6 /\
  randint 6 None (2 ^ 53 / 6 * 5 + 5) = Some 5 /\ randint 2 (Some 7) (2 ^ 53 - 2 ^ 50) = Some 6 /\
  randint (-3) (Some 2) (2 ^ 53 - 1) = Some 1.
Proof. repeat split; vm_compute; congruence. Qed.

(* C110: exactly when randint(a, b) is in range for all random numbers: when no power of two is at
   least b - a and below b.
   Missing: bounds above 2 ^ 52. *)
Theorem C110_exact_partial : forall a b, 0 <= a < b -> b <= 2 ^ 52 ->
  (forall k, is_random k -> exists n, randint a (Some b) k = Some n /\ in_range a (Some b) n) <->
  ~ exists i, 0 <= i /\ b - a <= 2 ^ i < b.
Proof. exact exact_main. Qed.
Print Assumptions C110_exact_partial.
(* a die with the numbers 1 .. 6 is right *)
Example C110_exact_ex : (~ exists i, 0 <= i /\ 7 - 1 <= 2 ^ i < 7) /\ randint 1 (Some 7) (2 ^ 53 - 1) = Some 6.
Proof.
  split; [|vm_compute; reflexivity]. intros (i & I & L & U).
  assert (i < 3) by (apply (Z.pow_lt_mono_r_iff 2); lia).
  assert (2 ^ i <= 2 ^ 2) by (apply Z.pow_le_mono_r; lia). change (2 ^ 2) with 4 in *. lia.
Qed.
(* C110: the greatest random number gives the upper bound whenever there is such a power. *)
Theorem C110_upper_refuted : forall a b i, 0 <= i -> a < b -> b - a <= 2 ^ i < b -> b <= 2 ^ 52 ->
  is_random (2 ^ 53 - 1) /\ randint a (Some b) (2 ^ 53 - 1) = Some b /\ ~ in_range a (Some b) b.
Proof.
  intros a b i I A D B. split; [unfold is_random; lia|]. split; [apply (upper_main a b i); lia|].
  unfold in_range. cbn [limit]. lia.
Qed.
Print Assumptions C110_upper_refuted.
Example C110_upper_ex : 9 - 3 <= 2 ^ 3 < 9 /\ randint 3 (Some 9) (2 ^ 53 - 1) = Some 9 /\ randint 1 (Some 2) (2 ^ 53 - 1) = Some 2.
Proof. split; [lia|]. split; vm_compute; reflexivity. Qed.

(* C110: the same with a negative lower bound: when no power of two is between b - a and - b.
   There is none if b is not negative.
   Missing: bounds and differences above 2 ^ 52. *)
Theorem C110_negative_partial : forall a b, - 2 ^ 52 <= a < 0 -> a < b -> b - a <= 2 ^ 52 ->
  (forall k, is_random k -> exists n, randint a (Some b) k = Some n /\ in_range a (Some b) n) <->
  ~ exists i, 0 <= i /\ b - a <= 2 ^ i <= - b.
Proof. exact exact_neg. Qed.
Print Assumptions C110_negative_partial.
Example C110_negative_ex : (~ exists i, 0 <= i /\ 3 - -5 <= 2 ^ i <= - 3) /\ randint (-5) (Some 3) (2 ^ 53 - 1) = Some 2 /\
  -4 - -6 <= 2 ^ 1 <= - -4 /\ randint (-6) (Some (-4)) (2 ^ 53 - 1) = Some (-4).
Proof.
  split; [intros (i & I & L & U); lia|]. split; [vm_compute; reflexivity|]. split; [lia|vm_compute; reflexivity].
Qed.
