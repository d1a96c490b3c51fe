(* What math.floor, math.ceil, math.trunc and math.pow are in Python. *)
From Coq Require Import ZArith List Bool String.
From Verif Require Import Math_Model.
Open Scope Z_scope.

(* z <= x and x <= z between an integer and a number mant * 2 ^ expo *)
Definition le_num (z : Z) (x : float) : Prop :=
  z * 2 ^ Z.max 0 (- expo x) <= mant x * 2 ^ Z.max 0 (expo x).
Definition num_le (x : float) (z : Z) : Prop :=
  mant x * 2 ^ Z.max 0 (expo x) <= z * 2 ^ Z.max 0 (- expo x).

(* the greatest integer not above, the least not below, the one towards zero *)
Definition is_floor (x : float) (z : Z) : Prop := le_num z x /\ forall y, le_num y x -> y <= z.
Definition is_ceil (x : float) (z : Z) : Prop := num_le x z /\ forall y, num_le x y -> z <= y.
Definition is_trunc (x : float) (z : Z) : Prop :=
  (le_num 0 x -> is_floor x z) /\ (num_le x 0 -> is_ceil x z).

(* an argument as a number *)
Definition number (a : arg) : float :=
  match a with AInt n => whole n | AFloat x => x | ABool b => whole (if b then 1 else 0) end.
