(* round in Python: the nearest integer, the even one of two. *)
From Coq Require Import ZArith Bool.
From Verif Require Import Math_Model.
Open Scope Z_scope.

(* floats of 64 bits have 53 bits *)
Definition is_float (x : float) : Prop := Z.abs (mant x) < 2 ^ 53.

(* |x * n - z| <= 1 / 2, and z is even if it is 1 / 2 *)
Definition is_round_of (n : Z) (x : float) (z : Z) : Prop :=
  let d := 2 ^ Z.max 0 (- expo x) in
  let t := 2 * Z.abs (mant x * 2 ^ Z.max 0 (expo x) * n - z * d) in
  t <= d /\ (t = d -> Z.even z = true).
Definition is_round (x : float) (z : Z) : Prop := is_round_of 1 x z.

(* where C is wrong: the odd integers of 53 bits *)
Definition exceptional (x : float) : Prop :=
  2 ^ 52 < Z.abs (mant x) /\ Z.odd (mant x) = true /\ expo x = 0.
