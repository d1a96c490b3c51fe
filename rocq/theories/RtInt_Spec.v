(* What Python says about the integer operations of RtInt_Model.  No reference
   to the model. *)
From Coq Require Import ZArith.
Open Scope Z_scope.

(* Python's x // y for y <> 0: the largest integer not above the exact quotient
   x / y.  Written without division: q * y is on the near side of x. *)
Definition py_floordiv (x y q : Z) : Prop :=
  y <> 0 /\
  (0 < y -> q * y <= x < q * y + y) /\
  (y < 0 -> q * y + y < x <= q * y).

(* Python's x % y: the remainder of floor division. *)
Definition py_mod (x y r : Z) : Prop :=
  exists q, py_floordiv x y q /\ r = x - q * y.

(* math.gcd: the greatest non-negative common divisor; gcd(0,0) = 0. *)
Definition py_gcd (a b g : Z) : Prop :=
  0 <= g /\ (g | a) /\ (g | b) /\ forall d, (d | a) -> (d | b) -> (d | g).

(* math.lcm: the least non-negative common multiple; lcm(a,0) = 0. *)
Definition py_lcm (a b m : Z) : Prop :=
  0 <= m /\ (a | m) /\ (b | m) /\ forall d, (a | d) -> (b | d) -> (m | d).

(* math.factorial as the recurrence 0! = 1, (n+1)! = (n+1) * n!. *)
Inductive py_factorial : Z -> Z -> Prop :=
| fact_zero : py_factorial 0 1
| fact_succ n v : py_factorial n v -> py_factorial (n + 1) ((n + 1) * v).

(* round(n, -k), k >= 0: a multiple q * 10^k at distance at most 10^k / 2 of n;
   if there are two of them, the one with even q. *)
Definition py_round (n k r : Z) : Prop :=
  exists q, r = q * 10 ^ k
         /\ 2 * Z.abs (n - r) <= 10 ^ k
         /\ (2 * Z.abs (n - r) = 10 ^ k -> Z.Even q).

(* n lies exactly half way between two multiples of 10^k. *)
Definition is_tie (n k : Z) : Prop := exists q, 2 * n = (2 * q + 1) * 10 ^ k.
