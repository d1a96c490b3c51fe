From Coq Require Import ZArith.
Open Scope Z_scope.

(* randint(a) is in 0 .. a - 1, randint(a, b) in a .. b - 1 *)
Definition lowest (a : Z) (b : option Z) : Z := match b with None => 0 | Some _ => a end.
Definition limit (a : Z) (b : option Z) : Z := match b with None => a | Some h => h end.
Definition in_range (a : Z) (b : option Z) (n : Z) : Prop := lowest a b <= n < limit a b.
(* a random number k / 2 ^ 53 *)
Definition is_random (k : Z) : Prop := 0 <= k < 2 ^ 53.
