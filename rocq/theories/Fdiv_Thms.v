(* C106: a // b and a % b of floats have the values of Python. *)
From Coq Require Import ZArith Bool Lia.
From Verif Require Import Math_Model Root_Model Fdiv_Model Fdiv_Spec Fdiv_Proofs Fdiv_Lemmas.
Open Scope Z_scope.

(* The result in C and Fortran is the floor of the quotient or the integer after it. *)
Theorem C106_floor_partial : forall a b, mant b <> 0 -> Z.abs (py_floor a b) < 2 ^ 53 ->
  exists n, c_floordiv a b = Some n /\ f_floordiv a b = Some n /\ (n = py_floor a b \/ n = py_floor a b + 1).
Proof. intros a b NB Q. destruct (floor_main a b NB Q) as (n & E1 & E2 & E3 & _). exists n. auto. Qed.
Print Assumptions C106_floor_partial.

(* It is the floor, if the quotient is not close below an integer: relative to this integer the distance is at least
   2 ^ -50, and a negative quotient close to 0 is not rounded to 0. *)
Theorem C106_far_partial : forall a b, mant b <> 0 -> Z.abs (py_floor a b) < 2 ^ 53 ->
  Z.abs (py_floor a b + 1) * Z.abs (den a b) <= gap a b * 2 ^ 50 -> Z.abs (den a b) <= gap a b * 2 ^ 1074 ->
  c_floordiv a b = Some (py_floor a b) /\ f_floordiv a b = Some (py_floor a b).
Proof. intros a b NB Q H1 H2. destruct (floor_main a b NB Q) as (n & E1 & E2 & _ & E & _). now rewrite E1, E2, (E H1 H2). Qed.
Print Assumptions C106_far_partial.

(* So for integers, and for multiples of another power of two, that are not too large. *)
Theorem C106_grid_partial : forall a b, mant b <> 0 -> Z.abs (num a b) + Z.abs (den a b) < 2 ^ 50 ->
  c_floordiv a b = Some (py_floor a b) /\ f_floordiv a b = Some (py_floor a b).
Proof.
  intros a b NB H. destruct (grid_gap a b NB H) as (Q & H1 & H2).
  destruct (floor_main a b NB Q) as (n & E1 & E2 & _ & E & _). now rewrite E1, E2, (E H1 H2).
Qed.
Print Assumptions C106_grid_partial.

(* -7.5 // 2.0 *)
Example C106_grid_ex : let a := mkf (-15) (-1) in let b := mkf 2 0 in
  mant b <> 0 /\ Z.abs (num a b) + Z.abs (den a b) < 2 ^ 50 /\ py_floor a b = -4 /\ c_floordiv a b = Some (-4).
Proof. cbv zeta. split; [discriminate|]. split; [reflexivity|]. split; vm_compute; reflexivity. Qed.

(* If the quotient is close below an integer, a / b is this integer, and the result is too large by one. *)
Theorem C106_floor_refuted : forall a b, mant b <> 0 -> Z.abs (py_floor a b) < 2 ^ 53 ->
  py_floor a b + 1 <> 0 -> gap a b * 2 ^ 57 <= Z.abs (py_floor a b + 1) * Z.abs (den a b) ->
  c_floordiv a b = Some (py_floor a b + 1) /\ f_floordiv a b = Some (py_floor a b + 1).
Proof. intros a b NB Q H1 H2. destruct (floor_main a b NB Q) as (n & E1 & E2 & _ & _ & E). now rewrite E1, E2, (E H1 H2). Qed.
Print Assumptions C106_floor_refuted.

(* 1.0 // 0.1 is 9.0 in Python *)
Definition one : float := mkf 1 0.
Definition tenth : float := mkf 3602879701896397 (-55).
Example C106_tenth_ex : py_floor one tenth = 9 /\ c_floordiv one tenth = Some 10 /\ f_floordiv one tenth = Some 10.
Proof. split; [|split]; vm_compute; reflexivity. Qed.
(* 79.69281413313477 // 1.1384687733304968 *)
Example C106_floor_ex : let a := mkf 5607883250532687 (-46) in let b := mkf 5127207543344171 (-52) in
  is_double a /\ is_double b /\ mant b <> 0 /\ Z.abs (py_floor a b) < 2 ^ 53 /\
  py_floor a b + 1 <> 0 /\ gap a b * 2 ^ 57 <= Z.abs (py_floor a b + 1) * Z.abs (den a b) /\
  py_floor a b = 69 /\ c_floordiv a b = Some 70.
Proof. cbv zeta. repeat split; try (vm_compute; reflexivity); vm_compute; discriminate. Qed.
(* In Fortran there is no result for a quotient of 2 ^ 63 or more: the integer is too large. *)
Theorem C106_range_refuted : forall a b, mant b <> 0 -> 2 ^ 63 <= py_floor a b -> f_floordiv a b = None.
Proof. exact range_main. Qed.
Print Assumptions C106_range_refuted.

(* 2.0 ** 70 // 1.0 *)
Example C106_range_ex : 2 ^ 63 <= py_floor (mkf 1 70) one /\ c_floordiv (mkf 1 70) one = Some (2 ^ 70) /\ f_floordiv (mkf 1 70) one = None.
Proof. split; [discriminate|]. split; vm_compute; reflexivity. Qed.

(* The remainder in C has the value of Python for all numbers; its sign too, if it is not zero. *)
Theorem C106_mod_partial : forall a b, is_signed a -> is_signed b -> mant (num_of b) <> 0 ->
  same_value (snd (pyc_fmodulo a b)) (snd (py_mod a b)) /\
  (num (num_of a) (num_of b) mod den (num_of a) (num_of b) <> 0 -> fst (pyc_fmodulo a b) = fst (py_mod a b)).
Proof. intros a b SA SB NB. destruct (mod_main a b SA SB NB) as (H1 & H2 & _). now split. Qed.
Print Assumptions C106_mod_partial.

(* A zero has the sign of a, in Python it has the sign of b. *)
Theorem C106_zero_refuted : forall a b, is_signed a -> is_signed b -> mant (num_of b) <> 0 ->
  num (num_of a) (num_of b) mod den (num_of a) (num_of b) = 0 ->
  fst (pyc_fmodulo a b) = neg a /\ fst (py_mod a b) = neg b.
Proof. intros a b SA SB NB M. destruct (mod_main a b SA SB NB) as (_ & _ & H). exact (H M). Qed.
Print Assumptions C106_zero_refuted.

(* -7.5 % 2.0 and -1.0 % 1.0 *)
Definition sg (n : bool) (x : float) : signed := {| neg := n; num_of := x |}.
Example C106_mod_ex : let a := sg true (mkf (-15) (-1)) in let b := sg false (mkf 2 0) in
  is_signed a /\ is_signed b /\ pyc_fmodulo a b = (false, Fin (mkf 1 (-1))) /\ py_mod a b = (false, Fin (mkf 1 (-1))).
Proof. cbv zeta. repeat split; cbn; try lia; try discriminate; reflexivity. Qed.
Example C106_zero_ex : let a := sg true (mkf (-1) 0) in let b := sg false (mkf 1 0) in
  is_signed a /\ is_signed b /\ fst (pyc_fmodulo a b) = true /\ fst (py_mod a b) = false.
Proof. cbv zeta. repeat split; cbn; try lia; try discriminate; reflexivity. Qed.
