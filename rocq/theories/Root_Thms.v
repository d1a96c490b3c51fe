(* C101: math.sqrt of a square has the value of Python. *)
From Coq Require Import ZArith List Bool Lia.
From Verif Require Import Math_Model Root_Model Root_Spec Root_Proofs.
Import ListNotations.
Open Scope Z_scope.

(* The root that is used in the statements is the nearest number of 53 bits. *)
Theorem C101_root : forall x, normalised x -> 0 < mant x -> exists y, dsqrt (Fin x) = Fin y /\ is_root x y.
Proof. exact root_ok. Qed.
Print Assumptions C101_root.
(* sqrt(2.0) *)
Example C101_root_ex : normalised (mkf (2 ^ 52) (-51)) /\ dsqrt (Fin (mkf (2 ^ 52) (-51))) = Fin (mkf 6369051672525773 (-52)).
Proof. split; [unfold normalised; cbn; lia|vm_compute; reflexivity]. Qed.

(* Any expression of products, squares, roots and calls: if every number that is squared under a root has a magnitude from
   2^-511 to 2^512, or is zero, an infinity or a NaN, the result is the same to the last bit, and so are the calls. *)
Theorem C101_same_partial : forall env fn e log, safe env fn e log -> eval env fn (visit e) log = eval env fn e log.
Proof. exact visit_eval. Qed.
Print Assumptions C101_same_partial.
(* sqrt(sqrt(x * x) * f()), sqrt(f() ** 2) for x = -0.1 and f() = 3.0 *)
Definition ex_env (_ : nat) : double := Fin (mkf (-7205759403792794) (-56)).
Definition ex_fn (_ : nat) (_ : list nat) : double := Fin (mkf (3 * 2 ^ 51) (-51)).
Example C101_same_ex : forall log,
  safe ex_env ex_fn (Mul (Sqrt (Mul (Sqrt (Mul (Var 0) (Var 0))) (Call 0))) (Sqrt (Sq (Call 0)))) log /\
  visit (Mul (Sqrt (Mul (Sqrt (Mul (Var 0) (Var 0))) (Call 0))) (Sqrt (Sq (Call 0)))) =
    Mul (Sqrt (Mul (Fabs (Var 0)) (Call 0))) (Fabs (Call 0)) /\
  dmul (ex_env 0) (ex_env 0) = Fin (mkf 5764607523034236 (-59)).
Proof.
  intros log. split; [|split; [reflexivity|vm_compute; reflexivity]].
  cbn [safe eval fst snd ex_env ex_fn ordinary mant expo]. unfold between, normalised. cbn [mant expo]. repeat split; try (right; lia); lia.
Qed.

(* The same functions are called in the same order, whatever the numbers are. *)
Theorem C101_calls : forall env fn e log, snd (eval env fn (visit e) log) = snd (eval env fn e log).
Proof. exact visit_calls. Qed.
Print Assumptions C101_calls.

(* Numbers whose square overflows: Python has an infinity, the program the magnitude of x. *)
Theorem C101_overflow_refuted : forall env fn y x log, env y = Fin x -> between 512 1024 x ->
  fst (eval env fn (Sqrt (Mul (Var y) (Var y))) log) = Other /\
  fst (eval env fn (visit (Sqrt (Mul (Var y) (Var y)))) log) = Fin (mkf (Z.abs (mant x)) (expo x)).
Proof.
  intros env fn y x log E B. split.
  - cbn [eval fst]. rewrite E, (overflow x 1024 B). reflexivity.
  - cbn [visit build_sqrt]. rewrite Nat.eqb_refl. cbn [eval fst]. rewrite E. cbn [dabs].
    destruct B as [N _]. unfold normalised in N. destruct (Z.eqb_spec (mant x) 0); [lia|reflexivity].
Qed.
Print Assumptions C101_overflow_refuted.
(* 2^1000 *)
Example C101_overflow_ex : between 512 1024 (mkf (2 ^ 52) 948).
Proof. unfold between, normalised. cbn [mant expo]. lia. Qed.

(* Numbers whose square vanishes: Python has zero, the program the magnitude of x. *)
Theorem C101_underflow_refuted : forall env fn y x log, env y = Fin x -> between (-1074) (-538) x ->
  fst (eval env fn (Sqrt (Mul (Var y) (Var y))) log) = Fin (mkf 0 0) /\
  fst (eval env fn (visit (Sqrt (Mul (Var y) (Var y)))) log) = Fin (mkf (Z.abs (mant x)) (expo x)) /\ Z.abs (mant x) <> 0.
Proof.
  intros env fn y x log E B. split; [|split].
  - cbn [eval fst]. rewrite E, (underflow x (-1074) B). reflexivity.
  - cbn [visit build_sqrt]. rewrite Nat.eqb_refl. cbn [eval fst]. rewrite E. cbn [dabs].
    destruct B as [N _]. unfold normalised in N. destruct (Z.eqb_spec (mant x) 0); [lia|reflexivity].
  - destruct B as [N _]. unfold normalised in N. lia.
Qed.
Print Assumptions C101_underflow_refuted.
Example C101_underflow_ex : between (-1074) (-538) (mkf (2 ^ 52) (-1000)).
Proof. unfold between, normalised. cbn [mant expo]. lia. Qed.
