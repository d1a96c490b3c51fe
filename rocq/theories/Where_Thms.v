From Coq Require Import List Bool String ZArith Lia.
From Verif Require Import Expr_Model Expr_Spec Where_Model Where_Spec Where_Proofs.
Import ListNotations.
Open Scope string_scope.
Open Scope Z_scope.

(* x > 0, x, -x, a * 2 *)
Definition pos : txt := In ">" (At "x") (At "0").
Definition env0 (s : string) : Z := match s with "0" => 0 | "1" => 1 | "2" => 2 | "x" => 3 | "a" => 5 | _ => 7 end.
Definition fn0 (_ : string) (x : Z) : Z := x.

(* C107, C: np.where at the top of an expression or as a value of another np.where has its
   value in Python.  Missing: np.where in arguments of functions; types and conversions. *)
Theorem C107_where_partial : forall env fn e, outside e ->
  c_value env fn e = py_value env fn e.
Proof. exact outside_main. Qed.
Print Assumptions C107_where_partial.
(* np.where(x > 0, np.where(a > 2, a, x), -x * 2) *)
Example C107_where_ex :
  let e := W (E pos) (W (E (In ">" (At "a") (At "2"))) (E (At "a")) (E (At "x")))
             (E (In "*" (Pre "-" (At "x")) (At "2"))) in
  outside e /\ c_value env0 fn0 e = Some 5.
Proof. cbn. repeat split; lia. Qed.

(* C107, Fortran: np.where has its value in Python wherever it stands. *)
Theorem C107_fortran_partial : forall env fn e, anywhere e ->
  f_value env fn e = py_value env fn e.
Proof. exact fortran_main. Qed.
Print Assumptions C107_fortran_partial.
(* 2 * np.where(np.where(x > 0, 0, 1), a, x) *)
Example C107_fortran_ex :
  let e := B "*" (E (At "2")) (W (W (E pos) (E (At "0")) (E (At "1"))) (E (At "a")) (E (At "x"))) in
  anywhere e /\ f_value env0 fn0 e = Some 6.
Proof. cbn. repeat split; lia. Qed.

(* C107, C: np.where(c, a, b) o e applies the operator to b only: where the condition holds,
   the result is a instead of a o e. *)
Theorem C107_left_refuted : forall env fn o c a b e t,
  grouped c_lang c -> outside a -> grouped c_lang t ->
  words t = (words b ++ KOp o :: words e)%list ->
  let w := B o (W (E c) a (E b)) (E e) in
  c_value env fn w = choose (tval env fn c) (py_value env fn a) (tval env fn t) /\
  (forall v x y, tval env fn c = Some v -> v <> 0 -> py_value env fn a = Some x ->
     tval env fn e = Some y ->
     c_value env fn w = Some x /\ py_value env fn w = op2 o x y).
Proof.
  intros env fn o c a b e t Gc Ga Gt Ht w.
  pose proof (left_main env fn o c a b e t Gc Ga Gt Ht) as M. split; [exact M|].
  intros v x y Hv Hn Hx Hy. unfold w. rewrite M. cbn [py_value]. rewrite Hv, Hx, Hy. unfold choose.
  destruct (Z.eqb_spec v 0); [contradiction|]. split; reflexivity.
Qed.
Print Assumptions C107_left_refuted.
(* np.where(x > 0, a, x) * 2 with x = 3, a = 5: 5 in C, 10 in Python *)
Example C107_left_ex :
  let w := B "*" (W (E pos) (E (At "a")) (E (At "x"))) (E (At "2")) in
  grouped c_lang (In "*" (At "x") (At "2")) /\
  words (In "*" (At "x") (At "2")) = (words (At "x") ++ KOp "*" :: words (At "2"))%list /\
  c_value env0 fn0 w = Some 5 /\ py_value env0 fn0 w = Some 10 /\ f_value env0 fn0 w = Some 10.
Proof. cbn. repeat split; lia. Qed.

(* C107, C: e o np.where(c, a, b) makes e o c the condition: the result is a or b, without e. *)
Theorem C107_right_refuted : forall env fn o c a b e t,
  grouped c_lang t -> outside a -> outside b ->
  words t = (words e ++ KOp o :: words c)%list ->
  let w := B o (E e) (W (E c) a b) in
  c_value env fn w = choose (tval env fn t) (py_value env fn a) (py_value env fn b) /\
  (forall v x y z, tval env fn c = Some v -> v <> 0 -> py_value env fn a = Some x ->
     py_value env fn b = Some z -> tval env fn e = Some y ->
     (c_value env fn w = Some x \/ c_value env fn w = Some z \/ tval env fn t = None) /\
     py_value env fn w = op2 o y x).
Proof.
  intros env fn o c a b e t Gt Ga Gb Ht w.
  pose proof (right_main env fn o c a b e t Gt Ga Gb Ht) as M. split; [exact M|].
  intros v x y z Hv Hn Hx Hz Hy. unfold w. rewrite M. cbn [py_value]. rewrite Hv, Hx, Hy, Hz. unfold choose.
  destruct (Z.eqb_spec v 0); [contradiction|]. split; [|reflexivity].
  destruct (tval env fn t) as [q|]; [|auto]. destruct (q =? 0); auto.
Qed.
Print Assumptions C107_right_refuted.
(* 2 + np.where(x > 0, a, x): read as (2 + x > 0) ? a : x, 5 in C, 7 in Python *)
Example C107_right_ex :
  let t := In ">" (In "+" (At "2") (At "x")) (At "0") in
  let w := B "+" (E (At "2")) (W (E pos) (E (At "a")) (E (At "x"))) in
  grouped c_lang t /\ words t = (words (At "2") ++ KOp "+" :: words pos)%list /\
  c_value env0 fn0 w = Some 5 /\ py_value env0 fn0 w = Some 7 /\ f_value env0 fn0 w = Some 7.
Proof. cbn. repeat split; lia. Qed.

(* C107, C: np.where(np.where(c, x, y), a, b) is x where c holds, instead of a or b. *)
Theorem C107_condition_refuted : forall env fn c x y a b,
  grouped c_lang c -> outside x -> grouped c_lang y -> outside a -> outside b ->
  let w := W (W (E c) x (E y)) a b in
  c_value env fn w =
    choose (tval env fn c) (py_value env fn x) (choose (tval env fn y) (py_value env fn a) (py_value env fn b)) /\
  (forall v, tval env fn c = Some v -> v <> 0 ->
     c_value env fn w = py_value env fn x /\
     py_value env fn w = choose (py_value env fn x) (py_value env fn a) (py_value env fn b)).
Proof.
  intros env fn c x y a b Gc Gx Gy Ga Gb w.
  pose proof (condition_main env fn c x y a b Gc Gx Gy Ga Gb) as M. split; [exact M|].
  intros v Hv Hn. unfold w. rewrite M. cbn [py_value]. rewrite Hv. unfold choose at 1 4.
  destruct (Z.eqb_spec v 0); [contradiction|]. split; reflexivity.
Qed.
Print Assumptions C107_condition_refuted.
Example C107_condition_ex :
  let w := W (W (E pos) (E (At "1")) (E (At "0"))) (E (At "a")) (E (At "x")) in
  c_value env0 fn0 w = Some 1 /\ py_value env0 fn0 w = Some 5 /\ f_value env0 fn0 w = Some 5.
Proof. cbn. repeat split. Qed.
