(* Properties C09, C10. *)
From Coq Require Import List Bool ZArith QArith Qround String Lia.
From Coq Require Import Floats.SpecFloat.
From Verif Require Import Common Types_Model Types_Spec Types_Proofs Simp_Model Simp_Spec Simp_Proofs.
Import ListNotations.
Open Scope Z_scope.

(* ---- C09: simplification keeps the value ---- *)
(* In exact arithmetic, whenever the expression as written has a value the simplified one
   has the same.  same is Python's "is". *)
Theorem C09_sums : forall same a b, (forall x y, same x y = true -> x = y) -> ex_ok a -> ex_ok b ->
  same_value (mkAdd a b) (add_s same a b) /\ same_value (mkSub a b) (sub_s same a b).
Proof. intros same a b S A B. split; [exact (add_val same a b S A B)|exact (sub_val same a b S A B)]. Qed.
Print Assumptions C09_sums.
Example C09_sums_ex :
  let x := ELeaf 0 TInt in let l n := ELit (LInt n TInt) in
  add_s (fun _ _ => false) (mkAdd x (l 2)) (l 3) = mkAdd x (l 5)
  /\ sub_s (fun _ _ => false) (mkAdd x (l 2)) (l 3) = EAdd x (EPar (ENeg (l 1)))
  /\ add_s (fun _ _ => false) x (ENeg (ENeg (ENeg x))) = mkSub x x.
Proof. vm_compute. repeat split. Qed.

Theorem C09_products : forall a b, ex_ok a -> ex_ok b -> same_value (mkMul a b) (mul_s a b).
Proof. exact mul_val. Qed.
Print Assumptions C09_products.
Example C09_products_ex : let x := ELeaf 0 TInt in
  ex_ok x /\ mul_s x (ENeg (ELit (LInt 1 TInt))) = ENeg x /\ mul_s (ELit (LInt 0 TInt)) x = ELit (LInt 0 TInt).
Proof. vm_compute. repeat split. Qed.

Theorem C09_quotients : forall a b,
  match div_s a b with
  | Some e => same_value (mkDiv a b) e
  | None => forall env, eval env (mkDiv a b) = None
  end.
Proof. intros a b. destruct (div_s a b) eqn:E; [exact (div_val a b e E)|exact (div_zero a b E)]. Qed.
Print Assumptions C09_quotients.

Theorem C09_conditions : forall a b l,
  same_value (mkNot a) (not_s a) /\ same_value (mkGt a b) (gt_s a b)
  /\ same_value (mkAnd l) (and_s l) /\ same_value (mkOr l) (or_s l).
Proof.
  intros a b l. split; [exact (not_val a)|]. split; [exact (gt_val a b)|].
  split; [exact (and_val l)|exact (or_val l)].
Qed.
Print Assumptions C09_conditions.
Example C09_conditions_ex : let x := ELeaf 0 TBool in
  and_s [x; ELit (LTrue TBool); EEq x x] = EAnd [x; EEq x x] /\ not_s (EEq x x) = ENe x x
  /\ gt_s (ELit (LInt 2 TInt)) (ENeg (ELit (LInt 3 TInt))) = ELit (LTrue TBool).
Proof. vm_compute. repeat split. Qed.

(* 0 * (x / y) is 0 even where Python would raise *)
Theorem C09_error_dropped_refuted : exists a b env v,
  eval env (mkMul a b) = None /\ eval env (mul_s a b) = Some v.
Proof.
  exists (ELit (LInt 0 TInt)), (EDiv (ELeaf 0 TInt) (ELeaf 1 TInt)), (fun _ => 0%Q), 0%Q.
  split; vm_compute; reflexivity.
Qed.
Print Assumptions C09_error_dropped_refuted.
(* In floating point: (x + 1) + 1 becomes x + 2, and 0 * x becomes 0 for infinite x. *)
Theorem C09_float_sum_refuted : exists same a b env,
  (forall x y, same x y = true -> x = y) /\ ex_ok a /\ ex_ok b
  /\ evalf env (mkAdd a b) <> evalf env (add_s same a b).
Proof.
  exists (fun _ _ => false), (EAdd (ELeaf 0 TFloat) (ELit (LInt 1 TInt))), (ELit (LInt 1 TInt)), (fun _ => zf (2 ^ 53)).
  split; [discriminate|]. split; [split; reflexivity|]. split; [reflexivity|]. vm_compute. discriminate.
Qed.
Print Assumptions C09_float_sum_refuted.
Theorem C09_float_product_refuted : exists a b env,
  ex_ok a /\ ex_ok b /\ evalf env (mkMul a b) <> evalf env (mul_s a b).
Proof.
  exists (ELit (LInt 0 TInt)), (ELeaf 0 TFloat), (fun _ => S754_infinity false).
  split; [reflexivity|]. split; [exact I|]. vm_compute. discriminate.
Qed.
Print Assumptions C09_float_product_refuted.
(* (x - y) + y becomes x *)
Theorem C09_float_cancel_refuted : exists same a b env,
  (forall x y, same x y = true -> x = y) /\ ex_ok a /\ ex_ok b
  /\ evalf env (mkAdd a b) <> evalf env (add_s same a b).
Proof.
  exists (fun _ _ => false), (ESub (ELeaf 0 TFloat) (ELeaf 1 TFloat)), (ELeaf 1 TFloat),
         (fun n => match n with O => zf 1 | _ => zf (2 ^ 60) end).
  split; [discriminate|]. split; [split; exact I|]. split; [exact I|]. vm_compute. discriminate.
Qed.
Print Assumptions C09_float_cancel_refuted.

(* ---- C10: simplification keeps the type ---- *)
(* up to int = numpy.int64, float = numpy.float64, ...; (x + l) + m is left out where
   regrouping changes the type *)
Theorem C10_sums_partial : forall same a b,
  match a with EAdd x y | ESub x y => mixes [ty x; ty y; ty b] = false | _ => True end ->
  same_type (mkAdd a b) (add_s same a b) /\ same_type (mkSub a b) (sub_s same a b).
Proof.
  intros same a b H.
  assert (U : ungrouped a b).
  { assert (G : forall x y, mixes [ty x; ty y; ty b] = false ->
       ty_add (tadd (ty x) (ty y)) (ty b) = ty_add (ty x) (tadd (ty y) (ty b))).
    { intros x y M. pose proof (add_assoc _ _ _ M) as E. rewrite !tadd_ty in E. exact E. }
    destruct a; try exact I; exact (G _ _ H). }
  split; [exact (add_ty same a b U)|exact (sub_ty same a b U)].
Qed.
Print Assumptions C10_sums_partial.
Example C10_sums_ex : mixes [TInt; TInt; TInt] = false
  /\ ty (add_s (fun _ _ => false) (ELit (LInt 0 I64)) (ELeaf 0 TInt)) = TInt
  /\ ty (mkAdd (ELit (LInt 0 I64)) (ELeaf 0 TInt)) = I64.
Proof. repeat split. Qed.
Theorem C10_regrouping_refuted : exists same a b, ex_ok a /\ ex_ok b /\ ~ same_type (mkAdd a b) (add_s same a b).
Proof.
  exists (fun _ _ => false), (EAdd (ELeaf 0 I8) (ELit (LFloat 1 TFloat))), (ELit (LFloat 1 F32)).
  split; [split; reflexivity|]. split; [reflexivity|]. intros [_ H]. vm_compute in H. discriminate.
Qed.
Print Assumptions C10_regrouping_refuted.

Theorem C10_products_partial : forall a b, is_int b 1 = false -> same_type (mkMul a b) (mul_s a b).
Proof. exact mul_ty. Qed.
Print Assumptions C10_products_partial.
Example C10_products_ex : is_int (ELeaf 0 TFloat) 1 = false /\ is_int (ELit (LInt 2 TInt)) 1 = false.
Proof. split; reflexivity. Qed.
(* n * 1.0 stays an integer *)
Theorem C10_times_one_refuted : exists a b, ex_ok a /\ ex_ok b /\ ty (mkMul a b) = TFloat /\ ty (mul_s a b) = TInt.
Proof. exists (ELeaf 0 TInt), (ELit (LFloat 1 TFloat)). repeat split. Qed.
Print Assumptions C10_times_one_refuted.

Theorem C10_quotients : forall a b e, div_s a b = Some e -> same_type (mkDiv a b) e.
Proof. exact div_ty. Qed.
Print Assumptions C10_quotients.
Example C10_quotients_ex : div_s (ELeaf 0 F64) (ELit (LInt 1 TInt)) = Some (ELeaf 0 F64)
  /\ div_s (ELeaf 0 TInt) (ELit (LInt 1 TInt)) = Some (mkDiv (ELeaf 0 TInt) (ELit (LInt 1 TInt))).
Proof. split; reflexivity. Qed.

Theorem C10_conditions : forall a b l, same_type (mkNot a) (not_s a) /\ same_type (mkGt a b) (gt_s a b)
  /\ same_type (mkAnd l) (and_s l) /\ same_type (mkOr l) (or_s l).
Proof. exact bool_ty. Qed.
Print Assumptions C10_conditions.
