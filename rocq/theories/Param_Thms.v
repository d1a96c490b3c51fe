(* C67: assignments to optional arguments inside a function *)
From Coq Require Import Bool Arith ZArith Lia List String.
From Verif Require Import Param_Model Param_Spec Param_Proofs.
Import ListNotations.
Open Scope list_scope.
Open Scope string_scope.

(* Partial: in the order of the text, an optional argument is not tested after it was assigned,
   it is assigned before it is changed by `+=` and before a loop in which it is assigned, and
   results of a call with several results are not stored in it.  For all such bodies and all
   arguments, given or not: the function ends as in Python with the same result and the same
   values of variables, it does not use an address that was not passed, and what the caller's
   addresses point to is unchanged *)
Theorem C67_assign_partial : forall opt b s,
  ok_block opt [] b = true -> py opt b s <> Fault ->
  alike opt s (py opt b s) (run opt b s).
Proof. exact translate_right. Qed.
Print Assumptions C67_assign_partial.

Definition a_opt (x : string) : bool := String.eqb x "a".
Definition given (z : option Z) (n : Z) : store string :=
  fun x => if String.eqb x "a" then z else if String.eqb x "n" then Some n else None.
Definition value {S} (r : result S) : option Z :=
  match r with Left z _ => Some z | _ => None end.
Definition argument (r : result (store place)) : option Z :=
  match r with Left _ s => s (Given "a") | _ => None end.

(* if a is None: a = 5
   for i in range(n): a += i
   return a *)
Definition usual : block string :=
  Cons (If (Missing "a") (Cons (Set_ "a" (Const 5)) Nil) Nil)
  (Cons (For "i" (Var "n") (Cons (Aug "a" (Var "i")) Nil))
  (Cons (Return (Var "a")) Nil)).
Example C67_ex :
  ok_block a_opt [] usual = true /\
  value (py a_opt usual (given None 4)) = Some 11%Z /\
  value (py a_opt usual (given (Some 1%Z) 4)) = Some 7%Z /\
  value (run a_opt usual (given None 4)) = Some 11%Z /\
  value (run a_opt usual (given (Some 1%Z) 4)) = Some 7%Z /\
  argument (run a_opt usual (given (Some 1%Z) 4)) = Some 1%Z.
Proof. vm_compute. repeat split. Qed.

(* s = 0
   for i in range(2):
       s = s + a
       a = 5
   return s
   The read of a in the second turn is of the argument, not of the copy *)
Definition stale : block string :=
  Cons (Set_ "s" (Const 0))
  (Cons (For "i" (Const 2)
      (Cons (Set_ "s" (Plus (Var "s") (Var "a"))) (Cons (Set_ "a" (Const 5)) Nil)))
  (Cons (Return (Var "s")) Nil)).
Theorem C67_loop_refuted : exists b s,
  value (py a_opt b s) = Some 6%Z /\ value (run a_opt b s) = Some 2%Z.
Proof. exists stale, (given (Some 1%Z) 0). vm_compute. split; reflexivity. Qed.
Print Assumptions C67_loop_refuted.

(* if 0 < n: a = 5
   if a is None: return 0
   return a
   After the assignment in one branch, a is taken to be given everywhere *)
Definition folded : block string :=
  Cons (If (Less (Const 0) (Var "n")) (Cons (Set_ "a" (Const 5)) Nil) Nil)
  (Cons (If (Missing "a") (Cons (Return (Const 0)) Nil) Nil)
  (Cons (Return (Var "a")) Nil)).
Theorem C67_test_refuted : exists b s,
  value (py a_opt b s) = Some 0%Z /\ run a_opt b s = Fault.
Proof. exists folded, (given None 0). vm_compute. split; reflexivity. Qed.
Print Assumptions C67_test_refuted.

(* a += 1
   return a
   The caller's variable is changed *)
Definition increment : block string :=
  Cons (Aug "a" (Const 1)) (Cons (Return (Var "a")) Nil).
Theorem C67_caller_refuted : exists b s,
  s "a" = Some 1%Z /\ value (py a_opt b s) = Some 2%Z /\
  value (run a_opt b s) = Some 2%Z /\ argument (run a_opt b s) = Some 2%Z.
Proof. exists increment, (given (Some 1%Z) 0). vm_compute. repeat split. Qed.
Print Assumptions C67_caller_refuted.

(* a += 1
   if 0 < n: a = 7
   return a
   The copy was made before the increment *)
Definition lost : block string :=
  Cons (Aug "a" (Const 1))
  (Cons (If (Less (Const 0) (Var "n")) (Cons (Set_ "a" (Const 7)) Nil) Nil)
  (Cons (Return (Var "a")) Nil)).
Theorem C67_augmented_refuted : exists b s,
  value (py a_opt b s) = Some 2%Z /\ value (run a_opt b s) = Some 1%Z.
Proof. exists lost, (given (Some 1%Z) 0). vm_compute. split; reflexivity. Qed.
Print Assumptions C67_augmented_refuted.

(* a, y = f(2, 3)
   return a
   where a was not given: a null pointer is written *)
Definition several : block string :=
  Cons (Pair "a" "y" (Const 2) (Const 3)) (Cons (Return (Var "a")) Nil).
Theorem C67_several_refuted : exists b s,
  value (py a_opt b s) = Some 2%Z /\ run a_opt b s = Fault.
Proof. exists several, (given None 0). vm_compute. split; reflexivity. Qed.
Print Assumptions C67_several_refuted.

(* a = 1
   a, y = f(2, 3)
   return a
   where a was given: the result goes to the caller's variable and is not read *)
Definition hidden : block string := Cons (Set_ "a" (Const 1)) several.
Theorem C67_result_refuted : exists b s,
  s "a" = Some 0%Z /\ value (py a_opt b s) = Some 2%Z /\
  value (run a_opt b s) = Some 1%Z /\ argument (run a_opt b s) = Some 2%Z.
Proof. exists hidden, (given (Some 0%Z) 0). vm_compute. repeat split. Qed.
Print Assumptions C67_result_refuted.
