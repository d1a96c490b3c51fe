(* C06, C07, C08: an expression and the text printed for it. *)
From Coq Require Import List Bool Arith String.
From Verif Require Import Expr_Model Expr_Spec Expr_Proofs.
Import ListNotations.
Open Scope list_scope.
Open Scope string_scope.
Open Scope nat_scope.

Definition i (a : string) : se := SAt a TInt.
Definition b (a : string) : se := SAt a TBool.
Definition x (a : string) : se := SAt a TFloat.

(* ---- C06: Python ---- *)
(* Python's reading of the printed text is the expression, for every expression in
   which no comparison is the left operand of a comparison and no conditional
   expression the condition of one. *)
Theorem C06_python_text_partial : forall e, chains_ok e -> py_safe (canon e) ->
  exists t, read py_lang (words (py_print (build e))) = Some t /\ py_strip t = py_tree (canon e).
Proof. exact py_roundtrip. Qed.
Print Assumptions C06_python_text_partial.
(* -a ** -b - (c - (d or e < f < g)) and not h *)
Definition sample : se :=
  SBin And (SBin Sub (SUn Minus (SBin Pow (i "a") (SUn Minus (i "b"))))
                     (SBin Sub (i "c") (SBin Or (b "d") (SMore (SBin Lt (i "e") (i "f")) Lt (i "g")))))
           (SUn Not (b "h")).
Example C06_ex : chains_ok sample /\ py_safe (canon sample) /\
  words (py_print (build sample)) =
    [KFun "bool"; KL; KL; KOp "-"; KAt "a"; KOp "**"; KL; KOp "-"; KAt "b"; KR; KR; KOp "-"; KL; KAt "c"; KOp "-"; KL; KAt "d";
     KOp "or"; KL; KAt "e"; KOp "<"; KAt "f"; KOp "and"; KAt "f"; KOp "<"; KAt "g"; KR; KR; KR; KR; KOp "and";
     KOp "not"; KAt "h"].
Proof. split; [simpl; tauto|]. split; [simpl; intuition discriminate|]. vm_compute. reflexivity. Qed.

Theorem C06_comparison_of_comparison_refuted : exists e t, chains_ok e /\
  read py_lang (words (py_print (build e))) = Some t /\ py_strip t <> py_tree (canon e).
Proof.
  exists (SBin Lt (SBin Lt (i "a") (i "b")) (i "c")). eexists.
  split; [simpl; auto|]. split; [vm_compute; reflexivity|]. vm_compute. discriminate.
Qed.
Print Assumptions C06_comparison_of_comparison_refuted.

Theorem C06_conditional_condition_refuted : exists e, chains_ok e /\
  read py_lang (words (py_print (build e))) = None.
Proof.
  exists (STern (STern (b "a") (b "c") (b "d")) (i "e") (i "f")).
  split; [simpl; auto 10|]. vm_compute. reflexivity.
Qed.
Print Assumptions C06_conditional_condition_refuted.

(* ---- C07: C ---- *)
(* C's reading of the printed text is the translation of the expression, for every
   expression without: a bitwise operator as operand of a comparison or of bool();
   an equality on the left of < <= > >=; & on the side of ^ between booleans; and, or
   inside bool(). *)
Theorem C07_c_text_partial : forall e, chains_ok e -> c_safe (canon e) ->
  exists t, read c_lang (words (c_print (build e))) = Some t /\ strip t = c_tree (canon e).
Proof. exact c_roundtrip. Qed.
Print Assumptions C07_c_text_partial.
Example C07_ex : chains_ok sample /\ c_safe (canon sample) /\
  exists t, c_tree (canon sample) = In "&&" t (Pre "!" (At "h")).
Proof.
  split; [simpl; tauto|]. split; [simpl; intuition discriminate|]. eexists. vm_compute. reflexivity.
Qed.

(* (x & y) == z *)
Theorem C07_bitwise_compared_refuted : exists e t, chains_ok e /\
  read c_lang (words (c_print (build e))) = Some t /\ strip t <> c_tree (canon e).
Proof.
  exists (SBin Eq (SBin BAnd (i "x") (i "y")) (i "z")). eexists.
  split; [simpl; auto|]. split; [vm_compute; reflexivity|]. vm_compute. discriminate.
Qed.
Print Assumptions C07_bitwise_compared_refuted.
(* (x == y) < z *)
Theorem C07_equality_compared_refuted : exists e t, chains_ok e /\
  read c_lang (words (c_print (build e))) = Some t /\ strip t <> c_tree (canon e).
Proof.
  exists (SBin Lt (SBin Eq (i "x") (i "y")) (i "z")). eexists.
  split; [simpl; auto|]. split; [vm_compute; reflexivity|]. vm_compute. discriminate.
Qed.
Print Assumptions C07_equality_compared_refuted.
(* bool(x & y) *)
Theorem C07_bool_of_bitwise_refuted : exists e t, chains_ok e /\
  read c_lang (words (c_print (build e))) = Some t /\ strip t <> c_tree (canon e).
Proof.
  exists (SBool (SBin BAnd (i "x") (i "y"))). eexists.
  split; [simpl; auto|]. split; [vm_compute; reflexivity|]. vm_compute. discriminate.
Qed.
Print Assumptions C07_bool_of_bitwise_refuted.
(* (x & y) and z: the text is (x & y != 0) && z *)
Theorem C07_bitwise_operand_refuted : exists e t, chains_ok e /\
  read c_lang (words (c_print (build e))) = Some t /\ strip t <> c_tree (canon e).
Proof.
  exists (SBin And (SBin BAnd (i "x") (i "y")) (b "z")). eexists.
  split; [simpl; auto|]. split; [vm_compute; reflexivity|]. vm_compute. discriminate.
Qed.
Print Assumptions C07_bitwise_operand_refuted.
(* x ^ (y & z) between booleans *)
Theorem C07_boolean_xor_refuted : exists e t, chains_ok e /\
  read c_lang (words (c_print (build e))) = Some t /\ strip t <> c_tree (canon e).
Proof.
  exists (SBin BXor (b "x") (SBin BAnd (b "y") (b "z"))). eexists.
  split; [simpl; auto|]. split; [vm_compute; reflexivity|]. vm_compute. discriminate.
Qed.
Print Assumptions C07_boolean_xor_refuted.

(* ---- C08: Fortran ---- *)
(* Fortran's reading of the printed text is the translation of the expression, under
   f_safe: among booleans ==, !=, is, ^ and | do not stand directly under an operator
   that binds tighter in Fortran, not is not doubled, and the operands are ones
   Fortran's operators accept. *)
Theorem C08_fortran_text_partial : forall e, chains_ok e -> f_safe (canon e) ->
  exists t, read f_lang (words (f_print (build e))) = Some t /\ strip t = f_tree (canon e).
Proof. exact f_roundtrip. Qed.
Print Assumptions C08_fortran_text_partial.
Example C08_ex : chains_ok sample /\ f_safe (canon sample) /\
  exists t, f_tree (canon sample) = In ".and." (In "/=" t (At "0")) (Pre ".not." (At "h")).
Proof.
  split; [simpl; tauto|]. split; [simpl; intuition discriminate|]. eexists. vm_compute. reflexivity.
Qed.

(* x == y and z, between booleans *)
Theorem C08_equality_under_and_refuted : exists e t, chains_ok e /\
  read f_lang (words (f_print (build e))) = Some t /\ strip t <> f_tree (canon e).
Proof.
  exists (SBin And (SBin Eq (b "x") (b "y")) (b "z")). eexists.
  split; [simpl; auto|]. split; [vm_compute; reflexivity|]. vm_compute. discriminate.
Qed.
Print Assumptions C08_equality_under_and_refuted.
(* (x | y) and z, between booleans *)
Theorem C08_or_under_and_refuted : exists e t, chains_ok e /\
  read f_lang (words (f_print (build e))) = Some t /\ strip t <> f_tree (canon e).
Proof.
  exists (SBin And (SBin BOr (b "x") (b "y")) (b "z")). eexists.
  split; [simpl; auto|]. split; [vm_compute; reflexivity|]. vm_compute. discriminate.
Qed.
Print Assumptions C08_or_under_and_refuted.
(* not (x == y), between booleans *)
Theorem C08_not_equality_refuted : exists e t, chains_ok e /\
  read f_lang (words (f_print (build e))) = Some t /\ strip t <> f_tree (canon e).
Proof.
  exists (SUn Not (SBin Eq (b "x") (b "y"))). eexists.
  split; [simpl; auto|]. split; [vm_compute; reflexivity|]. vm_compute. discriminate.
Qed.
Print Assumptions C08_not_equality_refuted.
(* not not x *)
Theorem C08_not_not_refuted : exists e, chains_ok e /\
  read f_lang (words (f_print (build e))) = None.
Proof.
  exists (SUn Not (SUn Not (b "x"))). split; [simpl; auto|]. vm_compute. reflexivity.
Qed.
Print Assumptions C08_not_not_refuted.
