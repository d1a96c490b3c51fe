(* C91: joined and repeated tuples and lists. *)
From Coq Require Import Bool ZArith List Arith Lia.
From Verif Require Import Rep_Model Rep_Spec Rep_Proofs.
Import ListNotations.
Open Scope list_scope.
Open Scope nat_scope.

(* A program that is translated gives all variables the elements of Python, if no variable is an operand of what is assigned to it,
   lists are not added, and no number of repetitions is negative (which Fortran allows for tuples). *)
Theorem C91_elements_partial : forall l k inp p, translate k (fun _ => None) p <> None ->
  Forall (fun c => fresh_target c /\ (k = KList -> is_cat c = false) /\ (l = LC \/ k = KList -> not_negative inp c)) p ->
  exists s ps, compiled l k p inp = Some s /\ python inp (fun _ => None) p = Some ps /\ forall x, s x = option_map (map Some) (ps x).
Proof. exact same_values. Qed.
Print Assumptions C91_elements_partial.

(* a = (1, 2); b = a * n; c = a + b; d = (3,) * 12; a = b * 2; e = (4,) + (5,); d = (6,) * 12 *)
Definition ex_p : list stmt :=
  [SLit 0 [1; 2]%Z; SDup 1 (EVar 0) (LVar 0); SCat 2 (EVar 0) (EVar 1); SDup 3 (ELit [3%Z]) (LLit 12); SDup 0 (EVar 1) (LLit 2);
   SCat 4 (ELit [4%Z]) (ELit [5%Z]); SDup 3 (ELit [6%Z]) (LLit 12)].
Example elements_used : forall l (inp : nat -> Z), (0 <= inp 0%nat)%Z -> translate KTuple (fun _ => None) ex_p <> None /\
  Forall (fun c => fresh_target c /\ (KTuple = KList -> is_cat c = false) /\ (l = LC \/ KTuple = KList -> not_negative inp c)) ex_p.
Proof.
  intros l inp H. split; [vm_compute; discriminate|].
  repeat (apply Forall_cons; [split; [cbn; lia|split; [discriminate|intros _ k K; cbn in K; intuition; congruence]]|]). apply Forall_nil.
Qed.
Example elements_value : forall l, exists s, compiled l KTuple ex_p (fun _ => 2%Z) = Some s /\ s 2 = Some (map Some [1; 2; 1; 2; 1; 2]%Z) /\ s 0 = Some (map Some [1; 2; 1; 2; 1; 2; 1; 2]%Z).
Proof. intros []; eexists; (split; [vm_compute; reflexivity|]); split; vm_compute; reflexivity. Qed.

(* Programs that assign to each variable once are translated exactly if Python runs them and the operands of sums and products are not
   sums or products themselves. *)
Theorem C91_translated : forall k inp p, NoDup (map (fun c => match c with SLit x _ | SCat x _ _ | SDup x _ _ => x end) p) -> forallb all_elements p = true ->
  (translate k (fun _ => None) p <> None <-> python inp (fun _ => None) p <> None /\ forallb flat p = true).
Proof. intros k inp p N F. apply (accepted k inp p (fun _ => None) (fun _ => None)); [intros y; tauto|reflexivity|exact N|exact F]. Qed.
Print Assumptions C91_translated.
Example translated_used : NoDup (map (fun c => match c with SLit x _ | SCat x _ _ | SDup x _ _ => x end) (firstn 4 ex_p)) /\ forallb all_elements (firstn 4 ex_p) = true.
Proof. split; [|reflexivity]. repeat constructor; cbn; lia. Qed.

(* x = a + b + c, x = (a + b) * n and x = a * m * n are never translated. *)
Theorem C91_nested_refuted : forall k p, translate k (fun _ => None) p <> None -> forallb flat p = true.
Proof. exact nested. Qed.
Print Assumptions C91_nested_refuted.
Example nested_used : forall k, let p := [SLit 0 [1%Z]; SCat 1 (ECat (EVar 0) (EVar 0)) (EVar 0)] in
  translate k (fun _ => None) p = None /\ exists ps, python (fun _ => 0%Z) (fun _ => None) p = Some ps /\ ps 1 = Some [1; 1; 1]%Z.
Proof. intros []; (split; [reflexivity|]); eexists; (split; [reflexivity|]); reflexivity. Qed.

(* x = u; x = x + v: the new array is made first, x is copied to itself and v goes beyond the end. *)
Theorem C91_self_sum_refuted : forall l inp x u v q, u <> [] -> v <> [] ->
  compiled l KTuple (SLit x u :: SCat x (EVar x) (ELit v) :: q) inp = None /\
  (exists ps, python inp (fun _ => None) [SLit x u; SCat x (EVar x) (ELit v)] = Some ps /\ ps x = Some (u ++ v)).
Proof.
  intros l inp x u v q N M. split; [exact (self_cat l inp x u v q N M)|]. cbn. rewrite Nat.eqb_refl. eexists. split; [reflexivity|]. cbn. rewrite Nat.eqb_refl. reflexivity.
Qed.
Print Assumptions C91_self_sum_refuted.
Example self_sum_used : translate KTuple (fun _ => None) [SLit 0 [1%Z]; SCat 0 (EVar 0) (ELit [2%Z])] <> None.
Proof. vm_compute. discriminate. Qed.

(* x = u; x = x * n with n > 1, for tuples and lists: also beyond the end. *)
Theorem C91_self_product_refuted : forall l k inp x u n q, u <> [] -> (1 < value inp n)%Z ->
  compiled l k (SLit x u :: SDup x (EVar x) n :: q) inp = None.
Proof. intros l k inp x u n q N H. apply self_dup; [exact N|lia]. Qed.
Print Assumptions C91_self_product_refuted.
Example self_product_used : forall k, translate k (fun _ => None) [SLit 0 [1%Z]; SDup 0 (EVar 0) (LLit 2)] <> None /\ (1 < value (fun _ => 0%Z) (LLit 2))%Z.
Proof. intros []; split; vm_compute; congruence. Qed.
(* With n = 1 the elements are lost in C, unless 1 is written out. *)
Theorem C91_self_once_refuted : forall inp x u k, u <> [] -> inp k = 1%Z ->
  exists s, compiled LC KTuple [SLit x u; SDup x (EVar x) (LVar k)] inp = Some s /\ s x = Some (repeat None (length u)).
Proof. exact self_once. Qed.
Print Assumptions C91_self_once_refuted.
Example self_once_fortran : exists s, compiled LFortran KTuple [SLit 0 [1; 2]%Z; SDup 0 (EVar 0) (LVar 0)] (fun _ => 1%Z) = Some s /\ s 0 = Some [Some 1%Z; Some 2%Z].
Proof. eexists. split; vm_compute; reflexivity. Qed.

(* y = x + v for lists: the list y has no elements to which x could be copied. *)
Theorem C91_list_sum_refuted : forall l inp x y u v q, u <> [] -> v <> [] -> y <> x ->
  compiled l KList (SLit x u :: SCat y (EVar x) (ELit v) :: q) inp = None.
Proof. exact list_cat. Qed.
Print Assumptions C91_list_sum_refuted.
Example list_sum_used : translate KList (fun _ => None) [SLit 0 [1%Z]; SCat 1 (EVar 0) (ELit [2%Z])] <> None.
Proof. vm_compute. discriminate. Qed.

(* x = u * n with n < 0: C asks for memory of a negative size. *)
Theorem C91_negative_refuted : forall inp x u k q, u <> [] -> (inp k < 0)%Z ->
  compiled LC KTuple (SDup x (ELit u) (LVar k) :: q) inp = None /\
  exists ps, python inp (fun _ => None) [SDup x (ELit u) (LVar k)] = Some ps /\ ps x = Some [].
Proof.
  intros inp x u k q N H. split; [exact (negative inp x u k q N H)|]. cbn. eexists. split; [reflexivity|]. cbn. rewrite Nat.eqb_refl.
  replace (Z.to_nat (inp k)) with 0 by lia. reflexivity.
Qed.
Print Assumptions C91_negative_refuted.
Example negative_used : exists (inp : nat -> Z), [1%Z] <> [] /\ (inp 0%nat < 0)%Z.
Proof. exists (fun _ => (-1)%Z). split; [discriminate|lia]. Qed.

(* x = u + v; x = u' + v' is refused, even if the lengths are the same. *)
Theorem C91_sum_again_refuted : forall x u v u' v' q, translate KTuple (fun _ => None) (SCat x (ELit u) (ELit v) :: SCat x (ELit u') (ELit v') :: q) = None.
Proof. intros. apply stack_again. reflexivity. Qed.
Print Assumptions C91_sum_again_refuted.
Example sum_again_used : exists ps, python (fun _ => 0%Z) (fun _ => None) [SCat 0 (ELit [1%Z]) (ELit [2%Z]); SCat 0 (ELit [3%Z]) (ELit [4%Z])] = Some ps /\ ps 0 = Some [3; 4]%Z.
Proof. eexists. split; reflexivity. Qed.
(* But if the first sum had an operand that was written out and assigned before, the target is on the heap, and it is not. *)
Theorem C91_sum_heap_partial : forall x y w v a b, x <> y -> w <> [] -> v <> [] -> operand a = true -> operand b = true ->
  has_elements a = true -> has_elements b = true -> (forall z, In z (vars a ++ vars b) -> z = y) ->
  translate KTuple (fun _ => None) [SLit y w; SCat x (EVar y) (ELit v); SCat x a b] <> None /\
  translate KTuple (fun _ => None) [SLit y w; SCat x (ELit v) (EVar y); SCat x a b] <> None.
Proof. exact sum_heap. Qed.
Print Assumptions C91_sum_heap_partial.
Example sum_heap_used : operand (EVar 0) = true /\ operand (ELit [4%Z]) = true /\ forall z, In z (vars (EVar 0) ++ vars (ELit [4%Z])) -> z = 0.
Proof. repeat split. cbn. intuition. Qed.
