(* Property C45: tuple bookkeeping. *)
From Coq Require Import List Bool Arith String.
From Verif Require Import Common Tuple_Model Tuple_Spec Tuple_Proofs.
Import ListNotations.
Open Scope list_scope.
Open Scope nat_scope.

(* Unpacking a tuple variable gives its leaves in order, for every nesting. *)
Theorem C45_all_elements : forall s v t ty, stands_for s v t -> type_of s v = Some ty ->
  collect_all (depth ty) s v = POk (leaves t).
Proof. exact collect_all_leaves. Qed.
Print Assumptions C45_all_elements.

(* Indexing along any path inside the tuple gives the variable that stands for
   the element at that path. *)
Theorem C45_element : forall s path v t t', stands_for s v t -> subtree t path = Some t' ->
  exists w, follow s v path = POk w /\ stands_for s w t'.
Proof. exact follow_ok. Qed.
Print Assumptions C45_element.

(* A temporary made from a tuple variable is a tuple of the same type made of
   new, pairwise different variables; no existing tuple changes. *)
Theorem C45_temporary : forall s v t ty, stands_for s v t -> clean s -> type_of s v = Some ty ->
  exists s' n t', clone (depth ty) s v = POk (s', n)
    /\ type_of s' n = Some ty /\ stands_for s' n t' /\ same_type s s' t t'
    /\ NoDup (leaves t') /\ (forall x, In x (n :: leaves t') -> type_of s x = None)
    /\ (forall w u, stands_for s w u -> stands_for s' w u) /\ clean s'.
Proof. exact clone_ok. Qed.
Print Assumptions C45_temporary.

(* ((a, b), c) *)
Definition ex_state : st :=
  mkSt [TTup [TTup [TBase 1; TBase 2]; TBase 3]; TTup [TBase 1; TBase 2]; TBase 3; TBase 1; TBase 2]
       [(0, 0, 1); (0, 1, 2); (1, 0, 3); (1, 1, 4)].
Definition ex_tree : tree := Node [Node [Leaf 3; Leaf 4]; Leaf 2].
Example C45_ex : stands_for ex_state 0 ex_tree /\ clean ex_state
  /\ collect_all 3 ex_state 0 = POk [3; 4; 2] /\ follow ex_state 0 [0; 1] = POk 4
  /\ exists s', clone 3 ex_state 0 = POk (s', 5) /\ collect_all 3 s' 5 = POk [7; 8; 9].
Proof.
  split; [repeat (econstructor; try reflexivity)|]. split.
  - intros v i H. simpl in H. do 5 (destruct v; [exfalso; revert H; apply Nat.lt_nge; repeat constructor|]). reflexivity.
  - split; [reflexivity|]. split; [reflexivity|]. eexists. split; reflexivity.
Qed.
