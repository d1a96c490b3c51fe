From Coq Require Import List Bool Arith ZArith Lia.
From Verif Require Import Cnz_Model Cnz_Spec Cnz_Proofs.
Import ListNotations.

(* 2 x 3 x 2, zero where the sum of the indices is even *)
Definition sh0 : list nat := [2; 3; 2].
Definition a0 (i : list nat) : Z := Z.of_nat (fold_right plus 0 i mod 2).

(* C108: np.count_nonzero(a, axis = k) in Fortran has the shape and the elements of NumPy, for
   arrays of any rank and both orders. *)
Theorem C108_axis : forall o sh a k, k < length sh ->
  let r := run (print_count o sh (Some k) false) (stored o sh a) in
  ext r = swap o (remove_at k sh) /\
  (forall i, length i = length sh - 1 -> el r (swap o i) = np_axis sh a k i).
Proof. intros o sh a k Hk. split; [exact (axis_ext o sh a k Hk)|intros i Hi; exact (axis_main o sh a k i Hk Hi)]. Qed.
Print Assumptions C108_axis.
Example C108_axis_ex :
  let r := run (print_count OC sh0 (Some 1) false) (stored OC sh0 a0) in
  1 < length sh0 /\ ext r = [2; 2] /\ el r (swap OC [0; 0]) = 1 /\ el r (swap OC [0; 1]) = 2 /\
  np_axis sh0 a0 1 [0; 1] = 2.
Proof. cbn. repeat split; lia. Qed.

(* C108: with keepdims the counted dimension has extent 1, and the elements stay. *)
Theorem C108_keepdims : forall o sh a k, k < length sh ->
  let r := run (print_count o sh (Some k) true) (stored o sh a) in
  ext r = swap o (insert_at k 1 (remove_at k sh)) /\
  (forall i, valid (insert_at k 1 (remove_at k sh)) i ->
     el r (swap o i) = np_axis sh a k (remove_at k i)).
Proof. exact keep_spec. Qed.
Print Assumptions C108_keepdims.
Example C108_keepdims_ex :
  let r := run (print_count OC sh0 (Some 1) true) (stored OC sh0 a0) in
  valid (insert_at 1 1 (remove_at 1 sh0)) [0; 0; 1] /\ ext r = [2; 1; 2] /\ el r (swap OC [0; 0; 1]) = 2 /\
  el r (swap OC [0; 0; 0]) = 1.
Proof. cbn. repeat split; try reflexivity. repeat (apply Forall2_cons; [lia|]). constructor. Qed.

(* C108: without axis the number of all elements that are not zero; with keepdims in an array
   of the same rank. *)
Theorem C108_total : forall o sh a,
  (let r := run (print_count o sh None false) (stored o sh a) in
   ext r = [] /\ el r [] = np_total sh a) /\
  (let r := run (print_count o sh None true) (stored o sh a) in
   ext r = repeat 1 (length sh) /\ forall i, el r i = np_total sh a).
Proof.
  intros o sh a. split; split.
  - reflexivity.
  - exact (total_main o sh a []).
  - exact (keep_ones o sh).
  - intros i. exact (total_keep o sh a i).
Qed.
Print Assumptions C108_total.
Example C108_total_ex : el (run (print_count OC sh0 None false) (stored OC sh0 a0)) [] = 6.
Proof. reflexivity. Qed.

(* C108: np.nonzero of an array of rank 1 is the indices of the elements that are not zero, in
   order. *)
Theorem C108_nonzero : forall n a,
  pack (pack_bounds n) (map (fun i => mask (a i)) (seq 0 n)) = Some (map Z.of_nat (np_nonzero n a)).
Proof. exact pack_main. Qed.
Print Assumptions C108_nonzero.
Example C108_nonzero_ex : pack (pack_bounds 4) (map (fun i => mask (a0 [i])) (seq 0 4)) = Some [1; 3]%Z.
Proof. reflexivity. Qed.
