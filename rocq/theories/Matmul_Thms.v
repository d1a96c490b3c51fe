(** C71: np.matmul is the product of (stacks of) matrices. *)
From Coq Require Import List ZArith Bool Lia.
From Verif Require Import Matmul_Model Matmul_Spec Matmul_Proofs.
Import ListNotations.

(** Missing: vectors with stacks of matrices and dimensions of size 1 which are
    broadcast (refuted below), and an array which is both argument and result. *)
Theorem C71_product_partial : forall l Sa Sb oa ob oc m0,
  stacks (map fst Sa) (map fst Sb) ->
  has_order (map fst Sa) oa -> has_order (map fst Sb) ob ->
  orders l (map fst Sa) (map fst Sb) oa ob oc ->
  exists m' B,
    statement l Sa Sb oa ob oc Out m0 = Some m' /\
    np_batch (batch (map fst Sa)) (batch (map fst Sb)) = Some B /\
    (forall i, m' (In1 i) = m0 (In1 i)) /\ (forall i, m' (In2 i) = m0 (In2 i)) /\
    forall i r c, in_shape B i -> r < rows (map fst Sa) -> c < cols (map fst Sb) ->
      m' (Out (out_index (map fst Sa) (map fst Sb) i r c)) =
      np_element m0 (map fst Sa) (map fst Sb) i r c.
Proof.
  intros l Sa Sb oa ob oc m0 H Ha Hb Ho.
  destruct (statement_ok l Sa Sb oa ob oc m0 H Ha Hb Ho) as [m' [E [H1 [H2 [B [EB H3]]]]]].
  exists m', B. auto.
Qed.
Print Assumptions C71_product_partial.

Definition dims (S : list nat) : list dim := map (fun n => (n, Nat.eqb n 1)) S.

(** a (4, 1, 2, 3), b (1, 3, 2): the size 1 is known. *)
Example C71_product_example :
  stacks (map fst (dims [4; 1; 2; 3])) (map fst (dims [1; 3; 2])) /\
  orders F (map fst (dims [4; 1; 2; 3])) (map fst (dims [1; 3; 2])) OC OC OC /\
  np_batch (batch [4; 1; 2; 3]) (batch [1; 3; 2]) = Some [4; 1] /\
  (let m0 l := match l with
               | In1 [x; _; i; j] => Z.of_nat (x + 2 * i + j)
               | In2 [_; j; k] => Z.of_nat (j + 5 * k)
               | _ => 7%Z end in
   match statement F (dims [4; 1; 2; 3]) (dims [1; 3; 2]) OC OC OC Out m0 with
   | Some m' => m' (Out [3; 0; 1; 1]) = (5 * 5 + 6 * 6 + 7 * 7)%Z
   | None => False
   end).
Proof.
  split; [|split; [|split; reflexivity]].
  - split; [cbn; lia|]. split; [cbn; lia|]. split; [reflexivity|].
    split; [cbn; lia|]. split; [cbn; lia|]. left. exists [4]. reflexivity.
  - intros _. split; [cbn; lia|]. intros _ _. auto.
Qed.

(** The shape of the result. *)
Theorem C71_shape_partial : forall Sa Sb,
  stacks (map fst Sa) (map fst Sb) ->
  np_shape (map fst Sa) (map fst Sb) = Some (map fst (mm_shape Sa Sb)).
Proof. exact shape_ok. Qed.
Print Assumptions C71_shape_partial.

Example C71_shape_example :
  stacks [2; 3] [5; 3; 4] /\ np_shape [2; 3] [5; 3; 4] = Some [5; 2; 4] /\
  np_shape [3] [3; 4] = Some [4] /\ np_shape [2; 3] [3] = Some [2] /\ np_shape [3] [3] = Some [].
Proof.
  split; [|repeat split].
  split; [cbn; lia|]. split; [cbn; lia|]. split; [reflexivity|].
  split; [cbn; lia|]. split; [cbn; lia|]. right. exists [5]. reflexivity.
Qed.

(** The shape for a vector and a stack: Pyccel takes b.shape[1], or
    a.shape[0]. *)
Theorem C71_vector_stack_refuted : exists Sa Sb,
  inner (map fst Sa) = inner' (map fst Sb) /\
  (np_shape (map fst Sa) (map fst Sb) = Some [3; 4] /\ map fst (mm_shape Sa Sb) = [2]) /\
  (np_shape [3; 4; 2] [2] = Some [3; 4] /\ map fst (mm_shape (dims [3; 4; 2]) (dims [2])) = [3]).
Proof. exists (dims [2]), (dims [3; 2; 4]). repeat split. Qed.
Print Assumptions C71_vector_stack_refuted.

(** A dimension of size 1 in the second of two stacks with as many dimensions:
    the result has one matrix instead of three. *)
Theorem C71_broadcast_shape_refuted : exists Sa Sb,
  np_shape (map fst Sa) (map fst Sb) = Some [3; 2; 2] /\
  map fst (mm_shape Sa Sb) = [1; 2; 2].
Proof. exists (dims [3; 2; 2]), (dims [1; 2; 2]). split; reflexivity. Qed.
Print Assumptions C71_broadcast_shape_refuted.

(** A dimension of size 1 in the first: the code reads matrices which do not
    exist. *)
Theorem C71_broadcast_refuted : exists Sa Sb m0 i,
  np_batch (batch (map fst Sa)) (batch (map fst Sb)) = Some [3] /\ in_shape [3] i /\
  forall l, exists m', statement l Sa Sb OC OC OC Out m0 = Some m' /\
  np_element m0 (map fst Sa) (map fst Sb) i 0 0 = 2%Z /\
  m' (Out (out_index (map fst Sa) (map fst Sb) i 0 0)) = 18%Z.
Proof.
  exists [(1, true); (2, true); (2, true)], (dims [3; 2; 2]),
    (fun l => match l with In1 (0%nat :: _) => 1 | In1 _ => 9 | _ => 1 end)%Z, [2].
  split; [reflexivity|]. split; [cbn; lia|].
  intros [|]; eexists; (split; [reflexivity|]); split; reflexivity.
Qed.
Print Assumptions C71_broadcast_refuted.

(** In Fortran a vector times a matrix in Fortran order is the matrix times the
    vector. *)
Theorem C71_vector_order_refuted : exists m0 m',
  statement F (dims [2]) (dims [2; 2]) ON OF ON Out m0 = Some m' /\
  np_element m0 [2] [2; 2] [] 0 1 = 1%Z /\ m' (Out [1]) = 0%Z /\
  exists m'', statement C (dims [2]) (dims [2; 2]) ON OF ON Out m0 = Some m'' /\
              m'' (Out [1]) = 1%Z.
Proof.
  exists (fun l => match l with In1 [0] => 1%Z | In2 [0; 1] => 1%Z | _ => 0%Z end).
  eexists. split; [reflexivity|]. split; [reflexivity|]. split; [reflexivity|].
  eexists. split; reflexivity.
Qed.
Print Assumptions C71_vector_order_refuted.

(** In Fortran [c[:,:] = a @ b], with [c] in Fortran order and [a] and [b] in C
    order, stores the transpose. *)
Theorem C71_result_order_refuted : exists m0 m',
  statement F (dims [2; 2]) (dims [2; 2]) OC OC OF Out m0 = Some m' /\
  np_element m0 [2; 2] [2; 2] [] 0 1 = 1%Z /\
  m' (Out [0; 1]) = 0%Z /\ m' (Out [1; 0]) = 1%Z.
Proof.
  exists (fun l => match l with In1 [0; 0] => 1%Z | In2 [0; 1] => 1%Z | _ => 0%Z end).
  eexists. split; [reflexivity|]. repeat split.
Qed.
Print Assumptions C71_result_order_refuted.

(** In C [a[:,:] = a @ b] overwrites [a] while it is read; in Fortran it does
    not. *)
Theorem C71_in_place_refuted : exists m0,
  np_element m0 [2; 2] [2; 2] [] 0 0 = 0%Z /\
  np_element m0 [2; 2] [2; 2] [] 0 1 = 1%Z /\
  (exists m', statement C (dims [2; 2]) (dims [2; 2]) OC OC OC In1 m0 = Some m' /\
              m' (In1 [0; 1]) = 0%Z) /\
  (exists m', statement F (dims [2; 2]) (dims [2; 2]) OC OC OC In1 m0 = Some m' /\
              m' (In1 [0; 1]) = 1%Z).
Proof.
  exists (fun l => match l with In1 [0; 0] => 1%Z | In2 [0; 1] => 1%Z | _ => 0%Z end).
  split; [reflexivity|]. split; [reflexivity|]. split; eexists; split; reflexivity.
Qed.
Print Assumptions C71_in_place_refuted.
