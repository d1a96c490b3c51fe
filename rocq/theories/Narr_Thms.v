(** C84: np.array puts the elements of its argument in the new array. *)

From Coq Require Import List Bool Arith Lia.
From Verif Require Import Narr_Model Narr_Spec Narr_Proofs.
Import ListNotations.

(** The argument of the examples: a list of two arrays, one in each order, and a
    list of lists. *)
Definition ex_a : arg nat := Arr OC [2; 2] (fun i => match i with [a; b] => 10 * a + b | _ => 0 end).
Definition ex_b : arg nat := Arr OF [2; 2] (fun i => match i with [a; b] => 50 + 10 * a + b | _ => 0 end).
Definition ex_l : arg nat := Lst [Lst [lit 90; lit 91]; Lst [lit 92; lit 93]].
Definition ex_arg : arg nat := Lst [ex_a; ex_b; ex_l].

Lemma ex_regular : regular ex_arg [3; 2; 2].
Proof.
  apply (reg_lst [ex_a; ex_b; ex_l] [2; 2]); [discriminate|]. intros x [<-|[<-|[<-|[]]]].
  - constructor. discriminate.
  - constructor. discriminate.
  - apply (reg_lst [Lst [lit 90; lit 91]; Lst [lit 92; lit 93]] [2]); [discriminate|].
    intros x [<-|[<-|[]]].
    + apply (reg_lst [lit 90; lit 91] []); [discriminate|]. intros x [<-|[<-|[]]]; constructor.
    + apply (reg_lst [lit 92; lit 93] []); [discriminate|]. intros x [<-|[<-|[]]]; constructor.
Qed.

(** C, when no element is computed from the array which is assigned, and no
    dimension is added to a list. *)
Theorem C84_c_partial : forall (A : Type) (old : content A) ndmin a sh, regular a sh -> sh <> [] ->
  independent a -> variable a \/ ndmin <= length sh ->
  exists m, in_C old ndmin a = Some m /\
    forall idx, in_bounds idx (wanted_shape ndmin sh) -> wanted old ndmin a sh idx = Some (m idx).
Proof. exact c_lemma. Qed.
Print Assumptions C84_c_partial.

Example C84_c_case : exists m, in_C (fun _ => 0) 0 ex_arg = Some m /\
  m [0; 1; 0] = 10 /\ m [1; 1; 0] = 60 /\ m [2; 1; 0] = 92.
Proof.
  destruct (C84_c_partial nat (fun _ => 0) 0 ex_arg [3; 2; 2] ex_regular) as (m & E & H).
  - discriminate.
  - cbn. repeat split.
  - right. cbn. lia.
  - exists m. split; [exact E|].
    assert (forall i v, in_bounds i [3; 2; 2] -> wanted (fun _ => 0) 0 ex_arg [3; 2; 2] i = Some v -> m i = v) as G.
    { intros i v B W. rewrite (H i B) in W. congruence. }
    repeat split; apply G; try reflexivity; repeat constructor.
Qed.

(** Nothing else is changed. *)
Theorem C84_c_rest : forall (A : Type) (old : content A) a sh m, regular a sh -> sh <> [] ->
  independent a -> in_C old 0 a = Some m ->
  forall idx, ~ in_bounds idx sh -> m idx = old idx.
Proof.
  intros A old a sh m H NE D E idx B. unfold in_C, np_shape, rank in E.
  rewrite (reg_shape _ _ _ H) in E. cbn [repeat app Nat.sub] in E.
  destruct (copy_ok A old a sh H NE D [] old) as (m' & E' & _ & U).
  rewrite E' in E. injection E as <-. apply U. intros i Bi. cbn. congruence.
Qed.
Print Assumptions C84_c_rest.

Example C84_c_rest_case : ~ in_bounds [3; 0; 0] [3; 2; 2].
Proof. intros H. inversion H. lia. Qed.

(** Fortran: except for a list which contains one list or array of two dimensions
    or more, and for the dimensions which are added to a list of lists whose order
    is F. *)
Theorem C84_fortran_partial : forall (A : Type) (old : content A) req ndmin a sh, regular a sh -> sh <> [] ->
  variable a \/
  (ndmin <= length sh /\ (length sh <= 2 \/ hd 0 sh <> 1)) \/
  (length sh < ndmin /\ (np_order req a = OC \/ length sh = 1)) ->
  exists get, in_fortran old req ndmin a = Some get /\
    forall idx, in_bounds idx (wanted_shape ndmin sh) -> get idx = wanted old ndmin a sh idx.
Proof. exact fortran_lemma. Qed.
Print Assumptions C84_fortran_partial.

Example C84_fortran_case : exists get, in_fortran (fun _ => 0) (Some OF) 0 ex_arg = Some get /\
  get [0; 1; 0] = Some 10 /\ get [1; 1; 0] = Some 60 /\ get [2; 1; 0] = Some 92.
Proof.
  destruct (C84_fortran_partial nat (fun _ => 0) (Some OF) 0 ex_arg [3; 2; 2] ex_regular) as (get & E & H).
  - discriminate.
  - right. left. cbn. split; [lia|]. right. discriminate.
  - exists get. split; [exact E|]. repeat split; rewrite H by (repeat constructor); reflexivity.
Qed.

(** A list of one element does not have the right number of dimensions: the
    Fortran program does not compile. *)
Theorem C84_single_refuted : forall (A : Type) (old : content A) req ndmin x sh, regular (Lst [x]) sh ->
  3 <= length sh -> ndmin <= length sh -> in_fortran old req ndmin (Lst [x]) = None.
Proof. exact single_lemma. Qed.
Print Assumptions C84_single_refuted.

Example C84_single_case : regular (Lst [ex_a]) [1; 2; 2].
Proof.
  apply (reg_lst [ex_a] [2; 2]); [discriminate|]. intros x [<-|[]]. constructor. discriminate.
Qed.

(** np.array([[p, q], [r, s]], order='F', ndmin=3) is transposed in Fortran. *)
Theorem C84_ndmin_fortran_refuted : forall (A : Type) (old : content A) p q r s,
  exists get, in_fortran old (Some OF) 3 (Lst [Lst [lit p; lit q]; Lst [lit r; lit s]]) = Some get /\
    get [0; 0; 1] = Some r /\
    wanted old 3 (Lst [Lst [lit p; lit q]; Lst [lit r; lit s]]) [2; 2] [0; 0; 1] = Some q.
Proof. exact ndmin_fortran_lemma. Qed.
Print Assumptions C84_ndmin_fortran_refuted.

Example C84_ndmin_fortran_case : in_bounds [0; 0; 1] (wanted_shape 3 [2; 2]).
Proof. repeat constructor. Qed.

(** A list of scalars with more dimensions is never translated to a C program
    which works, *)
Theorem C84_ndmin_c_refuted : forall (A : Type) (old : content A) ndmin l, has_array (Lst l) = false ->
  rank (Lst l) < ndmin -> in_C old ndmin (Lst l) = None.
Proof. exact c_ndmin_lemma. Qed.
Print Assumptions C84_ndmin_c_refuted.

Example C84_ndmin_c_case : has_array ex_l = false /\ rank ex_l < 3.
Proof. split; [reflexivity|]. cbn. lia. Qed.

(** and the second of two arrays is not copied. *)
Theorem C84_ndmin_row_refuted : forall (A : Type) (old : content A) p q r s,
  in_bounds [0; 1; 0] (wanted_shape 3 [2; 2]) /\
  wanted old 3 (Lst [Arr OC [2] (fun i => match i with [0] => p | _ => q end);
                     Arr OC [2] (fun i => match i with [0] => r | _ => s end)]) [2; 2] [0; 1; 0] = Some r /\
  exists m, in_C old 3 (Lst [Arr OC [2] (fun i => match i with [0] => p | _ => q end);
                     Arr OC [2] (fun i => match i with [0] => r | _ => s end)]) = Some m /\
    m [0; 1; 0] = old [0; 1; 0].
Proof. exact c_row_lemma. Qed.
Print Assumptions C84_ndmin_row_refuted.

(** x = np.array([x[1], x[0]]) puts x[1] twice in x. *)
Theorem C84_swap_refuted : forall (A : Type) (old : content A),
  exists m, in_C old 0 (Lst [Scal true (fun x => x [1]); Scal true (fun x => x [0])]) = Some m /\
    m [0] = old [1] /\ m [1] = old [1] /\
    wanted old 0 (Lst [Scal true (fun x => x [1]); Scal true (fun x => x [0])]) [2] [1] = Some (old [0]).
Proof. exact swap_lemma. Qed.
Print Assumptions C84_swap_refuted.
