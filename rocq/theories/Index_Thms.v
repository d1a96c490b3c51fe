(* Properties C27 to C29: addressing, negative indices and slices, range loops. *)
From Coq Require Import ZArith List Bool Arith Lia.
From Verif Require Import Common Index_Model Index_Spec Index_Proofs.
Import ListNotations.
Open Scope list_scope.
Open Scope Z_scope.

Ltac sl := unfold slice_in_range, usable, bound_in, written, start_below, misses_minus_one;
  cbv zeta; cbn [s_start s_stop s_step];
  repeat match goal with
         | |- _ /\ _ => split
         | H : Some _ = Some _ |- _ => injection H as <-
         | |- _ => intro
         end; simpl in *; try discriminate; try lia; try reflexivity; try congruence.

(* ---- C27 ---- *)
(* The C code and the Fortran code address the element NumPy addresses, for both
   orders, every rank, shape and index. *)
Theorem C27_address : forall o shape idx, List.length shape = List.length idx ->
  c_offset o shape idx = numpy_offset o shape idx /\
  f_array_offset o shape idx = numpy_offset o shape idx.
Proof. exact offsets_agree. Qed.
Print Assumptions C27_address.
(* Different elements have different addresses, all within the array. *)
Theorem C27_distinct : forall o shape a b, in_shape shape a -> in_shape shape b ->
  0 <= numpy_offset o shape a < prod shape /\
  (numpy_offset o shape a = numpy_offset o shape b -> a = b).
Proof. intros o shape a b Ha Hb. exact (conj (offset_bounds o shape a Ha) (offset_inj o shape a b Ha Hb)). Qed.
Print Assumptions C27_distinct.
(* size(a, dim), printed for Python's a.shape[k], is the k-th element of the shape. *)
Theorem C27_shape : forall o shape k, (k < List.length shape)%nat ->
  f_shape_element o shape k = nth_error shape k.
Proof. exact f_shape_element_ok. Qed.
Print Assumptions C27_shape.
(* The size used to make the i-th printed index positive is that of its own dimension. *)
Theorem C27_index_dimension : forall o (idx : list Z) i, (i < List.length idx)%nat ->
  nth_error (match o with OrdC => rev idx | OrdF => idx end) i = nth_error idx (f_index_dim o (List.length idx) i).
Proof. exact f_index_dim_ok. Qed.
Print Assumptions C27_index_dimension.
Example C27_ex : in_shape [2; 3; 4] [1; 0; 3] /\ numpy_offset OrdC [2; 3; 4] [1; 0; 3] = 15
  /\ numpy_offset OrdF [2; 3; 4] [1; 0; 3] = 19 /\ f_array_offset OrdC [2; 3; 4] [1; 0; 3] = 15.
Proof. repeat split; repeat constructor; lia. Qed.

(* ---- C28 ---- *)
(* Single indices in C: literals, and other expressions when they are not negative
   or the decorator allow_negative_index is there. *)
Theorem C28_c_index : forall allow n b, written b -> valid_index n (ix_val b) ->
  (allow = false -> forall v, b = Ex v -> 0 <= v) ->
  c_index allow n b = py_index n (ix_val b).
Proof. exact c_index_ok. Qed.
Print Assumptions C28_c_index.
(* In Fortran the same, except for -0. *)
Theorem C28_f_index_partial : forall allow n b, usable allow b -> valid_index n (ix_val b) ->
  f_index allow n b = py_index n (ix_val b).
Proof. exact f_index_ok. Qed.
Print Assumptions C28_f_index_partial.
Example C28_index_ex : usable true (Ex (-2)) /\ valid_index 5 (-2) /\ f_index true 5 (Ex (-2)) = 3
  /\ usable false (Neg 1) /\ f_index false 5 (Neg 1) = 4 /\ c_index false 5 (Neg 1) = 4.
Proof. unfold valid_index. sl. Qed.
(* a[-0] is one past the end in Fortran. *)
Theorem C28_f_index_minus_zero_refuted : exists n, 0 < n /\
  valid_index n (ix_val (Neg 0)) /\ f_index false n (Neg 0) = n /\ py_index n (ix_val (Neg 0)) = 0.
Proof. exists 5. unfold valid_index. simpl. repeat split; lia. Qed.
Print Assumptions C28_f_index_minus_zero_refuted.
(* An index beside a slice in C: right unless it is a negative computed value... *)
Theorem C28_c_index_beside_slice_partial : forall allow n b, written b -> valid_index n (ix_val b) ->
  (forall v, b = Ex v -> 0 <= v) -> c_index_in_slice allow n b = py_index n (ix_val b).
Proof. exact c_index_in_slice_ok. Qed.
Print Assumptions C28_c_index_beside_slice_partial.
(* ... which goes wrong even with the decorator: a[i, :] with i = -1. *)
Theorem C28_c_index_beside_slice_refuted : exists n b, written b /\ valid_index n (ix_val b) /\
  c_index_in_slice true n b < 0.
Proof. exists 4, (Ex (-1)). unfold valid_index. simpl. repeat split; lia. Qed.
Print Assumptions C28_c_index_beside_slice_refuted.

(* Fortran sections select the elements of Python's slices, in the same order. *)
Theorem C28_f_slice_partial : forall allow n s, 0 <= n -> slice_in_range allow n s ->
  (step_of s < 0 -> start_below n s) ->
  (allow = false -> forall st, s_step s = Some (Ex st) -> 0 < st) ->
  ~ misses_minus_one allow s ->
  f_section n (f_slice allow n s) = py_slice_of n s.
Proof. exact f_slice_ok. Qed.
Print Assumptions C28_f_slice_partial.
Example C28_f_slice_ex :
  let s := mkSlice (Some (Neg 2)) (Some (Lit 0)) (Some (Neg 2)) in
  slice_in_range false 7 s /\ start_below 7 s /\ ~ misses_minus_one false s /\ py_slice_of 7 s = [5; 3; 1].
Proof. sl. Qed.
(* a[:v:s] with s = 1 in a variable, under allow_negative_index: one element too many. *)
Theorem C28_f_slice_variable_step_refuted : exists n s, slice_in_range true n s /\ step_of s = 1 /\
  f_section n (f_slice true n s) = [0; 1; 2] /\ py_slice_of n s = [0; 1].
Proof.
  exists 5, (mkSlice None (Some (Lit 2)) (Some (Ex 1))).
  sl.
Qed.
Print Assumptions C28_f_slice_variable_step_refuted.
(* a[-0:]: empty in Fortran, everything in Python. *)
Theorem C28_f_slice_minus_zero_refuted : exists n s,
  f_section n (f_slice false n s) = [] /\ py_slice_of n s = [0; 1; 2] /\ s_start s = Some (Neg 0).
Proof. exists 3, (mkSlice (Some (Neg 0)) None None). repeat split. Qed.
Print Assumptions C28_f_slice_minus_zero_refuted.

(* C slices, whenever they are printed at all ... *)
Theorem C28_c_slice : forall allow n s t, 0 <= n -> slice_in_range allow n s ->
  (allow = false -> forall st, s_step s = Some (Ex st) -> 0 < st) ->
  c_slice allow n s = Some t -> c_section n t = py_slice_of n s.
Proof. exact c_slice_ok. Qed.
Print Assumptions C28_c_slice.
(* ... which is the case unless the step is negative, or is no literal under the decorator. *)
Theorem C28_c_slice_refused : forall allow n s, c_slice allow n s = None <->
  (exists k, s_step s = Some (Neg k)) \/ (allow = true /\ exists st, s_step s = Some (Ex st)).
Proof. exact c_slice_none. Qed.
Print Assumptions C28_c_slice_refused.
Example C28_c_slice_ex : let s := mkSlice (Some (Lit 1)) (Some (Neg 1)) (Some (Lit 2)) in
  c_slice false 7 s = Some (1, Some 6, 2) /\ py_slice_of 7 s = [1; 3; 5].
Proof. split; reflexivity. Qed.

(* The length recorded for a slice, which becomes the shape of the result. *)
Theorem C28_slice_length_partial : forall allow n s, 0 <= n -> slice_in_range allow n s ->
  (step_of s < 0 -> start_below n s) ->
  (forall st, s_step s = Some (Ex st) -> 0 < st) ->
  forwards n s ->
  slice_len allow n s = Z.of_nat (List.length (py_slice_of n s)).
Proof. exact slice_len_ok. Qed.
Print Assumptions C28_slice_length_partial.
Example C28_slice_length_ex : let s := mkSlice (Some (Neg 2)) (Some (Lit 0)) (Some (Neg 2)) in
  forwards 7 s /\ slice_len false 7 s = 3.
Proof. split; [unfold forwards; simpl; unfold py_index; simpl; lia|reflexivity]. Qed.
(* a[3:1] is empty in Python; the recorded length is -2. *)
Theorem C28_slice_length_refuted : exists n s, slice_in_range false n s /\ py_slice_of n s = [] /\
  slice_len false n s = -2.
Proof.
  exists 5, (mkSlice (Some (Lit 3)) (Some (Lit 1)) None).
  sl.
Qed.
Print Assumptions C28_slice_length_refuted.

(* Element k of a slice is the element of the base Python finds there. *)
Theorem C28_slice_element_partial : forall allow n s k i, 0 <= n -> slice_in_range allow n s ->
  (step_of s < 0 -> start_below n s) -> item_ok s ->
  ix_val i = Z.of_nat k -> (k < List.length (py_slice_of n s))%nat ->
  nth_error (py_slice_of n s) k = Some (py_index n (ix_val (slice_item n s i))).
Proof. exact slice_item_ok. Qed.
Print Assumptions C28_slice_element_partial.
Example C28_slice_element_ex : let s := mkSlice None None (Some (Neg 2)) in
  item_ok s /\ py_slice_of 7 s = [6; 4; 2; 0] /\ slice_item 7 s (Lit 1) = Ex 4.
Proof. split; [|split; reflexivity]. intros _. right. split; [reflexivity|discriminate]. Qed.
(* a[1:4][-1] reads a[0]; a[:0:-1][0] reads a[0], not the last element. *)
Theorem C28_slice_element_refuted :
  (exists n s, py_slice_of n s = [1; 2; 3] /\ py_index n (ix_val (slice_item n s (Neg 1))) = 0) /\
  (exists n s, py_slice_of n s = [4; 3; 2; 1] /\ py_index n (ix_val (slice_item n s (Lit 0))) = 0).
Proof.
  split.
  - exists 5, (mkSlice (Some (Lit 1)) (Some (Lit 4)) None). split; reflexivity.
  - exists 5, (mkSlice None (Some (Lit 0)) (Some (Neg 1))). split; reflexivity.
Qed.
Print Assumptions C28_slice_element_refuted.

(* ---- C29 ---- *)
(* The values of a range: what the loops below go through. *)
Theorem C29_range_values : forall a b c x, c <> 0 -> (In x (py_range a b c) <->
  exists j, 0 <= j /\ x = a + j * c /\ (if c >? 0 then x < b else b < x)).
Proof. exact range_values. Qed.
Print Assumptions C29_range_values.
(* Fortran: for every body that leaves the loop variable alone, whatever it does to
   the variables in the bounds. *)
Theorem C29_fortran_loop_partial : forall St (r : range St) body i0 s0,
  keeps_variable body -> lit_ok r -> r_step r i0 s0 <> 0 ->
  exists i, f_for r body i0 s0 = Ret (i, snd (py_for r body i0 s0)).
Proof. intros St r body i0 s0 H1 H2 H3. eexists. exact (f_for_ok r body i0 s0 H1 H2 H3). Qed.
Print Assumptions C29_fortran_loop_partial.
(* C: moreover stop and step must keep their values, and the counter must not overflow. *)
Theorem C29_c_loop_partial : forall w St (r : range St) body i0 s0,
  keeps_variable body -> lit_ok r -> keeps_bounds r body ->
  let a := r_start r i0 s0 in let b := r_stop r i0 s0 in let c := r_step r i0 s0 in
  c <> 0 -> in_range w a -> in_range w (b + c) ->
  forall fuel, (Z.to_nat (range_len a b c) < fuel)%nat ->
  exists i, c_for w fuel r body i0 s0 = Ret (i, snd (py_for r body i0 s0)).
Proof. intros w St r body i0 s0 H1 H2 H3 a b c H4 H5 H6 fuel Hf. eexists. exact (c_for_ok w r body i0 s0 H1 H2 H3 H4 H5 H6 fuel Hf). Qed.
Print Assumptions C29_c_loop_partial.
Example C29_ex :
  let r := mkRange (fun _ _ => 7) (fun _ _ => 0) (fun _ _ => -3) (Some (-3)) in
  let body := fun i (s : list Z) => (i, i :: s) in
  keeps_variable body /\ lit_ok r /\ keeps_bounds r body /\ snd (py_for r body 0 []) = [1; 4; 7]
  /\ c_for 32 9 r body 0 [] = Ret (-2, [1; 4; 7]).
Proof.
  repeat split; try reflexivity. intros k E i s. injection E as <-. reflexivity.
Qed.
(* for i in range(0, n): n = 5 runs five times instead of two in C. *)
Theorem C29_c_bound_changed_refuted : exists (r : range Z) body, keeps_variable body /\ lit_ok r /\
  List.length (py_range (r_start r 0 2) (r_stop r 0 2) (r_step r 0 2)) = 2%nat /\
  c_for 32 9 r body 0 2 = Ret (5, 5) /\ f_for r body 0 2 = Ret (2, 5).
Proof.
  exists (mkRange (fun _ _ => 0) (fun _ n => n) (fun _ _ => 1) None), (fun i n => (i, 5)).
  repeat split; try reflexivity. intros k E. discriminate.
Qed.
Print Assumptions C29_c_bound_changed_refuted.
(* A body that assigns to its loop variable: Python goes on with the next value, C
   does not (and Fortran forbids it). *)
Theorem C29_variable_changed_refuted : exists (r : range (list Z)) body, lit_ok r /\
  py_for r body 0 [] = (12, [2; 1; 0]) /\ c_for 32 9 r body 0 [] = Ret (11, [0]) /\ f_for r body 0 [] = Undef.
Proof.
  exists (mkRange (fun _ _ => 0) (fun _ _ => 3) (fun _ _ => 1) None), (fun i s => (i + 10, i :: s)).
  repeat split; try reflexivity. intros k E. discriminate.
Qed.
Print Assumptions C29_variable_changed_refuted.
(* for i in range(0, i) never runs in C. *)
Theorem C29_c_bound_is_variable_refuted : exists (r : range (list Z)) body, keeps_variable body /\ lit_ok r /\
  snd (py_for r body 3 []) = [2; 1; 0] /\ c_for 32 9 r body 3 [] = Ret (0, []).
Proof.
  exists (mkRange (fun _ _ => 0) (fun i _ => i) (fun _ _ => 1) None), (fun i s => (i, i :: s)).
  repeat split; try reflexivity. intros k E. discriminate.
Qed.
Print Assumptions C29_c_bound_is_variable_refuted.
(* Up to the largest number the counter overflows after the last turn. *)
Theorem C29_c_overflow_refuted : exists (r : range (list Z)) body, keeps_variable body /\ lit_ok r /\
  keeps_bounds r body /\ snd (py_for r body 0 []) = [2147483646] /\
  c_for 32 9 r body 0 [] = Undef.
Proof.
  exists (mkRange (fun _ _ => 2147483646) (fun _ _ => 2147483647) (fun _ _ => 2) (Some 2)), (fun i s => (i, i :: s)).
  repeat split; try reflexivity. intros k E i s. injection E as <-. reflexivity.
Qed.
Print Assumptions C29_c_overflow_refuted.
(* After the loop the variable is one step further than in Python. *)
Theorem C29_variable_after_loop_refuted : exists (r : range unit) body, keeps_variable body /\ lit_ok r /\
  fst (py_for r body 9 tt) = 2 /\ f_for r body 9 tt = Ret (3, tt) /\ c_for 32 9 r body 9 tt = Ret (3, tt).
Proof.
  exists (mkRange (fun _ _ => 0) (fun _ _ => 3) (fun _ _ => 1) None), (fun i s => (i, s)).
  repeat split; try reflexivity. intros k E. discriminate.
Qed.
Print Assumptions C29_variable_after_loop_refuted.
