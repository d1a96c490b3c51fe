(* C62: arrays passed to and from translated functions. *)
From Coq Require Import Bool Arith ZArith Lia List.
From Verif Require Import View_Model View_Spec View_Proofs.
Import ListNotations.
Open Scope Z_scope.
Open Scope list_scope.

(* A view of another array that is accepted is seen by the function as it is: same shape, same
   elements. *)
Theorem C62_view_partial : forall l c_order rank allow_empty a o,
  filled a -> a_base a = true -> regular c_order a ->
  pass_array l c_order rank allow_empty a = Some o ->
  exists s, o = Some s /\ sees a s.
Proof.
  intros l c rank ae a o F B R P. unfold pass_array in P. destruct (array_check c rank ae a); [|discriminate].
  injection P as P. subst o. exact (regular_view l c a F R B).
Qed.
Print Assumptions C62_view_partial.

(* a[:, 2, ::2, :] for an array of shape (2, 3, 4, 5) *)
Definition doc_view : nparray := mk_array true 8 [2; 2; 5] [480; 80; 8].
Example C62_view_example : filled doc_view /\ regular true doc_view /\ exists s, pass_array LC true 3 false doc_view = Some (Some s)
  /\ s_steps s = [60; 10; 1].
Proof.
  split; [split; [discriminate|split; [cbn; lia|repeat constructor; lia]]|]. split.
  - split; [reflexivity|]. cbn. repeat split; try lia; try (exists 1; reflexivity); try (exists 10; reflexivity); exists 6; reflexivity.
  - eexists. split; reflexivity.
Qed.

(* An array that owns its memory, which has no gaps, is seen as it is *)
Theorem C62_owned_partial : forall l c_order rank allow_empty a o,
  filled a -> a_base a = false -> gapless (layout c_order) a ->
  pass_array l c_order rank allow_empty a = Some o ->
  exists s, o = Some s /\ sees a s.
Proof.
  intros l c rank ae a o F B R P. unfold pass_array in P. destruct (array_check c rank ae a); [|discriminate].
  injection P as P. subst o. exact (owned_view l c a F R B).
Qed.
Print Assumptions C62_owned_partial.

Definition owned_23 : nparray := mk_array false 4 [2; 3] [4; 8].
Example C62_owned_example : filled owned_23 /\ gapless (layout false) owned_23 /\ exists s, pass_array LFortran false 2 true owned_23 = Some (Some s).
Proof.
  split; [split; [discriminate|split; [cbn; lia|repeat constructor; lia]]|]. split.
  - split; [|reflexivity]. cbn. repeat constructor; right; reflexivity.
  - eexists. reflexivity.
Qed.

(* Every slice of an array without gaps is accepted and seen as it is, if steps other than 1 are
   taken only where they divide: in particular in the first and in the last dimension. *)
Theorem C62_slice_partial : forall l c_order allow_empty item ss,
  0 < item -> ss <> [] -> Forall slice_ok ss -> steps_fit c_order ss ->
  exists s, pass_array l c_order (length ss) allow_empty (sliced c_order item ss) = Some (Some s) /\ sees (sliced c_order item ss) s.
Proof. exact sliced_main. Qed.
Print Assumptions C62_slice_partial.

(* a[::2, 1:3, ::3] of shape (5, 4, 9) *)
Definition some_slices : list slice := [mk_slice 5 2 3; mk_slice 4 1 2; mk_slice 9 3 3].
Example C62_slice_example : Forall slice_ok some_slices /\ steps_fit true some_slices /\ a_strides (sliced true 8 some_slices) = [576; 72; 24].
Proof.
  split; [repeat constructor; cbn; lia|]. split; [|reflexivity]. cbn. split; [exists 8; reflexivity|exact I].
Qed.

(* An array that a translated function returns is accepted by every other and seen as it is *)
Theorem C62_round_trip : forall l c_order release allow_empty item shape,
  0 < item -> shape <> [] -> Forall (fun n => 0 < n) shape ->
  let a := to_pyarray c_order release item shape in
  exists s, pass_array l c_order (length shape) allow_empty a = Some (Some s) /\ sees a s.
Proof. exact round_trip. Qed.
Print Assumptions C62_round_trip.

Example C62_round_trip_example : exists s, pass_array LFortran true 3 true (to_pyarray true true 8 [2; 3; 4]) = Some (Some s)
  /\ s_steps s = [12; 4; 1].
Proof. eexists. split; reflexivity. Qed.

(* ------------------------------ where it fails ------------------------------ *)

(* a[:, :8:4, :] of shape (2, 10, 4): the function sees other elements *)
Definition middle_step : list slice := [mk_slice 2 1 2; mk_slice 10 4 2; mk_slice 4 1 4].
Theorem C62_middle_step_refuted : exists ss, Forall slice_ok ss /\ forall l, exists s,
  pass_array l true 3 false (sliced true 8 ss) = Some (Some s) /\ ~ sees (sliced true 8 ss) s.
Proof.
  exists middle_step. split; [repeat constructor; cbn; lia|].
  intros [|]; eexists; (split; [reflexivity|]); intros [_ H]; specialize (H [1; 0; 0]);
  assert (Q : index_of (a_shape (sliced true 8 middle_step)) [1; 0; 0]) by (repeat constructor; cbn; lia);
  specialize (H Q); discriminate.
Qed.
Print Assumptions C62_middle_step_refuted.

(* a["x"] of an array of records of 12 bytes: the function sees other elements *)
Theorem C62_field_refuted : exists a, filled a /\ a_base a = true /\ length (a_shape a) = 1%nat /\ forall l, exists s,
  pass_array l true 1 false a = Some (Some s) /\ ~ sees a s.
Proof.
  exists (mk_array true 8 [3] [12]). split; [split; [discriminate|split; [cbn; lia|repeat constructor; lia]]|].
  split; [reflexivity|]. split; [reflexivity|].
  intros [|]; eexists; (split; [reflexivity|]); intros [_ H]; specialize (H [1]);
  assert (Q : index_of [3] [1]) by (repeat constructor; lia); specialize (H Q); discriminate.
Qed.
Print Assumptions C62_field_refuted.

(* a[::-1] is accepted, and undefined *)
Theorem C62_reversed_refuted : exists a, filled a /\ a_base a = true /\ forall l c, pass_array l c 1 false a = Some None.
Proof.
  exists (mk_array true 8 [3] [-8]). split; [split; [discriminate|split; [cbn; lia|repeat constructor; lia]]|].
  split; [reflexivity|]. intros [|] [|]; reflexivity.
Qed.
Print Assumptions C62_reversed_refuted.

(* a[:, None] is accepted, and undefined *)
Theorem C62_new_axis_refuted : exists a, filled a /\ a_base a = true /\ gapless (layout true) a /\ forall l, pass_array l true 2 false a = Some None.
Proof.
  exists (mk_array true 8 [3; 1] [8; 0]). split; [split; [discriminate|split; [cbn; lia|repeat constructor; lia]]|].
  split; [reflexivity|]. split; [split; [|reflexivity]; cbn; constructor; [right; reflexivity|constructor; [left; reflexivity|constructor]]|]. intros [|]; reflexivity.
Qed.
Print Assumptions C62_new_axis_refuted.

(* np.zeros((3, 1), order='F') has no gaps in C order, but is refused *)
Theorem C62_refused_refuted : exists a, filled a /\ gapless (layout true) a /\ forall l, pass_array l true 2 false a = None.
Proof.
  exists (mk_array false 8 [3; 1] [8; 24]). split; [split; [discriminate|split; [cbn; lia|repeat constructor; lia]]|].
  split; [split; [|reflexivity]; cbn; constructor; [right; reflexivity|constructor; [left; reflexivity|constructor]]|]. intros [|]; reflexivity.
Qed.
Print Assumptions C62_refused_refuted.
