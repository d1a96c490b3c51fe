(* Properties C24, C25, C26. *)
From Coq Require Import List Bool ZArith String Lia.
From Verif Require Import Common Types_Model Types_Spec Types_Proofs.
Import ListNotations.
Open Scope Z_scope.

(* ---- C24: broadcasting ---- *)
(* For shapes known at compile time the result, or the refusal, is NumPy's. *)
Theorem C24_known_sizes : forall a b,
  broadcast (Some (lits a)) (Some (lits b)) = option_map (fun r => Some (lits r)) (np_broadcast a b).
Proof. exact bcast_lit. Qed.
Print Assumptions C24_known_sizes.
Example C24_known_ex : np_broadcast [4; 1; 3] [5; 1] = Some [4; 5; 3] /\ np_broadcast [4; 2] [3; 2] = None.
Proof. split; vm_compute; reflexivity. Qed.

Theorem C24_scalar : forall s,
  broadcast None (Some s) = Some (Some s) /\ broadcast (Some s) None = Some (Some s).
Proof. exact bcast_scalar. Qed.
Print Assumptions C24_scalar.

(* With sizes known only at run time: what is missing is the case of such a size being 1. *)
Theorem C24_unknown_sizes_partial : forall env s1 s2, unknown_not_one env s1 -> unknown_not_one env s2 ->
  match broadcast (Some s1) (Some s2) with
  | Some (Some s) => forall r, np_broadcast (sizes env s1) (sizes env s2) = Some r -> sizes env s = r
  | Some None => False
  | None => np_broadcast (sizes env s1) (sizes env s2) = None
  end.
Proof. exact bcast_sym. Qed.
Print Assumptions C24_unknown_sizes_partial.
Example C24_unknown_ex : let env := fun x => if String.eqb x "n" then 4 else 7 in
  unknown_not_one env [Sym "n" 0; Lit 1] /\ unknown_not_one env [Sym "m" 0]
  /\ broadcast (Some [Sym "n" 0; Lit 1]) (Some [Sym "m" 0]) = Some (Some [Sym "n" 0; Sym "m" 0])
  /\ np_broadcast [4; 1] [7] = Some [4; 7].
Proof.
  cbv zeta. split; [repeat constructor; vm_compute; discriminate|].
  split; [repeat constructor; vm_compute; discriminate|]. split; vm_compute; reflexivity.
Qed.

Theorem C24_size_one_at_run_time_refuted : exists env s1 s2 s r,
  broadcast (Some s1) (Some s2) = Some (Some s)
  /\ np_broadcast (sizes env s1) (sizes env s2) = Some r /\ sizes env s <> r.
Proof.
  exists (fun x => if String.eqb x "n" then 1 else 3), [Sym "n" 0], [Sym "m" 0], [Sym "n" 0], [3].
  split; [vm_compute; reflexivity|]. split; [vm_compute; reflexivity|]. vm_compute. discriminate.
Qed.
Print Assumptions C24_size_one_at_run_time_refuted.

Theorem C24_refusal_refuted : exists env s1 s2 r,
  broadcast (Some s1) (Some s2) = None /\ np_broadcast (sizes env s1) (sizes env s2) = Some r.
Proof.
  exists (fun _ => 1), [Sym "n" 0], [Sym "n" 1], [2].
  split; [vm_compute; reflexivity|]. vm_compute. reflexivity.
Qed.
Print Assumptions C24_refusal_refuted.

(* ---- C25: the type of a sum ---- *)
Theorem C25_order_independent : forall a b,
  ty_add a b = ty_add b a /\ (exists c, ty_add a b = Some c).
Proof. intros a b. split; [apply add_comm|apply add_total]. Qed.
Print Assumptions C25_order_independent.

Theorem C25_same_type : forall a,
  ty_add a a = Some (match a with TBool => TInt | _ => a end).
Proof. intros []; reflexivity. Qed.
Print Assumptions C25_same_type.

(* Among sized types the sum has NumPy's least type to which both convert safely. *)
Theorem C25_least_type : forall a b, sized a -> sized b -> a <> TBool \/ b <> TBool ->
  exists c, ty_add a b = Some c /\ least_above a b c.
Proof. exact add_lub. Qed.
Print Assumptions C25_least_type.
Example C25_least_ex : sized I32 /\ sized F32 /\ ty_add I32 F32 = Some F64.
Proof. vm_compute. repeat split; discriminate. Qed.

Theorem C25_kind : forall a b, (a <> TBool \/ b <> TBool) -> exists c, ty_add a b = Some c
  /\ level (prim c) = Nat.max (level (prim a)) (level (prim b)).
Proof. exact add_kind. Qed.
Print Assumptions C25_kind.

(* Python's own numbers among themselves, and beside a NumPy number of no lower kind. *)
Theorem C25_python_types : forall a b, native a = true -> native b = true ->
  exists c, ty_add a b = Some c /\ native c = true.
Proof. exact add_native. Qed.
Print Assumptions C25_python_types.
Theorem C25_python_beside_numpy : forall a t, native a = true -> native t = false ->
  (level (prim a) <= level (prim t))%nat -> ty_add a t = Some t.
Proof. exact add_weak. Qed.
Print Assumptions C25_python_beside_numpy.
Example C25_beside_ex : native TFloat = true /\ native C64 = false /\ (level (prim TFloat) <= level (prim C64))%nat.
Proof. repeat split; vm_compute; lia. Qed.

(* Grouping: it matters only for a Python float (or complex) with a small integer and a
   small float. *)
Theorem C25_grouping_partial : forall a b c, mixes [a; b; c] = false ->
  omap2 ty_add (ty_add a b) (Some c) = omap2 ty_add (Some a) (ty_add b c).
Proof. exact add_assoc. Qed.
Print Assumptions C25_grouping_partial.
Example C25_grouping_ex : mixes [TFloat; I32; F32] = false /\ mixes [TBool; TInt; I8] = false.
Proof. split; reflexivity. Qed.
Theorem C25_grouping_refuted : exists a b c,
  omap2 ty_add (ty_add a b) (Some c) <> omap2 ty_add (Some a) (ty_add b c).
Proof. exists TFloat, I8, F32. vm_compute. discriminate. Qed.
Print Assumptions C25_grouping_refuted.
Theorem C25_precision_refuted : exists a b c,
  ty_add a b = Some c /\ prim a = prim c /\ precision c < precision a.
Proof. exists TInt, I8, I8. repeat split. Qed.
Print Assumptions C25_precision_refuted.

(* Bitwise operators on booleans and integers. *)
Theorem C25_bitwise : forall a b c, int_like a -> int_like b -> int_like c ->
  ty_and a b = ty_and b a /\ ty_and a a = Some a
  /\ omap2 ty_and (ty_and a b) (Some c) = omap2 ty_and (Some a) (ty_and b c)
  /\ exists d, ty_and a b = Some d /\ precision a <= precision d /\ precision b <= precision d
       /\ level (prim d) = Nat.max (level (prim a)) (level (prim b)).
Proof.
  intros a b c A B C. split; [exact (and_comm a b A B)|]. split; [exact (and_idem a A)|].
  split; [exact (and_assoc' a b c A B C)|exact (and_above a b A B)].
Qed.
Print Assumptions C25_bitwise.
Example C25_bitwise_ex : int_like TBool /\ int_like I16 /\ int_like TInt /\ ty_and TInt I16 = Some I64.
Proof. vm_compute. auto. Qed.
(* 1 & 2.0 is accepted although 2.0 & 1 is not *)
Theorem C25_bitwise_float_refuted : exists a b c, prim b = KFloat /\ ty_and a b = Some c /\ ty_and b a = None.
Proof. exists TInt, TFloat, TInt. repeat split. Qed.
Print Assumptions C25_bitwise_float_refuted.

(* Arrays. *)
Theorem C25_arrays : forall a b c, nd_ok a -> nd_ok b -> nd_ok c ->
  nd_add a b = nd_add b a
  /\ (match nd_add a b with Some x => nd_add x c | None => None end)
     = (match nd_add b c with Some x => nd_add a x | None => None end)
  /\ exists d, nd_add a b = Some d /\ least_above (nd_elem a) (nd_elem b) (nd_elem d)
       /\ nd_rank d = Nat.max (nd_rank a) (nd_rank b) /\ nd_ok d
       /\ (nd_order d = Some OF <-> (2 <= nd_rank d)%nat /\ nd_order a <> Some OC /\ nd_order b <> Some OC).
Proof.
  intros a b c A B C. split; [apply nd_add_comm|]. split; [exact (nd_add_assoc a b c A B C)|].
  destruct (nd_add_shape a b A B) as (d & E & L & R & W). exists d.
  split; [exact E|]. split; [exact L|]. split; [exact R|]. split; [exact W|].
  exact (nd_add_f a b d A B E).
Qed.
Print Assumptions C25_arrays.
Example C25_arrays_ex : nd_ok (mkND I32 2 (Some OC)) /\ nd_ok (mkND F32 1 None)
  /\ nd_add (mkND I32 2 (Some OC)) (mkND F32 1 None) = Some (mkND F64 2 (Some OC)).
Proof.
  split; [|split; [|reflexivity]]; (split; [repeat split; discriminate|]); cbn;
    (split; [lia|]); split; intros; try lia; try reflexivity; discriminate.
Qed.
Theorem C25_array_with_number : forall a t, nd_ok a ->
  exists c, nd_add_scalar a t = Some c /\ nd_rank c = nd_rank a /\ nd_order c = nd_order a
            /\ np_result_type (nd_elem a) t = Some (nd_elem c) /\ nd_ok c
            /\ ((level (prim t) <= level (prim (nd_elem a)))%nat -> native t = true -> nd_elem c = nd_elem a).
Proof. exact nd_scalar. Qed.
Print Assumptions C25_array_with_number.
(* a & b for arrays takes the rank of a *)
Theorem C25_bitwise_arrays_refuted : exists a b c, nd_ok a /\ nd_ok b /\ nd_and a b = Some c
  /\ nd_rank c <> Nat.max (nd_rank a) (nd_rank b).
Proof.
  exists (mkND I64 1 None), (mkND I64 2 (Some OC)), (mkND I64 1 None).
  split; [|split; [|split; [reflexivity|discriminate]]]; (split; [repeat split; discriminate|]); cbn;
    (split; [lia|]); split; intros; try lia; try reflexivity; discriminate.
Qed.
Print Assumptions C25_bitwise_arrays_refuted.

(* ---- C26: indexing containers ---- *)
(* Indexing k times removes k dimensions and keeps the type of the numbers; indexing as
   often as there are dimensions gives a number. *)
Theorem C26_indexing : forall k t, container_ok t -> (k <= rank t)%nat ->
  exists t', index_times k t = POk t' /\ rank t' = (rank t - k)%nat /\ datatype t' = datatype t.
Proof. exact index_many. Qed.
Print Assumptions C26_indexing.
Theorem C26_full_indexing : forall t, container_ok t -> index_times (rank t) t = POk (Sc (datatype t)).
Proof. exact index_all. Qed.
Print Assumptions C26_full_indexing.
Example C26_indexing_ex : let t := CList (CTuple (CND (mkND F32 2 (Some OF)))) in
  container_ok t /\ rank t = 4%nat /\ index_times 3 t = POk (CND (mkND F32 1 None)).
Proof.
  cbv zeta. split; [|split; reflexivity]. split; [repeat split; discriminate|]. cbn.
  split; [lia|]. split; intros; [lia|discriminate].
Qed.

Theorem C26_array_slices : forall a new, nd_ok a -> (1 <= new <= nd_rank a)%nat ->
  exists b, switch_rank (CND a) (Z.of_nat new) = POk (CND b) /\ nd_rank b = new /\ nd_elem b = nd_elem a /\ nd_ok b
     /\ ((2 <= new)%nat -> nd_order b = nd_order a).
Proof. exact switch_array. Qed.
Print Assumptions C26_array_slices.

(* Removing several dimensions in one step is wrong for lists, tuples and sets. *)
Theorem C26_several_at_once_refuted : exists t new t', container_ok t /\ 0 <= new < Z.of_nat (rank t)
  /\ switch_rank t new = POk t' /\ Z.of_nat (rank t') <> new.
Proof.
  exists (CList (CND (mkND F64 2 (Some OC)))), 1, (Sc F64).
  split; [|split; [cbn; lia|split; [reflexivity|discriminate]]].
  split; [repeat split; discriminate|]. cbn. split; [lia|]. split; intros; [lia|discriminate].
Qed.
Print Assumptions C26_several_at_once_refuted.
Theorem C26_nested_lists_refuted : exists t new e, container_ok t /\ 0 <= new < Z.of_nat (rank t)
  /\ switch_rank t new = PErr e.
Proof. exists (CList (CList (CList (Sc TInt)))), 1. eexists. split; [exact I|]. split; [cbn; lia|reflexivity]. Qed.
Print Assumptions C26_nested_lists_refuted.

Theorem C26_nested_order : forall t, nested_lists t -> order t = if (2 <=? rank t)%nat then Some OC else None.
Proof. exact order_nested. Qed.
Print Assumptions C26_nested_order.
Example C26_nested_ex : nested_lists (CList (CTuple (CList (Sc TFloat)))).
Proof. exact I. Qed.

Theorem C26_change_of_numbers : forall t b, container_ok t -> sized b ->
  exists t', switch_basic t b = Some t' /\ rank t' = rank t /\ datatype t' = b /\ container_ok t'.
Proof. exact switch_basic_ok. Qed.
Print Assumptions C26_change_of_numbers.

Theorem C26_transpose_twice : forall a, swap_order (swap_order a) = a.
Proof. exact swap_twice. Qed.
Print Assumptions C26_transpose_twice.
