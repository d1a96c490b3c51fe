(* Properties C20 to C23: lists, sets, dicts and managed memory. *)
From Coq Require Import ZArith List Bool Arith Lia Permutation.
From Verif Require Import Common Cont_Model Cont_Spec Cont_Proofs.
Import ListNotations.
Open Scope list_scope.
Open Scope Z_scope.

(* ---- C20 ---- *)
(* insert, for every list and every index *)
Theorem C20_insert : forall A (l : list A) i v,
  c_insert l i v = py_insert l i v /\ f_insert l i v = py_insert l i v.
Proof. intros A l i v. exact (conj (c_insert_ok l i v) (f_insert_ok l i v)). Qed.
Print Assumptions C20_insert.
Example C20_insert_ex : py_insert [1; 2; 3] (-1) 9 = [1; 2; 9; 3] /\ py_insert [1] (-7) 9 = [9; 1]
  /\ py_insert [1] 7 9 = [1; 9].
Proof. repeat split. Qed.

(* pop, whenever Python does not raise: any index written in the source or absent,
   and any non-negative computed index. *)
Theorem C20_pop_partial : forall A (l : list A) a v l',
  (forall i, a = Computed i -> 0 <= i) ->
  py_pop l (arg_index a) = Some (v, l') ->
  c_list_pop l a = Ret (v, l') /\ f_list_pop l a = Ret (v, l').
Proof. intros A l a v l' H1 H2. exact (conj (c_pop_ok l a v l' H1 H2) (f_pop_ok l a v l' H1 H2)). Qed.
Print Assumptions C20_pop_partial.
Example C20_pop_ex : py_pop [1; 2; 3] (-2) = Some (2, [1; 3]) /\ py_pop [1; 2; 3] (-1) = Some (3, [1; 2])
  /\ py_pop [1; 2; 3] 0 = Some (1, [2; 3]) /\ py_pop [1; 2; 3] (-4) = None.
Proof. repeat split. Qed.

(* A negative index that is not written as such in the source leaves the list:
   for every non-empty list and every negative index Python accepts. *)
Theorem C20_computed_negative_index_refuted :
  (forall A (l : list A) i, i < 0 ->
     c_list_pop l (Computed i) = Undef /\ f_list_pop l (Computed i) = Undef) /\
  (exists (l : list Z) i p, i < 0 /\ py_pop l i = Some p).
Proof.
  split.
  - intros A l i H. simpl. unfold c_pull_elem. destruct (Z.ltb_spec i 0); [auto|lia].
  - exists [1; 2], (-1), (2, [1]). split; [lia|reflexivity].
Qed.
Print Assumptions C20_computed_negative_index_refuted.

Theorem C20_reverse : forall A (l : list A), f_reverse l = Ret (rev l).
Proof. intros A. exact f_reverse_ok. Qed.
Print Assumptions C20_reverse.
Example C20_reverse_ex : f_reverse [1; 2; 3; 4] = Ret [4; 3; 2; 1].
Proof. reflexivity. Qed.

(* min and max of lists and arrays, for any comparison (floats with NaN included) *)
Theorem C20_min : forall A (less : A -> A -> bool) l v, py_min less l = Some v ->
  c_vec_min less l = Ret v /\ f_vec_min less l = Ret v /\ c_arr_min less l = Ret v.
Proof. intros A. exact vec_min_ok. Qed.
Print Assumptions C20_min.
Theorem C20_max : forall A (less : A -> A -> bool) l v, py_max less l = Some v ->
  c_vec_max less l = Ret v /\ f_vec_max less l = Ret v /\ c_arr_max less l = Ret v.
Proof. intros A. exact vec_max_ok. Qed.
Print Assumptions C20_max.
Example C20_min_ex : py_min Z.ltb [3; 1; 2] = Some 1 /\ py_max Z.ltb [3; 1; 7; 2] = Some 7.
Proof. split; reflexivity. Qed.

(* Every program made of these statements ends in Python's list and pops
   Python's values. *)
Theorem C20_history_partial : forall A ops (l l' out : list A), no_computed_negative ops ->
  py_list_run l ops = Some (l', out) ->
  list_run c_list_step l ops = Ret (l', out) /\ list_run f_list_step l ops = Ret (l', out).
Proof.
  intros A ops l l' out H1 H2.
  exact (conj (c_list_run_ok ops l l' out H1 H2) (f_list_run_ok ops l l' out H1 H2)).
Qed.
Print Assumptions C20_history_partial.
Definition ex_ops : list (@list_op Z) :=
  [Append 4; Insert (-1) 5; Pop (Written (-2)); Reverse; Pop (Computed 1); Insert 99 6; Pop NoArg].
Example C20_history_ex : no_computed_negative ex_ops
  /\ py_list_run [1; 2] ex_ops = Some ([4; 1], [5; 2; 6]).
Proof.
  split; [|reflexivity]. intros i H. unfold ex_ops in H. simpl in H.
  repeat destruct H as [H|H]; try discriminate; try tauto. injection H as <-. lia.
Qed.

(* ---- C21 ---- *)
Theorem C21_pop : forall A (s : list A), NoDup s -> s <> [] ->
  exists v r, set_pop s = Ret (v, r) /\ In v s /\ NoDup r /\ forall y, In y r <-> In y s /\ y <> v.
Proof. intros A. exact set_pop_ok. Qed.
Print Assumptions C21_pop.

Theorem C21_union : forall A (ins : A -> list A -> list A),
  (forall x s y, In y (ins x s) <-> y = x \/ In y s) ->
  forall others s y, In y (set_union ins s others) <-> In y s \/ exists o, In o others /\ In y o.
Proof. intros A. exact union_ok. Qed.
Print Assumptions C21_union.
Example C21_union_ex : (forall (x : Z) s y, In y (x :: s) <-> y = x \/ In y s)
  /\ set_union cons [1; 2] [[3; 1]; [4]] = [4; 1; 3; 1; 2].
Proof. split; [intros; simpl; intuition|reflexivity]. Qed.

(* The loops that erase while iterating: the result is the intersection
   (difference) whatever the iteration order and however erasing reorders the
   table, also when the argument is the set itself (None). *)
Theorem C21_intersection_update : forall A (eqb : A -> A -> bool), equality eqb ->
  forall self other r, NoDup self -> intersection_update eqb self other r ->
  NoDup r /\ forall x, In x r <-> In x self /\ In x (other_of other self).
Proof. intros A. exact intersection_ok. Qed.
Print Assumptions C21_intersection_update.
Theorem C21_difference_update : forall A (eqb : A -> A -> bool), equality eqb ->
  forall self other r, NoDup self -> difference_update eqb self other r ->
  NoDup r /\ forall x, In x r <-> In x self /\ ~ In x (other_of other self).
Proof. intros A. exact difference_ok. Qed.
Print Assumptions C21_difference_update.
(* They do end, for a container whose erase keeps the order, and keep it. *)
Theorem C21_updates_end : forall A (eqb : A -> A -> bool), equality eqb -> forall self other, NoDup self ->
  (exists r, f_intersection_update eqb self other = Ret r /\ intersection_update eqb self other r) /\
  (exists r, f_difference_update eqb self other = Ret r /\ difference_update eqb self other r).
Proof.
  intros A eqb E self other N. split; apply update_loop_erasing; auto; lia.
Qed.
Print Assumptions C21_updates_end.
Example C21_update_ex : equality Z.eqb /\ NoDup [5; 1; 7; 2]
  /\ f_intersection_update Z.eqb [5; 1; 7; 2] (Some [2; 5; 9]) = Ret [5; 2]
  /\ f_difference_update Z.eqb [5; 1; 7; 2] (Some [2; 5; 9]) = Ret [1; 7]
  /\ f_difference_update Z.eqb [5; 1; 7; 2] None = Ret []
  /\ erased [5; 1; 7; 2] 1 [2; 5; 7] 0.
Proof.
  split; [intros x y; apply Z.eqb_eq|]. split; [repeat constructor; simpl; intuition discriminate|].
  do 3 (split; [reflexivity|]). split; [|split].
  - intros x. simpl. intuition.
  - repeat constructor; simpl; intuition discriminate.
  - intros x. simpl. intuition.
Qed.

Theorem C21_isdisjoint : forall A (eqb : A -> A -> bool), equality eqb -> forall s o,
  (c_is_disjoint eqb s o = true <-> forall x, ~ (In x s /\ In x o)) /\
  (f_is_disjoint eqb s o = true <-> forall x, ~ (In x s /\ In x o)).
Proof. intros A eqb E s o. exact (conj (c_disjoint_ok eqb E s o) (f_disjoint_ok eqb E s o)). Qed.
Print Assumptions C21_isdisjoint.
Example C21_isdisjoint_ex : c_is_disjoint Z.eqb [1; 2] [3; 4; 2] = false
  /\ f_is_disjoint Z.eqb [1; 2] [3; 4; 5] = true.
Proof. split; reflexivity. Qed.

Theorem C21_min : forall A (less : A -> A -> bool), strict_order less -> forall s, s <> [] ->
  exists v, c_set_min less s = Ret v /\ In v s /\ forall y, In y s -> less y v = false.
Proof. intros A. exact c_set_min_ok. Qed.
Print Assumptions C21_min.
Theorem C21_max : forall A (less : A -> A -> bool), strict_order less -> forall s, s <> [] ->
  exists v, c_set_max less s = Ret v /\ In v s /\ forall y, In y s -> less v y = false.
Proof. intros A. exact c_set_max_ok. Qed.
Print Assumptions C21_max.
Theorem C21_min_fortran : forall A (less : A -> A -> bool), strict_order less ->
  forall s, s <> [] -> sorted less s ->
  exists v, f_set_min s = Ret v /\ In v s /\ forall y, In y s -> less y v = false.
Proof. intros A. exact f_set_min_ok. Qed.
Print Assumptions C21_min_fortran.
Theorem C21_max_fortran : forall A (less : A -> A -> bool), strict_order less ->
  forall s, s <> [] -> sorted less s ->
  exists v, f_set_max s = Ret v /\ In v s /\ forall y, In y s -> less v y = false.
Proof. intros A. exact f_set_max_ok. Qed.
Print Assumptions C21_max_fortran.
Example C21_order_ex : strict_order Z.ltb /\ sorted Z.ltb [1; 4; 9].
Proof.
  split; [|simpl; repeat split; intros y H; intuition; subst; reflexivity].
  split; [intros x; apply Z.ltb_irrefl|]. split.
  - intros x y z. rewrite !Z.ltb_lt. lia.
  - intros x y. rewrite !Z.ltb_lt. lia.
Qed.

(* ---- C22 ---- *)
Theorem C22_pop : forall K V (eqb : K -> K -> bool), equality eqb ->
  forall (m : list (K * V)) k v, NoDup (keys m) -> has m k v ->
  exists m', dict_pop eqb m k = Ret (v, m') /\ NoDup (keys m') /\
  forall k' v', has m' k' v' <-> k' <> k /\ has m k' v'.
Proof. intros K V. exact pop_ok. Qed.
Print Assumptions C22_pop.
Theorem C22_pop_default : forall K V (eqb : K -> K -> bool), equality eqb ->
  forall (m : list (K * V)) k d, NoDup (keys m) ->
  (forall v, has m k v -> exists m', dict_pop_default eqb m k d = Ret (v, m') /\ NoDup (keys m') /\
     forall k' v', has m' k' v' <-> k' <> k /\ has m k' v') /\
  (~ In k (keys m) -> dict_pop_default eqb m k d = Ret (d, m)).
Proof. intros K V. exact pop_default_ok. Qed.
Print Assumptions C22_pop_default.
Theorem C22_get : forall K V (eqb : K -> K -> bool), equality eqb ->
  forall (m : list (K * V)) k d, NoDup (keys m) ->
  (forall v, has m k v -> c_dict_get eqb m k d = Ret v) /\
  (~ In k (keys m) -> c_dict_get eqb m k d = Ret d).
Proof. intros K V. exact get_ok. Qed.
Print Assumptions C22_get.
(* Every sequence of assignments, pops and gets, for any container whose
   assignment is right. *)
Theorem C22_history : forall K V (eqb : K -> K -> bool), equality eqb ->
  forall put : list (K * V) -> K -> V -> list (K * V),
  (forall m k v, NoDup (keys m) -> NoDup (keys (put m k v)) /\
     forall k' v', has (put m k v) k' v' <-> (k' = k /\ v' = v) \/ (k' <> k /\ has m k' v')) ->
  forall ops m d d' out, holds m d -> py_dict_run eqb d ops = Some (d', out) ->
  exists m', dict_run eqb put m ops = Ret (m', out) /\ holds m' d'.
Proof. intros K V. exact dict_run_ok. Qed.
Print Assumptions C22_history.
Example C22_history_ex :
  (exists d, py_dict_run Z.eqb (fun _ => @None Z) [DPut 1 10; DPut 2 20; DPop 1; DGet 1 5; DPopDefault 2 0; DPopDefault 2 0]
     = Some (d, [10; 5; 20; 0])) /\ holds [] (fun _ : Z => @None Z).
Proof.
  split; [eexists; reflexivity|]. split; [constructor|]. intros k v. unfold has. simpl.
  split; [tauto|discriminate].
Qed.
(* popitem removes some item of the dictionary and leaves the others ... *)
Theorem C22_popitem_partial : forall K V (m : list (K * V)), NoDup (keys m) -> m <> [] ->
  exists k v m', dict_popitem m = Ret ((k, v), m') /\ has m k v /\ NoDup (keys m') /\
  forall k' v', has m' k' v' <-> k' <> k /\ has m k' v'.
Proof. intros K V. exact popitem_ok. Qed.
Print Assumptions C22_popitem_partial.
(* ... but not the one inserted last: in Fortran it is the smallest key, and in C
   any dictionary of two items or more has an iteration order that differs. *)
Theorem C22_popitem_refuted :
  (exists a b c : Z, let ins := fold_left (fun m kv => f_dict_set Z.eqb Z.ltb m (fst kv) (snd kv)) [(1, a); (3, b); (2, c)] [] in
     let pyd := fold_left (fun m kv => py_dict_set Z.eqb m (fst kv) (snd kv)) [(1, a); (3, b); (2, c)] [] in
     exists r r', dict_popitem ins = Ret ((1, a), r) /\ py_popitem pyd = Some ((2, c), r')) /\
  (forall K V (m : list (K * V)) kv kv' r, m = kv :: r -> kv' = List.last m kv -> kv <> kv' ->
     exists m', Permutation m' m /\ forall x, dict_popitem m' = Ret x -> py_popitem m <> Some x).
Proof.
  split; [|intros K V; exact popitem_order].
  exists 10, 30, 20. simpl. do 2 eexists. split; reflexivity.
Qed.
Print Assumptions C22_popitem_refuted.

(* ---- C23 ---- *)
(* Every disciplined history runs without freeing anything twice, and the
   allocations still there are exactly those with an owner that was not used up
   (so nothing is lost either). *)
Theorem C23_disciplined_partial : forall ops, linear ops -> well_scoped ops -> releases_owners ops ->
  exists m, mrun mem0 ops = Ret m /\ List.length (cells m) = nmakes ops /\
  forall c, nth_error (cells m) c = Some true <-> has_owner ops c.
Proof. exact mrun_linear_ok. Qed.
Print Assumptions C23_disciplined_partial.
Definition ex_hist : list mop := [MMake; MClone 0; MSteal 0; MMake; MDrop 1; MDrop 2].
Example C23_ex : linear ex_hist /\ well_scoped ex_hist /\ releases_owners ex_hist
  /\ mrun mem0 ex_hist = Ret (mkMem [false; true] [mkMgd (Some 0%nat) true; mkMgd (Some 0%nat) false; mkMgd (Some 0%nat) true; mkMgd (Some 1%nat) true]).
Proof.
  assert (S: forall b o a, ex_hist = b ++ o :: a -> (o, b) = (MMake, []) \/ (o, b) = (MClone 0, [MMake])
    \/ (o, b) = (MSteal 0, [MMake; MClone 0]) \/ (o, b) = (MMake, [MMake; MClone 0; MSteal 0])
    \/ (o, b) = (MDrop 1, [MMake; MClone 0; MSteal 0; MMake])
    \/ (o, b) = (MDrop 2, [MMake; MClone 0; MSteal 0; MMake; MDrop 1])).
  { intros b o a H. unfold ex_hist in H.
    do 6 (destruct b as [|? b]; [injection H as <- <-; tauto|simpl in H; injection H as <- H]).
    destruct b; discriminate. }
  split; [|split; [|split]].
  - intros b o a p H U (o' & Ho & U'). destruct (S b o a H) as [Q|[Q|[Q|[Q|[Q|Q]]]]]; injection Q as -> ->;
    simpl in U; try discriminate; injection U as <-; simpl in Ho;
    repeat destruct Ho as [<-|Ho]; simpl in U'; try discriminate; tauto.
  - intros b o a p H M. destruct (S b o a H) as [Q|[Q|[Q|[Q|[Q|Q]]]]]; injection Q as -> ->;
    simpl in M; try discriminate; injection M as <-; compute; lia.
  - intros b p a H. destruct (S b _ a H) as [Q|[Q|[Q|[Q|[Q|Q]]]]]; discriminate.
  - reflexivity.
Qed.
(* Without the discipline an allocation is freed twice: stealing leaves both
   sides owners. *)
Theorem C23_steal_refuted : mrun mem0 [MMake; MSteal 0] <> Undef
  /\ mrun mem0 [MMake; MSteal 0; MDrop 0] <> Undef
  /\ mrun mem0 ([MMake; MSteal 0] ++ [MDrop 0; MDrop 1]) = Undef.
Proof. repeat split; discriminate. Qed.
Print Assumptions C23_steal_refuted.
(* Copying a container of managed pointers and dropping both copies frees the
   elements twice, for every such container with an owned element. *)
Theorem C23_copied_container_refuted : forall n, (0 < n)%nat ->
  mrun mem0 (repeat MMake n ++ copy_elements (seq 0 n) ++ drop_elements (seq 0 n)) <> Undef /\
  mrun mem0 (repeat MMake n ++ copy_elements (seq 0 n) ++ drop_elements (seq 0 n)
             ++ drop_elements (seq n n)) = Undef.
Proof. exact copied_container. Qed.
Print Assumptions C23_copied_container_refuted.
