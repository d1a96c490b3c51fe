(** Lists and sets: what is assigned is what Python assigns. *)

From Coq Require Import List Bool Arith ZArith Sorted Lia.
From Verif Require Import Bag_Model Bag_Spec Bag_Proofs.
Import ListNotations.

Definition kinds (v : nat) : kind := if v <? 10 then KList else KSet.

(** l = [3, 1, 3]; s = set(l); m = [i + 1 for i in l if i > 1]
    for _ in range(2): t = s.union([len(l), 9]); u = t - s; l.extend(m); m = [l[0], len(l)]; s &= {1, 5} *)
Definition sample : list item :=
  [One (SLit 1 [EInt 3; EInt 1; EInt 3]);
   One (SSetOf 11 (IVar 1));
   One (SComp 2 1 (fun i => i + 1)%Z (fun i => Z.ltb 1 i));
   Repeat 2 [SUnion 12 11 [ILit KList [ELen 1; EInt 9]]; SDiff 13 (IVar 12) [IVar 11];
             SExtend 1 [IVar 2]; SLit 2 [EAt 1 0; ELen 1]; SInterU 11 [ILit KSet [EInt 1; EInt 5]]]].

Definition view (r : option env) (v : nat) : option (list Z) := match r with Some e => e v | None => None end.

Ltac no_use := repeat match goal with
  | H : In _ _ |- _ => destruct H
  | H : _ \/ _ |- _ => destruct H
  | H : exists _, _ |- _ => destruct H
  | H : _ /\ _ |- _ => destruct H
  | H : False |- _ => destruct H
  | |- _ => progress (subst; cbn in *; unfold in_elems, assigned in *)
  end; try discriminate; try congruence; try tauto; try lia.

Example sample_typed : each (fun _ _ => typed kinds) [] sample.
Proof. cbn. repeat split; intros; no_use. Qed.

Example sample_safe : each (fun e _ => safe_c e) [] sample.
Proof. cbn. unfold in_elems. repeat split; intros; try intro; no_use. Qed.

Example sample_safe_fortran : each (safe_fortran kinds) [] sample.
Proof.
  cbn. unfold in_elems, assigned. repeat split; intros; try intro; no_use.
Qed.

Example sample_values : exists e, py_run kinds sample nothing = Some e /\
  e 1 = Some [3; 1; 3; 4; 4; 3; 5]%Z /\ e 2 = Some [3; 7]%Z /\ e 11 = Some [1]%Z /\
  e 12 = Some [1; 5; 9]%Z /\ e 13 = Some [5; 9]%Z.
Proof. eexists. split; [reflexivity|]. repeat split; reflexivity. Qed.

(** A set is the sorted list of its elements. *)
Theorem C85_set : forall l, set_of l (norm l).
Proof. exact norm_ok. Qed.
Print Assumptions C85_set.

(** In C: if no statement uses the variable it assigns, the program does not use memory
    which has been released, and the variables have the values they have in Python.
    One block of memory is lost for each copy of a set, and no other. *)
Theorem C85_c_partial : forall K p e, each (fun _ _ => typed K) [] p -> each (fun earlier _ => safe_c earlier) [] p ->
  py_run K p nothing = Some e ->
  exists st, run C K (program K (fun _ => false) p) initial = Some st /\ shows st e /\ lost st = copies_run K p.
Proof. exact (program_ok C). Qed.
Print Assumptions C85_c_partial.

Example C85_c_ex : copies_run kinds sample = 4.
Proof. reflexivity. Qed.

(** In Fortran. *)
Theorem C85_fortran_partial : forall K p e, each (fun _ _ => typed K) [] p -> each (safe_fortran K) [] p ->
  py_run K p nothing = Some e ->
  exists st, run Fortran K (program K (fun _ => false) p) initial = Some st /\ shows st e /\ lost st = 0.
Proof. exact (program_ok Fortran). Qed.
Print Assumptions C85_fortran_partial.

(** x = [x[1], x[0]], x = f(x) and x = x | y: in C the memory of x is released before x is read. *)
Theorem C85_literal_refuted : forall K x l st, in_elems x l -> again C K (SLit x l) st = None.
Proof. exact literal_bad. Qed.
Print Assumptions C85_literal_refuted.

Example C85_literal_ex : in_elems 1 [EAt 1 1; EAt 1 0].
Proof. exists (EAt 1 1). cbn. tauto. Qed.

Theorem C85_call_refuted : forall K x args f st, In x args -> again C K (SCall x args f) st = None.
Proof. exact call_bad. Qed.
Print Assumptions C85_call_refuted.

Example C85_call_ex : In 1 [2; 1].
Proof. cbn. tauto. Qed.

Theorem C85_union_refuted : forall K x y its st, (forall it, In it its -> is_set K it = true) ->
  x = y \/ (exists it, In it its /\ in_iter x it) -> again C K (SUnion x y its) st = None.
Proof. exact union_bad. Qed.
Print Assumptions C85_union_refuted.

Example C85_union_ex : forall it, In it [IVar 12] -> is_set kinds it = true.
Proof. intros it [<-|[]]. reflexivity. Qed.

(** x = x.copy(), x = x & b and x = x - b: in C x is empty afterwards. *)
Theorem C85_copy_refuted : forall K x st o l, cells st x = Live o l -> gives (again C K (SCopy x x) st) x [].
Proof. intros K x st o l E. exact (gives_of _ _ _ (copy_bad K x st l (read_live _ _ _ _ E))). Qed.
Print Assumptions C85_copy_refuted.

Theorem C85_self_refuted : forall K x b st o l ob lb, x <> b -> cells st x = Live o l -> cells st b = Live ob lb ->
  gives (again C K (SInter x (IVar x) [IVar b]) st) x [] /\ gives (again C K (SDiff x (IVar x) [IVar b]) st) x [].
Proof.
  intros K x b st o l ob lb N E Eb.
  destruct (self_bad K x b st l lb N (read_live _ _ _ _ E) (read_live _ _ _ _ Eb)) as [H1 H2].
  exact (conj (gives_of _ _ _ H1) (gives_of _ _ _ H2)).
Qed.
Print Assumptions C85_self_refuted.

Definition sets (v : nat) : cell := if v =? 11 then Live true [1; 2]%Z else Live true [2; 3]%Z.

Example C85_self_ex : cells (State sets 0) 11 = Live true [1; 2]%Z /\ cells (State sets 0) 12 = Live true [2; 3]%Z.
Proof. split; reflexivity. Qed.

(** b = a & b gives a, and b = a - b gives the empty set. *)
Theorem C85_right_refuted : forall L K a b st oa la ob lb, a <> b -> K b = KSet ->
  cells st a = Live oa la -> cells st b = Live ob lb ->
  gives (again L K (SInter b (IVar a) [IVar b]) st) b la /\ gives (again L K (SDiff b (IVar a) [IVar b]) st) b [].
Proof.
  intros L K a b st oa la ob lb N HK Ea Eb.
  destruct (right_bad L K a b st la lb N HK (read_live _ _ _ _ Ea) (read_live _ _ _ _ Eb)) as [H1 H2].
  exact (conj (gives_of _ _ _ H1) (gives_of _ _ _ H2)).
Qed.
Print Assumptions C85_right_refuted.

Example C85_right_ex : forall e, e 11 = Some [1; 2]%Z -> e 12 = Some [2; 3]%Z ->
  view (py kinds (SInter 12 (IVar 11) [IVar 12]) e) 12 = Some [2]%Z /\
  view (py kinds (SDiff 12 (IVar 11) [IVar 12]) e) 12 = Some [1]%Z.
Proof. intros e E1 E2. cbn. rewrite E1, E2. split; reflexivity. Qed.

(** In Fortran b = a | b gives a. *)
Theorem C85_union_fortran_refuted : forall K a b st oa la ob lb, a <> b -> K b = KSet -> K a = KSet -> StronglySorted Z.lt la ->
  cells st a = Live oa la -> cells st b = Live ob lb -> gives (again Fortran K (SUnion b a [IVar b]) st) b la.
Proof.
  intros K a b st oa la ob lb N HK HKa Hs Ea Eb.
  exact (gives_of _ _ _ (union_f_bad K a b st la lb N HK HKa Hs (read_live _ _ _ _ Ea) (read_live _ _ _ _ Eb))).
Qed.
Print Assumptions C85_union_fortran_refuted.

(** In Fortran x = set(l) keeps the elements of x. *)
Theorem C85_setof_fortran_refuted : forall K x v st ox lx ov lv, K x = KSet -> K v = KList -> StronglySorted Z.lt lx ->
  cells st x = Live ox lx -> cells st v = Live ov lv -> gives (again Fortran K (SSetOf x (IVar v)) st) x (norm (lx ++ lv)).
Proof.
  intros K x v st ox lx ov lv HK HKv Hs Ex Ev.
  exact (gives_of _ _ _ (setof_f_bad K x v st lx lv HK HKv Hs (read_live _ _ _ _ Ex) (read_live _ _ _ _ Ev))).
Qed.
Print Assumptions C85_setof_fortran_refuted.

Example C85_fortran_ex : StronglySorted Z.lt [1; 2]%Z /\ kinds 11 = KSet /\ kinds 1 = KList.
Proof. split; [repeat constructor|split; reflexivity]. Qed.

(** x = [f(i) for i in x if c(i)]: the list does not become shorter. *)
Theorem C85_filter_refuted : forall L K x f c st o l, cells st x = Live o l ->
  exists l', gives (again L K (SComp x x f c) st) x l' /\ length l' = length l /\
    firstn (length (filter c l)) l' = map f (filter c l).
Proof.
  intros L K x f c st o l E. destruct (comp_bad L K x f c st l (read_live _ _ _ _ E)) as (st' & l' & H1 & H2 & H3).
  exists l'. exact (conj (gives_of _ _ _ (ex_intro _ st' (conj H1 H2))) H3).
Qed.
Print Assumptions C85_filter_refuted.

Example C85_filter_ex : forall e, e 1 = Some [1; 2; 3]%Z ->
  view (py kinds (SComp 1 1 (fun i => i) (fun i => Z.ltb 1 i)) e) 1 = Some [2; 3]%Z.
Proof. intros e E. cbn. rewrite E. reflexivity. Qed.

(** l.extend(l): in C the list is changed while a loop runs over it.
    l.extend([len(l), len(l)]): the second length is read after the first has been added. *)
Theorem C85_extend_refuted : forall K x st o l, l <> [] -> cells st x = Live o l ->
  again C K (SExtend x [IVar x]) st = None.
Proof. intros K x st o l N E. exact (extend_self_bad K x st l true true N (read_live _ _ _ _ E)). Qed.
Print Assumptions C85_extend_refuted.

Theorem C85_extend_literal_refuted : forall L K x st o l, K x = KList -> cells st x = Live o l ->
  gives (again L K (SExtend x [ILit KList [ELen x; ELen x]]) st) x
        (l ++ [Z.of_nat (length l); Z.of_nat (S (length l))]).
Proof. intros L K x st o l HK E. exact (gives_of _ _ _ (extend_len_bad L K x st l true true HK (read_live _ _ _ _ E))). Qed.
Print Assumptions C85_extend_literal_refuted.

Example C85_extend_ex : forall e, e 1 = Some [7]%Z ->
  view (py kinds (SExtend 1 [ILit KList [ELen 1; ELen 1]]) e) 1 = Some [7; 1; 1]%Z /\
  view (py kinds (SExtend 1 [IVar 1]) e) 1 = Some [7; 7]%Z.
Proof. intros e E. cbn. rewrite E. split; reflexivity. Qed.
