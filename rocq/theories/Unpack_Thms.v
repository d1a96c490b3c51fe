(* C31: assignments to several targets. *)
From Coq Require Import Bool Arith ZArith Lia List.
From Verif Require Import Unpack_Model Unpack_Spec Unpack_Proofs.
Import ListNotations.
Open Scope list_scope.

Local Notation V := VUser.

(* The statements that replace  t1, t2, ... = e1, e2, ...  leave the variables and the elements
   as Python does.  Missing: nested tuples, and the cases excluded by clear (see below). *)
Theorem C31_simultaneous_partial : forall ts rs s code s', Forall flat_target ts -> Forall flat rs -> clear s [] s ts rs ->
  unpack ts rs = Some code -> py_assign ts rs s = Some s' -> same s' (exec code s).
Proof. exact simultaneous. Qed.
Print Assumptions C31_simultaneous_partial.

(* a[i], a[j] = a[j], a[i]  with i = 0, j = 1 *)
Definition at0 : state := mk_state (fun x => match x with VUser 3 => 1%Z | VUser 4 => 7%Z | VUser 5 => 8%Z | _ => 0%Z end) (fun _ i => (10 + i)%Z).
Definition swap_ts := [TElem (V 0) (IVar (V 2)); TElem (V 0) (IVar (V 3))].
Definition swap_rs := [EElem (V 0) (IVar (V 3)); EElem (V 0) (IVar (V 2))].
Lemma user_V : forall n, is_user (V n).
Proof. intros n. exists n. reflexivity. Qed.
Example C31_simultaneous_example : exists code s', Forall flat_target swap_ts /\ Forall flat swap_rs /\ clear at0 [] at0 swap_ts swap_rs /\
  unpack swap_ts swap_rs = Some code /\ py_assign swap_ts swap_rs at0 = Some s' /\ List.length code = 3 /\ array s' (V 0) 0%Z = 11%Z /\ array s' (V 0) 1%Z = 10%Z.
Proof.
  do 2 eexists. split; [repeat constructor; apply user_V|]. split; [repeat constructor; apply user_V|]. split.
  - cbn. split; [|split; [intros ? ? ? []|exact I]]. intros r' x i [<-|[]] [E|[]]. injection E as <- <-. intros _. left. split; [reflexivity|]. intros y [].
  - repeat split; reflexivity.
Qed.

(* No condition on the state if the words do not overlap. *)
Theorem C31_separate_partial : forall ts rs s code s', Forall flat_target ts -> Forall flat rs -> separate ts rs ->
  unpack ts rs = Some code -> py_assign ts rs s = Some s' -> same s' (exec code s).
Proof. exact separate_ok. Qed.
Print Assumptions C31_separate_partial.

(* x, y, b[x] = y, x + a[i], y *)
Definition sep_ts := [TVar (V 4); TVar (V 5); TElem (V 1) (IVar (V 4))].
Definition sep_rs := [EVar (V 5); EBin Z.add (EVar (V 4)) (EElem (V 0) (IVar (V 3))); EVar (V 5)].
Example C31_separate_example : exists code s', Forall flat_target sep_ts /\ Forall flat sep_rs /\ separate sep_ts sep_rs /\
  unpack sep_ts sep_rs = Some code /\ py_assign sep_ts sep_rs at0 = Some s' /\ List.length code = 5 /\ scalar s' (V 4) = 8%Z /\ scalar s' (V 5) = 18%Z /\ array s' (V 1) 8%Z = 8%Z.
Proof.
  do 2 eexists. split; [repeat constructor; apply user_V|]. split; [repeat constructor; apply user_V|]. split.
  - intros r x i Ir Il. cbn in Ir. destruct Ir as [<-|[<-|[<-|[]]]]; cbn in Il; try (destruct Il as [Il|[]]; discriminate).
    destruct Il as [Il|[Il|[]]]; [discriminate|]. injection Il as <- <-. split.
    + intros y [E|[E|[E|[]]]] [F|[]]; congruence.
    + intros j [E|[E|[E|[]]]]; congruence.
  - repeat split; reflexivity.
Qed.

(* The statement is refused exactly if a target is used on the right and a target has a computed
   subscript. *)
Theorem C31_refused : forall ts rs, Forall flat_target ts -> Forall flat rs -> List.length ts = List.length rs ->
  (unpack ts rs = None <->
   (exists t a, In t ts /\ leaf_of t = Some a /\ mem_leaf a (flat_map leaves rs) = true) /\ (exists x i, In (TElem x i) ts /\ simple_idx i = false)).
Proof. exact refused. Qed.
Print Assumptions C31_refused.

Example C31_refused_example : unpack [TVar (V 4); TElem (V 0) (IOp Z.add (IVar (V 2)) (ILit 1))] [ELit 1; EVar (V 4)] = None /\ unpack swap_ts swap_rs <> None.
Proof. split; [reflexivity|discriminate]. Qed.

(* In Python, such an assignment succeeds if there are as many targets as values. *)
Theorem C31_defined : forall ts rs s, Forall flat_target ts -> Forall flat rs -> ((exists s', py_assign ts rs s = Some s') <-> List.length ts = List.length rs).
Proof. exact py_defined. Qed.
Print Assumptions C31_defined.

(* t = (e1, e2, ...) for a tuple t: its elements get these values if no expression reads an element
   stored before. *)
Theorem C31_whole_partial : forall x rs s, Forall flat rs ->
  (forall i j r n, j < List.length rs -> i < j -> nth_error rs j = Some r -> In (LElem x n) (leaves r) -> ival s n <> Z.of_nat i) ->
  forall i r, nth_error rs i = Some r -> array (exec (rebind x rs) s) x (Z.of_nat i) = eval s r.
Proof. exact rebind_ok. Qed.
Print Assumptions C31_whole_partial.

(* t = (t[1], t[2], 5) *)
Definition shift := [EElem (V 0) (ILit 1); EElem (V 0) (ILit 2); ELit 5].
Example C31_whole_example : Forall flat shift /\ (forall i j r n, j < List.length shift -> i < j -> nth_error shift j = Some r -> In (LElem (V 0) n) (leaves r) -> ival at0 n <> Z.of_nat i) /\
  array (exec (rebind (V 0) shift) at0) (V 0) 0%Z = 11%Z.
Proof.
  split; [repeat constructor; apply user_V|]. split; [|reflexivity].
  intros i j r n L Li E H. destruct j as [|[|[|j]]]; cbn in *; [lia| | |lia]; injection E as <-; cbn in H; [|destruct H]. destruct H as [H|[]]. injection H as <-. cbn. lia.
Qed.

(* What goes wrong.  Each statement is accepted, in the state at0. *)

Definition wrong (ts : list target) (rs : list expr) (s : state) : Prop :=
  exists code s', unpack ts rs = Some code /\ py_assign ts rs s = Some s' /\ ~ same s' (exec code s).

(* i, x = 1, a[i]: the subscript is read after i is assigned *)
Theorem C31_subscript_refuted : exists ts rs s, Forall flat_target ts /\ Forall flat rs /\ wrong ts rs s.
Proof.
  exists [TVar (V 2); TVar (V 4)], [ELit 1; EElem (V 0) (IVar (V 2))], at0. split; [repeat constructor; apply user_V|]. split; [repeat constructor; apply user_V|].
  do 2 eexists. split; [reflexivity|]. split; [reflexivity|]. intros [H _]. specialize (H 4). vm_compute in H. discriminate.
Qed.
Print Assumptions C31_subscript_refuted.

(* a[0], x = 1, a[i] with i = 0: the same element in other words *)
Theorem C31_alias_refuted : exists x i, idx_eqb (ILit 0) i = false /\ wrong [TElem (V 0) (ILit 0); TVar x] [ELit 1; EElem (V 0) i] at0.
Proof.
  exists (V 4), (IVar (V 2)). split; [reflexivity|]. do 2 eexists. split; [reflexivity|]. split; [reflexivity|]. intros [H _]. specialize (H 4). vm_compute in H. discriminate.
Qed.
Print Assumptions C31_alias_refuted.

(* i, a[i], x, y = 1, 2, i, a[i] with i = 1: the same words, but i was replaced by its old value *)
Definition at1 : state := set_scalar at0 (V 2) 1%Z.
Theorem C31_same_refuted : exists ts rs s, Forall flat_target ts /\ Forall flat rs /\ (forall t, In t ts -> exists a, leaf_of t = Some a /\ simple_leaf a = true) /\
  (exists a, In a (flat_map leaves rs) /\ a = LVar (V 2)) /\ wrong ts rs s.
Proof.
  exists [TVar (V 2); TElem (V 0) (IVar (V 2)); TVar (V 4); TVar (V 5)], [ELit 1; ELit 2; EVar (V 2); EElem (V 0) (IVar (V 2))], at1.
  split; [repeat constructor; apply user_V|]. split; [repeat constructor; apply user_V|]. split.
  { intros t [<-|[<-|[<-|[<-|[]]]]]; eexists; split; reflexivity. }
  split; [exists (LVar (V 2)); split; [left; reflexivity|reflexivity]|].
  do 2 eexists. split; [reflexivity|]. split; [reflexivity|]. intros [H _]. specialize (H 5). vm_compute in H. discriminate.
Qed.
Print Assumptions C31_same_refuted.

(* (x, y), z = (1, 2), x: the targets of a nested tuple are not saved *)
Theorem C31_nested_refuted : exists s, wrong [TTup [TVar (V 4); TVar (V 5)]; TVar (V 6)] [ETup [ELit 1; ELit 2]; EVar (V 4)] s.
Proof.
  exists at0. do 2 eexists. split; [reflexivity|]. split; [reflexivity|]. intros [H _]. specialize (H 6). vm_compute in H. discriminate.
Qed.
Print Assumptions C31_nested_refuted.

(* x, y = 1, 2, 3 is accepted and the last value is dropped: Python raises an exception *)
Theorem C31_length_refuted : exists ts rs code, Forall flat_target ts /\ Forall flat rs /\ unpack ts rs = Some code /\ forall s, py_assign ts rs s = None.
Proof.
  exists [TVar (V 4); TVar (V 5)], [ELit 1; ELit 2; ELit 3]. eexists. split; [repeat constructor; apply user_V|]. split; [repeat constructor|]. split; [reflexivity|]. reflexivity.
Qed.
Print Assumptions C31_length_refuted.

(* t = (t[1], t[0]) for a tuple t *)
Theorem C31_tuple_variable_refuted : exists x rs s i r, Forall flat rs /\ nth_error rs i = Some r /\ array (exec (rebind x rs) s) x (Z.of_nat i) <> eval s r.
Proof.
  exists (V 0), [EElem (V 0) (ILit 1); EElem (V 0) (ILit 0)], at0, 1. eexists. split; [repeat constructor; apply user_V|]. split; [reflexivity|]. vm_compute. discriminate.
Qed.
Print Assumptions C31_tuple_variable_refuted.
