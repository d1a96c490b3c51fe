(** C81 and C82: the memory behind the objects of a compiled module. *)

From Coq Require Import List Bool Arith Relations Lia.
From Verif Require Import Life_Model Life_Spec Life_Proofs.
Import ListNotations.

(** ** C81: what an object shows has not been released *)

(** Whatever is done with arrays and instances, in any order: the objects the
    user holds exist and nothing which can be reached through an existing object,
    its attributes and their attributes was released.  Partial: pointers are only
    stored in an object which is not an alias, by its own methods or by setting an
    attribute; attributes which are instances are not read; attributes which are
    arrays are not replaced by a method; functions which create an instance do not
    make it point at their arguments (see the theorems below). *)
Theorem C81_alive_partial : forall L ops,
  tame_run L ops empty ->
  exists st, run L ops empty = Ok st /\
    (forall o, In o (names st) -> exists_obj st o) /\
    (forall o m, exists_obj st o -> sees st o m -> alive st m).
Proof. exact alive_lemma. Qed.
Print Assumptions C81_alive_partial.

(** Nothing is released twice and no released memory or object is used. *)
Theorem C81_once_partial : forall L ops,
  tame_run L ops empty -> run L ops empty <> Fault /\ run L ops empty <> Fuel.
Proof.
  intros L ops T. destruct (alive_lemma L ops T) as (st & -> & _). split; discriminate.
Qed.
Print Assumptions C81_once_partial.

(** a method storing its argument, a function returning a pointer to part of its
    argument and one returning its argument *)
Definition set_x : func := Fn true [SPoint 0 0 (SArg 1)] RNone.
Definition part_of : func := Fn false [] (RPtrArr [SArg 0] 0).
Definition get_x : func := Fn true [] (RPtrArr [SAttr 0 0] 0).
Definition ident : func := Fn false [] (RPtrInst [SArg 0] 0).
Definition make_new : func := Fn false [] RNewArr.

Definition long_history : list op :=
  [NewArr; New [KPtr true; KArr] set_x [0]; Del 0; Get 1 0; Get 1 1; Call ident [1];
   Del 1; Call get_x [4]; Del 4; Del 2; View 5; Call make_new []; Call part_of [8];
   Del 8; New [KPtr true] set_x [9]; Set_ 10 0 6; Del 9; Del 6; Copy 10; Get 10 0].

Definition is_ok (r : res state) : bool := match r with Ok _ => true | _ => false end.

Definition final (L : lang) (ops : list op) : state :=
  match run L ops empty with Ok st => st | _ => empty end.

Lemma final_ok L ops : is_ok (run L ops empty) = true -> run L ops empty = Ok (final L ops).
Proof. unfold final. destruct (run L ops empty); try discriminate. reflexivity. Qed.

Example C81_example :
  tame_run LC long_history empty /\
  exists st, run LC long_history empty = Ok st /\ length (names st) = 5.
Proof.
  split; [apply tame_runb_ok; vm_compute; reflexivity|].
  exists (final LC long_history). split; [apply final_ok|]; vm_compute; reflexivity.
Qed.

(** A function which creates an instance pointing at its argument and returns it
    does not keep the argument: result_pointer_map only knows results which are
    themselves pointers. *)
Theorem C81_factory_refuted : forall L, exists ops st o m,
  run L ops empty = Ok st /\ In o (names st) /\ sees st o m /\ ~ alive st m.
Proof.
  intros L.
  exists [NewArr; Call (Fn false [] (RNewInst [KPtr true] [(0, SArg 0)])) [0]; Del 0].
  exists (final L [NewArr; Call (Fn false [] (RNewInst [KPtr true] [(0, SArg 0)])) [0]; Del 0]).
  exists 1, 0. split; [apply final_ok; destruct L; vm_compute; reflexivity|].
  split; [destruct L; vm_compute; auto|]. split.
  - exists 1. split; [eapply shows_inst; destruct L; vm_compute; reflexivity|].
    apply rt_step. eapply leads_ptr; [destruct L; vm_compute; reflexivity|vm_compute; auto].
  - intros (c & H). destruct L; vm_compute in H; discriminate.
Qed.
Print Assumptions C81_factory_refuted.

(** A pointer stored through an alias is kept by the alias only: when the alias
    is gone the instance still points at what was released. *)
Theorem C81_alias_refuted : forall L, exists ops st o m,
  run L ops empty = Ok st /\ In o (names st) /\ sees st o m /\ ~ alive st m.
Proof.
  intros L.
  pose (ops := [New [KPtr true] (Fn true [] RNone) []; Call ident [0]; NewArr; Set_ 1 0 2; Del 1; Del 2]).
  exists ops, (final L ops), 0, (match L with LC => 2 | LFortran => 1 end).
  split; [apply final_ok; destruct L; vm_compute; reflexivity|].
  split; [destruct L; vm_compute; auto|]. split.
  - exists 0. split; [eapply shows_inst; destruct L; vm_compute; reflexivity|].
    apply rt_step. destruct L; (eapply leads_ptr; [vm_compute; reflexivity|vm_compute; auto]).
  - intros (c & H). destruct L; vm_compute in H; discriminate.
Qed.
Print Assumptions C81_alias_refuted.

(** A function (not a method) which stores one argument in another one keeps
    nothing. *)
Theorem C81_function_refuted : forall L, exists ops st o m,
  run L ops empty = Ok st /\ In o (names st) /\ sees st o m /\ ~ alive st m.
Proof.
  intros L.
  pose (ops := [New [KPtr true] (Fn true [] RNone) []; NewArr;
                Call (Fn false [SPoint 0 0 (SArg 1)] RNone) [0; 1]; Del 1]).
  exists ops, (final L ops), 0, 1. split; [apply final_ok; destruct L; vm_compute; reflexivity|].
  split; [destruct L; vm_compute; auto|]. split.
  - exists 0. split; [eapply shows_inst; destruct L; vm_compute; reflexivity|].
    apply rt_step. destruct L; (eapply leads_ptr; [vm_compute; reflexivity|vm_compute; auto]).
  - intros (c & H). destruct L; vm_compute in H; discriminate.
Qed.
Print Assumptions C81_function_refuted.

(** Reading an attribute which is an instance gives an object that thinks it owns
    the attribute: once it is gone, so is the attribute, and the end of the first
    object releases the same memory again. *)
Theorem C81_attribute_refuted : forall L, exists ops st o m,
  run L ops empty = Ok st /\ In o (names st) /\ sees st o m /\ ~ alive st m /\
  run L (ops ++ [Del o]) empty = Fault.
Proof.
  intros L. pose (ops := [New [KInst] (Fn true [] RNone) []; Get 0 0; Del 1]).
  exists ops, (final L ops), 0, 0. split; [apply final_ok; destruct L; vm_compute; reflexivity|].
  split; [destruct L; vm_compute; auto|]. split; [|split].
  - exists 1. split; [eapply shows_inst; destruct L; vm_compute; reflexivity|].
    apply rt_step. destruct L; (eapply leads_inst; [vm_compute; reflexivity|vm_compute; auto]).
  - intros (c & H). destruct L; vm_compute in H; discriminate.
  - destruct L; vm_compute; reflexivity.
Qed.
Print Assumptions C81_attribute_refuted.

(** An array obtained from an attribute is lost when a method replaces the
    attribute by an array of another size. *)
Theorem C81_realloc_refuted : forall L, exists ops st o m,
  run L ops empty = Ok st /\ In o (names st) /\ sees st o m /\ ~ alive st m.
Proof.
  intros L.
  pose (ops := [New [KArr] (Fn true [] RNone) []; Get 0 0; Call (Fn true [SRealloc 0 0] RNone) [0]]).
  exists ops, (final L ops), 1, 0. split; [apply final_ok; destruct L; vm_compute; reflexivity|].
  split; [destruct L; vm_compute; auto|]. split.
  - exists 0. split; [eapply shows_arr; destruct L; vm_compute; reflexivity|apply rt_refl].
  - intros (c & H). destruct L; vm_compute in H; discriminate.
Qed.
Print Assumptions C81_realloc_refuted.

(** ** C82: what cannot be reached is released *)

(** When no object leads back to itself, every object that exists is reached from
    one the user holds, and so is all memory.  Partial: as above, and modules in C
    make no alias for an instance. *)
Theorem C82_release_partial : forall L ops st,
  tame_run L ops empty -> quiet_run L ops empty -> run L ops empty = Ok st -> acyclic st ->
  (forall o, exists_obj st o -> exists n, In n (names st) /\ holds st n o) /\
  (forall m, alive st m -> exists n o, In n (names st) /\ holds st n o /\ sees st o m).
Proof. exact release_lemma. Qed.
Print Assumptions C82_release_partial.

(** In particular nothing is left when the user holds nothing. *)
Theorem C82_all_partial : forall L ops st,
  tame_run L ops empty -> quiet_run L ops empty -> run L ops empty = Ok st -> acyclic st ->
  names st = [] -> (forall o, ~ exists_obj st o) /\ (forall m, ~ alive st m).
Proof.
  intros L ops st T Q R A N. destruct (release_lemma L ops st T Q R A) as [H1 H2].
  rewrite N in *. split.
  - intros o H. destruct (H1 o H) as (n & [] & _).
  - intros m H. destruct (H2 m H) as (n & o & [] & _).
Qed.
Print Assumptions C82_all_partial.

Definition short_history : list op :=
  [NewArr; New [KPtr true; KArr] set_x [0]; Call get_x [1]; Del 0; Del 1; Del 2].

Example C82_example : exists st,
  tame_run LFortran short_history empty /\ quiet_run LFortran short_history empty /\
  run LFortran short_history empty = Ok st /\ acyclic st /\ names st = [].
Proof.
  exists (final LFortran short_history).
  split; [|split; [|split; [apply final_ok; vm_compute; reflexivity|split; [|vm_compute; reflexivity]]]].
  - apply tame_runb_ok. vm_compute. reflexivity.
  - apply quiet_fortran.
  - exists (fun x => x). intros o k (ob & H & _). exfalso.
    vm_compute in H. do 4 (destruct o as [|o]; [discriminate|]). discriminate.
Qed.

(** An instance which points at itself is never released: the types take no part
    in the collection of cycles. *)
Theorem C82_cycle_refuted : forall L, exists ops st,
  tame_run L ops empty /\ quiet_run L ops empty /\
  run L ops empty = Ok st /\ names st = [] /\
  exists_obj st 0 /\ alive st 0.
Proof.
  intros L. pose (ops := [New [KPtr false] (Fn true [] RNone) []; Set_ 0 0 0; Del 0]).
  exists ops, (final L ops).
  split; [|split; [|split; [apply final_ok; destruct L; vm_compute; reflexivity|split; [destruct L; vm_compute; reflexivity|]]]].
  - apply tame_runb_ok. destruct L; vm_compute; reflexivity.
  - destruct L; [|apply quiet_fortran]. cbn [quiet_run ops].
    repeat (split; [right; exact I|]; match goal with |- context [step ?a ?b ?c] => destruct (step a b c) end).
    all: exact I.
  - split; destruct L; eexists; vm_compute; reflexivity.
Qed.
Print Assumptions C82_cycle_refuted.

(** In C the memory which was allocated for an instance is lost when the result
    is a pointer to another one. *)
Theorem C82_alias_refuted : exists ops st m,
  tame_run LC ops empty /\ run LC ops empty = Ok st /\ names st = [] /\
  (forall o, ~ exists_obj st o) /\ alive st m.
Proof.
  pose (ops := [New [] (Fn true [] RNone) []; Call ident [0]; Del 1; Del 0]).
  exists ops, (final LC ops), 1.
  split; [|split; [apply final_ok; vm_compute; reflexivity|split; [vm_compute; reflexivity|split]]].
  - apply tame_runb_ok. vm_compute. reflexivity.
  - intros o (ob & H). vm_compute in H. do 3 (destruct o as [|o]; [discriminate|]). discriminate.
  - eexists. vm_compute. reflexivity.
Qed.
Print Assumptions C82_alias_refuted.

(** An instance keeps every array that was ever stored in one of its attributes:
    after n assignments all of them are alive although only the last one can be
    seen. *)
Theorem C82_stale_refuted : forall L n, exists st,
  run L (New [KPtr true] (Fn true [] RNone) [] :: assign_again 1 n) empty = Ok st /\
  names st = [0] /\
  forall j, S j < n -> exists m, shows st (S j) m /\ alive st m /\ ~ sees st 0 m.
Proof. exact stale_lemma. Qed.
Print Assumptions C82_stale_refuted.
