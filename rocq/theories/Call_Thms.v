(* C60, C61: the arguments of calls. *)
From Coq Require Import Bool Arith ZArith Lia List.
From Verif Require Import Call_Model Call_Spec Call_Proofs Call_Wrap.
Import ListNotations.
Open Scope list_scope.

(* A call in translated code gives each parameter what Python gives it, or is an error in both. *)
Theorem C60_call_partial : forall s pos kws,
  valid s -> no_posonly_default s -> rest_ok s pos -> some_extra_keyword s pos kws ->
  translated_call s pos kws = py_bind s pos kws.
Proof. exact call_main. Qed.
Print Assumptions C60_call_partial.

(* def f(p, /, a, b=7, *args, k, m=None, **kw): f(1, 2, k=3, z=4) and f(1, 2, 5, 6, 8, k=3, z=4) *)
Definition f_all : sig := mk_sig [0%nat] [1%nat; 2%nat] [VInt 7] (Some 3%nat) [(4%nat, None); (5%nat, Some VNone)] (Some 6%nat).
Example C60_call_example :
  valid f_all /\ no_posonly_default f_all
  /\ (let pos := [VInt 1; VInt 2] in let kws := [(4%nat, VInt 3); (9%nat, VInt 4)] in
      rest_ok f_all pos /\ some_extra_keyword f_all pos kws
      /\ py_bind f_all pos kws = Some [(0%nat, BVal (VInt 1)); (1%nat, BVal (VInt 2)); (2%nat, BVal (VInt 7)); (3%nat, BTuple []);
                                       (4%nat, BVal (VInt 3)); (5%nat, BVal VNone); (6%nat, BDict [(9%nat, VInt 4)])])
  /\ (let pos := [VInt 1; VInt 2; VInt 5; VInt 6; VInt 8] in let kws := [(9%nat, VInt 4); (4%nat, VInt 3)] in
      rest_ok f_all pos /\ some_extra_keyword f_all pos kws
      /\ py_bind f_all pos kws = Some [(0%nat, BVal (VInt 1)); (1%nat, BVal (VInt 2)); (2%nat, BVal (VInt 5)); (3%nat, BTuple [VInt 6; VInt 8]);
                                       (4%nat, BVal (VInt 3)); (5%nat, BVal VNone); (6%nat, BDict [(9%nat, VInt 4)])]).
Proof.
  split; [split; [repeat constructor; cbn; intuition discriminate|cbn; lia]|].
  split; [unfold no_posonly_default; cbn; lia|]. split.
  - cbv zeta. split; [left; cbn; lia|]. split; [right; eexists; split; [reflexivity|]; cbn; intuition discriminate|reflexivity].
  - cbv zeta. split; [right; left; discriminate|]. split; [right; eexists; split; [reflexivity|]; cbn; intuition discriminate|reflexivity].
Qed.

(* What is an error in Python is an error in translated code: a missing argument, a name given twice,
   a name that is not a parameter, too many arguments *)
Theorem C60_error_partial : forall s pos kws,
  valid s -> no_posonly_default s -> rest_ok s pos -> kwarg s = None ->
  py_bind s pos kws = None -> translated_call s pos kws = None.
Proof. intros s pos kws V D R K E. rewrite <- E. apply call_main; auto. Qed.
Print Assumptions C60_error_partial.

Definition f_ab : sig := mk_sig [] [0%nat; 1%nat] [VInt 5] None [] None.
Example C60_error_example :
  valid f_ab /\ no_posonly_default f_ab /\ kwarg f_ab = None
  /\ (rest_ok f_ab [] /\ py_bind f_ab [] [(1%nat, VInt 1)] = None)
  /\ (rest_ok f_ab [VInt 1] /\ py_bind f_ab [VInt 1] [(0%nat, VInt 1)] = None)
  /\ (rest_ok f_ab [VInt 1; VInt 2; VInt 3] /\ py_bind f_ab [VInt 1; VInt 2; VInt 3] [] = None).
Proof.
  split; [split; [repeat constructor; cbn; intuition discriminate|cbn; lia]|].
  split; [unfold no_posonly_default; cbn; lia|]. split; auto.
  repeat split; try reflexivity; try (left; cbn; lia). right. right. auto.
Qed.

(* def f(a, b=1, /, c=2): the default of c is 1 in f(0, 0), as the defaults are matched with the
   parameters after the slash only *)
Theorem C60_posonly_default_refuted : exists s pos kws b1 b2, valid s /\ valid_keywords kws
  /\ py_bind s pos kws = Some b1 /\ translated_call s pos kws = Some b2 /\ b1 <> b2.
Proof.
  exists (mk_sig [0%nat; 1%nat] [2%nat] [VInt 1; VInt 2] None [] None), [VInt 0; VInt 0], [].
  eexists. eexists. split; [split; [repeat constructor; cbn; intuition discriminate|cbn; lia]|].
  split; [constructor|]. split; [reflexivity|]. split; [reflexivity|discriminate].
Qed.
Print Assumptions C60_posonly_default_refuted.

(* def f(a=1, /): f() is an error *)
Theorem C60_posonly_default_lost_refuted : exists s pos kws b, valid s /\ valid_keywords kws
  /\ py_bind s pos kws = Some b /\ translated_call s pos kws = None.
Proof.
  exists (mk_sig [0%nat] [] [VInt 1] None [] None), [], []. eexists.
  split; [split; [repeat constructor; cbn; intuition discriminate|cbn; lia]|].
  split; [constructor|]. split; reflexivity.
Qed.
Print Assumptions C60_posonly_default_lost_refuted.

(* def f(a, *, b): f(1, 2) is accepted *)
Theorem C60_keyword_only_refuted : exists s pos kws b, valid s /\ no_posonly_default s /\ valid_keywords kws
  /\ py_bind s pos kws = None /\ translated_call s pos kws = Some b.
Proof.
  exists (mk_sig [] [0%nat] [] None [(1%nat, None)] None), [VInt 1; VInt 2], []. eexists.
  split; [split; [repeat constructor; cbn; intuition discriminate|cbn; lia]|].
  split; [unfold no_posonly_default; cbn; lia|]. split; [constructor|]. split; reflexivity.
Qed.
Print Assumptions C60_keyword_only_refuted.

(* def f(a, **kw): f(1, a=2) is accepted, with kw = {a: 2} *)
Theorem C60_given_twice_refuted : exists s pos kws b, valid s /\ no_posonly_default s /\ valid_keywords kws
  /\ py_bind s pos kws = None /\ translated_call s pos kws = Some b.
Proof.
  exists (mk_sig [] [0%nat] [] None [] (Some 1%nat)), [VInt 1], [(0%nat, VInt 2)]. eexists.
  split; [split; [repeat constructor; cbn; intuition discriminate|cbn; lia]|].
  split; [unfold no_posonly_default; cbn; lia|]. split; [repeat constructor; cbn; tauto|]. split; reflexivity.
Qed.
Print Assumptions C60_given_twice_refuted.

(* def f(a, **kw): f(1) is an error *)
Theorem C60_no_extra_keyword_refuted : exists s pos kws b, valid s /\ no_posonly_default s /\ valid_keywords kws
  /\ py_bind s pos kws = Some b /\ translated_call s pos kws = None.
Proof.
  exists (mk_sig [] [0%nat] [] None [] (Some 1%nat)), [VInt 1], []. eexists.
  split; [split; [repeat constructor; cbn; intuition discriminate|cbn; lia]|].
  split; [unfold no_posonly_default; cbn; lia|]. split; [constructor|]. split; reflexivity.
Qed.
Print Assumptions C60_no_extra_keyword_refuted.

(* ------------------------------ calls from Python ------------------------------ *)

(* A call from Python of a translated function gives each parameter what Python gives it, or
   raises a TypeError exactly when Python does or an argument has the wrong type. *)
Theorem C61_wrapper_partial : forall s pos kws,
  valid s -> valid_keywords kws -> no_posonly_default s -> plain_keywords s -> vararg s = None -> kwarg s = None ->
  no_none s pos kws ->
  exists c, wrapped_call s pos kws = Some c /\ same_call c (py_call s pos kws).
Proof. exact wrap_main. Qed.
Print Assumptions C61_wrapper_partial.

(* def f(p, /, a, b=7, *, k=None): f(1, 2, k=3), f(1, k=3), f(1, 2, a=3), f(1, 2, 3, 4) and f(1, None) *)
Definition f_wrap : sig := mk_sig [0%nat] [1%nat; 2%nat] [VInt 7] None [(4%nat, Some VNone)] None.
Example C61_wrapper_example :
  valid f_wrap /\ no_posonly_default f_wrap /\ plain_keywords f_wrap
  /\ (no_none f_wrap [VInt 1; VInt 2] [] /\ wrapped_call f_wrap [VInt 1; VInt 2] []
        = Some (CCall [(0%nat, VInt 1); (1%nat, VInt 2); (2%nat, VInt 7); (4%nat, VNone)]))
  /\ (valid_keywords [(4%nat, VInt 3); (1%nat, VInt 2)] /\ no_none f_wrap [VInt 1] [(4%nat, VInt 3); (1%nat, VInt 2)]
      /\ wrapped_call f_wrap [VInt 1] [(4%nat, VInt 3); (1%nat, VInt 2)]
        = Some (CCall [(0%nat, VInt 1); (1%nat, VInt 2); (2%nat, VInt 7); (4%nat, VInt 3)]))
  /\ (no_none f_wrap [VInt 1] [(4%nat, VInt 3)] /\ wrapped_call f_wrap [VInt 1] [(4%nat, VInt 3)] = Some CTypeError)
  /\ (no_none f_wrap [VInt 1; VNone] [] /\ wrapped_call f_wrap [VInt 1; VNone] [] = Some CTypeError).
Proof.
  split; [split; [repeat constructor; cbn; intuition discriminate|cbn; lia]|].
  split; [unfold no_posonly_default; cbn; lia|].
  split; [left; cbn; intuition discriminate|].
  assert (T : forall pos kws, match py_bind f_wrap pos kws with
                              | None => True
                              | Some b => forall n z, In (n, BVal VNone) b -> default_of f_wrap n <> Some (VInt z) end -> no_none f_wrap pos kws).
  { intros pos kws H b n z E. rewrite E in H. auto. }
  repeat split; try reflexivity; try (repeat constructor; cbn; intuition discriminate); try (apply T; cbn; auto; intros n z I; intuition (try discriminate)).
  all: match goal with H : (_, _) = (?n, _) |- _ => injection H as H; subst; cbn in *; discriminate end.
Qed.

(* The parameters of the wrapped function are never read when they have not been set, for the
   functions above: neither undefined behaviour nor a SystemError *)
Theorem C61_defined_partial : forall s pos kws,
  valid s -> valid_keywords kws -> no_posonly_default s -> plain_keywords s -> vararg s = None -> kwarg s = None ->
  no_none s pos kws ->
  wrapped_call s pos kws <> Some CUndefined /\ wrapped_call s pos kws <> Some CSystemError.
Proof.
  intros s pos kws V VK D P VA KA N. destruct (wrap_main s pos kws V VK D P VA KA N) as [c [E H]]. rewrite E.
  split; intro Q; injection Q as Q; subst c; destruct (py_call s pos kws); exact H.
Qed.
Print Assumptions C61_defined_partial.

(* def f(a, b=2, *, k): f(1) is a TypeError, but the wrapper reads a pointer it has not set *)
Theorem C61_keyword_only_after_default_refuted : exists s pos kws,
  valid s /\ valid_keywords kws /\ no_posonly_default s /\ vararg s = None /\ kwarg s = None /\ no_none s pos kws
  /\ py_call s pos kws = PyTypeError /\ wrapped_call s pos kws = Some CUndefined.
Proof.
  exists (mk_sig [] [0%nat; 1%nat] [VInt 2] None [(2%nat, None)] None), [VInt 1], [].
  split; [split; [repeat constructor; cbn; intuition discriminate|cbn; lia]|].
  split; [constructor|]. split; [unfold no_posonly_default; cbn; lia|]. split; auto. split; auto.
  split; [intros b n z E; discriminate|]. split; reflexivity.
Qed.
Print Assumptions C61_keyword_only_after_default_refuted.

(* def f(a, *, k, m=3): every call with enough arguments is a SystemError *)
Theorem C61_default_after_keyword_only_refuted : exists s pos kws b,
  valid s /\ valid_keywords kws /\ no_posonly_default s /\ vararg s = None /\ kwarg s = None /\ no_none s pos kws
  /\ py_call s pos kws = PyCall b /\ wrapped_call s pos kws = Some CSystemError.
Proof.
  exists (mk_sig [] [0%nat] [] None [(1%nat, None); (2%nat, Some (VInt 3))] None), [VInt 1], [(1%nat, VInt 2)].
  eexists. split; [split; [repeat constructor; cbn; intuition discriminate|cbn; lia]|].
  split; [repeat constructor; cbn; tauto|]. split; [unfold no_posonly_default; cbn; lia|]. split; auto. split; auto.
  split; [|split; reflexivity]. intros b n z E I. injection E as E. subst b. cbn in I. intuition discriminate.
Qed.
Print Assumptions C61_default_after_keyword_only_refuted.

(* def f(a, b=2): f(1, None) is called with 2 *)
Theorem C61_none_refuted : exists s pos kws l,
  valid s /\ valid_keywords kws /\ no_posonly_default s /\ plain_keywords s /\ vararg s = None /\ kwarg s = None
  /\ py_call s pos kws = PyTypeError /\ wrapped_call s pos kws = Some (CCall l).
Proof.
  exists f_ab, [VInt 1; VNone], []. eexists.
  split; [split; [repeat constructor; cbn; intuition discriminate|cbn; lia]|].
  split; [constructor|]. split; [unfold no_posonly_default; cbn; lia|].
  split; [left; cbn; tauto|]. repeat split; reflexivity.
Qed.
Print Assumptions C61_none_refuted.

(* def f(a=1, /): f() is a TypeError *)
Theorem C61_posonly_default_refuted : exists s pos kws b,
  valid s /\ valid_keywords kws /\ plain_keywords s /\ vararg s = None /\ kwarg s = None /\ no_none s pos kws
  /\ py_call s pos kws = PyCall b /\ wrapped_call s pos kws = Some CTypeError.
Proof.
  exists (mk_sig [0%nat] [] [VInt 1] None [] None), [], []. eexists.
  split; [split; [repeat constructor; cbn; intuition discriminate|cbn; lia]|].
  split; [constructor|]. split; [left; cbn; tauto|]. split; auto. split; auto.
  split; [|split; reflexivity]. intros b n z E I. injection E as E. subst b. cbn in I. intuition discriminate.
Qed.
Print Assumptions C61_posonly_default_refuted.
