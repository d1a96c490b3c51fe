(* C79: the signatures in stub files. *)
From Coq Require Import Bool Arith ZArith Lia List.
From Verif Require Import Call_Model Call_Spec Sign_Model Sign_Spec Sign_Proofs.
Import ListNotations.
Open Scope list_scope.

(* Python reads from the signature that is written the parameters of the function. *)
Theorem C79_signature_partial : forall s, no_posonly_default s -> one_mark s ->
  python_reads (signature (visit_arguments s)) = Some s.
Proof. exact signature_main. Qed.
Print Assumptions C79_signature_partial.

(* def f(p, /, a, b=7, *args, k, m=None, **kw) and def f(a, b=7, *, k) *)
Example C79_signature_example :
  (let s := mk_sig [0] [1; 2] [VInt 7] (Some 3) [(4, None); (5, Some VNone)] (Some 6) in
   valid s /\ no_posonly_default s /\ one_mark s
   /\ signature (visit_arguments s) =
      [IParam 0 None; ISlash; IParam 1 None; IParam 2 (Some (VInt 7)); IVar 3; IParam 4 None; IParam 5 (Some VNone); IKw 6])
  /\ (let s := mk_sig [] [1; 2] [VInt 7] None [(4, None)] None in
   valid s /\ no_posonly_default s /\ one_mark s
   /\ signature (visit_arguments s) = [IParam 1 None; IParam 2 (Some (VInt 7)); IStar; IParam 4 None]).
Proof.
  cbv zeta. split.
  - split; [split; [repeat constructor; cbn; intuition discriminate|cbn; lia]|].
    split; [unfold no_posonly_default; cbn; lia|]. split; [right; right; discriminate|reflexivity].
  - split; [split; [repeat constructor; cbn; intuition discriminate|cbn; lia]|].
    split; [unfold no_posonly_default; cbn; lia|]. split; [left; reflexivity|reflexivity].
Qed.

(* With both a / and a bare *, it is always another function, or no Python at all. *)
Theorem C79_marks_refuted : forall s, no_posonly_default s -> ~ one_mark s ->
  python_reads (signature (visit_arguments s)) <> Some s.
Proof. exact signature_wrong. Qed.
Print Assumptions C79_marks_refuted.

(* def f(a, /, b, *, c): the stub has (a, /, *, b, c), which does not allow f(1, 2, c=3) *)
Theorem C79_call_refuted : exists s s' pos kws b, valid s /\ no_posonly_default s /\ ~ one_mark s
  /\ python_reads (signature (visit_arguments s)) = Some s'
  /\ py_bind s pos kws = Some b /\ py_bind s' pos kws = None.
Proof.
  exists (mk_sig [0] [1] [] None [(2, None)] None). eexists. exists [VInt 1; VInt 2], [(2, VInt 3)]. eexists.
  split; [split; [repeat constructor; cbn; intuition discriminate|cbn; lia]|].
  split; [unfold no_posonly_default; cbn; lia|]. split; [intros [H|[H|H]]; try discriminate; apply H; reflexivity|].
  split; [vm_compute; reflexivity|]. split; vm_compute; reflexivity.
Qed.
Print Assumptions C79_call_refuted.

(* def f(a, /, *, c): the stub has (a, *, /, c) *)
Theorem C79_syntax_refuted : exists s, valid s /\ no_posonly_default s
  /\ signature (visit_arguments s) = [IParam 0 None; IStar; ISlash; IParam 2 None]
  /\ python_reads (signature (visit_arguments s)) = None.
Proof.
  exists (mk_sig [0] [] [] None [(2, None)] None).
  split; [split; [repeat constructor; cbn; intuition discriminate|cbn; lia]|].
  split; [unfold no_posonly_default; cbn; lia|]. split; reflexivity.
Qed.
Print Assumptions C79_syntax_refuted.

(* def f(a, b=1, /): the default is lost *)
Theorem C79_default_refuted : exists s s', valid s /\ one_mark s
  /\ python_reads (signature (visit_arguments s)) = Some s' /\ defaults s <> [] /\ defaults s' = [].
Proof.
  exists (mk_sig [0; 1] [] [VInt 1] None [] None). eexists.
  split; [split; [repeat constructor; cbn; intuition discriminate|cbn; lia]|].
  split; [right; left; reflexivity|]. split; [vm_compute; reflexivity|]. split; [discriminate|reflexivity].
Qed.
Print Assumptions C79_default_refuted.

(* Methods without positional-only parameters. *)
Theorem C79_method_partial : forall s, no_posonly_default s -> posonly s = [] -> args s <> [] ->
  exists fa, visit_method s = Some fa /\ python_reads (signature fa) = Some s.
Proof. exact method_main. Qed.
Print Assumptions C79_method_partial.

(* def m(self, a=1, *, k) *)
Example C79_method_example :
  let s := mk_sig [] [0; 1] [VInt 1] None [(2, None)] None in
  valid s /\ no_posonly_default s /\ posonly s = [] /\ args s <> []
  /\ option_map signature (visit_method s) = Some [IParam 0 None; IParam 1 (Some (VInt 1)); IStar; IParam 2 None].
Proof.
  cbv zeta. split; [split; [repeat constructor; cbn; intuition discriminate|cbn; lia]|].
  split; [unfold no_posonly_default; cbn; lia|]. split; [reflexivity|]. split; [discriminate|reflexivity].
Qed.

(* def m(self, a, /): a may be given by name in the stub *)
Theorem C79_method_refuted : exists s fa s' pos kws b, valid s /\ no_posonly_default s
  /\ visit_method s = Some fa /\ python_reads (signature fa) = Some s'
  /\ py_bind s pos kws = None /\ py_bind s' pos kws = Some b.
Proof.
  exists (mk_sig [0; 1] [] [] None [] None). eexists _, _. exists [VInt 5], [(1, VInt 6)]. eexists.
  split; [split; [repeat constructor; cbn; intuition discriminate|cbn; lia]|].
  split; [unfold no_posonly_default; cbn; lia|]. split; [vm_compute; reflexivity|].
  split; [vm_compute; reflexivity|]. split; vm_compute; reflexivity.
Qed.
Print Assumptions C79_method_refuted.
