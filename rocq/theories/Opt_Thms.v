(* C66: conditions on optional arguments *)
From Coq Require Import Bool Arith ZArith Lia List String.
From Verif Require Import Opt_Model Opt_Spec Opt_Proofs.
Import ListNotations.
Open Scope list_scope.
Open Scope string_scope.

(* Partial: conditions without calls, divisions, optional booleans alone and `not v`; each
   argument whose value is used in a condition was given or is checked in that condition; in a
   branch which is not the last, at most one argument is checked and used.  For all such ifs,
   all states (arguments given or not), C and Fortran: the same body is run as in Python, and no
   argument is read that was not given *)
Theorem C66_branch_partial : forall g st s x t r,
  translate s = Some x ->
  Forall (fun b => simple (fst b) = true) (branches s) ->
  Forall (fun b => guarded st (fst b)) (branches s) ->
  Forall (fun b => one (fst b)) (early s) ->
  py_if st s = Some (t, r) -> run g st x = Some (t, r).
Proof. exact translate_right. Qed.
Print Assumptions C66_branch_partial.

(* No error is reported if arguments are tested only as operands of `and` *)
Theorem C66_accepted : forall s,
  Forall (fun b => clean (fst b) = true) (branches s) -> translate s <> None.
Proof. exact translate_some. Qed.
Print Assumptions C66_accepted.

Definition num (n : Z) : term := Const n.
Definition pos (v : string) : pcond := PLess (num 0) (Opt v).

(* if x < 1 and a is not None and 0 < a: 0
   elif b is None: 1
   elif a and b is not None and b < a + x: 2 *)
Definition example : pif := mk_if
  [(PAnd (PLess (Local "x") (num 1)) (PAnd (PPresent "a") (pos "a")), 0);
   (PMissing "b", 1);
   (PAnd (PTerm (Opt "a")) (PAnd (PPresent "b") (PLess (Opt "b") (Plus (Opt "a") (Local "x")))), 2)]
  None.

Definition args (a b : option Z) (x : Z) : state :=
  mk (fun _ => x) (fun v => if String.eqb v "a" then a else if String.eqb v "b" then b else None).

Lemma example_guarded : forall st,
  Forall (fun b => guarded st (fst b)) (branches example) /\
  Forall (fun b => one (fst b)) (early example).
Proof.
  intros st. split; repeat (apply Forall_cons || apply Forall_nil); cbn [fst].
  - intros v V. right. cbn in *. intuition auto.
  - intros v V. destruct V.
  - intros v V. right. cbn in *. intuition auto.
  - intros v w V W. cbn in V, W. intuition congruence.
  - intros v w V. destruct V.
Qed.

Example C66_example :
  Forall (fun b => simple (fst b) = true) (branches example) /\
  Forall (fun b => clean (fst b) = true) (branches example) /\
  (exists x, translate example = Some x /\ before x <> [] /\
     py_if (args (Some 4) None 0)%Z example = Some ([], Some 0) /\
     run Fortran (args (Some 4) None 0)%Z x = Some ([], Some 0) /\
     run Fortran (args None None 0)%Z x = Some ([], Some 1) /\
     run C (args (Some 4) (Some 3) 2)%Z x = Some ([], Some 2) /\
     run Fortran (args None (Some 3) 2)%Z x = Some ([], None)).
Proof.
  split; [repeat constructor |]. split; [repeat constructor |].
  eexists. split; [vm_compute; reflexivity |]. vm_compute. repeat split. discriminate.
Qed.

(* if a is not None and b is not None and a < b: .. else: ..: the statements put before the if
   are in the wrong order, and a is read although it was not given *)
Theorem C66_two_arguments_refuted :
  exists s x st, translate s = Some x /\
    Forall (fun b => simple (fst b) = true /\ guarded st (fst b)) (branches s) /\
    py_if st s = Some ([], Some 1) /\ run C st x = None /\ run Fortran st x = None.
Proof.
  exists (mk_if [(PAnd (PPresent "a") (PAnd (PPresent "b") (PLess (Opt "a") (Opt "b"))), 0)]
                (Some 1)).
  eexists. exists (args None (Some 1) 0)%Z. split; [vm_compute; reflexivity |].
  split; [| vm_compute; auto].
  apply Forall_cons; [| apply Forall_nil]. split; [reflexivity |].
  intros v V. right. cbn in *. intuition auto.
Qed.
Print Assumptions C66_two_arguments_refuted.

(* if x < 1: .. elif a is not None and 9 // x < a: .. else: ..: the second condition is computed
   before the first is tested *)
Theorem C66_elif_refuted :
  exists s x st, translate s = Some x /\
    py_if st s = Some ([], Some 0) /\ run C st x = None /\ run Fortran st x = None.
Proof.
  exists (mk_if [(PLess (Local "x") (num 1), 0);
                 (PAnd (PPresent "a") (PLess (Quot (num 9) (Local "x")) (Opt "a")), 1)] (Some 2)).
  eexists. exists (args (Some 1) None 0)%Z. split; vm_compute; auto.
Qed.
Print Assumptions C66_elif_refuted.

(* if f() and a is not None and 0 < a: f is not called if a was not given *)
Theorem C66_effects_refuted :
  exists s x st, translate s = Some x /\
    py_if st s = Some ([7%Z], None) /\ run C st x = Some ([], None) /\
    run Fortran st x = Some ([], None).
Proof.
  exists (mk_if [(PAnd (PCall 7 true) (PAnd (PPresent "a") (pos "a")), 0)] None).
  eexists. exists (args None None 0)%Z. split; vm_compute; auto.
Qed.
Print Assumptions C66_effects_refuted.

(* if a: for an optional boolean *)
Theorem C66_boolean_refuted :
  exists s x st, translate s = Some x /\
    py_if st s = Some ([], None) /\ run C st x = None /\ run Fortran st x = None.
Proof.
  exists (mk_if [(PFlag "a", 0)] None).
  eexists. exists (args None None 0)%Z. split; vm_compute; auto.
Qed.
Print Assumptions C66_boolean_refuted.

(* if not a: for an optional integer *)
Theorem C66_not_refuted :
  exists s x st, translate s = Some x /\
    py_if st s = Some ([], Some 0) /\ run C st x = None /\ run Fortran st x = None.
Proof.
  exists (mk_if [(PNot (PTerm (Opt "a")), 0)] None).
  eexists. exists (args None None 0)%Z. split; vm_compute; auto.
Qed.
Print Assumptions C66_not_refuted.

(* In Fortran: if a is None or a < 3, and, for an optional boolean, if a is not None and a *)
Theorem C66_fortran_refuted :
  forall s, s = mk_if [(POr (PMissing "a") (PLess (Opt "a") (num 3)), 0)] None \/
            s = mk_if [(PAnd (PPresent "a") (PFlag "a"), 0)] None ->
  exists x st r, translate s = Some x /\
    py_if st s = Some ([], r) /\ run C st x = Some ([], r) /\ run Fortran st x = None.
Proof.
  intros s [-> | ->]; eexists; exists (args None None 0)%Z; eexists;
    (split; [vm_compute; reflexivity |]); vm_compute; auto.
Qed.
Print Assumptions C66_fortran_refuted.
