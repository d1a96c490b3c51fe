(* C100: elements and slices of inhomogeneous tuples are those of Python. *)
From Coq Require Import ZArith List Bool Lia.
From Verif Require Import Tidx_Model Tidx_Spec Tidx_Proofs.
Import ListNotations.
Open Scope Z_scope.

(* Expressions with tuples that are written out, tuple variables and any number of indices and slices without steps:
   what is accepted has the value of Python. *)
Theorem C100_value_partial : forall env e o, no_steps e = true -> visit env e = Ok o ->
  python (values env) e = Some (value o).
Proof. intros env e o N V. pose proof (visit_value env e N) as H. now rewrite V in H. Qed.
Print Assumptions C100_value_partial.
(* t = (1, (2, 3), 4); (5, t[1:], 6)[-2][0][-3:9] is (2, 3) *)
Definition ex_env (x : nat) : option obj :=
  match x with O => Some (OVar [OScalar 1; OVar [OScalar 2; OScalar 3]; OScalar 4]) | _ => None end.
Definition ex_e : expr :=
  EIdx (EIdx (EIdx (ETup [ENum 5; EIdx (EVar 0) (Sl (Some (Lit 1)) None None); ENum 6]) (At (Neg 2))) (At (Lit 0))) (Sl (Some (Neg 3)) (Some (Lit 9)) None).
Example C100_value_ex : no_steps ex_e = true /\ visit ex_env ex_e = Ok (OTup [OScalar 2; OScalar 3]) /\
  python (values ex_env) ex_e = Some (Tup [Num 2; Num 3]).
Proof. split; [|split]; reflexivity. Qed.

(* With literal indices that are not negative, literal bounds and no steps, exactly the programs that do not raise are accepted. *)
Theorem C100_accepted_partial : forall env e, no_steps e = true -> plain_indices e = true ->
  ((exists o, visit env e = Ok o) <-> python (values env) e <> None).
Proof.
  intros env e N P. split.
  - intros [o V] H. pose proof (visit_value env e N) as Q. rewrite V in Q. cbn in Q. congruence.
  - apply (visit_accepts env e N P).
Qed.
Print Assumptions C100_accepted_partial.
Example C100_accepted_ex : let e := EIdx (EIdx (EVar 0) (Sl None (Some (Neg 1)) None)) (At (Lit 1)) in
  no_steps e = true /\ plain_indices e = true /\ python (values ex_env) e = Some (Tup [Num 2; Num 3]).
Proof. split; [|split]; reflexivity. Qed.

(* Tuples that are written out: any literal index and slice, with any step, has the value of Python, and is refused if Python raises. *)
Theorem C100_literal_partial : forall env e l a b s n, visit env e = Ok (OTup l) ->
  lit a = true -> lit b = true -> lit s = true -> lit (Some n) = true ->
  (visit env (EIdx e (At n)) = match py_at l (number n) with Some o => Ok o | None => Rejected end) /\
  (visit env (EIdx e (Sl a b s)) = match py_slice l (option_map number a) (option_map number b) (option_map number s) with
                                   | Some r => Ok (OTup r) | None => Rejected end).
Proof.
  intros env e l a b s n V A B S N. cbn [visit]. rewrite V. cbn [item tuple_item].
  rewrite <- (lit_literal (Some n)), <- (lit_literal a), <- (lit_literal b), <- (lit_literal s), A, B, S, N.
  cbn [andb]. rewrite host_at_ok, host_slice_ok, to_int_number, !to_int_map. split; reflexivity.
Qed.
Print Assumptions C100_literal_partial.
(* (1, 2, 3, 4)[-1:0:-2] is (4, 2) *)
Example C100_literal_ex : py_slice [1; 2; 3; 4] (Some (-1)) (Some 0) (Some (-2)) = Some [4; 2] /\
  py_slice [1; 2; 3; 4] None None (Some 0) = None /\ py_at [1; 2; 3; 4] (-5) = None /\ py_at [1; 2; 3; 4] (-4) = Some 1.
Proof. repeat split. Qed.

(* Tuple variables: the step of a slice has no effect. With a step of two or more the result is too long
   whenever the slice without the step has two elements. *)
Theorem C100_step_refuted : forall env e l a b s r, no_steps e = true -> visit env e = Ok (OVar l) ->
  lit a = true -> lit b = true -> 1 < number s ->
  visit env (EIdx e (Sl a b None)) = Ok (OTup r) -> (2 <= length r)%nat ->
  visit env (EIdx e (Sl a b (Some s))) = Ok (OTup r) /\
  exists vs, python (values env) (EIdx e (Sl a b (Some s))) = Some (Tup vs) /\ (length vs < length r)%nat.
Proof.
  intros env e l a b s r N V A B S R L. pose proof (visit_value env e N) as Q. rewrite V in Q.
  exact (step_wrong env e l a b s _ V Q eq_refl A B S r R L).
Qed.
Print Assumptions C100_step_refuted.
(* t[::2] is t *)
Example C100_step_ex : visit ex_env (EIdx (EVar 0) (Sl None None (Some (Lit 2)))) =
    Ok (OTup [OScalar 1; OVar [OScalar 2; OScalar 3]; OScalar 4]) /\
  python (values ex_env) (EIdx (EVar 0) (Sl None None (Some (Lit 2)))) = Some (Tup [Num 1; Num 4]).
Proof. split; reflexivity. Qed.

(* t[::-1] has the elements of t in their order, and t[::0] is accepted. *)
Theorem C100_reverse_refuted : forall env e l, no_steps e = true -> visit env e = Ok (OVar l) ->
  visit env (EIdx e (Sl None None (Some (Neg 1)))) = Ok (OTup l) /\
  python (values env) (EIdx e (Sl None None (Some (Neg 1)))) = Some (Tup (rev (map value l))) /\
  visit env (EIdx e (Sl None None (Some (Lit 0)))) = Ok (OTup l) /\
  python (values env) (EIdx e (Sl None None (Some (Lit 0)))) = None.
Proof.
  intros env e l N V. pose proof (visit_value env e N) as Q. rewrite V in Q. cbn [agree] in Q.
  assert (K : forall s, visit env (EIdx e (Sl None None s)) = Ok (OTup l)).
  { intros s. rewrite (var_slice env e l None None s V eq_refl eq_refl). cbn [option_map]. now rewrite positions_all, elements_all. }
  split; [apply K|]. split; [|split; [apply K|]].
  - cbn [python]. rewrite Q. cbn [value py_item option_map number]. unfold py_slice. cbv zeta.
    change (- Z.of_nat 1 =? 0) with false. cbv iota. change (- Z.of_nat 1) with (-1). rewrite positions_back, elements_rev, elements_all. reflexivity.
  - cbn [python]. rewrite Q. reflexivity.
Qed.
Print Assumptions C100_reverse_refuted.
Example C100_reverse_ex : no_steps (EVar 0) = true /\ exists l, visit ex_env (EVar 0) = Ok (OVar l) /\ rev (map value l) <> map value l.
Proof. split; [reflexivity|]. eexists. split; [reflexivity|]. cbn. discriminate. Qed.

(* Negative indices of tuple variables, which Python accepts, are refused. *)
Theorem C100_negative_refuted : forall env e l n, no_steps e = true -> visit env e = Ok (OVar l) -> (0 < n <= length l)%nat ->
  visit env (EIdx e (At (Neg n))) = Rejected /\
  python (values env) (EIdx e (At (Neg n))) = nth_error (map value l) (length l - n) /\ nth_error l (length l - n) <> None.
Proof.
  intros env e l n N V B. pose proof (visit_value env e N) as Q. rewrite V in Q. cbn [agree] in Q.
  split; [cbn; now rewrite V|]. split.
  - cbn [python]. rewrite Q. cbn [value py_item number]. unfold py_at, from_end. rewrite map_length.
    destruct (Z.ltb_spec (- Z.of_nat n) 0); [|lia]. destruct (Z.leb_spec 0 (Z.of_nat (length l) + - Z.of_nat n)); [|lia].
    f_equal. lia.
  - apply nth_error_Some. lia.
Qed.
Print Assumptions C100_negative_refuted.
Example C100_negative_ex : visit ex_env (EIdx (EVar 0) (At (Neg 1))) = Rejected /\ python (values ex_env) (EIdx (EVar 0) (At (Neg 1))) = Some (Num 4).
Proof. split; reflexivity. Qed.
