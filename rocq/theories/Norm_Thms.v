From Coq Require Import List Bool String QArith Qcanon Lia.
From Verif Require Import Expr_Model Expr_Spec Norm_Model Norm_Spec Norm_Proofs.
Import ListNotations.
Open Scope string_scope.
Open Scope Qc_scope.

Definition q (z : Z) : Qc := Q2Qc (inject_Z z).
Definition env0 (s : string) : Qc := match s with "1.0" => 1 | "0" => 0 | "a" => q 3 | "3" => q 3 | _ => q 2 end.
Definition pw0 (x y : Qc) : Qc := Qcpower x (Z.to_nat (Qnum y)).
Definition red0 (_ : string) (l : list Qc) : Qc := sum l.
Definition xs0 : list Qc := [1; 1].

(* C109, Fortran: expressions with norms in them have their value in Python as long as the
   norms of order -1 stand where a quotient may stand, and those of other powers (not 0, 1, 2,
   infinite) where a power may stand without parentheses; other norms may stand anywhere.
   Missing: the norms of axes, rounding. *)
Theorem C109_norm_partial : forall pw red xs env e, constants env -> fits e ->
  f_value pw red xs env e = py_value pw red xs env e.
Proof. intros pw red xs env e C G. exact (norm_main pw red xs env C e G). Qed.
Print Assumptions C109_norm_partial.
(* a * norm(x, 1) + norm(x, -1) / a ** norm(x, 0) *)
Example C109_norm_ex :
  constants env0 /\
  fits (B "+" (B "*" (E (At "a")) (N One)) (B "/" (N MinusOne) (B "**" (E (At "a")) (N Zero)))) /\
  f_value pw0 red0 xs0 env0 (B "-" (B "*" (E (At "a")) (N One)) (E (At "a"))) = Some (q 3).
Proof. split; [split; reflexivity|]. split; [cbn; repeat split; lia|]. vm_compute. f_equal. Qed.

(* C109, Fortran: in a * norm(x, -1) and a / norm(x, -1) the operator is applied to the 1.0 of the
   text.  The product has the value of Python, the quotient is a / s instead of a * s, s the
   sum of the inverses. *)
Theorem C109_times_partial : forall pw red xs env t, constants env -> grouped t ->
  (13 <= top f_lang t)%nat ->
  f_value pw red xs env (B "*" (E t) (N MinusOne)) = py_value pw red xs env (B "*" (E t) (N MinusOne)).
Proof.
  intros pw red xs env t C G Ht. rewrite (left_main pw red xs env C "*" t) by auto.
  cbn. destruct (tval pw red xs env t) as [v|]; cbn; [|reflexivity]. f_equal. unfold Qcdiv. ring.
Qed.
Print Assumptions C109_times_partial.
Theorem C109_divide_refuted : forall pw red xs env t v, constants env -> grouped t ->
  (13 <= top f_lang t)%nat -> tval pw red xs env t = Some v ->
  let s := sum (map (fun v => 1 / v) xs) in
  let e := B "/" (E t) (N MinusOne) in
  s <> 0 ->
  f_value pw red xs env e = Some (v / s) /\ py_value pw red xs env e = Some (v * s) /\
  (v <> 0 -> s * s <> 1 -> f_value pw red xs env e <> py_value pw red xs env e).
Proof.
  intros pw red xs env t v C G Ht Hv s e Hs.
  assert (A : f_value pw red xs env e = Some (v / s)).
  { unfold e. rewrite (left_main pw red xs env C "/" t) by auto. rewrite Hv. cbn. fold s. f_equal. field. split; [exact Hs|discriminate]. }
  assert (P : py_value pw red xs env e = Some (v * s)).
  { unfold e. cbn. rewrite Hv. cbn. fold s. f_equal. field. split; [exact Hs|discriminate]. }
  split; [exact A|]. split; [exact P|]. intros Hn Hq H. assert (H1 : v / s = v * s) by congruence.
  apply Hq. assert (H2 : v / s * s = v * s * s) by (rewrite H1; reflexivity).
  assert (H3 : v / s * s = v) by (field; exact Hs). rewrite H3 in H2.
  assert (H4 : v * (s * s) = v * 1) by (rewrite Qcmult_1_r, Qcmult_assoc; auto).
  destruct (Qc_eq_dec (s * s) 1) as [E|E]; [exact E|]. exfalso.
  assert (H5 : v * (s * s - 1) = 0) by (rewrite <- (Qcplus_opp_r v); unfold Qcminus; rewrite Qcmult_plus_distr_r, H4; ring).
  apply Qcmult_integral in H5 as [H5|H5]; [auto|]. apply E.
  rewrite <- (Qcplus_0_l 1), <- H5. ring.
Qed.
Print Assumptions C109_divide_refuted.
(* a / norm(x, -1) with a = 3 and x = [1, 1]: 3/2 instead of 6 *)
Example C109_divide_ex :
  let e := B "/" (E (At "a")) (N MinusOne) in
  grouped (At "a") /\ f_value pw0 red0 xs0 env0 e = Some (q 3 / q 2) /\
  py_value pw0 red0 xs0 env0 e = Some (q 6).
Proof. split; [exact I|]. split; vm_compute; f_equal; apply Qc_is_canon; reflexivity. Qed.

(* C109, Fortran: a ** norm(x, -1) is a ** 1.0 divided by the sum of the inverses. *)
Theorem C109_exponent_refuted : forall pw red xs env t v, constants env -> grouped t ->
  (16 <= top f_lang t)%nat -> tval pw red xs env t = Some v ->
  let s := sum (map (fun v => 1 / v) xs) in
  let e := B "**" (E t) (N MinusOne) in
  f_value pw red xs env e = Some (pw v 1 / s) /\ py_value pw red xs env e = Some (pw v (1 / s)).
Proof.
  intros pw red xs env t v C G Ht Hv s e. unfold e. split.
  - rewrite (exponent_main pw red xs env C t) by auto. rewrite Hv. reflexivity.
  - cbn. rewrite Hv. reflexivity.
Qed.
Print Assumptions C109_exponent_refuted.
(* C109, Fortran: norm(x, p) ** b, p another power: the exponent 1 / p is raised to b, not the
   norm. *)
Theorem C109_base_refuted : forall pw red xs env p r t v, constants env -> p <> "x" -> grouped t ->
  (15 <= top f_lang t)%nat -> tval pw red xs env t = Some v ->
  let s := sum (map (fun v => pw v (env p)) xs) in
  let e := B "**" (N (Power p r)) (E t) in
  f_value pw red xs env e = Some (pw s (pw (env r) v)) /\
  py_value pw red xs env e = Some (pw (pw s (env r)) v).
Proof.
  intros pw red xs env p r t v C Hp G Ht Hv s e. unfold e. split.
  - rewrite (base_main pw red xs env p r t) by auto. rewrite Hv. reflexivity.
  - cbn. rewrite Hv. reflexivity.
Qed.
Print Assumptions C109_base_refuted.
(* natural powers: the sum 2 to the power 2 ** 3 instead of (2 ** 2) ** 3 *)
Example C109_base_ex :
  let e := B "**" (N (Power "3" "r")) (E (At "a")) in
  (15 <= top f_lang (At "a"))%nat /\
  f_value pw0 red0 xs0 env0 e = Some (q 256) /\ py_value pw0 red0 xs0 env0 e = Some (q 64).
Proof. split; [cbn; lia|]. split; vm_compute; f_equal; apply Qc_is_canon; reflexivity. Qed.

(* C109, C: in an assignment the code is the loop and the power, in an augmented assignment the
   variable which both were applied to is printed; inside any other expression the statement
   with the power follows the name of the temporary, so that the text starts with another name
   (and the code is no C). *)
Theorem C109_c_partial : forall k lhs tmp body p,
  let tail v := if has_root k then pow_code v p else "" in
  fst (c_norm Assigned k lhs tmp body p) = "" /\
  snd (c_norm Assigned k lhs tmp body p) = (loop_code lhs body ++ tail lhs)%string /\
  fst (c_norm Augmented k lhs tmp body p) = (loop_code tmp body ++ tail tmp)%string /\
  snd (c_norm Augmented k lhs tmp body p) = tmp /\
  (has_root k = false -> c_norm Inside k lhs tmp body p = (loop_code tmp body, tmp)).
Proof. exact c_main. Qed.
Print Assumptions C109_c_partial.
Theorem C109_c_refuted : forall k lhs tmp body p, has_root k = true -> is_name tmp ->
  identifier (snd (c_norm Inside k lhs tmp body p)) = (tmp ++ tmp)%string /\ (tmp ++ tmp)%string <> tmp.
Proof. exact inside_main. Qed.
Print Assumptions C109_c_refuted.
Example C109_c_ex : is_name "Dummy_0000" /\ has_root Two = true /\ has_root One = false /\
  snd (c_norm Inside Two "a" "Dummy_0000" "s" "0.5") = "Dummy_0000Dummy_0000 = pow(Dummy_0000, 0.5); ".
Proof. repeat split; discriminate. Qed.
