(* C98: the targets of x = y = e all get the value of e. *)
From Coq Require Import ZArith List Bool Arith Lia.
From Verif Require Import Multi_Model Multi_Spec Multi_Proofs.
Import ListNotations.

(* In Python every target has the value of e afterwards, and the other variables are unchanged. *)
Theorem C98_python : forall fn ts e w v, py_value fn e w = Some v ->
  exists p, py_run fn (map Name ts) e w = Some p /\ calls p = py_calls e w /\
    (forall x, In x ts -> vars p x = Some v) /\ (forall x, ~ In x ts -> vars p x = vars w x).
Proof.
  intros fn ts e w v E. unfold py_run. rewrite E. destruct (py_names ts v (vars w)) as [s [P [A B]]].
  rewrite P. eexists. split; [reflexivity|]. auto.
Qed.
Print Assumptions C98_python.

(* One target: what is generated does what Python does. *)
Theorem C98_one : forall fn tr kl x e w w',
  run fn tr kl [Name x] e w = Ran w' -> py_run fn [Name x] e w = Some w'.
Proof. exact one. Qed.
Print Assumptions C98_one.
Definition none : state := fun _ => None.
Definition w0 : world := mkw (set (set none 5 (Num 7)) 6 (Seq [Num 1; Num 2; Num 3])) [].
Definition fns (f : nat) (s : state) : value := if Nat.eqb f 0 then Num 4 else Seq [Num 8; Num 9].
Definition no (_ : nat) := false.
Example C98_one_ex : exists w', run fns no no [Name 1] (RCall 0) w0 = Ran w' /\ vars w' 1 = Some (Num 4).
Proof. eexists. split; reflexivity. Qed.

(* Several targets are taken for a tuple of targets, *)
Theorem C98_tuple_refuted : forall fn tr kl a b ts e w,
  run fn tr kl (map Name (a :: b :: ts)) e w = run fn tr kl [Tuple (a :: b :: ts)] e w.
Proof. intros. unfold run. rewrite targets_names. reflexivity. Qed.
Print Assumptions C98_tuple_refuted.

(* so no target ever gets the value of e: one that has it afterwards had it before. *)
Theorem C98_value_refuted : forall fn tr kl a b ts e w w',
  run fn tr kl (map Name (a :: b :: ts)) e w = Ran w' ->
  exists v, py_value fn e w = Some v /\ forall x, vars w' x = Some v -> vars w x = Some v.
Proof.
  intros fn tr kl a b ts e w w' H. unfold run in H. rewrite targets_names in H.
  cbn [assign] in H. rewrite names_map in H. exact (never fn tr kl _ _ _ _ H).
Qed.
Print Assumptions C98_value_refuted.
(* and a target that had it not had in Python *)
Theorem C98_differs_refuted : forall fn tr kl a b ts e w w' p x v,
  run fn tr kl (map Name (a :: b :: ts)) e w = Ran w' -> py_run fn (map Name (a :: b :: ts)) e w = Some p ->
  py_value fn e w = Some v -> In x (a :: b :: ts) -> vars w x <> Some v -> vars w' x <> vars p x.
Proof.
  intros fn tr kl a b ts e w w' p x v H P E I N Q.
  destruct (C98_value_refuted fn tr kl a b ts e w w' H) as [u [Eu G]]. rewrite E in Eu. injection Eu as <-.
  destruct (C98_python fn (a :: b :: ts) e w v E) as [p' [P' [_ [A _]]]].
  rewrite P in P'. injection P' as <-. apply N, G. rewrite Q. exact (A x I).
Qed.
Print Assumptions C98_differs_refuted.
(* x = y = a, a = [1, 2, 3]: x is 1 and y is 2 *)
Example C98_value_ex : exists w', run fns no no [Name 1; Name 2] (RName 6) w0 = Ran w' /\
  vars w' 1 = Some (Num 1) /\ vars w' 2 = Some (Num 2).
Proof. eexists. split; [reflexivity|]. split; reflexivity. Qed.

(* x = y = z, where z is a number: nothing is done *)
Theorem C98_scalar_refuted : forall fn tr kl a b ts z n w, ~ In z (a :: b :: ts) -> vars w z = Some (Num n) ->
  run fn tr kl (map Name (a :: b :: ts)) (RName z) w = Ran w.
Proof.
  intros fn tr kl a b ts z n w I E. unfold run. rewrite targets_names. cbn [assign]. rewrite names_map.
  cbn [assign_names]. rewrite E. destruct (existsb (Nat.eqb z) (a :: b :: ts)) eqn:X; [|reflexivity].
  apply existsb_exists in X. destruct X as [y [Hy Ey]]. apply Nat.eqb_eq in Ey. subst y. contradiction.
Qed.
Print Assumptions C98_scalar_refuted.
Example C98_scalar_ex : vars w0 5 = Some (Num 7) /\ ~ In 5 [1; 2].
Proof. split; [reflexivity|]. cbn. lia. Qed.

(* x = y = f(), where f returns a number: f is called, its result is lost *)
Theorem C98_call_refuted : forall fn tr kl a b ts f n w, fn f (vars w) = Num n ->
  run fn tr kl (map Name (a :: b :: ts)) (RCall f) w = Ran (mkw (vars w) (calls w ++ [f])).
Proof.
  intros fn tr kl a b ts f n w E. unfold run. rewrite targets_names. cbn [assign]. rewrite names_map.
  cbn [assign_names]. rewrite E. reflexivity.
Qed.
Print Assumptions C98_call_refuted.

(* x = y = 0: refused *)
Theorem C98_expression_refuted : forall fn tr kl a b ts v w,
  run fn tr kl (map Name (a :: b :: ts)) (RExpr v) w = Rejected.
Proof. intros. unfold run. rewrite targets_names. cbn [assign]. rewrite names_map. reflexivity. Qed.
Print Assumptions C98_expression_refuted.

(* What holds: the functions called are those of Python, and other variables are unchanged. *)
Theorem C98_calls_partial : forall fn tr kl a b ts e w w',
  run fn tr kl (map Name (a :: b :: ts)) e w = Ran w' ->
  calls w' = py_calls e w /\ forall x, ~ In x (a :: b :: ts) -> vars w' x = vars w x.
Proof.
  intros fn tr kl a b ts e w w' H. unfold run in H. rewrite targets_names in H.
  cbn [assign] in H. rewrite names_map in H. apply assign_names_in in H.
  destruct H as [v [_ [C H]]]. split; [exact C|]. intros x N. destruct (H x) as [E|[I _]]; [exact E|contradiction].
Qed.
Print Assumptions C98_calls_partial.

(* x, y = e: as in Python whenever Python has no exception, *)
Theorem C98_unpack : forall fn tr kl ts e w w' p,
  py_run fn [Tuple ts] e w = Some p -> run fn tr kl [Tuple ts] e w = Ran w' ->
  vars w' = vars p /\ calls w' = calls p.
Proof. intros fn tr kl ts e w w' p. exact (unpack fn tr kl ts e w w' p). Qed.
Print Assumptions C98_unpack.
(* and accepted if the names are new and e is not an operation or a function of Python *)
Theorem C98_unpack_accepted_partial : forall fn tr kl ts e w p, (forall v, e <> RExpr v) ->
  NoDup ts -> (forall t, In t ts -> vars w t = None) ->
  py_run fn [Tuple ts] e w = Some p -> exists w', run fn tr kl [Tuple ts] e w = Ran w'.
Proof. exact unpack_accepted. Qed.
Print Assumptions C98_unpack_accepted_partial.
Example C98_unpack_ex : exists w', run fns no no [Tuple [1; 2]] (RCall 1) w0 = Ran w' /\
  vars w' 1 = Some (Num 8) /\ vars w' 2 = Some (Num 9) /\ calls w' = [1].
Proof. eexists. split; [reflexivity|]. repeat split. Qed.

(* A sequence of known length that has too few or too many elements, or a number, raises an exception in Python;
   what is generated goes on, and the targets that have no element keep their values. *)
Theorem C98_unpack_length_refuted : forall fn tr kl ts x vs w,
  kl x = true -> ~ In x ts -> vars w x = Some (Seq vs) -> length ts <> length vs ->
  NoDup ts -> (forall t, In t ts -> vars w t = None) ->
  py_run fn [Tuple ts] (RName x) w = None /\ exists w', run fn tr kl [Tuple ts] (RName x) w = Ran w'.
Proof.
  intros fn tr kl ts x vs w K I E L N F. split.
  - unfold py_run. cbn [py_value]. rewrite E. cbn [py_targets py_target].
    destruct (Nat.eqb_spec (length ts) (length vs)); [contradiction|reflexivity].
  - unfold run. rewrite targets_tuple. cbn [assign]. rewrite names_map. cbn [assign_names].
    destruct (existsb (Nat.eqb x) ts) eqn:X.
    + apply existsb_exists in X. destruct X as [y [Hy Ey]]. apply Nat.eqb_eq in Ey. subst y. contradiction.
    + rewrite E, K. clear E L I X. revert vs w F. induction N as [|t ts Nt N IH]; intros vs w F.
      * eexists. reflexivity.
      * destruct vs as [|v vs]; [eexists; reflexivity|]. cbn [give]. unfold accepts. rewrite F by now left.
        apply IH. intros y Hy. cbn [vars]. unfold set.
        destruct (Nat.eqb_spec y t) as [->|]; [contradiction|]. apply F. now right.
Qed.
Print Assumptions C98_unpack_length_refuted.
Example C98_unpack_length_ex : vars w0 6 = Some (Seq [Num 1; Num 2; Num 3]) /\ ~ In 6 [1; 2] /\ NoDup [1; 2].
Proof. split; [reflexivity|]. split; [cbn; lia|]. repeat constructor; cbn; lia. Qed.
Theorem C98_unpack_number_refuted : forall fn tr kl ts x n w, ~ In x ts -> vars w x = Some (Num n) ->
  py_run fn [Tuple ts] (RName x) w = None /\ run fn tr kl [Tuple ts] (RName x) w = Ran w.
Proof.
  intros fn tr kl ts x n w I E. split.
  - unfold py_run. cbn [py_value]. rewrite E. reflexivity.
  - unfold run. rewrite targets_tuple. cbn [assign]. rewrite names_map. cbn [assign_names]. rewrite E.
    destruct (existsb (Nat.eqb x) ts) eqn:X; [|reflexivity].
    apply existsb_exists in X. destruct X as [y [Hy Ey]]. apply Nat.eqb_eq in Ey. subst y. contradiction.
Qed.
Print Assumptions C98_unpack_number_refuted.
(* If the length is not known and there are too few elements, where Python raises an exception, elements beyond the end are read:
   an array or a list that a function returns, or a variable. *)
Theorem C98_unpack_bounds_refuted : forall fn tr kl ts vs w, NoDup ts -> (forall t, In t ts -> vars w t = None) ->
  (length vs < length ts)%nat ->
  (forall f, tr f = false -> fn f (vars w) = Seq vs ->
    py_run fn [Tuple ts] (RCall f) w = None /\ run fn tr kl [Tuple ts] (RCall f) w = OutOfBounds) /\
  (forall x, kl x = false -> ~ In x ts -> vars w x = Some (Seq vs) ->
    py_run fn [Tuple ts] (RName x) w = None /\ run fn tr kl [Tuple ts] (RName x) w = OutOfBounds).
Proof.
  intros fn tr kl ts vs w N F L. split.
  - intros f K E. split.
    + unfold py_run. cbn [py_value]. rewrite E. cbn [py_targets py_target].
      destruct (Nat.eqb_spec (length ts) (length vs)); [lia|reflexivity].
    + unfold run. rewrite targets_tuple. cbn [assign]. rewrite names_map. cbn [assign_names]. rewrite E, K.
      apply give_beyond; assumption.
  - intros x K I E. split.
    + unfold py_run. cbn [py_value]. rewrite E. cbn [py_targets py_target].
      destruct (Nat.eqb_spec (length ts) (length vs)); [lia|reflexivity].
    + unfold run. rewrite targets_tuple. cbn [assign]. rewrite names_map. cbn [assign_names].
      destruct (existsb (Nat.eqb x) ts) eqn:X.
      * apply existsb_exists in X. destruct X as [y [Hy Ey]]. apply Nat.eqb_eq in Ey. subst y. contradiction.
      * rewrite E, K. apply give_beyond; assumption.
Qed.
Print Assumptions C98_unpack_bounds_refuted.
Example C98_unpack_bounds_ex : no 1 = false /\ fns 1 (vars w0) = Seq [Num 8; Num 9] /\ (length [Num 8; Num 9] < length [1; 2; 3])%nat /\
  forall t, In t [1; 2; 3] -> vars w0 t = None.
Proof. repeat split; [cbn; lia|]. cbn. intros t [<-|[<-|[<-|[]]]]; reflexivity. Qed.
