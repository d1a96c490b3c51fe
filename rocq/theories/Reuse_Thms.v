(* C104: the results of a function can be assigned to variables that are its arguments. *)
From stdpp Require Import gmap.
From Coq Require Import ZArith List Lia.
From Verif Require Import Reuse_Model Reuse_Spec Reuse_Proofs.

(* The variables have the values of Python after targets = f(args), if no array or list that is assigned is used in an
   argument and, with several targets, the targets are different places and not the memory of an argument. *)
Theorem C104_call_partial : forall l st e s e', (l = Fortran -> elements_new s) -> containers_new s ->
  one_target s \/ separate l s -> Forall (status_ok st e) (targets s) ->
  py e s = Some e' -> exec l st e s = Done e'.
Proof. exact call_ok. Qed.
Print Assumptions C104_call_partial.
(* a, v[0], n = f(v[1:], n), with an optional n, in Fortran; the first result is used for the second *)
Definition ex_stmt : stmt :=
  {| targets := [TVar 0 Array; TElem 1 0; TVar 2 Scalar]; args := [ASlice 1 1; AVar 2 true];
     body := [{| dst := 0; rds := []; fn := fun ps _ => match ps with VL l :: _ => VL (l ++ l) | _ => VL [] end |};
              {| dst := 2; rds := []; fn := fun ps _ => match ps with [_; VZ n] => VZ (n + 1)%Z | _ => VZ 0 end |};
              {| dst := 1; rds := [0; 2]; fn := fun ps rs => match ps, rs with [_; VZ n], [VL l; VZ m] => VZ (n * m + Z.of_nat (length l))%Z | _, _ => VZ 0 end |}] |}.
Definition ex_env : env := <[0 := VL [9%Z]]> (<[1 := VL [5; 6; 7]%Z]> (<[2 := VZ 10]> ∅)).
(* the values of the variables 0 to 3 *)
Definition show (m : env) : list (option value) := map (fun x => m !! x) [0; 1; 2; 3].
Definition show_out (o : outcome) : option (list (option value)) := match o with Done m => Some (show m) | _ => None end.
Example C104_call_ex : elements_new ex_stmt /\ containers_new ex_stmt /\ separate Fortran ex_stmt /\
  Forall (status_ok (fun _ => Allocated) ex_env) (targets ex_stmt) /\
  option_map show (py ex_env ex_stmt) = Some [Some (VL [6; 7; 6; 7]%Z); Some (VL [114; 6; 7]%Z); Some (VZ 11); None].
Proof.
  split; [|split; [|split; [|split]]].
  - intros x i _ [H|[H|[]]]; discriminate H.
  - intros x k [[= <- <-]|[H|[[= <- <-]|[]]]] K a [<-|[<-|[]]]; try discriminate H; cbn; intros [I|[]]; congruence.
  - unfold separate. cbn. split; [|split].
    + repeat constructor; cbn; lia.
    + intros x [H|[H|[H|[]]]]; discriminate H.
    + intros a t [<-|[<-|[]]] It _.
      * left. destruct It as [<-|[<-|[<-|[]]]]; cbn; lia.
      * right. split; [reflexivity|]. exists 2. split; [reflexivity|]. exists Scalar. auto.
  - apply List.Forall_forall. intros t [<-|[<-|[<-|[]]]]; cbn; try exact I; intros H; try discriminate; now destruct H.
  - vm_compute. reflexivity.
Qed.

(* a = f(a), also with several targets and with a[i:] or a[i] in an argument: the memory of a is freed before f is called with it.
   In C for arrays and lists, in Fortran for arrays. *)
Theorem C104_container_refuted : forall l st e s e' x k a, py e s = Some e' ->
  In (TVar x k) (targets s) -> k <> Scalar -> (l = C \/ k = Array) -> (forall k', In (TVar x k') (targets s) -> k' = k) ->
  status_ok st e (TVar x k) -> In a (args s) -> In x (vars a) ->
  exec l st e s = Freed \/ l = Fortran /\ exec l st e s = Crash.
Proof. exact container_freed. Qed.
Print Assumptions C104_container_refuted.
(* a = f(a) where f returns twice its argument *)
Definition ex_double (k : kind) : stmt :=
  {| targets := [TVar 0 k]; args := [ACont 0];
     body := [{| dst := 0; rds := []; fn := fun ps _ => match ps with VL l :: _ => VL (map (Z.mul 2) l) | _ => VL [] end |}] |}.
Example C104_container_ex : option_map show (py ex_env (ex_double Array)) = Some (show (<[0 := VL [18%Z]]> ex_env)) /\
  status_ok (fun _ => Allocated) ex_env (TVar 0 Array) /\
  exec C (fun _ => Allocated) ex_env (ex_double Array) = Freed /\ exec Fortran (fun _ => Allocated) ex_env (ex_double Array) = Freed.
Proof. split; [|split; [|split]]; [vm_compute; reflexivity|intros _; discriminate|vm_compute; reflexivity|vm_compute; reflexivity]. Qed.

(* x = f(x) for a list in Fortran: the list is made empty first, and the value is that of f([]). *)
Theorem C104_list_refuted : forall st e s x e', targets s = [TVar x Lst] -> st x <> Unallocated ->
  (forall a, In a (args s) -> a = ACont x \/ ~ In x (vars a)) ->
  py (<[x := VL []]> e) s = Some e' -> exec Fortran st e s = Done e'.
Proof. exact list_empty. Qed.
Print Assumptions C104_list_refuted.
Example C104_list_ex : option_map show (py ex_env (ex_double Lst)) = Some (show (<[0 := VL [18%Z]]> ex_env)) /\
  show_out (exec Fortran (fun _ => Allocated) ex_env (ex_double Lst)) = Some (show (<[0 := VL []]> ex_env)).
Proof. split; vm_compute; reflexivity. Qed.

(* v[i] = f(v[i]): no Fortran code is made. *)
Theorem C104_crash_refuted : forall st e s x i, In (TElem x i) (targets s) -> In (AElem x i) (args s) -> exec Fortran st e s = Crash.
Proof. exact crash_ok. Qed.
Print Assumptions C104_crash_refuted.
(* v[1] = f(v[1]) is v[1] + 1 in Python and in C *)
Definition ex_elem : stmt :=
  {| targets := [TElem 1 1]; args := [AElem 1 1];
     body := [{| dst := 0; rds := []; fn := with_number (Z.add 1) |}] |}.
Example C104_crash_ex : option_map show (py ex_env ex_elem) = Some (show (<[1 := VL [5; 7; 7]%Z]> ex_env)) /\
  show_out (exec C (fun _ => Allocated) ex_env ex_elem) = Some (show (<[1 := VL [5; 7; 7]%Z]> ex_env)) /\
  exec Fortran (fun _ => Allocated) ex_env ex_elem = Crash.
Proof. repeat split; vm_compute; reflexivity. Qed.

(* x, y = f(x) where the parameter is optional: in C the second result is computed with the first, in Fortran with x. *)
Theorem C104_optional_refuted : forall st e x y z g0 g1, x <> y -> e !! x = Some (VZ z) ->
  py e (optional_stmt x y g0 g1) = Some (<[y := VZ (g1 z)]> (<[x := VZ (g0 z)]> e)) /\
  exec C st e (optional_stmt x y g0 g1) = Done (<[y := VZ (g1 (g0 z))]> (<[x := VZ (g0 z)]> e)) /\
  exec Fortran st e (optional_stmt x y g0 g1) = Done (<[y := VZ (g1 z)]> (<[x := VZ (g0 z)]> e)).
Proof. exact optional_ok. Qed.
Print Assumptions C104_optional_refuted.
Example C104_optional_ex : show_out (exec C (fun _ => Allocated) ex_env (optional_stmt 2 3 (Z.add 1) (Z.mul 2))) = Some (show (<[3 := VZ 22]> (<[2 := VZ 11]> ex_env))) /\
  option_map show (py ex_env (optional_stmt 2 3 (Z.add 1) (Z.mul 2))) = Some (show (<[3 := VZ 20]> (<[2 := VZ 11]> ex_env))).
Proof. split; vm_compute; reflexivity. Qed.

(* v[0], v[1] = f(v): the second result is computed after v[0] was changed. *)
Theorem C104_element_refuted : forall l st e v a b w g0 g1, e !! v = Some (VL (a :: b :: w)) ->
  py e (element_stmt v g0 g1) = Some (<[v := VL (g0 (a :: b :: w) :: g1 (a :: b :: w) :: w)]> e) /\
  exec l st e (element_stmt v g0 g1) = Done (<[v := VL (g0 (a :: b :: w) :: g1 (g0 (a :: b :: w) :: b :: w) :: w)]> e).
Proof. exact element_ok. Qed.
Print Assumptions C104_element_refuted.
(* the sum and the first element *)
Example C104_element_ex : option_map show (py ex_env (element_stmt 1 (fold_right Z.add 0%Z) (hd 0%Z))) = Some (show (<[1 := VL [18; 5; 7]%Z]> ex_env)) /\
  show_out (exec C (fun _ => Allocated) ex_env (element_stmt 1 (fold_right Z.add 0%Z) (hd 0%Z))) = Some (show (<[1 := VL [18; 18; 7]%Z]> ex_env)).
Proof. split; vm_compute; reflexivity. Qed.

(* x, x = f(): x is the result that f computes last, not the last result. *)
Theorem C104_twice_refuted : forall l st e x c0 c1,
  py e (twice_stmt x c0 c1) = Some (<[x := VZ c1]> e) /\ exec l st e (twice_stmt x c0 c1) = Done (<[x := VZ c0]> e).
Proof. exact twice_ok. Qed.
Print Assumptions C104_twice_refuted.
Example C104_twice_ex : option_map show (py ex_env (twice_stmt 2 1 4)) = Some (show (<[2 := VZ 4]> ex_env)) /\
  show_out (exec C (fun _ => Allocated) ex_env (twice_stmt 2 1 4)) = Some (show (<[2 := VZ 1]> ex_env)).
Proof. split; vm_compute; reflexivity. Qed.
