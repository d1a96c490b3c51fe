(* C89: names assigned in functions are local to the functions. *)
From Coq Require Import Bool ZArith List Arith Lia.
From Verif Require Import Glob_Model Glob_Spec Glob_Proofs.
Import ListNotations.
Open Scope list_scope.

(* Programs in which no function assigns to a name of the module print what Python prints, or fail to end
   or to find a value as Python does. Missing: loops with for, whose variable has another value after the
   loop in C (C29). *)
Theorem C89_partial : forall p c fuel, compile p = Some c -> no_clash p -> only_while p -> crun fuel c = pyrun fuel p.
Proof. intros p c fuel H C W. exact (same_run p c fuel H C W). Qed.
Print Assumptions C89_partial.

(* x = 5; def f(q): y = q + x; q = y; return q; def g(q): z = f(q) + 1; return z; print(g(2)); x = 7; while 0: pass; print(g(x)) *)
Definition prog1 : prog :=
  {| funcs := [{| param := 9; body := Seq (Assign 1 (Add (Var 9) (Var 0))) (Assign 9 (Var 1)); ret := Var 9 |};
               {| param := 8; body := Seq (Decl 2 (Add (Call 0 (Var 8)) (Lit 1))) Skip; ret := Var 2 |}];
     main := Seq (Assign 0 (Lit 5)) (Seq (Print (Call 1 (Lit 2))) (Seq (Assign 0 (Lit 7)) (Seq (While (Lit 0) Skip) (Print (Call 1 (Var 0)))))) |}.
Example C89_partial_used : no_clash prog1 /\ only_while prog1 /\ (exists c, compile prog1 = Some c) /\ pyrun 30 prog1 = Done [8; 15]%Z.
Proof.
  split.
  - intros f x [<-|[<-|[]]]; cbn; intros H; repeat (destruct H as [<-|H]; [cbn; intuition congruence|]); destruct H.
  - split; [|split; [eexists; vm_compute; reflexivity|vm_compute; reflexivity]].
    split; cbn; [tauto|]. intros f [<-|[<-|[]]]; cbn; tauto.
Qed.

(* A name that the module never assigns stands for a variable of the function wherever it occurs in it. *)
Theorem C89_own_name : forall p c k f rf x,
  compile p = Some c -> nth_error (funcs p) k = Some f -> nth_error (rfuncs c) k = Some rf ->
  ~ In x (assigned (main p)) -> all_are x (L x) rf.
Proof. exact own_name. Qed.
Print Assumptions C89_own_name.

(* So do the parameter and a name that is declared with a type at the start, whatever the module assigns. *)
Theorem C89_parameter : forall p c k f rf,
  compile p = Some c -> nth_error (funcs p) k = Some f -> nth_error (rfuncs c) k = Some rf -> all_are (param f) (L (param f)) rf.
Proof. exact param_name. Qed.
Print Assumptions C89_parameter.
Theorem C89_declared : forall p c k f rf x e s,
  compile p = Some c -> nth_error (funcs p) k = Some f -> nth_error (rfuncs c) k = Some rf ->
  body f = Seq (Decl x e) s -> all_are x (L x) rf.
Proof. exact declared_name. Qed.
Print Assumptions C89_declared.

(* Every other name that the module assigns stands for the variable of the module, even where the function
   assigns to it. The calls of the function come from elsewhere (the body of the module has none). *)
Theorem C89_module_name_refuted : forall p c k f rf x,
  compile p = Some c -> nth_error (funcs p) k = Some f -> nth_error (rfuncs c) k = Some rf ->
  scalls (main p) = [] -> In x (assigned (main p)) -> x <> param f -> declares x (body f) = false ->
  all_are x (G x) rf.
Proof. exact module_name. Qed.
Print Assumptions C89_module_name_refuted.

(* x = 1; y : int = 2; def f(q): y : int = q; x = y; for t in range(3): q = t; return x *)
Definition prog2 : prog :=
  {| funcs := [{| param := 9; body := Seq (Decl 1 (Var 9)) (Seq (Assign 0 (Var 1)) (For 2 3 (Assign 9 (Var 2)))); ret := Var 0 |}];
     main := Seq (Assign 0 (Lit 1)) (Decl 1 (Lit 2)) |}.
Example names_used : exists c, compile prog2 = Some c /\ scalls (main prog2) = []
  /\ map rbody (rfuncs c) = [RSeq (RAssign (L 1) (RVar (L 9))) (RSeq (RAssign (G 0) (RVar (L 1))) (RFor (L 2) 3 (RAssign (L 9) (RVar (L 2)))))]
  /\ map rret (rfuncs c) = [RVar (G 0)].
Proof. eexists. split; [vm_compute; reflexivity|]. repeat split. Qed.

(* x = a; f(0); print(x), where f assigns b to x: Python prints a, the C code prints b. *)
Theorem C89_assign_refuted : forall q x a b r n, x <> q ->
  let p := {| funcs := [{| param := q; body := Assign x (Lit b); ret := Lit r |}];
              main := Seq (Assign x (Lit a)) (Seq (Do (Call 0 (Lit 0))) (Print (Var x))) |} in
  exists c, compile p = Some c /\ crun (10 + n) c = Done [b] /\ pyrun (10 + n) p = Done [a].
Proof. exact assign_wrong. Qed.
Print Assumptions C89_assign_refuted.

(* The same f is right when it is first called before the module assigns x: f(0); x = a; f(0); print(x). *)
Theorem C89_order : forall q x a b r n, x <> q ->
  let p := {| funcs := [{| param := q; body := Assign x (Lit b); ret := Lit r |}];
              main := Seq (Do (Call 0 (Lit 0))) (Seq (Assign x (Lit a)) (Seq (Do (Call 0 (Lit 0))) (Print (Var x)))) |} in
  exists c, compile p = Some c /\ crun (10 + n) c = Done [a] /\ pyrun (10 + n) p = Done [a].
Proof. exact order_right. Qed.
Print Assumptions C89_order.

(* The same, with a first call which is not the first statement: print(d); f(0); x = a; f(0); print(x). *)
Theorem C89_order_later : forall q x a b r d n, x <> q ->
  let p := {| funcs := [{| param := q; body := Assign x (Lit b); ret := Lit r |}];
              main := Seq (Seq (Print (Lit d)) (Do (Call 0 (Lit 0)))) (Seq (Assign x (Lit a)) (Seq (Do (Call 0 (Lit 0))) (Print (Var x)))) |} in
  exists c, compile p = Some c /\ crun (10 + n) c = Done [d; a] /\ pyrun (10 + n) p = Done [d; a].
Proof. exact order_later. Qed.
Print Assumptions C89_order_later.

(* def f(q): print(x); x = b: Python raises UnboundLocalError, the C code prints and changes the x of the module. *)
Theorem C89_unbound_refuted : forall q x a b r n, x <> q ->
  let p := {| funcs := [{| param := q; body := Seq (Print (Var x)) (Assign x (Lit b)); ret := Lit r |}];
              main := Seq (Assign x (Lit a)) (Seq (Do (Call 0 (Lit 0))) (Print (Var x))) |} in
  exists c, compile p = Some c /\ crun (10 + n) c = Done [a; b] /\ pyrun (10 + n) p = Wrong.
Proof. exact unbound_wrong. Qed.
Print Assumptions C89_unbound_refuted.

(* for i in range(n): print(i); f(0), where f has the loop for i in range(m): pass. Python prints 0, 1, ..., n - 1. *)
Definition loops (q i m n : nat) : prog :=
  {| funcs := [{| param := q; body := For i m Skip; ret := Lit 0 |}];
     main := For i n (Seq (Print (Var i)) (Do (Call 0 (Lit 0)))) |}.
(* The C code prints 0 and ends, when m + 1 is at least n; *)
Theorem C89_loop_ends_refuted : forall q i m n fuel, i <> q -> n <> 0 -> n <= m + 1 -> m + 8 <= fuel ->
  (exists c, compile (loops q i m n) = Some c /\ crun fuel c = Done [0%Z])
  /\ pyrun (7 + fuel) (loops q i m n) = Done (map Z.of_nat (seq 0 n)).
Proof. intros q i m n fuel N Hn Hm Hf. split; [exact (ends_early q i m n fuel N Hn Hm Hf)|exact (py_caller q i m n fuel)]. Qed.
Print Assumptions C89_loop_ends_refuted.
(* otherwise it never ends. *)
Theorem C89_loop_never_ends_refuted : forall q i m n fuel, i <> q -> m + 1 < n ->
  (exists c, compile (loops q i m n) = Some c /\ crun fuel c = Late)
  /\ pyrun (7 + fuel) (loops q i m n) = Done (map Z.of_nat (seq 0 n)).
Proof. intros q i m n fuel N Hn. split; [exact (never_ends q i m n fuel N Hn)|exact (py_caller q i m n fuel)]. Qed.
Print Assumptions C89_loop_never_ends_refuted.
Example loops_used : pyrun 7 (loops 9 0 2 4) = Done [0; 1; 2; 3]%Z /\ (exists c, compile (loops 9 0 5 4) = Some c /\ crun 20 c = Done [0]%Z).
Proof. split; [reflexivity|]. eexists. split; [vm_compute; reflexivity|]. vm_compute. reflexivity. Qed.
