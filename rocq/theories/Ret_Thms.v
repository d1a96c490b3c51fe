(* C86: the values that functions return. *)
From Coq Require Import Bool Arith ZArith Lia List String.
From Verif Require Import Ret_Model Ret_Spec Ret_Proofs.
Import ListNotations.
Open Scope Z_scope.
Open Scope list_scope.

Definition x := User 0. Definition y := User 1. Definition z := User 2. Definition i := User 3.
Definition plus (a b : expr) : expr := EOp Z.add a b.
Definition times_ (a b : expr) : expr := EOp Z.mul a b.
(* x = 5, y = 6, z: an array *)
Definition st0 : state := fun v => match v with User 0 => Some (OInt 5) | User 1 => Some (OInt 6) | User 2 => Some (OArr (fun n => 10 - n)) | _ => None end.
Definition ty0 (v : name) : kind := match v with User 2 => VArr | _ => VInt end.

(* ------------------------------ tuples ------------------------------ *)

(* a function with one return that has no variable twice as an element: the values of all its
   elements *)
Theorem C86_one_return_partial : forall valid forbidden es st, (forall e, In e es -> user_expr e) -> NoDup (alone es) ->
  (forall e, In e es -> eval st e <> None) ->
  NoDup (result_names valid forbidden [es]) /\ tuple_results (result_names valid forbidden [es]) es st = Some (py_tuple es st).
Proof. intros valid forbidden es st U N D. exact (conj (one_return_names valid forbidden es U N) (one_return_ok valid forbidden es st U D)). Qed.
Print Assumptions C86_one_return_partial.

Definition swap : list expr := [EVar y; plus (EVar x) (EVar y); EVar x; EInt 7].
Example one_return_used : (forall e, In e swap -> user_expr e) /\ NoDup (alone swap) /\ (forall e, In e swap -> eval st0 e <> None)
  /\ result_names [x; y] [] [swap] = [y; Temp 1; x; Temp 3] /\ py_tuple swap st0 = [Some (OInt 6); Some (OInt 11); Some (OInt 5); Some (OInt 7)].
Proof.
  split; [|split; [|split; [|split; reflexivity]]]; [| repeat constructor; cbn; intros Q; intuition discriminate |]; intros e H; cbn in H; repeat (destruct H as [<-|H]; [|]); try tauto.
  all: try (cbn; discriminate). all: intros v V; cbn in V; repeat (destruct V as [<-|V]; [eexists; reflexivity|]); tauto.
Qed.

(* so does a function all of whose returns have the same expressions: their number does not matter *)
Theorem C86_same_returns_partial : forall valid forbidden es n st, (forall e, In e es -> user_expr e) -> NoDup (alone es) ->
  (forall e, In e es -> eval st e <> None) ->
  NoDup (result_names valid forbidden (es :: repeat es n))
  /\ (forall i a, nth_error es i = Some (EVar a) -> In a valid -> ~ In a forbidden -> nth_error (result_names valid forbidden (es :: repeat es n)) i = Some a)
  /\ tuple_results (result_names valid forbidden (es :: repeat es n)) es st = Some (py_tuple es st).
Proof.
  intros valid forbidden es n st U N D. rewrite same_returns_names.
  exact (conj (one_return_names valid forbidden es U N) (conj (own_result_name valid forbidden es) (one_return_ok valid forbidden es st U D))).
Qed.
Print Assumptions C86_same_returns_partial.
Example same_returns_used : result_names [x; y] [x] [swap; swap; swap] = [y; Temp 1; Temp 2; Temp 3].
Proof. reflexivity. Qed.

(* return ..., x, ..., x, ...: two results with one name (two output arguments with one name, which
   no compiler accepts) *)
Theorem C86_twice_refuted : forall valid forbidden a es1 es2 es3, In a valid -> ~ In a forbidden ->
  ~ NoDup (result_names valid forbidden [es1 ++ EVar a :: es2 ++ EVar a :: es3]).
Proof. exact twice_one. Qed.
Print Assumptions C86_twice_refuted.
Example twice_used : result_names [x; y] [] [[EVar y; plus (EVar x) (EVar y); EVar y]] = [y; Temp 1; y].
Proof. reflexivity. Qed.

(* several returns: where no result is changed before it is used *)
Theorem C86_many_returns_partial : forall valid forbidden returns es st, In es returns ->
  in_order (result_names valid forbidden returns) es -> List.length (result_names valid forbidden returns) = List.length es ->
  (forall e, In e es -> eval st e <> None) ->
  tuple_results (result_names valid forbidden returns) es st = Some (py_tuple es st).
Proof. intros valid forbidden returns es st _ O L D. exact (tuple_ok _ _ _ O L D). Qed.
Print Assumptions C86_many_returns_partial.

Definition returns2 : list (list expr) := [[EVar x; plus (EVar y) (EVar x)]; [EVar y; times_ (EVar y) (EVar y)]; [EInt 1; EVar y]].
Example many_returns_used : result_names [x; y] [] returns2 = [Temp 0; y] /\ forall es, In es returns2 -> in_order (result_names [x; y] [] returns2) es.
Proof.
  split; [reflexivity|]. intros es H. cbn in H. repeat (destruct H as [<-|H]; [|]); try tauto; cbn; repeat split; try tauto.
  all: try (intros [H|[]]; discriminate). all: right; intros e' H; try destruct H as [<-|[]]; cbn; try tauto; intros Q; intuition discriminate.
Qed.

(* if ...: return x, y
   return e, x                            -- the second value is the first *)
Theorem C86_order_refuted : forall valid forbidden a b e st v, a <> b -> In a valid -> ~ In a forbidden -> no_symbol e -> eval st e = Some v ->
  tuple_results (result_names valid forbidden [[EVar a; EVar b]; [e; EVar a]]) [e; EVar a] st = Some [Some v; Some v]
  /\ py_tuple [e; EVar a] st = [Some v; st a].
Proof.
  intros valid forbidden a b e st v AB V F NS E. split; [exact (order_wrong valid forbidden a b e st v AB V F NS E)|]. cbn. rewrite E. reflexivity.
Qed.
Print Assumptions C86_order_refuted.
Example order_used : tuple_results (result_names [x; y] [] [[EVar x; EVar y]; [EInt 1; EVar x]]) [EInt 1; EVar x] st0 = Some [Some (OInt 1); Some (OInt 1)]
  /\ py_tuple [EInt 1; EVar x] st0 = [Some (OInt 1); Some (OInt 5)].
Proof. split; reflexivity. Qed.

(* if ...: return x, e
   return e', x                           -- two results with one name *)
Theorem C86_names_refuted : forall valid forbidden a e e', In a valid -> ~ In a forbidden -> no_symbol e -> no_symbol e' ->
  ~ NoDup (result_names valid forbidden [[EVar a; e]; [e'; EVar a]]).
Proof.
  intros valid forbidden a e e' V F N N'. rewrite (twice_names valid forbidden a e e' V F N N'). intros D. inversion D. cbn in *. tauto.
Qed.
Print Assumptions C86_names_refuted.
Example names_used : result_names [x] [] [[EVar x; EInt 0]; [plus (EVar x) (EInt 1); EVar x]] = [x; x].
Proof. reflexivity. Qed.

(* ------------------------------ one value ------------------------------ *)

Theorem C86_fortran_partial : forall r frees p st, ~ In r frees -> separate r p -> in_range st p ->
  gives_python st p frees (return_fortran r frees p st).
Proof. exact fortran_ok. Qed.
Print Assumptions C86_fortran_partial.

Theorem C86_c_partial : forall ty r frees p st, ~ In r frees -> separate r p -> in_range st p -> plain_c ty frees p ->
  gives_python st p frees (return_c ty r frees p st).
Proof. exact c_ok. Qed.
Print Assumptions C86_c_partial.

(* return x + z[y], return sum(i * x for i in range(y)), return max(z[i] for i in range(y)) *)
Definition values : list pexpr :=
  [PE (plus (EVar x) (EElem z (EVar y))); PE (plus (EVar x) (EVar y)); PFold KSum i (EVar y) (times_ (EVar i) (EVar x)); PFold KMax i (EVar y) (EElem z (EVar i))].
Example values_used : map (py_value st0) values = [Some (OInt 9); Some (OInt 11); Some (OInt 75); Some (OInt 10)]
  /\ map (fun p => option_map fst (return_c ty0 (Temp 0) [z] p st0)) values = [Some (OInt 9); Some (OInt 11); Some (OInt 75); Some (OInt 10)]
  /\ forall p, In p values -> separate (Temp 0) p /\ plain_c ty0 [z] p.
Proof.
  split; [reflexivity|]. split; [vm_compute; reflexivity|]. intros p H. cbn in H. repeat (destruct H as [<-|H]; [|]); try tauto; cbn; (split; [auto|]); auto.
  all: try (repeat split; try discriminate; intros Q; intuition discriminate).
  exists z. split; [auto|]. left. discriminate.
Qed.

(* return max(e for x in range(n)): C returns the value of e for n when that is larger; min: when it
   is smaller *)
Theorem C86_max_refuted : forall ty r frees a n e st m v w, ty r = VInt -> ~ In r frees -> ~ In a frees ->
  separate r (PFold KMax a n e) -> in_range st (PFold KMax a n e) -> (forall b, In b (vars e) -> ty b = VInt /\ ~ In b frees) ->
  eval st n = Some (OInt m) -> 0 <= m -> py_value st (PFold KMax a n e) = Some (OInt v) -> eval (at_ st a m) e = Some (OInt w) -> v < w ->
  exists st', return_c ty r frees (PFold KMax a n e) st = Some (OInt w, st').
Proof.
  intros ty r frees a n e st m v w TR NR NA SE IR SV EN M0 H W L.
  destruct (fold_last ty r frees KMax a n e st m v w ltac:(discriminate) TR NR NA SE IR SV EN M0 H W) as (st' & Q). exists st'. rewrite Q. cbn [op]. rewrite Z.max_r by lia. reflexivity.
Qed.
Print Assumptions C86_max_refuted.

Theorem C86_min_refuted : forall ty r frees a n e st m v w, ty r = VInt -> ~ In r frees -> ~ In a frees ->
  separate r (PFold KMin a n e) -> in_range st (PFold KMin a n e) -> (forall b, In b (vars e) -> ty b = VInt /\ ~ In b frees) ->
  eval st n = Some (OInt m) -> 0 <= m -> py_value st (PFold KMin a n e) = Some (OInt v) -> eval (at_ st a m) e = Some (OInt w) -> w < v ->
  exists st', return_c ty r frees (PFold KMin a n e) st = Some (OInt w, st').
Proof.
  intros ty r frees a n e st m v w TR NR NA SE IR SV EN M0 H W L.
  destruct (fold_last ty r frees KMin a n e st m v w ltac:(discriminate) TR NR NA SE IR SV EN M0 H W) as (st' & Q). exists st'. rewrite Q. cbn [op]. rewrite Z.min_r by lia. reflexivity.
Qed.
Print Assumptions C86_min_refuted.

(* return max(i * i for i in range(x)): 16 in Python, 25 in C *)
Example max_used : py_value st0 (PFold KMax i (EVar x) (times_ (EVar i) (EVar i))) = Some (OInt 16)
  /\ eval (at_ st0 i 5) (times_ (EVar i) (EVar i)) = Some (OInt 25)
  /\ option_map fst (return_c ty0 y [] (PFold KMax i (EVar x) (times_ (EVar i) (EVar i))) st0) = Some (OInt 25)
  /\ option_map fst (return_fortran y [] (PFold KMax i (EVar x) (times_ (EVar i) (EVar i))) st0) = Some (OInt 16).
Proof. vm_compute. auto. Qed.

(* where that is the only return, the variable is not declared *)
Theorem C86_undeclared_refuted : forall ty j frees k a n e, k <> KSum -> ty (Temp j) = VInt -> ~ In (Temp j) frees ->
  (forall b, In b (vars e) -> ty b = VInt /\ ~ In b frees) ->
  used ty (Temp j) (frees, PFold k a n e) = true /\ declared ty (Temp j) [(frees, PFold k a n e)] = false.
Proof. exact fold_undeclared. Qed.
Print Assumptions C86_undeclared_refuted.

Theorem C86_declared_partial : forall ty r returns,
  (forall q, In q returns -> plain_c ty (fst q) (snd q) /\ ~ In r (fst q) /\ match snd q with PE e => user_expr e | _ => True end) ->
  existsb (used ty r) returns = true -> declared ty r returns = true.
Proof. exact declared_ok. Qed.
Print Assumptions C86_declared_partial.
Example declared_used : existsb (used ty0 (Temp 0)) [([], PE (EInt 1)); ([z], PE (EElem z (EInt 0)))] = true
  /\ declared ty0 (Temp 0) [([], PE (EInt 1)); ([z], PE (EElem z (EInt 0)))] = true
  /\ declared ty0 (Temp 0) [([], PE (EInt 1)); ([z], PE (plus (EVar x) (EVar y)))] = false.
Proof. vm_compute. auto. Qed.

(* return "a" if c else "b": always "b" in C *)
Theorem C86_string_if_refuted : forall ty r frees c a b st m, ty r = VStr -> ~ In r frees -> eval st c = Some (OInt m) -> m <> 0 ->
  py_value st (PIf c (EStr a) (EStr b)) = Some (OStr a) /\ exists st', return_c ty r frees (PIf c (EStr a) (EStr b)) st = Some (OStr b, st').
Proof.
  intros ty r frees c a b st m TR NR C M. split; [cbn; rewrite C; destruct m; congruence|]. exact (if_wrong ty r frees c a b st m TR NR C M).
Qed.
Print Assumptions C86_string_if_refuted.
Example string_if_used : eval st0 (EVar x) = Some (OInt 5) /\ option_map fst (return_c (fun _ => VStr) (Temp 0) [] (PIf (EVar x) (EStr "yes") (EStr "no")) st0) = Some (OStr "no").
Proof. vm_compute. auto. Qed.

(* a string of the function that is not itself the result is freed and then returned *)
Theorem C86_string_refuted : forall ty r frees a st, ty r <> VArr -> a <> r -> In a frees -> return_c ty r frees (PE (EVar a)) st = None.
Proof. exact string_wrong. Qed.
Print Assumptions C86_string_refuted.
(* if ...: return x
   return y *)
Example string_used : unique_name [x; y] [] [EVar x; EVar y] 0 = Temp 0
  /\ py_value (fun _ => Some (OStr "text")) (PE (EVar y)) = Some (OStr "text")
  /\ return_c (fun _ => VStr) (Temp 0) [x; y] (PE (EVar y)) (fun _ => Some (OStr "text")) = None.
Proof. vm_compute. auto. Qed.

(* if ...: return x
   return sum(x for i in range(n))         -- x is the result, and is set to 0 first *)
Theorem C86_accumulator_refuted : forall ty r frees a n st m v, a <> r -> ~ In r (vars n) -> ~ In r frees ->
  eval st n = Some (OInt m) -> 0 <= m -> st r = Some (OInt v) ->
  py_value st (PFold KSum a n (EVar r)) = Some (OInt (m * v))
  /\ (exists st', return_c ty r frees (PFold KSum a n (EVar r)) st = Some (OInt 0, st'))
  /\ (exists st', return_fortran r frees (PFold KSum a n (EVar r)) st = Some (OInt 0, st')).
Proof. exact accumulator_wrong. Qed.
Print Assumptions C86_accumulator_refuted.
Example accumulator_used : unique_name [x; y] [] [EVar x; EInt 0] 0 = x /\ py_value st0 (PFold KSum i (EVar y) (EVar x)) = Some (OInt 30)
  /\ option_map fst (return_fortran x [] (PFold KSum i (EVar y) (EVar x)) st0) = Some (OInt 0).
Proof. vm_compute. auto. Qed.
