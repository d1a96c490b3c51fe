(* Properties C02-C05: names in nested scopes. *)
From Coq Require Import List Bool Arith String Ascii.
From Verif Require Import Common Naming_Model Naming_Spec Scope_Model Scope_Spec Scope_Proofs.
Import ListNotations.
Open Scope string_scope.
Open Scope list_scope.
Open Scope nat_scope.

(* ---- C02: distinct Python names stay distinct ---- *)

(* After any history of declarations, two Python names of the same scope have
   low-level names which the target language tells apart. *)
Theorem C02_same_scope_partial : forall l ops t name h i p q a b,
  run_ops l ops [root_scope t name] = POk h ->
  dget (used_at h i) p = Some a -> dget (used_at h i) q = Some b -> p <> q ->
  ~ same_ident l a b.
Proof. exact same_scope_distinct. Qed.
Print Assumptions C02_same_scope_partial.

Example C02_same_scope_ex : exists h,
  run_ops LFortran [OChild 0 "f" SFunction; OInsert 1 "x" CVariable; OLoop 1; OInsert 2 "X" CVariable;
                    ONew 1 (Some "x") CVariable; ORemove 1 "x"; OInsert 1 "x" CVariable]
          [root_scope SModule (Some "mod")] = POk h
  /\ dget (used_at h 1) "x" = Some "x" /\ dget (used_at h 1) "X" = Some "X_0001".
Proof. eexists. split; [vm_compute; reflexivity|]. split; vm_compute; reflexivity. Qed.

(* ... and none of them is a reserved word. *)
Theorem C02_not_reserved : forall l ops t name h i p a,
  run_ops l ops [root_scope t name] = POk h -> dget (used_at h i) p = Some a -> ~ reserved l a.
Proof. exact declared_not_reserved. Qed.
Print Assumptions C02_not_reserved.

(* Declaring a name in a scope gives it a low-level name that differs from all
   names visible at that moment, and declaring it again changes nothing. *)
Theorem C02_new_declaration : forall l h i s sym ctx h' a,
  nth_error h i = Some s -> is_loop s = false -> dget (used_at h i) sym = None ->
  insert_symbol l h i sym ctx = POk (h', a) ->
  ~ reserved l a /\ ~ in_use l a (all_used_symbols h i) /\ dget (used_at h' i) sym = Some a.
Proof. exact new_declaration. Qed.
Print Assumptions C02_new_declaration.

Theorem C02_redeclaration : forall l h i s sym ctx v,
  nth_error h i = Some s -> is_loop s = false -> dget (used_at h i) sym = Some v ->
  insert_symbol l h i sym ctx = POk (h, v).
Proof. exact redeclaration. Qed.
Print Assumptions C02_redeclaration.

(* If outer scopes get their names first (the order of the syntactic stage),
   all names visible from a scope have different low-level names. *)
Theorem C02_outer_first_partial : forall l ops t name h i j k p q a b,
  run_outer_first l ops [root_scope t name] h ->
  In j (chain h i) -> In k (chain h i) ->
  dget (used_at h j) p = Some a -> dget (used_at h k) q = Some b -> (j, p) <> (k, q) ->
  ~ same_ident l a b.
Proof. exact outer_first_distinct. Qed.
Print Assumptions C02_outer_first_partial.

(* Without that order they may not: a name declared in the outer scope after the
   inner scope ignores the names of the inner scope. *)
Theorem C02_inner_first_refuted : exists l ops h p q a b,
  run_ops l ops [root_scope SModule (Some "mod")] = POk h
  /\ p <> q
  /\ get_expected_name l h 1 p = POk (h, a) /\ get_expected_name l h 1 q = POk (h, b)
  /\ same_ident l a b.
Proof.
  exists LFortran, [OChild 0 "f" SFunction; OInsert 1 "x" CVariable; OInsert 0 "X" CVariable].
  eexists. exists "x", "X", "x", "X".
  split; [vm_compute; reflexivity|]. split; [discriminate|].
  split; [vm_compute; reflexivity|]. split; [vm_compute; reflexivity|].
  apply Naming_Proofs.same_ident_canon. reflexivity.
Qed.
Print Assumptions C02_inner_first_refuted.

(* ---- C03: the translation of names can be inverted ---- *)

(* In any history, the low-level name of a Python name declared in a scope leads
   back to that Python name. *)
Theorem C03_own_scope_partial : forall l ops t name h i p a,
  run_ops l ops [root_scope t name] = POk h ->
  dget (used_at h i) p = Some a -> get_python_name h i a = POk p.
Proof. exact python_name_back. Qed.
Print Assumptions C03_own_scope_partial.

(* If outer scopes get their names first, this holds for every visible name. *)
Theorem C03_outer_first_partial : forall l ops t name h i p a,
  run_outer_first l ops [root_scope t name] h -> p <> "_" ->
  get_expected_name l h i p = POk (h, a) -> get_python_name h i a = POk p.
Proof. exact outer_first_back. Qed.
Print Assumptions C03_outer_first_partial.

Example outer_first_ex : exists h,
  run_outer_first LFortran [OInsert 0 "_a" CVariable; OInsert 0 "X" CVariable; OChild 0 "f" SFunction;
                            OInsert 1 "x" CVariable; OInsert 1 "private_a" CVariable]
    [root_scope SModule (Some "mod")] h
  /\ get_expected_name LFortran h 1 "_a" = POk (h, "private_a")
  /\ get_expected_name LFortran h 1 "private_a" = POk (h, "private_a_0001")
  /\ get_expected_name LFortran h 1 "x" = POk (h, "x_0001").
Proof.
  eexists. split.
  - cbn [run_outer_first outer_first_op].
    split; [eapply nothing_b_ok; [eapply home_here; reflexivity|vm_compute; reflexivity]|].
    eexists. split; [vm_compute; reflexivity|].
    split; [eapply nothing_b_ok; [eapply home_here; reflexivity|vm_compute; reflexivity]|].
    eexists. split; [vm_compute; reflexivity|]. split; [exact I|].
    eexists. split; [vm_compute; reflexivity|].
    split; [eapply nothing_b_ok; [eapply home_here; reflexivity|vm_compute; reflexivity]|].
    eexists. split; [vm_compute; reflexivity|].
    split; [eapply nothing_b_ok; [eapply home_here; reflexivity|vm_compute; reflexivity]|].
    eexists. split; [vm_compute; reflexivity|].
    reflexivity.
  - repeat split; vm_compute; reflexivity.
Qed.

(* In other orders it fails. *)
Theorem C03_inner_first_refuted : exists l ops h p a p',
  run_ops l ops [root_scope SModule (Some "mod")] = POk h
  /\ get_expected_name l h 1 p = POk (h, a)
  /\ get_python_name h 1 a = POk p' /\ p' <> p.
Proof.
  exists LFortran, [OChild 0 "f" SFunction; OInsert 1 "private_a" CVariable; OInsert 0 "_a" CVariable].
  eexists. exists "_a", "private_a", "private_a".
  split; [vm_compute; reflexivity|]. split; [vm_compute; reflexivity|]. split; [vm_compute; reflexivity|discriminate].
Qed.
Print Assumptions C03_inner_first_refuted.

(* ---- C04: lexical lookup ---- *)

(* Every reachable tree of scopes is well founded. *)
Theorem C04_reachable : forall l ops t name h,
  run_ops l ops [root_scope t name] = POk h -> well_founded_heap h.
Proof. exact reachable_wf. Qed.
Print Assumptions C04_reachable.

(* A lookup finds o exactly if walking outwards the first scope that declares
   the name declares it as o; a local lookup only walks through loops. *)
Theorem C04_find : forall h i name c local_only o, well_founded_heap h ->
  (find h i name (Some c) local_only = Some o <->
   exists ss j t, Path h i ss j t /\ declares t c name o
     /\ (forall s, In s ss -> declares_not s c name)
     /\ (local_only = true -> forall s, In s ss -> is_loop s = true)).
Proof. exact find_spec. Qed.
Print Assumptions C04_find.

Theorem C04_find_nothing : forall h i name c local_only, well_founded_heap h ->
  (find h i name (Some c) local_only = None <->
   forall ss j t, Path h i ss j t -> (local_only = true -> forall s, In s ss -> is_loop s = true) ->
     declares_not t c name).
Proof. exact find_none. Qed.
Print Assumptions C04_find_nothing.

(* Without category: the innermost scope with any declaration of the name. *)
Theorem C04_find_any_category : forall h i name local_only o, well_founded_heap h ->
  find h i name None local_only = Some o ->
  exists ss j t before c after, Path h i ss j t /\ categories = before ++ c :: after /\ declares t c name o
     /\ (forall c', In c' before -> declares_not t c' name)
     /\ (forall s c', In s ss -> declares_not s c' name)
     /\ (local_only = true -> forall s, In s ss -> is_loop s = true).
Proof. exact find_any. Qed.
Print Assumptions C04_find_any_category.

(* A variable that was inserted is found from where it was inserted, whatever
   enclosing scopes declare, and the lookup of all other names is unchanged. *)
Theorem C04_insert_find : forall h i var var_name name h' local_only,
  well_founded_heap h -> name <> "_" ->
  (forall ss j t, Path h i ss j t -> is_loop t = true -> declares_not t KVariables name) ->
  insert_variable h i var var_name (Some name) = POk h' ->
  find h' i name (Some KVariables) local_only = Some var.
Proof. exact insert_then_find. Qed.
Print Assumptions C04_insert_find.

Theorem C04_insert_others : forall h i var var_name name h',
  well_founded_heap h -> name <> "_" ->
  insert_variable h i var var_name (Some name) = POk h' ->
  well_founded_heap h' /\ forall j m c local_only, m <> name -> find h' j m c local_only = find h j m c local_only.
Proof.
  intros h i var vn name h' W N H. split.
  - exact (wf_insert_variable h i var vn name h' W N H).
  - exact (insert_others h i var vn name h' W N H).
Qed.
Print Assumptions C04_insert_others.

Example C04_ex : exists h0 h1 h2 h3,
  run_ops LC [OInsert 0 "x" CVariable; OChild 0 "f" SFunction; OInsert 1 "x" CVariable; OLoop 1]
    [root_scope SModule (Some "mod")] = POk h0
  /\ insert_variable h0 0 7 "mod__x" None = POk h1
  /\ find h1 2 "x" (Some KVariables) false = Some 7 /\ find h1 2 "x" (Some KVariables) true = None
  /\ insert_variable h1 2 8 "x" (Some "x") = POk h2
  /\ find h2 2 "x" (Some KVariables) true = Some 8 /\ find h2 0 "x" None false = Some 7
  /\ insert_variable h2 1 9 "x" (Some "x") = PErr "RuntimeError" /\ h3 = h2.
Proof.
  eexists; eexists; eexists; eexists. split; [vm_compute; reflexivity|]. split; [vm_compute; reflexivity|].
  split; [vm_compute; reflexivity|]. split; [vm_compute; reflexivity|]. split; [vm_compute; reflexivity|].
  split; [vm_compute; reflexivity|]. split; [vm_compute; reflexivity|]. split; [vm_compute; reflexivity|reflexivity].
Qed.

(* ---- C05: temporaries are new ---- *)

(* A temporary requested from a scope that is no loop differs from every name
   visible there and from the reserved words, in any state. *)
Theorem C05_not_a_loop_partial : forall l h i s current ctx h' n,
  nth_error h i = Some s -> is_loop s = false ->
  get_new_name l h i current ctx = POk (h', n) ->
  ~ reserved l n /\ ~ in_use l n (all_used_symbols h i).
Proof. exact fresh_not_loop. Qed.
Print Assumptions C05_not_a_loop_partial.

(* The same from inside loops, after histories of the usual form. *)
Theorem C05_in_loops_partial : forall l ops t name h i e et current h' n,
  run_plain l ops [root_scope t name] h ->
  Home h i e -> type_at h e = Some et -> prefixing l et = false ->
  get_new_name l h i current CVariable = POk (h', n) ->
  ~ reserved l n /\ ~ in_use l n (all_used_symbols h i).
Proof. exact loop_fresh. Qed.
Print Assumptions C05_in_loops_partial.

Example C05_in_loops_ex : exists h h',
  run_plain LC [OInsert 0 "x" CVariable; OChild 0 "f" SFunction; OInsert 1 "x" CVariable; OLoop 1]
    [root_scope SModule (Some "mod")] h
  /\ Home h 2 1 /\ type_at h 1 = Some SFunction /\ prefixing LC SFunction = false
  /\ get_new_name LC h 2 (Some "x") CVariable = POk (h', "x_0001").
Proof.
  eexists. eexists. split.
  - cbn [run_plain plain_op]. split; [discriminate|]. eexists. split; [vm_compute; reflexivity|]. split; [exact I|].
    eexists. split; [vm_compute; reflexivity|]. split; [discriminate|].
    eexists. split; [vm_compute; reflexivity|]. split; [exact I|].
    eexists. split; [vm_compute; reflexivity|]. reflexivity.
  - split; [eapply home_up; [reflexivity|reflexivity|reflexivity|eapply home_here; reflexivity]|].
    split; [reflexivity|]. split; [reflexivity|]. vm_compute. reflexivity.
Qed.

(* For C output a temporary requested at module level can take over the entry of
   a user variable: x and mod__x_0001 are declared in module mod; a temporary
   "x" is invented as mod__x_0001, after which the user's variable mod__x_0001
   is printed with the name of the temporary. *)
Theorem C05_steals_entry_refuted : exists ops h h' n,
  run_ops LC ops [root_scope SModule (Some "mod")] = POk h
  /\ get_expected_name LC h 0 "mod__x_0001" = POk (h, "mod__mod__x_0001")
  /\ get_new_name LC h 0 (Some "x") CVariable = POk (h', n)
  /\ get_expected_name LC h' 0 "mod__x_0001" = POk (h', n).
Proof.
  exists [OInsert 0 "x" CVariable; OInsert 0 "mod__x_0001" CVariable]. eexists. eexists. exists "mod__x_0001".
  split; [vm_compute; reflexivity|]. split; [vm_compute; reflexivity|]. split; [vm_compute; reflexivity|]. vm_compute; reflexivity.
Qed.
Print Assumptions C05_steals_entry_refuted.

(* Two loops at module level, C output: the second anonymous temporary is the
   first one. *)
Theorem C05_sibling_loops_refuted : exists ops h h1 h2 n,
  run_ops LC ops [root_scope SModule (Some "mod")] = POk h
  /\ get_new_name LC h 1 None CVariable = POk (h1, n)
  /\ get_new_name LC h1 2 None CVariable = POk (h2, n).
Proof.
  exists [OLoop 0; OLoop 0]. eexists. eexists. eexists. exists "mod__Dummy_0000".
  split; [vm_compute; reflexivity|]. split; [vm_compute; reflexivity|]. vm_compute; reflexivity.
Qed.
Print Assumptions C05_sibling_loops_refuted.

(* get_new_incremented_symbol looks at low-level names only: for C output it can
   return the name of an existing function. *)
Theorem C05_incremented_symbol_refuted : exists ops h h' n k,
  run_ops LC ops [root_scope SModule (Some "mod")] = POk h
  /\ get_expected_name LC h 0 "f_0000" = POk (h, n)
  /\ get_new_incremented_symbol LC h 0 "f" 0 = POk (h', (n, k)).
Proof.
  exists [OInsert 0 "f_0000" CFunction]. eexists. eexists. exists "mod__f_0000", 1.
  split; [vm_compute; reflexivity|]. split; [vm_compute; reflexivity|]. vm_compute; reflexivity.
Qed.
Print Assumptions C05_incremented_symbol_refuted.
