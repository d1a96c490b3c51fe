(* C42, C55: what is given to the compiler. *)
From Coq Require Import Bool String Ascii Arith Lia Relations List.
From Verif Require Import Comp_Model Comp_Spec Comp_Proofs.
Import ListNotations.
Open Scope string_scope.
Open Scope list_scope.

(* A set as a list without repetitions. *)
Lemma nodup_order : set_order (nodup string_dec).
Proof. intros l. split; [apply NoDup_nodup|]. intros x. apply nodup_In. Qed.

Lemma rev_order : set_order (fun l => rev (nodup string_dec l)).
Proof. intros l. split; [apply NoDup_rev, NoDup_nodup|]. intros x. rewrite <- in_rev. apply nodup_In. Qed.

Ltac cases H := cbn in H; repeat (destruct H as [H|H]; [|]); try contradiction; try (injection H as <- <-).

Definition none := mk_given [] [] [] [] [].
Definition gcc : language :=
  mk_language "gcc" "mpicc" ["-g"] ["-O3"] ["-fPIC"] (mk_given [] [] ["m"] [] [])
    (fun a => if String.eqb a "openmp" then mk_given ["-fopenmp"] [] ["gomp"] [] []
              else if String.eqb a "python" then mk_given [] ["/py"] ["python3"] ["/lib/py"] [] else none)
    None ".so".

(* The object 0 depends on 1 and 2, both on 3. *)
Definition diamond : heap :=
  [mk_obj "main.c" "main.o" "main" "main" true ["-Wall"] ["."] ["u"] [] ["python"] [("a.o", 1); ("b.o", 2)];
   mk_obj "a.c" "a.o" "a" "a" true [] ["a"] [] ["/lib/a"] ["openmp"] [("c.o", 3)];
   mk_obj "b.c" "b.o" "b" "b" true [] ["b"] ["w"] [] [] [("c.o", 3)];
   mk_obj "c.c" "c.o" "c" "c" true [] ["c"] ["z"] [] [] []].

Lemma diamond_closed : closed diamond.
Proof. intros o k j I J. cbn in I. destruct I as [<-|[<-|[<-|[<-|[]]]]]; cases J; cbn; lia. Qed.

Lemma ranked_acyclic h i : (forall a b, depends h a b -> a < b) -> acyclic_from h i.
Proof.
  intros R j _ N. assert (T : forall a b, needs h a b -> a < b) by (induction 1; [auto|lia]).
  specialize (T j j N). lia.
Qed.

Lemma diamond_acyclic : acyclic_from diamond 0.
Proof.
  apply ranked_acyclic. intros a b (o & k & E & I).
  destruct a as [|[|[|[|a]]]]; cbn in E; [| | | |destruct a; discriminate]; injection E as <-; cases I; lia.
Qed.

(* The command for an object file: the include folders are those of the object and
   of all objects it depends on, of the language and of the tools. *)
Theorem C42_object_file : forall order debug L out fuel h i o,
  set_order order -> closed h -> nth_error h i = Some o -> acyclic_from h i -> length h <= fuel -> o_has_target o = true ->
  exists e ts fs inc,
    compile_module order debug L out fuel h i
    = Command (e :: fs ++ ["-c"] ++ each "-I" inc ++ [o_source o; "-o"; o_target o]
               ++ match l_module_output_flag L with Some f => [f; out] | None => [] end)
    /\ executable L h i e
    /\ exactly ts (has o_tools h i) /\ flags_for debug L o ts fs
    /\ exactly inc (wanted o_include g_include L h i).
Proof. exact module_command. Qed.
Print Assumptions C42_object_file.

Example C42_object_ex : closed diamond /\ acyclic_from diamond 0
  /\ compile_module (nodup string_dec) false gcc "out" 4 diamond 0
     = Command ["gcc"; "-Wall"; "-O3"; "-fPIC"; "-fopenmp"; "-c"; "-I"; "."; "-I"; "a"; "-I"; "b"; "-I"; "c"; "-I"; "/py";
                "main.c"; "-o"; "main.o"].
Proof. split; [exact diamond_closed|]. split; [exact diamond_acyclic|vm_compute; reflexivity]. Qed.

(* The command for a program. *)
Theorem C42_program : forall order debug L out fuel h i o,
  set_order order -> closed h -> nth_error h i = Some o -> acyclic_from h i -> length h <= fuel ->
  ~ wanted o_libdir g_libdir L h i "-L" ->
  exists e ts fs inc ls lf ld m,
    compile_program order debug L out fuel h i
    = Command (e :: fs ++ each "-I" inc ++ each "-L" ld ++ each "-Wl,-rpath" ld ++ m
               ++ [o_source o; "-o"; (out ++ "/" ++ o_program o)%string] ++ lf)
    /\ executable L h i e
    /\ exactly ts (has o_tools h i) /\ flags_for debug L o ts fs
    /\ exactly inc (wanted o_include g_include L h i)
    /\ exactly ls (wanted o_libs g_libs L h i) /\ Forall2 library_flag ls lf
    /\ exactly ld (wanted o_libdir g_libdir L h i)
    /\ exactly m (wanted_file (linked h) L h i).
Proof.
  intros * SO C E A F N. destruct (program_command order debug L out fuel h i o SO C E A F N) as (e & ts & fs & inc & ls & ld & m & X & P).
  exists e, ts, fs, inc, ls, (map lib_flag ls), ld, m. split; [exact X|]. pose proof (lib_flags ls). tauto.
Qed.
Print Assumptions C42_program.

(* The command for a shared library. *)
Theorem C42_shared_library : forall order order' debug L out name fuel h i o,
  set_order order -> set_order order' -> closed h -> nth_error h i = Some o -> acyclic_from h i -> length h <= fuel ->
  ~ wanted o_libdir g_libdir L h i "-L" -> has o_tools h i "python" ->
  exists e ts fs ls lf ld m,
    compile_shared_library order order' debug L out name fuel h i
    = Command (e :: "-shared" :: fs ++ each "-L" ld ++ each "-Wl,-rpath" ld ++ [o_target o] ++ m
               ++ ["-o"; (out ++ "/" ++ match name with Some s => s | None => o_module o end ++ l_shared_suffix L)%string]
               ++ lf)
    /\ executable L h i e
    /\ exactly ts (fun a => has o_tools h i a /\ a <> "python") /\ flags_for debug L o ts fs
    /\ exactly ls (wanted o_libs g_libs L h i) /\ Forall2 library_flag ls lf
    /\ exactly ld (wanted o_libdir g_libdir L h i)
    /\ exactly m (wanted_file (linked h) L h i).
Proof.
  intros * SO SO' C E A F N Y.
  destruct (library_command order order' debug L out name fuel h i o SO SO' C E A F N Y) as (e & ts & fs & ls & ld & m & X & P).
  exists e, ts, fs, ls, (map lib_flag ls), ld, m. split; [exact X|]. pose proof (lib_flags ls). tauto.
Qed.
Print Assumptions C42_shared_library.

Example C42_link_ex :
  compile_program (nodup string_dec) true gcc "out" 4 diamond 0
  = Command ["gcc"; "-Wall"; "-g"; "-fPIC"; "-fopenmp"; "-I"; "."; "-I"; "a"; "-I"; "b"; "-I"; "c"; "-I"; "/py";
             "-L"; "/lib/a"; "-L"; "/lib/py"; "-Wl,-rpath"; "/lib/a"; "-Wl,-rpath"; "/lib/py";
             "a.o"; "b.o"; "c.o"; "main.c"; "-o"; "out/main"; "-lu"; "-lz"; "-lw"; "-lm"; "-lpython3"; "-lgomp"]
  /\ compile_shared_library (nodup string_dec) (nodup string_dec) true gcc "out" (Some "mod") 4 diamond 0
     = Command ["gcc"; "-shared"; "-Wall"; "-g"; "-fPIC"; "-fopenmp";
             "-L"; "/lib/a"; "-L"; "/lib/py"; "-Wl,-rpath"; "/lib/a"; "-Wl,-rpath"; "/lib/py";
             "main.o"; "a.o"; "b.o"; "c.o"; "-o"; "out/mod.so"; "-lu"; "-lz"; "-lw"; "-lm"; "-lpython3"; "-lgomp"]
  /\ has o_tools diamond 0 "python".
Proof.
  split; [vm_compute; reflexivity|]. split; [vm_compute; reflexivity|].
  eexists 0, _. split; [apply rt_refl|]. split; [reflexivity|]. left. reflexivity.
Qed.

(* The object files are those of all dependencies, if an object without an object
   file does not depend on one with an object file ... *)
Theorem C42_object_files_partial : forall h i x, closed h ->
  (forall a b p q, nth_error h a = Some p -> o_has_target p = false -> depends h a b ->
     nth_error h b = Some q -> o_has_target q = false) ->
  object_file (linked h) h i x <-> object_file (needs h) h i x.
Proof.
  intros h i x C P. split; intros (j & o & R & E & T & X); exists j, o; (split; [|auto]).
  - apply linked_needs, R.
  - exact (linked_all h i j o P C R E T).
Qed.
Print Assumptions C42_object_files_partial.

(* ... but not in general. *)
Definition through_header : heap :=
  [mk_obj "main.c" "main.o" "main" "main" true [] [] [] [] [] [("h.o", 1)];
   mk_obj "h.pyi" "h.o" "h" "h" false [] [] [] [] [] [("c.o", 2)];
   mk_obj "c.c" "c.o" "c" "c" true [] [] [] [] [] []].

Theorem C42_object_files_refuted : exists h i x, closed h /\ acyclic_from h i /\ object_file (needs h) h i x
  /\ ~ object_file (linked h) h i x.
Proof.
  exists through_header, 0, "c.o".
  assert (D : forall a b, depends through_header a b <-> (a = 0 /\ b = 1) \/ (a = 1 /\ b = 2)).
  { intros a b. split.
    - intros (o & k & E & I). destruct a as [|[|[|a]]]; cbn in E; [| | |destruct a; discriminate]; injection E as <-; cases I; auto.
    - intros [(-> & ->)|(-> & ->)]; eexists _, _; (split; [reflexivity|left; reflexivity]). }
  split; [|split; [|split]].
  - intros o k j I J. cbn in I. destruct I as [<-|[<-|[<-|[]]]]; cases J; cbn; lia.
  - apply ranked_acyclic. intros a b H. apply D in H. lia.
  - eexists 2, _. split; [eapply t_trans; apply t_step; apply D; auto|]. repeat split; reflexivity.
  - intros (j & o & L & E & T & X). inversion L; subst; apply D in H; destruct H as [(_ & ->)|(H & _)]; try discriminate H;
      cbn in H0; injection H0 as <-; discriminate H1.
Qed.
Print Assumptions C42_object_files_refuted.

(* Objects that depend on themselves: there is no command. *)
Theorem C42_circular : forall order debug L out fuel h i o j,
  nth_error h i = Some o -> o_has_target o = true -> uses h i j -> needs h j j ->
  compile_module order debug L out fuel h i = Recursion.
Proof. exact module_recursion. Qed.
Print Assumptions C42_circular.

Example C42_circular_ex : let o := mk_obj "a.c" "a.o" "a" "a" true [] [] [] [] [] [("a.o", 0)] in
  nth_error [o] 0 = Some o /\ uses [o] 0 0 /\ needs [o] 0 0.
Proof.
  cbv zeta. split; [reflexivity|]. split; [apply rt_refl|]. apply t_step. eexists _, _. split; [reflexivity|left; reflexivity].
Qed.

(* The dependencies of a file: one for each file imported directly or indirectly,
   with the libraries of those ignored. *)
Theorem C42_imports : forall ps root fuel ls deps, different_files ps ->
  module_dependencies fuel ps root = Some (ls, deps) ->
  NoDup (keys deps)
  /\ (forall f d, In (f, d) deps <-> exists q p, imported ps root q p /\ p_file p = f /\ recorded p d)
  /\ (forall x, In x ls <-> exists q p, imported ps root q p /\ p_obj p = None /\ p_ignore p = true /\ In x (p_libs p)).
Proof. exact module_dependencies_exact. Qed.
Print Assumptions C42_imports.

Theorem C42_imports_end : forall ps root fuel, closed_parsers ps -> root < length ps -> length ps <= fuel ->
  (forall j, clos_refl_trans nat (imports_file ps) root j -> ~ clos_trans nat (imports_file ps) j j) ->
  exists r, module_dependencies fuel ps root = Some r.
Proof. exact module_dependencies_total. Qed.
Print Assumptions C42_imports_end.

(* The libraries of all imported files, the folders of those that are not ignored
   and the object files of those that have one are given to the compiler. *)
Theorem C42_imports_given : forall ps root fuel o h cl deps h' m q p,
  different_files ps -> module_dependencies fuel ps root = Some (cl, deps) ->
  (forall p' i, In p' ps -> p_obj p' = Some i -> i < length h) ->
  NoDup (map (dep_target h) (map snd deps)) ->
  main_object o h cl deps = (h', m) ->
  imported ps root q p -> p_obj p = None ->
  (forall x, In x (p_libs p) -> has o_libs h' m x)
  /\ (p_ignore p = false ->
      (forall x, In x (p_includes p) -> has o_include h' m x) /\ (forall x, In x (p_libdirs p) -> has o_libdir h' m x)
      /\ (p_header_only p = false -> has o_include h' m (p_folder p) /\ object_file (linked h') h' m (p_target p))).
Proof. exact imports_wanted. Qed.
Print Assumptions C42_imports_given.

(* main.py imports a.pyi and b.pyi; a.pyi imports c.pyi, a header that is
   ignored; b.pyi imports omp_lib. *)
Definition files : list parser :=
  [mk_parser "main.py" "" "main.o" false None false false [] [] [] [1; 2];
   mk_parser "__pyccel__/a.pyi" "__pyccel__" "a.o" false None false false [] ["la"] [] [3];
   mk_parser "__pyccel__/b.pyi" "__pyccel__" "b.o" false None false false ["inc"] [] [] [4; 3];
   mk_parser "c.pyi" "" "c.o" false None true true ["/inc/c"] ["lc"] ["/lib/c"] [];
   mk_parser "omp_lib.pyi" "" "o.o" true None false true [] ["gomp"] [] []].

Definition main : obj := mk_obj "main.c" "main.o" "main" "main" true [] [] [] [] [] [].

Example C42_imports_ex :
  different_files files
  /\ exists ls deps h' m, module_dependencies 5 files 0 = Some (ls, deps)
     /\ keys deps = ["__pyccel__/a.pyi"; "__pyccel__/b.pyi"] /\ ls = ["lc"; "lc"]
     /\ NoDup (map (dep_target []) (map snd deps))
     /\ main_object main [] ls deps = (h', m)
     /\ libs 3 h' m = Some ["lc"; "lc"; "la"] /\ include 3 h' m = Some ["__pyccel__"; "inc"; "__pyccel__"].
Proof.
  split; [vm_compute; repeat constructor; cbn; intuition discriminate|].
  eexists _, _, _, _. split; [vm_compute; reflexivity|]. split; [vm_compute; reflexivity|]. split; [reflexivity|].
  split; [vm_compute; repeat constructor; cbn; intuition discriminate|]. split; [vm_compute; reflexivity|].
  split; vm_compute; reflexivity.
Qed.

(* The folders of an ignored file are lost, although its libraries are linked. *)
Theorem C42_ignored_folders_refuted : exists ps root o cl deps h' m q p,
  different_files ps /\ module_dependencies (length ps) ps root = Some (cl, deps)
  /\ main_object o [] cl deps = (h', m) /\ imported ps root q p /\ p_obj p = None
  /\ (exists x, In x (p_libs p) /\ has o_libs h' m x)
  /\ exists d, In d (p_libdirs p) /\ forall fuel l, libdir fuel h' m = Some l -> ~ In d l.
Proof.
  set (p := mk_parser "c.pyi" "" "c.o" false None true true [] ["lc"] ["/lib/c"] []).
  exists [mk_parser "main.py" "" "main.o" false None false false [] [] [] [1]; p], 0, main.
  eexists _, _, _, _, 1, p. split; [vm_compute; repeat constructor; cbn; intuition discriminate|].
  split; [vm_compute; reflexivity|]. split; [vm_compute; reflexivity|].
  split; [split; [apply reaches_one; eexists; split; [reflexivity|left; reflexivity]|split; reflexivity]|].
  split; [reflexivity|]. split.
  - exists "lc". split; [left; reflexivity|]. eexists 0, _. split; [apply rt_refl|]. split; [reflexivity|left; reflexivity].
  - exists "/lib/c". split; [left; reflexivity|]. intros fuel l H. destruct fuel as [|fuel]; [discriminate|].
    cbn in H. injection H as <-. intros [].
Qed.
Print Assumptions C42_ignored_folders_refuted.

(* ---- C55: the order of the libraries ---- *)

(* Two libraries of an object keep their order, if the second is a library of no
   other object. *)
Theorem C55_own_order_partial : forall fuel L h i ls ts j o x y,
  libs fuel h i = Some ls -> uses h i j -> nth_error h j = Some o -> NoDup (o_libs o) -> before x y (o_libs o) ->
  (forall k o', uses h i k -> nth_error h k = Some o' -> In y (o_libs o') -> k = j) ->
  before x y (get_property g_libs L ls ts).
Proof. exact libs_order. Qed.
Print Assumptions C55_own_order_partial.

Example C55_own_ex : let h := [mk_obj "m.c" "m.o" "m" "m" true [] [] ["x"; "y"] [] [] [("a.o", 1)];
                               mk_obj "a.c" "a.o" "a" "a" true [] [] ["u"; "x"; "v"] [] [] []] in
  libs 2 h 0 = Some ["x"; "y"; "u"; "x"; "v"] /\ before "u" "v" (o_libs (lookup h 1))
  /\ get_property g_libs gcc ["x"; "y"; "u"; "x"; "v"] [] = ["x"; "y"; "u"; "v"; "m"].
Proof. cbv zeta. split; [vm_compute; reflexivity|]. split; [exists [], ["x"], []; reflexivity|vm_compute; reflexivity]. Qed.

(* In general they do not: an object needs x, another y before x. *)
Theorem C55_own_order_refuted : exists h i j o ls x y, libs (length h) h i = Some ls /\ uses h i j /\ nth_error h j = Some o
  /\ NoDup (o_libs o) /\ before x y (o_libs o)
  /\ forall L ts, ~ before x y (get_property g_libs L ls ts).
Proof.
  exists [mk_obj "m.c" "m.o" "m" "m" true [] [] [] [] [] [("a.o", 1); ("b.o", 2)];
          mk_obj "a.c" "a.o" "a" "a" true [] [] ["x"] [] [] [];
          mk_obj "b.c" "b.o" "b" "b" true [] [] ["y"; "x"] [] [] []], 0, 2.
  eexists _, _, "y", "x". split; [vm_compute; reflexivity|].
  split; [apply rt_step; eexists _, _; split; [reflexivity|right; left; reflexivity]|].
  split; [reflexivity|]. split; [repeat constructor; cbn; intuition discriminate|].
  split; [exists [], [], []; reflexivity|]. intros L ts (l1 & l2 & l3 & E).
  pose proof (first_NoDup (["x"; "y"; "x"] ++ g_libs (l_given L) ++ flat_map (fun a => g_libs (l_tool L a)) ts) []) as N.
  unfold get_property in E. rewrite E in N. cbn in E. destruct l1 as [|z l1]; injection E as Ez E; [discriminate|].
  subst z. cbn in N. inversion_clear N as [|? ? X _]. apply X. apply in_or_app. right. right. apply in_or_app. right. left. reflexivity.
Qed.
Print Assumptions C55_own_order_refuted.

(* Nor do the libraries of an object come before those of the objects it depends on. *)
Theorem C55_dependency_order_refuted : exists h i a b oa ob ls x y, libs (length h) h i = Some ls
  /\ uses h i a /\ needs h a b /\ nth_error h a = Some oa /\ nth_error h b = Some ob
  /\ o_libs oa = [x] /\ o_libs ob = [y] /\ acyclic_from h i
  /\ forall L ts, ~ before x y (get_property g_libs L ls ts).
Proof.
  exists [mk_obj "m.c" "m.o" "m" "m" true [] [] [] [] [] [("b.o", 2); ("a.o", 1)];
          mk_obj "a.c" "a.o" "a" "a" true [] [] ["x"] [] [] [("b.o", 2)];
          mk_obj "b.c" "b.o" "b" "b" true [] [] ["y"] [] [] []], 0, 1, 2.
  eexists _, _, _, "x", "y". split; [vm_compute; reflexivity|].
  split; [apply rt_step; eexists _, _; split; [reflexivity|right; left; reflexivity]|].
  split; [apply t_step; eexists _, _; split; [reflexivity|left; reflexivity]|].
  split; [reflexivity|]. split; [reflexivity|]. split; [reflexivity|]. split; [reflexivity|]. split.
  - apply ranked_acyclic. intros a b (o & k & E & I).
    destruct a as [|[|[|a]]]; cbn in E; [| | |destruct a; discriminate]; injection E as <-; cases I; lia.
  - intros L ts (l1 & l2 & l3 & E).
    pose proof (first_NoDup (["y"; "x"; "y"] ++ g_libs (l_given L) ++ flat_map (fun a => g_libs (l_tool L a)) ts) []) as N.
    unfold get_property in E. rewrite E in N. cbn in E. destruct l1 as [|z l1]; injection E as Ez E; [discriminate|].
    subst z. cbn in N. inversion_clear N as [|? ? X _]. apply X. apply in_or_app. right. right. apply in_or_app. right. left. reflexivity.
Qed.
Print Assumptions C55_dependency_order_refuted.
