(** C73: modules are initialised as in Python.  C74: the arrays of modules are
    released. *)
From Coq Require Import List Arith Bool Lia.
From Verif Require Import Init_Model Init_Spec Init_Proofs.
Import ListNotations.

(** Whatever is asked of an image, in any order, and for any program: the
    statements at the top level of a module run once, all and in order, or not
    at all. *)
Theorem C73_once : forall p im t m, project p -> compile p = Some im -> trace_of im t ->
  own m t = [] \/ own m t = all_of p m.
Proof. intros p im t m P E T. exact (trace_once p im t (compile_image p im P E) T m). Qed.
Print Assumptions C73_once.

(** A module which is asked for is initialised. *)
Theorem C73_asked : forall p im fuel reqs fl t m, project p -> compile p = Some im ->
  Forall request reqs -> exec fuel im reqs start = Some (fl, t) -> In (CInit m) reqs ->
  own m t = all_of p m.
Proof.
  intros p im fuel reqs fl t m P E R X H.
  exact (request_runs p im fuel reqs fl t m (compile_image p im P E) R X H).
Qed.
Print Assumptions C73_asked.

(** The modules which a module imports are complete before its first statement.
    Missing: a name used for two modules (refuted below). *)
Theorem C73_order_partial : forall p im t pre m s post d,
  project p -> compile p = Some im ->
  (forall s, In s p -> keys_agree (top s ++ after s)) -> trace_of im t ->
  t = pre ++ Ran m s :: post -> imports_of p m d -> own d pre = all_of p d.
Proof.
  intros p im t pre m s post d P E K T X H.
  exact (trace_order p im t (compile_image p im P E) K T pre m s post d X H).
Qed.
Print Assumptions C73_order_partial.

(** The executable does what Python does.  Missing: imports which do not come
    first, a name used for two modules, statements after the block of the
    program (all refuted below). *)
Theorem C73_program_partial : forall p im n s fuel t,
  project p -> compile p = Some im -> Forall tidy_source p ->
  nth_error p n = Some s -> after s = [] ->
  python_program fuel p n = Some t ->
  exists fuel' t', run_program fuel' im n = Some t' /\ seen t' = t.
Proof.
  intros p im n s fuel t P E Ty S A X.
  exact (program_python p im n s fuel t (compile_image p im P E) Ty S A X).
Qed.
Print Assumptions C73_program_partial.

(** The import of one extension module does what the import of the Python file
    does.  Missing: several extension modules which use the same module (refuted
    below). *)
Theorem C73_extension_partial : forall p im m fuel l t k,
  project p -> compile p = Some im -> Forall tidy_source p ->
  python fuel p Did [Imp (Name m) m] (fun _ => false, []) = Some (l, t) ->
  exists fuel' t', run_imports fuel' im [] (m :: repeat m k) = Some t' /\ seen t' = t.
Proof.
  intros p im m fuel l t k P E Ty X.
  destruct (extension_python p im m fuel l t (compile_image p im P E) Ty X) as (fuel' & t' & R & S).
  exists fuel', t'. split; [|exact S]. exact (imports_again fuel' im m k t' R).
Qed.
Print Assumptions C73_extension_partial.

Ltac small := cbn in *; repeat (match goal with
  | |- _ /\ _ => split
  | |- Forall _ [] => constructor
  | |- Forall _ (_ :: _) => constructor
  | |- body_ok _ _ => split
  | |- tidy _ => split
  | |- tidy_source _ => split
  | |- source_ok _ _ => split
  | |- arrays_ok _ => intros _; discriminate
  | |- keys_agree _ => unfold keys_agree
  | |- forall _, _ => intro
  | H : Some _ = Some _ |- _ => injection H as <-
  | H : None = Some _ |- _ => discriminate H
  | H : False |- _ => destruct H
  | H : _ \/ _ |- _ => destruct H as [H|H]
  end; cbn in *); try exact Logic.I; try lia; try congruence.

Ltac proj := intros n s H; repeat (destruct n as [|n]; cbn in H;
  [injection H as <-; small|]); try (destruct n; discriminate); try discriminate.

(** A diamond: 1 and 2 import 0, the program 3 imports both, and a function of 2
    imports 0. *)
Definition diamond : list source :=
  [Source [Do 1; Do 2] None [] [[Do 9]] [(7, false); (8, true)];
   Source [Imp (Name 0) 0; Note; Do 3; Call 0 0] None [] [] [(4, false)];
   Source [Imp (Name 0) 0; Do 5] None [] [[Imp (Name 0) 0; Do 6; Call 0 0]] [];
   Source [Imp (Name 1) 1; Imp (Name 2) 2; Imp (Name 1) 1; Do 10] (Some [Call 2 0; Do 11]) [] [] [(1, false)]].

Lemma diamond_project : project diamond.
Proof.
  proj.
Qed.

Lemma diamond_tidy : Forall tidy_source diamond.
Proof.
  unfold diamond. small.
Qed.

Example C73_example :
  project diamond /\ Forall tidy_source diamond /\
  exists im t, compile diamond = Some im /\ run_program 30 im 3 = Some t /\
    python_program 30 diamond 3 = Some (seen t) /\
    seen t = [Ran 0 1; Ran 0 2; Ran 1 3; Did 9; Ran 2 5; Ran 3 10; Did 6; Did 9; Did 11] /\
    t = [Ran 0 1; Ran 0 2; Freed 0 8; Ran 1 3; Did 9; Ran 2 5; Ran 3 10; Did 6; Did 9; Did 11;
         Freed 0 7; Freed 1 4; Freed 3 1].
Proof.
  split; [exact diamond_project|]. split; [exact diamond_tidy|].
  eexists _, _. split; [vm_compute; reflexivity|]. split; [vm_compute; reflexivity|].
  split; [vm_compute; reflexivity|]. split; vm_compute; reflexivity.
Qed.

(** Imports are put before the other statements: with a statement before the
    import the order is not that of Python. *)
Theorem C73_hoist_refuted : exists p im n t t',
  project p /\ compile p = Some im /\ python_program 30 p n = Some t /\
  run_program 30 im n = Some t' /\ seen t' <> t.
Proof.
  exists [Source [Do 0] None [] [] []; Source [Do 1; Imp (Name 0) 0; Do 2] (Some []) [] [] []].
  eexists _, 1, _, _. split; [|split; [vm_compute; reflexivity|split; [vm_compute; reflexivity|split; [vm_compute; reflexivity|discriminate]]]].
  proj.
Qed.
Print Assumptions C73_hoist_refuted.

(** The same in a function. *)
Theorem C73_function_refuted : exists p im n t t',
  project p /\ compile p = Some im /\ python_program 30 p n = Some t /\
  run_program 30 im n = Some t' /\ seen t' <> t /\
  Forall (fun s => tidy (top s ++ after s)) p.
Proof.
  exists [Source [Do 0] None [] [] [];
          Source [] (Some [Call 1 0]) [] [[Do 1; Imp (Name 0) 0; Do 2]] []].
  eexists _, 1, _, _.
  split; [|split; [vm_compute; reflexivity|split; [vm_compute; reflexivity|split; [vm_compute; reflexivity|split; [discriminate|]]]]].
  - proj.
  - small.
Qed.
Print Assumptions C73_function_refuted.

(** Statements after the block of the program run before it. *)
Theorem C73_after_refuted : exists p im n t t',
  project p /\ compile p = Some im /\ Forall tidy_source p /\ python_program 30 p n = Some t /\
  run_program 30 im n = Some t' /\ seen t' <> t.
Proof.
  exists [Source [] (Some [Do 0]) [Do 1] [] []].
  eexists _, 0, _, _.
  split; [|split; [vm_compute; reflexivity|split; [|split; [vm_compute; reflexivity|split; [vm_compute; reflexivity|discriminate]]]]].
  - proj.
  - small.
Qed.
Print Assumptions C73_after_refuted.

(** Two modules imported with the same name: the second is not initialised. *)
Theorem C73_alias_refuted : exists p im n t t',
  project p /\ compile p = Some im /\ python_program 30 p n = Some t /\
  run_program 30 im n = Some t' /\ own 1 t <> [] /\ own 1 t' = [].
Proof.
  exists [Source [Do 0] None [] [] []; Source [Do 1] None [] [] [];
          Source [Imp (Alias 0) 0; Imp (Alias 0) 1; Do 2] (Some []) [] [] []].
  eexists _, 2, _, _.
  split; [|split; [vm_compute; reflexivity|split; [vm_compute; reflexivity|split; [vm_compute; reflexivity|split; [discriminate|reflexivity]]]]].
  proj.
Qed.
Print Assumptions C73_alias_refuted.

(** Each extension module has its own copy of the modules it uses: when Python
    imports two of them, the statements of a common module run twice. *)
Theorem C73_copies_refuted : exists p im t,
  project p /\ compile p = Some im /\ Forall tidy_source p /\
  run_imports 30 im [] [1; 0] = Some t /\
  all_of p 0 <> [] /\ own 0 t = all_of p 0 ++ all_of p 0.
Proof.
  exists [Source [Do 0] None [] [] []; Source [Imp (Name 0) 0; Do 1] None [] [] []].
  eexists _, _.
  split; [|split; [vm_compute; reflexivity|split; [|split; [vm_compute; reflexivity|split; [discriminate|reflexivity]]]]].
  - proj.
  - small.
Qed.
Print Assumptions C73_copies_refuted.

(** At the end of the program, each array of a module which is reached by the
    imports at the top level is released exactly once.  Missing: modules
    imported with another name, modules only imported in functions or in the
    block of the program (refuted below). *)
Theorem C74_release_partial : forall p im n t fuel k s v,
  project p -> compile p = Some im ->
  (forall s, In s p -> named (top s ++ after s)) -> (forall s, In s p -> arrays_ok s) ->
  run_program fuel im n = Some t -> reaches p n k -> nth_error p k = Some s ->
  NoDup (map fst (arrays s)) ->
  (In v (map fst (arrays s)) -> freed k v t = 1) /\
  (~ In v (map fst (arrays s)) -> freed k v t = 0).
Proof.
  intros p im n t fuel k s v P E Nm Ao X R S Nd.
  assert (H := release p im n t fuel (compile_image p im P E) Nm Ao X k s v R S). rewrite H.
  split.
  - exact (proj1 (NoDup_count_occ' Nat.eq_dec _) Nd v).
  - exact (proj1 (count_occ_not_In Nat.eq_dec _ v)).
Qed.
Print Assumptions C74_release_partial.

(** No statement runs after an array is released which is not a temporary.
    Missing: modules with two temporaries (refuted below). *)
Theorem C74_late_partial : forall p im t k s v pre post,
  project p -> compile p = Some im -> trace_of im t -> nth_error p k = Some s ->
  length (filter snd (arrays s)) <= 1 -> NoDup (map fst (arrays s)) ->
  In (v, false) (arrays s) -> t = pre ++ Freed k v :: post -> seen post = [].
Proof.
  intros p im t k s v pre post P E T S One Nd Iv X.
  exact (late p im t (compile_image p im P E) T k s v pre post S One Nd Iv X).
Qed.
Print Assumptions C74_late_partial.

Example C74_example :
  (forall s, In s diamond -> named (top s ++ after s)) /\
  (forall s, In s diamond -> arrays_ok s) /\
  reaches diamond 3 0 /\
  Forall (fun s => length (filter snd (arrays s)) <= 1 /\ NoDup (map fst (arrays s))) diamond.
Proof.
  split; [|split; [|split]].
  - intros s H k m A. cbn in H. small; subst s; cbn in A; small; try discriminate; reflexivity.
  - intros s H _. cbn in H. small; subst s; discriminate.
  - apply (reach_step _ 3 1).
    + eexists _, (Name 1). split; [vm_compute; reflexivity|]. left. reflexivity.
    + apply (reach_step _ 1 0); [|constructor].
      eexists _, (Name 0). split; [vm_compute; reflexivity|]. left. reflexivity.
  - repeat (constructor; [split; [cbn; lia|]; cbn;
      repeat (constructor; [cbn; intuition discriminate|]); constructor|]). constructor.
Qed.

(** With two temporaries the wrong array is released by the initialisation, and
    a statement which uses it runs afterwards. *)
Theorem C74_temporaries_refuted : exists p im n t v pre post,
  project p /\ compile p = Some im /\ run_program 30 im n = Some t /\
  (exists s, nth_error p n = Some s /\ In (v, false) (arrays s)) /\
  t = pre ++ Freed n v :: post /\ seen post <> [].
Proof.
  exists [Source [Do 0] (Some [Do 1]) [] [] [(1, true); (2, true); (3, false)]].
  eexists _, 0, _, 3, [Ran 0 0; Freed 0 1], _.
  split; [|split; [vm_compute; reflexivity|split; [vm_compute; reflexivity|split; [|split; [vm_compute; reflexivity|discriminate]]]]].
  - proj.
  - eexists. split; [vm_compute; reflexivity|]. right. right. left. reflexivity.
Qed.
Print Assumptions C74_temporaries_refuted.

(** With two temporaries the compiler can also stop with an exception. *)
Theorem C74_crash_refuted : exists p, project p /\ Forall tidy_source p /\
  Forall arrays_ok p /\ compile p = None.
Proof.
  exists [Source [Do 0] None [] [] [(1, true); (2, true)]].
  split; [|split; [|split; [|reflexivity]]].
  - proj.
  - small.
  - constructor; [|constructor]. intros _. discriminate.
Qed.
Print Assumptions C74_crash_refuted.

(** The arrays of a module imported with another name are never released. *)
Theorem C74_as_refuted : exists p im n t k s v,
  project p /\ compile p = Some im /\ Forall tidy_source p /\ run_program 30 im n = Some t /\
  reaches p n k /\ nth_error p k = Some s /\ own k t <> [] /\
  In (v, false) (arrays s) /\ freed k v t = 0.
Proof.
  exists [Source [Do 0] None [] [] [(1, false)]; Source [Imp (Alias 5) 0; Do 1] (Some []) [] [] []].
  eexists _, 1, _, 0, _, 1.
  split; [|split; [vm_compute; reflexivity|split; [|split; [vm_compute; reflexivity|split; [|split; [vm_compute; reflexivity|
    split; [discriminate|split; [left; reflexivity|reflexivity]]]]]]]].
  - proj.
  - small.
  - apply (reach_step _ 1 0); [|constructor]. eexists _, (Alias 5). split; [vm_compute; reflexivity|].
    left. reflexivity.
Qed.
Print Assumptions C74_as_refuted.

(** Nor are those of a module which is imported in the block of the program. *)
Theorem C74_main_refuted : exists p im n t k s v,
  project p /\ compile p = Some im /\ Forall tidy_source p /\ run_program 30 im n = Some t /\
  nth_error p k = Some s /\ own k t <> [] /\
  In (v, false) (arrays s) /\ freed k v t = 0.
Proof.
  exists [Source [Do 0] None [] [] [(1, false)];
          Source [Do 1] (Some [Imp (Name 0) 0; Do 2]) [] [] []].
  eexists _, 1, _, 0, _, 1.
  split; [|split; [vm_compute; reflexivity|split; [|split; [vm_compute; reflexivity|split; [vm_compute; reflexivity|
    split; [discriminate|split; [left; reflexivity|reflexivity]]]]]]].
  - proj.
  - small.
Qed.
Print Assumptions C74_main_refuted.
