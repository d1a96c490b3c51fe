(* C37, C38, C52, C53: messages, pipelines, commands, processes. *)
From Coq Require Import Bool String Ascii Arith ZArith Lia List.
From Verif Require Types_Model.
From Verif Require Import Pipe_Model Pipe_Spec Pipe_Proofs.
Import ListNotations.
Open Scope string_scope.
Open Scope list_scope.

Definition say (m : string) (s : severity) : report_args := mk_report m (Some 3) (Some 7) s None None "".
Definition ops1 : list op :=
  [OReport (say "lost" Serror); OReset; OTarget "a.py"; OStage Semantic; OReport (say "first" Swarning);
   OReport (say "second" Serror); OTarget "b.py"; OReport (say "third" Sfatal)].

(* ---- C37 ---- *)

(* has_errors() is true exactly if an error was reported since the last reset. *)
Theorem C37_has_errors : forall l,
  has_errors (do_ops start_world l) = true <->
  exists pre r, reported l pre r /\ error_for (mode_after pre) (r_severity r).
Proof. exact has_errors_history. Qed.
Print Assumptions C37_has_errors.

Example C37_has_errors_ex :
  has_errors (do_ops start_world ops1) = true /\ has_errors (do_ops start_world (firstn 5 ops1)) = false
  /\ has_errors (do_ops start_world (firstn 1 ops1)) = true.
Proof. vm_compute. auto. Qed.

Theorem C37_has_warnings : forall l,
  has_warnings (do_ops start_world l) = true <->
  exists pre r, reported l pre r /\ r_severity r = Swarning.
Proof. exact has_warnings_history. Qed.
Print Assumptions C37_has_warnings.

(* Every message since the last reset is printed, with its place. *)
Theorem C37_printed : forall l pre r,
  reported l pre r -> for_the_user (mode_after pre) (r_severity r) ->
  exists i, i_message i = r_message r /\ i_severity i = r_severity r /\ i_line i = r_line r /\ i_column i = r_column r
            /\ i_symbol i = r_symbol r /\ i_stage i = stage_after pre /\ belongs_to pre r (i_filename i)
            /\ part_of (info_text i) (errors_text (do_ops start_world l))
            /\ part_of (r_message r) (errors_text (do_ops start_world l)).
Proof. exact printed_history. Qed.
Print Assumptions C37_printed.

Example C37_printed_ex :
  errors_text (do_ops start_world ops1) =
  (nl ++ "ERROR at annotation (semantic) stage" ++ nl ++ "pyccel:" ++ nl
   ++ " filename :: a.py" ++ nl
   ++ " |warning [semantic]: a.py [3,7]| first" ++ nl
   ++ " |error [semantic]: a.py [3,7]| second" ++ nl
   ++ " filename :: b.py" ++ nl
   ++ " |fatal [semantic]: b.py [3,7]| third" ++ nl)%string
  /\ reported ops1 (firstn 5 ops1) (say "second" Serror).
Proof.
  split; [vm_compute; reflexivity|].
  exists [OTarget "b.py"; OReport (say "third" Sfatal)]. split; [reflexivity|].
  cbn. intros [H|[H|[]]]; discriminate.
Qed.

(* Messages of a file are printed in the order of the reports. *)
Theorem C37_order : forall pre r mid r' post f,
  ~ In OReset mid -> ~ In OReset post ->
  for_the_user (mode_after pre) (r_severity r) -> belongs_to pre r f ->
  for_the_user (mode_after (pre ++ OReport r :: mid)) (r_severity r') -> belongs_to (pre ++ OReport r :: mid) r' f ->
  printed_before (r_message r) (r_message r')
    (errors_text (do_ops start_world (pre ++ OReport r :: mid ++ OReport r' :: post))).
Proof. exact order_history. Qed.
Print Assumptions C37_order.

(* ... and nothing is counted twice or forgotten. *)
Theorem C37_number_of_messages : forall l,
  num_messages (do_ops start_world l) = messages_since_reset l.
Proof. exact num_messages_history. Qed.
Print Assumptions C37_number_of_messages.

Example C37_number_ex : messages_since_reset ops1 = 3.
Proof. reflexivity. Qed.

(* A fatal report always raises an exception that the commands know, and the
   class of the exception is that of the stage. *)
Theorem C37_fatal_raises : forall r w, r_severity r = Sfatal ->
  snd (report r w) = Some (match w_stage w with
                           | Some Syntactic => ESyntax | Some Semantic => ESemantic | Some Codegen => ECodegen
                           | _ => EPyccel
                           end)
  /\ exists e, snd (report r w) = Some e /\ is_pyccel e = true.
Proof.
  intros r w H. destruct (fatal_raises r w H) as (A & B). split; [exact A|]. eauto.
Qed.
Print Assumptions C37_fatal_raises.

Theorem C37_warnings_do_not_raise : forall r w, r_severity r = Swarning -> snd (report r w) = None.
Proof. exact warning_returns. Qed.
Print Assumptions C37_warnings_do_not_raise.

Theorem C37_errors_are_collected_for_users : forall r w,
  w_mode w = User -> r_severity r <> Sfatal -> snd (report r w) = None.
Proof. exact user_error_returns. Qed.
Print Assumptions C37_errors_are_collected_for_users.

Theorem C37_errors_stop_developers : forall r w, w_mode w = Developer -> r_severity r <> Swarning ->
  contains "raise " (r_traceback r) = false -> exists e, snd (report r w) = Some e /\ is_pyccel e = true.
Proof. exact developer_error_raises. Qed.
Print Assumptions C37_errors_stop_developers.

Example C37_raise_ex :
  snd (report (say "x" Sfatal) (do_ops start_world ops1)) = Some ESemantic
  /\ snd (report (say "x" Serror) (do_ops start_world ops1)) = None
  /\ snd (report (say "x" Serror) (do_ops start_world (ops1 ++ [OMode Developer]))) = Some ESemantic.
Proof. vm_compute. auto. Qed.

(* An exception that leaves the visit of a node becomes a fatal message. *)
Theorem C37_exceptions_are_reported_partial : forall e s,
  w_mode (s_world s) = User -> is_pyccel e = false ->
  let out := do_activity (visit_handler User e) s in
  (exists e', fst out = Some e' /\ is_pyccel e' = true) /\ has_errors (s_world (snd out)) = true
  /\ exists i, In i (all_infos (s_world (snd out))) /\ i_severity i = Sfatal.
Proof. exact visit_reports. Qed.
Print Assumptions C37_exceptions_are_reported_partial.

(* ---- Commands ---- *)

Definition quiet : behaviour := fun _ => mk_activity [] None.
Definition sys0 : sys := mk_sys start_world [] ["/usr/lib/python3"].
Definition opts (l : lang) : options := mk_options false false false false false true false false l true "/work".

Definition action_eqb (a b : action) : bool :=
  match a, b with
  | AParse f, AParse g | AAnnotate f, AAnnotate g | AGenerate f, AGenerate g | ACompile f, ACompile g => Nat.eqb f g
  | AWrap f i, AWrap g j | APrintWrapper f i, APrintWrapper g j => Nat.eqb f g && Nat.eqb i j
  | _, _ => false
  end.
Definition only_at (a : action) (b : activity) : behaviour := fun x => if action_eqb x a then b else mk_activity [] None.

(* Exit status 0 means that no error was reported during the run. *)
Theorem C37_status_compile : forall o b s, fresh s ->
  v_status (fst (run_command (execute_pyccel o b) s)) = 0 ->
  ~ some_error (s_trace (snd (run_command (execute_pyccel o b) s))).
Proof. intros o b s. apply status_zero, execute_known. Qed.
Print Assumptions C37_status_compile.

(* `pyccel compile` with its checks: status 0 only for usable arguments and
   without errors; unusable arguments start nothing and are explained. *)
Theorem C37_compile_command : forall c b s, fresh s -> v_status (fst (pyccel_compile_command c b s)) = 0 ->
  ~ unusable c /\ ~ some_error (s_trace (snd (pyccel_compile_command c b s))).
Proof. exact compile_status. Qed.
Print Assumptions C37_compile_command.

Theorem C37_compile_refused : forall c b s, unusable c ->
  v_status (fst (pyccel_compile_command c b s)) = 1 /\ v_escaped (fst (pyccel_compile_command c b s)) = None
  /\ v_text (fst (pyccel_compile_command c b s)) = errors_text (s_world (snd (pyccel_compile_command c b s)))
  /\ forall a, In (Started a) (s_trace (snd (pyccel_compile_command c b s))) -> In (Started a) (s_trace s).
Proof. exact unusable_refused. Qed.
Print Assumptions C37_compile_refused.

Example C37_compile_ex :
  v_status (fst (pyccel_compile_command (mk_compile true true false (opts LC)) quiet sys0)) = 0
  /\ v_text (fst (pyccel_compile_command (mk_compile true false true (opts LC)) quiet sys0)) =
     ("pyccel:" ++ nl ++ " |error [None]: | File not found: " ++ nl
      ++ " |error [None]: | Cannot output Python file to same folder as this would overwrite the original file. Please specify --output" ++ nl)%string.
Proof. vm_compute. auto. Qed.

Theorem C37_status_make : forall o b s, fresh s ->
  v_status (fst (run_command (execute_pyccel_make o b) s)) = 0 ->
  ~ some_error (s_trace (snd (run_command (execute_pyccel_make o b) s))).
Proof. intros o b s. apply status_zero, make_known. Qed.
Print Assumptions C37_status_make.

Theorem C37_status_wrap : forall o b s, fresh s ->
  v_status (fst (run_command (execute_pyccel_wrap o b) s)) = 0 ->
  ~ some_error (s_trace (snd (run_command (execute_pyccel_wrap o b) s))).
Proof. intros o b s. apply status_zero, wrap_known. Qed.
Print Assumptions C37_status_wrap.

(* If the pipeline returns or raises a PyccelError the command prints the register. *)
Theorem C37_command_prints_partial : forall m s, (forall e, fst (m s) = Some e -> is_pyccel e = true) ->
  v_text (fst (run_command m s)) = errors_text (s_world (snd (run_command m s)))
  /\ w_errs (s_world (snd (run_command m s))) = w_errs (s_world (snd (m s))).
Proof. exact command_prints. Qed.
Print Assumptions C37_command_prints_partial.

Example C37_status_ex :
  let bad := only_at (AAnnotate 0) (mk_activity [SReport (say "undefined variable" Serror) false] None) in
  let seen := fst (run_command (execute_pyccel (opts LC) bad) sys0) in
  v_status seen = 1 /\ part_of "undefined variable" (v_text seen)
  /\ v_status (fst (run_command (execute_pyccel (opts LC) quiet) sys0)) = 0.
Proof.
  cbv zeta. split; [vm_compute; reflexivity|]. split; [|vm_compute; reflexivity].
  exists (nl ++ "ERROR at annotation (semantic) stage" ++ nl ++ "pyccel:" ++ nl ++ " |error [semantic]:  [3,7]| ")%string, nl.
  vm_compute. reflexivity.
Qed.

(* The converse of "status 0 means success" fails: np.where of arrays of shapes
   (3,), (4,) and (3,) raises PyccelSemanticError without a report.  The command
   translates nothing, prints nothing and exits with status 0. *)
Theorem C37_silent_failure_refuted :
  exists o b, b (AAnnotate 0) = annotate_where User (Some [Types_Model.Lit 3]) (Some [Types_Model.Lit 4]) (Some [Types_Model.Lit 3])
    /\ full_run o
    /\ v_status (fst (run_command (execute_pyccel o b) sys0)) = 0
    /\ v_text (fst (run_command (execute_pyccel o b) sys0)) = ""
    /\ ~ In (Started (AGenerate 0)) (s_trace (snd (run_command (execute_pyccel o b) sys0))).
Proof.
  exists (opts LC), (only_at (AAnnotate 0) (annotate_where User (Some [Types_Model.Lit 3]) (Some [Types_Model.Lit 4]) (Some [Types_Model.Lit 3]))).
  split; [vm_compute; reflexivity|]. split; [vm_compute; intuition congruence|].
  split; [vm_compute; reflexivity|]. split; [vm_compute; reflexivity|].
  vm_compute. intuition discriminate.
Qed.
Print Assumptions C37_silent_failure_refuted.

(* The same shapes in an operator are reported. *)
Theorem C37_operator_failure_shown :
  forall o x y, Types_Model.broadcast x y = None -> o_builtin o = false -> o_conda o = true -> o_export o = false ->
    v_status (fst (run_command (execute_pyccel o (only_at (AAnnotate 0) (annotate_operator User x y))) sys0)) = 1
    /\ v_escaped (fst (run_command (execute_pyccel o (only_at (AAnnotate 0) (annotate_operator User x y))) sys0)) = None.
Proof.
  intros o x y H B C E. unfold execute_pyccel, translate, annotate_operator. rewrite H, B, C, E.
  destruct (o_syntax_only o), (o_semantic_only o || o_stub o); vm_compute; auto.
Qed.
Print Assumptions C37_operator_failure_shown.

Example C37_operator_ex : Types_Model.broadcast (Some [Types_Model.Lit 3]) (Some [Types_Model.Lit 4]) = None.
Proof. reflexivity. Qed.

(* A message of the printing of the wrapper is never shown: the pipeline fails with
   a TypeError, which the command does not catch. *)
Theorem C37_wrapper_message_refuted :
  exists o b msg, full_run o
    /\ In (Message Serror) (s_trace (snd (run_command (execute_pyccel o b) sys0)))
    /\ part_of msg (errors_text (s_world (snd (run_command (execute_pyccel o b) sys0)))) /\ msg <> ""
    /\ v_escaped (fst (run_command (execute_pyccel o b) sys0)) = Some (EOther "TypeError")
    /\ v_text (fst (run_command (execute_pyccel o b) sys0)) = "".
Proof.
  exists (opts LC), (only_at (APrintWrapper 0 0) (mk_activity [SReport (say "cannot be wrapped" Serror) false] None)), "cannot be wrapped".
  split; [vm_compute; intuition congruence|].
  split; [vm_compute; intuition|].
  split.
  { exists (nl ++ "ERROR at code generation (wrapping) stage" ++ nl ++ "pyccel:" ++ nl ++ " |error [cwrapper]:  [3,7]| ")%string, nl.
    vm_compute. reflexivity. }
  split; [discriminate|]. split; vm_compute; reflexivity.
Qed.
Print Assumptions C37_wrapper_message_refuted.

(* ---- C38 ---- *)

Theorem C38_compile_stops : forall o b s, fresh s ->
  stops_after_errors (fst (execute_pyccel o b s)) (s_trace (snd (execute_pyccel o b s))).
Proof. intros o b. exact (clean_stops _ (execute_clean o b)). Qed.
Print Assumptions C38_compile_stops.

Theorem C38_make_stops : forall o b s, fresh s ->
  stops_after_errors (fst (execute_pyccel_make o b s)) (s_trace (snd (execute_pyccel_make o b s))).
Proof. intros o b. exact (clean_stops _ (make_clean o b)). Qed.
Print Assumptions C38_make_stops.

Theorem C38_wrap_stops : forall o b s, fresh s ->
  stops_after_errors (fst (execute_pyccel_wrap o b s)) (s_trace (snd (execute_pyccel_wrap o b s))).
Proof. intros o b. exact (clean_stops _ (wrap_clean o b)). Qed.
Print Assumptions C38_wrap_stops.

(* An error in the first wrapper of Fortran: the second one is not built. *)
Example C38_stops_ex :
  let bad := only_at (AWrap 0 0) (mk_activity [SReport (say "w" Swarning) false; SReport (say "e" Serror) false] None) in
  let out := execute_pyccel (opts LFortran) bad sys0 in
  fst out = Some ECodegen
  /\ s_trace (snd out) = [Started AMakeFolder; Started AMakePyccelFolder; Started ACompilerSetup; Started (AParse 0);
       Started (AAnnotate 0); Started (AGenerate 0); Started (ADependencies 0); Started (ACompile 0);
       Started (ACompileProgram 0); Started (AWrap 0 0); Message Swarning; Message Serror]
  /\ reported_by (s_trace (snd out)) (AWrap 0 0) Serror [].
Proof.
  cbv zeta. split; [vm_compute; reflexivity|]. split; [vm_compute; reflexivity|].
  exists [Started AMakeFolder; Started AMakePyccelFolder; Started ACompilerSetup; Started (AParse 0);
       Started (AAnnotate 0); Started (AGenerate 0); Started (ADependencies 0); Started (ACompile 0);
       Started (ACompileProgram 0)], [Message Swarning].
  split; [vm_compute; reflexivity|]. intros a [H|[]]. discriminate.
Qed.

(* With --semantic-only, and for stub files, nothing after the semantic stage. *)
Theorem C38_semantic_only : forall o b s, fresh s -> o_semantic_only o = true \/ o_stub o = true ->
  forall a, In (Started a) (s_trace (snd (execute_pyccel o b s))) -> phase a <= 2.
Proof. intros o b s F H. exact (outcome_in _ _ (semantic_only_in o b H) s F). Qed.
Print Assumptions C38_semantic_only.

(* With --convert-only, and for Python, no compiler is run. *)
Theorem C38_convert_only : forall o b s, fresh s -> o_convert_only o = true \/ o_language o = LPython ->
  forall a, In (Started a) (s_trace (snd (execute_pyccel o b s))) -> compiles a = false.
Proof.
  intros o b s F [H|H]; [exact (outcome_in _ _ (convert_only_in o b H) s F)|exact (outcome_in _ _ (python_in o b H) s F)].
Qed.
Print Assumptions C38_convert_only.

Theorem C38_wrap_convert_only : forall o b s, fresh s -> v_convert_only o = true ->
  forall a, In (Started a) (s_trace (snd (execute_pyccel_wrap o b s))) -> compiles a = false.
Proof. intros o b s F H. exact (outcome_in _ _ (wrap_convert_only_in o b H) s F). Qed.
Print Assumptions C38_wrap_convert_only.

Theorem C38_make_without_build : forall o b s, fresh s -> m_build o = false ->
  forall a, In (Started a) (s_trace (snd (execute_pyccel_make o b s))) -> compiles a = false.
Proof. intros o b s F H. exact (outcome_in _ _ (make_no_build_in o b H) s F). Qed.
Print Assumptions C38_make_without_build.

Example C38_convert_ex :
  let o := mk_options false false false false true true false false LFortran true "/work" in
  In (Started (AGenerate 0)) (s_trace (snd (execute_pyccel o quiet sys0)))
  /\ In (Started (AGenerate 0)) (s_trace (snd (execute_pyccel (opts LPython) quiet sys0))).
Proof. vm_compute. tauto. Qed.

(* --syntax-only does not stop the pipeline: the file is annotated, translated and
   compiled (and the folder for the output has not been created). *)
Theorem C38_syntax_only_refuted :
  exists o, o_syntax_only o = true /\
    let t := s_trace (snd (execute_pyccel o quiet sys0)) in
    In (Started (AAnnotate 0)) t /\ In (Started (AGenerate 0)) t /\ In (Started (ALink 0)) t
    /\ ~ In (Started AMakePyccelFolder) t.
Proof.
  exists (mk_options false false true false false true false false LC false "/work").
  split; [reflexivity|]. vm_compute. intuition discriminate.
Qed.
Print Assumptions C38_syntax_only_refuted.

(* What does hold of it: together with --semantic-only it stops there. *)
Theorem C38_syntax_only_partial : forall o b s, fresh s -> o_syntax_only o = true -> o_semantic_only o = true ->
  forall a, In (Started a) (s_trace (snd (execute_pyccel o b s))) -> phase a <= 2.
Proof. intros o b s F _ H. apply C38_semantic_only; auto. Qed.
Print Assumptions C38_syntax_only_partial.

(* The stages run in their order. *)
Theorem C38_stages_in_order : forall o b s, fresh s -> in_order (s_trace (snd (execute_pyccel o b s))).
Proof.
  intros o b s F. pose proof (execute_sorted o b s F) as T. destruct (execute_pyccel o b s) as [[e|] s']; exact T.
Qed.
Print Assumptions C38_stages_in_order.

(* A full run that returns has gone through every stage, and left no error. *)
Theorem C38_success_is_complete : forall o b s, full_run o -> fst (execute_pyccel o b s) = None ->
  (forall a, In a (all_stages o) -> In (Started a) (s_trace (snd (execute_pyccel o b s))))
  /\ has_errors (s_world (snd (execute_pyccel o b s))) = false.
Proof.
  intros o b s H E. pose proof (full_run_complete o b H s I) as T.
  destruct (execute_pyccel o b s) as [[e|] s']; [discriminate|]. exact T.
Qed.
Print Assumptions C38_success_is_complete.

Example C38_success_ex : full_run (opts LFortran) /\ fst (execute_pyccel (opts LFortran) quiet sys0) = None
  /\ length (all_stages (opts LFortran)) = 13.
Proof. vm_compute. intuition congruence. Qed.

(* ---- C52: epyccel on several processes ---- *)

(* Unless the translation fails with a PyccelError, some process can always go on
   until all of them are done, ... *)
Theorem C52_no_deadlock_partial : forall n x bcast d k,
  (forall e, x = Some e -> is_pyccel e = false) -> reachable n x bcast d k ->
  (forall r, r < n -> finished x bcast d r) \/ exists d', mpi_step n x bcast d d'.
Proof. exact progress. Qed.
Print Assumptions C52_no_deadlock_partial.

(* ... no schedule is infinite, ... *)
Theorem C52_schedules_end : forall n x bcast d k, reachable n x bcast d k -> k <= n * 4.
Proof. exact bounded. Qed.
Print Assumptions C52_schedules_end.

(* ... and all processes make the same collective calls in the same order. *)
Theorem C52_same_calls_partial : forall x bcast r, (forall e, x = Some e -> is_pyccel e = false) ->
  total x bcast r = total x bcast 0.
Proof. intros x bcast [|r] H; [reflexivity|]. symmetry. exact (calls_agree x bcast H). Qed.
Print Assumptions C52_same_calls_partial.

(* If it does, the root raises at once and the other processes wait for ever. *)
Theorem C52_pyccel_error_refuted :
  exists x n, forall bcast d k, reachable n x bcast d k ->
    1 < n /\ ~ finished x bcast d 1 /\ d 1 = 0.
Proof.
  exists (Some ESemantic), 2. intros bcast d k H.
  destruct (stuck_for_ever 2 ESemantic bcast d k 1 eq_refl ltac:(lia) H). split; [lia|]. auto.
Qed.
Print Assumptions C52_pyccel_error_refuted.

Example C52_ex : reachable 3 (Some (EOther "RuntimeError")) true (upd (upd (fun _ => 0) 0 1) 2 1) 2
  /\ total (Some (EOther "RuntimeError")) true 2 = [CSuccess; CException].
Proof.
  split; [|reflexivity]. eapply reach_step; [eapply reach_step; [apply reach_start|]|].
  - apply (step_root 3 (Some (EOther "RuntimeError")) true (fun _ => 0)); cbn; lia.
  - apply (step_other 3 (Some (EOther "RuntimeError")) true (upd (fun _ => 0) 0 1) 2); cbn; lia.
Qed.

(* ---- C53: what epyccel leaves behind ---- *)

Theorem C53_lock_released : forall o b dir src wr imp chk s, q_lock s = false ->
  q_lock (snd (epyccel_seq o b dir src wr imp chk s)) = false.
Proof. exact seq_leaves. Qed.
Print Assumptions C53_lock_released.

(* Whatever the outcome, the stage is reset and the messages are printed. *)
Theorem C53_messages_printed : forall o b dir imp chk s,
  let out := epyccel_seq o b dir None None imp chk s in
  w_stage (s_world (q_sys (snd out))) = None
  /\ q_printed (snd out) = q_printed s ++ [errors_text (s_world (q_sys (snd out)))]
  /\ w_errs (s_world (q_sys (snd out))) = w_errs (s_world (snd (execute_pyccel o b (q_sys s)))).
Proof. exact seq_prints. Qed.
Print Assumptions C53_messages_printed.

(* The search path of the interpreter grows with every call. *)
Theorem C53_search_path_refuted : exists o b dir s,
  fst (epyccel_seq o b dir None None None None s) = None
  /\ s_path (q_sys (snd (epyccel_seq o b dir None None None None s))) <> s_path (q_sys s).
Proof.
  exists (opts LC), quiet, "/work/__epyccel__", (mk_interp sys0 false []).
  split; [vm_compute; reflexivity|vm_compute; discriminate].
Qed.
Print Assumptions C53_search_path_refuted.

(* What is added: the current folder, and after a failed import the folder of the
   generated files. *)
Theorem C53_search_path_partial : forall o b dir imp chk s, o_builtin o = false ->
  fst (execute_pyccel o b (q_sys s)) = None ->
  s_path (q_sys (snd (epyccel_seq o b dir None None imp chk s))) =
  match imp with None => [] | Some _ => [dir] end ++ o_cwd o :: s_path (q_sys s).
Proof.
  intros o b dir [e|] chk s B X; [apply seq_path_import|apply seq_path]; assumption.
Qed.
Print Assumptions C53_search_path_partial.

Example C53_ex :
  let out := epyccel_seq (opts LC) quiet "/work/__epyccel__" None None (Some (EOther "ImportError")) None (mk_interp sys0 false []) in
  fst out = Some (EOther "ImportError") /\ q_lock (snd out) = false
  /\ s_path (q_sys (snd out)) = ["/work/__epyccel__"; "/work"; "/usr/lib/python3"].
Proof. vm_compute. auto. Qed.
