(* The register of messages, the stages of the pipelines and the commands that
   start them.  Sources: pyccel/errors/errors.py, pyccel/utilities/stage.py,
   pyccel/codegen/pipeline.py, pyccel/codegen/make_pipeline.py,
   pyccel/codegen/wrap_pipeline.py, pyccel/codegen/python_wrapper.py,
   pyccel/codegen/wrappergen.py, pyccel/commands/console.py,
   pyccel/commands/pyccel_compile.py, pyccel/commands/epyccel.py,
   pyccel/ast/operators.py (broadcast).

   What a stage does inside (parsing, annotating, printing, compiling) is not
   modelled here: it is an arbitrary list of reports followed by a return or an
   exception.  All theorems hold for every such behaviour. *)
From Coq Require Import Bool String Ascii Arith ZArith DecimalString List.
From Verif Require Types_Model.
Import ListNotations.
Open Scope string_scope.
Open Scope list_scope.

(* ------------------------------------------------------------------------- *)
(* Messages                                                                    *)
(* ------------------------------------------------------------------------- *)

(* errors.py 193-221 (ErrorsMode). *)
Inductive mode := User | Developer.

(* errors.py 58-63 (_severity_registry). *)
Inductive severity := Serror | Sfatal | Swarning | Sinternal.

(* utilities/stage.py 12-47: the stages; None is "Pyccel is not executing". *)
Inductive stage := Syntactic | Semantic | Codegen | Cwrapper | Compilation | Buildgen.

(* errors.py 67-87: PyccelError and its three subclasses; the other exceptions
   by name. *)
Inductive exn := EPyccel | ESyntax | ESemantic | ECodegen | ENotImplemented | EOther (name : string).

(* isinstance(e, PyccelError), errors.py 67-87. *)
Definition is_pyccel (e : exn) : bool :=
  match e with EPyccel | ESyntax | ESemantic | ECodegen => true | _ => false end.

Definition is_warning (s : severity) : bool := match s with Swarning => true | _ => false end.
Definition is_internal (s : severity) : bool := match s with Sinternal => true | _ => false end.
Definition is_fatal (s : severity) : bool := match s with Sfatal => true | _ => false end.
Definition is_user (m : mode) : bool := match m with User => true | Developer => false end.

(* errors.py 90-162 (ErrorInfo).  Simplification: a column is a number (a tuple
   of columns is joined to a string at 146-147, which only changes the text). *)
Record info := mk_info
  { i_stage : option stage; i_filename : string; i_line : option nat; i_column : option nat;
    i_severity : severity; i_message : string; i_symbol : option string;
    i_blocker : bool; i_traceback : option string }.

(* "raise " in traceback, errors.py 159. *)
Definition contains (needle hay : string) : bool :=
  match String.index 0 needle hay with Some _ => true | None => false end.

(* errors.py 156-160 (blocker): the traceback is text in developer mode. *)
Definition blocker_of (m : mode) (s : severity) (traceback : string) : bool :=
  (negb (is_user m) && negb (is_warning s) && negb (contains "raise " traceback)) || is_fatal s.

(* errors.py 58-63, without termcolor (44-50). *)
Definition severity_text (s : severity) : string :=
  match s with Serror => "error" | Sfatal => "fatal" | Swarning => "warning" | Sinternal => "internal" end.

(* str(stage), utilities/stage.py 15-24. *)
Definition stage_text (s : option stage) : string :=
  match s with
  | None => "None"
  | Some Syntactic => "syntactic" | Some Semantic => "semantic" | Some Codegen => "codegen"
  | Some Cwrapper => "cwrapper" | Some Compilation => "compilation" | Some Buildgen => "buildgen"
  end.

Definition nl : string := String (ascii_of_nat 10) EmptyString.

Definition nat_text (n : nat) : string := NilZero.string_of_uint (Nat.to_uint n).

(* Python's truth of an optional number: None and 0 are false. *)
Definition truthy (n : option nat) : option nat :=
  match n with Some O => None | x => x end.

(* errors.py 164-190 (ErrorInfo.__str__). *)
Definition location_text (i : info) : string :=
  match truthy (i_line i) with
  | None => ""
  | Some l =>
    match truthy (i_column i) with
    | Some c => " [" ++ nat_text l ++ "," ++ nat_text c ++ "]"
    | None => " [" ++ nat_text l ++ "]"
    end
  end%string.

Definition symbol_text (i : info) : string :=
  match i_symbol i with
  | None | Some EmptyString => ""
  | Some s => " (" ++ s ++ ")"
  end%string.

Definition traceback_text (i : info) : string :=
  match i_traceback i with None => "" | Some t => t end.

Definition info_text (i : info) : string :=
  (traceback_text i ++ "|" ++ severity_text (i_severity i) ++ " [" ++ stage_text (i_stage i) ++ "]: "
   ++ i_filename i ++ location_text i ++ "| " ++ i_message i ++ symbol_text i)%string.

(* errors.py 224-250 (Errors: error_info_map, an OrderedDict, and the target). *)
Record errs := mk_errs { e_map : list (string * list info); e_target : option string }.

(* The three singletons: ErrorsMode, PyccelStage and Errors. *)
Record world := mk_world { w_mode : mode; w_stage : option stage; w_errs : errs }.

(* errors.py 256-265 (initialize) and 267-275 (reset). *)
Definition reset (w : world) : world := mk_world (w_mode w) (w_stage w) (mk_errs [] None).

(* errors.py 277-289 (set_target). *)
Definition set_target (t : string) (w : world) : world :=
  mk_world (w_mode w) (w_stage w) (mk_errs (e_map (w_errs w)) (Some t)).

(* stage.py 31-50 (set_stage) and 55-57 (pyccel_finished). *)
Definition set_stage (s : stage) (w : world) : world := mk_world (w_mode w) (Some s) (w_errs w).
Definition pyccel_finished (w : world) : world := mk_world (w_mode w) None (w_errs w).

(* errors.py 209-221 (set_mode). *)
Definition set_mode (m : mode) (w : world) : world := mk_world m (w_stage w) (w_errs w).

(* The arguments of report, errors.py 291-301.  r_traceback is the text that
   traceback.format_tb or format_stack would give (370-376, developer mode only);
   the symbol is given as its text (352-362), line and column as found there. *)
Record report_args := mk_report
  { r_message : string; r_line : option nat; r_column : option nat; r_severity : severity;
    r_symbol : option string; r_filename : option string; r_traceback : string }.

(* errors.py 401-404 (_add_error_info). *)
Fixpoint add_info (f : string) (i : info) (m : list (string * list info)) : list (string * list info) :=
  match m with
  | [] => [(f, [i])]
  | (g, l) :: m' => if String.eqb f g then (g, l ++ [i]) :: m' else (g, l) :: add_info f i m'
  end.

(* errors.py 338-340: the report is ignored. *)
Definition ignored (m : mode) (s : severity) : bool := is_user m && is_internal s.

(* errors.py 342-343 and 142: the file the message is filed under. *)
Definition file_of (w : world) (r : report_args) : string :=
  match r_filename r with
  | Some f => f
  | None => match e_target (w_errs w) with Some t => t | None => "" end
  end.

(* errors.py 378-387: the message. *)
Definition info_of (w : world) (r : report_args) : info :=
  mk_info (w_stage w) (file_of w r) (r_line r) (r_column r) (r_severity r) (r_message r) (r_symbol r)
          (blocker_of (w_mode w) (r_severity r) (r_traceback r))
          (if is_user (w_mode w) then None else Some (r_traceback r)).

(* errors.py 391-399: the class of the exception. *)
Definition exn_of_stage (s : option stage) : exn :=
  match s with
  | Some Syntactic => ESyntax
  | Some Semantic => ESemantic
  | Some Codegen => ECodegen
  | _ => EPyccel
  end.

(* errors.py 291-399 (report): the new state and the exception raised, if any. *)
Definition report (r : report_args) (w : world) : world * option exn :=
  if ignored (w_mode w) (r_severity r) then (w, None)
  else
    let i := info_of w r in
    let w' := mk_world (w_mode w) (w_stage w)
                (mk_errs (add_info (i_filename i) i (e_map (w_errs w))) (e_target (w_errs w))) in
    (w', if i_blocker i then Some (exn_of_stage (w_stage w)) else None).

Definition all_infos (w : world) : list info := concat (map snd (e_map (w_errs w))).

(* errors.py 409-411 (num_messages). *)
Definition num_messages (w : world) : nat := list_sum (map (fun p => length (snd p)) (e_map (w_errs w))).

(* errors.py 413-420 (has_warnings), 422-429 (has_errors), 431-435 (has_blockers). *)
Definition has_warnings (w : world) : bool :=
  existsb (fun p => existsb (fun i => is_warning (i_severity i)) (snd p)) (e_map (w_errs w)).
Definition has_errors (w : world) : bool :=
  existsb (fun p => existsb (fun i => negb (is_warning (i_severity i))) (snd p)) (e_map (w_errs w)).
Definition has_blockers (w : world) : bool :=
  existsb (fun p => existsb i_blocker (snd p)) (e_map (w_errs w)).

(* errors.py 232-239 (_stage_names). *)
Definition stage_name (s : stage) : string :=
  match s with
  | Syntactic => "parsing (syntax)"
  | Semantic => "annotation (semantic)"
  | Codegen => "code generation"
  | Cwrapper => "code generation (wrapping)"
  | Compilation => "compilation"
  | Buildgen => "build system generation"
  end.

(* errors.py 451-479 (Errors.__str__). *)
Definition header_text (w : world) : string :=
  match filter (fun i => negb (is_warning (i_severity i))) (all_infos w) with
  | [] => ""
  | i :: _ => match i_stage i with
              | Some s => (nl ++ "ERROR at " ++ stage_name s ++ " stage" ++ nl)%string
              | None => ""
              end
  end.

Definition cat (l : list string) : string := fold_right String.append "" l.

Definition file_text (print_path : bool) (p : string * list info) : string :=
  ((if print_path then " filename :: " ++ fst p ++ nl else "")
   ++ cat (map (fun i => " " ++ info_text i ++ nl) (snd p)))%string.

Definition errors_text (w : world) : string :=
  let m := e_map (w_errs w) in
  (header_text w
   ++ (match m with [] => "" | _ => "pyccel:" ++ nl end)
   ++ cat (map (file_text (Nat.ltb 1 (length m))) m))%string.

(* ------------------------------------------------------------------------- *)
(* Histories of the register                                                   *)
(* ------------------------------------------------------------------------- *)

(* A call that changes one of the three singletons. *)
Inductive op :=
| OReset | OTarget (t : string) | OStage (s : stage) | OFinished | OMode (m : mode) | OReport (r : report_args).

(* The state after a call; an exception raised by report is caught by somebody. *)
Definition do_op (w : world) (o : op) : world :=
  match o with
  | OReset => reset w
  | OTarget t => set_target t w
  | OStage s => set_stage s w
  | OFinished => pyccel_finished w
  | OMode m => set_mode m w
  | OReport r => fst (report r w)
  end.

Definition do_ops (w : world) (l : list op) : world := fold_left do_op l w.

(* errors.py 202-203, 241-246; stage.py 28-29. *)
Definition start_world : world := mk_world User None (mk_errs [] None).

(* ------------------------------------------------------------------------- *)
(* Stages                                                                      *)
(* ------------------------------------------------------------------------- *)

(* The things the pipelines start.  The number is the file (0 for a single file),
   the second one the wrapper. *)
Inductive action :=
| AMakeFolder                       (* pipeline.py 185, make_pipeline.py 136, wrap_pipeline.py 132 *)
| AMakePyccelFolder                 (* pipeline.py 187, make_pipeline.py 137, wrap_pipeline.py 131 *)
| ACompilerSetup                    (* pipeline.py 205-206 *)
| AExportCompiler                   (* pipeline.py 210 *)
| AParse (f : nat)                  (* pipeline.py 219-220, make_pipeline.py 172-175 *)
| AAnnotate (f : nat)               (* pipeline.py 232, make_pipeline.py 187 *)
| AGenerate (f : nat)               (* pipeline.py 251, make_pipeline.py 214 *)
| ACopy (f : nat)                   (* pipeline.py 263, make_pipeline.py 227 *)
| ADependencies (f : nat)           (* pipeline.py 293, make_pipeline.py 278 *)
| ACompile (f : nat)                (* pipeline.py 311 *)
| ACompileProgram (f : nat)         (* pipeline.py 325 *)
| AWrap (f i : nat)                 (* wrappergen.py 97 *)
| APrintWrapper (f i : nat)         (* wrappergen.py 128-153 *)
| AWrapperDependencies (f i : nat)  (* python_wrapper.py 148, wrap_pipeline.py 234 *)
| ACompileWrapper (f i : nat)       (* python_wrapper.py 163, wrap_pipeline.py 238 *)
| ALink (f : nat)                   (* python_wrapper.py 170, wrap_pipeline.py 245 *)
| ABuildSystem                      (* make_pipeline.py 289-303 *)
| ABuild.                           (* make_pipeline.py 309 *)

Inductive event := Started (a : action) | Message (s : severity).

(* What an action does: reports (whose exception may be caught inside the
   action), changes of the stage, then a return or an exception. *)
Inductive step := SReport (r : report_args) (caught : bool) | SStage (s : stage).
Record activity := mk_activity { a_steps : list step; a_end : option exn }.

Record sys := mk_sys { s_world : world; s_trace : list event; s_path : list string }.

Definition result := (option exn * sys)%type.

Definition log (e : event) (s : sys) : sys := mk_sys (s_world s) (s_trace s ++ [e]) (s_path s).
Definition on_world (f : world -> world) (s : sys) : sys := mk_sys (f (s_world s)) (s_trace s) (s_path s).

Definition do_report (r : report_args) (s : sys) : result :=
  let (w, x) := report r (s_world s) in
  let s' := mk_sys w (s_trace s) (s_path s) in
  (x, if ignored (w_mode (s_world s)) (r_severity r) then s' else log (Message (r_severity r)) s').

Fixpoint do_steps (l : list step) (s : sys) : result :=
  match l with
  | [] => (None, s)
  | SStage st :: l' => do_steps l' (on_world (set_stage st) s)
  | SReport r caught :: l' =>
    let (x, s') := do_report r s in
    match x with
    | Some e => if caught then do_steps l' s' else (Some e, s')
    | None => do_steps l' s'
    end
  end.

Definition do_activity (b : activity) (s : sys) : result :=
  let (x, s') := do_steps (a_steps b) s in
  match x with
  | Some e => (Some e, s')
  | None => (a_end b, s')
  end.

Definition behaviour := action -> activity.

(* Sequencing: an exception ends the pipeline. *)
Definition andthen (m k : sys -> result) : sys -> result :=
  fun s => match m s with
           | (Some e, s') => (Some e, s')
           | (None, s') => k s'
           end.
Declare Scope pipe_scope.
Notation "m ;; k" := (andthen m k) (at level 61, right associativity) : pipe_scope.
Delimit Scope pipe_scope with pipe.
Open Scope pipe_scope.

Definition skip : sys -> result := fun s => (None, s).
Definition throw (e : exn) : sys -> result := fun s => (Some e, s).
Definition when (c : bool) (m : sys -> result) : sys -> result := if c then m else skip.

Definition start (b : behaviour) (a : action) : sys -> result :=
  fun s => do_activity (b a) (log (Started a) s).

(* if errors.has_errors(): raise e *)
Definition gate (e : exn) : sys -> result :=
  fun s => if has_errors (s_world s) then (Some e, s) else (None, s).

Definition stage_is (st : stage) : sys -> result := fun s => (None, on_world (set_stage st) s).
Definition reset_errors : sys -> result := fun s => (None, on_world reset s).

(* sys.path.insert(0, p) *)
Definition insert_path (p : string) : sys -> result :=
  fun s => (None, mk_sys (s_world s) (s_trace s) (p :: s_path s)).

Inductive lang := LC | LFortran | LPython.
Definition is_python (l : lang) : bool := match l with LPython => true | _ => false end.

(* wrappergen.py 24-28 (wrapper_registry): Fortran to C then C to Python; C to
   Python; none for Python. *)
Definition wrappers (l : lang) : list nat :=
  match l with LFortran => [0; 1] | LC => [0] | LPython => [] end.

(* wrappergen.py 71-103 (wrap): stop after the wrapper that has errors.  The
   answer is the list of the wrappers that were built. *)
Fixpoint wrap_loop (b : behaviour) (f : nat) (ws : list nat) (done : list nat) (s : sys) : option exn * sys * list nat :=
  match ws with
  | [] => (None, s, done)
  | i :: ws' =>
    match start b (AWrap f i) s with
    | (Some e, s') => (Some e, s', done)
    | (None, s') => if has_errors (s_world s') then (None, s', done ++ [i])
                    else wrap_loop b f ws' (done ++ [i]) s'
    end
  end.

(* wrappergen.py 105-155 (print): prints the wrappers that were built. *)
Fixpoint foreach {A} (m : A -> sys -> result) (l : list A) : sys -> result :=
  match l with
  | [] => skip
  | x :: l' => m x ;; foreach m l'
  end.

Definition print_wrappers (b : behaviour) (f : nat) (built : list nat) : sys -> result :=
  foreach (fun i => start b (APrintWrapper f i)) built.

(* wrappergen.py 59-60: the constructor sets the stage. *)
Definition wrap (b : behaviour) (f : nat) (l : lang) (k : list nat -> sys -> result) : sys -> result :=
  stage_is Cwrapper ;;
  (fun s => match wrap_loop b f (wrappers l) [] s with
            | (Some e, s', _) => (Some e, s')
            | (None, s', built) => k built s'
            end).

(* python_wrapper.py 27-181 (create_shared_library) and the assignment
   `generated_filepath, shared_lib_timers = create_shared_library(...)` of
   pipeline.py 335: returning None (line 121) makes the assignment raise a
   TypeError. *)
Definition create_shared_library (b : behaviour) (f : nat) (l : lang) : sys -> result :=
  wrap b f l (fun built s =>
    if has_errors (s_world s) then (None, s)
    else (print_wrappers b f built ;;
          (fun s => if has_errors (s_world s) then (Some (EOther "TypeError"), s)
                    else (foreach (fun i => start b (AWrapperDependencies f i)) built ;;
                          foreach (fun i => start b (ACompileWrapper f i)) built ;;
                          start b (ALink f)) s)) s).

(* ------------------------------------------------------------------------- *)
(* pipeline.py 50-361 (execute_pyccel)                                         *)
(* ------------------------------------------------------------------------- *)

(* o_stub: fname ends with .pyi; o_builtin: the name of the file is that of a
   built-in library; o_conda: conda_warnings is one of the accepted words;
   o_export: compiler_export_file is given; o_nofile: fname is empty;
   o_program: the file contains a program (codegen.is_program). *)
Record options := mk_options
  { o_stub : bool; o_builtin : bool; o_syntax_only : bool; o_semantic_only : bool; o_convert_only : bool;
    o_conda : bool; o_export : bool; o_nofile : bool; o_language : lang; o_program : bool; o_cwd : string }.

(* pipeline.py 271-350: dependencies, compilation, wrapper. *)
Definition build_module (o : options) (b : behaviour) : sys -> result :=
  start b (ADependencies 0) ;;
  (if o_convert_only o then skip
   else stage_is Compilation ;;
        start b (ACompile 0) ;;
        when (o_program o) (start b (ACompileProgram 0)) ;;
        create_shared_library b 0 (o_language o) ;;
        gate ECodegen).

(* pipeline.py 218-350.  The block of syntax_only (226-228) only prints timers. *)
Definition translate (o : options) (b : behaviour) : sys -> result :=
  let semantic_only := o_semantic_only o || o_stub o in
  stage_is Syntactic ;; start b (AParse 0) ;; gate ESyntax ;;
  stage_is Semantic ;; start b (AAnnotate 0) ;; gate ESemantic ;;
  (if semantic_only then skip
   else stage_is Codegen ;; start b (AGenerate 0) ;; gate ECodegen ;;
        (if is_python (o_language o) then start b (ACopy 0)
         else build_module o b)).

(* pipeline.py 132-212 and the rest. *)
Definition execute_pyccel (o : options) (b : behaviour) : sys -> result :=
  let semantic_only := o_semantic_only o || o_stub o in
  if o_builtin o then throw (EOther "ValueError")
  else
    reset_errors ;;
    insert_path (o_cwd o) ;;
    start b AMakeFolder ;;
    when (negb (o_syntax_only o || semantic_only)) (start b AMakePyccelFolder) ;;
    (if o_conda o then skip else throw (EOther "ValueError")) ;;
    start b ACompilerSetup ;;
    when (o_export o) (start b AExportCompiler) ;;
    (if o_export o && o_nofile o then skip else translate o b).

(* ------------------------------------------------------------------------- *)
(* make_pipeline.py 48-316 (execute_pyccel_make)                               *)
(* ------------------------------------------------------------------------- *)

(* The files with whether they are an empty __init__.py (168-171). *)
Record make_options := mk_make
  { m_files : list (nat * bool); m_language : lang; m_conda : bool; m_build : bool; m_cwd : string }.

Definition no_files : report_args :=
  mk_report "No files passed to pyccel make" None None Sfatal None None "".

Definition make_one (l : lang) (b : behaviour) (f : nat) : sys -> result :=
  stage_is Codegen ;; start b (AGenerate f) ;; gate ECodegen ;;
  (if is_python l then start b (ACopy f)
   else wrap b f l (fun built => print_wrappers b f built ;; gate ECodegen)).

Definition execute_pyccel_make (o : make_options) (b : behaviour) : sys -> result :=
  let kept := map fst (filter (fun p => negb (snd p)) (m_files o)) in
  reset_errors ;;
  insert_path (m_cwd o) ;;
  start b AMakeFolder ;; start b AMakePyccelFolder ;;
  (if m_conda o then skip else throw (EOther "ValueError")) ;;
  start b ACompilerSetup ;;
  (match m_files o with [] => do_report no_files | _ => skip end) ;;
  stage_is Syntactic ;;
  foreach (fun f => start b (AParse f) ;; gate ESyntax) kept ;;
  stage_is Semantic ;;
  foreach (fun f => start b (AAnnotate f) ;; gate ESemantic) kept ;;
  foreach (make_one (m_language o) b) kept ;;
  (if is_python (m_language o) then skip
   else foreach (fun f => start b (ADependencies f)) kept ;;
        stage_is Buildgen ;;
        start b ABuildSystem ;;
        when (m_build o) (start b ABuild)).

(* ------------------------------------------------------------------------- *)
(* wrap_pipeline.py 46-262 (execute_pyccel_wrap)                               *)
(* ------------------------------------------------------------------------- *)

Record wrap_options := mk_wrap
  { v_builtin : bool; v_conda : bool; v_language : lang; v_convert_only : bool; v_cwd : string }.

Definition execute_pyccel_wrap (o : wrap_options) (b : behaviour) : sys -> result :=
  if v_builtin o then throw (EOther "ValueError")
  else
    reset_errors ;;
    insert_path (v_cwd o) ;;
    start b AMakePyccelFolder ;; start b AMakeFolder ;;
    (if v_conda o then skip else throw (EOther "ValueError")) ;;
    start b ACompilerSetup ;;
    stage_is Syntactic ;; start b (AParse 0) ;; gate ESyntax ;;
    stage_is Semantic ;; start b (AAnnotate 0) ;; gate ESemantic ;;
    stage_is Codegen ;;
    wrap b 0 (v_language o) (fun built =>
      print_wrappers b 0 built ;; gate ECodegen ;;
      (if v_convert_only o then skip
       else foreach (fun i => start b (AWrapperDependencies 0 i)) built ;;
            foreach (fun i => start b (ACompileWrapper 0 i)) built ;;
            start b (ALink 0))).

(* ------------------------------------------------------------------------- *)
(* Commands                                                                    *)
(* ------------------------------------------------------------------------- *)

(* What the user of a command sees: the text printed by pyccel, whether an
   exception escaped (a Python traceback), and the exit status. *)
Record seen := mk_seen { v_text : string; v_escaped : option exn; v_status : nat }.

(* console.py 112-121 and pyccel_wrap.py 130-137: run the command, swallow
   PyccelError, print the messages, exit with has_errors().  An exception of
   another class leaves the interpreter: status 1 and no messages. *)
Definition run_command (m : sys -> result) (s : sys) : seen * sys :=
  match m s with
  | (x, s') =>
    if match x with Some e => negb (is_pyccel e) | None => false end
    then (mk_seen "" x 1, s')
    else
      let s2 := on_world pyccel_finished s' in
      (mk_seen (errors_text (s_world s2)) None (if has_errors (s_world s2) then 1 else 0), s2)
  end.

(* pyccel_compile.py 198-224: the checks made before the pipeline is started.
   The answer is the text printed and the exit status, or the pipeline is run.
   Simplification: the deprecated --export-compiler-config is left out. *)
Record compile_args := mk_compile
  { c_py_extension : bool; c_exists : bool; c_overwrites : bool; c_options : options }.

Definition wrong_extension : report_args :=
  mk_report "Wrong file extension. Expecting `py`, but found" None None Serror None None "".
Definition file_not_found : report_args := mk_report "File not found: " None None Serror None None "".
Definition would_overwrite : report_args :=
  mk_report "Cannot output Python file to same folder as this would overwrite the original file. Please specify --output"
            None None Serror None None "".

Definition compile_checks (c : compile_args) : sys -> result :=
  when (negb (c_py_extension c)) (do_report wrong_extension) ;;
  when (negb (c_exists c)) (do_report file_not_found) ;;
  when (c_overwrites c) (do_report would_overwrite).

Definition pyccel_compile_command (c : compile_args) (b : behaviour) (s : sys) : seen * sys :=
  match compile_checks c s with
  | (None, s') =>
    if has_errors (s_world s') then (mk_seen (errors_text (s_world s')) None 1, s')
    else run_command (execute_pyccel (c_options c) b) s'
  | (Some e, s') => run_command (throw e) s'
  end.

(* ------------------------------------------------------------------------- *)
(* Visitors: semantic.py 3592-3621, syntactic.py 538-565, codeprinter.py
   146-170, wrapper.py 112-138                                                 *)
(* ------------------------------------------------------------------------- *)

Definition restriction_todo (msg : string) : report_args :=
  mk_report (msg ++ nl ++ "Something which has not been implemented in Pyccel was found")%string
            None None Sfatal None None "".
Definition internal_error : report_args :=
  mk_report "Internal error: please file an issue" None None Sfatal None None "".

(* The except clauses around the visit of a node, for the exception that left it. *)
Definition visit_handler (m : mode) (e : exn) : activity :=
  if is_pyccel e then mk_activity [] (Some e)
  else match e with
       | ENotImplemented => mk_activity [SReport (restriction_todo "") false] None
       | _ => match m with
              | User => mk_activity [SReport internal_error false] None
              | Developer => mk_activity [] (Some e)
              end
       end.

(* ------------------------------------------------------------------------- *)
(* Shapes that do not match (operators.py 78-156: Types_Model.broadcast)       *)
(* ------------------------------------------------------------------------- *)

(* numpyext.py 1653-1661 (NumpyWhere): the shape, or PyccelSemanticError. *)
Definition where_shape (c x y : option (list Types_Model.dim)) : option (option (list Types_Model.dim)) :=
  match Types_Model.broadcast x y with
  | None => None
  | Some s => Types_Model.broadcast c s
  end.

(* The annotation of a file whose only remarkable expression is
   np.where(c, x, y): semantic.py 1722-1724 catches TypeError only, and _visit
   (3604-3605) lets a PyccelError through. *)
Definition annotate_where (m : mode) (c x y : option (list Types_Model.dim)) : activity :=
  match where_shape c x y with
  | None => visit_handler m ESemantic
  | Some _ => mk_activity [] None
  end.

(* semantic.py 1376-1379: the same error in an operator is reported. *)
Definition annotate_operator (m : mode) (x y : option (list Types_Model.dim)) : activity :=
  match Types_Model.broadcast x y with
  | None => mk_activity
              [SReport (mk_report "operands could not be broadcast together with shapes" None None Sfatal None None "") false]
              None
  | Some _ => mk_activity [] None
  end.

(* ------------------------------------------------------------------------- *)
(* epyccel.py 206-413 (epyccel_seq), 418-640 (epyccel)                         *)
(* ------------------------------------------------------------------------- *)

(* The interpreter during a call of epyccel: the pipeline's state, whether the
   lock of the module name is held, and the texts printed. *)
Record interp := mk_interp { q_sys : sys; q_lock : bool; q_printed : list string }.

Definition eresult := (option exn * interp)%type.

Definition ethen (m k : interp -> eresult) : interp -> eresult :=
  fun s => match m s with (Some e, s') => (Some e, s') | (None, s') => k s' end.

(* try: m finally: k *)
Definition efinally (m : interp -> eresult) (k : interp -> interp) : interp -> eresult :=
  fun s => match m s with (x, s') => (x, k s') end.

Definition ethrow (x : option exn) : interp -> eresult := fun s => (x, s).

(* list.remove(p): the first occurrence. *)
Fixpoint remove_first (p : string) (l : list string) : list string :=
  match l with
  | [] => []
  | x :: l' => if String.eqb x p then l' else x :: remove_first p l'
  end.

Definition on_path (f : list string -> list string) : interp -> eresult :=
  fun s => (None, mk_interp (mk_sys (s_world (q_sys s)) (s_trace (q_sys s)) (f (s_path (q_sys s)))) (q_lock s) (q_printed s)).

(* epyccel.py 196-200 (acquire, in get_unique_name) and 411 (release). *)
Definition acquire (s : interp) : interp := mk_interp (q_sys s) true (q_printed s).
Definition release (s : interp) : interp := mk_interp (q_sys s) false (q_printed s).

Definition run_pyccel (o : options) (b : behaviour) : interp -> eresult :=
  fun s => match execute_pyccel o b (q_sys s) with (x, s') => (x, mk_interp s' (q_lock s) (q_printed s)) end.

(* epyccel.py 386-387. *)
Definition finish_and_print (s : interp) : interp :=
  let q := on_world pyccel_finished (q_sys s) in
  mk_interp q (q_lock s) (q_printed s ++ [errors_text (s_world q)]).

(* epyccel.py 318-413: src is the exception of finding the source of the object
   (before the lock is taken), wr of writing it to a file (342-356), imp of the
   import (396), chk of the checks after it (399-409); dir is the folder of the
   generated files. *)
Definition epyccel_seq (o : options) (b : behaviour) (dir : string) (src wr imp chk : option exn) : interp -> eresult :=
  ethen (ethrow src)
    (fun s =>
       efinally
         (ethen (ethrow wr)
         (ethen (efinally (run_pyccel o b) finish_and_print)
         (ethen (on_path (cons dir))
         (ethen (ethrow imp)
         (ethen (on_path (remove_first dir))
                (ethrow chk))))))
         release (acquire s)).

(* epyccel.py 541-619: the collective operations of the processes.  The root
   (rank 0 here) broadcasts, the others receive. *)
Inductive collective := CSuccess | CException | CPath | CName | CObject.

Definition shared (success bcast : bool) : list collective :=
  if success then CSuccess :: (if bcast then [CPath; CName; CObject] else [])
  else [CSuccess; CException].

(* The collectives entered by the root for the outcome of epyccel_seq: a
   PyccelError is raised again at once (577-578), other exceptions after the
   broadcast (579-581, 593-594). *)
Definition root_calls (x : option exn) (bcast : bool) : list collective :=
  match x with
  | None => shared true bcast
  | Some e => if is_pyccel e then [] else shared false bcast
  end.

(* A process that is not the root learns the outcome from the first broadcast. *)
Definition other_calls (x : option exn) (bcast : bool) : list collective :=
  shared (match x with None => true | Some _ => false end) bcast.

(* Executions: done r = number of collectives rank r has completed.  The root's
   broadcasts complete at once; the others wait for the root to have sent. *)
Definition total (x : option exn) (bcast : bool) (r : nat) : list collective :=
  match r with O => root_calls x bcast | S _ => other_calls x bcast end.

Definition upd (d : nat -> nat) (r v : nat) : nat -> nat := fun k => if Nat.eqb k r then v else d k.

Inductive mpi_step (n : nat) (x : option exn) (bcast : bool) : (nat -> nat) -> (nat -> nat) -> Prop :=
| step_root d :
    0 < n -> d 0 < length (root_calls x bcast) ->
    mpi_step n x bcast d (upd d 0 (S (d 0)))
| step_other d r :
    0 < r < n -> d r < length (other_calls x bcast) -> d r < d 0 ->
    mpi_step n x bcast d (upd d r (S (d r))).
