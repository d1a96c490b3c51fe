(* The compiler commands.
   Sources: pyccel/codegen/compiling/basic.py (CompileObj), compilers.py
   187-629 (Compiler), pyccel/codegen/utilities.py 274-359
   (get_module_and_compile_dependencies), pipeline.py 271-283. *)
From Coq Require Import Bool String Ascii Arith Lia List.
Import ListNotations.
Open Scope string_scope.
Open Scope list_scope.

(* Paths, flags and names of tools are strings. *)

(* basic.py 79-123 (CompileObj.__init__).  A dependency is a reference to an object,
   its key in the dict is its module_target.  Sets are lists, of which only the
   members are used. *)
Record obj := mk_obj {
  o_source : string;
  o_target : string;           (* module_target *)
  o_program : string;          (* program_target *)
  o_module : string;           (* python_module *)
  o_has_target : bool;
  o_flags : list string;
  o_include : list string;
  o_libs : list string;
  o_libdir : list string;
  o_tools : list string;
  o_deps : list (string * nat) }.

(* The objects, by reference. *)
Definition heap := list obj.

(* d[k] = v, with the order of insertion of a dict. *)
Fixpoint dict_set {A} (k : string) (v : A) (d : list (string * A)) : list (string * A) :=
  match d with
  | [] => [(k, v)]
  | (k', v') :: d' => if String.eqb k k' then (k', v) :: d' else (k', v') :: dict_set k v d'
  end.

(* Sequence of optional results. *)
Fixpoint collect {A} (f : A -> option (list string)) (l : list A) : option (list string) :=
  match l with
  | [] => Some []
  | x :: l' => match f x, collect f l' with Some a, Some b => Some (a ++ b) | _, _ => None end
  end.

(* basic.py 195-227, 316-332: the properties include, libs, libdir and
   extra_compilation_tools have the same shape: own values and those of the
   dependencies.  None: the recursion does not end (RecursionError). *)
Fixpoint gather (own : obj -> list string) (fuel : nat) (h : heap) (i : nat) : option (list string) :=
  match fuel with
  | O => None
  | S n =>
    match nth_error h i with
    | None => None
    | Some o =>
      match collect (gather own n h) (map snd (o_deps o)) with
      | None => None
      | Some l => Some (own o ++ l)
      end
    end
  end.

Definition include := gather o_include.
Definition libs := gather o_libs.
Definition libdir := gather o_libdir.
Definition tools := gather o_tools.

(* basic.py 229-237 (extra_modules). *)
Fixpoint extra_modules (fuel : nat) (h : heap) (i : nat) : option (list string) :=
  match fuel with
  | O => None
  | S n =>
    match nth_error h i with
    | None => None
    | Some o =>
      collect (fun j => match nth_error h j with
                        | None => None
                        | Some d => if o_has_target d
                                    then match extra_modules n h j with
                                         | None => None
                                         | Some l => Some (o_target d :: l)
                                         end
                                    else Some []
                        end) (map snd (o_deps o))
    end
  end.

(* The description of a compiler (a json file): what is given for the language and
   for each tool. *)
Record given := mk_given {
  g_flags : list string;
  g_include : list string;
  g_libs : list string;
  g_libdir : list string;
  g_dependencies : list string }.

Record language := mk_language {
  l_exec : string;
  l_mpi_exec : string;
  l_debug_flags : list string;
  l_release_flags : list string;
  l_general_flags : list string;
  l_given : given;                  (* its g_flags are not used *)
  l_tool : string -> given;         (* .get(a, {}) *)
  l_module_output_flag : option string;   (* Fortran *)
  l_shared_suffix : string }.

Definition mem (x : string) (l : list string) : bool := existsb (String.eqb x) l.

(* The keys of a dict built by dict.fromkeys and update: first occurrences. *)
Fixpoint first_occurrences (seen l : list string) : list string :=
  match l with
  | [] => []
  | x :: l' => if mem x seen then first_occurrences seen l' else x :: first_occurrences (x :: seen) l'
  end.

(* compilers.py 225-270 (_get_property). *)
Definition get_property (key : given -> list string) (L : language) (properties ts : list string) : list string :=
  first_occurrences [] (properties ++ key (l_given L) ++ flat_map (fun a => key (l_tool L a)) ts).

(* compilers.py 187-223 (_get_flags). *)
Definition get_flags (debug : bool) (L : language) (flags ts : list string) : list string :=
  flags ++ (if debug then l_debug_flags L else l_release_flags L) ++ l_general_flags L
  ++ flat_map (fun a => g_flags (l_tool L a)) ts.

(* compilers.py 356-379 (_insert_prefix_to_list). *)
Definition insert_prefix (prefix : string) (l : list string) : list string := flat_map (fun i => [prefix; i]) l.

(* compilers.py 139-185 (get_exec): the executable is found.  *)
Definition get_exec (L : language) (ts : list string) : string := if mem "mpi" ts then l_mpi_exec L else l_exec L.

(* compilers.py 417: s if s.startswith("-l") else f"-l{s}". *)
Definition lib_flag (s : string) : string := if prefix "-l" s then s else "-l" ++ s.

(* "-Wl,-rpath" if l == "-L" else l *)
Definition rpath (l : list string) : list string := map (fun s => if String.eqb s "-L" then "-Wl,-rpath" else s) l.

(* The iteration order of the sets is given by a function on lists. *)

Inductive result :=
| Command (l : list string)
| Nothing                      (* there is nothing to compile *)
| Recursion                    (* RecursionError *)
| Missing.                     (* KeyError *)

Definition lookup (h : heap) (i : nat) : obj :=
  nth i h (mk_obj "" "" "" "" false [] [] [] [] [] []).

(* compilers.py 428-487 (compile_module).  The command that is run. *)
Definition compile_module (order : list string -> list string) (debug : bool) (L : language) (out : string)
    (fuel : nat) (h : heap) (i : nat) : result :=
  let o := lookup h i in
  if o_has_target o then
    match tools fuel h i, include fuel h i with
    | Some t, Some inc =>
      let t := order t in
      let flags := get_flags debug L (o_flags o) t ++ ["-c"] in
      let inc_flags := insert_prefix "-I" (get_property g_include L (order inc) t) in
      let j_code := match l_module_output_flag L with Some f => [f; out] | None => [] end in
      Command (get_exec L t :: flags ++ inc_flags ++ [o_source o; "-o"; o_target o] ++ j_code)
    | _, _ => Recursion
    end
  else Nothing.

(* compilers.py 381-426 (_get_compile_components). *)
Definition get_compile_components (order : list string -> list string) (L : language) (fuel : nat) (h : heap) (i : nat)
    (t : list string) : option (list string * list string * list string * list string) :=
  match include fuel h i, extra_modules fuel h i, libs fuel h i, libdir fuel h i with
  | Some inc, Some m, Some ls, Some ld =>
    Some (insert_prefix "-I" (get_property g_include L (order inc) t),
          map lib_flag (get_property g_libs L ls t),
          insert_prefix "-L" (get_property g_libdir L (order ld) t),
          get_property g_dependencies L (order m) t)
  | _, _, _, _ => None
  end.

(* compilers.py 489-550 (compile_program). *)
Definition compile_program (order : list string -> list string) (debug : bool) (L : language) (out : string)
    (fuel : nat) (h : heap) (i : nat) : result :=
  let o := lookup h i in
  match tools fuel h i with
  | None => Recursion
  | Some t =>
    let t := order t in
    let flags := get_flags debug L (o_flags o) t in
    match get_compile_components order L fuel h i t with
    | None => Recursion
    | Some (inc, ls, ld, m) =>
      Command (get_exec L t :: flags ++ inc ++ ld ++ rpath ld ++ m
               ++ [o_source o; "-o"; (out ++ "/" ++ o_program o)%string] ++ ls)
    end
  end.

(* compilers.py 552-629 (compile_shared_library).  set.remove raises a KeyError; the
   set with "python" put back may have another order. *)
Definition compile_shared_library (order order' : list string -> list string) (debug : bool) (L : language) (out : string)
    (name : option string) (fuel : nat) (h : heap) (i : nat) : result :=
  let o := lookup h i in
  match tools fuel h i with
  | None => Recursion
  | Some t0 =>
    if mem "python" t0 then
      let t1 := order (filter (fun a => negb (String.eqb a "python")) t0) in
      let flags := get_flags debug L (o_flags o) t1 in
      let t := order' t0 in
      match get_compile_components order L fuel h i t with
      | None => Recursion
      | Some (_, ls, ld, m) =>
        let base := match name with Some s => s | None => o_module o end in
        Command (get_exec L t :: ("-shared" :: flags) ++ ld ++ rpath ld ++ [o_target o] ++ m
                 ++ ["-o"; (out ++ "/" ++ base ++ l_shared_suffix L)%string] ++ ls)
      end
    else Missing
  end.

(* ------------------------------------------------------------------------- *)
(* The dependencies of a parsed file                                            *)
(* ------------------------------------------------------------------------- *)

(* What get_module_and_compile_dependencies reads of a Parser: its file, its
   metavariables (the lists split at commas, relative folders resolved), its
   compile_obj and its sons. *)
Record parser := mk_parser {
  p_file : string;
  p_folder : string;
  p_target : string;            (* the .o file next to it *)
  p_omp : bool;                 (* metavars module_name is omp_lib *)
  p_obj : option nat;           (* compile_obj *)
  p_ignore : bool;              (* metavars ignore_at_import *)
  p_header_only : bool;
  p_includes : list string;
  p_libs : list string;
  p_libdirs : list string;
  p_sons : list nat }.

(* The dependency recorded for a file: an existing object, or a new one. *)
Inductive dependency :=
| Existing (i : nat)
| Fresh (p : parser).

Definition keys {A} (d : list (string * A)) : list string := map fst d.

(* utilities.py 322-353, for a file that is not the one being compiled. *)
Definition record_dep (p : parser) (s : list string * list (string * dependency)) : list string * list (string * dependency) :=
  let (ls, deps) := s in
  match p_obj p with
  | Some i => (ls, dict_set (p_file p) (Existing i) deps)
  | None =>
    if mem (p_file p) (keys deps) then (ls, deps)
    else if p_ignore p then (ls ++ p_libs p, deps)
    else (ls, dict_set (p_file p) (Fresh p) deps)
  end.

(* A fold that may not end. *)
Fixpoint fold_opt {A S} (f : A -> S -> option S) (l : list A) (s : S) : option S :=
  match l with
  | [] => Some s
  | x :: l' => match f x s with None => None | Some s' => fold_opt f l' s' end
  end.

(* utilities.py 274-359, the recursive calls. *)
Fixpoint visit (fuel : nat) (ps : list parser) (i : nat) (s : list string * list (string * dependency))
  : option (list string * list (string * dependency)) :=
  match fuel with
  | O => None
  | S n =>
    match nth_error ps i with
    | None => None
    | Some p => if p_omp p then Some s
                else fold_opt (visit n ps) (p_sons p) (record_dep p s)
    end
  end.

(* utilities.py 274-359, the first call: libraries and dependencies. *)
Definition module_dependencies (fuel : nat) (ps : list parser) (root : nat)
  : option (list string * list (string * dependency)) :=
  match nth_error ps root with
  | None => None
  | Some p => fold_opt (visit fuel ps) (p_sons p) ([], [])
  end.

(* utilities.py 344-351 with basic.py 79-123. *)
Definition fresh_obj (p : parser) : obj :=
  let has_target := negb (p_header_only p) in
  mk_obj (p_file p) (p_target p) (p_target p) (p_target p) has_target []
         (p_includes p ++ (if has_target then [p_folder p] else [])) (p_libs p) (p_libdirs p) [] [].

(* The objects of deps.values(), new ones at the end of the heap. *)
Fixpoint alloc (h : heap) (ds : list dependency) : heap * list nat :=
  match ds with
  | [] => (h, [])
  | Existing i :: ds' => let (h', l) := alloc h ds' in (h', i :: l)
  | Fresh p :: ds' => let (h', l) := alloc (h ++ [fresh_obj p]) ds' in (h', length h :: l)
  end.

(* basic.py 122, 248-258: {a.module_target: a for a in dependencies}. *)
Definition dep_dict (h : heap) (l : list nat) : list (string * nat) :=
  fold_left (fun d j => dict_set (o_target (lookup h j)) j d) l [].

(* pipeline.py 271-283: the object of the file being compiled; o gives its names,
   flags and the options of the user.  The modules option is left out. *)
Definition main_object (o : obj) (h : heap) (cl : list string) (deps : list (string * dependency)) : heap * nat :=
  let (h', l) := alloc h (map snd deps) in
  (h' ++ [mk_obj (o_source o) (o_target o) (o_program o) (o_module o) (o_has_target o) (o_flags o) (o_include o)
                 (cl ++ o_libs o) (o_libdir o) (o_tools o) (dep_dict h' l)], length h').
