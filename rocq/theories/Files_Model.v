(* The files pyccel leaves in the folders of the user.
   Sources: pyccel/codegen/compiling/library_config.py 73-148, 196-232, 566-642
   (installation of support libraries), pyccel/codegen/utilities.py 134-171
   (recompile_object), pyccel/commands/pyccel_clean.py 27-80. *)
From Coq Require Import Bool String Ascii Arith Lia List.
Import ListNotations.
Open Scope string_scope.
Open Scope list_scope.

(* ------------------------------------------------------------------------- *)
(* Installation of a support library                                            *)
(* ------------------------------------------------------------------------- *)

Record file := mk_file { f_content : string; f_mtime : nat }.

(* A flat folder: the folders of pyccel/stdlib have no sub-folders. *)
Definition folder := list (string * file).

Fixpoint get (n : string) (d : folder) : option file :=
  match d with
  | [] => None
  | (n', f) :: d' => if String.eqb n n' then Some f else get n d'
  end.

Fixpoint put (n : string) (f : file) (d : folder) : folder :=
  match d with
  | [] => [(n, f)]
  | (n', f') :: d' => if String.eqb n n' then (n, f) :: d' else (n', f') :: put n f d'
  end.

Definition drop (n : string) (d : folder) : folder := filter (fun e => negb (String.eqb (fst e) n)) d.

(* filecmp.cmp with shallow=True: equal size and time of modification count as equal
   files; otherwise the sizes and the contents are compared. *)
Definition same (f g : file) : bool :=
  if Nat.eqb (String.length (f_content f)) (String.length (f_content g)) && Nat.eqb (f_mtime f) (f_mtime g) then true
  else if negb (Nat.eqb (String.length (f_content f)) (String.length (f_content g))) then false
  else String.eqb (f_content f) (f_content g).

(* filecmp.cmpfiles: the second of the three lists.  A file that is not there goes to
   the third, which install_to ignores (library_config.py 114-116). *)
Definition mismatch (dest src : folder) : list string :=
  map fst (filter (fun e => match get (fst e) dest with
                            | None => false
                            | Some f => negb (same f (snd e))
                            end) src).

(* The operations on the file system. *)
Inductive op :=
| Remove (n : string)
| Rmdir
| Mkdir
| Write (n : string) (f : file).

(* The state of the folder: None if it does not exist. *)
Definition apply (o : op) (d : option folder) : option folder :=
  match o, d with
  | Remove n, Some d => Some (drop n d)
  | Rmdir, Some _ => None
  | Mkdir, None => Some []
  | Write n f, Some d => Some (put n f d)
  | _, _ => d
  end.

Definition run (ops : list op) (d : option folder) : option folder := fold_left (fun d o => apply o d) ops d.

(* shutil.rmtree. *)
Definition rmtree (d : folder) : list op := map (fun e => Remove (fst e)) d ++ [Rmdir].

(* shutil.copytree with copy2: each file is created empty, grows (chunks are the
   contents it has on the way), is complete, and then gets the time of the source. *)
Definition copy2 (now : nat) (chunks : string -> list string) (e : string * file) : list op :=
  map (fun c => Write (fst e) (mk_file c now)) ("" :: chunks (f_content (snd e)))
  ++ [Write (fst e) (mk_file (f_content (snd e)) now); Write (fst e) (snd e)].

Definition copytree (now : nat) (chunks : string -> list string) (src : folder) : list op :=
  Mkdir :: flat_map (copy2 now chunks) src.

(* library_config.py 102-126 (StdlibInstaller.install_to): the operations. *)
Definition install_ops (now : nat) (chunks : string -> list string) (src : folder) (dest : option folder) : list op :=
  match dest with
  | None => copytree now chunks src
  | Some d => match mismatch d src with
              | [] => []
              | _ => rmtree d ++ copytree now chunks src
              end
  end.

Definition install (now : nat) (chunks : string -> list string) (src : folder) (dest : option folder) : option folder :=
  run (install_ops now chunks src dest) dest.

(* library_config.py 196-232 (CWrapperInstaller.install_to): numpy_version.h is written
   each time. *)
Definition install_cwrapper (now : nat) (chunks : string -> list string) (src : folder) (version : string) (dest : option folder)
  : option folder :=
  apply (Write "numpy_version.h" (mk_file version now)) (install now chunks src dest).

(* ---- STC (library_config.py 571-642), built by meson ---- *)

(* build: the time of the build folder; installed: the install folder and whether it
   contains the library *)
Record stc := mk_stc { s_build : option nat; s_install : option bool }.

Inductive stc_op := RemoveBuild | RemoveInstall | Setup (now : nat) | MesonCompile | MesonInstall.

(* None: FileNotFoundError of rmtree *)
Definition stc_apply (o : stc_op) (s : stc) : option stc :=
  match o with
  | RemoveBuild => match s_build s with Some _ => Some (mk_stc None (s_install s)) | None => None end
  | RemoveInstall => match s_install s with Some _ => Some (mk_stc (s_build s) None) | None => None end
  | Setup now => Some (mk_stc (Some now) (s_install s))
  | MesonCompile => Some s
  | MesonInstall => Some (mk_stc (s_build s) (Some true))
  end.

Fixpoint stc_run (ops : list stc_op) (s : stc) : stc * bool :=
  match ops with
  | [] => (s, true)
  | o :: ops' => match stc_apply o s with None => (s, false) | Some s' => stc_run ops' s' end
  end.

(* lines 578-622 *)
Definition stc_ops (now src_time : nat) (s : stc) : list stc_op :=
  match s_build s with
  | Some t => if Nat.ltb t src_time then [RemoveBuild; RemoveInstall; Setup now; MesonCompile; MesonInstall] else []
  | None => [Setup now; MesonCompile; MesonInstall]
  end.

Inductive stc_result := StcReady (s : stc) | StcFailed (s : stc).

(* line 624: next(install_dir.glob("**/*.a")) raises StopIteration if there is none. *)
Definition stc_install (now src_time : nat) (s : stc) : stc_result :=
  match stc_run (stc_ops now src_time s) s with
  | (s', false) => StcFailed s'
  | (s', true) => match s_install s' with Some true => StcReady s' | _ => StcFailed s' end
  end.

(* ------------------------------------------------------------------------- *)
(* Recompilation                                                                *)
(* ------------------------------------------------------------------------- *)

(* An object file is described by the texts it was compiled from: the source and the
   sources of the dependencies.  now: the clock of the file system. *)
Record built := mk_built { b_source : string; b_deps : list string }.

Record world := mk_world {
  now : nat;
  source : nat -> file;
  object : nat -> option (built * nat);
  pending : nat -> option built }.       (* a compiler that has read its files *)

Definition set {A} (f : nat -> A) (i : nat) (x : A) : nat -> A := fun j => if Nat.eqb j i then x else f j.

Inductive event :=
| Tick (n : nat)
| Edit (i : nat) (text : string)         (* the source i is written *)
| Begin (i : nat)                        (* recompile_object: check, start of the compiler *)
| End (i : nat)                          (* the compiler writes the object file *)
| Delete (i : nat).                      (* the object file is removed *)

(* utilities.py 157-164: outdated.  The times are compared with <. *)
Definition outdated (w : world) (i : nat) : bool :=
  match object w i with
  | None => true
  | Some (_, t) => Nat.ltb t (f_mtime (source w i))
  end.

(* deps i: the objects i depends on *)
Definition step (deps : nat -> list nat) (w : world) (e : event) : world :=
  match e with
  | Tick n => mk_world (now w + n) (source w) (object w) (pending w)
  | Edit i text => mk_world (now w) (set (source w) i (mk_file text (now w))) (object w) (pending w)
  | Begin i =>
    if outdated w i
    then mk_world (now w) (source w) (object w)
           (set (pending w) i (Some (mk_built (f_content (source w i)) (map (fun j => f_content (source w j)) (deps i)))))
    else w
  | End i =>
    match pending w i with
    | Some b => mk_world (now w) (source w) (set (object w) i (Some (b, now w))) (set (pending w) i None)
    | None => w
    end
  | Delete i => mk_world (now w) (source w) (set (object w) i None) (pending w)
  end.

Definition play (deps : nat -> list nat) (h : list event) (w : world) : world := fold_left (step deps) h w.

(* ------------------------------------------------------------------------- *)
(* pyccel clean                                                                 *)
(* ------------------------------------------------------------------------- *)

(* A file (os.access X_OK or not); a folder; a link to a folder; anything else that is
   not a file and cannot be listed: a dangling link, a socket. *)
Inductive node :=
| NFile (x : bool)
| NDir (x : bool) (entries : list (string * node))
| NLink (entries : list (string * node))
| NOther.

Fixpoint ends_with (suffix s : string) : bool :=
  String.eqb s suffix || match s with EmptyString => false | String _ s' => ends_with suffix s' end.

(* f.startswith("__pyccel__") or f.startswith("__epyccel__") *)
Definition generated_name (f : string) : bool := prefix "__pyccel__" f || prefix "__epyccel__" f.

Record clean_options := mk_clean { recursive : bool; remove_shared_libs : bool; remove_programs : bool; ext_suffix : string }.

Definition executable_node (n : node) : bool :=
  match n with NFile x => x | NDir x _ => x | NLink _ => true | NOther => false end.

(* pyccel_clean.py 73-79, the tests by name and access. *)
Definition removable (o : clean_options) (f : string) (n : node) : bool :=
  ends_with ".pyccel" f || (remove_shared_libs o && ends_with (ext_suffix o) f) || (remove_programs o && executable_node n).

(* os.remove: fails on a folder; a link is removed. *)
Definition os_remove (n : node) : option node * bool :=
  match n with
  | NDir _ _ => (Some n, false)
  | _ => (None, true)
  end.

(* pyccel_clean.py 66-79: the loop.  The result is what is left, and false if an
   exception was raised; what comes after it is not cleaned. *)
Definition clean_each (f : string -> node -> option node * bool) : list (string * node) -> list (string * node) * bool :=
  fix go l :=
    match l with
    | [] => ([], true)
    | (g, m) :: l' =>
      match f g m with
      | (r, false) => (match r with Some m' => [(g, m')] | None => [] end ++ l', false)
      | (r, true) => let (l'', ok) := go l' in
                     (match r with Some m' => [(g, m')] | None => [] end ++ l'', ok)
      end
    end.

(* pyccel_clean.py 67-79: an entry.  rmtree(ignore_errors=True) does nothing to what is
   not a folder. *)
Fixpoint clean_node (o : clean_options) (f : string) (n : node) {struct n} : option node * bool :=
  if generated_name f then
    match n with NDir _ _ => (None, true) | _ => (Some n, true) end
  else
    match n with
    | NFile _ => if removable o f n then os_remove n else (Some n, true)
    | NDir x l => if recursive o then let (l', ok) := clean_each (fun g m => clean_node o g m) l in (Some (NDir x l'), ok)
                  else if removable o f n then os_remove n else (Some n, true)
    | NLink l => if recursive o then let (l', ok) := clean_each (fun g m => clean_node o g m) l in (Some (NLink l'), ok)
                 else if removable o f n then os_remove n else (Some n, true)
    | NOther => if recursive o then (Some n, false)
                else if removable o f n then os_remove n else (Some n, true)
    end.

(* pyccel_clean.py 65-79: the entries of the folder, in the order of os.listdir. *)
Definition pyccel_clean (o : clean_options) (l : list (string * node)) : list (string * node) * bool :=
  clean_each (clean_node o) l.
