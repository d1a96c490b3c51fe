(* The description of a project for the build systems of `pyccel make`.
   Sources: pyccel/codegen/compiling/project.py (CompileTarget, DirTarget),
   pyccel/codegen/make_pipeline.py 205, 240-275 (names and dependencies of the
   targets), pyccel/codegen/build_generation/cmake_gen.py 177-221 and
   meson_gen.py 150-197 (the order in which the targets are written). *)
From Coq Require Import Bool String Ascii Arith Lia List.
Import ListNotations.
Open Scope string_scope.
Open Scope list_scope.

(* A pathlib.Path relative to the root of the project. *)
Definition path := list string.
Definition path_eqb (p q : path) : bool := if list_eq_dec string_dec p q then true else false.

(* p.parent, for a path that is not the root *)
Definition parent (p : path) : path := removelast p.

(* folder in p.parents *)
Fixpoint under (folder p : path) : bool :=
  match folder, p with
  | [], [] => false
  | [], _ :: _ => true
  | x :: folder', y :: p' => String.eqb x y && under folder' p'
  | _ :: _, [] => false
  end.

(* folder / p.relative_to(folder).parts[0] *)
Definition child (folder p : path) : path := firstn (S (length folder)) p.

(* project.py 20-160 (CompileTarget): the Python file and the Python files of the
   dependencies (make_pipeline.py 274-275).  The generated files are not needed
   for the order. *)
Record target := mk_target { t_file : path; t_deps : list path }.

(* A CompileTarget or a DirTarget (project.py 163-290): its folder, its sorted
   targets, its dependencies. *)
Inductive item := IFile (t : target) | IDir (folder : path) (targets : list item) (deps : list path).

(* c.pyfile if isinstance(c, CompileTarget) else c.folder *)
Definition item_path (i : item) : path := match i with IFile t => t_file t | IDir f _ _ => f end.
Definition item_deps (i : item) : list path := match i with IFile t => t_deps t | IDir _ _ d => d end.

(* project.py 183-185: the folder a target is grouped in. *)
Definition key (folder : path) (c : target) : path :=
  match parent (skipn (length folder) (t_file c)) with
  | [] => folder
  | d :: _ => folder ++ [d]
  end.

(* dirs.setdefault(k, []).append(c), with the order of insertion of a dict. *)
Fixpoint add_to (k : path) (c : target) (dirs : list (path * list target)) : list (path * list target) :=
  match dirs with
  | [] => [(k, [c])]
  | (k', l) :: dirs' => if path_eqb k k' then (k', l ++ [c]) :: dirs' else (k', l) :: add_to k c dirs'
  end.

(* project.py 181-185. *)
Definition group (folder : path) (ts : list target) : list (path * list target) :=
  fold_left (fun dirs c => add_to (key folder c) c dirs) ts [].

(* project.py 194-201: the dependencies of f that are in this folder. *)
Definition deps_of (folder current : path) (f : item) : list path :=
  flat_map (fun c => if path_eqb (parent c) current then [c]
                     else if under folder c then [child folder c]
                     else []) (item_deps f).

Definition mem (p : path) (l : list path) : bool := existsb (path_eqb p) l.

Definition entry := (item * list path)%type.
Definition entry_path (e : entry) : path := item_path (fst e).

(* deps.pop(new_target); the keys are distinct. *)
Definition pop (p : path) (l : list entry) : list entry := filter (fun e => negb (path_eqb (entry_path e) p)) l.

(* project.py 204-217.  The fuel is the number of entries. *)
Fixpoint place (fuel : nat) (deps : list entry) (placed : list path) (targets : list item)
  : list entry * list path * list item :=
  match fuel with
  | O => (deps, placed, targets)
  | S n =>
    match find (fun e => forallb (fun d => mem d placed) (snd e)) deps with
    | None => (deps, placed, targets)
    | Some e => place n (pop (entry_path e) deps) (placed ++ [entry_path e]) (targets ++ [fst e])
    end
  end.

Inductive outcome :=
| Tree (i : item)             (* the DirTarget *)
| Cycle (l : list path)       (* the fatal error of project.py 239-242 *)
| Stopped                     (* StopIteration or ValueError *)
| NoFuel.                     (* the model's recursion is exhausted *)

(* project.py 221-232: cycle is the list found so far, its last element first.
   The fuel is one more than the number of entries. *)
Fixpoint find_cycle (fuel : nat) (deps : list entry) (placed : list path) (e : entry) (seen : list path) : outcome :=
  if mem (entry_path e) seen then Cycle (rev (entry_path e :: seen))
  else
    match fuel with
    | O => NoFuel
    | S n =>
      match find (fun d => negb (mem d placed)) (snd e) with
      | None => Stopped
      | Some d => match find (fun e' => path_eqb (entry_path e') d) deps with
                  | None => Stopped
                  | Some e' => find_cycle n deps placed e' (entry_path e :: seen)
                  end
      end
    end.

(* order is the iteration order of the sets deps[f] (any order of the elements).
   The fuel bounds the depth of the folders. *)
(* project.py 187-190: the groups of the sub-folders become DirTargets. *)
Fixpoint build_groups (build : path -> list target -> outcome) (folder : path) (gs : list (path * list target))
  : (list (path * list item)) + outcome :=
  match gs with
  | [] => inl []
  | (k, cs) :: gs' =>
    match (if path_eqb k folder then inl (map IFile cs)
           else match build k cs with Tree i => inl [i] | x => inr x end) with
    | inr x => inr x
    | inl l => match build_groups build folder gs' with
               | inr x => inr x
               | inl r => inl ((k, l) :: r)
               end
    end
  end.

(* project.py 192-201. *)
Definition entries (order : list path -> list path) (folder : path) (gs : list (path * list item)) : list entry :=
  flat_map (fun g => map (fun f => (f, order (deps_of folder (fst g) f))) (snd g)) gs.

(* project.py 179-248 (DirTarget.__init__). *)
Fixpoint build (order : list path -> list path) (fuel : nat) (folder : path) (ts : list target) : outcome :=
  match fuel with
  | O => NoFuel
  | S n =>
    match build_groups (build order n) folder (group folder ts) with
    | inr x => x
    | inl gs =>
      let es := entries order folder gs in
      match place (length es) es [] [] with
      | ([], _, targets) =>
        Tree (IDir folder targets (filter (fun d => negb (under folder d)) (flat_map item_deps targets)))
      | (e :: rest, placed, _) =>
        find_cycle (S (length (e :: rest))) (e :: rest) placed e []
      end
    end
  end.

(* The depth of a project. *)
Definition depth (ts : list target) : nat := list_max (map (fun t => length (t_file t)) ts).

(* project.py 325-327: BuildProject.__init__. *)
Definition project (order : list path -> list path) (ts : list target) : outcome := build order (S (depth ts)) [] ts.

(* cmake_gen.py 198-218, meson_gen.py 171-191: the files in the order in which
   their build targets are declared. *)
Fixpoint emit (i : item) : list path :=
  match i with
  | IFile t => [t_file t]
  | IDir _ l _ => flat_map emit l
  end.

(* ------------------------------------------------------------------------- *)
(* The names of the build targets                                              *)
(* ------------------------------------------------------------------------- *)

(* p.stem, for a path without suffix and a name without dot *)
Definition stem (p : path) : string := last p "".

(* make_pipeline.py 205: two files have the same stem. *)
Fixpoint distinctb (l : list string) : bool :=
  match l with
  | [] => true
  | x :: l' => negb (existsb (String.eqb x) l') && distinctb l'
  end.
Definition has_conflicting_modules (ps : list path) : bool := negb (distinctb (map stem ps)).

(* sep.join(l) *)
Fixpoint join (sep : string) (l : list string) : string :=
  match l with
  | [] => ""
  | [x] => x
  | x :: l' => x ++ sep ++ join sep l'
  end%string.

(* make_pipeline.py 248-253: the name of the target of a file (given without
   its suffix). *)
Definition target_name (ps : list path) (p : path) : string :=
  if has_conflicting_modules ps then join "__" p else stem p.

(* cmake_gen.py 79-172: a library, a Python module, and an executable if the file
   has a program. *)
Definition declared (ps : list path) (f : path * bool) : list string :=
  let n := target_name ps (fst f) in
  [n; (n ++ "_so")%string] ++ (if snd f then [("prog_" ++ n)%string] else []).

Definition all_declared (fs : list (path * bool)) : list string := flat_map (declared (map fst fs)) fs.
