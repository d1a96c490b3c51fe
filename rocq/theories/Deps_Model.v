(* The files of a program and their imports.

   Modelled: pyccel/parser/base.py 41-137 (get_filename_from_import); pyccel/parser/parser.py 163-395 (Parser.parse,
   annotate, parse_sons, _annotate_sons); pyccel/codegen/pipeline.py 215-260 and pyccel/codegen/make_pipeline.py 160-190 (the calls).

   Simplifications: a file is the list of the folders in which it is and its name, without suffix; an import is the number
   of dots at the start and the names between dots; files are .py files (stubs that are written by hand, and those of Pyccel itself, are
   not modelled); the modules that Pyccel recognises are left out of the lists of imports; importlib is an arbitrary function from dotted
   names to files; there are no syntax errors; __init__.py files are not filtered out. *)
From Coq Require Import Bool ZArith List Arith.
Import ListNotations.
Open Scope list_scope.
Open Scope nat_scope.

Definition file := list nat.
Definition name := (nat * list nat)%type.
Definition file_eqb (f g : file) : bool := if list_eq_dec Nat.eq_dec f g then true else false.
Definition name_eqb (m n : name) : bool := Nat.eqb (fst m) (fst n) && file_eqb (snd m) (snd n).
Definition mem (f : file) (l : list file) : bool := existsb (file_eqb f) l.

(* src: the imports in the file; stub: those in the stub that was printed when the file was translated *)
Record world := mk_world {
  src : file -> list name; stub : file -> list name; is_file : file -> bool; installed : list nat -> option file;
  stub_time : file -> option Z; py_time : file -> Z }.

(* ------------------------------ base.py 41-137 ------------------------------ *)

Definition folder (f : file) : list nat := removelast f.
(* pathlib: parents[k - 1], with an IndexError beyond the root *)
Definition up (k : nat) (d : list nat) : option (list nat) := if k <=? length d then Some (firstn (length d - k) d) else None.
Definition found (w : world) (g : file) : option file := if is_file w g then Some g else None.
(* 75-109; None: not found, or an exception *)
Definition resolve (w : world) (f : file) (n : name) : option file :=
  match n with
  | (_, []) => None
  | (S k, parts) => match up k (folder f) with Some d => found w (d ++ parts) | None => None end
  | (0, [a]) => found w (folder f ++ [a])
  | (0, parts) =>
    if is_file w (folder f ++ parts) then Some (folder f ++ parts)
    else match installed w parts with Some g => found w g | None => None end
  end.
(* parser.py 322-337: the stub exists and is not older than the file *)
Definition ready (w : world) (g : file) : bool := match stub_time w g with Some t => negb (t <? py_time w g)%Z | None => false end.

(* ------------------------------ parser.py 273-371 ------------------------------ *)

(* the dictionary d_parsers of names; the first entry for a name counts *)
Record parser := mk_parser { p_sons : list file; p_names : list (name * file) }.
(* d_parsers_by_filename: only the entries whose keys are strings. Those whose keys are paths are the files of pyccel make *)
Definition dict := list (file * parser).
Fixpoint get (d : dict) (g : file) : option parser :=
  match d with [] => None | (h, p) :: d' => if file_eqb h g then Some p else get d' g end.
Definition known (d : dict) (g : file) : bool := match get d g with Some _ => true | None => false end.
Fixpoint lookup (l : list (name * file)) (n : name) : option file :=
  match l with [] => None | (m, g) :: l' => if name_eqb m n then Some g else lookup l' n end.

(* a file that is given to pyccel make is read itself, any other one through its stub (327-328, 343-355) *)
Definition imports (w : world) (files : list file) (g : file) : list name := if mem g files then src w g else stub w g.
(* 301-337; None: a fatal error *)
Fixpoint targets (w : world) (files : list file) (f : file) (imps : list name) : option (list file) :=
  match imps with
  | [] => Some []
  | n :: imps' =>
    match resolve w f n with
    | None => None
    | Some g => if mem g files || ready w g then option_map (cons g) (targets w files f imps') else None
    end
  end.
(* 359-369: d_parsers[source] = son; d_parsers.update(son.d_parsers) *)
Fixpoint link_names (d : dict) (l : list (name * file)) (acc : list (name * file)) : list (name * file) :=
  match l with
  | [] => acc
  | (n, g) :: l' => link_names d l' (match get d g with Some p => p_names p | None => [] end ++ (n, g) :: acc)
  end.
Definition link (d : dict) (imps : list name) (gs : list file) : parser := mk_parser gs (link_names d (combine imps gs) []).

Inductive outcome := Done (d : dict) (p : parser) | Fatal | Deep.
(* 339-357: a parser is put in the dictionary when all of its imports have been parsed. Deep: the recursion is deeper than n *)
Fixpoint load (n : nat) (w : world) (files : list file) (f : file) (imps : list name) (d : dict) : outcome :=
  match n with
  | 0 => Deep
  | S n' =>
    match targets w files f imps with
    | None => Fatal
    | Some gs =>
      (fix sons (todo : list file) (d : dict) : outcome :=
         match todo with
         | [] => Done d (link d imps gs)
         | g :: todo' =>
           if known d g then sons todo' d
           else match load n' w files g (imports w files g) d with Done d' p => sons todo' (d' ++ [(g, p)]) | o => o end
         end) gs d
    end
  end.
(* pyccel f *)
Definition pyccel (n : nat) (w : world) (f : file) : outcome := load n w [] f (src w f) [].
(* pyccel make files: the loop at the start of parse_sons (296-300) starts with the last file; the dictionary is shared.
   The parsers of the files themselves *)
Fixpoint load_all (n : nat) (w : world) (files : list file) (todo : list file) (d : dict) : option (dict * list (file * parser)) :=
  match todo with
  | [] => Some (d, [])
  | f :: todo' =>
    match load_all n w files todo' d with
    | Some (d1, ps) => match load n w files f (src w f) d1 with Done d2 p => Some (d2, (f, p) :: ps) | _ => None end
    | None => None
    end
  end.
Definition make (n : nat) (w : world) (files : list file) : option (dict * list (file * parser)) := load_all n w files files [].

(* ------------------------------ parser.py 223-262, 373-395 ------------------------------ *)

Definition sons_of (d : dict) (g : file) : list file := match get d g with Some p => p_sons p | None => [] end.
Definition leaf (d : dict) (g : file) : bool := match sons_of d g with [] => true | _ => false end.
(* the files that have been annotated, in order; None: the recursion is deeper than n *)
Fixpoint annotate_sons (n : nat) (d : dict) (gs : list file) (st : list file) : option (list file) :=
  match n with
  | 0 => None
  | S n' =>
    (fix go (todo : list file) (st : list file) : option (list file) :=
       match todo with
       | [] => Some st
       | g :: todo' =>
         if mem g st then go todo' st
         else match annotate_sons n' d (sons_of d g) st with Some st' => go todo' (st' ++ [g]) | None => None end
       end) (filter (leaf d) gs ++ filter (fun g => negb (leaf d g)) gs) st
  end.
(* make_pipeline.py 186-187: the imports of all files *)
Fixpoint annotate_all (n : nat) (d : dict) (ps : list (file * parser)) (st : list file) : option (list file) :=
  match ps with
  | [] => Some st
  | (_, p) :: ps' => match annotate_sons n d (p_sons p) st with Some st' => annotate_all n d ps' st' | None => None end
  end.
