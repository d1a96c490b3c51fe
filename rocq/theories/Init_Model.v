(** Initialisation and release of modules.

    Models /repo/pyccel/parser/semantic.py lines 3634-3960 (_visit_Module: the
    initialisation function, the function which releases the data, the
    program), lines 6555-6563 (imports in functions) and lines 7162-7357
    (_visit_Import), /repo/pyccel/parser/syntactic.py lines 574-627 and
    1582-1618 (what is an import, a statement or the program), and
    /repo/pyccel/codegen/wrapper/c_to_python_wrapper.py lines 1119-1120 (the
    extension module calls the initialisation function), with the images of
    /repo/pyccel/codegen/compiling/basic.py lines 229-237 and
    /repo/pyccel/codegen/compiling/compilers.py lines 405-417 and 552-630.

    Simplified: modules are numbered; a statement is a number which is written
    to a trace when the statement runs (what the statements do to the variables
    is a function of this trace); functions are called without arguments; the
    arrays of a module are given with the module, in the order of the set
    self._allocs; the alias of an import is never the name of a module. *)
From Coq Require Import List Arith Bool.
Import ListNotations.

(** The key of an import in the scope: source_target, semantic.py lines
    7179-7184. *)
Inductive key := Name (m : nat) | Alias (a : nat).

Definition key_eqb (k k' : key) : bool :=
  match k, k' with
  | Name m, Name m' => Nat.eqb m m'
  | Alias a, Alias a' => Nat.eqb a a'
  | _, _ => false
  end.

(** A statement of a Python file: an import, any other statement, the call of a
    function of a module, a comment. *)
Inductive stm :=
| Imp (k : key) (m : nat)
| Do (s : nat)
| Call (m f : nat)
| Note.

(** A Python file: the statements before the block
    [if __name__ == '__main__'], this block, the statements after it, the
    bodies of the functions, and the arrays which the statements outside the
    block allocate (true: a temporary). *)
Record source := Source {
  top : list stm;
  main : option (list stm);
  after : list stm;
  funs : list (list stm);
  arrays : list (nat * bool)
}.

(** What can be seen when a program runs: a statement of the top level of a
    module, a statement of a function or of the program block, an array
    released. *)
Inductive event := Ran (m s : nat) | Did (s : nat) | Freed (m v : nat).

(** A statement of the code which is written. *)
Inductive cstm :=
| CInit (m : nat)
| CDo (e : event)
| CCall (m f : nat)
| CFree (m : nat).

(** A module after the semantic stage: the statements which the initialisation
    function runs under its guard, those which the release runs under its
    guard, the functions, the program. *)
Record cmod := CMod {
  c_init : option (list cstm);
  c_free : option (list cstm);
  c_funs : list (list cstm);
  c_main : option (list cstm)
}.

Definition has_init (done : list cmod) (m : nat) : bool :=
  match nth_error done m with Some c => if c_init c then true else false | None => false end.

Definition has_free (done : list cmod) (m : nat) : bool :=
  match nth_error done m with Some c => if c_free c then true else false | None => false end.

(** The imports among statements, in order. *)
Fixpoint imports (l : list stm) : list (key * nat) :=
  match l with
  | [] => []
  | Imp k m :: l' => (k, m) :: imports l'
  | _ :: l' => imports l'
  end.

(** semantic.py lines 7242-7252 and 7326-7335: an import gives a call of the
    initialisation function of the module, if it has one, unless the key is
    already in the scope. *)
Fixpoint visit_imports (done : list cmod) (seen : list key) (l : list (key * nat)) : list cstm :=
  match l with
  | [] => []
  | (k, m) :: l' =>
      (if existsb (key_eqb k) seen then []
       else if has_init done m then [CInit m] else [])
      ++ visit_imports done (k :: seen) l'
  end.

(** The other statements; [e] says how the statements of this body are seen. *)
Fixpoint visit_rest (e : nat -> event) (l : list stm) : list cstm :=
  match l with
  | [] => []
  | Do s :: l' => CDo (e s) :: visit_rest e l'
  | Call m f :: l' => CCall m f :: visit_rest e l'
  | _ :: l' => visit_rest e l'
  end.

(** A body: syntactic.py lines 592-598 and 1597-1614 and semantic.py lines
    3639-3640, 3694-3697 and 6556-6563: the imports are put in front. *)
Definition visit_body (done : list cmod) (e : nat -> event) (l : list stm) : list cstm :=
  visit_imports done [] (imports l) ++ visit_rest e l.

(** list.pop(i). *)
Fixpoint pop {A} (i : nat) (l : list A) : option (A * list A) :=
  match i, l with
  | _, [] => None
  | O, x :: l' => Some (x, l')
  | S i', x :: l' =>
      match pop i' l' with Some (y, r) => Some (y, x :: r) | None => None end
  end.

(** semantic.py lines 3776-3780: for each temporary among the arrays to be
    released, pop(i) of the list of releases, with the place i in the first
    list.  The result: the releases added to the initialisation, and those
    left.  None: IndexError. *)
Fixpoint split_from (i : nat) (vars : list (nat * bool)) (deallocs : list nat)
  : option (list nat * list nat) :=
  match vars with
  | [] => Some ([], deallocs)
  | (_, true) :: vars' =>
      match pop i deallocs with
      | None => None
      | Some (d, rest) =>
          match split_from (S i) vars' rest with
          | Some (ds, others) => Some (d :: ds, others)
          | None => None
          end
      end
  | (_, false) :: vars' => split_from (S i) vars' deallocs
  end.

Definition split (vars : list (nat * bool)) : option (list nat * list nat) :=
  split_from 0 vars (map fst vars).

(** The imports of a scope: a dictionary, in which a second import with the
    same key replaces the value but keeps the place (semantic.py lines
    7345-7356). *)
Fixpoint put (k : key) (m : nat) (l : list (key * nat)) : list (key * nat) :=
  match l with
  | [] => [(k, m)]
  | (k', m') :: l' => if key_eqb k k' then (k, m) :: l' else (k', m') :: put k m l'
  end.

Definition container (l : list (key * nat)) : list (key * nat) :=
  fold_left (fun c i => put (fst i) (snd i) c) l [].

(** semantic.py lines 3820-3835: only the imports whose key is the name of a
    module count. *)
Definition import_frees (done : list cmod) (l : list (key * nat)) : list cstm :=
  flat_map (fun i => match fst i with
                     | Name _ => if has_free done (snd i) then [CFree (snd i)] else []
                     | Alias _ => []
                     end) (container l).

(** semantic.py lines 3634-3921 for the module number [n]; None: the compiler
    stops with an exception. *)
Definition visit_module (done : list cmod) (s : source) : option cmod :=
  let n := length done in
  let body := visit_body done (Ran n) (top s ++ after s) in
  let fs := map (visit_body done Did) (funs s) in
  match body with
  | [] =>
      Some (CMod None None fs
              (match main s with
               | Some l => Some (visit_body done Did l)
               | None => None
               end))
  | _ =>
      match split (arrays s) with
      | None => None
      | Some (temps, deallocs) =>
          let init := body ++ map (fun v => CDo (Freed n v)) temps in
          let frees := import_frees done (imports (top s ++ after s))
                       ++ map (fun v => CDo (Freed n v)) deallocs in
          let free := match frees with [] => None | _ => Some frees end in
          Some (CMod (Some init) free fs
                  (match main s with
                   | Some l => Some (CInit n :: visit_body done Did l
                                     ++ match free with Some _ => [CFree n] | None => [] end)
                   | None => None
                   end))
      end
  end.

(** The modules, each after those it imports. *)
Fixpoint compile_from (done : list cmod) (p : list source) : option (list cmod) :=
  match p with
  | [] => Some done
  | s :: p' =>
      match visit_module done s with
      | Some c => compile_from (done ++ [c]) p'
      | None => None
      end
  end.

Definition compile (p : list source) : option (list cmod) := compile_from [] p.

(** The state of an image (an executable or an extension module, into which the
    objects of all dependencies are linked): the guards, and what was seen. *)
Definition state : Type := ((nat -> bool) * list event)%type.

Definition set_flag (m : nat) (b : bool) (fl : nat -> bool) : nat -> bool :=
  fun k => if Nat.eqb k m then b else fl k.

(** Execution of the code.  The initialisation function is
    [if (!initialised) { ...; initialised = true; }], the release
    [if (initialised) { ...; initialised = false; }] (semantic.py lines
    3782-3787 and 3843-3850).  None: out of fuel, or a function which does not
    exist. *)
Fixpoint exec (fuel : nat) (im : list cmod) (body : list cstm) (st : state) : option state :=
  match fuel with
  | O => None
  | S n =>
      match body with
      | [] => Some st
      | c :: rest =>
          match
            match c with
            | CDo e => Some (fst st, snd st ++ [e])
            | CCall m f =>
                match nth_error im m with
                | Some c => match nth_error (c_funs c) f with
                            | Some b => exec n im b st
                            | None => None
                            end
                | None => None
                end
            | CInit m =>
                match nth_error im m with
                | Some c =>
                    match c_init c with
                    | Some b =>
                        if fst st m then Some st
                        else match exec n im b st with
                             | Some st' => Some (set_flag m true (fst st'), snd st')
                             | None => None
                             end
                    | None => None
                    end
                | None => None
                end
            | CFree m =>
                match nth_error im m with
                | Some c =>
                    match c_free c with
                    | Some b =>
                        if fst st m
                        then match exec n im b st with
                             | Some st' => Some (set_flag m false (fst st'), snd st')
                             | None => None
                             end
                        else Some st
                    | None => None
                    end
                | None => None
                end
            end
          with
          | Some st' => exec n im rest st'
          | None => None
          end
      end
  end.

Definition start : state := (fun _ => false, []).

(** The executable of the program of the module [n]. *)
Definition run_program (fuel : nat) (im : list cmod) (n : nat) : option (list event) :=
  match nth_error im n with
  | Some c => match c_main c with
              | Some b => option_map snd (exec fuel im b start)
              | None => None
              end
  | None => None
  end.

(** A Python process which imports compiled modules, in this order: each
    extension module has its own copy of the modules it uses; the import runs
    PyInit_m, which calls the initialisation function.  A module which was
    imported is not imported again. *)
Fixpoint run_imports (fuel : nat) (im : list cmod) (seen : list nat) (l : list nat)
  : option (list event) :=
  match l with
  | [] => Some []
  | m :: l' =>
      if existsb (Nat.eqb m) seen then run_imports fuel im seen l'
      else
        match (if has_init im m then option_map snd (exec fuel im [CInit m] start) else Some []) with
        | None => None
        | Some t => match run_imports fuel im (m :: seen) l' with
                    | Some t' => Some (t ++ t')
                    | None => None
                    end
        end
  end.
