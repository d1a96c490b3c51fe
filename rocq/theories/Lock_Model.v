(* The file locks of concurrent compilations.
   Sources: pyccel/codegen/compiling/basic.py 59, 102-107, 258-312;
   pyccel/codegen/compiling/compilers.py 484, 545, 624 and
   pyccel/codegen/utilities.py 157 (the with statements);
   pyccel/codegen/compiling/library_config.py 103-126, 577-622 and
   pyccel/codegen/utilities.py 104-106 (locks of the folders of libraries). *)
From Coq Require Import Bool String Ascii Arith Lia List.
Import ListNotations.
Open Scope string_scope.
Open Scope list_scope.

(* basic.py 79-133: the parts of a CompileObj the locks depend on.  The dependencies are
   given by their numbers in the process, in the order of the dictionary. *)
Record obj := mk_obj { o_source : string; o_target : string; o_has : bool; o_deps : list nat }.

(* What a process does while it holds locks: a compilation, a link or a check of time
   stamps, under the locks of an object; or the installation of a library.  A run that
   stops with an error is one with fewer sections: __exit__ releases the locks. *)
Inductive section := Compile (i : nat) | Install (n : nat).

(* A process: the folder it was started in, its objects, the lock files of the folders
   of the libraries, what it does. *)
Record proc := mk_proc { cwd : string; objs : nat -> obj; lib_lock : nat -> string; sections : list section }.

(* FileLock objects of a process: compilation_in_progress (59), _lock_source (105-107),
   _lock_target (102-104), those of library_config.py and utilities.py. *)
Inductive inst := GlobalL | SourceL (i : nat) | TargetL (i : nat) | LibL (n : nat).

Definition inst_eqb (a b : inst) : bool :=
  match a, b with
  | GlobalL, GlobalL => true
  | SourceL i, SourceL j => Nat.eqb i j
  | TargetL i, TargetL j => Nat.eqb i j
  | LibL i, LibL j => Nat.eqb i j
  | _, _ => false
  end.

(* The files the locks use. *)
Definition path (P : proc) (a : inst) : string :=
  match a with
  | GlobalL => cwd P ++ "/.lock_acquisition.lock"
  | SourceL i => o_source (objs P i) ++ ".lock"
  | TargetL i => o_target (objs P i) ++ ".lock"
  | LibL n => lib_lock P n
  end%string.

Inductive action := Acquire (a : inst) | Release (a : inst) | Work (w : section).

(* basic.py 276-286, 302-312: acquire_simple_lock, release_simple_lock. *)
Definition simple (f : inst -> action) (P : proc) (i : nat) : list action :=
  if o_has (objs P i) then [f (TargetL i)] else [].

(* basic.py 258-274: __enter__, acquire_lock. *)
Definition enter (P : proc) (i : nat) : list action :=
  Acquire GlobalL :: Acquire (SourceL i) :: simple Acquire P i ++ flat_map (simple Acquire P) (o_deps (objs P i)).

(* basic.py 288-300: __exit__, release_lock. *)
Definition leave (P : proc) (i : nat) : list action :=
  flat_map (simple Release P) (o_deps (objs P i)) ++ Release (SourceL i) :: simple Release P i ++ [Release GlobalL].

Definition code (P : proc) (w : section) : list action :=
  match w with
  | Compile i => enter P i ++ Work w :: leave P i
  | Install n => [Acquire (LibL n); Work w; Release (LibL n)]
  end.

(* The state: what each process has to do; how often it has acquired each lock (a
   FileLock object counts); who has locked each file. *)
Record state := mk_state {
  todo : nat -> list action;
  cnt : nat -> inst -> nat;
  owner : string -> option (nat * inst) }.

Definition init (system : nat -> proc) : state :=
  mk_state (fun p => flat_map (code (system p)) (sections (system p))) (fun _ _ => 0) (fun _ => None).

Definition set_todo (s : nat -> list action) (p : nat) (l : list action) : nat -> list action :=
  fun q => if Nat.eqb q p then l else s q.
Definition set_cnt (c : nat -> inst -> nat) (p : nat) (a : inst) (n : nat) : nat -> inst -> nat :=
  fun q b => if Nat.eqb q p && inst_eqb b a then n else c q b.
Definition set_owner (o : string -> option (nat * inst)) (x : string) (v : option (nat * inst)) : string -> option (nat * inst) :=
  fun y => if String.eqb y x then v else o y.

(* One action of the process p; None if it waits for a lock or has finished. *)
Definition exec (system : nat -> proc) (s : state) (p : nat) : option state :=
  match todo s p with
  | [] => None
  | Work _ :: l => Some (mk_state (set_todo (todo s) p l) (cnt s) (owner s))
  | Acquire a :: l =>
    let x := path (system p) a in
    match cnt s p a with
    | S n => Some (mk_state (set_todo (todo s) p l) (set_cnt (cnt s) p a (S (S n))) (owner s))
    | O => match owner s x with
           | Some _ => None
           | None => Some (mk_state (set_todo (todo s) p l) (set_cnt (cnt s) p a 1) (set_owner (owner s) x (Some (p, a))))
           end
    end
  | Release a :: l =>
    let x := path (system p) a in
    match cnt s p a with
    | O => Some (mk_state (set_todo (todo s) p l) (cnt s) (owner s))
    | S O => Some (mk_state (set_todo (todo s) p l) (set_cnt (cnt s) p a 0) (set_owner (owner s) x None))
    | S n => Some (mk_state (set_todo (todo s) p l) (set_cnt (cnt s) p a n) (owner s))
    end
  end.

(* The process is killed; the operating system releases its locks. *)
Definition kill (s : state) (p : nat) : state :=
  mk_state (set_todo (todo s) p [])
    (fun q b => if Nat.eqb q p then 0 else cnt s q b)
    (fun x => match owner s x with
              | Some (q, a) => if Nat.eqb q p then None else Some (q, a)
              | None => None
              end).
