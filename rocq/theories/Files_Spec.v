(* What C41, C43 and C44 say, in terms of files and folders. *)
From Coq Require Import Bool String Ascii Arith List.
From Verif Require Import Files_Model.
Import ListNotations.
Open Scope string_scope.
Open Scope list_scope.

(* ---- C41 ---- *)

(* The folder contains every file of the library with its current content. *)
Definition complete (src : folder) (dest : option folder) : Prop :=
  exists d, dest = Some d /\ forall n f, In (n, f) src -> exists g, get n d = Some g /\ f_content g = f_content f.

(* Files with the same name, size and time have the same content. *)
Definition honest (src d : folder) : Prop :=
  forall n f g, In (n, f) src -> get n d = Some g ->
    String.length (f_content g) = String.length (f_content f) -> f_mtime g = f_mtime f -> f_content g = f_content f.

(* A sequence of later installations. *)
Fixpoint install_again (src : folder) (l : list (nat * (string -> list string))) (d : option folder) : option folder :=
  match l with
  | [] => d
  | (now, chunks) :: l' => install_again src l' (install now chunks src d)
  end.

(* ---- C44 ---- *)

(* The object file of i is compiled from its current source. *)
Definition source_current (w : world) (i : nat) : Prop :=
  exists b t, object w i = Some (b, t) /\ b_source b = f_content (source w i).

(* ... and from the current sources of its dependencies. *)
Definition current (deps : nat -> list nat) (w : world) (i : nat) : Prop :=
  exists b t, object w i = Some (b, t) /\ b_source b = f_content (source w i)
    /\ b_deps b = map (fun j => f_content (source w j)) (deps i).

(* Nothing has been compiled, and no file is newer than the clock. *)
Definition clean_start (w : world) : Prop :=
  (forall i, object w i = None) /\ (forall i, pending w i = None) /\ forall i, f_mtime (source w i) <= now w.

(* Whenever the source i is written, time has passed since i was compiled, and
   no compiler is working on it. *)
Definition well_timed (deps : nat -> list nat) (w : world) (h : list event) : Prop :=
  forall h1 i text h2, h = h1 ++ Edit i text :: h2 ->
    pending (play deps h1 w) i = None
    /\ forall b t, object (play deps h1 w) i = Some (b, t) -> t < now (play deps h1 w).

(* ---- C43 ---- *)

(* The node n is at the path p. *)
Inductive at_path : list (string * node) -> list string -> node -> Prop :=
| at_here l f n : In (f, n) l -> at_path l [f] n
| at_below l f x l' p n : In (f, NDir x l') l -> at_path l' p n -> at_path l (f :: p) n
| at_link l f l' p n : In (f, NLink l') l -> at_path l' p n -> at_path l (f :: p) n.

Definition has_file (l : list (string * node)) (p : list string) (x : bool) : Prop := at_path l p (NFile x).
Definition has_dir (l : list (string * node)) (p : list string) : Prop := exists x l', at_path l p (NDir x l').

(* Only files and folders. *)
Inductive plain : node -> Prop :=
| plain_file x : plain (NFile x)
| plain_dir x l : (forall f n, In (f, n) l -> plain n) -> plain (NDir x l).

(* The name of a folder that pyccel or epyccel makes. *)
Definition pyccel_folder (f : string) : Prop :=
  (exists s, f = "__pyccel__" ++ s)%string \/ (exists s, f = "__epyccel__" ++ s)%string.

Definition has_suffix (suffix f : string) : Prop := exists s, f = (s ++ suffix)%string.

(* A file that is to be removed for its name or, as a program, because it is executable. *)
Definition artefact_file (o : clean_options) (f : string) (x : bool) : Prop :=
  ~ pyccel_folder f
  /\ (has_suffix ".pyccel" f \/ (remove_shared_libs o = true /\ has_suffix (ext_suffix o) f)
      \/ (remove_programs o = true /\ x = true)).

(* The path lies in a folder of pyccel. *)
Definition in_pyccel_folder (p : list string) : Prop := exists f, In f (removelast p) /\ pyccel_folder f.
