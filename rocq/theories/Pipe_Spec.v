(* What C37, C38, C52 and C53 say, in terms of the calls made and the events seen. *)
From Coq Require Import Bool String Arith ZArith List.
From Verif Require Import Pipe_Model.
Import ListNotations.
Open Scope list_scope.

(* ---- C37: messages -------------------------------------------------------- *)

(* The mode chosen by the last call of set_mode. *)
Definition mode_after (l : list op) : mode :=
  fold_left (fun m o => match o with OMode m' => m' | _ => m end) l User.

(* The last stage set, None outside a run. *)
Definition stage_after (l : list op) : option stage :=
  fold_left (fun m o => match o with OStage s => Some s | OFinished => None | _ => m end) l None.

(* The file being translated, forgotten by a reset. *)
Definition target_after (l : list op) : option string :=
  fold_left (fun m o => match o with OTarget t => Some t | OReset => None | _ => m end) l None.

(* r was reported by the call that follows pre, and no reset came after it. *)
Definition reported (l pre : list op) (r : report_args) : Prop :=
  exists post, l = pre ++ OReport r :: post /\ ~ In OReset post.

(* Internal messages are for developers. *)
Definition for_the_user (m : mode) (s : severity) : Prop := m = Developer \/ s <> Sinternal.

(* An error: anything that is neither a warning nor hidden. *)
Definition error_for (m : mode) (s : severity) : Prop :=
  s = Serror \/ s = Sfatal \/ (s = Sinternal /\ m = Developer).

(* The name of the file a message belongs to. *)
Definition belongs_to (pre : list op) (r : report_args) (f : string) : Prop :=
  match r_filename r with
  | Some g => f = g
  | None => match target_after pre with Some t => f = t | None => f = EmptyString end
  end.

(* s is part of the text t. *)
Definition part_of (s t : string) : Prop := exists a b, t = (a ++ s ++ b)%string.

(* s1 is printed in t before s2. *)
Definition printed_before (s1 s2 t : string) : Prop :=
  exists a b c, t = (a ++ s1 ++ b ++ s2 ++ c)%string.

(* ---- C38: stages ---------------------------------------------------------- *)

(* The stages in the order of the documentation: preparation, syntactic,
   semantic, code generation, compilation, wrapping, building of the library. *)
Definition phase (a : action) : nat :=
  match a with
  | AMakeFolder | AMakePyccelFolder | ACompilerSetup | AExportCompiler => 0
  | AParse _ => 1
  | AAnnotate _ => 2
  | AGenerate _ => 3
  | ACopy _ | ADependencies _ | ACompile _ | ACompileProgram _ => 4
  | AWrap _ _ | APrintWrapper _ _ => 5
  | AWrapperDependencies _ _ | ACompileWrapper _ _ | ALink _ | ABuildSystem | ABuild => 6
  end.

Definition file (a : action) : nat :=
  match a with
  | AParse f | AAnnotate f | AGenerate f | ACopy f | ADependencies f | ACompile f | ACompileProgram f
  | AWrap f _ | APrintWrapper f _ | AWrapperDependencies f _ | ACompileWrapper f _ | ALink f => f
  | _ => 0
  end.

(* The stages that examine the user's code and report what is wrong with it. *)
Definition translating (a : action) : bool :=
  match phase a with 1 | 2 | 3 | 5 => true | _ => false end.

(* A compiler is run. *)
Definition compiles (a : action) : bool :=
  match a with ACompile _ | ACompileProgram _ | ACompileWrapper _ _ | ALink _ | ABuild => true | _ => false end.

Definition silent (l : list event) : Prop := forall a, ~ In (Started a) l.

(* The message of severity s was reported by the action a of the run t, and post
   is what happened after it. *)
Definition reported_by (t : list event) (a : action) (s : severity) (post : list event) : Prop :=
  exists pre mid, t = pre ++ Started a :: mid ++ Message s :: post /\ silent mid.

(* After an error of a translating stage nothing of another stage, and nothing of
   another file, is started; and the run ends with an exception. *)
Definition stops_after_errors (x : option exn) (t : list event) : Prop :=
  forall a s post, reported_by t a s post -> translating a = true -> s <> Swarning ->
    (forall a', In (Started a') post -> phase a' = phase a /\ file a' = file a) /\ x <> None.

Definition fresh (s : sys) : Prop := s_trace s = [].

(* ---- C52: processes -------------------------------------------------------- *)

Inductive reachable (n : nat) (x : option exn) (bcast : bool) : (nat -> nat) -> nat -> Prop :=
| reach_start : reachable n x bcast (fun _ => 0) 0
| reach_step d d' k : reachable n x bcast d k -> mpi_step n x bcast d d' -> reachable n x bcast d' (S k).

(* Rank r has made all its collective calls, so that it returns or raises. *)
Definition finished (x : option exn) (bcast : bool) (d : nat -> nat) (r : nat) : Prop :=
  d r = List.length (total x bcast r).

(* ---- C37 again: the number of messages since the last reset ----------------- *)
Definition count_step (p : mode * nat) (o : op) : mode * nat :=
  match o with
  | OMode m => (m, snd p)
  | OReset => (fst p, 0%nat)
  | OReport r => (fst p, match fst p, r_severity r with
                         | User, Sinternal => snd p
                         | _, _ => S (snd p)
                         end)
  | _ => p
  end.
Definition messages_since_reset (l : list op) : nat := snd (fold_left count_step l (User, 0%nat)).

(* ---- C38: order ------------------------------------------------------------- *)

(* The stages come in their order. *)
Definition in_order (t : list event) : Prop :=
  forall pre a mid a' post, t = pre ++ Started a :: mid ++ Started a' :: post -> (phase a <= phase a')%nat.

(* The run is asked to go to the end. *)
Definition full_run (o : options) : Prop :=
  o_semantic_only o = false /\ o_stub o = false /\ o_convert_only o = false /\ o_language o <> LPython
  /\ (o_export o && o_nofile o = false).

(* Everything a full run consists of. *)
Definition all_stages (o : options) : list action :=
  [AParse 0; AAnnotate 0; AGenerate 0; ADependencies 0; ACompile 0]
  ++ (if o_program o then [ACompileProgram 0] else [])
  ++ flat_map (fun i => [AWrap 0 i; APrintWrapper 0 i; ACompileWrapper 0 i])
              (match o_language o with LFortran => [0; 1]%nat | LC => [0%nat] | LPython => [] end)
  ++ [ALink 0].

(* An error or a fatal message was shown to the pipeline's register. *)
Definition some_error (t : list event) : Prop := exists s, In (Message s) t /\ s <> Swarning.

(* The arguments of `pyccel compile` do not make sense. *)
Definition unusable (c : compile_args) : Prop :=
  c_py_extension c = false \/ c_exists c = false \/ c_overwrites c = true.
