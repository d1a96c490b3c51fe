(* What C40 says. *)
From Coq Require Import Bool String Ascii Arith Lia List.
From Verif Require Import Lock_Model.
Import ListNotations.
Open Scope string_scope.
Open Scope list_scope.

(* Schedules: at each point some process acts, or is killed. *)
Inductive event := Step (p : nat) | Kill (p : nat).

Inductive runs (system : nat -> proc) : state -> list event -> state -> Prop :=
| runs_nil s : runs system s [] s
| runs_step s p s' h s'' : exec system s p = Some s' -> runs system s' h s'' -> runs system s (Step p :: h) s''
| runs_kill s p h s'' : runs system (kill s p) h s'' -> runs system s (Kill p :: h) s''.

Definition reachable (system : nat -> proc) (s : state) : Prop := exists h, runs system (init system) h s.

(* The process has locked the file x. *)
Definition holds (system : nat -> proc) (s : state) (p : nat) (x : string) : Prop :=
  exists a, 0 < cnt s p a /\ path (system p) a = x.

(* The process does w now. *)
Definition working (s : state) (p : nat) (w : section) : Prop := exists l, todo s p = Work w :: l.

Definition finished (s : state) (p : nat) : Prop := todo s p = [].

(* There are n processes. *)
Definition size (system : nat -> proc) (n : nat) : Prop := forall p, n <= p -> sections (system p) = [].

(* The files a compilation reads or writes and that it locks: the source, the object
   file and those of the direct dependencies. *)
Definition uses (P : proc) (i : nat) (x : string) : Prop :=
  x = o_source (objs P i) \/ exists j, In j (i :: o_deps (objs P i)) /\ o_has (objs P j) = true /\ x = o_target (objs P j).

(* The lock files of a process do not clash: different objects that are locked together
   have different object files, which are not the source either; and no other lock is
   .lock_acquisition.lock. *)
Definition separate (P : proc) : Prop :=
  (forall i, In (Compile i) (sections P) ->
     (forall j k, In j (i :: o_deps (objs P i)) -> In k (i :: o_deps (objs P i)) ->
        o_has (objs P j) = true -> o_has (objs P k) = true -> o_target (objs P j) = o_target (objs P k) -> j = k)
     /\ (forall j, In j (i :: o_deps (objs P i)) -> o_has (objs P j) = true ->
           o_target (objs P j) <> o_source (objs P i) /\ o_target (objs P j) <> (cwd P ++ "/.lock_acquisition")%string)
     /\ o_source (objs P i) <> (cwd P ++ "/.lock_acquisition")%string)
  /\ forall n, In (Install n) (sections P) -> lib_lock P n <> (cwd P ++ "/.lock_acquisition.lock")%string.
