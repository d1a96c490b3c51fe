(* What C42 and C55 say, in terms of objects and what they depend on. *)
From Coq Require Import Bool String Ascii Arith Relations List.
From Verif Require Import Comp_Model.
Import ListNotations.
Open Scope list_scope.

(* References refer to objects. *)
Definition closed (h : heap) : Prop := forall o k j, In o h -> In (k, j) (o_deps o) -> j < length h.

(* The object i depends directly on the object j. *)
Definition depends (h : heap) (i j : nat) : Prop :=
  exists o k, nth_error h i = Some o /\ In (k, j) (o_deps o).

(* i is j or depends on j, directly or indirectly *)
Definition uses (h : heap) : nat -> nat -> Prop := clos_refl_trans nat (depends h).
Definition needs (h : heap) : nat -> nat -> Prop := clos_trans nat (depends h).

(* No object that i uses depends on itself. *)
Definition acyclic_from (h : heap) (i : nat) : Prop := forall j, uses h i j -> ~ needs h j j.

(* x is a value of the property `own` of an object that i uses. *)
Definition has (own : obj -> list string) (h : heap) (i : nat) (x : string) : Prop :=
  exists j o, uses h i j /\ nth_error h j = Some o /\ In x (own o).

(* x is wanted for i: by one of the objects, by the language, or by a tool
   that one of the objects needs. *)
Definition wanted (own : obj -> list string) (key : given -> list string) (L : language) (h : heap) (i : nat) (x : string) : Prop :=
  has own h i x \/ In x (key (l_given L)) \/ exists a, has o_tools h i a /\ In x (key (l_tool L a)).

(* x is the object file of an object j, which i depends on through objects that
   have an object file. *)
Inductive linked (h : heap) : nat -> nat -> Prop :=
| linked_one i j o : depends h i j -> nth_error h j = Some o -> o_has_target o = true -> linked h i j
| linked_more i j k o : depends h i j -> nth_error h j = Some o -> o_has_target o = true -> linked h j k -> linked h i k.

Definition object_file (R : nat -> nat -> Prop) (h : heap) (i : nat) (x : string) : Prop :=
  exists j o, R i j /\ nth_error h j = Some o /\ o_has_target o = true /\ o_target o = x.

Definition wanted_file (R : nat -> nat -> Prop) (L : language) (h : heap) (i : nat) (x : string) : Prop :=
  object_file R h i x \/ In x (g_dependencies (l_given L))
  \/ exists a, has o_tools h i a /\ In x (g_dependencies (l_tool L a)).

(* The list l consists of the x with P x, each once. *)
Definition exactly (l : list string) (P : string -> Prop) : Prop := NoDup l /\ forall x, In x l <-> P x.

(* The iteration over a set. *)
Definition set_order (order : list string -> list string) : Prop :=
  forall l, NoDup (order l) /\ forall x, In x (order l) <-> In x l.

(* -I a -I b ... *)
Fixpoint each (flag : string) (l : list string) : list string :=
  match l with [] => [] | x :: l' => flag :: x :: each flag l' end.

(* The flags of the object, of the mode, of the language and of the tools ts. *)
Definition flags_for (debug : bool) (L : language) (o : obj) (ts fs : list string) : Prop :=
  fs = o_flags o ++ (if debug then l_debug_flags L else l_release_flags L) ++ l_general_flags L
       ++ concat (map (fun a => g_flags (l_tool L a)) ts).

Definition executable (L : language) (h : heap) (i : nat) (e : string) : Prop :=
  (has o_tools h i "mpi"%string -> e = l_mpi_exec L) /\ (~ has o_tools h i "mpi"%string -> e = l_exec L).

(* x comes before y in l. *)
Definition before {A} (x y : A) (l : list A) : Prop := exists l1 l2 l3, l = l1 ++ x :: l2 ++ y :: l3.

(* ---- imports ---- *)

Definition imports_file (ps : list parser) (i j : nat) : Prop :=
  exists p, nth_error ps i = Some p /\ In j (p_sons p).

(* j is imported by the file i, directly or through files other than omp_lib. *)
Inductive reaches (ps : list parser) : nat -> nat -> Prop :=
| reaches_one i j : imports_file ps i j -> reaches ps i j
| reaches_more i j k p : reaches ps i j -> nth_error ps j = Some p -> p_omp p = false -> imports_file ps j k -> reaches ps i k.

Definition closed_parsers (ps : list parser) : Prop := forall p j, In p ps -> In j (p_sons p) -> j < length ps.

(* The files are different. *)
Definition different_files (ps : list parser) : Prop := NoDup (map p_file ps).

(* The file q is imported by the file i, directly or indirectly, and is not omp_lib. *)
Definition imported (ps : list parser) (i q : nat) (p : parser) : Prop :=
  reaches ps i q /\ nth_error ps q = Some p /\ p_omp p = false.

(* What is recorded for the file of p. *)
Definition recorded (p : parser) (d : dependency) : Prop :=
  match p_obj p with
  | Some i => d = Existing i
  | None => p_ignore p = false /\ d = Fresh p
  end.

(* The flag for a library: -l and its name, unless that is given already. *)
Definition library_flag (l f : string) : Prop :=
  (exists n, l = ("-l" ++ n)%string /\ f = l) \/ ((forall n, l <> ("-l" ++ n)%string) /\ f = ("-l" ++ l)%string).
