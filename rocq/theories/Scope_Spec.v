(* Vocabulary for stating properties of scopes. *)
From Coq Require Import List Bool Arith String Ascii.
From Verif Require Import Common Naming_Model Naming_Spec Scope_Model.
Import ListNotations.
Open Scope string_scope.
Open Scope list_scope.
Open Scope nat_scope.

(* The scope which really holds the names of scope i: loops hold none. *)
Inductive Home (h : heap) : nat -> nat -> Prop :=
| home_here i s : nth_error h i = Some s -> is_loop s = false -> Home h i i
| home_up i s p e : nth_error h i = Some s -> is_loop s = true -> sc_parent s = Some p ->
    Home h p e -> Home h i e.

(* Path h i ss j t: walking outwards from scope i through the scopes ss one
   arrives at scope j, which is t. *)
Inductive Path (h : heap) : nat -> list scope -> nat -> scope -> Prop :=
| path_here i s : nth_error h i = Some s -> Path h i [] i s
| path_up i s p ss j t : nth_error h i = Some s -> sc_parent s = Some p ->
    Path h p ss j t -> Path h i (s :: ss) j t.

(* Scope s declares name in a category: as a local object, else as an import. *)
Definition declares (s : scope) (c : category) (name : string) (o : nat) : Prop :=
  dget (sc_locals s c) name = Some o
  \/ (dget (sc_locals s c) name = None /\ dget (sc_imports s c) name = Some o).
Definition declares_not (s : scope) (c : category) (name : string) : Prop :=
  dget (sc_locals s c) name = None /\ dget (sc_imports s c) name = None.

(* Parents are older than their children (true of every heap that was built by
   the operations). *)
Definition well_founded_heap (h : heap) : Prop :=
  forall i s p, nth_error h i = Some s -> sc_parent s = Some p -> p < i.

(* Scopes whose names get a prefix in C output. *)
Definition prefixing (l : lang) (t : stype) : bool :=
  match l, t with LC, SModule | LC, SClass => true | _, _ => false end.

Definition type_at (h : heap) (i : nat) : option stype := option_map sc_type (nth_error h i).

(* Histories covered by the theorem on temporaries in loops: nothing is
   removed, no temporary has the object type of the wrapper, and for C output
   functions are declared in modules and classes only while temporaries are
   requested elsewhere. *)
Definition plain_op (l : lang) (h : heap) (o : op) : Prop :=
  match o with
  | OChild _ _ _ | OLoop _ | OIncr _ _ _ => True
  | OInsert i _ ctx => l = LC -> ctx = CFunction ->
      exists t, type_at h i = Some t /\ prefixing l t = true
  | ONew i _ ctx => ctx <> CWrapper /\
      (l = LC -> ctx <> CFunction /\
         forall e t, Home h i e -> type_at h e = Some t -> prefixing l t = false)
  | ORemove _ _ => False
  end.

Fixpoint run_plain (l : lang) (os : list op) (h h' : heap) : Prop :=
  match os with
  | [] => h = h'
  | o :: os' => plain_op l h o /\ exists h1, step l h o = POk h1 /\ run_plain l os' h1 h'
  end.

(* Histories in which every scope gets all its names before any scope inside it
   gets its first one - the order in which the syntactic stage collects names
   ("These must be visited last to ensure all names have been collected from
   the parent scope", syntactic.py:577-593).  Temporaries are requested from
   scopes that are not loops. *)
Definition nothing_inside (h : heap) (i : nat) : Prop :=
  forall e k, Home h i e -> k <> e -> In e (chain h k) -> used_at h k = [] /\ orig_at h k = [].
Definition outer_first_op (h : heap) (o : op) : Prop :=
  match o with
  | OChild _ _ _ | OLoop _ | ORemove _ _ => True
  | OInsert i _ _ | OIncr i _ _ => nothing_inside h i
  | ONew i _ _ => Home h i i /\ nothing_inside h i
  end.
Fixpoint run_outer_first (l : lang) (os : list op) (h h' : heap) : Prop :=
  match os with
  | [] => h = h'
  | o :: os' => outer_first_op h o /\ exists h1, step l h o = POk h1 /\ run_outer_first l os' h1 h'
  end.
