(** Specification: what Python does with modules, independently of the
    compiler. *)
From Coq Require Import List Arith Bool.
From Verif Require Import Init_Model.
Import ListNotations.

(** Python.  The state: the modules which were loaded, and what was seen.  An
    import runs the file the first time; the block of the program only runs in
    the file which is started. *)
Definition add (m : nat) (l : nat -> bool) : nat -> bool :=
  fun k => if Nat.eqb k m then true else l k.

Fixpoint python (fuel : nat) (p : list source) (e : nat -> event) (body : list stm)
  (st : (nat -> bool) * list event) : option ((nat -> bool) * list event) :=
  match fuel with
  | O => None
  | S n =>
      match body with
      | [] => Some st
      | c :: rest =>
          match
            match c with
            | Note => Some st
            | Do s => Some (fst st, snd st ++ [e s])
            | Call m f =>
                match nth_error p m with
                | Some s => match nth_error (funs s) f with
                            | Some b => python n p Did b st
                            | None => None
                            end
                | None => None
                end
            | Imp _ m =>
                if fst st m then Some st
                else match nth_error p m with
                     | Some s => python n p (Ran m) (top s ++ after s) (add m (fst st), snd st)
                     | None => None
                     end
            end
          with
          | Some st' => python n p e rest st'
          | None => None
          end
      end
  end.

(** The file number [n] is started: its statements, the block of the program,
    the statements after it. *)
Definition python_program (fuel : nat) (p : list source) (n : nat) : option (list event) :=
  match nth_error p n with
  | Some s =>
      match main s with
      | Some l =>
          match python fuel p (Ran n) (top s) (fun _ => false, []) with
          | Some st =>
              match python fuel p Did l st with
              | Some st' => option_map snd (python fuel p (Ran n) (after s) st')
              | None => None
              end
          | None => None
          end
      | None => None
      end
  | None => None
  end.

(** What a user can see of a run: not the release of arrays. *)
Definition seen (t : list event) : list event :=
  filter (fun e => match e with Freed _ _ => false | _ => true end) t.

(** The statements of the top level of the module [m] in a trace. *)
Definition own (m : nat) (t : list event) : list event :=
  filter (fun e => match e with Ran k _ => Nat.eqb k m | _ => false end) t.

(** The statements of the file, in order. *)
Fixpoint labels (l : list stm) : list nat :=
  match l with
  | [] => []
  | Do s :: l' => s :: labels l'
  | _ :: l' => labels l'
  end.

Definition all_of (p : list source) (m : nat) : list event :=
  match nth_error p m with
  | Some s => map (Ran m) (labels (top s ++ after s))
  | None => []
  end.

(** Imports are of earlier modules, calls of functions of this module or of
    earlier ones. *)
Definition stm_below (n : nat) (s : stm) : Prop :=
  match s with
  | Imp _ m => m < n
  | Call m _ => m <= n
  | _ => True
  end.

(** An import whose key is a name is the import of this module. *)
Definition names_ok (s : stm) : Prop :=
  match s with Imp (Name k) m => k = m | _ => True end.

Definition body_ok (n : nat) (l : list stm) : Prop :=
  Forall (stm_below n) l /\ Forall names_ok l.

Definition source_ok (n : nat) (s : source) : Prop :=
  body_ok n (top s ++ after s) /\
  (forall l, main s = Some l -> body_ok n l) /\
  Forall (body_ok n) (funs s).

Definition project (p : list source) : Prop :=
  forall n s, nth_error p n = Some s -> source_ok n s.

(** The imports come first in a body (comments anywhere). *)
Fixpoint no_import (l : list stm) : Prop :=
  match l with [] => True | Imp _ _ :: _ => False | _ :: l' => no_import l' end.

Fixpoint imports_first (l : list stm) : Prop :=
  match l with
  | Imp _ _ :: l' => imports_first l'
  | Note :: l' => imports_first l'
  | l' => no_import l'
  end.

(** No name is used for two modules in a body. *)
Definition keys_agree (l : list stm) : Prop :=
  forall k m m', In (Imp k m) l -> In (Imp k m') l -> m = m'.

Definition tidy (l : list stm) : Prop := imports_first l /\ keys_agree l.

Definition tidy_source (s : source) : Prop :=
  tidy (top s ++ after s) /\
  (forall l, main s = Some l -> tidy l) /\
  Forall tidy (funs s).

(** [d] is imported at the top level of [m]. *)
Definition imports_of (p : list source) (m d : nat) : Prop :=
  exists s k, nth_error p m = Some s /\ In (Imp k d) (top s ++ after s).

(** [d] is reached from [m] by imports at the top level. *)
Inductive reaches (p : list source) : nat -> nat -> Prop :=
| reach_self m : reaches p m m
| reach_step m d k : imports_of p m d -> reaches p d k -> reaches p m k.

(** What can be asked of an image: to initialise a module, to call a function
    of a module. *)
Definition request (c : cstm) : Prop :=
  match c with CInit _ | CCall _ _ => True | _ => False end.

(** The number of times an array is released. *)
Definition freed (m v : nat) (t : list event) : nat :=
  length (filter (fun e => match e with
                           | Freed k w => Nat.eqb k m && Nat.eqb w v
                           | _ => false end) t).

(** What is seen of an image: the requests of an extension module, or the
    program of a module. *)
Definition trace_of (im : list cmod) (t : list event) : Prop :=
  (exists fuel reqs fl, Forall request reqs /\ exec fuel im reqs start = Some (fl, t)) \/
  (exists fuel n, run_program fuel im n = Some t).

(** Every import of a body uses the name of the module. *)
Definition named (l : list stm) : Prop := forall k m, In (Imp k m) l -> k = Name m.

(** Arrays are allocated by statements. *)
Definition arrays_ok (s : source) : Prop :=
  arrays s <> [] -> labels (top s ++ after s) <> [].
