(** What is expected of pointers to arrays. *)

From Coq Require Import List ZArith Bool Arith.
From Verif Require Import Alias_Model.
Import ListNotations.

(* What a variable shows, in Python and in the generated code (if its memory
   was not released). *)
Definition pview (s : pstate) (x : var) : option (list Z) :=
  match penv s x with
  | Some (o, k) => option_map (skipn k) (nth_error (pheap s) o)
  | None => None
  end.

Definition gview (s : gstate) (x : var) : option (list Z) :=
  match genv s x with
  | Some (b, k) =>
    match nth_error (blocks s) b with
    | Some (Some vs) => Some (skipn k vs)
    | _ => None
    end
  | None => None
  end.

(* The same call in Python and in the generated code, for a caller with the
   arrays 0, 1, ..., n - 1: the same output, the same changes of these arrays,
   the same result, and all the memory is released but the one of the result. *)
Definition same_effect (f : function) (n : nat) (p : pstate) (g : gstate) : Prop :=
  gtrace g = ptrace p /\
  (forall i, i < n -> nth_error (blocks g) i = option_map Some (nth_error (pheap p) i)) /\
  (forall r, result f = Some r -> pview p r <> None /\ gview g r = pview p r) /\
  (forall b vs, n <= b -> nth_error (blocks g) b = Some (Some vs) ->
     exists r k, result f = Some r /\ genv g r = Some (b, k)).

(* A statement without Return. *)
Fixpoint no_return (c : stmt) : bool :=
  match c with
  | Seq a b | If a b => no_return a && no_return b
  | Loop a => no_return a
  | Return => false
  | _ => true
  end.

(* One Return, at the end, if there is a result; none if there is not. *)
Definition return_last (f : function) : Prop :=
  match result f with
  | Some _ => exists b, body f = Seq b Return /\ no_return b = true
  | None => no_return (body f) = true
  end.

(* What is known in one scope is known in another one. *)
Definition known (s s' : scope) : Prop :=
  (forall x k, kind_of s x = Some k -> kind_of s' x = Some k) /\
  incl (targets s) (targets s') /\ incl (is_target s) (is_target s').

(* Two things the semantic stage does not look for: a local array is assigned a
   slice of itself; what is learnt in a loop is not all known the first time
   its body is visited (visiting it again gives an error or more targets). *)
Fixpoint regular (r : option var) (c : stmt) (s : scope) : Prop :=
  match c with
  | Seq a b | If a b =>
    regular r a s /\
    (forall a' s1, visit r a s = Some (a', s1) -> regular r b s1)
  | Loop a =>
    regular r a s /\
    (forall a' s1, visit r a s = Some (a', s1) ->
       regular r a s1 /\
       exists a'' s2, visit r a s1 = Some (a'', s2) /\ known s2 s1)
  | Point x y _ => x = y -> kind_of s x = Some Alias
  | _ => True
  end.

Definition regular_function (f : function) : Prop :=
  return_last f /\
  match result f with
  | Some _ => forall b, body f = Seq b Return -> regular (result f) b (start_scope (args f))
  | None => regular None (body f) (start_scope (args f))
  end.

(* Arguments which are arrays of the caller. *)
Definition good_arguments (f : function) (n : nat) (ps : list (nat * nat)) : Prop :=
  NoDup (args f) /\ List.length ps = List.length (args f) /\
  forall p, In p ps -> fst p < n.

(* No loop, and no variable which is assigned a slice of itself. *)
Fixpoint straight (c : stmt) : bool :=
  match c with
  | Seq a b | If a b => straight a && straight b
  | Loop _ => false
  | Point x y _ => negb (x =? y)
  | _ => true
  end.

(* The statement gives the variable another array. *)
Fixpoint rebinds (x : var) (c : stmt) : Prop :=
  match c with
  | Seq a b | If a b => rebinds x a \/ rebinds x b
  | Loop a => rebinds x a
  | New y _ => x = y
  | Point y _ _ => x = y
  | _ => False
  end.
