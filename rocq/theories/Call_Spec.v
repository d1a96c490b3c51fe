(* How Python gives the parameters of a function their arguments
   (The Python Language Reference, 6.3.4 Calls and 8.7 Function definitions). *)
From Coq Require Import Bool Arith ZArith Lia List.
From Verif Require Import Call_Model.
Import ListNotations.
Open Scope list_scope.

Definition mem (n : nat) (kws : list (nat * val)) : bool := existsb (fun p => Nat.eqb (fst p) n) kws.

(* the parameters that can be given by position: may it be given by name, its name, its default *)
Definition positional (s : sig) : list (bool * nat * option val) :=
  let l := map (pair false) (posonly s) ++ map (pair true) (args s) in
  combine l (repeat None (length l - length (defaults s)) ++ map Some (defaults s)).

(* None: TypeError *)
Fixpoint bind_positional (ps : list (bool * nat * option val)) (pos : list val) (kws : list (nat * val)) : option (list (nat * bound)) :=
  match ps with
  | [] => Some []
  | (by_name, n, d) :: ps' =>
    let value :=
      match pos with
      | v :: _ => if by_name && mem n kws then None else Some v
      | [] => match (if by_name then lookup n kws else None) with Some v => Some v | None => d end
      end in
    match value, bind_positional ps' (tl pos) kws with
    | Some v, Some r => Some ((n, BVal v) :: r)
    | _, _ => None
    end
  end.
Fixpoint bind_keyword_only (ps : list (nat * option val)) (kws : list (nat * val)) : option (list (nat * bound)) :=
  match ps with
  | [] => Some []
  | (n, d) :: ps' =>
    match (match lookup n kws with Some v => Some v | None => d end), bind_keyword_only ps' kws with
    | Some v, Some r => Some ((n, BVal v) :: r)
    | _, _ => None
    end
  end.
(* the arguments that no parameter has taken *)
Definition extra_positional (s : sig) (pos : list val) : list val := skipn (length (posonly s) + length (args s)) pos.
Definition extra_keywords (s : sig) (kws : list (nat * val)) : list (nat * val) :=
  filter (fun p => negb (existsb (Nat.eqb (fst p)) (args s ++ map fst (kwonly s)))) kws.
Definition collect {A : Type} (o : option nat) (mk : list A -> bound) (l : list A) : option (list (nat * bound)) :=
  match o, l with
  | Some n, _ => Some [(n, mk l)]
  | None, [] => Some []
  | None, _ :: _ => None
  end.
Definition py_bind (s : sig) (pos : list val) (kws : list (nat * val)) : option (list (nat * bound)) :=
  match bind_positional (positional s) pos kws, collect (vararg s) BTuple (extra_positional s pos),
        bind_keyword_only (kwonly s) kws, collect (kwarg s) BDict (extra_keywords s kws) with
  | Some a, Some b, Some c, Some d => Some (a ++ b ++ c ++ d)
  | _, _, _, _ => None
  end.

(* what Python accepts as a definition, and as the keywords of a call *)
Definition parameter_names (s : sig) : list nat :=
  posonly s ++ args s ++ match vararg s with Some n => [n] | None => [] end ++ map fst (kwonly s)
  ++ match kwarg s with Some n => [n] | None => [] end.
Definition valid (s : sig) : Prop := NoDup (parameter_names s) /\ (length (defaults s) <= length (posonly s) + length (args s))%nat.
Definition valid_keywords (kws : list (nat * val)) : Prop := NoDup (map fst kws).

(* A call of a function whose parameters are declared as int, with the defaults of s: a parameter
   whose default is None may be None; another None is a TypeError. *)
Definition default_of (s : sig) (n : nat) : option val :=
  match find (fun p => Nat.eqb (snd (fst p)) n) (positional s) with
  | Some (_, d) => d
  | None => match find (fun p => Nat.eqb (fst p) n) (kwonly s) with Some (_, d) => d | None => None end
  end.
Definition well_typed (s : sig) (b : nat * bound) : bool :=
  match snd b with
  | BVal (VInt _) => true
  | BVal VNone => match default_of s (fst b) with Some VNone => true | _ => false end
  | _ => true
  end.
Inductive py_result := PyCall (l : list (nat * bound)) | PyTypeError.
Definition py_call (s : sig) (pos : list val) (kws : list (nat * val)) : py_result :=
  match py_bind s pos kws with
  | Some b => if forallb (well_typed s) b then PyCall b else PyTypeError
  | None => PyTypeError
  end.
Definition same_call (c : called) (p : py_result) : Prop :=
  match c, p with
  | CCall l, PyCall b => b = map (fun q => (fst q, BVal (snd q))) l
  | CTypeError, PyTypeError => True
  | _, _ => False
  end.

(* ------------------------ the functions and calls considered ------------------------ *)

(* no positional-only parameter has a default *)
Definition no_posonly_default (s : sig) : Prop := (length (defaults s) <= length (args s))%nat.
(* keyword-only parameters without a default only in functions without any defaults *)
Definition plain_keywords (s : sig) : Prop :=
  (forall n, ~ In (n, None) (kwonly s)) \/ (defaults s = [] /\ forall n d, ~ In (n, Some d) (kwonly s)).
(* None is not passed for a parameter with another default *)
Definition no_none (s : sig) (pos : list val) (kws : list (nat * val)) : Prop :=
  forall b n z, py_bind s pos kws = Some b -> In (n, BVal VNone) b -> default_of s n <> Some (VInt z).
(* the call has no more positional arguments than there are parameters for them; more are an
   error also for a function with only such parameters *)
Definition rest_ok (s : sig) (pos : list val) : Prop :=
  (length pos <= length (posonly s) + length (args s))%nat \/ vararg s <> None \/ (kwonly s = [] /\ kwarg s = None).
(* a function with a parameter for further keyword arguments is given at least one, and no error *)
Definition some_extra_keyword (s : sig) (pos : list val) (kws : list (nat * val)) : Prop :=
  kwarg s = None \/ (exists b, py_bind s pos kws = Some b /\ forall n, ~ In (n, BDict []) b).
