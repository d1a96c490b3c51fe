(* What Python does with t1, t2, ... = e1, e2, ... *)
From Coq Require Import Bool Arith ZArith Lia List.
From Verif Require Import Unpack_Model.
Import ListNotations.
Open Scope list_scope.

(* The values of the right-hand side are computed first... *)
Inductive value := VInt (z : Z) | VSeq (l : list value).
Fixpoint py_value (s : state) (e : expr) : value :=
  match e with
  | ETup l => VSeq (map (py_value s) l)
  | e => VInt (eval s e)
  end.

(* ... and then stored from left to right, each subscript in the state it finds.  None: the
   numbers of targets and values differ (or a tuple would be stored in an integer). *)
Fixpoint py_store (t : target) (v : value) (s : state) {struct t} : option state :=
  match t with
  | TVar x => match v with VInt z => Some (set_scalar s x z) | VSeq _ => None end
  | TElem x i => match v with VInt z => Some (set_elem s x (ival s i) z) | VSeq _ => None end
  | TTup ts =>
    match v with
    | VInt _ => None
    | VSeq vs =>
      (fix loop (ts : list target) (vs : list value) (s : state) {struct ts} : option state :=
         match ts, vs with
         | [], [] => Some s
         | t1 :: ts', v1 :: vs' => match py_store t1 v1 s with Some s1 => loop ts' vs' s1 | None => None end
         | _, _ => None
         end) ts vs s
    end
  end.
Definition py_assign (ts : list target) (rs : list expr) (s : state) : option state := py_store (TTup ts) (py_value s (ETup rs)) s.

(* the same variables of the program, the same elements *)
Definition same (s s' : state) : Prop :=
  (forall n, scalar s (VUser n) = scalar s' (VUser n)) /\ (forall n i, array s (VUser n) i = array s' (VUser n) i).

(* ------------------------ the assignments considered ------------------------ *)

(* No nested tuples, and the names are those of the program. *)
Definition is_user (x : var) : Prop := exists n, x = VUser n.
Fixpoint ivars (i : idx) : list var :=
  match i with ILit _ => [] | IVar x => [x] | IOp _ a b => ivars a ++ ivars b end.
Fixpoint flat (e : expr) : Prop :=
  match e with
  | ELit _ => True
  | EVar x => is_user x
  | EElem x i => is_user x /\ Forall is_user (ivars i)
  | EUn _ e1 => flat e1
  | EBin _ e1 e2 => flat e1 /\ flat e2
  | ETup _ => False
  end.
Definition flat_target (t : target) : Prop :=
  match t with TVar x => is_user x | TElem x i => is_user x /\ Forall is_user (ivars i) | TTup _ => False end.

(* s is the state before the assignment, now the state in which the first of ts is stored and
   before the targets on its left.  A target that is a variable is a subscript on its right only if it is
   also used there outside of subscripts; a target that is an element is read on its right only
   in the same words, and if the targets before do not change the subscript. *)
Fixpoint clear (s : state) (before : list target) (now : state) (ts : list target) (rs : list expr) : Prop :=
  match ts, rs with
  | t :: ts', r :: rs' =>
    (forall r' x i, In r' rs' -> In (LElem x i) (leaves r') ->
       match t with
       | TVar y => In y (ivars i) -> exists r'', In r'' rs' /\ In (LVar y) (leaves r'')
       | TElem x' i' => x' = x -> (idx_eqb i' i = true /\ forall y, In (TVar y) before -> ~ In y (ivars i)) \/ ival now i' <> ival s i
       | TTup _ => False
       end) /\
    match py_store t (VInt (eval s r)) now with Some now' => clear s (before ++ [t]) now' ts' rs' | None => True end
  | _, _ => True
  end.

(* A condition on the words alone: no target is used in a subscript of the right-hand side,
   and no array with an element among the targets is read there. *)
Definition separate (ts : list target) (rs : list expr) : Prop :=
  forall r x i, In r rs -> In (LElem x i) (leaves r) ->
    (forall y, In (TVar y) ts -> ~ In y (ivars i)) /\ (forall j, ~ In (TElem x j) ts).
