(* What is said of assignments to optional arguments (C67) *)
From Coq Require Import Bool Arith ZArith List String.
From Verif Require Import Param_Model.
Import ListNotations.
Open Scope list_scope.

(* The function ends in the same way with the same result and the same values of its variables,
   and the variables whose addresses were passed for optional arguments are as before the call,
   as they are in Python *)
Definition alike (opt : string -> bool) (s0 : store string) (r : result (store string))
                 (r' : result (store place)) : Prop :=
  let same s s' := (forall x, opt x = false -> s x = s' (Own x)) /\
                   (forall x, opt x = true -> s' (Given x) = s0 x) in
  match r, r' with
  | Next s, Next s' => same s s'
  | Left z s, Left z' s' => z = z' /\ same s s'
  | _, _ => False
  end.

(* The optional arguments that are assigned in a statement *)
Fixpoint assigned (opt : string -> bool) (c : stmt string) : list string :=
  match c with
  | Set_ x _ => if opt x then [x] else []
  | If _ b1 b2 => assigned_block opt b1 ++ assigned_block opt b2
  | For _ _ b => assigned_block opt b
  | _ => []
  end
with assigned_block (opt : string -> bool) (b : block string) : list string :=
  match b with Nil => [] | Cons c b' => assigned opt c ++ assigned_block opt b' end.

Fixpoint tests (c : cond string) : list string :=
  match c with
  | Present x | Missing x => [x]
  | Both a b => tests a ++ tests b
  | Not a => tests a
  | _ => []
  end.

(* seen: the optional arguments assigned earlier in the text.  None of them is tested again; an
   augmented assignment to an optional argument needs an earlier assignment; results of a call
   with several results are not stored in optional arguments; an argument assigned in a loop
   was assigned before the loop *)
Fixpoint ok (opt : string -> bool) (seen : list string) (c : stmt string) : bool :=
  match c with
  | Set_ _ _ | Return _ => true
  | Aug x _ => negb (opt x) || mem x seen
  | Pair x y _ _ => negb (opt x) && negb (opt y)
  | If c b1 b2 =>
      forallb (fun x => opt x && negb (mem x seen)) (tests c) &&
      ok_block opt seen b1 && ok_block opt (assigned_block opt b1 ++ seen) b2
  | For x _ b =>
      negb (opt x) && forallb (fun y => mem y seen) (assigned_block opt b) &&
      ok_block opt seen b
  end
with ok_block (opt : string -> bool) (seen : list string) (b : block string) : bool :=
  match b with
  | Nil => true
  | Cons c b' => ok opt seen c && ok_block opt (assigned opt c ++ seen) b'
  end.
