(* Assignments with several targets in Python (language reference, 7.2). *)
From Coq Require Import ZArith List Bool Arith.
From Verif Require Import Multi_Model.
Import ListNotations.

Section Program.
Variable fn : nat -> state -> value.

(* the right side is evaluated once *)
Definition py_value (e : rhs) (w : world) : option value :=
  match e with
  | RExpr v => Some v
  | RDisplay l => Some (Seq l)
  | RName x => vars w x
  | RCall f => Some (fn f (vars w))
  end.
Definition py_calls (e : rhs) (w : world) : list nat :=
  match e with RCall f => calls w ++ [f] | _ => calls w end.

(* each target in turn gets it; a tuple needs a sequence of its length *)
Fixpoint set_all (ts : list nat) (vs : list value) (s : state) : state :=
  match ts, vs with
  | t :: ts', v :: vs' => set_all ts' vs' (set s t v)
  | _, _ => s
  end.
Definition py_target (t : target) (v : value) (s : state) : option state :=
  match t with
  | Name x => Some (set s x v)
  | Tuple l =>
      match v with
      | Seq vs => if Nat.eqb (length l) (length vs) then Some (set_all l vs s) else None
      | Num _ => None
      end
  end.
Fixpoint py_targets (ts : list target) (v : value) (s : state) : option state :=
  match ts with
  | [] => Some s
  | t :: ts' => match py_target t v s with Some s' => py_targets ts' v s' | None => None end
  end.
(* None: an exception *)
Definition py_run (ts : list target) (e : rhs) (w : world) : option world :=
  match py_value e w with
  | Some v => match py_targets ts v (vars w) with Some s => Some (mkw s (py_calls e w)) | None => None end
  | None => None
  end.
End Program.
