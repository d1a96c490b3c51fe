(* The names of Python: a name that is assigned anywhere in a function is local to the function. *)
From Coq Require Import Bool ZArith List Arith.
From Verif Require Import Glob_Model.
Import ListNotations.
Open Scope list_scope.

Fixpoint assigned (s : stmt) : list nat :=
  match s with
  | Skip | Print _ | Do _ => []
  | Seq s t | If _ s t => assigned s ++ assigned t
  | Assign x _ | Decl x _ => [x]
  | While _ s => assigned s
  | For x _ s => x :: assigned s
  end.
Definition is_local (f : func) (x : nat) : bool := existsb (Nat.eqb x) (param f :: assigned (body f)).

(* Python: Wrong is a NameError or an UnboundLocalError; lc says which names are local here *)
Fixpoint pyeval (fuel : nat) (fs : list func) (lc : nat -> bool) (e : expr) (lo : store) (st : state) : result (Z * state) :=
  match fuel with
  | O => Late
  | S n =>
    match e with
    | Lit z => Done (z, st)
    | Var x => bind (if lc x then get lo x else get (glob st) x) (fun z => Done (z, st))
    | Add a b => bind (pyeval n fs lc a lo st) (fun '(x, st1) => bind (pyeval n fs lc b lo st1) (fun '(y, st2) => Done ((x + y)%Z, st2)))
    | Call f a => bind (pyeval n fs lc a lo st) (fun '(x, st1) =>
        match nth_error fs f with
        | None => Wrong
        | Some fn => bind (pyexec n fs (is_local fn) (body fn) (upd empty (param fn) x) st1) (fun '(lo2, st2) => pyeval n fs (is_local fn) (ret fn) lo2 st2)
        end)
    end
  end
with pyexec (fuel : nat) (fs : list func) (lc : nat -> bool) (s : stmt) (lo : store) (st : state) : result (store * state) :=
  match fuel with
  | O => Late
  | S n =>
    let set x z lo st := if lc x then (upd lo x z, st) else (lo, {| glob := upd (glob st) x z; out := out st |}) in
    match s with
    | Skip => Done (lo, st)
    | Seq s t => bind (pyexec n fs lc s lo st) (fun '(lo1, st1) => pyexec n fs lc t lo1 st1)
    | Assign x e | Decl x e => bind (pyeval n fs lc e lo st) (fun '(z, st1) => Done (set x z lo st1))
    | Print e => bind (pyeval n fs lc e lo st) (fun '(z, st1) => Done (lo, {| glob := glob st1; out := out st1 ++ [z] |}))
    | Do e => bind (pyeval n fs lc e lo st) (fun '(_, st1) => Done (lo, st1))
    | If e s t => bind (pyeval n fs lc e lo st) (fun '(z, st1) => if Z.eqb z 0 then pyexec n fs lc t lo st1 else pyexec n fs lc s lo st1)
    | While e s => bind (pyeval n fs lc e lo st) (fun '(z, st1) => if Z.eqb z 0 then Done (lo, st1)
        else bind (pyexec n fs lc s lo st1) (fun '(lo2, st2) => pyexec n fs lc (While e s) lo2 st2))
    (* x is 0, 1, ..., k - 1, whatever the body does with x *)
    | For x k s =>
        (fix go (l : list nat) (lo : store) (st : state) : result (store * state) :=
           match l with
           | [] => Done (lo, st)
           | i :: l' => let (lo1, st1) := set x (Z.of_nat i) lo st in bind (pyexec n fs lc s lo1 st1) (fun '(lo2, st2) => go l' lo2 st2)
           end) (seq 0 k) lo st
    end
  end.
Definition pyrun (fuel : nat) (p : prog) : result (list Z) :=
  bind (pyexec fuel (funcs p) (fun _ => false) (main p) empty {| glob := empty; out := [] |}) (fun '(_, st) => Done (out st)).

(* no function assigns to a name that the module assigns to, other than its parameter *)
Definition no_clash (p : prog) : Prop :=
  forall f x, In f (funcs p) -> In x (assigned (body f)) -> x <> param f -> ~ In x (assigned (main p)).
Fixpoint no_for (s : stmt) : Prop :=
  match s with
  | Skip | Assign _ _ | Decl _ _ | Print _ | Do _ => True
  | Seq s t | If _ s t => no_for s /\ no_for t
  | While _ s => no_for s
  | For _ _ _ => False
  end.
Definition only_while (p : prog) : Prop := no_for (main p) /\ forall f, In f (funcs p) -> no_for (body f).

(* where the occurrences of a name are *)
Fixpoint declares (x : nat) (s : stmt) : bool :=
  match s with
  | Skip | Assign _ _ | Print _ | Do _ => false
  | Decl y _ => Nat.eqb x y
  | Seq s t | If _ s t => declares x s || declares x t
  | While _ s | For _ _ s => declares x s
  end.
Definition name_of (v : ref) : nat := match v with L x | G x => x end.
Fixpoint erefs (e : rexpr) : list ref :=
  match e with RLit _ => [] | RVar v => [v] | RAdd a b => erefs a ++ erefs b | RCall _ a => erefs a end.
Fixpoint srefs (s : rstmt) : list ref :=
  match s with
  | RSkip => []
  | RSeq s t => srefs s ++ srefs t
  | RAssign v e => v :: erefs e
  | RPrint e | RDo e => erefs e
  | RIf e s t => erefs e ++ srefs s ++ srefs t
  | RWhile e s => erefs e ++ srefs s
  | RFor v _ s => v :: srefs s
  end.
Definition refs (f : rfunc) : list ref := srefs (rbody f) ++ erefs (rret f).
(* all occurrences of x in the code of the function are the variable v *)
Definition all_are (x : nat) (v : ref) (f : rfunc) : Prop := forall w, In w (refs f) -> name_of w = x -> w = v.
