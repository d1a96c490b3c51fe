(* Names that are assigned in functions.

   Modelled: what a name stands for in the body of a function and of a module
   (pyccel/parser/semantic.py 549-593 check_for_variable, 1737-1738 and 1886-1960 the visit of a
   function at its first call, 2264-2533 _assign_lhs_variable, 3403-3414 and 3429-3431 the targets of
   loops, 3640-3722 _visit_Module, 4233-4283 _visit_PyccelSymbol, 4286-4300 and 5012-5063 annotated
   assignments; pyccel/parser/scope.py 281-324 find, 385-437 insert_variable), and the C code of it
   (pyccel/codegen/printing/ccode.py: a local variable of the function, or the variable of the module).

   Simplifications: all values are integers; functions have one parameter and one return statement, at
   the end; names of functions differ from names of variables; nested functions, methods, classes,
   imported variables, the program block and the statements `global` and `nonlocal` (which pyccel
   refuses) are left out; the bound of range is a literal. *)
From Coq Require Import Bool ZArith List Arith.
Import ListNotations.
Open Scope list_scope.

(* ------------------------------ source ------------------------------ *)

Inductive expr :=
| Lit (z : Z)
| Var (x : nat)
| Add (a b : expr)
| Call (f : nat) (a : expr).
Inductive stmt :=
| Skip
| Seq (s t : stmt)
| Assign (x : nat) (e : expr)                (* x = e *)
| Decl (x : nat) (e : expr)                  (* x : int = e *)
| Print (e : expr)
| Do (e : expr)                              (* f(e) *)
| If (e : expr) (s t : stmt)
| While (e : expr) (s : stmt)
| For (x : nat) (n : nat) (s : stmt).        (* for x in range(n) *)
Record func := { param : nat; body : stmt; ret : expr }.
Record prog := { funcs : list func; main : stmt }.

(* ------------------------------ the semantic stage ------------------------------ *)

(* a variable of the function or of the module *)
Inductive ref := L (x : nat) | G (x : nat).
Inductive rexpr := RLit (z : Z) | RVar (v : ref) | RAdd (a b : rexpr) | RCall (f : nat) (a : rexpr).
Inductive rstmt :=
| RSkip | RSeq (s t : rstmt) | RAssign (v : ref) (e : rexpr) | RPrint (e : rexpr) | RDo (e : rexpr)
| RIf (e : rexpr) (s t : rstmt) | RWhile (e : rexpr) (s : rstmt) | RFor (v : ref) (n : nat) (s : rstmt).

Definition mem (x : nat) (l : list nat) : bool := existsb (Nat.eqb x) l.
Definition obind {A B : Type} (o : option A) (f : A -> option B) : option B := match o with Some x => f x | None => None end.

(* scope.py 281-324: the variables of the function, then those of the module *)
Definition find (loc glo : list nat) (x : nat) : option ref :=
  if mem x loc then Some (L x) else if mem x glo then Some (G x) else None.
(* semantic.py 4233-4283: None is the error UNDEFINED_VARIABLE *)
Fixpoint vexpr (loc glo : list nat) (e : expr) : option rexpr :=
  match e with
  | Lit z => Some (RLit z)
  | Var x => option_map RVar (find loc glo x)
  | Add a b => obind (vexpr loc glo a) (fun a' => option_map (RAdd a') (vexpr loc glo b))
  | Call f a => option_map (RCall f) (vexpr loc glo a)
  end.
(* semantic.py 2264-2360, 2513-2533: the variable of a plain assignment, and the variables of the function after it *)
Definition target (loc glo : list nat) (x : nat) : ref * list nat :=
  match find loc glo x with Some v => (v, loc) | None => (L x, x :: loc) end.
(* the body of a function *)
Fixpoint vstmt (loc glo : list nat) (s : stmt) : option (rstmt * list nat) :=
  match s with
  | Skip => Some (RSkip, loc)
  | Seq s t => obind (vstmt loc glo s) (fun p => obind (vstmt (snd p) glo t) (fun q => Some (RSeq (fst p) (fst q), snd q)))
  | Assign x e => obind (vexpr loc glo e) (fun e' => let (v, loc') := target loc glo x in Some (RAssign v e', loc'))
  | Decl x e =>                              (* 4286-4300: only the variables of the function are looked at *)
      if mem x loc then None else obind (vexpr (x :: loc) glo e) (fun e' => Some (RAssign (L x) e', x :: loc))
  | Print e => option_map (fun e' => (RPrint e', loc)) (vexpr loc glo e)
  | Do e => option_map (fun e' => (RDo e', loc)) (vexpr loc glo e)
  | If e s t => obind (vexpr loc glo e) (fun e' => obind (vstmt loc glo s) (fun p => obind (vstmt (snd p) glo t) (fun q =>
      Some (RIf e' (fst p) (fst q), snd q))))
  | While e s => obind (vexpr loc glo e) (fun e' => option_map (fun p => (RWhile e' (fst p), snd p)) (vstmt loc glo s))
  | For x n s => let (v, loc') := target loc glo x in option_map (fun p => (RFor v n (fst p), snd p)) (vstmt loc' glo s)
  end.
Record rfunc := { rparam : nat; rbody : rstmt; rret : rexpr }.
Definition vfunc (glo : list nat) (f : func) : option rfunc :=
  obind (vstmt [param f] glo (body f)) (fun p => option_map (fun e => {| rparam := param f; rbody := fst p; rret := e |}) (vexpr (snd p) glo (ret f))).

(* the functions called, in the order of the text *)
Fixpoint ecalls (e : expr) : list nat :=
  match e with Lit _ | Var _ => [] | Add a b => ecalls a ++ ecalls b | Call f a => ecalls a ++ [f] end.
Fixpoint scalls (s : stmt) : list nat :=
  match s with
  | Skip => []
  | Seq s t => scalls s ++ scalls t
  | Assign _ e | Decl _ e | Print e | Do e => ecalls e
  | If e s t => ecalls e ++ scalls s ++ scalls t
  | While e s => ecalls e ++ scalls s
  | For _ _ s => scalls s
  end.
(* for each function that has been visited, the variables of the module at that time *)
Definition visits : Type := nat -> option (list nat).
Definition upd {A : Type} (m : nat -> option A) (x : nat) (v : A) : nat -> option A := fun y => if Nat.eqb y x then Some v else m y.
(* 1737-1738, 1886-1960: a function is visited at its first call, in the scope of the module; during the
   visit it counts as visited (6530-6534). None: no such function, or (never) the depth is exhausted *)
Fixpoint mark (depth : nat) (fs : list func) (glo : list nat) (f : nat) (seen : visits) : option visits :=
  match seen f with
  | Some _ => Some seen
  | None =>
    match depth, nth_error fs f with
    | S d, Some fn =>
        fold_left (fun o g => obind o (mark d fs glo g)) (scalls (body fn) ++ ecalls (ret fn)) (Some (upd seen f glo))
    | _, _ => None
    end
  end.
Definition mark_all (fs : list func) (glo : list nat) (l : list nat) (seen : visits) : option visits :=
  fold_left (fun o g => obind o (mark (S (length fs)) fs glo g)) l (Some seen).
(* the body of the module (3664): plain and annotated assignments make variables of the module *)
Definition gtarget (glo : list nat) (x : nat) : list nat := if mem x glo then glo else x :: glo.
Fixpoint vmain (fs : list func) (glo : list nat) (seen : visits) (s : stmt) : option (rstmt * list nat * visits) :=
  let ex e k := obind (vexpr [] glo e) (fun e' => obind (mark_all fs glo (ecalls e) seen) (k e')) in
  match s with
  | Skip => Some (RSkip, glo, seen)
  | Seq s t => obind (vmain fs glo seen s) (fun '(s', glo1, seen1) => obind (vmain fs glo1 seen1 t) (fun '(t', glo2, seen2) => Some (RSeq s' t', glo2, seen2)))
  | Assign x e => ex e (fun e' seen' => Some (RAssign (G x) e', gtarget glo x, seen'))
  | Decl x e => if mem x glo then None else
      obind (vexpr [] (x :: glo) e) (fun e' => obind (mark_all fs (x :: glo) (ecalls e) seen) (fun seen' => Some (RAssign (G x) e', x :: glo, seen')))
  | Print e => ex e (fun e' seen' => Some (RPrint e', glo, seen'))
  | Do e => ex e (fun e' seen' => Some (RDo e', glo, seen'))
  | If e s t => ex e (fun e' seen' => obind (vmain fs glo seen' s) (fun '(s', glo1, seen1) =>
      obind (vmain fs glo1 seen1 t) (fun '(t', glo2, seen2) => Some (RIf e' s' t', glo2, seen2))))
  | While e s => ex e (fun e' seen' => obind (vmain fs glo seen' s) (fun '(s', glo1, seen1) => Some (RWhile e' s', glo1, seen1)))
  | For x n s => obind (vmain fs (gtarget glo x) seen s) (fun '(s', glo1, seen1) => Some (RFor (G x) n s', glo1, seen1))
  end.
Fixpoint vfuncs (seen : visits) (i : nat) (fs : list func) : option (list rfunc) :=
  match fs with
  | [] => Some []
  | f :: fs' => obind (seen i) (fun glo => obind (vfunc glo f) (fun r => option_map (cons r) (vfuncs seen (S i) fs')))
  end.
Record rprog := { rfuncs : list rfunc; rmain : rstmt }.
(* 3640-3722: the module, then the functions that have not been visited *)
Definition compile (p : prog) : option rprog :=
  obind (vmain (funcs p) [] (fun _ => None) (main p)) (fun '(s, glo, seen) =>
  obind (mark_all (funcs p) glo (seq 0 (length (funcs p))) seen) (fun seen' =>
  option_map (fun l => {| rfuncs := l; rmain := s |}) (vfuncs seen' 0 (funcs p)))).

(* ------------------------------ C ------------------------------ *)

Definition store : Type := nat -> option Z.
Definition empty : store := fun _ => None.
Record state := { glob : store; out : list Z }.
(* Wrong: a variable without a value, or a call of a function that does not exist; Late: the fuel is exhausted *)
Inductive result (A : Type) := Done (v : A) | Wrong | Late.
Arguments Done {A}. Arguments Wrong {A}. Arguments Late {A}.
Definition bind {A B : Type} (r : result A) (f : A -> result B) : result B :=
  match r with Done v => f v | Wrong => Wrong | Late => Late end.
Definition get (m : store) (x : nat) : result Z := match m x with Some v => Done v | None => Wrong end.
Definition read (v : ref) (lo : store) (st : state) : result Z := match v with L x => get lo x | G x => get (glob st) x end.
Definition write (v : ref) (z : Z) (lo : store) (st : state) : store * state :=
  match v with L x => (upd lo x z, st) | G x => (lo, {| glob := upd (glob st) x z; out := out st |}) end.
Definition say (z : Z) (st : state) : state := {| glob := glob st; out := out st ++ [z] |}.

Fixpoint ceval (fuel : nat) (fs : list rfunc) (e : rexpr) (lo : store) (st : state) : result (Z * state) :=
  match fuel with
  | O => Late
  | S n =>
    match e with
    | RLit z => Done (z, st)
    | RVar v => bind (read v lo st) (fun z => Done (z, st))
    | RAdd a b => bind (ceval n fs a lo st) (fun '(x, st1) => bind (ceval n fs b lo st1) (fun '(y, st2) => Done ((x + y)%Z, st2)))
    | RCall f a => bind (ceval n fs a lo st) (fun '(x, st1) =>
        match nth_error fs f with
        | None => Wrong
        | Some fn => bind (cexec n fs (rbody fn) (upd empty (rparam fn) x) st1) (fun '(lo2, st2) => ceval n fs (rret fn) lo2 st2)
        end)
    end
  end
with cexec (fuel : nat) (fs : list rfunc) (s : rstmt) (lo : store) (st : state) : result (store * state) :=
  match fuel with
  | O => Late
  | S n =>
    match s with
    | RSkip => Done (lo, st)
    | RSeq s t => bind (cexec n fs s lo st) (fun '(lo1, st1) => cexec n fs t lo1 st1)
    | RAssign v e => bind (ceval n fs e lo st) (fun '(z, st1) => Done (write v z lo st1))
    | RPrint e => bind (ceval n fs e lo st) (fun '(z, st1) => Done (lo, say z st1))
    | RDo e => bind (ceval n fs e lo st) (fun '(_, st1) => Done (lo, st1))
    | RIf e s t => bind (ceval n fs e lo st) (fun '(z, st1) => if Z.eqb z 0 then cexec n fs t lo st1 else cexec n fs s lo st1)
    | RWhile e s => bind (ceval n fs e lo st) (fun '(z, st1) => if Z.eqb z 0 then Done (lo, st1)
        else bind (cexec n fs s lo st1) (fun '(lo2, st2) => cexec n fs (RWhile e s) lo2 st2))
    (* for (v = 0; v < k; v += 1) *)
    | RFor v k s => let (lo1, st1) := write v 0%Z lo st in cloop n fs v k s lo1 st1
    end
  end
with cloop (fuel : nat) (fs : list rfunc) (v : ref) (k : nat) (s : rstmt) (lo : store) (st : state) : result (store * state) :=
  match fuel with
  | O => Late
  | S n => bind (read v lo st) (fun z => if Z.ltb z (Z.of_nat k)
      then bind (cexec n fs s lo st) (fun '(lo1, st1) => bind (read v lo1 st1) (fun y =>
        let (lo2, st2) := write v (y + 1)%Z lo1 st1 in cloop n fs v k s lo2 st2))
      else Done (lo, st))
  end.
Definition crun (fuel : nat) (p : rprog) : result (list Z) :=
  bind (cexec fuel (rfuncs p) (rmain p) empty {| glob := empty; out := [] |}) (fun '(_, st) => Done (out st)).
