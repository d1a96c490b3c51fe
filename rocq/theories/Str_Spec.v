(* Strings in Python. *)
From Coq Require Import Bool Arith ZArith List.
From Verif Require Import Str_Model.
Import ListNotations.
Open Scope Z_scope.
Open Scope list_scope.

(* The strings of the variables and what has been printed; None: the program stops with a
   NameError. *)
Definition pst : Type := (nat -> option str) * list str.
Definition put (e : nat -> option str) (x : nat) (s : str) : nat -> option str := fun y => if Nat.eqb y x then Some s else e y.
Definition same (s t : str) : bool := if list_eq_dec Z.eq_dec s t then true else false.

Definition p_arg (e : nat -> option str) (a : sarg) : option str := match a with AVar y => e y | ALit s => Some s end.
Fixpoint p_args (e : nat -> option str) (l : list sarg) : option (list str) :=
  match l with
  | [] => Some []
  | x :: l' => match p_arg e x, p_args e l' with Some s, Some ss => Some (s :: ss) | _, _ => None end
  end.
Definition p_value (e : nat -> option str) (r : srhs) : option str :=
  match r with
  | RLit s => Some s
  | RCopy y | RStr y => e y
  | RFun f l => match p_args e l with Some ss => Some (f ss) | None => None end
  | RCat y z => match e y, e z with Some s, Some t => Some (s ++ t) | _, _ => None end
  end.
Definition p_cond (e : nat -> option str) (c : scond) : option bool :=
  match c with
  | CEq x y => match p_arg e x, p_arg e y with Some s, Some t => Some (same s t) | _, _ => None end
  | CNe x y => match p_arg e x, p_arg e y with Some s, Some t => Some (negb (same s t)) | _, _ => None end
  end.
Fixpoint p_run (s : sstmt) (st : pst) : option pst :=
  let fix p_runs (l : list sstmt) (st : pst) : option pst := match l with [] => Some st | s :: l' => obind (p_run s st) (p_runs l') end in
  match s with
  | TAssign x r => match p_value (fst st) r with Some s => Some (put (fst st) x s, snd st) | None => None end
  | TPrint x => match fst st x with Some s => Some (fst st, snd st ++ [s]) | None => None end
  | TIf c a b => match p_cond (fst st) c with Some true => p_runs a st | Some false => p_runs b st | None => None end
  | TLoop n b => iter_o n (p_runs b) st
  end.
Definition p_runs : list sstmt -> pst -> option pst :=
  fix p_runs (l : list sstmt) (st : pst) : option pst := match l with [] => Some st | s :: l' => obind (p_run s st) (p_runs l') end.
(* the string returned and what has been printed *)
Definition p_function (p : list sstmt) (x : nat) : option (str * list str) :=
  match p_runs p (fun _ => None, []) with
  | Some (e, out) => match e x with Some s => Some (s, out) | None => None end
  | None => None
  end.

(* ------------------------------ what is asked of C ------------------------------ *)

(* The C function gives the string of Python and prints the same, and the memory that is in use after
   it is that of the string it returns. *)
Definition c_right (big : str -> bool) (p : list sstmt) (x : nat) : Prop :=
  forall s out, p_function p x = Some (s, out) ->
  exists st, c_function big p x = Some (s, st) /\ c_out st = out
             /\ forall b, c_heap st b <> None -> c_var st x = Some (Block b).
Definition f_right (p : list sstmt) (x : nat) : Prop :=
  forall s out, p_function p x = Some (s, out) ->
  exists st, f_function p x = Some (s, st) /\ snd st = out /\ forall y, y <> x -> fst st y = None.

(* ------------------------------ the programs ------------------------------ *)

(* all right hand sides and conditions of a program *)
Fixpoint assigned (s : sstmt) : list (nat * srhs) :=
  match s with
  | TAssign x r => [(x, r)]
  | TPrint _ => []
  | TIf _ a b => flat_map assigned a ++ flat_map assigned b
  | TLoop _ b => flat_map assigned b
  end.
Fixpoint compared (s : sstmt) : list scond :=
  match s with
  | TAssign _ _ | TPrint _ => []
  | TIf c a b => c :: flat_map compared a ++ flat_map compared b
  | TLoop _ b => flat_map compared b
  end.
Definition arg_var (a : sarg) : list nat := match a with AVar y => [y] | ALit _ => [] end.
Definition arg_lit (a : sarg) : list str := match a with AVar _ => [] | ALit s => [s] end.
Definition rhs_vars (r : srhs) : list nat :=
  match r with RLit _ => [] | RCopy y | RStr y => [y] | RFun _ l => flat_map arg_var l | RCat y z => [y; z] end.

(* Every variable is assigned outside of loops and if statements before it is assigned in them. *)
Fixpoint top_first (seen : list nat) (p : list sstmt) : Prop :=
  match p with
  | [] => True
  | TAssign x _ :: p' => top_first (x :: seen) p'
  | s :: p' => (forall y, In y (map fst (assigned s)) -> In y seen) /\ top_first seen p'
  end.
(* No variable is copied and none is used to compute its own new string; long literals are not passed
   to functions; no concatenation. *)
Definition owned (big : str -> bool) (x : nat) (r : srhs) : Prop :=
  ~ In x (rhs_vars r) /\
  match r with
  | RCopy _ | RCat _ _ => False
  | RFun _ l => forall s, In s (flat_map arg_lit l) -> big s = false
  | _ => True
  end.
Definition no_cat (r : srhs) : Prop := match r with RCat _ _ => False | _ => True end.

(* A property of all the strings in a program: it holds for the literals, and the functions keep it. *)
Definition lit_ok (good : str -> Prop) (a : sarg) : Prop := forall s, In s (arg_lit a) -> good s.
Definition rhs_ok (good : str -> Prop) (r : srhs) : Prop :=
  match r with
  | RLit s => good s
  | RFun f l => (forall a, In a l -> lit_ok good a) /\ forall ss, List.length ss = List.length l -> (forall s, In s ss -> good s) -> good (f ss)
  | _ => True
  end.
Definition cond_ok (good : str -> Prop) (c : scond) : Prop := match c with CEq a b | CNe a b => lit_ok good a /\ lit_ok good b end.
Definition all_strings (good : str -> Prop) (p : list sstmt) : Prop :=
  (forall x r, In (x, r) (flat_map assigned p) -> rhs_ok good r) /\ (forall c, In c (flat_map compared p) -> cond_ok good c).

Definition code_points (s : str) : Prop := forall c, In c s -> 0 <= c < 1114112.
Definition no_nul (s : str) : Prop := code_points s /\ ~ In 0 s.
Definition no_blank_end (s : str) : Prop := code_points s /\ forall t, s <> t ++ [32].
Definition ascii (s : str) : Prop := forall c, In c s -> 0 <= c < 128.
