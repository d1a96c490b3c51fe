(* Tuples in Python. *)
From Coq Require Import ZArith List Bool.
From Verif Require Import Tidx_Model.
Import ListNotations.
Open Scope Z_scope.

Inductive val := Num (z : Z) | Tup (l : list val).

Definition number (b : bound) : Z := match b with Lit n => Z.of_nat n | Neg n => - Z.of_nat n | Dyn z => z end.

(* the positions of l[a:b:s], where n is the length of l: those at or after a and before b in the direction of s, in steps
   of s from a, in that order. Negative a and b count from the end, and a is moved into the tuple. *)
Definition from_end (n i : Z) : Z := if i <? 0 then n + i else i.
Definition first (n s : Z) (a : option Z) : Z :=
  match a with
  | Some i => if 0 <? s then Z.max 0 (from_end n i) else Z.min (n - 1) (from_end n i)
  | None => if 0 <? s then 0 else n - 1
  end.
Definition selected (n s : Z) (a b : option Z) (i : Z) : bool :=
  if 0 <? s
  then (first n s a <=? i) && ((i - first n s a) mod s =? 0) && match b with Some j => i <? from_end n j | None => true end
  else (i <=? first n s a) && ((first n s a - i) mod (- s) =? 0) && match b with Some j => from_end n j <? i | None => true end.
Definition positions (n : nat) (a b : option Z) (s : Z) : list nat :=
  let l := filter (fun k => selected (Z.of_nat n) s a b (Z.of_nat k)) (seq 0 n) in
  if 0 <? s then l else rev l.
Definition elements {A : Type} (l : list A) (ps : list nat) : list A :=
  flat_map (fun p => match nth_error l p with Some a => [a] | None => [] end) ps.

(* None: an exception *)
Definition py_at {A : Type} (l : list A) (i : Z) : option A :=
  if (0 <=? from_end (Z.of_nat (length l)) i) then nth_error l (Z.to_nat (from_end (Z.of_nat (length l)) i)) else None.
Definition py_slice {A : Type} (l : list A) (a b s : option Z) : option (list A) :=
  let st := match s with Some s => s | None => 1 end in
  if st =? 0 then None else Some (elements l (positions (length l) a b st)).
Definition py_item (v : val) (i : index) : option val :=
  match v, i with
  | Num _, _ => None
  | Tup l, At b => py_at l (number b)
  | Tup l, Sl a b s => option_map Tup (py_slice l (option_map number a) (option_map number b) (option_map number s))
  end.
Fixpoint all_some {A : Type} (l : list (option A)) : option (list A) :=
  match l with
  | [] => Some []
  | Some a :: l' => match all_some l' with Some r => Some (a :: r) | None => None end
  | None :: _ => None
  end.
Fixpoint python (env : nat -> option val) (e : expr) : option val :=
  match e with
  | ENum z => Some (Num z)
  | EVar x => env x
  | ETup l => option_map Tup (all_some (map (python env) l))
  | EIdx e i => match python env e with Some v => py_item v i | None => None end
  end.

(* the value of what the program has for an expression *)
Fixpoint value (o : obj) : val :=
  match o with OScalar z => Num z | OVar l => Tup (map value l) | OTup l => Tup (map value l) end.
Definition values (env : nat -> option obj) (x : nat) : option val := option_map value (env x).

(* no slice has a step *)
Fixpoint no_steps (e : expr) : bool :=
  match e with
  | ENum _ | EVar _ => true
  | ETup l => forallb no_steps l
  | EIdx e (Sl _ _ (Some _)) => false
  | EIdx e _ => no_steps e
  end.
(* indices are literals that are not negative, bounds and steps are literals, steps are not zero *)
Definition lit (b : option bound) : bool := match b with Some (Dyn _) => false | _ => true end.
Definition plain (i : index) : bool :=
  match i with
  | At (Lit _) => true
  | At _ => false
  | Sl a b s => lit a && lit b && lit s && match s with Some s => negb (number s =? 0) | None => true end
  end.
Fixpoint plain_indices (e : expr) : bool :=
  match e with
  | ENum _ | EVar _ => true
  | ETup l => forallb plain_indices l
  | EIdx e i => plain_indices e && plain i
  end.
