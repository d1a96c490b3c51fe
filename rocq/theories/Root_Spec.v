(* Where the square of a double is an ordinary double. *)
From Coq Require Import ZArith List Bool.
From Verif Require Import Math_Model Root_Model.
Import ListNotations.
Open Scope Z_scope.

(* a double that is not zero: 53 bits *)
Definition normalised (x : float) : Prop := 2 ^ 52 <= Z.abs (mant x) < 2 ^ 53.
(* 2 ^ n <= |x| < 2 ^ m for such a double *)
Definition between (n m : Z) (x : float) : Prop := normalised x /\ n <= expo x + 52 < m.
(* the root of a float: no integer multiple of its last place is nearer to the root of r * 2 ^ e than s * 2 ^ f *)
Definition is_root (x y : float) : Prop :=
  exists j, expo x - j = 2 * expo y /\ 0 <= j /\ 2 ^ 52 <= mant y <= 2 ^ 53 /\
    (2 * mant y - 1) ^ 2 <= 4 * (mant x * 2 ^ j) <= (2 * mant y + 1) ^ 2.

(* the operand of a square under a root *)
Definition ordinary (v : double) : Prop :=
  match v with Fin x => mant x = 0 \/ between (-511) 512 x | Other => True end.
Section Safe.
Variable env : nat -> double.
Variable fn : nat -> list nat -> double.
(* every square under a root, when Python evaluates e, is of an ordinary number *)
Fixpoint safe (e : ex) (log : list nat) : Prop :=
  match e with
  | Var _ | Call _ => True
  | Mul a b => safe a log /\ safe b (snd (eval env fn a log))
  | Sq a => safe a log
  | Sqrt a =>
    safe a log /\
    match a with
    | Mul (Var x) (Var y) => x = y -> ordinary (env x)
    | Sq b => ordinary (fst (eval env fn b log))
    | _ => True
    end
  | Fabs a => safe a log
  end.
End Safe.
