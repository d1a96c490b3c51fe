(* The values of Python, and what a double can be. *)
From Coq Require Import Bool ZArith List.
From Verif Require Import Pow_Model.
Import ListNotations.
Open Scope Z_scope.

(* Python: None is an exception, or a number that is not an integer *)
Fixpoint py (r : env) (p : flags) (e : expr) : option Z :=
  let two f a b := match py r p a, py r p b with Some x, Some y => f x y | _, _ => None end in
  match e with
  | Var x => Some (r x)
  | Flag x => Some (if p x then 1 else 0)
  | Lit n => Some n
  | Neg a => option_map Z.opp (py r p a)
  | Add a b => two (fun x y => Some (x + y)) a b
  | Sub a b => two (fun x y => Some (x - y)) a b
  | Mul a b => two (fun x y => Some (x * y)) a b
  | FDiv a b => two (fun x y => if y =? 0 then None else Some (x / y)) a b
  | Rem a b => two (fun x y => if y =? 0 then None else Some (x mod y)) a b
  | BAnd a b => two (fun x y => Some (Z.land x y)) a b
  | Pow a b => two (fun x y => if 0 <=? y then Some (x ^ y) else None) a b
  | PowLit a (EInt n) => match py r p a with Some x => if 0 <=? n then Some (x ^ n) else None | None => None end
  | PowLit _ _ => None
  end.
(* every value that is computed is an integer with the property *)
Fixpoint within (ok : Z -> bool) (r : env) (p : flags) (e : expr) : Prop :=
  (exists v, py r p e = Some v /\ ok v = true) /\
  match e with
  | Var _ | Flag _ | Lit _ => True
  | Neg a => within ok r p a
  | PowLit a e => within ok r p a /\ match e with EInt n => ok n = true | _ => True end
  | Add a b | Sub a b | Mul a b | FDiv a b | Rem a b | BAnd a b | Pow a b => within ok r p a /\ within ok r p b
  end.
Definition below53 (z : Z) : bool := Z.abs z <=? 2 ^ 53.
Definition fits64 (z : Z) : bool := (- 2 ^ 63 <=? z) && (z <? 2 ^ 63).

(* the integers that are doubles *)
Definition is_double (z : Z) : Prop := exists m k, Z.abs m <= 2 ^ 53 /\ 0 <= k /\ z = m * 2 ^ k.
(* what is known of the pow of a C library: the result is a double, and the exact one if there is one *)
Definition good_pow (fpow : Z -> Z -> Z) : Prop :=
  forall b e, 0 <= e -> is_double (fpow b e) /\ (is_double (b ^ e) -> fpow b e = b ^ e).

(* expressions whose C code is a double although the type is int *)
Definition atom (e : expr) : bool := match e with Var _ | Flag _ | Lit _ => true | _ => false end.
Fixpoint exposed (e : expr) : bool :=
  match e with
  | Var _ | Flag _ | Lit _ | FDiv _ _ | Rem _ _ | BAnd _ _ => false
  | Neg a => exposed a
  | Add a b | Sub a b | Mul a b => exposed a || exposed b
  | Pow _ _ => true
  | PowLit a (EInt n) => negb (atom a && (n =? 2))
  | PowLit _ _ => true
  end.
(* no such operand of & *)
Fixpoint bits_ok (e : expr) : bool :=
  match e with
  | Var _ | Flag _ | Lit _ => true
  | Neg a | PowLit a _ => bits_ok a
  | Add a b | Sub a b | Mul a b | FDiv a b | Rem a b | Pow a b => bits_ok a && bits_ok b
  | BAnd a b => bits_ok a && bits_ok b && negb (exposed a) && negb (exposed b)
  end.
(* no boolean is the operand of -, %, & or ** (other than ** 2) *)
Definition flag (e : expr) : bool := match e with Flag _ => true | _ => false end.
Fixpoint numbers (e : expr) : bool :=
  match e with
  | Var _ | Flag _ | Lit _ => true
  | Neg a => numbers a && negb (flag a)
  | PowLit a e => numbers a && (negb (flag a) || match e with EInt n => n =? 2 | _ => false end)
  | Add a b | Sub a b | Mul a b | FDiv a b => numbers a && numbers b
  | Rem a b | BAnd a b | Pow a b => numbers a && numbers b && negb (flag a) && negb (flag b)
  end.
