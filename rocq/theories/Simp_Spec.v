(* The value and the type an expression has. *)
From Coq Require Import List Bool ZArith QArith Qround String Lia.
From Coq Require Import Floats.SpecFloat.
From Verif Require Import Common Types_Model Simp_Model.
Import ListNotations.
Open Scope Z_scope.

(* Exact values; a boolean is 0 or 1; None: Python raises ZeroDivisionError. *)
Definition truth (b : bool) : Q := if b then 1%Q else 0%Q.
Fixpoint eval (env : nat -> Q) (e : ex) : option Q :=
  match e with
  | ELeaf x _ => Some (env x)
  | ELit l => Some (lval l)
  | EPar e => eval env e
  | ENeg e => match eval env e with Some v => Some (- v)%Q | None => None end
  | EAdd a b => match eval env a, eval env b with Some v, Some w => Some (v + w)%Q | _, _ => None end
  | ESub a b => match eval env a, eval env b with Some v, Some w => Some (v - w)%Q | _, _ => None end
  | EMul a b => match eval env a, eval env b with Some v, Some w => Some (v * w)%Q | _, _ => None end
  | EDiv a b =>
      match eval env a, eval env b with
      | Some v, Some w => if Qeq_bool w 0 then None else Some (v / w)%Q
      | _, _ => None
      end
  | EGt a b => match eval env a, eval env b with Some v, Some w => Some (truth (negb (Qle_bool v w))) | _, _ => None end
  | EEq a b => match eval env a, eval env b with Some v, Some w => Some (truth (Qeq_bool v w)) | _, _ => None end
  | ENe a b => match eval env a, eval env b with Some v, Some w => Some (truth (negb (Qeq_bool v w))) | _, _ => None end
  | ENot a => match eval env a with Some v => Some (truth (Qeq_bool v 0)) | None => None end
  | EAnd l =>
      fold_right (fun a r => match eval env a with
                             | Some v => if Qeq_bool v 0 then Some 0%Q else r
                             | None => None end) (Some 1%Q) l
  | EOr l =>
      fold_right (fun a r => match eval env a with
                             | Some v => if Qeq_bool v 0 then r else Some 1%Q
                             | None => None end) (Some 0%Q) l
  end.
(* e2 has the value of e1 whenever e1 has one *)
Definition same_value (e1 e2 : ex) : Prop :=
  forall env v, eval env e1 = Some v -> exists w, eval env e2 = Some w /\ (w == v)%Q.
(* types that compare equal: numpy.int64 and int, numpy.float64 and float, ... *)
Definition same_type (e1 e2 : ex) : Prop :=
  prim (ty e1) = prim (ty e2) /\ precision (ty e1) = precision (ty e2).
(* literals as the compiler makes them *)
Definition lit_ok (l : lit) : Prop :=
  match l with
  | LTrue t | LFalse t => prim t = KBool
  | LInt _ t => prim t = KInt
  | LFloat _ t => prim t = KFloat
  | LComplex _ t => prim t = KComplex
  end.
Fixpoint ex_ok (e : ex) : Prop :=
  match e with
  | ELit l => lit_ok l
  | EPar e | ENeg e | ENot e => ex_ok e
  | EAdd a b | ESub a b | EMul a b | EDiv a b | EGt a b | EEq a b | ENe a b => ex_ok a /\ ex_ok b
  | EAnd l | EOr l => fold_right (fun e p => ex_ok e /\ p) True l
  | ELeaf _ _ => True
  end.
(* a regrouping (x + l) + m whose types Types_Thms.C25_grouping_refuted is about *)
Definition ungrouped (a b : ex) : Prop :=
  match a with
  | EAdd x y | ESub x y => ty_add (tadd (ty x) (ty y)) (ty b) = ty_add (ty x) (tadd (ty y) (ty b))
  | _ => True
  end.

(* Values in IEEE double precision. *)
Definition zf (n : Z) : spec_float := binary_normalize 53 1024 n 0 false.
Definition qf (q : Q) : spec_float := SFdiv 53 1024 (zf (Qnum q)) (zf (Z.pos (Qden q))).
Fixpoint evalf (env : nat -> spec_float) (e : ex) : spec_float :=
  match e with
  | ELeaf x _ => env x
  | ELit l => qf (lval l)
  | EPar e => evalf env e
  | ENeg e => SFopp (evalf env e)
  | EAdd a b => SFadd 53 1024 (evalf env a) (evalf env b)
  | ESub a b => SFsub 53 1024 (evalf env a) (evalf env b)
  | EMul a b => SFmul 53 1024 (evalf env a) (evalf env b)
  | EDiv a b => SFdiv 53 1024 (evalf env a) (evalf env b)
  | _ => S754_nan
  end.
