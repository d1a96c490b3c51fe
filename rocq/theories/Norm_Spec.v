From Coq Require Import List String Ascii QArith Qcanon.
From Verif Require Import Expr_Model Expr_Spec Norm_Model.
Import ListNotations.
Open Scope string_scope.
Open Scope list_scope.
Open Scope Qc_scope.

(* Values are rationals; powers and the reductions other than sum are any functions. *)
Section Values.
Variable pw : Qc -> Qc -> Qc.                 (* ** *)
Variable red : string -> list Qc -> Qc.       (* Norm2, maxval, minval, count *)
Variable xs : list Qc.                        (* the absolute values of the array *)
Definition sum (l : list Qc) : Qc := fold_right Qcplus 0 l.
Definition put (env : string -> Qc) (v : Qc) (s : string) : Qc :=
  if String.eqb s "x" then v else env s.
Definition op2 (o : string) (x y : Qc) : option Qc :=
  match o with
  | "+" => Some (x + y) | "-" => Some (x - y) | "*" => Some (x * y) | "/" => Some (x / y)
  | "**" => Some (pw x y)
  | ">" => Some (if Qclt_le_dec y x then 1 else 0)
  | _ => None
  end.
Definition lift2 (f : Qc -> Qc -> option Qc) (x y : option Qc) : option Qc :=
  match x, y with Some x, Some y => f x y | _, _ => None end.
Definition reduction (f : string) (l : list Qc) : Qc :=
  if String.eqb f "sum" then sum l else red f l.
Fixpoint all_some (l : list (option Qc)) : option (list Qc) :=
  match l with
  | [] => Some []
  | Some v :: l => option_map (cons v) (all_some l)
  | None :: _ => None
  end.
(* value of an expression of Fortran, given as a tree; the argument of a reduction is evaluated
   for each element of the array *)
Fixpoint tval (env : string -> Qc) (t : txt) : option Qc :=
  match t with
  | At a => Some (env a)
  | Par t => tval env t
  | Pre "-" t => option_map Qcopp (tval env t)
  | In o a b => lift2 (op2 o) (tval env a) (tval env b)
  | Call1 f a => option_map (reduction f) (all_some (map (fun v => tval (put env v) a) xs))
  | _ => None
  end.
(* numpy.linalg.norm of a vector *)
Definition np_norm (env : string -> Qc) (k : kind) : Qc :=
  match k with
  | Two => red "Norm2" xs
  | Inf => red "maxval" xs
  | MinusInf => red "minval" xs
  | Zero => red "count" (map (fun v => if Qclt_le_dec 0 v then 1 else 0) xs)
  | One => sum xs
  | MinusOne => 1 / sum (map (fun v => 1 / v) xs)
  | Power p q => pw (sum (map (fun v => pw v (env p)) xs)) (env q)
  end.
Fixpoint py_value (env : string -> Qc) (e : ne) : option Qc :=
  match e with
  | E t => tval env t
  | N k => Some (np_norm env k)
  | B o a b => lift2 (op2 o) (py_value env a) (py_value env b)
  end.
(* what Fortran computes *)
Definition f_value (env : string -> Qc) (e : ne) : option Qc :=
  match read f_lang (f_text e) with Some t => tval env t | None => None end.
(* the constants; x is the name of the array, not that of an order *)
Definition constants (env : string -> Qc) : Prop := env "1.0" = 1 /\ env "0" = 0.
Definition named (k : kind) : Prop :=
  match k with Power p _ => p <> "x" | _ => True end.
End Values.

(* Text is read as it was printed (as in Where_Spec, for Fortran). *)
Fixpoint grouped (t : txt) : Prop :=
  match t with
  | At _ => True
  | Par t => grouped t
  | Pre o t => match prefix_ f_lang o with Some (_, r) => grouped t /\ (r <= top f_lang t)%nat | None => False end
  | In o a b => match infix f_lang o with
                | Some (_, l, r) => grouped a /\ grouped b /\ (l <= top f_lang a)%nat /\ (r <= top f_lang b)%nat
                | None => False
                end
  | Call1 _ a => grouped a
  | _ => False
  end.
(* The level of an expression.  Norms of order -1 and of other powers are a quotient and a
   power, all others calls. *)
Definition level (e : ne) : nat :=
  match e with
  | E t => top f_lang t
  | N MinusOne => 13
  | N (Power _ _) => 15
  | N _ => 100
  | B o _ _ => match infix f_lang o with Some (l, _, _) => l | None => 0 end
  end.
(* operands bind as strongly as their operators ask for *)
Fixpoint fits (e : ne) : Prop :=
  match e with
  | E t => grouped t
  | N k => named k
  | B o a b => match infix f_lang o with
               | Some (_, l, r) => fits a /\ fits b /\ (l <= level a)%nat /\ (r <= level b)%nat
               | None => False
               end
  end.

(* C: the sum is raised to 1 / order at the end for orders other than 0, 1 and the infinities *)
Definition has_root (k : kind) : bool :=
  match k with Inf | MinusInf | Zero | One => false | _ => true end.
(* the identifier at the start of a text *)
Definition id_char (c : ascii) : bool :=
  let n := nat_of_ascii c in
  ((48 <=? n) && (n <=? 57) || (65 <=? n) && (n <=? 90) || (97 <=? n) && (n <=? 122) || (n =? 95))%nat%bool.
Fixpoint identifier (s : string) : string :=
  match s with
  | String c s => if id_char c then String c (identifier s) else ""
  | EmptyString => ""
  end.
Definition is_name (s : string) : Prop := s <> "" /\ identifier s = s.
