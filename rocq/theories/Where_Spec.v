From Coq Require Import List String ZArith.
From Verif Require Import Expr_Model Expr_Spec Where_Model.
Import ListNotations.
Open Scope string_scope.
Open Scope list_scope.
Open Scope Z_scope.

Definition truth (b : bool) : Z := if b then 1 else 0.
(* the operators on integers for which the claims are evaluated *)
Definition op2 (o : string) (x y : Z) : option Z :=
  match o with
  | "+" => Some (x + y) | "-" => Some (x - y) | "*" => Some (x * y)
  | "<" => Some (truth (x <? y)) | ">" => Some (truth (x >? y))
  | "<=" => Some (truth (x <=? y)) | ">=" => Some (truth (x >=? y))
  | "==" => Some (truth (x =? y)) | "!=" => Some (truth (negb (x =? y)))
  | "&&" => Some (truth (negb (x =? 0) && negb (y =? 0)))
  | "||" => Some (truth (negb (x =? 0) || negb (y =? 0)))
  | _ => None
  end%bool.
Definition lift2 (f : Z -> Z -> option Z) (x y : option Z) : option Z :=
  match x, y with Some x, Some y => f x y | _, _ => None end.
Definition choose (c a b : option Z) : option Z :=
  match c with Some c => if c =? 0 then b else a | None => None end.
Section Values.
(* values of the atoms, and of the functions *)
Variable env : string -> Z.
Variable fn : string -> Z -> Z.
(* value of an expression of C or Fortran, given as a tree *)
Fixpoint tval (t : txt) : option Z :=
  match t with
  | At a => Some (env a)
  | Par t => tval t
  | Pre "-" t => option_map Z.opp (tval t)
  | Pre "+" t => tval t
  | Pre "!" t => option_map (fun x => truth (x =? 0)) (tval t)
  | Pre _ _ => None
  | In o a b => lift2 (op2 o) (tval a) (tval b)
  | Call1 f a => option_map (fn f) (tval a)
  | Call3 "merge" a b c => choose (tval c) (tval a) (tval b)
  | TQ c a b => choose (tval c) (tval a) (tval b)
  | _ => None
  end.
(* value in Python *)
Fixpoint py_value (e : we) : option Z :=
  match e with
  | E t => tval t
  | W c a b => choose (py_value c) (py_value a) (py_value b)
  | B o a b => lift2 (op2 o) (py_value a) (py_value b)
  end.

(* C's conditional-expression (C11 6.5.15): a logical-OR-expression, or such an expression
   followed by ? expression : conditional-expression.  The part before ? is read by the
   reader of area Expr. *)
Inductive ctree := Plain (t : txt) | Cond (c : txt) (a b : ctree).
Fixpoint cval (e : ctree) : option Z :=
  match e with
  | Plain t => tval t
  | Cond c a b => choose (tval c) (cval a) (cval b)
  end.
Fixpoint rd_cond (fuel : nat) (ts : list tok) : option (ctree * list tok) :=
  match fuel with
  | O => None
  | S fuel =>
    match rd_expr c_lang (4 * List.length ts + 4) 0 ts with
    | Some (c, KQ :: r) =>
      match rd_cond fuel r with
      | Some (a, KColon :: r) =>
        match rd_cond fuel r with
        | Some (b, r) => Some (Cond c a b, r)
        | None => None
        end
      | _ => None
      end
    | Some (t, r) => Some (Plain t, r)
    | None => None
    end
  end.
Definition rd_c (ts : list tok) : option ctree :=
  match rd_cond (S (List.length ts)) ts with Some (e, []) => Some e | _ => None end.
(* the value C computes for an expression *)
Definition c_value (e : we) : option Z :=
  match rd_c (c_text e) with Some t => cval t | None => None end.
(* the value Fortran computes *)
Definition f_value (e : we) : option Z :=
  match read f_lang (f_text e) with Some t => tval t | None => None end.
End Values.

(* Every operand binds at least as strongly as its operator asks for: the text is read as
   the tree it was printed from.  Area Expr shows it of what pyccel prints. *)
Fixpoint grouped (L : lang) (t : txt) : Prop :=
  match t with
  | At _ => True
  | Par t => grouped L t
  | Pre o t => match prefix_ L o with Some (_, r) => grouped L t /\ (r <= top L t)%nat | None => False end
  | In o a b => match infix L o with
                | Some (_, l, r) => grouped L a /\ grouped L b /\ (l <= top L a)%nat /\ (r <= top L b)%nat
                | None => False
                end
  | Call1 _ a => grouped L a
  | Call2 _ a b => grouped L a /\ grouped L b
  | Call3 _ a b c => grouped L a /\ grouped L b /\ grouped L c
  | TQ c a b => grouped L c /\ grouped L a /\ grouped L b
  | TIf _ _ _ => False
  end.
(* np.where only at the top, or as a value of another np.where: in no operator, in no condition *)
Fixpoint outside (e : we) : Prop :=
  match e with
  | E t => grouped c_lang t
  | W (E c) a b => grouped c_lang c /\ outside a /\ outside b
  | _ => False
  end.
(* np.where anywhere; operands bind strongly enough, a function call does always *)
Definition f_top (e : we) : nat :=
  match e with
  | E t => top f_lang t
  | W _ _ _ => 100
  | B o _ _ => match infix f_lang o with Some (l, _, _) => l | None => 0 end
  end.
Fixpoint anywhere (e : we) : Prop :=
  match e with
  | E t => grouped f_lang t
  | W c a b => anywhere c /\ anywhere a /\ anywhere b
  | B o a b => match infix f_lang o with
               | Some (_, l, r) => anywhere a /\ anywhere b /\ (l <= f_top a)%nat /\ (r <= f_top b)%nat
               | None => False
               end
  end.
