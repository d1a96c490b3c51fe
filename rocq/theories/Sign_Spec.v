(* How Python reads the parameters of a function (The Python Language Reference, 8.7). *)
From Coq Require Import Bool Arith ZArith Lia List.
From Verif Require Import Call_Model Call_Spec Sign_Model.
Import ListNotations.
Open Scope list_scope.

(* the parameters up to the next star or slash *)
Fixpoint params (l : list item) : list (nat * option val) * list item :=
  match l with
  | IParam n d :: l' => let (p, r) := params l' in ((n, d) :: p, r)
  | _ => ([], l)
  end.

(* a parameter without a default after one with a default is a SyntaxError *)
Fixpoint all_defaults (l : list (nat * option val)) : option (list val) :=
  match l with
  | [] => Some []
  | (_, Some v) :: l' => option_map (cons v) (all_defaults l')
  | (_, None) :: _ => None
  end.
Fixpoint defaults_of (l : list (nat * option val)) : option (list val) :=
  match l with
  | (_, None) :: l' => defaults_of l'
  | _ => all_defaults l
  end.

Definition finish (p q : list (nat * option val)) (v : option nat) (k : list (nat * option val)) (r : list item) : option sig :=
  match defaults_of (p ++ q) with
  | None => None
  | Some d =>
    match r with
    | [] => Some (mk_sig (map fst p) (map fst q) d v k None)
    | [IKw n] => Some (mk_sig (map fst p) (map fst q) d v k (Some n))
    | _ => None
    end
  end.

Definition read_star (p q : list (nat * option val)) (l : list item) : option sig :=
  match l with
  | IStar :: l' =>
    let (k, r) := params l' in
    match k with
    | [] => None                 (* named arguments must follow bare * *)
    | _ => finish p q None k r
    end
  | IVar n :: l' => let (k, r) := params l' in finish p q (Some n) k r
  | _ => finish p q None [] l
  end.

(* None: SyntaxError *)
Definition python_reads (l : list item) : option sig :=
  let (p, r) := params l in
  match r with
  | ISlash :: r' =>
    match p with
    | [] => None
    | _ => let (q, r2) := params r' in read_star p q r2
    end
  | _ => read_star [] p r
  end.

(* no bare * is needed after a / *)
Definition one_mark (s : sig) : Prop := posonly s = [] \/ kwonly s = [] \/ vararg s <> None.
