(* What Python returns. *)
From Coq Require Import Bool Arith ZArith List String.
From Verif Require Import Ret_Model.
Import ListNotations.
Open Scope Z_scope.
Open Scope list_scope.

(* The elements of a tuple are all computed before anything is given back. *)
Definition py_tuple (es : list expr) (st : state) : list (option obj) := map (eval st) es.

(* The values of e for x in range(n); the variable x of the generator is not a variable of the
   function. *)
Definition at_ (st : state) (x : name) (i : Z) : state := set st x (Some (OInt i)).
Fixpoint py_values (st : state) (x : name) (e : expr) (i : Z) (k : nat) : option (list Z) :=
  match k with
  | O => Some []
  | S k' => match eval (at_ st x i) e, py_values st x e (i + 1) k' with Some (OInt v), Some vs => Some (v :: vs) | _, _ => None end
  end.
Definition py_fold (k : fold_kind) (vs : list Z) : option Z :=
  match k, vs with
  | KSum, _ => Some (fold_right Z.add 0 vs)
  | KMax, v :: vs => Some (fold_right Z.max v vs)
  | KMin, v :: vs => Some (fold_right Z.min v vs)
  | _, [] => None                                      (* ValueError *)
  end.
Definition py_value (st : state) (p : pexpr) : option obj :=
  match p with
  | PE e => eval st e
  | PFold k x n e =>
    match eval st n with
    | Some (OInt n) =>
      match py_values st x e 0 (Z.to_nat n) with
      | Some vs => match py_fold k vs with Some v => Some (OInt v) | None => None end
      | None => None
      end
    | _ => None
    end
  | PIf c a b => match eval st c with Some (OInt 0) => eval st b | Some (OInt _) => eval st a | _ => None end
  end.
(* all values are integers of 64 bits *)
Definition in_range (st : state) (p : pexpr) : Prop :=
  match p with
  | PFold _ x n e => forall k vs v, py_values st x e 0 k = Some vs -> In v vs -> lowest <= v <= highest
  | _ => True
  end.

(* The function gives back the value of Python and frees its other variables. *)
Definition gives_python (st : state) (p : pexpr) (frees : list name) (o : outcome) : Prop :=
  forall v, py_value st p = Some v -> exists st', o = Some (v, st') /\ forall x, In x frees -> st' x = None.

(* The name of the result is not used to compute the value. *)
Definition separate (r : name) (p : pexpr) : Prop :=
  match p with PFold _ x n e => x <> r /\ ~ In r (vars e) /\ ~ In r (vars n) | _ => True end.

(* Where the C printer keeps the assignments: *)
Definition needs (ty : name -> kind) (frees : list name) (e : expr) : Prop :=
  exists v, In v (inner_vars e) /\ (ty v <> VInt \/ In v frees).
Definition plain_c (ty : name -> kind) (frees : list name) (p : pexpr) : Prop :=
  match p with
  | PE (EVar y) => ~ In y frees
  | PE _ => True
  | PFold KSum _ _ _ => True
  | PFold _ _ _ e => exists v, In v (vars e) /\ (ty v <> VInt \/ In v frees)
  | PIf _ _ b => needs ty frees b
  end.

(* ------------------------------ tuples ------------------------------ *)

Definition user (x : name) : Prop := exists n, x = User n.
Definition user_expr (e : expr) : Prop := forall x, In x (vars e) -> user x.

(* A result is not changed before an element that uses it, and no two results have one name. *)
Fixpoint in_order (rs : list name) (es : list expr) : Prop :=
  match rs, es with
  | r :: rs', e :: es' => ~ In r rs' /\ (itself r e = true \/ forall e', In e' es' -> ~ In r (vars e')) /\ in_order rs' es'
  | _, _ => True
  end.

(* The names that are elements by themselves. *)
Definition alone (es : list expr) : list name := flat_map (fun e => match e with EVar x => [x] | _ => [] end) es.
Definition no_symbol (e : expr) : Prop := match e with EVar _ => False | _ => True end.
