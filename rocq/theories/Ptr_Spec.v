(* What Python's parameters are. *)
From Coq Require Import ZArith List Bool.
From Verif Require Import Ptr_Model.
Import ListNotations.

(* where the object of a variable is: in its own cell, or where its pointer points; None, if it is a null pointer *)
Definition object (fr : nat) (extra : list nat) (s : store) (v : var) : option addr :=
  if var_ptr extra v then match s (Cell fr (name v)) with Ptr a => Some a | _ => None end else Some (Cell fr (name v)).
(* the value of a variable; None is a variable that is None *)
Definition content (fr : nat) (extra : list nat) (s : store) (v : var) : option val := option_map s (object fr extra s v).
(* the value of an argument *)
Definition arg_content (fr : nat) (extra : list nat) (s : store) (e : exp) : option val :=
  match e with
  | EVar v => content fr extra s v
  | EElem v i => match content fr extra s v with Some (Span d) => Some (s (Item d i)) | _ => None end
  | ENone => None
  | EVal z => Some (Num z)
  | ECall r w => if var_ptr extra r then match w with Ptr a => Some (s a) | _ => None end else Some w
  end.

(* a variable of the program: a pointer holds an address or is null; others hold a value *)
Definition var_ok (fr : nat) (extra : list nat) (n : nat) (s : store) (v : var) : Prop :=
  name v < n /\ if var_ptr extra v then (exists a, s (Cell fr (name v)) = Ptr a) \/ s (Cell fr (name v)) = Null else True.
(* arguments that C accepts: a parameter that may be None is no element of an array; other parameters get something *)
Definition arg_ok (fr : nat) (extra : list nat) (n : nat) (s : store) (p : var) (e : exp) : Prop :=
  match e with
  | EVar v => var_ok fr extra n s v /\ (var_ptr extra p = false -> object fr extra s v <> None)
  | EElem v i => var_ok fr extra n s v /\ var_ptr extra p = false /\ exists d, content fr extra s v = Some (Span d)
  | ENone => var_ptr extra p = true
  | EVal _ => True
  | ECall r w => if var_ptr extra r then var_ptr extra p = true /\ exists a, w = Ptr a else True
  end.
(* arguments including elements of arrays for all parameters *)
Definition arg_any (fr : nat) (extra : list nat) (n : nat) (s : store) (p : var) (e : exp) : Prop :=
  arg_ok fr extra n s p e \/ exists v i d, e = EElem v i /\ var_ok fr extra n s v /\ content fr extra s v = Some (Span d).
(* nothing points to the temporaries or to the new frame *)
Definition old (fr fr' n : nat) (a : addr) : Prop :=
  match a with Cell f x => f <> fr' /\ (f = fr -> x < n) | Item _ _ => True end.
Definition clean (fr fr' n : nat) (s : store) : Prop := forall a b, s a = Ptr b -> old fr fr' n b.
Definition results_clean (fr fr' n : nat) (es : list exp) : Prop := forall r a, In (ECall r (Ptr a)) es -> old fr fr' n a.
(* names and identities are different; the parameters are not variables of the function that calls *)
Definition func_ok (extra : list nat) (f : func) : Prop :=
  NoDup (map name (signature f)) /\ NoDup (map uid (signature f)) /\ forall p, In p (params f) -> listed extra p = false.
