(** What np.array gives in Python. *)

From Coq Require Import List Bool Arith.
From Verif Require Import Narr_Model.
Import ListNotations.

(** All the elements of a list have the same shape. *)
Inductive regular {A} : arg A -> list nat -> Prop :=
| reg_scal : forall b e, regular (Scal b e) []
| reg_arr : forall o sh elt, sh <> [] -> regular (Arr o sh elt) sh
| reg_lst : forall l sh, l <> [] -> (forall x, In x l -> regular x sh) ->
    regular (Lst l) (length l :: sh).

Definition in_bounds (idx sh : list nat) : Prop := Forall2 lt idx sh.

(** arg[i1][i2]..., when x contains old. *)
Fixpoint element {A} (old : content A) (a : arg A) (idx : list nat) : option A :=
  match a, idx with
  | Scal _ e, [] => Some (e old)
  | Arr _ _ elt, _ => Some (elt idx)
  | Lst l, i :: idx' =>
      match nth_error (map (element old) l) i with Some f => f idx' | None => None end
  | _, _ => None
  end.

(** The shape has ones in front if there are less than ndmin dimensions. *)
Definition wanted_shape (ndmin : nat) (sh : list nat) : list nat :=
  repeat 1 (ndmin - length sh) ++ sh.

Definition wanted {A} (old : content A) (ndmin : nat) (a : arg A) (sh : list nat) (idx : list nat) : option A :=
  element old a (skipn (ndmin - length sh) idx).

(** No element is computed from x. *)
Fixpoint independent {A} (a : arg A) : Prop :=
  match a with
  | Scal _ e => forall m m', e m = e m'
  | Arr _ _ _ => True
  | Lst l => (fix all l := match l with [] => True | x :: r => independent x /\ all r end) l
  end.

Definition variable {A} (a : arg A) : Prop := exists o sh elt, a = Arr o sh elt.
