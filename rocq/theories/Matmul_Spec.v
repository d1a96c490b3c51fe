(** np.matmul: the last two dimensions are matrices, the dimensions in front
    are broadcast, and a vector is a matrix with one row or one column.  *)
From Coq Require Import List ZArith Bool.
From Verif Require Import Matmul_Model.
Import ListNotations.

(** The dimensions in front of the matrices. *)
Definition batch (S : list nat) : list nat := firstn (length S - 2) S.

(** Broadcasting, from the last dimension. *)
Fixpoint bc (x y : list nat) : option (list nat) :=
  match x, y with
  | [], _ => Some y
  | _, [] => Some x
  | a :: x', b :: y' =>
      match bc x' y' with
      | Some r =>
          if Nat.eqb a b then Some (a :: r)
          else if Nat.eqb a 1 then Some (b :: r)
          else if Nat.eqb b 1 then Some (a :: r)
          else None
      | None => None
      end
  end.

Definition np_batch (x y : list nat) : option (list nat) :=
  option_map (@rev nat) (bc (rev x) (rev y)).

(** The index in an argument with the dimensions [B] in front, for the index
    [i] of the result. *)
Fixpoint pick_rev (B i : list nat) : list nat :=
  match B, i with
  | n :: B', x :: i' => (if Nat.eqb n 1 then 0 else x) :: pick_rev B' i'
  | _, _ => []
  end.

Definition pick (B i : list nat) : list nat := rev (pick_rev (rev B) (rev i)).

(** The sizes of the matrices: rows of the first, columns of the first (rows
    of the second), columns of the second. *)
Definition rows (Sa : list nat) : nat :=
  if Nat.eqb (length Sa) 1 then 1 else nth (length Sa - 2) Sa 0.
Definition inner (Sa : list nat) : nat := nth (length Sa - 1) Sa 0.
Definition inner' (Sb : list nat) : nat :=
  if Nat.eqb (length Sb) 1 then nth 0 Sb 0 else nth (length Sb - 2) Sb 0.
Definition cols (Sb : list nat) : nat :=
  if Nat.eqb (length Sb) 1 then 1 else nth (length Sb - 1) Sb 0.

(** The indices of the elements. *)
Definition a_index (Sa i : list nat) (r j : nat) : list nat :=
  if Nat.eqb (length Sa) 1 then [j] else pick (batch Sa) i ++ [r; j].
Definition b_index (Sb i : list nat) (j c : nat) : list nat :=
  if Nat.eqb (length Sb) 1 then [j] else pick (batch Sb) i ++ [j; c].
Definition out_index (Sa Sb i : list nat) (r c : nat) : list nat :=
  i ++ (if Nat.eqb (length Sa) 1 then [] else [r])
    ++ (if Nat.eqb (length Sb) 1 then [] else [c]).

(** The shape of the result. *)
Definition np_shape (Sa Sb : list nat) : option (list nat) :=
  option_map (fun B => out_index Sa Sb B (rows Sa) (cols Sb))
    (np_batch (batch Sa) (batch Sb)).

(** The element of the result. *)
Definition np_element (m : mem) (Sa Sb i : list nat) (r c : nat) : Z :=
  fold_right Z.add 0%Z
    (map (fun j => (m (In1 (a_index Sa i r j)) * m (In2 (b_index Sb i j c)))%Z)
       (seq 0 (inner Sa))).

Fixpoint in_shape (S i : list nat) : Prop :=
  match S, i with
  | [], [] => True
  | n :: S', x :: i' => x < n /\ in_shape S' i'
  | _, _ => False
  end.

(** ** The restrictions *)

(** Vectors are multiplied with vectors and matrices, and of two stacks of
    matrices one has exactly the last dimensions of the other. *)
Definition stacks (Sa Sb : list nat) : Prop :=
  length Sa <> 0 /\ length Sb <> 0 /\ inner Sa = inner' Sb /\
  (length Sa = 1 -> length Sb <= 2) /\ (length Sb = 1 -> length Sa <= 2) /\
  ((exists u, batch Sa = u ++ batch Sb) \/ (exists u, batch Sb = u ++ batch Sa)).

(** The orders: a vector has none. *)
Definition has_order (S : list nat) (o : order) : Prop :=
  o = ON <-> length S = 1.

(** In Fortran the arrays have the same order, and a matrix on the right of a
    vector has C order. *)
Definition orders (l : lang) (Sa Sb : list nat) (oa ob oc : order) : Prop :=
  l = F ->
  (length Sa = 1 -> ob <> OF) /\
  (length Sa > 1 -> length Sb > 1 -> oa = ob /\ oc = oa).
