(** np.cross: the vectors are along an axis of each argument, the other
    dimensions are broadcast.  *)
From Coq Require Import List ZArith Bool.
From Verif Require Import Cross_Model.
Import ListNotations.

(** The index [i] with the component [k] of the vector at the position [x], and
    the other dimensions of a shape. *)
Definition with_axis (x k : nat) (i : list nat) : list nat :=
  firstn x i ++ [k] ++ skipn x i.

Definition others (x : nat) (S : list nat) : list nat :=
  firstn x S ++ skipn (x + 1) S.

(** Broadcasting of shapes with as many dimensions. *)
Fixpoint np_join (S T : list nat) : option (list nat) :=
  match S, T with
  | [], [] => Some []
  | n :: S', k :: T' =>
      match np_join S' T' with
      | Some r =>
          if Nat.eqb n k then Some (n :: r)
          else if Nat.eqb n 1 then Some (k :: r)
          else if Nat.eqb k 1 then Some (n :: r) else None
      | None => None
      end
  | _, _ => None
  end.

Definition pick (S i : list nat) : list nat :=
  map (fun p => if Nat.eqb (fst p) 1 then 0 else snd p) (combine S i).

Fixpoint in_shape (S i : list nat) : Prop :=
  match S, i with
  | [], [] => True
  | n :: S', x :: i' => x < n /\ in_shape S' i'
  | _, _ => False
  end.

Definition np_shape (Sa Sb : list nat) (axisa axisb axisc : nat) : option (list nat) :=
  option_map (with_axis axisc 3) (np_join (others axisa Sa) (others axisb Sb)).

(** The component [k] of the product of two vectors. *)
Definition component (a b : nat -> Z) (k : nat) : Z :=
  match k with
  | 0 => (a 1%nat * b 2%nat - a 2%nat * b 1%nat)%Z
  | 1 => (a 2%nat * b 0%nat - a 0%nat * b 2%nat)%Z
  | _ => (a 0%nat * b 1%nat - a 1%nat * b 0%nat)%Z
  end.

(** [m'] is [m] after [c = np.cross(a, b, axisa, axisb, axisc)]. *)
Definition crosses (a b c : nat) (Sa Sb : list nat) (axisa axisb axisc : nat)
    (m m' : mem) : Prop :=
  exists B, np_join (others axisa Sa) (others axisb Sb) = Some B /\
  (forall i k, in_shape B i -> k < 3 ->
     m' (c, with_axis axisc k i) =
     component (fun j => m (a, with_axis axisa j (pick (others axisa Sa) i)))
               (fun j => m (b, with_axis axisb j (pick (others axisb Sb) i))) k) /\
  (forall d i, d <> c -> m' (d, i) = m (d, i)).

(** ** The restrictions *)

(** The sizes are the same, or one of them is known to be 1. *)
Definition compatible (Sa Sb : list dim) : Prop :=
  Forall2 (fun d e => fst d = fst e \/ known_one d = true \/ known_one e = true) Sa Sb.

(** The vectors are along the same axis [x] of all arrays; it is the last one,
    or no size is known to be 1. *)
Definition simple (Sa Sb : list dim) (x : nat) : Prop :=
  compatible Sa Sb /\ x < length Sa /\
  fst (nth x Sa (0, false)) = 3 /\ fst (nth x Sb (0, false)) = 3 /\
  (x + 1 = length Sa \/
   Forall (fun d => known_one d = false) Sa /\ Forall (fun d => known_one d = false) Sb).

(** The argument [y], or [axis] if it is given, is the axis [x] of an array with
    [rank] dimensions. *)
Definition means (axis : option Z) (y : Z) (rank x : nat) : Prop :=
  let z := match axis with Some z => z | None => y end in
  (z = Z.of_nat x \/ z = Z.of_nat x - Z.of_nat rank)%Z.

(** A statement [c = np.cross(a, b, ...)] with the vectors along the axis [x]. *)
Definition written (s : cross) (x : nat) : Prop :=
  exists axisa axisb axisc axis,
    make (na s) (nb s) (nc s) (sa s) (sb s) axisa axisb axisc axis = Some s /\
    means axis axisa (length (sa s)) x /\ means axis axisb (length (sa s)) x /\
    means axis axisc (length (sa s)) x /\
    simple (sa s) (sb s) x /\ nc s <> na s /\ nc s <> nb s.

(** Statements one after the other. *)
Inductive chain : list cross -> mem -> mem -> Prop :=
| chain_nil : forall m, chain [] m m
| chain_cons : forall s b x m m1 m',
    written s x ->
    crosses (na s) (nb s) (nc s) (map fst (sa s)) (map fst (sb s)) x x x m m1 ->
    chain b m1 m' -> chain (s :: b) m m'.

(** A block in which only one product needs loops. *)
Definition vectors (b : list cross) : Prop := Forall (fun s => length (sa s) = 1) b.
