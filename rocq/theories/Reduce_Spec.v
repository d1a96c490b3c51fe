(** What NumPy computes: the view of an array, the axes of a reduction, the
    shape of its result and its elements.  *)
From Coq Require Import List ZArith Bool.
From Verif Require Import Reduce_Model.
Import ListNotations.

(** ** Views *)

(** An index written by the user: a number, or a slice whose bounds are in the
    array and whose step is positive. *)
Definition written (n : nat) (s : sub) : Prop :=
  match s with
  | At p _ x => x = Zero /\ p < n
  | Sl a b c => or_else a 0 <= or_else b n /\ or_else b n <= n /\ c <> Some 0
  end.

(** The element of [a[s]] with the index [v] is the element of [a] with the
    index [source s v]. *)
Fixpoint source (s : list sub) (v : list nat) : list nat :=
  match s with
  | [] => []
  | At p _ _ :: s' => p :: source s' v
  | Sl a _ c :: s' =>
      match v with
      | j :: v' => or_else a 0 + or_else c 1 * j :: source s' v'
      | [] => []
      end
  end.

(** The shape of a view: the indices [j] for which [start + step*j] is before
    the end. *)
Definition positions (n : nat) (a b c : option nat) : list nat :=
  filter (fun j => or_else a 0 + or_else c 1 * j <? or_else b n) (seq 0 n).

Fixpoint view_shape (D : list dim) (s : list sub) : list nat :=
  match D, s with
  | _ :: D', At _ _ _ :: s' => view_shape D' s'
  | (n, _) :: D', Sl a b c :: s' =>
      length (positions n a b c) :: view_shape D' s'
  | _, _ => []
  end.

(** ** Axes *)

(** The axes of an array with [rank] dimensions: each is between [-rank] and
    [rank-1], none is given twice. *)
Definition axis_of (rank : nat) (a : Z) : Z :=
  if (a <? 0)%Z then (a + Z.of_nat rank)%Z else a.

Definition valid_axes (rank : nat) (ax : list Z) : Prop :=
  (forall a, In a ax -> - Z.of_nat rank <= a < Z.of_nat rank)%Z /\
  NoDup (map (axis_of rank) ax).

(** Is the dimension number [i] reduced? Without axes they all are. *)
Definition reduced (rank : nat) (ax : option (list Z)) (i : nat) : bool :=
  match ax with
  | None => true
  | Some l => existsb (fun a => Z.eqb (axis_of rank a) (Z.of_nat i)) l
  end.

Definition flags (rank : nat) (ax : option (list Z)) : list bool :=
  map (reduced rank ax) (seq 0 rank).

(** ** The result *)

(** The shape: the dimensions which are reduced disappear, or become 1. *)
Fixpoint np_shape (keepdims : bool) (f : list bool) (S : list nat)
  : list nat :=
  match f, S with
  | true :: f', _ :: S' =>
      if keepdims then 1 :: np_shape keepdims f' S'
      else np_shape keepdims f' S'
  | false :: f', n :: S' => n :: np_shape keepdims f' S'
  | _, _ => []
  end.

(** Does the element [v] of the argument belong to the element [i] of the
    result? The other dimensions agree. *)
Fixpoint belongs (keepdims : bool) (f : list bool) (v i : list nat) : bool :=
  match f, v with
  | [], [] => match i with [] => true | _ => false end
  | true :: f', _ :: v' =>
      if keepdims then
        match i with
        | z :: i' => Nat.eqb z 0 && belongs keepdims f' v' i'
        | [] => false
        end
      else belongs keepdims f' v' i
  | false :: f', x :: v' =>
      match i with
      | y :: i' => Nat.eqb x y && belongs keepdims f' v' i'
      | [] => false
      end
  | _, _ => false
  end.

(** All the indices of an array. *)
Fixpoint in_shape (S : list nat) (i : list nat) : Prop :=
  match S, i with
  | [], [] => True
  | n :: S', x :: i' => x < n /\ in_shape S' i'
  | _, _ => False
  end.

(** A left hand side to which the result is assigned: the result is repeated
    along additional dimensions in front, and along the dimensions which have
    been kept. *)
Fixpoint fits (keepdims : bool) (f : list bool) (S LS : list nat) : Prop :=
  match f, S with
  | true :: f', _ :: S' =>
      if keepdims then
        match LS with _ :: LS' => fits keepdims f' S' LS' | [] => False end
      else fits keepdims f' S' LS
  | false :: f', n :: S' =>
      match LS with
      | l :: LS' => l = n /\ fits keepdims f' S' LS'
      | [] => False
      end
  | _, _ => LS = []
  end.

(** The element of the result which is read for the element [i]. *)
Fixpoint read_at (keepdims : bool) (f : list bool) (i : list nat)
  : list nat :=
  match f with
  | [] => []
  | b :: f' =>
      if b && negb keepdims then read_at keepdims f' i
      else
        match i with
        | x :: i' => (if b then 0 else x) :: read_at keepdims f' i'
        | [] => []
        end
  end.

(** The values reduced for the element [i] of the result: [l] lists the
    indices in the view, each once. *)
Definition group (keepdims : bool) (f : list bool) (S : list nat)
    (i : list nat) (l : list (list nat)) : Prop :=
  NoDup l /\
  forall v, In v l <-> in_shape S v /\ belongs keepdims f v i = true.

(** The value of the reduction. *)
Definition given (initial : option Z) : list Z :=
  match initial with Some x => [x] | None => [] end.

Definition total (l : list Z) : Z := fold_right Z.add 0%Z l.

Definition np_value (o : op) (initial : option Z) (vals : list Z) (v : Z)
  : Prop :=
  let all := given initial ++ vals in
  match o with
  | Sum => v = total all
  | Min => In v all /\ (forall x, In x all -> v <= x)%Z
  | Max => In v all /\ (forall x, In x all -> x <= v)%Z
  end.

(** NumPy raises an exception for the minimum of nothing. *)
Definition has_value (o : op) (initial : option Z) (vals : list (list nat))
  : Prop := o = Sum \/ initial <> None \/ vals <> [].

(** ** The restriction *)

(** A slice is dropped when the index of a later dimension is inserted: the
    slices of the reduced dimensions must take the whole dimension, except
    after the last dimension which is not reduced (and always if the
    dimensions are kept). *)
Definition whole (n : nat) (s : sub) : Prop :=
  match s with
  | Sl a b c => or_else a 0 = 0 /\ or_else b n = n /\ or_else c 1 = 1
  | At _ _ _ => False
  end.

Fixpoint whole_slices (keepdims : bool) (D : list dim) (s : list sub)
    (f : list bool) : Prop :=
  match D, s with
  | _ :: D', At _ _ _ :: s' => whole_slices keepdims D' s' f
  | (n, _) :: D', Sl a b c :: s' =>
      match f with
      | true :: f' =>
          (whole n (Sl a b c) \/
           (keepdims = false /\ Forall (fun x => x = true) f')) /\
          whole_slices keepdims D' s' f'
      | false :: f' => whole_slices keepdims D' s' f'
      | [] => True
      end
  | _, _ => True
  end.

(** The calls of the theorem: an array is reduced along at least one axis, and
    the axes are not negative if the dimensions are kept. *)
Definition valid_call (D : list dim) (s : list sub) (ax : option (list Z))
    (keepdims : bool) : Prop :=
  let rank := length (view_shape D s) in
  Forall2 (fun d x => written (fst d) x) D s /\
  match ax with
  | None => keepdims = false /\ rank <> 0
  | Some l =>
      l <> [] /\ valid_axes rank l /\
      (keepdims = true -> forall a, In a l -> 0 <= a)%Z
  end /\
  whole_slices keepdims D s (flags rank ax).

(** ** The index of a result *)

(** The positions of the reduced dimensions. *)
Fixpoint axes_of (i : Z) (f : list bool) : list Z :=
  match f with
  | [] => []
  | b :: f' => (if b then [i] else []) ++ axes_of (i + 1) f'
  end.

(** The indices of the argument for the indices [idx] of the result: the
    reduced dimensions, in front of the last index, are whole. *)
Fixpoint weave (f : list bool) (idx : list sub) : list sub :=
  match idx, f with
  | [], _ => []
  | _, [] => []
  | _, true :: f' => Sl None None None :: weave f' idx
  | x :: idx', false :: f' => x :: weave f' idx'
  end.

(** The dimensions left in the argument: an index removes its dimension, a
    slice does not. *)
Fixpoint left_over (f : list bool) (idx : list sub) : list bool :=
  match f, idx with
  | [], _ => []
  | true :: f', _ => true :: left_over f' idx
  | false :: f', [] => false :: left_over f' []
  | false :: f', At _ _ _ :: idx' => left_over f' idx'
  | false :: f', Sl _ _ _ :: idx' => false :: left_over f' idx'
  end.

(** A slice which is not the whole dimension, or an index. *)
Definition not_whole (x : sub) : Prop := x <> Sl None None None.

Fixpoint falses (f : list bool) : nat :=
  match f with
  | [] => 0
  | b :: f' => (if b then 0 else 1) + falses f'
  end.
