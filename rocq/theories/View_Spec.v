(* NumPy arrays: where their elements are, arrays without gaps and their slices. *)
From Coq Require Import Bool Arith ZArith Lia List.
From Verif Require Import View_Model.
Import ListNotations.
Open Scope Z_scope.
Open Scope list_scope.

(* the place of the element with index k, in bytes after the data pointer of the array *)
Definition np_address (a : nparray) (k : list Z) : Z := dot k (a_strides a).
(* the indices of an array *)
Definition index_of (shape k : list Z) : Prop := Forall2 (fun n i => 0 <= i < n) shape k.

(* The function sees the array: same shape, and each element is where NumPy has it *)
Definition sees (a : nparray) (s : seen) : Prop :=
  s_shape s = a_shape a /\ forall k, index_of (a_shape a) k -> seen_address (a_item a) s k = np_address a k.

(* an array that is not empty *)
Definition filled (a : nparray) : Prop := a_shape a <> [] /\ 0 < a_item a /\ Forall (fun n => 0 < n) (a_shape a).

(* An array without gaps whose last (first) dimension varies fastest.  The stride of a dimension
   of size 1 does not matter. *)
Definition gapless (steps : list Z -> list Z) (a : nparray) : Prop :=
  Forall2 (fun n q => fst q = 1 \/ snd q = a_item a * n) (steps (a_shape a)) (combine (a_shape a) (a_strides a))
  /\ length (a_strides a) = length (a_shape a).
Definition layout (c_order : bool) : list Z -> list Z := if c_order then row_major else col_major.

(* Views.  from fastest to slowest dimension: the stride of each dimension but the fastest is a
   multiple of the one before and leaves room for all its elements *)
Fixpoint nested (shape strides : list Z) : Prop :=
  match shape, strides with
  | n :: shape', st :: ((st' :: _) as strides') => (st | st') /\ n * st <= st' /\ nested shape' strides'
  | _, _ => True
  end.
(* in the fastest dimension only the elements themselves must fit *)
Definition fits (item : Z) (shape strides : list Z) : Prop :=
  match shape, strides with
  | n :: shape', st :: strides' =>
    0 < st /\ (item | st)
    /\ match strides' with st' :: _ => (item | st') /\ (n - 1) * st + item <= st' | [] => True end
    /\ nested shape' strides'
  | _, _ => True
  end.
Definition regular (c_order : bool) (a : nparray) : Prop :=
  length (a_strides a) = length (a_shape a)
  /\ if c_order then fits (a_item a) (rev (a_shape a)) (rev (a_strides a)) else fits (a_item a) (a_shape a) (a_strides a).

(* The slice [lo:hi:step, ...] of an array without gaps: for each dimension its size, the step and
   the number of elements taken *)
Record slice := mk_slice { sl_dim : Z; sl_step : Z; sl_count : Z }.
Definition slice_ok (s : slice) : Prop :=
  0 < sl_step s /\ sl_step s <= sl_dim s /\ 0 < sl_count s /\ (sl_count s - 1) * sl_step s < sl_dim s.
Definition sliced (c_order : bool) (item : Z) (l : list slice) : nparray :=
  mk_array true item (map sl_count l)
    (map (fun q => sl_step (fst q) * (item * snd q)) (combine l (layout c_order (map sl_dim l)))).
(* from fastest to slowest dimension: the step of a dimension divides its size times the step of
   the next one *)
Fixpoint steps_divide (l : list slice) : Prop :=
  match l with s :: ((s' :: _) as l') => (sl_step s | sl_dim s * sl_step s') /\ steps_divide l' | _ => True end.
(* in all dimensions but the fastest *)
Definition steps_fit (c_order : bool) (l : list slice) : Prop := steps_divide (tl (if c_order then rev l else l)).
