(* Python's indices, slices and ranges. *)
From Coq Require Import ZArith List Bool Arith.
From Verif Require Import Common Index_Model.
Import ListNotations.
Open Scope list_scope.
Open Scope Z_scope.

(* range(a, b, c): a, a + c, a + 2c, ... as long as before b.  CPython computes
   the length: *)
Definition range_len (a b c : Z) : Z :=
  if c >? 0 then (if a <? b then (b - a - 1) / c + 1 else 0)
  else (if b <? a then (a - b - 1) / (- c) + 1 else 0).
Definition py_range (a b c : Z) : list Z :=
  map (fun i => a + Z.of_nat i * c) (seq 0 (Z.to_nat (range_len a b c))).

(* The index Python uses for position i of a sequence of length n. *)
Definition py_index (n i : Z) : Z := if i <? 0 then i + n else i.
Definition valid_index (n i : Z) : Prop := - n <= i < n.

(* slice(start, stop, step).indices(n), CPython's PySlice_AdjustIndices *)
Definition py_slice_start (n c : Z) (b : option Z) : Z :=
  match b with
  | None => if c <? 0 then n - 1 else 0
  | Some v =>
      if v <? 0 then (let v := v + n in if v <? 0 then (if c <? 0 then -1 else 0) else v)
      else if n <=? v then (if c <? 0 then n - 1 else n) else v
  end.
Definition py_slice_stop (n c : Z) (b : option Z) : Z :=
  match b with
  | None => if c <? 0 then -1 else n
  | Some v =>
      if v <? 0 then (let v := v + n in if v <? 0 then (if c <? 0 then -1 else 0) else v)
      else if n <=? v then (if c <? 0 then n - 1 else n) else v
  end.
(* the positions selected, in order *)
Definition py_slice (n : Z) (start stop step : option Z) : list Z :=
  let c := match step with Some c => c | None => 1 end in
  py_range (py_slice_start n c start) (py_slice_stop n c stop) c.
Definition py_slice_of (n : Z) (s : slice) : list Z :=
  py_slice n (option_map ix_val (s_start s)) (option_map ix_val (s_stop s)) (option_map ix_val (s_step s)).

(* As written in a program: literals are not negative. *)
Definition written (b : ix) : Prop :=
  match b with Lit z => 0 <= z | Neg k => 0 <= k | Ex _ => True end.
(* -0 is not written, and negative values only come from literals unless the
   decorator allows them *)
Definition usable (allow : bool) (b : ix) : Prop :=
  written b /\ b <> Neg 0 /\ (allow = false -> forall v, b = Ex v -> 0 <= v).
(* bounds of a slice in range: between the two ends of the array *)
Definition bound_in (n : Z) (b : ix) : Prop := - n <= ix_val b <= n.
Definition slice_in_range (allow : bool) (n : Z) (s : slice) : Prop :=
  (forall b, s_start s = Some b -> usable allow b /\ bound_in n b) /\
  (forall b, s_stop s = Some b -> usable allow b /\ bound_in n b) /\
  (forall c, s_step s = Some c -> written c /\ ix_val c <> 0).
(* Going backwards, Python moves a start past the end to the last element. *)
Definition start_below (n : Z) (s : slice) : Prop :=
  forall b, s_start s = Some b -> ix_val b < n.

Definition step_of (s : slice) : Z := match s_step s with Some c => ix_val c | None => 1 end.
(* With allow_negative_index, a step that is no literal and a stop: the one case
   that goes wrong in Fortran. *)
Definition misses_minus_one (allow : bool) (s : slice) : Prop :=
  allow = true /\ s_stop s <> None /\ exists st, s_step s = Some (Ex st) /\ 0 < st.
(* where the slice starts and ends, as positions *)
Definition lo (n : Z) (b : option ix) (d : Z) : Z := match b with Some b => py_index n (ix_val b) | None => d end.
(* the two ends are in the order the step asks for *)
Definition forwards (n : Z) (s : slice) : Prop :=
  if step_of s <? 0 then lo n (s_stop s) (-1) <= lo n (s_start s) (n - 1)
  else lo n (s_start s) 0 <= lo n (s_stop s) n.
(* Backwards, the start is given, or the step is a literal and there is no stop. *)
Definition item_ok (s : slice) : Prop :=
  step_of s < 0 -> s_start s <> None \/ (s_stop s = None /\ forall st, s_step s <> Some (Ex st)).

(* element of shape idx *)
Definition in_shape (shape idx : list Z) : Prop := Forall2 (fun n i => 0 <= i < n) shape idx.
(* NumPy's address of an element in units of the item size: C order has the last
   index fastest, F order the first *)
Fixpoint dot (a b : list Z) : Z :=
  match a, b with x :: a', y :: b' => x * y + dot a' b' | _, _ => 0 end.
Fixpoint c_strides (shape : list Z) : list Z :=
  match shape with [] => [] | _ :: r => fold_right Z.mul 1 r :: c_strides r end.
Fixpoint f_strides (acc : Z) (shape : list Z) : list Z :=
  match shape with [] => [] | n :: r => acc :: f_strides (acc * n) r end.
Definition numpy_offset (o : order) (shape idx : list Z) : Z :=
  match o with OrdC => dot idx (c_strides shape) | OrdF => dot idx (f_strides 1 shape) end.
(* number of elements *)
Definition prod (l : list Z) : Z := fold_right Z.mul 1 l.

(* Python's for over a range: the bounds are computed once, the variable is set
   to each value in turn, and keeps the last value (or what the body left). *)
Section L.
Context {S : Type}.
Fixpoint py_each (vals : list Z) (body : Z -> S -> Z * S) (i : Z) (s : S) : Z * S :=
  match vals with
  | [] => (i, s)
  | v :: r => let '(i', s') := body v s in py_each r body i' s'
  end.
Definition py_for (r : range S) (body : Z -> S -> Z * S) (i0 : Z) (s0 : S) : Z * S :=
  py_each (py_range (r_start r i0 s0) (r_stop r i0 s0) (r_step r i0 s0)) body i0 s0.
(* the step written as a literal has that value *)
Definition lit_ok (r : range S) : Prop := forall k, r_lit r = Some k -> forall i s, r_step r i s = k.
Definition keeps_variable (body : Z -> S -> Z * S) : Prop := forall v s, fst (body v s) = v.
(* stop and step have the same value whatever the loop variable and after the body *)
Definition keeps_bounds (r : range S) (body : Z -> S -> Z * S) : Prop :=
  (forall i j s, r_stop r i s = r_stop r j s /\ r_step r i s = r_step r j s) /\
  (forall v s, r_stop r v (snd (body v s)) = r_stop r v s /\ r_step r v (snd (body v s)) = r_step r v s).
End L.
