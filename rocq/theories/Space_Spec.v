(** What np.arange and np.linspace are in NumPy. *)

From Coq Require Import List ZArith Bool QArith Qcanon Qround.
From Verif Require Import Space_Model.
Import ListNotations.

(* A value is before the stop, in the direction of the step. *)
Definition before_int (step v stop : Z) : Prop :=
  ((0 < step)%Z /\ (v < stop)%Z) \/ ((step < 0)%Z /\ (stop < v)%Z).

Definition before (step v stop : Qc) : Prop :=
  ((0 < step)%Qc /\ (v < stop)%Qc) \/ ((step < 0)%Qc /\ (stop < v)%Qc).

(* np.arange: the values start + k * step, for the natural numbers k for which
   they are before the stop; [n] of them. *)
Definition is_arange (start stop step : Qc) (n : nat) (vs : list Qc) : Prop :=
  List.length vs = n /\
  (forall k : nat, (k < n)%nat <-> before step (start + num (Z.of_nat k) * step)%Qc stop) /\
  (forall k : nat, (k < n)%nat ->
     nth_error vs k = Some (start + num (Z.of_nat k) * step)%Qc).

(* With an integer dtype NumPy converts the first two values and goes on with
   their difference. *)
Definition numpy_int_element (start step : Qc) (k : nat) : Qc :=
  (truncate start + num (Z.of_nat k) * (truncate (start + step) - truncate start))%Qc.

(* np.linspace: n values from the start, equally spaced; with the endpoint the
   last one is the stop, except if there is only one, without it the stop is
   the value which would follow the last one. *)
Definition numpy_linspace (a b : Qc) (n : nat) (included : bool) (k : nat) : Qc :=
  match n, included with
  | 1%nat, true => a
  | _, true => (a + num (Z.of_nat k) * ((b - a) / num (Z.of_nat n - 1)))%Qc
  | _, false => (a + num (Z.of_nat k) * ((b - a) / num (Z.of_nat n)))%Qc
  end.

(* With an integer dtype all the values are rounded down. *)
Definition numpy_cell (d : dtype) (q : Qc) : Qc :=
  match d with Int => num (Qfloor q) | Float => q end.

Definition is_linspace (d : dtype) (a b : Qc) (n : nat) (included : bool)
  (m : list (option Qc)) : Prop :=
  List.length m = n /\
  forall k, (k < n)%nat ->
    nth_error m k = Some (Some (numpy_cell d (numpy_linspace a b n included k))).
