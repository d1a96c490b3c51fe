(* Specification of extremal elements, matrix products and the cross product. *)
From Coq Require Import ZArith List.
Import ListNotations.

(* A strict total order with decidable equality (floats without NaN). *)
Record total_order {R : Type} (ltb eqb : R -> R -> bool) : Prop := {
  to_eq : forall x y, eqb x y = true <-> x = y;
  to_irrefl : forall x, ltb x x = false;
  to_trans : forall x y z, ltb x y = true -> ltb y z = true -> ltb x z = true;
  to_total : forall x y, ltb x y = true \/ x = y \/ ltb y x = true }.

(* NumPy's order of complex numbers: by real part, then by imaginary part. *)
Definition lex_le {R : Type} (ltb : R -> R -> bool) (a b : R * R) : Prop :=
  ltb (fst a) (fst b) = true \/
  (fst a = fst b /\ (ltb (snd a) (snd b) = true \/ snd a = snd b)).

(* x0*y0 + x1*y1 + ... summed from the left, starting at 0. *)
Fixpoint dot {A} (add mul : A -> A -> A) (acc : A) (xs ys : list A) : A :=
  match xs, ys with
  | x :: xs', y :: ys' => dot add mul (add acc (mul x y)) xs' ys'
  | _, _ => acc
  end.

(* Row-major matrices given as a list of rows. *)
Definition is_matrix {A} (n m : nat) (M : list (list A)) : Prop :=
  length M = n /\ forall r, In r M -> length r = m.
Definition row {A} (M : list (list A)) (i : nat) : list A := nth i M [].
Definition column {A} (d : A) (M : list (list A)) (k : nat) : list A :=
  map (fun r => nth k r d) M.

(* Determinant of three vectors; v . (a x b) = det(v,a,b) characterises the
   cross product. *)
Open Scope Z_scope.
Definition det3 (v a b : Z * Z * Z) : Z :=
  let '(v1, v2, v3) := v in let '(a1, a2, a3) := a in let '(b1, b2, b3) := b in
  v1 * (a2 * b3 - a3 * b2) - v2 * (a1 * b3 - a3 * b1) + v3 * (a1 * b2 - a2 * b1).
