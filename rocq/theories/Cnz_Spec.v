From Coq Require Import List Bool Arith ZArith.
From Verif Require Import Cnz_Model.
Import ListNotations.

(* ---- Python ---- *)
(* An array is its shape and its elements by index. *)
Definition insert_at (k j : nat) (l : list nat) : list nat := firstn k l ++ j :: skipn k l.
Definition remove_at (k : nat) (l : list nat) : list nat := firstn k l ++ skipn (S k) l.
Fixpoint indices (sh : list nat) : list (list nat) :=
  match sh with
  | [] => [[]]
  | n :: s => flat_map (fun k => map (cons k) (indices s)) (seq 0 n)
  end.
Definition valid (sh i : list nat) : Prop := Forall2 lt i sh.
Definition number {A} (p : A -> bool) (l : list A) : nat := length (filter p l).
Definition nonzero (x : Z) : bool := negb (x =? 0)%Z.
(* np.count_nonzero(a) *)
Definition np_total (sh : list nat) (a : list nat -> Z) : nat :=
  number (fun i => nonzero (a i)) (indices sh).
(* np.count_nonzero(a, axis = k)[i] *)
Definition np_axis (sh : list nat) (a : list nat -> Z) (k : nat) (i : list nat) : nat :=
  number (fun j => nonzero (a (insert_at k j i))) (seq 0 (nth k sh 0)).
(* np.nonzero(a)[0] *)
Definition np_nonzero (n : nat) (a : nat -> Z) : list nat :=
  filter (fun i => nonzero (a i)) (seq 0 n).

(* ---- Fortran ---- *)
(* Extents and elements; subscripts counted from 0. *)
Record farray (A : Type) := FA { ext : list nat; el : list nat -> A }.
Arguments FA {A}. Arguments ext {A}. Arguments el {A}.
(* the array of Python in Fortran: dimensions in reverse for order C *)
Definition swap (o : order) (l : list nat) : list nat := match o with OC => rev l | OF => l end.
Definition stored (o : order) (sh : list nat) (a : list nat -> Z) : farray Z :=
  FA (swap o sh) (fun i => a (swap o i)).
(* position in array element order and back *)
Fixpoint position (s i : list nat) : nat :=
  match s, i with n :: s, x :: i => x + n * position s i | _, _ => 0 end.
Fixpoint index_of (s : list nat) (p : nat) : list nat :=
  match s with [] => [] | n :: s => p mod n :: index_of s (p / n) end.
(* the intrinsics count and reshape (Fortran 2018, 16.9.57, 16.9.163) *)
Fixpoint run (e : fexpr) (A : farray Z) : farray nat :=
  match e with
  | Count => FA [] (fun _ => number (fun i => mask (el A i)) (indices (ext A)))
  | CountDim d =>
      FA (remove_at (d - 1) (ext A))
         (fun i => number (fun j => mask (el A (insert_at (d - 1) j i))) (seq 0 (nth (d - 1) (ext A) 0)))
  | Reshape e s =>
      let r := run e A in FA s (fun i => el r (index_of (ext r) (position s i)))
  end.
(* the intrinsic pack on the values lo, ..., hi of an implied do; the mask must have as many
   elements as there are values *)
Definition pack (b : Z * Z) (m : list bool) : option (list Z) :=
  let l := map (fun k => fst b + Z.of_nat k)%Z (seq 0 (Z.to_nat (snd b - fst b + 1))) in
  if length l =? length m then Some (map fst (filter snd (combine l m))) else None.
