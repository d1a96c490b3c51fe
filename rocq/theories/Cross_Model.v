(** Model of np.cross: the axes, the shape of the result, the loops and the
    assignments of the three components.  The generated code is the same in C
    and in Fortran.  *)
From Coq Require Import List ZArith Bool.
Import ListNotations.

(** One dimension: its size, and whether the compiler knows it. *)
Notation dim := (nat * bool)%type.

Definition known_one (d : dim) : bool := snd d && Nat.eqb (fst d) 1.

(** ** The node *)

Record cross := Cross {
  na : nat; nb : nat; nc : nat;           (* the arrays a, b and c *)
  sa : list dim; sb : list dim; sc : list dim;
  xa : nat; xb : nat; xc : nat            (* the axes *)
}.

(** broadcast, for shapes with as many dimensions. pyccel/ast/operators.py:
    122-157: [None] is the error. Sizes which are not known are taken to be
    different expressions. *)
Definition join (d e : dim) : option dim :=
  if snd d && snd e && Nat.eqb (fst d) (fst e) then Some d
  else if known_one d then Some e
  else if known_one e then Some d
  else if snd d && negb (snd e) then Some d
  else if snd e && negb (snd d) then Some e
  else if negb (snd d) && negb (snd e) then Some d
  else None.

Fixpoint broadcast (S T : list dim) : option (list dim) :=
  match S, T with
  | [], [] => Some []
  | d :: S', e :: T' =>
      match join d e, broadcast S' T' with
      | Some x, Some l => Some (x :: l)
      | _, _ => None
      end
  | _, _ => None
  end.

(** NumpyCross.__init__, the axes. pyccel/ast/numpyext.py:3607-3620. *)
Definition axis_of (rank : nat) (x : Z) : nat :=
  Z.to_nat (if (x <? 0)%Z then x + Z.of_nat rank else x).

(** _build_NumpyCross and NumpyCross.__init__.
    pyccel/parser/semantic.py:8466-8483, pyccel/ast/numpyext.py:3605-3624: the
    result has the shape of [a + b]. [None]: Pyccel stops. *)
Definition make (a b c : nat) (Sa Sb : list dim) (axisa axisb axisc : Z)
    (axis : option Z) : option cross :=
  match broadcast Sa Sb with
  | Some Sc =>
      let pick x := match axis with Some y => y | None => x end in
      Some (Cross a b c Sa Sb Sc
              (axis_of (length Sa) (pick axisa))
              (axis_of (length Sb) (pick axisb))
              (axis_of (length Sc) (pick axisc)))
  | None => None
  end.

(** n_indices. pyccel/ast/numpyext.py:3677-3684. *)
Definition n_indices (s : cross) : nat := length (sa s) - 1.

(** ** The indices *)

(** An index: the literal 0, a loop index, or the slice which is then indexed
    with the component. *)
Inductive ix := Zero | Var (k : nat) | Comp.

(** list.insert. *)
Fixpoint insert_at (k : nat) (x : ix) (l : list ix) : list ix :=
  match k, l with
  | O, _ => x :: l
  | Datatypes.S k', y :: l' => y :: insert_at k' x l'
  | Datatypes.S _, [] => [x]
  end.

(** insert_indices: the loop indices are zipped with the whole shape.
    pyccel/ast/numpyext.py:3704-3722. *)
Definition zipped (vars : list nat) (S : list dim) : list ix :=
  map (fun p => if known_one (snd p) then Zero else Var (fst p)) (combine vars S).

Record leaf := Leaf { la : list ix; lb : list ix; lc : list ix }.

Definition insert_indices (s : cross) (vars : list nat) : leaf :=
  Leaf (insert_at (xa s) Comp (zipped vars (sa s)))
       (insert_at (xb s) Comp (zipped vars (sb s)))
       (insert_at (xc s) Comp (zipped vars (sc s))).

(** ** The loops *)

Inductive code :=
| Three (a b c : nat) (l : leaf)
| For (v : nat) (n : nat) (body : code).

(** substitute(indices[level], LiteralInteger(0)). *)
Definition sub_ix (v : nat) (x : ix) : ix :=
  match x with Var k => if Nat.eqb k v then Zero else x | _ => x end.

Definition sub_leaf (v : nat) (l : leaf) : leaf :=
  Leaf (map (sub_ix v) (la l)) (map (sub_ix v) (lb l)) (map (sub_ix v) (lc l)).

Fixpoint subst (v : nat) (p : code) : code :=
  match p with
  | Three a b c l => Three a b c (sub_leaf v l)
  | For w n body => For w n (subst v body)
  end.

(** The loops of collect_loops and insert_fors.
    pyccel/ast/utilities.py:526-533 and 925-948: the loop at depth [level] uses
    the index [level] of the block. *)
Fixpoint insert_fors (level : nat) (S : list dim) (body : code) : code :=
  match S with
  | [] => body
  | d :: S' =>
      let inner := insert_fors (Datatypes.S level) S' body in
      if known_one d then subst level inner else For level (fst d) inner
  end.

Fixpoint remove_at (k : nat) (S : list dim) : list dim :=
  match k, S with
  | _, [] => []
  | O, _ :: S' => S'
  | Datatypes.S k', d :: S' => d :: remove_at k' S'
  end.

(** The shape of the loops. pyccel/ast/utilities.py:524-529. *)
Definition loop_shape (s : cross) : list dim :=
  map (fun p => if known_one (fst p) then snd p else fst p)
    (combine (remove_at (xa s) (sa s)) (remove_at (xb s) (sb s))).

(** collect_loops, for a cross product, when the block already has [p]
    indices. pyccel/ast/utilities.py:518-535. *)
Definition unroll (p : nat) (s : cross) : code :=
  match n_indices s with
  | O => Three (na s) (nb s) (nc s) (insert_indices s [])
  | n => insert_fors 0 (loop_shape s)
           (Three (na s) (nb s) (nc s) (insert_indices s (seq p n)))
  end.

Fixpoint unroll_block (p : nat) (b : list cross) : list code :=
  match b with
  | [] => []
  | s :: b' => unroll p s :: unroll_block (p + n_indices s) b'
  end.

(** ** Running *)

(** An element of an array, and the values of the loop indices. *)
Definition loc := (nat * list nat)%type.
Definition mem := loc -> Z.
Definition env := nat -> nat.

Definition locb (x y : loc) : bool :=
  Nat.eqb (fst x) (fst y) &&
  (if list_eq_dec Nat.eq_dec (snd x) (snd y) then true else false).

Definition put (m : mem) (t : loc) (v : Z) : mem :=
  fun l => if locb l t then v else m l.

Definition value (e : env) (k : nat) (x : ix) : nat :=
  match x with Zero => 0 | Var v => e v | Comp => k end.

Definition at_ (e : env) (k : nat) (l : list ix) : list nat := map (value e k) l.

(** _print_NumpyCross, and the subroutine cross_product.
    pyccel/codegen/printing/ccode.py:2958-2979,
    pyccel/stdlib/math/pyc_math_f90.F90:473-475. *)
Definition three (a b c : nat) (l : leaf) (e : env) (m : mem) : mem :=
  let A k (m : mem) := m (a, at_ e k (la l)) in
  let B k (m : mem) := m (b, at_ e k (lb l)) in
  let C k := (c, at_ e k (lc l)) in
  let m0 := put m (C 0) (A 1%nat m * B 2%nat m - A 2%nat m * B 1%nat m)%Z in
  let m1 := put m0 (C 1) (A 2%nat m0 * B 0%nat m0 - A 0%nat m0 * B 2%nat m0)%Z in
  put m1 (C 2) (A 0%nat m1 * B 1%nat m1 - A 1%nat m1 * B 0%nat m1)%Z.

Definition set_var (e : env) (v i : nat) : env :=
  fun w => if Nat.eqb w v then i else e w.

Fixpoint run (p : code) (st : env * mem) : env * mem :=
  match p with
  | Three a b c l => (fst st, three a b c l (fst st) (snd st))
  | For v n body =>
      fold_left (fun st i => run body (set_var (fst st) v i, snd st)) (seq 0 n) st
  end.

Fixpoint run_block (b : list code) (st : env * mem) : env * mem :=
  match b with
  | [] => st
  | p :: b' => run_block b' (run p st)
  end.
