(* Addressing, negative indices, slices and range loops.

   Expressions are modelled by what the printers look at (is it a literal, a
   minus sign in front of a literal, or anything else) together with the value
   they have when the statement runs.  Sizes and indices are unbounded
   integers, except the loop counter of the C loop, which has a width. *)
From Coq Require Import ZArith List Bool Arith.
From Verif Require Import Common.
Import ListNotations.
Open Scope list_scope.
Open Scope Z_scope.

(* A bound or index: literal z (>= 0), -k with k a literal, or an expression
   with value v.  (ast/utilities.py:1093-1115, is_literal_integer) *)
Inductive ix := Lit (z : Z) | Neg (k : Z) | Ex (v : Z).
Definition ix_val (b : ix) : Z := match b with Lit z => z | Neg k => - k | Ex v => v end.

(* ast/variable.py:711-731, make_positive: int(idx) < 0 holds only for Neg k with
   k > 0; shape + idx is then an expression.  (If the shape is a literal the sum
   is folded to a literal of the same value; for indices in range this makes no
   difference to what follows.) *)
Definition make_positive (n : Z) (b : ix) : ix :=
  match b with
  | Neg k => if - k <? 0 then Ex (n + - k) else b
  | _ => b
  end.

(* ---- a single index ---- *)

(* ccode.py:2236-2255.  allow is the decorator allow_negative_index. *)
Definition c_index (allow : bool) (n : Z) (b : ix) : Z :=
  let b := make_positive n b in
  match b with
  | Neg k => if - k <? 0 then n - k else if allow then (if - k <? 0 then n + - k else - k) else - k
  | Lit z => z
  | Ex v => if allow then (if v <? 0 then n + v else v) else v
  end.
(* ccode.py:2213-2229: an index that is not a slice, beside slices, in a
   cspan_slice: printed as it is. *)
Definition c_index_in_slice (allow : bool) (n : Z) (b : ix) : Z := ix_val (make_positive n b).
(* fcode.py:4083-4098 *)
Definition f_index (allow : bool) (n : Z) (b : ix) : Z :=
  let b := make_positive n b in
  match b with
  | Neg k => n - k
  | Lit z => z
  | Ex v => if allow then (if v <? 0 then n + v else v) else v
  end.

(* ---- slices ---- *)
Record slice := mkSlice { s_start : option ix; s_stop : option ix; s_step : option ix }.

(* ast/variable.py:715-720 *)
Definition positive_slice (n : Z) (s : slice) : slice :=
  mkSlice (option_map (make_positive n) (s_start s)) (option_map (make_positive n) (s_stop s)) (s_step s).

(* fcode.py:4150-4180 (start and stop before the step is looked at) *)
Definition f_bound (allow : bool) (n : Z) (b : ix) : Z :=
  match b with
  | Neg k => n - k
  | Lit z => z
  | Ex v => if allow then (if v <? 0 then n + v else v) else v
  end.
(* fcode.py:4124-4223: start, stop and step of the Fortran section (None: left out) *)
Definition f_slice (allow : bool) (n : Z) (s : slice) : option Z * option Z * option Z :=
  let s := positive_slice n s in
  let start := option_map (f_bound allow n) (s_start s) in
  let stop := option_map (f_bound allow n) (s_stop s) in
  match s_step s with
  | Some (Neg k) =>
      (Some (match start with Some v => v | None => n - 1 end),
       Some (match stop with Some v => v + 1 | None => 0 end),
       Some (- k))
  | Some (Ex st) =>
      if allow then
        (Some (match start with Some v => v | None => if st >? 0 then 0 else n - 1 end),
         Some (match stop with
               | None => if st >? 0 then n - 1 else 0
               | Some v => if st >? 0 then v else v + 1
               end),
         Some st)
      else (start, option_map (fun v => v - 1) stop, Some st)
  | Some (Lit st) => (start, option_map (fun v => v - 1) stop, Some st)
  | None => (start, option_map (fun v => v - 1) stop, None)
  end.

(* Fortran 2018 9.5.3.3.2: the elements of the section start:stop:step of an
   array with bounds 0 and n-1 (allocated by fcode.py:2622-2629); the number of
   subscripts is that of the DO loop (11.1.7.4.1). *)
Definition f_count (m1 m2 m3 : Z) : nat := Z.to_nat (Z.max 0 (Z.quot (m2 - m1 + m3) m3)).
Definition progression (start step : Z) (count : nat) : list Z :=
  map (fun i => start + Z.of_nat i * step) (seq 0 count).
Definition f_section (n : Z) (t : option Z * option Z * option Z) : list Z :=
  let '(a, b, c) := t in
  let a := match a with Some v => v | None => 0 end in
  let b := match b with Some v => v | None => n - 1 end in
  let c := match c with Some v => v | None => 1 end in
  progression a c (f_count a b c).

(* ccode.py:2325-2414 and 2578-2592.  None: NotImplementedError.  The result is
   what is between the braces: start, stop (None: c_END), step. *)
Definition c_bound (allow : bool) (n : Z) (b : ix) : Z :=
  match b with
  | Neg k => n - k
  | Lit z => z
  | Ex v => if allow then (if v <? 0 then n + v else v) else v
  end.
Definition c_slice (allow : bool) (n : Z) (s : slice) : option (Z * option Z * Z) :=
  let s := positive_slice n s in
  let start := match s_start s with None => 0 | Some b => c_bound allow n b end in
  let stop := option_map (c_bound allow n) (s_stop s) in
  match s_step s with
  | Some (Neg _) => None
  | Some (Ex st) => if allow then None else Some (start, stop, st)
  | Some (Lit st) => Some (start, stop, st)
  | None => Some (start, stop, 1)
  end.
(* cspan_slice of STC: from start while before stop, by step. *)
Fixpoint count_up (fuel : nat) (start stop step : Z) : list Z :=
  match fuel with
  | O => []
  | S f => if start <? stop then start :: count_up f (start + step) stop step else []
  end.
Definition c_section (n : Z) (t : Z * option Z * Z) : list Z :=
  let '(a, b, c) := t in
  let b := match b with Some v => v | None => n end in
  count_up (Z.to_nat (b - a)) a b c.

(* ast/variable.py:764-793, the length given to a slice.  MathCeil of a float
   division: exact for sizes below 2^53, modelled by the exact ceiling. *)
Definition ceil_div (a b : Z) : Z := - ((- a) / b).
Definition unpack_bound (allow : bool) (n : Z) (default : Z) (b : option ix) : Z :=
  match b with
  | None => default
  | Some (Lit z) => z
  | Some (Neg k) => if - k <? 0 then - k + n else - k
  | Some (Ex v) => if allow then (if v <? 0 then v + n else v) else v
  end.
Definition slice_len (allow : bool) (n : Z) (s : slice) : Z :=
  match s_step s with
  | Some (Neg k) =>
      let start := unpack_bound allow n (-1) (s_stop s) in
      let stop := unpack_bound allow n (n - 1) (s_start s) in
      ceil_div (stop - start) k
  | None => unpack_bound allow n n (s_stop s) - unpack_bound allow n 0 (s_start s)
  | Some st =>
      let d := unpack_bound allow n n (s_stop s) - unpack_bound allow n 0 (s_start s) in
      ceil_div (if allow then Z.abs d else d) (ix_val st)
  end.

(* ast/variable.py:870-904: element k of a slice, as an index of the base.  The
   slice is the stored one (negative literals already replaced). *)
Definition slice_item (n : Z) (s : slice) (k : ix) : ix :=
  let s := positive_slice n s in
  let is1 (b : ix) := match b with Lit 1 => true | _ => false end in
  let is0 (b : ix) := match b with Lit 0 => true | _ => false end in
  let incr := match s_step s with
              | None => k
              | Some st => if is1 st then k else Ex (ix_val st * ix_val k)
              end in
  match s_start s with
  | Some st => if is0 st then incr else Ex (ix_val st + ix_val incr)
  | None =>
      match s_step s with
      | Some (Neg q) =>
          if - q <? 0 then
            match s_stop s with
            | None => Ex ((n - 1) + ix_val incr)
            | Some e => Ex (ix_val e + ix_val incr)
            end
          else incr
      | _ => incr
      end
  end.

(* ---- elements of arrays in memory ---- *)
(* Strides of a block with the last index moving fastest, and offset of an element. *)
Fixpoint row_offset (shape idx : list Z) : Z :=
  match shape, idx with
  | n :: shape', i :: idx' => i * fold_right Z.mul 1 shape' + row_offset shape' idx'
  | _, _ => 0
  end.
Inductive order := OrdC | OrdF.
(* ccode.py:2500-2508, 2277: cspan_md_layout(order, ptr, shape) then cspan_at(a, i0, ..., in):
   strides of STC for the order asked. *)
Definition c_offset (o : order) (shape idx : list Z) : Z :=
  match o with OrdC => row_offset shape idx | OrdF => row_offset (rev shape) (rev idx) end.
(* Fortran 2018 9.5.3.2: offset of element idx of an array with lower bounds 0:
   the first subscript moves fastest. *)
Fixpoint f_offset (shape idx : list Z) : Z :=
  match shape, idx with
  | n :: shape', i :: idx' => i + n * f_offset shape' idx'
  | _, _ => 0
  end.
(* fcode.py:2622 (allocation) and 4071-4072 (indexing): both reversed unless F *)
Definition f_array_offset (o : order) (shape idx : list Z) : Z :=
  match o with
  | OrdF => f_offset shape idx
  | OrdC => f_offset (rev shape) (rev idx)
  end.
(* fcode.py:2083-2096: size(a, dim) of the array as printed for Python's dimension k *)
Definition f_shape_element (o : order) (shape : list Z) (k : nat) : option Z :=
  let rank := List.length shape in
  let fshape := match o with OrdC => rev shape | OrdF => shape end in
  let dim := if Nat.eqb rank 1 then 1%nat
             else match o with OrdC => (rank - k)%nat | OrdF => (k + 1)%nat end in
  nth_error fshape (dim - 1).
(* fcode.py:4075-4077: the dimension whose size is used for the i-th printed index *)
Definition f_index_dim (o : order) (rank i : nat) : nat :=
  match o with OrdC => (rank - i - 1)%nat | OrdF => i end.

(* ---- range loops ---- *)
(* The state: the loop variable and everything else.  start, stop and step are
   expressions over the state. *)
Section Loops.
Context {S : Type}.
Record range := mkRange { r_start : Z -> S -> Z; r_stop : Z -> S -> Z;
                          r_step : Z -> S -> Z; r_lit : option Z }.
(* r_lit: the value of the step if it is a literal (possibly with a minus) *)

(* ccode.py:3479-3507: for (i = start; cond; i += step) *)
Definition c_cond (r : range) (i : Z) (s : S) : bool :=
  match r_lit r with
  | Some k => if k <? 0 then r_stop r i s <? i else i <? r_stop r i s
  | None => if r_step r i s >? 0 then i <? r_stop r i s else r_stop r i s <? i
  end.
Fixpoint c_loop (w : Z) (fuel : nat) (r : range) (body : Z -> S -> Z * S) (i : Z) (s : S) : run (Z * S) :=
  match fuel with
  | O => NoFuel
  | Datatypes.S f =>
    if c_cond r i s then
      let '(i, s) := body i s in
      i <- chk w (i + r_step r i s) ;;
      c_loop w f r body i s
    else Ret (i, s)
  end.
Definition c_for (w : Z) (fuel : nat) (r : range) (body : Z -> S -> Z * S) (i0 : Z) (s0 : S) : run (Z * S) :=
  c_loop w fuel r body (r_start r i0 s0) s0.

(* fcode.py:3102-3128 and 3169-3180: do i = start, stop', step.  Fortran 2018
   11.1.7.4: the bounds and the iteration count are computed once; a body that
   assigns to the loop variable is not a valid program. *)
Definition f_stop (r : range) (i : Z) (s : S) : Z :=
  match r_lit r with
  | Some k => if k <? 0 then r_stop r i s + 1 else r_stop r i s - 1
  | None => if r_step r i s >? 0 then r_stop r i s - 1 else r_stop r i s + 1
  end.
Fixpoint f_loop (count : nat) (step : Z) (body : Z -> S -> Z * S) (i : Z) (s : S) : run (Z * S) :=
  match count with
  | O => Ret (i, s)
  | Datatypes.S c =>
      let '(i', s') := body i s in
      if i' =? i then f_loop c step body (i + step) s' else Undef
  end.
Definition f_for (r : range) (body : Z -> S -> Z * S) (i0 : Z) (s0 : S) : run (Z * S) :=
  let m1 := r_start r i0 s0 in
  let m2 := f_stop r i0 s0 in
  let m3 := r_step r i0 s0 in
  f_loop (f_count m1 m2 m3) m3 body m1 s0.
End Loops.
Arguments range : clear implicits.
