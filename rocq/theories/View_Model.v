(* How a NumPy array is handed to a translated function: the checks of the wrapper, the three
   lists of integers computed from the shape and strides, and the array the function sees.
   Sources: pyccel/stdlib/cwrapper/cwrapper.c 180-227 (get_strides_and_shape_from_numpy_array),
   234-258 (to_pyarray), 323-346 (_check_pyarray_rank), 362-395 (_check_pyarray_order), 439-486
   (pyarray_check), pyccel/codegen/wrapper/c_to_python_wrapper.py 1559-1632 (_get_array_parts),
   3202-3340 (_extract_NumpyNDArrayType_FunctionDefArgument), and
   pyccel/codegen/wrapper/fortran_to_c_wrapper.py 491-572 (the same for Fortran).
   Simplifications: the type of the elements is not modelled; integers do not overflow.  Not in
   the repository, and taken as known: a slice {0, u, s} of a span of the STC library asserts
   0 < u <= the size and has (u - 1) / s + 1 elements for s > 0 (a step <= 0 is ignored, and here
   an error); a Fortran pointer slice 1:u:s must be within the bounds, and s is not 0. *)
From Coq Require Import Bool Arith ZArith Lia List.
Import ListNotations.
Open Scope Z_scope.
Open Scope list_scope.

(* base: PyArray_BASE is not NULL *)
Record nparray := mk_array { a_base : bool; a_item : Z; a_shape : list Z; a_strides : list Z }.

(* ------------------------------ checks ------------------------------ *)

Fixpoint decreasing (l : list Z) : bool :=
  match l with a :: ((b :: _) as l') => (b <=? a) && decreasing l' | _ => true end.
Fixpoint increasing (l : list Z) : bool :=
  match l with a :: ((b :: _) as l') => (a <=? b) && increasing l' | _ => true end.
(* 362-395 *)
Definition check_order (c_order : bool) (a : nparray) : bool :=
  if c_order then decreasing (a_strides a) else increasing (a_strides a).
(* 323-346 *)
Definition check_rank (rank : nat) (allow_empty : bool) (a : nparray) : bool :=
  Nat.eqb (length (a_shape a)) rank && (allow_empty || forallb (fun n => negb (n =? 0)) (a_shape a)).
(* 439-486: false is a TypeError *)
Definition array_check (c_order : bool) (rank : nat) (allow_empty : bool) (a : nparray) : bool :=
  check_rank rank allow_empty a && (if (1 <? rank)%nat then check_order c_order a else true).

(* ------------------------------ shape and strides ------------------------------ *)

(* one dimension of the view: base_shape, ubounds, strides *)
Record part := mk_part { p_base : Z; p_ubound : Z; p_stride : Z }.

(* the loop of 218-223, without its first dimension.  cur: current_shape; the shape and strides
   from dimension i on; the result for dimensions i, i+1, ...  The base of a dimension is
   computed from the stride of the next one *)
Fixpoint f_loop (cur : Z) (shape strides : list Z) : list part :=
  match shape, strides with
  | [n], _ => [mk_part (n * 1) n 1]
  | n :: shape', _ :: ((st :: _) as strides') =>
    let b := Z.quot st cur in
    mk_part b n 1 :: f_loop (cur * b) shape' strides'
  | _, _ => []
  end.
(* 215-225: Fortran order, the first dimension first *)
Definition f_parts (item : Z) (shape strides : list Z) : list part :=
  match shape, strides with
  | [n], st :: _ =>
    let s := Z.quot st item in [mk_part (n * s) ((n - 1) * s + 1) s]
  | n :: shape', st :: ((st' :: _) as strides') =>
    let s := Z.quot st item in
    let b := Z.quot st' item in
    mk_part b ((n - 1) * s + 1) s :: f_loop (item * b) shape' strides'
  | _, _ => []
  end.
(* 180-227.  The loop for C order (202-213) is the one for Fortran order from the last dimension
   to the first *)
Definition get_parts (c_order : bool) (a : nparray) : list part :=
  if negb (a_base a) then map (fun n => mk_part n n 1) (a_shape a)
  else if c_order then rev (f_parts (a_item a) (rev (a_shape a)) (rev (a_strides a)))
  else f_parts (a_item a) (a_shape a) (a_strides a).

(* ------------------------------ what the function sees ------------------------------ *)

(* the distance of neighbours in each dimension, in elements, of an array without gaps *)
Fixpoint row_major (shape : list Z) : list Z :=
  match shape with [] => [] | _ :: shape' => fold_right Z.mul 1 shape' :: row_major shape' end.
Fixpoint col_major_from (d : Z) (shape : list Z) : list Z :=
  match shape with [] => [] | n :: shape' => d :: col_major_from (d * n) shape' end.
Definition col_major (shape : list Z) : list Z := col_major_from 1 shape.

(* an array in the translated function: the shape, and the distance of neighbours in elements *)
Record seen := mk_seen { s_shape : list Z; s_steps : list Z }.
Definition legal (p : part) : bool := (0 <? p_stride p) && (0 <? p_ubound p) && (p_ubound p <=? p_base p).
Definition count (p : part) : Z := Z.quot (p_ubound p - 1) (p_stride p) + 1.

Inductive lang := LC | LFortran.
(* C, c_to_python_wrapper.py 3316-3331: the array of shape base_shape in the order of the
   argument, and the slices [:u:s] of it *)
Definition c_view (c_order : bool) (ps : list part) : option seen :=
  if forallb legal ps then
    Some (mk_seen (map count ps)
            (map (fun q => p_stride (fst q) * snd q) (combine ps ((if c_order then row_major else col_major) (map p_base ps)))))
  else None.
(* Fortran, fortran_to_c_wrapper.py 534-570: c_f_pointer with the shape, which is reversed for
   C order; the slices 1:u:s.  An index list of the translated function is reversed for C order
   (see Index_Model): here the result is in the order of Python *)
Definition f_view (c_order : bool) (ps : list part) : option seen :=
  let bases := map p_base ps in
  let dist := if c_order then rev (col_major (rev bases)) else col_major bases in
  if forallb legal ps then
    Some (mk_seen (map count ps) (map (fun q => p_stride (fst q) * snd q) (combine ps dist)))
  else None.
Definition view (l : lang) (c_order : bool) (ps : list part) : option seen :=
  match l with LC => c_view c_order ps | LFortran => f_view c_order ps end.

(* None: a TypeError; Some None: undefined *)
Definition pass_array (l : lang) (c_order : bool) (rank : nat) (allow_empty : bool) (a : nparray) : option (option seen) :=
  if array_check c_order rank allow_empty a then Some (view l c_order (get_parts c_order a)) else None.

(* where an element is, in bytes after the data pointer *)
Fixpoint dot (k l : list Z) : Z := match k, l with a :: k', b :: l' => a * b + dot k' l' | _, _ => 0 end.
Definition seen_address (item : Z) (s : seen) (k : list Z) : Z := item * dot k (s_steps s).

(* ------------------------------ results ------------------------------ *)

(* to_pyarray, 234-258: the strides that NumPy computes from the flags.  The array has a base (a
   capsule) if it owns the memory *)
Definition to_pyarray (c_order release_memory : bool) (item : Z) (shape : list Z) : nparray :=
  mk_array release_memory item shape
    (map (fun d => item * d) (if (Nat.eqb (length shape) 1) || c_order then row_major shape else col_major shape)).
