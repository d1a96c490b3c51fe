From Coq Require Import List Bool Arith ZArith.
Import ListNotations.

(* np.count_nonzero and np.nonzero in Fortran. *)

Inductive order := OC | OF.        (* None, the order of arrays of rank 1, is read as OF *)
(* what is printed: count(mask), count(mask, dim = d), reshape([e], [s]) *)
Inductive fexpr := Count | CountDim (d : nat) | Reshape (e : fexpr) (s : list nat).

Definition set_at (k v : nat) (l : list nat) : list nat := firstn k l ++ v :: skipn (S k) l.
(* pyccel/ast/numpyext.py:3250-3262: the shape of the result with keepdims *)
Definition keep_shape (sh : list nat) (axis : option nat) : list nat :=
  match axis with
  | None => repeat 1 (length sh)
  | Some k => set_at k 1 sh
  end.
(* pyccel/codegen/printing/fcode.py:1944-1948, 1962-1966: extents are printed in reverse for order C *)
Definition print_shape (o : order) (s : list nat) : list nat :=
  match o with OC => rev s | OF => s end.
(* pyccel/codegen/printing/fcode.py:1951-1956 *)
Definition f_dim (o : order) (rank axis : nat) : nat :=
  match o with OC => rank - axis | OF => axis + 1 end.
(* pyccel/codegen/printing/fcode.py:1928-1968 (_print_NumpyCountNonZero); the axis is a literal
   that is not negative, as numpyext.py:3245-3246 rejects others.  Simplified: kinds are left out. *)
Definition print_count (o : order) (sh : list nat) (axis : option nat) (keepdims : bool) : fexpr :=
  let stmt := match axis with
              | None => Count
              | Some k => CountDim (f_dim o (length sh) k)
              end in
  if keepdims then Reshape stmt (print_shape o (keep_shape sh axis)) else stmt.

(* The mask, fcode.py:1933-1936 and 2140-2146: the array itself if logical, else array /= 0.
   Logical values are numbers here. *)
Definition mask (x : Z) : bool := negb (x =? 0)%Z.
(* pyccel/codegen/printing/fcode.py:1910-1926 (_print_NumpyNonZeroElement) with
   3102-3126 (_print_PythonRange): pack([(i, i = 0, n - 1)], mask); bounds of i, arrays of rank 1 *)
Definition pack_bounds (n : nat) : Z * Z := (0, Z.of_nat n - 1)%Z.
