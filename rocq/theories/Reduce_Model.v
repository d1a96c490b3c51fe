(** Model of the reductions of NumPy (np.sum, np.min, np.max) along axes: the
    shape of the result, the indexing of a reduction while an array statement
    is turned into loops, and the scalar code which is printed for the
    elements.  *)
From Coq Require Import List ZArith Bool Lia.
Import ListNotations.

(** ** Indices *)

(** The index inserted by the loops: the variable of loop number [k] (the
    outermost is 0), or the literal 0 (pyccel/ast/utilities.py:354-355). *)
Inductive ix := Zero | Loop (k : nat).

(** One index of an IndexedElement: [start + step*x], or a slice.
    pyccel/ast/variable.py:860-909, pyccel/ast/internals.py:199-280.
    Simplification: bounds and steps are natural numbers (negative bounds and
    steps are modelled in Index_Model and Loops_Model). *)
Inductive sub :=
| At (start step : nat) (x : ix)
| Sl (start stop step : option nat).

Definition All : sub := Sl None None None.

(** One dimension of the array: its size, and whether the compiler knows it
    (a LiteralInteger in the shape).  Simplification: the size of a slice is
    known exactly if the size of the dimension is. *)
Notation dim := (nat * bool)%type.

(** The size of a slice. pyccel/ast/variable.py:755-790:
    [stop - start], or [ceil((stop - start)/step)]. *)
Definition or_else (o : option nat) (d : nat) : nat :=
  match o with Some x => x | None => d end.

Definition size (n : nat) (start stop step : option nat) : nat :=
  let len := or_else stop n - or_else start 0 in
  match step with
  | None => len
  | Some k => Nat.div (len + (k - 1)) k
  end.

(** The shape of an IndexedElement: one dimension for each slice.
    pyccel/ast/variable.py:740-800. *)
Fixpoint shape (D : list dim) (s : list sub) : list dim :=
  match D, s with
  | _ :: D', At _ _ _ :: s' => shape D' s'
  | (n, k) :: D', Sl a b c :: s' => (size n a b c, k) :: shape D' s'
  | _, _ => []
  end.

(** IndexedElement.__getitem__: one index inserted in a slice.
    pyccel/ast/variable.py:871-905.  [None]: the sum or the product of an
    integer and a Slice, which has no class_type. *)
Definition is_all (s : sub) : bool :=
  match s with Sl None None None => true | _ => false end.

Definition one_step (c : option nat) : bool :=
  match c with None => true | Some k => Nat.eqb k 1 end.

Definition zero_start (a : option nat) : bool :=
  match a with None => true | Some n => Nat.eqb n 0 end.

Definition into (start step : option nat) (arg : sub) : option sub :=
  match arg with
  | Sl None None None =>
      if one_step step && zero_start start then Some arg else None
  | Sl _ _ _ => None
  | At p q x =>
      let k := or_else step 1 in
      Some (At (or_else start 0 + k * p) (k * q) x)
  end.

(** IndexedElement.__getitem__. pyccel/ast/variable.py:860-909: the arguments
    replace the slices, one after the other. *)
Fixpoint merge (s : list sub) (args : list sub) : option (list sub) :=
  match s with
  | [] => Some []
  | At p q x :: s' => option_map (cons (At p q x)) (merge s' args)
  | Sl a b c :: s' =>
      match args with
      | [] => option_map (cons (Sl a b c)) (merge s' [])
      | arg :: args' =>
          match into a c arg, merge s' args' with
          | Some y, Some r => Some (y :: r)
          | _, _ => None
          end
      end
  end.

(** ** The reduction *)

(** NumpyReduction. pyccel/ast/numpyext.py:1097-1196. The array (its
    dimensions), its indices, the axes and keepdims. *)
Record red := Red {
  dims : list dim;
  subs : list sub;
  axes : option (list Z);
  keep : bool
}.

(** NumpyReduction.__init__, literal_axis. pyccel/ast/numpyext.py:1146-1148. *)
Definition literal (rank : nat) (ax : list Z) : list Z :=
  map (fun a => if (a <? 0)%Z then (Z.of_nat rank + a)%Z else a) ax.

Definition mem (i : Z) (ax : list Z) : bool := existsb (Z.eqb i) ax.

(** NumpyReduction.__init__. pyccel/ast/numpyext.py:1122-1162: the axes are
    only replaced by the normalised axes if the dimensions are not kept. *)
Definition make (D : list dim) (s : list sub) (ax : option (list Z))
    (keepdims : bool) : red :=
  Red D s
    (match ax with
     | None => None
     | Some l =>
         Some (if keepdims then l else literal (length (shape D s)) l)
     end) keepdims.

(** The shape of the result. pyccel/ast/numpyext.py:1149-1160. *)
Fixpoint kept (i : Z) (l : list Z) (S : list dim) : list dim :=
  match S with
  | [] => []
  | d :: S' => (if mem i l then (1, true) else d) :: kept (i + 1) l S'
  end.

Fixpoint dropped (i : Z) (l : list Z) (S : list dim) : list dim :=
  match S with
  | [] => []
  | d :: S' => if mem i l then dropped (i + 1) l S'
               else d :: dropped (i + 1) l S'
  end.

Definition out_shape (r : red) : list dim :=
  match axes r with
  | None => []
  | Some ax =>
      let S := shape (dims r) (subs r) in
      let l := literal (length S) ax in
      if keep r then kept 0 l S else dropped 0 l S
  end.

(** process_index_for_reduction, the loop. pyccel/ast/numpyext.py:395-421:
    [ii] and [axis_shift] are the variables of the code, the indices still to
    be read are the list.  The result is the new indices, the new axes, and
    the last [ii] and [axis_shift].  [None]: the assertion of line 412 fails.
    The fuel is larger than the number of iterations of the loop. *)
Definition is_zero (x : sub) : bool :=
  match x with At 0 _ Zero => true | _ => false end.

Fixpoint walk (fuel : nat) (ii shift : Z) (indices : list sub) (axis : list Z)
    (keepdims : bool) : option (list sub * list Z * Z * Z) :=
  match indices with
  | [] => Some ([], [], ii, shift)
  | x :: rest =>
      match fuel with
      | O => None
      | Datatypes.S f =>
          if mem ii axis then
            let add (o : option (list sub * list Z * Z * Z)) :=
              match o with
              | Some (is_, ax, i, s) =>
                  Some (All :: is_, (ii - shift)%Z :: ax, i, s)
              | None => None
              end in
            if is_all x then add (walk f (ii + 1) shift rest axis keepdims)
            else if keepdims then
              if is_zero x then add (walk f (ii + 1) shift rest axis keepdims)
              else None
            else add (walk f (ii + 1) shift indices axis keepdims)
          else
            match walk f (ii + 1)
                    (match x with At _ _ _ => shift + 1 | Sl _ _ _ => shift end)%Z
                    rest axis keepdims with
            | Some (is_, ax, i, s) => Some (x :: is_, ax, i, s)
            | None => None
            end
      end
  end.

(** process_index_for_reduction. pyccel/ast/numpyext.py:395-425. [None]: the
    assertion of line 424 fails. *)
Definition process (indices : list sub) (axis : list Z) (keepdims : bool)
  : option (list sub * list Z) :=
  match walk (length indices + length axis) 0 0 indices axis keepdims with
  | Some (is_, ax, ii, shift) =>
      let ax' := ax ++ map (fun a => (a - shift)%Z)
                          (filter (fun a => (ii <=? a)%Z) axis) in
      if Nat.eqb (length ax') (length axis) then Some (is_, ax') else None
  | None => None
  end.

(** NumpySum.__getitem__ (also NumpyAmin, NumpyAmax).
    pyccel/ast/numpyext.py:1263-1283. *)
Definition getitem (r : red) (args : list sub) : option red :=
  match axes r with
  | None => None
  | Some ax =>
      match process args ax (keep r) with
      | Some (is_, ax') =>
          if Nat.leb (length is_) (length (shape (dims r) (subs r))) then
            match merge (subs r) is_ with
            | Some s' => Some (make (dims r) s' (Some ax') (keep r))
            | None => None
            end
          else None
      | None => None
      end
  end.

(** insert_index on a reduction. pyccel/ast/utilities.py:351-355 and 432-438;
    the position of the code is [-p]. *)
Definition known_one (d : dim) : bool := snd d && Nat.eqb (fst d) 1.

Definition insert (r : red) (p : nat) (x : ix) : option red :=
  let S := out_shape r in
  let rank := length S in
  if Nat.eqb rank 0 || Nat.ltb rank p then Some r
  else
    let x' := if known_one (nth (rank - p) S (0, false)) then Zero else x in
    if Nat.ltb p rank then
      getitem r (repeat All (rank - p) ++ [At 0 1 x'])
    else getitem r [At 0 1 x'].

(** collect_loops: the indices are inserted from the position [-rank] to the
    position [-1]. pyccel/ast/utilities.py:600-640. *)
Fixpoint unroll (r : red) (p k : nat) : option red :=
  match p with
  | O => Some r
  | Datatypes.S p' =>
      match insert r p (Loop k) with
      | Some r' => unroll r' p' (Datatypes.S k)
      | None => None
      end
  end.

(** ** The printed code *)

(** The value of an index when the loop variables have the values [e]. *)
Definition ival (e : nat -> nat) (x : ix) : nat :=
  match x with Zero => 0 | Loop k => e k end.

(** The elements of an indexed array, in the order of its iterator. *)
Fixpoint cells (D : list dim) (s : list sub) (e : nat -> nat)
  : list (list nat) :=
  match D, s with
  | _ :: D', At p q x :: s' =>
      map (cons (p + q * ival e x)) (cells D' s' e)
  | (n, _) :: D', Sl a b c :: s' =>
      flat_map
        (fun j => map (cons (or_else a 0 + or_else c 1 * j)) (cells D' s' e))
        (seq 0 (size n a b c))
  | _, _ => [[]]
  end.

Inductive op := Sum | Min | Max.

(** The element expression: PyccelAdd, PythonMin, PythonMax.
    pyccel/codegen/printing/ccode.py:2831-2851. *)
Definition apply (o : op) (x y : Z) : Z :=
  match o with Sum => x + y | Min => Z.min x y | Max => Z.max x y end%Z.

(** The first value. pyccel/codegen/printing/ccode.py:826-830 and 2845-2850.
    [None]: cspan_front of an empty span. *)
Definition start (o : op) (initial : option Z) (vals : list Z) : option Z :=
  match initial, o with
  | Some i, _ => Some i
  | None, Sum => Some 0%Z
  | None, _ => hd_error vals
  end.

Definition has_slice (s : list sub) : bool :=
  existsb (fun x => match x with Sl _ _ _ => true | At _ _ _ => false end) s.

(** The memory of the statement [out[i] = f(a)]: the elements of [a], and the
    elements of the result. *)
Inductive loc := A (c : list nat) | Out (i : list nat).

Definition locb (x y : loc) : bool :=
  match x, y with
  | A c, A d => if list_eq_dec Nat.eq_dec c d then true else false
  | Out c, Out d => if list_eq_dec Nat.eq_dec c d then true else false
  | _, _ => false
  end.

Definition put (m : loc -> Z) (t : loc) (v : Z) : loc -> Z :=
  fun l => if locb l t then v else m l.

(** _handle_numpy_functional: the target is set to the first value, and then
    updated for each element. pyccel/codegen/printing/ccode.py:800-848.
    [None]: an undefined value, or an argument which is not an array (the
    assertion of line 814). *)
Definition c_code (o : op) (initial : option Z) (r : red) (e : nat -> nat)
    (t : loc) (m : loc -> Z) : option (loc -> Z) :=
  if has_slice (subs r) then
    let cs := cells (dims r) (subs r) e in
    match start o initial (map (fun c => m (A c)) cs) with
    | None => None
    | Some v =>
        Some (fold_left (fun m c => put m t (apply o (m t) (m (A c)))) cs
                (put m t v))
    end
  else None.

(** sum, minval and maxval, and their combination with the initial value.
    pyccel/codegen/printing/fcode.py:1768-1782 and 2195-2233.  [None]: minval
    and maxval of nothing are the largest and the smallest number. *)
Fixpoint extreme (o : op) (vals : list Z) : option Z :=
  match vals with
  | [] => None
  | v :: r => match extreme o r with
              | None => Some v
              | Some w => Some (apply o v w)
              end
  end.

Definition f_value (o : op) (initial : option Z) (vals : list Z) : option Z :=
  match o with
  | Sum =>
      let s := fold_right Z.add 0%Z vals in
      Some (match initial with Some i => i + s | None => s end)%Z
  | _ =>
      match initial, extreme o vals with
      | None, x => x
      | Some i, None => Some i
      | Some i, Some x => Some (apply o i x)
      end
  end.

Definition f_code (o : op) (initial : option Z) (r : red) (e : nat -> nat)
    (t : loc) (m : loc -> Z) : option (loc -> Z) :=
  if has_slice (subs r) then
    match f_value o initial
            (map (fun c => m (A c)) (cells (dims r) (subs r) e)) with
    | None => None
    | Some v => Some (put m t v)
    end
  else None.

(** The loops around the element: the index of the result runs over its
    shape, and the loop variables are the components of the index. *)
Fixpoint indices (S : list nat) : list (list nat) :=
  match S with
  | [] => [[]]
  | n :: S' => flat_map (fun i => map (cons i) (indices S')) (seq 0 n)
  end.

Definition env (idx : list nat) : nat -> nat := fun k => nth k idx 0.

Fixpoint loops (code : (nat -> nat) -> loc -> (loc -> Z) -> option (loc -> Z))
    (target : list nat -> loc) (idxs : list (list nat)) (m : loc -> Z)
  : option (loc -> Z) :=
  match idxs with
  | [] => Some m
  | i :: l =>
      match code (env i) (target i) m with
      | Some m' => loops code target l m'
      | None => None
      end
  end.

Inductive lang := C | F.

(** The statement [out[...] = f(a[...], axis=..., keepdims=..., initial=...)]
    where the left hand side has the shape [LS].
    [None]: Pyccel stops with an error, or the value is undefined. *)
Definition statement (l : lang) (o : op) (initial : option Z) (D : list dim)
    (s : list sub) (ax : option (list Z)) (keepdims : bool)
    (LS : list nat) (target : list nat -> loc) (m : loc -> Z)
  : option (loc -> Z) :=
  match unroll (make D s ax keepdims) (length LS) 0 with
  | None => None
  | Some r' =>
      loops (match l with C => c_code | F => f_code end o initial r')
        target (indices LS) m
  end.

(** The shape given to a variable which is assigned the reduction. *)
Definition result_shape (D : list dim) (s : list sub) (ax : option (list Z))
    (keepdims : bool) : list nat :=
  map fst (out_shape (make D s ax keepdims)).

(** ** A sum in a Fortran expression *)

(** The words of a Fortran expression. *)
Inductive word := Num (z : Z) | Times | Plus | SumOf.

(** _print_NumpySum: the initial value is put before the sum.
    pyccel/codegen/printing/fcode.py:1768-1782. *)
Definition print_sum (initial : option Z) : list word :=
  match initial with
  | Some i => if Z.eqb i 0 then [SumOf] else [Num i; Plus; SumOf]
  | None => [SumOf]
  end.

(** _print_PyccelMul: the arguments are joined, and functions are never put in
    parentheses. pyccel/codegen/printing/fcode.py:3593-3603,
    pyccel/ast/operators.py:268-281. *)
Definition print_product (f : Z) (initial : option Z) : list word :=
  Num f :: Times :: print_sum initial.

(** The value of the words in Fortran: a sum of products. *)
Fixpoint products (s : Z) (w : list word) (total cur : Z) : Z :=
  match w with
  | [] => total + cur
  | Num z :: w' => products s w' total (cur * z)
  | SumOf :: w' => products s w' total (cur * s)
  | Times :: w' => products s w' total cur
  | Plus :: w' => products s w' (total + cur) 1
  end%Z.

Definition f_expression (w : list word) (s : Z) : Z := products s w 0 1.

(** ** Two statements *)

(** collect_loops: the variables on which a function depends are only
    collected if it is not indexed. pyccel/ast/utilities.py:634-657. The two
    variables are the array (0) and the result (1). *)
Definition dependencies (rank : nat) : list nat :=
  if Nat.eqb rank 0 then [0] else [].

(** The loop of the statement before is used again if it has the same length
    and modifies no dependency. pyccel/ast/utilities.py:723-737. *)
Definition same_loop (len1 len2 : nat) (deps modified : list nat) : bool :=
  Nat.eqb len1 len2 &&
  negb (existsb (fun v => existsb (Nat.eqb v) modified) deps).

(** The inner loop of [a[:,:] = g(a)]. *)
Definition row (g : Z -> Z) (n2 i : nat) (m : loc -> Z) : loc -> Z :=
  fold_left (fun m j => put m (A [i; j]) (g (m (A [i; j])))) (seq 0 n2) m.

(** The statements [a[:,:] = g(a)] and [out[:] = f(a, axis=...)] in C, where
    [a] has the shape [(n,n2)]: the loops are shared or follow each other.  *)
Definition two_statements (g : Z -> Z) (o : op) (n n2 : nat) (ax : Z)
    (m : loc -> Z) : option (loc -> Z) :=
  let r := make [(n, false); (n2, false)] [All; All] (Some [ax]) false in
  match out_shape r, unroll r 1 0 with
  | [(len, _)], Some r' =>
      if same_loop n len (dependencies 1) [0] then
        fold_left
          (fun om i => match om with
                       | Some m => c_code o None r' (env [i]) (Out [i])
                                     (row g n2 i m)
                       | None => None
                       end) (seq 0 n) (Some m)
      else
        loops (c_code o None r') Out (indices [len])
          (fold_left (fun m i => row g n2 i m) (seq 0 n) m)
  | _, _ => None
  end.
