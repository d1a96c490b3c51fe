(** x = np.array(arg, order=..., ndmin=...).

    Models /repo/pyccel/ast/numpyext.py lines 954-998 (the node) and 203-254 (the
    shape of nested containers), /repo/pyccel/ast/datatypes.py lines 910-916,
    983-988 and 1139-1151 (the order of nested containers),
    /repo/pyccel/codegen/printing/fcode.py lines 783-808 (_get_node_without_gFTL),
    1985-2042 (_print_NumpyArray) and 2545-2556 (the assignment), and
    /repo/pyccel/codegen/printing/ccode.py lines 509-638 (_flatten_list and
    copy_NumpyArray_Data).

    Simplifications: the elements are in an arbitrary type and the conversions of
    their types (_apply_cast) are left out.  An element may be computed from what
    the variable x contains before the assignment; arrays in the argument are not
    x itself.  x has already been allocated with the right shape (C56, C57).
    The argument is not an indexed array (lines 571-577 of ccode.py first copy it
    to a variable).  The STC library goes through an array in the order of its
    indices (its source is not in the repository). *)

From Coq Require Import List Bool Arith.
Import ListNotations.

Inductive order := OC | OF.

Definition order_eqb (a b : order) : bool :=
  match a, b with OC, OC | OF, OF => true | _, _ => false end.

Definition inverse (o : order) : order := match o with OC => OF | OF => OC end.

(** What x contains: a value for each index. *)
Definition content (A : Type) := list nat -> A.

Inductive arg (A : Type) :=
| Scal (uses_array : bool) (e : content A -> A)     (* an expression, e.g. x[1] + 2 *)
| Arr (o : order) (sh : list nat) (elt : content A) (* an array variable *)
| Lst (l : list (arg A)).                           (* a list or a tuple *)
Arguments Scal {A}. Arguments Arr {A}. Arguments Lst {A}.

(** numpyext.py lines 234-246 *)
Fixpoint shape {A} (a : arg A) : list nat :=
  match a with
  | Scal _ _ => []
  | Arr _ sh _ => sh
  | Lst l => length l :: match l with [] => [] | x :: _ => shape x end
  end.

Definition rank {A} (a : arg A) : nat := length (shape a).

Definition is_C (o : option order) : bool := match o with Some OC => true | _ => false end.

(** datatypes.py lines 910-916, 983-988 and 1139-1151 *)
Fixpoint order_of {A} (a : arg A) : option order :=
  match a with
  | Scal _ _ => None
  | Arr o sh _ => if length sh <? 2 then None else Some o
  | Lst l =>
      match l with
      | [] => None
      | x :: _ => if (rank x =? 1) || forallb (fun y => is_C (order_of y)) l then Some OC else None
      end
  end.

(** numpyext.py lines 972-991: the shape and the order of the new array; None is
    the default order 'K'. *)
Definition np_shape {A} (ndmin : nat) (a : arg A) : list nat :=
  repeat 1 (ndmin - rank a) ++ shape a.

Definition np_order {A} (req : option order) (a : arg A) : order :=
  match req with
  | Some o => o
  | None => match order_of a with Some o => o | None => OC end
  end.

(** ** Fortran *)

(** A Fortran array: its elements are in column-major order. *)
Record farr (A : Type) := Far { fshape : list nat; fdata : list A }.
Arguments Far {A}. Arguments fshape {A}. Arguments fdata {A}.

Definition prod (sh : list nat) : nat := fold_right Nat.mul 1 sh.

(** The place of an element, and all the indices in the order of the elements. *)
Fixpoint off (sh idx : list nat) : nat :=
  match sh, idx with
  | s :: sh', i :: idx' => i + s * off sh' idx'
  | _, _ => 0
  end.

Fixpoint indices (sh : list nat) : list (list nat) :=
  match sh with
  | [] => [[]]
  | s :: sh' => flat_map (fun idx => map (fun i => i :: idx) (seq 0 s)) (indices sh')
  end.

Definition bind {A B} (r : option A) (f : A -> option B) : option B :=
  match r with Some a => f a | None => None end.

Definition traverse {A B} (f : A -> option B) : list A -> option (list B) :=
  fix go l :=
    match l with
    | [] => Some []
    | x :: r => bind (f x) (fun y => bind (go r) (fun ys => Some (y :: ys)))
    end.

(** [a, b, c] *)
Definition constr {A} (l : list (farr A)) : farr A :=
  let d := concat (map fdata l) in Far [length d] d.

(** The numbers in order= start at 1. *)
Definition permute (ord : list nat) (l : list nat) : list nat :=
  map (fun k => nth (k - 1) l 0) ord.

(** reshape(f, [sh], order=[ord]): the elements of the source are put in the
    result in permuted subscript order.  None: the program is wrong. *)
Definition reshape {A} (f : farr A) (sh : list nat) (ord : option (list nat)) : option (farr A) :=
  match ord with
  | Some p => if length p =? length sh
              then bind (traverse (fun idx => nth_error (fdata f) (off (permute p sh) (permute p idx)))
                                  (indices sh)) (fun d => Some (Far sh d))
              else None
  | None => bind (traverse (fun idx => nth_error (fdata f) (off sh idx)) (indices sh))
                 (fun d => Some (Far sh d))
  end.

(** transpose(f) *)
Definition transpose {A} (f : farr A) : option (farr A) :=
  match fshape f with
  | [n; m] => bind (traverse (fun idx => nth_error (fdata f) (off [n; m] (rev idx))) (indices [m; n]))
                   (fun d => Some (Far [m; n] d))
  | _ => None
  end.

(** An array whose order is C has its dimensions reversed in Fortran. *)
Definition layout (o : order) (l : list nat) : list nat :=
  match o with OC => rev l | OF => l end.

Definition fvar {A} (o : order) (sh : list nat) (elt : content A) : farr A :=
  Far (layout o sh) (map (fun idx => elt (layout o idx)) (indices (layout o sh))).

(** fcode.py lines 783-808 *)
Fixpoint fnode {A} (old : content A) (a : arg A) : option (farr A) :=
  match a with
  | Scal _ e => Some (Far [] [e old])
  | Arr o sh elt => Some (fvar o sh elt)
  | Lst l =>
      bind (traverse (fnode old) l) (fun fs =>
        if 1 <? rank (Lst l) then reshape (constr fs) (rev (shape (Lst l))) None
        else Some (constr fs))
  end.

(** fcode.py lines 2013-2022: the elements of an array whose order is ox are put
    in the order o. *)
Definition reorder {A} (o : order) (ox : option order) (sh : list nat) (f : farr A) : option (farr A) :=
  match ox with
  | Some ox =>
      if order_eqb ox (inverse o)
      then reshape f (match ox with OF => rev sh | OC => sh end) (Some (rev (seq 1 (length sh))))
      else Some f
  | None => Some f
  end.

(** fcode.py lines 2030-2040 *)
Definition rotated (n : nat) : list nat := tl (seq 1 n) ++ firstn 1 (seq 1 n).

Definition assemble {A} (o : order) (sh : list nat) (smaller : bool) (l : list (farr A)) : option (farr A) :=
  let rhs := match l with [x] => x | _ => constr l end in
  if negb (length l =? 1) || smaller then
    match o with
    | OC => reshape rhs (rev sh) None
    | OF => reshape rhs sh (Some (rotated (length sh)))
    end
  else Some rhs.

(** fcode.py lines 1985-2042: np.array(a) with the order o and the shape sh *)
Fixpoint fnp {A} (old : content A) (o : order) (sh : list nat) (a : arg A) : option (farr A) :=
  if length sh <=? 2 then
    bind (fnode old a) (fun f =>
      bind (match order_of a with
            | Some oa => if order_eqb oa o then Some f else transpose f
            | None => Some f
            end) (fun f =>
        if rank a <? length sh
        then reshape f (match o with OF => sh | OC => rev sh end) None
        else Some f))
  else
    match a with
    | Scal _ _ => None
    | Arr oa _ _ =>
        bind (fnode old a) (fun f =>
          bind (reorder o (order_of a) (shape a) f) (fun f =>
            assemble o sh (rank a <? length sh) [f]))
    | Lst l =>
        bind ((fix each (l : list (arg A)) : option (list (farr A)) :=
                 match l with
                 | [] => Some []
                 | x :: r =>
                     bind (match order_of x with
                           | None => if 1 <? rank x
                                     then bind (fnp old OC (shape x) x) (reorder o (Some OC) (shape x))
                                     else fnode old x
                           | Some ox => bind (fnode old x) (reorder o (Some ox) (shape x))
                           end) (fun f => bind (each r) (fun fs => Some (f :: fs)))
                 end) l)
             (assemble o sh (rank a <? length sh))
    end.

Fixpoint list_eqb (a b : list nat) : bool :=
  match a, b with
  | [], [] => true
  | x :: a', y :: b' => (x =? y) && list_eqb a' b'
  | _, _ => false
  end.

(** The assignment to x(:,:): the shapes must be the same.  The result gives the
    element of x at an index. *)
Definition in_fortran {A} (old : content A) (req : option order) (ndmin : nat) (a : arg A)
  : option (list nat -> option A) :=
  let o := np_order req a in
  let sh := np_shape ndmin a in
  bind (fnp old o sh a) (fun f =>
    if list_eqb (fshape f) (layout o sh)
    then Some (fun idx => nth_error (fdata f) (off (fshape f) (layout o idx)))
    else None).

(** ** C *)

Fixpoint idx_eqb (a b : list nat) : bool :=
  match a, b with
  | [], [] => true
  | x :: a', y :: b' => (x =? y) && idx_eqb a' b'
  | _, _ => false
  end.

Definition store {A} (idx : list nat) (v : A) (m : content A) : content A :=
  fun i => if idx_eqb i idx then v else m i.

(** All the indices, the last one moves fastest. *)
Fixpoint rows (sh : list nat) : list (list nat) :=
  match sh with
  | [] => [[]]
  | s :: sh' => flat_map (fun i => map (cons i) (rows sh')) (seq 0 s)
  end.

(** ccode.py lines 561-563 *)
Fixpoint has_array {A} (a : arg A) : bool :=
  match a with
  | Scal b _ => b
  | Arr _ _ _ => true
  | Lst l => existsb has_array l
  end.

(** ccode.py lines 509-539 *)
Fixpoint flatten {A} (a : arg A) : list (arg A) :=
  match a with
  | Lst l => flat_map flatten l
  | _ => [a]
  end.

Definition scalar {A} (a : arg A) : option (content A -> A) :=
  match a with Scal _ e => Some e | _ => None end.

(** Stores one after the other. *)
Fixpoint assign_all {A} (pre : list nat) (l : list (list nat * arg A)) (m : content A) : option (content A) :=
  match l with
  | [] => Some m
  | (idx, a) :: r =>
      match scalar a with
      | Some e => assign_all pre r (store (pre ++ idx) (e m) m)
      | None => None
      end
  end.

Fixpoint store_all {A} (l : list (list nat * A)) (m : content A) : content A :=
  match l with
  | [] => m
  | (idx, v) :: r => store_all r (store idx v m)
  end.

(** ccode.py lines 542-638: copy to the part of x which starts with pre and whose
    shape is lsh.  None: the C program is wrong. *)
Fixpoint copy {A} (pre lsh : list nat) (a : arg A) (m : content A) : option (content A) :=
  match a with
  | Scal _ _ => None                                  (* assert rhs.rank != 0 *)
  | Arr _ sh elt =>                                   (* cspan_copy *)
      Some (store_all (combine (map (app pre) (rows lsh)) (map elt (rows sh))) m)
  | Lst l =>
      if has_array a then
        match lsh with
        | [] => None
        | n :: lsh' =>
            (fix each (i : nat) (l : list (arg A)) (m : content A) : option (content A) :=
               match l with
               | [] => Some m
               | x :: r =>
                   if i <? n then
                     bind (match lsh' with
                           | [] => match scalar x with
                                   | Some e => Some (store (pre ++ [i]) (e m) m)
                                   | None => None
                                   end
                           | _ => copy (pre ++ [i]) lsh' x m
                           end) (each (S i) r)
                   else Some m
               end) 0 l m
        end
      else if rank a =? length lsh
      then assign_all pre (combine (rows (shape a)) (flatten a)) m
      else None
  end.

Definition in_C {A} (old : content A) (ndmin : nat) (a : arg A) : option (content A) :=
  copy [] (np_shape ndmin a) a old.
