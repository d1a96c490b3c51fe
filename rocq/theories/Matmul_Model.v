(** Model of np.matmul: the shape of the result, the indices inserted in a
    product of stacks of matrices, the functions of the C library and the
    Fortran expression.  *)
From Coq Require Import List ZArith Bool.
Import ListNotations.

(** ** The arrays *)

(** One dimension: its size, and whether the compiler knows it. *)
Notation dim := (nat * bool)%type.

(** The order of an array with at least two dimensions; [ON] for vectors. *)
Inductive order := OC | OF | ON.

Definition is_f (o : order) : bool := match o with OF => true | _ => false end.

Definition same_order (o1 o2 : order) : bool :=
  match o1, o2 with OC, OC | OF, OF | ON, ON => true | _, _ => false end.

(** ** The shape *)

Definition at_ (S : list dim) (i : nat) : dim := nth i S (0, false).

(** The last dimensions. *)
Definition last1 (S : list dim) : dim := at_ S (length S - 1).
Definition last2 (S : list dim) : dim := at_ S (length S - 2).

(** NumpyMatmul.__init__. pyccel/ast/numpyext.py:1372-1394. *)
Definition mm_shape (Sa Sb : list dim) : list dim :=
  let ra := length Sa in
  let rb := length Sb in
  if Nat.eqb ra 1 && Nat.eqb rb 1 then []
  else if Nat.eqb ra 1 || Nat.eqb rb 1 then
    [if Nat.eqb ra 1 then at_ Sb 1 else at_ Sa 0]
  else if Nat.ltb rb ra then
    firstn (ra - 1) Sa ++ [last1 Sb]
  else
    firstn (rb - 2) Sb ++ [last2 Sa; last1 Sb].

(** The order of the result. pyccel/ast/numpyext.py:1396-1402. *)
Definition mm_order (Sa Sb : list dim) (oa ob : order) : order :=
  if Nat.ltb (length (mm_shape Sa Sb)) 2 then ON
  else if same_order oa ob then oa else OC.

(** ** The indices *)

Inductive ix := Zero | Loop (k : nat).

Definition ival (e : nat -> nat) (x : ix) : nat :=
  match x with Zero => 0 | Loop k => e k end.

(** An argument: the indices in front, and the remaining dimensions. *)
Definition arg := (list ix * list dim)%type.

Definition known_one (d : dim) : bool := snd d && Nat.eqb (fst d) 1.

(** insert_index and NumpyMatmul.__getitem__. pyccel/ast/utilities.py:351-355,
    pyccel/ast/numpyext.py:1412-1417: an argument with less dimensions is not
    indexed. *)
Definition index (x : ix) (a : arg) : arg := (fst a ++ [x], tl (snd a)).

Definition mm_insert (a b : arg) (x : ix) : arg * arg :=
  let x' := if known_one (at_ (mm_shape (snd a) (snd b)) 0) then Zero else x in
  let ra := length (snd a) in
  let rb := length (snd b) in
  (if Nat.ltb ra rb then a else index x' a,
   if Nat.ltb rb ra then b else index x' b).

(** collect_loops: indices are inserted until the product has two dimensions,
    when it is not indexable. pyccel/ast/utilities.py:690-705,
    pyccel/ast/numpyext.py:1419-1430. *)
Fixpoint mm_unroll (n : nat) (a b : arg) (k : nat) : arg * arg :=
  match n with
  | O => (a, b)
  | Datatypes.S n' =>
      let '(a', b') := mm_insert a b (Loop k) in mm_unroll n' a' b' (Datatypes.S k)
  end.

(** ** The memory *)

Inductive loc := In1 (i : list nat) | In2 (i : list nat) | Out (i : list nat).

Definition locb (x y : loc) : bool :=
  match x, y with
  | In1 c, In1 d | In2 c, In2 d | Out c, Out d =>
      if list_eq_dec Nat.eq_dec c d then true else false
  | _, _ => false
  end.

Definition mem := loc -> Z.

Definition put (m : mem) (t : loc) (v : Z) : mem :=
  fun l => if locb l t then v else m l.

(** ** C *)

(** One element of the result: the inner loop of pyc_matmul, pyc_matvecmul and
    pyc_vecmatmul (pyccel/stdlib/math/pyc_math_c.c:117-189), and the loop of
    _inline_vecdot (pyccel/codegen/printing/ccode.py:966-983). *)
Record job := Job {
  target : loc;
  len : nat;
  left_ : nat -> list nat;
  right_ : nat -> list nat
}.

Definition dot (m : mem) (j : job) : mem :=
  fold_left
    (fun m i => put m (target j)
                  (m (target j) + m (In1 (left_ j i)) * m (In2 (right_ j i)))%Z)
    (seq 0 (len j)) (put m (target j) 0%Z).

(** The functions of the library. pyccel/stdlib/math/pyc_math_c.c:117-189,
    pyccel/codegen/printing/ccode.py:2987-3024. [T] is the place of the
    element of the result, [pa] and [pb] the indices in front.  [None]: an
    assertion fails, or there is no function for these arguments. *)
Definition c_jobs (T : list nat -> loc) (pa pb : list nat) (Sa Sb : list nat)
  : option (list job) :=
  match Sa, Sb with
  | [m], [m'] =>
      Some [Job (T []) m (fun j => pa ++ [j]) (fun j => pb ++ [j])]
  | [n; m], [m'] =>
      if Nat.eqb m m' then
        Some (map (fun i => Job (T [i]) m (fun j => pa ++ [i; j])
                              (fun j => pb ++ [j])) (seq 0 n))
      else None
  | [m], [n; p] =>
      if Nat.eqb m n then
        Some (map (fun i => Job (T [i]) n (fun j => pa ++ [j])
                              (fun j => pb ++ [j; i])) (seq 0 p))
      else None
  | [n; m], [m'; p] =>
      if Nat.eqb m m' then
        Some (flat_map (fun i =>
                map (fun k => Job (T [i; k]) m (fun j => pa ++ [i; j])
                                (fun j => pb ++ [j; k])) (seq 0 p)) (seq 0 n))
      else None
  | _, _ => None
  end.

Definition c_leaf (T : list nat -> loc) (pa pb : list nat) (Sa Sb : list nat)
    (m : mem) : option mem :=
  match c_jobs T pa pb Sa Sb with
  | Some js => Some (fold_left dot js m)
  | None => None
  end.

(** ** Fortran *)

(** A Fortran array with one or two dimensions. *)
Inductive farr := FV (n : nat) (f : nat -> Z) | FM (n1 n2 : nat) (f : nat -> nat -> Z).

(** The dimensions of an array in C order are reversed in Fortran. *)
Definition f_arg (o : order) (S : list nat) (get : list nat -> Z) : option farr :=
  match S with
  | [n] => Some (FV n (fun j => get [j]))
  | [n1; n2] =>
      Some (if is_f o then FM n1 n2 (fun x y => get [x; y])
            else FM n2 n1 (fun x y => get [y; x]))
  | _ => None
  end.

Definition fsum (n : nat) (f : nat -> Z) : Z :=
  fold_right Z.add 0%Z (map f (seq 0 n)).

(** The intrinsic function matmul. *)
Definition fmatmul (x y : farr) : option farr :=
  match x, y with
  | FM n m f, FM m' p g =>
      if Nat.eqb m m' then
        Some (FM n p (fun i k => fsum m (fun j => f i j * g j k)%Z))
      else None
  | FM n m f, FV m' g =>
      if Nat.eqb m m' then Some (FV n (fun i => fsum m (fun j => f i j * g j)%Z))
      else None
  | FV m f, FM m' p g =>
      if Nat.eqb m m' then Some (FV p (fun k => fsum m (fun j => f j * g j k)%Z))
      else None
  | FV _ _, FV _ _ => None
  end.

(** The assignment of an array to the left hand side, whose shape is [S] and
    whose order is [o]. *)
Definition f_assign (o : order) (S : list nat) (r : farr)
  : option (list (list nat * Z)) :=
  match S, r with
  | [n], FV n' f =>
      if Nat.eqb n n' then Some (map (fun i => ([i], f i)) (seq 0 n)) else None
  | [n; p], FM n1 n2 f =>
      if is_f o then
        if Nat.eqb n n1 && Nat.eqb p n2 then
          Some (flat_map (fun i => map (fun k => ([i; k], f i k)) (seq 0 p)) (seq 0 n))
        else None
      else
        if Nat.eqb n n2 && Nat.eqb p n1 then
          Some (flat_map (fun i => map (fun k => ([i; k], f k i)) (seq 0 p)) (seq 0 n))
        else None
  | _, _ => None
  end.

(** _print_NumpyMatmul. pyccel/codegen/printing/fcode.py:1787-1813. *)
Definition f_print (oa ob : order) (a b : farr) : option farr :=
  match oa, ob with
  | OC, OF | OF, OC => None
  | _, _ => if is_f oa then fmatmul a b else fmatmul b a
  end.

Definition f_leaf (T : list nat -> loc) (pa pb : list nat) (Sa Sb : list nat)
    (oa ob oc : order) (m : mem) : option mem :=
  let write ws := fold_left (fun m w => put m (T (fst w)) (snd w)) ws m in
  match f_arg oa Sa (fun i => m (In1 (pa ++ i))),
        f_arg ob Sb (fun i => m (In2 (pb ++ i))) with
  | Some (FV n f), Some (FV n' g) =>
      if Nat.eqb n n' then
        Some (write [([], fsum n (fun j => f j * g j)%Z)])
      else None
  | Some a, Some b =>
      match f_print oa ob a b with
      | Some r =>
          match f_assign oc
                  (match Sa, Sb with
                   | [n; _], [_; p] => [n; p]
                   | [n; _], _ => [n]
                   | _, [_; p] => [p]
                   | _, _ => []
                   end) r with
          | Some ws => Some (write ws)
          | None => None
          end
      | None => None
      end
  | _, _ => None
  end.

(** ** The statement *)

Inductive lang := C | F.

Fixpoint indices (S : list nat) : list (list nat) :=
  match S with
  | [] => [[]]
  | n :: S' => flat_map (fun i => map (cons i) (indices S')) (seq 0 n)
  end.

Definition env (idx : list nat) : nat -> nat := fun k => nth k idx 0.

Fixpoint each (body : list nat -> mem -> option mem) (idxs : list (list nat))
    (m : mem) : option mem :=
  match idxs with
  | [] => Some m
  | i :: l => match body i m with Some m' => each body l m' | None => None end
  end.

(** [out[...] = np.matmul(a, b)], where [out] has the shape of the result and
    the order [oc]; its elements are at the places [T].  [None]: Pyccel stops,
    the generated code is not accepted or an assertion fails. *)
Definition statement (l : lang) (Sa Sb : list dim) (oa ob oc : order)
    (T : list nat -> loc) (m : mem) : option mem :=
  let S := mm_shape Sa Sb in
  let n := length S - 2 in
  let '(a, b) := mm_unroll n ([], Sa) ([], Sb) 0 in
  each
    (fun i m =>
       let pa := map (ival (env i)) (fst a) in
       let pb := map (ival (env i)) (fst b) in
       let sa := map fst (snd a) in
       let sb := map fst (snd b) in
       match l with
       | C => c_leaf (fun t => T (i ++ t)) pa pb sa sb m
       | F => f_leaf (fun t => T (i ++ t)) pa pb sa sb oa ob oc m
       end)
    (indices (map fst (firstn n S))) m.
