(* Containers of generated code: the extensions of STC (C) and gFTL (Fortran)
   shipped in /repo/pyccel/stdlib, and the statements the printers generate for
   the list, set and dict methods.

   Simplifications.  STC and gFTL themselves are not in /repo (empty submodules);
   a vector is modelled by the list of its elements, a set or a map by the list
   of its elements in iteration order.  What is assumed of them is written beside
   the definition that uses it.  Element copies are plain values (ownership of
   nested containers is the subject of the last section).  Indices are unbounded
   integers (a vector has fewer than 2^63 elements). *)
From Coq Require Import ZArith List Bool Arith.
From Verif Require Import Common.
Import ListNotations.
Open Scope list_scope.
Open Scope Z_scope.

Fixpoint set_nth {A} (l : list A) (i : nat) (x : A) : list A :=
  match l, i with
  | [], _ => []
  | _ :: r, O => x :: r
  | y :: r, S i' => y :: set_nth r i' x
  end.

(* Element i removed (vec_erase_at, vector%erase). *)
Fixpoint erase_nth {A} (l : list A) (i : nat) : list A :=
  match l, i with
  | [], _ => []
  | _ :: r, O => r
  | y :: r, S i' => y :: erase_nth r i'
  end.

(* x put before position i (vec_insert_at, vector%insert). *)
Fixpoint insert_nth {A} (l : list A) (i : nat) (x : A) : list A :=
  match i, l with
  | O, _ => x :: l
  | S i', y :: r => y :: insert_nth r i' x
  | S _, [] => [x]
  end.

Section Vec.
Context {A : Type}.
Variable less : A -> A -> bool.   (* i_less / T_LT: the < of the element type *)

(* List_extensions.h:9-21.  _begin then _advance by pop_idx; an iterator before
   the first element or past the end is not dereferenceable. *)
Definition c_pull_elem (l : list A) (pop_idx : Z) : run (A * list A) :=
  if pop_idx <? 0 then Undef
  else match nth_error l (Z.to_nat pop_idx) with
       | Some v => Ret (v, erase_nth l (Z.to_nat pop_idx))
       | None => Undef
       end.

(* vec_pull of STC: the last element (undefined on an empty vector). *)
Definition c_pull (l : list A) : run (A * list A) :=
  match rev l with
  | [] => Undef
  | v :: r => Ret (v, rev r)
  end.

(* List_extensions.h:26-34 *)
Fixpoint min_loop (l : list A) (m : A) : A :=
  match l with
  | [] => m
  | x :: r => min_loop r (if less x m then x else m)
  end.
Definition c_vec_min (l : list A) : run A :=
  match l with [] => Undef | x :: _ => Ret (min_loop l x) end.

(* List_extensions.h:37-45 *)
Fixpoint max_loop (l : list A) (m : A) : A :=
  match l with
  | [] => m
  | x :: r => max_loop r (if less m x then x else m)
  end.
Definition c_vec_max (l : list A) : run A :=
  match l with [] => Undef | x :: _ => Ret (max_loop l x) end.

(* Common_extensions.h:3-11 and 13-21: the loop starts at the second element. *)
Definition c_arr_min (l : list A) : run A :=
  match l with [] => Undef | x :: r => Ret (min_loop r x) end.
Fixpoint gt_loop (l : list A) (m : A) : A :=
  match l with
  | [] => m
  | x :: r => gt_loop r (if less m x then x else m)   (* a[i] > max_value *)
  end.
Definition c_arr_max (l : list A) : run A :=
  match l with [] => Undef | x :: r => Ret (gt_loop r x) end.

(* List_extensions.h:50-64 *)
Definition c_insert (l : list A) (idx : Z) (v : A) : list A :=
  let n := Z.of_nat (List.length l) in
  let idx := if idx <? 0 then idx + n else idx in
  let idx := if idx <? 0 then 0 else idx in
  if n <=? idx then l ++ [v] else insert_nth l (Z.to_nat idx) v.

(* Vector_extensions.inc:83-102 *)
Definition f_insert (l : list A) (idx : Z) (v : A) : list A :=
  let n := Z.of_nat (List.length l) in
  let pos := if idx <? 0 then idx + n else idx in
  let pos := if pos <? 0 then 0 else pos in
  let pos := if n <? pos then n else pos in
  insert_nth l (Z.to_nat pos) v.

(* Vector_extensions.inc:13-31.  at / set are 1-based; undefined out of range. *)
Definition at1 (l : list A) (i : Z) : run A :=
  if i <=? 0 then Undef
  else match nth_error l (Z.to_nat (i - 1)) with Some v => Ret v | None => Undef end.
Definition set1 (l : list A) (i : Z) (v : A) : run (list A) :=
  x <- at1 l i ;; Ret (set_nth l (Z.to_nat (i - 1)) v).
Fixpoint rev_loop (fuel : nat) (l : list A) (left right : Z) : run (list A) :=
  match fuel with
  | O => NoFuel
  | S fuel' =>
    if left <? right then
      temp <- at1 l left ;;
      y <- at1 l right ;;
      l1 <- set1 l left y ;;
      l2 <- set1 l1 right temp ;;
      rev_loop fuel' l2 (left + 1) (right - 1)
    else Ret l
  end.
Definition f_reverse (l : list A) : run (list A) :=
  rev_loop (S (List.length l)) l 1 (Z.of_nat (List.length l)).

(* Vector_extensions.inc:33-56, 58-81.  An empty vector stops the program. *)
Definition f_vec_min (l : list A) : run A :=
  match l with [] => Undef | x :: _ => Ret (min_loop l x) end.
Definition f_vec_max (l : list A) : run A :=
  match l with [] => Undef | x :: _ => Ret (max_loop l x) end.

(* The argument of pop as the printers see it: absent, an integer written in the
   source (possibly with a minus sign), or any other expression, here its value. *)
Inductive pop_arg := NoArg | Written (i : Z) | Computed (i : Z).

(* ccode.py:3888-3906.  A negative literal is printed as len + literal. *)
Definition c_list_pop (l : list A) (a : pop_arg) : run (A * list A) :=
  match a with
  | NoArg => c_pull l
  | Written i =>
      if i <? 0 then c_pull_elem l (Z.of_nat (List.length l) + i)
      else c_pull_elem l i
  | Computed i => c_pull_elem l i
  end.

(* fcode.py:1571-1589.  begin() + index, of(), erase(); without index the
   element [-1] (the last) then pop_back. *)
Definition f_list_pop (l : list A) (a : pop_arg) : run (A * list A) :=
  let at_iter i :=
    if i <? 0 then Undef
    else match nth_error l (Z.to_nat i) with
         | Some v => Ret (v, erase_nth l (Z.to_nat i))
         | None => Undef
         end in
  match a with
  | NoArg =>
      v <- at1 l (Z.of_nat (List.length l)) ;;
      Ret (v, removelast l)
  | Written i =>
      if i <? 0 then at_iter (Z.of_nat (List.length l) - (- i)) else at_iter i
  | Computed i => at_iter i
  end.

(* The list statements, as a small language: what is run is a sequence of them. *)
Inductive list_op :=
| Append (v : A)                    (* ccode.py:3880, fcode.py:1551 *)
| Insert (i : Z) (v : A)            (* ccode.py:3918, fcode.py:1597 *)
| Pop (a : pop_arg)
| Reverse                           (* ccode.py:3934 (c_reverse of STC), fcode.py:1609 *)
| Clear.                            (* ccode.py:3927, fcode.py:1604 *)

(* One statement; the outputs are the popped values.  c_reverse is STC's and is
   taken to reverse. *)
Definition c_list_step (l : list A) (o : list_op) : run (list A * list A) :=
  match o with
  | Append v => Ret (l ++ [v], [])
  | Insert i v => Ret (c_insert l i v, [])
  | Pop a => r <- c_list_pop l a ;; Ret (snd r, [fst r])
  | Reverse => Ret (rev l, [])
  | Clear => Ret ([], [])
  end.
Definition f_list_step (l : list A) (o : list_op) : run (list A * list A) :=
  match o with
  | Append v => Ret (l ++ [v], [])
  | Insert i v => Ret (f_insert l i v, [])
  | Pop a => r <- f_list_pop l a ;; Ret (snd r, [fst r])
  | Reverse => r <- f_reverse l ;; Ret (r, [])
  | Clear => Ret ([], [])
  end.
Fixpoint list_run (step : list A -> list_op -> run (list A * list A)) (l : list A)
    (ops : list list_op) : run (list A * list A) :=
  match ops with
  | [] => Ret (l, [])
  | o :: r =>
      p <- step l o ;;
      q <- list_run step (fst p) r ;;
      Ret (fst q, snd p ++ snd q)
  end.

End Vec.

Section Sets.
Context {A : Type}.
Variable eqb : A -> A -> bool.
Variable less : A -> A -> bool.

(* hset_contains, set%count *)
Definition contains (s : list A) (x : A) : bool := existsb (eqb x) s.

(* Set_extensions.h:8-17, Set_extensions.inc:17-30 *)
Definition set_pop (s : list A) : run (A * list A) :=
  match s with [] => Undef | x :: r => Ret (x, r) end.

(* Set_extensions.h:25-41 and fcode.py:1640-1672: a copy, then one insertion per
   element of every argument.  ins is the insertion of the container: where the
   new element lands in the iteration order is its business. *)
Definition set_union (ins : A -> list A -> list A) (s : list A) (others : list (list A)) : list A :=
  fold_left (fun acc o => fold_left (fun acc x => ins x acc) o acc) others s.

(* The erasing loops, Set_extensions.h:47-58 and 65-76, Set_extensions.inc:32-49
   and 51-68, with an iterator standing at position i.  drop tells for the value
   read whether it is erased.
   Erasing may reorder an open-addressing hash table.  erased s i s' j says what
   is needed of erase_at: the element at the iterator is gone, nothing else is,
   and the elements not yet visited are all at or after the returned iterator.
   (Visited ones may move there too.) *)
Definition erased (s : list A) (i : nat) (s' : list A) (j : nat) : Prop :=
  (forall x, In x s' <-> In x (erase_nth s i)) /\ NoDup s' /\
  (forall x, In x (skipn (S i) s) -> In x (skipn j s')).
Inductive erasing (drop : list A -> A -> bool) : list A -> nat -> list A -> Prop :=
| er_end s i : nth_error s i = None -> erasing drop s i s
| er_keep s i x r : nth_error s i = Some x -> drop s x = false ->
    erasing drop s (S i) r -> erasing drop s i r
| er_erase s i x s' j r : nth_error s i = Some x -> drop s x = true ->
    erased s i s' j -> erasing drop s' j r -> erasing drop s i r.

(* The two loops.  other = None when the argument is the set itself (the same
   object is then read and shrunk). *)
Definition other_of (other : option (list A)) (self : list A) : list A :=
  match other with Some o => o | None => self end.
Definition intersection_update (self : list A) (other : option (list A)) (r : list A) : Prop :=
  erasing (fun cur x => negb (contains (other_of other cur) x)) self 0 r.
Definition difference_update (self : list A) (other : option (list A)) (r : list A) : Prop :=
  erasing (fun cur x => contains (other_of other cur) x) self 0 r.

(* The same loops for a container whose erase keeps the order (gFTL's trees),
   as a function. *)
Fixpoint update_loop (fuel : nat) (drop : list A -> A -> bool) (s : list A) (i : nat)
    : run (list A) :=
  match fuel with
  | O => NoFuel
  | S f =>
    match nth_error s i with
    | None => Ret s
    | Some x => if drop s x then update_loop f drop (erase_nth s i) i
                else update_loop f drop s (S i)
    end
  end.
Definition f_intersection_update (self : list A) (other : option (list A)) : run (list A) :=
  update_loop (S (List.length self))
    (fun cur x => negb (contains (other_of other cur) x)) self 0.
Definition f_difference_update (self : list A) (other : option (list A)) : run (list A) :=
  update_loop (S (List.length self))
    (fun cur x => contains (other_of other cur) x) self 0.

(* Set_extensions.h:84-98.  (longest is chosen by comparing pointers: shortest is
   self only if the test said so or the two are the same object, when it does
   not matter.) *)
Fixpoint disjoint_loop (shortest longest : list A) : bool :=
  match shortest with
  | [] => true
  | x :: r => if contains longest x then false else disjoint_loop r longest
  end.
Definition c_is_disjoint (self other : list A) : bool :=
  let self_is_shortest := Nat.ltb (List.length self) (List.length other) in
  let shortest := if self_is_shortest then self else other in
  let longest := if self_is_shortest then other else self in
  disjoint_loop shortest longest.
(* Set_extensions.inc:70-102 *)
Definition f_is_disjoint (this other : list A) : bool :=
  if Nat.ltb (List.length other) (List.length this)
  then disjoint_loop other this
  else disjoint_loop this other.

(* Set_extensions.h:102-112, 115-125 *)
Definition c_set_min (s : list A) : run A :=
  match s with [] => Undef | x :: _ => Ret (min_loop less s x) end.
Definition c_set_max (s : list A) : run A :=
  match s with [] => Undef | x :: _ => Ret (max_loop less s x) end.
(* Set_extensions.inc:105-114, 117-128: first and last of the search tree. *)
Definition f_set_min (s : list A) : run A :=
  match s with [] => Undef | x :: _ => Ret x end.
Definition f_set_max (s : list A) : run A :=
  match rev s with [] => Undef | x :: _ => Ret x end.

End Sets.

Section Dicts.
Context {K V : Type}.
Variable eqb : K -> K -> bool.
Variable less : K -> K -> bool.

(* hmap_find / map%find *)
Fixpoint m_find (m : list (K * V)) (k : K) : option V :=
  match m with
  | [] => None
  | (k', v) :: r => if eqb k k' then Some v else m_find r k
  end.
(* hmap_erase / map%erase(iter) *)
Fixpoint m_erase (m : list (K * V)) (k : K) : list (K * V) :=
  match m with
  | [] => []
  | (k', v) :: r => if eqb k k' then r else (k', v) :: m_erase r k
  end.

(* Dict_extensions.h:11-15 (hmap_at asserts that the key is there) and
   Map_extensions.inc:12-24 (second() of end() is undefined) *)
Definition dict_pop (m : list (K * V)) (k : K) : run (V * list (K * V)) :=
  match m_find m k with
  | Some v => Ret (v, m_erase m k)
  | None => Undef
  end.
(* Dict_extensions.h:26-31, Map_extensions.inc:26-43 *)
Definition dict_pop_default (m : list (K * V)) (k : K) (d : V) : run (V * list (K * V)) :=
  match m_find m k with
  | None => Ret (d, m)
  | Some _ => dict_pop m k
  end.
(* Dict_extensions.h:40-45, Map_extensions.inc:45-59: the element at begin() *)
Definition dict_popitem (m : list (K * V)) : run ((K * V) * list (K * V)) :=
  match m with [] => Undef | kv :: r => Ret (kv, r) end.
(* ccode.py:4045-4064: contains(key) ? *at(key) : default *)
Definition c_dict_get (m : list (K * V)) (k : K) (d : V) : run V :=
  match m_find m k with Some v => Ret v | None => Ret d end.

(* d[k] = v.  gFTL's maps are search trees: iteration is in key order. *)
Fixpoint f_dict_set (m : list (K * V)) (k : K) (v : V) : list (K * V) :=
  match m with
  | [] => [(k, v)]
  | (k', v') :: r =>
      if eqb k k' then (k, v) :: r
      else if less k k' then (k, v) :: m
      else (k', v') :: f_dict_set r k v
  end.

End Dicts.

(* ---- Managed memory (Managed_memory.h) ---- *)

(* The struct of line 12-15: where it points and whether it owns.  Cells are
   numbered in order of allocation; None is NULL. *)
Record mgd := mkMgd { get : option nat; owns : bool }.

(* Memory: for every cell ever allocated whether it is still allocated; and
   every managed pointer ever created. *)
Record mem := mkMem { cells : list bool; ptrs : list mgd }.

Inductive mop :=
| MInit                    (* 27 *)
| MMake                    (* 29-35 *)
| MFromPtr (c : nat)       (* 37-42 *)
| MClone (p : nat)         (* 44-46 *)
| MSteal (p : nat)         (* 48-50 *)
| MDrop (p : nat)          (* 52-57 *)
| MRelease (p : nat).      (* 64-69 *)

Definition push (m : mem) (p : mgd) : mem := mkMem (cells m) (ptrs m ++ [p]).
Definition from_ptr (c : option nat) : mgd := mkMgd c false.
(* free of a cell that is not allocated is undefined *)
Definition free (m : mem) (c : option nat) : run mem :=
  match c with
  | None => Ret m
  | Some c => match nth_error (cells m) c with
              | Some true => Ret (mkMem (set_nth (cells m) c false) (ptrs m))
              | _ => Undef
              end
  end.
Definition mstep (m : mem) (o : mop) : run mem :=
  match o with
  | MInit => Ret (push m (mkMgd None false))
  | MMake => Ret (mkMem (cells m ++ [true])
                        (ptrs m ++ [mkMgd (Some (List.length (cells m))) true]))
  | MFromPtr c => Ret (push m (from_ptr (Some c)))
  | MClone p =>
      match nth_error (ptrs m) p with Some s => Ret (push m (from_ptr (get s))) | None => Undef end
  | MSteal p =>
      match nth_error (ptrs m) p with Some s => Ret (push m s) | None => Undef end
  | MDrop p =>
      match nth_error (ptrs m) p with
      | Some s => if owns s then free m (get s) else Ret m
      | None => Undef
      end
  | MRelease p =>
      match nth_error (ptrs m) p with
      | Some s => if owns s then free m (get s) else Undef
      | None => Undef
      end
  end.
Fixpoint mrun (m : mem) (ops : list mop) : run mem :=
  match ops with
  | [] => Ret m
  | o :: r => m' <- mstep m o ;; mrun m' r
  end.
Definition mem0 : mem := mkMem [] [].

(* Copying a container of managed pointers clones every element; ccode.py:897
   makes the clone of an element its _steal.  Dropping it drops every element. *)
Definition copy_elements (els : list nat) : list mop := map MSteal els.
Definition drop_elements (els : list nat) : list mop := map MDrop els.

(* A sequence of dict statements.  put is the assignment d[k] = v of the container. *)
Inductive dict_op {K V : Type} :=
| DPut (k : K) (v : V)
| DPop (k : K)
| DPopDefault (k : K) (d : V)
| DGet (k : K) (d : V).
Arguments dict_op : clear implicits.
Fixpoint dict_run {K V} (eqb : K -> K -> bool) (put : list (K * V) -> K -> V -> list (K * V))
    (m : list (K * V)) (ops : list (dict_op K V)) : run (list (K * V) * list V) :=
  match ops with
  | [] => Ret (m, [])
  | o :: r =>
      p <- match o with
           | DPut k v => Ret (put m k v, [])
           | DPop k => p <- dict_pop eqb m k ;; Ret (snd p, [fst p])
           | DPopDefault k d => p <- dict_pop_default eqb m k d ;; Ret (snd p, [fst p])
           | DGet k d => v <- c_dict_get eqb m k d ;; Ret (m, [v])
           end ;;
      q <- dict_run eqb put (fst p) r ;;
      Ret (fst q, snd p ++ snd q)
  end.
