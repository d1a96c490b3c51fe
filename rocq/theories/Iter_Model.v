(* Loops over containers, ranges, enumerate, zip, map and product; comprehensions.
   Sources: pyccel/ast/builtins.py 401-489 (PythonEnumerate), 1198-1276 (PythonMap), 1320-1435
   (PythonRange), 1437-1527 (PythonZip), 1740-1813 (VariableIterator), pyccel/ast/itertoolsext.py
   19-63 (Product), pyccel/parser/semantic.py 3315-3463 (_get_iterable, _get_for_iterators),
   5657-5694 (_visit_For), 5696-5895 (_visit_FunctionalFor, the number of elements), 2891-3027
   (_assign_GeneratorComprehension), pyccel/parser/syntactic.py 1384-1400, 1483-1573
   (_visit_comprehension, _visit_GeneratorExp), pyccel/codegen/printing/ccode.py 3432-3518 and
   fcode.py 3102-3217 (For, PythonRange), ccode.py 3757-3791, fcode.py 4570-4580 (limits).
   Simplifications: elements are integers, containers are arrays, tuples or lists (sets and
   dictionaries are in Cont_Model.v); the step of a range is a literal; expressions have no side effects and
   are given as functions of the state. *)
From Coq Require Import Bool Arith ZArith Lia List.
Import ListNotations.
Open Scope Z_scope.
Open Scope list_scope.

(* ------------------------------ states and bodies ------------------------------ *)

Record state := mk_state { vars : nat -> Z; seqs : nat -> list Z }.
Definition set_var (s : state) (x : nat) (v : Z) : state :=
  mk_state (fun y => if Nat.eqb y x then v else vars s y) (seqs s).
Definition set_seq (s : state) (c : nat) (l : list Z) : state :=
  mk_state (vars s) (fun d => if Nat.eqb d c then l else seqs s d).

(* What a block of statements does: it ends, it leaves the loop or the function, it raises an
   exception (in Python), it does something undefined (in C or Fortran), it does not end with
   the number of iterations given. continue is RNext. *)
Inductive result := RNext (s : state) | RBreak (s : state) | RReturn (s : state) | RFail | RUndef | RFuel.
Definition body := state -> result.

Inductive lang := LC | LFortran.

(* ------------------------------ iterables ------------------------------ *)

Inductive iter :=
| ISeq (lst : bool) (c : nat)                          (* VariableIterator; lst: a list *)
| IRange (start stop : state -> Z) (step : Z)
| IEnum (c : nat) (start : option (state -> Z))        (* None: no start, or the literal 0 *)
| IZip (cs : list (nat * option Z))                    (* with the lengths that are literals *)
| IMap (f : Z -> Z) (c : nat).

Definition len (s : state) (c : nat) : Z := Z.of_nat (List.length (seqs s c)).
Definition minimum (l : list Z) : Z := match l with [] => 0 | x :: l' => fold_left Z.min l' x end.
Definition literals (cs : list (nat * option Z)) : list Z := flat_map (fun p => match snd p with Some n => [n] | None => [] end) cs.
(* builtins.py 1463-1471 *)
Definition zip_length (cs : list (nat * option Z)) (s : state) : Z :=
  match literals cs with
  | [] => minimum (map (fun p => len s (fst p)) cs)
  | l => minimum l
  end.

(* get_range: start, stop, step *)
Definition first (it : iter) (s : state) : Z := match it with IRange a _ _ => a s | _ => 0 end.
Definition stop (it : iter) (s : state) : Z :=
  match it with
  | ISeq _ c => len s c
  | IRange _ b _ => b s
  | IEnum c _ => len s c
  | IZip cs => zip_length cs s
  | IMap _ c => len s c
  end.
Definition step (it : iter) : Z := match it with IRange _ _ st => st | _ => 1 end.

(* The counter is a target of the loop (semantic.py 3397-3419), or a temporary: None *)
Definition counter (it : iter) (ts : list nat) : option nat :=
  match it with
  | IRange _ _ _ | IEnum _ None => nth_error ts 0
  | _ => None
  end.

Definition elem (c : nat) (v : Z) (s : state) : option Z := if v <? 0 then None else nth_error (seqs s c) (Z.to_nat v).
(* get_assign_targets *)
Definition assign_targets (it : iter) (v : Z) : list (state -> option Z) :=
  match it with
  | ISeq _ c => [elem c v]
  | IRange _ _ _ => []
  | IEnum c None => [elem c v]
  | IEnum c (Some st) => [(fun s => Some (v + st s)); elem c v]
  | IZip cs => map (fun p => elem (fst p) v) cs
  | IMap f c => [fun s => option_map f (elem c v s)]
  end.
(* zip(expr.target[-len(targets):], targets), one assignment after the other *)
Fixpoint do_assigns (l : list (nat * (state -> option Z))) (s : state) : option state :=
  match l with
  | [] => Some s
  | (x, e) :: l' => match e s with None => None | Some v => do_assigns l' (set_var s x v) end
  end.
Definition assigns (it : iter) (ts : list nat) (v : Z) : list (nat * (state -> option Z)) :=
  let es := assign_targets it v in
  combine (skipn (List.length ts - List.length es) ts) es.

Definition put (x : option nat) (v : Z) (s : state) : state := match x with None => s | Some y => set_var s y v end.

(* ------------------------------ loops in C ------------------------------ *)

(* for (i = start; i < stop; i += step): the stop is computed again before each iteration *)
Definition c_test (it : iter) (v : Z) (s : state) : bool := if step it <? 0 then v >? stop it s else v <? stop it s.
Fixpoint c_loop (fuel : nat) (it : iter) (ts : list nat) (b : body) (v : Z) (s : state) : result :=
  match fuel with
  | O => RFuel
  | S f =>
    if c_test it v s then
      match do_assigns (assigns it ts v) s with
      | None => RUndef
      | Some s1 =>
        match b s1 with
        | RNext s2 =>
          let v' := match counter it ts with Some x => vars s2 x | None => v end + step it in
          c_loop f it ts b v' (put (counter it ts) v' s2)
        | RBreak s2 => RNext s2
        | r => r
        end
      end
    else RNext s
  end.
(* for (c_each (it, type, list)): undefined if the list changes its length *)
Fixpoint each_loop (fuel : nat) (c : nat) (n : Z) (x : nat) (b : body) (k : nat) (s : state) : result :=
  match fuel with
  | O => RFuel
  | S f =>
    if Z.eqb (len s c) n then
      match nth_error (seqs s c) k with
      | None => RNext s
      | Some v =>
        match b (set_var s x v) with
        | RNext s2 => each_loop f c n x b (S k) s2
        | RBreak s2 => RNext s2
        | r => r
        end
      end
    else RUndef
  end.

(* ------------------------------ loops in Fortran ------------------------------ *)

(* do i = start, stop - 1, step: the number of iterations is computed once *)
Definition f_count (it : iter) (s : state) : nat :=
  let last := if step it <? 0 then stop it s + 1 else stop it s - 1 in
  Z.to_nat (Z.quot (last - first it s + step it) (step it)).
Fixpoint f_loop (n : nat) (it : iter) (ts : list nat) (b : body) (v : Z) (s : state) : result :=
  match n with
  | O => RNext (put (counter it ts) v s)
  | S m =>
    match do_assigns (assigns it ts v) (put (counter it ts) v s) with
    | None => RUndef
    | Some s1 =>
      match b s1 with
      | RNext s2 => f_loop m it ts b (v + step it) s2
      | RBreak s2 => RNext s2
      | r => r
      end
    end
  end.

Definition gen_for (l : lang) (fuel : nat) (it : iter) (ts : list nat) (b : body) (s : state) : result :=
  match l with
  | LC =>
    match it, ts with
    | ISeq true c, x :: _ => each_loop fuel c (len s c) x b 0 s
    | _, _ => c_loop fuel it ts b (first it s) (put (counter it ts) (first it s) s)
    end
  | LFortran => f_loop (f_count it s) it ts b (first it s) s
  end.

(* ------------------------------ itertools.product ------------------------------ *)

(* semantic.py 5673-5690: one loop for each container *)
Fixpoint gen_product (l : lang) (fuel : nat) (cs : list (nat * nat)) (b : body) (s : state) : result :=
  match cs with
  | [] => b s
  | (x, c) :: cs' => gen_for l fuel (ISeq false c) [x] (gen_product l fuel cs' b) s
  end.

(* ------------------------------ generators in sum, min, max ------------------------------ *)

(* for ts in it if cond *)
Record gen_loop := mk_loop { g_iter : iter; g_targets : list nat; g_cond : state -> bool }.
Fixpoint gen_nest (l : lang) (fuel : nat) (ls : list gen_loop) (b : body) (s : state) : result :=
  match ls with
  | [] => b s
  | g :: ls' => gen_for l fuel (g_iter g) (g_targets g) (fun s1 => if g_cond g s1 then gen_nest l fuel ls' b s1 else RNext s1) s
  end.

Inductive reduction := RSum | RMin | RMax.
Definition int_max : Z := 2 ^ 63 - 1.
(* ccode.py 3757-3791: INT64_MAX, INT64_MIN; fcode.py 4570-4580: huge, -huge *)
Definition neutral (l : lang) (r : reduction) : Z :=
  match r, l with
  | RSum, _ => 0
  | RMin, _ => int_max
  | RMax, LC => - int_max - 1
  | RMax, LFortran => - int_max
  end.
Definition combine_value (r : reduction) (a v : Z) : Z :=
  match r with RSum => a + v | RMin => Z.min a v | RMax => Z.max a v end.
(* lhs = start value; loops: lhs += e or lhs = min(lhs, e) *)
Definition gen_reduce (l : lang) (fuel : nat) (r : reduction) (lhs : nat) (e : state -> Z) (ls : list gen_loop) (s : state) : result :=
  gen_nest l fuel ls (fun s1 => RNext (set_var s1 lhs (combine_value r (vars s1 lhs) (e s1)))) (set_var s lhs (neutral l r)).

(* ------------------------------ the size of an array comprehension ------------------------------ *)

(* np.array([e for ... for ...]): semantic.py 5745-5895.  A bound is an expression in the names
   of the loops: a function of their values. *)
Definition env := nat -> Z.
Definition upd (g : env) (x : nat) (v : Z) : env := fun y => if Nat.eqb y x then v else g y.
Inductive comp :=
| CRange (x : nat) (start stop : env -> Z) (step : Z)
| CIter (x : nat) (data : list Z)
| CEnum (i x : nat) (data : list Z) (start : Z)
| CZip (xs : list nat) (data : list (list Z)).
Definition zip_len (data : list (list Z)) : Z := minimum (map (fun d => Z.of_nat (List.length d)) data).

(* indices: one or more names for each loop *)
Definition comp_names (c : comp) : list nat :=
  match c with
  | CRange x _ _ _ | CIter x _ => [x]
  | CEnum i x _ _ => [i; x]
  | CZip xs _ => xs
  end.
(* dims: size, step, start; steps below zero are refused. 5748-5750, 5753-5756, 5761: start and step
   stay 0 and 1 unless the iterable is a range *)
Definition ceil_div (a b : Z) : Z := - ((- a) / b).
Definition comp_start (c : comp) (g : env) : Z := match c with CRange _ a _ _ => a g | _ => 0 end.
Definition comp_step (c : comp) : Z := match c with CRange _ _ _ st => st | _ => 1 end.
Definition comp_size (c : comp) (g : env) : Z :=
  match c with
  | CRange _ a b st => if st =? 1 then b g - a g else ceil_div (b g - a g) st
  | CIter _ d => Z.of_nat (List.length d)
  | CEnum _ _ d _ => Z.of_nat (List.length d)
  | CZip _ ds => zip_len ds
  end.

(* sympy's sum from 0 to n - 1; if n is negative: the sum from n to -1 with the other sign *)
Fixpoint sum_to (f : Z -> Z) (n : nat) : Z := match n with O => 0 | S m => sum_to f m + f (Z.of_nat m) end.
Definition summation (f : Z -> Z) (n : Z) : Z :=
  if 0 <=? n then sum_to f (Z.to_nat n) else - sum_to (fun i => f (n + i)) (Z.to_nat (- n)).

(* 5842-5889: from the last loop to the first; the sum of dims[i] is over sp_indices[i] *)
Fixpoint alloc_from (names : list nat) (p : nat) (l : list comp) : env -> Z :=
  match l with
  | [] => fun _ => 1
  | c :: l' =>
    let dim := alloc_from names (S p) l' in
    let x := nth p names O in
    fun g => summation (fun v => dim (upd g x (comp_start c (upd g x v) + comp_step c * v))) (comp_size c g)
  end.
Definition alloc (l : list comp) : env -> Z := alloc_from (flat_map comp_names l) 0 l.
