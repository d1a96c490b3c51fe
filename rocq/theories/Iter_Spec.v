(* What Python does in for loops and comprehensions. *)
From Coq Require Import Bool Arith ZArith Lia List.
From Verif Require Import Iter_Model.
Import ListNotations.
Open Scope Z_scope.
Open Scope list_scope.

(* ------------------------------ for loops ------------------------------ *)

(* The iterators.  e: the state when the loop starts; s: the state now; k: the number of
   iterations done.  None: the iterator is exhausted.  The values of the targets. *)
Fixpoint all_some {A : Type} (l : list (option A)) : option (list A) :=
  match l with
  | [] => Some []
  | None :: _ => None
  | Some x :: l' => match all_some l' with Some r => Some (x :: r) | None => None end
  end.
Definition py_next (it : iter) (e : state) (k : nat) (s : state) : option (list Z) :=
  match it with
  | ISeq _ c => option_map (fun x => [x]) (nth_error (seqs s c) k)
  | IRange a b st =>
    let v := a e + Z.of_nat k * st in
    if (if st <? 0 then b e <? v else v <? b e) then Some [v] else None
  | IEnum c start =>
    let n := match start with None => 0 | Some st => st e end in
    option_map (fun x => [n + Z.of_nat k; x]) (nth_error (seqs s c) k)
  | IZip cs => all_some (map (fun p => nth_error (seqs s (fst p)) k) cs)
  | IMap f c => option_map (fun x => [f x]) (nth_error (seqs s c) k)
  end.

Fixpoint set_vars (ts : list nat) (vs : list Z) (s : state) : state :=
  match ts, vs with
  | x :: ts', v :: vs' => set_vars ts' vs' (set_var s x v)
  | _, _ => s
  end.

Fixpoint py_loop (fuel : nat) (it : iter) (e : state) (ts : list nat) (b : body) (k : nat) (s : state) : result :=
  match fuel with
  | O => RFuel
  | S f =>
    match py_next it e k s with
    | None => RNext s
    | Some vs =>
      if Nat.eqb (List.length vs) (List.length ts) then
        match b (set_vars ts vs s) with
        | RNext s2 => py_loop f it e ts b (S k) s2
        | RBreak s2 => RNext s2
        | r => r
        end
      else RFail
    end
  end.
Definition py_for (fuel : nat) (it : iter) (ts : list nat) (b : body) (s : state) : result := py_loop fuel it s ts b 0 s.

(* the same end, up to the value of one variable after the loop *)
Definition same_but (x : option nat) (s s' : state) : Prop :=
  (forall c, seqs s c = seqs s' c) /\ (forall y, x <> Some y -> vars s y = vars s' y).
Definition same_result (x : option nat) (r r' : result) : Prop :=
  match r, r' with
  | RNext s, RNext s' => same_but x s s'
  | RBreak s, RBreak s' | RReturn s, RReturn s' => same_but None s s'
  | RFail, RFail | RUndef, RUndef | RFuel, RFuel => True
  | _, _ => False
  end.

(* The conditions on the iterable and the body *)
Definition containers (it : iter) : list nat :=
  match it with
  | ISeq _ c | IEnum c _ | IMap _ c => [c]
  | IRange _ _ _ => []
  | IZip cs => map fst cs
  end.
Definition bounds (it : iter) : list (state -> Z) :=
  match it with
  | IRange a b _ => [a; b]
  | IEnum _ (Some st) => [st]
  | _ => []
  end.
Definition width (it : iter) : nat :=
  match it with
  | ISeq _ _ | IRange _ _ _ | IMap _ _ => 1
  | IEnum _ _ => 2
  | IZip cs => List.length cs
  end.

Record steady (it : iter) (ts : list nat) (b : body) (s0 : state) : Prop := {
  (* as many targets as values, all different *)
  st_width : List.length ts = width it;
  st_distinct : NoDup ts;
  st_step : step it <> 0;
  (* the body keeps the lengths of the containers, the bounds and the counter *)
  st_lengths : forall c s s', In c (containers it) -> b s = RNext s' -> len s' c = len s c;
  st_bounds : forall f s s', In f (bounds it) -> b s = RNext s' -> f s' = f s;
  st_counter : forall x s s', counter it ts = Some x -> b s = RNext s' -> vars s' x = vars s x;
  (* the bounds do not use the targets *)
  st_targets : forall f x v s, In f (bounds it) -> In x ts -> f (set_var s x v) = f s;
  (* zip: literal lengths are right, and if there is one then the shortest length is a literal *)
  st_known : forall cs c n, it = IZip cs -> In (c, Some n) cs -> n = len s0 c;
  st_shortest : forall cs, it = IZip cs -> literals cs <> [] -> exists c n, In (c, Some n) cs /\ forall d, In d (map fst cs) -> n <= len s0 d;
  st_nonempty : forall cs, it = IZip cs -> cs <> []
}.

(* the number of iterations *)
Definition range_length (a b st : Z) : nat := Z.to_nat (ceil_div (b - a) st).
Definition iterations (it : iter) (s : state) : nat :=
  match it with
  | ISeq _ c | IEnum c _ | IMap _ c => List.length (seqs s c)
  | IRange a b st => range_length (a s) (b s) st
  | IZip cs => Z.to_nat (minimum (map (fun p => len s (fst p)) cs))
  end.

(* ------------------------------ product ------------------------------ *)

(* The containers are read when the loop starts. *)
Fixpoint tuples (l : list (list Z)) : list (list Z) :=
  match l with
  | [] => [[]]
  | d :: l' => flat_map (fun v => map (cons v) (tuples l')) d
  end.
Fixpoint py_each (ts : list nat) (items : list (list Z)) (b : body) (s : state) : result :=
  match items with
  | [] => RNext s
  | vs :: items' =>
    match b (set_vars ts vs s) with
    | RNext s2 => py_each ts items' b s2
    | RBreak s2 => RNext s2
    | r => r
    end
  end.
Definition py_product (cs : list (nat * nat)) (b : body) (s : state) : result :=
  py_each (map fst cs) (tuples (map (fun p => seqs s (snd p)) cs)) b s.

(* ------------------------------ generators ------------------------------ *)

(* All items of an iterable in a state that does not change *)
Fixpoint zip_lists (l : list (list Z)) : list (list Z) :=
  match l with
  | [] => []
  | [d] => map (fun x => [x]) d
  | d :: l' => map (fun p => fst p :: snd p) (combine d (zip_lists l'))
  end.
Definition py_items (it : iter) (s : state) : list (list Z) :=
  match it with
  | ISeq _ c => map (fun x => [x]) (seqs s c)
  | IRange a b st => map (fun k => [a s + Z.of_nat k * st]) (seq 0 (range_length (a s) (b s) st))
  | IEnum c start =>
    let n := match start with None => 0 | Some st => st s end in
    map (fun p => [n + Z.of_nat (fst p); snd p]) (combine (seq 0 (List.length (seqs s c))) (seqs s c))
  | IZip cs => zip_lists (map (fun p => seqs s (fst p)) cs)
  | IMap f c => map (fun x => [f x]) (seqs s c)
  end.
(* the values of  e for ts1 in it1 if c1 for ts2 in it2 if c2 ... *)
Fixpoint py_values (ls : list gen_loop) (e : state -> Z) (s : state) : list Z :=
  match ls with
  | [] => [e s]
  | g :: ls' => flat_map (fun vs => let s1 := set_vars (g_targets g) vs s in if g_cond g s1 then py_values ls' e s1 else []) (py_items (g_iter g) s)
  end.
Definition py_sum (l : list Z) : Z := fold_right Z.add 0 l.
(* min and max raise an exception without values *)
Definition py_reduce (r : reduction) (l : list Z) : option Z :=
  match r, l with
  | RSum, _ => Some (py_sum l)
  | _, [] => None
  | RMin, x :: l' => Some (fold_left Z.min l' x)
  | RMax, x :: l' => Some (fold_left Z.max l' x)
  end.

(* ------------------------------ the number of elements ------------------------------ *)

Fixpoint zip_rows (n : nat) (data : list (list Z)) : list (list Z) :=
  match n with
  | O => []
  | S m => map (fun d => hd 0 d) data :: zip_rows m (map (fun d => tl d) data)
  end.
(* the values the names of a loop get, one list for each iteration *)
Definition comp_items (c : comp) (g : env) : list (list Z) :=
  match c with
  | CRange _ a b st => map (fun k => [a g + Z.of_nat k * st]) (seq 0 (range_length (a g) (b g) st))
  | CIter _ d => map (fun x => [x]) d
  | CEnum _ _ d start => map (fun p => [start + Z.of_nat (fst p); snd p]) (combine (seq 0 (List.length d)) d)
  | CZip _ ds => zip_rows (Z.to_nat (zip_len ds)) ds
  end.
Fixpoint bind (xs : list nat) (vs : list Z) (g : env) : env :=
  match xs, vs with
  | x :: xs', v :: vs' => bind xs' vs' (upd g x v)
  | _, _ => g
  end.
Fixpoint py_count (l : list comp) (g : env) : Z :=
  match l with
  | [] => 1
  | c :: l' => fold_right Z.add 0 (map (fun vs => py_count l' (bind (comp_names c) vs g)) (comp_items c g))
  end.

(* The conditions.  The bounds of a loop do not use its own name... *)
Definition free_of (x : nat) (c : comp) : Prop :=
  match c with
  | CRange _ a b _ => forall g v, a (upd g x v) = a g /\ b (upd g x v) = b g
  | _ => True
  end.
(* ... only names of ranges are used in bounds, and every loop but the last one has one name *)
Fixpoint orderly (l : list comp) : Prop :=
  match l with
  | [] => True
  | [_] => True
  | CRange x a b st :: l' => free_of x (CRange x a b st) /\ orderly l'
  | CIter x d :: l' => Forall (free_of x) l' /\ orderly l'
  | _ :: _ => False
  end.
(* no range ends before it starts, in every iteration of the loops around it *)
Fixpoint nonnegative (l : list comp) (g : env) : Prop :=
  match l with
  | [] => True
  | c :: l' =>
    match c with CRange _ a b st => 0 < st /\ a g <= b g | _ => True end /\
    (forall vs, In vs (comp_items c g) -> nonnegative l' (bind (comp_names c) vs g))
  end.

(* ------------------------------ conditions for generators ------------------------------ *)

Definition unused (x : nat) {A : Type} (f : state -> A) : Prop := forall s v, f (set_var s x v) = f s.
(* The bounds of a loop do not use the result, the names of the loop or the names of later
   loops; a condition uses the names of the loops up to its own. *)
Fixpoint tidy (lhs : nat) (ls : list gen_loop) (s0 : state) : Prop :=
  match ls with
  | [] => True
  | g :: ls' =>
    let inner := flat_map g_targets ls' in
    List.length (g_targets g) = width (g_iter g) /\ step (g_iter g) <> 0 /\
    (forall f x, In f (bounds (g_iter g)) -> In x (lhs :: g_targets g ++ inner) -> unused x f) /\
    (forall x, In x (lhs :: inner) -> unused x (g_cond g)) /\
    (forall cs, g_iter g = IZip cs -> cs <> [] /\ (forall c n, In (c, Some n) cs -> n = len s0 c) /\
       (literals cs <> [] -> exists c n, In (c, Some n) cs /\ forall d, In d (map fst cs) -> n <= len s0 d)) /\
    tidy lhs ls' s0
  end.

(* the integers that the start value of max and min does not exclude *)
Definition in_range (l : lang) (v : Z) : Prop :=
  match l with LC => - 2 ^ 63 <= v | LFortran => - 2 ^ 63 < v end /\ v < 2 ^ 63.
