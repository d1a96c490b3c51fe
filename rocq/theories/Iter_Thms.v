(* C56, C57, C58: loops over iterables, the size of comprehensions, reductions of generators. *)
From Coq Require Import Bool Arith ZArith Lia List.
From Verif Require Import Iter_Model Iter_Spec Iter_Proofs Iter_Comp.
Import ListNotations.
Open Scope Z_scope.
Open Scope list_scope.

Definition start_state : state :=
  mk_state (fun x => match x with 5%nat => 3 | _ => 0 end)
    (fun c => match c with 0%nat => [4; 7; 2] | 1%nat => [10; 20] | 2%nat => [1; 2; 3; 4; 5] | _ => [] end).
(* x9 = 10 * x9 + x0 + x1 *)
Definition digit : body := fun s => RNext (set_var s 9 (10 * vars s 9 + vars s 0%nat + vars s 1%nat)).
(* the same, but the loop ends at 7 *)
Definition digit_break : body := fun s => if vars s 1%nat =? 7 then RBreak s else digit s.

Lemma found : forall r (P : state -> Prop), match r with RNext s => P s | _ => False end -> exists s, r = RNext s /\ P s.
Proof. intros r P H. destruct r as [s| | | | |]; try contradiction. exists s. split; [reflexivity|exact H]. Qed.
Lemma found2 : forall r q (P : state -> state -> Prop), match r, q with RNext s, RNext s' => P s s' | _, _ => False end -> exists s s', r = RNext s /\ q = RNext s' /\ P s s'.
Proof. intros r q P H. destruct r as [s| | | | |]; try contradiction. destruct q as [s'| | | | |]; try contradiction. exists s, s'. split; [reflexivity|]. split; [reflexivity|exact H]. Qed.
Ltac show := (apply found2 || apply found); vm_compute; repeat split.

(* --------------------------------- for loops --------------------------------- *)

(* In C and in Fortran the body runs for Python's items in Python's order, and the loop ends as in
   Python.  Only the counter may have another value after the loop.  Missing: bodies that change
   the length of the container, the bounds or the counter, and the cases refuted below. *)
Theorem C56_loop_partial : forall l fuel it ts b s, steady it ts b s -> (iterations it s < fuel)%nat ->
  same_result (counter it ts) (gen_for l fuel it ts b s) (py_for fuel it ts b s).
Proof. exact gen_for_ok. Qed.
Print Assumptions C56_loop_partial.

Definition enum_a := IEnum 0 (Some (fun s => vars s 5%nat)).
Example C56_loop_example : forall l, steady enum_a [0; 1]%nat digit_break start_state /\ (iterations enum_a start_state < 10)%nat /\
  exists s', gen_for l 10 enum_a [0; 1]%nat digit_break start_state = RNext s' /\ vars s' 9%nat = 7 /\ vars s' 0%nat = 4.
Proof.
  intros l. assert (B : forall s s', digit_break s = RNext s' -> digit s = RNext s') by (intros s s' E; unfold digit_break in E; destruct (vars s 1%nat =? 7); [discriminate|exact E]).
  split; [split; try discriminate|split; [cbn; lia|destruct l; show]].
  - reflexivity.
  - constructor; [intros [E|[]]; discriminate|constructor; [intros []|constructor]].
  - intros c s s' _ E. apply B in E. injection E as <-. reflexivity.
  - intros f s s' [<-|[]] E. apply B in E. injection E as <-. reflexivity.
  - intros f x v s [<-|[]] [<-|[<-|[]]]; reflexivity.
Qed.

Definition zip_ab := IZip [(0%nat, None); (1%nat, None)].
Example C56_zip_example : forall l, steady zip_ab [0; 1]%nat digit start_state /\
  exists s', gen_for l 10 zip_ab [0; 1]%nat digit start_state = RNext s' /\ vars s' 9%nat = 167 /\ vars s' 0%nat = 7 /\ vars s' 1%nat = 20.
Proof.
  intros l. split; [split; try discriminate|destruct l; show].
  - reflexivity.
  - constructor; [intros [E|[]]; discriminate|constructor; [intros []|constructor]].
  - intros c s s' _ E. injection E as <-. reflexivity.
  - intros f s s' [].
  - intros f x v s [].
  - intros cs c n E I. injection E as <-. destruct I as [I|[I|[]]]; discriminate.
  - intros cs E L. injection E as <-. elim L. reflexivity.
  - intros cs E. injection E as <-. discriminate.
Qed.

(* The number of iterations is as given: Python's loop ends with that many. *)
Theorem C56_ends : forall fuel it ts b s, steady it ts b s -> (iterations it s < fuel)%nat -> (forall s, b s <> RFuel) -> py_for fuel it ts b s <> RFuel.
Proof. exact py_for_ends. Qed.
Print Assumptions C56_ends.

Example C56_ends_example : iterations (IRange (fun _ => 7) (fun s => - vars s 5%nat) (-2)) start_state = 5%nat /\
  py_for 6 (IRange (fun _ => 7) (fun s => - vars s 5%nat) (-2)) [1%nat] digit start_state <> RFuel /\
  py_for 5 (IRange (fun _ => 7) (fun s => - vars s 5%nat) (-2)) [1%nat] digit start_state = RFuel.
Proof. split; [reflexivity|]. split; [discriminate|reflexivity]. Qed.

(* zip of an array whose length is a literal and a shorter array whose length is not: the shorter
   array is read after its end. *)
Theorem C56_zip_refuted : forall l, exists it ts b s s', py_for 10 it ts b s = RNext s' /\ gen_for l 10 it ts b s = RUndef.
Proof. intros l. exists (IZip [(0%nat, Some 3); (1%nat, None)]), [0; 1]%nat, digit, start_state. destruct l; show. Qed.
Print Assumptions C56_zip_refuted.

(* enumerate(a, n) in a loop that changes n: the new n counts. *)
Definition digit_move : body := fun s => RNext (set_var (set_var s 9 (10 * vars s 9 + vars s 0%nat)) 5 0).
Theorem C56_start_refuted : forall l, exists it ts b s s' s'', py_for 10 it ts b s = RNext s' /\ gen_for l 10 it ts b s = RNext s'' /\ vars s' 9%nat = 345 /\ vars s'' 9%nat = 312.
Proof. intros l. exists enum_a, [0; 1]%nat, digit_move, start_state. destruct l; show. Qed.
Print Assumptions C56_start_refuted.

(* range(n) in a loop that changes n: C sees the new n. *)
Theorem C56_bound_refuted : exists it ts b s s' s'', py_for 10 it ts b s = RNext s' /\ gen_for LC 10 it ts b s = RNext s'' /\ vars s' 9%nat = 12 /\ vars s'' 9%nat = 0.
Proof. exists (IRange (fun _ => 0) (fun s => vars s 5%nat) 1), [0%nat], digit_move, start_state. show. Qed.
Print Assumptions C56_bound_refuted.

(* a list that grows in its own loop: Python visits the new elements, Fortran does not, and in C
   the iterator is not valid any more. *)
Definition grow : body := fun s => if (List.length (seqs s 0) <? 5)%nat then RNext (set_seq (set_var s 9 (vars s 9 + 1)) 0 (seqs s 0%nat ++ [1])) else RNext (set_var s 9 (vars s 9 + 1)).
Theorem C56_append_refuted : exists it ts b s s' s'', py_for 10 it ts b s = RNext s' /\ gen_for LFortran 10 it ts b s = RNext s'' /\ gen_for LC 10 it ts b s = RUndef /\
  vars s' 9%nat = 5 /\ vars s'' 9%nat = 3.
Proof. exists (ISeq true 0), [1%nat], grow, start_state. show. Qed.
Print Assumptions C56_append_refuted.

(* three targets for zip(a, b): Python raises an exception, the generated program runs. *)
Theorem C56_targets_refuted : forall l, exists it ts b s s', gen_for l 10 it ts b s = RNext s' /\ py_for 10 it ts b s = RFail.
Proof. intros l. exists zip_ab, [0; 1; 2]%nat, digit, start_state. destruct l; show. Qed.
Print Assumptions C56_targets_refuted.

(* --------------------------------- product --------------------------------- *)

(* The loops that replace a loop over product do the same as Python if no pool is empty, the body
   has no break, keeps the pools and does not assign to the targets. *)
Theorem C56_product_partial : forall l fuel cs b s, NoDup (map fst cs) ->
  (forall s s', b s <> RBreak s') ->
  (forall s s' p, In p cs -> b s = RNext s' -> seqs s' (snd p) = seqs s (snd p) /\ vars s' (fst p) = vars s (fst p)) ->
  (forall p, In p cs -> seqs s (snd p) <> [] /\ (List.length (seqs s (snd p)) < fuel)%nat) ->
  gen_product l fuel cs b s = py_product cs b s.
Proof. exact product_ok. Qed.
Print Assumptions C56_product_partial.

Definition pools := [(0%nat, 1%nat); (1%nat, 0%nat)].
Example C56_product_example : forall l, NoDup (map fst pools) /\ (forall s s', digit s <> RBreak s') /\
  (forall s s' p, In p pools -> digit s = RNext s' -> seqs s' (snd p) = seqs s (snd p) /\ vars s' (fst p) = vars s (fst p)) /\
  (forall p, In p pools -> seqs start_state (snd p) <> [] /\ (List.length (seqs start_state (snd p)) < 10)%nat) /\
  exists s', gen_product l 10 pools digit start_state = RNext s' /\ vars s' 9%nat = 1584692 /\ vars s' 0%nat = 20 /\ vars s' 1%nat = 2.
Proof.
  intros l. split; [|split; [discriminate|split; [|split]]].
  - constructor; [intros [E|[]]; discriminate|constructor; [intros []|constructor]].
  - intros s s' p [<-|[<-|[]]] E; injection E as <-; split; reflexivity.
  - intros p [<-|[<-|[]]]; (split; [discriminate|cbn; lia]).
  - destruct l; show.
Qed.

(* break leaves only the last of the loops *)
Theorem C56_product_break_refuted : forall l, exists cs b s s' s'', py_product cs b s = RNext s' /\ gen_product l 10 cs b s = RNext s'' /\ vars s' 9%nat = 14 /\ vars s'' 9%nat = 164.
Proof. intros l. exists pools, digit_break, start_state. destruct l; show. Qed.
Print Assumptions C56_product_break_refuted.

(* an assignment to the first target is seen by the next iterations *)
Definition digit_clear : body := fun s => RNext (set_var (set_var s 9 (10 * vars s 9 + vars s 0%nat)) 0 0).
Theorem C56_product_target_refuted : forall l, exists cs b s s' s'', py_product cs b s = RNext s' /\ gen_product l 10 cs b s = RNext s'' /\ vars s' 9%nat = 1112220 /\ vars s'' 9%nat = 1002000.
Proof. intros l. exists pools, digit_clear, start_state. destruct l; show. Qed.
Print Assumptions C56_product_target_refuted.

(* if the last pool is empty, the first target is assigned, though there is no iteration *)
Theorem C56_product_empty_refuted : forall l, exists cs b s s' s'', py_product cs b s = RNext s' /\ gen_product l 10 cs b s = RNext s'' /\ vars s' 0%nat = 0 /\ vars s'' 0%nat = 20.
Proof. intros l. exists [(0%nat, 1%nat); (1%nat, 3%nat)], digit, start_state. destruct l; show. Qed.
Print Assumptions C56_product_empty_refuted.

(* --------------------------------- the size of comprehensions --------------------------------- *)

(* The array is allocated with as many elements as the loops of the comprehension produce, if no
   range ends before it starts, only names of ranges are used in bounds, and only the last loop
   has several names. *)
Theorem C57_size_partial : forall l g, orderly l -> nonnegative l g -> alloc l g = py_count l g.
Proof. exact alloc_ok. Qed.
Print Assumptions C57_size_partial.

(* for i in range(1, n, 2) for x in a for j in range(i, n + 1) for y, z in zip(b, c) *)
Definition comp1 : list comp := [CRange 0 (fun _ => 1) (fun g => g 9%nat) 2; CIter 1 [5; 6]; CRange 2 (fun g => g 0%nat) (fun g => g 9%nat + 1) 1; CZip [3; 4]%nat [[1; 2; 3]; [4; 5; 6; 7]]].
Definition env1 : env := fun x => match x with 9%nat => 6 | _ => 0 end.
Example C57_size_example : orderly comp1 /\ nonnegative comp1 env1 /\ alloc comp1 env1 = 72.
Proof.
  split; [|split; [|vm_compute; reflexivity]].
  - cbn [orderly comp1]. split; [intros g v; split; reflexivity|]. split; [constructor; [intros g v; split; reflexivity|constructor; [exact I|constructor]]|]. split; [intros g v; split; reflexivity|exact I].
  - split; [cbn; lia|]. intros vs Iv. split; [exact I|]. intros ws Iw. split; [|intros us _; split; [exact I|intros ts _; exact I]]. cbn in Iv, Iw.
    destruct Iv as [<-|[<-|[<-|[]]]]; destruct Iw as [<-|[<-|[]]]; cbn; lia.
Qed.

(* for i in range(n) for j in range(i, 3)  with n = 5: 5 elements for 6 values *)
Theorem C57_short_refuted : exists l g, orderly l /\ alloc l g = 5 /\ py_count l g = 6.
Proof. exists [CRange 0 (fun _ => 0) (fun g => g 9%nat) 1; CRange 1 (fun g => g 0%nat) (fun _ => 3) 1], (upd env1 9 5). split; [repeat split|]. split; vm_compute; reflexivity. Qed.
Print Assumptions C57_short_refuted.

(* for i in range(n)  with n = -2 *)
Theorem C57_negative_refuted : exists l g, orderly l /\ alloc l g = -2 /\ py_count l g = 0.
Proof. exists [CRange 0 (fun _ => 0) (fun g => g 9%nat) 1], (upd env1 9 (-2)). split; [repeat split|]. split; vm_compute; reflexivity. Qed.
Print Assumptions C57_negative_refuted.

(* for i, x in enumerate(a, 2) for j in range(i): the start is ignored *)
Theorem C57_start_refuted : exists l g, nonnegative l g /\ alloc l g = 3 /\ py_count l g = 9.
Proof.
  exists [CEnum 0 1 [7; 8; 9] 2; CRange 2 (fun _ => 0) (fun g => g 0%nat) 1], env1. split; [|split; vm_compute; reflexivity].
  split; [exact I|]. intros vs Iv. split; [|intros ws _; exact I]. cbn in Iv. destruct Iv as [<-|[<-|[<-|[]]]]; cbn; lia.
Qed.
Print Assumptions C57_start_refuted.

(* for x in a for j in range(x): the index of the element is used for its value *)
Theorem C57_data_refuted : exists l g, nonnegative l g /\ alloc l g = 1 /\ py_count l g = 11.
Proof.
  exists [CIter 0 [5; 6]; CRange 1 (fun _ => 0) (fun g => g 0%nat) 1], env1. split; [|split; vm_compute; reflexivity].
  split; [exact I|]. intros vs Iv. split; [|intros ws _; exact I]. cbn in Iv. destruct Iv as [<-|[<-|[]]]; cbn; lia.
Qed.
Print Assumptions C57_data_refuted.

(* for x, y in zip(a, b) for i in range(3) for j in range(i): the sums are over the wrong names,
   and the size depends on the value of i before the loops *)
Theorem C57_zip_refuted : exists l g h, nonnegative l g /\ nonnegative l h /\ py_count l g = 6 /\ py_count l h = 6 /\ alloc l g = 0 /\ alloc l h = 42.
Proof.
  exists [CZip [0; 1]%nat [[5; 6]; [7; 8]]; CRange 2 (fun _ => 0) (fun _ => 3) 1; CRange 3 (fun _ => 0) (fun g => g 2%nat) 1], env1, (upd env1 2 7).
  assert (N : forall g, nonnegative [CZip [0; 1]%nat [[5; 6]; [7; 8]]; CRange 2 (fun _ => 0) (fun _ => 3) 1; CRange 3 (fun _ => 0) (fun g => g 2%nat) 1] g).
  { intros g. split; [exact I|]. intros vs _. split; [lia|]. intros ws Iw. split; [|intros us _; exact I]. cbn in Iw. destruct Iw as [<-|[<-|[<-|[]]]]; cbn; lia. }
  split; [apply N|]. split; [apply N|]. repeat split; vm_compute; reflexivity.
Qed.
Print Assumptions C57_zip_refuted.

(* --------------------------------- sum, min, max --------------------------------- *)

(* The loops for  lhs = sum(e for ... if ... for ... if ...)  and min, max leave Python's value in
   lhs, and no other variable is changed but the names of the generator.  Missing: machine
   arithmetic (C20), and the cases refuted below. *)
Theorem C58_reduce_partial : forall l r lhs e ls s v, unused lhs e -> NoDup (lhs :: flat_map g_targets ls) -> tidy lhs ls s ->
  (r = RSum \/ Forall (in_range l) (py_values ls e s)) -> py_reduce r (py_values ls e s) = Some v ->
  exists n, forall fuel, (n <= fuel)%nat -> exists s', gen_reduce l fuel r lhs e ls s = RNext s' /\ vars s' lhs = v /\ (forall c, seqs s' c = seqs s c) /\
    (forall y, y <> lhs -> ~ In y (flat_map g_targets ls) -> vars s' y = vars s y).
Proof. exact reduce_ok. Qed.
Print Assumptions C58_reduce_partial.

(* x9 = max(x * i - 3 * j  for i, x in enumerate(a) if x != 7 for j in range(i, x)) *)
Definition gen1 : list gen_loop :=
  [mk_loop (IEnum 0 None) [0; 1]%nat (fun s => negb (vars s 1%nat =? 7)); mk_loop (IRange (fun s => vars s 0%nat) (fun s => vars s 1%nat) 1) [2%nat] (fun _ => true)].
Definition expr1 (s : state) : Z := vars s 1%nat * vars s 0%nat - 3 * vars s 2%nat.
Example C58_reduce_example : unused 9 expr1 /\ NoDup (9%nat :: flat_map g_targets gen1) /\ tidy 9 gen1 start_state /\ (forall l, Forall (in_range l) (py_values gen1 expr1 start_state)) /\
  py_values gen1 expr1 start_state = [0; -3; -6; -9] /\ py_reduce RMax (py_values gen1 expr1 start_state) = Some 0 /\ py_reduce RSum (py_values gen1 expr1 start_state) = Some (-18) /\
  forall l, exists s', gen_reduce l 10 RSum 9 expr1 gen1 start_state = RNext s' /\ vars s' 9%nat = -18.
Proof.
  split; [intros s v; reflexivity|]. split; [cbn; repeat (constructor; [cbn; lia|]); constructor|]. split; [|split].
  - split; [reflexivity|]. split; [discriminate|]. split; [intros f x []|]. split; [intros x [<-|[<-|[]]] s v; reflexivity|]. split; [discriminate|].
    split; [reflexivity|]. split; [discriminate|]. split; [intros f x [<-|[<-|[]]] [<-|[<-|[]]] s v; reflexivity|]. split; [intros x _ s v; reflexivity|]. split; [discriminate|exact I].
  - intros l. change (py_values gen1 expr1 start_state) with [0; -3; -6; -9]. repeat (constructor; [destruct l; split; reflexivity || (cbn; lia)|]). constructor.
  - repeat split; try reflexivity. intros l. destruct l; show.
Qed.

(* max of nothing: Python raises an exception, the result is the start value. *)
Theorem C58_empty_refuted : forall l, exists ls e s s', gen_reduce l 10 RMax 9 e ls s = RNext s' /\ py_reduce RMax (py_values ls e s) = None /\ vars s' 9%nat = neutral l RMax.
Proof. intros l. exists [mk_loop (ISeq false 3) [0%nat] (fun _ => true)], (fun s => vars s 0%nat), start_state. destruct l; show. Qed.
Print Assumptions C58_empty_refuted.

(* max of the smallest integer only: Fortran's start value is above it. *)
Theorem C58_smallest_refuted : exists ls e s s', gen_reduce LFortran 10 RMax 9 e ls s = RNext s' /\ py_reduce RMax (py_values ls e s) = Some (- 2 ^ 63) /\ vars s' 9%nat = - 2 ^ 63 + 1.
Proof. exists [mk_loop (ISeq false 1) [0%nat] (fun _ => true)], (fun _ => - 2 ^ 63), start_state. show. Qed.
Print Assumptions C58_smallest_refuted.

(* n = sum(n + x for x in a): the partial sums are used for n. *)
Theorem C58_own_refuted : forall l, exists ls e s s', gen_reduce l 10 RSum 5 e ls s = RNext s' /\ py_reduce RSum (py_values ls e s) = Some 22 /\ vars s' 5%nat = 32.
Proof. intros l. exists [mk_loop (ISeq false 0) [0%nat] (fun _ => true)], (fun s => vars s 5%nat + vars s 0%nat), start_state. destruct l; show. Qed.
Print Assumptions C58_own_refuted.

(* The names of a generator are local in Python; here a variable with the same name is changed. *)
Theorem C58_leak_refuted : forall l, exists ls e s s', gen_reduce l 10 RSum 9 e ls s = RNext s' /\ In 5%nat (flat_map g_targets ls) /\ vars s 5%nat = 3 /\ vars s' 9%nat = 13 /\ vars s' 5%nat = 2.
Proof. intros l. exists [mk_loop (ISeq false 0) [5%nat] (fun _ => true)], (fun s => vars s 5%nat), start_state. destruct l; show; left; reflexivity. Qed.
Print Assumptions C58_leak_refuted.
