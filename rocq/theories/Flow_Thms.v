(* C65: statements run when and as often as in Python *)
From Coq Require Import Bool Arith ZArith Lia List String.
From Verif Require Import Flow_Model Flow_Spec Flow_Proofs.
Import ListNotations.
Open Scope list_scope.
Open Scope string_scope.

Fixpoint pblock_of (l : list pstmt) : pblock :=
  match l with [] => PNil | c :: l' => PCons c (pblock_of l') end.

Definition x : expr := Get (User "x").

(* All variables of the program are 3; temporaries have no value *)
Definition start : state :=
  mk (fun v => match v with User _ => Some 3%Z | _ => None end) [].

(* What can be seen of a result *)
Definition seen (r : result) : option (signal * list Z * option Z) :=
  match r with Done g s => Some (g, out s, vars s (User "x")) | _ => None end.

(* Partial: parts that are computed in a statement of their own (Early, Late, Held, Pick) must
   be moved over nothing that matters (ok in Flow_Spec), must not be in the condition of an elif
   or a while, and loops must have no else.  For all programs, states and numbers of
   iterations; the loops make the same numbers of iterations (Timeout). *)
Theorem C65_c_partial : forall b n s,
  safe_block false b = true -> py_block n b s <> Fault ->
  alike (py_block n b s) (exec_block n (to_c b) s).
Proof. exact to_c_right. Qed.
Print Assumptions C65_c_partial.

(* Partial: as above, and the head of an if or a for needs no code of the printer *)
Theorem C65_fortran_partial : forall b n s,
  safe_block true b = true -> py_block n b s <> Fault ->
  alike (py_block n b s) (exec_block n (to_fortran b) s).
Proof. exact to_fortran_right. Qed.
Print Assumptions C65_fortran_partial.

(* for i in range(x):
       if array_call(x): print(i); x = x + min(x - 1, 5)
       elif x < 0: break
       else: while 0 < x: x = x - 1
   return print(pop()) + array_call(x) *)
Definition example : pblock := pblock_of
  [PFor "i" x
     (pblock_of
        [PIf (Bin Lt (Early x) (Num 5))
           (pblock_of [PDo (Tell (Get (User "i")));
                       PPut "x" (Bin Add x (Late (Bin Sub x (Num 1))))])
           (pblock_of [PIf (Bin Lt x (Num 0)) (pblock_of [PBreak])
              (pblock_of [PWhile (Bin Lt (Num 0) x)
                                 (pblock_of [PPut "x" (Bin Sub x (Num 1))]) PNil])])]) PNil;
   PReturn (Bin Add (Early (Tell (Bump "x"))) (Early x))].

Example C65_example :
  safe_block false example = true /\ safe_block true example = true /\
  seen (py_block 10 example start) = Some (Left, [0; 2; -2]%Z, Some (-2)%Z) /\
  seen (exec_block 10 (to_c example) start) = Some (Left, [0; 2; -2]%Z, Some (-2)%Z) /\
  seen (exec_block 10 (to_fortran example) start) = Some (Left, [0; 2; -2]%Z, Some (-2)%Z).
Proof. vm_compute. repeat split. Qed.

(* while min(x - 1, 5): x = x - 1.  What the condition needs is computed once, before the loop:
   Python's loop ends, the loop in C and in Fortran never *)
Definition endless : pblock := pblock_of
  [PWhile (Late (Bin Sub x (Num 1))) (pblock_of [PPut "x" (Bin Sub x (Num 1))]) PNil].

Theorem C65_while_refuted :
  seen (py_block 3 endless start) = Some (Next, [], Some 1%Z) /\
  (forall n, exec_block n (to_c endless) start = Timeout) /\
  (forall n, exec_block n (to_fortran endless) start = Timeout).
Proof.
  split; [vm_compute; reflexivity |].
  set (w := Cons (Put (User "x") (Bin Sub x (Num 1))) Nil).
  assert (L : forall n k s z, vars s (Tmp 0) = Some 2%Z -> vars s (User "x") = Some z ->
            loop (eval (Get (Tmp 0))) (exec_block n w) k s = Timeout).
  { intros n. induction k as [| k IH]; intros s z T Z; [reflexivity |].
    cbn [loop eval]. rewrite T. change (truth 2) with true. cbv beta iota.
    unfold w at 1. cbn [exec_block exec eval x]. rewrite Z. cbn [apply].
    eapply IH; [exact T | reflexivity]. }
  assert (H : forall n, exec_block n
    (Cons (Put (Tmp 0) (Bin Sub x (Num 1))) (Cons (While (Get (Tmp 0)) w) Nil))
    start = Timeout).
  { intros n. change (match stop (loop (eval (Get (Tmp 0))) (exec_block n w) n
                             (store (Tmp 0) 2%Z start)) with
                      | Done Next s1 => Done Next s1 | r => r end = Timeout).
    rewrite (L n n _ 3%Z); reflexivity. }
  split; exact H.
Qed.
Print Assumptions C65_while_refuted.

(* if x: print(1) elif f(1 // 0): pass, where f has an array as result or is an argument of
   min.  What the condition of an elif needs is computed before the if *)
Theorem C65_elif_refuted :
  exists b, py_block 1 b start <> Fault /\
    exec_block 1 (to_c b) start = Fault /\ exec_block 1 (to_fortran b) start = Fault.
Proof.
  exists (pblock_of [PIf x (pblock_of [PDo (Tell (Num 1))])
            (pblock_of [PIf (Early (Bin Div (Num 1) (Num 0))) PNil PNil])]).
  vm_compute. repeat split; discriminate.
Qed.
Print Assumptions C65_elif_refuted.

(* if l.pop(): print(1) in Fortran: the code for the condition is put in the body of the if,
   after the condition has been tested *)
Theorem C65_fortran_if_refuted :
  exists b, py_block 1 b start <> Fault /\ safe_block false b = true /\
    exec_block 1 (to_fortran b) start = Fault.
Proof.
  exists (pblock_of [PIf (Late (Bump "x")) (pblock_of [PDo (Tell (Num 1))]) PNil]).
  vm_compute. repeat split; discriminate.
Qed.
Print Assumptions C65_fortran_if_refuted.

(* for i in range(l.pop()): print(i) in Fortran: the code for the bound is put in the body *)
Theorem C65_fortran_for_refuted :
  exists b, py_block 1 b start <> Fault /\ safe_block false b = true /\
    exec_block 1 (to_fortran b) start = Fault.
Proof.
  exists (pblock_of [PFor "i" (Late (Bump "x")) (pblock_of [PDo (Tell (Get (User "i")))]) PNil]).
  vm_compute. repeat split; discriminate.
Qed.
Print Assumptions C65_fortran_for_refuted.

(* 0 and f(1 // 0): a part computed before the statement is always evaluated *)
Theorem C65_short_circuit_refuted :
  exists b, py_block 1 b start <> Fault /\
    exec_block 1 (to_c b) start = Fault /\ exec_block 1 (to_fortran b) start = Fault.
Proof.
  exists (pblock_of [PDo (And (Num 0) (Late (Bin Div (Num 1) (Num 0))))]).
  vm_compute. repeat split; discriminate.
Qed.
Print Assumptions C65_short_circuit_refuted.

(* f(1) + g(2) where the result of g needs a temporary: g runs first *)
Theorem C65_order_refuted :
  exists b, seen (py_block 1 b start) = Some (Next, [1; 2]%Z, Some 3%Z) /\
    seen (exec_block 1 (to_c b) start) = Some (Next, [2; 1]%Z, Some 3%Z) /\
    seen (exec_block 1 (to_fortran b) start) = Some (Next, [2; 1]%Z, Some 3%Z).
Proof.
  exists (pblock_of [PDo (Bin Add (Tell (Num 1)) (Early (Tell (Num 2))))]).
  vm_compute. repeat split.
Qed.
Print Assumptions C65_order_refuted.

(* y = f(1) if c else g(2) for functions with arrays as results: f is called whatever c is,
   and twice if c is true *)
Theorem C65_conditional_refuted :
  forall c : bool, exists b,
    seen (py_block 1 b start) = Some (Next, [if c then 1 else 2]%Z, Some 3%Z) /\
    seen (exec_block 1 (to_c b) start) =
      Some (Next, [1; if c then 1 else 2]%Z, Some 3%Z) /\
    seen (exec_block 1 (to_fortran b) start) =
      Some (Next, [1; if c then 1 else 2]%Z, Some 3%Z).
Proof.
  intros c. exists (pblock_of
    [PPut "y" (Pick (Lit c) (Early (Tell (Num 1))) (Early (Tell (Num 2))))]).
  destruct c; vm_compute; repeat split.
Qed.
Print Assumptions C65_conditional_refuted.

(* The else of a loop is ignored: while 0 < x: x = x - 1 else: print(7) *)
Theorem C65_loop_else_refuted :
  exists b, seen (py_block 9 b start) = Some (Next, [7]%Z, Some 0%Z) /\
    seen (exec_block 9 (to_c b) start) = Some (Next, [], Some 0%Z) /\
    seen (exec_block 9 (to_fortran b) start) = Some (Next, [], Some 0%Z).
Proof.
  exists (pblock_of [PWhile (Bin Lt (Num 0) x) (pblock_of [PPut "x" (Bin Sub x (Num 1))])
                            (pblock_of [PDo (Tell (Num 7))])]).
  vm_compute. repeat split.
Qed.
Print Assumptions C65_loop_else_refuted.

(* a.f().g().h() in Fortran: the code for a.f() is lost, and the call of g has an object
   without a value *)
Theorem C65_lost_code_refuted :
  exists b, seen (py_block 1 b start) = Some (Next, [3]%Z, Some 3%Z) /\
    exec_block 1 (to_fortran b) start = Fault.
Proof.
  exists (pblock_of [PDo (Tell (Held (Held x)))]).
  vm_compute. repeat split.
Qed.
Print Assumptions C65_lost_code_refuted.
