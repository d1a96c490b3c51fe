(* C102: augmented assignments have the effect of Python. *)
From Coq Require Import ZArith List Bool Lia.
From Verif Require Import Common RtInt_Model RtInt_Proofs Aug_Model Aug_Spec Aug_Proofs.
Import ListNotations.
Open Scope Z_scope.

(* Integers that fit: the operators are those of Python, in expressions and, except for the remainder in C, in op=. *)
Theorem C102_operators_partial : forall o a b v, fits o a b = true -> py_op o a b = Some v ->
  c_op o a b = Ret v /\ f_op o a b = Ret v /\ (o <> Mod -> c_aug_op o a b = Ret v).
Proof.
  intros o a b v F P. assert (X : py64 o a b = Ret v) by (unfold py64, py_sem; rewrite F, P; reflexivity).
  split; [apply c_op_ok|split; [apply f_op_ok|intros N; apply c_aug_ok]]; assumption.
Qed.
Print Assumptions C102_operators_partial.
Example C102_operators_ex :
  fits FloorDiv (-7) 2 = true /\ py_op FloorDiv (-7) 2 = Some (-4) /\ fits Mod (-7) 2 = true /\ py_op Mod (-7) 2 = Some 1 /\
  fits LShift 5 60 = true /\ fits LShift 5 62 = false /\ fits RShift (-5) 1 = true /\ py_op RShift (-5) 1 = Some (-3) /\ fits BitOr (-8) 3 = true.
Proof. repeat split; vm_compute; reflexivity. Qed.

(* a %= b in C: right exactly when b divides a or both have the same sign. *)
Theorem C102_mod_partial : forall a b, in_range 64 a -> in_range 64 b -> b <> 0 -> ~ (a = int_min 64 /\ b = -1) ->
  (c_aug_op Mod a b = Ret (a mod b) <-> a mod b = 0 \/ (a < 0 <-> b < 0)).
Proof.
  intros a b A B N M. rewrite (c_rem_py a b A B N M).
  destruct (Z.eqb_spec (a mod b) 0), (Z.ltb_spec a 0), (Z.ltb_spec b 0); cbn [orb xorb negb]; split; intros X;
    try reflexivity; try (left; assumption); try (right; lia); try (injection X; lia); destruct X as [X|X]; lia.
Qed.
Print Assumptions C102_mod_partial.
(* In all other cases x %= e leaves another number in x, in any order of evaluation. *)
Theorem C102_mod_refuted : forall body c x b s, let a := mem s (V x) in
  in_range 64 a -> in_range 64 b -> b <> 0 -> a mod b <> 0 -> (a < 0 /\ 0 < b \/ 0 < a /\ b < 0) ->
  python body py_sem Mod (TVar x) (Num b) s = Ret (store (V x) (a mod b) s) /\
  c_stmt body c Mod (TVar x) (Num b) s = Ret (store (V x) (a mod b - b) s).
Proof.
  intros body c x b s a A B N D S. split.
  - cbn. unfold py_sem. cbn [py_op]. destruct (Z.eqb_spec b 0); [lia|reflexivity].
  - assert (X : c_aug_op Mod a b = Ret (a mod b - b)).
    { rewrite (c_rem_py a b A B N).
      - destruct (Z.eqb_spec (a mod b) 0), (Z.ltb_spec a 0), (Z.ltb_spec b 0); cbn [orb xorb negb]; lia || reflexivity.
      - intros [_ ->]. apply D. pose proof (Z.mod_neg_bound a (-1)). lia. }
    cbn [c_stmt]. apply aug_run with (v := b); try reflexivity. exact X.
Qed.
Print Assumptions C102_mod_refuted.
(* x = -7; x %= 3 *)
Example C102_mod_ex : let s := mk (fun _ => -7) [] in
  in_range 64 (mem s (V 0)) /\ in_range 64 3 /\ -7 mod 3 = 2 /\
  exists r, c_stmt (fun _ _ m => (0, m)) (mk_order false false) Mod (TVar 0) (Num 3) s = Ret r /\ mem r (V 0) = -1.
Proof. split; [unfold in_range; cbn; lia|]. split; [unfold in_range; cbn; lia|]. split; [reflexivity|]. eexists. split; vm_compute; reflexivity. Qed.

(* The whole statement: if the index of the target makes no calls and the calls in the operand do not change what the target
   reads, the memory and the calls are those of Python in any order of evaluation. *)
Theorem C102_same_partial : forall body o t e s r, plain t -> python body py64 o t e s = Ret r ->
  (forall v s', eval body py64 e s = Ret (v, s') -> forall q, In q (target_reads body t s) -> mem s' q = mem s q) ->
  python body py_sem o t e s = Ret r /\ (forall c, f_stmt body c o t e s = Ret r) /\
  (o <> Mod -> forall c, c_stmt body c o t e s = Ret r).
Proof. exact same. Qed.
Print Assumptions C102_same_partial.
(* a[b[x] + 1] //= f() - 10 where f changes y *)
Definition ex_body (_ : nat) (_ : list nat) (m : memory) : Z * memory := (3, upd m (V 1) 99).
Definition ex_target := TElem 0 (Bin Add (Elem 1 (Var 0)) (Num 1)).
Definition ex_state := mk (fun l => match l with V _ => 2 | E a i => if Nat.eqb a 0 then 20 + i else i end) [].
Example C102_same_ex :
  plain ex_target /\ (exists r, python ex_body py64 FloorDiv ex_target (Bin Sub (Call 0) (Num 10)) ex_state = Ret r /\
    mem r (E 0 3) = -4 /\ mem r (V 1) = 99 /\ calls r = [0%nat]) /\
  forall v s', eval ex_body py64 (Bin Sub (Call 0) (Num 10)) ex_state = Ret (v, s') ->
    forall q, In q (target_reads ex_body ex_target ex_state) -> mem s' q = mem ex_state q.
Proof.
  split; [cbn; tauto|]. split; [eexists; split; [vm_compute; reflexivity|repeat split; vm_compute; reflexivity]|].
  intros v s' X q Q. vm_compute in Q. destruct Q as [<-|[<-|[<-|[]]]]; vm_compute in X; injection X as _ <-; reflexivity.
Qed.

(* C calls the functions in the index and in the operand as often as Python, except for //=. *)
Theorem C102_calls_partial : forall body sem c o t e s r r' f, o <> FloorDiv ->
  python body sem o t e s = Ret r -> c_stmt body c o t e s = Ret r' ->
  count_occ Nat.eq_dec (calls r') f = count_occ Nat.eq_dec (calls r) f.
Proof.
  intros body sem c o t e s r r' f O P C. pose proof (python_count body sem f o t e s r P) as X.
  assert (Y : occ f r' = (occ f s + count_target f t + count f e)%nat) by (destruct o; try congruence; exact (aug_count _ _ _ _ _ _ _ _ _ _ C)).
  unfold occ in *. lia.
Qed.
Print Assumptions C102_calls_partial.
(* Fortran, and //= in C, make the calls in the index of the target once more than Python. *)
Theorem C102_twice_refuted : forall body sem c o t e s r r' f,
  python body sem o t e s = Ret r -> (f_stmt body c o t e s = Ret r' \/ o = FloorDiv /\ c_stmt body c o t e s = Ret r') ->
  count_occ Nat.eq_dec (calls r') f = (count_occ Nat.eq_dec (calls r) f + count_target f t)%nat.
Proof.
  intros body sem c o t e s r r' f P C. pose proof (python_count body sem f o t e s r P) as X.
  assert (Y : occ f r' = (occ f s + 2 * count_target f t + count f e)%nat)
    by (destruct C as [C|[-> C]]; exact (basic_count _ _ _ _ _ _ _ _ _ C)).
  unfold occ in *. lia.
Qed.
Print Assumptions C102_twice_refuted.
(* a[next()] += 1, where next returns 0, 1, 2, ...: a[0] of Python, a[1] = a[0] + 1 or a[0] = a[1] + 1 in Fortran *)
Definition next (_ : nat) (log : list nat) (m : memory) : Z * memory := (Z.of_nat (length log), m).
Definition tens := mk (fun l => match l with E _ i => 10 * i | V _ => 0 end) [].
Example C102_twice_ex :
  (exists r, python next py_sem Add (TElem 0 (Call 5)) (Num 1) tens = Ret r /\ mem r (E 0 0) = 1 /\ mem r (E 0 1) = 10 /\ calls r = [5%nat]) /\
  (exists r, f_stmt next (mk_order true false) Add (TElem 0 (Call 5)) (Num 1) tens = Ret r /\
    mem r (E 0 0) = 0 /\ mem r (E 0 1) = 1 /\ calls r = [5%nat; 5%nat]) /\
  (exists r, f_stmt next (mk_order false false) Add (TElem 0 (Call 5)) (Num 1) tens = Ret r /\ mem r (E 0 0) = 11 /\ mem r (E 0 1) = 10) /\
  (exists r, c_stmt next (mk_order true false) Add (TElem 0 (Call 5)) (Num 1) tens = Ret r /\ mem r (E 0 0) = 1 /\ calls r = [5%nat]).
Proof. repeat split; eexists; (split; [vm_compute; reflexivity|]); repeat split; vm_compute; reflexivity. Qed.

(* x += f() where f changes x: Python adds to the number that x had before, the program, in an order that compilers may choose, to
   the new one. *)
Theorem C102_order_refuted : forall body x f s v n,
  let m := upd (mem s) (V x) n in body f (calls s) (mem s) = (v, m) -> in_range 64 (n + v) -> in_range 64 (mem s (V x) + v) -> n <> mem s (V x) ->
  python body py_sem Add (TVar x) (Call f) s = Ret (store (V x) (mem s (V x) + v) (mk m (calls s ++ [f]))) /\
  forall c, read_late c = true ->
    c_stmt body c Add (TVar x) (Call f) s = Ret (store (V x) (n + v) (mk m (calls s ++ [f]))) /\
    f_stmt body c Add (TVar x) (Call f) s = Ret (store (V x) (n + v) (mk m (calls s ++ [f]))).
Proof.
  intros body x f s v n m B R1 R2 N.
  assert (M : m (V x) = n) by (unfold m, upd; rewrite loc_eqb_refl; reflexivity).
  split.
  - unfold python. cbn [place bind fst snd eval]. rewrite B. reflexivity.
  - intros [pl rl] C. cbn [read_late] in C. subst rl. split.
    + cbn [c_stmt]. unfold aug_stmt. cbn [place_late read_late].
      destruct pl; cbn [place eval bind fst snd]; rewrite B; cbn [bind fst snd mem calls c_aug_op c_op]; rewrite M, (chk_in _ _ R1); reflexivity.
    + unfold f_stmt, basic_stmt, value. cbn [place_late read_late].
      destruct pl; cbn [place eval bind fst snd]; rewrite B; cbn [bind fst snd mem calls f_op]; rewrite M, (chk_in _ _ R1); reflexivity.
Qed.
Print Assumptions C102_order_refuted.
Example C102_order_ex : exists s v n, ex_body 0 (calls s) (mem s) = (v, upd (mem s) (V 1) n) /\ in_range 64 (n + v) /\
  in_range 64 (mem s (V 1) + v) /\ n <> mem s (V 1).
Proof. exists ex_state, 3, 99. unfold in_range. cbn. repeat split; lia. Qed.
