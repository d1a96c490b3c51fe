(* C59: the memory of arrays. *)
From Coq Require Import Bool Arith ZArith Lia List.
From Verif Require Import Alloc_Model Alloc_Spec Alloc_Static Alloc_Proofs.
Import ListNotations.
Open Scope Z_scope.
Open Scope list_scope.

Fixpoint seq (l : list stmt) : block := match l with [] => BNil | s :: l' => BCons s (seq l') end.
Definition zeros (n : Z) : rhs := RNew [DLit n] (fun _ => 0).
Definition ones (n : Z) : rhs := RNew [DLit n] (fun _ => 1).
Definition zeros_v (v : nat) : rhs := RNew [DVar v] (fun _ => 0).
Definition plus_one (y : nat) : rhs := RElem false y [] (fun vs => match vs with [v] => v + 1 | _ => 0 end).
Definition positive (v : nat) : env -> bool := fun e => 0 <? e v.
Definition if_else (c : env -> bool) (a b : list stmt) : stmt := SIf (Branch (CDyn c) (seq a) (Branch CTrue (seq b) NoBranch)).
Definition if_only (c : env -> bool) (a : list stmt) : stmt := SIf (Branch (CDyn c) (seq a) NoBranch).
Definition down (v : nat) : stmt := SInt v (fun e => e v - 1).
Definition env1 (n : Z) : env := fun _ => n.

(* ------------------------------ ordinary programs ------------------------------ *)

(* x: introduced in both branches of an if statement, with different shapes.  y, z: temporaries
   of a loop.  w: given a new length in the loop. *)
Definition ordinary : block := seq [
  SInt 1 (fun e => e 0%nat + 2);
  if_else (positive 0) [SAssign 0 (zeros 3)] [SAssign 0 (zeros_v 1)];
  SAssign 3 (zeros_v 1);
  SLoop (positive 1) (seq [
    SAssign 1 (zeros 4);
    SAssign 1 (plus_one 1);
    SAssign 2 (plus_one 0);
    SAssign 0 (RElem false 0 [2%nat] (fun vs => match vs with [v; w] => v + w | _ => 0 end));
    SLen 2 2 0;
    SAssign 3 (zeros_v 2);
    down 1]);
  SAug 0 (fun v => 2 * v);
  if_only (positive 5) [SReturn (Some [3%nat])];
  SReturn (Some [0%nat; 3%nat])].
Definition ordinary_kind (x : nat) : skind := match x with 1%nat => Fixed [4] | 3%nat => Loose | _ => Free end.

Lemma ordinary_tidy : tidy ordinary_kind (fun _ => 1%nat) ordinary.
Proof. unfold tidy. vm_compute. discriminate. Qed.
Lemma found_py fuel b e : (match py_function fuel b e with OReturn _ _ => True | _ => False end) -> exists ps xs, py_function fuel b e = OReturn ps xs.
Proof. destruct (py_function fuel b e); intros H; try destruct H. eauto. Qed.

Theorem C59_memory_c_partial : forall kind rank b fuel e ps xs, no_bare b = true -> tidy kind rank b ->
  py_function fuel b e = OReturn ps xs -> same_result ps xs (run_function LC fuel b e).
Proof. intros kind rank b fuel e ps xs NB T. exact (function_sim kind rank LC b fuel e ps xs (fun h => match (eq_ind LC (fun l => match l with LC => True | LFortran => False end) I _ h) return _ with end) (fun _ => NB) T). Qed.
Print Assumptions C59_memory_c_partial.

Example memory_c_used : no_bare ordinary = true /\ tidy ordinary_kind (fun _ => 1%nat) ordinary /\ (exists ps xs, py_function 20 ordinary (env1 1) = OReturn ps xs)
  /\ (exists ps xs, py_function 20 ordinary (env1 0) = OReturn ps xs).
Proof. split; [reflexivity|]. split; [exact ordinary_tidy|]. split; apply found_py; vm_compute; exact I. Qed.

Theorem C59_memory_fortran_partial : forall kind b fuel e ps xs, tidy kind (fun _ => 1%nat) b ->
  py_function fuel b e = OReturn ps xs -> same_result ps xs (run_function LFortran fuel b e).
Proof. intros kind b fuel e ps xs T. exact (function_sim kind (fun _ => 1%nat) LFortran b fuel e ps xs (fun _ _ => eq_refl) (fun h => match (eq_ind LFortran (fun l => match l with LFortran => True | LC => False end) I _ h) return _ with end) T). Qed.
Print Assumptions C59_memory_fortran_partial.

Example memory_fortran_used : tidy ordinary_kind (fun _ => 1%nat) ordinary /\ (exists ps xs, py_function 20 ordinary (env1 3) = OReturn ps xs).
Proof. split; [exact ordinary_tidy|]. apply found_py; vm_compute; exact I. Qed.

(* any program at all, without return: no array holds memory when the function ends *)
Theorem C59_all_freed_partial : forall l b fuel e cs xs, no_return b = true -> run_function l fuel b e = OReturn cs xs ->
  xs = [] /\ forall x, c_data (g_arr cs x) = None.
Proof. exact all_freed. Qed.
Print Assumptions C59_all_freed_partial.

Lemma found_run l fuel b e : (match run_function l fuel b e with OReturn _ [] => True | _ => False end) -> exists cs, run_function l fuel b e = OReturn cs [].
Proof. destruct (run_function l fuel b e) as [| |cs [|]| | |]; intros H; try destruct H. eauto. Qed.
Example all_freed_used : exists b, no_return b = true /\ (exists cs, run_function LC 9 b (env1 2) = OReturn cs []) /\ assigned b = [0%nat; 1%nat; 0%nat].
Proof.
  exists (seq [SLoop (positive 0) (seq [SAssign 0 (zeros 3); if_only (positive 1) [SAssign 1 (plus_one 0); SBreak]; down 0]); SAssign 0 (ones 5)]).
  split; [reflexivity|]. split; [|reflexivity]. apply found_run. vm_compute. exact I.
Qed.

(* ------------------------------ where it fails ------------------------------ *)

(* what can go wrong *)
Definition undefined (l : lang) (fuel : nat) (b : block) (e : env) : Prop :=
  exists ps xs, py_function fuel b e = OReturn ps xs /\ run_function l fuel b e = OUndef.
Definition leaks (l : lang) (fuel : nat) (b : block) (e : env) : Prop :=
  exists ps xs cs, py_function fuel b e = OReturn ps xs /\ run_function l fuel b e = OReturn cs xs
    /\ (g_leak cs <> O \/ exists x, ~ In x xs /\ c_data (g_arr cs x) <> None).
(* an integer that the function computes *)
Definition wrong_integer (l : lang) (fuel : nat) (b : block) (e : env) : Prop :=
  exists ps xs cs v, py_function fuel b e = OReturn ps xs /\ run_function l fuel b e = OReturn cs xs /\ g_env cs v <> p_env ps v.
Definition wrong_array (l : lang) (fuel : nat) (b : block) (e : env) : Prop :=
  exists ps xs cs x, py_function fuel b e = OReturn ps xs /\ run_function l fuel b e = OReturn cs xs
    /\ In x xs /\ forall sh v, p_arr ps x = Some (sh, v) -> g_arr cs x <> mk_cell sh (Some (Some v)).

Lemma find_undefined l fuel b e : (match py_function fuel b e with OReturn _ _ => True | _ => False end) -> run_function l fuel b e = OUndef -> undefined l fuel b e.
Proof. intros H R. destruct (found_py _ _ _ H) as (ps & xs & P). exists ps, xs. auto. Qed.
Lemma find_two (P : pstate -> list nat -> gstate -> Prop) l fuel b e :
  (match py_function fuel b e, run_function l fuel b e with OReturn ps xs, OReturn cs ys => xs = ys /\ P ps xs cs | _, _ => False end) ->
  exists ps xs cs, py_function fuel b e = OReturn ps xs /\ run_function l fuel b e = OReturn cs xs /\ P ps xs cs.
Proof.
  destruct (py_function fuel b e) as [| |ps xs| | |]; try tauto. destruct (run_function l fuel b e) as [| |cs ys| | |]; try tauto.
  intros [<- H]. exists ps, xs, cs. auto.
Qed.
Lemma find_leak l fuel b e :
  (match py_function fuel b e, run_function l fuel b e with OReturn _ xs, OReturn cs ys => xs = ys /\ g_leak cs <> O | _, _ => False end) -> leaks l fuel b e.
Proof. intros H. destruct (find_two (fun _ _ cs => g_leak cs <> O) _ _ _ _ H) as (ps & xs & cs & A & B & C). exists ps, xs, cs. auto. Qed.
Lemma find_left l fuel b e x :
  (match py_function fuel b e, run_function l fuel b e with OReturn _ xs, OReturn cs ys => xs = ys /\ existsb (Nat.eqb x) xs = false /\ c_data (g_arr cs x) <> None | _, _ => False end) -> leaks l fuel b e.
Proof.
  intros H. destruct (find_two (fun _ xs cs => existsb (Nat.eqb x) xs = false /\ c_data (g_arr cs x) <> None) _ _ _ _ H) as (ps & xs & cs & A & B & C & D).
  exists ps, xs, cs. repeat split; auto. right. exists x. split; [|exact D]. apply mem_no. exact C.
Qed.
Lemma find_integer l fuel b e v :
  (match py_function fuel b e, run_function l fuel b e with OReturn ps xs, OReturn cs ys => xs = ys /\ g_env cs v <> p_env ps v | _, _ => False end) -> wrong_integer l fuel b e.
Proof. intros H. destruct (find_two (fun ps _ cs => g_env cs v <> p_env ps v) _ _ _ _ H) as (ps & xs & cs & A & B & C). exists ps, xs, cs, v. auto. Qed.
Lemma find_array l fuel b e x :
  (match py_function fuel b e, run_function l fuel b e with
   | OReturn ps xs, OReturn cs ys => xs = ys /\ existsb (Nat.eqb x) xs = true /\ match p_arr ps x with Some (sh, v) => g_arr cs x <> mk_cell sh (Some (Some v)) | None => False end
   | _, _ => False end) -> wrong_array l fuel b e.
Proof.
  intros H. destruct (find_two (fun ps xs cs => existsb (Nat.eqb x) xs = true /\ match p_arr ps x with Some (sh, v) => g_arr cs x <> mk_cell sh (Some (Some v)) | None => False end) _ _ _ _ H) as (ps & xs & cs & A & B & C & D).
  exists ps, xs, cs, x. repeat split; auto; [apply mem_spec; exact C|]. intros sh v Q. rewrite Q in D. exact D.
Qed.

(* if c: x = zeros(3); x = ones(4)
   else: x = zeros(5)                      -- the Allocate of else takes the status "allocated" *)
Definition two_then_one : block := seq [if_else (positive 0) [SAssign 0 (zeros 3); SAssign 0 (ones 4)] [SAssign 0 (zeros 5)]; SReturn (Some [0%nat])].
Theorem C59_else_after_two_refuted : exists fuel b e, undefined LFortran fuel b e.
Proof. exists 5%nat, two_then_one, (env1 0). apply find_undefined; [vm_compute; exact I|vm_compute; reflexivity]. Qed.
Print Assumptions C59_else_after_two_refuted.

(* if c: x = zeros(3)
   else: for ...: x = zeros(n)             -- "unallocated" in a loop *)
Definition loop_in_else : block := seq [if_else (positive 0) [SAssign 0 (zeros 3)] [SLoop (positive 1) (seq [SAssign 0 (zeros_v 1); down 1])]].
Definition env01 : env := fun v => match v with O => 0 | _ => 2 end.
Theorem C59_loop_in_else_refuted : (exists fuel b e, leaks LC fuel b e) /\ (exists fuel b e, undefined LFortran fuel b e).
Proof.
  split; exists 5%nat, loop_in_else, env01.
  - apply find_leak. vm_compute. split; [reflexivity|discriminate].
  - apply find_undefined; [vm_compute; exact I|vm_compute; reflexivity].
Qed.
Print Assumptions C59_loop_in_else_refuted.

(* if True: x = zeros(3)
   x = ones(4)                             -- "unallocated" again *)
Definition if_true : block := seq [SIf (Branch CTrue (seq [SAssign 0 (zeros 3)]) NoBranch); SAssign 0 (ones 4); SReturn (Some [0%nat])].
Theorem C59_if_true_refuted : (exists fuel b e, leaks LC fuel b e) /\ (exists fuel b e, undefined LFortran fuel b e).
Proof.
  split; exists 5%nat, if_true, (env1 0).
  - apply find_leak. vm_compute. split; [reflexivity|discriminate].
  - apply find_undefined; [vm_compute; exact I|vm_compute; reflexivity].
Qed.
Print Assumptions C59_if_true_refuted.

(* for i in range(0): x = zeros(3)
   x = ones(3)                             -- no memory: the shape has not changed *)
Definition after_loop : block := seq [SLoop (positive 0) (seq [SAssign 0 (zeros 3); down 0]); SAssign 0 (ones 3); SReturn (Some [0%nat])].
Theorem C59_after_loop_refuted : forall l, exists fuel b e, undefined l fuel b e.
Proof. intros l. exists 5%nat, after_loop, (env1 0). apply find_undefined; [vm_compute; exact I|destruct l; vm_compute; reflexivity]. Qed.
Print Assumptions C59_after_loop_refuted.

(* if c: x = zeros(3)
   x = ones(3)                             -- no memory when c is false *)
Definition after_if : block := seq [if_only (positive 0) [SAssign 0 (zeros 3)]; SAssign 0 (ones 3); SReturn (Some [0%nat])].
Theorem C59_after_if_refuted : forall l, exists fuel b e, undefined l fuel b e.
Proof. intros l. exists 5%nat, after_if, (env1 0). apply find_undefined; [vm_compute; exact I|destruct l; vm_compute; reflexivity]. Qed.
Print Assumptions C59_after_if_refuted.

(* if a: (if b: x = zeros(3) else: x = ones(3))
   else: x = zeros(3)                      -- no memory in the outer else *)
Definition nested_if : block :=
  seq [if_else (positive 0) [if_else (positive 1) [SAssign 0 (zeros 3)] [SAssign 0 (ones 3)]] [SAssign 0 (zeros 3)]; SReturn (Some [0%nat])].
Theorem C59_nested_if_refuted : forall l, exists fuel b e, undefined l fuel b e.
Proof. intros l. exists 5%nat, nested_if, (env1 0). apply find_undefined; [vm_compute; exact I|destruct l; vm_compute; reflexivity]. Qed.
Print Assumptions C59_nested_if_refuted.

(* x = zeros(3)
   for ...: k = x.shape[0]; x = zeros(4)   -- the literal 3 is used in every iteration *)
Definition shape_in_loop : block := seq [SAssign 0 (zeros 3); SLoop (positive 0) (seq [SLen 1 0 0; SAssign 0 (zeros 4); down 0])].
Theorem C59_shape_in_loop_refuted : forall l, exists fuel b e, wrong_integer l fuel b e.
Proof. intros l. exists 5%nat, shape_in_loop, (env1 2). apply (find_integer _ _ _ _ 1). destruct l; vm_compute; split; [reflexivity|discriminate|reflexivity|discriminate]. Qed.
Print Assumptions C59_shape_in_loop_refuted.

(* x = zeros(3)
   for ...: x = ones(3); if c: break; x = zeros(4)   -- the second time x still has four elements *)
Definition reassigned_in_loop : block :=
  seq [SAssign 0 (zeros 3); SLoop (positive 0) (seq [SAssign 0 (ones 3); down 0; if_only (fun e => negb (positive 0 e)) [SBreak]; SAssign 0 (zeros 4)]); SReturn (Some [0%nat])].
Theorem C59_reassigned_in_loop_refuted : forall l, exists fuel b e, wrong_array l fuel b e.
Proof.
  intros l. exists 5%nat, reassigned_in_loop, (env1 2). apply (find_array _ _ _ _ 0).
  destruct l; vm_compute; (split; [reflexivity|split; [reflexivity|discriminate]]).
Qed.
Print Assumptions C59_reassigned_in_loop_refuted.

(* x = zeros((2, 2)); x = ones((4, 4))     -- Fortran: any(size(x) /= [4, 4]) is false *)
Definition two_dims : block := seq [SAssign 0 (RNew [DLit 2; DLit 2] (fun _ => 0)); SAssign 0 (RNew [DLit 4; DLit 4] (fun _ => 1)); SReturn (Some [0%nat])].
Theorem C59_two_dims_refuted : exists fuel b e, wrong_array LFortran fuel b e.
Proof. exists 5%nat, two_dims, (env1 0). apply (find_array _ _ _ _ 0). vm_compute. split; [reflexivity|split; [reflexivity|discriminate]]. Qed.
Print Assumptions C59_two_dims_refuted.

(* for ...: if c: return 1
            x = zeros(3)                   -- not freed by the return *)
Definition return_in_loop : block := seq [SLoop (fun _ => true) (seq [if_only (positive 0) [SReturn (Some [])]; SAssign 0 (zeros 3); SInt 0 (fun e => e 0%nat + 1)])].
Theorem C59_return_in_loop_refuted : exists fuel b e, leaks LC fuel b e.
Proof. exists 5%nat, return_in_loop, (env1 0). apply (find_left _ _ _ _ 0). vm_compute. split; [reflexivity|split; [reflexivity|discriminate]]. Qed.
Print Assumptions C59_return_in_loop_refuted.

Lemma bare_return x n f fuel e : 0 <= n -> leaks LC (S fuel) (seq [SAssign x (RNew [DLit n] f); SReturn None]) e.
Proof.
  intros N. apply (find_left _ _ _ _ x). unfold py_function. cbn. destruct (Z.ltb_spec n 0); [lia|]. cbn. unfold upd. rewrite ?Nat.eqb_refl. cbn. split; [reflexivity|]. split; [reflexivity|]. unfold Alloc_Model.upd. rewrite Nat.eqb_refl. discriminate.
Qed.

(* x = zeros(3)
   return                                  -- C: the statements that free memory are not printed *)
Theorem C59_bare_return_refuted : forall x n f fuel e, 0 <= n ->
  leaks LC (S fuel) (seq [SAssign x (RNew [DLit n] f); SReturn None]) e.
Proof. exact bare_return. Qed.
Print Assumptions C59_bare_return_refuted.

(* the same function with a tidy body frees everything in Fortran *)
Example bare_return_fortran : no_bare (seq [SAssign 0 (zeros 3); SReturn None]) = false /\ tidy (fun _ => Free) (fun _ => 1%nat) (seq [SAssign 0 (zeros 3); SReturn None]).
Proof. split; [reflexivity|]. unfold tidy. vm_compute. discriminate. Qed.

(* x = zeros(n); x = np.sin(x)             -- x is freed and allocated before it is read *)
Definition call_of_itself : block := seq [SAssign 0 (zeros_v 0); SAssign 0 (RElem true 0 [] (fun vs => match vs with [v] => v | _ => 0 end)); SReturn (Some [0%nat])].
Theorem C59_call_of_itself_refuted : exists fuel b e, wrong_array LC fuel b e.
Proof. exists 5%nat, call_of_itself, (env1 2). apply (find_array _ _ _ _ 0). vm_compute. split; [reflexivity|split; [reflexivity|discriminate]]. Qed.
Print Assumptions C59_call_of_itself_refuted.

(* x = zeros(n)
   if c: x = ones(m)
   else: x = x + 1                         -- the same *)
Definition update_in_else : block := seq [SAssign 0 (zeros_v 0); if_else (positive 1) [SAssign 0 (zeros_v 1)] [SAssign 0 (plus_one 0)]; SReturn (Some [0%nat])].
Theorem C59_update_in_else_refuted : exists fuel b e, wrong_array LC fuel b e.
Proof. exists 5%nat, update_in_else, (fun v => match v with O => 2 | _ => 0 end). apply (find_array _ _ _ _ 0). vm_compute. split; [reflexivity|split; [reflexivity|discriminate]]. Qed.
Print Assumptions C59_update_in_else_refuted.
