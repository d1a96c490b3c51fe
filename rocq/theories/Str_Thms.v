(* C87: strings *)
From Coq Require Import Bool Arith ZArith List Lia.
From Verif Require Import Alloc_Model Str_Model Str_Spec Str_Proofs.
Import ListNotations.
Open Scope Z_scope.
Open Scope list_scope.

(* x0 = "ab..."; x1 = "b"; for _ in range(3): x0 = f(x1, "c"); print(x0); if x0 == "cb": x1 = str(x0)
   else: x1 = "q" ; return x1 *)
Definition join (l : list str) : str := concat (rev l).
Definition long (s : str) : bool := Nat.leb 2 (List.length s).
Definition prog : list sstmt :=
  [TAssign 0 (RLit [97; 98; 99]); TAssign 1 (RLit [98]);
   TLoop 3 [TAssign 0 (RFun join [AVar 1; ALit [99]]); TPrint 0;
            TIf (CEq (AVar 0) (ALit [99; 98])) [TAssign 1 (RStr 0)] [TAssign 1 (RLit [113])]]].
Lemma join_good (good : str -> Prop) : good [] -> (forall s t, good s -> good t -> good (s ++ t)) -> forall ss, (forall s, In s ss -> good s) -> good (join ss).
Proof.
  intros N A ss H. unfold join. assert (K : forall s, In s (rev ss) -> good s) by (intros s I; apply H; apply in_rev; exact I). induction (rev ss) as [|s l IH]; [exact N|]. cbn. apply A; [apply K; left; reflexivity|apply IH; intros t I; apply K; right; exact I].
Qed.
Lemma prog_good (good : str -> Prop) : good [] -> (forall s t, good s -> good t -> good (s ++ t)) -> good [97; 98; 99] -> good [98] -> good [99] -> good [99; 98] -> good [113] -> all_strings good prog.
Proof.
  intros N A G1 G2 G3 G4 G5. split.
  - intros x r H. cbn in H. repeat (destruct H as [H|H]; [injection H as <- <-|]); try contradiction; cbn; auto. split.
    + intros a [<-|[<-|[]]] s I; cbn in I; [destruct I|destruct I as [<-|[]]; exact G3].
    + intros ss _ I. apply join_good; assumption.
  - intros c H. cbn in H. destruct H as [<-|[]]. split; intros s I; cbn in I; [destruct I|destruct I as [<-|[]]; exact G4].
Qed.
Lemma no_nul_app s t : no_nul s -> no_nul t -> no_nul (s ++ t).
Proof. intros (C & N) (C' & N'). split; [intros c I; apply in_app_or in I; destruct I; auto|intros I; apply in_app_or in I; tauto]. Qed.
Ltac good_lit := split; [intros c I; cbn in I; intuition lia|cbn; intuition lia].
Lemma prog_no_nul : all_strings no_nul prog.
Proof. apply prog_good; try good_lit. exact no_nul_app. Qed.
Ltac no_end := split; [intros c I; cbn in I; intuition lia|intros u H; destruct u as [|? [|? [|? [|? ?]]]]; cbn in H; repeat (apply cons_inv in H; destruct H as (? & H)); congruence].
Lemma prog_no_blank : all_strings no_blank_end prog.
Proof. apply prog_good; try no_end. exact cat_good. Qed.
Lemma prog_top : top_first [] prog.
Proof. cbn. intuition. Qed.

(* In C: programs that assign every variable at the top level first, that copy no variable, use none for
   its own new value, pass no long literal to a function, and have no character 0. *)
Theorem C87_c_partial : forall big p x,
  all_strings no_nul p -> top_first [] p -> (forall y r, In (y, r) (flat_map assigned p) -> owned big y r) -> c_right big p x.
Proof. exact c_owned. Qed.
Print Assumptions C87_c_partial.
Example C87_c_partial_ex : (forall y r, In (y, r) (flat_map assigned prog) -> owned long y r) /\ c_right long prog 1 /\
  p_function prog 1 = Some ([113], [[99; 98]; [99; 99; 98]; [99; 113]]).
Proof.
  assert (O : forall y r, In (y, r) (flat_map assigned prog) -> owned long y r).
  { intros y r H. cbn in H. repeat (destruct H as [H|H]; [injection H as <- <-|]); try contradiction; split; cbn; intuition (try discriminate). subst. reflexivity. }
  split; [exact O|]. split; [apply C87_c_partial; [exact prog_no_nul|exact prog_top|exact O]|reflexivity].
Qed.

(* Variables may also be copied and used for their own new values if all strings are short. *)
Theorem C87_c_short_partial : forall big p x,
  all_strings no_nul p -> all_strings (fun s => big s = false) p -> top_first [] p ->
  (forall y r, In (y, r) (flat_map assigned p) -> no_cat r) -> c_right big p x.
Proof. exact c_short. Qed.
Print Assumptions C87_c_short_partial.
Example C87_c_short_partial_ex : c_right long [TAssign 0 (RLit [97]); TAssign 1 (RCopy 0); TAssign 1 (RStr 1); TLoop 2 [TAssign 0 (RCopy 1); TAssign 1 (RLit [98]); TPrint 0]] 1.
Proof.
  apply C87_c_short_partial.
  - split; [|intros c []]. intros x r H. cbn in H. repeat (destruct H as [H|H]; [injection H as <- <-; cbn; try exact I; try good_lit|]). destruct H.
  - split; [|intros c []]. intros x r H. cbn in H. repeat (destruct H as [H|H]; [injection H as <- <-; cbn; auto|]). destruct H.
  - cbn. intuition.
  - intros x r H. cbn in H. repeat (destruct H as [H|H]; [injection H as <- <-; cbn; auto|]). destruct H.
Qed.

(* In Fortran: all programs, if no string ends with a blank. *)
Theorem C87_fortran_partial : forall p x, all_strings no_blank_end p -> f_right p x.
Proof. exact function_f. Qed.
Print Assumptions C87_fortran_partial.
Example C87_fortran_partial_ex : all_strings no_blank_end prog /\ f_right prog 1.
Proof. split; [exact prog_no_blank|apply C87_fortran_partial; exact prog_no_blank]. Qed.

(* y = x: both variables have the same memory, which is freed for one of them *)
Theorem C87_copy_refuted : forall big x y s, x <> y -> big s = true -> forall z, z = x \/ z = y ->
  p_function [TAssign x (RLit s); TAssign y (RCopy x)] z = Some (s, []) /\
  c_function big [TAssign x (RLit s); TAssign y (RCopy x)] z = None.
Proof. exact copy_wrong. Qed.
Print Assumptions C87_copy_refuted.
Example C87_copy_refuted_ex : (0 <> 1)%nat /\ long [97; 98; 99] = true.
Proof. split; [discriminate|reflexivity]. Qed.

(* x = str(x), x = f(x): the memory is freed before it is used *)
Theorem C87_self_refuted : forall big x s f, big s = true ->
  p_function [TAssign x (RLit s); TAssign x (RStr x)] x = Some (s, []) /\
  c_function big [TAssign x (RLit s); TAssign x (RStr x)] x = None /\
  p_function [TAssign x (RLit s); TAssign x (RFun f [AVar x])] x = Some (f [s], []) /\
  c_function big [TAssign x (RLit s); TAssign x (RFun f [AVar x])] x = None.
Proof. exact self_wrong. Qed.
Print Assumptions C87_self_refuted.
Example C87_self_refuted_ex : long [97; 98] = true.
Proof. reflexivity. Qed.

(* a string that is first assigned in a loop is freed before, whatever its memory contains *)
Theorem C87_loop_refuted : forall big n x r l p z, c_function big (TLoop (S n) (TAssign x r :: l) :: p) z = None.
Proof. exact loop_wrong. Qed.
Print Assumptions C87_loop_refuted.
Example C87_loop_refuted_ex : p_function [TLoop 2 [TAssign 0 (RLit [97]); TPrint 0]] 0 = Some ([97], [[97]; [97]]) /\
  f_right [TLoop 2 [TAssign 0 (RLit [97]); TPrint 0]] 0.
Proof.
  split; [reflexivity|]. apply C87_fortran_partial. split; [|intros c []]. intros x r H. cbn in H. destruct H as [H|[]]. injection H as <- <-. cbn. no_end.
Qed.

(* a string that is only assigned in an if statement which is not executed is freed *)
Theorem C87_if_refuted : forall big a b x y s t, x <> y -> eq_c a b = same a b -> a <> b ->
  p_function [TIf (CEq (ALit a) (ALit b)) [TAssign x (RLit s)] []; TAssign y (RLit t)] y = Some (t, []) /\
  c_function big [TIf (CEq (ALit a) (ALit b)) [TAssign x (RLit s)] []; TAssign y (RLit t)] y = None.
Proof. exact if_wrong. Qed.
Print Assumptions C87_if_refuted.
Example C87_if_refuted_ex : (0 <> 1)%nat /\ eq_c [97] [98] = same [97] [98] /\ [97] <> [98].
Proof. split; [discriminate|]. split; [reflexivity|discriminate]. Qed.

(* two assignments in the first section: the second section frees what it has not assigned *)
Theorem C87_else_refuted : forall big a b x s t u, eq_c a b = same a b -> a <> b ->
  p_function [TIf (CEq (ALit a) (ALit b)) [TAssign x (RLit s); TAssign x (RLit t)] [TAssign x (RLit u)]] x = Some (u, []) /\
  c_function big [TIf (CEq (ALit a) (ALit b)) [TAssign x (RLit s); TAssign x (RLit t)] [TAssign x (RLit u)]] x = None.
Proof. exact else_wrong. Qed.
Print Assumptions C87_else_refuted.
Example C87_else_refuted_ex : eq_c [97] [98] = same [97] [98] /\ [97] <> [98].
Proof. split; [reflexivity|discriminate]. Qed.

(* a long literal passed to a function is never freed *)
Theorem C87_literal_refuted : forall big x s f, big s = true ->
  exists st, c_function big [TAssign x (RFun f [ALit s])] x = Some (f [s], st) /\ c_heap st 0%nat = Some s /\ c_var st x <> Some (Block 0).
Proof. exact leak_wrong. Qed.
Print Assumptions C87_literal_refuted.
Example C87_literal_refuted_ex : long [97; 98] = true.
Proof. reflexivity. Qed.

(* concatenation: not in C *)
Theorem C87_concat_refuted : forall big x y z s t, x <> y ->
  p_function [TAssign x (RLit s); TAssign y (RLit t); TAssign z (RCat x y)] z = Some (s ++ t, []) /\
  c_function big [TAssign x (RLit s); TAssign y (RLit t); TAssign z (RCat x y)] z = None.
Proof. exact cat_wrong. Qed.
Print Assumptions C87_concat_refuted.
Example C87_concat_refuted_ex : (0 <> 1)%nat.
Proof. discriminate. Qed.

(* comparisons *)
Theorem C87_equal_c : forall s t, no_nul s -> no_nul t -> (eq_c s t = true <-> s = t).
Proof. intros s t S T. rewrite (eq_c_ok s t S T). apply same_eq. Qed.
Print Assumptions C87_equal_c.
Example C87_equal_c_ex : no_nul [233; 8364] /\ no_nul [233].
Proof. split; good_lit. Qed.
Theorem C87_equal_fortran : forall s t, no_blank_end s -> no_blank_end t -> (eq_f s t = true <-> s = t).
Proof. intros s t S T. rewrite (eq_f_ok s t S T). apply same_eq. Qed.
Print Assumptions C87_equal_fortran.
Example C87_equal_fortran_ex : no_blank_end [32; 97] /\ no_blank_end [128512].
Proof. split; no_end. Qed.
Theorem C87_equal_c_refuted : forall s t u, eq_c (s ++ 0 :: t) (s ++ 0 :: u) = true.
Proof. exact eq_c_wrong. Qed.
Print Assumptions C87_equal_c_refuted.
Example C87_equal_c_refuted_ex : eq_c [97; 0; 98] [97; 0] = true /\ [97; 0; 98] <> [97; 0].
Proof. split; [reflexivity|discriminate]. Qed.
Theorem C87_equal_fortran_refuted : forall s n, eq_f s (s ++ repeat 32 n) = true.
Proof. exact eq_f_wrong. Qed.
Print Assumptions C87_equal_fortran_refuted.
Example C87_equal_fortran_refuted_ex : eq_f [97] [97; 32; 32] = true /\ [97] <> [97; 32; 32].
Proof. split; [reflexivity|discriminate]. Qed.

(* arguments of wrapped functions: exactly the strings without 0 arrive in C, and exactly the ASCII
   strings in Fortran *)
Theorem C87_argument_c : forall s, code_points s -> (argument_c s = utf8 s <-> ~ In 0 s).
Proof. exact argument_c_iff. Qed.
Print Assumptions C87_argument_c.
Example C87_argument_c_ex : argument_c [104; 233; 8364] = [104; 195; 169; 226; 130; 172] /\ argument_c [104; 0; 105] = [104].
Proof. split; reflexivity. Qed.
Theorem C87_argument_fortran : forall s, code_points s -> (argument_fortran s = utf8 s <-> ascii s).
Proof. exact argument_fortran_iff. Qed.
Print Assumptions C87_argument_fortran.
Example C87_argument_fortran_ex : argument_fortran [104; 105] = [104; 105] /\ argument_fortran [233; 104] = [195; 169].
Proof. split; reflexivity. Qed.
(* strings that go through a function that returns its argument *)
Theorem C87_through : forall s, no_nul s ->
  result_c (argument_c s) = utf8 s /\ (ascii s -> result_fortran (argument_fortran s) = utf8 s) /\
  forall t, code_points t -> utf8 t = utf8 s -> t = s.
Proof. intros s N. split; [exact (through_c s N)|]. split; [exact (through_fortran s N)|]. intros t T H. apply utf8_inj; [exact T|apply N|exact H]. Qed.
Print Assumptions C87_through.
Example C87_through_ex : no_nul [104; 233; 128512] /\ result_c (argument_c [104; 233]) = [104; 195; 169].
Proof. split; [good_lit|reflexivity]. Qed.
(* every call with a long string leaves memory that is not freed *)
Theorem C87_calls_refuted : forall big calls, (forall args f, In (args, f) calls -> exists s, In s args /\ big s = true) ->
  (List.length calls <= list_sum (map (fun c => left_over big (fst c) (snd c)) calls))%nat.
Proof. exact calls_leak. Qed.
Print Assumptions C87_calls_refuted.
Example C87_calls_refuted_ex : forall n args f, In (args, f) (repeat ([[97; 98]], join) n) -> exists s, In s args /\ long s = true.
Proof. intros n args f H. apply repeat_spec in H. injection H as -> ->. exists [97; 98]. split; [left; reflexivity|reflexivity]. Qed.
