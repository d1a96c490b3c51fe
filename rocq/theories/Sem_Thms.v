(* C11, C12, C19, C46 to C51: the values of expressions and the calls in them. *)
From Coq Require Import List Bool ZArith String Permutation Lia.
From Verif Require Import Common RtInt_Model Expr_Model Expr_Spec Sem_Model Sem_Spec Sem_Proofs.
Import ListNotations.
Open Scope string_scope.
Open Scope Z_scope.

(* An environment for the examples: integers a, b, n and calls f(), g(); booleans p, q
   and calls s(), t(). *)
Definition ex_val (x : string) : Z :=
  match find x [("a", 7); ("b", -2); ("n", 0); ("f()", 3); ("g()", 5); ("p", 1); ("q", 0); ("s()", 1); ("t()", 0);
                ("k", 40); ("m", -1); ("three", 3); ("0", 0); ("1", 1)] with
  | Some v => v | None => 0 end.
Definition ex_kind (x : string) : ptype :=
  match find x [("p", TBool); ("q", TBool); ("s()", TBool); ("t()", TBool)] with Some t => t | None => TInt end.
Definition ex_eff (x : string) : bool :=
  match find x [("f()", true); ("g()", true); ("s()", true); ("t()", true)] with Some b => b | None => false end.
Definition ex := mkEnv ex_val ex_kind ex_eff.
Lemma ex_ok : env_ok ex.
Proof.
  split; [|split; [|split]].
  - intros a. unfold ex, kind, val, ex_kind, ex_val. cbn [find].
    repeat (match goal with |- context [String.eqb a ?s] => destruct (String.eqb_spec a s); [subst; vm_compute; auto|] end);
      try (intros; vm_compute; auto; fail); intros; try discriminate.
  - intros a. unfold ex, kind, val, ex_kind, ex_val. cbn [find].
    repeat (match goal with |- context [String.eqb a ?s] => destruct (String.eqb_spec a s); [subst; vm_compute; intuition discriminate|] end);
      intros; vm_compute; intuition discriminate.
  - vm_compute. auto.
  - vm_compute. auto.
Qed.
Definition i_ (s : string) := SAt s TInt.
Definition b_ (s : string) := SAt s TBool.

(* C46: the C text printed for an expression of integers and booleans has the value
   Python gives it, as long as the values fit the types C uses. *)
Theorem C46_c_value : forall r e v calls,
  env_ok r -> chains_ok e -> c_safe (canon e) -> int_expr r e -> py_value_c r e v calls ->
  py_value r e v calls /\
  exists t, read c_lang (words (c_print (build e))) = Some t /\ cval r t = Ret v /\ c_store (sty e) v = v.
Proof. exact c_text_value. Qed.
Print Assumptions C46_c_value.
(* (a % b + (f() << 2)) // b if a < b < n or not p else ~(a ^ q) *)
Definition C46_e : se :=
  STern (SBin Or (SMore (SBin Lt (i_ "a") (i_ "b")) Lt (i_ "n")) (SUn Not (b_ "p")))
    (i_ "a")
    (SBin FloorDiv (SBin Add (SBin Mod (i_ "a") (i_ "b")) (SBin LSh (i_ "f()") (i_ "f()")))
       (SUn Inv (SBin BXor (i_ "a") (b_ "q")))).
Example C46_ex : chains_ok C46_e /\ c_safe (canon C46_e) /\ int_expr ex C46_e /\
  py_value_c ex C46_e (-3) ["f()"; "f()"].
Proof.
  split; [vm_compute; intuition|]. split; [vm_compute; intuition congruence|].
  split; [vm_compute; intuition congruence|]. eexists. vm_compute. reflexivity.
Qed.
(* Minus in front of a boolean is given the type bool: the value stored is True. *)
Theorem C46_minus_bool_refuted : exists r e v t w,
  env_ok r /\ chains_ok e /\ c_safe (canon e) /\ py_value r e v [] /\ in_range 64 v /\
  read c_lang (words (c_print (build e))) = Some t /\ cval r t = Ret w /\ c_store (sty e) w <> v.
Proof.
  exists ex, (SUn Minus (b_ "p")), (-1), (Pre "-" (At "p")), (-1).
  split; [exact ex_ok|]. split; [exact I|]. split; [exact I|]. split; [eexists; reflexivity|].
  split; [vm_compute; intuition discriminate|]. split; [reflexivity|]. split; [reflexivity|]. vm_compute. discriminate.
Qed.
Print Assumptions C46_minus_bool_refuted.
(* The sum of two booleans is an int of 32 bits: shifting it by 40 is undefined. *)
Theorem C46_width_refuted : exists r e v t,
  env_ok r /\ chains_ok e /\ c_safe (canon e) /\ int_expr r e /\ py_value r e v [] /\ in_range 64 v /\ sty e = TInt /\
  read c_lang (words (c_print (build e))) = Some t /\ cval r t = Undef.
Proof.
  exists ex, (SBin LSh (SBin Add (b_ "p") (b_ "p")) (i_ "k")), (2 ^ 41).
  eexists. split; [exact ex_ok|]. split; [simpl; auto|]. split; [simpl; auto|].
  split; [vm_compute; intuition congruence|]. split; [eexists; vm_compute; reflexivity|].
  split; [vm_compute; intuition discriminate|]. split; [reflexivity|].
  split; [vm_compute; reflexivity|vm_compute; reflexivity].
Qed.
Print Assumptions C46_width_refuted.

(* C47: so has the Fortran text, where all operands are evaluated. *)
Theorem C47_f_value : forall r e v calls,
  env_ok r -> chains_ok e -> f_safe (canon e) -> int_expr r e -> mod_ok e -> py_value_f r e v calls ->
  (exists calls', py_value r e v calls') /\
  exists t, read f_lang (words (f_print (build e))) = Some t /\
    fval r t = Ret (if is_bool (sty e) then FL (negb (v =? 0)) else FN v).
Proof. exact f_text_value. Qed.
Print Assumptions C47_f_value.
Example C47_ex : chains_ok C46_e /\ f_safe (canon C46_e) /\ int_expr ex C46_e /\ mod_ok C46_e /\
  exists calls, py_value_f ex C46_e (-3) calls.
Proof.
  split; [vm_compute; intuition|]. split; [vm_compute; intuition congruence|].
  split; [vm_compute; intuition congruence|]. split; [vm_compute; intuition|]. eexists. eexists. vm_compute. reflexivity.
Qed.
(* p % a, with p boolean: MODULO has no logical arguments. *)
Theorem C47_modulo_of_bool_refuted : exists r e v t,
  env_ok r /\ chains_ok e /\ f_safe (canon e) /\ int_expr r e /\ py_value_f r e v [] /\
  read f_lang (words (f_print (build e))) = Some t /\ fval r t = Undef.
Proof.
  exists ex, (SBin Mod (b_ "p") (i_ "a")), 1. eexists.
  split; [exact ex_ok|]. split; [simpl; auto|]. split; [simpl; auto|].
  split; [vm_compute; intuition congruence|]. split; [eexists; vm_compute; reflexivity|].
  split; [vm_compute; reflexivity|vm_compute; reflexivity].
Qed.
Print Assumptions C47_modulo_of_bool_refuted.

(* C11, C: the calls the C text makes are those Python makes, no more and no fewer: and,
   or and the conditional expression stop where Python's stop.  They come in Python's
   order, when no other operator has calls on both of its sides. *)
Theorem C11_c_calls : forall r e v calls,
  env_ok r -> chains_ok e -> c_safe (canon e) -> int_expr r e -> calls_ok r e -> py_value_c r e v calls ->
  exists t, read c_lang (words (c_print (build e))) = Some t /\ ctrace r t calls /\
    forall l, ctrace r t l -> Permutation calls l /\ (one_sided r e -> l = calls).
Proof. exact c_text_calls. Qed.
Print Assumptions C11_c_calls.
(* s() and (t() or f() < a) and t() and g() == b *)
Definition C11_e : se :=
  SBin And (SBin And (SBin And (b_ "s()") (SBin Or (b_ "t()") (SBin Lt (i_ "f()") (i_ "a")))) (b_ "t()"))
    (SBin Eq (i_ "g()") (i_ "b")).
Example C11_ex : chains_ok C11_e /\ c_safe (canon C11_e) /\ int_expr ex C11_e /\ calls_ok ex C11_e /\
  one_sided ex C11_e /\ py_value_c ex C11_e 0 ["s()"; "t()"; "f()"; "t()"].
Proof.
  repeat (split; [vm_compute; intuition congruence|]). eexists. vm_compute. reflexivity.
Qed.
(* The operands of and, or may be integers: C has the truth of Python's value, and the
   same calls. *)
Theorem C11_c_truth : forall r o a b v calls,
  env_ok r -> o = And \/ o = Or -> chains_ok a -> chains_ok b -> c_safe (canon (SBin o a b)) ->
  int_expr r a -> int_expr r b -> py_value_c r (SBin o a b) v calls ->
  exists t, read c_lang (words (c_print (build (SBin o a b)))) = Some t /\ cval r t = Ret (b2z (negb (v =? 0))) /\
    (calls_ok r a -> calls_ok r b -> ctrace r t calls /\
     forall l, ctrace r t l -> Permutation calls l /\ (one_sided r a -> one_sided r b -> l = calls)).
Proof. exact c_truth. Qed.
Print Assumptions C11_c_truth.
Example C11_truth_ex : let e := SBin Or (i_ "f()") (i_ "g()") in
  chains_ok e /\ c_safe (canon e) /\ int_expr ex (i_ "f()") /\ int_expr ex (i_ "g()") /\
  py_value_c ex e 3 ["f()"].
Proof. repeat (split; [vm_compute; intuition congruence|]). eexists. vm_compute. reflexivity. Qed.
(* Not the value itself: f() or g() is 3 in Python, 1 in C. *)
Theorem C11_operand_value_refuted : exists r e v t w,
  env_ok r /\ chains_ok e /\ c_safe (canon e) /\ py_value_c r e v ["f()"] /\
  read c_lang (words (c_print (build e))) = Some t /\ cval r t = Ret w /\ w <> v.
Proof.
  exists ex, (SBin Or (i_ "f()") (i_ "g()")), 3. eexists. exists 1. split; [exact ex_ok|].
  repeat (split; [vm_compute; intuition congruence|]). split; [eexists; vm_compute; reflexivity|].
  split; [vm_compute; reflexivity|]. split; [vm_compute; reflexivity|]. discriminate.
Qed.
Print Assumptions C11_operand_value_refuted.
(* Fortran: n != 0 and a // n > b is False in Python when n is 0; Fortran may divide. *)
Theorem C11_f_guard_refuted : exists r e t,
  env_ok r /\ chains_ok e /\ f_safe (canon e) /\ int_expr r e /\ mod_ok e /\ py_value_c r e 0 [] /\
  read f_lang (words (f_print (build e))) = Some t /\ fval r t = Undef.
Proof.
  exists ex, (SBin And (SBin Ne (i_ "n") (i_ "0")) (SBin Gt (SBin FloorDiv (i_ "a") (i_ "n")) (i_ "b"))). eexists.
  split; [exact ex_ok|]. repeat (split; [vm_compute; intuition congruence|]).
  split; [eexists; vm_compute; reflexivity|]. split; [vm_compute; reflexivity|vm_compute; reflexivity].
Qed.
Print Assumptions C11_f_guard_refuted.
(* t() and s(): Python calls t only; Fortran may call s, or call s only. *)
Theorem C11_f_calls_refuted : exists r e v calls t,
  env_ok r /\ chains_ok e /\ f_safe (canon e) /\ int_expr r e /\ py_value_c r e v calls /\
  read f_lang (words (f_print (build e))) = Some t /\
  exists l, ftrace r t l /\ ~ Permutation calls l.
Proof.
  exists ex, (SBin And (b_ "t()") (b_ "s()")), 0, ["t()"]. eexists.
  split; [exact ex_ok|]. repeat (split; [vm_compute; intuition congruence|]).
  split; [eexists; vm_compute; reflexivity|]. split; [vm_compute; reflexivity|].
  exists ["t()"; "s()"]. split.
  - left. exists ["t()"], ["s()"]. repeat split. apply (shuffle_app ["t()"] ["s()"]).
  - intros P. apply Permutation_length in P. discriminate.
Qed.
Print Assumptions C11_f_calls_refuted.

(* C12, C: of a if c else b, the calls in c are made and then those in the branch Python
   takes; no others. *)
Theorem C12_c_one_branch : forall r c a b vc tc v calls,
  env_ok r -> chains_ok (STern c a b) -> c_safe (canon (STern c a b)) -> int_expr r (STern c a b) ->
  calls_ok r (STern c a b) ->
  py_value_c r c vc tc -> py_value_c r (if vc =? 0 then b else a) v calls ->
  exists t, read c_lang (words (c_print (build (STern c a b)))) = Some t /\ cval r t = Ret v /\
    ctrace r t (tc ++ calls) /\
    forall l, ctrace r t l -> Permutation (tc ++ calls) l /\ (one_sided r (STern c a b) -> l = (tc ++ calls)%list).
Proof. exact c_one_branch. Qed.
Print Assumptions C12_c_one_branch.
Example C12_ex : let e := STern (b_ "t()") (SBin FloorDiv (i_ "f()") (i_ "n")) (i_ "g()") in
  chains_ok e /\ c_safe (canon e) /\ int_expr ex e /\ calls_ok ex e /\ one_sided ex e /\
  py_value_c ex (b_ "t()") 0 ["t()"] /\ py_value_c ex (i_ "g()") 5 ["g()"].
Proof.
  repeat (split; [vm_compute; intuition congruence|]). split; eexists; vm_compute; reflexivity.
Qed.
(* Fortran: both branches are evaluated, whatever they call. *)
Theorem C12_f_both_branches_refuted : forall r c f g,
  kind r c = TBool -> kind r f = TInt -> kind r g = TInt -> eff r c = false -> eff r f = true -> eff r g = true ->
  let e := STern (b_ c) (i_ f) (i_ g) in
  py_value r e (if val r c =? 0 then val r g else val r f) [if val r c =? 0 then g else f] /\
  exists t, read f_lang (words (f_print (build e))) = Some t /\
    forall l, ftrace r t l -> Permutation l [f; g].
Proof. exact f_both. Qed.
Print Assumptions C12_f_both_branches_refuted.
Example C12_f_ex : kind ex "p" = TBool /\ kind ex "f()" = TInt /\ kind ex "g()" = TInt /\ eff ex "p" = false /\
  eff ex "f()" = true /\ eff ex "g()" = true.
Proof. repeat split. Qed.
(* f() // n if n != 0 else g(): undefined when n is 0 *)
Theorem C12_f_guard_refuted : exists r e v calls t,
  env_ok r /\ chains_ok e /\ f_safe (canon e) /\ int_expr r e /\ mod_ok e /\ py_value_c r e v calls /\
  read f_lang (words (f_print (build e))) = Some t /\ fval r t = Undef.
Proof.
  exists ex, (STern (SBin Ne (i_ "n") (i_ "0")) (SBin FloorDiv (i_ "f()") (i_ "n")) (i_ "g()")), 5, ["g()"]. eexists.
  split; [exact ex_ok|]. repeat (split; [vm_compute; intuition congruence|]).
  split; [eexists; vm_compute; reflexivity|]. split; [vm_compute; reflexivity|vm_compute; reflexivity].
Qed.
Print Assumptions C12_f_guard_refuted.

(* C19, C: x op= e leaves x op e in x; for %=, when x is not negative and e is positive. *)
Theorem C19_c_augmented : forall r x t o e v calls,
  env_ok r -> chains_ok e -> c_safe (canon e) -> int_expr r (SBin o (SAt x t) e) ->
  List.In o aug_ops -> sty (SBin o (SAt x t) e) = t ->
  py_value_c r (SBin o (SAt x t) e) v calls ->
  o <> Mod \/ (0 <= val r x /\ forall w c, py_value_c r e w c -> 0 < w) ->
  c_run r (c_aug x t o (build e)) = Ret v.
Proof. exact c_aug_value. Qed.
Print Assumptions C19_c_augmented.
Example C19_ex : let e := SBin Sub (i_ "a") (SBin Mul (b_ "p") (i_ "f()")) in
  chains_ok e /\ c_safe (canon e) /\ int_expr ex (SBin FloorDiv (SAt "b" TInt) e) /\
  List.In FloorDiv aug_ops /\ List.In Sub aug_ops /\
  py_value_c ex (SBin FloorDiv (SAt "b" TInt) e) (-1) ["f()"] /\
  py_value_c ex (SBin Sub (SAt "b" TInt) e) (-6) ["f()"] /\
  c_run ex (c_aug "b" TInt FloorDiv (build e)) = Ret (-1) /\ c_run ex (c_aug "b" TInt Sub (build e)) = Ret (-6).
Proof.
  repeat (split; [vm_compute; intuition congruence|]).
  split; [eexists; vm_compute; reflexivity|]. split; [eexists; vm_compute; reflexivity|]. split; [vm_compute; reflexivity|vm_compute; reflexivity].
Qed.
(* -1 %= 3: C's remainder is -1, Python's 2. *)
Theorem C19_c_modulo_refuted : exists r x o e v w,
  env_ok r /\ chains_ok e /\ c_safe (canon e) /\ int_expr r (SBin o (SAt x TInt) e) /\ List.In o aug_ops /\
  py_value_c r (SBin o (SAt x TInt) e) v [] /\ c_run r (c_aug x TInt o (build e)) = Ret w /\ w <> v.
Proof.
  exists ex, "m", Mod, (i_ "three"), 2, (-1).
  split; [exact ex_ok|]. repeat (split; [vm_compute; intuition congruence|]).
  split; [eexists; vm_compute; reflexivity|]. split; [vm_compute; reflexivity|]. discriminate.
Qed.
Print Assumptions C19_c_modulo_refuted.
(* Fortran *)
Theorem C19_f_augmented : forall r x t o e v calls,
  env_ok r -> chains_ok e -> f_safe (canon (SBin o (SAt x t) e)) -> int_expr r (SBin o (SAt x t) e) ->
  mod_ok (SBin o (SAt x t) e) -> List.In o aug_ops -> sty (SBin o (SAt x t) e) = t ->
  py_value_f r (SBin o (SAt x t) e) v calls ->
  f_run r (f_aug x t o (build e)) = Ret v.
Proof. exact f_aug_value. Qed.
Print Assumptions C19_f_augmented.
Example C19_f_ex : let e := SBin Sub (i_ "a") (SBin Mul (b_ "p") (i_ "f()")) in
  let e' := SBin Mod (SAt "b" TInt) e in
  chains_ok e /\ f_safe (canon e') /\ int_expr ex e' /\ mod_ok e' /\ sty e' = TInt /\
  py_value_f ex e' 2 ["f()"] /\ f_run ex (f_aug "b" TInt Mod (build e)) = Ret 2.
Proof.
  repeat (split; [vm_compute; intuition congruence|]). split; [eexists; vm_compute; reflexivity|]. vm_compute. reflexivity.
Qed.

(* C48: in a chain of comparisons without calls in its inner operands every operand is
   evaluated at most once, in C as in Python. *)
Theorem C48_c_chain_partial : forall r p o b v calls,
  let e := SMore p o b in
  env_ok r -> chains_ok e -> c_safe (canon e) -> int_expr r e -> calls_ok r e -> py_value_c r e v calls ->
  exists t, read c_lang (words (c_print (build e))) = Some t /\ cval r t = Ret v /\ ctrace r t calls /\
    forall l, ctrace r t l -> Permutation calls l /\ (one_sided r e -> l = calls).
Proof. exact c_chain. Qed.
Print Assumptions C48_c_chain_partial.
Example C48_ex : let e := SMore (SMore (SBin Le (i_ "f()") (i_ "a")) Gt (i_ "b")) Lt (i_ "g()") in
  chains_ok e /\ c_safe (canon e) /\ int_expr ex e /\ calls_ok ex e /\ one_sided ex e /\
  py_value_c ex e 1 ["f()"; "g()"].
Proof. repeat (split; [vm_compute; intuition congruence|]). eexists. vm_compute. reflexivity. Qed.
(* b < f() < a: Python calls f once, C twice. *)
Theorem C48_inner_call_refuted : exists r e v t,
  env_ok r /\ chains_ok e /\ c_safe (canon e) /\ int_expr r e /\ py_value_c r e v ["f()"] /\
  read c_lang (words (c_print (build e))) = Some t /\ ctrace r t ["f()"; "f()"] /\
  forall l, ctrace r t l -> l = ["f()"; "f()"].
Proof.
  exists ex, (SMore (SBin Lt (i_ "b") (i_ "f()")) Lt (i_ "a")), 1. eexists.
  split; [exact ex_ok|]. repeat (split; [vm_compute; intuition congruence|]).
  split; [eexists; vm_compute; reflexivity|]. split; [vm_compute; reflexivity|].
  assert (S1: shuffle [] ["f()"] ["f()"]) by apply (shuffle_app [] ["f()"]).
  assert (S2: shuffle ["f()"] [] ["f()"]) by apply (shuffle_app ["f()"] []).
  split.
  - exists ["f()"]. split; [exists [], ["f()"]; repeat split; exact S1|].
    exists ["f()"]. split; [exists ["f()"], []; repeat split; exact S2|]. reflexivity.
  - intros l (la & (l1 & l2 & H1 & H2 & H3) & lb & (l3 & l4 & H4 & H5 & H6) & ->).
    vm_compute in H1, H2, H4, H5. subst. apply shuffle_nil_l in H3. apply shuffle_nil_r in H6. subst. reflexivity.
Qed.
Print Assumptions C48_inner_call_refuted.

(* C49: & and | between booleans.  Python calls both; C prints && and || and stops. *)
Theorem C49_c_bitwise_refuted : exists r e v t l,
  env_ok r /\ chains_ok e /\ c_safe (canon e) /\ int_expr r e /\ py_value_c r e v ["t()"; "s()"] /\
  read c_lang (words (c_print (build e))) = Some t /\ ctrace r t l /\ ~ List.In "s()" l.
Proof.
  exists ex, (SBin BAnd (b_ "t()") (b_ "s()")), 0. eexists. exists ["t()"].
  split; [exact ex_ok|]. repeat (split; [vm_compute; intuition congruence|]).
  split; [eexists; vm_compute; reflexivity|]. split; [vm_compute; reflexivity|].
  split; [exists ["t()"]; split; reflexivity|]. intros [H|[]]. discriminate.
Qed.
Print Assumptions C49_c_bitwise_refuted.
(* Between integers both are evaluated. *)
Theorem C49_c_integers_partial : forall r o a b v calls,
  let e := SBin o a b in
  o = BAnd \/ o = BOr \/ o = BXor -> sty a = TInt -> sty b = TInt ->
  env_ok r -> chains_ok e -> c_safe (canon e) -> int_expr r e -> calls_ok r a -> calls_ok r b ->
  py_value_c r e v calls ->
  exists t va vb ta tb, py_value_c r a va ta /\ py_value_c r b vb tb /\
    read c_lang (words (c_print (build e))) = Some t /\ ctrace r t (ta ++ tb) /\
    forall l, ctrace r t l -> Permutation (ta ++ tb) l.
Proof. exact c_both. Qed.
Print Assumptions C49_c_integers_partial.
Example C49_ex : let e := SBin BAnd (i_ "f()") (i_ "g()") in
  chains_ok e /\ c_safe (canon e) /\ int_expr ex e /\ calls_ok ex e /\ py_value_c ex e 1 ["f()"; "g()"].
Proof. repeat (split; [vm_compute; intuition congruence|]). eexists. vm_compute. reflexivity. Qed.

(* C50: p / a with p boolean is printed as C's division of integers: 1 / 7 is 0. *)
Theorem C50_c_division_of_bool_refuted : exists r e t w,
  e = SBin Div (b_ "p") (i_ "a") /\ env_ok r /\ chains_ok e /\ c_safe (canon e) /\ sty e = TFloat /\
  read c_lang (words (c_print (build e))) = Some t /\ cval r t = Ret w /\ w * val r "a" <> val r "p".
Proof.
  exists ex. eexists. eexists. exists 0. split; [reflexivity|]. split; [exact ex_ok|].
  repeat (split; [vm_compute; intuition congruence|]).
  vm_compute. discriminate.
Qed.
Print Assumptions C50_c_division_of_bool_refuted.

(* C51: a ** b of integers is printed as C's pow on doubles.  3 ** 39 fits int64_t, and no
   double is equal to it: none is m * 2 ^ e or m / 2 ^ e with |m| < 2 ^ 53. *)
Theorem C51_c_power_refuted : exists a b,
  sty (SBin Pow (i_ "a") (i_ "b")) = TInt /\
  read c_lang (words (c_print (build (SBin Pow (i_ "a") (i_ "b"))))) =
    Some (Call2 "pow" (Pre "(double)" (Par (At "a"))) (Pre "(double)" (Par (At "b")))) /\
  in_range 64 (a ^ b) /\
  forall m e, Z.abs m < 2 ^ 53 -> 0 <= e -> m * 2 ^ e <> a ^ b /\ m <> a ^ b * 2 ^ e.
Proof. exact pow_double. Qed.
Print Assumptions C51_c_power_refuted.
