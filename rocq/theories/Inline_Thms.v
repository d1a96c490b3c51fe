(* C69: a call of a function with the decorator inline does what the call does in Python *)
From Coq Require Import Bool Arith ZArith Lia List String.
From Verif Require Import Inline_Model Inline_Spec Inline_Proofs.
Import ListNotations.
Open Scope list_scope.
Open Scope string_scope.

(* A function that returns new names *)
Definition longer (u : list string) (b : string) : string := (b ++ String.concat "" u ++ "_")%string.

Lemma append_length : forall a b, String.length (a ++ b) = String.length a + String.length b.
Proof. induction a as [| ch a IH]; intros b; cbn [append String.length]; [reflexivity | rewrite IH; reflexivity]. Qed.

Lemma concat_length : forall u x, In x u -> String.length x <= String.length (String.concat "" u).
Proof.
  induction u as [| y u IH]; intros x H; [destruct H |]. destruct u as [| y2 u].
  - destruct H as [-> | []]. reflexivity.
  - change (String.concat "" (y :: y2 :: u)) with (y ++ "" ++ String.concat "" (y2 :: u)).
    rewrite append_length. cbn [append]. destruct H as [-> | H]; [lia |]. specialize (IH x H). lia.
Qed.

Lemma longer_fresh : fresh longer.
Proof.
  intros u b H. apply concat_length in H. unfold longer in H. rewrite !append_length in H.
  cbn [String.length] in H. lia.
Qed.

Notation "c ;; b" := (Cons c b) (at level 61, right associativity).
Notation "'v' x" := (Var x) (at level 9).

(* def f(x, y): r = 0; for i in range(x): r = r + y; return r *)
Definition product : fdef :=
  {| args := ["x"; "y"];
     body := Set_ "r" (Const 0) ;; For "i" (v "x") (Set_ "r" (Plus (v "r") (v "y")) ;; Nil) ;;
             Return (v "r") ;; Nil |}.

(* def h(x): if 0 < x: t = x + n; return t + t; else: return 7 *)
Definition choice : fdef :=
  {| args := ["x"];
     body := If (v "x") (Set_ "t" (Plus (v "x") (v "n")) ;; Return (Plus (v "t") (v "t")) ;; Nil)
                        (Return (Const 7) ;; Nil) ;; Nil |}.

(* def m(x): t = x + 1; return t + g(n) *)
Definition tail : fdef :=
  {| args := ["x"];
     body := Set_ "t" (Plus (v "x") (Const 1)) ;;
             Return (Plus (v "t") (Call (v "n"))) ;; Nil |}.

(* a = product(b + 1, i); i = i + choice(a); for t in range(b): a = a + tail(i) *)
Definition program : cblock :=
  CCons (CCall "a" product [Plus (v "b") (Const 1); v "i"])
  (CCons (COp "i" (v "i") choice [v "a"])
  (CCons (CFor "t" (v "b") (CCons (COp "a" (v "a") tail [v "i"]) CNil)) CNil)).
Definition vars_of_caller : list string := ["a"; "b"; "i"; "t"].
Definition module_names : list string := ["n"; "g"].
Definition module_values : store := fun x => if String.eqb x "n" then Some 5%Z else None.
Definition start : store :=
  fun x => if String.eqb x "b" then Some 2%Z else if String.eqb x "i" then Some 4%Z else None.

Example program_ok : ok_block vars_of_caller program /\
  usable_block module_names vars_of_caller program /\
  (forall x, module_values x <> None -> In x module_names).
Proof.
  assert (Fp : fine product) by (split; [reflexivity |]; split; cbn; intros x H; repeat destruct H as [H | H]; try congruence; try tauto;
    subst; cbn; intuition discriminate).
  assert (Fc : fine choice) by (split; [reflexivity |]; split; cbn; intros x H; repeat destruct H as [H | H]; try congruence; try tauto;
    subst; cbn; intuition discriminate).
  assert (Ft : fine tail) by (split; [reflexivity |]; split; cbn; intros x H; repeat destruct H as [H | H]; try congruence; try tauto;
    subst; cbn; intuition discriminate).
  assert (Rd : forall f, f = product \/ f = choice \/ f = tail -> forall x,
            In x (reads_block (body f)) ->
            (In x (locals f) \/ ~ In x vars_of_caller) /\ (In x (locals f) \/ In x module_names)).
  { intros f [-> | [-> | ->]] x H; cbn in H; repeat destruct H as [H | H]; subst; try tauto;
      cbn; intuition discriminate. }
  split; [| split].
  - unfold program. cbn [ok_block ok].
    split; [| split; [| split; [| exact Logic.I]]].
    + split; [cbn; tauto |]. split.
      * split; [exact Fp |]. split; [reflexivity |]. apply Rd. auto.
      * left. cbn. intros t H. repeat destruct H as [H | H]; subst; try tauto; cbn; intuition discriminate.
    + split; [cbn; tauto |]. split; [reflexivity |].
      split; [exact Fc |]. split; [reflexivity |]. apply Rd. auto.
    + split; [cbn; tauto |]. split; [| exact Logic.I]. split; [cbn; tauto |]. split; [reflexivity |].
      split; [exact Ft |]. split; [reflexivity |]. apply Rd. auto.
  - unfold program. cbn [usable_block usable].
    split; [exact Logic.I | split; [| split; [| exact Logic.I]]].
    + split; [| split; [apply Rd; auto | reflexivity]].
      cbn. intros t x H. repeat destruct H as [H | H]; subst; try tauto; cbn; intuition.
    + split; [| exact Logic.I]. split; [| split; [apply Rd; auto | reflexivity]].
      cbn. intros t x H. repeat destruct H as [H | H]; subst; try tauto; cbn; intuition.
  - intros x. unfold module_values. destruct (String.eqb_spec x "n"); [subst; cbn; tauto | congruence].
Qed.

Example program_run :
  match py_block module_values vars_of_caller program start 0 with
  | Next s k => s "a" = Some 101%Z /\ s "i" = Some 38%Z /\ k = 2%Z
  | _ => False
  end.
Proof. vm_compute. auto. Qed.

(* If each inlined function returns at its end an expression or its own variable, and changes no
   argument, and no argument of a call has effects, the caller's variables get the values they get
   in Python, and the other functions are called with the same effects *)
Theorem C69_inline_partial : forall new G gs l p code sc s c k s' k',
  fresh new -> (forall x, G x <> None -> In x gs) -> ok_block l p ->
  translate_block new gs l p = Code (code, sc) -> agree l s c ->
  py_block G l p s k = Next s' k' ->
  exists c', run G code c k = Next c' k' /\ agree l s' c'.
Proof. exact inline_right. Qed.
Print Assumptions C69_inline_partial.

(* These programs are translated; a call in an expression, if the function returns expressions *)
Theorem C69_accepted_partial : forall new gs l p,
  fresh new -> ok_block l p -> usable_block gs l p ->
  exists code sc, translate_block new gs l p = Code (code, sc).
Proof. exact inline_accepted. Qed.
Print Assumptions C69_accepted_partial.

Example C69_case : exists code sc c',
  translate_block longer module_names vars_of_caller program = Code (code, sc) /\
  run module_values code start 0 = Next c' 2 /\ c' "a" = Some 101%Z /\ c' "i" = Some 38%Z.
Proof.
  destruct program_ok as (O & U & HG).
  destruct (C69_accepted_partial longer module_names vars_of_caller program longer_fresh O U)
    as (code & sc & T). exists code, sc.
  pose proof program_run as P.
  destruct (py_block module_values vars_of_caller program start 0) as [s' k' | |] eqn:E; try contradiction.
  destruct P as (Pa & Pi & ->).
  destruct (C69_inline_partial longer module_values _ _ _ _ _ _ start _ _ _ longer_fresh HG O T
              (fun x _ => eq_refl) E) as (c' & R & A).
  exists c'. split; [exact T |]. split; [exact R |].
  split; [rewrite <- (A "a") | rewrite <- (A "i")]; cbn; auto.
Qed.

Definition zeros : store := fun _ => Some 0%Z.
Definition empty : store := fun _ => None.

Ltac differ x := intros; do 6 eexists; split; [reflexivity |]; split; [reflexivity |];
  split; [reflexivity |]; left; exists x; split; [cbn; tauto |]; vm_compute; discriminate.

(* def f(x): return x        a = f(3) *)
Theorem C69_argument_refuted : forall new, exists p, wrong new empty [] ["a"] p zeros.
Proof.
  intros new. exists (CCons (CCall "a" {| args := ["x"]; body := Return (v "x") ;; Nil |} [Const 3]) CNil).
  differ "a".
Qed.
Print Assumptions C69_argument_refuted.

(* def f(x): r = 1; t = 2; if 0 < x: return r; else: return t        a = f(3) *)
Theorem C69_two_results_refuted : forall new, exists p, wrong new empty [] ["a"] p zeros.
Proof.
  intros new. exists (CCons (CCall "a" {| args := ["x"];
    body := Set_ "r" (Const 1) ;; Set_ "t" (Const 2) ;;
            If (v "x") (Return (v "r") ;; Nil) (Return (v "t") ;; Nil) ;; Nil |} [Const 3]) CNil).
  differ "a".
Qed.
Print Assumptions C69_two_results_refuted.

(* def f(x): if 0 < x: return 1        a = f(3)
             return 2 *)
Theorem C69_early_refuted : forall new, exists p, wrong new empty [] ["a"] p zeros.
Proof.
  intros new. exists (CCons (CCall "a" {| args := ["x"];
    body := If (v "x") (Return (Const 1) ;; Nil) Nil ;; Return (Const 2) ;; Nil |} [Const 3]) CNil).
  differ "a".
Qed.
Print Assumptions C69_early_refuted.

(* def f(x): r = 1; r = r + x; return r        a = f(a) *)
Theorem C69_target_refuted : forall new, exists p, wrong new empty [] ["a"] p zeros.
Proof.
  intros new. exists (CCons (CCall "a" {| args := ["x"];
    body := Set_ "r" (Const 1) ;; Set_ "r" (Plus (v "r") (v "x")) ;; Return (v "r") ;; Nil |}
    [v "a"]) CNil).
  differ "a".
Qed.
Print Assumptions C69_target_refuted.

(* def f(x): x = x + 1; return x + x        a = f(b): b is changed *)
Theorem C69_changed_refuted : forall new, exists p, wrong new empty [] ["a"; "b"] p zeros.
Proof.
  intros new. exists (CCons (CCall "a" {| args := ["x"];
    body := Set_ "x" (Plus (v "x") (Const 1)) ;; Return (Plus (v "x") (v "x")) ;; Nil |}
    [v "b"]) CNil).
  differ "b".
Qed.
Print Assumptions C69_changed_refuted.

(* def f(x): return x + x        a = f(g(1)): g is called twice *)
Theorem C69_effects_refuted : forall new, exists p, wrong new empty [] ["a"] p zeros.
Proof.
  intros new. exists (CCons (CCall "a" {| args := ["x"];
    body := Return (Plus (v "x") (v "x")) ;; Nil |} [Call (Const 1)]) CNil).
  do 6 eexists. split; [reflexivity |]. split; [reflexivity |]. split; [reflexivity |].
  right. discriminate.
Qed.
Print Assumptions C69_effects_refuted.

(* n = 5
   def f(x): return x + n        n, a = 1, f(3), with n a variable of the caller *)
Theorem C69_capture_refuted : forall new, exists p,
  wrong new (fun x => if String.eqb x "n" then Some 5%Z else None) ["n"] ["n"; "a"] p zeros.
Proof.
  intros new. exists (CCons (CSet "n" (Const 1)) (CCons (CCall "a" {| args := ["x"];
    body := Return (Plus (v "x") (v "n")) ;; Nil |} [Const 3]) CNil)).
  differ "a".
Qed.
Print Assumptions C69_capture_refuted.

(* def f(x): r = x; r = r + 1; return r        a = b + f(3): accepted, and cannot be compiled *)
Theorem C69_expression_refuted : exists new gs l p s s' k',
  fresh new /\ ok_block l p /\ py_block empty l p s 0 = Next s' k' /\
  translate_block new gs l p = Broken.
Proof.
  exists longer, [], ["a"; "b"],
    (CCons (COp "a" (v "b") {| args := ["x"];
      body := Set_ "r" (v "x") ;; Set_ "r" (Plus (v "r") (Const 1)) ;; Return (v "r") ;; Nil |}
      [Const 3]) CNil), zeros.
  do 2 eexists. split; [exact longer_fresh |]. split; [| split; reflexivity].
  cbn [ok_block ok]. split; [| exact Logic.I]. split; [cbn; tauto |]. split; [reflexivity |].
  unfold call_ok. split; [| split; [reflexivity |]].
  - split; [reflexivity |]. split; cbn; intros x H; repeat destruct H as [H | H]; try congruence; try tauto;
      subst; cbn; intuition discriminate.
  - cbn. intros x H. repeat destruct H as [H | H]; subst; tauto.
Qed.
Print Assumptions C69_expression_refuted.

(* def f(x): r = g(x); t = r + r; return t + r        a = g(b) + f(3): f's g is called first *)
Theorem C69_order_refuted : exists new gs l p, fresh new /\ wrong new empty gs l p zeros.
Proof.
  exists longer, [], ["a"; "b"],
    (CCons (COp "a" (Call (v "b")) {| args := ["x"];
      body := Set_ "r" (Call (v "x")) ;; Return (Plus (v "r") (v "r")) ;; Nil |}
      [Const 3]) CNil).
  split; [exact longer_fresh |]. differ "a".
Qed.
Print Assumptions C69_order_refuted.
