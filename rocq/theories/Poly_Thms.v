(* C90: overloads of functions of several types, and their defaults. *)
From Coq Require Import Bool ZArith QArith List Arith Lia.
From Verif Require Import Poly_Model Poly_Spec Poly_Proofs.
Import ListNotations.
Open Scope list_scope.
Open Scope nat_scope.

(* The overloads have the types of all choices: one type for each type variable, and one type of the union for each parameter. *)
Theorem C90_overloads : forall d fs ts, overloads d = Some fs -> (In ts (map (map fst) fs) <-> exists s, choice d s ts).
Proof. exact overload_types. Qed.
Print Assumptions C90_overloads.

(* T = TypeVar('T', int, float); def f(a: T, b: 'T | bool', c: 'bool | int' = True) *)
Definition def1 : def :=
  {| avail := fun _ => [tint; tfloat];
     params := [{| annot := [IV 0]; value := DNone |}; {| annot := [IV 0; IT tbool]; value := DNone |};
                {| annot := [IT tbool; IT tint]; value := literal (LBool true) |}] |}.
Example overloads_used : exists fs, overloads def1 = Some fs /\ map (map fst) fs =
  [[tint; tint; tbool]; [tint; tint; tint]; [tint; tbool; tbool]; [tint; tbool; tint];
   [tfloat; tfloat; tbool]; [tfloat; tfloat; tint]; [tfloat; tbool; tbool]; [tfloat; tbool; tint]].
Proof. eexists. split; [vm_compute; reflexivity|]. vm_compute. reflexivity. Qed.

(* No two overloads have the same types, if each type variable is the whole annotation of some parameter. *)
Theorem C90_distinct_partial : forall d fs, overloads d = Some fs ->
  (forall p x, In p (params d) -> In (IV x) (annot p) -> stands_alone d x /\ NoDup (avail d x)) ->
  NoDup (map (map fst) fs).
Proof. intros d fs H A. apply (distinct d fs H). intros x Hx. apply used_in in Hx. destruct Hx as (p & Hp & Hx). exact (A p x Hp Hx). Qed.
Print Assumptions C90_distinct_partial.
Example distinct_used : forall p x, In p (params def1) -> In (IV x) (annot p) -> stands_alone def1 x /\ NoDup (avail def1 x).
Proof.
  intros p x Hp Hx. assert (x = 0) as -> by (destruct Hp as [<-|[<-|[<-|[]]]]; cbn in Hx; repeat (destruct Hx as [Hx|Hx]; [congruence|]); destruct Hx).
  split; [exists {| annot := [IV 0]; value := DNone |}; cbn; auto|]. repeat constructor; cbn; [intros [H|[]]; discriminate|intros []].
Qed.

(* def f(a: 'T | t'): if T has two types or more, two overloads have the parameter t (which no Fortran compiler accepts). *)
Theorem C90_duplicates_refuted : forall d fs x t v,
  params d = [{| annot := [IV x; IT t]; value := v |}] -> 2 <= length (avail d x) -> overloads d = Some fs ->
  ~ NoDup (map (map fst) fs).
Proof. exact duplicates. Qed.
Print Assumptions C90_duplicates_refuted.
Example duplicates_used : let d := {| avail := fun _ => [tint; tfloat]; params := [{| annot := [IV 0; IT tint]; value := DNone |}] |} in
  option_map (map (map fst)) (overloads d) = Some [[tint]; [tfloat]; [tint]].
Proof. reflexivity. Qed.

(* ------------------------------ defaults ------------------------------ *)

(* If the types of each parameter with a literal default come in an order in which each holds the numbers of those before
   (and the first holds the default), there is an overload for each choice and all have the defaults of the definition. *)
Theorem C90_defaults_partial : forall d, ordered d ->
  exists fs, overloads d = Some fs /\ forall f, In f fs -> Forall2 (fun p a => same_default (snd a) (value p)) (params d) f.
Proof. exact ordered_defaults. Qed.
Print Assumptions C90_defaults_partial.
Example defaults_used : ordered def1.
Proof.
  intros p [<-|[<-|[<-|[]]]]; cbn; auto. left. exists [tbool; tint]. repeat split; cbn; auto.
  repeat constructor; cbn; [intros [H|[]]; discriminate|intros []].
Qed.

(* Translating a function with unions of types crashes exactly when in the sequence that starts with the type of the default and goes on
   with the types of the union, an int follows a float or complex, or a float follows a complex. *)
Theorem C90_crash : forall d, plain d ->
  (overloads d = None <-> exists p ts v u, In p (params d) /\ annot p = map IT ts /\ value p = DLit v u /\ bad_pair (prim_of v) ts).
Proof. exact crash_iff. Qed.
Print Assumptions C90_crash.
(* def f(a: 'float | int' = 1), def f(a: 'int | float' = 1.5) *)
Example crash_used : let d1 := one_param [tfloat; tint] (literal (LInt 1)) in let d2 := one_param [tint; tfloat] (literal (LFloat (3 # 2))) in
  overloads d1 = None /\ overloads d2 = None /\ plain d1.
Proof.
  split; [reflexivity|]. split; [reflexivity|]. intros p [<-|[]]. exists [tfloat; tint]. split; [reflexivity|].
  repeat constructor; cbn; [intros [H|[]]; discriminate|intros []].
Qed.

(* def f(a: 'bool | int' = n) with n > 1: the default of the overload for int is 1. *)
Theorem C90_default_refuted : forall n, 1 < n ->
  overloads {| avail := fun _ => []; params := [{| annot := [IT (native PBool); IT (native PInt)]; value := literal (LInt n) |}] |} =
  Some [[(native PBool, DLit (LBool true) (native PBool))]; [(native PInt, DLit (LInt 1) (native PInt))]].
Proof. intros [|[|n]] H; [lia|lia|exact (bool_int n)]. Qed.
Print Assumptions C90_default_refuted.

(* ------------------------------ calls in translated code ------------------------------ *)

(* A call that is accepted runs an overload with the types of the arguments. *)
Theorem C90_call_types : forall d visited given k l, call d visited given = Runs k l ->
  exists fs f, overloads d = Some fs /\ nth_error fs k = Some f /\ firstn (length given) (map fst f) = given.
Proof. exact call_types. Qed.
Print Assumptions C90_call_types.

(* The first call of a function passes the defaults of the definition for the arguments that are left out, if it is accepted. *)
Theorem C90_first_call : forall d given k l, call d false given = Runs k l ->
  l = map Given given ++ map Default (skipn (length given) (map value (params d))).
Proof. exact first_call. Qed.
Print Assumptions C90_first_call.

(* All calls do, if the types are in order. *)
Theorem C90_calls_partial : forall d visited given k l, ordered d -> call d visited given = Runs k l ->
  exists vs, l = map Given given ++ map Default vs /\ Forall2 same_default vs (skipn (length given) (map value (params d))).
Proof. exact any_call. Qed.
Print Assumptions C90_calls_partial.
Example calls_used : call def1 false [tfloat; tbool] = Runs 6 [Given tfloat; Given tbool; Default (literal (LBool true))]
  /\ call def1 true [tfloat; tbool] = Runs 6 [Given tfloat; Given tbool; Default (literal (LBool true))]
  /\ call def1 true [tfloat; tint] = Refused.
Proof. repeat split; vm_compute; reflexivity. Qed.

(* def f(a: 'bool | int' = n) with n > 1: the first call f() runs f(n), every later call f() runs f(True). *)
Theorem C90_later_call_refuted : forall n, 1 < n ->
  let d := {| avail := fun _ => []; params := [{| annot := [IT (native PBool); IT (native PInt)]; value := literal (LInt n) |}] |} in
  call d false [] = Runs 1 [Default (DLit (LInt n) (native PInt))] /\ call d true [] = Runs 0 [Default (DLit (LBool true) (native PBool))].
Proof. intros [|[|n]] H; [lia|lia|exact (bool_int_calls n)]. Qed.
Print Assumptions C90_later_call_refuted.

(* def f(a: float = n): the first call f() is refused, later ones are not. *)
Theorem C90_first_call_refuted : forall n,
  let d := {| avail := fun _ => []; params := [{| annot := [IT (native PFloat)]; value := literal (LInt n) |}] |} in
  call d false [] = Refused /\ call d true [] = Runs 0 [Default (DLit (LFloat (inject_Z (Z.of_nat n))) (native PFloat))].
Proof. exact float_int. Qed.
Print Assumptions C90_first_call_refuted.

(* def f(a: T, b: T = v): a call f(a) is refused if the type of a is not that of v, although there is an overload for it. *)
Theorem C90_type_variable_refuted : forall t u v visited, t = native (prim_of v) -> u <> t -> level (kind t) <= level (kind u) ->
  let d := {| avail := fun _ => [t; u]; params := [{| annot := [IV 0]; value := DNone |}; {| annot := [IV 0]; value := literal v |}] |} in
  call d visited [u] = Refused /\ exists fs, overloads d = Some fs /\ map (map fst) fs = [[t; t]; [u; u]].
Proof. exact two_of_refused. Qed.
Print Assumptions C90_type_variable_refuted.
Example type_variable_used : tint = native (prim_of (LInt 5)) /\ tfloat <> tint /\ level (kind tint) <= level (kind tfloat).
Proof. split; [reflexivity|]. split; [discriminate|]. cbn. lia. Qed.
