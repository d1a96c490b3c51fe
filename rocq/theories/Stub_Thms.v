(** C78, C80: type annotations. *)

From Coq Require Import List String Ascii Bool Arith.
From Verif Require Import Stub_Model Stub_Spec Stub_Proofs.
Import ListNotations.
Open Scope string_scope.

(* What a stub file imports, a class and two aliases. *)
Definition stub : list (string * meaning) :=
  [("Final", MFinal); ("Annotated", MAnnotated); ("Mesh", MClass "Mesh");
   ("T", MTypes [(Num Int, None); (Num Float, None)]); ("K", MTypes [(Num Int32, None)])].

Lemma stub_standard : standard stub.
Proof.
  split; [|split; reflexivity]. intros n m H. apply assoc_in in H. cbn in H.
  repeat (destruct H as [H|H]; [injection H as <- <-; split; reflexivity|]). contradiction.
Qed.

Lemma stub_aliases : simple_aliases stub.
Proof.
  intros n l H t m I. apply assoc_in in H. cbn in H.
  repeat (destruct H as [H|H]; [try discriminate; injection H as <- <-;
    repeat (destruct I as [I|I]; [injection I as <- <-; split; [exact Logic.I|reflexivity]|]); contradiction|]).
  contradiction.
Qed.

(* The annotation which is written for a type is read as this type, whatever was read before (as long
   as nothing inside of a type was Final). *)
Theorem C78_roundtrip_partial : forall sc t c, standard sc -> simple_aliases sc -> printable sc t -> tidy t ->
  Forall tidy c ->
  exists c', read sc c (print t) = Some ([(t, None)], c') /\ Forall tidy c'.
Proof. exact roundtrip. Qed.
Print Assumptions C78_roundtrip_partial.

Definition nested : ty :=
  Final (Dict (HTup (Num Int)) (ITup [Array (Num Float64) 3 (Some OF); Lst (Class "Mesh"); SetT Str])).
Example C78_roundtrip_example :
  standard stub /\ simple_aliases stub /\ printable stub nested /\ tidy nested /\ Forall tidy [Lst (Num Int); Final (Num Int)]
  /\ print nested = "Final[dict[tuple[int, ...], tuple[float64[:,:,:](order=F), list[Mesh], set[str]]]]".
Proof.
  split; [exact stub_standard|]. split; [exact stub_aliases|]. split.
  - cbn. repeat split; try discriminate. exists Float64. repeat split. intros [H|[H|[H|[]]]]; discriminate.
  - split; [cbn; tauto|]. split; [|reflexivity]. repeat constructor.
Qed.

(* The same for a variable which is a pointer, or which is on the stack. *)
Theorem C78_memory_partial : forall sc t m c, standard sc -> simple_aliases sc -> printable sc t -> tidy t ->
  Forall tidy c ->
  exists c', read sc c (print_ann (t, m)) = Some ([(t, m)], c') /\ Forall tidy c'.
Proof. exact roundtrip_memory. Qed.
Print Assumptions C78_memory_partial.

Example C78_memory_example :
  printable stub (Array (Num Int32) 1 None) /\ tidy (Array (Num Int32) 1 None)
  /\ print_ann (Array (Num Int32) 1 None, Some MStack) = "Annotated[int32[:], ""stack""]".
Proof.
  split; [|split; [exact I|reflexivity]]. cbn. split; [|reflexivity]. exists Int32.
  repeat split. intros [H|[H|[H|[]]]]; discriminate.
Qed.

(* The same for the type of an argument which has several types. *)
Theorem C78_union_partial : forall sc l c, standard sc -> simple_aliases sc -> l <> [] -> Forall (printable sc) l ->
  Forall no_final l -> NoDup l -> Forall tidy c ->
  exists c', read sc c (print_union l) = Some (map (fun t => (t, None)) l, c') /\ Forall tidy c'.
Proof. exact roundtrip_union. Qed.
Print Assumptions C78_union_partial.

Example C78_union_example : let l := [Num Int; Lst (Num Float); Str] in
  l <> [] /\ Forall (printable stub) l /\ Forall no_final l /\ NoDup l
  /\ print_union l = "int | list[float] | str".
Proof.
  cbv zeta. split; [discriminate|]. split; [repeat constructor|]. split; [repeat constructor|].
  split; [|reflexivity]. repeat constructor; cbn; intuition discriminate.
Qed.

(* Different types have different annotations. *)
Theorem C78_injective_partial : forall sc t u, standard sc -> simple_aliases sc -> printable sc t -> printable sc u ->
  tidy t -> tidy u -> print t = print u -> t = u.
Proof. exact injective. Qed.
Print Assumptions C78_injective_partial.

Example C78_injective_example :
  printable stub (HTup (Num Int)) /\ printable stub (ITup [Num Int]) /\ tidy (HTup (Num Int)) /\ tidy (ITup [Num Int])
  /\ print (HTup (Num Int)) <> print (ITup [Num Int]).
Proof. cbn. repeat split; discriminate. Qed.

(* The annotation of the empty tuple cannot be read. *)
Theorem C78_empty_refuted : exists sc, standard sc /\ simple_aliases sc /\ forall c, read sc c (print (ITup [])) = None.
Proof. exists stub. split; [exact stub_standard|]. split; [exact stub_aliases|]. reflexivity. Qed.
Print Assumptions C78_empty_refuted.

(* Nor the ones of float128 and complex256, which Pyccel has names for. *)
Theorem C78_wide_refuted : exists sc, standard sc /\ simple_aliases sc /\
  forall c, read sc c (print (Num Float128)) = None /\ read sc c (print (Array (Num Complex256) 1 None)) = None.
Proof. exists stub. split; [exact stub_standard|]. split; [exact stub_aliases|]. intros c. split; reflexivity. Qed.
Print Assumptions C78_wide_refuted.

(* Nor the one of an array of Final numbers, which an alias of a Final type makes. *)
Theorem C78_element_refuted : exists sc t c', standard sc /\ read sc [] "R[:]" = Some ([(t, None)], c') /\
  forall c, read sc c (print t) = None.
Proof.
  exists [("Final", MFinal); ("Annotated", MAnnotated); ("R", MTypes [(Final (Num Float64), None)])].
  eexists _, _. split; [|split; [vm_compute; reflexivity|intros c; reflexivity]].
  split; [|split; reflexivity]. intros n m H. apply assoc_in in H. cbn in H.
  repeat (destruct H as [H|H]; [injection H as <- <-; split; reflexivity|]). contradiction.
Qed.
Print Assumptions C78_element_refuted.

(* After list[Final[int]] was read, list[int] is read as list[Final[int]]. *)
Theorem C78_history_refuted : exists sc c1 l1 c2 t, standard sc /\ printable sc (Lst (Num Int)) /\ tidy (Lst (Num Int)) /\
  read sc [] "list[Final[int]]" = Some (l1, c1) /\
  read sc c1 (print (Lst (Num Int))) = Some ([(t, None)], c2) /\ t <> Lst (Num Int).
Proof.
  exists stub. eexists _, _, _, _. split; [exact stub_standard|]. split; [reflexivity|]. split; [exact I|].
  split; [vm_compute; reflexivity|]. split; [vm_compute; reflexivity|]. discriminate.
Qed.
Print Assumptions C78_history_refuted.

(* An annotation which is accepted has the types which it means: one for each choice of a type for each
   alias in it. *)
Theorem C80_meaning_partial : forall sc c str ss l c', simple_aliases sc -> Forall tidy c -> parse str = Some ss ->
  Forall (simple sc) ss -> read sc c str = Some (l, c') ->
  Forall tidy c' /\ (forall t m, In (t, m) l <-> m = None /\ exists s, In s ss /\ means sc s t).
Proof. exact meaning_sound. Qed.
Print Assumptions C80_meaning_partial.

Example C80_meaning_example : exists ss l c',
  parse "tuple[T, list[T]] | T[:,:] | K[:,:](order=f)" = Some ss /\ Forall (simple stub) ss /\
  read stub [] "tuple[T, list[T]] | T[:,:] | K[:,:](order=f)" = Some (l, c') /\
  map print_ann l =
    ["tuple[int, list[int]]"; "tuple[int, list[float]]"; "tuple[float, list[int]]"; "tuple[float, list[float]]";
     "int64[:,:](order=C)"; "float64[:,:](order=C)"; "int32[:,:](order=F)"].
Proof.
  eexists _, _, _. split; [vm_compute; reflexivity|]. split.
  - repeat constructor; cbn; auto; intros x [<-|[]]; discriminate.
  - split; [vm_compute; reflexivity|]. reflexivity.
Qed.

(* No type is there twice (each is translated once). *)
Theorem C80_once_partial : forall sc c str ss l c', simple_aliases sc -> distinct_aliases sc -> Forall tidy c ->
  parse str = Some ss -> Forall (simple sc) ss -> read sc c str = Some (l, c') -> NoDup l.
Proof. exact once. Qed.
Print Assumptions C80_once_partial.

Example C80_once_example : distinct_aliases stub /\ exists ss l c',
  parse "T | int | T[:] | int64[:]" = Some ss /\ Forall (simple stub) ss /\
  read stub [] "T | int | T[:] | int64[:]" = Some (l, c') /\
  map print_ann l = ["int"; "float"; "int64[:]"; "float64[:]"].
Proof.
  split.
  - intros n l H. apply assoc_in in H. cbn in H.
    repeat (destruct H as [H|H]; [try discriminate; injection H as <- <-;
      repeat constructor; cbn; intuition discriminate|]). contradiction.
  - eexists _, _, _. split; [vm_compute; reflexivity|]. split; [repeat constructor; cbn; auto|].
    split; [vm_compute; reflexivity|]. reflexivity.
Qed.

(* An annotation which means one type is accepted. *)
Theorem C80_single_partial : forall sc s t c, simple_aliases sc -> simple sc s -> single sc s -> Forall tidy c ->
  means sc s t -> exists c', visit sc s c = Some ([(t, None)], c') /\ Forall tidy c'.
Proof. exact visit_single. Qed.
Print Assumptions C80_single_partial.

Example C80_single_example :
  let s := SType (BName "dict") (Some ([SType (BName "K") None; SType (BName "K") (Some ([SSlice], None))], None)) in
  simple stub s /\ single stub s /\ means stub s (Dict (Num Int32) (Array (Num Int32) 1 None)).
Proof.
  cbv zeta. split; [|split].
  - cbn. split; [exact I|]. split; [intros x [<-|[<-|[]]]; cbn; auto|]. tauto.
  - cbn. tauto.
  - apply means_dict; [reflexivity| |].
    + eapply means_alias; [reflexivity|left; reflexivity].
    + apply (means_vector stub "K" Int32 None). eapply means_alias; [reflexivity|left; reflexivity].
Qed.

(* dict[T, int] with T = int | float: the float keys are lost. *)
Theorem C80_dict_refuted : exists sc s t l c', standard sc /\ simple_aliases sc /\ means sc s t /\
  visit sc s [] = Some (l, c') /\ ~ In (t, None) l.
Proof.
  exists stub, (SType (BName "dict") (Some ([SType (BName "T") None; SType (BName "int") None], None))),
    (Dict (Num Float) (Num Int)). eexists _, _.
  split; [exact stub_standard|]. split; [exact stub_aliases|]. split.
  - apply means_dict; [reflexivity| |apply means_scalar; reflexivity].
    eapply means_alias; [reflexivity|right; left; reflexivity].
  - split; [vm_compute; reflexivity|]. cbn. intros [H|[]]. discriminate.
Qed.
Print Assumptions C80_dict_refuted.

(* T[:,:](order=F) with T = int | float: the order is ignored. *)
Theorem C80_order_refuted : exists sc str s t l c', standard sc /\ simple_aliases sc /\ parse str = Some [s] /\
  means sc s t /\ read sc [] str = Some (l, c') /\ ~ In (t, None) l.
Proof.
  exists stub, "T[:,:](order=F)", (SType (BName "T") (Some ([SSlice; SSlice], Some "F"))), (Array (Num Int64) 2 (Some OF)).
  eexists _, _. split; [exact stub_standard|]. split; [exact stub_aliases|]. split; [reflexivity|]. split.
  - apply (means_array stub "T" Int 0 (Some "F") OF); [|reflexivity].
    eapply means_alias; [reflexivity|left; reflexivity].
  - split; [vm_compute; reflexivity|]. cbn. intros [H|[H|[]]]; discriminate.
Qed.
Print Assumptions C80_order_refuted.

(* An order which does not exist is accepted. *)
Theorem C80_unknown_order_refuted : exists sc str l c', standard sc /\ simple_aliases sc /\
  parse str = Some [SType (BName "int") (Some ([SSlice; SSlice], Some "X"))] /\ read sc [] str = Some (l, c').
Proof.
  exists stub, "int[:,:](order=X)". eexists _, _. split; [exact stub_standard|]. split; [exact stub_aliases|].
  split; [reflexivity|]. vm_compute. reflexivity.
Qed.
Print Assumptions C80_unknown_order_refuted.
