(* C35: what a print compiled to Fortran writes. *)
From Coq Require Import Bool String Ascii Arith ZArith Lia List.
From Verif Require Import Text_Model Text_Spec Print_Model Print_Spec PrintF_Model PrintF_Spec PrintF_Proofs.
Import ListNotations.
Open Scope list_scope.

(* --- C35: print of text, integers, literal booleans, tuples and lists writes what Python
   does, for all texts and all sep and end.
   Missing: floats, complex numbers, sets, arrays of several dimensions, dictionaries. --- *)
Theorem C35_fortran_partial : forall fuel args sep end_ out,
  Forall printable_f args -> Forall (fun a => depth a < fuel) args -> 0 < fuel ->
  py_print args sep end_ = Some out ->
  exists ws, write_call fuel args sep end_ = Some ws /\ written ws = Some out.
Proof.
  intros fuel args sep end_ out F D L H. unfold py_print in H.
  destruct (all_some (map py_str args)) as [ss|] eqn:E; [|discriminate]. injection H as <-.
  exact (write_output fuel args sep end_ ss F D L E).
Qed.
Print Assumptions C35_fortran_partial.

(* print("100%", (1, [True, -2]), x, sep=" ' ", end="") *)
Definition example_f : list arg :=
  [ALit (T "100%"); ACont KTuple [AScal (SInt W64 1); ACont KList [AScal (SLitB true); AScal (SInt W32 (-2))]]; AStr (T "it's")].

Example C35_fortran_ex : Forall printable_f example_f /\ Forall (fun a => depth a < 3) example_f /\
  py_print example_f (T " ' ") [] = Some (T "100% ' (1, [True, -2]) ' it's").
Proof.
  split; [|split].
  - repeat (constructor || (split; [discriminate|])); try discriminate; intros; discriminate.
  - repeat constructor.
  - reflexivity.
Qed.

(* --- C35: the array of one dimension whose elements are integers, equally long --- *)
Theorem C35_fortran_array_partial : forall k n l sep end_, Forall an_int l ->
  Forall (fun s => List.length (py_scalar s) = n) l ->
  exists ws, write_call (S k) [AArr (map Elem l)] sep end_ = Some ws /\ written ws = Some (np_array l ++ end_).
Proof. exact write_array. Qed.
Print Assumptions C35_fortran_array_partial.

Example C35_fortran_array_ex : Forall an_int [SInt W64 10; SInt W64 (-7)]
  /\ Forall (fun s => List.length (py_scalar s) = 2) [SInt W64 10; SInt W64 (-7)].
Proof. split; repeat constructor. Qed.

(* What write_call writes *)
Definition f_print (args : list arg) (sep end_ : text) : option text :=
  match write_call 3 args sep end_ with Some ws => written ws | None => None end.

(* --- C35: a boolean that is true is written with a blank --- *)
Theorem C35_fortran_true_refuted : f_print [AScal (SBool true)] (T " ") [NL] = Some (T "True " ++ [NL]) /\
  py_print [AScal (SBool true)] (T " ") [NL] = Some (T "True" ++ [NL]).
Proof. split; reflexivity. Qed.
Print Assumptions C35_fortran_true_refuted.

(* --- C35: print([1]) writes [1,], and nothing separates an array from the next argument --- *)
Theorem C35_fortran_singleton_refuted : exists a, f_print [a] (T " ") [NL] = Some (T "[1,]" ++ [NL]) /\
  py_print [a] (T " ") [NL] = Some (T "[1]" ++ [NL]).
Proof. exists (ACont KList [AScal (SInt W64 1)]). split; reflexivity. Qed.
Print Assumptions C35_fortran_singleton_refuted.

Theorem C35_fortran_separator_refuted : exists l a,
  f_print [AArr (map Elem l); a] (T " ") [NL] = Some (np_array l ++ T "2" ++ [NL]) /\ py_str a = Some (T "2").
Proof. exists [SInt W64 1], (AScal (SInt W64 2)). split; reflexivity. Qed.
Print Assumptions C35_fortran_separator_refuted.
