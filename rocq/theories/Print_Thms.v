(* C35: what a compiled print writes. *)
From Coq Require Import Bool String Ascii Arith ZArith Lia List DecimalString.
From Verif Require Import Text_Model Text_Spec Print_Model Print_Spec Print_Proofs.
Import ListNotations.
Open Scope list_scope.

(* --- C35: print of text, integers, booleans, tuples and lists writes what Python does.
   Missing: floats, complex numbers, sets, arrays of several dimensions, dictionaries. --- *)
Theorem C35_print_partial : forall fuel args sep end_ out,
  Forall printable args -> Forall (fun a => depth a < fuel) args -> 0 < fuel -> plain_text sep -> plain_text end_ ->
  py_print args sep end_ = Some out ->
  exists calls, print_call fuel args sep end_ = Some calls /\ output calls = Some out.
Proof.
  intros fuel args sep end_ out F D L PS PE H. unfold py_print in H.
  destruct (all_some (map py_str args)) as [ss|] eqn:E; [|discriminate]. injection H as <-.
  exact (print_output fuel args sep end_ ss F D L PS PE E).
Qed.
Print Assumptions C35_print_partial.

(* print("n", (1, [True, -2]), 3, sep=", ") *)
Definition example_args : list arg :=
  [ALit (T "n"); ACont KTuple [AScal (SInt W64 1); ACont KList [AScal (SBool true); AScal (SInt W32 (-2))]]; AScal (SInt W8 3)].

Example C35_print_ex : Forall printable example_args /\ Forall (fun a => depth a < 3) example_args /\
  plain_text (T ", ") /\ plain_text [NL] /\
  py_print example_args (T ", ") [NL] = Some (T "n, (1, [True, -2]), 3" ++ [NL]).
Proof.
  split; [|split; [|split; [|split]]].
  - constructor; [apply plain_chars; reflexivity|]. constructor; [|constructor; [|constructor]].
    + repeat split; try discriminate; intros; discriminate.
    + split; cbn; discriminate || reflexivity.
  - repeat constructor.
  - apply plain_chars. reflexivity.
  - apply plain_chars. reflexivity.
  - vm_compute. reflexivity.
Qed.

(* --- C35: the array of one dimension whose elements are equally long --- *)
Theorem C35_array_partial : forall k n l sep end_, Forall ok_scalar l -> Forall (fun s => List.length (py_scalar s) = n) l ->
  plain_text end_ ->
  exists calls, print_call (S k) [AArr (map Elem l)] sep end_ = Some calls /\ output calls = Some (np_array l ++ end_).
Proof. exact print_array. Qed.
Print Assumptions C35_array_partial.

Example C35_array_ex : Forall ok_scalar [SInt W64 10; SInt W64 (-7)]
  /\ Forall (fun s => List.length (py_scalar s) = 2) [SInt W64 10; SInt W64 (-7)]
  /\ np_array [SInt W64 10; SInt W64 (-7)] = T "[10 -7]".
Proof. split; [|split]; [repeat constructor; cbn; discriminate|repeat constructor|reflexivity]. Qed.

(* What print_call writes *)
Definition c_print (args : list arg) (sep end_ : text) : option text :=
  match print_call 3 args sep end_ with Some calls => output calls | None => None end.

(* --- C35: a % in a literal is read by printf: 100%d is undefined, 5%% loses a character --- *)
Theorem C35_percent_refuted : exists s, py_print [ALit s] (T " ") [NL] <> None /\ c_print [ALit s] (T " ") [NL] = None.
Proof. exists (T "100%d"). split; [discriminate|reflexivity]. Qed.
Print Assumptions C35_percent_refuted.

Theorem C35_percent_output_refuted : exists s out, c_print [ALit s] (T " ") [NL] = Some out /\
  py_print [ALit s] (T " ") [NL] <> Some out.
Proof. exists (T "5%%"), (T "5%" ++ [NL]). split; [reflexivity|discriminate]. Qed.
Print Assumptions C35_percent_output_refuted.

(* --- C35: print([1]) writes [1,] --- *)
Theorem C35_singleton_refuted : exists a, c_print [a] (T " ") [NL] = Some (T "[1,]" ++ [NL]) /\
  py_print [a] (T " ") [NL] = Some (T "[1]" ++ [NL]).
Proof. exists (ACont KList [AScal (SInt W64 1)]). split; reflexivity. Qed.
Print Assumptions C35_singleton_refuted.

(* --- C35: nothing separates an array from the next argument --- *)
Theorem C35_separator_refuted : exists l a, 
  c_print [AArr (map Elem l); a] (T " ") [NL] = Some (np_array l ++ T "2" ++ [NL]) /\ py_str a = Some (T "2").
Proof. exists [SInt W64 1], (AScal (SInt W64 2)). split; reflexivity. Qed.
Print Assumptions C35_separator_refuted.

(* --- C35: elements are not aligned --- *)
Theorem C35_align_refuted : exists l out, c_print [AArr (map Elem l)] (T " ") [NL] = Some out /\ out <> np_array l ++ [NL].
Proof. exists [SInt W64 1; SInt W64 10], (T "[1 10]" ++ [NL]). split; [reflexivity|discriminate]. Qed.
Print Assumptions C35_align_refuted.

(* --- C35: a text ends at its first null character --- *)
Theorem C35_null_refuted : exists s out, c_print [AStr s] (T " ") [] = Some out /\ py_print [AStr s] (T " ") [] <> Some out.
Proof. exists (T "a" ++ [ch 0] ++ T "b"), (T "a"). split; [reflexivity|discriminate]. Qed.
Print Assumptions C35_null_refuted.
