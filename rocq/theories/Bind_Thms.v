(** C93: optional arguments of functions translated to Fortran. *)

From Coq Require Import List Bool Arith ZArith.
From Verif Require Import Bind_Model Bind_Spec Bind_Proofs.
Import ListNotations.

(** Whatever the parameters of a function or method and whichever optional
    arguments the caller leaves out, the wrapper runs the Fortran function
    with exactly the arguments which were passed, each at its own dummy: no
    null pointer is dereferenced, no pointer is used undefined and no default
    replaces a value. *)
Theorem C93_given : forall bound ps env,
  signature bound ps -> complete ps env ->
  run ps env (wrapper (Plain ps) bound ps) = Received (map (fun p => env (pname p)) ps).
Proof. exact wrapper_plain. Qed.
Print Assumptions C93_given.

(** def f(a : int, b : int = None, c : float = 2, d : float = None) *)
Definition ex_params : list param :=
  [mkp 0 1 None; mkp 1 1 (Some DNone); mkp 2 2 (Some (DLit 2)); mkp 3 2 (Some DNone)].

Definition ex_env : passed := fun n =>
  match n with 0 => Some 10%Z | 2 => Some 12%Z | 3 => Some 13%Z | _ => None end.

Example C93_given_ex :
  signature false ex_params /\ complete ex_params ex_env /\
  run ex_params ex_env (wrapper (Plain ex_params) false ex_params) =
    Received [Some 10%Z; None; Some 12%Z; Some 13%Z].
Proof.
  split; [|split].
  - split; [|discriminate]. unfold ex_params. cbn.
    repeat constructor; cbn; intuition discriminate.
  - intros p [<-|[<-|[<-|[<-|[]]]]] H; cbn in *; discriminate.
  - vm_compute. reflexivity.
Qed.

(** The text of the wrapper has one call for each subset of the optional
    arguments: its size doubles with each of them. *)
Theorem C93_size : forall bound ps,
  signature bound ps ->
  fails (wrapper (Plain ps) bound ps) = false /\
  calls (wrapper (Plain ps) bound ps) = 2 ^ length (filter optional ps).
Proof. exact wrapper_plain_calls. Qed.
Print Assumptions C93_size.

Example C93_size_ex :
  signature false ex_params /\ calls (wrapper (Plain ex_params) false ex_params) = 4.
Proof.
  split; [apply C93_given_ex|]. vm_compute. reflexivity.
Qed.

(** A method of several types can be wrapped, and receives what is passed, if
    no argument but the last is optional. *)
Theorem C93_overload_partial : forall fs bound ps0 q env,
  let ps := ps0 ++ [q] in
  signature bound ps -> complete ps env ->
  (forall p, In p ps0 -> optional p = false) ->
  In ps fs -> (forall f, In f fs -> same_function ps f) ->
  fails (wrapper (Overloads fs) bound ps) = false /\
  run ps env (wrapper (Overloads fs) bound ps) = Received (map (fun p => env (pname p)) ps).
Proof. exact overload_last. Qed.
Print Assumptions C93_overload_partial.

(** def m(self, a : T, b : int = None), T = int or float: the wrapper for
    T = float *)
Definition ex_method (t : nat) : list param :=
  [mkp 0 9 None; mkp 1 t None; mkp 2 1 (Some DNone)].

Example C93_overload_partial_ex :
  let fs := [ex_method 1; ex_method 2] in
  let ps := ex_method 2 in
  let env := fun n => if Nat.eqb n 2 then None else Some 5%Z in
  signature true ps /\ complete ps env /\ In ps fs /\
  (forall f, In f fs -> same_function ps f) /\
  run ps env (wrapper (Overloads fs) true ps) = Received [Some 5%Z; Some 5%Z; None].
Proof.
  cbv zeta. split; [|split; [|split; [|split]]].
  - split; [cbn; repeat constructor; cbn; intuition discriminate|].
    intros _. exists (mkp 0 9 None), [mkp 1 2 None; mkp 2 1 (Some DNone)].
    split; reflexivity.
  - intros p [<-|[<-|[<-|[]]]] H; cbn in *; discriminate.
  - right. left. reflexivity.
  - intros f [<-|[<-|[]]]; reflexivity.
  - vm_compute. reflexivity.
Qed.

(** An optional argument of an overloaded method followed by an argument
    whose type no overload has one place earlier: the method cannot be
    wrapped, although every call of it is legal Python.  The arguments left
    are compared with the overloads position by position, in spite of their
    keywords. *)
Theorem C93_overload_refuted : forall fs bound pre p q post,
  NoDup (map pname (pre ++ p :: q :: post)) ->
  optional p = true ->
  (forall f r, In f fs -> nth_error f (length pre) = Some r -> ptype r <> ptype q) ->
  fails (wrapper (Overloads fs) bound (pre ++ p :: q :: post)) = true.
Proof. exact overload_middle. Qed.
Print Assumptions C93_overload_refuted.

(** def m(self, a : T, b : int = None, c : float = None) *)
Definition ex_middle (t : nat) : list param :=
  [mkp 0 9 None; mkp 1 t None; mkp 2 1 (Some DNone); mkp 3 2 (Some DNone)].

Example C93_overload_refuted_ex :
  let fs := [ex_middle 1; ex_middle 2] in
  (forall f r, In f fs -> nth_error f 2 = Some r -> ptype r <> 2) /\
  wrapper (Overloads fs) true (ex_middle 2) =
    Guard 2
      (Guard 3 (Call [2; 3] (Some (VLocal 0)) [(1, VLocal 1); (2, VLocal 2); (3, VLocal 3)])
               (Call [2] (Some (VLocal 0)) [(1, VLocal 1); (2, VLocal 2)]))
      (Guard 3 Fatal
               (Call [] (Some (VLocal 0)) [(1, VLocal 1)])).
Proof.
  cbv zeta. split; [|vm_compute; reflexivity].
  intros f r [<-|[<-|[]]] H; cbn in H; injection H as <-; discriminate.
Qed.
