(* C105: every parameter gets the argument Python gives it. *)
From Coq Require Import Bool Arith ZArith List Lia.
From Verif Require Import Karg_Model Karg_Spec Karg_Proofs.
Import ListNotations.

(* Calls without expressions of arrays as keyword arguments: the parameters of the function in C have the
   values of Python. *)
Theorem C105_c_partial : forall ps pos kws vs,
  NoDup (map name ps) -> no_array_keyword kws -> is_binding ps pos kws vs -> none_allowed ps vs ->
  c_call ps (written pos kws) = Some vs.
Proof. exact c_main. Qed.
Print Assumptions C105_c_partial.

(* Also in Fortran, if None is not followed by another positional argument. *)
Theorem C105_fortran_partial : forall ps pos kws vs,
  NoDup (map name ps) -> no_array_keyword kws -> none_last pos -> is_binding ps pos kws vs -> none_allowed ps vs ->
  f_call ps (written pos kws) = Some vs.
Proof. exact f_main. Qed.
Print Assumptions C105_fortran_partial.

(* def f(p0, p1 = None, p2 = 7, p3 = None) *)
Definition ps_ex : list param :=
  [{| name := 0; default := None |}; {| name := 1; default := Some VNone |};
   {| name := 2; default := Some (VVal 7) |}; {| name := 3; default := Some VNone |}].
(* f(x + y, None, p3 = 5) *)
Example C105_ok_ex :
  NoDup (map name ps_ex) /\ no_array_keyword [(3, EPlain 5)] /\ none_last [EArray 1; ENone] /\
  is_binding ps_ex [EArray 1; ENone] [(3, EPlain 5)] [VVal 1; VNone; VVal 7; VVal 5] /\
  none_allowed ps_ex [VVal 1; VNone; VVal 7; VVal 5] /\
  f_call ps_ex (written [EArray 1; ENone] [(3, EPlain 5)]) = Some [VVal 1; VNone; VVal 7; VVal 5].
Proof.
  split; [repeat (constructor; [cbn; intuition discriminate|]); constructor|].
  split; [intros k [<-|[]]; reflexivity|].
  split; [exists [EArray 1], 1; split; [reflexivity|intros e [<-|[]]; reflexivity]|].
  split; [|split; [|reflexivity]].
  - split; [cbn; lia|]. split; [intros k [<-|[]]; cbn; tauto|]. split; [reflexivity|].
    intros [|[|[|[|i]]]] p E; cbn in E; try (injection E as <-; eexists; split; reflexivity). destruct i; discriminate E.
  - intros [|[|[|[|i]]]] p E F; cbn in E, F; try discriminate F; [now injection E as <-|]. destruct i; discriminate E.
Qed.

(* There is no code for a call with a keyword that is not the name of a parameter after the positional arguments. *)
Theorem C105_rejected_partial : forall ps pos kws k,
  no_array_keyword kws -> In k kws -> ~ In (fst k) (map name (skipn (length pos) ps)) ->
  c_call ps (written pos kws) = None /\ f_call ps (written pos kws) = None.
Proof. intros ps pos kws k NA I N. unfold c_call, f_call. now rewrite (rejected ps pos kws k NA I N). Qed.
Print Assumptions C105_rejected_partial.

(* f(1, p0 = 2) *)
Example C105_rejected_ex : no_array_keyword [(0, EPlain 2)] /\ ~ In 0 (map name (skipn 1 ps_ex)).
Proof. split; [intros k [<-|[]]; reflexivity|]. cbn. intuition discriminate. Qed.

(* An expression of arrays loses its keyword: the call has the meaning of one where it is the last positional
   argument, and the value goes to the parameter after the positional arguments, whatever the keyword is. *)
Theorem C105_keyword_refuted : forall ps pos kws q z kws',
  no_array_keyword kws ->
  sorted_call ps (written pos (kws ++ (q, EArray z) :: kws')) = sorted_call ps (written (pos ++ [EArray z]) (kws ++ kws')) /\
  forall vs, c_call ps (written pos (kws ++ (q, EArray z) :: kws')) = Some vs -> nth_error vs (length pos) = Some (VVal z).
Proof. intros ps pos kws q z kws' NA. split; [now apply keyword_lost|]. intros vs. now apply keyword_any. Qed.
Print Assumptions C105_keyword_refuted.

(* With optional parameters the code is compiled and wrong for every keyword but the one of the next
   parameter. *)
Theorem C105_next_refuted : forall ps pos p z i,
  NoDup (map name ps) -> (forall p, In p ps -> optional p = true) -> nth_error ps i = Some p -> length pos < i ->
  (exists vs, is_binding ps pos [(name p, EArray z)] vs /\ nth_error vs i = Some (VVal z) /\ nth_error vs (length pos) = Some VNone) /\
  c_call ps (written pos [(name p, EArray z)]) = Some (map value pos ++ VVal z :: repeat VNone (length ps - S (length pos))).
Proof. exact keyword_wrong. Qed.
Print Assumptions C105_next_refuted.

(* def g(p0 = None, p1 = None): g(p1 = x + y) *)
Definition qs_ex : list param := [{| name := 0; default := Some VNone |}; {| name := 1; default := Some VNone |}].
Example C105_next_ex :
  NoDup (map name qs_ex) /\ (forall p, In p qs_ex -> optional p = true) /\
  c_call qs_ex (written [] [(1, EArray 4)]) = Some [VVal 4; VNone] /\
  f_call qs_ex (written [] [(1, EArray 4)]) = Some [VVal 4; VNone] /\
  is_binding qs_ex [] [(1, EArray 4)] [VNone; VVal 4].
Proof.
  split; [repeat (constructor; [cbn; intuition discriminate|]); constructor|].
  split; [intros p [<-|[<-|[]]]; reflexivity|]. split; [reflexivity|]. split; [reflexivity|].
  split; [cbn; lia|]. split; [intros k [<-|[]]; cbn; tauto|]. split; [reflexivity|].
  intros [|[|i]] p E; cbn in E; try (injection E as <-; eexists; split; reflexivity). destruct i; discriminate E.
Qed.

(* In Fortran the arguments after None move to the parameters before them: whenever something follows None,
   the function gets other values than in Python. *)
Theorem C105_none_refuted : forall ps pos,
  length pos <= length ps -> (forall p, In p ps -> optional p = true) -> ~ none_last pos ->
  is_binding ps pos [] (map value pos ++ repeat VNone (length ps - length pos)) /\
  f_call ps (written pos []) = Some (map value (present pos) ++ repeat VNone (length ps - length (present pos))) /\
  f_call ps (written pos []) <> Some (map value pos ++ repeat VNone (length ps - length pos)).
Proof.
  intros ps pos L O N. split; [now apply py_positional|]. rewrite (none_shift ps pos L O). split; [reflexivity|].
  intros E. injection E as E. exact (shift_wrong ps pos L N E).
Qed.
Print Assumptions C105_none_refuted.

(* g(None, 3) *)
Example C105_none_ex :
  ~ none_last [ENone; EPlain 3] /\ f_call qs_ex (written [ENone; EPlain 3] []) = Some [VVal 3; VNone] /\
  c_call qs_ex (written [ENone; EPlain 3] []) = Some [VNone; VVal 3].
Proof.
  split; [|split; reflexivity]. intros ([|e a] & b & E & H).
  - destruct b as [|[|b]]; discriminate E.
  - injection E as <- _. discriminate (H ENone (or_introl eq_refl)).
Qed.
