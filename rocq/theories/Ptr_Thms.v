(* C103: the parameters of functions in C are the arguments of Python. *)
From Coq Require Import ZArith List Bool Lia.
From Verif Require Import Ptr_Model Ptr_Spec Ptr_Proofs.
Import ListNotations.

(* The code of a variable, on either side of an assignment, is its object, wherever it is; the code of its address is its address. *)
Theorem C103_access : forall fr extra s v, lval fr s (print extra (EVar v)) = object fr extra s v /\
  rval fr s (print extra (EVar v)) = content fr extra s v /\
  forall a, object fr extra s v = Some a -> rval fr s (print_address extra (EVar v)) = Some (Ptr a).
Proof.
  intros fr extra s v. unfold content, object, print_address. cbn [print is_c_pointer]. unfold print_var.
  destruct (var_ptr extra v); cbn [lval rval address_code].
  - destruct (s (Cell fr (name v))); repeat split; try discriminate; intros b [= <-]; reflexivity.
  - repeat split. intros b [= <-]. reflexivity.
Qed.
Print Assumptions C103_access.
(* an optional argument *)
Example C103_access_ex : print [] (EVar (mk 11 1 Scalar false true true false)) = CDeref (CName 1) /\
  object 0 [] (fun _ => Ptr (Cell 3 4)) (mk 11 1 Scalar false true true false) = Some (Cell 3 4).
Proof. split; reflexivity. Qed.

(* When the body starts, every parameter has the value of its argument; a parameter that is passed by address is the object of
   the caller; the results of a function with several results, and the variables of outer functions, are those of the caller;
   nothing else has changed. *)
Theorem C103_call_partial : forall fr fr' n extra s, fr <> fr' -> clean fr fr' n s -> forall f lhs es,
  func_ok extra f -> Forall2 (arg_ok fr extra n s) (params f) es -> results_clean fr fr' n es ->
  length lhs = length (results f) -> Forall (var_ok fr extra n s) lhs -> Forall (var_ok fr extra n s) (globals f) ->
  exists s2, call fr fr' extra n f lhs es s = Some s2 /\
    Forall2 (fun p e => content fr' (inner_extra f) s2 p = arg_content fr extra s e /\
      (forall v, e = EVar v -> var_ptr extra p = true -> object fr' (inner_extra f) s2 p = object fr extra s v)) (params f) es /\
    (multi f = true -> Forall2 (fun r v => object fr' (inner_extra f) s2 r = object fr extra s v) (results f) lhs) /\
    Forall (fun g => object fr' (inner_extra f) s2 g = object fr extra s g) (globals f) /\
    forall a, old fr fr' n a -> s2 a = s a.
Proof. exact call_ok. Qed.
Print Assumptions C103_call_partial.

(* q, y = self.f(7, a, None, x) with def f(self, i : int = None, v : 'float[:]', j : int = None, k : float) -> tuple[int, int];
   in the caller, self and y are pointers *)
Definition arg_ (u x : nat) (k : kind) (o : bool) := mk u x k false o true false.
Definition ex_f := mkf true [arg_ 10 0 Object false; arg_ 11 1 Scalar true; arg_ 12 2 Array false; arg_ 13 3 Scalar true; arg_ 14 4 Scalar false]
  [mk 15 5 Scalar false false false false; mk 16 6 Scalar false false false false] true [].
Definition v_self := arg_ 0 0 Object false.
Definition v_a := mk 1 1 Array false false false false.
Definition v_x := mk 2 2 Scalar false false false false.
Definition v_q := mk 3 3 Scalar false false false false.
Definition v_y := mk 4 4 Scalar false false false false.
Definition ex_extra := [4].
Definition ex_s : store := fun a =>
  match a with
  | Cell 0 0 => Ptr (Cell 7 0) | Cell 0 1 => Span 3 | Cell 0 2 => Num 5 | Cell 0 4 => Ptr (Cell 7 9)
  | Item d i => Num (Z.of_nat (10 * d + i)) | _ => Num 0
  end.
Definition ex_es := [EVar v_self; EVal 7; EVar v_a; ENone; EVar v_x].
Example C103_call_ex :
  clean 0 1 8 ex_s /\ func_ok ex_extra ex_f /\ Forall2 (arg_ok 0 ex_extra 8 ex_s) (params ex_f) ex_es /\
  Forall (var_ok 0 ex_extra 8 ex_s) [v_q; v_y] /\
  call_codes ex_extra 8 ex_f [v_q; v_y] ex_es =
    ([(8, CRes (Num 7))], [CName 0; CAddr (CName 3); CName 4; CAddr (CName 8); CName 1; CNull; CName 2]).
Proof.
  split; [|split; [|split; [|split; [|reflexivity]]]].
  - intros a b. destruct a as [[|f] [|[|[|[|[|x]]]]]|d i]; cbn; try discriminate; intros [= <-]; cbn; lia.
  - split; [|split]; [..|intros p Hp; cbn in Hp; repeat (destruct Hp as [<-|Hp]; [reflexivity|]); contradiction];
      cbn; repeat constructor; cbn; lia.
  - cbn [params ex_f ex_es]. repeat (apply Forall2_cons || apply Forall2_nil).
    + split; [split; [cbn; lia|cbn; left; eexists; reflexivity]|discriminate].
    + exact I.
    + split; [split; [cbn; lia|exact I]|discriminate].
    + reflexivity.
    + split; [split; [cbn; lia|exact I]|discriminate].
  - apply Forall_cons; [split; [cbn; lia|exact I]|]. apply Forall_cons; [|constructor].
    split; [cbn; lia|cbn; left; eexists; reflexivity].
Qed.

(* An element of an array passed to a parameter that may be None: its value is used as the address. *)
Theorem C103_element_refuted : forall fr fr' n extra s, fr <> fr' -> clean fr fr' n s -> forall f lhs es k p v i d z,
  func_ok extra f -> Forall2 (arg_any fr extra n s) (params f) es ->
  length lhs = length (results f) -> Forall (var_ok fr extra n s) lhs -> Forall (var_ok fr extra n s) (globals f) ->
  nth_error (params f) k = Some p -> nth_error es k = Some (EElem v i) -> var_ptr extra p = true ->
  content fr extra s v = Some (Span d) -> s (Item d i) = Num z ->
  exists s2, call fr fr' extra n f lhs es s = Some s2 /\ s2 (Cell fr' (name p)) = Num z /\ var_ptr (inner_extra f) p = true /\
    content fr' (inner_extra f) s2 p = None /\ arg_content fr extra s (EElem v i) = Some (Num z).
Proof. exact element_wrong. Qed.
Print Assumptions C103_element_refuted.
(* g(a[2]) with def g(i : int = None) *)
Definition ex_g := mkf false [arg_ 11 1 Scalar true] [] false [].
Example C103_element_ex :
  Forall2 (arg_any 0 ex_extra 8 ex_s) (params ex_g) [EElem v_a 2] /\ var_ptr ex_extra (arg_ 11 1 Scalar true) = true /\
  content 0 ex_extra ex_s v_a = Some (Span 3) /\ ex_s (Item 3 2) = Num 32 /\
  snd (call_codes ex_extra 8 ex_g [] [EElem v_a 2]) = [CDeref (CAt (CAddr (CName 1)) 2)].
Proof.
  split; [|repeat split; reflexivity]. constructor; [|constructor]. right. exists v_a, 2, 3. split; [reflexivity|]. split; [|reflexivity].
  split; [cbn; lia|exact I].
Qed.
