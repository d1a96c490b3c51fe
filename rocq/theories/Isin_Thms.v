(** C94: isinstance; C95: membership. *)

From Coq Require Import List Bool Arith ZArith Lia.
From Verif Require Import Isin_Model Isin_Spec Isin_Proofs.
Import ListNotations.

(** [isinstance] on an object of its static type: whatever the classes of the
    program and however the types are nested in tuples and unions, the
    literal is the value of the call in Python, but for [numpy.float64]
    against [float] and [numpy.complex128] against [complex]. *)
Theorem C94_isinstance_partial : forall sups obj g, ordered sups -> legal g ->
  (forall q, names g q -> ~ numpy_exception obj q) ->
  exists n, forall fuel, n <= fuel ->
    exists b, build_isinstance fuel sups obj g = Lit b /\
      (b = true <-> py_isinstance sups (class_of obj) g).
Proof. exact isinstance_literal. Qed.
Print Assumptions C94_isinstance_partial.

(** class 3(1, 2), class 2(0), class 1(0), class 4 *)
Definition ex_sups : nat -> list nat := fun c =>
  match c with 1 => [0] | 2 => [0] | 3 => [1; 2] | _ => [] end.

Lemma ex_ordered : ordered ex_sups.
Proof.
  intros c d H. destruct c as [|[|[|[|c]]]]; cbn in H; try contradiction H;
    repeat (destruct H as [<-|H]; [lia|]); contradiction H.
Qed.

Example C94_isinstance_partial_ex :
  ordered ex_sups /\ legal (GMany [GKind KList; GMany [GType TInt; GType (TCls 0)]]) /\
  build_isinstance 10 ex_sups (TCls 3) (GMany [GKind KList; GMany [GType TInt; GType (TCls 0)]])
    = Lit true /\
  build_isinstance 10 ex_sups TBool (GMany [GKind KList; GMany [GType TInt; GType (TCls 0)]])
    = Lit true /\
  build_isinstance 10 ex_sups (TCls 4) (GMany [GKind KList; GMany [GType TInt; GType (TCls 0)]])
    = Lit false.
Proof.
  split; [apply ex_ordered|]. split; [|vm_compute; auto].
  apply legal_many. intros g [<-|[<-|[]]]; [apply legal_kind|].
  apply legal_many. intros g [<-|[<-|[]]]; apply legal_type; reflexivity.
Qed.

(** [isinstance(x, float)] is always False for a [numpy.float64], and
    [isinstance(x, complex)] for a [numpy.complex128], where Python says True. *)
Theorem C94_numpy_refuted : forall sups obj t, ordered sups ->
  numpy_exception obj (class_of t) ->
  (exists n, forall fuel, n <= fuel ->
     build_isinstance fuel sups obj (GType t) = Lit false) /\
  py_isinstance sups (class_of obj) (GType t).
Proof. exact isinstance_numpy_all. Qed.
Print Assumptions C94_numpy_refuted.

Example C94_numpy_refuted_ex :
  numpy_exception (TNp NF64) (class_of TFloat) /\
  build_isinstance 3 ex_sups (TNp NF64) (GType TFloat) = Lit false.
Proof. split; [left; split; reflexivity|vm_compute; reflexivity]. Qed.

(** An optional argument which is [None] is said to be an instance of its
    type, whatever the type: the literal does not depend on the value. *)
Theorem C94_optional_refuted : forall sups e, ordered sups ->
  plain (e_type e) = true ->
  exists n, forall fuel, n <= fuel ->
    t_answer (isinstance_call fuel sups e (GType (e_type e))) = Lit true /\
    ~ py_isinstance sups PNone (GType (e_type e)).
Proof. exact isinstance_optional. Qed.
Print Assumptions C94_optional_refuted.

Example C94_optional_refuted_ex :
  t_answer (isinstance_call 3 ex_sups (mke TInt true []) (GType TInt)) = Lit true.
Proof. vm_compute. reflexivity. Qed.

(** An object of a derived class [d] passed for a parameter of its class [c]:
    Python says that it is an instance of [d], the translated function does
    not. *)
Theorem C94_derived_refuted : forall sups c d,
  ordered sups -> In c (sups d) ->
  (exists n, forall fuel, n <= fuel ->
     build_isinstance fuel sups (TCls c) (GType (TCls d)) = Lit false) /\
  subclass sups (PUser d) (class_of (TCls c)) /\
  py_isinstance sups (PUser d) (GType (TCls d)).
Proof. exact isinstance_derived. Qed.
Print Assumptions C94_derived_refuted.

Example C94_derived_refuted_ex : In 1 (ex_sups 3).
Proof. left. reflexivity. Qed.

(** The calls in the first argument of [isinstance] are never made. *)
Theorem C94_calls_refuted : forall fuel sups e g,
  e_calls e <> [] -> t_calls (isinstance_call fuel sups e g) <> e_calls e.
Proof. intros fuel sups e g H K. apply H. symmetry. exact K. Qed.
Print Assumptions C94_calls_refuted.

Example C94_calls_refuted_ex : e_calls (mke TInt false [7]) <> [].
Proof. discriminate. Qed.

(** [x in l] for an element of the type of the elements: in C and Fortran,
    for lists, sets and dictionaries, the value is that of Python, if [x] is
    not NaN. *)
Theorem C95_same_type_partial : forall g s same x et l,
  wf_val x = true -> container et l -> type_of x = et ->
  identity same x l -> is_nan x = false ->
  (translated_in g s x et l = true <-> py_in same x l).
Proof. exact in_same_type. Qed.
Print Assumptions C95_same_type_partial.

Example C95_same_type_partial_ex :
  let l := [VFloat None (Some 3%Z); VFloat None None; VFloat None (Some 5%Z)] in
  let x := VFloat None (Some 5%Z) in
  container TFloat l /\ identity (fun i => Nat.eqb i 2) x l /\
  translated_in C List_ x TFloat l = true /\ translated_in Fortran List_ x TFloat l = true /\
  translated_in Fortran Set_or_dict (VFloat None (Some 4%Z)) TFloat l = false.
Proof.
  cbv zeta. split; [|split; [|vm_compute; auto]].
  - intros y [<-|[<-|[<-|[]]]]; split; reflexivity.
  - intros i y H E. apply Nat.eqb_eq in E. subst i. cbn in H. congruence.
Qed.

(** An element of another type is never found, even if the container has an
    element equal to it: [1 in [1.0]], [True in {1}],
    [numpy.int32(1) in [1]] are False. *)
Theorem C95_other_type_refuted : forall g s same x et l y,
  type_of x <> et -> In y l -> py_eq x y ->
  translated_in g s x et l = false /\ py_in same x l.
Proof. exact in_other_python. Qed.
Print Assumptions C95_other_type_refuted.

Example C95_other_type_refuted_ex :
  type_of (VInt None 1) <> TFloat /\ py_eq (VInt None 1) (VFloat None (Some 2%Z)) /\
  type_of (VBool true) <> TInt /\ py_eq (VBool true) (VInt None 1) /\
  type_of (VInt (Some NI32) 1) <> TInt /\ py_eq (VInt (Some NI32) 1) (VInt None 1).
Proof. repeat split; try discriminate. Qed.

(** NaN is never found; in Python it is found in a list which holds the same
    object. *)
Theorem C95_nan_refuted : forall g s x et l,
  is_nan x = true ->
  translated_in g s x et l = false /\
  py_in (Nat.eqb (length l)) x (l ++ [x]) /\ translated_in g s x et (l ++ [x]) = false.
Proof.
  intros g s x et l H. split; [apply in_nan; exact H|].
  split; [|apply in_nan; exact H]. exists (length l), x.
  split; [|left; apply Nat.eqb_refl].
  rewrite nth_error_app2, Nat.sub_diag by lia. reflexivity.
Qed.
Print Assumptions C95_nan_refuted.

Example C95_nan_refuted_ex : is_nan (VFloat None None) = true.
Proof. reflexivity. Qed.

(** If the types are equal, the calls in the two operands are all made, in
    the order of Python. *)
Theorem C95_calls_partial : forall x et cc,
  ty_eqb (e_type x) et = true -> in_calls x et cc = e_calls x ++ cc.
Proof. exact in_calls_kept. Qed.
Print Assumptions C95_calls_partial.

Example C95_calls_partial_ex : in_calls (mke TInt false [1]) TInt [2] = [1; 2].
Proof. vm_compute. reflexivity. Qed.

(** If they are not, none of them is made. *)
Theorem C95_calls_refuted : forall x et cc,
  ty_eqb (e_type x) et = false -> e_calls x ++ cc <> [] ->
  in_calls x et cc = [] /\ in_calls x et cc <> e_calls x ++ cc.
Proof.
  intros x et cc H N. rewrite (in_calls_dropped x et cc H). split; [reflexivity|].
  intro E. apply N. symmetry. exact E.
Qed.
Print Assumptions C95_calls_refuted.

Example C95_calls_refuted_ex :
  ty_eqb (e_type (mke TInt false [1])) TFloat = false /\ [1] ++ [2] <> [].
Proof. split; [reflexivity|discriminate]. Qed.
