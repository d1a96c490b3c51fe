(* C63, C64: arguments from Python and overloads. *)
From Coq Require Import Bool Arith ZArith Lia List Sorted.
From Verif Require Import View_Model Wrap_Model Wrap_Spec Wrap_Proofs.
Import ListNotations.
Open Scope Z_scope.
Open Scope list_scope.

Definition no_heap : heap := fun _ => [].
Definition plain_param (t : ty) : param := mk_param t false None.

(* C63: a call raises a TypeError, and the function is not run, exactly when an argument has not
   the type of its parameter (or None for one with a default). *)
Theorem C63_types : forall l rnd ps f os h, length ps = length os ->
  (call_wrapper l rnd true ps f os h = TypeErr <-> exists p o, In (p, o) (combine ps os) /\ ~ accepted l h p o).
Proof. exact types_main. Qed.
Print Assumptions C63_types.

(* f(a: int, b: list[float]) called with (1, [2.0, 3]) and with (1, [2.0, 3.0]) *)
Example C63_types_example :
  let ps := [plain_param (Scalar SInt); plain_param (TList (Scalar SFloat))] in
  call_wrapper LC (fun d => d) true ps (fun v => v) [OInt 1; OList 0] (fun _ => [OFloat 2; OInt 3]) = TypeErr
  /\ exists seen h', call_wrapper LC (fun d => d) true ps (fun v => v) [OInt 1; OList 0] (fun _ => [OFloat 2; OFloat 3]) = Ran seen false h'.
Proof. split; [reflexivity|]. eexists. eexists. reflexivity. Qed.

(* C63: the function sees the values of its arguments.  Missing: booleans of NumPy, integers beyond
   64 bits, strings with the character 0 and, for Fortran, with non-ASCII characters (refuted below). *)
Theorem C63_values_partial : forall l rnd ps f os h, length ps = length os ->
  (forall p o, In (p, o) (combine ps os) ->
     accepted l h p o /\ wrappable (p_ty p) /\ Forall (real rnd) (leaves h o) /\ Forall (simple l) (leaves h o)) ->
  exists seen h', call_wrapper l rnd true ps f os h = Ran seen false h' /\ length seen = length ps
    /\ forall k p o v, nth_error ps k = Some p -> nth_error os k = Some o -> nth_error seen k = Some v -> sees h p o v.
Proof. exact values_main. Qed.
Print Assumptions C63_values_partial.

(* f(a: np.int8, b: str, c: tuple[float], d: int = 5) called with (-128, 'e-acute', (1.5, 2.5)) from Python *)
Example C63_values_example :
  let ps := [plain_param (Scalar SInt8); plain_param Str; plain_param (TTuple (Scalar SFloat)); mk_param (Scalar SInt) false (Some (CInt 5))] in
  let os := [ONpInt 8 (-128); OStr [233]; OTuple [OFloat 15; ONpFloat64 25]; ONone] in
  (forall p o, In (p, o) (combine ps os) ->
     accepted LC no_heap p o /\ wrappable (p_ty p) /\ Forall (real (fun d => d)) (leaves no_heap o) /\ Forall (simple LC) (leaves no_heap o))
  /\ call_wrapper LC (fun d => d) true ps (fun v => v) os no_heap
     = Ran [CInt (-128); CStr [195; 169]; CSeq [CFloat 15; CFloat 25]; CInt 5] false no_heap.
Proof.
  cbv zeta. split; [|reflexivity]. intros p o H.
  assert (Q : p = mk_param (Scalar SInt) false (Some (CInt 5)) /\ o = ONone
              \/ (check LC no_heap (p_ty p) o = true /\ wrappable (p_ty p) /\ Forall (real (fun d => d)) (leaves no_heap o) /\ Forall (simple LC) (leaves no_heap o))).
  { cbn in H. destruct H as [H|[H|[H|[H|[]]]]]; inversion H; subst; [right|right|right|left; auto].
    - repeat split; cbn; repeat constructor; unfold in_range; cbn; auto; try lia.
    - repeat split; cbn; repeat constructor; unfold valid_char; try lia; try discriminate.
    - repeat split; cbn; repeat constructor. }
  destruct Q as [[-> ->]|[Q1 [Q2 [Q3 Q4]]]].
  - split; [left; split; [discriminate|auto]|]. split; [exact I|]. split; repeat constructor.
  - split; [right; apply check_ok; auto|]. auto.
Qed.

(* C63: a result has the declared type and the value, and can be passed to a function. *)
Theorem C63_results : forall rnd l h s v, typed rnd s v ->
  instance l h (Scalar s) (to_py_scalar s v) /\ scalar_value (to_py_scalar s v) = Some v
  /\ real rnd (to_py_scalar s v) /\ simple l (to_py_scalar s v).
Proof. exact result_ok. Qed.
Print Assumptions C63_results.

Example C63_results_example : typed (fun d => d) SInt16 (CInt (-7)) /\ to_py_scalar SInt16 (CInt (-7)) = ONpInt 16 (-7).
Proof. split; [|reflexivity]. exists (-7). split; [reflexivity|]. unfold in_range. cbn. lia. Qed.

(* C63: a string that is returned is the string whose bytes the function computed.  Missing: strings
   with the character 0, which end there. *)
Theorem C63_string_results_partial : forall s, Forall valid_char s -> Forall (fun c => c <> 0) s ->
  to_py_elem Str (CStr (flat_map utf8 s)) = OStr s.
Proof. exact string_result. Qed.
Print Assumptions C63_string_results_partial.

Example C63_string_results_example :
  Forall valid_char [101; 233; 8364; 128512] /\ flat_map utf8 [101; 233; 8364; 128512] = [101; 195; 169; 226; 130; 172; 240; 159; 152; 128]
  /\ to_py_elem Str (CStr [101; 195; 169; 226; 130; 172; 240; 159; 152; 128]) = OStr [101; 233; 8364; 128512].
Proof. split; [repeat constructor; unfold valid_char; lia|]. split; reflexivity. Qed.

(* C63: after a call of a function translated to C, the lists and sets that were passed have the
   elements that the function left in them, and no other list changed.  Missing: the same list passed
   twice, and Fortran (refuted below). *)
Theorem C63_lists_partial : forall rnd ps f os h seen pending h',
  call_wrapper LC rnd true ps f os h = Ran seen pending h' -> NoDup (changeable ps os) ->
  (forall k p o t i cs,
     nth_error ps k = Some p -> nth_error os k = Some o -> nth_error (f seen) k = Some (CSeq cs) ->
     p_final p = false -> (p_ty p = TList t /\ o = OList i) \/ (p_ty p = TSet t /\ o = OSet i) ->
     Forall (typed_elem rnd t) cs -> Forall2 (same h' t) (h' i) cs)
  /\ (forall j, ~ In j (changeable ps os) -> h' j = h j).
Proof. exact lists_main. Qed.
Print Assumptions C63_lists_partial.

(* def f(a: list[int], b: Final[list[int]]): a.append(3) *)
Definition appends (v : list cval) : list cval :=
  match v with CSeq a :: v' => CSeq (a ++ [CInt 3]) :: v' | _ => v end.
Example C63_lists_example :
  let ps := [plain_param (TList (Scalar SInt)); mk_param (TList (Scalar SInt)) true None] in
  let h := fun i => match i with O => [OInt 1] | _ => [OInt 7] end in
  exists seen h', call_wrapper LC (fun d => d) true ps appends [OList 0; OList 1] h = Ran seen false h'
    /\ NoDup (changeable ps [OList 0; OList 1]) /\ h' O = [OInt 1; OInt 3] /\ h' 1%nat = [OInt 7].
Proof.
  cbv zeta. eexists. eexists. split; [reflexivity|]. split; [cbn; repeat constructor; auto|]. split; reflexivity.
Qed.

(* C63 does not hold of NumPy's booleans: np.True_ is accepted, and seen as False. *)
Theorem C63_numpy_bool_refuted : exists seen h',
  call_wrapper LC (fun d => d) true [plain_param (Scalar SBool)] (fun v => v) [ONpBool true] no_heap = Ran seen false h'
  /\ seen = [CBool false] /\ scalar_value (ONpBool true) = Some (CBool true).
Proof. eexists. eexists. split; [reflexivity|]. split; reflexivity. Qed.
Print Assumptions C63_numpy_bool_refuted.

(* C63 does not hold of large integers: the function runs with -1. *)
Theorem C63_large_int_refuted : exists seen h',
  call_wrapper LC (fun d => d) true [plain_param (Scalar SInt)] (fun v => v) [OInt (2 ^ 63)] no_heap = Ran seen true h'
  /\ seen = [CInt (-1)].
Proof. eexists. eexists. split; reflexivity. Qed.
Print Assumptions C63_large_int_refuted.

(* C63 does not hold of non-ASCII strings in Fortran: the function sees as many bytes as there are
   characters, the first half of a character here. *)
Theorem C63_fortran_string_refuted : exists seen h',
  call_wrapper LFortran (fun d => d) true [plain_param Str] (fun v => v) [OStr [233]] no_heap = Ran seen false h'
  /\ seen = [CStr [195]] /\ utf8 233 = [195; 169].
Proof. eexists. eexists. split; [reflexivity|]. split; reflexivity. Qed.
Print Assumptions C63_fortran_string_refuted.

(* C63 does not hold of strings with the character 0 in C. *)
Theorem C63_zero_character_refuted : exists seen h',
  call_wrapper LC (fun d => d) true [plain_param Str] (fun v => v) [OStr [97; 0; 98]] no_heap = Ran seen false h'
  /\ seen = [CStr [97]].
Proof. eexists. eexists. split; reflexivity. Qed.
Print Assumptions C63_zero_character_refuted.

(* C63 does not hold of a list that is passed twice: def f(a: list[int], b: list[int]): a.append(3),
   called f(x, x), leaves x as it was. *)
Theorem C63_same_list_refuted : exists seen h',
  call_wrapper LC (fun d => d) true [plain_param (TList (Scalar SInt)); plain_param (TList (Scalar SInt))] appends [OList 0; OList 0] (fun _ => [OInt 1]) = Ran seen false h'
  /\ h' O = [OInt 1].
Proof. eexists. eexists. split; reflexivity. Qed.
Print Assumptions C63_same_list_refuted.

(* C63 does not hold of lists in Fortran: changes are lost (there is a warning when the program is
   translated). *)
Theorem C63_fortran_list_refuted : exists seen h',
  call_wrapper LFortran (fun d => d) true [plain_param (TList (Scalar SInt))] appends [OList 0] (fun _ => [OInt 1]) = Ran seen false h'
  /\ h' O = [OInt 1].
Proof. eexists. eexists. split; reflexivity. Qed.
Print Assumptions C63_fortran_list_refuted.

(* ------------------------------ C64 ------------------------------ *)

(* C64: the overload that is chosen has the types of the arguments.  Missing: arguments with
   defaults. *)
Theorem C64_sound_partial : forall l h fs os k n,
  (forall f, In f fs -> length f = n) -> length os = n -> no_defaults fs ->
  choose l h fs os = Some k -> exists f, nth_error fs k = Some f /\ fits l h f os.
Proof. exact sound_main. Qed.
Print Assumptions C64_sound_partial.

(* C64: if no overload has the types of the arguments, there is a TypeError. *)
Theorem C64_refused_partial : forall l h fs os n,
  (forall f, In f fs -> length f = n) -> length os = n -> no_defaults fs ->
  (forall f, In f fs -> ~ fits l h f os) -> choose l h fs os = None.
Proof. exact none_main. Qed.
Print Assumptions C64_refused_partial.

(* C64: if an overload has the types of the arguments, then it runs (or an earlier one with the same
   types) and sees their values.  Missing: arguments that belong to two of the types that the
   overloads have for a parameter, and defaults (refuted below); the restrictions of C63. *)
Theorem C64_call_partial : forall l rnd fs bodies os h n k f,
  (forall f, In f fs -> length f = n) -> no_defaults fs -> unambiguous l h fs os ->
  nth_error fs k = Some f -> fits l h f os -> (forall t, In t (types_of f) -> wrappable t) ->
  (forall o, In o os -> Forall (real rnd) (leaves h o) /\ Forall (simple l) (leaves h o)) ->
  exists j g seen h', call_interface l rnd fs bodies os h = Some (j, Ran seen false h') /\ nth_error fs j = Some g
    /\ types_of g = types_of f /\ length seen = n
    /\ forall i t o v, nth_error (types_of f) i = Some t -> nth_error os i = Some o -> nth_error seen i = Some v -> same h t o v.
Proof. exact call_main. Qed.
Print Assumptions C64_call_partial.

(* three overloads of two arguments *)
Definition three : list (list param) :=
  [[plain_param (Scalar SInt); plain_param (Scalar SInt)];
   [plain_param (Scalar SFloat); plain_param (Scalar SFloat)];
   [plain_param (Scalar SInt); plain_param (Scalar SBool)]].
Example C64_call_example :
  (forall f, In f three -> length f = 2%nat) /\ no_defaults three /\ unambiguous LC no_heap three [OInt 4; OBool true]
  /\ fits LC no_heap [plain_param (Scalar SInt); plain_param (Scalar SBool)] [OInt 4; OBool true]
  /\ choose LC no_heap three [OInt 4; OBool true] = Some 2%nat
  /\ choose LC no_heap three [OFloat 4; OFloat 5] = Some 1%nat
  /\ choose LC no_heap three [OInt 4; OFloat 5] = None /\ choose LC no_heap three [OStr []; OInt 5] = None.
Proof.
  split. { intros f H. cbn in H. destruct H as [H|[H|[H|[]]]]; subst; reflexivity. }
  split. { intros f p H G. cbn in H. destruct H as [H|[H|[H|[]]]]; subst; cbn in G; destruct G as [G|[G|[]]]; subst; reflexivity. }
  split. { intros f g k t u o F G K1 K2 K3 I J. apply check_ok in I. apply check_ok in J. cbn in F, G.
    destruct F as [F|[F|[F|[]]]]; destruct G as [G|[G|[G|[]]]]; subst; destruct k as [|[|k]]; cbn in K1, K2, K3;
      try (destruct k; discriminate); injection K1 as K1; injection K2 as K2; injection K3 as K3; subst; auto; discriminate. }
  split. { constructor; [cbn; eauto|]. constructor; [cbn; eauto|]. constructor. }
  repeat split; reflexivity.
Qed.

(* C64: the objects that belong to two types: np.float64 and np.complex128, arrays with equal
   strides, and containers of such objects, in particular empty ones. *)
Theorem C64_overlap : forall l h t u o, instance l h t o -> instance l h u o -> t = u \/ overlap h t u o.
Proof. exact overlap_main. Qed.
Print Assumptions C64_overlap.

Example C64_overlap_example :
  instance LC no_heap (Scalar SFloat) (ONpFloat64 1) /\ instance LC no_heap (Scalar SFloat64) (ONpFloat64 1)
  /\ instance LC no_heap (TList (Scalar SInt)) (OList 0) /\ instance LC no_heap (TList (Scalar SFloat)) (OList 0).
Proof.
  split; [exists 1; auto|]. split; [exists 1; auto|]. split; exists O; split; auto; constructor.
Qed.

(* C64 does not hold of np.float64: with the overloads (float, float) and (np.float64, int), the
   arguments np.float64(1) and 2 are refused. *)
Theorem C64_subclass_refuted : exists fs os,
  (forall f, In f fs -> length f = 2%nat) /\ no_defaults fs
  /\ (exists f, In f fs /\ fits LC no_heap f os) /\ choose LC no_heap fs os = None.
Proof.
  exists [[plain_param (Scalar SFloat); plain_param (Scalar SFloat)]; [plain_param (Scalar SFloat64); plain_param (Scalar SInt)]], [ONpFloat64 1; OInt 2].
  split. { intros f H. cbn in H. destruct H as [H|[H|[]]]; subst; reflexivity. }
  split. { intros f p H G. cbn in H. destruct H as [H|[H|[]]]; subst; cbn in G; destruct G as [G|[G|[]]]; subst; reflexivity. }
  split; [|reflexivity]. eexists. split; [right; left; reflexivity|]. constructor; [cbn; eauto|]. constructor; [cbn; eauto|]. constructor.
Qed.
Print Assumptions C64_subclass_refuted.

(* C64 does not hold of empty lists: with (list[int], list[int]) and (list[float], list[float]) the
   arguments [] and [1.0] are refused. *)
Theorem C64_empty_list_refuted : exists fs os h,
  (forall f, In f fs -> length f = 2%nat) /\ no_defaults fs
  /\ (exists f, In f fs /\ fits LC h f os) /\ choose LC h fs os = None.
Proof.
  exists [[plain_param (TList (Scalar SInt)); plain_param (TList (Scalar SInt))]; [plain_param (TList (Scalar SFloat)); plain_param (TList (Scalar SFloat))]],
    [OList 0; OList 1], (fun i => match i with O => [] | _ => [OFloat 1] end).
  split. { intros f H. cbn in H. destruct H as [H|[H|[]]]; subst; reflexivity. }
  split. { intros f p H G. cbn in H. destruct H as [H|[H|[]]]; subst; cbn in G; destruct G as [G|[G|[]]]; subst; reflexivity. }
  split; [|reflexivity]. eexists. split; [right; left; reflexivity|].
  constructor; [|constructor; [|constructor]]; (eexists; split; [reflexivity|]); repeat constructor. exists 1. auto.
Qed.
Print Assumptions C64_empty_list_refuted.

(* C64 does not hold of arguments with defaults: def f(a: int | float = 1) refuses f(2.5). *)
Theorem C64_default_refuted : exists fs os,
  (exists f, In f fs /\ fits LC no_heap f os) /\ call_interface LC (fun d => d) fs (fun _ v => v) os no_heap = Some (O, TypeErr).
Proof.
  exists [[mk_param (Scalar SInt) false (Some (CInt 1))]; [mk_param (Scalar SFloat) false (Some (CFloat 1))]], [OFloat 25].
  split; [|reflexivity]. eexists. split; [right; left; reflexivity|]. constructor; [cbn; eauto|]. constructor.
Qed.
Print Assumptions C64_default_refuted.

(* C64: a call in the translated code is a call of the first overload with the types of the
   arguments, and is refused if there is none. *)
Theorem C64_point : forall fs args,
  match point fs args 0 with
  | Some k => exists f, nth_error fs k = Some f /\ (length args <= length f)%nat /\ args = firstn (length args) (types_of f)
      /\ forall i g, (i < k)%nat -> nth_error fs i = Some g -> ~ ((length args <= length g)%nat /\ args = firstn (length args) (types_of g))
  | None => forall f, In f fs -> ~ ((length args <= length f)%nat /\ args = firstn (length args) (types_of f))
  end.
Proof.
  intros fs args. destruct (point fs args 0) as [k|] eqn:E.
  - apply point_some in E. destruct E as [j [f [E1 [E2 [E3 E4]]]]]. cbn in E1. subst j. exists f. apply matches_ok in E3. destruct E3 as [E3 E5].
    split; auto. split; auto. split; auto. intros i g L N H. apply matches_ok in H. rewrite (E4 i g L N) in H. discriminate.
  - intros f I H. apply matches_ok in H. rewrite (point_none _ _ _ E f I) in H. discriminate.
Qed.
Print Assumptions C64_point.

Example C64_point_example :
  point three [Scalar SFloat; Scalar SFloat] 0 = Some 1%nat /\ point three [Scalar SInt; Scalar SFloat] 0 = None.
Proof. split; reflexivity. Qed.
