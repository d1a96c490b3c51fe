(** C77: pointers to arrays and the lifetime of what they point at. *)

From Coq Require Import List ZArith Bool Arith Lia.
From Verif Require Import Alias_Model Alias_Spec Alias_Proofs.
Import ListNotations.

(** A function which is accepted, and which Python executes without an error:
    the generated code never uses released memory, never releases it twice,
    prints the same, changes the arrays of the caller in the same way, gives the
    same result and releases all its memory but the one of the result.
    Missing: a Return which is not the last statement, a local array which is
    assigned a slice of itself, loops after which visiting the body again would
    teach something new (all three refuted below). *)
Theorem C77_safe_partial : forall f c arrays ps ds p,
  compile f = Some c -> regular_function f ->
  good_arguments f (List.length arrays) ps ->
  pcall f arrays ps ds = Some p ->
  exists g, gcall f c arrays ps ds = Some g /\ same_effect f (List.length arrays) p g.
Proof.
  intros f c arrays ps ds p C R GA H.
  destruct (call_correct f c arrays ps ds p C R GA H) as (g & E & S & _).
  exists g. exact (conj E S).
Qed.
Print Assumptions C77_safe_partial.

(** The same for functions without loops, where the condition is only on the
    text. *)
Theorem C77_straight_partial : forall f c arrays ps ds p,
  compile f = Some c -> straight (body f) = true -> return_last f ->
  good_arguments f (List.length arrays) ps ->
  pcall f arrays ps ds = Some p ->
  exists g, gcall f c arrays ps ds = Some g /\ same_effect f (List.length arrays) p g.
Proof.
  intros f c arrays ps ds p C S R. exact (C77_safe_partial f c arrays ps ds p C (straight_function f S R)).
Qed.
Print Assumptions C77_straight_partial.

(** An argument is never given another array in a function which is accepted,
    with early returns and loops too. *)
Theorem C77_argument : forall f c x,
  compile f = Some c -> In x (args f) -> ~ rebinds x (body f).
Proof. exact compile_argument. Qed.
Print Assumptions C77_argument.

(** After an early return the argument is still a target, but no pointer is
    known: the assignment is refused nevertheless. *)
Example argument_refused :
  compile (Fun [0] (Seq (Point 1 0 0) (Seq (If Return Skip) (New 0 [1]%Z))) None) = None /\
  compile (Fun [0] (Seq (Point 1 0 0) (Seq (If Return Skip) (Write 0 0 1%Z))) None) <> None.
Proof. split; vm_compute; [reflexivity|discriminate]. Qed.

(** The map of the results: if the result (a variable which is not an argument)
    is in memory of the caller, then this memory is the one of an argument which
    the map has. *)
Theorem C77_map_partial : forall f c arrays ps ds p g r b k,
  compile f = Some c -> regular_function f ->
  good_arguments f (List.length arrays) ps ->
  pcall f arrays ps ds = Some p -> gcall f c arrays ps ds = Some g ->
  result f = Some r -> ~ In r (args f) -> genv g r = Some (b, k) -> b < List.length arrays ->
  exists i k', In i (cmap c) /\ nth_error ps i = Some (b, k').
Proof.
  intros f c arrays ps ds p g r b k C R GA H G1 Er Nr Gr L.
  destruct (call_correct f c arrays ps ds p C R GA H) as (g' & E & _ & M).
  assert (g' = g) as -> by congruence. exact (M r b k Er Nr Gr L).
Qed.
Print Assumptions C77_map_partial.

(** A function of two arrays:
<<
def f(x, y):
    a = np.array([7, 8])
    if ...: p = x[1:]
    else:   p = y
    for ...:
        q = p[1:]
        q[0] = 5
        q = a
        print(q[0])
        a[0] = 9
    return p
>> *)
Definition sample : function :=
  Fun [0; 1]
    (Seq
      (Seq (New 2 [7; 8]%Z)
      (Seq (If (Point 3 0 1) (Point 3 1 0))
           (Loop (Seq (Point 4 3 1) (Seq (Write 4 0 5%Z) (Seq (Point 4 2 0)
                 (Seq (Read 4 0) (Write 2 0 9%Z))))))))
      Return)
    (Some 3).

Ltac visited := let X := fresh in intros ? ? X; vm_compute in X; injection X as <- <-.
Ltac reg := hnf; match goal with
  | |- (_ = _) -> _ => let X := fresh in intros X; try discriminate X; reflexivity
  | |- True => exact I
  | |- regular _ _ _ /\ (forall a s, _ -> regular _ _ _) => split; [reg|visited; reg]
  | |- regular _ _ _ /\ (forall a s, _ -> _ /\ _) =>
    split; [reg|visited; split;
      [reg|eexists _, _; split; [vm_compute; reflexivity|]; split;
           [intros ? ? X; exact X|split; intros ? X; cbn in *; tauto]]]
  end.

Lemma sample_regular : regular_function sample.
Proof.
  split.
  - eexists. split; reflexivity.
  - intros b E. injection E as <-. cbn [result sample args]. reg.
Qed.

Example C77_sample : exists c p g,
  compile sample = Some c /\ regular_function sample /\
  good_arguments sample 2 [(0, 0); (1, 0)] /\
  pcall sample [[1; 2; 3]; [4; 6]]%Z [(0, 0); (1, 0)] [1; 2] = Some p /\
  gcall sample c [[1; 2; 3]; [4; 6]]%Z [(0, 0); (1, 0)] [1; 2] = Some g /\
  gtrace g = [7; 9]%Z /\ blocks g = [Some [1; 2; 5]; Some [4; 6]; None]%Z /\
  genv g 3 = Some (0, 1) /\ In 0 (cmap c).
Proof.
  eexists _, _, _. split; [vm_compute; reflexivity|]. split; [exact sample_regular|].
  split; [|split; [vm_compute; reflexivity|split; [vm_compute; reflexivity|]]].
  - split; [|split; [reflexivity|]].
    + repeat constructor; cbn; lia.
    + intros q [<-|[<-|[]]]; cbn; lia.
  - split; [reflexivity|]. split; [reflexivity|]. split; [reflexivity|]. cbn. auto.
Qed.

Example C77_straight_case : exists c p,
  let f := Fun [0] (Seq (Seq (New 1 [3; 4]%Z) (If (Point 2 0 0) (Point 2 0 1))) Return) (Some 1) in
  compile f = Some c /\ straight (body f) = true /\ return_last f /\
  good_arguments f 1 [(0, 0)] /\ pcall f [[5; 6]%Z] [(0, 0)] [1] = Some p /\ pview p 1 = Some [3; 4]%Z.
Proof.
  eexists _, _. split; [vm_compute; reflexivity|]. split; [reflexivity|].
  split; [eexists; split; reflexivity|]. split; [|split; [vm_compute; reflexivity|reflexivity]].
  split; [repeat constructor; cbn; lia|]. split; [reflexivity|]. intros q [<-|[]]. cbn. lia.
Qed.

(** A pointer which is set at the end of the body of a loop is not known at its
    beginning: the array is allocated again and the pointer is used.
<<
    for ...:
        x = np.array([3])
        x = np.array([4, 5])
        print(p[0])
        p = x
>> *)
Theorem C77_loop_refuted : exists f c p,
  return_last f /\ good_arguments f 0 [] /\ compile f = Some c /\
  pcall f [] [] [2] = Some p /\ gcall f c [] [] [2] = None.
Proof.
  exists (Fun [] (Seq (New 0 [1]%Z) (Seq (New 1 [2]%Z) (Seq (Point 2 0 0)
    (Loop (Seq (New 1 [3]%Z) (Seq (New 1 [4; 5]%Z) (Seq (Read 2 0) (Point 2 1 0)))))))) None).
  eexists _, _. split; [reflexivity|].
  split; [split; [constructor|split; [reflexivity|intros q []]]|].
  split; [vm_compute; reflexivity|]. split; vm_compute; reflexivity.
Qed.
Print Assumptions C77_loop_refuted.

(** In a loop the targets of a pointer to a pointer are not all known: the
    function gives back a pointer to an array which it has released.
<<
def f(x):
    b = np.array([1])
    q = x
    p = q
    for ...:
        p = q
        q = b
    return p
>> *)
Theorem C77_chain_refuted : exists f c arrays ps ds p g,
  return_last f /\ good_arguments f (List.length arrays) ps /\ compile f = Some c /\
  pcall f arrays ps ds = Some p /\ gcall f c arrays ps ds = Some g /\
  exists r vs, result f = Some r /\ pview p r = Some vs /\ gview g r = None.
Proof.
  exists (Fun [0] (Seq (Seq (New 1 [1]%Z) (Seq (Point 2 0 0) (Seq (Point 3 2 0)
    (Loop (Seq (Point 3 2 0) (Point 2 1 0)))))) Return) (Some 3)).
  eexists _, [[5]%Z], [(0, 0)], [2], _, _. split; [eexists; split; reflexivity|].
  split; [split; [repeat constructor; cbn; lia|split; [reflexivity|intros q [<-|[]]; cbn; lia]]|].
  split; [vm_compute; reflexivity|]. split; [vm_compute; reflexivity|]. split; [vm_compute; reflexivity|].
  eexists _, _. split; [reflexivity|]. split; reflexivity.
Qed.
Print Assumptions C77_chain_refuted.

(** After a return in a branch the pointers are forgotten, in the statements
    which follow it too: an array which is pointed at is allocated again.
<<
    a = np.array([1])
    p = a
    if ...: return
    a = np.array([2, 3])
    print(p[0])
>> *)
Theorem C77_early_refuted : exists f c p,
  straight (body f) = true /\ good_arguments f 0 [] /\ compile f = Some c /\
  pcall f [] [] [0] = Some p /\ gcall f c [] [] [0] = None /\
  compile (Fun [] (Seq (New 0 [1]%Z) (Seq (Point 1 0 0) (Seq (New 0 [2; 3]%Z) (Read 1 0)))) None) = None.
Proof.
  exists (Fun [] (Seq (New 0 [1]%Z) (Seq (Point 1 0 0) (Seq (If Return Skip)
    (Seq (New 0 [2; 3]%Z) (Read 1 0))))) None).
  eexists _, _. split; [reflexivity|].
  split; [split; [constructor|split; [reflexivity|intros q []]]|].
  split; [vm_compute; reflexivity|]. split; [vm_compute; reflexivity|]. split; vm_compute; reflexivity.
Qed.
Print Assumptions C77_early_refuted.

(** For the same reason a pointer to a pointer is refused after such a return. *)
Theorem C77_refused_refuted : exists a b ds p,
  compile (Fun [0] (Seq a (Seq (If Return Skip) b)) None) = None /\
  compile (Fun [0] (Seq a b) None) <> None /\
  pcall (Fun [0] (Seq a (Seq (If Return Skip) b)) None) [[5]%Z] [(0, 0)] ds = Some p /\
  ptrace p = [5]%Z.
Proof.
  exists (Point 1 0 0), (Seq (Point 2 1 0) (Read 2 0)), [0]. eexists.
  split; [vm_compute; reflexivity|]. split; [vm_compute; discriminate|].
  split; [vm_compute; reflexivity|reflexivity].
Qed.
Print Assumptions C77_refused_refuted.

(** A local array which is assigned a slice of itself, [a = a[1:]]: its memory
    is released and allocated again before the elements are read. *)
Theorem C77_slice_refuted : exists f c p,
  return_last f /\ good_arguments f 0 [] /\ compile f = Some c /\
  pcall f [] [] [] = Some p /\ ptrace p = [2]%Z /\ gcall f c [] [] [] = None.
Proof.
  exists (Fun [] (Seq (New 0 [1; 2; 3]%Z) (Seq (Point 0 0 1) (Read 0 0))) None).
  eexists _, _. split; [reflexivity|].
  split; [split; [constructor|split; [reflexivity|intros q []]]|].
  split; [vm_compute; reflexivity|]. split; [vm_compute; reflexivity|]. split; vm_compute; reflexivity.
Qed.
Print Assumptions C77_slice_refuted.
