(** Property C83: references to Python objects in calls of compiled functions. *)

From Coq Require Import List Bool Arith ZArith Relations.
From Verif Require Import Refs_Model Refs_Spec Refs_Proofs.
Import ListNotations.

(** A function of a list which is changed and of a number; the result is a tuple
    of a list and a number. *)
Definition append_to : func :=
  Fn [TSeq KList false; TScalar]
     (fun vs => match vs with
                | [ASeq l; AScalar z] => Some (CTup [CSeq KList (map CLeaf l); CLeaf z])
                | _ => None
                end)
     (fun vs _ => match vs with [ASeq l; AScalar z] => l ++ [z] | _ => [] end).

Definition two_numbers : func :=
  Fn [TScalar; TScalar]
     (fun vs => match vs with
                | [AScalar a; AScalar b] => Some (CTup [CSeq KList [CLeaf a; CLeaf b]; CLeaf a])
                | _ => None
                end)
     (fun _ _ => []).

(** x = 5; l = [x]; r = f(l, x) *)
Definition history : list op := [MkLeaf 5; MkSeq KList [0]; Call append_to [1; 0]].

Definition final (L : lang) (ops : list op) : state :=
  match run L ops empty with Some st => st | None => empty end.

Definition is_some {A} (o : option A) : bool := match o with Some _ => true | None => false end.

Lemma final_run : forall L ops, is_some (run L ops empty) = true -> run L ops empty = Some (final L ops).
Proof. intros L ops. unfold final. destruct (run L ops empty); [reflexivity|discriminate]. Qed.

(** Whatever the user does, no released object is used and everything the user
    can get at exists. *)
Theorem C83_safe : forall L ops, exists st, run L ops empty = Some st /\
  (forall o, reachable st o -> exists_obj st o).
Proof. exact safe_lemma. Qed.
Print Assumptions C83_safe.

Example history_runs : forall L,
  is_some (run L history empty) = true /\ length (names (final L history)) = 3.
Proof. intros []; split; vm_compute; reflexivity. Qed.

(** The result is the value which the compiled function gives for the values of
    the arguments. *)
Theorem C83_value : forall L ops st f args res h, run L ops empty = Some st -> incl args (names st) ->
  call L f args (mem st) = Some (Done res h) ->
  exists vs, args_value (mem st) (params f) args vs /\
    match result f vs, res with
    | None, None => True
    | Some v, Some o => denotes h v o
    | _, _ => False
    end.
Proof. exact value_lemma. Qed.
Print Assumptions C83_value.

(** An exception is raised only if the arguments have the wrong types. *)
Theorem C83_accept : forall L ops st f args h, run L ops empty = Some st -> incl args (names st) ->
  call L f args (mem st) = Some (TypeError h) -> forall vs, ~ args_value (mem st) (params f) args vs.
Proof. exact accept_lemma. Qed.
Print Assumptions C83_accept.

Example history_value : forall L, exists h o,
  call L append_to [1; 0] (mem (final L [MkLeaf 5; MkSeq KList [0]])) = Some (Done (Some o) h) /\
  option_map pay (objs h 1) <> None.
Proof. intros []; eexists _, _; (split; [vm_compute; reflexivity|discriminate]). Qed.

Example history_reject : forall L, exists h,
  call L append_to [0; 0] (mem (final L [MkLeaf 5; MkSeq KList [0]])) = Some (TypeError h).
Proof. intros []; eexists; vm_compute; reflexivity. Qed.

(** After the call the lists and sets which are copied back have the elements
    which the function gave them (the last one counts if the same list is passed
    twice), and no other object is changed. *)
Theorem C83_written : forall L ops st f args vs res h, run L ops empty = Some st -> incl args (names st) ->
  args_value (mem st) (params f) args vs -> call L f args (mem st) = Some (Done res h) ->
  (forall i p o, arg_at f args i p o -> copied_back L p ->
     (forall j q, i < j -> arg_at f args j q o -> ~ copied_back L q) ->
     arg_value h p o (ASeq (after f vs i))) /\
  (forall o ob ob', objs (mem st) o = Some ob -> objs h o = Some ob' ->
     (forall i p, arg_at f args i p o -> ~ copied_back L p) -> pay ob' = pay ob).
Proof. exact written_lemma. Qed.
Print Assumptions C83_written.

Example history_written : exists res h,
  call LC append_to [1; 0] (mem (final LC [MkLeaf 5; MkSeq KList [0]])) = Some (Done res h) /\
  arg_value h (TSeq KList false) 1 (ASeq [5%Z; 5%Z]).
Proof.
  eexists _, _. split; [vm_compute; reflexivity|]. cbn. eexists _, _. split; [vm_compute; reflexivity|].
  repeat constructor.
Qed.

(** Functions of numbers and strings whose results have no set and no dictionary
    in them: the count of each object is the number of references to it, and the
    objects nobody can get at are released.  Missing: containers as arguments,
    sets and dictionaries as results (refuted below). *)
Theorem C83_counted_partial : forall L ops st,
  (forall p, In p ops -> simple_op p) -> run L ops empty = Some st ->
  counted st /\ forall o, exists_obj st o -> reachable st o.
Proof. exact simple_lemma. Qed.
Print Assumptions C83_counted_partial.

Definition simple_history : list op :=
  [MkLeaf 5; MkSeq KList [0; 0]; Call two_numbers [0; 0]; Del 0; Copy 6; Del 6; Del 1].

Example simple_history_ok : forall L,
  (forall p, In p simple_history -> simple_op p) /\ is_some (run L simple_history empty) = true /\
  names (final L simple_history) = [6] /\ option_map rc (objs (mem (final L simple_history)) 2) = Some 1.
Proof.
  intros L. split.
  - intros p H. cbn in H. intuition; subst p; cbn; auto. split.
    + intros p [<-|[<-|[]]]; reflexivity.
    + intros vs v. cbn. destruct vs as [|[] [|[] []]]; try discriminate. intros [= <-]. reflexivity.
  - destruct L; vm_compute; auto.
Qed.

(** What a call loses. *)
Theorem C83_cost : forall L ops st f args vs, run L ops empty = Some st -> incl args (names st) ->
  args_value (mem st) (params f) args vs ->
  exists st', step L (Call f args) st = Some st' /\
    lost st' = lost st + args_cost L f vs + match result f vs with Some v => result_cost v | None => 0 end.
Proof. exact cost_lemma. Qed.
Print Assumptions C83_cost.

(** It is not recovered, whatever the user does afterwards. *)
Theorem C83_grows : forall L ops ops' st st', run L ops empty = Some st -> run L ops' st = Some st' ->
  lost st <= lost st'.
Proof. exact grows_lemma. Qed.
Print Assumptions C83_grows.

Example history_cost : lost (final LC history) = 6 /\ lost (final LFortran history) = 4 /\
  lost (final LC (history ++ [Del 0; Del 1])) = 6.
Proof. split; [|split]; vm_compute; reflexivity. Qed.

(** A list, a tuple or a set which was passed to a function is never released,
    whatever the user does afterwards. *)
Theorem C83_forever_refuted : forall L ops st f args vs i k c o,
  run L ops empty = Some st -> incl args (names st) ->
  args_value (mem st) (params f) args vs ->
  nth_error (params f) i = Some (TSeq k c) -> nth_error args i = Some o ->
  forall ops' st', run L (Call f args :: ops') st = Some st' -> exists_obj st' o.
Proof. exact forever_lemma. Qed.
Print Assumptions C83_forever_refuted.

Example history_forever : forall L,
  names (final L (history ++ [Del 1; Del 0; Del 7])) = [] /\
  option_map pay (objs (mem (final L (history ++ [Del 1; Del 0; Del 7]))) 1)
    <> None.
Proof. intros []; split; vm_compute; try reflexivity; discriminate. Qed.

(** Objects stay when a result with elements in a set or a dictionary is dropped. *)
Theorem C83_result_refuted : forall L v, result_cost v > 0 ->
  exists st o st', step L (Call (Fn [] (fun _ => Some v) (fun _ _ => [])) []) empty = Some st /\
    names st = [o] /\ step L (Del o) st = Some st' /\ names st' = [] /\ exists k, exists_obj st' k.
Proof. exact result_lemma. Qed.
Print Assumptions C83_result_refuted.

Example result_costs :
  result_cost (CSeq KSet [CLeaf 1; CLeaf 2]) = 2 /\
  result_cost (CSeq KList [CDict [(CLeaf 1, CLeaf 2)]]) = 2 /\
  result_cost (CSeq KList [CSeq KTuple [CLeaf 1]]) = 0.
Proof. split; [|split]; reflexivity. Qed.
