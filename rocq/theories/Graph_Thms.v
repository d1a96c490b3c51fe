(* C36: the links between nodes and their users. *)
From Coq Require Import Bool Arith Lia List.
From Verif Require Import Graph_Model Graph_Spec Graph_Proofs Graph_Subst Graph_Walk Graph_Search.
Import ListNotations.
Open Scope list_scope.

(* helpers for concrete heaps *)
Ltac heap_alive := eexists; split; [reflexivity|reflexivity].
Ltac no_more := repeat match goal with H : _ \/ _ |- _ => destruct H | H : False |- _ => destruct H end.

Lemma hist_new : forall h st attrs, history h -> (forall c, In c (nodes (flat_map attr_children attrs)) -> alive h c /\ stage_of h c = Some st) ->
  history (construct h st attrs).
Proof. intros h st attrs H A. exact (hist_op h (New st attrs) _ H A eq_refl). Qed.
Ltac build_history := repeat (apply hist_new; [|cbn; intros ? ?; no_more; subst; (split; [heap_alive|reflexivity])]); constructor.

Definition no_excl (_ : child) : bool := false.

(* x + x with x = 0, the sum 1, f(1) = 2, y = 3 *)
Definition ex0 : heap := construct (construct (construct (construct [] 1 []) 1 [Many [CNode 0; CNode 0]]) 1 [One (CNode 1); One (CSym 7)]) 1 [].

Lemma ex0_history : history ex0.
Proof.
  unfold ex0. build_history.
Qed.

Lemma reaches_none : forall h p x, kids h p = [] -> reaches h p x -> x = p.
Proof. intros h p x K R. destruct R as [p|p c x I R]; [reflexivity|]. rewrite K in I. destruct I. Qed.

Definition ex_sub (v : bool) : sub := mk_sub [CNode 0] [One (CNode 3)] no_excl v same.

Lemma ex_good : forall v, good_sub ex0 (ex_sub v) 2.
Proof.
  intros v. split.
  - heap_alive.
  - reflexivity.
  - cbn. intros t I. no_more. subst. split; [heap_alive|reflexivity].
  - cbn. intros c I J. no_more. subst. discriminate.
  - cbn [ex_sub s_to s_from]. intros t x c I R J. cbn in I. no_more. subst t. apply reaches_none in R; [|reflexivity]. subst x. destruct J.
  - cbn. intros _ o I R. no_more. injection H as <-. apply reaches_none in R; [|reflexivity]. discriminate.
  - intros _. left. reflexivity.
  - reflexivity.
Qed.

(* After any history of constructions, substitutions and invalidations that respects the
   conditions in Graph_Spec, the users of a node are the live nodes that have it as an
   attribute.  Partial: users are compared by identity, see C36_equal_refuted, and
   attributes are of the stage of their node, see C36_stage_refuted. *)
Theorem C36_links_partial : forall h, history h -> consistent h /\ one_stage h.
Proof. intros h H. destruct (history_ok h H). auto. Qed.
Print Assumptions C36_links_partial.

Example C36_links_ex : history ex0 /\ users_of ex0 0 = [1; 1] /\ users_of ex0 1 = [2] /\ kids ex0 1 = [0; 0].
Proof. split; [exact ex0_history|]. repeat split. Qed.

(* None of these operations fails. *)
Theorem C36_total_partial : forall h o, history h -> allowed h o -> exists h', do_op same h o = Ok h' /\ history h'.
Proof.
  intros h o H A. destruct (history_ok h H) as [O C]. destruct (op_ok h o O C A) as (h' & E & _). exists h'. split; [exact E|].
  exact (hist_op h o h' H A E).
Qed.
Print Assumptions C36_total_partial.

Example C36_total_ex : allowed ex0 (Sub (ex_sub true) 2) /\ allowed ex0 (Drop 2).
Proof. split; [apply ex_good|]. split; [heap_alive|reflexivity]. Qed.

(* What a live node uses has not been discarded. *)
Theorem C36_freed_partial : forall h p c, history h -> alive h p -> In c (kids h p) -> alive h c.
Proof. intros h p c H. destruct (history_ok h H) as [O C]. exact (freed_unused h p c O C). Qed.
Print Assumptions C36_freed_partial.

Example C36_freed_ex : exists h, do_op same ex0 (Drop 2) = Ok h /\ ~ alive h 2 /\ ~ alive h 1 /\ ~ alive h 0 /\ alive h 3.
Proof.
  eexists. split; [reflexivity|]. split; [|split; [|split]].
  - intros (n & E & D). cbn in E. injection E as <-. discriminate.
  - intros (n & E & D). cbn in E. injection E as <-. discriminate.
  - intros (n & E & D). cbn in E. injection E as <-. discriminate.
  - heap_alive.
Qed.

(* A node that loses its last user is discarded. *)
Theorem C36_swept_partial : forall h o h' x, history h -> match o with Sub s _ => s_invalidate s = true | _ => True end ->
  do_op same h o = Ok h' -> users_of h x <> [] -> users_of h' x = [] -> ~ alive h' x.
Proof.
  intros h o h' x H V E A B. destruct (history_ok h H) as [O C]. apply (swept_op h o h' C V E x); [|exact A|exact B].
  unfold users_of in A. destruct (nth_error h x) eqn:Z; [|contradiction]. apply nth_error_Some. rewrite Z. discriminate.
Qed.
Print Assumptions C36_swept_partial.

(* x loses both uses when y replaces it; the node x is discarded with them *)
Example C36_swept_ex : exists h, do_op same ex0 (Sub (ex_sub true) 2) = Ok h /\ users_of h 0 = [] /\ users_of h 3 = [1; 1] /\ attrs_of h 1 = [Many [CNode 3; CNode 3]].
Proof. eexists. split; [reflexivity|]. repeat split. Qed.

(* Dropping a node discards nothing that is not below it. *)
Theorem C36_drop_partial : forall h i h', history h -> alive h i -> users_of h i = [] -> invalidate_node same h i = Ok h' ->
  ~ alive h' i /\ (forall x, attrs_of h' x = attrs_of h x) /\ forall x, alive h x -> ~ alive h' x -> reaches h i x.
Proof.
  intros h i h' H A U E. destruct (history_ok h H) as [O C]. destruct (drop_ok h i O C A U) as (h2 & E2 & _ & _ & D & At & _ & R).
  rewrite E in E2. injection E2 as <-. auto.
Qed.
Print Assumptions C36_drop_partial.

(* A substitution replaces the originals everywhere below the root, and changes nothing
   else. *)
Theorem C36_substitute_partial : forall h s r, history h -> good_sub h s r ->
  exists h', substitute same s h r = Ok h' /\
    (forall p, region h s r p -> attrs_of h' p = map (sub_attr s) (attrs_of h p)) /\
    (forall p, ~ region h s r p -> attrs_of h' p = attrs_of h p) /\
    (forall p, region h s r p -> alive h' p) /\
    (forall t, In t (nodes (flat_map attr_children (s_to s))) -> alive h' t).
Proof.
  intros h s r H G. destruct (history_ok h H) as [O C]. destruct (substitute_ok h s r (good_pre h s r O C G)) as (h' & E & _ & _ & A1 & A2 & A3 & A4 & _).
  exists h'. split; [exact E|]. split; [exact A1|]. split; [exact A2|]. split; [intros p R; apply alive_dead; auto|]. intros t T. apply alive_dead. apply A4. exact T.
Qed.
Print Assumptions C36_substitute_partial.

Example C36_substitute_ex : region ex0 (ex_sub true) 2 1 /\ map (sub_attr (ex_sub true)) (attrs_of ex0 1) = [Many [CNode 3; CNode 3]].
Proof.
  split; [|reflexivity]. apply region_step with 2; [constructor|left; reflexivity|reflexivity|]. cbn. intros [H|[]]. discriminate.
Qed.

(* Substituting and substituting back restores every attribute: an inline function is
   unchanged by being inlined. *)
Theorem C36_restore_partial : forall h s r b h', history h -> good_sub h s r -> (forall x, s_excl s x = false) ->
  Forall single (s_to s) -> NoDup (s_from s) -> NoDup (flat_map attr_children (s_to s)) ->
  (forall p c, region h s r p -> In c (flat_map attr_children (attrs_of h p)) -> ~ In c (flat_map attr_children (s_to s))) ->
  substitute same s h r = Ok h' -> good_sub h' (undo s b) r ->
  exists h2, substitute same (undo s b) h' r = Ok h2 /\ forall p, attrs_of h2 p = attrs_of h p.
Proof. intros h s r b h' H. destruct (history_ok h H) as [O C]. exact (restore_ok h s r b h' O C). Qed.
Print Assumptions C36_restore_partial.

Definition ex1 : heap := match substitute same (ex_sub false) ex0 2 with Ok h => h | _ => [] end.

Example C36_restore_ex : substitute same (ex_sub false) ex0 2 = Ok ex1 /\ good_sub ex1 (undo (ex_sub false) true) 2 /\
  (forall p c, region ex0 (ex_sub false) 2 p -> In c (flat_map attr_children (attrs_of ex0 p)) -> ~ In c [CNode 3]).
Proof.
  split; [reflexivity|]. split.
  - split.
    + heap_alive.
    + reflexivity.
    + cbn. intros t I. no_more. subst. split; [heap_alive|reflexivity].
    + cbn. intros c I J. no_more. subst. discriminate.
    + intros t x c I R J. cbn in I. no_more. subst t. apply reaches_none in R; [|reflexivity]. subst x. destruct J.
    + cbn. intros _ o I R. no_more. injection H as <-. apply reaches_none in R; [|reflexivity]. discriminate.
    + intros _. left. reflexivity.
    + reflexivity.
  - intros p c R I J. assert (Z : p = 2 \/ p = 1).
    { clear I J. induction R as [|p c' R IH K _ N]; [left; reflexivity|]. destruct IH as [-> | ->].
      - cbn in K. no_more. right. symmetry. assumption.
      - cbn in K. no_more; subst; elim N; left; reflexivity. }
    destruct J as [<-|[]]. destruct Z as [-> | ->]; cbn in I; no_more; discriminate.
Qed.

(* The searches end and find what is there, also in a graph with cycles. *)
Theorem C36_attributes : forall search excl h i, history h -> i < List.length h ->
  exists l, attribute_nodes search excl h (S (List.length h)) [] i = Some l /\
  forall c, In c l <-> exists p, way (kids h) (fun j => search (CNode j) || excl (CNode j)) i p /\
    In c (flat_map attr_children (attrs_of h p)) /\ search c = true /\ excl c = false.
Proof. intros search excl h i H. destruct (history_ok h H) as [O C]. exact (attribute_nodes_ok search excl h i O). Qed.
Print Assumptions C36_attributes.

Theorem C36_users : forall search excl h i, history h -> i < List.length h ->
  exists l, user_nodes search excl h (S (List.length h)) [] i = Some l /\
  forall p, In p l <-> exists q, way (users_of h) (fun j => search j || excl j) i q /\ In p (users_of h q) /\ search p = true /\ excl p = false.
Proof. intros search excl h i H. destruct (history_ok h H) as [O C]. exact (user_nodes_ok search excl h i C). Qed.
Print Assumptions C36_users.

Theorem C36_is_user : forall h self i, history h -> i < List.length h ->
  exists b, is_user_of (fun _ => false) h self (S (List.length h)) [] i = Some b /\ (b = true <-> uses h self i).
Proof. intros h self i H. destruct (history_ok h H) as [O C]. exact (is_user_of_uses h self i C O). Qed.
Print Assumptions C36_is_user.

Example C36_search_ex :
  attribute_nodes (fun c => same c (CNode 0)) no_excl ex0 5 [] 2 = Some [CNode 0; CNode 0] /\
  user_nodes (Nat.eqb 2) (fun _ => false) ex0 5 [] 0 = Some [2; 2] /\ is_user_of (fun _ => false) ex0 2 5 [] 0 = Some true /\
  is_user_of (fun _ => false) ex0 3 5 [] 0 = Some false.
Proof. repeat split. Qed.

(* ------------------- where the property fails ----------------------- *)

(* Users are compared with ==.  Two deallocations of v are equal: replacing v in the second
   one unregisters the first one. *)
Definition ex_eq (a b : child) : bool :=
  match a, b with
  | CNode x, CNode y => Nat.eqb x y || ((Nat.eqb x 1 || Nat.eqb x 2) && (Nat.eqb y 1 || Nat.eqb y 2))
  | _, _ => same a b
  end.
Definition ex_dealloc : heap := construct (construct (construct (construct [] 1 []) 1 [One (CNode 0)]) 1 [One (CNode 0)]) 1 [].

Theorem C36_equal_refuted : exists eq h s r h',
  (forall a, eq a a = true) /\ (forall a b, eq a b = eq b a) /\ history h /\ good_sub h s r /\ substitute eq s h r = Ok h' /\
  exists p c, alive h' p /\ In c (kids h' p) /\ ~ In p (users_of h' c).
Proof.
  exists ex_eq, ex_dealloc, (ex_sub true), 2. eexists. split; [|split; [|split; [|split; [|split]]]].
  - intros [x|x]; cbn; rewrite Nat.eqb_refl; reflexivity.
  - intros [x|x] [y|y]; cbn; try reflexivity; rewrite (Nat.eqb_sym x y); [reflexivity|]. f_equal. apply andb_comm.
  - unfold ex_dealloc. build_history.
  - split.
    + heap_alive.
    + reflexivity.
    + cbn. intros t I. no_more. subst. split; [heap_alive|reflexivity].
    + cbn. intros c I J. no_more. subst. discriminate.
    + intros t x c I R J. cbn in I. no_more. subst t. apply reaches_none in R; [|reflexivity]. subst x. destruct J.
    + cbn. intros _ o I R. no_more. injection H as <-. apply reaches_none in R; [|reflexivity]. discriminate.
    + intros _. left. reflexivity.
    + reflexivity.
  - reflexivity.
  - exists 1, 0. split; [heap_alive|]. split; [left; reflexivity|]. cbn. intros [H|[]]. discriminate.
Qed.
Print Assumptions C36_equal_refuted.

(* The index of the replacement is found with == as well: of two equal literals, the second
   gets the replacement of the first. *)
Definition ex_lit : heap := construct (construct (construct (construct (construct [] 1 []) 1 []) 1 []) 1 []) 1 [One (CNode 2)].
Definition ex_lit_sub : sub := mk_sub [CNode 1; CNode 2] [One (CNode 3); One (CNode 0)] no_excl false same.

Theorem C36_index_refuted : exists eq h s r h',
  (forall a, eq a a = true) /\ (forall a b, eq a b = eq b a) /\ history h /\ good_sub h s r /\ substitute eq s h r = Ok h' /\
  attrs_of h' r <> map (sub_attr s) (attrs_of h r).
Proof.
  exists ex_eq, ex_lit, ex_lit_sub, 4. eexists. split; [|split; [|split; [|split; [|split]]]].
  - intros [x|x]; cbn; rewrite Nat.eqb_refl; reflexivity.
  - intros [x|x] [y|y]; cbn; try reflexivity; rewrite (Nat.eqb_sym x y); [reflexivity|]. f_equal. apply andb_comm.
  - unfold ex_lit. build_history.
  - split.
    + heap_alive.
    + reflexivity.
    + cbn. intros t I. no_more; subst; (split; [heap_alive|reflexivity]).
    + cbn. intros c I J. no_more; subst; discriminate.
    + intros t x c I R J. cbn in I. no_more; subst t; (apply reaches_none in R; [|reflexivity]); subst x; destruct J.
    + discriminate.
    + discriminate.
    + reflexivity.
  - reflexivity.
  - cbn. discriminate.
Qed.
Print Assumptions C36_index_refuted.

(* A node used by a node of another stage keeps the link when that user is discarded. *)
Theorem C36_stage_refuted : exists h i h', consistent h /\ alive h i /\ users_of h i = [] /\ invalidate_node same h i = Ok h' /\
  exists c, In i (users_of h' c) /\ ~ alive h' i.
Proof.
  exists (construct (construct [] 0 []) 1 [One (CNode 0)]), 1. eexists. split; [|split; [heap_alive|split; [reflexivity|split; [reflexivity|]]]].
  - split; [|split].
    + intros p c L A. cbn in L. apply alive_lt in A. cbn in A. destruct c as [|[|c]], p as [|[|p]]; try lia; reflexivity.
    + intros p c I. destruct c as [|[|c]]; cbn in I; no_more; try (subst; heap_alive). unfold users_of in I. rewrite (proj2 (nth_error_None _ _)) in I; [destruct I|cbn; lia].
    + intros c L N. cbn in L. elim N. destruct c as [|[|c]]; [heap_alive|heap_alive|lia].
  - exists 0. split; [left; reflexivity|]. intros (n & E & D). cbn in E. injection E as <-. discriminate.
Qed.
Print Assumptions C36_stage_refuted.

(* With two originals, a replacement used only below the first original is discarded when
   that is replaced, and inserted afterwards: it is used and does not appear among the
   users of its own attributes.  0 = z, 1 = a(z), 2 = o1(a), 3 = o2, 4 = root(o1, o2), 5 = x *)
Definition ex_two : heap :=
  construct (construct (construct (construct (construct (construct [] 1 []) 1 [One (CNode 0)]) 1 [One (CNode 1)]) 1 []) 1 [Many [CNode 2; CNode 3]]) 1 [].
Definition ex_two_sub : sub := mk_sub [CNode 2; CNode 3] [One (CNode 5); One (CNode 1)] no_excl true same.

Theorem C36_order_refuted : exists h s r h', history h /\ alive h r /\ s_equiv s = same /\ List.length (s_from s) = List.length (s_to s) /\
  (forall t, In t (nodes (flat_map attr_children (s_to s))) -> alive h t /\ stage_of h t = stage_of h r) /\
  (forall c, In c (flat_map attr_children (s_to s)) -> ~ In c (s_from s)) /\
  substitute same s h r = Ok h' /\ exists p a z, alive h' p /\ In a (kids h' p) /\ In z (kids h' a) /\ ~ In a (users_of h' z).
Proof.
  exists ex_two, ex_two_sub, 4. eexists. split; [|split; [heap_alive|split; [reflexivity|split; [reflexivity|split; [|split; [|split; [reflexivity|]]]]]]].
  - unfold ex_two. build_history.
  - cbn. intros t I. no_more; subst; (split; [heap_alive|reflexivity]).
  - cbn. intros c I J. no_more; subst; discriminate.
  - exists 4, 1, 0. split; [heap_alive|]. split; [right; left; reflexivity|]. split; [left; reflexivity|]. cbn. intros [].
Qed.
Print Assumptions C36_order_refuted.

(* A node freed with its user and then used again is not among the users of its
   attributes.  0 = z, 1 = a(z), 2 = b(a); b is dropped, then c(a) is built. *)
Theorem C36_reuse_refuted : exists h attrs, history h /\ (forall c, In c (nodes (flat_map attr_children attrs)) -> c < List.length h) /\
  exists a z, let h' := construct h 1 attrs in alive h' (List.length h) /\ In a (kids h' (List.length h)) /\ In z (kids h' a) /\ ~ In a (users_of h' z).
Proof.
  set (h0 := construct (construct (construct [] 1 []) 1 [One (CNode 0)]) 1 [One (CNode 1)]).
  exists (match invalidate_node same h0 2 with Ok h => h | _ => [] end), [One (CNode 1)]. split; [|split].
  - apply hist_op with (h := h0) (o := Drop 2); [|split; [heap_alive|reflexivity]|reflexivity].
    unfold h0. build_history.
  - cbn. intros c I. no_more. subst. lia.
  - exists 1, 0. cbn. split; [heap_alive|]. split; [left; reflexivity|]. split; [left; reflexivity|]. intros [].
Qed.
Print Assumptions C36_reuse_refuted.
