From Coq Require Import List Bool Arith String Ascii Lia.
From Verif Require Import Common Naming_Model Naming_Spec Naming_Proofs Scope_Model Scope_Spec.
Import ListNotations.
Open Scope string_scope.
Open Scope list_scope.
Open Scope nat_scope.
Open Scope py_scope.

(* ---- dictionaries ---- *)
Lemma dget_dset_same {V} (d : dict V) k v : dget (dset d k v) k = Some v.
Proof.
  induction d as [|[k' v'] d IH]; simpl; [now rewrite String.eqb_refl|].
  destruct (String.eqb k k') eqn:E; simpl; rewrite E; auto.
Qed.

Lemma dget_dset_other {V} (d : dict V) k k2 v : k2 <> k -> dget (dset d k v) k2 = dget d k2.
Proof.
  intros N. induction d as [|[k' v'] d IH]; simpl.
  - destruct (String.eqb_spec k2 k); congruence.
  - destruct (String.eqb k k') eqn:E; simpl.
    + apply String.eqb_eq in E. subst k'. destruct (String.eqb_spec k2 k); congruence.
    + destruct (String.eqb k2 k'); auto.
Qed.

Lemma dget_In {V} (d : dict V) k v : dget d k = Some v -> In (k, v) d.
Proof.
  induction d as [|[k' v'] d IH]; simpl; [discriminate|].
  destruct (String.eqb_spec k k'); intros H; [left; congruence|right; auto].
Qed.

Lemma dget_vals (d : dict string) k v : dget d k = Some v -> In v (map snd d).
Proof. intros H. apply dget_In in H. apply (in_map snd) in H. exact H. Qed.

Lemma dget_keys {V} (d : dict V) k v : dget d k = Some v -> In k (map fst d).
Proof. intros H. apply dget_In in H. apply (in_map fst) in H. exact H. Qed.

Lemma keys_dget {V} (d : dict V) k : In k (map fst d) -> exists v, dget d k = Some v.
Proof.
  induction d as [|[k' v'] d IH]; simpl; [tauto|].
  intros [<-|H]; [rewrite String.eqb_refl; eauto|].
  destruct (String.eqb k k'); eauto.
Qed.

Lemma keys_dset {V} (d : dict V) k v k2 : In k2 (map fst (dset d k v)) <-> k2 = k \/ In k2 (map fst d).
Proof.
  induction d as [|[k' v'] d IH]; simpl; [intuition congruence|].
  destruct (String.eqb_spec k k'); simpl; [subst; intuition congruence|rewrite IH; intuition congruence].
Qed.

Lemma NoDup_dset {V} (d : dict V) k v : NoDup (map fst d) -> NoDup (map fst (dset d k v)).
Proof.
  induction d as [|[k' v'] d IH]; simpl; intros H.
  - constructor; [tauto|constructor].
  - destruct (String.eqb_spec k k'); simpl; [exact H|].
    inversion H; subst. constructor; [|auto]. rewrite keys_dset. intuition congruence.
Qed.

Lemma vals_dset_new (d : dict string) k v : dget d k = None -> map snd (dset d k v) = map snd d ++ [v].
Proof.
  induction d as [|[k' v'] d IH]; simpl; intros H; [reflexivity|].
  destruct (String.eqb k k'); [discriminate|]. simpl. now rewrite IH.
Qed.

Lemma pairs_dset {V} (d : dict V) k v k2 v2 : In (k2, v2) (dset d k v) -> (k2, v2) = (k, v) \/ In (k2, v2) d.
Proof.
  induction d as [|[k' v'] d IH]; simpl.
  - intros [H|[]]; auto.
  - destruct (String.eqb_spec k k'); simpl.
    + subst. intros [H|H]; auto.
    + intros [H|H]; auto. apply IH in H. tauto.
Qed.

Lemma ddel_keys {V} (d : dict V) k k2 : In k2 (map fst (ddel d k)) -> In k2 (map fst d).
Proof.
  induction d as [|[k' v'] d IH]; simpl; [tauto|].
  destruct (String.eqb k k'); simpl; [auto|]. intros [H|H]; auto.
Qed.

Lemma NoDup_ddel {V} (d : dict V) k : NoDup (map fst d) -> NoDup (map fst (ddel d k)).
Proof.
  induction d as [|[k' v'] d IH]; simpl; intros H; [constructor|].
  inversion H; subst. destruct (String.eqb k k'); [assumption|]. simpl. constructor; [|auto].
  intros C. apply ddel_keys in C. auto.
Qed.

Lemma dget_ddel {V} (d : dict V) k k2 : NoDup (map fst d) ->
  dget (ddel d k) k2 = if String.eqb k2 k then None else dget d k2.
Proof.
  intros N. induction d as [|[k' v'] d IH]; simpl.
  - now destruct (String.eqb k2 k).
  - inversion N as [|? ? N1 N2]; subst. simpl in N1, N2.
    destruct (String.eqb_spec k k').
    + subst k'. destruct (String.eqb_spec k2 k).
      * subst. destruct (dget d k) eqn:E; [|reflexivity]. apply dget_keys in E. tauto.
      * reflexivity.
    + simpl. destruct (String.eqb_spec k2 k').
      * subst. destruct (String.eqb_spec k' k); [congruence|reflexivity].
      * rewrite IH by assumption. reflexivity.
Qed.

(* ---- the heap ---- *)
Lemma put_length h i s : List.length (put h i s) = List.length h.
Proof. revert i; induction h as [|x h IH]; intros [|i]; simpl; auto. Qed.

Lemma put_same h i s x : nth_error h i = Some x -> nth_error (put h i s) i = Some s.
Proof. revert i; induction h as [|y h IH]; intros [|i] H; simpl in *; try discriminate; auto. Qed.

Lemma put_other h i j s : i <> j -> nth_error (put h i s) j = nth_error h j.
Proof. revert i j; induction h as [|y h IH]; intros [|i] [|j] H; simpl; try congruence; auto. Qed.

Lemma put_get h i s x j y : nth_error h i = Some x -> nth_error (put h i s) j = Some y ->
  (j = i /\ y = s) \/ (j <> i /\ nth_error h j = Some y).
Proof.
  intros H G. destruct (Nat.eq_dec j i) as [->|N].
  - rewrite (put_same _ _ _ _ H) in G. left. split; congruence.
  - rewrite put_other in G by auto. right; auto.
Qed.

Lemma chain_fuel h : well_founded_heap h -> forall f i, i < f -> chain_f f h i = chain h i.
Proof.
  intros W f i. revert f. unfold chain. induction i as [i IH] using lt_wf_ind. intros [|f] H; [lia|].
  cbn [chain_f]. destruct (nth_error h i) as [s|] eqn:E; [|reflexivity].
  destruct (sc_parent s) as [p|] eqn:P; [|reflexivity]. f_equal.
  pose proof (W _ _ _ E P). rewrite (IH p) by lia. symmetry. apply (IH p); lia.
Qed.

Lemma chain_eq h i : well_founded_heap h ->
  chain h i = match nth_error h i with
              | None => []
              | Some s => i :: match sc_parent s with None => [] | Some p => chain h p end
              end.
Proof.
  intros W. unfold chain at 1. cbn [chain_f]. destruct (nth_error h i) as [s|] eqn:E; [|reflexivity].
  destruct (sc_parent s) as [p|] eqn:P; [|reflexivity]. f_equal. apply chain_fuel; trivial.
  exact (W _ _ _ E P).
Qed.

Lemma chain_head h i s : nth_error h i = Some s -> In i (chain h i).
Proof. intros E. unfold chain. cbn [chain_f]. rewrite E. now left. Qed.

(* same shape: same parents everywhere *)
Definition same_shape (h h' : heap) : Prop :=
  forall i, option_map (fun s => (sc_type s, sc_parent s)) (nth_error h i)
          = option_map (fun s => (sc_type s, sc_parent s)) (nth_error h' i).

Lemma same_shape_chain h h' : same_shape h h' -> forall f i, chain_f f h i = chain_f f h' i.
Proof.
  intros S. induction f as [|f IH]; intros i; [reflexivity|]. cbn [chain_f].
  specialize (S i). destruct (nth_error h i), (nth_error h' i); simpl in S; try discriminate; [|reflexivity].
  injection S as S1 S2. rewrite S2. destruct (sc_parent s0); [|reflexivity]. now rewrite IH.
Qed.

Lemma put_same_shape h i s x : nth_error h i = Some x -> sc_type s = sc_type x -> sc_parent s = sc_parent x ->
  same_shape h (put h i s).
Proof.
  intros E T P j. destruct (Nat.eq_dec i j) as [<-|N].
  - rewrite E, (put_same _ _ _ _ E). simpl. congruence.
  - now rewrite put_other.
Qed.

Lemma same_shape_wf h h' : same_shape h h' -> well_founded_heap h -> well_founded_heap h'.
Proof.
  intros S W i s p E P. specialize (S i). rewrite E in S. simpl in S.
  destruct (nth_error h i) as [s0|] eqn:E0; [|discriminate]. injection S as _ S. rewrite P in S.
  exact (W _ _ _ E0 S).
Qed.

Lemma same_shape_home h h' i e : same_shape h h' -> Home h i e -> Home h' i e.
Proof.
  intros S H. induction H as [i s E L|i s p e E L P H IH].
  - specialize (S i). rewrite E in S. destruct (nth_error h' i) as [s'|] eqn:E'; [|discriminate].
    injection S as S1 S2. eapply home_here; [exact E'|]. unfold is_loop in *. now rewrite <- S1.
  - specialize (S i). rewrite E in S. destruct (nth_error h' i) as [s'|] eqn:E'; [|discriminate].
    injection S as S1 S2. eapply home_up; [exact E'| | |exact IH].
    + unfold is_loop in *. now rewrite <- S1.
    + congruence.
Qed.

Lemma same_shape_sym h h' : same_shape h h' -> same_shape h' h.
Proof. intros S i. now rewrite S. Qed.

Lemma home_fun h i e e' : Home h i e -> Home h i e' -> e = e'.
Proof.
  intros H. revert e'. induction H as [i s E L|i s p e E L P H IH]; intros e' H'; inversion H'; subst;
    try congruence.
  apply IH. congruence.
Qed.

Lemma home_not_loop h i e : Home h i e -> exists s, nth_error h e = Some s /\ is_loop s = false.
Proof. induction 1; eauto. Qed.

Lemma home_in_chain h i e : well_founded_heap h -> Home h i e -> forall j, In j (chain h e) -> In j (chain h i).
Proof.
  intros W H. induction H as [i s E L|i s p e E L P H IH]; intros j Hj; [exact Hj|].
  rewrite chain_eq, E, P by assumption. right. auto.
Qed.

Lemma used_chain_incl h i e : well_founded_heap h -> Home h i e ->
  forall x, In x (all_used_symbols h e) -> In x (all_used_symbols h i).
Proof.
  intros W H x Hx. unfold all_used_symbols in *. apply in_flat_map in Hx. destruct Hx as (j & H1 & H2).
  apply in_flat_map. exists j. split; [|exact H2]. eapply home_in_chain; eauto.
Qed.

Lemma python_chain_incl h i e : well_founded_heap h -> Home h i e ->
  forall x, In x (all_python_symbols h e) -> In x (all_python_symbols h i).
Proof.
  intros W H x Hx. unfold all_python_symbols in *. apply in_flat_map in Hx. destruct Hx as (j & H1 & H2).
  apply in_flat_map. exists j. split; [|exact H2]. eapply home_in_chain; eauto.
Qed.

Lemma local_used_incl h i : forall x, In x (map snd (used_at h i)) -> In x (all_used_symbols h i).
Proof.
  intros x Hx. unfold all_used_symbols. apply in_flat_map. exists i. split; [|exact Hx].
  unfold used_at in Hx. destruct (nth_error h i) eqn:E; [|contradiction]. eapply chain_head; eauto.
Qed.

Lemma local_python_incl h i : forall x, In x (map fst (used_at h i)) -> In x (all_python_symbols h i).
Proof.
  intros x Hx. unfold all_python_symbols. apply in_flat_map. exists i. split; [|exact Hx].
  unfold used_at in Hx. destruct (nth_error h i) eqn:E; [|contradiction]. eapply chain_head; eauto.
Qed.

Lemma in_use_incl l n a b : (forall x, In x a -> In x b) -> in_use l n a -> in_use l n b.
Proof. intros H (s & H1 & H2). exists s. auto. Qed.

Lemma same_ident_refl l a : same_ident l a a.
Proof. now apply same_ident_canon. Qed.

(* ---- names in one scope ---- *)
Record scope_ok (l : lang) (s : scope) : Prop := {
  ok_keys : NoDup (map fst (sc_used s));
  ok_orig_keys : NoDup (map fst (sc_orig s));
  ok_distinct : forall p q a b, dget (sc_used s) p = Some a -> dget (sc_used s) q = Some b ->
      p <> q -> ~ same_ident l a b;
  ok_reserved : forall p a, dget (sc_used s) p = Some a -> ~ reserved l a;
  ok_inverse : forall p a, dget (sc_used s) p = Some a -> dget (sc_orig s) a = Some p }.

Definition heap_ok (l : lang) (h : heap) : Prop :=
  well_founded_heap h /\ forall i s, nth_error h i = Some s -> scope_ok l s.

Definition add_name (s : scope) (sym n : string) : scope :=
  set_orig (set_used s (dset (sc_used s) sym n)) (dset (sc_orig s) n sym).

Lemma add_name_ok l s sym n :
  scope_ok l s -> ~ reserved l n -> ~ in_use l n (map snd (sc_used s)) -> scope_ok l (add_name s sym n).
Proof.
  intros O R U. destruct O as [O1 O2 O3 O4 O5].
  assert (F : forall p a, dget (sc_used s) p = Some a -> ~ same_ident l n a).
  { intros p a H E. apply U. exists a. split; [now apply dget_vals in H|assumption]. }
  split; cbn [add_name set_orig set_used sc_used sc_orig].
  - now apply NoDup_dset.
  - now apply NoDup_dset.
  - intros p q a b Hp Hq N E.
    destruct (string_dec p sym) as [->|Np].
    + rewrite dget_dset_same in Hp. injection Hp as <-.
      rewrite dget_dset_other in Hq by congruence. exact (F _ _ Hq E).
    + rewrite dget_dset_other in Hp by assumption.
      destruct (string_dec q sym) as [->|Nq].
      * rewrite dget_dset_same in Hq. injection Hq as <-. apply (F _ _ Hp).
        apply same_ident_canon. apply same_ident_canon in E. congruence.
      * rewrite dget_dset_other in Hq by assumption. exact (O3 _ _ _ _ Hp Hq N E).
  - intros p a Hp. destruct (string_dec p sym) as [->|Np].
    + rewrite dget_dset_same in Hp. injection Hp as <-. exact R.
    + rewrite dget_dset_other in Hp by assumption. eauto.
  - intros p a Hp. destruct (string_dec p sym) as [->|Np].
    + rewrite dget_dset_same in Hp. injection Hp as <-. apply dget_dset_same.
    + rewrite dget_dset_other in Hp by assumption. rewrite dget_dset_other; [eauto|].
      intros ->. apply (F _ _ Hp). apply same_ident_refl.
Qed.

Lemma heap_ok_put l h i x s :
  heap_ok l h -> nth_error h i = Some x -> sc_type s = sc_type x -> sc_parent s = sc_parent x ->
  scope_ok l s -> heap_ok l (put h i s).
Proof.
  intros [W O] E T P S. split.
  - eapply same_shape_wf; [|exact W]. eapply put_same_shape; eauto.
  - intros j y G. destruct (put_get _ _ _ _ _ _ E G) as [[-> ->]|[_ G']]; eauto.
Qed.

Lemma fresh_local l h i s n : nth_error h i = Some s ->
  ~ in_use l n (all_used_symbols h i) -> ~ in_use l n (map snd (sc_used s)).
Proof.
  intros E U C. apply U. eapply in_use_incl; [|exact C]. intros x Hx. apply local_used_incl.
  unfold used_at. now rewrite E.
Qed.

Lemma gcn_result l name symbols prefix ctx t r :
  get_collisionless_name l name symbols prefix ctx t = POk r ->
  ~ reserved l r /\ ~ in_use l r symbols.
Proof.
  intros H. destruct (string_dec name "") as [->|N].
  - destruct l; cbn [get_collisionless_name] in H.
    + destruct (context_eqb ctx CWrapper).
      * destruct (collisionless_cases LC "" symbols) as (r' & E & H1 & H2 & _). rewrite H in E. injection E as ->; auto.
      * discriminate.
    + destruct (context_eqb ctx CWrapper).
      * destruct (collisionless_cases LFortran "" symbols) as (r' & E & H1 & H2 & _). rewrite H in E. injection E as ->; auto.
      * discriminate.
    + destruct (context_eqb ctx CWrapper); [discriminate|].
      destruct (collisionless_cases LPython "" symbols) as (r' & E & H1 & H2 & _). rewrite H in E. injection E as ->; auto.
  - destruct (get_collisionless_ok l name symbols prefix ctx t N) as (r' & E & H1 & H2).
    + intros -> ->. discriminate H.
    + rewrite H in E. injection E as ->; auto.
Qed.

Lemma insert_symbol_f_ok l f : forall h i sym ctx h' n,
  heap_ok l h -> insert_symbol_f f l h i sym ctx = POk (h', n) -> heap_ok l h'.
Proof.
  induction f as [|f IH]; intros h i sym ctx h' n O H; [discriminate|].
  cbn [insert_symbol_f] in H. destruct (nth_error h i) as [s|] eqn:E; [|discriminate].
  destruct (is_loop s).
  - destruct (sc_parent s); [|discriminate]. eapply IH; eauto.
  - destruct (dget (sc_used s) sym) eqn:G; [injection H as <- _; exact O|].
    destruct (get_collisionless_name _ _ _ _ _ _) as [m|e|] eqn:C; cbn [pbind] in H; try discriminate.
    injection H as <- <-. apply gcn_result in C. destruct C as [C1 C2].
    eapply heap_ok_put; [exact O|exact E|reflexivity|reflexivity|].
    apply add_name_ok; [eapply O; eauto|exact C1|eapply fresh_local; eauto].
Qed.

Lemma insert_symbol_ok l h i sym ctx h' n :
  heap_ok l h -> insert_symbol l h i sym ctx = POk (h', n) -> heap_ok l h'.
Proof. apply insert_symbol_f_ok. Qed.

Lemma all_used_put_dummy h i s d : nth_error h i = Some s ->
  forall j, all_used_symbols (put h i (set_dummy s d)) j = all_used_symbols h j.
Proof.
  intros E j. unfold all_used_symbols, chain.
  rewrite <- (same_shape_chain h) by (eapply put_same_shape; [exact E|reflexivity|reflexivity]).
  apply flat_map_ext. intros k. unfold used_at. destruct (Nat.eq_dec i k) as [<-|N].
  - rewrite E, (put_same _ _ _ _ E). reflexivity.
  - now rewrite put_other.
Qed.

Lemma finish_ok l h i nn ctx h' n :
  heap_ok l h -> finish_new_name l h i nn ctx = POk (h', n) -> heap_ok l h'.
Proof.
  intros O H. unfold finish_new_name in H. destruct (nth_error h i) as [s|] eqn:E; [|discriminate].
  destruct (get_collisionless_name _ _ _ _ _ _) as [m|e|] eqn:C; cbn [pbind] in H; try discriminate.
  apply gcn_result in C. destruct C as [C1 C2].
  change (set_orig (set_used s (dset (sc_used s) m m)) (dset (sc_orig (set_used s (dset (sc_used s) m m))) m m))
    with (add_name s m m) in H.
  eapply insert_symbol_ok; [|exact H].
  eapply heap_ok_put; [exact O|exact E|reflexivity|reflexivity|].
  apply add_name_ok; [eapply O; eauto|exact C1|eapply fresh_local; eauto].
Qed.

Lemma set_dummy_ok l s d : scope_ok l s -> scope_ok l (set_dummy s d).
Proof. intros [A B C D E]. split; assumption. Qed.

Lemma get_new_name_ok l h i cur ctx h' n :
  heap_ok l h -> get_new_name l h i cur ctx = POk (h', n) -> heap_ok l h'.
Proof.
  intros O H. unfold get_new_name in H. destruct (nth_error h i) as [s|] eqn:E; [|discriminate].
  destruct cur as [c|].
  - destruct (negb _); [eapply insert_symbol_ok; eauto|].
    destruct (create_incremented_string _ _ _ _) as [r|e|]; cbn [pbind] in H; try discriminate.
    eapply finish_ok; eauto.
  - destruct (create_incremented_string _ _ _ _) as [r|e|]; cbn [pbind] in H; try discriminate.
    eapply finish_ok; [|exact H].
    eapply heap_ok_put; [exact O|exact E|reflexivity|reflexivity|]. apply set_dummy_ok. eapply O; eauto.
Qed.

Lemma empty_scope_ok l t p pre lo im : scope_ok l (mkScope t p pre [] [] 0 lo im).
Proof. split; simpl; try constructor; discriminate. Qed.

Lemma nth_app_cases {A} (h : list A) x i s : nth_error (h ++ [x]) i = Some s ->
  nth_error h i = Some s \/ (i = List.length h /\ s = x).
Proof.
  intros H. destruct (Nat.lt_ge_cases i (List.length h)) as [L|L].
  - rewrite nth_error_app1 in H by assumption. auto.
  - rewrite nth_error_app2 in H by assumption. right.
    destruct (i - List.length h) as [|k] eqn:D; simpl in H.
    + injection H as <-. split; [lia|reflexivity].
    + destruct k; discriminate.
Qed.

Lemma heap_ok_app l h x i : heap_ok l h -> i < List.length h -> sc_parent x = Some i -> scope_ok l x ->
  heap_ok l (h ++ [x]).
Proof.
  intros [W O] L P S. split.
  - intros j s p G Q. apply nth_app_cases in G. destruct G as [G|[-> ->]]; [eauto|]. congruence.
  - intros j s G. apply nth_app_cases in G. destruct G as [G|[-> ->]]; eauto.
Qed.

Lemma step_ok l h o h' : heap_ok l h -> step l h o = POk h' -> heap_ok l h'.
Proof.
  intros O H. destruct o as [i n t|i|i s c|i n c|i p k|i s]; cbn [step] in H.
  - unfold new_child_scope in H. destruct (nth_error h i) as [s|] eqn:E; [|discriminate].
    assert (L : i < List.length h) by (apply nth_error_Some; congruence).
    destruct t; try discriminate; cbn [pbind fst] in H; injection H as <-;
      (eapply heap_ok_app; [exact O|exact L|reflexivity|apply empty_scope_ok]).
  - unfold create_new_loop_scope in H. destruct (nth_error h i) as [s|] eqn:E; [|discriminate].
    assert (L : i < List.length h) by (apply nth_error_Some; congruence).
    cbn [pbind fst] in H; injection H as <-.
    eapply heap_ok_app; [exact O|exact L|reflexivity|apply empty_scope_ok].
  - destruct (insert_symbol l h i s c) as [[h1 n]|e|] eqn:E; cbn [pbind] in H; try discriminate.
    injection H as <-. eapply insert_symbol_ok; eauto.
  - destruct (get_new_name l h i n c) as [[h1 m]|e|] eqn:E; cbn [pbind] in H; try discriminate.
    injection H as <-. eapply get_new_name_ok; eauto.
  - unfold get_new_incremented_symbol in H.
    destruct (create_incremented_string _ _ _ _) as [[nn c]|e|]; cbn [pbind] in H; try discriminate.
    destruct (insert_symbol l h i nn CVariable) as [[h1 m]|e|] eqn:E; cbn [pbind] in H; try discriminate.
    injection H as <-. eapply insert_symbol_ok; eauto.
  - unfold remove_symbol in H. destruct (nth_error h i) as [x|] eqn:E; [|discriminate].
    destruct (dget (sc_used x) s) as [v|] eqn:G; [|injection H as <-; exact O].
    destruct (dget (sc_orig x) v) eqn:G2; [|discriminate]. injection H as <-.
    pose proof (proj2 O _ _ E) as S. destruct S as [S1 S2 S3 S4 S5].
    eapply heap_ok_put; [exact O|exact E|reflexivity|reflexivity|].
    assert (D : forall p a, dget (ddel (sc_used x) s) p = Some a -> p <> s /\ dget (sc_used x) p = Some a).
    { intros p a Hp. rewrite dget_ddel in Hp by assumption. destruct (String.eqb_spec p s); [discriminate|auto]. }
    split; simpl.
    + now apply NoDup_ddel.
    + now apply NoDup_ddel.
    + intros p q a b Hp Hq. apply D in Hp, Hq. destruct Hp, Hq. eauto.
    + intros p a Hp. apply D in Hp. destruct Hp. eauto.
    + intros p a Hp. apply D in Hp. destruct Hp as [N Hp].
      rewrite dget_ddel by assumption. destruct (String.eqb_spec a v) as [->|]; [|eauto].
      exfalso. apply (S3 _ _ _ _ Hp G N). apply same_ident_refl.
Qed.

Lemma root_ok l t name : heap_ok l [root_scope t name].
Proof.
  split.
  - intros i s p E P. destruct i as [|i]; simpl in E; [|destruct i; discriminate].
    injection E as <-. discriminate.
  - intros i s E. destruct i as [|i]; simpl in E; [|destruct i; discriminate].
    injection E as <-. apply empty_scope_ok.
Qed.

Lemma run_ok l os : forall h h', heap_ok l h -> run_ops l os h = POk h' -> heap_ok l h'.
Proof.
  induction os as [|o os IH]; intros h h' O H; cbn [run_ops] in H; [congruence|].
  destruct (step l h o) as [h1|e|] eqn:E; cbn [pbind] in H; try discriminate.
  eapply IH; [|exact H]. eapply step_ok; eauto.
Qed.

(* ---- C02, C03 ---- *)
Lemma same_scope_distinct l os t name h i p q a b :
  run_ops l os [root_scope t name] = POk h ->
  dget (used_at h i) p = Some a -> dget (used_at h i) q = Some b -> p <> q -> ~ same_ident l a b.
Proof.
  intros R. apply run_ok in R; [|apply root_ok]. unfold used_at.
  destruct (nth_error h i) as [s|] eqn:E; [|discriminate].
  pose proof (proj2 R _ _ E) as [_ _ S _ _]. apply S.
Qed.

Lemma declared_not_reserved l os t name h i p a :
  run_ops l os [root_scope t name] = POk h -> dget (used_at h i) p = Some a -> ~ reserved l a.
Proof.
  intros R. apply run_ok in R; [|apply root_ok]. unfold used_at.
  destruct (nth_error h i) as [s|] eqn:E; [|discriminate].
  pose proof (proj2 R _ _ E) as [_ _ _ S _]. apply S.
Qed.

Lemma insert_symbol_home l h i e sym ctx : well_founded_heap h -> Home h i e ->
  forall f, i < f -> exists ctx', (e = i -> ctx' = ctx) /\ (e <> i -> ctx' = CVariable) /\
    insert_symbol_f f l h i sym ctx = insert_symbol_f (S e) l h e sym ctx'.
Proof.
  intros W H. revert ctx. induction H as [i s E L|i s p e E L P H IH]; intros ctx f Hf.
  - destruct f as [|f]; [lia|]. exists ctx. repeat split; auto; try congruence.
    cbn [insert_symbol_f]. rewrite E, L. reflexivity.
  - destruct f as [|f]; [lia|]. cbn [insert_symbol_f]. rewrite E, L, P.
    pose proof (W _ _ _ E P) as Lt.
    destruct (IH CVariable f ltac:(lia)) as (c & C1 & C2 & C3).
    exists CVariable.
    assert (Hle : e <> i).
    { assert (G : forall i e, Home h i e -> e <= i).
      { clear -W. intros i e H. induction H as [|i s p e E L P H IH]; [lia|].
        pose proof (W _ _ _ E P). lia. }
      apply G in H. lia. }
    repeat split; try congruence. rewrite C3. destruct (Nat.eq_dec e p) as [->|Ne].
    + now rewrite C1.
    + now rewrite C2.
Qed.

Lemma insert_at_home l h e s sym ctx : nth_error h e = Some s -> is_loop s = false ->
  insert_symbol_f (S e) l h e sym ctx =
    match dget (sc_used s) sym with
    | Some v => POk (h, v)
    | None =>
      n <~ get_collisionless_name l sym (all_used_symbols h e) (sc_prefix s) ctx (sc_type s) ;;
      POk (put h e (add_name s sym n), n)
    end.
Proof. intros E L. cbn [insert_symbol_f]. rewrite E, L. reflexivity. Qed.

Lemma new_declaration l h i s sym ctx h' a :
  nth_error h i = Some s -> is_loop s = false -> dget (used_at h i) sym = None ->
  insert_symbol l h i sym ctx = POk (h', a) ->
  ~ reserved l a /\ ~ in_use l a (all_used_symbols h i) /\ dget (used_at h' i) sym = Some a.
Proof.
  intros E L N H. unfold insert_symbol in H. rewrite (insert_at_home _ _ _ _ _ _ E L) in H.
  unfold used_at in N. rewrite E in N. rewrite N in H.
  destruct (get_collisionless_name _ _ _ _ _ _) as [m|e|] eqn:C; cbn [pbind] in H; try discriminate.
  injection H as <- <-. apply gcn_result in C. destruct C. repeat split; trivial.
  unfold used_at. rewrite (put_same _ _ _ _ E). simpl. apply dget_dset_same.
Qed.

Lemma redeclaration l h i s sym ctx v :
  nth_error h i = Some s -> is_loop s = false -> dget (used_at h i) sym = Some v ->
  insert_symbol l h i sym ctx = POk (h, v).
Proof.
  intros E L N. unfold insert_symbol. rewrite (insert_at_home _ _ _ _ _ _ E L).
  unfold used_at in N. rewrite E in N. now rewrite N.
Qed.

Lemma python_name_back l os t name h i p a :
  run_ops l os [root_scope t name] = POk h ->
  dget (used_at h i) p = Some a -> get_python_name h i a = POk p.
Proof.
  intros R G. apply run_ok in R; [|apply root_ok]. unfold used_at in G.
  destruct (nth_error h i) as [s|] eqn:E; [|discriminate].
  pose proof (proj2 R _ _ E) as [_ _ _ _ S]. unfold get_python_name.
  rewrite chain_eq, E by apply R. cbn [chain_get]. unfold orig_at. rewrite E.
  now rewrite (S _ _ G).
Qed.

(* ---- C05: requests from a scope that is not a loop ---- *)
Lemma finish_fresh l h i s nn ctx h' n :
  nth_error h i = Some s -> is_loop s = false ->
  finish_new_name l h i nn ctx = POk (h', n) ->
  ~ reserved l n /\ ~ in_use l n (all_used_symbols h i).
Proof.
  intros E L H. unfold finish_new_name in H. rewrite E in H.
  destruct (get_collisionless_name _ _ _ _ _ _) as [m|e|] eqn:C; cbn [pbind] in H; try discriminate.
  apply gcn_result in C.
  unfold insert_symbol in H.
  rewrite (insert_at_home _ _ _ (add_name s m m)) in H; [|exact (put_same _ _ _ _ E)|exact L].
  cbn [add_name set_orig set_used sc_used] in H. rewrite dget_dset_same in H.
  injection H as _ <-. exact C.
Qed.

Lemma fresh_not_loop l h i s cur ctx h' n :
  nth_error h i = Some s -> is_loop s = false ->
  get_new_name l h i cur ctx = POk (h', n) ->
  ~ reserved l n /\ ~ in_use l n (all_used_symbols h i).
Proof.
  intros E L H. unfold get_new_name in H. rewrite E in H. destruct cur as [c|].
  - destruct (has_clash l c (all_python_symbols h i)) eqn:B; cbn [negb] in H.
    + destruct (create_incremented_string _ _ _ _) as [r|e|]; cbn [pbind] in H; try discriminate.
      eapply finish_fresh; eauto.
    + apply has_clash_false in B. destruct B as [_ B].
      destruct (dget (used_at h i) c) as [v|] eqn:G.
      * exfalso. apply B. exists c. split; [|apply same_ident_refl].
        apply local_python_incl. eapply dget_keys; eauto.
      * destruct (new_declaration _ _ _ _ _ _ _ _ E L G H) as (A1 & A2 & _). auto.
  - destruct (create_incremented_string _ _ _ _) as [r|e|]; cbn [pbind] in H; try discriminate.
    pose proof (finish_fresh l (put h i (set_dummy s (snd r))) i (set_dummy s (snd r)) (fst r) ctx h' n) as F.
    rewrite all_used_put_dummy in F by assumption. apply F; trivial. exact (put_same _ _ _ _ E).
Qed.

(* ---- C05: requests from loops ---- *)
Definition under (p : string) : bool := is_under (char_at p 0).

Definition plain_key (l : lang) (h : heap) (e : nat) (p : string) : Prop :=
  (l <> LPython /\ under p = true) \/ reserved l p \/ in_use l p (all_used_symbols h e).

Record inv (l : lang) (h : heap) : Prop := {
  inv_ok : heap_ok l h;
  inv_keys : forall e s p a, nth_error h e = Some s -> is_loop s = false -> prefixing l (sc_type s) = false ->
      dget (sc_used s) p = Some a -> plain_key l h e p;
  inv_loops : forall j s e t k v, nth_error h j = Some s -> is_loop s = true -> Home h j e ->
      nth_error h e = Some t -> prefixing l (sc_type t) = false ->
      In (k, v) (sc_used s) -> k = v /\ In v (map snd (sc_used t)) }.

(* all dictionaries only grow, shape unchanged *)
Record grows (h h' : heap) : Prop := {
  gr_shape : same_shape h h';
  gr_vals : forall i x, In x (map snd (used_at h i)) -> In x (map snd (used_at h' i)) }.

Lemma grows_all h h' i : grows h h' -> forall x, In x (all_used_symbols h i) -> In x (all_used_symbols h' i).
Proof.
  intros [S V] x Hx. unfold all_used_symbols, chain in *.
  rewrite <- (same_shape_chain h) by assumption.
  apply in_flat_map in Hx. destruct Hx as (j & H1 & H2). apply in_flat_map. exists j. auto.
Qed.

Lemma plain_key_grows l h h' e p : grows h h' -> plain_key l h e p -> plain_key l h' e p.
Proof.
  intros G [H|[H|H]]; [left|right; left|right; right]; auto.
  eapply in_use_incl; [apply grows_all; eassumption|exact H].
Qed.

Lemma add_grows h i s sym n : nth_error h i = Some s -> dget (sc_used s) sym = None ->
  grows h (put h i (add_name s sym n)).
Proof.
  intros E N. split.
  - eapply put_same_shape; [exact E|reflexivity|reflexivity].
  - intros j x Hx. unfold used_at in *. destruct (Nat.eq_dec i j) as [<-|Nj].
    + rewrite E in Hx. rewrite (put_same _ _ _ _ E). simpl. rewrite vals_dset_new by assumption.
      apply in_app_iff. auto.
    + now rewrite put_other.
Qed.

Lemma dummy_grows h i s d : nth_error h i = Some s -> grows h (put h i (set_dummy s d)).
Proof.
  intros E. split.
  - eapply put_same_shape; [exact E|reflexivity|reflexivity].
  - intros j x Hx. unfold used_at in *. destruct (Nat.eq_dec i j) as [<-|Nj].
    + rewrite E in Hx. now rewrite (put_same _ _ _ _ E).
    + now rewrite put_other.
Qed.

(* adding a name at a non-loop scope keeps the invariant *)
Lemma inv_add l h e s sym n :
  inv l h -> nth_error h e = Some s -> is_loop s = false -> dget (sc_used s) sym = None ->
  ~ reserved l n -> ~ in_use l n (all_used_symbols h e) ->
  (prefixing l (sc_type s) = false -> plain_key l (put h e (add_name s sym n)) e sym) ->
  inv l (put h e (add_name s sym n)).
Proof.
  intros [O K J] E L N R U PK. pose proof (add_grows _ _ _ _ n E N) as G. split.
  - eapply heap_ok_put; [exact O|exact E|reflexivity|reflexivity|].
    apply add_name_ok; [eapply O; eauto|exact R|eapply fresh_local; eauto].
  - intros e' s' p a E' L' P' D. destruct (put_get _ _ _ _ _ _ E E') as [[-> ->]|[Ne E'']].
    + simpl in D. destruct (string_dec p sym) as [->|Np]; [now apply PK|].
      rewrite dget_dset_other in D by assumption. eapply plain_key_grows; [exact G|]. exact (K _ _ _ _ E L P' D).
    + eapply plain_key_grows; [exact G|]. exact (K _ _ _ _ E'' L' P' D).
  - intros j s' e' t k v Ej Lj Hj Et Pt I.
    apply (same_shape_home _ h) in Hj; [|apply same_shape_sym, G].
    destruct (put_get _ _ _ _ _ _ E Ej) as [[-> ->]|[Nj Ej']]; [unfold is_loop in *; simpl in Lj; congruence|].
    destruct (put_get _ _ _ _ _ _ E Et) as [[-> ->]|[Ne Et']].
    + destruct (J j s' e s k v Ej' Lj Hj E Pt I) as [J1 J2]. split; [exact J1|].
      cbn [add_name set_orig set_used sc_used]. rewrite vals_dset_new by assumption. apply in_app_iff. auto.
    + exact (J _ _ _ _ _ _ Ej' Lj Hj Et' Pt I).
Qed.

(* what key a declaration creates *)
Lemma gcn_plain l name symbols prefix ctx t r : name <> "" ->
  get_collisionless_name l name symbols prefix ctx t = POk r ->
  (l = LC -> ctx <> CFunction /\ t <> SModule) ->
  (l <> LPython /\ under name = true) \/ reserved l name \/ in_use l name symbols \/ r = name.
Proof.
  intros Hn H HC. destruct (under name) eqn:Un.
  - destruct l; try (left; split; [discriminate|reflexivity]).
    right. cbn [get_collisionless_name] in H. destruct (context_eqb ctx CWrapper); [discriminate|].
    destruct (collisionless_cases LPython name symbols) as (r' & E & _ & _ & C). rewrite H in E. injection E as <-.
    destruct C as [[C _]|[C _]]; [auto|]. apply has_clash_true in C. tauto.
  - destruct (has_clash l name symbols) eqn:B; [apply has_clash_true in B; tauto|].
    apply has_clash_false in B. destruct B as [B1 B2].
    right; right; right.
    rewrite get_collisionless_keeps in H; auto; [congruence| |].
    + intros -> ->. discriminate H.
    + intros ->. destruct HC; [reflexivity|]. split; [assumption|]. intros ->. congruence.
Qed.

(* the empty name is only accepted where nothing is done to names *)
Lemma gcn_plain_all l name symbols prefix ctx t r :
  get_collisionless_name l name symbols prefix ctx t = POk r ->
  (l = LC -> ctx <> CFunction /\ t <> SModule) ->
  (l <> LPython /\ under name = true) \/ reserved l name \/ in_use l name symbols \/ r = name.
Proof.
  intros H HC. destruct (string_dec name "") as [->|N]; [|eapply gcn_plain; eauto].
  right. assert (C : collisionless l "" symbols = POk r).
  { destruct l; cbn [get_collisionless_name] in H; destruct (context_eqb ctx CWrapper); trivial; discriminate H. }
  destruct (collisionless_cases l "" symbols) as (r' & E & _ & _ & D). rewrite C in E. injection E as <-.
  destruct D as [[D _]|[D _]]; [auto|]. apply has_clash_true in D. tauto.
Qed.

Lemma plain_key_after l h e s sym n : nth_error h e = Some s -> dget (sc_used s) sym = None ->
  (l <> LPython /\ under sym = true) \/ reserved l sym \/ in_use l sym (all_used_symbols h e) \/ n = sym ->
  plain_key l (put h e (add_name s sym n)) e sym.
Proof.
  intros E N [H|[H|[H|H]]]; [left|right;left|right;right|right;right]; auto.
  - eapply in_use_incl; [apply grows_all, add_grows; eassumption|exact H].
  - subst n. exists sym. split; [|apply same_ident_refl]. apply local_used_incl.
    unfold used_at. rewrite (put_same _ _ _ _ E). simpl. eapply dget_vals. apply dget_dset_same.
Qed.

(* insertion keeps the invariant *)
Lemma insert_home_inv l h e s sym ctx h' n :
  inv l h -> nth_error h e = Some s -> is_loop s = false ->
  (l = LC -> prefixing l (sc_type s) = false -> ctx <> CFunction) ->
  insert_symbol_f (S e) l h e sym ctx = POk (h', n) -> inv l h'.
Proof.
  intros I E L HC H. rewrite (insert_at_home _ _ _ _ _ _ E L) in H.
  destruct (dget (sc_used s) sym) as [v|] eqn:N; [injection H as <- _; exact I|].
  destruct (get_collisionless_name _ _ _ _ _ _) as [m|er|] eqn:C; cbn [pbind] in H; try discriminate.
  injection H as <- <-. pose proof (gcn_result _ _ _ _ _ _ _ C) as [C1 C2].
  apply inv_add; auto. intros PF. apply plain_key_after; auto.
  destruct (gcn_plain_all _ _ _ _ _ _ _ C) as [X|[X|[X|X]]]; auto.
  intros ->. split; [now apply HC|]. intros T. rewrite T in PF. discriminate.
Qed.

(* insertion through loops reaches the home scope *)
Lemma insert_has_home l f : forall h i sym ctx h' n,
  insert_symbol_f f l h i sym ctx = POk (h', n) -> exists e, Home h i e.
Proof.
  induction f as [|f IH]; intros h i sym ctx h' n H; [discriminate|].
  cbn [insert_symbol_f] in H. destruct (nth_error h i) as [s|] eqn:E; [|discriminate].
  destruct (is_loop s) eqn:L.
  - destruct (sc_parent s) as [p|] eqn:P; [|discriminate].
    destruct (IH _ _ _ _ _ _ H) as (e & He). exists e. eapply home_up; eauto.
  - exists i. eapply home_here; eauto.
Qed.

Lemma insert_inv l h i sym ctx h' n :
  inv l h ->
  (l = LC -> ctx = CFunction -> exists t, type_at h i = Some t /\ prefixing l t = true) ->
  insert_symbol l h i sym ctx = POk (h', n) -> inv l h'.
Proof.
  intros I HC H. unfold insert_symbol in H. destruct (insert_has_home _ _ _ _ _ _ _ _ H) as (e & He).
  destruct (insert_symbol_home l h i e sym ctx (proj1 (inv_ok _ _ I)) He (S i) ltac:(lia)) as (c & C1 & C2 & C3).
  rewrite C3 in H. destruct (home_not_loop _ _ _ He) as (s & E & L).
  eapply insert_home_inv; [exact I|exact E|exact L| |exact H].
  intros Hl P. destruct (Nat.eq_dec e i) as [->|Ne].
  - rewrite C1 by reflexivity. intros ->. destruct (HC Hl eq_refl) as (t & T1 & T2).
    unfold type_at in T1. rewrite E in T1. simpl in T1. congruence.
  - rewrite C2 by assumption. discriminate.
Qed.

(* an invented name does not start with an underscore unless nothing is adapted *)
Lemma under_app a b : a <> "" -> under (a ++ b)%string = under a.
Proof. destruct a; [congruence|reflexivity]. Qed.

Lemma name_format_under t k : t <> "" -> under (name_format t k) = under t.
Proof. intros H. unfold name_format. now apply under_app. Qed.

Lemma gcn_not_under l name symbols prefix ctx t r :
  get_collisionless_name l name symbols prefix ctx t = POk r ->
  l <> LPython -> ctx <> CWrapper -> (l = LC -> ctx <> CFunction /\ t <> SModule) ->
  under r = false.
Proof.
  intros H HP HW HC.
  assert (W : context_eqb ctx CWrapper = false) by (destruct ctx; try reflexivity; congruence).
  assert (K : forall t0, t0 <> "" -> under t0 = false -> collisionless l t0 symbols = POk r -> under r = false).
  { intros t0 N U C. destruct (collisionless_cases l t0 symbols) as (r' & E & _ & _ & D).
    rewrite C in E. injection E as <-. destruct D as [[-> _]|[_ (k & ->)]]; [exact U|].
    rewrite name_format_under; assumption. }
  assert (PN : forall x y, private_name x = POk y -> y <> "" /\ under y = false).
  { intros x y Q. destruct x as [|c x]; [discriminate|]. cbn [private_name] in Q. injection Q as <-.
    destruct (is_under c) eqn:Uc; split; try discriminate; [reflexivity|]. exact Uc. }
  destruct l; cbn [get_collisionless_name] in H; rewrite W in H; [| |congruence].
  - match type of H with pbind (private_name ?x) _ = _ => destruct (private_name x) as [y|e|] eqn:Q end;
      cbn [pbind] in H; try discriminate.
    apply PN in Q. destruct Q as [Q1 Q2]. destruct HC as [HC1 HC2]; [reflexivity|].
    assert (F : context_eqb ctx CFunction || is_smodule t && negb (context_eqb ctx CModule) = false).
    { destruct ctx, t; simpl; try reflexivity; congruence. }
    rewrite F in H. eapply K; eauto.
  - match type of H with pbind (private_name ?x) _ = _ => destruct (private_name x) as [y|e|] eqn:Q end;
      cbn [pbind] in H; try discriminate.
    apply PN in Q. destruct Q as [Q1 Q2]. eapply K; eauto.
Qed.

Lemma gcn_nonempty l name symbols prefix ctx t r : name <> "" ->
  get_collisionless_name l name symbols prefix ctx t = POk r -> r <> "".
Proof.
  intros N H. assert (K : forall t0, t0 <> "" -> collisionless l t0 symbols = POk r -> r <> "").
  { intros t0 N0 C. destruct (collisionless_cases l t0 symbols) as (r' & E & _ & _ & D).
    rewrite C in E. injection E as <-. destruct D as [[-> _]|[_ (k & ->)]]; [exact N0|].
    unfold name_format. destruct t0; [congruence|discriminate]. }
  assert (PN : forall x y, private_name x = POk y -> y <> "").
  { intros x y Q. destruct x as [|c x]; [discriminate|]. cbn [private_name] in Q. injection Q as <-.
    destruct (is_under c); discriminate. }
  destruct l; cbn [get_collisionless_name] in H.
  - destruct (context_eqb ctx CWrapper); [eapply K; eauto|].
    match type of H with pbind (private_name ?x) _ = _ => destruct (private_name x) as [y|e|] eqn:Q end;
      cbn [pbind] in H; try discriminate. apply PN in Q.
    match type of H with context [if ?c then _ else _] => destruct c end; [|eapply K; eauto].
    eapply K; [|exact H]. destruct prefix; [exact Q|discriminate].
  - destruct (context_eqb ctx CWrapper); [eapply K; eauto|].
    match type of H with pbind (private_name ?x) _ = _ => destruct (private_name x) as [y|e|] eqn:Q end;
      cbn [pbind] in H; try discriminate. apply PN in Q. eapply K; eauto.
  - destruct (context_eqb ctx CWrapper); [discriminate|eapply K; eauto].
Qed.

(* a fresh, plain name is no key of a scope whose names are plain *)
Lemma fresh_not_key l h e s n : inv l h -> nth_error h e = Some s -> is_loop s = false ->
  prefixing l (sc_type s) = false ->
  ~ reserved l n -> ~ in_use l n (all_used_symbols h e) -> (l <> LPython -> under n = false) ->
  dget (sc_used s) n = None.
Proof.
  intros I E L P R U Un. destruct (dget (sc_used s) n) as [a|] eqn:G; [|reflexivity].
  destruct (inv_keys _ _ I _ _ _ _ E L P G) as [[X Y]|[X|X]]; try contradiction.
  rewrite Un in Y by assumption. discriminate.
Qed.

Lemma loop_type s : is_loop s = true -> sc_type s = SLoop.
Proof. unfold is_loop. destruct (sc_type s); congruence. Qed.

Lemma prefixing_home l s : prefixing l (sc_type s) = false -> l = LC -> sc_type s <> SModule.
Proof. intros H -> T. rewrite T in H. discriminate. Qed.

(* registering an invented name, seen from any scope with a plain home *)
Lemma finish_plain l h i e t nn ctx h' n :
  inv l h -> Home h i e -> nth_error h e = Some t -> prefixing l (sc_type t) = false ->
  nn <> "" -> ctx <> CWrapper -> (l = LC -> ctx <> CFunction) ->
  finish_new_name l h i nn ctx = POk (h', n) ->
  inv l h' /\ ~ reserved l n /\ ~ in_use l n (all_used_symbols h i).
Proof.
  intros I He Et Pt Hnn HW HF H.
  pose proof (proj1 (inv_ok _ _ I)) as Wf.
  unfold finish_new_name in H. destruct (nth_error h i) as [s|] eqn:E; [|discriminate].
  destruct (get_collisionless_name _ _ _ _ _ _) as [m|er|] eqn:C; cbn [pbind] in H; try discriminate.
  pose proof (gcn_result _ _ _ _ _ _ _ C) as [C1 C2].
  pose proof (gcn_nonempty _ _ _ _ _ _ _ Hnn C) as Cn.
  change (set_orig (set_used s (dset (sc_used s) m m)) (dset (sc_orig (set_used s (dset (sc_used s) m m))) m m))
    with (add_name s m m) in H.
  destruct (home_not_loop _ _ _ He) as (t' & Et' & Lt). assert (t' = t) by congruence. subst t'.
  assert (Ue : ~ in_use l m (all_used_symbols h e)).
  { intros X. apply C2. eapply in_use_incl; [|exact X]. now apply used_chain_incl. }
  assert (Um : l <> LPython -> under m = false).
  { intros NP. eapply gcn_not_under; [exact C|exact NP|exact HW|]. intros LCe. split; [now apply HF|].
    destruct (is_loop s) eqn:L.
    - rewrite (loop_type _ L). discriminate.
    - assert (e = i). { inversion He; subst; trivial. assert (s0 = s) by congruence. subst. congruence. }
      subst e. assert (s = t) by congruence. subst. eapply prefixing_home; eauto. }
  pose proof (fresh_not_key _ _ _ _ _ I Et Lt Pt C1 Ue Um) as Nk.
  destruct (is_loop s) eqn:L.
  - (* a loop: the name is registered here and handed to the home scope *)
    assert (Nei : e <> i). { intros ->. congruence. }
    assert (Nki : dget (sc_used s) m = None).
    { destruct (dget (sc_used s) m) as [v|] eqn:G; [|reflexivity]. exfalso.
      apply dget_In in G. destruct (inv_loops _ _ I _ _ _ _ _ _ E L He Et Pt G) as [-> G2].
      apply C2. exists v. split; [|apply same_ident_refl]. apply local_used_incl. unfold used_at. rewrite E.
      apply (in_map snd) in G. exact G. }
    set (h1 := put h i (add_name s m m)) in *.
    assert (G1 : grows h h1) by (apply add_grows; assumption).
    assert (W1 : well_founded_heap h1) by (eapply same_shape_wf; [apply G1|exact Wf]).
    assert (He1 : Home h1 i e) by (eapply same_shape_home; [apply G1|exact He]).
    assert (Et1 : nth_error h1 e = Some t) by (unfold h1; rewrite put_other; auto).
    unfold insert_symbol in H.
    destruct (insert_symbol_home l h1 i e m ctx W1 He1 (S i) ltac:(lia)) as (c & _ & Cc & C3).
    rewrite C3, (Cc Nei), (insert_at_home _ _ _ _ _ _ Et1 Lt), Nk in H.
    assert (AU : forall x, In x (all_used_symbols h1 e) -> In x (all_used_symbols h e)).
    { intros x Hx. unfold all_used_symbols, chain in *.
      rewrite <- (same_shape_chain h) in Hx by apply G1.
      apply in_flat_map in Hx. destruct Hx as (j & Hj1 & Hj2). apply in_flat_map. exists j. split; [exact Hj1|].
      assert (Nj : j <> i).
      { intros ->. fold (chain h e) in Hj1.
        assert (Le : forall a b, In b (chain h a) -> b <= a).
        { intros a. induction a as [a IHa] using lt_wf_ind. intros b Hb. rewrite chain_eq in Hb by exact Wf.
          destruct (nth_error h a) as [sa|] eqn:Ea; [|contradiction]. destruct Hb as [->|Hb]; [lia|].
          destruct (sc_parent sa) as [pa|] eqn:Pa; [|contradiction].
          pose proof (Wf _ _ _ Ea Pa). specialize (IHa pa ltac:(lia) b Hb). lia. }
        apply Le in Hj1.
        assert (Lh : forall a b, Home h a b -> b <= a).
        { intros a b Hab. induction Hab as [|a sa pa b Ea La Pa Hab IHab]; [lia|].
          pose proof (Wf _ _ _ Ea Pa). lia. }
        apply Lh in He. lia. }
      unfold used_at in *. unfold h1 in Hj2. now rewrite put_other in Hj2 by auto. }
    assert (Kp : get_collisionless_name l m (all_used_symbols h1 e) (sc_prefix t) CVariable (sc_type t) = POk m).
    { destruct (under m) eqn:UU.
      - (* only possible for Python output *)
        assert (l = LPython) by (destruct l; trivial; exfalso; (discriminate Um; discriminate)).
        subst l. cbn [get_collisionless_name context_eqb]. unfold collisionless.
        rewrite (proj2 (has_clash_false LPython m (all_used_symbols h1 e))); [reflexivity|].
        split; [exact C1|]. intros X. apply Ue. eapply in_use_incl; [exact AU|exact X].
      - apply get_collisionless_keeps; trivial.
        + discriminate.
        + intros ->. split; [discriminate|]. intros T. exfalso. eapply prefixing_home; eauto.
        + intros X. apply Ue. eapply in_use_incl; [exact AU|exact X]. }
    rewrite Kp in H. cbn [pbind] in H. injection H as <- <-.
    split; [|split; assumption].
    assert (N1 : dget (sc_used t) m = None) by exact Nk.
    pose proof (add_grows _ _ _ _ m Et1 N1) as G2.
    assert (G3 : grows h (put h1 e (add_name t m m))).
    { split.
      - intros x. rewrite (gr_shape _ _ G1 x). apply (gr_shape _ _ G2).
      - intros x y Hy. apply (gr_vals _ _ G2), (gr_vals _ _ G1), Hy. }
    split.
    + eapply heap_ok_put; [|exact Et1|reflexivity|reflexivity|].
      * unfold h1. eapply heap_ok_put; [apply I|exact E|reflexivity|reflexivity|].
        apply add_name_ok; [eapply (inv_ok _ _ I); eauto|exact C1|eapply fresh_local; eauto].
      * apply add_name_ok; [eapply (inv_ok _ _ I); eauto|exact C1|].
        eapply fresh_local; [exact Et|exact Ue].
    + intros e' s' p a E' L' P' D.
      destruct (put_get _ _ _ _ _ _ Et1 E') as [[-> ->]|[Ne' E'']].
      * simpl in D. destruct (string_dec p m) as [->|Np].
        -- right; right. exists m. split; [|apply same_ident_refl]. apply local_used_incl.
           unfold used_at. rewrite (put_same _ _ _ _ Et1). simpl. eapply dget_vals. apply dget_dset_same.
        -- rewrite dget_dset_other in D by assumption.
           eapply plain_key_grows; [exact G3|]. eapply (inv_keys _ _ I); [exact Et|exact Lt|exact Pt|exact D].
      * unfold h1 in E''. destruct (put_get _ _ _ _ _ _ E E'') as [[-> ->]|[Ni E3]].
        -- unfold is_loop in L', L. simpl in L'. congruence.
        -- eapply plain_key_grows; [exact G3|]. eapply (inv_keys _ _ I); eauto.
    + intros j s' e' t' k v Ej Lj Hj Et2 Pt2 Ip.
      apply (same_shape_home _ h) in Hj; [|apply same_shape_sym, G3].
      assert (Base : forall k v, In (k,v) (used_at h j) -> (exists sj, nth_error h j = Some sj /\ is_loop sj = true) ->
                 k = v /\ In v (map snd (sc_used t'))).
      { intros k0 v0 I0 (sj & Esj & Lsj). unfold used_at in I0. rewrite Esj in I0.
        destruct (put_get _ _ _ _ _ _ Et1 Et2) as [[-> ->]|[Ne' Et2']].
        - destruct (inv_loops _ _ I j sj e t k0 v0) as [B1 B2]; auto. split; [exact B1|].
          cbn [add_name set_orig set_used sc_used]. rewrite vals_dset_new by assumption. apply in_app_iff. auto.
        - unfold h1 in Et2'. destruct (put_get _ _ _ _ _ _ E Et2') as [[-> ->]|[Ni E3]].
          + exfalso. destruct (home_not_loop _ _ _ Hj) as (q & Q1 & Q2). congruence.
          + destruct (inv_loops _ _ I j sj e' t' k0 v0) as [B1 B2]; auto. }
      destruct (put_get _ _ _ _ _ _ Et1 Ej) as [[-> ->]|[Nj Ej']].
      * unfold is_loop in Lj, Lt. simpl in Lj. congruence.
      * unfold h1 in Ej'. destruct (put_get _ _ _ _ _ _ E Ej') as [[-> ->]|[Nj2 Ej2]].
        -- simpl in Ip. apply pairs_dset in Ip. destruct Ip as [Ip|Ip].
           ++ injection Ip as -> ->. split; [reflexivity|].
              assert (e' = e) by (eapply home_fun; eauto). subst e'.
              rewrite (put_same _ _ _ _ Et1) in Et2. injection Et2 as <-.
              cbn [add_name set_orig set_used sc_used]. rewrite vals_dset_new by assumption.
              apply in_app_iff. right. now left.
           ++ apply Base; [|eauto]. unfold used_at. now rewrite E.
        -- apply Base; [|eauto]. unfold used_at. now rewrite Ej2.
  - (* not a loop *)
    assert (e = i). { inversion He; subst; trivial. assert (s0 = s) by congruence. subst. congruence. }
    subst e. assert (s = t) by congruence. subst t.
    unfold insert_symbol in H.
    rewrite (insert_at_home _ _ _ (add_name s m m)) in H; [|exact (put_same _ _ _ _ E)|exact L].
    cbn [add_name set_orig set_used sc_used] in H. rewrite dget_dset_same in H.
    injection H as <- <-. split; [|split; assumption].
    change (inv l (put h i (add_name s m m))).
    apply inv_add; auto. intros _. apply plain_key_after; auto.
Qed.

Lemma inv_dummy l h i s d : inv l h -> nth_error h i = Some s -> inv l (put h i (set_dummy s d)).
Proof.
  intros I E. pose proof (dummy_grows _ _ _ d E) as G. split.
  - eapply heap_ok_put; [apply I|exact E|reflexivity|reflexivity|]. apply set_dummy_ok. eapply (inv_ok _ _ I); eauto.
  - intros e s' p a E' L P D. destruct (put_get _ _ _ _ _ _ E E') as [[-> ->]|[N E'']];
      (eapply plain_key_grows; [exact G|]; eapply (inv_keys _ _ I); eauto).
  - intros j s' e t k v Ej Lj Hj Et Pt Ip.
    apply (same_shape_home _ h) in Hj; [|apply same_shape_sym, G].
    destruct (put_get _ _ _ _ _ _ E Ej) as [[-> ->]|[Nj Ej']];
    destruct (put_get _ _ _ _ _ _ E Et) as [[-> ->]|[Ne Et']]; simpl in *;
      (eapply (inv_loops _ _ I); [| |exact Hj| | |]; eauto).
Qed.

Lemma cis_nonempty forbidden p k c r : create_incremented_string forbidden p k c = POk r -> fst r <> "".
Proof.
  destruct c as [l|].
  - destruct (create_checked_ok l forbidden p k) as (j & _ & E & _). cbv zeta in E. intros H. rewrite H in E.
    injection E as ->. cbn [fst]. unfold name_format. destruct (match p with Some p0 => p0 | None => "Dummy" end); discriminate.
  - destruct (create_unchecked_ok forbidden p k) as (j & _ & E & _). cbv zeta in E. intros H. rewrite H in E.
    injection E as ->. cbn [fst]. unfold name_format. destruct (match p with Some p0 => p0 | None => "Dummy" end); discriminate.
Qed.

Lemma get_new_name_plain l h i e t cur ctx h' n :
  inv l h -> Home h i e -> nth_error h e = Some t -> prefixing l (sc_type t) = false ->
  ctx <> CWrapper -> (l = LC -> ctx <> CFunction) ->
  get_new_name l h i cur ctx = POk (h', n) ->
  inv l h' /\ ~ reserved l n /\ ~ in_use l n (all_used_symbols h i).
Proof.
  intros I He Et Pt HW HF H. pose proof (proj1 (inv_ok _ _ I)) as Wf.
  unfold get_new_name in H. destruct (nth_error h i) as [s|] eqn:E; [|discriminate].
  destruct cur as [c|].
  - destruct (has_clash l c (all_python_symbols h i)) eqn:B; cbn [negb] in H.
    + destruct (create_incremented_string _ _ _ _) as [r|er|] eqn:R; cbn [pbind] in H; try discriminate.
      eapply finish_plain; eauto. eapply cis_nonempty; eauto.
    + split.
      { eapply insert_inv; [exact I| |exact H]. intros Hl Hc. exfalso. now apply HF. }
      apply has_clash_false in B. destruct B as [_ B].
      unfold insert_symbol in H.
      destruct (insert_symbol_home l h i e c ctx Wf He (S i) ltac:(lia)) as (c0 & _ & _ & C3).
      rewrite C3 in H. destruct (home_not_loop _ _ _ He) as (t' & Et' & Lt). assert (t' = t) by congruence. subst t'.
      rewrite (insert_at_home _ _ _ _ _ _ Et Lt) in H.
      destruct (dget (sc_used t) c) as [v|] eqn:G.
      { exfalso. apply B. exists c. split; [|apply same_ident_refl].
        eapply python_chain_incl; eauto. apply local_python_incl. unfold used_at. rewrite Et. eapply dget_keys; eauto. }
      destruct (get_collisionless_name _ _ _ _ _ _) as [m|er|] eqn:C; cbn [pbind] in H; try discriminate.
      injection H as <- <-. apply gcn_result in C. destruct C as [C1 C2]. split; [exact C1|].
      intros (x & X1 & X2). apply C2. exists x. split; [|exact X2].
      (* names held by loops are names of the home scope *)
      clear -I He Et Pt X1 Wf. induction He as [i s E L|i s p e E L P He IH]; [exact X1|].
      unfold all_used_symbols in X1. rewrite chain_eq, E, P in X1 by exact Wf. cbn [flat_map] in X1.
      apply in_app_iff in X1. destruct X1 as [X1|X1]; [|apply IH; assumption].
      unfold used_at in X1. rewrite E in X1. apply in_map_iff in X1. destruct X1 as ([k v] & <- & Ip).
      destruct (inv_loops _ _ I i s e t k v) as [_ B2]; auto.
      { eapply home_up; eauto. }
      apply local_used_incl. unfold used_at. now rewrite Et.
  - destruct (create_incremented_string _ _ _ _) as [r|er|] eqn:R; cbn [pbind] in H; try discriminate.
    pose proof (inv_dummy _ _ _ _ (snd r) I E) as I1.
    pose proof (dummy_grows _ _ _ (snd r) E) as G.
    set (h1 := put h i (set_dummy s (snd r))) in *.
    assert (He1 : Home h1 i e) by (eapply same_shape_home; [apply G|exact He]).
    assert (Et1 : exists t1, nth_error h1 e = Some t1 /\ sc_type t1 = sc_type t).
    { pose proof (gr_shape _ _ G e) as S. rewrite Et in S. destruct (nth_error h1 e) as [t1|]; [|discriminate].
      injection S as S1 S2. eauto. }
    destruct Et1 as (t1 & Et1 & Tt1).
    destruct (finish_plain l h1 i e t1 (fst r) ctx h' n) as (A1 & A2 & A3); auto.
    { now rewrite Tt1. }
    { eapply cis_nonempty; eauto. }
    split; [exact A1|]. split; [exact A2|]. unfold h1 in A3. now rewrite all_used_put_dummy in A3.
Qed.

Lemma chain_app h x : forall f i, well_founded_heap h -> i < List.length h -> chain_f f (h ++ [x]) i = chain_f f h i.
Proof.
  intros f i W. revert i. induction f as [|f IH]; intros i Hi; [reflexivity|]. cbn [chain_f].
  rewrite nth_error_app1 by assumption. destruct (nth_error h i) as [s|] eqn:E; [|reflexivity].
  destruct (sc_parent s) as [p|] eqn:P; [|reflexivity]. rewrite IH; [reflexivity|].
  pose proof (W _ _ _ E P). lia.
Qed.

Lemma chain_le h a : well_founded_heap h -> forall b, In b (chain h a) -> b <= a.
Proof.
  intros Wf. induction a as [a IHa] using lt_wf_ind. intros b Hb. rewrite chain_eq in Hb by exact Wf.
  destruct (nth_error h a) as [sa|] eqn:Ea; [|contradiction]. destruct Hb as [->|Hb]; [lia|].
  destruct (sc_parent sa) as [pa|] eqn:Pa; [|contradiction].
  pose proof (Wf _ _ _ Ea Pa). specialize (IHa pa ltac:(lia) b Hb). lia.
Qed.

Lemma all_used_app h x i : well_founded_heap h -> i < List.length h ->
  all_used_symbols (h ++ [x]) i = all_used_symbols h i.
Proof.
  intros W L. unfold all_used_symbols. unfold chain at 1. rewrite chain_app by assumption. fold (chain h i).
  assert (F : forall j, In j (chain h i) -> j <= i) by (apply chain_le; assumption).
  induction (chain h i) as [|j js IH]; [reflexivity|]. cbn [flat_map].
  rewrite IH by (intros; apply F; now right). f_equal.
  unfold used_at. rewrite nth_error_app1; [reflexivity|]. specialize (F j (or_introl eq_refl)). lia.
Qed.

Lemma home_app h x i e : Home (h ++ [x]) i e -> well_founded_heap h -> i < List.length h -> Home h i e.
Proof.
  intros H W. induction H as [i s E L|i s p e E L P H IH]; intros Hi; rewrite nth_error_app1 in E by assumption.
  - eapply home_here; eauto.
  - eapply home_up; eauto. apply IH. pose proof (W _ _ _ E P). lia.
Qed.

Lemma home_le h i e : well_founded_heap h -> Home h i e -> e <= i.
Proof.
  intros W H. induction H as [|i s p e E L P H IH]; [lia|]. pose proof (W _ _ _ E P). lia.
Qed.

Lemma inv_app l h x i : inv l h -> i < List.length h -> sc_parent x = Some i -> sc_used x = [] -> scope_ok l x ->
  inv l (h ++ [x]).
Proof.
  intros I Li P U S. pose proof (proj1 (inv_ok _ _ I)) as W. split.
  - eapply heap_ok_app; eauto. apply I.
  - intros e s p a E L Pf D. apply nth_app_cases in E. destruct E as [E|[-> ->]].
    + assert (Le : e < List.length h) by (apply nth_error_Some; congruence).
      destruct (inv_keys _ _ I _ _ _ _ E L Pf D) as [Q|[Q|Q]]; [left|right;left|right;right]; auto.
      now rewrite all_used_app.
    + rewrite U in D. discriminate.
  - intros j s e t k v Ej Lj Hj Et Pt Ip. apply nth_app_cases in Ej. destruct Ej as [Ej|[-> ->]].
    + assert (Lj' : j < List.length h) by (apply nth_error_Some; congruence).
      apply home_app in Hj; auto. pose proof (home_le _ _ _ W Hj).
      rewrite nth_error_app1 in Et by lia. exact (inv_loops _ _ I _ _ _ _ _ _ Ej Lj Hj Et Pt Ip).
    + rewrite U in Ip. contradiction.
Qed.

Lemma step_inv l h o h' : inv l h -> plain_op l h o -> step l h o = POk h' -> inv l h'.
Proof.
  intros I PO H. destruct o as [i n t|i|i s c|i n c|i p k|i s]; cbn [step plain_op] in *.
  - unfold new_child_scope in H. destruct (nth_error h i) as [s|] eqn:E; [|discriminate].
    assert (L : i < List.length h) by (apply nth_error_Some; congruence).
    destruct t; try discriminate; cbn [pbind fst] in H; injection H as <-;
      (eapply inv_app; [exact I|exact L|reflexivity|reflexivity|apply empty_scope_ok]).
  - unfold create_new_loop_scope in H. destruct (nth_error h i) as [s|] eqn:E; [|discriminate].
    assert (L : i < List.length h) by (apply nth_error_Some; congruence).
    cbn [pbind fst] in H; injection H as <-.
    eapply inv_app; [exact I|exact L|reflexivity|reflexivity|apply empty_scope_ok].
  - destruct (insert_symbol l h i s c) as [[h1 n]|e|] eqn:E; cbn [pbind] in H; try discriminate.
    injection H as <-. eapply insert_inv; eauto.
  - destruct PO as [HW HC].
    destruct (get_new_name l h i n c) as [[h1 m]|e|] eqn:E; cbn [pbind] in H; try discriminate.
    injection H as <-. cbn [fst].
    assert (HH : exists e, Home h i e).
    { unfold get_new_name in E. destruct (nth_error h i) as [s|] eqn:Es; [|discriminate].
      assert (FH : forall hh nn, (hh = h \/ exists d, hh = put h i (set_dummy s d)) ->
                finish_new_name l hh i nn c = POk (h1, m) -> exists e, Home h i e).
      { intros hh nn Hhh F. unfold finish_new_name in F. destruct (nth_error hh i) as [sh|] eqn:Eh; [|discriminate].
        destruct (get_collisionless_name _ _ _ _ _ _) as [mm|er|]; cbn [pbind] in F; try discriminate.
        apply insert_has_home in F. destruct F as (e & He). exists e.
        apply (same_shape_home _ hh) in He.
        - destruct Hhh as [->|(d & ->)]; [exact He|]. eapply same_shape_home; [|exact He].
          apply same_shape_sym. eapply put_same_shape; [exact Es|reflexivity|reflexivity].
        - apply same_shape_sym. eapply put_same_shape; [exact Eh|reflexivity|reflexivity]. }
      destruct n as [cn|].
      - destruct (negb _); [eapply insert_has_home; eauto|].
        destruct (create_incremented_string _ _ _ _) as [r|er|]; cbn [pbind] in E; try discriminate.
        eapply FH; [left; reflexivity|exact E].
      - destruct (create_incremented_string _ _ _ _) as [r|er|]; cbn [pbind] in E; try discriminate.
        eapply FH; [right; eexists; reflexivity|exact E]. }
    destruct HH as (e & He). destruct (home_not_loop _ _ _ He) as (t & Et & Lt).
    destruct (get_new_name_plain l h i e t n c h1 m) as (A & _ & _); auto.
    + destruct l; try reflexivity. destruct (HC eq_refl) as [_ HC2]. eapply HC2; eauto.
      unfold type_at. now rewrite Et.
    + intros Hl. now apply HC.
  - unfold get_new_incremented_symbol in H.
    destruct (create_incremented_string _ _ _ _) as [[nn c]|e|]; cbn [pbind] in H; try discriminate.
    destruct (insert_symbol l h i nn CVariable) as [[h1 m]|e|] eqn:E; cbn [pbind] in H; try discriminate.
    injection H as <-. eapply insert_inv; [exact I| |exact E]. intros _ Q. discriminate.
  - contradiction.
Qed.

Lemma root_inv l t name : inv l [root_scope t name].
Proof.
  split; [apply root_ok| |].
  - intros e s p a E L P D. destruct e as [|e]; simpl in E; [|destruct e; discriminate].
    injection E as <-. discriminate.
  - intros j s e u k v E L H Eu P Ip. destruct j as [|j]; simpl in E; [|destruct j; discriminate].
    injection E as <-. contradiction.
Qed.

Lemma run_plain_inv l os : forall h h', inv l h -> run_plain l os h h' -> inv l h'.
Proof.
  induction os as [|o os IH]; intros h h' I R; cbn [run_plain] in R; [now subst|].
  destruct R as (P & h1 & E & R). eapply IH; [|exact R]. eapply step_inv; eauto.
Qed.

Lemma loop_fresh l os t name h i e et cur h' n :
  run_plain l os [root_scope t name] h ->
  Home h i e -> type_at h e = Some et -> prefixing l et = false ->
  get_new_name l h i cur CVariable = POk (h', n) ->
  ~ reserved l n /\ ~ in_use l n (all_used_symbols h i).
Proof.
  intros R He Te Pe H. apply run_plain_inv in R; [|apply root_inv].
  unfold type_at in Te. destruct (nth_error h e) as [x|] eqn:E; [|discriminate]. injection Te as <-.
  destruct (get_new_name_plain l h i e x cur CVariable h' n) as (_ & A & B); auto; try discriminate.
Qed.

(* ---- C04 ---- *)
Definition cats_of (c : option category) : list category := match c with Some c => [c] | None => categories end.

Lemma find_fuel h : well_founded_heap h -> forall f i name c lo, i < f -> find_f f h i name c lo = find h i name c lo.
Proof.
  intros W f i name c lo. revert f. unfold find. induction i as [i IH] using lt_wf_ind. intros [|f] H; [lia|].
  cbn [find_f]. destruct (nth_error h i) as [s|] eqn:E; [|reflexivity].
  destruct (find_here _ _ _); [reflexivity|].
  destruct (sc_parent s) as [p|] eqn:P; [|reflexivity]. destruct (is_loop s || negb lo); [|reflexivity].
  pose proof (W _ _ _ E P). rewrite (IH p) by lia. symmetry. apply (IH p); lia.
Qed.

Lemma find_eq h i name c lo : well_founded_heap h ->
  find h i name c lo =
    match nth_error h i with
    | None => None
    | Some s =>
      match find_here s (cats_of c) name with
      | Some o => Some o
      | None => match sc_parent s with
                | Some p => if is_loop s || negb lo then find h p name c lo else None
                | None => None end
      end
    end.
Proof.
  intros W. unfold find at 1. cbn [find_f]. destruct (nth_error h i) as [s|] eqn:E; [|reflexivity].
  fold (cats_of c). destruct (find_here _ _ _); [reflexivity|].
  destruct (sc_parent s) as [p|] eqn:P; [|reflexivity]. destruct (is_loop s || negb lo); [|reflexivity].
  apply find_fuel; trivial. exact (W _ _ _ E P).
Qed.

Lemma find_here_none s cats name : find_here s cats name = None <-> forall c, In c cats -> declares_not s c name.
Proof.
  induction cats as [|c cats IH]; simpl; [split; [intros _ c []|reflexivity]|].
  unfold declares_not in *. destruct (dget (sc_locals s c) name) eqn:A.
  - split; [discriminate|]. intros H. destruct (H c (or_introl eq_refl)). congruence.
  - destruct (dget (sc_imports s c) name) eqn:B.
    + split; [discriminate|]. intros H. destruct (H c (or_introl eq_refl)). congruence.
    + rewrite IH. split.
      * intros H c' [<-|H']; auto.
      * intros H c' H'. apply H. auto.
Qed.

Lemma find_here_some s cats name o : find_here s cats name = Some o ->
  exists before c after, cats = before ++ c :: after /\ declares s c name o
     /\ forall c', In c' before -> declares_not s c' name.
Proof.
  induction cats as [|c cats IH]; simpl; [discriminate|].
  unfold declares, declares_not in *. destruct (dget (sc_locals s c) name) eqn:A.
  - intros H. injection H as <-. exists [], c, cats. repeat split; auto; contradiction.
  - destruct (dget (sc_imports s c) name) eqn:B.
    + intros H. injection H as <-. exists [], c, cats. repeat split; auto; contradiction.
    + intros H. destruct (IH H) as (b & c0 & a & -> & D & F). exists (c :: b), c0, a.
      split; [reflexivity|]. split; [exact D|]. intros c' [<-|H']; [auto|now apply F].
Qed.

Lemma find_path h i name c lo o : well_founded_heap h ->
  (find h i name c lo = Some o <->
   exists ss j t, Path h i ss j t /\ find_here t (cats_of c) name = Some o
     /\ (forall s, In s ss -> find_here s (cats_of c) name = None)
     /\ (lo = true -> forall s, In s ss -> is_loop s = true)).
Proof.
  intros W. split.
  - induction i as [i IH] using lt_wf_ind. intros H. rewrite find_eq in H by assumption.
    destruct (nth_error h i) as [s|] eqn:E; [|discriminate].
    destruct (find_here s (cats_of c) name) as [o'|] eqn:F.
    + injection H as <-. exists [], i, s. split; [now constructor|]. split; [exact F|]. split; intros; contradiction.
    + destruct (sc_parent s) as [p|] eqn:P; [|discriminate].
      destruct (is_loop s || negb lo) eqn:B; [|discriminate].
      destruct (IH p (W _ _ _ E P) H) as (ss & j & t & A1 & A2 & A3 & A4).
      exists (s :: ss), j, t. split; [eapply path_up; eauto|]. split; [exact A2|]. split.
      * intros s' [<-|H']; auto.
      * intros Hlo s' [<-|H']; [|auto]. subst lo. now rewrite orb_false_r in B.
  - intros (ss & j & t & A1 & A2 & A3 & A4). induction A1 as [i s E|i s p ss j t E P A1 IH].
    + rewrite find_eq, E, A2 by assumption. reflexivity.
    + rewrite find_eq, E, (A3 s (or_introl eq_refl)), P by assumption.
      assert (B : is_loop s || negb lo = true).
      { destruct lo; [|apply orb_true_r]. rewrite (A4 eq_refl s (or_introl eq_refl)). reflexivity. }
      rewrite B. apply IH; auto.
      * intros s' H'. apply A3. now right.
      * intros Hlo s' H'. apply A4; [exact Hlo|now right].
Qed.

(* ---- C04: what insert_variable does to the lookup ---- *)
Definition with_variable (s : scope) (name : string) (var : nat) : scope :=
  set_locals s (fun c => if category_eqb c KVariables then dset (sc_locals s KVariables) name var else sc_locals s c).

Lemma insert_variable_shape f : forall h i var vn name h',
  insert_variable_f f h i var vn (Some name) = POk h' -> name <> "_" ->
  exists e s, Home h i e /\ nth_error h e = Some s /\ h' = put h e (with_variable s name var)
     /\ dget (sc_locals s KVariables) name = None.
Proof.
  induction f as [|f IH]; intros h i var vn name h' H N; [discriminate|]. cbn [insert_variable_f] in H.
  destruct (nth_error h i) as [s|] eqn:E; [|discriminate].
  destruct (String.eqb vn "_"); [discriminate|]. cbn [pbind] in H.
  destruct (is_loop s) eqn:L.
  - destruct (sc_parent s) as [p|] eqn:P; [|discriminate].
    destruct (IH _ _ _ _ _ _ H N) as (e & s' & A & B & C & D). exists e, s'. split; [|auto]. eapply home_up; eauto.
  - unfold has_key in H at 1. destruct (dget (sc_locals s KVariables) name) eqn:G; [discriminate|].
    destruct (String.eqb_spec name "_"); [congruence|].
    destruct (has_key (sc_used s) name || _); [|discriminate]. injection H as <-.
    exists i, s. split; [eapply home_here; eauto|]. auto.
Qed.

Lemma with_variable_here s name var cats : forall m, m <> name ->
  find_here (with_variable s name var) cats m = find_here s cats m.
Proof.
  intros m N. induction cats as [|c cats IH]; [reflexivity|]. cbn [find_here with_variable set_locals sc_locals sc_imports].
  rewrite IH. destruct c; simpl; try reflexivity. now rewrite dget_dset_other.
Qed.

Lemma find_put h e s s' name c lo : well_founded_heap h -> nth_error h e = Some s ->
  sc_type s' = sc_type s -> sc_parent s' = sc_parent s ->
  find_here s' (cats_of c) name = find_here s (cats_of c) name ->
  forall i, find (put h e s') i name c lo = find h i name c lo.
Proof.
  intros W E T P F. assert (W' : well_founded_heap (put h e s')).
  { eapply same_shape_wf; [|exact W]. eapply put_same_shape; eauto. }
  intros i. induction i as [i IH] using lt_wf_ind. rewrite !find_eq by assumption.
  destruct (Nat.eq_dec e i) as [<-|N].
  - rewrite E, (put_same _ _ _ _ E), F, P. unfold is_loop. rewrite T.
    destruct (find_here s (cats_of c) name); [reflexivity|]. destruct (sc_parent s) as [p|] eqn:Q; [|reflexivity].
    destruct (_ || _); [|reflexivity]. apply IH. exact (W _ _ _ E Q).
  - rewrite put_other by assumption. destruct (nth_error h i) as [x|] eqn:X; [|reflexivity].
    destruct (find_here x _ _); [reflexivity|]. destruct (sc_parent x) as [p|] eqn:Q; [|reflexivity].
    destruct (_ || _); [|reflexivity]. apply IH. exact (W _ _ _ X Q).
Qed.

Lemma insert_then_find h i var vn name h' lo : well_founded_heap h -> name <> "_" ->
  (forall ss j t, Path h i ss j t -> is_loop t = true -> declares_not t KVariables name) ->
  insert_variable h i var vn (Some name) = POk h' ->
  find h' i name (Some KVariables) lo = Some var.
Proof.
  intros W N C H. destruct (insert_variable_shape _ _ _ _ _ _ _ H N) as (e & s & He & E & -> & G).
  assert (W' : well_founded_heap (put h e (with_variable s name var))).
  { eapply same_shape_wf; [|exact W]. eapply put_same_shape; [exact E|reflexivity|reflexivity]. }
  clear H. induction He as [i x X L|i x p e X L P He IH].
  - rewrite find_eq by assumption. rewrite (put_same _ _ _ _ X). simpl.
    assert (x = s) by congruence. subst x. now rewrite dget_dset_same.
  - rewrite find_eq by assumption.
    assert (Ne : e <> i).
    { intros ->. destruct (home_not_loop _ _ _ He) as (q & Q1 & Q2). congruence. }
    rewrite put_other, X by assumption.
    destruct (C [] i x (path_here _ _ _ X) L) as [D1 D2].
    simpl. rewrite D1, D2, P, L. simpl. apply IH; auto.
    intros ss j t Q Lt. apply (C (x :: ss) j t); [eapply path_up; eauto|exact Lt].
Qed.

Lemma insert_others h i var vn name h' : well_founded_heap h -> name <> "_" ->
  insert_variable h i var vn (Some name) = POk h' ->
  forall j m c lo, m <> name -> find h' j m c lo = find h j m c lo.
Proof.
  intros W N H j m c lo Nm. destruct (insert_variable_shape _ _ _ _ _ _ _ H N) as (e & s & He & E & -> & G).
  eapply find_put; [exact W|exact E|reflexivity|reflexivity|]. apply with_variable_here; auto.
Qed.

Lemma find_spec h i name c lo o : well_founded_heap h ->
  (find h i name (Some c) lo = Some o <->
   exists ss j t, Path h i ss j t /\ declares t c name o
     /\ (forall s, In s ss -> declares_not s c name)
     /\ (lo = true -> forall s, In s ss -> is_loop s = true)).
Proof.
  intros W. rewrite find_path by assumption.
  assert (A : forall t, find_here t [c] name = Some o <-> declares t c name o).
  { intros t. unfold declares. simpl. destruct (dget (sc_locals t c) name); [split; [auto|intros [H|[H _]]; congruence]|].
    destruct (dget (sc_imports t c) name); split; try discriminate; auto; intros [H|[_ H]]; congruence. }
  assert (B : forall t, find_here t [c] name = None <-> declares_not t c name).
  { intros t. rewrite find_here_none. split; [intros H; apply H; now left|intros H c' [<-|[]]; exact H]. }
  unfold cats_of. split; intros (ss & j & t & H1 & H2 & H3 & H4); exists ss, j, t; (split; [exact H1|split; [now apply A|]]);
    (split; [|exact H4]); intros s Hs; apply B; auto.
Qed.

Lemma find_any h i name lo o : well_founded_heap h ->
  find h i name None lo = Some o ->
  exists ss j t before c after, Path h i ss j t /\ categories = before ++ c :: after /\ declares t c name o
     /\ (forall c', In c' before -> declares_not t c' name)
     /\ (forall s c', In s ss -> declares_not s c' name)
     /\ (lo = true -> forall s, In s ss -> is_loop s = true).
Proof.
  intros W H. apply find_path in H; [|assumption]. destruct H as (ss & j & t & H1 & H2 & H3 & H4).
  apply find_here_some in H2. destruct H2 as (b & c & a & A1 & A2 & A3).
  exists ss, j, t, b, c, a. split; [exact H1|]. split; [exact A1|]. split; [exact A2|]. split; [exact A3|]. split; [|exact H4].
  intros s c' Hs. specialize (H3 s Hs). rewrite find_here_none in H3. apply H3.
  destruct c'; simpl; tauto.
Qed.

Lemma find_none h i name c lo : well_founded_heap h ->
  (find h i name (Some c) lo = None <->
   forall ss j t, Path h i ss j t -> (lo = true -> forall s, In s ss -> is_loop s = true) -> declares_not t c name).
Proof.
  intros W. split.
  - intros H ss j t P Lo. destruct (find_here t [c] name) as [o|] eqn:F.
    + exfalso. revert P Lo F H. intros P. revert o. induction P as [i s E|i s p ss j t E Q P IH]; intros o Lo F H.
      * rewrite find_eq, E in H by assumption. cbn [cats_of] in H. now rewrite F in H.
      * rewrite find_eq, E, Q in H by assumption. destruct (find_here s (cats_of (Some c)) name); [discriminate|].
        assert (B : is_loop s || negb lo = true).
        { destruct lo; [|apply orb_true_r]. rewrite (Lo eq_refl s (or_introl eq_refl)). reflexivity. }
        rewrite B in H. eapply IH; eauto. intros Hl s' Hs. apply Lo; [exact Hl|now right].
    + rewrite find_here_none in F. apply F. now left.
  - intros H. destruct (find h i name (Some c) lo) as [o|] eqn:F; [|reflexivity]. exfalso.
    apply find_spec in F; [|assumption]. destruct F as (ss & j & t & P & D & _ & Lo).
    destruct (H ss j t P Lo) as [D1 D2]. destruct D as [D|[_ D]]; congruence.
Qed.

Lemma reachable_wf l os t name h : run_ops l os [root_scope t name] = POk h -> well_founded_heap h.
Proof. intros R. apply run_ok in R; [|apply root_ok]. apply R. Qed.

Lemma wf_insert_variable h i var vn name h' : well_founded_heap h -> name <> "_" ->
  insert_variable h i var vn (Some name) = POk h' -> well_founded_heap h'.
Proof.
  intros W N H. destruct (insert_variable_shape _ _ _ _ _ _ _ H N) as (e & s & He & E & -> & G).
  eapply same_shape_wf; [|exact W]. eapply put_same_shape; [exact E|reflexivity|reflexivity].
Qed.

(* ---- C02, C03 for histories that name outer scopes first ---- *)
Lemma chain_trans h : well_founded_heap h -> forall a b c, In b (chain h a) -> In c (chain h b) -> In c (chain h a).
Proof.
  intros W a. induction a as [a IH] using lt_wf_ind. intros b c Hb Hc. rewrite chain_eq in Hb by assumption.
  destruct (nth_error h a) as [s|] eqn:E; [|contradiction]. destruct Hb as [<-|Hb]; [exact Hc|].
  destruct (sc_parent s) as [p|] eqn:P; [|contradiction]. rewrite chain_eq, E, P by assumption. right.
  eapply IH; eauto.
Qed.

Lemma chain_linear h : well_founded_heap h -> forall a b c, In b (chain h a) -> In c (chain h a) ->
  In b (chain h c) \/ In c (chain h b).
Proof.
  intros W a. induction a as [a IH] using lt_wf_ind. intros b c Hb Hc.
  destruct (nth_error h a) as [s|] eqn:E; [|rewrite chain_eq, E in Hb by assumption; contradiction].
  pose proof Hb as Hb'. pose proof Hc as Hc'. rewrite chain_eq, E in Hb, Hc by assumption.
  destruct Hb as [<-|Hb]; [now right|]. destruct Hc as [<-|Hc]; [now left|].
  destruct (sc_parent s) as [p|] eqn:P; [|contradiction]. eapply IH; eauto.
Qed.

Lemma same_shape_chain' h h' i : same_shape h h' -> chain h i = chain h' i.
Proof. intros S. unfold chain. now apply same_shape_chain. Qed.

Record ofinv (l : lang) (h : heap) : Prop := {
  of_ok : heap_ok l h;
  of_vals : forall j k a b, j <> k -> In j (chain h k) -> In a (map snd (used_at h j)) ->
      In b (map snd (used_at h k)) -> ~ same_ident l a b;
  of_orig : forall j k a, j <> k -> In j (chain h k) -> In a (map snd (used_at h j)) -> dget (orig_at h k) a = None }.

Lemma vals_dset_incl (d : dict string) k v x : In x (map snd (dset d k v)) -> x = v \/ In x (map snd d).
Proof.
  intros H. apply in_map_iff in H. destruct H as ([k2 v2] & <- & H). apply pairs_dset in H.
  destruct H as [H|H]; [left; simpl; congruence|right]. apply (in_map snd) in H. exact H.
Qed.

Lemma of_add l h e s sym n :
  ofinv l h -> nth_error h e = Some s -> is_loop s = false ->
  (forall k, k <> e -> In e (chain h k) -> used_at h k = [] /\ orig_at h k = []) ->
  ~ reserved l n -> ~ in_use l n (all_used_symbols h e) ->
  ofinv l (put h e (add_name s sym n)).
Proof.
  intros [O V Q] E L N R U.
  assert (SS : same_shape h (put h e (add_name s sym n))) by (eapply put_same_shape; [exact E|reflexivity|reflexivity]).
  assert (OU : forall j, j <> e -> used_at (put h e (add_name s sym n)) j = used_at h j /\ orig_at (put h e (add_name s sym n)) j = orig_at h j).
  { intros j Nj. unfold used_at, orig_at. now rewrite put_other by auto. }
  assert (UE : used_at (put h e (add_name s sym n)) e = dset (used_at h e) sym n).
  { unfold used_at. now rewrite (put_same _ _ _ _ E), E. }
  assert (OE : orig_at (put h e (add_name s sym n)) e = dset (orig_at h e) n sym).
  { unfold orig_at. now rewrite (put_same _ _ _ _ E), E. }
  assert (F : forall j a, In j (chain h e) -> In a (map snd (used_at h j)) -> ~ same_ident l n a).
  { intros j a Hj Ha C. apply U. exists a. split; [|exact C]. unfold all_used_symbols. apply in_flat_map. eauto. }
  split.
  - eapply heap_ok_put; [exact O|exact E|reflexivity|reflexivity|].
    apply add_name_ok; [eapply O; eauto|exact R|eapply fresh_local; eauto].
  - intros j k a b Njk Hj Ha Hb. rewrite <- (same_shape_chain' _ _ _ SS) in Hj.
    destruct (Nat.eq_dec k e) as [->|Nk].
    + rewrite UE in Hb. rewrite (proj1 (OU j ltac:(auto))) in Ha.
      apply vals_dset_incl in Hb. destruct Hb as [->|Hb].
      * intros C. apply (F _ _ Hj Ha). apply same_ident_canon. apply same_ident_canon in C. congruence.
      * exact (V j e a b Njk Hj Ha Hb).
    + rewrite (proj1 (OU k Nk)) in Hb. destruct (Nat.eq_dec j e) as [->|Nj].
      * destruct (N k ltac:(auto) Hj) as [N1 _]. rewrite N1 in Hb. contradiction.
      * rewrite (proj1 (OU j Nj)) in Ha. exact (V j k a b Njk Hj Ha Hb).
  - intros j k a Njk Hj Ha. rewrite <- (same_shape_chain' _ _ _ SS) in Hj.
    destruct (Nat.eq_dec k e) as [->|Nk].
    + rewrite OE. rewrite (proj1 (OU j ltac:(auto))) in Ha. rewrite dget_dset_other; [exact (Q j e a Njk Hj Ha)|].
      intros ->. apply (F _ _ Hj Ha). apply same_ident_refl.
    + rewrite (proj2 (OU k Nk)). destruct (Nat.eq_dec j e) as [->|Nj].
      * destruct (N k ltac:(auto) Hj) as [_ N1]. now rewrite N1.
      * rewrite (proj1 (OU j Nj)) in Ha. exact (Q j k a Njk Hj Ha).
Qed.

Lemma of_insert l h i sym ctx h' n : ofinv l h -> nothing_inside h i ->
  insert_symbol l h i sym ctx = POk (h', n) -> ofinv l h'.
Proof.
  intros I N H. unfold insert_symbol in H. destruct (insert_has_home _ _ _ _ _ _ _ _ H) as (e & He).
  destruct (insert_symbol_home l h i e sym ctx (proj1 (of_ok _ _ I)) He (S i) ltac:(lia)) as (c & _ & _ & C3).
  rewrite C3 in H. destruct (home_not_loop _ _ _ He) as (s & E & L).
  rewrite (insert_at_home _ _ _ _ _ _ E L) in H.
  destruct (dget (sc_used s) sym); [injection H as <- _; exact I|].
  destruct (get_collisionless_name _ _ _ _ _ _) as [m|er|] eqn:C; cbn [pbind] in H; try discriminate.
  injection H as <- <-. apply gcn_result in C. destruct C as [C1 C2]. apply of_add; auto.
  intros k Nk Hk. exact (N e k He Nk Hk).
Qed.

Lemma of_dummy l h i s d : ofinv l h -> nth_error h i = Some s -> ofinv l (put h i (set_dummy s d)).
Proof.
  intros [O V Q] E.
  assert (SS : same_shape h (put h i (set_dummy s d))) by (eapply put_same_shape; [exact E|reflexivity|reflexivity]).
  assert (OU : forall j, used_at (put h i (set_dummy s d)) j = used_at h j /\ orig_at (put h i (set_dummy s d)) j = orig_at h j).
  { intros j. unfold used_at, orig_at. destruct (Nat.eq_dec i j) as [<-|Nj].
    - now rewrite (put_same _ _ _ _ E), E.
    - now rewrite put_other by auto. }
  split.
  - eapply heap_ok_put; [exact O|exact E|reflexivity|reflexivity|]. apply set_dummy_ok. eapply O; eauto.
  - intros j k a b. rewrite <- (same_shape_chain' _ _ _ SS), (proj1 (OU j)), (proj1 (OU k)). apply V.
  - intros j k a. rewrite <- (same_shape_chain' _ _ _ SS), (proj1 (OU j)), (proj2 (OU k)). apply Q.
Qed.

Lemma of_finish l h i nn ctx h' n : ofinv l h -> Home h i i -> nothing_inside h i ->
  finish_new_name l h i nn ctx = POk (h', n) -> ofinv l h'.
Proof.
  intros I Hi N H. destruct (home_not_loop _ _ _ Hi) as (s & E & L).
  unfold finish_new_name in H. rewrite E in H.
  destruct (get_collisionless_name _ _ _ _ _ _) as [m|er|] eqn:C; cbn [pbind] in H; try discriminate.
  apply gcn_result in C. destruct C as [C1 C2].
  change (set_orig (set_used s (dset (sc_used s) m m)) (dset (sc_orig (set_used s (dset (sc_used s) m m))) m m))
    with (add_name s m m) in H.
  unfold insert_symbol in H.
  rewrite (insert_at_home _ _ _ (add_name s m m)) in H; [|exact (put_same _ _ _ _ E)|exact L].
  cbn [add_name set_orig set_used sc_used] in H. rewrite dget_dset_same in H.
  injection H as <- _. change (ofinv l (put h i (add_name s m m))). apply of_add; auto.
  intros k Nk Hk. exact (N i k Hi Nk Hk).
Qed.

Lemma of_app l h x i : ofinv l h -> i < List.length h -> sc_parent x = Some i -> sc_used x = [] -> sc_orig x = [] ->
  scope_ok l x -> ofinv l (h ++ [x]).
Proof.
  intros [O V Q] Li P U Or S. pose proof (proj1 O) as W.
  assert (W' : well_founded_heap (h ++ [x])) by (eapply (proj1 (heap_ok_app l h x i O Li P S))).
  assert (OU : forall k, used_at (h ++ [x]) k = used_at h k /\ orig_at (h ++ [x]) k = orig_at h k).
  { intros k. unfold used_at, orig_at. destruct (Nat.lt_ge_cases k (List.length h)) as [Lk|Lk].
    - now rewrite nth_error_app1 by assumption.
    - rewrite (proj2 (nth_error_None h k)) by assumption. rewrite nth_error_app2 by assumption.
      destruct (k - List.length h) as [|[|?]]; simpl; auto. }
  assert (K : forall j k, j <> k -> In j (chain (h ++ [x]) k) -> used_at h k <> [] \/ orig_at h k <> [] -> In j (chain h k)).
  { intros j k Nj Hj X. unfold chain in *. rewrite chain_app in Hj; trivial.
    destruct (Nat.lt_ge_cases k (List.length h)) as [Lk|Lk]; [exact Lk|].
    unfold used_at, orig_at in X. rewrite (proj2 (nth_error_None h k)) in X by assumption. destruct X; congruence. }
  split.
  - eapply heap_ok_app; eauto.
  - intros j k a b Njk Hj Ha Hb. rewrite (proj1 (OU j)) in Ha. rewrite (proj1 (OU k)) in Hb.
    apply (V j k); auto. apply K; auto. left. intros Z. rewrite Z in Hb. contradiction.
  - intros j k a Njk Hj Ha. rewrite (proj1 (OU j)) in Ha. rewrite (proj2 (OU k)).
    destruct (orig_at h k) as [|y ys] eqn:Y; [reflexivity|]. rewrite <- Y.
    apply (Q j k); auto. apply K; auto. right. congruence.
Qed.

Lemma of_step l h o h' : ofinv l h -> outer_first_op h o -> step l h o = POk h' -> ofinv l h'.
Proof.
  intros I PO H. destruct o as [i n t|i|i s c|i n c|i p k|i s]; cbn [step outer_first_op] in *.
  - unfold new_child_scope in H. destruct (nth_error h i) as [s|] eqn:E; [|discriminate].
    assert (L : i < List.length h) by (apply nth_error_Some; congruence).
    destruct t; try discriminate; cbn [pbind fst] in H; injection H as <-;
      (eapply of_app; [exact I|exact L|reflexivity|reflexivity|reflexivity|apply empty_scope_ok]).
  - unfold create_new_loop_scope in H. destruct (nth_error h i) as [s|] eqn:E; [|discriminate].
    assert (L : i < List.length h) by (apply nth_error_Some; congruence).
    cbn [pbind fst] in H; injection H as <-.
    eapply of_app; [exact I|exact L|reflexivity|reflexivity|reflexivity|apply empty_scope_ok].
  - destruct (insert_symbol l h i s c) as [[h1 n]|e|] eqn:E; cbn [pbind] in H; try discriminate.
    injection H as <-. eapply of_insert; eauto.
  - destruct PO as [Hi N].
    destruct (get_new_name l h i n c) as [[h1 m]|e|] eqn:E; cbn [pbind] in H; try discriminate.
    injection H as <-. cbn [fst]. unfold get_new_name in E. destruct (nth_error h i) as [s|] eqn:Es; [|discriminate].
    destruct n as [cn|].
    + destruct (negb _); [eapply of_insert; eauto|].
      destruct (create_incremented_string _ _ _ _) as [r|er|]; cbn [pbind] in E; try discriminate.
      eapply of_finish; eauto.
    + destruct (create_incremented_string _ _ _ _) as [r|er|]; cbn [pbind] in E; try discriminate.
      assert (SS : same_shape h (put h i (set_dummy s (snd r)))) by (eapply put_same_shape; [exact Es|reflexivity|reflexivity]).
      eapply of_finish; [apply of_dummy; eassumption|eapply same_shape_home; eauto| |exact E].
      intros e k He Nk Hk. apply (same_shape_home _ h) in He; [|now apply same_shape_sym].
      rewrite <- (same_shape_chain' _ _ _ SS) in Hk. destruct (N e k He Nk Hk) as [N1 N2].
      unfold used_at, orig_at in *. destruct (Nat.eq_dec i k) as [<-|Nik].
      * rewrite Es in N1, N2. rewrite (put_same _ _ _ _ Es). auto.
      * rewrite put_other by assumption. auto.
  - unfold get_new_incremented_symbol in H.
    destruct (create_incremented_string _ _ _ _) as [[nn c]|e|]; cbn [pbind] in H; try discriminate.
    destruct (insert_symbol l h i nn CVariable) as [[h1 m]|e|] eqn:E; cbn [pbind] in H; try discriminate.
    injection H as <-. eapply of_insert; eauto.
  - pose proof (step_ok l h (ORemove i s) h' (of_ok _ _ I) H) as O'.
    unfold remove_symbol in H. destruct (nth_error h i) as [x|] eqn:E; [|discriminate].
    destruct (dget (sc_used x) s) as [v|] eqn:G; [|injection H as <-; exact I].
    destruct (dget (sc_orig x) v) eqn:G2; [|discriminate]. injection H as <-.
    set (x' := set_orig _ _) in *.
    assert (SS : same_shape h (put h i x')) by (eapply put_same_shape; [exact E|reflexivity|reflexivity]).
    assert (VI : forall j a, In a (map snd (used_at (put h i x') j)) -> In a (map snd (used_at h j))).
    { intros j a Ha. unfold used_at in *. destruct (Nat.eq_dec i j) as [<-|Nj].
      - rewrite (put_same _ _ _ _ E) in Ha. rewrite E. unfold x' in Ha. simpl in Ha.
        apply in_map_iff in Ha. destruct Ha as ([k2 v2] & <- & Ha). apply in_map_iff. exists (k2, v2). split; [reflexivity|].
        clear -Ha. induction (sc_used x) as [|[k' v'] d IH]; simpl in *; [contradiction|].
        destruct (String.eqb s k'); [now right|]. destruct Ha as [Ha|Ha]; [now left|right; auto].
      - now rewrite put_other in Ha by auto. }
    split; [exact O'| |].
    + intros j k a b Njk Hj Ha Hb. rewrite <- (same_shape_chain' _ _ _ SS) in Hj.
      eapply (of_vals _ _ I); eauto.
    + intros j k a Njk Hj Ha. rewrite <- (same_shape_chain' _ _ _ SS) in Hj. apply VI in Ha.
      pose proof (of_orig _ _ I j k a Njk Hj Ha) as Z. unfold orig_at in *.
      destruct (Nat.eq_dec i k) as [<-|Nk].
      * rewrite (put_same _ _ _ _ E). rewrite E in Z. unfold x'. simpl.
        rewrite dget_ddel by (eapply (proj2 (of_ok _ _ I)); eauto). now destruct (String.eqb a v).
      * now rewrite put_other by auto.
Qed.

Lemma of_run l os : forall h h', ofinv l h -> run_outer_first l os h h' -> ofinv l h'.
Proof.
  induction os as [|o os IH]; intros h h' I R; cbn [run_outer_first] in R; [now subst|].
  destruct R as (P & h1 & E & R). eapply IH; [|exact R]. eapply of_step; eauto.
Qed.

Lemma root_of l t name : ofinv l [root_scope t name].
Proof.
  assert (U : forall k, used_at [root_scope t name] k = [] /\ orig_at [root_scope t name] k = []).
  { intros [|[|k]]; split; reflexivity. }
  split; [apply root_ok| |].
  - intros j k a b _ _ Ha. rewrite (proj1 (U j)) in Ha. contradiction.
  - intros j k a _ _ Ha. rewrite (proj1 (U j)) in Ha. contradiction.
Qed.

Lemma outer_first_distinct l os t name h i j k p q a b :
  run_outer_first l os [root_scope t name] h ->
  In j (chain h i) -> In k (chain h i) ->
  dget (used_at h j) p = Some a -> dget (used_at h k) q = Some b -> (j, p) <> (k, q) ->
  ~ same_ident l a b.
Proof.
  intros R Hj Hk Hp Hq N. apply of_run in R; [|apply root_of]. pose proof (proj1 (of_ok _ _ R)) as W.
  destruct (Nat.eq_dec j k) as [->|Njk].
  - assert (p <> q) by congruence. unfold used_at in *. destruct (nth_error h k) as [s|] eqn:E; [|discriminate].
    pose proof (proj2 (of_ok _ _ R) _ _ E) as [_ _ S _ _]. eapply S; eauto.
  - apply dget_vals in Hp, Hq. destruct (chain_linear h W i j k Hj Hk) as [C|C].
    + eapply (of_vals _ _ R); eauto.
    + intros X. assert (~ same_ident l b a) by (eapply (of_vals _ _ R k j); eauto).
      apply H. apply same_ident_canon. apply same_ident_canon in X. congruence.
Qed.

Lemma chain_get_in d js k v : chain_get d js k = Some v -> exists j, In j js /\ dget (d j) k = Some v.
Proof.
  induction js as [|j js IH]; simpl; [discriminate|]. destruct (dget (d j) k) eqn:E.
  - intros H. injection H as <-. eauto.
  - intros H. destruct (IH H) as (j' & A & B). eauto.
Qed.

Lemma outer_first_back l os t name h i p a :
  run_outer_first l os [root_scope t name] h -> p <> "_" ->
  get_expected_name l h i p = POk (h, a) -> get_python_name h i a = POk p.
Proof.
  intros R Np H. apply of_run in R; [|apply root_of]. pose proof (proj1 (of_ok _ _ R)) as W.
  unfold get_expected_name in H. destruct (String.eqb_spec p "_"); [congruence|].
  destruct (chain_get (used_at h) (chain h i) p) as [v|] eqn:C; [|discriminate]. injection H as ->.
  unfold get_python_name.
  assert (G : chain_get (orig_at h) (chain h i) a = Some p); [|now rewrite G].
  clear n. revert C. induction i as [i IH] using lt_wf_ind. rewrite chain_eq by assumption.
  destruct (nth_error h i) as [s|] eqn:E; [|discriminate]. cbn [chain_get].
  destruct (dget (used_at h i) p) as [v|] eqn:D.
  - intros X. injection X as ->. unfold used_at in D. rewrite E in D.
    pose proof (proj2 (of_ok _ _ R) _ _ E) as [_ _ _ _ S]. unfold orig_at. rewrite E. now rewrite (S _ _ D).
  - destruct (sc_parent s) as [q|] eqn:P; [|discriminate]. intros X.
    destruct (chain_get_in _ _ _ _ X) as (j & J1 & J2).
    pose proof (W _ _ _ E P). pose proof (chain_le _ _ W _ J1).
    rewrite (of_orig _ _ R j i a).
    + apply IH; auto.
    + lia.
    + rewrite chain_eq, E, P by assumption. now right.
    + eapply dget_vals; eauto.
Qed.

(* deciding nothing_inside, for examples *)
Definition nothing_b (h : heap) (e : nat) : bool :=
  forallb (fun k => (k =? e) || negb (existsb (Nat.eqb e) (chain h k))
                    || (match used_at h k, orig_at h k with [], [] => true | _, _ => false end)) (seq 0 (List.length h)).

Lemma nothing_b_ok h i e : Home h i e -> nothing_b h e = true -> nothing_inside h i.
Proof.
  intros He B e' k He' Nk Hk. assert (e' = e) by (eapply home_fun; eauto). subst e'.
  unfold nothing_b in B. rewrite forallb_forall in B.
  destruct (Nat.lt_ge_cases k (List.length h)) as [L|L].
  - specialize (B k). rewrite in_seq in B. specialize (B ltac:(lia)).
    rewrite (proj2 (Nat.eqb_neq k e) Nk) in B. cbn [orb] in B.
    assert (X : existsb (Nat.eqb e) (chain h k) = true) by (apply existsb_exists; exists e; split; [exact Hk|apply Nat.eqb_refl]).
    rewrite X in B. cbn [negb orb] in B. destruct (used_at h k), (orig_at h k); try discriminate; auto.
  - unfold used_at, orig_at. rewrite (proj2 (nth_error_None h k)) by exact L. auto.
Qed.
