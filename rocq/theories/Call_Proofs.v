(* Lemmas for Call_Thms.v: calls in translated code. *)
From Coq Require Import Bool Arith ZArith Lia List.
From Verif Require Import Call_Model Call_Spec.
Import ListNotations.
Open Scope list_scope.

Definition oapp {A : Type} (a b : option (list A)) : option (list A) :=
  match a, b with Some x, Some y => Some (x ++ y) | _, _ => None end.
Lemma oapp_assoc : forall (A : Type) (a b c : option (list A)), oapp a (oapp b c) = oapp (oapp a b) c.
Proof. intros A [a|] [b|] [c|]; cbn; auto. rewrite app_assoc. auto. Qed.
Lemma oapp_nil_r : forall (A : Type) (a : option (list A)), oapp a (Some []) = a.
Proof. intros A [a|]; cbn; auto. rewrite app_nil_r. auto. Qed.
Lemma oapp_none_r : forall (A : Type) (a : option (list A)), oapp a None = None.
Proof. intros A [a|]; auto. Qed.

Lemma py_bind_oapp : forall s pos kws,
  py_bind s pos kws =
  oapp (bind_positional (positional s) pos kws)
    (oapp (collect (vararg s) BTuple (extra_positional s pos))
       (oapp (bind_keyword_only (kwonly s) kws) (collect (kwarg s) BDict (extra_keywords s kws)))).
Proof.
  intros s pos kws. unfold py_bind.
  destruct (bind_positional _ _ _), (collect (vararg s) _ _), (bind_keyword_only _ _), (collect (kwarg s) _ _); auto.
Qed.

(* ------------------------------ the parameters ------------------------------ *)

Definition named (s : sig) : list (nat * option val) :=
  combine (args s) (repeat None (length (args s) - length (defaults s)) ++ map Some (defaults s)).
Definition arg_po (n : nat) : arg := mk_arg n KPosOnly None.
Definition arg_n (p : nat * option val) : arg := mk_arg (fst p) KNormal (snd p).
Definition arg_k (p : nat * option val) : arg := mk_arg (fst p) KKwOnly (snd p).
Definition arg_v (o : option nat) : list arg := match o with Some n => [mk_arg n KVararg None] | None => [] end.
Definition arg_d (o : option nat) : list arg := match o with Some n => [mk_arg n KKwarg None] | None => [] end.
Definition par_po (n : nat) : bool * nat * option val := (false, n, None).
Definition par_n (p : nat * option val) : bool * nat * option val := (true, fst p, snd p).

Lemma combine_repeat : forall (A B C : Type) (f : A -> C) (b : B) (l : list A), combine (map f l) (repeat b (length l)) = map (fun x => (f x, b)) l.
Proof. induction l; cbn; congruence. Qed.
Lemma combine_app_eq : forall (A B : Type) (l1 l2 : list A) (m1 m2 : list B), length l1 = length m1 -> combine (l1 ++ l2) (m1 ++ m2) = combine l1 m1 ++ combine l2 m2.
Proof. induction l1; intros l2 [|y m1] m2 H; cbn in *; try discriminate; auto. f_equal. apply IHl1. lia. Qed.
Lemma combine_map_l : forall (A B C : Type) (f : A -> C) (l : list A) (m : list B), combine (map f l) m = map (fun p => (f (fst p), snd p)) (combine l m).
Proof. induction l; intros [|y m]; cbn; auto. f_equal. apply IHl. Qed.
Lemma repeat_plus : forall (A : Type) (x : A) n m, repeat x (n + m) = repeat x n ++ repeat x m.
Proof. induction n; cbn; intros; congruence. Qed.

Lemma positional_eq : forall s, no_posonly_default s -> positional s = map par_po (posonly s) ++ map par_n (named s).
Proof.
  intros s H. unfold positional, named, no_posonly_default in *.
  rewrite app_length, !map_length.
  replace (length (posonly s) + length (args s) - length (defaults s)) with (length (posonly s) + (length (args s) - length (defaults s))) by lia.
  rewrite repeat_plus, <- app_assoc.
  rewrite combine_app_eq by (rewrite map_length, repeat_length; auto).
  rewrite combine_repeat. f_equal.
  rewrite combine_map_l. apply map_ext. intros [n d]. auto.
Qed.

Lemma take_drop_eq : forall (l : list nat) (ds : list val), length ds <= length l ->
  map (fun n => mk_arg n KNormal None) (firstn (length l - length ds) l)
  ++ map (fun p => mk_arg (fst p) KNormal (Some (snd p))) (combine (skipn (length l - length ds) l) ds)
  = map arg_n (combine l (repeat None (length l - length ds) ++ map Some ds)).
Proof.
  intros l ds H.
  set (m := repeat None (length l - length ds) ++ map Some ds).
  replace (combine l m) with (combine (firstn (length l - length ds) l ++ skipn (length l - length ds) l) m) by (rewrite firstn_skipn; auto).
  unfold m.
  rewrite combine_app_eq by (rewrite firstn_length, repeat_length; lia).
  rewrite map_app. f_equal.
  - remember (firstn (length l - length ds) l) as a.
    replace (length l - length ds) with (length a) by (subst a; rewrite firstn_length; lia).
    clear. induction a; cbn; auto. f_equal. auto.
  - remember (skipn (length l - length ds) l) as b. clear. revert ds.
    induction b; intros [|d ds]; cbn; auto. f_equal. apply IHb.
Qed.

Lemma visit_eq : forall s, no_posonly_default s ->
  visit_arguments s = map arg_po (posonly s) ++ map arg_n (named s) ++ arg_v (vararg s) ++ map arg_k (kwonly s) ++ arg_d (kwarg s).
Proof.
  intros s H. unfold visit_arguments. unfold no_posonly_default in H.
  f_equal. rewrite !app_assoc. f_equal. f_equal. f_equal.
  unfold py_take, py_drop.
  replace (Z.of_nat (length (args s)) - Z.of_nat (length (defaults s)) <? 0)%Z with false by (symmetry; apply Z.ltb_ge; lia).
  replace (Z.to_nat (Z.of_nat (length (args s)) - Z.of_nat (length (defaults s)))) with (length (args s) - length (defaults s)) by lia.
  apply take_drop_eq. auto.
Qed.

Lemma named_fst : forall s, no_posonly_default s -> map fst (named s) = args s.
Proof.
  intros s H. unfold named, no_posonly_default in *.
  assert (G : forall (A B : Type) (l : list A) (m : list B), length l = length m -> map fst (combine l m) = l).
  { induction l; intros [|y m] E; cbn in *; try discriminate; auto. f_equal. apply IHl. lia. }
  apply G. rewrite app_length, repeat_length, map_length. lia.
Qed.

(* ------------------------------ keywords ------------------------------ *)

Definition without (names : list nat) (kws : list (nat * val)) : list (nat * val) := filter (fun p => negb (existsb (Nat.eqb (fst p)) names)) kws.

Lemma filter_filter : forall (A : Type) (f g : A -> bool) l, filter f (filter g l) = filter (fun x => g x && f x) l.
Proof. induction l; cbn; auto. destruct (g a) eqn:G; cbn; [destruct (f a); cbn; rewrite IHl; auto|rewrite IHl; auto]. Qed.
Lemma without_cons : forall n names kws, without names (remove_key n kws) = without (n :: names) kws.
Proof. intros. unfold without, remove_key. rewrite filter_filter. apply filter_ext. intros [m v]. cbn. rewrite negb_orb. auto. Qed.
Lemma without_app : forall l1 l2 kws, without l2 (without l1 kws) = without (l1 ++ l2) kws.
Proof. intros. unfold without. rewrite filter_filter. apply filter_ext. intros [m v]. cbn. rewrite existsb_app, negb_orb. auto. Qed.
Lemma without_nil : forall kws, without [] kws = kws.
Proof. unfold without. induction kws as [|p kws IH]; cbn in *; auto. rewrite IH. auto. Qed.
Lemma lookup_without : forall n names kws, ~ In n names -> lookup n (without names kws) = lookup n kws.
Proof.
  intros n names kws H. unfold without. induction kws as [|[m v] kws IH]; cbn; auto.
  destruct (existsb (Nat.eqb m) names) eqn:E; cbn.
  - destruct (Nat.eqb m n) eqn:F; auto. exfalso. apply Nat.eqb_eq in F. subst m.
    apply existsb_exists in E. destruct E as [x [I J]]. apply Nat.eqb_eq in J. subst. auto.
  - rewrite IH. auto.
Qed.
Lemma lookup_remove : forall n m kws, m <> n -> lookup n (remove_key m kws) = lookup n kws.
Proof.
  intros n m kws H. assert (E : remove_key m kws = without [m] kws).
  { rewrite <- (without_nil (remove_key m kws)). apply without_cons. }
  rewrite E. apply lookup_without. intros [J|J]; auto.
Qed.
Lemma lookup_mem : forall n kws, mem n kws = match lookup n kws with Some _ => true | None => false end.
Proof. intros n kws. induction kws as [|[m v] kws IH]; cbn; auto. unfold mem in *. cbn. destruct (Nat.eqb m n); cbn; auto. Qed.
(* names that are not there need not be removed *)
Lemma without_absent : forall l1 l2 kws, (forall n, In n l1 -> mem n kws = false) -> without (l1 ++ l2) kws = without l2 kws.
Proof.
  intros l1 l2 kws H. unfold without. apply filter_ext_in. intros [m v] I. cbn. rewrite existsb_app.
  destruct (existsb (Nat.eqb m) l1) eqn:E; auto. exfalso.
  apply existsb_exists in E. destruct E as [x [J K]]. apply Nat.eqb_eq in K. subst x.
  specialize (H m J). unfold mem in H. assert (X : existsb (fun p => Nat.eqb (fst p) m) kws = true).
  { apply existsb_exists. exists (m, v). split; auto. cbn. apply Nat.eqb_refl. }
  congruence.
Qed.
Lemma without_present : forall n names kws, mem n kws = true -> ~ In n names -> without names kws <> [].
Proof.
  intros n names kws H N E. unfold mem in H. apply existsb_exists in H. destruct H as [[m v] [I J]]. cbn in J. apply Nat.eqb_eq in J. subst m.
  assert (X : In (n, v) (without names kws)).
  { unfold without. apply filter_In. split; auto. cbn. destruct (existsb (Nat.eqb n) names) eqn:F; auto.
    apply existsb_exists in F. destruct F as [x [K L]]. apply Nat.eqb_eq in L. subst. contradiction. }
  rewrite E in X. destruct X.
Qed.

(* ------------------------------ fill ------------------------------ *)

Definition choose (kws : list (nat * val)) (p : nat * option val) : option bound :=
  option_map BVal (match lookup (fst p) kws with Some v => Some v | None => snd p end).

Lemma fill_app : forall l1 l2 kws, fill (l1 ++ l2) kws = let (a, k) := fill l1 kws in let (b, k') := fill l2 k in (a ++ b, k').
Proof.
  induction l1 as [|a l1 IH]; intros l2 kws; cbn.
  - destruct (fill l2 kws); auto.
  - destruct (is_vararg a).
    + rewrite IH. destruct (fill l1 kws) as [x k]. destruct (fill l2 k); auto.
    + destruct (is_kwarg a).
      * rewrite IH. auto.
      * rewrite IH. destruct (fill l1 (remove_key (a_name a) kws)) as [x k]. destruct (fill l2 k); auto.
Qed.
Lemma fill_named : forall (mk : nat * option val -> arg),
  (forall p, is_vararg (mk p) = false /\ is_kwarg (mk p) = false /\ a_name (mk p) = fst p /\ a_value (mk p) = snd p) ->
  forall ps kws, NoDup (map fst ps) -> fill (map mk ps) kws = (map (choose kws) ps, without (map fst ps) kws).
Proof.
  intros mk M. induction ps as [|p ps IH]; intros kws N; cbn [map fill].
  - rewrite without_nil. auto.
  - destruct (M p) as [M1 [M2 [M3 M4]]]. rewrite M1, M2, M3, M4.
    inversion N; subst. rewrite IH by auto. f_equal.
    + f_equal. apply map_ext_in. intros q I. unfold choose. rewrite lookup_remove; auto.
      intro E. apply H1. rewrite E. apply in_map. auto.
    + apply without_cons.
Qed.
Lemma fill_d : forall o kws, fill (arg_d o) kws = ([], kws).
Proof. intros [n|] kws; auto. Qed.
Lemma fill_v : forall o kws, fill (arg_v o) kws = (match o with Some _ => [Some (BTuple [])] | None => [] end, kws).
Proof. intros [n|] kws; auto. Qed.

(* ------------------------------ what is given to each parameter ------------------------------ *)

Lemma all_bound_app : forall f1 f2 l1 l2, length f1 = length l1 -> all_bound (f1 ++ f2) (l1 ++ l2) = oapp (all_bound f1 l1) (all_bound f2 l2).
Proof.
  induction f1 as [|a f1 IH]; intros f2 [|b l1] l2 H; cbn in *; try discriminate.
  - destruct (all_bound f2 l2); auto.
  - destruct b as [b|]; auto. rewrite IH by lia. destruct (all_bound f1 l1), (all_bound f2 l2); auto.
Qed.
Lemma all_bound_short : forall f l, (length f <> length l)%nat -> all_bound f l = None.
Proof.
  induction f as [|a f IH]; intros [|[b|] l] H; cbn in *; auto; try lia.
  rewrite IH by lia. auto.
Qed.
Lemma all_bound_pos : forall (f : list arg) (pos : list val), length f = length pos ->
  all_bound f (map (fun v => Some (BVal v)) pos) = Some (combine (map a_name f) (map BVal pos)).
Proof.
  induction f as [|a f IH]; intros [|v pos] H; cbn in *; try discriminate; auto.
  rewrite IH by lia. auto.
Qed.

Lemma bind_app : forall ps1 ps2 pos kws, bind_positional (ps1 ++ ps2) pos kws = oapp (bind_positional ps1 pos kws) (bind_positional ps2 (skipn (length ps1) pos) kws).
Proof.
  induction ps1 as [|[[b n] d] ps1 IH]; intros ps2 pos kws; cbn [app bind_positional length].
  - cbn. destruct (bind_positional ps2 pos kws); auto.
  - rewrite IH. replace (skipn (S (length ps1)) pos) with (skipn (length ps1) (tl pos)).
    2:{ destruct pos; cbn; auto. apply skipn_nil. }
    destruct (match pos with [] => _ | _ :: _ => _ end); auto.
    destruct (bind_positional ps1 (tl pos) kws), (bind_positional ps2 (skipn (length ps1) (tl pos)) kws); auto.
Qed.
(* only the first positional arguments are used *)
Lemma bind_firstn : forall ps pos kws, bind_positional ps (firstn (length ps) pos) kws = bind_positional ps pos kws.
Proof.
  induction ps as [|[[b n] d] ps IH]; intros pos kws; auto.
  destruct pos as [|v pos]; cbn [length firstn].
  - auto.
  - cbn [bind_positional tl]. rewrite IH. auto.
Qed.
Lemma bind_po : forall ns pos kws, length ns <= length pos ->
  bind_positional (map par_po ns) pos kws = Some (combine ns (map BVal (firstn (length ns) pos))).
Proof.
  induction ns as [|n ns IH]; intros [|v pos] kws H; cbn in *; auto; try lia.
  rewrite IH by lia. auto.
Qed.
Lemma bind_po_short : forall ns pos kws, length pos < length ns -> bind_positional (map par_po ns) pos kws = None.
Proof.
  induction ns as [|n ns IH]; intros pos kws H; cbn in *; [lia|].
  destruct pos as [|v pos]; cbn in *; auto. rewrite IH by lia. auto.
Qed.
Lemma bind_n_full : forall ps pos kws, length ps <= length pos ->
  bind_positional (map par_n ps) pos kws =
  if existsb (fun p => mem (fst p) kws) ps then None else Some (combine (map fst ps) (map BVal (firstn (length ps) pos))).
Proof.
  induction ps as [|p ps IH]; intros [|v pos] kws H; cbn in *; auto; try lia.
  destruct (mem (fst p) kws); cbn; auto. rewrite IH by lia.
  destruct (existsb _ ps); auto.
Qed.
Lemma bind_n_none : forall ps kws, bind_positional (map par_n ps) [] kws = all_bound (map arg_n ps) (map (choose kws) ps).
Proof.
  induction ps as [|p ps IH]; intros kws; cbn [map bind_positional all_bound tl par_n]; auto.
  rewrite IH. cbn [a_name arg_n]. remember (all_bound (map arg_n ps) (map (choose kws) ps)) as r eqn:R. clear R IH.
  unfold choose. destruct (match lookup (fst p) kws with Some v => Some v | None => snd p end); cbn; auto.
Qed.
Lemma bind_k : forall ps kws, bind_keyword_only ps kws = all_bound (map arg_k ps) (map (choose kws) ps).
Proof.
  induction ps as [|[n d] ps IH]; intros kws; cbn [map bind_keyword_only all_bound]; auto.
  rewrite IH. cbn [a_name arg_k]. remember (all_bound (map arg_k ps) (map (choose kws) ps)) as r eqn:R. clear R IH.
  unfold choose. cbn [fst snd]. destruct (match lookup n kws with Some v => Some v | None => d end); cbn; auto.
Qed.

(* ------------------------------ indices ------------------------------ *)

Lemma index_app : forall p l1 l2, (forall a, In a l1 -> p a = false) -> index_of p (l1 ++ l2) = length l1 + index_of p l2.
Proof. induction l1; intros l2 H; cbn; auto. rewrite H by (left; auto). f_equal. apply IHl1. intros; apply H; right; auto. Qed.
Lemma index_none : forall p l, (forall a, In a l -> p a = false) -> index_of p l = length l.
Proof. intros. rewrite <- (app_nil_r l) at 1. rewrite index_app; auto. Qed.

Lemma n_posonly_eq : forall ns l, (forall a, In a l -> is_posonly a = false) -> index_of (fun a => negb (is_posonly a)) (map arg_po ns ++ l) = length ns.
Proof.
  intros ns l H. rewrite index_app.
  - rewrite map_length. destruct l as [|a l]; cbn; auto. rewrite (H a) by (left; auto). cbn. auto.
  - intros a I. apply in_map_iff in I. destruct I as [n [E _]]. subst. auto.
Qed.

Lemma last_kwarg : forall l o, (forall a, In a l -> is_kwarg a = false) ->
  existsb is_kwarg (match rev (l ++ arg_d o) with a :: _ => [a] | [] => [] end) = match o with Some _ => true | None => false end.
Proof.
  intros l o H. rewrite rev_app_distr. destruct o as [n|]; cbn; auto.
  destruct (rev l) as [|a r] eqn:E; cbn; auto. rewrite H; auto. apply in_rev. rewrite E. left. auto.
Qed.

(* ------------------------------ calls ------------------------------ *)

(* the end of a call: what is left of the keywords *)
Definition finish (o : option nat) (k : list (nat * val)) (l : list (option bound)) : option (list (option bound)) :=
  match k with
  | [] => Some l
  | _ :: _ => match o with Some _ => Some (l ++ [Some (BDict k)]) | None => None end
  end.

Lemma all_finish : forall o k l f,
  (length f = length l)%nat -> (o = None \/ k <> []) ->
  match finish o k l with Some r => all_bound (f ++ arg_d o) r | None => None end = oapp (all_bound f l) (collect o BDict k).
Proof.
  intros o k l f H C. unfold finish, collect. destruct k as [|p k]; destruct o as [n|]; cbn [arg_d].
  - destruct C; [discriminate|congruence].
  - rewrite app_nil_r. rewrite oapp_nil_r. auto.
  - rewrite all_bound_app by auto. cbn. auto.
  - rewrite oapp_none_r. auto.
Qed.


Lemma NoDup_app_parts : forall (A : Type) (l1 l2 : list A), NoDup (l1 ++ l2) -> NoDup l1 /\ NoDup l2 /\ forall x, In x l1 -> ~ In x l2.
Proof.
  induction l1 as [|a l1 IH]; intros l2 H; cbn in *.
  - repeat split; auto. constructor.
  - inversion H; subst. destruct (IH _ H3) as [A1 [A2 A3]]. repeat split; auto.
    + constructor; auto. intro I. apply H2. apply in_or_app. auto.
    + intros x [E|I] J. * subst. apply H2. apply in_or_app. auto. * eapply A3; eauto.
Qed.

Lemma kinds : forall s a, In a (map arg_n (named s) ++ arg_v (vararg s) ++ map arg_k (kwonly s) ++ arg_d (kwarg s)) -> is_posonly a = false.
Proof.
  intros s a I. rewrite !in_app_iff in I. destruct I as [I|[I|[I|I]]].
  - apply in_map_iff in I. destruct I as [x [E _]]. subst. auto.
  - destruct (vararg s); cbn in I; [destruct I as [I|I]; [subst; auto|destruct I]|destruct I].
  - apply in_map_iff in I. destruct I as [x [E _]]. subst. auto.
  - destruct (kwarg s); cbn in I; [destruct I as [I|I]; [subst; auto|destruct I]|destruct I].
Qed.
Lemma kinds_kw : forall s a, In a (map arg_po (posonly s) ++ map arg_n (named s) ++ arg_v (vararg s) ++ map arg_k (kwonly s)) -> is_kwarg a = false.
Proof.
  intros s a I. rewrite !in_app_iff in I. destruct I as [I|[I|[I|I]]].
  - apply in_map_iff in I. destruct I as [x [E _]]. subst. auto.
  - apply in_map_iff in I. destruct I as [x [E _]]. subst. auto.
  - destruct (vararg s); cbn in I; [destruct I as [I|I]; [subst; auto|destruct I]|destruct I].
  - apply in_map_iff in I. destruct I as [x [E _]]. subst. auto.
Qed.

Lemma named_len : forall s, no_posonly_default s -> length (named s) = length (args s).
Proof. intros s H. rewrite <- (map_length fst (named s)). rewrite named_fst; auto. Qed.

Lemma skipn_map' : forall (A B : Type) (f : A -> B) n l, skipn n (map f l) = map f (skipn n l).
Proof. induction n; intros [|a l]; cbn; auto. Qed.
Lemma firstn_map' : forall (A B : Type) (f : A -> B) n l, firstn n (map f l) = map f (firstn n l).
Proof. induction n; intros [|a l]; cbn; auto. f_equal. auto. Qed.
Lemma NoDup_skipn : forall (A : Type) n (l : list A), NoDup l -> NoDup (skipn n l).
Proof. intros A n l H. rewrite <- (firstn_skipn n l) in H. apply NoDup_app_parts in H. tauto. Qed.

(* which keywords are left *)
Lemma left_over : forall s j kws,
  no_posonly_default s ->
  (forall p, In p (firstn j (named s)) -> mem (fst p) kws = false) ->
  without (map fst (skipn j (named s)) ++ map fst (kwonly s)) kws = extra_keywords s kws.
Proof.
  intros s j kws H A. unfold extra_keywords. fold (without (args s ++ map fst (kwonly s)) kws).
  rewrite <- (named_fst s H). rewrite <- (firstn_skipn j (named s)) at 2. rewrite map_app, <- app_assoc.
  symmetry. apply without_absent. intros n I. apply in_map_iff in I. destruct I as [p [E I]]. subst. auto.
Qed.

Lemma names_apart : forall s, valid s -> no_posonly_default s ->
  NoDup (map fst (named s)) /\ NoDup (map fst (kwonly s)) /\ (forall n, In n (map fst (named s)) -> ~ In n (map fst (kwonly s))) /\ NoDup (posonly s).
Proof.
  intros s [N _] H. unfold parameter_names in N. rewrite named_fst by auto.
  apply NoDup_app_parts in N. destruct N as [P [N _]].
  apply NoDup_app_parts in N. destruct N as [A [N D]].
  apply NoDup_app_parts in N. destruct N as [_ [N _]].
  apply NoDup_app_parts in N. destruct N as [K [_ _]].
  repeat split; auto. intros n I J. apply (D n I). rewrite !in_app_iff. auto.
Qed.

Lemma choose_without : forall names ps kws, (forall p, In p ps -> ~ In (fst p) names) -> map (choose (without names kws)) ps = map (choose kws) ps.
Proof. intros names ps kws H. apply map_ext_in. intros p I. unfold choose. rewrite lookup_without; auto. Qed.

Theorem call_main : forall s pos kws,
  valid s -> no_posonly_default s -> rest_ok s pos ->
  (kwarg s = None \/ (exists b, py_bind s pos kws = Some b /\ forall n, ~ In (n, BDict []) b)) ->
  translated_call s pos kws = py_bind s pos kws.
Proof.
  intros s pos kws V D R C. unfold translated_call. rewrite visit_eq by auto.
  destruct (names_apart s V D) as [NA [NK [AK NP]]].
  rewrite py_bind_oapp. rewrite py_bind_oapp in C. rewrite positional_eq in * by auto. rewrite bind_app in *. rewrite map_length in *.
  unfold sort_call_args. rewrite n_posonly_eq by apply kinds.
  destruct (length pos <? length (posonly s))%nat eqn:L.
  { apply Nat.ltb_lt in L. rewrite bind_po_short by auto. auto. }
  apply Nat.ltb_ge in L. rewrite bind_po in * by auto.
  set (pos2 := skipn (length (posonly s)) pos) in *.
  assert (LP2 : length pos2 = length pos - length (posonly s)) by (unfold pos2; rewrite skipn_length; auto).
  pose proof (named_len s D) as LN.
  set (fa := map arg_po (posonly s) ++ map arg_n (named s) ++ arg_v (vararg s) ++ map arg_k (kwonly s) ++ arg_d (kwarg s)).
  assert (FA : fa = (map arg_po (posonly s) ++ map arg_n (named s) ++ arg_v (vararg s) ++ map arg_k (kwonly s)) ++ arg_d (kwarg s)).
  { unfold fa. rewrite <- !app_assoc. auto. }
  assert (NV : index_of is_vararg fa = match vararg s with Some _ => length (posonly s) + length (args s) | None => length fa end).
  { destruct (vararg s) as [n|] eqn:VA.
    - unfold fa. rewrite app_assoc. rewrite index_app.
      + rewrite app_length, !map_length, LN. cbn. lia.
      + intros a I. apply in_app_iff in I. destruct I as [I|I]; apply in_map_iff in I; destruct I as [x [E _]]; subst; auto.
    - apply index_none. intros a I. unfold fa in I. cbn in I. rewrite !in_app_iff in I.
      destruct I as [I|[I|[I|I]]]; try (apply in_map_iff in I; destruct I as [x [E _]]; subst; auto).
      destruct (kwarg s); cbn in I; [destruct I as [I|I]; [subst; auto|destruct I]|destruct I]. }
  assert (LFA : length fa = length (posonly s) + length (args s) + length (arg_v (vararg s)) + length (kwonly s) + length (arg_d (kwarg s))).
  { unfold fa. rewrite !app_length, !map_length, LN. lia. }
  rewrite NV.
  assert (LK : existsb is_kwarg (match rev fa with a :: _ => [a] | [] => [] end) = match kwarg s with Some _ => true | None => false end).
  { rewrite FA. apply last_kwarg. intros a I. apply (kinds_kw s). auto. }
  rewrite LK.
  assert (MN : forall p, is_vararg (arg_n p) = false /\ is_kwarg (arg_n p) = false /\ a_name (arg_n p) = fst p /\ a_value (arg_n p) = snd p) by (intros p; auto).
  assert (MK : forall p, is_vararg (arg_k p) = false /\ is_kwarg (arg_k p) = false /\ a_name (arg_k p) = fst p /\ a_value (arg_k p) = snd p) by (intros p; auto).
  destruct (le_lt_dec (length pos) (length (posonly s) + length (args s))) as [LE|GT].
  - (* the positional arguments are parameters *)
    assert (NG : (match vararg s with Some _ => length (posonly s) + length (args s) | None => length fa end <? length pos)%nat = false).
    { apply Nat.ltb_ge. destruct (vararg s); lia. }
    rewrite NG. rewrite map_length.
    set (j := length pos2).
    assert (SK : skipn (length pos) fa = map arg_n (skipn j (named s)) ++ arg_v (vararg s) ++ map arg_k (kwonly s) ++ arg_d (kwarg s)).
    { unfold fa. rewrite skipn_app, map_length. rewrite (skipn_all2 (map arg_po _)) by (rewrite map_length; auto). cbn [app].
      replace (length pos - length (posonly s)) with j by (unfold j; lia).
      rewrite skipn_app, map_length. rewrite skipn_map'. replace (j - length (named s)) with O by (unfold j; lia). auto. }
    rewrite SK. rewrite fill_app.
    rewrite (fill_named arg_n MN) by (rewrite <- skipn_map'; apply NoDup_skipn; auto).
    cbv beta iota. rewrite fill_app, fill_v. cbv beta iota. rewrite fill_app. rewrite (fill_named arg_k MK) by auto. cbv beta iota. rewrite fill_d. cbv beta iota.
    rewrite without_app.
    assert (CW : map (choose (without (map fst (skipn j (named s))) kws)) (kwonly s) = map (choose kws) (kwonly s)).
    { apply choose_without. intros p I J. apply (AK (fst p)).
      - rewrite <- skipn_map' in J. rewrite <- (firstn_skipn j (map fst (named s))). apply in_or_app. auto.
      - apply in_map. auto. }
    rewrite CW. rewrite app_nil_r.
    (* positional part of Python *)
    assert (SP : bind_positional (map par_n (named s)) pos2 kws =
                 oapp (if existsb (fun p => mem (fst p) kws) (firstn j (named s)) then None else Some (combine (map fst (firstn j (named s))) (map BVal pos2)))
                   (all_bound (map arg_n (skipn j (named s))) (map (choose kws) (skipn j (named s))))).
    { rewrite <- (firstn_skipn j (named s)) at 1. rewrite map_app, bind_app, map_length.
      assert (LJ : length (firstn j (named s)) = j) by (rewrite firstn_length; unfold j; lia).
      rewrite bind_n_full by (rewrite LJ; auto). rewrite LJ.
      replace (firstn j pos2) with pos2 by (symmetry; apply firstn_all2; auto).
      replace (skipn j pos2) with (@nil val) by (symmetry; apply skipn_all2; auto).
      rewrite bind_n_none. auto. }
    rewrite SP in *. rewrite bind_k in *.
    assert (EP : extra_positional s pos = []) by (apply skipn_all2; auto).
    rewrite EP in *.
    set (l := map (fun v : val => Some (BVal v)) pos ++ map (choose kws) (skipn j (named s)) ++ match vararg s with Some _ => [Some (BTuple [])] | None => [] end ++ map (choose kws) (kwonly s)).
    set (k := without (map fst (skipn j (named s)) ++ map fst (kwonly s)) kws) in *.
    match goal with |- match ?X with Some l0 => _ | None => None end = _ =>
      assert (LHS : X = finish (kwarg s) k l) end.
    { unfold finish, l. destruct k; [rewrite <- ?app_assoc, ?app_nil_r; auto|]. destruct (kwarg s); auto. rewrite <- ?app_assoc, ?app_nil_r. rewrite <- ?app_assoc. auto. }
    rewrite LHS. clear LHS.
    set (f := map arg_po (posonly s) ++ map arg_n (named s) ++ arg_v (vararg s) ++ map arg_k (kwonly s)) in *.
    assert (LF : length f = length l).
    { unfold f, l. rewrite !app_length, !map_length, skipn_length, LN. unfold arg_v. destruct (vararg s); cbn [length]; unfold j; lia. }
    (* what the parameters are given *)
    assert (AB : all_bound f l =
      oapp (Some (combine (posonly s) (map BVal (firstn (length (posonly s)) pos))))
        (oapp (oapp (Some (combine (map fst (firstn j (named s))) (map BVal pos2))) (all_bound (map arg_n (skipn j (named s))) (map (choose kws) (skipn j (named s)))))
           (oapp (collect (vararg s) BTuple []) (all_bound (map arg_k (kwonly s)) (map (choose kws) (kwonly s)))))).
    { unfold f, l. rewrite <- (firstn_skipn (length (posonly s)) pos) at 1. fold pos2. rewrite map_app, <- !app_assoc.
      rewrite all_bound_app by (rewrite !map_length, firstn_length; lia).
      rewrite all_bound_pos by (rewrite map_length, firstn_length; lia).
      rewrite map_map. cbn [a_name arg_po]. rewrite map_id. f_equal.
      rewrite <- (firstn_skipn j (named s)) at 1. rewrite map_app, <- !app_assoc.
      rewrite <- (oapp_assoc _ (Some _)).
      rewrite all_bound_app by (rewrite !map_length, firstn_length; unfold j; lia).
      rewrite all_bound_pos by (rewrite map_length, firstn_length; unfold j; lia).
      rewrite map_map. cbn [a_name arg_n]. f_equal.
      rewrite all_bound_app by (rewrite !map_length; auto). f_equal.
      rewrite all_bound_app by (destruct (vararg s); auto). f_equal.
      destruct (vararg s); auto. }
    rewrite FA. fold f.
    destruct (existsb (fun p => mem (fst p) kws) (firstn j (named s))) eqn:DUP.
    + (* given by position and by name *)
      cbn [oapp] in C |- *.
      assert (KN : kwarg s = None).
      { destruct C as [C|[b [C _]]]; auto. discriminate. }
      rewrite KN. unfold finish.
      apply existsb_exists in DUP. destruct DUP as [p [I J]].
      assert (KE : k <> []).
      { apply (without_present (fst p)); auto.
        assert (NF : NoDup (map fst (firstn j (named s)) ++ map fst (skipn j (named s)))) by (rewrite <- map_app, firstn_skipn; auto).
        apply NoDup_app_parts in NF. destruct NF as [_ [_ NF]].
        intro Q. apply in_app_iff in Q. destruct Q as [Q|Q].
        - apply (NF (fst p)); auto. apply in_map. auto.
        - apply (AK (fst p)); auto. rewrite <- (firstn_skipn j (named s)), map_app. apply in_or_app. left. apply in_map. auto. }
      destruct k; [congruence|auto].
    + assert (KX : k = extra_keywords s kws).
      { apply left_over; auto. intros p I.
        destruct (mem (fst p) kws) eqn:MM; auto. exfalso.
        assert (X : existsb (fun p => mem (fst p) kws) (firstn j (named s)) = true) by (apply existsb_exists; eauto). congruence. }
      rewrite KX in *.
      assert (CC : kwarg s = None \/ extra_keywords s kws <> []).
      { destruct C as [C|[b [C1 C2]]]; auto. destruct (kwarg s) as [n|] eqn:KW; auto. right. intro E.
        rewrite E in C1. cbn [collect] in C1.
        rewrite !oapp_assoc in C1.
        match type of C1 with oapp ?a (Some ?x) = Some b => destruct a as [y|] eqn:Y; [|discriminate] end.
        cbn in C1. injection C1 as C1. apply (C2 n). rewrite <- C1. apply in_or_app. right. left. auto. }
      rewrite all_finish by auto. rewrite AB. rewrite <- !oapp_assoc. auto.
  - (* more positional arguments than parameters *)
    assert (SP : bind_positional (map par_n (named s)) pos2 kws =
                 (if existsb (fun p => mem (fst p) kws) (named s) then None else Some (combine (map fst (named s)) (map BVal (firstn (length (args s)) pos2))))).
    { rewrite bind_n_full by lia. rewrite LN. auto. }
    destruct (vararg s) as [va|] eqn:VA.
    + assert (NG : (length (posonly s) + length (args s) <? length pos)%nat = true) by (apply Nat.ltb_lt; lia).
      rewrite NG. set (P := length (posonly s) + length (args s)) in *.
      assert (LI : length (map (fun v : val => Some (BVal v)) (firstn P pos) ++ [Some (BTuple (skipn P pos))]) = P + 1).
      { rewrite app_length, map_length, firstn_length. cbn. lia. }
      rewrite LI.
      assert (SK : skipn (P + 1) fa = map arg_k (kwonly s) ++ arg_d (kwarg s)).
      { unfold fa. rewrite app_assoc. rewrite skipn_app. rewrite app_length, !map_length, LN. fold P.
        rewrite (skipn_all2 (map arg_po _ ++ _)) by (rewrite app_length, !map_length, LN; fold P; lia).
        replace (P + 1 - P) with 1 by lia. auto. }
      rewrite SK, fill_app. rewrite (fill_named arg_k MK) by auto. cbv beta iota. rewrite fill_d. cbv beta iota. rewrite app_nil_r.
      rewrite SP in *. rewrite bind_k in *.
      assert (EP : extra_positional s pos = skipn P pos) by auto. rewrite EP in *.
      set (l := map (fun v : val => Some (BVal v)) (firstn P pos) ++ [Some (BTuple (skipn P pos))] ++ map (choose kws) (kwonly s)).
      set (k := without (map fst (kwonly s)) kws) in *.
      set (f := map arg_po (posonly s) ++ map arg_n (named s) ++ arg_v (Some va) ++ map arg_k (kwonly s)) in *.
      match goal with |- match ?X with Some l0 => _ | None => None end = _ =>
        assert (LHS : X = finish (kwarg s) k l) end.
      { unfold finish, l. destruct k; [rewrite <- !app_assoc; auto|]. destruct (kwarg s); auto. rewrite <- !app_assoc. auto. }
      rewrite LHS. clear LHS.
      assert (LF : length f = length l).
      { unfold f, l. rewrite !app_length, !map_length, firstn_length, LN. cbn [length arg_v]. unfold P in *. lia. }
      assert (AB : all_bound f l =
        oapp (Some (combine (posonly s) (map BVal (firstn (length (posonly s)) pos))))
          (oapp (Some (combine (map fst (named s)) (map BVal (firstn (length (args s)) pos2))))
             (oapp (collect (Some va) BTuple (skipn P pos)) (all_bound (map arg_k (kwonly s)) (map (choose kws) (kwonly s)))))).
      { unfold f, l.
        assert (FP : firstn P pos = firstn (length (posonly s)) pos ++ firstn (length (args s)) pos2).
        { unfold P, pos2. rewrite <- (firstn_skipn (length (posonly s)) pos) at 1. rewrite firstn_app.
          assert (Q : length (firstn (length (posonly s)) pos) = length (posonly s)) by (rewrite firstn_length; lia).
          rewrite Q. rewrite firstn_all2 by lia. f_equal. f_equal. lia. }
        rewrite FP, map_app, <- !app_assoc.
        rewrite all_bound_app by (rewrite !map_length, firstn_length; lia).
        rewrite all_bound_pos by (rewrite map_length, firstn_length; lia).
        rewrite map_map. cbn [a_name arg_po]. rewrite map_id. f_equal.
        rewrite all_bound_app by (rewrite !map_length, firstn_length; lia).
        rewrite all_bound_pos by (rewrite map_length, firstn_length; lia).
        rewrite map_map. cbn [a_name arg_n]. f_equal. }
      rewrite FA. fold f.
      destruct (existsb (fun p => mem (fst p) kws) (named s)) eqn:DUP.
      * cbn [oapp] in C |- *.
        assert (KN : kwarg s = None).
        { destruct C as [C|[b [C _]]]; auto. discriminate. }
        rewrite KN. unfold finish.
        apply existsb_exists in DUP. destruct DUP as [p [I J]].
        assert (KE : k <> []).
        { apply (without_present (fst p)); auto. intro Q. apply (AK (fst p)); auto. apply in_map. auto. }
        destruct k; [congruence|auto].
      * assert (KX : k = extra_keywords s kws).
        { unfold k. rewrite <- (left_over s (length (named s)) kws D).
          - rewrite skipn_all. auto.
          - rewrite firstn_all. intros p I. destruct (mem (fst p) kws) eqn:MM; auto. exfalso.
            assert (X : existsb (fun p => mem (fst p) kws) (named s) = true) by (apply existsb_exists; eauto). congruence. }
        rewrite KX in *.
        assert (CC : kwarg s = None \/ extra_keywords s kws <> []).
        { destruct C as [C|[b [C1 C2]]]; auto. destruct (kwarg s) as [n|] eqn:KW; auto. right. intro E.
          rewrite E in C1. cbn [collect] in C1.
          rewrite !oapp_assoc in C1.
          match type of C1 with oapp ?a (Some ?x) = Some b => destruct a as [y|] eqn:Y; [|discriminate] end.
          cbn in C1. injection C1 as C1. apply (C2 n). rewrite <- C1. apply in_or_app. right. left. auto. }
        rewrite all_finish by auto. rewrite AB. rewrite <- !oapp_assoc. auto.
    + (* too many arguments *)
      assert (EP : extra_positional s pos <> []).
      { unfold extra_positional. intro E. apply (f_equal (@length val)) in E. rewrite skipn_length in E. cbn in E. lia. }
      destruct (extra_positional s pos) as [|e er] eqn:EE; [congruence|]. cbn [collect].
      cbn [oapp]. rewrite ?oapp_none_r. replace (match bind_positional (map par_n (named s)) pos2 kws with Some _ | _ => None end) with (@None (list (nat * bound))) by (destruct (bind_positional (map par_n (named s)) pos2 kws); auto).
      destruct R as [R|[R|[R1 R2]]]; [lia|congruence|].
      rewrite LFA in *. rewrite R1, R2 in *. cbn [length arg_v arg_d] in *.
      match goal with |- match match ?F with (a, b) => _ end with Some l0 => _ | None => None end = None => destruct F as [l k] eqn:Fl end.
      destruct (_ <? length pos)%nat eqn:LT; [|apply Nat.ltb_ge in LT; lia].
      destruct k; auto. apply all_bound_short.
      rewrite !app_length, map_length, firstn_length. cbn [length]. lia.
Qed.
