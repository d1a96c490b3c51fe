(* Lemmas for Call_Thms.v: calls from Python. *)
From Coq Require Import Bool Arith ZArith Lia List.
From Verif Require Import Call_Model Call_Spec Call_Proofs.
Import ListNotations.
Open Scope list_scope.

(* what is given to each parameter by the call *)
Definition given (a : arg) (pos : list val) (kws : list (nat * val)) : option val :=
  match pos with v :: _ => Some v | [] => if is_posonly a then None else lookup (a_name a) kws end.
Fixpoint givens (fa : list arg) (pos : list val) (kws : list (nat * val)) : list (option val) :=
  match fa with [] => [] | a :: fa' => given a pos kws :: givens fa' (tl pos) kws end.
Fixpoint missing (fa : list arg) (pos : list val) (kws : list (nat * val)) : bool :=
  match fa with
  | [] => false
  | a :: fa' => (negb (has_default a) && match given a pos kws with None => true | Some _ => false end) || missing fa' (tl pos) kws
  end.
(* names that can be given by name, after the positional arguments *)
Fixpoint by_name (fa : list arg) (pos : list val) : list nat :=
  match fa with
  | [] => []
  | a :: fa' => match pos with [] => if is_posonly a then [] else [a_name a] | _ => [] end ++ by_name fa' (tl pos)
  end.
Fixpoint tidy (fa : list arg) (hd hk : bool) : Prop :=
  match fa with
  | [] => True
  | a :: fa' =>
    (hd = true -> has_default a = true) /\ (has_default a = true -> hd = false -> hk = false)
    /\ (is_posonly a = true -> has_default a = false /\ is_kwonly a = false /\ hd = false /\ hk = false)
    /\ (forall x, In x fa' -> is_posonly x = true -> is_posonly a = true)
    /\ tidy fa' (hd || has_default a) (hk || is_kwonly a)
  end.
(* no positional argument for a keyword-only parameter *)
Fixpoint too_many (fa : list arg) (pos : list val) : bool :=
  match fa with
  | [] => false
  | a :: fa' => match pos with [] => false | _ => is_kwonly a || too_many fa' (tl pos) end
  end.

Lemma nth_error_skipn : forall (A : Type) i (l : list A), nth_error l i = hd_error (skipn i l).
Proof. induction i; intros [|a l]; cbn; auto. Qed.
Lemma tl_skipn : forall (A : Type) i (l : list A), tl (skipn i l) = skipn (S i) l.
Proof. induction i; intros [|a l]; cbn; auto. apply IHi. Qed.
Lemma skipn_cons_lt : forall (A : Type) i (l : list A) v r, skipn i l = v :: r -> i < length l.
Proof. induction i; intros [|a l] v r H; cbn in *; try discriminate; try lia. apply IHi in H. lia. Qed.
Lemma skipn_nil_le : forall (A : Type) i (l : list A), skipn i l = [] -> length l <= i.
Proof. induction i; intros [|a l] H; cbn in *; try discriminate; try lia. apply IHi in H. lia. Qed.

Lemma givens_len : forall fa pos kws, length (givens fa pos kws) = length fa.
Proof. induction fa; intros; cbn; auto. Qed.
Lemma givens_app : forall f1 f2 pos kws, givens (f1 ++ f2) pos kws = givens f1 pos kws ++ givens f2 (skipn (length f1) pos) kws.
Proof.
  induction f1; intros f2 pos kws; cbn [app givens length]; auto.
  f_equal. rewrite IHf1. f_equal. f_equal. destruct pos; cbn; auto. apply skipn_nil.
Qed.
Lemma by_name_app : forall f1 f2 pos, by_name (f1 ++ f2) pos = by_name f1 pos ++ by_name f2 (skipn (length f1) pos).
Proof.
  induction f1; intros f2 pos; cbn [app by_name length]; auto.
  rewrite IHf1, app_assoc. f_equal. f_equal. destruct pos; cbn; auto. apply skipn_nil.
Qed.
Lemma by_name_in : forall fa pos n, In n (by_name fa pos) -> In n (map a_name fa).
Proof.
  induction fa; intros pos n H; cbn in *; auto. apply in_app_iff in H. destruct H as [H|H].
  - destruct pos; [destruct (is_posonly a)|]; cbn in H; try tauto.
  - right. eapply IHfa; eauto.
Qed.
(* the rest is not given when no keywords are left *)
Lemma givens_none : forall fa kws, (forall a, In a fa -> is_posonly a = false -> lookup (a_name a) kws = None) -> givens fa [] kws = map (fun _ => None) fa.
Proof.
  induction fa as [|a fa IH]; intros kws H; cbn; auto. f_equal.
  - destruct (is_posonly a) eqn:P; auto. apply H; auto. left; auto.
  - apply IH. intros; apply H; auto. right; auto.
Qed.

(* ------------------------------ keywords that are left ------------------------------ *)

Lemma without_len_absent : forall n names kws, lookup n kws = None -> length (without (names ++ [n]) kws) = length (without names kws).
Proof.
  intros n names kws H. f_equal. unfold without. apply filter_ext_in. intros [m v] I. cbn. rewrite existsb_app. cbn. rewrite orb_false_r.
  destruct (Nat.eqb m n) eqn:E; [|rewrite orb_false_r; auto].
  exfalso. apply Nat.eqb_eq in E. subst m.
  assert (M : mem n kws = true). { unfold mem. apply existsb_exists. exists (n, v). split; auto. cbn. apply Nat.eqb_refl. }
  rewrite lookup_mem, H in M. discriminate.
Qed.
Lemma without_len_present : forall n names kws v, valid_keywords kws -> ~ In n names -> lookup n kws = Some v ->
  length (without (names ++ [n]) kws) = length (without names kws) - 1 /\ length (without names kws) <> 0.
Proof.
  intros n names kws v V N L. unfold valid_keywords in V.
  assert (G : length (without names kws) = S (length (without (names ++ [n]) kws))).
  2:{ lia. }
  induction kws as [|[m w] kws IH]; cbn in L; [discriminate|].
  inversion V; subst. unfold without in *. cbn.
  rewrite existsb_app. cbn. rewrite orb_false_r.
  destruct (Nat.eqb m n) eqn:E.
  - apply Nat.eqb_eq in E. subst m.
    assert (X : existsb (Nat.eqb n) names = false).
    { destruct (existsb (Nat.eqb n) names) eqn:X; auto. apply existsb_exists in X. destruct X as [y [I J]]. apply Nat.eqb_eq in J. subst. contradiction. }
    rewrite X. cbn. f_equal.
    assert (LN : lookup n kws = None).
    { destruct (lookup n kws) eqn:Q; auto. exfalso. apply H1.
      assert (M : mem n kws = true) by (rewrite lookup_mem, Q; auto).
      unfold mem in M. apply existsb_exists in M. destruct M as [[y u] [I J]]. cbn in J. apply Nat.eqb_eq in J. subst.
      change n with (fst (n, u)). apply in_map. auto. }
    symmetry. apply (without_len_absent n names kws LN).
  - rewrite orb_false_r. destruct (existsb (Nat.eqb m) names); cbn; rewrite (IH H2 L); auto.
Qed.
Lemma without_empty_lookup : forall names kws n, length (without names kws) = 0 -> ~ In n names -> lookup n kws = None.
Proof.
  intros names kws n H N. rewrite <- (lookup_without n names kws N).
  destruct (without names kws); [auto|discriminate].
Qed.
Lemma without_in : forall names kws, (forall n, In n (map fst kws) -> In n names) -> without names kws = [].
Proof.
  intros names kws H. unfold without. induction kws as [|[m v] kws IH]; cbn; auto.
  assert (X : existsb (Nat.eqb m) names = true).
  { apply existsb_exists. exists m. split; [apply H; left; auto|apply Nat.eqb_refl]. }
  rewrite X. cbn. apply IH. intros n I. apply H. right. auto.
Qed.
Lemma without_in_inv : forall names kws, without names kws = [] -> forall n, In n (map fst kws) -> In n names.
Proof.
  intros names kws H n I. destruct (in_dec Nat.eq_dec n names) as [Y|Y]; auto. exfalso.
  apply (without_present n names kws); auto.
  unfold mem. apply existsb_exists. apply in_map_iff in I. destruct I as [[m v] [E I]]. exists (m, v). split; auto. cbn in *. subst. apply Nat.eqb_refl.
Qed.

(* ------------------------------ the loop ------------------------------ *)

Definition flag (b : bool) (o : option nat) : Prop := match o with None => b = false | Some _ => b = true end.

Lemma bar_step : forall a fa hd hk i mn mx, (hd = true -> has_default a = true) -> (has_default a = true -> hd = false -> hk = false) ->
  flag hd mn -> flag hk mx ->
  exists mn1, after_bar i mn mx (format (a :: fa) hd hk)
              = Some ((if is_kwonly a && negb hk then [FDollar] else []) ++ [FO] ++ format fa (hd || has_default a) (hk || is_kwonly a), mn1)
    /\ flag (hd || has_default a) mn1.
Proof.
  intros a fa hd hk i mn mx T1 T2 HD HK. cbn [format]. destruct (has_default a) eqn:A1; destruct hd; cbn [andb negb app orb].
  - exists mn. split; [destruct (is_kwonly a && negb hk); auto|auto].
  - exists (Some i). rewrite (T2 eq_refl eq_refl) in *. unfold flag in HD, HK. destruct mn; [discriminate|]. destruct mx; [discriminate|]. split; auto. reflexivity.
  - specialize (T1 eq_refl). discriminate.
  - exists mn. split; [destruct (is_kwonly a && negb hk); auto|auto].
Qed.
Lemma dollar_step : forall a hk i mx f, flag hk mx ->
  exists mx1, after_dollar i mx ((if is_kwonly a && negb hk then [FDollar] else []) ++ [FO] ++ f) = Some (FO :: f, mx1, is_kwonly a && negb hk)
    /\ flag (hk || is_kwonly a) mx1.
Proof.
  intros a hk i mx f HK. destruct (is_kwonly a) eqn:K; destruct hk; cbn [andb negb app orb].
  - exists mx. auto.
  - exists (Some i). unfold flag in HK. destruct mx; [discriminate|]. split; auto. reflexivity.
  - exists mx. auto.
  - exists mx. auto.
Qed.

Lemma skip_loop : forall names pos kws fa i hd hk mn mx nk out,
  tidy fa hd hk -> flag hd mn -> flag hk mx ->
  parse_loop names pos kws (kwlist fa) i (format fa hd hk) mn mx true nk out = PTypeError.
Proof.
  intros names pos kws. induction fa as [|a fa IH]; intros i hd hk mn mx nk out T HD HK; [auto|].
  destruct T as [T1 [T2 [T3 [T4 T]]]].
  unfold kwlist. cbn [map parse_loop]. fold (kwlist fa).
  destruct (bar_step a fa hd hk i mn mx T1 T2 HD HK) as [mn1 [E1 HD1]]. rewrite E1.
  destruct (dollar_step a hk i mx (format fa (hd || has_default a) (hk || is_kwonly a)) HK) as [mx1 [E2 HK1]]. rewrite E2.
  destruct (is_kwonly a && negb hk) eqn:KK; cbn [andb]; auto.
Qed.

(* the names given by position or by name, up to a parameter *)
Lemma by_name_new : forall pre a fa pos, NoDup (map a_name (pre ++ a :: fa)) -> ~ In (a_name a) (by_name pre pos).
Proof.
  intros pre a fa pos ND I. apply by_name_in in I. rewrite map_app in ND. cbn in ND. apply NoDup_remove_2 in ND. apply ND. apply in_app_iff. auto.
Qed.

Lemma leading_le : forall pre a fa, is_posonly a = false -> leading_empty (kwlist (pre ++ a :: fa)) <= length pre.
Proof.
  intros pre a fa H. induction pre as [|b pre IH]; unfold kwlist in *; cbn.
  - rewrite H. auto.
  - destruct (is_posonly b); [|lia]. apply le_n_S. exact IH.
Qed.
Definition all_posonly (l : list arg) : Prop := forall a, In a l -> is_posonly a = true.
Lemma leading_po : forall pre a fa, is_posonly a = true -> all_posonly pre -> length pre < leading_empty (kwlist (pre ++ a :: fa)).
Proof.
  induction pre as [|b pre IH]; intros a fa A P; unfold kwlist in *; cbn.
  - rewrite A. lia.
  - rewrite (P b) by (left; auto). apply (proj1 (Nat.succ_lt_mono _ _)). apply IH; auto. intros x I. apply P. right. auto.
Qed.

Lemma nth_error_skip_plus : forall (A : Type) p j (l : list A), nth_error (skipn p l) j = nth_error l (p + j).
Proof. induction p; intros j [|x l]; cbn; auto. destruct j; auto. Qed.
Lemma by_name_at : forall pre q pos k, nth_error (kwlist pre) q = Some (Some k) -> length pos <= q -> In k (by_name pre pos).
Proof.
  induction pre as [|b pre IH]; intros q pos k N GE; unfold kwlist in *; cbn in *; [destruct q; discriminate|].
  apply in_app_iff. destruct q as [|q]; cbn in N.
  - left. destruct (is_posonly b); [discriminate|]. injection N as N. destruct pos; [left; auto|cbn in GE; lia].
  - right. eapply IH; eauto. destruct pos; cbn in *; lia.
Qed.
Lemma end_main : forall pos kws pre,
  parse_end (kwlist pre) pos kws [] false (length (without (by_name pre pos) kws)) (givens pre pos kws) =
  match without (by_name pre pos) kws with [] => POk (givens pre pos kws) | _ => PTypeError end.
Proof.
  intros pos kws pre. unfold parse_end.
  destruct (without (by_name pre pos) kws) as [|[k v] w] eqn:W; cbn [length Nat.eqb]; auto.
  assert (X : existsb (fun o : option nat => match o with Some n => existsb (fun q : nat * val => Nat.eqb (fst q) n) kws | None => false end)
                (firstn (length pos - leading_empty (kwlist pre)) (skipn (leading_empty (kwlist pre)) (kwlist pre))) = true
              \/ forallb (fun q : nat * val => has_name (fst q) (skipn (leading_empty (kwlist pre)) (kwlist pre))) kws = false).
  { destruct (forallb _ kws) eqn:F; auto. left.
    assert (I : In (k, v) kws /\ ~ In k (by_name pre pos)).
    { assert (Q : In (k, v) (without (by_name pre pos) kws)) by (rewrite W; left; auto).
      unfold without in Q. apply filter_In in Q. destruct Q as [Q1 Q2]. split; auto. intro R.
      cbn in Q2. apply negb_true_iff in Q2. assert (Z : existsb (Nat.eqb k) (by_name pre pos) = true) by (apply existsb_exists; exists k; split; auto; apply Nat.eqb_refl). congruence. }
    destruct I as [I1 I2]. rewrite forallb_forall in F. specialize (F _ I1). cbn in F.
    unfold has_name in F. apply existsb_exists in F. destruct F as [o [O1 O2]]. destruct o as [n|]; [|discriminate]. apply Nat.eqb_eq in O2. subst n.
    apply existsb_exists. exists (Some k). split.
    - apply In_nth_error in O1. destruct O1 as [j O1].
      assert (LT : j < length pos - leading_empty (kwlist pre)).
      { destruct (le_lt_dec (length pos - leading_empty (kwlist pre)) j) as [GE|]; auto. exfalso. apply I2.
        rewrite nth_error_skip_plus in O1. apply (by_name_at pre _ pos k O1). lia. }
      apply (nth_error_In _ j). rewrite <- O1.
      clear - LT. revert j LT. generalize (skipn (leading_empty (kwlist pre)) (kwlist pre)) (length pos - leading_empty (kwlist pre)).
      intros l n. revert l. induction n; intros l j LT; [lia|]. destruct l as [|x l]; cbn; [destruct j; auto|].
      destruct j; cbn; auto. apply IHn. lia.
    - apply existsb_exists. exists (k, v). split; auto. cbn. apply Nat.eqb_refl. }
  destruct X as [X|X]; [rewrite X; auto|]. rewrite X. destruct (existsb _ (firstn _ _)); auto.
Qed.

Lemma missing_none : forall fa kws, (forall a, In a fa -> has_default a = true) -> missing fa [] kws = false.
Proof.
  induction fa as [|a fa IH]; intros kws H; cbn; auto. rewrite (H a) by (left; auto). cbn. apply IH. intros x I. apply H. right. auto.
Qed.
Lemma too_many_none : forall fa, too_many fa [] = false.
Proof. intros [|a fa]; auto. Qed.
Lemma tidy_defaults : forall fa hk, tidy fa true hk -> forall a, In a fa -> has_default a = true.
Proof.
  induction fa as [|b fa IH]; intros hk T a I; [destruct I|]. destruct T as [T1 [T2 [T3 [T4 T]]]]. destruct I as [I|I]; [subst; auto|].
  cbn in T. eapply IH; eauto.
Qed.

Lemma loop_main : forall pos kws, valid_keywords kws -> forall fa pre i hd hk mn mx,
  length pre = i -> NoDup (map a_name (pre ++ fa)) ->
  tidy fa hd hk -> flag hd mn -> flag hk mx ->
  (hk = true -> length pos <= i) ->
  ((exists a, In a fa /\ is_posonly a = true) -> all_posonly pre) ->
  parse_loop (kwlist (pre ++ fa)) pos kws (kwlist fa) i (format fa hd hk) mn mx false (length (without (by_name pre pos) kws)) (givens pre pos kws) =
  if negb (missing fa (skipn i pos) kws) && negb (too_many fa (skipn i pos)) && match without (by_name (pre ++ fa) pos) kws with [] => true | _ => false end
  then POk (givens (pre ++ fa) pos kws) else PTypeError.
Proof.
  intros pos kws VK. induction fa as [|a fa IH]; intros pre i hd hk mn mx LI ND T HD HK PK PO.
  - unfold kwlist at 2. cbn [map parse_loop format missing too_many negb andb]. rewrite app_nil_r.
    rewrite end_main. destruct (without (by_name pre pos) kws); auto.
  - destruct T as [T1 [T2 [T3 [T4 T]]]].
    unfold kwlist at 2. cbn [map parse_loop]. fold (kwlist fa).
    destruct (bar_step a fa hd hk i mn mx T1 T2 HD HK) as [mn1 [E1 HD1]]. rewrite E1.
    destruct (dollar_step a hk i mx (format fa (hd || has_default a) (hk || is_kwonly a)) HK) as [mx1 [E2 HK1]]. rewrite E2.
    clear E1 E2. rewrite andb_false_r.
    cbn [missing too_many].
    destruct ((is_kwonly a && negb hk) && (i <? length pos)%nat) eqn:MANY.
    { apply andb_true_iff in MANY. destruct MANY as [M1 M2]. apply andb_true_iff in M1. destruct M1 as [M1 M3]. apply Nat.ltb_lt in M2.
      destruct (skipn i pos) as [|v r] eqn:SK; [apply skipn_nil_le in SK; lia|]. rewrite M1. cbn [orb negb]. rewrite andb_false_r. auto. }
    assert (NM : hk || is_kwonly a = true -> length pos <= i).
    { intros K. destruct hk eqn:HHK; [auto|]. cbn in K. rewrite K in MANY. cbn in MANY. apply Nat.ltb_ge in MANY. auto. }
    assert (PRE : (pre ++ a :: fa) = (pre ++ [a]) ++ fa) by (rewrite <- app_assoc; auto).
    assert (SI : length (pre ++ [a]) = S i) by (rewrite app_length; cbn; lia).
    assert (PO1 : (exists x, In x fa /\ is_posonly x = true) -> all_posonly (pre ++ [a])).
    { intros [x [I X]]. assert (P := PO (ex_intro _ x (conj (or_intror I) X))). intros y J. apply in_app_iff in J. destruct J as [J|[J|[]]]; [auto|]. subst y.
      apply (T4 x); auto. }
    assert (ND1 : NoDup (map a_name ((pre ++ [a]) ++ fa))) by (rewrite <- PRE; auto).
    assert (NEXT := fun mn1 mx1 HD1 HK1 => IH (pre ++ [a]) (S i) (hd || has_default a) (hk || is_kwonly a) mn1 mx1 SI ND1 T HD1 HK1 (fun K => le_S _ _ (NM K)) PO1).
    rewrite <- PRE in NEXT.
    assert (GV : givens (pre ++ [a]) pos kws = givens pre pos kws ++ [given a (skipn i pos) kws]) by (rewrite givens_app, LI; auto).
    assert (BN : by_name (pre ++ [a]) pos = by_name pre pos ++ match skipn i pos with [] => if is_posonly a then [] else [a_name a] | _ => [] end)
      by (rewrite by_name_app, LI; cbn [by_name]; rewrite app_nil_r; auto).
    rewrite GV, BN in NEXT. rewrite nth_error_skipn. rewrite tl_skipn.
    assert (NEW := by_name_new pre a fa pos ND).
    set (rest := skipn i pos) in *.
    destruct rest as [|v r] eqn:SK; cbn [hd_error].
    + (* not given by position *)
      rewrite (skipn_all2 pos) in NEXT |- * by (apply skipn_nil_le in SK; lia). cbn [given] in *. rewrite too_many_none in NEXT.
      destruct (is_posonly a) eqn:PA.
      * (* positional-only *)
        assert (LP : (i <? leading_empty (kwlist (pre ++ a :: fa)))%nat = true).
        { apply Nat.ltb_lt. rewrite <- LI. apply leading_po; auto. apply PO. exists a. split; auto. left; auto. }
        rewrite LP. destruct (T3 eq_refl) as [Q1 [Q2 [Q3 Q4]]]. rewrite Q1 in *. cbn [negb andb orb] in *.
        rewrite Q3 in HD1. cbn in HD1. destruct mn1; [discriminate|].
        destruct (Nat.eqb _ 0); apply skip_loop; auto; rewrite Q3; reflexivity.
      * assert (LP : (i <? leading_empty (kwlist (pre ++ a :: fa)))%nat = false).
        { apply Nat.ltb_ge. rewrite <- LI. apply leading_le. auto. }
        rewrite LP.
        destruct (lookup (a_name a) kws) as [v|] eqn:LK.
        { destruct (without_len_present _ _ _ _ VK NEW LK) as [W1 W2]. apply Nat.eqb_neq in W2. rewrite W2.
          rewrite W1 in NEXT. rewrite andb_false_r, orb_false_l. apply NEXT; auto. }
        rewrite (without_len_absent _ (by_name pre pos) _ LK) in NEXT.
        assert (BY : (if Nat.eqb (length (without (by_name pre pos) kws)) 0 then None else None) = @None val) by (destruct (Nat.eqb _ 0); auto).
        rewrite BY. destruct (has_default a) eqn:DA; rewrite ?orb_true_r, ?orb_false_r in *; cbn [negb andb orb].
        -- destruct mn1 as [m|]; [|discriminate HD1].
           destruct (Nat.eqb (length (without (by_name pre pos) kws)) 0) eqn:NK; [|apply NEXT; auto].
           apply Nat.eqb_eq in NK.
           rewrite missing_none by (eapply tidy_defaults; eauto). cbn [negb andb].
           assert (ALL : forall n, In n (map fst kws) -> In n (by_name pre pos)).
           { apply without_in_inv. destruct (without (by_name pre pos) kws); [auto|discriminate]. }
           rewrite (without_in (by_name (pre ++ a :: fa) pos)).
           2:{ intros n I. rewrite by_name_app. apply in_app_iff. left. auto. }
           f_equal. rewrite PRE, givens_app, GV, SI, <- app_assoc. f_equal. cbn [app]. f_equal.
           rewrite (skipn_all2 pos) by (apply skipn_nil_le in SK; lia).
           rewrite givens_none; [unfold kwlist; rewrite map_map; auto|].
           intros x I _. apply (without_empty_lookup (by_name pre pos)); auto.
           intro J. apply by_name_in in J. rewrite map_app in ND. cbn in ND. apply NoDup_remove_1 in ND.
           apply in_split in J. destruct J as [l1 [l2 J]]. rewrite J in ND. rewrite <- app_assoc in ND. cbn in ND. apply NoDup_remove_2 in ND.
           apply ND. apply in_app_iff. right. apply in_app_iff. right. apply in_map. auto.
        -- destruct (hd) eqn:HH; [specialize (T1 eq_refl); discriminate|].
           destruct mn1; [discriminate|]. auto.
    + (* given by position *)
      assert (KA : is_kwonly a = false). { destruct (is_kwonly a) eqn:K; auto. rewrite orb_true_r in NM. specialize (NM eq_refl). apply skipn_cons_lt in SK. lia. }
      rewrite KA. cbn [given negb andb orb]. rewrite andb_false_r. cbn [orb]. rewrite app_nil_r in NEXT. cbn [given] in NEXT.
      rewrite KA in *. apply NEXT; auto.
Qed.

(* ------------------------------ the whole call ------------------------------ *)

Definition accepted (fa : list arg) (pos : list val) (kws : list (nat * val)) : bool :=
  negb (missing fa pos kws) && negb (too_many fa pos) && match without (by_name fa pos) kws with [] => true | _ => false end
  && (length pos <=? length fa)%nat.

Lemma by_name_len : forall fa pos, length (by_name fa pos) <= length fa - length pos.
Proof.
  induction fa as [|a fa IH]; intros pos; cbn [by_name length]; [auto with arith|].
  rewrite app_length. specialize (IH (tl pos)). destruct pos as [|v pos].
  - cbn in *. destruct (is_posonly a); cbn; lia.
  - cbn in *. lia.
Qed.
Lemma by_name_nil : forall fa, by_name fa [] = map a_name (filter (fun a => negb (is_posonly a)) fa).
Proof. induction fa as [|a fa IH]; cbn; auto. rewrite IH. destruct (is_posonly a); auto. Qed.

Lemma parse_main : forall fa pos kws, valid_keywords kws -> NoDup (map a_name fa) -> tidy fa false false ->
  parse fa pos kws = if accepted fa pos kws then POk (givens fa pos kws) else PTypeError.
Proof.
  intros fa pos kws VK ND T. unfold parse, accepted.
  assert (LN : length (kwlist fa) = length fa) by (unfold kwlist; apply map_length). rewrite LN.
  destruct (length fa <? length pos + length kws)%nat eqn:L.
  - apply Nat.ltb_lt in L. destruct (length pos <=? length fa)%nat eqn:P; [|rewrite andb_false_r; auto].
    apply Nat.leb_le in P. destruct (without (by_name fa pos) kws) eqn:W; [|rewrite andb_false_r; auto].
    exfalso. assert (I := without_in_inv _ _ W). assert (Q := NoDup_incl_length VK I). rewrite map_length in Q.
    assert (Z := by_name_len fa pos). lia.
  - apply Nat.ltb_ge in L. assert (P : (length pos <=? length fa)%nat = true) by (apply Nat.leb_le; lia). rewrite P, andb_true_r.
    assert (M := loop_main pos kws VK fa [] 0 false false None None eq_refl ND T eq_refl eq_refl).
    cbn [app by_name givens skipn] in M. rewrite without_nil in M. apply M; [intros; discriminate|]. intros _ a [].
Qed.

Definition value_of (a : arg) (o : option val) : val :=
  match o with Some v => v | None => match a_value a with Some d => d | None => VNone end end.
Fixpoint vals (fa : list arg) (os : list (option val)) : list (nat * bound) :=
  match fa, os with a :: fa', o :: os' => (a_name a, BVal (value_of a o)) :: vals fa' os' | _, _ => [] end.
Fixpoint dup (fa : list arg) (pos : list val) (kws : list (nat * val)) : bool :=
  match fa, pos with
  | a :: fa', _ :: pos' => (negb (is_posonly a) && mem (a_name a) kws) || dup fa' pos' kws
  | _, _ => false
  end.

Definition par_of (a : arg) : bool * nat * option val := (negb (is_posonly a), a_name a, a_value a).
Lemma has_default_value : forall a, has_default a = match a_value a with Some _ => true | None => false end.
Proof. reflexivity. Qed.

Lemma bind_pos_main : forall fa pos kws,
  bind_positional (map par_of fa) pos kws = if negb (missing fa pos kws) && negb (dup fa pos kws) then Some (vals fa (givens fa pos kws)) else None.
Proof.
  induction fa as [|a fa IH]; intros pos kws; [destruct pos; auto|].
  cbn [map bind_positional par_of missing givens vals]. rewrite IH.
  destruct pos as [|v pos].
  - cbn [tl given dup]. rewrite has_default_value.
    assert (D0 : dup fa [] kws = false) by (destruct fa; auto). rewrite D0.
    destruct (is_posonly a); cbn [negb].
    + unfold value_of. destruct (a_value a); cbn [negb andb orb]; auto.
      destruct (missing fa [] kws); auto.
    + unfold value_of. destruct (lookup (a_name a) kws); [|destruct (a_value a)]; cbn [negb andb orb]; auto;
      try rewrite andb_false_r; cbn [orb]; destruct (missing fa [] kws); auto.
  - cbn [tl given dup]. rewrite andb_false_r. cbn [orb value_of].
    destruct (negb (is_posonly a) && mem (a_name a) kws); cbn [orb negb].
    + rewrite andb_false_r. auto.
    + destruct (missing fa pos kws), (dup fa pos kws); auto.
Qed.
Lemma bind_kw_main : forall ps kws,
  bind_keyword_only ps kws = if negb (missing (map arg_k ps) [] kws) then Some (vals (map arg_k ps) (givens (map arg_k ps) [] kws)) else None.
Proof.
  induction ps as [|[n d] ps IH]; intros kws; auto. cbn [map bind_keyword_only]. rewrite IH.
  cbn [missing givens vals tl]. unfold given at 1 2. cbn [is_posonly arg_k a_name a_kind fst snd]. unfold value_of, has_default. cbn.
  destruct (lookup n kws); [|destruct d]; cbn; auto; destruct (missing (map arg_k ps) [] kws); cbn; auto.
  all: destruct d; auto.
Qed.

Lemma missing_app : forall f1 f2 pos kws, missing (f1 ++ f2) pos kws = missing f1 pos kws || missing f2 (skipn (length f1) pos) kws.
Proof.
  induction f1 as [|a f1 IH]; intros f2 pos kws; cbn [app missing length]; auto.
  rewrite IH, orb_assoc. f_equal. f_equal. destruct pos; cbn; auto. apply skipn_nil.
Qed.
Lemma vals_app : forall f1 f2 o1 o2, length f1 = length o1 -> vals (f1 ++ f2) (o1 ++ o2) = vals f1 o1 ++ vals f2 o2.
Proof. induction f1 as [|a f1 IH]; intros f2 [|o o1] o2 H; cbn in *; try discriminate; auto. f_equal. apply IH. lia. Qed.
Lemma too_many_app : forall f1 f2 pos, (forall a, In a f1 -> is_kwonly a = false) -> (forall a, In a f2 -> is_kwonly a = true) ->
  negb (too_many (f1 ++ f2) pos) && (length pos <=? length (f1 ++ f2))%nat = (length pos <=? length f1)%nat.
Proof.
  induction f1 as [|a f1 IH]; intros f2 pos H1 H2.
  - cbn [app length]. destruct f2 as [|b f2]; cbn [too_many]; [reflexivity|]. destruct pos as [|v pos]; [reflexivity|]. rewrite (H2 b) by (left; auto). reflexivity.
  - destruct pos as [|v pos]; [reflexivity|]. cbn [app too_many length tl Nat.leb]. rewrite (H1 a) by (left; auto). cbn [orb].
    apply IH; auto. intros x I. apply H1. right. auto.
Qed.

Lemma dup_mem : forall fa pos kws, dup fa pos kws = true ->
  exists n, mem n kws = true /\ In n (map a_name (firstn (length pos) fa)).
Proof.
  induction fa as [|a fa IH]; intros [|v pos] kws H; cbn in *; try discriminate.
  apply orb_true_iff in H. destruct H as [H|H].
  - apply andb_true_iff in H. exists (a_name a). split; [apply H|auto].
  - apply IH in H. destruct H as [n [A B]]. exists n. auto.
Qed.
Lemma by_name_skip : forall fa pos n, In n (by_name fa pos) -> In n (map a_name (skipn (length pos) fa)).
Proof.
  induction fa as [|a fa IH]; intros [|v pos] n H; cbn in *; auto.
  - apply in_app_iff in H. destruct H as [H|H]; [destruct (is_posonly a); cbn in H; tauto|].
    right. apply by_name_in in H. auto.
Qed.
Lemma name_placed : forall fa pos kws n, In n (map a_name (filter (fun a => negb (is_posonly a)) fa)) -> mem n kws = true -> dup fa pos kws = false -> In n (by_name fa pos).
Proof.
  induction fa as [|a fa IH]; intros pos kws n I M D; cbn in *; [destruct I|].
  apply in_app_iff. destruct pos as [|v pos].
  - destruct (is_posonly a); cbn in *.
    + right. eapply IH; eauto. destruct fa; auto.
    + destruct I as [I|I]; [auto|]. right. eapply IH; eauto. destruct fa; auto.
  - apply orb_false_iff in D. destruct D as [D1 D2]. right. cbn. eapply IH; eauto.
    destruct (is_posonly a); cbn in *; auto. destruct I as [I|I]; auto. subst n. congruence.
Qed.

Lemma left_over_iff : forall fa pos kws, NoDup (map a_name fa) ->
  (without (by_name fa pos) kws = [] <->
   dup fa pos kws = false /\ filter (fun p => negb (existsb (Nat.eqb (fst p)) (map a_name (filter (fun a => negb (is_posonly a)) fa)))) kws = []).
Proof.
  intros fa pos kws ND. fold (without (map a_name (filter (fun a => negb (is_posonly a)) fa)) kws). split.
  - intros W. assert (I := without_in_inv _ _ W). split.
    + destruct (dup fa pos kws) eqn:D; auto. exfalso. apply dup_mem in D. destruct D as [n [M A]].
      assert (B : In n (map fst kws)).
      { unfold mem in M. apply existsb_exists in M. destruct M as [[m v] [J E]]. cbn in E. apply Nat.eqb_eq in E. subst m. change n with (fst (n, v)). apply in_map. auto. }
      apply I in B. apply by_name_skip in B.
      rewrite <- (firstn_skipn (length pos) fa), map_app in ND.
      apply in_split in A. destruct A as [l1 [l2 A]]. rewrite A, <- app_assoc in ND. cbn in ND. apply NoDup_remove_2 in ND.
      apply ND. apply in_app_iff. right. apply in_app_iff. auto.
    + apply without_in. intros n B. apply I in B. clear - B. revert pos B. induction fa as [|a fa IH]; intros pos B; cbn in *; auto.
      apply in_app_iff in B. destruct B as [B|B].
      * destruct pos; [|destruct B]. destruct (is_posonly a); cbn in *; [destruct B|]. tauto.
      * apply IH in B. destruct (is_posonly a); cbn; auto.
  - intros [D E]. apply without_in. intros n B. apply name_placed with kws; auto.
    + apply (without_in_inv _ _ E); auto.
    + unfold mem. apply existsb_exists. apply in_map_iff in B. destruct B as [[m v] [E1 J]]. exists (m, v). split; auto. cbn in *. subst. apply Nat.eqb_refl.
Qed.

Lemma py_bind_main : forall s pos kws, valid s -> no_posonly_default s -> vararg s = None -> kwarg s = None ->
  py_bind s pos kws = if accepted (visit_arguments s) pos kws then Some (vals (visit_arguments s) (givens (visit_arguments s) pos kws)) else None.
Proof.
  intros s pos kws [ND LE] NP VA KA. unfold py_bind. rewrite VA, KA. rewrite visit_eq by auto. rewrite VA, KA.
  unfold arg_v, arg_d. cbn [app]. rewrite app_nil_r.
  rewrite app_assoc. set (f1 := map arg_po (posonly s) ++ map arg_n (named s)). set (f2 := map arg_k (kwonly s)).
  assert (P1 : positional s = map par_of f1).
  { rewrite positional_eq by auto. unfold f1. rewrite map_app, !map_map. auto. }
  rewrite P1, bind_pos_main, bind_kw_main. fold f2.
  assert (L1 : length f1 = length (posonly s) + length (args s)).
  { unfold f1. rewrite app_length, !map_length. f_equal. rewrite <- (named_fst s NP), map_length. auto. }
  assert (N1 : map a_name f1 = posonly s ++ args s).
  { unfold f1. rewrite map_app, !map_map. cbn [arg_po a_name]. rewrite map_id. f_equal. rewrite <- (named_fst s NP). auto. }
  assert (N2 : map a_name f2 = map fst (kwonly s)) by (unfold f2; rewrite map_map; auto).
  assert (NDF : NoDup (map a_name (f1 ++ f2))).
  { rewrite map_app, N1, N2. unfold parameter_names in ND. rewrite VA, KA in ND. cbn [app] in ND. rewrite app_nil_r in ND. rewrite <- app_assoc. auto. }
  assert (K1 : forall a, In a f1 -> is_kwonly a = false).
  { unfold f1. intros a I. apply in_app_iff in I. destruct I as [I|I]; apply in_map_iff in I; destruct I as [x [E _]]; subst; auto. }
  assert (K2 : forall a, In a f2 -> is_kwonly a = true).
  { unfold f2. intros a I. apply in_map_iff in I. destruct I as [x [E _]]. subst. auto. }
  assert (NF : map a_name (filter (fun a => negb (is_posonly a)) (f1 ++ f2)) = args s ++ map fst (kwonly s)).
  { unfold f1. rewrite !filter_app, !map_app.
    assert (G0 : forall l, filter (fun a => negb (is_posonly a)) (map arg_po l) = []) by (induction l; auto).
    assert (G1 : forall l, filter (fun a => negb (is_posonly a)) (map arg_n l) = map arg_n l) by (induction l as [|x l IH]; cbn; auto; rewrite IH; auto).
    assert (G2 : forall l, filter (fun a => negb (is_posonly a)) (map arg_k l) = map arg_k l) by (induction l as [|x l IH]; cbn; auto; rewrite IH; auto).
    rewrite G0, G1. unfold f2. rewrite G2. cbn [map app]. f_equal; [rewrite map_map; rewrite <- (named_fst s NP); auto|fold f2; auto]. }
  assert (CP : collect None BTuple (extra_positional s pos) = if (length pos <=? length f1)%nat then Some [] else None).
  { unfold extra_positional. rewrite <- L1. destruct (length pos <=? length f1)%nat eqn:Q.
    - apply Nat.leb_le in Q. rewrite skipn_all2 by auto. auto.
    - apply Nat.leb_gt in Q. destruct (skipn (length f1) pos) eqn:Z; auto. apply skipn_nil_le in Z. lia. }
  rewrite CP. unfold accepted.
  assert (TM := too_many_app f1 f2 pos K1 K2).
  destruct (length pos <=? length f1)%nat eqn:LP.
  - apply andb_true_iff in TM. destruct TM as [TM1 TM2]. rewrite TM1, TM2, !andb_true_r.
    apply Nat.leb_le in LP.
    rewrite missing_app, givens_app, vals_app by (rewrite givens_len; auto). rewrite (skipn_all2 pos) by auto.
    assert (LO := left_over_iff (f1 ++ f2) pos kws NDF). rewrite NF in LO.
    assert (DA : dup (f1 ++ f2) pos kws = dup f1 pos kws).
    { clear - LP. revert pos LP. induction f1 as [|a f1 IH]; intros [|v pos] LP; cbn in *; auto; try lia.
      - destruct f2; auto. - rewrite IH by lia. auto. }
    rewrite DA in LO. fold (extra_keywords s kws) in LO.
    destruct (without (by_name (f1 ++ f2) pos) kws) eqn:W.
    + destruct (proj1 LO eq_refl) as [D E]. rewrite D, E. cbn [collect negb andb]. rewrite andb_true_r, andb_true_r.
      destruct (missing f1 pos kws); cbn [negb andb orb]; auto.
      destruct (missing f2 [] kws); cbn [negb andb orb]; auto. rewrite app_nil_r. auto.
    + rewrite andb_false_r. destruct (dup f1 pos kws) eqn:D.
      * rewrite andb_false_r. auto.
      * destruct (extra_keywords s kws) eqn:E; [exfalso; assert (Q := proj2 LO (conj eq_refl eq_refl)); discriminate|].
        cbn [collect]. destruct (missing f1 pos kws), (missing f2 [] kws); reflexivity.
  - assert (C0 : negb (missing (f1 ++ f2) pos kws) && negb (too_many (f1 ++ f2) pos) && match without (by_name (f1 ++ f2) pos) kws with [] => true | _ => false end && (length pos <=? length (f1 ++ f2))%nat = false).
    { destruct (too_many (f1 ++ f2) pos); cbn in *; [rewrite andb_false_r; auto|]. rewrite TM, andb_false_r. auto. }
    rewrite C0. destruct (negb (missing f1 pos kws) && negb (dup f1 pos kws)); auto.
Qed.

Lemma tidy_kw_all : forall ps hd hk, (forall n, ~ In (n, None) ps) -> (hd = true \/ hk = false) -> tidy (map arg_k ps) hd hk.
Proof.
  induction ps as [|[n d] ps IH]; intros hd hk A B; cbn [map tidy]; auto.
  assert (D : has_default (arg_k (n, d)) = true). { destruct d; auto. exfalso. apply (A n). left. auto. }
  rewrite D. split; [auto|]. split; [intros _ H; destruct B as [B|B]; congruence|]. split; [intros; discriminate|]. split.
  - intros x I X. apply in_map_iff in I. destruct I as [y [E _]]. subst. discriminate.
  - apply IH; [intros m I; apply (A m); right; auto|]. left. apply orb_true_r.
Qed.
Lemma tidy_kw_none : forall ps hk, (forall n d, ~ In (n, Some d) ps) -> tidy (map arg_k ps) false hk.
Proof.
  induction ps as [|[n d] ps IH]; intros hk A; cbn [map tidy]; auto.
  assert (D : has_default (arg_k (n, d)) = false). { destruct d as [d|]; auto. exfalso. apply (A n d). left. auto. }
  rewrite D. split; [intros; discriminate|]. split; [intros; discriminate|]. split; [intros; discriminate|]. split.
  - intros x I X. apply in_map_iff in I. destruct I as [y [E _]]. subst. discriminate.
  - apply IH. intros m e I. apply (A m e). right. auto.
Qed.
Lemma tidy_main : forall s, no_posonly_default s -> plain_keywords s -> vararg s = None -> kwarg s = None -> tidy (visit_arguments s) false false.
Proof.
  intros s NP PK VA KA. rewrite visit_eq by auto. rewrite VA, KA. unfold arg_v, arg_d. cbn [app]. rewrite app_nil_r.
  assert (NPO : forall l x, In x (map arg_n l ++ map arg_k (kwonly s)) -> is_posonly x = true -> False).
  { intros l x I X. apply in_app_iff in I. destruct I as [I|I]; apply in_map_iff in I; destruct I as [y [E _]]; subst; discriminate. }
  induction (posonly s) as [|n po IH]; cbn [map app tidy].
  2:{ split; [intros; discriminate|]. split; [intros; discriminate|]. split; [auto|]. split; [auto|]. exact IH. }
  unfold named. unfold no_posonly_default in NP.
  assert (K0 : forall hd, (hd = false \/ defaults s <> []) -> (defaults s = [] -> hd = false) -> tidy (map arg_k (kwonly s)) hd false).
  { intros hd H H2. destruct PK as [PK|[D PK]].
    - apply tidy_kw_all; auto.
    - rewrite (H2 D). apply tidy_kw_none. auto. }
  assert (N2 : forall ds l hd, length l = length ds -> (forall h, h = (hd || match ds with [] => false | _ => true end) -> tidy (map arg_k (kwonly s)) h false) ->
               tidy (map arg_n (combine l (map Some ds)) ++ map arg_k (kwonly s)) hd false).
  { induction ds as [|d ds IH]; intros [|x l] hd L H; cbn in L; try discriminate; cbn [map combine app tidy].
    - apply H. rewrite orb_false_r. auto.
    - split; [auto|]. split; [auto|]. split; [intros; discriminate|]. split; [intros y I Y; exfalso; eapply NPO; eauto|].
      apply IH; [lia|]. intros h E. apply H. rewrite E. destruct hd; auto. }
  remember (length (args s) - length (defaults s)) as k eqn:K.
  assert (LK : length (args s) = k + length (defaults s)) by lia. clear K NP.
  revert LK. generalize (args s). induction k as [|k IH]; intros l L.
  - cbn [repeat app]. apply N2; [cbn in L; auto|]. intros h E. cbn in E. apply K0; subst h; destruct (defaults s); auto. right. discriminate. intros; discriminate.
  - destruct l as [|x l]; [discriminate|]. cbn [repeat app combine map tidy].
    split; [intros; discriminate|]. split; [intros; discriminate|]. split; [intros; discriminate|]. split; [intros y I Y; exfalso; eapply NPO; eauto|].
    apply IH. cbn in L. lia.
Qed.

Lemma default_of_visit : forall s a, valid s -> no_posonly_default s -> vararg s = None -> kwarg s = None -> In a (visit_arguments s) ->
  default_of s (a_name a) = a_value a.
Proof.
  intros s a [ND LE] NP VA KA I. unfold default_of. rewrite visit_eq in I by auto. rewrite VA, KA in I.
  unfold arg_v, arg_d in I. cbn [app] in I. rewrite app_nil_r in I.
  rewrite positional_eq by auto.
  assert (N1 := named_fst s NP).
  unfold parameter_names in ND. rewrite VA, KA in ND. cbn [app] in ND. rewrite app_nil_r in ND. rewrite <- N1 in ND.
  assert (F1 : forall l x, (forall y, In y l -> y <> x) -> find (fun p => Nat.eqb (snd (fst p)) x) (map par_po l) = None).
  { induction l as [|y l IH]; intros x H; cbn; auto. assert (E : Nat.eqb y x = false) by (apply Nat.eqb_neq; apply H; left; auto). rewrite E. apply IH. intros z Z. apply H. right. auto. }
  assert (F2 : forall l x, ~ In x (map fst l) -> find (fun p => Nat.eqb (snd (fst p)) x) (map par_n l) = None).
  { induction l as [|[y d] l IH]; intros x H; cbn in *; auto. assert (E : Nat.eqb y x = false) by (apply Nat.eqb_neq; tauto). rewrite E. apply IH. tauto. }
  assert (F3 : forall l p, NoDup (map fst l) -> In p l -> find (fun p0 => Nat.eqb (snd (fst p0)) (fst p)) (map par_n l) = Some (par_n p)).
  { induction l as [|y l IH]; intros p N J; [destruct J|]. inversion N; subst. cbn [map find]. cbn [par_n fst snd]. destruct J as [J|J].
    - subst y. rewrite Nat.eqb_refl. auto.
    - assert (E : Nat.eqb (fst y) (fst p) = false). { apply Nat.eqb_neq. intro E. apply H1. rewrite E. apply in_map. auto. } rewrite E. apply IH; auto. }
  assert (F4 : forall (l : list (nat * option val)) p, NoDup (map fst l) -> In p l -> find (fun p0 => Nat.eqb (fst p0) (fst p)) l = Some p).
  { induction l as [|y l IH]; intros p N J; [destruct J|]. inversion N; subst. cbn [find]. destruct J as [J|J].
    - subst y. rewrite Nat.eqb_refl. auto.
    - assert (E : Nat.eqb (fst y) (fst p) = false). { apply Nat.eqb_neq. intro E. apply H1. rewrite E. apply in_map. auto. } rewrite E. apply IH; auto. }
  assert (FA : forall (A : Type) (f : A -> bool) l1 l2, find f (l1 ++ l2) = match find f l1 with Some x => Some x | None => find f l2 end).
  { induction l1 as [|x l1 IH]; intros l2; cbn; auto. destruct (f x); auto. }
  assert (DJ : forall l1 l2 x, NoDup (l1 ++ l2) -> In x l1 -> ~ In x (l2 : list nat)).
  { intros l1 l2 x N J1 J2. apply in_split in J1. destruct J1 as [u [v E]]. subst l1. rewrite <- app_assoc in N. cbn in N. apply NoDup_remove_2 in N. apply N.
    apply in_app_iff. right. apply in_app_iff. auto. }
  assert (NDR : forall (l1 l2 : list nat), NoDup (l1 ++ l2) -> NoDup l2).
  { induction l1; intros l2 N; auto. inversion N; auto. }
  assert (NDL : forall (l1 l2 : list nat), NoDup (l1 ++ l2) -> NoDup l1).
  { induction l1 as [|y l1 IH]; intros l2 N; [constructor|]. inversion N; subst. constructor; [intro Q; apply H1; apply in_app_iff; auto|eauto]. }
  rewrite FA. apply in_app_iff in I. destruct I as [I|I].
  - apply in_map_iff in I. destruct I as [n [E I]]. subst a. cbn [arg_po a_name a_value].
    assert (X : forall l, In n l -> find (fun p => Nat.eqb (snd (fst p)) n) (map par_po l) = Some (par_po n)).
    { induction l as [|y l IH]; intros J; [destruct J|]; destruct J as [J|J]; cbn.
      - subst. rewrite Nat.eqb_refl. auto.
      - destruct (Nat.eqb y n) eqn:Q; [apply Nat.eqb_eq in Q; subst; auto|]. apply IH. auto. }
    rewrite (X _ I). auto.
  - apply in_app_iff in I. destruct I as [I|I]; apply in_map_iff in I; destruct I as [p [E I]]; subst a; cbn [arg_n arg_k a_name a_value].
    + rewrite F1. rewrite F3; auto. apply (NDL _ _ (NDR _ _ ND)).
      intros y J Q. subst y. apply (DJ _ _ _ ND J). apply in_app_iff. left. apply in_map. auto.
    + rewrite F1. rewrite F2. rewrite F4; auto. destruct p; auto. apply (NDR _ _ (NDR _ _ ND)).
      * intro Q. apply (DJ _ _ _ (NDR _ _ ND) Q). apply in_map. auto.
      * intros y J Q. subst y. apply (DJ _ _ _ ND J). apply in_app_iff. right. apply in_map. auto.
Qed.

Lemma extract_main : forall s fa pos kws, (forall a, In a fa -> default_of s (a_name a) = a_value a) ->
  (forall n z, In (n, BVal VNone) (vals fa (givens fa pos kws)) -> default_of s n <> Some (VInt z)) ->
  missing fa pos kws = false ->
  same_call (extract_all fa (givens fa pos kws)) (if forallb (well_typed s) (vals fa (givens fa pos kws)) then PyCall (vals fa (givens fa pos kws)) else PyTypeError).
Proof.
  intros s. induction fa as [|a fa IH]; intros pos kws D N M; cbn [givens vals extract_all forallb].
  - reflexivity.
  - cbn [missing] in M. apply orb_false_iff in M. destruct M as [M1 M2].
    cbn [givens vals] in N.
    specialize (IH (tl pos) kws (fun x I => D x (or_intror I)) (fun n z I => N n z (or_intror I)) M2).
    assert (DA := D a (or_introl eq_refl)). assert (NA := fun z I => N (a_name a) z (or_introl I)).
    set (os := givens fa (tl pos) kws) in *. set (vs := vals fa os) in *.
    unfold well_typed at 1. cbn [fst snd]. rewrite DA in *.
    unfold extract, value_of in *. rewrite has_default_value in M1.
    assert (STEP : forall v, same_call match extract_all fa os with CCall r => CCall ((a_name a, v) :: r) | e => e end
              (if forallb (well_typed s) vs then PyCall ((a_name a, BVal v) :: vs) else PyTypeError)).
    { intros v. destruct (extract_all fa os), (forallb (well_typed s) vs); cbn in *; auto. f_equal. auto. }
    destruct (given a pos kws) as [[|z]|].
    + destruct (a_value a) as [[|z]|].
      * cbn [andb]. apply STEP.
      * exfalso. apply (NA z); auto.
      * cbn. auto.
    + cbn [andb]. destruct (a_value a); apply STEP.
    + destruct (a_value a) as [[|z]|]; [cbn [andb]; apply STEP..|]. cbn in M1. discriminate.
Qed.

Lemma wrap_main : forall s pos kws, valid s -> valid_keywords kws -> no_posonly_default s -> plain_keywords s -> vararg s = None -> kwarg s = None ->
  no_none s pos kws -> exists c, wrapped_call s pos kws = Some c /\ same_call c (py_call s pos kws).
Proof.
  intros s pos kws V VK NP PK VA KA NN. unfold wrapped_call, py_call. rewrite VA, KA.
  assert (B := py_bind_main s pos kws V NP VA KA). unfold no_none in NN. rewrite B in *.
  assert (ND : NoDup (map a_name (visit_arguments s))).
  { destruct V as [ND _]. rewrite visit_eq by auto. rewrite VA, KA. unfold arg_v, arg_d. cbn [app]. rewrite app_nil_r.
    rewrite !map_app, !map_map. cbn [arg_po a_name]. rewrite map_id. unfold parameter_names in ND. rewrite VA, KA in ND. cbn [app] in ND. rewrite app_nil_r in ND.
    replace (map (fun x => a_name (arg_n x)) (named s)) with (args s) by (rewrite <- (named_fst s NP); auto).
    replace (map (fun x => a_name (arg_k x)) (kwonly s)) with (map fst (kwonly s)) by auto. auto. }
  eexists. split; [reflexivity|]. rewrite parse_main by (auto using tidy_main).
  destruct (accepted (visit_arguments s) pos kws) eqn:A; [|exact I].
  apply extract_main.
  - intros a J. apply default_of_visit; auto.
  - intros n z J. eapply NN; eauto.
  - unfold accepted in A. rewrite !andb_true_iff in A. destruct A as [[[A _] _] _]. apply negb_true_iff in A. auto.
Qed.
