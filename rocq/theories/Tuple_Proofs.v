From Coq Require Import List Bool Arith Lia.
From Verif Require Import Common Tuple_Model Tuple_Spec.
Import ListNotations.
Open Scope list_scope.
Open Scope nat_scope.
Open Scope py_scope.

Scheme sf_ind2 := Induction for stands_for Sort Prop
with esf_ind2 := Induction for elements_stand_for Sort Prop.
Combined Scheme sf_mut from sf_ind2, esf_ind2.

Definition depths (ts : list ty) : nat :=
  (fix go ts := match ts with [] => 0 | t :: ts' => Nat.max (depth t) (go ts') end) ts.
Definition lleaves (ts : list tree) : list nat :=
  (fix go ts := match ts with [] => [] | t :: ts' => leaves t ++ go ts' end) ts.

Definition go_collect f s v := (fix go (i : nat) (ts : list ty) : py (list nat) :=
           match ts with
           | [] => POk []
           | _ :: ts' =>
               w <~ collect_tuple_element s v i ;;
               a <~ collect_all f s w ;;
               b <~ go (S i) ts' ;;
               POk (a ++ b)
           end).

Lemma collect_all_ok s :
  (forall v t, stands_for s v t -> forall f ty, type_of s v = Some ty -> depth ty <= f -> collect_all f s v = POk (leaves t))
  /\ (forall v i ts trs, elements_stand_for s v i ts trs -> forall f all, type_of s v = Some (TTup all) -> depths ts <= f ->
        go_collect f s v i ts = POk (lleaves trs)).
Proof.
  apply sf_mut.
  - intros v b E f ty Ht Hd. rewrite E in Ht. injection Ht as <-. destruct f as [|f]; [simpl in Hd; lia|].
    cbn [collect_all]. now rewrite E.
  - intros v ts trs E H IH f ty Ht Hd. rewrite E in Ht. injection Ht as <-. destruct f as [|f]; [simpl in Hd; lia|].
    cbn [collect_all]. rewrite E. fold (go_collect f s v). rewrite (IH f ts E); [reflexivity|].
    cbn [depth] in Hd. fold (depths ts) in Hd. lia.
  - intros v i f all _ _. reflexivity.
  - intros v i t ts w tr trs A T H IH H2 IH2 f all Hv Hd. cbn [go_collect].
    change (depths (t :: ts)) with (Nat.max (depth t) (depths ts)) in Hd.
    unfold collect_tuple_element. rewrite Hv, A. cbn [pbind].
    rewrite (IH f t T) by lia. cbn [pbind]. fold (go_collect f s v). rewrite (IH2 f all Hv) by lia. reflexivity.
Qed.

Lemma collect_all_leaves s v t ty : stands_for s v t -> type_of s v = Some ty ->
  collect_all (depth ty) s v = POk (leaves t).
Proof. intros H E. eapply (proj1 (collect_all_ok s)); eauto. Qed.

Lemma esf_nth s v i ts trs : elements_stand_for s v i ts trs -> forall k t, nth_error trs k = Some t ->
  exists w, alias_get (st_alias s) v (i + k) = Some w /\ stands_for s w t.
Proof.
  induction 1 as [v i|v i t ts w tr trs A T H H2 IH]; intros k t' E; [destruct k; discriminate|].
  destruct k as [|k]; simpl in E.
  - injection E as <-. rewrite Nat.add_0_r. eauto.
  - destruct (IH _ _ E) as (w' & A' & B'). exists w'. rewrite Nat.add_succ_r. auto.
Qed.

Lemma follow_ok s path : forall v t t', stands_for s v t -> subtree t path = Some t' ->
  exists w, follow s v path = POk w /\ stands_for s w t'.
Proof.
  induction path as [|i path IH]; intros v t t' H E; cbn [subtree follow] in *.
  - injection E as <-. eauto.
  - destruct H as [v b T|v ts trs T H]; [discriminate|].
    destruct (nth_error trs i) as [t1|] eqn:N; [|discriminate].
    destruct (esf_nth _ _ _ _ _ H _ _ N) as (w & A & B). unfold collect_tuple_element. rewrite T.
    simpl in A. rewrite A. cbn [pbind]. eauto.
Qed.

(* ---- cloning ---- *)
(* s' extends s: same types for old variables, old aliases kept, new aliases only
   for new variables *)
Record extends (s s' : st) : Prop := {
  ex_types : exists more, st_types s' = st_types s ++ more;
  ex_alias : forall v i, v < List.length (st_types s) -> alias_get (st_alias s') v i = alias_get (st_alias s) v i;
  ex_keep : forall v i w, alias_get (st_alias s) v i = Some w -> alias_get (st_alias s') v i = Some w }.

Lemma ext_refl s : extends s s.
Proof. split; auto. exists []. now rewrite app_nil_r. Qed.

Lemma ext_trans s1 s2 s3 : extends s1 s2 -> extends s2 s3 -> extends s1 s3.
Proof.
  intros [[m1 A1] B1 C1] [[m2 A2] B2 C2]. split; auto.
  - exists (m1 ++ m2). rewrite A2, A1. now rewrite app_assoc.
  - intros v i L. rewrite B2; auto. rewrite A1, app_length. lia.
Qed.

Lemma ext_type s s' v t : extends s s' -> type_of s v = Some t -> type_of s' v = Some t.
Proof.
  intros [[m A] _ _] H. unfold type_of in *. rewrite A. rewrite nth_error_app1; [exact H|].
  apply nth_error_Some. congruence.
Qed.

Definition keeps (s s' : st) : Prop :=
  (exists more, st_types s' = st_types s ++ more)
  /\ forall v i w, alias_get (st_alias s) v i = Some w -> alias_get (st_alias s') v i = Some w.

Lemma ext_keeps s s' : extends s s' -> keeps s s'.
Proof. intros [A _ B]. split; auto. Qed.

Lemma keeps_type s s' v t : keeps s s' -> type_of s v = Some t -> type_of s' v = Some t.
Proof.
  intros [[m A] _] H. unfold type_of in *. rewrite A. rewrite nth_error_app1; [exact H|].
  apply nth_error_Some. congruence.
Qed.

Lemma ext_len s s' : extends s s' -> List.length (st_types s) <= List.length (st_types s').
Proof. intros [[m A] _ _]. rewrite A, app_length. lia. Qed.

Lemma ext_sf s s' : keeps s s' ->
  (forall v t, stands_for s v t -> stands_for s' v t)
  /\ (forall v i ts trs, elements_stand_for s v i ts trs -> elements_stand_for s' v i ts trs).
Proof.
  intros X. apply sf_mut.
  - intros v b E. eapply sf_leaf. eapply keeps_type; eauto.
  - intros v ts trs E H IH. eapply sf_node; [eapply keeps_type; eauto|exact IH].
  - intros. constructor.
  - intros v i t ts w tr trs A T H IH H2 IH2. econstructor; [eapply X; eauto|eapply keeps_type; eauto|exact IH|exact IH2].
Qed.

Definition tree_ind' (P : tree -> Prop) (HL : forall v, P (Leaf v)) (HN : forall ts, Forall P ts -> P (Node ts)) :
  forall t, P t :=
  fix rec (t : tree) : P t := match t with
       | Leaf v => HL v
       | Node ts => HN ts ((fix all ts : Forall P ts := match ts with [] => Forall_nil _ | t :: ts' => Forall_cons _ (rec t) (all ts') end) ts)
       end.

(* no alias for variables that do not exist yet *)
Definition clean (s : st) : Prop := forall v i, List.length (st_types s) <= v -> alias_get (st_alias s) v i = None.

Lemma alias_get_app al v i w v' i' : alias_get (al ++ [(v, i, w)]) v' i' =
  match alias_get al v' i' with Some x => Some x | None => if (v' =? v) && (i' =? i) then Some w else None end.
Proof.
  induction al as [|[[a b] c] al IH]; simpl; [reflexivity|]. destruct ((v' =? a) && (i' =? b)); auto.
Qed.

Definition go_clone f v n := (fix go (i : nat) (ts : list ty) (s : st) : py st :=
                match ts with
                | [] => POk s
                | _ :: ts' =>
                    w <~ collect_tuple_element s v i ;;
                    r <~ clone f s w ;;
                    s <~ insert_alias (fst r) n i (snd r) ;;
                    go (S i) ts' s
                end).

Definition fresh_range (a b : nat) (l : list nat) : Prop := NoDup l /\ forall x, In x l -> a <= x < b.

Lemma fresh_range_app a b c l1 l2 : a <= b -> b <= c -> fresh_range a b l1 -> fresh_range b c l2 -> fresh_range a c (l1 ++ l2).
Proof.
  intros Hab Hbc [N1 R1] [N2 R2]. split.
  - induction l1 as [|x l1 IH]; simpl; [exact N2|]. inversion N1; subst. constructor.
    + rewrite in_app_iff. intros [C|C]; [contradiction|]. apply R2 in C. specialize (R1 x (or_introl eq_refl)). lia.
    + apply IH; auto. intros y Hy. apply R1. now right.
  - intros x Hx. apply in_app_iff in Hx. destruct Hx as [Hx|Hx]; [apply R1 in Hx|apply R2 in Hx]; lia.
Qed.

Lemma st_ext s s' s1 s1' a b : keeps s s1 -> keeps s' s1' ->
  (forall v, In v (leaves a) -> v < List.length (st_types s)) ->
  (forall v, In v (leaves b) -> v < List.length (st_types s')) ->
  same_type s s' a b -> same_type s1 s1' a b.
Proof.
  intros X X'. revert b. induction a as [v|ts IH] using tree_ind'.
  - intros b La Lb H. inversion H as [v0 v' E|]; subst. constructor.
    assert (H1 : v < List.length (st_types s)) by (apply La; now left).
    assert (H2 : v' < List.length (st_types s')) by (apply Lb; now left).
    destruct X as [[m A] _], X' as [[m' A'] _]. unfold type_of in *. rewrite A, A'.
    rewrite !nth_error_app1 by assumption. exact E.
  - intros b La Lb H. inversion H as [|ts0 ts' F]; subst. constructor.
    change (forall v, In v (lleaves ts) -> v < List.length (st_types s)) in La.
    change (forall v, In v (lleaves ts') -> v < List.length (st_types s')) in Lb.
    revert La Lb. clear H. induction F as [|x y l l' Hxy F IHF]; intros La Lb; [constructor|].
    inversion IH; subst. change (lleaves (x :: l)) with (leaves x ++ lleaves l) in La.
    change (lleaves (y :: l')) with (leaves y ++ lleaves l') in Lb. constructor.
    + apply H1; auto; intros v Hv; [apply La|apply Lb]; apply in_app_iff; auto.
    + apply IHF; auto; intros v Hv; [apply La|apply Lb]; apply in_app_iff; auto.
Qed.

Lemma sf_bound s :
  (forall v t, stands_for s v t -> forall x, In x (leaves t) -> x < List.length (st_types s))
  /\ (forall v i ts trs, elements_stand_for s v i ts trs -> forall x, In x (lleaves trs) -> x < List.length (st_types s)).
Proof.
  apply sf_mut.
  - intros v b E x [<-|[]]. apply nth_error_Some. unfold type_of in E. congruence.
  - intros v ts trs E H IH x Hx. apply IH. exact Hx.
  - intros v i x [].
  - intros v i t ts w tr trs A T H IH H2 IH2 x Hx.
    change (lleaves (tr :: trs)) with (leaves tr ++ lleaves trs) in Hx.
    apply in_app_iff in Hx. destruct Hx; auto.
Qed.

Lemma clone_mut s0 :
  (forall v t, stands_for s0 v t -> forall s f ty, extends s0 s -> clean s -> type_of s0 v = Some ty -> depth ty <= f ->
     exists s' t', clone f s v = POk (s', List.length (st_types s)) /\ extends s s' /\ clean s'
       /\ List.length (st_types s) < List.length (st_types s')
       /\ type_of s' (List.length (st_types s)) = Some ty
       /\ stands_for s' (List.length (st_types s)) t' /\ same_type s0 s' t t'
       /\ fresh_range (List.length (st_types s)) (List.length (st_types s')) (leaves t'))
  /\ (forall v i ts trs, elements_stand_for s0 v i ts trs -> forall s f n all, extends s0 s -> clean s ->
     type_of s0 v = Some (TTup all) -> depths ts <= f -> n < List.length (st_types s) ->
     List.length (st_types s0) <= n ->
     (forall k, i <= k -> alias_get (st_alias s) n k = None) ->
     exists s' trs', go_clone f v n i ts s = POk s' /\ (exists more, st_types s' = st_types s ++ more) /\ clean s'
       /\ (forall x k, x < List.length (st_types s) -> x <> n -> alias_get (st_alias s') x k = alias_get (st_alias s) x k)
       /\ (forall k, k < i -> alias_get (st_alias s') n k = alias_get (st_alias s) n k)
       /\ (forall x k w, alias_get (st_alias s) x k = Some w -> alias_get (st_alias s') x k = Some w)
       /\ elements_stand_for s' n i ts trs' /\ Forall2 (same_type s0 s') trs trs'
       /\ fresh_range (List.length (st_types s)) (List.length (st_types s')) (lleaves trs')).
Proof.
  apply sf_mut.
  - (* leaf *)
    intros v b E s f ty X C Ht Hd. rewrite E in Ht. injection Ht as <-. destruct f as [|f]; [simpl in Hd; lia|].
    cbn [clone]. rewrite (ext_type _ _ _ _ X E).
    set (n := List.length (st_types s)).
    exists (mkSt (st_types s ++ [TBase b]) (st_alias s)), (Leaf n).
    assert (T : type_of (mkSt (st_types s ++ [TBase b]) (st_alias s)) n = Some (TBase b)).
    { unfold type_of, n. simpl. rewrite nth_error_app2 by lia. now rewrite Nat.sub_diag. }
    split; [reflexivity|]. split; [split; auto; exists [TBase b]; reflexivity|].
    split; [intros x i Hx; apply C; simpl in Hx; rewrite app_length in Hx; lia|].
    split; [simpl; rewrite app_length; simpl; unfold n; lia|]. split; [exact T|].
    split; [eapply sf_leaf; exact T|]. split; [constructor; now rewrite T|].
    split; [constructor; [tauto|constructor]|]. intros x [<-|[]]. simpl. rewrite app_length. simpl. unfold n. lia.
  - (* node *)
    intros v ts trs E H IH s f ty X C Ht Hd. rewrite E in Ht. injection Ht as <-. destruct f as [|f]; [simpl in Hd; lia|].
    cbn [depth] in Hd. fold (depths ts) in Hd.
    cbn [clone]. rewrite (ext_type _ _ _ _ X E). set (n := List.length (st_types s)).
    set (s1 := mkSt (st_types s ++ [TTup ts]) (st_alias s)). fold (go_clone f v n).
    assert (L1 : List.length (st_types s1) = S n) by (unfold s1; simpl; rewrite app_length; simpl; unfold n; lia).
    assert (X01 : extends s s1) by (split; auto; exists [TTup ts]; reflexivity).
    assert (P1 : extends s0 s1) by (eapply ext_trans; eauto).
    assert (P2 : clean s1) by (intros x i Hx; apply C; fold n; lia).
    assert (P3 : List.length (st_types s0) <= n) by (apply ext_len in X; exact X).
    assert (P4 : forall k, 0 <= k -> alias_get (st_alias s1) n k = None) by (intros k _; apply C; unfold n; lia).
    destruct (IH s1 f n ts P1 P2 E ltac:(lia) ltac:(lia) P3 P4) as (s' & trs' & G & (more & M) & C' & A1 & A2 & A3 & R & F & FR).
    { exists s', (Node trs'). rewrite G. cbn [pbind]. split; [reflexivity|].
      assert (L' : List.length (st_types s') >= S n) by (rewrite M, app_length; lia).
      assert (X1 : extends s s').
      { split.
        - exists ([TTup ts] ++ more). rewrite M. unfold s1. simpl. now rewrite <- app_assoc.
        - intros x i Lx. rewrite A1; [reflexivity| |]; unfold n in *; lia.
        - intros x i w Hw. apply A3. exact Hw. }
      assert (T' : type_of s' n = Some (TTup ts)).
      { unfold type_of. rewrite M. rewrite nth_error_app1 by lia. unfold s1. simpl.
        rewrite nth_error_app2 by (unfold n; lia). unfold n. now rewrite Nat.sub_diag. }
      split; [exact X1|]. split; [exact C'|]. split; [fold n; lia|]. split; [exact T'|].
      split; [eapply sf_node; eauto|]. split; [constructor; exact F|].
      destruct FR as [FR1 FR2]. split; [exact FR1|]. intros x Hx. apply FR2 in Hx. fold n. lia. }
  - (* nil *)
    intros v i s f n all X C Hv Hd Ln L0 An. exists s, []. cbn [go_clone].
    split; [reflexivity|]. split; [exists []; now rewrite app_nil_r|]. split; [exact C|]. do 3 (split; [auto|]).
    split; [constructor|]. split; [constructor|]. split; [constructor|intros x []].
  - (* cons *)
    intros v i t ts w tr trs A T H IH H2 IH2 s f n all X C Hv Hd Ln L0 An.
    change (depths (t :: ts)) with (Nat.max (depth t) (depths ts)) in Hd.
    cbn [go_clone]. unfold collect_tuple_element. rewrite (ext_type _ _ _ _ X Hv), (ex_keep _ _ X _ _ _ A). cbn [pbind].
    destruct (IH s f t X C T ltac:(lia)) as (s1 & t1 & E1 & X1 & C1 & Lt1 & Ty1 & SF1 & ST1 & FR1).
    rewrite E1. cbn [pbind fst snd]. set (m := List.length (st_types s)) in *.
    assert (An1 : alias_get (st_alias s1) n i = None).
    { rewrite (ex_alias _ _ X1) by exact Ln. apply An. lia. }
    unfold insert_alias. rewrite An1. cbn [pbind].
    set (s2 := mkSt (st_types s1) (st_alias s1 ++ [(n, i, m)])). fold (go_clone f v n).
    assert (AG : forall x k, alias_get (st_alias s2) x k =
               match alias_get (st_alias s1) x k with Some y => Some y | None => if (x =? n) && (k =? i) then Some m else None end)
      by (intros; apply alias_get_app).
    assert (X12 : forall x k, x <> n -> alias_get (st_alias s2) x k = alias_get (st_alias s1) x k).
    { intros x k Nx. rewrite AG. destruct (alias_get (st_alias s1) x k); [reflexivity|].
      destruct (Nat.eqb_spec x n); [congruence|reflexivity]. }
    assert (X02 : extends s0 s2).
    { split.
      - destruct (ext_trans _ _ _ X X1) as [Q _ _]. exact Q.
      - intros x k Lx. rewrite X12 by lia. rewrite (ex_alias _ _ X1) by (apply ext_len in X; fold m in X; lia).
        apply (ex_alias _ _ X). exact Lx.
      - intros x k y Hy. rewrite AG. now rewrite (ex_keep _ _ X1 _ _ _ (ex_keep _ _ X _ _ _ Hy)). }
    assert (Lm : m <= List.length (st_types s1)) by lia.
    assert (P2 : clean s2) by (intros x k Hx; simpl in Hx; rewrite X12 by lia; apply C1; exact Hx).
    assert (P4 : forall k, S i <= k -> alias_get (st_alias s2) n k = None).
    { intros k Hk. rewrite AG. rewrite (ex_alias _ _ X1) by exact Ln. rewrite An by lia.
      rewrite (proj2 (Nat.eqb_neq k i)) by lia. now rewrite andb_false_r. }
    assert (P3 : n < List.length (st_types s2)) by (simpl; lia).
    destruct (IH2 s2 f n all X02 P2 Hv ltac:(lia) P3 L0 P4) as (s' & trs' & G & (more & M) & C' & A1 & A2 & A3 & R & F & FR).
    { assert (Ai : alias_get (st_alias s2) n i = Some m) by (rewrite AG, An1, !Nat.eqb_refl; reflexivity).
      assert (X2 : keeps s1 s').
      { split; [exists more; exact M|]. intros x k y Hy. apply A3. rewrite AG, Hy. reflexivity. }
      assert (L1' : List.length (st_types s1) <= List.length (st_types s')) by (rewrite M, app_length; simpl; lia).
      exists s', (t1 :: trs'). split; [exact G|].
      destruct X1 as [[m1 M1] B1 K1].
      split; [exists (m1 ++ more); rewrite M; simpl; rewrite M1; now rewrite app_assoc|]. split; [exact C'|].
      split; [intros x k Lx Nx; rewrite A1 by (auto; simpl; lia); rewrite X12 by exact Nx; now apply B1|].
      split.
      { intros k Hk. rewrite A2 by lia. rewrite AG, B1 by exact Ln.
        destruct (alias_get (st_alias s) n k); [reflexivity|].
        rewrite (proj2 (Nat.eqb_neq k i)) by lia. now rewrite andb_false_r. }
      split; [intros x k y Hy; apply X2; now apply K1|].
      split.
      { econstructor; [apply A3; exact Ai|eapply keeps_type; [exact X2|exact Ty1]|eapply (proj1 (ext_sf _ _ X2)); exact SF1|exact R]. }
      split.
      { constructor; [|exact F]. eapply st_ext; [|exact X2| | |exact ST1].
        - apply ext_keeps, ext_refl.
        - eapply (proj1 (sf_bound s0)); eauto.
        - eapply (proj1 (sf_bound s1)); eauto. }
      change (lleaves (t1 :: trs')) with (leaves t1 ++ lleaves trs').
      eapply fresh_range_app; [|exact L1'|exact FR1|exact FR]. lia. }
Qed.

Lemma clone_ok s v t ty : stands_for s v t -> clean s -> type_of s v = Some ty ->
  exists s' n t', clone (depth ty) s v = POk (s', n)
    /\ type_of s' n = Some ty /\ stands_for s' n t' /\ same_type s s' t t'
    /\ NoDup (leaves t') /\ (forall x, In x (n :: leaves t') -> type_of s x = None)
    /\ (forall w u, stands_for s w u -> stands_for s' w u) /\ clean s'.
Proof.
  intros H C T. destruct (proj1 (clone_mut s) v t H s (depth ty) ty (ext_refl s) C T (le_n _))
    as (s' & t' & A1 & A2 & A3 & A4 & A5 & A6 & A7 & A8 & A9).
  exists s', (List.length (st_types s)), t'. split; [exact A1|]. split; [exact A5|]. split; [exact A6|]. split; [exact A7|].
  split; [exact A8|]. split; [|split; [|exact A3]].
  - intros x [<-|Hx]; apply nth_error_None; [lia|]. apply A9 in Hx. lia.
  - intros w u Hw. eapply (proj1 (ext_sf _ _ (ext_keeps _ _ A2))); exact Hw.
Qed.
