From stdpp Require Import gmap.
From Coq Require Import ZArith List Lia.
From Verif Require Import Reuse_Model Reuse_Spec.

#[local] Arguments insert : simpl never.
#[local] Arguments lookup : simpl never.
#[local] Arguments delete : simpl never.

Lemma apart_sym t t' : apart t t' -> apart t' t.
Proof. destruct t, t'; cbn; intuition congruence. Qed.

Lemma upd_comm m t t' v v' : apart t t' -> upd (upd m t v) t' v' = upd (upd m t' v') t v.
Proof.
  destruct t as [x k|x i|x], t' as [y k'|y j|y]; cbn; intros H; try contradiction.
  - apply insert_commute. congruence.
  - rewrite lookup_insert_ne by congruence. destruct (m !! y) as [[z|w]|]; try reflexivity.
    destruct v'; try reflexivity. apply insert_commute. congruence.
  - rewrite lookup_insert_ne by congruence. destruct (m !! x) as [[z|w]|]; try reflexivity.
    destruct v; try reflexivity. apply insert_commute. congruence.
  - destruct (decide (x = y)) as [->|N].
    + destruct H as [H|H]; [congruence|].
      destruct (m !! y) as [[z|w]|] eqn:E; rewrite ?E; try reflexivity.
      destruct v as [z|u], v' as [z'|u']; rewrite ?lookup_insert, ?E; try reflexivity.
      rewrite !insert_insert. rewrite list_insert_commute by congruence. reflexivity.
    + destruct (m !! x) as [[z|w]|] eqn:E; destruct v as [z0|u0]; rewrite ?lookup_insert_ne by congruence;
        destruct (m !! y) as [[z'|w']|] eqn:E'; destruct v' as [z1|u1]; rewrite ?lookup_insert_ne by congruence; rewrite ?E, ?E';
        try reflexivity. apply insert_commute. congruence.
Qed.

Lemma upd_twice m t v v' : num_target t = is_num v' -> upd (upd m t v) t v' = upd m t v'.
Proof.
  destruct t as [x k|x i|x]; cbn; intros H; try apply insert_insert.
  destruct (m !! x) as [[z|w]|] eqn:E; rewrite ?E; try reflexivity.
  destruct v as [z|u]; rewrite ?lookup_insert, ?E; try reflexivity.
  destruct v' as [z'|u']; [|discriminate H]. rewrite insert_insert. now rewrite list_insert_insert.
Qed.

(* all results that have a value, stored at their targets *)
Fixpoint ups (m : env) (ts : list target) (j : nat) (ls : locals) : env :=
  match ts with
  | [] => m
  | t :: ts' => ups (match ls j with Some v => upd m t v | None => m end) ts' (S j) ls
  end.

Lemma ups_ext ts : forall m j ls ls', (forall k, j <= k -> ls k = ls' k) -> ups m ts j ls = ups m ts j ls'.
Proof.
  induction ts as [|t ts IH]; intros m j ls ls' H; cbn; [reflexivity|].
  rewrite (H j) by lia. apply IH. intros k Hk. apply H. lia.
Qed.

Lemma ups_upd ts : forall m j ls t v, Forall (apart t) ts -> upd (ups m ts j ls) t v = ups (upd m t v) ts j ls.
Proof.
  induction ts as [|t0 ts IH]; intros m j ls t v H; cbn; [reflexivity|].
  inversion H; subst. rewrite IH by assumption. destruct (ls j); [|reflexivity].
  rewrite upd_comm; [reflexivity|]. now apply apart_sym.
Qed.

Lemma ups_set ts : forall i m j ls t v, ForallOrdPairs apart ts -> ts !! i = Some t -> num_target t = is_num v ->
  upd (ups m ts j ls) t v = ups m ts j (set ls (j + i) v).
Proof.
  induction ts as [|t0 ts IH]; intros i m j ls t v P E N; [discriminate E|].
  inversion P as [|? ? F P']; subst. destruct i as [|i].
  - injection E as ->. cbn [ups]. rewrite ups_upd by assumption.
    unfold set at 1. rewrite Nat.add_0_r, Nat.eqb_refl.
    assert (upd (match ls j with Some v0 => upd m t v0 | None => m end) t v = upd m t v) as ->.
    { destruct (ls j); [now apply upd_twice|reflexivity]. }
    apply ups_ext. intros k Hk. unfold set. destruct (Nat.eqb_spec k j); [lia|reflexivity].
  - change (ts !! i = Some t) in E. cbn [ups]. rewrite (IH i) by assumption.
    replace (S j + i) with (j + S i) by lia. unfold set at 2. destruct (Nat.eqb_spec j (j + S i)); [lia|reflexivity].
Qed.

(* the element exists *)
Definition cell (m : env) (t : target) : Prop :=
  match t with
  | TVar _ _ => True
  | TElem x i => exists w, m !! x = Some (VL w) /\ i < length w
  | TAll _ => False
  end.

Lemma cell_upd m t t' v : t' = t \/ apart t t' -> cell m t -> cell (upd m t' v) t.
Proof.
  intros H K. destruct t as [x k|x i|x]; cbn in *; try exact K. destruct K as (w & E & L).
  assert (forall j z, <[x:=VL (<[j:=z]> w)]> m !! x = Some (VL (<[j:=z]> w)) /\ i < length (<[j:=z]> w)) as B.
  { intros j z. rewrite lookup_insert, insert_length. now split. }
  destruct H as [->|H].
  - cbn. rewrite E. destruct v as [z|u]; [exists (<[i:=z]> w); apply B|now exists w].
  - destruct t' as [y k'|y j|y]; cbn in *; try contradiction.
    + exists w. rewrite lookup_insert_ne by congruence. now split.
    + destruct (decide (x = y)) as [<-|N].
      * rewrite E. destruct v as [z|u]; [exists (<[j:=z]> w); apply B|now exists w].
      * exists w. destruct (m !! y) as [[z|w']|]; try (now split). destruct v; [|now split].
        rewrite lookup_insert_ne by congruence. now split.
Qed.

Lemma cell_upd_rev m t t' v : apart t t' -> cell (upd m t' v) t -> cell m t.
Proof.
  destruct t as [x k|x i|x]; cbn; try tauto.
  destruct t' as [y k'|y j|y]; cbn; try contradiction; intros H (w & E & L).
  - rewrite lookup_insert_ne in E by congruence. now exists w.
  - destruct (m !! y) as [[z|w']|] eqn:E'; try (now exists w). destruct v as [z|u]; [|now exists w].
    destruct (decide (x = y)) as [->|N].
    + rewrite lookup_insert in E. injection E as <-. rewrite insert_length in L. now exists w'.
    + rewrite lookup_insert_ne in E by congruence. now exists w.
Qed.

Lemma cell_ups ts : forall m j ls t, Forall (fun t' => t' = t \/ apart t t') ts -> cell m t -> cell (ups m ts j ls) t.
Proof.
  induction ts as [|t0 ts IH]; intros m j ls t F K; cbn; [exact K|].
  inversion F; subst. apply IH; [assumption|]. destruct (ls j); [now apply cell_upd|exact K].
Qed.

Lemma pairs_all ts t : ForallOrdPairs apart ts -> In t ts -> Forall (fun t' => t' = t \/ apart t t') ts.
Proof.
  intros P I. apply List.Forall_forall. intros t' I'.
  destruct (ForallOrdPairs_In P _ _ I I') as [->|[H|H]]; auto. right. now apply apart_sym.
Qed.

Lemma get_upd m t v : cell m t -> num_target t = is_num v -> get (upd m t v) t = Some v.
Proof.
  destruct t as [x k|x i|x]; cbn; intros K N; try contradiction.
  - apply lookup_insert.
  - destruct K as (w & E & L). rewrite E. destruct v as [z|u]; [|discriminate N].
    rewrite lookup_insert, list_lookup_insert by assumption. reflexivity.
Qed.

Lemma get_arg_upd m t v a : by_ref a = true -> away a t -> (forall x, t <> TAll x) -> get_arg (upd m t v) a = get_arg m a.
Proof.
  intros B A NA. destruct t as [y k|y j|y]; [| |now destruct (NA y)].
  - destruct a as [x o|x|x i|x i|xs f]; cbn in *; try discriminate B;
      rewrite lookup_insert_ne by (intros ->; apply A; now left); reflexivity.
  - destruct a as [x o|x|x i|x i|xs f]; cbn [by_ref] in B; try discriminate B; cbn [get_arg upd].
    + cbn in A. destruct (m !! y) as [[z|w]|]; try reflexivity. destruct v; try reflexivity.
      rewrite lookup_insert_ne by (intros ->; apply A; now left); reflexivity.
    + cbn in A. destruct (m !! y) as [[z|w]|]; try reflexivity. destruct v; try reflexivity.
      rewrite lookup_insert_ne by (intros ->; apply A; now left); reflexivity.
    + cbn in A. destruct (m !! y) as [[z|w]|] eqn:E; try reflexivity. destruct v; try reflexivity.
      destruct (decide (y = x)) as [->|N].
      * rewrite lookup_insert, E. destruct A as [A|A]; [congruence|]. now rewrite drop_insert_gt by assumption.
      * now rewrite lookup_insert_ne by congruence.
Qed.

Lemma get_arg_ups ts : forall m j ls a, by_ref a = true -> (forall t, In t ts -> away a t /\ forall x, t <> TAll x) ->
  get_arg (ups m ts j ls) a = get_arg m a.
Proof.
  induction ts as [|t ts IH]; intros m j ls a B H; cbn; [reflexivity|].
  rewrite IH; [|assumption|intros t' I; apply H; now right].
  destruct (H t (or_introl eq_refl)). destruct (ls j); [|reflexivity]. now apply get_arg_upd.
Qed.

Lemma all_some_spec {A} (l : list (option A)) xs : all_some l = Some xs <-> l = map Some xs.
Proof.
  revert xs. induction l as [|a l IH]; intros xs; cbn.
  - destruct xs; cbn; split; congruence.
  - destruct a as [a|].
    + destruct (all_some l) as [ys|] eqn:E.
      * split; [intros [= <-]; cbn; f_equal; now apply IH|]. destruct xs as [|b xs]; cbn; [discriminate|].
        intros [= -> H]. apply IH in H. injection H as ->. reflexivity.
      * split; [discriminate|]. destruct xs as [|b xs]; cbn; [discriminate|]. intros [= -> H]. apply IH in H. discriminate.
    + split; [discriminate|]. destruct xs; discriminate.
Qed.

(* ------------------------------ the code before the call ------------------------------ *)

Definition cont (ts : list target) (x : nat) : Prop := exists k, In (TVar x k) ts /\ k <> Scalar.

Lemma release_ok l st m t : status_ok st m t -> exists m', release l st m t = Some m' /\
  forall x, ~ cont [t] x -> m' !! x = m !! x.
Proof.
  assert (forall x k, k <> Scalar -> forall y, ~ cont [TVar x k] y -> x <> y) as D.
  { intros x k K y N <-. apply N. exists k. split; [now left|exact K]. }
  destruct t as [x k|x i|x]; cbn [status_ok release]; intros S; try (exists m; now split).
  destruct k; [exists m; now split| |].
  - specialize (S ltac:(discriminate)). specialize (D x Array ltac:(discriminate)). destruct (st x).
    + exists m; now split.
    + destruct (m !! x) eqn:E; [|congruence].
      exists (delete x m). destruct l; (split; [reflexivity|intros y N; apply lookup_delete_ne; now apply D]).
    + destruct (m !! x) eqn:E.
      * exists (delete x m). destruct l; (split; [reflexivity|intros y N; apply lookup_delete_ne; now apply D]).
      * exists m. destruct l; now split.
  - specialize (S ltac:(discriminate)). specialize (D x Lst ltac:(discriminate)). destruct (st x).
    + exists m; now split.
    + destruct (m !! x) eqn:E; [|congruence]. destruct l; [exists (delete x m)|exists (<[x:=VL []]> m)].
      * split; [reflexivity|intros y N; apply lookup_delete_ne; now apply D].
      * split; [reflexivity|intros y N; apply lookup_insert_ne; now apply D].
    + destruct (m !! x) eqn:E; [|now destruct S]. destruct l; [exists (delete x m)|exists (<[x:=VL []]> m)].
      * split; [reflexivity|intros y N; apply lookup_delete_ne; now apply D].
      * split; [reflexivity|intros y N; apply lookup_insert_ne; now apply D].
Qed.

Definition distinct_vars (ts : list target) : Prop :=
  ForallOrdPairs (fun t t' => forall x k k', t = TVar x k -> t' <> TVar x k') ts.

Lemma release_all_ok l st ts : forall m, distinct_vars ts -> Forall (status_ok st m) ts ->
  exists m', release_all l st m ts = Some m' /\ forall x, ~ cont ts x -> m' !! x = m !! x.
Proof.
  induction ts as [|t ts IH]; intros m P F; cbn; [exists m; now split|].
  inversion F as [|? ? S F']; subst. inversion P as [|? ? Q P']; subst.
  destruct (release_ok l st m t S) as (m1 & -> & A1).
  destruct (IH m1 P') as (m2 & E & A2).
  - rewrite List.Forall_forall in *. intros t' I. specialize (F' t' I). specialize (Q t' I).
    destruct t' as [x k| |]; cbn in *; try exact Logic.I. intros K. specialize (F' K).
    rewrite A1; [exact F'|]. intros (k' & [->|[]] & _). now apply (Q x k' k).
  - exists m2. split; [exact E|]. intros x N. rewrite A2, A1; [reflexivity| |].
    + intros (k & [->|[]] & K). apply N. exists k. split; [now left|exact K].
    + intros (k & I & K). apply N. exists k. split; [now right|exact K].
Qed.

Lemma get_arg_agree m m' a : (forall x, In x (vars a) -> m' !! x = m !! x) -> get_arg m' a = get_arg m a.
Proof.
  destruct a as [x o|x|x i|x i|xs f]; cbn; intros H; rewrite ?(H x (or_introl eq_refl)); try reflexivity.
  f_equal. f_equal. apply map_ext_in. exact H.
Qed.

(* ------------------------------ the targets at the end ------------------------------ *)

Lemma store_some m t v m' : store m t v = Some m' -> m' = upd m t v /\ fits m t v = true.
Proof. unfold store. destruct (fits m t v); intros [= <-]. now split. Qed.

Lemma fits_num m t v : fits m t v = true -> num_target t = is_num v.
Proof. unfold fits. intros H. apply andb_prop in H as [H _]. now apply Bool.eqb_prop in H. Qed.

Lemma fits_cell m t v : (forall x, t <> TAll x) -> fits m t v = true -> cell m t.
Proof.
  unfold fits. intros N H. apply andb_prop in H as [_ H]. destruct t as [x k|x i|x]; cbn; [exact I| |now destruct (N x)].
  destruct (m !! x) as [[z|w]|]; try discriminate H. exists w. split; [reflexivity|]. now apply Nat.ltb_lt.
Qed.

Lemma cell_fits m t v : cell m t -> num_target t = is_num v -> fits m t v = true.
Proof.
  unfold fits. intros K ->. rewrite Bool.eqb_reflx. destruct t as [x k|x i|x]; cbn in *; [reflexivity| |contradiction].
  destruct K as (w & -> & L). now apply Nat.ltb_lt.
Qed.

Lemma assign_cells ts : forall e rs e', ForallOrdPairs apart ts -> (forall x, ~ In (TAll x) ts) ->
  py_assign e ts rs = Some e' -> forall t, In t ts -> cell e t.
Proof.
  induction ts as [|t0 ts IH]; intros e rs e' P NA H t I; [destruct I|].
  destruct rs as [|r rs]; cbn in H; [discriminate|]. destruct (store e t0 r) as [e1|] eqn:S; [|discriminate].
  apply store_some in S as [-> F]. inversion P as [|? ? Q P']; subst. destruct I as [->|I].
  - eapply fits_cell; [|exact F]. intros x ->. apply (NA x). now left.
  - eapply cell_upd_rev; [|eapply IH; [exact P'| |exact H|exact I]].
    + rewrite List.Forall_forall in Q. apply apart_sym. now apply Q.
    + intros x Ix. apply (NA x). now right.
Qed.

Definition written (ts : list target) (x : nat) : Prop := exists k, In (TVar x k) ts.

Lemma ups_assign ts : forall m e j ls rs e', ForallOrdPairs apart ts -> (forall x, ~ In (TAll x) ts) ->
  (forall x, ~ written ts x -> m !! x = e !! x) ->
  map ls (seq j (length ts)) = map Some rs -> py_assign e ts rs = Some e' -> ups m ts j ls = e'.
Proof.
  induction ts as [|t ts IH]; intros m e j ls rs e' P NA A L H; cbn.
  - destruct rs; cbn in H; [|discriminate]. injection H as <-. apply map_eq. intros x. apply A. intros (k & []).
  - destruct rs as [|r rs]; cbn in H; [discriminate|]. destruct (store e t r) as [e1|] eqn:S; [|discriminate].
    apply store_some in S as [-> F]. inversion P as [|? ? Q P']; subst.
    cbn in L. injection L as L0 L. rewrite L0. eapply IH; [exact P'| | |exact L|exact H].
    + intros x I. apply (NA x). now right.
    + intros x N. rewrite List.Forall_forall in Q. destruct t as [y k|y i|y]; [| |exfalso; apply (NA y); now left].
      * cbn. destruct (decide (x = y)) as [->|D]; [now rewrite !lookup_insert|].
        rewrite !lookup_insert_ne by congruence. apply A. intros (k' & [[= <- <-]|I]); [congruence|]. apply N. now exists k'.
      * assert (forall z, ~ written ts z -> m !! z = e !! z) as A'.
        { intros z Nz. apply A. intros (k' & [I|I]); [discriminate I|]. apply Nz. now exists k'. }
        assert (~ written ts y) as Ny.
        { intros (k' & I). specialize (Q _ I). cbn in Q. congruence. }
        cbn. rewrite (A' y Ny). destruct (e !! y) as [[z|w]|]; try (now apply A'). destruct r; [|now apply A'].
        destruct (decide (x = y)) as [->|D]; [now rewrite !lookup_insert|].
        rewrite !lookup_insert_ne by congruence. now apply A'.
Qed.

(* ------------------------------ the function ------------------------------ *)

Definition typed (ts : list target) (ls : locals) : Prop :=
  forall j v, ls j = Some v -> exists t, ts !! j = Some t /\ num_target t = is_num v.

Lemma map_some_in {A B} (f g : A -> option B) l rs : map f l = map Some rs ->
  (forall a b, f a = Some b -> g a = Some b) -> map g l = map Some rs.
Proof.
  revert rs. induction l as [|a l IH]; intros [|r rs] H G; cbn in *; try discriminate; [reflexivity|].
  injection H as H0 H. now rewrite (G _ _ H0), (IH rs H G).
Qed.

Lemma typed_set ts ls j t v : typed ts ls -> ts !! j = Some t -> num_target t = is_num v -> typed ts (set ls j v).
Proof.
  intros T E N i u. unfold set. destruct (Nat.eqb_spec i j) as [->|D]; [|apply T]. intros [= <-]. now exists t.
Qed.

Lemma body_own ts m vs ps : map (get_param m) ps = map Some vs -> forall b ls ls',
  py_body ts vs ls b = Some ls' -> run_body true ts ps m ls b = Some (m, ls').
Proof.
  intros R. induction b as [|s b IH]; intros ls ls' H; cbn in *; [now injection H as <-|].
  destruct (py_step ts vs ls s) as [ls1|] eqn:S; [|discriminate].
  unfold py_step in S. unfold run_step. apply all_some_spec in R as ->.
  destruct (all_some (map ls (rds s))) as [rs|]; [|discriminate].
  destruct (ts !! dst s) as [t|]; [|discriminate].
  destruct (Bool.eqb (num_target t) (is_num (fn s vs rs))); [|discriminate]. injection S as <-. now apply IH.
Qed.

Lemma body_at ts m1 vs ps : ForallOrdPairs apart ts -> (forall x, ~ In (TAll x) ts) -> (forall t, In t ts -> cell m1 t) ->
  Forall2 (fun p v => forall ls, get_param (ups m1 ts 0 ls) p = Some v) ps vs -> forall b ls ls' loc, typed ts ls ->
  py_body ts vs ls b = Some ls' -> run_body false ts ps (ups m1 ts 0 ls) loc b = Some (ups m1 ts 0 ls', loc).
Proof.
  intros P NA K R. induction b as [|s b IH]; intros ls ls' loc T H; cbn in *; [now injection H as <-|].
  destruct (py_step ts vs ls s) as [ls1|] eqn:S; [|discriminate].
  unfold py_step in S. unfold run_step.
  assert (all_some (map (get_param (ups m1 ts 0 ls)) ps) = Some vs) as ->.
  { apply all_some_spec. clear -R. induction R as [|p v ps vs H R IH]; cbn; [reflexivity|]. now rewrite H, IH. }
  destruct (all_some (map ls (rds s))) as [rs|] eqn:ER; [|discriminate].
  assert (forall t, In t ts -> cell (ups m1 ts 0 ls) t) as K'.
  { intros t I. apply cell_ups; [now apply pairs_all|now apply K]. }
  assert (all_some (map (fun j => match ts !! j with Some t => get (ups m1 ts 0 ls) t | None => None end) (rds s)) = Some rs) as ->.
  { apply all_some_spec. apply all_some_spec in ER. eapply map_some_in; [exact ER|].
    intros j v E. destruct (T j v E) as (t & Et & N). rewrite Et.
    assert (ups m1 ts 0 ls = upd (ups m1 ts 0 ls) t v) as ->.
    { rewrite (ups_set _ j) by assumption. apply ups_ext. intros k _. unfold set. cbn.
      destruct (Nat.eqb_spec k j) as [->|]; [exact E|reflexivity]. }
    apply get_upd; [|exact N]. apply K'. apply elem_of_list_In. eapply elem_of_list_lookup_2. exact Et. }
  destruct (ts !! dst s) as [t|] eqn:Et; [|discriminate].
  destruct (Bool.eqb (num_target t) (is_num (fn s vs rs))) eqn:N; [|discriminate]. injection S as <-.
  apply Bool.eqb_prop in N. unfold store.
  rewrite cell_fits; [|apply K'; apply elem_of_list_In; eapply elem_of_list_lookup_2; exact Et|exact N].
  rewrite (ups_set _ (dst s)) by assumption. cbn [Nat.add]. apply IH; [|exact H]. eapply typed_set; eassumption.
Qed.

(* ------------------------------ the whole statement ------------------------------ *)

Lemma same_clone l s : (l = Fortran -> elements_new s) ->
  match l with C => false | Fortran => existsb (fun a => negb (has_clone a) && existsb (same a) (targets s)) (args s) end = false.
Proof.
  intros H. destruct l; [reflexivity|]. specialize (H eq_refl).
  destruct (existsb _ _) eqn:E; [|reflexivity]. apply existsb_exists in E as (a & Ia & E).
  apply andb_prop in E as [B E]. apply existsb_exists in E as (t & It & E).
  destruct a; try discriminate B. destruct t; try discriminate E. cbn in E. apply andb_prop in E as [E1 E2].
  apply Nat.eqb_eq in E1 as ->. apply Nat.eqb_eq in E2 as ->. exfalso. eapply H; eassumption.
Qed.

Lemma apart_distinct ts : ForallOrdPairs apart ts -> distinct_vars ts.
Proof.
  induction 1 as [|t ts F P IH]; constructor; [|exact IH]. eapply List.Forall_impl; [|exact F].
  intros t' A x k k' -> ->. now apply A.
Qed.

Lemma in_ex : forall l (s : stmt), separate l s -> forall a, In a (args s) -> by_ref a = true ->
  (match l with C => false | Fortran => existsb (same a) (targets s) end) = false ->
  forall t, In t (targets s) -> away a t /\ forall x, t <> TAll x.
Proof.
  intros l s (P & NA & S) a Ia B E t It. split; [|intros x ->; now apply (NA x)].
  destruct (S a t Ia It B) as [H|(-> & x & -> & k & I)]; [exact H|]. exfalso.
  assert (existsb (same (AVar x true)) (targets s) = true) as E'.
  { apply existsb_exists. exists (TVar x k). split; [exact I|]. apply Nat.eqb_refl. }
  congruence.
Qed.

Lemma pass_params l ts m1 e : forall as_ vs, (forall a, In a as_ -> get_arg m1 a = get_arg e a) ->
  map (get_arg e) as_ = map Some vs ->
  exists ps, map (pass l ts m1) as_ = map Some ps /\ Forall2 (fun p v => get_param m1 p = Some v) ps vs /\
    Forall2 (fun p a => p = PR a -> by_ref a = true /\ match l with C => false | Fortran => existsb (same a) ts end = false) ps as_ /\
    Forall2 (fun p a => forall a', p = PR a' -> a' = a) ps as_.
Proof.
  induction as_ as [|a as_ IH]; intros vs A E.
  - destruct vs; [|discriminate]. exists []. repeat split; constructor.
  - destruct vs as [|v vs]; [discriminate|]. cbn in E. injection E as E0 E.
    destruct (IH vs) as (ps & E1 & F1 & F2 & F3); [intros a' I; apply A; now right|exact E|].
    assert (get_arg m1 a = Some v) as G by (rewrite A by (now left); exact E0).
    set (p := if by_ref a && negb (match l with C => false | Fortran => existsb (same a) ts end) then PR a else PV v).
    exists (p :: ps). cbn [map]. split; [|split; [|split]].
    + f_equal; [|exact E1]. unfold pass. rewrite G. reflexivity.
    + constructor; [|exact F1]. unfold p. destruct (by_ref a && _); [exact G|reflexivity].
    + constructor; [|exact F2]. unfold p. destruct (by_ref a); cbn; [|discriminate].
      destruct (match l with C => false | Fortran => existsb (same a) ts end); cbn; [discriminate|]. now split.
    + constructor; [|exact F3]. unfold p. destruct (by_ref a && _); congruence.
Qed.

Lemma one_separate l s t : targets s = [t] -> containers_new s -> (forall x, t <> TAll x) ->
  own_result l (targets s) = false -> separate l s.
Proof.
  intros E CN NA O. rewrite E in O. assert (exists x k, t = TVar x k /\ k <> Scalar) as (x & k & -> & K).
  { destruct l, t as [x []|x i|x]; try discriminate O; eexists x, _; (split; [reflexivity|discriminate]). }
  unfold separate. rewrite E. split; [|split].
  - constructor; constructor.
  - intros y [H|[]]. discriminate H.
  - intros a t' Ia [<-|[]] _. left. specialize (CN x k). rewrite E in CN.
    assert (~ In x (vars a)) by (apply CN; [now left|exact K|exact Ia]). destruct a; exact H.
Qed.

Lemma call_ok l st e s e' : (l = Fortran -> elements_new s) -> containers_new s -> one_target s \/ separate l s ->
  Forall (status_ok st e) (targets s) -> py e s = Some e' -> exec l st e s = Done e'.
Proof.
  intros EN CN SEP ST H. unfold exec. rewrite (same_clone l s EN).
  unfold py in H. destruct (all_some (map (get_arg e) (args s))) as [vs|] eqn:EA; [|discriminate]. apply all_some_spec in EA.
  destruct (py_body (targets s) vs (fun _ => None) (body s)) as [ls|] eqn:EB; [|discriminate].
  destruct (all_some (map ls (seq 0 (length (targets s))))) as [rs|] eqn:ER; [|discriminate]. apply all_some_spec in ER.
  assert (distinct_vars (targets s)) as DV.
  { destruct SEP as [(t & ->)|(P & _)]; [constructor; constructor|now apply apart_distinct]. }
  destruct (release_all_ok l st _ e DV ST) as (m1 & -> & A).
  assert (forall a, In a (args s) -> get_arg m1 a = get_arg e a) as GA.
  { intros a Ia. apply get_arg_agree. intros x Ix. apply A. intros (k & I & K). exact (CN x k I K a Ia Ix). }
  destruct (pass_params l (targets s) m1 e (args s) vs GA EA) as (ps & EP & F1 & F2 & F3).
  apply all_some_spec in EP as ->.
  destruct (own_result l (targets s)) eqn:O.
  - assert (exists t, targets s = [t]) as (t & ET).
    { destruct (targets s) as [|t [|t' ts]]; [destruct l; discriminate O|now exists t|destruct l, t as [? []| |]; discriminate O]. }
    rewrite ET in H, EB, ER, DV, ST, A, O |- *.
    rewrite (body_own _ m1 vs ps) with (ls' := ls); [| |exact EB].
    2:{ clear -F1. induction F1 as [|p v ps vs P F IH]; cbn; [reflexivity|]. now rewrite P, IH. }
    cbn in ER. destruct rs as [|r [|r' rs]]; try discriminate ER. injection ER as ->. cbn in H.
    destruct (store e t r) as [e1|] eqn:S; [|discriminate]. injection H as ->.
    apply store_some in S as [-> F]. unfold store.
    assert ((forall x k, t = TVar x k -> k = Scalar) \/ exists x k, t = TVar x k) as [NC|(x & k & ->)].
    { destruct t as [x k|x i|x]; [right; now exists x, k|left; discriminate|left; discriminate]. }
    + assert (m1 = e) as ->.
      { apply map_eq. intros y. apply A. intros (k & [->|[]] & K). apply K. eapply NC. reflexivity. }
      now rewrite F.
    + assert (fits m1 (TVar x k) r = fits e (TVar x k) r) as -> by reflexivity. rewrite F. f_equal. cbn.
      apply map_eq. intros y. destruct (decide (x = y)) as [->|D]; [now rewrite !lookup_insert|].
      rewrite !lookup_insert_ne by exact D. apply A. intros (k' & [[= -> ->]|[]] & K). now apply D.
  - assert (separate l s) as SP.
    { destruct SEP as [(t & ET)|SP]; [|exact SP]. eapply one_separate; [exact ET|exact CN| |exact O].
      intros x ->. rewrite ET in O. destruct l; discriminate O. }
    pose proof SP as (P & NA & _).
    assert (forall t, In t (targets s) -> cell m1 t) as K.
    { intros t It. pose proof (assign_cells _ _ _ _ P NA H t It) as Ke. destruct t as [x k|x i|x]; cbn in *; try exact Ke.
      destruct Ke as (w & E & L). exists w. rewrite A; [now split|]. intros (k & I & _).
      destruct (ForallOrdPairs_In P _ _ It I) as [Q|[Q|Q]]; [discriminate Q|now apply Q|now apply Q]. }
    assert (ups m1 (targets s) 0 (fun _ => None) = m1) as U0.
    { generalize 0. clear. induction (targets s) as [|t ts IH]; intros j; cbn; [reflexivity|apply IH]. }
    pose proof (body_at (targets s) m1 vs ps P NA K) as BA.
    rewrite <- U0 at 1. rewrite BA with (ls' := ls); [| |intros j v; discriminate|exact EB].
    + f_equal. eapply ups_assign; [exact P|exact NA| |exact ER|exact H].
      intros x N. apply A. intros (k & I & _). apply N. now exists k.
    + assert (forall p, In p ps -> forall a, p = PR a -> In a (args s) /\ by_ref a = true /\
        match l with C => false | Fortran => existsb (same a) (targets s) end = false) as Q.
      { clear -F2 F3. revert F3. induction F2 as [|p a ps as_ G F IH]; intros F3 q Iq b Eq; [destruct Iq|].
        inversion F3 as [|? ? ? ? G' F3']; subst. destruct Iq as [->|Iq].
        - pose proof (G' b eq_refl) as ->. destruct (G eq_refl). split; [now left|now split].
        - destruct (IH F3' _ Iq b eq_refl) as (I1 & I2 & I3). split; [now right|now split]. }
      clear -F1 Q SP. induction F1 as [|p v ps vs G F IH]; constructor.
      * intros ls. destruct p as [u|a]; [exact G|]. cbn in *.
        destruct (Q _ (or_introl eq_refl) a eq_refl) as (I1 & I2 & I3).
        rewrite get_arg_ups; [exact G|exact I2|]. now apply (in_ex l s SP a I1 I2 I3).
      * apply IH. intros q Iq. apply Q. now right.
Qed.

(* ------------------------------ what goes wrong ------------------------------ *)

Lemma release_none l st m t m' x : m !! x = None -> (t = TVar x Lst -> l = C) -> release l st m t = Some m' -> m' !! x = None.
Proof.
  intros E N R. destruct t as [y k|y i|y]; try (injection R as <-; exact E).
  unfold release in R. destruct k; [injection R as <-; exact E| |]; destruct (st y); destruct l;
    try (injection R as <-; exact E);
    try (destruct (m !! y); [injection R as <-; now apply lookup_delete_None; right|first [discriminate R|injection R as <-; exact E]]);
    injection R as <-; rewrite lookup_insert_ne; try exact E; intros ->; discriminate (N eq_refl).
Qed.

Lemma release_all_none l st x ts : forall m m', m !! x = None -> (In (TVar x Lst) ts -> l = C) ->
  release_all l st m ts = Some m' -> m' !! x = None.
Proof.
  induction ts as [|t ts IH]; intros m m' E N R; cbn in R; [now injection R as <-|].
  destruct (release l st m t) as [m1|] eqn:R1; [|discriminate].
  eapply IH; [|intros I; apply N; now right|exact R]. eapply release_none; [exact E| |exact R1].
  intros ->. apply N. now left.
Qed.

Lemma release_gone l st x k ts : forall m m', In (TVar x k) ts -> k <> Scalar -> (l = C \/ k = Array) ->
  (forall k', In (TVar x k') ts -> k' = k) -> st x <> Unallocated ->
  release_all l st m ts = Some m' -> m' !! x = None.
Proof.
  induction ts as [|t ts IH]; intros m m' I K L U S R; [destruct I|].
  cbn in R. destruct (release l st m t) as [m1|] eqn:R1; [|discriminate].
  destruct I as [->|I].
  - eapply release_all_none; [| |exact R].
    + unfold release in R1. destruct k; [congruence| |]; destruct (st x); try congruence; destruct l;
        try (destruct L; congruence);
        destruct (m !! x) eqn:E; try discriminate R1; injection R1 as <-; try exact E; apply lookup_delete.
    + intros I'. specialize (U Lst (or_intror I')). destruct L as [->| ->]; [reflexivity|discriminate U].
  - eapply IH; [exact I|exact K|exact L| |exact S|exact R]. intros k' I'. apply U. now right.
Qed.

Lemma get_arg_none m a x : In x (vars a) -> m !! x = None -> get_arg m a = None.
Proof.
  destruct a as [y o|y|y i|y i|xs f]; cbn; intros I E; try (destruct I as [->|[]]; now rewrite E).
  assert (all_some (map (fun x0 => m !! x0) xs) = None) as ->; [|reflexivity].
  induction xs as [|y xs IH]; [destruct I|]. cbn. destruct I as [->|I]; [now rewrite E|].
  rewrite (IH I). now destruct (m !! y).
Qed.

Lemma all_some_none {A} (l : list (option A)) : In None l -> all_some l = None.
Proof.
  induction l as [|a l IH]; cbn; [intros []|]. intros [->|I]; [reflexivity|]. rewrite (IH I). now destruct a.
Qed.

Lemma container_freed l st e s e' x k a : py e s = Some e' -> In (TVar x k) (targets s) -> k <> Scalar -> (l = C \/ k = Array) ->
  (forall k', In (TVar x k') (targets s) -> k' = k) -> status_ok st e (TVar x k) -> In a (args s) -> In x (vars a) ->
  exec l st e s = Freed \/ l = Fortran /\ exec l st e s = Crash.
Proof.
  intros H I K L U S Ia Ix.
  assert (e !! x <> None) as E.
  { intros E. unfold py in H. rewrite (all_some_none (map (get_arg e) (args s))) in H; [discriminate|].
    apply in_map_iff. exists a. split; [now apply (get_arg_none e a x)|exact Ia]. }
  specialize (S K). assert (st x <> Unallocated) as SU by (intros Es; rewrite Es in S; congruence).
  unfold exec.
  destruct (match l with C => false | Fortran => _ end) eqn:Cr.
  { right. destruct l; [discriminate Cr|]. now split. }
  left. destruct (release_all l st e (targets s)) as [m1|] eqn:R; [|reflexivity].
  pose proof (release_gone l st x k _ _ _ I K L U SU R) as G.
  rewrite (all_some_none (map (pass l (targets s) m1) (args s))); [reflexivity|].
  apply in_map_iff. exists a. split; [|exact Ia]. unfold pass. now rewrite (get_arg_none m1 a x Ix G).
Qed.

Lemma crash_ok st e s x i : In (TElem x i) (targets s) -> In (AElem x i) (args s) -> exec Fortran st e s = Crash.
Proof.
  intros T A. unfold exec.
  assert (existsb (fun a => negb (has_clone a) && existsb (same a) (targets s)) (args s) = true) as ->; [|reflexivity].
  apply existsb_exists. exists (AElem x i). split; [exact A|]. apply existsb_exists. exists (TElem x i).
  split; [exact T|]. cbn. now rewrite !Nat.eqb_refl.
Qed.

(* one list in Fortran: the call has the empty list instead of the list *)
Lemma list_empty st e s x e' : targets s = [TVar x Lst] -> st x <> Unallocated ->
  (forall a, In a (args s) -> a = ACont x \/ ~ In x (vars a)) ->
  py (<[x := VL []]> e) s = Some e' -> exec Fortran st e s = Done e'.
Proof.
  intros ET S AR H. unfold exec.
  pose proof (same_clone Fortran s) as SC. cbv iota beta in SC. rewrite SC; clear SC.
  2:{ intros _ y i I. rewrite ET in I. destruct I as [I|[]]. discriminate I. }
  set (m1 := <[x := VL []]> e) in *.
  assert (release_all Fortran st e (targets s) = Some m1) as ->.
  { rewrite ET. cbn. destruct (st x); [congruence|reflexivity|reflexivity]. }
  unfold py in H. destruct (all_some (map (get_arg m1) (args s))) as [vs|] eqn:EA; [|discriminate]. apply all_some_spec in EA.
  destruct (py_body (targets s) vs (fun _ => None) (body s)) as [ls|] eqn:EB; [|discriminate].
  destruct (all_some (map ls (seq 0 (length (targets s))))) as [rs|] eqn:ER; [|discriminate]. apply all_some_spec in ER.
  destruct (pass_params Fortran (targets s) m1 m1 (args s) vs (fun _ _ => eq_refl) EA) as (ps & EP & F1 & F2 & F3).
  apply all_some_spec in EP as ->. rewrite ET in *. cbn [own_result].
  assert (ForallOrdPairs apart [TVar x Lst]) as P by (constructor; constructor).
  assert (forall y, ~ In (TAll y) [TVar x Lst]) as NA by (intros y [I|[]]; discriminate I).
  pose proof (body_at [TVar x Lst] m1 vs ps P NA) as BA.
  change m1 with (ups m1 [TVar x Lst] 0 (fun _ => None)) at 1.
  rewrite BA with (ls' := ls); [| | |intros j v; discriminate|exact EB].
  - f_equal. eapply ups_assign; [exact P|exact NA|intros y _; reflexivity|exact ER|exact H].
  - intros t [<-|[]]. exact I.
  - assert (forall p, In p ps -> forall a, p = PR a -> In a (args s) /\ by_ref a = true /\ existsb (same a) [TVar x Lst] = false) as Q.
    { clear -F2 F3. revert F3. induction F2 as [|p a ps as_ G F IH]; intros F3 q Iq b Eq; [destruct Iq|].
      inversion F3 as [|? ? ? ? G' F3']; subst. destruct Iq as [->|Iq].
      - pose proof (G' b eq_refl) as ->. destruct (G eq_refl). split; [now left|now split].
      - destruct (IH F3' _ Iq b eq_refl) as (I1 & I2 & I3). split; [now right|now split]. }
    clear -F1 Q AR. induction F1 as [|p v ps vs G F IH]; constructor.
    + intros ls. destruct p as [u|a]; [exact G|]. cbn [get_param] in *.
      destruct (Q _ (or_introl eq_refl) a eq_refl) as (I1 & I2 & I3).
      rewrite get_arg_ups; [exact G|exact I2|]. intros t [<-|[]]. split; [|discriminate].
      destruct (AR a I1) as [->|N]; [|destruct a; exact N]. exfalso. cbn in I3. now rewrite Nat.eqb_refl in I3.
    + apply IH. intros q Iq. apply Q. now right.
Qed.

Lemma lk0 {A} (a : A) l : (a :: l) !! 0 = Some a. Proof. reflexivity. Qed.
Lemma lk1 {A} (a b : A) l : (a :: b :: l) !! 1 = Some b. Proof. reflexivity. Qed.
Lemma li0 {A} (a b : A) l : <[0 := b]> (a :: l) = b :: l. Proof. reflexivity. Qed.
Lemma li1 {A} (a b c : A) l : <[1 := c]> (a :: b :: l) = a :: c :: l. Proof. reflexivity. Qed.
Ltac go E := unfold py, exec, pass, py_step, run_step, store, fits;
  repeat (progress (cbn; rewrite ?Nat.eqb_refl, ?lk0, ?lk1, ?E, ?lookup_insert, ?insert_insert, ?li0, ?li1; unfold pass, py_step, run_step, store, fits)).

Lemma optional_ok st e x y z g0 g1 : x <> y -> e !! x = Some (VZ z) ->
  py e (optional_stmt x y g0 g1) = Some (<[y := VZ (g1 z)]> (<[x := VZ (g0 z)]> e)) /\
  exec C st e (optional_stmt x y g0 g1) = Done (<[y := VZ (g1 (g0 z))]> (<[x := VZ (g0 z)]> e)) /\
  exec Fortran st e (optional_stmt x y g0 g1) = Done (<[y := VZ (g1 z)]> (<[x := VZ (g0 z)]> e)).
Proof. intros N E. split; [|split]; go E; reflexivity. Qed.

Lemma element_ok l st e v a b w g0 g1 : e !! v = Some (VL (a :: b :: w)) ->
  py e (element_stmt v g0 g1) = Some (<[v := VL (g0 (a :: b :: w) :: g1 (a :: b :: w) :: w)]> e) /\
  exec l st e (element_stmt v g0 g1) = Done (<[v := VL (g0 (a :: b :: w) :: g1 (g0 (a :: b :: w) :: b :: w) :: w)]> e).
Proof. intros E. split; [|destruct l]; go E; reflexivity. Qed.

Lemma twice_ok l st e x c0 c1 :
  py e (twice_stmt x c0 c1) = Some (<[x := VZ c1]> e) /\ exec l st e (twice_stmt x c0 c1) = Done (<[x := VZ c0]> e).
Proof. pose proof (eq_refl 0) as I. split; [|destruct l]; go I; reflexivity. Qed.
