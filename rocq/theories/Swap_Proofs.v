(* Proofs about assignments of tuples to tuples (C68) *)
From Coq Require Import Bool Arith ZArith Lia List String.
From Verif Require Import Swap_Model Swap_Spec.
Import ListNotations.
Open Scope list_scope.

Scheme item_mut := Induction for item Sort Prop
  with items_mut := Induction for items Sort Prop.
Combined Scheme item_items_ind from item_mut, items_mut.

(* ------------------------------------------------------------------ equalities *)

Lemma var_eqb_eq : forall x y, var_eqb x y = true <-> x = y.
Proof.
  intros [] []; cbn [var_eqb]; try (split; discriminate).
  - rewrite String.eqb_eq. split; congruence.
  - rewrite Nat.eqb_eq. split; congruence.
Qed.

Lemma var_eqb_refl : forall x, var_eqb x x = true.
Proof. intros x. apply var_eqb_eq. reflexivity. Qed.

Lemma place_eqb_eq : forall p q, place_eqb p q = true -> p = q.
Proof.
  intros [x | a i] [y | b j]; cbn [place_eqb]; try discriminate.
  - intros H. apply var_eqb_eq in H. congruence.
  - destruct i; discriminate.
  - destruct i, j; try discriminate; intros H; apply andb_prop in H as [H1 H2];
      apply String.eqb_eq in H1; subst.
    + apply Z.eqb_eq in H2. congruence.
    + apply var_eqb_eq in H2. congruence.
Qed.

Lemma place_eqb_refl : forall p, simple p = true -> place_eqb p p = true.
Proof.
  intros [x | a i]; cbn [place_eqb simple].
  - intros _. apply var_eqb_refl.
  - destruct i; try discriminate; intros _; rewrite String.eqb_refl; cbn [andb].
    + apply Z.eqb_refl.
    + apply var_eqb_refl.
Qed.

Lemma place_eqb_no : forall a u x, place_eqb (At a u) (To x) = false.
Proof. intros a u x. destruct u; reflexivity. Qed.

Lemma mem_in : forall p l, mem p l = true -> In p l.
Proof.
  intros p l H. unfold mem in H. apply existsb_exists in H as (q & H & E).
  apply place_eqb_eq in E. subst. exact H.
Qed.

Lemma in_mem : forall p l, simple p = true -> In p l -> mem p l = true.
Proof.
  intros p l S H. unfold mem. apply existsb_exists. exists p. split; [exact H |].
  apply place_eqb_refl, S.
Qed.

(* ------------------------------------------------------------------ evaluation *)

Lemma eval_ext : forall s t e,
  (forall x, In x (vars e) -> sc s x = sc t x) ->
  (forall a u, In (a, u) (elems e) -> forall i, ar s a i = ar t a i) ->
  eval s e = eval t e.
Proof.
  intros s t e. induction e as [z | x | e1 IH1 e2 IH2 | a e IH]; intros V E; cbn [eval].
  - reflexivity.
  - apply V. left. reflexivity.
  - rewrite IH1, IH2; [reflexivity | | | |];
      intros; first [apply V | eapply E]; cbn [vars elems]; apply in_or_app; eauto.
  - rewrite IH.
    + destruct (eval t e); [| reflexivity]. eapply E. left. reflexivity.
    + exact V.
    + intros b u H. apply (E b u). right. exact H.
Qed.

Lemma eval_set_var : forall s x z e, ~ In x (vars e) -> eval (set_var x z s) e = eval s e.
Proof.
  intros s x z e H. apply eval_ext.
  - intros y Y. cbn [set_var sc]. destruct (var_eqb y x) eqn:E; [| reflexivity].
    apply var_eqb_eq in E. subst. contradiction.
  - reflexivity.
Qed.

Lemma eval_set_elem : forall s a i z e,
  (forall u, In (a, u) (elems e) -> eval s u <> Some i) ->
  eval (set_elem a i z s) e = eval s e.
Proof.
  intros s a i z e. induction e as [w | x | e1 IH1 e2 IH2 | b e IH]; intros H; cbn [eval].
  - reflexivity.
  - reflexivity.
  - rewrite IH1, IH2; [reflexivity | |]; intros u U; apply H; cbn [elems]; apply in_or_app; auto.
  - rewrite IH by (intros u U; apply H; right; exact U).
    destruct (eval s e) as [j |] eqn:E; [| reflexivity]. cbn [set_elem ar].
    destruct (String.eqb_spec b a); [| reflexivity]. subst.
    destruct (Z.eqb_spec j i); [| reflexivity]. subst.
    exfalso. apply (H e); [left; reflexivity | exact E].
Qed.

Lemma eval_node : forall s e p z, eval s e = Some z -> In p (nodes e) ->
  exists w, eval s (read p) = Some w.
Proof.
  intros s e. induction e as [w | x | e1 IH1 e2 IH2 | b e IH]; intros p z E H; cbn [nodes] in H.
  - contradiction.
  - destruct H as [<- | []]. exists z. exact E.
  - cbn [eval] in E. destruct (eval s e1) as [z1 |] eqn:E1; [| discriminate].
    destruct (eval s e2) as [z2 |] eqn:E2; [| discriminate].
    apply in_app_or in H as [H | H]; eauto.
  - destruct H as [<- | []]. exists z. exact E.
Qed.

(* ------------------------------------------------------------------ one substitution *)

Lemma subst_eval : forall s p n w e,
  eval s (read p) = Some w -> ~ In (Tmp n) (vars e) ->
  eval (set_var (Tmp n) w s) (subst p n e) = eval s e.
Proof.
  intros s p n w e R. induction e as [z | x | e1 IH1 e2 IH2 | a e IH]; intros F; cbn [subst].
  - reflexivity.
  - destruct (place_eqb (To x) p) eqn:E.
    + apply place_eqb_eq in E. subst p. cbn [read] in R. rewrite R.
      cbn [eval set_var sc]. rewrite var_eqb_refl. reflexivity.
    + apply eval_set_var. exact F.
  - cbn [vars] in F. cbn [eval]. rewrite IH1, IH2; [reflexivity | |]; intros H; apply F;
      apply in_or_app; auto.
  - destruct (place_eqb (At a e) p) eqn:E.
    + apply place_eqb_eq in E. subst p. cbn [read] in R. rewrite R.
      cbn [eval set_var sc]. rewrite var_eqb_refl. reflexivity.
    + cbn [eval]. rewrite IH by exact F. reflexivity.
Qed.

Lemma vars_subst : forall p n x e, In x (vars (subst p n e)) -> x = Tmp n \/ In x (vars e).
Proof.
  intros p n x e. induction e as [z | y | e1 IH1 e2 IH2 | a e IH]; cbn [subst vars]; intros H.
  - contradiction.
  - destruct (place_eqb (To y) p); cbn [vars] in H; destruct H as [<- | []]; cbn [In]; auto.
  - apply in_app_or in H as [H | H]; [destruct (IH1 H) | destruct (IH2 H)]; auto;
      right; apply in_or_app; auto.
  - destruct (place_eqb (At a e) p); cbn [vars] in H; [destruct H as [<- | []]; auto | auto].
Qed.

Lemma elems_subst : forall p n b u' e, In (b, u') (elems (subst p n e)) ->
  exists u, In (b, u) (elems e) /\ u' = subst p n u /\ place_eqb (At b u) p = false.
Proof.
  intros p n b u' e. induction e as [z | y | e1 IH1 e2 IH2 | a e IH]; cbn [subst elems]; intros H.
  - contradiction.
  - destruct (place_eqb (To y) p); contradiction.
  - apply in_app_or in H as [H | H].
    + destruct (IH1 H) as (u & U & Q). exists u. split; [apply in_or_app; auto | exact Q].
    + destruct (IH2 H) as (u & U & Q). exists u. split; [apply in_or_app; auto | exact Q].
  - destruct (place_eqb (At a e) p) eqn:E; [contradiction |]. cbn [elems] in H.
    destruct H as [H | H].
    + injection H as <- <-. exists e. split; [left; reflexivity |]. auto.
    + destruct (IH H) as (u & U & Q). exists u. split; [right; exact U | exact Q].
Qed.

Lemma subst_gone : forall x n e, x <> Tmp n -> ~ In x (vars (subst (To x) n e)).
Proof.
  intros x n e N. induction e as [z | y | e1 IH1 e2 IH2 | a e IH]; cbn [subst vars].
  - auto.
  - cbn [place_eqb]. destruct (var_eqb y x) eqn:E; cbn [vars].
    + intros [H | []]. congruence.
    + intros [H | []]. subst. rewrite var_eqb_refl in E. discriminate.
  - intros H. apply in_app_or in H as [H | H]; auto.
  - rewrite place_eqb_no. exact IH.
Qed.

Lemma nodes_subst_var : forall p n x e, In (To x) (nodes e) ->
  In (To x) (nodes (subst p n e)) \/ p = To x.
Proof.
  intros p n x e. induction e as [z | y | e1 IH1 e2 IH2 | a e IH]; cbn [subst nodes]; intros H.
  - contradiction.
  - destruct H as [H | []]. injection H as ->.
    destruct (place_eqb (To x) p) eqn:E; [| left; left; reflexivity].
    right. symmetry. apply place_eqb_eq, E.
  - apply in_app_or in H as [H | H].
    + destruct (IH1 H); [left; apply in_or_app; auto | auto].
    + destruct (IH2 H); [left; apply in_or_app; auto | auto].
  - destruct H as [H | []]. discriminate.
Qed.

Lemma nodes_subst_elem : forall p n a i e, subst p n i = i -> In (At a i) (nodes e) ->
  In (At a i) (nodes (subst p n e)) \/ p = At a i.
Proof.
  intros p n a i e S. induction e as [z | y | e1 IH1 e2 IH2 | b e IH]; cbn [subst nodes]; intros H.
  - contradiction.
  - destruct H as [H | []]. discriminate.
  - apply in_app_or in H as [H | H].
    + destruct (IH1 H); [left; apply in_or_app; auto | auto].
    + destruct (IH2 H); [left; apply in_or_app; auto | auto].
  - destruct H as [H | []]. injection H as -> ->.
    destruct (place_eqb (At a i) p) eqn:E.
    + right. symmetry. apply place_eqb_eq, E.
    + left. cbn [nodes]. rewrite S. left. reflexivity.
Qed.

(* ------------------------------------------------------------------ several substitutions *)

Lemma app_snoc : forall rho p n e, app_ (rho ++ [(p, n)]) e = subst p n (app_ rho e).
Proof. intros. unfold app_. rewrite fold_left_app. reflexivity. Qed.

Definition wf (rho : list (place * nat)) (n : nat) (done : list place) : Prop :=
  forall p k, In (p, k) rho -> k < n /\ In p done /\ target_named p = true.

Lemma vars_app : forall rho n done x e, wf rho n done ->
  In x (vars (app_ rho e)) -> (exists k, x = Tmp k /\ k < n) \/ In x (vars e).
Proof.
  intros rho n done x. induction rho as [| [p k] rho IH] using rev_ind; intros e W H.
  - right. exact H.
  - rewrite app_snoc in H. apply vars_subst in H as [-> | H].
    + left. exists k. split; [reflexivity |].
      apply (W p k). apply in_or_app. right. left. reflexivity.
    + apply IH; [| exact H]. intros q m M. apply W. apply in_or_app. left. exact M.
Qed.

Lemma elems_app : forall rho b u' e, In (b, u') (elems (app_ rho e)) ->
  exists u, In (b, u) (elems e) /\ u' = app_ rho u.
Proof.
  intros rho b. induction rho as [| [p k] rho IH] using rev_ind; intros u' e H.
  - exists u'. auto.
  - rewrite app_snoc in H. apply elems_subst in H as (u & U & -> & _).
    apply IH in U as (v & V & ->). exists v. split; [exact V |]. rewrite app_snoc. reflexivity.
Qed.

Lemma app_gone : forall rho x k e, named x = true -> In (To x, k) rho ->
  ~ In x (vars (app_ rho e)).
Proof.
  intros rho x k. induction rho as [| [p m] rho IH] using rev_ind; intros e N H; [contradiction |].
  rewrite app_snoc. apply in_app_or in H as [H | [H | []]].
  - intros C. apply vars_subst in C as [-> | C]; [discriminate |]. exact (IH e N H C).
  - injection H as -> ->. apply subst_gone. destruct x; [discriminate | discriminate N].
Qed.

Lemma nodes_app_var : forall rho x e, In (To x) (nodes e) ->
  In (To x) (nodes (app_ rho e)) \/ exists k, In (To x, k) rho.
Proof.
  intros rho x. induction rho as [| [p m] rho IH] using rev_ind; intros e H; [auto |].
  rewrite app_snoc. destruct (IH e H) as [J | [k K]].
  - destruct (nodes_subst_var p m x _ J) as [Q | ->]; [auto |].
    right. exists m. apply in_or_app. right. left. reflexivity.
  - right. exists k. apply in_or_app. auto.
Qed.

(* An index that no substitution touches *)
Definition still (rho : list (place * nat)) (i : term) : Prop :=
  (exists z, i = Const z) \/ (exists y, i = Var y /\ named y = true /\ forall k, ~ In (To y, k) rho).

Lemma still_app : forall rho i, still rho i -> app_ rho i = i.
Proof.
  intros rho i. induction rho as [| [p m] rho IH] using rev_ind; intros H; [reflexivity |].
  rewrite app_snoc, IH.
  - destruct H as [[z ->] | (y & -> & N & H)]; [reflexivity |]. cbn [subst].
    destruct (place_eqb (To y) p) eqn:E; [| reflexivity].
    apply place_eqb_eq in E. subst p. exfalso. apply (H m). apply in_or_app.
    right. left. reflexivity.
  - destruct H as [H | (y & -> & N & H)];
      [left; exact H | right; exists y; split; [reflexivity | split; [exact N |]]].
    intros k K. apply (H k). apply in_or_app. auto.
Qed.

Lemma still_prefix : forall rho q i, still (rho ++ [q]) i -> still rho i.
Proof.
  intros rho q i [H | (y & -> & N & H)];
    [left; exact H | right; exists y; split; [reflexivity | split; [exact N |]]].
  intros k K. apply (H k). apply in_or_app. auto.
Qed.

Lemma nodes_app_elem : forall rho a i e, still rho i -> In (At a i) (nodes e) ->
  In (At a i) (nodes (app_ rho e)) \/ exists k, In (At a i, k) rho.
Proof.
  intros rho a i. induction rho as [| [p m] rho IH] using rev_ind; intros e S H; [auto |].
  pose proof (still_prefix _ _ _ S) as S'.
  pose proof (still_app _ _ S) as A. rewrite app_snoc, (still_app _ _ S') in A.
  rewrite app_snoc. destruct (IH e S' H) as [J | [k K]].
  - destruct (nodes_subst_elem p m a i _ A J) as [Q | ->]; [auto |].
    right. exists m. apply in_or_app. right. left. reflexivity.
  - right. exists k. apply in_or_app. auto.
Qed.

Lemma still_simple : forall rho a i, still rho i -> simple (At a i) = true.
Proof. intros rho a i [[z ->] | (y & -> & _)]; reflexivity. Qed.

Lemma still_back : forall rho p m i u, still rho i -> i = subst p m u -> u = i.
Proof.
  intros rho p m i u S E.
  destruct S as [[z ->] | (y & -> & N & _)];
    destruct u as [w | x | u1 u2 | b u]; cbn [subst] in E; try discriminate.
  - congruence.
  - destruct (place_eqb (To x) p); discriminate.
  - destruct (place_eqb (At b u) p); discriminate.
  - destruct (place_eqb (To x) p); [| congruence]. injection E as ->. discriminate.
  - destruct (place_eqb (At b u) p); [| discriminate]. injection E as ->. discriminate.
Qed.

Lemma app_elem_gone : forall rho a i k e, still rho i -> In (At a i, k) rho ->
  ~ In (a, i) (elems (app_ rho e)).
Proof.
  intros rho a i k. induction rho as [| [p m] rho IH] using rev_ind; intros e S H; [contradiction |].
  pose proof (still_prefix _ _ _ S) as S'.
  rewrite app_snoc. intros C. pose proof (elems_subst _ _ _ _ _ C) as (u & U & E & N).
  pose proof (still_back _ _ _ _ _ S E). subst u.
  apply in_app_or in H as [H | [H | []]].
  - exact (IH e S' H U).
  - injection H as -> ->. rewrite place_eqb_refl in N by (eapply still_simple; eauto). discriminate.
Qed.

(* ------------------------------------------------------------------ lists of items *)

Lemma flat_cons : forall i l, flat (ICons i l) = flat_item i ++ flat l.
Proof. reflexivity. Qed.

Lemma rhs_flat : forall rho,
  (forall i, rhs_item rho i = flat_map (fun t => nodes (app_ rho t)) (map snd (flat_item i))) /\
  (forall l, rhs rho l = flat_map (fun t => nodes (app_ rho t)) (exprs l)).
Proof.
  intros rho. unfold exprs. apply item_items_ind; intros; cbn [rhs_item rhs flat_item flat].
  - cbn. rewrite app_nil_r. reflexivity.
  - exact H.
  - reflexivity.
  - rewrite map_app, flat_map_app, H, H0. reflexivity.
Qed.

Lemma values_app : forall s l1 l2,
  values s (l1 ++ l2) =
  match values s l1, values s l2 with Some a, Some b => Some (a ++ b) | _, _ => None end.
Proof.
  intros s l1 l2. induction l1 as [| [p t] l1 IH]; cbn [values app].
  - destruct (values s l2); reflexivity.
  - rewrite IH. destruct (eval s t); [| reflexivity]. destruct (values s l1); [| reflexivity].
    destruct (values s l2); reflexivity.
Qed.

Lemma writes_app : forall l1 l2 s,
  writes (l1 ++ l2) s = match writes l1 s with Some s1 => writes l2 s1 | None => None end.
Proof.
  intros l1 l2. induction l1 as [| [p z] l1 IH]; intros s; cbn [writes app]; [reflexivity |].
  destruct (write p z s); [apply IH | reflexivity].
Qed.

Lemma values_fst : forall s l r, values s l = Some r -> map fst r = map fst l.
Proof.
  intros s l. induction l as [| [p t] l IH]; intros r H; cbn [values] in H.
  - injection H as <-. reflexivity.
  - destruct (eval s t); [| discriminate]. destruct (values s l) as [r' |]; [| discriminate].
    injection H as <-. cbn [map fst]. rewrite (IH r' eq_refl). reflexivity.
Qed.

(* Writing changes the targets only *)
Lemma writes_frame : forall r s s', writes r s = Some s' ->
  (forall x, ~ In (To x) (map fst r) -> sc s' x = sc s x) /\
  (forall a, (forall i, ~ In (At a i) (map fst r)) -> forall i, ar s' a i = ar s a i).
Proof.
  induction r as [| [p z] r IH]; intros s s' H; cbn [writes] in H.
  - injection H as ->. auto.
  - destruct (write p z s) as [s1 |] eqn:W; [| discriminate]. destruct (IH _ _ H) as [A B].
    split.
    + intros x N. rewrite A by (intros C; apply N; right; exact C).
      destruct p as [y | a i]; cbn [write] in W.
      * injection W as <-. cbn [set_var sc]. destruct (var_eqb x y) eqn:E; [| reflexivity].
        apply var_eqb_eq in E. subst. exfalso. apply N. left. reflexivity.
      * destruct (eval s i) as [j |]; [| discriminate]. destruct (ar s a j); [| discriminate].
        injection W as <-. reflexivity.
    + intros a N i. rewrite B by (intros j C; apply (N j); right; exact C).
      destruct p as [y | b j]; cbn [write] in W.
      * injection W as <-. reflexivity.
      * destruct (eval s j) as [k |]; [| discriminate]. destruct (ar s b k); [| discriminate].
        injection W as <-. cbn [set_elem ar]. destruct (String.eqb_spec a b); [| reflexivity].
        subst. exfalso. apply (N j). left. reflexivity.
Qed.

Lemma agree_named : forall s c e, agree s c -> forallb named (vars e) = true -> eval s e = eval c e.
Proof.
  intros s c e [A B] N. apply eval_ext.
  - intros x X. rewrite forallb_forall in N. specialize (N x X). destruct x; [apply A | discriminate].
  - intros. apply B.
Qed.

(* The expressions and the indices in them *)
Definition sub (e : term) : list term := e :: map snd (elems e).

Lemma elems_sub : forall b u e, In (b, u) (elems e) -> forall q, In q (elems u) -> In q (elems e).
Proof.
  intros b u e. induction e as [z | y | e1 IH1 e2 IH2 | a e IH]; cbn [elems]; intros H q Q.
  - contradiction.
  - contradiction.
  - apply in_app_or in H as [H | H]; apply in_or_app; auto.
  - destruct H as [H | H]; right; [injection H as <- <-; exact Q | eauto].
Qed.

Lemma sub_elems : forall v e b u, In v (sub e) -> In (b, u) (elems v) -> In (b, u) (elems e).
Proof.
  intros v e b u [<- | H] E; [exact E |]. apply in_map_iff in H as ([c w] & <- & H).
  eapply elems_sub; eauto.
Qed.

Lemma elems_vars : forall b u e x, In (b, u) (elems e) -> In x (vars u) -> In x (vars e).
Proof.
  intros b u e x. induction e as [z | y | e1 IH1 e2 IH2 | a e IH]; cbn [elems vars]; intros H X.
  - contradiction.
  - contradiction.
  - apply in_app_or in H as [H | H]; apply in_or_app; auto.
  - destruct H as [H | H]; [injection H as <- <-; exact X | auto].
Qed.

Lemma sub_vars : forall v e x, In v (sub e) -> In x (vars v) -> In x (vars e).
Proof.
  intros v e x [<- | H] X; [exact X |]. apply in_map_iff in H as ([c w] & <- & H).
  eapply elems_vars; eauto.
Qed.

Definition good (s0 c : store) (rho : list (place * nat)) (ts : list term) : Prop :=
  forall t v, In t ts -> In v (sub t) -> eval c (app_ rho v) = eval s0 v.

Lemma good_app : forall s0 c rho l1 l2,
  good s0 c rho (l1 ++ l2) -> good s0 c rho l1 /\ good s0 c rho l2.
Proof. intros s0 c rho l1 l2 H. split; intros t v T; apply H, in_or_app; auto. Qed.

Definition all_named (ts : list term) : Prop := forall t x, In t ts -> In x (vars t) -> named x = true.

(* ------------------------------------------------------------------ one target *)

Lemma write_agree : forall p z s s' c, target_named p = true -> agree s c -> write p z s = Some s' ->
  exists c', write p z c = Some c' /\ agree s' c' /\ (forall k, sc c' (Tmp k) = sc c (Tmp k)).
Proof.
  intros p z s s' c N A W. destruct p as [[x | k] | a i]; cbn [target_named named write] in *.
  - injection W as <-. eexists. split; [reflexivity |]. destruct A as [A B]. split.
    + split; [| exact B]. intros y. cbn [set_var sc]. rewrite A. reflexivity.
    + intros k. cbn [set_var sc var_eqb]. reflexivity.
  - discriminate.
  - rewrite <- (agree_named _ _ i A N). destruct (eval s i) as [j |]; [| discriminate].
    destruct A as [A B]. rewrite <- (B a j). destruct (ar s a j); [| discriminate].
    injection W as <-. eexists. split; [reflexivity |]. split; [| reflexivity].
    split; [exact A |]. intros b m. cbn [set_elem ar]. rewrite B. reflexivity.
Qed.

(* After the write, expressions without the target have the values they had *)
Lemma write_keeps : forall p z c c' e, write p z c = Some c' ->
  match p with
  | To x => ~ In x (vars e)
  | At a i => forall u j, In (a, u) (elems e) -> eval c i = Some j -> eval c u <> Some j
  end -> eval c' e = eval c e.
Proof.
  intros [x | a i] z c c' e W H; cbn [write] in W.
  - injection W as <-. apply eval_set_var, H.
  - destruct (eval c i) as [j |] eqn:E; [| discriminate]. destruct (ar c a j); [| discriminate].
    injection W as <-. apply eval_set_elem. intros u U. apply H; auto.
Qed.

Lemma one_right : forall n rho done s0 s c p t ts z s1 code n1 rho1,
  target_named p = true -> forallb named (vars t) = true -> all_named ts ->
  wf rho n done -> agree s c -> good s0 c rho (t :: ts) -> apart s0 done s p ts ->
  (forall u, In u ts -> eval s0 u <> None) ->
  eval s0 t = Some z -> write p z s = Some s1 ->
  visit_item n rho (One p t) (flat_map (fun t => nodes (app_ rho t)) ts) = Some (code, n1, rho1) ->
  exists c1, run code c = Some c1 /\ agree s1 c1 /\ n <= n1 /\
    (forall k, k < n -> sc c1 (Tmp k) = sc c (Tmp k)) /\
    wf rho1 n1 (p :: done) /\ good s0 c1 rho1 ts.
Proof.
  intros n rho done s0 s c p t ts z s1 code n1 rho1 Np Nt Nts W A G S D Ev Wr V.
  assert (Fresh : forall v, all_named [v] -> ~ In (Tmp n) (vars (app_ rho v))).
  { intros v Nv H. destruct (vars_app _ _ _ _ _ W H) as [(k & E & K) | H'].
    - injection E as <-. lia.
    - specialize (Nv v _ (or_introl eq_refl) H'). discriminate. }
  assert (Nsub : forall u v, In u (t :: ts) -> In v (sub u) -> all_named [v]).
  { intros u v U Vv w x [<- | []] X. pose proof (sub_vars _ _ _ Vv X) as Y.
    destruct U as [<- | U]; [| eauto]. rewrite forallb_forall in Nt. auto. }
  cbn [visit_item] in V.
  destruct (mem p (flat_map (fun t => nodes (app_ rho t)) ts)) eqn:M; injection V as <- <- <-.
  - (* a temporary *)
    apply mem_in in M. apply in_flat_map in M as (u & U & M).
    assert (Eu : eval c (app_ rho u) = eval s0 u)
      by (apply (G u u); [right; exact U | left; reflexivity]).
    destruct (eval s0 u) as [zu |] eqn:Zu; [| destruct (D u U Zu)].
    destruct (eval_node _ _ _ _ Eu M) as [w Rw].
    assert (Fp : forall e, all_named [e] ->
              eval (set_var (Tmp n) w c) (app_ (rho ++ [(p, n)]) e) = eval c (app_ rho e)).
    { intros e Ne. rewrite app_snoc. apply subst_eval; auto. }
    set (c0 := set_var (Tmp n) w c) in *.
    assert (A0 : agree s c0).
    { destruct A as [A B]. split; [| exact B]. intros x. cbn [c0 set_var sc var_eqb]. apply A. }
    destruct (write_agree _ _ _ _ _ Np A0 Wr) as (c1 & Wc & A1 & K1).
    exists c1. split; [| split; [exact A1 | split; [lia | split; [| split]]]].
    + cbn [run]. rewrite Rw. cbn [write]. fold c0.
      rewrite Fp by (eapply Nsub; [left; reflexivity | left; reflexivity]).
      rewrite (G t t) by (left; reflexivity). rewrite Ev, Wc. reflexivity.
    + intros k K. rewrite K1. cbn [c0 set_var sc var_eqb].
      destruct (Nat.eqb_spec k n); [lia | reflexivity].
    + intros q k H. apply in_app_or in H as [H | [H | []]].
      * destruct (W q k H) as (H1 & H2 & H3). split; [lia |]. split; [right; exact H2 | exact H3].
      * injection H as <- <-. split; [lia |]. split; [left; reflexivity | exact Np].
    + intros e v E Vv. assert (Nv : all_named [v]) by (eapply Nsub; [right; exact E | exact Vv]).
      rewrite <- (G e v) by (try (right; exact E); exact Vv). rewrite <- (Fp v Nv).
      apply (write_keeps _ _ _ _ _ Wc). rewrite app_snoc.
      destruct p as [x | a i]; cbn [target_named] in Np.
      * apply subst_gone. destruct x; [discriminate | discriminate Np].
      * intros u' j U' Ej Eu'. pose proof (elems_subst _ _ _ _ _ U') as (u1 & U1 & -> & Nu).
        apply elems_app in U1 as (u0 & U0 & ->).
        pose proof (sub_elems _ _ _ _ Vv U0) as U0e.
        rewrite <- app_snoc in Eu'. rewrite Fp in Eu'.
        2: { eapply Nsub; [right; exact E |]. right. apply in_map_iff. exists (a, u0). auto. }
        rewrite (G e u0) in Eu'.
        2: { right. exact E. }
        2: { right. apply in_map_iff. exists (a, u0). auto. }
        destruct (S e u0 E U0e) as [Df | (_ & -> & St)].
        -- apply (Df j j); [| exact Eu' | reflexivity]. rewrite (agree_named _ _ i A0 Np). exact Ej.
        -- assert (St' : still rho i).
           { destruct St as [St | (y & -> & St)]; [left; exact St | right].
             exists y. split; [reflexivity |]. cbn [vars forallb] in Np.
             rewrite andb_true_r in Np. split; [exact Np |].
             intros k K. apply St. apply (W _ _ K). }
           rewrite (still_app _ _ St') in Nu.
           rewrite place_eqb_refl in Nu by (eapply still_simple; eauto). discriminate.
  - (* none *)
    destruct (write_agree _ _ _ _ _ Np A Wr) as (c1 & Wc & A1 & K1).
    exists c1. split; [| split; [exact A1 | split; [lia | split; [| split]]]].
    + cbn [run]. rewrite (G t t) by (left; reflexivity). rewrite Ev, Wc. reflexivity.
    + intros k K. apply K1.
    + intros q k H. destruct (W q k H) as (H1 & H2 & H3). split; [lia |].
      split; [right; exact H2 | exact H3].
    + intros e v E Vv. rewrite <- (G e v) by (try (right; exact E); exact Vv).
      apply (write_keeps _ _ _ _ _ Wc).
      destruct p as [x | a i]; cbn [target_named] in Np.
      * intros X. destruct (vars_app _ _ _ _ _ W X) as [(k & -> & _) | X']; [discriminate |].
        pose proof (sub_vars _ _ _ Vv X') as Xe.
        destruct (S (ex_intro _ e (conj E Xe))) as (u & U & Nu).
        destruct (nodes_app_var rho x u Nu) as [Q | [k K]].
        -- rewrite in_mem in M; [discriminate | reflexivity |].
           apply in_flat_map. exists u. auto.
        -- exact (app_gone _ _ _ _ Np K X).
      * intros u' j U' Ej Eu'. pose proof (elems_app _ _ _ _ U') as (u0 & U0 & ->).
        pose proof (sub_elems _ _ _ _ Vv U0) as U0e.
        rewrite (G e u0) in Eu'.
        2: { right. exact E. }
        2: { right. apply in_map_iff. exists (a, u0). auto. }
        destruct (S e u0 E U0e) as [Df | ((u & U & Nu) & -> & St)].
        -- apply (Df j j); [| exact Eu' | reflexivity]. rewrite (agree_named _ _ i A Np). exact Ej.
        -- assert (St' : still rho i).
           { destruct St as [St | (y & -> & St)]; [left; exact St | right].
             exists y. split; [reflexivity |]. cbn [vars forallb] in Np.
             rewrite andb_true_r in Np. split; [exact Np |].
             intros k K. apply St. apply (W _ _ K). }
           destruct (nodes_app_elem rho a i u St' Nu) as [Q | [k K]].
           ++ rewrite in_mem in M; [discriminate | eapply still_simple; eauto |].
              apply in_flat_map. exists u. auto.
           ++ rewrite (still_app _ _ St') in U'. exact (app_elem_gone _ _ _ _ _ St' K U').
Qed.

(* ------------------------------------------------------------------ all targets *)

Lemma run_app : forall c1 c2 s,
  run (c1 ++ c2) s = match run c1 s with Some s1 => run c2 s1 | None => None end.
Proof.
  intros c1 c2. induction c1 as [| [p t] c1 IH]; intros s; cbn [run app]; [reflexivity |].
  destruct (eval s t); [| reflexivity]. destruct (write p z s); [apply IH | reflexivity].
Qed.

Lemma values_some : forall s l r, values s l = Some r ->
  forall u, In u (map snd l) -> eval s u <> None.
Proof.
  intros s l. induction l as [| [p t] l IH]; intros r H u U; [contradiction |].
  cbn [values] in H. destruct (eval s t) eqn:E; [| discriminate].
  destruct (values s l) as [r' |]; [| discriminate]. destruct U as [<- | U].
  - cbn [snd]. congruence.
  - eapply IH; eauto.
Qed.

Lemma wf_more : forall rho n done n' done', wf rho n done -> n <= n' ->
  (forall p, In p done -> In p done') -> wf rho n' done'.
Proof.
  intros rho n done n' done' W L H p k K. destruct (W p k K) as (A & B & C).
  split; [lia |]. auto.
Qed.

Lemma all_right : forall s0,
  (forall i n rho done s c ts r s1 code n1 rho1,
     forallb target_named (map fst (flat_item i)) = true ->
     all_named (map snd (flat_item i) ++ ts) ->
     wf rho n done -> agree s c -> good s0 c rho (map snd (flat_item i) ++ ts) ->
     separate_item s0 done s i ts -> (forall u, In u ts -> eval s0 u <> None) ->
     values s0 (flat_item i) = Some r -> writes r s = Some s1 ->
     visit_item n rho i (flat_map (fun t => nodes (app_ rho t)) ts) = Some (code, n1, rho1) ->
     exists c1, run code c = Some c1 /\ agree s1 c1 /\ n <= n1 /\
       (forall k, k < n -> sc c1 (Tmp k) = sc c (Tmp k)) /\
       wf rho1 n1 (map fst (flat_item i) ++ done) /\ good s0 c1 rho1 ts) /\
  (forall l n rho done s c r s1 code n1 rho1,
     forallb target_named (targets l) = true -> all_named (exprs l) ->
     wf rho n done -> agree s c -> good s0 c rho (exprs l) ->
     separate s0 done s l ->
     values s0 (flat l) = Some r -> writes r s = Some s1 ->
     visit n rho l = Some (code, n1, rho1) ->
     exists c1, run code c = Some c1 /\ agree s1 c1 /\ n <= n1 /\
       (forall k, k < n -> sc c1 (Tmp k) = sc c (Tmp k))).
Proof.
  intros s0. apply item_items_ind.
  - (* One *)
    intros p t n rho done s c ts r s1 code n1 rho1 Np Na W A G S D Va Wr V.
    cbn [flat_item map fst snd forallb app values] in *. rewrite andb_true_r in Np.
    destruct (eval s0 t) as [z |] eqn:E; [| discriminate]. injection Va as <-.
    cbn [writes] in Wr. destruct (write p z s) as [s' |] eqn:Wz; [| discriminate].
    injection Wr as <-.
    eapply one_right; eauto.
    + apply forallb_forall. intros x X. eapply Na; [left; reflexivity | exact X].
    + intros u x U. apply Na. right. exact U.
  - (* Group *)
    intros g IH n rho done s c ts r s1 code n1 rho1 Np Na W A G S D Va Wr V.
    cbn [flat_item separate_item visit_item] in *. destruct S as [S U].
    destruct (accepts rho g); [| discriminate].
    destruct (visit n rho g) as [[[code' n'] rho'] |] eqn:E; [| discriminate].
    injection V as <- <- <-. destruct (good_app _ _ _ _ _ G) as [G1 G2].
    assert (Na1 : all_named (exprs g)) by (intros u x H; apply Na, in_or_app; auto).
    destruct (IH n rho done s c r s1 code' n' rho' Np Na1 W A G1 S Va Wr E)
      as (c1 & R & A1 & L & K).
    exists c1. repeat (split; [assumption |]). split.
    + eapply wf_more; [exact W | exact L |]. intros p P. apply in_or_app. auto.
    + intros e v Ev Vv. rewrite <- (G2 e v Ev Vv).
      pose proof (writes_frame _ _ _ Wr) as [F1 F2]. rewrite (values_fst _ _ _ Va) in F1, F2.
      destruct (U e Ev) as [U1 U2].
      destruct A as [Aa Ab], A1 as [A1a A1b]. apply eval_ext.
      * intros x X. destruct (vars_app _ _ _ _ _ W X) as [(k & -> & Lk) | X'].
        -- apply K, Lk.
        -- assert (Nx : named x = true)
             by (eapply Na; [apply in_or_app; right; exact Ev | eapply sub_vars; eauto]).
           destruct x as [x | k]; [| discriminate]. rewrite <- A1a, <- Aa. apply F1.
           intros C. exact (U1 _ C (sub_vars _ _ _ Vv X')).
      * intros a u' H. apply elems_app in H as (u & H & ->). intros i.
        rewrite <- A1b, <- Ab. apply F2. intros j C.
        exact (U2 a j u C (sub_elems _ _ _ _ Vv H)).
  - (* INil *)
    intros n rho done s c r s1 code n1 rho1 _ _ W A _ _ Va Wr V.
    cbn [flat values visit] in *. injection Va as <-. injection Wr as <-. injection V as <- <- <-.
    exists c. split; [reflexivity |]. split; [exact A |]. split; [lia | reflexivity].
  - (* ICons *)
    intros i IHi l IHl n rho done s c r s1 code n1 rho1 Np Na W A G S Va Wr V.
    unfold targets, exprs in Np, Na, G. rewrite flat_cons in Np, Na, G, Va.
    rewrite map_app in Np, Na, G. rewrite forallb_app in Np. apply andb_prop in Np as [Np1 Np2].
    rewrite values_app in Va. destruct (values s0 (flat_item i)) as [r1 |] eqn:V1; [| discriminate].
    destruct (values s0 (flat l)) as [r2 |] eqn:V2; [| discriminate]. injection Va as <-.
    rewrite writes_app in Wr. destruct (writes r1 s) as [s' |] eqn:W1; [| discriminate].
    cbn [visit separate] in V, S. destruct S as [S1 S2].
    rewrite (proj2 (rhs_flat rho)) in V.
    destruct (visit_item n rho i _) as [[[c1' n1'] rho1'] |] eqn:E1; [| discriminate].
    destruct (visit n1' rho1' l) as [[[c2' n2'] rho2'] |] eqn:E2; [| discriminate].
    injection V as <- <- <-.
    destruct (IHi n rho done s c (exprs l) r1 s' c1' n1' rho1' Np1 Na W A G S1
                  (values_some _ _ _ V2) eq_refl W1 E1) as (c1 & R1 & A1 & L1 & K1 & Wf1 & G1).
    destruct (IHl n1' rho1' (map fst (flat_item i) ++ done) s' c1 r2 s1 c2' n2' rho2' Np2)
      as (c2 & R2 & A2 & L2 & K2); auto.
    + intros u x U. apply Na, in_or_app. auto.
    + eapply S2; eauto.
    + exists c2. split; [rewrite run_app, R1; exact R2 |]. split; [exact A2 |]. split; [lia |].
      intros k K. rewrite K2 by lia. apply K1, K.
Qed.

Lemma translate_right : forall n l s s' c code,
  source l = true -> py l s = Some s' -> separate s [] s l -> agree s c ->
  translate n l = Some code ->
  exists c', run code c = Some c' /\ agree s' c'.
Proof.
  intros n l s s' c code Sl P S A T. unfold source in Sl. apply andb_prop in Sl as [N1 N2].
  unfold py in P. destruct (values s (flat l)) as [r |] eqn:Va; [| discriminate].
  unfold translate in T. destruct (accepts [] l); [| discriminate].
  destruct (visit n [] l) as [[[code' n1] rho1] |] eqn:V; [| discriminate]. injection T as <-.
  assert (Na : all_named (exprs l)).
  { intros t x H X. rewrite forallb_forall in N1. specialize (N1 t H).
    rewrite forallb_forall in N1. auto. }
  destruct (proj2 (all_right s) l n [] [] s c r s' code' n1 rho1) as (c1 & R & A1 & _); auto.
  - intros p k [].
  - intros t v H Vv. symmetry. apply agree_named; [exact A |]. apply forallb_forall.
    intros x X. apply (Na t x H). eapply sub_vars; eauto.
  - eauto.
Qed.

Lemma visit_some : forall l n rho,
  (forall p, In p (targets l) -> simple p = true) -> exists r, visit n rho l = Some r.
Proof.
  assert (L : (forall i n rho later, (forall p, In p (map fst (flat_item i)) -> simple p = true) ->
                exists r, visit_item n rho i later = Some r) /\
              (forall l n rho, (forall p, In p (targets l) -> simple p = true) ->
                (exists r, visit n rho l = Some r) /\ forallb simple (lhs l) = true /\
                lhs l = targets l)).
  { apply item_items_ind.
    - intros p t n rho later _. cbn [visit_item]. destruct (mem p later); eauto.
    - intros g IH n rho later H. cbn [visit_item flat_item] in *.
      destruct (IH n rho H) as ([[[c' n'] rho'] ->] & Q & _).
      unfold accepts. rewrite Q, orb_true_r. eauto.
    - intros n rho _. cbn [visit lhs]. eauto.
    - intros i IHi l IHl n rho H. unfold targets in *. rewrite flat_cons, map_app in H.
      assert (Hi : forall p, In p (map fst (flat_item i)) -> simple p = true)
        by (intros p P; apply H, in_or_app; auto).
      assert (Hl : forall p, In p (map fst (flat l)) -> simple p = true)
        by (intros p P; apply H, in_or_app; auto).
      cbn [visit]. destruct (IHi n rho (rhs rho l) Hi) as [[[c' n'] rho'] ->].
      destruct (IHl n' rho' Hl) as ([[[c2 n2] rho2] ->] & Q & T).
      split; [eauto |].
      assert (X : lhs_item i = map fst (flat_item i)).
      { clear -i. revert i. apply (item_mut (fun i => lhs_item i = map fst (flat_item i))
                                    (fun l => lhs l = map fst (flat l)));
          intros; cbn [lhs_item lhs flat_item flat]; auto.
        rewrite map_app, H, H0. reflexivity. }
      cbn [lhs]. rewrite X, T, flat_cons, map_app. split; [| reflexivity].
      apply forallb_forall. intros p P. apply H. exact P. }
  intros l n rho H. destruct (proj2 L l n rho H) as (R & _). exact R.
Qed.

Lemma lhs_targets : forall l, lhs l = targets l.
Proof.
  apply (items_mut (fun i => lhs_item i = map fst (flat_item i)) (fun l => lhs l = targets l));
    unfold targets; intros; cbn [lhs_item lhs flat_item flat]; auto.
  rewrite map_app, H, H0. reflexivity.
Qed.

Lemma translate_some : forall n l,
  forallb simple (targets l) = true -> exists code, translate n l = Some code.
Proof.
  intros n l H. unfold translate, accepts. rewrite lhs_targets, H, orb_true_r.
  rewrite forallb_forall in H. destruct (visit_some l n [] H) as [[[c n1] rho] ->]. eauto.
Qed.

Lemma no_elems : forall e x, elems e = [] -> In x (vars e) -> In (To x) (nodes e).
Proof.
  induction e as [z | y | e1 IH1 e2 IH2 | a e IH]; cbn [elems vars nodes]; intros x E H.
  - contradiction.
  - destruct H as [-> | []]. left. reflexivity.
  - apply app_eq_nil in E as [E1 E2]. apply in_app_or in H as [H | H]; apply in_or_app; auto.
  - discriminate.
Qed.

Lemma scalars_all : forall l, scalars l = true ->
  (forall t, In t (exprs l) -> elems t = []) /\ forallb simple (targets l) = true /\
  (forall s0 done s, separate s0 done s l).
Proof.
  fix IH 1. intros [| [[x | a i] t | g] l]; cbn [scalars]; intros H; try discriminate.
  - split; [intros t [] |]. split; [reflexivity |]. intros. exact Logic.I.
  - destruct (elems t) eqn:E; [| discriminate]. destruct (IH l H) as (A & B & C).
    split; [| split].
    + intros u [<- | U]; [exact E | exact (A u U)].
    + cbn [targets flat flat_item map fst app forallb simple]. exact B.
    + intros s0 done s. cbn [separate separate_item apart]. split; [| intros; apply C].
      intros (u & U & X). exists u. split; [exact U |]. apply no_elems; auto.
Qed.

Lemma scalars_right : forall n l s s' c,
  source l = true -> scalars l = true -> py l s = Some s' -> agree s c ->
  exists code c', translate n l = Some code /\ run code c = Some c' /\ agree s' c'.
Proof.
  intros n l s s' c Sl H P A. destruct (scalars_all l H) as (_ & B & C).
  destruct (translate_some n l B) as [code T]. exists code.
  destruct (translate_right n l s s' c code Sl P (C _ _ _) A T) as (c' & R & A').
  eauto.
Qed.
