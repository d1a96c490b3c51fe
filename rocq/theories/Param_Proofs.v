(* Proofs about assignments to optional arguments (C67) *)
From Coq Require Import Bool Arith ZArith Lia List String.
From Verif Require Import Param_Model Param_Spec.
Import ListNotations.
Open Scope list_scope.

Scheme stmt_mut := Induction for stmt Sort Prop
  with block_mut := Induction for block Sort Prop.
Combined Scheme stmt_block_ind from stmt_mut, block_mut.

Lemma mem_in : forall x l, mem x l = true <-> In x l.
Proof.
  intros x l. unfold mem. rewrite existsb_exists. split.
  - intros (y & H & E). apply String.eqb_eq in E. subst. exact H.
  - intros H. exists x. split; [exact H | apply String.eqb_refl].
Qed.

Lemma mem_app : forall x l1 l2, mem x (l1 ++ l2) = mem x l1 || mem x l2.
Proof. intros. unfold mem. apply existsb_app. Qed.

Definition eqset (l1 l2 : list string) : Prop := forall x, mem x l1 = mem x l2.

Lemma eqset_app : forall a l1 l2, eqset l1 l2 -> eqset (a ++ l1) (a ++ l2).
Proof. intros a l1 l2 H x. rewrite !mem_app, H. reflexivity. Qed.

(* ------------------------------------------------------------------ the keys *)

Lemma visit_keys : forall opt,
  (forall c d, eqset (snd (visit opt d c)) (assigned opt c ++ d)) /\
  (forall b d, eqset (snd (visit_block opt d b)) (assigned_block opt b ++ d)).
Proof.
  intros opt. apply stmt_block_ind; intros; cbn [visit visit_block assigned assigned_block].
  - cbn [snd]. destruct (opt x); intro; reflexivity.
  - intro; reflexivity.
  - intro; reflexivity.
  - specialize (H d). destruct (visit_block opt d b1) as [b1' d1]. cbn [snd] in H.
    specialize (H0 d1). destruct (visit_block opt d1 b2) as [b2' d2]. cbn [snd] in *.
    intros x. rewrite H0, !mem_app, H, mem_app.
    destruct (mem x (assigned_block opt b1)), (mem x (assigned_block opt b2)); reflexivity.
  - specialize (H d). destruct (visit_block opt d b) as [b' d1]. exact H.
  - intro; reflexivity.
  - intro; reflexivity.
  - specialize (H d). destruct (visit opt d s) as [c' d1]. cbn [snd] in H.
    specialize (H0 d1). destruct (visit_block opt d1 b) as [b2' d2]. cbn [snd] in *.
    intros x. rewrite H0, !mem_app, H, mem_app.
    destruct (mem x (assigned opt s)), (mem x (assigned_block opt b)); reflexivity.
Qed.

Lemma assigned_opt : forall opt,
  (forall c x, In x (assigned opt c) -> opt x = true) /\
  (forall b x, In x (assigned_block opt b) -> opt x = true).
Proof.
  intros opt. apply stmt_block_ind; intros; cbn [assigned assigned_block] in *;
    try contradiction;
    try (match goal with H : In _ (_ ++ _) |- _ => apply in_app_or in H as [H | H] end; auto);
    auto.
  destruct (opt x) eqn:E; [| contradiction]. destruct H as [-> | []]. exact E.
Qed.

(* ------------------------------------------------------------------ the invariant *)

(* s0: the arguments; f: all keys at the end; d: the keys now *)
Definition inv (opt : string -> bool) (s0 : store string) (f d : list string)
               (s : store string) (t : store place) : Prop :=
  (forall x, opt x = false -> s x = t (Own x)) /\
  (forall x, opt x = true -> t (Given x) = s0 x) /\
  (forall x, opt x = true -> mem x f = true -> t (Copy x) = s x) /\
  (forall x, opt x = true -> mem x d = false -> s x = s0 x).

Definition sub (d f : list string) : Prop := forall x, mem x d = true -> mem x f = true.

Lemma inv_more : forall opt s0 f d d' s t,
  inv opt s0 f d s t -> sub d d' -> inv opt s0 f d' s t.
Proof.
  intros opt s0 f d d' s t (A & B & C & D) S. repeat split; auto.
  intros x O M. apply D; [exact O |]. destruct (mem x d) eqn:E; [| reflexivity].
  rewrite (S x E) in M. discriminate.
Qed.

Lemma inv_at : forall opt s0 f d s t x,
  inv opt s0 f d s t -> sub d f -> t (at_ opt d x) = s x.
Proof.
  intros opt s0 f d s t x (A & B & C & D) S. unfold at_.
  destruct (opt x) eqn:O; [destruct (mem x d) eqn:M |].
  - auto.
  - rewrite B, D; auto.
  - symmetry. auto.
Qed.

Lemma inv_eval : forall opt s0 f d s t e,
  inv opt s0 f d s t -> sub d f -> eval t (visit_term opt d e) = eval s e.
Proof.
  intros opt s0 f d s t e I S.
  induction e; cbn [visit_term eval]; try reflexivity.
  - eapply inv_at; eauto.
  - rewrite IHe1, IHe2. reflexivity.
  - rewrite IHe1, IHe2. reflexivity.
Qed.

Lemma inv_test : forall opt s0 f d s t c,
  inv opt s0 f d s t -> sub d f ->
  forallb (fun x => opt x && negb (mem x d)) (tests c) = true ->
  test c_is t (visit_cond opt d c) = test (py_is opt) s c.
Proof.
  intros opt s0 f d s t c I S.
  assert (G : forall x, opt x && negb (mem x d) = true ->
    at_ opt d x = Given x /\ c_is (Given x) t = py_is opt x s).
  { intros x H. apply andb_prop in H as [O M]. apply negb_true_iff in M.
    unfold at_. rewrite O, M. split; [reflexivity |]. destruct I as (_ & B & _ & D).
    unfold c_is, py_is. rewrite O, (B x O), (D x O M). destruct (s0 x); reflexivity. }
  induction c; cbn [tests visit_cond test forallb]; intros H.
  - rewrite andb_true_r in H. destruct (G x H) as [-> E]. exact E.
  - rewrite andb_true_r in H. destruct (G x H) as [-> E]. cbn [test]. rewrite E. reflexivity.
  - rewrite !(inv_eval _ _ _ _ _ _ _ I S). reflexivity.
  - rewrite forallb_app in H. apply andb_prop in H as [H1 H2].
    rewrite IHc1, IHc2 by assumption. reflexivity.
  - rewrite IHc by assumption. reflexivity.
  - reflexivity.
Qed.

Lemma place_eqb_eq : forall a b, place_eqb a b = true <-> a = b.
Proof.
  intros [] []; cbn [place_eqb]; try (split; discriminate);
    rewrite String.eqb_eq; split; congruence.
Qed.

(* Writing to a plain variable, and to the copy of an argument *)
Lemma put_own : forall opt s0 f d s t x z,
  inv opt s0 f d s t -> opt x = false ->
  exists s1 t1, py_put x z s = Some s1 /\ c_put (Own x) z t = Some t1 /\ inv opt s0 f d s1 t1.
Proof.
  intros opt s0 f d s t x z (A & B & C & D) O. do 2 eexists.
  split; [reflexivity |]. split; [reflexivity |].
  split; [| split; [| split]]; intros y Y; cbn [place_eqb].
  - destruct (String.eqb y x); auto.
  - auto.
  - intros M. rewrite C by auto. destruct (String.eqb_spec y x); [subst; congruence | reflexivity].
  - intros M. destruct (String.eqb_spec y x); [subst; congruence | auto].
Qed.

Lemma put_copy : forall opt s0 f d s t x z,
  inv opt s0 f d s t -> opt x = true -> mem x d = true ->
  exists s1 t1, py_put x z s = Some s1 /\ c_put (Copy x) z t = Some t1 /\ inv opt s0 f d s1 t1.
Proof.
  intros opt s0 f d s t x z (A & B & C & D) O Md. do 2 eexists.
  split; [reflexivity |]. split; [reflexivity |].
  split; [| split; [| split]]; intros y Y; cbn [place_eqb].
  - destruct (String.eqb_spec y x); [subst; congruence | auto].
  - auto.
  - intros M. destruct (String.eqb y x); auto.
  - intros M. destruct (String.eqb_spec y x); [subst; congruence | auto].
Qed.

Definition related (opt : string -> bool) (s0 : store string) (f d : list string)
  (r : result (store string)) (r' : result (store place)) : Prop :=
  match r, r' with
  | Next s, Next t => inv opt s0 f d s t
  | Left z s, Left z' t => z = z' /\ inv opt s0 f d s t
  | Fault, _ => True
  | _, _ => False
  end.

Lemma related_more : forall opt s0 f d d' r r',
  related opt s0 f d r r' -> sub d d' -> related opt s0 f d' r r'.
Proof.
  intros opt s0 f d d' [] [] H S; cbn [related] in *; auto; try contradiction.
  - eapply inv_more; eauto.
  - destruct H as [-> H]. split; [reflexivity |]. eapply inv_more; eauto.
Qed.

Lemma repeat_related : forall opt s0 f d (body : Z -> store string -> result (store string)) body',
  (forall i s t, inv opt s0 f d s t -> related opt s0 f d (body i s) (body' i t)) ->
  forall n i s t, inv opt s0 f d s t ->
    related opt s0 f d (repeat_ body n i s) (repeat_ body' n i t).
Proof.
  intros opt s0 f d body body' H. induction n as [| n IH]; intros i s t I; [exact I |].
  cbn [repeat_]. specialize (H i s t I).
  destruct (body i s), (body' i t); cbn [related] in H; try contradiction; try exact Logic.I; auto.
Qed.

Lemma keys_sub : forall opt b d, sub d (snd (visit_block opt d b)).
Proof.
  intros opt b d x M. rewrite (proj2 (visit_keys opt)), mem_app, M, orb_true_r. reflexivity.
Qed.

Lemma keys_sub' : forall opt c d, sub d (snd (visit opt d c)).
Proof.
  intros opt c d x M. rewrite (proj1 (visit_keys opt)), mem_app, M, orb_true_r. reflexivity.
Qed.

Lemma sub_trans : forall a b c, sub a b -> sub b c -> sub a c.
Proof. intros a b c H1 H2 x M. auto. Qed.

Lemma ok_eqset : forall opt,
  (forall c l1 l2, eqset l1 l2 -> ok opt l1 c = ok opt l2 c) /\
  (forall b l1 l2, eqset l1 l2 -> ok_block opt l1 b = ok_block opt l2 b).
Proof.
  assert (F : forall (g h : string -> bool) l, (forall x, g x = h x) -> forallb g l = forallb h l).
  { intros g h l H. induction l as [| a l IH]; [reflexivity |]. cbn [forallb].
    rewrite H, IH. reflexivity. }
  intros opt. apply stmt_block_ind; intros; cbn [ok ok_block]; try reflexivity.
  - rewrite H. reflexivity.
  - rewrite (H l1 l2 H1), (H0 _ _ (eqset_app _ _ _ H1)). f_equal. f_equal.
    apply F. intros x. rewrite H1. reflexivity.
  - rewrite (H l1 l2 H0). f_equal. f_equal. apply F. intros y. apply H0.
  - rewrite (H l1 l2 H1), (H0 _ _ (eqset_app _ _ _ H1)). reflexivity.
Qed.

Lemma visit_right : forall opt s0 f,
  (forall c d s t, ok opt d c = true -> sub (snd (visit opt d c)) f -> inv opt s0 f d s t ->
     related opt s0 f (snd (visit opt d c)) (exec (py_is opt) py_put c s)
             (exec c_is c_put (fst (visit opt d c)) t)) /\
  (forall b d s t, ok_block opt d b = true -> sub (snd (visit_block opt d b)) f ->
     inv opt s0 f d s t ->
     related opt s0 f (snd (visit_block opt d b)) (py opt b s)
             (exec_block c_is c_put (fst (visit_block opt d b)) t)).
Proof.
  intros opt s0 f. unfold py. apply stmt_block_ind.
  - (* Set *)
    intros x e d s t K S I.
    assert (Sd : sub d f) by (eapply sub_trans; [apply keys_sub' | exact S]).
    cbn [visit fst snd exec] in *. rewrite (inv_eval _ _ _ _ _ _ e I Sd).
    destruct (eval s e) as [z |]; [| exact Logic.I].
    destruct (opt x) eqn:O.
    + assert (M : mem x (x :: d) = true) by (apply mem_in; left; reflexivity).
      assert (I' : inv opt s0 f (x :: d) s t).
      { eapply inv_more; [exact I |]. intros y Y. apply mem_in. right. apply mem_in. exact Y. }
      destruct (put_copy _ _ _ _ _ _ x z I' O M) as (s1 & t1 & E1 & E2 & I1).
      unfold at_. rewrite O, M, E1, E2. exact I1.
    + destruct (put_own _ _ _ _ _ _ x z I O) as (s1 & t1 & E1 & E2 & I1).
      unfold at_. rewrite O, E1, E2. exact I1.
  - (* Aug *)
    intros x e d s t K S I. cbn [visit fst snd exec ok] in *.
    rewrite (inv_eval _ _ _ _ _ _ e I S), (inv_at _ _ _ _ _ _ x I S).
    destruct (s x) as [y |]; [| exact Logic.I]. destruct (eval s e) as [z |]; [| exact Logic.I].
    unfold at_. destruct (opt x) eqn:O.
    + cbn [negb orb] in K. rewrite K.
      destruct (put_copy _ _ _ _ _ _ x (y + z)%Z I O K) as (s1 & t1 & E1 & E2 & I1).
      rewrite E1, E2. exact I1.
    + destruct (put_own _ _ _ _ _ _ x (y + z)%Z I O) as (s1 & t1 & E1 & E2 & I1).
      rewrite E1, E2. exact I1.
  - (* Pair *)
    intros x y e e' d s t K S I. cbn [visit fst snd exec ok] in *.
    apply andb_prop in K as [O1 O2]. apply negb_true_iff in O1, O2.
    rewrite (inv_eval _ _ _ _ _ _ e I S), (inv_eval _ _ _ _ _ _ e' I S).
    destruct (eval s e) as [z |]; [| exact Logic.I].
    destruct (eval s e') as [w |]; [| exact Logic.I].
    unfold at_. rewrite O1, O2.
    destruct (put_own _ _ _ _ _ _ x z I O1) as (s1 & t1 & E1 & E2 & I1). rewrite E1, E2.
    destruct (put_own _ _ _ _ _ _ y w I1 O2) as (s2 & t2 & E3 & E4 & I2). rewrite E3, E4.
    exact I2.
  - (* If *)
    intros c b1 IH1 b2 IH2 d s t K S I. cbn [ok] in K.
    apply andb_prop in K as [K K2]. apply andb_prop in K as [Kc K1].
    cbn [visit] in *.
    pose proof (keys_sub opt b1 d) as U1. pose proof (proj2 (visit_keys opt) b1 d) as Q1.
    specialize (IH1 d s t K1).
    destruct (visit_block opt d b1) as [b1' d1]. cbn [fst snd] in *.
    pose proof (keys_sub opt b2 d1) as U2. specialize (IH2 d1 s t).
    destruct (visit_block opt d1 b2) as [b2' d2]. cbn [fst snd exec] in *.
    assert (Sd : sub d f) by (eauto using sub_trans).
    rewrite (inv_test _ _ _ _ _ _ c I Sd Kc).
    destruct (test (py_is opt) s c) as [[|] |]; [| | exact Logic.I].
    + eapply related_more; [apply IH1; eauto using sub_trans | exact U2].
    + apply IH2; [| exact S | eapply inv_more; eauto].
      rewrite (proj2 (ok_eqset opt) b2 d1 _ Q1). exact K2.
  - (* For *)
    intros x e b IH d s t K S I. cbn [ok] in K.
    apply andb_prop in K as [K Kb]. apply andb_prop in K as [Ox Ka].
    apply negb_true_iff in Ox. cbn [visit] in *.
    pose proof (keys_sub opt b d) as U. pose proof (proj2 (visit_keys opt) b d) as Q.
    assert (IH' := IH d). clear IH.
    destruct (visit_block opt d b) as [b' d1]. cbn [fst snd exec] in *.
    assert (Sd : sub d f) by (eauto using sub_trans).
    assert (E : eqset d1 d).
    { intros y. rewrite Q, mem_app.
      destruct (mem y (assigned_block opt b)) eqn:M; [| reflexivity].
      apply mem_in in M. rewrite forallb_forall in Ka. symmetry. exact (Ka y M). }
    rewrite (inv_eval _ _ _ _ _ _ e I Sd). destruct (eval s e) as [z |]; [| exact Logic.I].
    eapply related_more; [| exact U]. apply repeat_related; [| exact I].
    clear s t I. intros i s t I. unfold at_. rewrite Ox.
    destruct (put_own _ _ _ _ _ _ x i I Ox) as (s1 & t1 & E1 & E2 & I1). rewrite E1, E2.
    eapply related_more; [apply (IH' s1 t1 Kb S I1) |]. intros y Y. rewrite <- E. exact Y.
  - (* Return *)
    intros e d s t K S I. cbn [visit fst snd exec] in *.
    rewrite (inv_eval _ _ _ _ _ _ e I S). destruct (eval s e) as [z |]; [| exact Logic.I].
    split; auto.
  - intros d s t K S I. exact I.
  - (* Cons *)
    intros c IH1 b IH2 d s t K S I. cbn [ok_block] in K. apply andb_prop in K as [K1 K2].
    cbn [visit_block] in *. specialize (IH1 d s t K1).
    pose proof (proj1 (visit_keys opt) c d) as Q1.
    destruct (visit opt d c) as [c' d1]. cbn [fst snd] in *.
    pose proof (keys_sub opt b d1) as U2. assert (IH2' := IH2 d1). clear IH2.
    destruct (visit_block opt d1 b) as [b' d2]. cbn [fst snd exec_block] in *.
    assert (S1 : sub d1 f) by (eauto using sub_trans). specialize (IH1 S1 I).
    destruct (exec (py_is opt) py_put c s) as [s1 | z s1 |]; [| | exact Logic.I];
      destruct (exec c_is c_put c' t) as [t1 | z' t1 |]; cbn [related] in IH1; try contradiction.
    + apply IH2'; [| exact S | exact IH1].
      rewrite (proj2 (ok_eqset opt) b d1 _ Q1). exact K2.
    + destruct IH1 as [-> IH1]. split; [reflexivity |]. eapply inv_more; eauto.
Qed.

(* ------------------------------------------------------------------ the start *)

Lemma inits_run : forall l b t,
  exists t1, exec_block c_is c_put (inits l b) t = exec_block c_is c_put b t1 /\
    (forall x, t1 (Own x) = t (Own x)) /\ (forall x, t1 (Given x) = t (Given x)) /\
    (forall x, t1 (Copy x) = if mem x l then
                 match t (Given x) with Some z => Some z | None => t (Copy x) end
               else t (Copy x)).
Proof.
  intros l b t. revert t. induction l as [| v l IH]; intros t.
  - exists t. repeat split; auto.
  - cbn [inits exec_block exec test c_is]. unfold c_is.
    destruct (t (Given v)) as [z |] eqn:V.
    + cbn [exec_block exec eval]. rewrite V. cbn [c_put].
      destruct (IH (fun y => if place_eqb y (Copy v) then Some z else t y))
        as (t1 & E & A & B & C).
      exists t1. split; [exact E |]. split; [exact A |]. split; [exact B |].
      intros x. rewrite C. cbn [place_eqb]. unfold mem. cbn [existsb].
      destruct (String.eqb_spec x v).
      * subst. cbn [orb]. rewrite V. destruct (existsb (String.eqb v) l); reflexivity.
      * reflexivity.
    + destruct (IH t) as (t1 & E & A & B & C). exists t1. split; [exact E |].
      split; [exact A |]. split; [exact B |]. intros x. rewrite C. unfold mem. cbn [existsb].
      destruct (String.eqb_spec x v).
      * subst. cbn [orb]. rewrite V. destruct (existsb (String.eqb v) l); reflexivity.
      * reflexivity.
Qed.

Lemma translate_right : forall opt b s,
  ok_block opt [] b = true -> py opt b s <> Fault ->
  alike opt s (py opt b s) (run opt b s).
Proof.
  intros opt b s K N. unfold run, translate.
  pose proof (proj2 (visit_right opt s (snd (visit_block opt [] b))) b []) as R.
  pose proof (proj2 (visit_keys opt) b []) as Q.
  destruct (visit_block opt [] b) as [b' d]. cbn [fst snd] in *.
  assert (I : exists t1, exec_block c_is c_put (inits (nodup string_dec d) b') (enter opt s) =
                         exec_block c_is c_put b' t1 /\ inv opt s d [] s t1).
  { destruct (inits_run (nodup string_dec d) b' (enter opt s)) as (t1 & E & A & B & C).
    exists t1. split; [exact E |]. split; [| split; [| split]].
    - intros x O. rewrite A. cbn [enter]. rewrite O. reflexivity.
    - intros x O. rewrite B. cbn [enter]. rewrite O. reflexivity.
    - intros x O M. rewrite C. cbn [enter]. rewrite O.
        assert (X : mem x (nodup string_dec d) = true)
          by (apply mem_in, nodup_In, mem_in; exact M).
        rewrite X. destruct (s x); reflexivity.
    - reflexivity. }
  destruct I as (t1 & E & I). rewrite E.
  specialize (R s t1 K (fun x H => H) I).
  destruct (py opt b s) as [s1 | z s1 |]; [| | congruence];
    destruct (exec_block c_is c_put b' t1) as [t2 | z' t2 |]; cbn [related alike] in *;
    try contradiction.
  - destruct R as (A & B & _). auto.
  - destruct R as (-> & A & B & _). auto.
Qed.
