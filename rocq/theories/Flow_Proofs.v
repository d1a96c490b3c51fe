(* Proofs about blocks, if, while, for and return (C65) *)
From Coq Require Import Bool Arith ZArith Lia List String.
From Verif Require Import Flow_Model Flow_Spec.
Import ListNotations.
Open Scope list_scope.

Ltac bools :=
  repeat match goal with
  | H : _ && _ = true |- _ => apply andb_true_iff in H; destruct H
  | H : negb _ = true |- _ => apply negb_true_iff in H
  end.

(* ------------------------------------------------------------------ states *)

Definition lower (K : nat) (v : var) : Prop :=
  match v with Tmp n => n < K | _ => True end.

Definition agree (K : nat) (s t : state) : Prop :=
  out s = out t /\ forall v, lower K v -> vars s v = vars t v.

Definition related (K : nat) (r r' : result) : Prop :=
  match r, r' with
  | Done g s, Done g' t => g = g' /\ agree K s t
  | Timeout, Timeout => True
  | _, _ => False
  end.

Fixpoint below (K : nat) (e : expr) : Prop :=
  match e with
  | Num _ | Lit _ | Bump _ => True
  | Get v => lower K v
  | Bin _ a b | And a b | Or a b => below K a /\ below K b
  | Not a | Tell a | Early a | Late a | Held a => below K a
  | Choose c a b | Pick c a b => below K c /\ below K a /\ below K b
  end.

Lemma lower_le : forall K K' v, K <= K' -> lower K v -> lower K' v.
Proof. intros K K' [x | | n] L H; simpl in *; try exact I; lia. Qed.

Lemma below_le : forall K K' e, K <= K' -> below K e -> below K' e.
Proof.
  intros K K' e L; induction e; simpl; intuition eauto using lower_le.
Qed.

Lemma user_below : forall e, user e = true -> below 0 e.
Proof.
  induction e; simpl; intros H; bools; auto; try (destruct v; simpl; auto; discriminate).
Qed.

Lemma var_eqb_spec : forall v w, var_eqb v w = true <-> v = w.
Proof.
  intros [x | | n] [y | | m]; simpl; split; intros H; try discriminate; auto.
  - apply String.eqb_eq in H. now subst.
  - inversion H. apply String.eqb_refl.
  - apply Nat.eqb_eq in H. now subst.
  - inversion H. apply Nat.eqb_refl.
Qed.

Lemma store_same : forall v z s, vars (store v z s) v = Some z.
Proof.
  intros. simpl. assert (E : var_eqb v v = true) by now apply var_eqb_spec. now rewrite E.
Qed.

Lemma store_other : forall v w z s, w <> v -> vars (store v z s) w = vars s w.
Proof.
  intros v w z s H. simpl. destruct (var_eqb w v) eqn:E; auto.
  apply var_eqb_spec in E. contradiction.
Qed.

Lemma agree_refl : forall K s, agree K s s.
Proof. split; auto. Qed.

Lemma agree_store : forall K v z s t, agree K s t -> agree K (store v z s) (store v z t).
Proof.
  intros K v z s t [O V]. split; simpl; auto.
  intros w L. destruct (var_eqb w v); auto.
Qed.

Lemma agree_tell : forall K z s t, agree K s t -> agree K (tell z s) (tell z t).
Proof. intros K z s t [O V]. split; simpl; auto. now rewrite O. Qed.

Lemma agree_tmp : forall K n z s t, K <= n -> agree K s t -> agree K s (store (Tmp n) z t).
Proof.
  intros K n z s t L [O V]. split; auto.
  intros w W. rewrite store_other; auto. intros ->. simpl in W. lia.
Qed.

(* Evaluation in states that agree *)
Lemma eval_agree : forall K e s t x s1,
  agree K s t -> below K e -> eval e s = Some (x, s1) ->
  exists t1, eval e t = Some (x, t1) /\ agree K s1 t1.
Proof.
  induction e; intros s t x0 s1 A B E; simpl in *;
    try (inversion E; subst; eexists; split; [reflexivity | auto]; fail).
  - rewrite <- (proj2 A v B). destruct (vars s v); try discriminate.
    inversion E; subst. eauto.
  - destruct B as [B1 B2].
    destruct (eval e1 s) as [[x1 sa] |] eqn:E1; try discriminate.
    destruct (IHe1 _ _ _ _ A B1 E1) as (ta & Ea & A1). rewrite Ea.
    destruct (eval e2 sa) as [[x2 sb] |] eqn:E2; try discriminate.
    destruct (IHe2 _ _ _ _ A1 B2 E2) as (tb & Eb & A2). rewrite Eb.
    destruct (apply o x1 x2); try discriminate. inversion E; subst. eauto.
  - destruct (eval e s) as [[x1 sa] |] eqn:E1; try discriminate.
    destruct (IHe _ _ _ _ A B E1) as (ta & Ea & A1). rewrite Ea.
    inversion E; subst. eauto.
  - destruct B as [B1 B2].
    destruct (eval e1 s) as [[x1 sa] |] eqn:E1; try discriminate.
    destruct (IHe1 _ _ _ _ A B1 E1) as (ta & Ea & A1). rewrite Ea.
    destruct (truth x1); eauto. inversion E; subst. eauto.
  - destruct B as [B1 B2].
    destruct (eval e1 s) as [[x1 sa] |] eqn:E1; try discriminate.
    destruct (IHe1 _ _ _ _ A B1 E1) as (ta & Ea & A1). rewrite Ea.
    destruct (truth x1); eauto. inversion E; subst. eauto.
  - destruct B as (B1 & B2 & B3).
    destruct (eval e1 s) as [[x1 sa] |] eqn:E1; try discriminate.
    destruct (IHe1 _ _ _ _ A B1 E1) as (ta & Ea & A1). rewrite Ea.
    destruct (truth x1); eauto.
  - destruct (eval e s) as [[x1 sa] |] eqn:E1; try discriminate.
    destruct (IHe _ _ _ _ A B E1) as (ta & Ea & A1). rewrite Ea.
    inversion E; subst. eexists; split; [reflexivity | now apply agree_tell].
  - rewrite <- (proj2 A (User x) Logic.I). destruct (vars s (User x)); try discriminate.
    inversion E; subst. eexists; split; [reflexivity | now apply agree_store].
  - eauto.
  - destruct B as (B1 & B2 & B3).
    destruct (eval e1 s) as [[x1 sa] |] eqn:E1; try discriminate.
    destruct (IHe1 _ _ _ _ A B1 E1) as (ta & Ea & A1). rewrite Ea.
    destruct (truth x1); eauto.
  - eauto.
  - eauto.
Qed.

(* An expression without effects leaves the state; its value depends on its variables *)
Lemma eval_silent : forall e s x s1,
  silent e = true -> eval e s = Some (x, s1) -> s1 = s.
Proof.
  induction e; intros s x0 s1 H E; simpl in *; bools; try discriminate;
    try (inversion E; subst; auto; fail).
  - destruct (vars s v); try discriminate. now inversion E.
  - destruct (eval e1 s) as [[x1 sa] |] eqn:E1; try discriminate.
    destruct (eval e2 sa) as [[x2 sb] |] eqn:E2; try discriminate.
    destruct (apply o x1 x2); try discriminate.
    apply IHe1 in E1; auto. apply IHe2 in E2; auto. inversion E; now subst.
  - destruct (eval e s) as [[x1 sa] |] eqn:E1; try discriminate.
    apply IHe in E1; auto. inversion E; now subst.
  - destruct (eval e1 s) as [[x1 sa] |] eqn:E1; try discriminate.
    apply IHe1 in E1; auto. subst. destruct (truth x1); eauto. now inversion E.
  - destruct (eval e1 s) as [[x1 sa] |] eqn:E1; try discriminate.
    apply IHe1 in E1; auto. subst. destruct (truth x1); eauto. now inversion E.
  - destruct (eval e1 s) as [[x1 sa] |] eqn:E1; try discriminate.
    apply IHe1 in E1; auto. subst. destruct (truth x1); eauto.
  - eauto.
  - destruct (eval e1 s) as [[x1 sa] |] eqn:E1; try discriminate.
    apply IHe1 in E1; auto. subst. destruct (truth x1); eauto.
  - eauto.
  - eauto.
Qed.

Lemma eval_again : forall K e s t x s1,
  silent e = true -> below K e -> (forall v, lower K v -> vars s v = vars t v) ->
  eval e s = Some (x, s1) -> eval e t = Some (x, t).
Proof.
  induction e; intros s t x0 s1 H B V E; simpl in *; bools; try discriminate;
    try (inversion E; subst; reflexivity).
  - rewrite <- (V v B). destruct (vars s v); try discriminate. now inversion E.
  - destruct B as [B1 B2].
    destruct (eval e1 s) as [[x1 sa] |] eqn:E1; try discriminate.
    destruct (eval e2 sa) as [[x2 sb] |] eqn:E2; try discriminate.
    assert (Z1 := eval_silent _ _ _ _ H E1). subst sa.
    rewrite (IHe1 _ _ _ _ H B1 V E1), (IHe2 _ _ _ _ H0 B2 V E2).
    destruct (apply o x1 x2); try discriminate. now inversion E.
  - destruct (eval e s) as [[x1 sa] |] eqn:E1; try discriminate.
    rewrite (IHe _ _ _ _ H B V E1). now inversion E.
  - destruct B as [B1 B2].
    destruct (eval e1 s) as [[x1 sa] |] eqn:E1; try discriminate.
    assert (Z1 := eval_silent _ _ _ _ H E1). subst sa.
    rewrite (IHe1 _ _ _ _ H B1 V E1).
    destruct (truth x1); eauto. now inversion E.
  - destruct B as [B1 B2].
    destruct (eval e1 s) as [[x1 sa] |] eqn:E1; try discriminate.
    assert (Z1 := eval_silent _ _ _ _ H E1). subst sa.
    rewrite (IHe1 _ _ _ _ H B1 V E1).
    destruct (truth x1); eauto. now inversion E.
  - destruct B as (B1 & B2 & B3).
    destruct (eval e1 s) as [[x1 sa] |] eqn:E1; try discriminate.
    assert (Z1 := eval_silent _ _ _ _ H E1). subst sa.
    rewrite (IHe1 _ _ _ _ H B1 V E1).
    destruct (truth x1); eauto.
  - eauto.
  - destruct B as (B1 & B2 & B3).
    destruct (eval e1 s) as [[x1 sa] |] eqn:E1; try discriminate.
    assert (Z1 := eval_silent _ _ _ _ H E1). subst sa.
    rewrite (IHe1 _ _ _ _ H B1 V E1).
    destruct (truth x1); eauto.
  - eauto.
  - eauto.
Qed.

(* What evaluation changes: never a temporary, and no variable if it is steady *)
Lemma eval_frame : forall e s x s1 v,
  eval e s = Some (x, s1) -> (exists n, v = Tmp n) \/ steady e = true ->
  vars s1 v = vars s v.
Proof.
  induction e; intros s x0 s1 v0 E H; simpl in *;
    try (inversion E; subst; reflexivity).
  - destruct (vars s v); try discriminate. now inversion E.
  - destruct (eval e1 s) as [[x1 sa] |] eqn:E1; try discriminate.
    destruct (eval e2 sa) as [[x2 sb] |] eqn:E2; try discriminate.
    destruct (apply o x1 x2); try discriminate. inversion E; subst.
    rewrite (IHe2 _ _ _ _ E2) by (destruct H; [auto | bools; auto]).
    apply (IHe1 _ _ _ _ E1). destruct H; [auto | bools; auto].
  - destruct (eval e s) as [[x1 sa] |] eqn:E1; try discriminate.
    inversion E; subst. eapply IHe; eauto.
  - destruct (eval e1 s) as [[x1 sa] |] eqn:E1; try discriminate.
    assert (F1 : vars sa v0 = vars s v0)
      by (apply (IHe1 _ _ _ _ E1); destruct H; [auto | bools; auto]).
    destruct (truth x1).
    + rewrite (IHe2 _ _ _ _ E) by (destruct H; [auto | bools; auto]). auto.
    + inversion E; now subst.
  - destruct (eval e1 s) as [[x1 sa] |] eqn:E1; try discriminate.
    assert (F1 : vars sa v0 = vars s v0)
      by (apply (IHe1 _ _ _ _ E1); destruct H; [auto | bools; auto]).
    destruct (truth x1).
    + inversion E; now subst.
    + rewrite (IHe2 _ _ _ _ E) by (destruct H; [auto | bools; auto]). auto.
  - destruct (eval e1 s) as [[x1 sa] |] eqn:E1; try discriminate.
    assert (F1 : vars sa v0 = vars s v0)
      by (apply (IHe1 _ _ _ _ E1); destruct H; [auto | bools; auto]).
    destruct (truth x1).
    + rewrite (IHe2 _ _ _ _ E) by (destruct H; [auto | bools; auto]). auto.
    + rewrite (IHe3 _ _ _ _ E) by (destruct H; [auto | bools; auto]). auto.
  - destruct (eval e s) as [[x1 sa] |] eqn:E1; try discriminate.
    inversion E; subst. simpl. eapply IHe; eauto.
  - destruct (vars s (User x)); try discriminate. inversion E; subst.
    rewrite store_other; auto. destruct H as [[n ->] | H]; discriminate.
  - eauto.
  - destruct (eval e1 s) as [[x1 sa] |] eqn:E1; try discriminate.
    assert (F1 : vars sa v0 = vars s v0)
      by (apply (IHe1 _ _ _ _ E1); destruct H; [auto | bools; auto]).
    destruct (truth x1).
    + rewrite (IHe2 _ _ _ _ E) by (destruct H; [auto | bools; auto]). auto.
    + rewrite (IHe3 _ _ _ _ E) by (destruct H; [auto | bools; auto]). auto.
  - eauto.
  - eauto.
Qed.

(* ------------------------------------------------------------------ lists of statements *)

Definition run (n : nat) (p : list stmt) (s : state) : result := exec_block n (put p Nil) s.

Definition andthen (r : result) (f : state -> result) : result :=
  match r with Done Next s => f s | _ => r end.

Lemma exec_cons : forall n c b s,
  exec_block n (Cons c b) s = andthen (exec n c s) (exec_block n b).
Proof. intros. cbn [exec_block]. now destruct (exec n c s) as [[| | |] s1 | |]. Qed.

Lemma exec_put : forall n p b s,
  exec_block n (put p b) s = andthen (run n p s) (exec_block n b).
Proof.
  intros n p; induction p as [| c p IH]; intros b s; [reflexivity |].
  unfold run. cbn [put exec_block].
  destruct (exec n c s) as [[| | |] s1 | |]; cbn [andthen]; auto.
  apply IH.
Qed.

Lemma run_app : forall n p q s, run n (p ++ q) s = andthen (run n p s) (run n q).
Proof.
  intros n p q s.
  assert (E : put (p ++ q) Nil = put p (put q Nil)).
  { induction p; simpl; congruence. }
  unfold run at 1. rewrite E. apply exec_put.
Qed.

Lemma run_one : forall n c s, run n [c] s = exec n c s.
Proof.
  intros. unfold run. simpl. destruct (exec n c s) as [[| | |] s1 | |]; auto.
Qed.

Lemma put_flatten : forall b, put (flatten b) Nil = b.
Proof. induction b; simpl; congruence. Qed.

Lemma run_flatten : forall n b s, run n (flatten b) s = exec_block n b s.
Proof. intros. unfold run. now rewrite put_flatten. Qed.

Lemma put_app : forall p q b, put (p ++ q) b = put p (put q b).
Proof. induction p; simpl; intros; congruence. Qed.

(* ------------------------------------------------------------------ moving parts forward *)

Definition strip (e : expr) : expr := match e with Early a => a | _ => e end.

Definition firm (e : expr) : bool :=
  match e with Num _ | Lit _ | Get (Tmp _) => true | _ => false end.

(* e is translated to the statements p followed by e', using the temporaries k, ..., k'-1 *)
Inductive hoist : expr -> nat -> list stmt -> expr -> nat -> Prop :=
| H_same : forall e k, hoist e k [] e k
| H_bin : forall o a b k p a' k1 q b' k2,
    hoist a k p a' k1 -> hoist b k1 q b' k2 ->
    q = [] \/ firm a' = true \/ (silent a = true /\ steady b = true) ->
    hoist (Bin o a b) k (p ++ q) (Bin o a' b') k2
| H_not : forall a k p a' k1, hoist a k p a' k1 -> hoist (Not a) k p (Not a') k1
| H_and : forall a b k p a' k1, hoist a k p a' k1 -> hoist (And a b) k p (And a' b) k1
| H_or : forall a b k p a' k1, hoist a k p a' k1 -> hoist (Or a b) k p (Or a' b) k1
| H_choose : forall c a b k p c' k1,
    hoist c k p c' k1 -> hoist (Choose c a b) k p (Choose c' a b) k1
| H_tell : forall a k p a' k1, hoist a k p a' k1 -> hoist (Tell a) k p (Tell a') k1
| H_late : forall a k p a' k1, hoist a k p a' k1 -> hoist (Late a) k p (Late a') k1
| H_held : forall a k p a' k1, hoist a k p a' k1 -> hoist (Held a) k p (Held a') k1
| H_early_out : forall a k p a' k1, hoist a k p a' k1 -> hoist (Early a) k p a' k1
| H_late_out : forall a k p a' k1, hoist a k p a' k1 -> hoist (Late a) k p a' k1
| H_early_tmp : forall a k p a' k1,
    hoist a k p a' k1 -> hoist (Early a) k (p ++ [Put (Tmp k1) a']) (Get (Tmp k1)) (S k1)
| H_late_tmp : forall a k p a' k1,
    hoist a k p a' k1 -> hoist (Late a) k (p ++ [Put (Tmp k1) a']) (Get (Tmp k1)) (S k1)
| H_held_tmp : forall a k p a' k1,
    hoist a k p a' k1 -> hoist (Held a) k (p ++ [Put (Tmp k1) a']) (Get (Tmp k1)) (S k1)
| H_pick : forall c a b k p c' k1,
    hoist c (S k) p c' k1 ->
    hoist (Pick c a b) k
      (p ++ [If (Section c' (Cons (Put (Tmp k) a) Nil)
                  (Section (Lit true) (Cons (Put (Tmp k) (strip b)) Nil) Nothing))])
      (Get (Tmp k)) k1.

Lemma hoist_le : forall e k p e' k', hoist e k p e' k' -> k <= k'.
Proof. intros e k p e' k' H; induction H; lia. Qed.

Lemma below_strip : forall K e, below K e -> below K (strip e).
Proof. intros K [] H; exact H. Qed.

Lemma hoist_below : forall e k p e' k', hoist e k p e' k' -> below k e -> below k' e'.
Proof.
  intros e k p e' k' H; induction H; intros B; simpl in *; auto; try lia.
  - destruct B as [B1 B2]. pose proof (hoist_le _ _ _ _ _ H). pose proof (hoist_le _ _ _ _ _ H0).
    split; [eapply below_le; [| eauto]; lia |]. apply IHhoist2. eapply below_le; eauto.
  - destruct B as [B1 B2]. pose proof (hoist_le _ _ _ _ _ H).
    split; [auto | eapply below_le; eauto].
  - destruct B as [B1 B2]. pose proof (hoist_le _ _ _ _ _ H).
    split; [auto | eapply below_le; eauto].
  - destruct B as (B1 & B2 & B3). pose proof (hoist_le _ _ _ _ _ H).
    repeat split; [auto | eapply below_le; eauto | eapply below_le; eauto].
  - pose proof (hoist_le _ _ _ _ _ H). lia.
Qed.

Lemma strip_eval : forall e s, eval (strip e) s = eval e s.
Proof. intros [] s; reflexivity. Qed.

Lemma strip_steady : forall e, steady e = true -> steady (strip e) = true.
Proof. intros [] H; auto. Qed.

Lemma hoist_silent : forall e k p e' k',
  hoist e k p e' k' -> silent e = true -> silent e' = true.
Proof.
  intros e k p e' k' H; induction H; intros S; simpl in *; bools; auto;
    rewrite ?IHhoist, ?IHhoist1, ?IHhoist2; auto; try (rewrite H0, H1; auto);
    try (rewrite H1; auto).
  all: repeat (apply andb_true_iff; split); auto.
Qed.

Lemma hoist_steady : forall e k p e' k',
  hoist e k p e' k' -> steady e = true -> steady e' = true.
Proof.
  intros e k p e' k' H; induction H; intros S; simpl in *; bools; auto;
    rewrite ?IHhoist, ?IHhoist1, ?IHhoist2; auto.
  all: repeat (apply andb_true_iff; split); auto.
Qed.

(* What the statements change *)
Lemma hoist_frame : forall e k p e' k', hoist e k p e' k' ->
  forall n t t1 v, run n p t = Done Next t1 ->
    lower k v -> (exists j, v = Tmp j) \/ steady e = true -> vars t1 v = vars t v.
Proof.
  intros e k p e' k' H; induction H; intros n t t1 v R L C; simpl in C; eauto.
  - unfold run in R; simpl in R; now inversion R.
  - rewrite run_app in R. destruct (run n p t) as [[| | |] ta | |] eqn:E; try discriminate.
    simpl in R. pose proof (hoist_le _ _ _ _ _ H).
    rewrite (IHhoist2 _ _ _ _ R).
    + eapply IHhoist1; eauto. destruct C; [auto | bools; auto].
    + eapply lower_le; eauto.
    + destruct C; [auto | bools; auto].
  - eapply IHhoist; eauto. destruct C; [auto | bools; auto].
  - eapply IHhoist; eauto. destruct C; [auto | bools; auto].
  - eapply IHhoist; eauto. destruct C; [auto | bools; auto].
  - rewrite run_app in R. destruct (run n p t) as [[| | |] ta | |] eqn:E; try discriminate.
    cbn [andthen] in R. rewrite run_one in R. cbn [exec] in R.
    destruct (eval a' ta) as [[z tb] |] eqn:Ev; try discriminate. inversion R; subst.
    pose proof (hoist_le _ _ _ _ _ H).
    rewrite store_other by (intros ->; simpl in L; lia).
    rewrite (eval_frame _ _ _ _ v Ev).
    + eapply IHhoist; eauto.
    + destruct C; [auto |]. right. eapply hoist_steady; eauto.
  - rewrite run_app in R. destruct (run n p t) as [[| | |] ta | |] eqn:E; try discriminate.
    cbn [andthen] in R. rewrite run_one in R. cbn [exec] in R.
    destruct (eval a' ta) as [[z tb] |] eqn:Ev; try discriminate. inversion R; subst.
    pose proof (hoist_le _ _ _ _ _ H).
    rewrite store_other by (intros ->; simpl in L; lia).
    rewrite (eval_frame _ _ _ _ v Ev).
    + eapply IHhoist; eauto.
    + destruct C; [auto |]. right. eapply hoist_steady; eauto.
  - rewrite run_app in R. destruct (run n p t) as [[| | |] ta | |] eqn:E; try discriminate.
    cbn [andthen] in R. rewrite run_one in R. cbn [exec] in R.
    destruct (eval a' ta) as [[z tb] |] eqn:Ev; try discriminate. inversion R; subst.
    pose proof (hoist_le _ _ _ _ _ H).
    rewrite store_other by (intros ->; simpl in L; lia).
    rewrite (eval_frame _ _ _ _ v Ev).
    + eapply IHhoist; eauto.
    + destruct C; [auto |]. right. eapply hoist_steady; eauto.
  - rewrite run_app in R. destruct (run n p t) as [[| | |] ta | |] eqn:E; try discriminate.
    cbn [andthen] in R. rewrite run_one in R. cbn [exec exec_sections exec_block eval] in R.
    assert (Cc : (exists j, v = Tmp j) \/ steady c = true)
      by (destruct C; [auto | bools; auto]).
    assert (Ca : (exists j, v = Tmp j) \/ steady a = true)
      by (destruct C; [auto | bools; auto]).
    assert (Cb : (exists j, v = Tmp j) \/ steady (strip b) = true)
      by (destruct C; [auto | bools; right; now apply strip_steady]).
    assert (F1 : vars ta v = vars t v)
      by (eapply IHhoist; eauto; eapply lower_le; [| exact L]; lia).
    destruct (eval c' ta) as [[z tb] |] eqn:Ev; try discriminate.
    assert (F2 : vars tb v = vars ta v).
    { eapply eval_frame; [exact Ev |]. destruct Cc; [auto |].
      right. eapply hoist_steady; eauto. }
    destruct (truth z).
    + destruct (eval a tb) as [[y tc] |] eqn:Ea; try discriminate.
      inversion R; subst. rewrite store_other by (intros ->; simpl in L; lia).
      rewrite (eval_frame _ _ _ _ v Ea Ca). congruence.
    + cbn [of_bool truth] in R. change (truth 1) with true in R. cbn iota in R.
      destruct (eval (strip b) tb) as [[y tc] |] eqn:Eb; try discriminate.
      inversion R; subst. rewrite store_other by (intros ->; simpl in L; lia).
      rewrite (eval_frame _ _ _ _ v Eb Cb). congruence.
Qed.

Lemma firm_eval : forall e s x s1, firm e = true -> eval e s = Some (x, s1) -> s1 = s.
Proof.
  intros e s x s1 F E. eapply eval_silent; eauto.
  destruct e; try discriminate; auto.
Qed.

Lemma hoist_eval : forall e k p e' k', hoist e k p e' k' ->
  forall K n s t x s1, K <= k -> below K e -> agree K s t -> eval e s = Some (x, s1) ->
  exists t1 t2, run n p t = Done Next t1 /\ eval e' t1 = Some (x, t2) /\ agree K s1 t2.
Proof.
  intros e k p e' k' H; induction H; intros K n s t x s1 L B A E.
  - destruct (eval_agree _ _ _ _ _ _ A B E) as (t1 & E1 & A1).
    exists t, t1. auto.
  - simpl in B. destruct B as [B1 B2]. simpl in E.
    destruct (eval a s) as [[x1 sa] |] eqn:Ea; try discriminate.
    destruct (eval b sa) as [[x2 sb] |] eqn:Eb; try discriminate.
    destruct (apply o x1 x2) as [z |] eqn:Eo; try discriminate.
    inversion E; subst z sb; clear E.
    pose proof (hoist_le _ _ _ _ _ H) as L1.
    destruct (IHhoist1 _ n _ _ _ _ L B1 A Ea) as (ta & tb & R1 & V1 & A1).
    rewrite run_app, R1. cbn [andthen].
    destruct H1 as [-> | C].
    + destruct (IHhoist2 K n sa tb x2 s1) as (tc & td & R2 & V2 & A2); auto; [lia |].
      unfold run in R2; simpl in R2. inversion R2; subst tc.
      exists ta, td. split; [reflexivity |]. split; auto.
      simpl. now rewrite V1, V2, Eo.
    + assert (Sil : silent a' = true).
      { destruct C as [C | [C _]]; [destruct a'; try discriminate; auto |].
        eapply hoist_silent; eauto. }
      assert (Z1 := eval_silent _ _ _ _ Sil V1). subst tb.
      destruct (IHhoist2 K n sa ta x2 s1) as (tc & td & R2 & V2 & A2); auto; [lia |].
      assert (Ba : below k1 a') by (eapply hoist_below; eauto; eapply below_le; eauto).
      assert (V1' : eval a' tc = Some (x1, tc)).
      { destruct C as [C | [_ C]].
        - destruct a'; try discriminate; simpl in V1 |- *; try now inversion V1.
          destruct v; try discriminate.
          rewrite (hoist_frame _ _ _ _ _ H0 _ _ _ (Tmp n0) R2); eauto.
          destruct (vars ta (Tmp n0)); try discriminate. now inversion V1.
        - eapply eval_again; [exact Sil | exact Ba | | exact V1].
          intros v Lv. symmetry. eapply hoist_frame; eauto. }
      exists tc, td. split; [exact R2 |]. split; auto.
      simpl. now rewrite V1', V2, Eo.
  - simpl in B, E. destruct (eval a s) as [[x1 sa] |] eqn:Ea; try discriminate.
    destruct (IHhoist _ n _ _ _ _ L B A Ea) as (ta & tb & R1 & V1 & A1).
    exists ta, tb. split; auto. simpl. rewrite V1. inversion E; subst; auto.
  - simpl in B, E. destruct B as [B1 B2].
    destruct (eval a s) as [[x1 sa] |] eqn:Ea; try discriminate.
    destruct (IHhoist _ n _ _ _ _ L B1 A Ea) as (ta & tb & R1 & V1 & A1).
    destruct (truth x1) eqn:Tx.
    + destruct (eval_agree _ _ _ _ _ _ A1 B2 E) as (tc & V2 & A2).
      exists ta, tc. split; auto. simpl. rewrite V1, Tx. auto.
    + inversion E; subst. exists ta, tb. split; auto. simpl. rewrite V1, Tx. auto.
  - simpl in B, E. destruct B as [B1 B2].
    destruct (eval a s) as [[x1 sa] |] eqn:Ea; try discriminate.
    destruct (IHhoist _ n _ _ _ _ L B1 A Ea) as (ta & tb & R1 & V1 & A1).
    destruct (truth x1) eqn:Tx.
    + inversion E; subst. exists ta, tb. split; auto. simpl. rewrite V1, Tx. auto.
    + destruct (eval_agree _ _ _ _ _ _ A1 B2 E) as (tc & V2 & A2).
      exists ta, tc. split; auto. simpl. rewrite V1, Tx. auto.
  - simpl in B, E. destruct B as (B1 & B2 & B3).
    destruct (eval c s) as [[x1 sa] |] eqn:Ea; try discriminate.
    destruct (IHhoist _ n _ _ _ _ L B1 A Ea) as (ta & tb & R1 & V1 & A1).
    destruct (truth x1) eqn:Tx.
    + destruct (eval_agree _ _ _ _ _ _ A1 B2 E) as (tc & V2 & A2).
      exists ta, tc. split; auto. simpl. rewrite V1, Tx. auto.
    + destruct (eval_agree _ _ _ _ _ _ A1 B3 E) as (tc & V2 & A2).
      exists ta, tc. split; auto. simpl. rewrite V1, Tx. auto.
  - simpl in B, E. destruct (eval a s) as [[x1 sa] |] eqn:Ea; try discriminate.
    destruct (IHhoist _ n _ _ _ _ L B A Ea) as (ta & tb & R1 & V1 & A1).
    inversion E; subst.
    exists ta, (tell x tb). split; auto. simpl. rewrite V1. split; auto using agree_tell.
  - simpl in B, E. eauto.
  - simpl in B, E. eauto.
  - simpl in B, E. eauto.
  - simpl in B, E. eauto.
  - simpl in B, E. pose proof (hoist_le _ _ _ _ _ H) as L1.
    destruct (IHhoist _ n _ _ _ _ L B A E) as (ta & tb & R1 & V1 & A1).
    rewrite run_app, R1. cbn [andthen]. rewrite run_one. cbn [exec]. rewrite V1.
    eexists; eexists; split; [reflexivity |]. cbn [eval]. rewrite store_same.
    split; [reflexivity |]. apply agree_tmp; auto; lia.
  - simpl in B, E. pose proof (hoist_le _ _ _ _ _ H) as L1.
    destruct (IHhoist _ n _ _ _ _ L B A E) as (ta & tb & R1 & V1 & A1).
    rewrite run_app, R1. cbn [andthen]. rewrite run_one. cbn [exec]. rewrite V1.
    eexists; eexists; split; [reflexivity |]. cbn [eval]. rewrite store_same.
    split; [reflexivity |]. apply agree_tmp; auto; lia.
  - simpl in B, E. pose proof (hoist_le _ _ _ _ _ H) as L1.
    destruct (IHhoist _ n _ _ _ _ L B A E) as (ta & tb & R1 & V1 & A1).
    rewrite run_app, R1. cbn [andthen]. rewrite run_one. cbn [exec]. rewrite V1.
    eexists; eexists; split; [reflexivity |]. cbn [eval]. rewrite store_same.
    split; [reflexivity |]. apply agree_tmp; auto; lia.
  - simpl in B, E. destruct B as (B1 & B2 & B3).
    destruct (eval c s) as [[x1 sa] |] eqn:Ec; try discriminate.
    destruct (IHhoist K n _ _ _ _ (le_S _ _ L) B1 A Ec) as (ta & tb & R1 & V1 & A1).
    rewrite run_app, R1. cbn [andthen]. rewrite run_one.
    cbn [exec exec_sections exec_block]. rewrite V1.
    destruct (truth x1) eqn:Tx.
    + destruct (eval_agree _ _ _ _ _ _ A1 B2 E) as (tc & V2 & A2). rewrite V2.
      eexists; eexists; split; [reflexivity |]. cbn [eval]. rewrite store_same.
      split; [reflexivity |]. apply agree_tmp; auto; lia.
    + cbn [eval]. change (truth (of_bool true)) with true. cbn iota.
      rewrite strip_eval.
      destruct (eval_agree _ _ _ _ _ _ A1 B3 E) as (tc & V2 & A2). rewrite V2.
      eexists; eexists; split; [reflexivity |]. cbn [eval]. rewrite store_same.
      split; [reflexivity |]. apply agree_tmp; auto; lia.
Qed.

(* ------------------------------------------------------------------ known conditions *)

Lemma constant_sound : forall e z s, constant e = Some z -> eval e s = Some (z, s).
Proof.
  induction e; intros z0 s H; simpl in *; try discriminate.
  - now inversion H.
  - destruct (constant e1) as [x |]; try discriminate.
    destruct (constant e2) as [y |]; try discriminate.
    rewrite (IHe1 _ s eq_refl), (IHe2 _ s eq_refl).
    destruct o; try discriminate; rewrite H; reflexivity.
Qed.

Lemma truth_of_bool : forall b, truth (of_bool b) = b.
Proof. intros []; reflexivity. Qed.

Lemma symbolic_silent : forall e, symbolic e = true -> silent e = true.
Proof.
  induction e; simpl; intros H; bools; auto; try discriminate;
    rewrite ?IHe1, ?IHe2, ?IHe; auto.
Qed.

Lemma known_sound : forall e b s x s1,
  known e = Some b -> eval e s = Some (x, s1) -> s1 = s /\ truth x = b.
Proof.
  induction e; intros b0 s x0 s1 H E; cbn [known] in H; try discriminate.
  - inversion H; subst. cbn [eval] in E. inversion E; subst.
    split; [reflexivity | apply truth_of_bool].
  - destruct (constant e1) as [x |] eqn:C1; try discriminate.
    destruct (constant e2) as [y |] eqn:C2; try discriminate.
    cbn [eval] in E. rewrite (constant_sound _ _ _ C1), (constant_sound _ _ _ C2) in E.
    destruct o; try discriminate; cbn [apply] in E; inversion E; inversion H; subst;
      split; auto using truth_of_bool.
  - destruct (known e) as [c |] eqn:C; try discriminate. cbn [eval] in E.
    destruct (eval e s) as [[y sa] |] eqn:Ea; try discriminate.
    destruct (IHe _ _ _ _ eq_refl Ea) as [-> T]. inversion E; inversion H; subst.
    split; auto using truth_of_bool.
  - destruct (symbolic e1 && symbolic e2) eqn:S; try discriminate. bools.
    cbn [eval] in E.
    destruct (eval e1 s) as [[y sa] |] eqn:Ea; try discriminate.
    assert (sa = s) by (eapply eval_silent; [| exact Ea]; auto using symbolic_silent). subst sa.
    destruct (truth y) eqn:Ty.
    + assert (s1 = s) by (eapply eval_silent; [| exact E]; auto using symbolic_silent). subst s1.
      split; auto.
      destruct (known e1) as [[] |] eqn:K1.
      * destruct (known e2) as [[] |] eqn:K2; try discriminate; inversion H; subst;
          now destruct (IHe2 _ _ _ _ eq_refl E).
      * destruct (IHe1 _ _ _ _ eq_refl Ea). congruence.
      * destruct (known e2) as [[] |] eqn:K2; try discriminate; inversion H; subst.
        now destruct (IHe2 _ _ _ _ eq_refl E).
    + inversion E; subst. split; auto. rewrite Ty.
      destruct (known e1) as [[] |] eqn:K1; try (now inversion H).
      * destruct (IHe1 _ _ _ _ eq_refl Ea). congruence.
      * destruct (known e2) as [[] |]; try discriminate. now inversion H.
  - destruct (symbolic e1 && symbolic e2) eqn:S; try discriminate. bools.
    cbn [eval] in E.
    destruct (eval e1 s) as [[y sa] |] eqn:Ea; try discriminate.
    assert (sa = s) by (eapply eval_silent; [| exact Ea]; auto using symbolic_silent). subst sa.
    destruct (truth y) eqn:Ty.
    + inversion E; subst. split; auto. rewrite Ty.
      destruct (known e1) as [[] |] eqn:K1; try (now inversion H).
      * destruct (IHe1 _ _ _ _ eq_refl Ea). congruence.
      * destruct (known e2) as [[] |]; try discriminate. now inversion H.
    + assert (s1 = s) by (eapply eval_silent; [| exact E]; auto using symbolic_silent). subst s1.
      split; auto.
      destruct (known e1) as [[] |] eqn:K1.
      * destruct (IHe1 _ _ _ _ eq_refl Ea). congruence.
      * destruct (known e2) as [[] |] eqn:K2; try discriminate; inversion H; subst;
          now destruct (IHe2 _ _ _ _ eq_refl E).
      * destruct (known e2) as [[] |] eqn:K2; try discriminate; inversion H; subst.
        now destruct (IHe2 _ _ _ _ eq_refl E).
Qed.

(* ------------------------------------------------------------------ statements *)

Inductive trans (K : nat) : stmt -> list stmt -> Prop :=
| T_put : forall v e k p e' k',
    K <= k -> below K e -> hoist e k p e' k' -> trans K (Put v e) (p ++ [Put v e'])
| T_do : forall e k p e' k',
    K <= k -> below K e -> hoist e k p e' k' -> trans K (Do e) (p ++ [Do e'])
| T_nothing : trans K (If Nothing) [If Nothing]
| T_if : forall c b rest k p c' k' b' rest',
    K <= k -> below K c -> hoist c k p c' k' -> tblock K b b' -> tsections K rest rest' ->
    trans K (If (Section c b rest)) (p ++ [If (Section c' b' rest')])
| T_false : forall c b rest k p c' k' q,
    K <= k -> below K c -> hoist c k p c' k' -> known c' = Some false ->
    trans K (If rest) q -> trans K (If (Section c b rest)) (p ++ q)
| T_true : forall c b rest k p c' k' b',
    K <= k -> below K c -> hoist c k p c' k' -> known c' = Some true ->
    tblock K b b' -> trans K (If (Section c b rest)) (p ++ flatten b')
| T_while : forall c b b', below K c -> tblock K b b' -> trans K (While c b) [While c b']
| T_for : forall v e b k p e' k' b',
    K <= k -> below K e -> hoist e k p e' k' -> tblock K b b' ->
    trans K (For v e b) (p ++ [For v e' b'])
| T_break : trans K Break [Break]
| T_continue : trans K Continue [Continue]
| T_leave : trans K Leave [Leave]
with tblock (K : nat) : block -> block -> Prop :=
| T_nil : tblock K Nil Nil
| T_cons : forall c b q b', trans K c q -> tblock K b b' -> tblock K (Cons c b) (put q b')
with tsections (K : nat) : sections -> sections -> Prop :=
| T_end : tsections K Nothing Nothing
| T_section : forall c b rest b' rest',
    below K c -> tblock K b b' -> tsections K rest rest' ->
    tsections K (Section c b rest) (Section c b' rest')
| T_skip : forall c b rest rest',
    below K c -> known c = Some false -> tsections K rest rest' -> tsections K (Section c b rest) rest'
| T_last : forall c b rest b',
    below K c -> known c = Some true -> tblock K b b' ->
    tsections K (Section c b rest) (Section (Lit true) b' Nothing).

Scheme trans_mut := Induction for trans Sort Prop
  with tblock_mut := Induction for tblock Sort Prop
  with tsections_mut := Induction for tsections Sort Prop.

Lemma related_refl_timeout : forall K, related K Timeout Timeout.
Proof. intros; exact Logic.I. Qed.

Lemma related_andthen : forall K r r' f f',
  r <> Fault -> related K r r' ->
  (forall s t, r = Done Next s -> agree K s t -> f s <> Fault -> related K (f s) (f' t)) ->
  andthen r f <> Fault -> related K (andthen r f) (andthen r' f').
Proof.
  intros K r r' f f' N R H F.
  destruct r as [g s | |]; destruct r' as [g' t | |]; simpl in R; try contradiction.
  - destruct R as [<- A]. destruct g; cbn [andthen] in *; auto; split; auto.
  - exact Logic.I.
Qed.

Lemma related_loop : forall K c body body' n,
  below K c ->
  (forall s t, agree K s t -> body s <> Fault -> related K (body s) (body' t)) ->
  forall s t, agree K s t -> loop (eval c) body n s <> Fault ->
    related K (loop (eval c) body n s) (loop (eval c) body' n t).
Proof.
  intros K c body body' n B H.
  induction n as [| n IH]; intros s t A F; [exact Logic.I |].
  cbn [loop] in *.
  destruct (eval c s) as [[z sa] |] eqn:E; [| now elim F].
  destruct (eval_agree _ _ _ _ _ _ A B E) as (ta & E' & A1). rewrite E'.
  destruct (truth z); [| split; auto].
  assert (N : body sa <> Fault) by (intros Z; rewrite Z in F; now elim F).
  specialize (H _ _ A1 N).
  destruct (body sa) as [g s2 | |]; destruct (body' ta) as [g' t2 | |]; simpl in H;
    try contradiction; try exact Logic.I.
  destruct H as [<- A2]. destruct g; auto; split; auto.
Qed.

Lemma related_count : forall K v body body' k,
  (forall s t, agree K s t -> body s <> Fault -> related K (body s) (body' t)) ->
  forall i s t, agree K s t -> count v body k i s <> Fault ->
    related K (count v body k i s) (count v body' k i t).
Proof.
  intros K v body body' k H.
  induction k as [| k IH]; intros i s t A F; [split; auto |].
  cbn [count] in *.
  assert (N : body (store v i s) <> Fault) by (intros Z; rewrite Z in F; now elim F).
  specialize (H _ _ (agree_store K v i _ _ A) N).
  destruct (body (store v i s)) as [g s2 | |]; destruct (body' (store v i t)) as [g' t2 | |];
    simpl in H; try contradiction; try exact Logic.I.
  destruct H as [<- A2]. destruct g; auto; split; auto.
Qed.

Lemma related_stop : forall K r r', related K r r' -> related K (stop r) (stop r').
Proof.
  intros K [g s | |] [g' t | |] H; simpl in H; try contradiction; auto.
  destruct H as [<- A]. destruct g; split; auto.
Qed.

Definition simulates (K n : nat) (f f' : state -> result) : Prop :=
  forall s t, agree K s t -> f s <> Fault -> related K (f s) (f' t).

Lemma trans_sim : forall K n c q, trans K c q -> simulates K n (exec n c) (run n q).
Proof.
  intros K n.
  apply (trans_mut K
    (fun c q _ => simulates K n (exec n c) (run n q))
    (fun b b' _ => simulates K n (exec_block n b) (exec_block n b'))
    (fun x x' _ => simulates K n (exec_sections n x) (exec_sections n x')));
    unfold simulates.
  - intros v e k p e' k' L B H s t A F. cbn [exec] in *.
    destruct (eval e s) as [[z s1] |] eqn:E; [| now elim F].
    destruct (hoist_eval _ _ _ _ _ H K n _ _ _ _ L B A E) as (t1 & t2 & R & V & A1).
    rewrite run_app, R. cbn [andthen]. rewrite run_one. cbn [exec]. rewrite V.
    split; auto using agree_store.
  - intros e k p e' k' L B H s t A F. cbn [exec] in *.
    destruct (eval e s) as [[z s1] |] eqn:E; [| now elim F].
    destruct (hoist_eval _ _ _ _ _ H K n _ _ _ _ L B A E) as (t1 & t2 & R & V & A1).
    rewrite run_app, R. cbn [andthen]. rewrite run_one. cbn [exec]. rewrite V.
    split; auto.
  - intros s t A F. rewrite run_one. split; auto.
  - intros c b rest k p c' k' b' rest' L B H _ IHb _ IHr s t A F.
    cbn [exec exec_sections] in *.
    destruct (eval c s) as [[z s1] |] eqn:E; [| now elim F].
    destruct (hoist_eval _ _ _ _ _ H K n _ _ _ _ L B A E) as (t1 & t2 & R & V & A1).
    rewrite run_app, R. cbn [andthen]. rewrite run_one. cbn [exec exec_sections]. rewrite V.
    destruct (truth z); auto.
  - intros c b rest k p c' k' q L B H Kn _ IHr s t A F.
    cbn [exec exec_sections] in *.
    destruct (eval c s) as [[z s1] |] eqn:E; [| now elim F].
    destruct (hoist_eval _ _ _ _ _ H K n _ _ _ _ L B A E) as (t1 & t2 & R & V & A1).
    destruct (known_sound _ _ _ _ _ Kn V) as [-> T]. rewrite T in *.
    rewrite run_app, R. cbn [andthen]. auto.
  - intros c b rest k p c' k' b' L B H Kn _ IHb s t A F.
    cbn [exec exec_sections] in *.
    destruct (eval c s) as [[z s1] |] eqn:E; [| now elim F].
    destruct (hoist_eval _ _ _ _ _ H K n _ _ _ _ L B A E) as (t1 & t2 & R & V & A1).
    destruct (known_sound _ _ _ _ _ Kn V) as [-> T]. rewrite T in *.
    rewrite run_app, R. cbn [andthen]. rewrite run_flatten. auto.
  - intros c b b' B _ IHb s t A F. rewrite run_one. cbn [exec] in *.
    apply related_stop. apply related_loop; auto.
    intros Z. rewrite Z in F. now elim F.
  - intros v e b k p e' k' b' L B H _ IHb s t A F. cbn [exec] in *.
    destruct (eval e s) as [[z s1] |] eqn:E; [| now elim F].
    destruct (hoist_eval _ _ _ _ _ H K n _ _ _ _ L B A E) as (t1 & t2 & R & V & A1).
    rewrite run_app, R. cbn [andthen]. rewrite run_one. cbn [exec]. rewrite V.
    apply related_stop. apply related_count; auto.
    intros Z. rewrite Z in F. now elim F.
  - intros s t A F. rewrite run_one. split; auto.
  - intros s t A F. rewrite run_one. split; auto.
  - intros s t A F. rewrite run_one. split; auto.
  - intros s t A F. split; auto.
  - intros c b q b' _ IHc _ IHb s t A F. rewrite exec_put.
    rewrite exec_cons in *.
    assert (N : exec n c s <> Fault) by (intros Z; rewrite Z in F; now elim F).
    apply related_andthen; auto.
  - intros s t A F. split; auto.
  - intros c b rest b' rest' B _ IHb _ IHr s t A F. cbn [exec_sections] in *.
    destruct (eval c s) as [[z s1] |] eqn:E; [| now elim F].
    destruct (eval_agree _ _ _ _ _ _ A B E) as (t1 & V & A1). rewrite V.
    destruct (truth z); auto.
  - intros c b rest rest' _ Kn _ IHr s t A F. cbn [exec_sections] in *.
    destruct (eval c s) as [[z s1] |] eqn:E; [| now elim F].
    destruct (known_sound _ _ _ _ _ Kn E) as [-> T]. rewrite T in *. auto.
  - intros c b rest b' _ Kn _ IHb s t A F. cbn [exec_sections] in *.
    destruct (eval c s) as [[z s1] |] eqn:E; [| now elim F].
    destruct (known_sound _ _ _ _ _ Kn E) as [-> T]. rewrite T in *.
    cbn [eval]. change (truth (of_bool true)) with true. cbn iota. auto.
Qed.

Lemma tblock_sim : forall K n b b', tblock K b b' ->
  simulates K n (exec_block n b) (exec_block n b').
Proof.
  intros K n b b' H; induction H; intros s t A F; [split; auto |].
  rewrite exec_put.
  rewrite exec_cons in *.
  assert (N : exec n c s <> Fault) by (intros Z; rewrite Z in F; now elim F).
  apply related_andthen; auto.
  apply (trans_sim K n c q H); auto.
Qed.

(* ------------------------------------------------------------------ the stages *)

(* The programs for which the later stages are right; done: the semantic stage is over *)
Definition fine (f done : bool) (e : expr) : bool :=
  ok e && (if f then picks e else true) && (if done then no_early e else true).

Fixpoint fit (f done : bool) (c : stmt) : bool :=
  match c with
  | Put _ e | Do e => fine f done e
  | If x =>
      match x with
      | Nothing => true
      | Section e b rest =>
          fine f done e && (if f then no_late e else true) && fit_block f done b &&
          fit_rest f done rest
      end
  | While e b => plain e && fit_block f done b
  | For _ e b => fine f done e && (if f then no_late e else true) && fit_block f done b
  | Break | Continue | Leave => true
  end
with fit_block (f done : bool) (b : block) : bool :=
  match b with Nil => true | Cons c b' => fit f done c && fit_block f done b' end
with fit_rest (f done : bool) (x : sections) : bool :=
  match x with
  | Nothing => true
  | Section e b rest => plain e && fit_block f done b && fit_rest f done rest
  end.

Fixpoint inside (K : nat) (c : stmt) : Prop :=
  match c with
  | Put _ e | Do e => below K e
  | If x => inside_sections K x
  | While e b => below K e /\ inside_block K b
  | For _ e b => below K e /\ inside_block K b
  | Break | Continue | Leave => True
  end
with inside_block (K : nat) (b : block) : Prop :=
  match b with Nil => True | Cons c b' => inside K c /\ inside_block K b' end
with inside_sections (K : nat) (x : sections) : Prop :=
  match x with
  | Nothing => True
  | Section e b rest => below K e /\ inside_block K b /\ inside_sections K rest
  end.

Lemma plain_visit : forall e k, plain e = true -> visit e k = ([], e, k).
Proof.
  induction e; intros k H; simpl in *; bools; try discriminate; auto;
    repeat (first [rewrite IHe1 by auto | rewrite IHe2 by auto | rewrite IHe3 by auto
                  | rewrite IHe by auto]; cbv beta iota zeta); auto.
Qed.

Lemma plain_print : forall e w k, plain e = true -> print e w k = (w, e, k).
Proof.
  induction e; intros w k H; simpl in *; bools; try discriminate; auto;
    repeat (first [rewrite IHe1 by auto | rewrite IHe2 by auto | rewrite IHe3 by auto
                  | rewrite IHe by auto]; cbv beta iota zeta); auto.
Qed.

Lemma no_early_visit : forall e k, no_early e = true -> visit e k = ([], e, k).
Proof.
  induction e; intros k H; simpl in *; bools; try discriminate; auto;
    repeat (first [rewrite IHe1 by auto | rewrite IHe2 by auto | rewrite IHe3 by auto
                  | rewrite IHe by auto]; cbv beta iota zeta); auto.
Qed.

Lemma no_late_print : forall e w k,
  no_late e = true -> no_early e = true -> print e w k = (w, e, k).
Proof.
  induction e; intros w k H N; simpl in *; bools; try discriminate; auto;
    repeat (first [rewrite IHe1 by auto | rewrite IHe2 by auto | rewrite IHe3 by auto
                  | rewrite IHe by auto]; cbv beta iota zeta); auto.
Qed.

Lemma plain_no_early : forall e, plain e = true -> no_early e = true.
Proof.
  induction e; simpl; intros H; bools; auto; try discriminate;
    rewrite ?IHe1, ?IHe2, ?IHe3, ?IHe; auto.
Qed.

Lemma plain_no_late : forall e, plain e = true -> no_late e = true.
Proof.
  induction e; simpl; intros H; bools; auto; try discriminate;
    rewrite ?IHe1, ?IHe2, ?IHe3, ?IHe; auto.
Qed.

Lemma plain_ok : forall e, plain e = true -> ok e = true.
Proof.
  induction e; simpl; intros H; bools; auto; try discriminate;
    repeat (apply andb_true_iff; split); auto; try (rewrite H0; reflexivity).
Qed.

Lemma plain_picks : forall e, plain e = true -> picks e = true.
Proof.
  induction e; simpl; intros H; bools; auto; try discriminate;
    rewrite ?IHe1, ?IHe2, ?IHe3, ?IHe; auto.
Qed.

Lemma no_early_picks : forall e, no_early e = true -> picks e = true.
Proof.
  induction e; simpl; intros H; bools; auto; try discriminate;
    rewrite ?IHe1, ?IHe2, ?IHe3, ?IHe; auto.
Qed.

Lemma ok_bin : forall o a b, ok (Bin o a b) = true ->
  ok a = true /\ ok b = true /\
  (plain b = true \/ settled a b = true \/ (silent a = true /\ steady b = true)).
Proof.
  intros o a b H. cbn [ok] in H. bools. split; auto. split; auto.
  apply orb_true_iff in H0. destruct H0 as [H0 | H0]; [| bools; auto].
  apply orb_true_iff in H0. intuition.
Qed.

Lemma bin_ok : forall o a b, ok a = true -> ok b = true ->
  (plain b = true \/ settled a b = true \/ (silent a = true /\ steady b = true)) ->
  ok (Bin o a b) = true.
Proof.
  intros o a b A B H. cbn [ok]. rewrite A, B.
  destruct H as [H | [H | [H1 H2]]].
  - rewrite H. reflexivity.
  - rewrite H, orb_true_r. reflexivity.
  - rewrite H1, H2, !orb_true_r. reflexivity.
Qed.

Ltac step_visit e k :=
  let p := fresh "p" in let a := fresh "a" in let k' := fresh "k" in
  let E := fresh "E" in destruct (visit e k) as [[p a] k'] eqn:E.

Lemma settled_firm : forall a b k p a' k',
  settled a b = true -> no_early b = false -> visit a k = (p, a', k') -> firm a' = true.
Proof.
  intros a b k p a' k' St N V. destruct a; simpl in St; try discriminate; try congruence.
  - cbn [visit] in V. inversion V; subst; auto.
  - cbn [visit] in V. inversion V; subst; auto.
  - destruct v; try discriminate. cbn [visit] in V. inversion V; subst; auto.
  - cbn [visit] in V. step_visit a k. inversion V; subst; auto.
  - cbn [visit] in V. step_visit a2 k. step_visit a1 (S k0).
    destruct (match a2 with Early a5 => visit a5 k1 | _ => visit a2 k1 end)
      as [[pt at'] kt].
    destruct (match a3 with Early b1 => visit b1 kt | _ => visit a3 kt end)
      as [[pf bf] kf].
    inversion V; subst; auto.
Qed.

Lemma ok_pick : forall c a b, ok (Pick c a b) = true ->
  ok c = true /\ plain a = true /\ plain (strip b) = true.
Proof.
  intros c a b H. cbn [ok] in H. bools. split; auto. split; auto.
  apply orb_true_iff in H0. destruct H0 as [H0 | H0].
  - destruct b; auto; discriminate.
  - destruct b; auto; discriminate.
Qed.

Lemma visit_pick : forall c a b k, plain a = true -> plain (strip b) = true ->
  visit (Pick c a b) k =
  let '(pc, c', k2) := visit c (S k) in
  (pc ++ [If (Section c' (Cons (Put (Tmp k) a) Nil)
             (Section (Lit true) (Cons (Put (Tmp k) (strip b)) Nil) Nothing))],
   Get (Tmp k), k2).
Proof.
  intros c a b k Pa Pb. cbn [visit]. rewrite (plain_visit a k Pa). cbv beta iota zeta.
  destruct (visit c (S k)) as [[pc c'] k2].
  assert (Ea : match a with Early a1 => visit a1 k2 | _ => visit a k2 end = ([], a, k2)).
  { destruct a; try discriminate; now apply plain_visit. }
  rewrite Ea.
  assert (Eb : match b with Early b1 => visit b1 k2 | _ => visit b k2 end
               = ([], strip b, k2)).
  { destruct b; cbn [strip] in *; now apply plain_visit. }
  rewrite Eb. reflexivity.
Qed.

Lemma visit_hoist : forall e k p e' k',
  ok e = true -> visit e k = (p, e', k') -> hoist e k p e' k'.
Proof.
  induction e; intros k p e' k' O V.
  - cbn [visit] in V. inversion V; subst. constructor.
  - cbn [visit] in V. inversion V; subst. constructor.
  - cbn [visit] in V. inversion V; subst. constructor.
  - cbn [visit] in V. step_visit e1 k. step_visit e2 k0. inversion V; subst.
    destruct (ok_bin _ _ _ O) as (O1 & O2 & C).
    eapply H_bin; eauto.
    destruct (no_early e2) eqn:N2.
    + left. rewrite (no_early_visit _ _ N2) in E0. now inversion E0.
    + destruct C as [C | [C | C]].
      * apply plain_no_early in C. congruence.
      * right; left. eapply settled_firm; eauto.
      * auto.
  - cbn [visit ok] in *. step_visit e k. inversion V; subst. constructor; auto.
  - cbn [visit ok] in *. bools. step_visit e1 k. rewrite (plain_visit _ _ H0) in V.
    inversion V; subst. rewrite app_nil_r. constructor; auto.
  - cbn [visit ok] in *. bools. step_visit e1 k. rewrite (plain_visit _ _ H0) in V.
    inversion V; subst. rewrite app_nil_r. constructor; auto.
  - cbn [visit ok] in *. bools. rewrite (plain_visit _ k H1) in V. step_visit e1 k.
    rewrite (plain_visit _ _ H0) in V. inversion V; subst. rewrite app_nil_r.
    constructor; auto.
  - cbn [visit ok] in *. step_visit e k. inversion V; subst. constructor; auto.
  - cbn [visit] in V. inversion V; subst. constructor.
  - cbn [visit ok] in *. step_visit e k. inversion V; subst. apply H_early_tmp; auto.
  - destruct (ok_pick _ _ _ O) as (O1 & O2 & O3). rewrite visit_pick in V by auto.
    step_visit e1 (S k). inversion V; subst. constructor; auto.
  - cbn [visit ok] in *. step_visit e k. inversion V; subst. constructor; auto.
  - cbn [visit ok] in *. bools. step_visit e k. inversion V; subst. constructor; auto.
Qed.

Lemma visit_no_early : forall e k p e' k',
  ok e = true -> visit e k = (p, e', k') -> no_early e' = true.
Proof.
  induction e; intros k p e' k' O V; try (cbn [visit] in V; inversion V; subst; reflexivity).
  - cbn [visit] in V. step_visit e1 k. step_visit e2 k0. inversion V; subst.
    destruct (ok_bin _ _ _ O) as (O1 & O2 & C). cbn [no_early].
    rewrite (IHe1 _ _ _ _ O1 E), (IHe2 _ _ _ _ O2 E0). reflexivity.
  - cbn [visit ok] in *. step_visit e k. inversion V; subst. simpl. eauto.
  - cbn [visit ok] in *. bools. step_visit e1 k. rewrite (plain_visit _ _ H0) in V.
    inversion V; subst. cbn [no_early]. rewrite (IHe1 _ _ _ _ H E), (plain_no_early _ H0). auto.
  - cbn [visit ok] in *. bools. step_visit e1 k. rewrite (plain_visit _ _ H0) in V.
    inversion V; subst. cbn [no_early]. rewrite (IHe1 _ _ _ _ H E), (plain_no_early _ H0). auto.
  - cbn [visit ok] in *. bools. rewrite (plain_visit _ k H1) in V. step_visit e1 k.
    rewrite (plain_visit _ _ H0) in V. inversion V; subst. cbn [no_early].
    rewrite (IHe1 _ _ _ _ H E), (plain_no_early _ H0), (plain_no_early _ H1). auto.
  - cbn [visit ok] in *. step_visit e k. inversion V; subst. simpl. eauto.
  - cbn [visit ok] in *. step_visit e k. inversion V; subst. reflexivity.
  - destruct (ok_pick _ _ _ O) as (O1 & O2 & O3). rewrite visit_pick in V by auto.
    step_visit e1 (S k). inversion V; subst. reflexivity.
  - cbn [visit ok] in *. step_visit e k. inversion V; subst. simpl. eauto.
  - cbn [visit ok] in *. bools. step_visit e k. inversion V; subst. simpl. eauto.
Qed.

Lemma visit_no_late : forall e k p e' k',
  ok e = true -> no_late e = true -> visit e k = (p, e', k') -> no_late e' = true.
Proof.
  induction e; intros k p e' k' O N V; try (cbn [visit] in V; inversion V; subst; reflexivity).
  - cbn [visit] in V. step_visit e1 k. step_visit e2 k0. inversion V; subst.
    destruct (ok_bin _ _ _ O) as (O1 & O2 & C). cbn [no_late] in *. bools.
    rewrite (IHe1 _ _ _ _ O1 H E), (IHe2 _ _ _ _ O2 H0 E0). reflexivity.
  - cbn [visit ok] in *. step_visit e k. inversion V; subst. simpl in *. eauto.
  - cbn [visit ok] in *. bools. step_visit e1 k. rewrite (plain_visit _ _ H0) in V.
    inversion V; subst. cbn [no_late] in *. bools. rewrite (IHe1 _ _ _ _ H H1 E). auto.
  - cbn [visit ok] in *. bools. step_visit e1 k. rewrite (plain_visit _ _ H0) in V.
    inversion V; subst. cbn [no_late] in *. bools. rewrite (IHe1 _ _ _ _ H H1 E). auto.
  - cbn [visit ok] in *. bools. rewrite (plain_visit _ k H1) in V. step_visit e1 k.
    rewrite (plain_visit _ _ H0) in V. inversion V; subst. cbn [no_late] in *. bools.
    rewrite (IHe1 _ _ _ _ H H2 E), H3, H4. auto.
  - cbn [visit ok] in *. step_visit e k. inversion V; subst. simpl in *. eauto.
  - cbn [visit ok] in *. step_visit e k. inversion V; subst. reflexivity.
  - destruct (ok_pick _ _ _ O) as (O1 & O2 & O3). rewrite visit_pick in V by auto.
    step_visit e1 (S k). inversion V; subst. reflexivity.
  - discriminate.
  - discriminate.
Qed.

Lemma visit_ok : forall e k p e' k',
  ok e = true -> visit e k = (p, e', k') -> ok e' = true.
Proof.
  induction e; intros k p e' k' O V; try (cbn [visit] in V; inversion V; subst; reflexivity).
  - cbn [visit] in V. step_visit e1 k. step_visit e2 k0. inversion V; subst.
    destruct (ok_bin _ _ _ O) as (O1 & O2 & C).
    apply bin_ok; [eauto | eauto |].
    destruct C as [C | [C | [C1 C2]]].
    + left. rewrite (plain_visit _ _ C) in E0. inversion E0; now subst.
    + right; left. destruct e1; simpl in C; try discriminate.
      * cbn [visit] in E. inversion E; subst; reflexivity.
      * cbn [visit] in E. inversion E; subst; reflexivity.
      * cbn [visit] in E. inversion E; subst; exact C.
      * cbn [visit] in E. step_visit e1 k. inversion E; subst; reflexivity.
      * destruct (ok_pick _ _ _ O1) as (P1 & P2 & P3). rewrite visit_pick in E by auto.
        step_visit e1_1 (S k). inversion E; subst. reflexivity.
      * cbn [visit] in E. step_visit e1 k. inversion E; subst.
        rewrite (no_early_visit _ _ C) in E0. inversion E0; subst. cbn [settled]. congruence.
      * cbn [visit] in E. step_visit e1 k. inversion E; subst.
        rewrite (no_early_visit _ _ C) in E0. inversion E0; subst. cbn [settled]. congruence.
    + right; right. split.
      * exact (hoist_silent _ _ _ _ _ (visit_hoist _ _ _ _ _ O1 E) C1).
      * exact (hoist_steady _ _ _ _ _ (visit_hoist _ _ _ _ _ O2 E0) C2).
  - cbn [visit ok] in *. step_visit e k. inversion V; subst. simpl. eauto.
  - cbn [visit ok] in *. bools. step_visit e1 k. rewrite (plain_visit _ _ H0) in V.
    inversion V; subst. cbn [ok]. rewrite (IHe1 _ _ _ _ H E), H0. auto.
  - cbn [visit ok] in *. bools. step_visit e1 k. rewrite (plain_visit _ _ H0) in V.
    inversion V; subst. cbn [ok]. rewrite (IHe1 _ _ _ _ H E), H0. auto.
  - cbn [visit ok] in *. bools. rewrite (plain_visit _ k H1) in V. step_visit e1 k.
    rewrite (plain_visit _ _ H0) in V. inversion V; subst. cbn [ok].
    rewrite (IHe1 _ _ _ _ H E), H0, H1. auto.
  - cbn [visit ok] in *. step_visit e k. inversion V; subst. simpl. eauto.
  - cbn [visit ok] in *. step_visit e k. inversion V; subst. reflexivity.
  - destruct (ok_pick _ _ _ O) as (O1 & O2 & O3). rewrite visit_pick in V by auto.
    step_visit e1 (S k). inversion V; subst. reflexivity.
  - cbn [visit ok] in *. step_visit e k. inversion V; subst. simpl. eauto.
  - cbn [visit ok] in *. bools. step_visit e k. inversion V; subst. cbn [ok].
    rewrite (IHe _ _ _ _ H E), (visit_no_late _ _ _ _ _ H H0 E). auto.
Qed.

(* The statements that the semantic stage puts in front *)
Definition all_fit (f : bool) (p : list stmt) : Prop := Forall (fun c => fit f true c = true) p.

Lemma fine_done : forall f e, ok e = true -> no_early e = true -> fine f true e = true.
Proof.
  intros f e O N. unfold fine. rewrite O, N. destruct f; auto. now rewrite no_early_picks.
Qed.

Lemma fine_plain : forall f e, plain e = true -> fine f true e = true.
Proof. intros. apply fine_done; auto using plain_ok, plain_no_early. Qed.

Lemma visit_fit : forall (f : bool) e k p e' k',
  ok e = true -> (if f then picks e else true) = true -> visit e k = (p, e', k') ->
  all_fit f p.
Proof.
  unfold all_fit.
  intros f e; induction e; intros k p e' k' O P V;
    try (cbn [visit] in V; inversion V; subst; constructor; fail).
  - cbn [visit] in V. step_visit e1 k. step_visit e2 k0. inversion V; subst.
    destruct (ok_bin _ _ _ O) as (O1 & O2 & C).
    apply Forall_app. destruct f; cbn [picks] in P; bools; split; eauto.
  - cbn [visit ok] in *. step_visit e k. inversion V; subst. simpl in P. eauto.
  - cbn [visit ok] in *. bools. step_visit e1 k. rewrite (plain_visit _ _ H0) in V.
    inversion V; subst. rewrite app_nil_r.
    eapply IHe1; eauto. destruct f; cbn [picks] in P; bools; auto.
  - cbn [visit ok] in *. bools. step_visit e1 k. rewrite (plain_visit _ _ H0) in V.
    inversion V; subst. rewrite app_nil_r.
    eapply IHe1; eauto. destruct f; cbn [picks] in P; bools; auto.
  - cbn [visit ok] in *. bools. rewrite (plain_visit _ k H1) in V. step_visit e1 k.
    rewrite (plain_visit _ _ H0) in V. inversion V; subst. rewrite app_nil_r. simpl.
    eapply IHe1; eauto. destruct f; cbn [picks] in P; bools; auto.
  - cbn [visit ok] in *. step_visit e k. inversion V; subst. simpl in P. eauto.
  - cbn [visit ok] in *. step_visit e k. inversion V; subst. apply Forall_app. split.
    + simpl in P. eauto.
    + constructor; [| constructor]. cbn [fit].
      apply fine_done; [eapply visit_ok; eauto | eapply visit_no_early; eauto].
  - destruct (ok_pick _ _ _ O) as (O1 & O2 & O3). rewrite visit_pick in V by auto.
    step_visit e1 (S k). inversion V; subst. apply Forall_app. split.
    + eapply IHe1; eauto. destruct f; cbn [picks] in P; bools; auto.
    + constructor; [| constructor]. cbn [fit fit_block fit_rest plain].
      rewrite (fine_done f a (visit_ok _ _ _ _ _ O1 E) (visit_no_early _ _ _ _ _ O1 E)).
      rewrite (fine_plain f e2 O2), (fine_plain f _ O3).
      destruct f; auto. cbn [picks] in P. bools.
      rewrite (visit_no_late _ _ _ _ _ O1 H E). reflexivity.
  - cbn [visit ok] in *. step_visit e k. inversion V; subst. simpl in P. eauto.
  - cbn [visit ok] in *. bools. step_visit e k. inversion V; subst. simpl in P. eauto.
Qed.

(* ------------------------------------------------------------------ numbers of temporaries *)

Scheme stmt_mut := Induction for stmt Sort Prop
  with block_mut := Induction for block Sort Prop
  with sections_mut := Induction for sections Sort Prop.

Combined Scheme stmt_all from stmt_mut, block_mut, sections_mut.

Lemma inside_le_all : forall K K', K <= K' ->
  (forall c, inside K c -> inside K' c) /\
    (forall b, inside_block K b -> inside_block K' b) /\
    (forall x, inside_sections K x -> inside_sections K' x).
Proof.
  intros K K' L. apply stmt_all; simpl; intuition eauto using below_le.
Qed.

Lemma inside_le : forall K K' c, K <= K' -> inside K c -> inside K' c.
Proof. intros K K' c L. apply (inside_le_all K K' L). Qed.

Lemma inside_block_le : forall K K' c, K <= K' -> inside_block K c -> inside_block K' c.
Proof. intros K K' c L. apply (inside_le_all K K' L). Qed.

Lemma inside_sections_le : forall K K' c,
  K <= K' -> inside_sections K c -> inside_sections K' c.
Proof. intros K K' c L. apply (inside_le_all K K' L). Qed.

Definition all_inside (K : nat) (p : list stmt) : Prop := Forall (inside K) p.

Lemma all_inside_le : forall K K' p, K <= K' -> all_inside K p -> all_inside K' p.
Proof.
  intros K K' p L H. eapply Forall_impl; [| exact H].
  intros c. now apply inside_le.
Qed.

Lemma hoist_inside : forall e k p e' k',
  hoist e k p e' k' -> below k e -> all_inside k' p.
Proof.
  unfold all_inside. intros e k p e' k' H; induction H; intros B; simpl in B; auto.
  - destruct B as [B1 B2]. pose proof (hoist_le _ _ _ _ _ H).
    pose proof (hoist_le _ _ _ _ _ H0). apply Forall_app. split.
    + eapply all_inside_le; [eassumption |]. now apply IHhoist1.
    + apply IHhoist2. eapply below_le; eauto.
  - now apply IHhoist.
  - now apply IHhoist.
  - now apply IHhoist.
  - apply Forall_app. split.
    + eapply all_inside_le; [| now apply IHhoist]. lia.
    + constructor; [| constructor]. simpl. eapply below_le; [| eapply hoist_below; eauto]. lia.
  - apply Forall_app. split.
    + eapply all_inside_le; [| now apply IHhoist]. lia.
    + constructor; [| constructor]. simpl. eapply below_le; [| eapply hoist_below; eauto]. lia.
  - apply Forall_app. split.
    + eapply all_inside_le; [| now apply IHhoist]. lia.
    + constructor; [| constructor]. simpl. eapply below_le; [| eapply hoist_below; eauto]. lia.
  - destruct B as (B1 & B2 & B3). pose proof (hoist_le _ _ _ _ _ H).
    assert (B1' : below (S k) c) by (eapply below_le; [| exact B1]; lia).
    apply Forall_app. split; [now apply IHhoist |].
    constructor; [| constructor]. simpl. repeat split.
    + eapply hoist_below; eauto.
    + eapply below_le; [| exact B2]; lia.
    + apply below_strip. eapply below_le; [| exact B3]; lia.
Qed.

(* ------------------------------------------------------------------ the semantic stage *)

Definition lit (r : sections) : list stmt :=
  match r with Section (Lit true) b _ => flatten b | _ => [If r] end.

Lemma tsections_trans : forall K x r, tsections K x r -> trans K (If x) (lit r).
Proof.
  intros K x r H; induction H.
  - constructor.
  - unfold lit. destruct c as [| [] | | | | | | | | | | | |];
      try (change [If (Section ?c b' rest')] with ([] ++ [If (Section c b' rest')]);
           eapply T_if; eauto; constructor; fail).
    all: try match goal with |- trans _ _ [If (Section ?c ?b ?r)] =>
      change [If (Section c b r)] with ([] ++ [If (Section c b r)]) end.
    all: try (eapply T_if; [apply le_n | eauto | apply H_same | eauto | eauto]; fail).
    change (flatten b') with ([] ++ flatten b').
    eapply T_true; [apply le_n | eauto | apply H_same | reflexivity | eauto].
  - change (lit rest') with ([] ++ lit rest').
    eapply T_false; [apply le_n | eauto | apply H_same | eauto | eauto].
  - unfold lit. change (flatten b') with ([] ++ flatten b').
    eapply T_true; [apply le_n | eauto | apply H_same | eauto | eauto].
Qed.

Lemma all_fit_flatten : forall f b, fit_block f true b = true -> all_fit f (flatten b).
Proof.
  unfold all_fit. intros f b; induction b; cbn [fit_block flatten]; intros H; bools;
    constructor; auto.
Qed.

Lemma all_inside_flatten : forall K b, inside_block K b -> all_inside K (flatten b).
Proof.
  unfold all_inside. intros K b; induction b; cbn [inside_block flatten]; intros H;
    constructor; intuition.
Qed.

Lemma fit_rest_head : forall f r, fit_rest f true r = true -> fit f true (If r) = true.
Proof.
  intros f [| c b rest] H; [reflexivity |]. cbn [fit_rest] in H. bools.
  cbn [fit]. rewrite fine_plain, H1, H0 by auto. rewrite (plain_no_late c) by auto.
  destruct f; reflexivity.
Qed.

Lemma all_fit_lit : forall f r, fit_rest f true r = true -> all_fit f (lit r).
Proof.
  intros f r H.
  assert (G : all_fit f [If r])
    by (constructor; [now apply fit_rest_head | constructor]).
  destruct r as [| c b rest]; [exact G |]. unfold lit.
  destruct c as [| [] | | | | | | | | | | | |]; try exact G.
  apply all_fit_flatten. cbn [fit_rest] in H. bools. auto.
Qed.

Lemma all_inside_lit : forall K r, inside_sections K r -> all_inside K (lit r).
Proof.
  intros K r H.
  assert (G : all_inside K [If r]) by (constructor; [exact H | constructor]).
  destruct r as [| c b rest]; [exact G |]. unfold lit.
  destruct c as [| [] | | | | | | | | | | | |]; try exact G.
  apply all_inside_flatten. simpl in H. intuition.
Qed.

Lemma fit_put : forall f p b, all_fit f p -> fit_block f true b = true ->
  fit_block f true (put p b) = true.
Proof.
  intros f p b H F. induction H; simpl; auto. now rewrite H, IHForall.
Qed.

Lemma inside_put : forall K p b, all_inside K p -> inside_block K b ->
  inside_block K (put p b).
Proof. intros K p b H F. induction H; simpl; auto. Qed.

Ltac unfine H :=
  unfold fine in H; rewrite ?andb_true_r in H;
  let O := fresh "O" in let P := fresh "P" in
  apply andb_true_iff in H; destruct H as [O P].

Lemma visit_rhs_all : forall (f : bool) e k p e' k',
  ok e = true -> (if f then picks e else true) = true -> visit_rhs e k = (p, e', k') ->
  hoist e k p e' k' /\ ok e' = true /\ no_early e' = true /\ all_fit f p.
Proof.
  intros f e k p e' k' O P V.
  destruct (match e with Early _ => true | _ => false end) eqn:M.
  - destruct e; try discriminate. cbn [visit_rhs ok picks] in *.
    split; [apply H_early_out; now apply visit_hoist |].
    split; [eapply visit_ok; eauto |]. split; [eapply visit_no_early; eauto |].
    eapply visit_fit; [exact O | exact P | exact V].
  - assert (V' : visit e k = (p, e', k')) by (destruct e; try discriminate; exact V).
    split; [now apply visit_hoist |].
    split; [eapply visit_ok; eauto |]. split; [eapply visit_no_early; eauto |].
    eapply visit_fit; [exact O | exact P | exact V'].
Qed.

Definition visited (f : bool) (K : nat) (c : stmt) : Prop :=
  forall k p q k', K <= k -> fit f false c = true -> inside K c ->
    visit_stmt c k = (p, q, k') ->
    k <= k' /\ trans K c (p ++ q) /\ all_fit f (p ++ q) /\ all_inside k' (p ++ q).

Definition visited_block (f : bool) (K : nat) (b : block) : Prop :=
  forall k b' k', K <= k -> fit_block f false b = true -> inside_block K b ->
    visit_block b k = (b', k') ->
    k <= k' /\ tblock K b b' /\ fit_block f true b' = true /\ inside_block k' b'.

Definition visited_rest (f : bool) (K : nat) (x : sections) : Prop :=
  forall k p x' k', K <= k -> fit_rest f false x = true -> inside_sections K x ->
    visit_sections x k = (p, x', k') ->
    k <= k' /\ p = [] /\ tsections K x x' /\ fit_rest f true x' = true /\
    inside_sections k' x'.

Lemma one_put : forall f v e', ok e' = true -> no_early e' = true ->
  all_fit f [Put v e'].
Proof.
  intros. constructor; [| constructor]. cbn [fit]. now apply fine_done.
Qed.

Lemma visit_all : forall f K,
  (forall c, visited f K c) /\ (forall b, visited_block f K b) /\
    (forall x, visited_rest f K x /\
    match x with Nothing => True | Section _ b r => visited_block f K b /\
    visited_rest f K r end).
Proof.
  intros f K. apply stmt_all.
  - intros v e k p q k' L F N V. cbn [fit visit_stmt inside] in *.
    destruct (visit_rhs e k) as [[p1 e1] k1] eqn:E. inversion V; subst.
    unfine F. destruct (visit_rhs_all _ _ _ _ _ _ O P E) as (H & O1 & N1 & F1).
    pose proof (hoist_le _ _ _ _ _ H) as L1.
    assert (B : below k e) by (eapply below_le; eauto).
    split; [exact L1 |]. split; [eapply T_put; eauto |]. split.
    + apply Forall_app. split; [exact F1 | now apply one_put].
    + apply Forall_app. split; [eapply hoist_inside; eauto |].
      constructor; [| constructor]. simpl. eapply hoist_below; eauto.
  - intros e k p q k' L F N V. cbn [fit visit_stmt inside] in *.
    step_visit e k. inversion V; subst.
    unfine F. pose proof (visit_hoist _ _ _ _ _ O E) as H.
    pose proof (hoist_le _ _ _ _ _ H) as L1.
    assert (B : below k e) by (eapply below_le; eauto).
    split; [exact L1 |]. split; [eapply T_do; eauto |]. split.
    + apply Forall_app. split; [eapply visit_fit; [exact O | exact P | exact E] |].
      constructor; [| constructor]. cbn [fit].
      apply fine_done; [eapply visit_ok; eauto | eapply visit_no_early; eauto].
    + apply Forall_app. split; [eapply hoist_inside; eauto |].
      constructor; [| constructor]. simpl. eapply hoist_below; eauto.
  - intros x [_ IH] k p q k' L F N V. destruct x as [| e b rest].
    + cbn in V. inversion V; subst. split; [lia |]. split; [constructor |].
      split; constructor; try constructor; reflexivity.
    + destruct IH as [IHb IHr]. cbn [fit inside inside_sections] in F, N.
      destruct N as (N1 & N2 & N3). bools. unfine H.
      cbn [visit_stmt visit_sections] in V. step_visit e k.
      pose proof (visit_hoist _ _ _ _ _ O E) as He.
      pose proof (hoist_le _ _ _ _ _ He) as L1.
      assert (B : below k e) by (eapply below_le; eauto).
      pose proof (visit_ok _ _ _ _ _ O E) as O'.
      pose proof (visit_no_early _ _ _ _ _ O E) as N'.
      pose proof (visit_fit f _ _ _ _ _ O P E) as Fp.
      pose proof (hoist_inside _ _ _ _ _ He B) as Ip.
      destruct (known a) as [[] |] eqn:Kn.
      * destruct (visit_block b k0) as [b1 k1] eqn:Eb. inversion V; subst.
        destruct (IHb k0 b1 k') as (L2 & T & Fb & Ib); auto; [lia |].
        split; [lia |]. split; [eapply T_true; eauto |]. split; apply Forall_app; split; auto.
        -- now apply all_fit_flatten.
        -- eapply all_inside_le; eauto.
        -- now apply all_inside_flatten.
      * destruct (visit_sections rest k0) as [[p2 r] k2] eqn:Er. inversion V; subst.
        destruct (IHr k0 p2 r k') as (L2 & -> & T & Fr & Ir); auto; [lia |].
        rewrite app_nil_r.
        change (match r with Section (Lit true) b0 _ => flatten b0 | _ => [If r] end)
          with (lit r).
        split; [lia |]. split; [eapply T_false; eauto using tsections_trans |].
        split; apply Forall_app; split; auto.
        -- now apply all_fit_lit.
        -- eapply all_inside_le; eauto.
        -- now apply all_inside_lit.
      * destruct (visit_block b k0) as [b1 k1] eqn:Eb.
        destruct (visit_sections rest k1) as [[p2 r] k2] eqn:Er.
        destruct (IHb k0 b1 k1) as (L2 & T & Fb & Ib); auto; [lia |].
        destruct (IHr k1 p2 r k2) as (L3 & -> & Tr & Fr & Ir); auto; [lia |].
        assert (Eq : q = [If (Section a b1 r)]).
        { inversion V; subst. destruct a as [| [] | | | | | | | | | | | |]; try reflexivity.
          discriminate. }
        rewrite app_nil_r in V. injection V as Vp Vq Vk. clear Vq. subst q p k'.
        split; [lia |]. split; [eapply T_if; eauto |]. split; apply Forall_app; split; auto.
        -- constructor; [| constructor]. cbn [fit]. rewrite (fine_done f a O' N'), Fb, Fr.
           destruct f; auto.
           rewrite (visit_no_late _ _ _ _ _ O H2 E). reflexivity.
        -- eapply all_inside_le; [| exact Ip]. lia.
        -- constructor; [| constructor]. cbn [inside inside_sections]. split; [| split; auto].
           ++ eapply below_le; [| eapply hoist_below; eauto]. lia.
           ++ eapply inside_block_le; [| exact Ib]. lia.
  - intros e b IHb k p q k' L F N V. cbn [fit visit_stmt inside] in *. bools.
    destruct N as [N1 N2]. rewrite (plain_visit _ _ H) in V.
    destruct (visit_block b k) as [b1 k1] eqn:Eb. inversion V; subst.
    destruct (IHb k b1 k') as (L2 & T & Fb & Ib); auto.
    split; [lia |]. cbn [app]. split; [constructor; auto |].
    split; (constructor; [| constructor]).
    + cbn [fit]. now rewrite H, Fb.
    + cbn [inside]. split; auto. eapply below_le; [| exact N1]. lia.
  - intros v e b IHb k p q k' L F N V. cbn [fit visit_stmt inside] in *. bools. unfine H.
    destruct N as [N1 N2]. step_visit e k.
    destruct (visit_block b k0) as [b1 k1] eqn:Eb. inversion V; subst.
    pose proof (visit_hoist _ _ _ _ _ O E) as He.
    pose proof (hoist_le _ _ _ _ _ He) as L1.
    assert (B : below k e) by (eapply below_le; eauto).
    destruct (IHb k0 b1 k') as (L2 & T & Fb & Ib); auto; [lia |].
    split; [lia |]. split; [eapply T_for; eauto |]. split; apply Forall_app; split; auto.
    + eapply visit_fit; [exact O | exact P | exact E].
    + constructor; [| constructor]. cbn [fit].
      rewrite (fine_done f a (visit_ok _ _ _ _ _ O E) (visit_no_early _ _ _ _ _ O E)), Fb.
      destruct f; auto. rewrite (visit_no_late _ _ _ _ _ O H1 E). reflexivity.
    + eapply all_inside_le; [| eapply hoist_inside; eauto]. lia.
    + constructor; [| constructor]. cbn [inside]. split; auto.
      eapply below_le; [| eapply hoist_below; eauto]. lia.
  - intros k p q k' L F N V. inversion V; subst. split; [lia |].
    split; [constructor |]. split; constructor; try constructor; reflexivity.
  - intros k p q k' L F N V. inversion V; subst. split; [lia |].
    split; [constructor |]. split; constructor; try constructor; reflexivity.
  - intros k p q k' L F N V. inversion V; subst. split; [lia |].
    split; [constructor |]. split; constructor; try constructor; reflexivity.
  - intros k b' k' L F N V. inversion V; subst. split; [lia |]. repeat constructor.
  - intros c IHc b IHb k b' k' L F N V. cbn [fit_block visit_block inside_block] in *. bools.
    destruct N as [N1 N2].
    destruct (visit_stmt c k) as [[p q] k1] eqn:Ec.
    destruct (visit_block b k1) as [b1 k2] eqn:Eb. inversion V; subst.
    destruct (IHc k p q k1) as (L1 & T & Fc & Ic); auto.
    destruct (IHb k1 b1 k') as (L2 & Tb & Fb & Ib); auto; [lia |].
    rewrite <- put_app. split; [lia |]. split; [now constructor |]. split.
    + now apply fit_put.
    + apply inside_put; auto. eapply all_inside_le; [| exact Ic]. lia.
  - split; [| exact Logic.I]. intros k p x' k' L F N V. inversion V; subst.
    split; [lia |]. repeat constructor.
  - intros e b IHb rest [IHr _]. split; [| auto].
    intros k p x' k' L F N V. cbn [fit_rest inside_sections] in F, N. bools.
    destruct N as (N1 & N2 & N3). cbn [visit_sections] in V.
    rewrite (plain_visit _ _ H) in V.
    destruct (known e) as [[] |] eqn:Kn.
    + destruct (visit_block b k) as [b1 k1] eqn:Eb. inversion V; subst.
      destruct (IHb k b1 k') as (L2 & T & Fb & Ib); auto.
      split; [lia |]. split; [reflexivity |]. split; [now apply T_last |].
      cbn [fit_rest inside_sections plain below]. rewrite Fb. auto.
    + destruct (visit_sections rest k) as [[p2 r] k2] eqn:Er. inversion V; subst.
      destruct (IHr k p x' k') as (L2 & -> & T & Fr & Ir); auto.
      split; [lia |]. split; [reflexivity |]. split; [now apply T_skip |]. auto.
    + destruct (visit_block b k) as [b1 k1] eqn:Eb.
      destruct (visit_sections rest k1) as [[p2 r] k2] eqn:Er. inversion V; subst.
      destruct (IHb k b1 k1) as (L2 & T & Fb & Ib); auto.
      destruct (IHr k1 p r k') as (L3 & -> & Tr & Fr & Ir); auto; [lia |].
      split; [lia |]. split; [reflexivity |]. split; [now apply T_section |].
      cbn [fit_rest inside_sections]. rewrite H, Fb, Fr. split; auto.
      split; [eapply below_le; [| exact N1]; lia |].
      split; auto. eapply inside_block_le; [| exact Ib]. lia.
Qed.

(* ------------------------------------------------------------------ the printers *)

Ltac step_print e w k :=
  let p := fresh "w" in let a := fresh "a" in let k' := fresh "k" in
  let E := fresh "E" in destruct (print e w k) as [[p a] k'] eqn:E.

Lemma print_hoist : forall e w k w' e' k',
  ok e = true -> no_early e = true -> print e w k = (w', e', k') ->
  exists p, w' = w ++ p /\ hoist e k p e' k' /\
    (settled e (Num 0) = true -> firm e' = true).
Proof.
  induction e; intros w k w' e' k' O N V; cbn [no_early] in N; bools; try discriminate.
  - cbn [print] in V. inversion V; subst. exists []. rewrite app_nil_r. repeat constructor.
  - cbn [print] in V. inversion V; subst. exists []. rewrite app_nil_r. repeat constructor.
  - cbn [print] in V. inversion V; subst. exists []. rewrite app_nil_r.
    split; auto. split; [constructor |]. destruct v; auto.
  - cbn [print] in V. step_print e1 w k. step_print e2 w0 k0. inversion V; subst.
    destruct (ok_bin _ _ _ O) as (O1 & O2 & C).
    destruct (IHe1 _ _ _ _ _ O1 H E) as (p & -> & He1 & S1).
    destruct (IHe2 _ _ _ _ _ O2 H0 E0) as (q & -> & He2 & _).
    exists (p ++ q). rewrite app_assoc. split; auto. split; [| discriminate].
    eapply H_bin; eauto.
    destruct C as [C | [C | C]]; auto.
    + left. rewrite (plain_print _ _ _ C) in E0. inversion E0 as [[Q1 Q2 Q3]].
      apply (app_inv_head (w ++ p)). now rewrite app_nil_r.
    + right; left. apply S1. destruct e1; auto.
  - cbn [print ok] in *. step_print e w k. inversion V; subst.
    destruct (IHe _ _ _ _ _ O N E) as (p & -> & He & _). exists p.
    split; auto. split; [now constructor | discriminate].
  - cbn [print ok] in *. bools. step_print e1 w k. rewrite (plain_print _ _ _ H2) in V.
    inversion V; subst.
    destruct (IHe1 _ _ _ _ _ H1 H E) as (p & -> & He & _). exists p.
    split; auto. split; [now constructor | discriminate].
  - cbn [print ok] in *. bools. step_print e1 w k. rewrite (plain_print _ _ _ H2) in V.
    inversion V; subst.
    destruct (IHe1 _ _ _ _ _ H1 H E) as (p & -> & He & _). exists p.
    split; auto. split; [now constructor | discriminate].
  - cbn [print ok] in *. bools. step_print e1 w k. rewrite (plain_print _ _ _ H4) in V.
    rewrite (plain_print _ _ _ H3) in V. inversion V; subst.
    destruct (IHe1 _ _ _ _ _ H2 H E) as (p & -> & He & _). exists p.
    split; auto. split; [now constructor | discriminate].
  - cbn [print ok] in *. step_print e w k. inversion V; subst.
    destruct (IHe _ _ _ _ _ O N E) as (p & -> & He & _). exists p.
    split; auto. split; [now constructor | discriminate].
  - cbn [print] in V. inversion V; subst. exists []. rewrite app_nil_r.
    split; auto. split; [constructor | discriminate].
  - cbn [print ok] in *. step_print e w k. inversion V; subst.
    destruct (IHe _ _ _ _ _ O N E) as (p & -> & He & _).
    exists (p ++ [Put (Tmp k0) a]). rewrite app_assoc. split; auto.
    split; [now apply H_late_tmp | reflexivity].
  - cbn [print ok] in *. bools. rewrite (no_late_print _ w k H0 N) in V. inversion V; subst.
    exists ([] ++ [Put (Tmp k) e]). split; auto.
    split; [apply H_held_tmp; constructor | reflexivity].
Qed.

Lemma fine_facts : forall f e, fine f true e = true -> ok e = true /\ no_early e = true.
Proof. intros f e H. unfold fine in H. bools. auto. Qed.

Lemma print_nil : forall f e k w e' k',
  fine f true e = true -> print e [] k = (w, e', k') -> hoist e k w e' k'.
Proof.
  intros f e k w e' k' F V. apply fine_facts in F. destruct F as [O N].
  destruct (print_hoist _ _ _ _ _ _ O N V) as (p & -> & H & _). exact H.
Qed.

Definition printed (f : bool) (K : nat) (c : stmt) : Prop :=
  forall k w q k', K <= k -> fit f true c = true -> inside K c ->
    c_stmt c k = (w, q, k') -> k <= k' /\ trans K c (w ++ q).

Definition printed_block (f : bool) (K : nat) (b : block) : Prop :=
  forall k b' k', K <= k -> fit_block f true b = true -> inside_block K b ->
    c_block b k = (b', k') -> k <= k' /\ tblock K b b'.

Definition printed_rest (f : bool) (K : nat) (x : sections) : Prop :=
  forall k w x' k', K <= k -> fit_rest f true x = true -> inside_sections K x ->
    c_sections x k = (w, x', k') -> k <= k' /\ w = [] /\ tsections K x x'.

Lemma c_if : forall x k,
  c_stmt (If x) k =
  match x with
  | Section (Lit true) b Nothing => let '(b', k1) := c_block b k in ([], flatten b', k1)
  | _ => let '(w, x', k1) := c_sections x k in ([], w ++ [If x'], k1)
  end.
Proof. reflexivity. Qed.

Lemma c_all : forall f K,
  (forall c, printed f K c) /\ (forall b, printed_block f K b) /\
  (forall x, printed_rest f K x /\
             match x with Nothing => True | Section _ b r => printed_block f K b /\
               printed_rest f K r end).
Proof.
  intros f K. apply stmt_all.
  - intros v e k w q k' L F N V. cbn [fit c_stmt inside] in *.
    step_print e (@nil stmt) k. inversion V; subst.
    pose proof (print_nil _ _ _ _ _ _ F E) as H. pose proof (hoist_le _ _ _ _ _ H).
    split; auto. eapply T_put; eauto.
  - intros e k w q k' L F N V. cbn [fit c_stmt inside] in *.
    step_print e (@nil stmt) k. inversion V; subst.
    pose proof (print_nil _ _ _ _ _ _ F E) as H. pose proof (hoist_le _ _ _ _ _ H).
    split; auto. eapply T_do; eauto.
  - intros x [_ IH] k w q k' L F N V. assert (V0 := V). rewrite c_if in V.
    destruct x as [| e b rest].
    + cbn in V. inversion V; subst. split; [lia | constructor].
    + destruct IH as [IHb IHr]. cbn [fit inside inside_sections] in F, N.
      destruct N as (N1 & N2 & N3). bools.
      assert (D : (e = Lit true /\ rest = Nothing) \/
                  c_stmt (If (Section e b rest)) k =
                  let '(w, x', k1) := c_sections (Section e b rest) k in
                  ([], w ++ [If x'], k1)).
      { rewrite c_if. destruct e as [| [] | | | | | | | | | | | |]; auto.
        destruct rest; auto. }
      destruct D as [[-> ->] | D].
      * destruct (c_block b k) as [b1 k1] eqn:Eb. inversion V; subst.
        destruct (IHb k b1 k') as (L1 & T); auto.
        split; auto. change ([] ++ flatten b1) with ([] ++ flatten b1).
        eapply T_true; [apply le_n | auto | apply H_same | reflexivity | auto].
      * clear V. rename V0 into V. rewrite D in V. clear D.
        cbn [c_sections] in V.
        destruct (c_block b k) as [b1 k1] eqn:Eb.
        step_print e (@nil stmt) k1.
        destruct (c_sections rest k0) as [[w2 r] k2] eqn:Er.
        pose proof (print_nil _ _ _ _ _ _ H E) as He. pose proof (hoist_le _ _ _ _ _ He).
        destruct (IHb k b1 k1) as (L1 & T); auto.
        destruct (IHr k0 w2 r k2) as (L2 & -> & Tr); auto; [lia |].
        inversion V; subst. rewrite app_nil_r. split; [lia |].
        eapply T_if; [| auto | exact He | auto | auto]. lia.
  - intros e b IHb k w q k' L F N V. cbn [fit c_stmt inside] in *. bools.
    destruct N as [N1 N2]. destruct (c_block b k) as [b1 k1] eqn:Eb.
    rewrite (plain_print _ _ _ H) in V. inversion V; subst.
    destruct (IHb k b1 k') as (L1 & T); auto. split; auto. now constructor.
  - intros v e b IHb k w q k' L F N V. cbn [fit c_stmt inside] in *. bools.
    destruct N as [N1 N2]. step_print e (@nil stmt) k.
    destruct (c_block b k0) as [b1 k1] eqn:Eb. inversion V; subst.
    pose proof (print_nil _ _ _ _ _ _ H E) as He. pose proof (hoist_le _ _ _ _ _ He).
    destruct (IHb k0 b1 k') as (L1 & T); auto; [lia |].
    split; [lia |]. eapply T_for; eauto.
  - intros k w q k' L F N V. inversion V; subst. split; [lia | constructor].
  - intros k w q k' L F N V. inversion V; subst. split; [lia | constructor].
  - intros k w q k' L F N V. inversion V; subst. split; [lia | constructor].
  - intros k b' k' L F N V. inversion V; subst. split; [lia | constructor].
  - intros c IHc b IHb k b' k' L F N V. cbn [fit_block c_block inside_block] in *. bools.
    destruct N as [N1 N2].
    destruct (c_stmt c k) as [[w q] k1] eqn:Ec.
    destruct (c_block b k1) as [b1 k2] eqn:Eb. inversion V; subst.
    destruct (IHc k w q k1) as (L1 & T); auto.
    destruct (IHb k1 b1 k') as (L2 & Tb); auto; [lia |].
    rewrite <- put_app. split; [lia | now constructor].
  - split; [| exact Logic.I]. intros k w x' k' L F N V. inversion V; subst.
    split; [lia |]. split; auto. constructor.
  - intros e b IHb rest [IHr _]. split; [| auto].
    intros k w x' k' L F N V. cbn [fit_rest inside_sections] in F, N. bools.
    destruct N as (N1 & N2 & N3). cbn [c_sections] in V.
    destruct (c_block b k) as [b1 k1] eqn:Eb.
    rewrite (plain_print _ _ _ H) in V.
    destruct (c_sections rest k1) as [[w2 r] k2] eqn:Er.
    destruct (IHb k b1 k1) as (L1 & T); auto.
    destruct (IHr k1 w2 r k2) as (L2 & -> & Tr); auto; [lia |].
    inversion V; subst. split; [lia |]. split; auto. now apply T_section.
Qed.

Definition written (K : nat) (c : stmt) : Prop :=
  forall k w q k', K <= k -> fit true true c = true -> inside K c ->
    f_stmt c [] k = (w, q, k') -> k <= k' /\ trans K c (w ++ q).

Definition written_block (K : nat) (b : block) : Prop :=
  forall k w b' k', K <= k -> fit_block true true b = true -> inside_block K b ->
    f_block b [] k = (w, b', k') -> k <= k' /\ w = [] /\ tblock K b b'.

Definition written_rest (K : nat) (x : sections) : Prop :=
  forall k w x' k', K <= k -> fit_rest true true x = true -> inside_sections K x ->
    f_sections x [] k = (w, x', k') -> k <= k' /\ w = [] /\ tsections K x x'.

Lemma f_all : forall K,
  (forall c, written K c) /\ (forall b, written_block K b) /\
  (forall x, written_rest K x /\
             match x with Nothing => True | Section _ b r => written_block K b /\
               written_rest K r end).
Proof.
  intros K. apply stmt_all.
  - intros v e k w q k' L F N V. cbn [fit f_stmt inside] in *.
    assert (H : exists e1, hoist e k w e1 k' /\ q = [Put v e1]).
    { destruct (match e with Late _ => true | _ => false end) eqn:M.
      - destruct e; try discriminate.
        step_print e (@nil stmt) k. inversion V; subst. exists a.
        split; auto. apply H_late_out.
        apply fine_facts in F. destruct F as [O Ne]. cbn [ok no_early] in O, Ne.
        destruct (print_hoist _ _ _ _ _ _ O Ne E) as (p & -> & H & _). exact H.
      - assert (V' : (let '(w1, e', k1) := print e [] k in (w1, [Put v e'], k1)) = (w, q, k'))
          by (destruct e; try discriminate; exact V).
        step_print e (@nil stmt) k. inversion V'; subst. exists a. split; auto.
        eapply print_nil; eauto. }
    destruct H as (e1 & H & ->). pose proof (hoist_le _ _ _ _ _ H).
    split; auto. eapply T_put; eauto.
  - intros e k w q k' L F N V. cbn [fit f_stmt inside] in *.
    step_print e (@nil stmt) k. inversion V; subst.
    pose proof (print_nil _ _ _ _ _ _ F E) as H. pose proof (hoist_le _ _ _ _ _ H).
    split; auto. eapply T_do; eauto.
  - intros x [_ IH] k w q k' L F N V. destruct x as [| e b rest].
    + cbn in V. inversion V; subst. split; [lia | constructor].
    + destruct IH as [IHb IHr]. cbn [fit inside inside_sections] in F, N.
      destruct N as (N1 & N2 & N3). bools.
      apply fine_facts in H. destruct H as [O Ne].
      cbn [f_stmt f_sections] in V. rewrite (no_late_print _ _ _ H2 Ne) in V.
      destruct (f_block b [] k) as [[w1 b1] k1] eqn:Eb.
      destruct (IHb k w1 b1 k1) as (L1 & -> & T); auto.
      destruct (f_sections rest [] k1) as [[w2 r] k2] eqn:Er.
      destruct (IHr k1 w2 r k2) as (L2 & -> & Tr); auto; [lia |].
      inversion V; subst. split; [lia |].
      eapply T_if; [apply le_n | auto | apply H_same | auto | auto].
  - intros e b IHb k w q k' L F N V. cbn [fit f_stmt inside] in *. bools.
    destruct N as [N1 N2]. destruct (f_block b [] k) as [[w1 b1] k1] eqn:Eb.
    destruct (IHb k w1 b1 k1) as (L1 & -> & T); auto.
    rewrite (plain_print _ _ _ H) in V. inversion V; subst. split; auto. now constructor.
  - intros v e b IHb k w q k' L F N V. cbn [fit f_stmt inside] in *. bools.
    destruct N as [N1 N2]. apply fine_facts in H. destruct H as [O Ne].
    rewrite (no_late_print _ _ _ H1 Ne) in V.
    destruct (f_block b [] k) as [[w1 b1] k1] eqn:Eb.
    destruct (IHb k w1 b1 k1) as (L1 & -> & T); auto.
    inversion V; subst. split; auto.
    eapply T_for; [apply le_n | auto | apply H_same | auto].
  - intros k w q k' L F N V. inversion V; subst. split; [lia | constructor].
  - intros k w q k' L F N V. inversion V; subst. split; [lia | constructor].
  - intros k w q k' L F N V. inversion V; subst. split; [lia | constructor].
  - intros k w b' k' L F N V. inversion V; subst. split; [lia |]. split; [auto | constructor].
  - intros c IHc b IHb k w b' k' L F N V. cbn [fit_block f_block inside_block] in *. bools.
    destruct N as [N1 N2].
    destruct (f_stmt c [] k) as [[w1 q] k1] eqn:Ec.
    destruct (f_block b [] k1) as [[w2 b1] k2] eqn:Eb.
    destruct (IHc k w1 q k1) as (L1 & T); auto.
    destruct (IHb k1 w2 b1 k2) as (L2 & -> & Tb); auto; [lia |].
    inversion V; subst. rewrite <- put_app. split; [lia |]. split; [auto | now constructor].
  - split; [| exact Logic.I]. intros k w x' k' L F N V. inversion V; subst.
    split; [lia |]. split; auto. constructor.
  - intros e b IHb rest [IHr _]. split; [| auto].
    intros k w x' k' L F N V. cbn [fit_rest inside_sections] in F, N. bools.
    destruct N as (N1 & N2 & N3). cbn [f_sections] in V.
    rewrite (plain_print _ _ _ H) in V.
    destruct (f_block b [] k) as [[w1 b1] k1] eqn:Eb.
    destruct (IHb k w1 b1 k1) as (L1 & -> & T); auto.
    destruct (f_sections rest [] k1) as [[w2 r] k2] eqn:Er.
    destruct (IHr k1 w2 r k2) as (L2 & -> & Tr); auto; [lia |].
    inversion V; subst. split; [lia |]. split; auto. now apply T_section.
Qed.

(* ------------------------------------------------------------------ the syntactic stage *)

Scheme pstmt_mut := Induction for pstmt Sort Prop
  with pblock_mut := Induction for pblock Sort Prop.

Combined Scheme pstmt_all from pstmt_mut, pblock_mut.

Definition single (b : pblock) : option pstmt :=
  match b with PCons c PNil => Some c | _ => None end.

Definition else_of (b2 : pblock) : sections :=
  match b2 with
  | PNil => Nothing
  | PCons c2 PNil =>
      match parse c2 with
      | [If x] => x
      | p => Section (Lit true) (put p Nil) Nothing
      end
  | _ => Section (Lit true) (parse_block b2) Nothing
  end.

Lemma parse_if : forall e b1 b2,
  parse (PIf e b1 b2) = [If (Section e (parse_block b1) (else_of b2))].
Proof. reflexivity. Qed.

Lemma else_cases : forall b2,
  (b2 = PNil /\ else_of b2 = Nothing) \/
  (exists c2 x, b2 = PCons c2 PNil /\ parse c2 = [If x] /\ else_of b2 = x) \/
  (else_of b2 = Section (Lit true) (parse_block b2) Nothing /\
   forall c2, b2 = PCons c2 PNil ->
     match c2 with PIf _ _ _ => false | _ => true end = true).
Proof.
  intros [| c2 [| c3 b]]; auto.
  2: { right; right. split; [reflexivity | intros c4 H; discriminate]. }
  unfold else_of.
  destruct (match parse c2 with [If _] => true | _ => false end) eqn:M.
  - right; left. destruct (parse c2) as [| [] [|]] eqn:P; try discriminate.
    exists c2, s. auto.
  - right; right. cbn [parse_block]. split.
    + destruct (parse c2) as [| [] [|]] eqn:P; try discriminate; reflexivity.
    + intros c4 H. inversion H; subst c4. destruct c2; try reflexivity. discriminate.
Qed.

Lemma else_meaning : forall n b2 s,
  exec_sections n (else_of b2) s = exec_block n (parse_block b2) s.
Proof.
  intros n b2 s. destruct (else_cases b2) as [[-> ->] | [(c2 & x & -> & P & ->) | [-> _]]].
  - reflexivity.
  - cbn [parse_block]. rewrite P. cbn [put]. rewrite exec_cons. cbn [exec exec_block].
    destruct (exec_sections n x s) as [[| | |] s1 | |]; reflexivity.
  - cbn [exec_sections eval]. change (truth (of_bool true)) with true. reflexivity.
Qed.

Lemma loop_ext : forall c f g n s, (forall s, f s = g s) -> loop c f n s = loop c g n s.
Proof.
  intros c f g n; induction n as [| n IH]; intros s H; [reflexivity |]. cbn [loop].
  destruct (c s) as [[v s1] |]; auto. destruct (truth v); auto. rewrite (H s1).
  destruct (g s1) as [[| | |] s2 | |]; auto.
Qed.

Lemma count_ext : forall v f g k i s, (forall s, f s = g s) -> count v f k i s = count v g k i s.
Proof.
  intros v f g k; induction k as [| k IH]; intros i s H; [reflexivity |]. cbn [count].
  rewrite (H (store v i s)). destruct (g (store v i s)) as [[| | |] s2 | |]; auto.
Qed.

Lemma otherwise_none : forall r, otherwise (fun s => Done Next s) r = stop r.
Proof. intros [[| | |] s | |]; reflexivity. Qed.

Lemma otherwise_ext : forall f g r, (forall s, f s = g s) -> otherwise f r = otherwise g r.
Proof. intros f g [[| | |] s | |] H; auto. apply H. Qed.

Lemma parse_meaning : forall f n,
  (forall c elif s, safe f elif c = true -> py n c s = run n (parse c) s) /\
  (forall b, (forall s, safe_block f b = true -> py_block n b s = exec_block n (parse_block b) s)
    /\ forall c, single b = Some c ->
         forall elif s, safe f elif c = true -> py n c s = run n (parse c) s).
Proof.
  intros f n. apply pstmt_all.
  - intros x e elif s S. cbn [parse]. rewrite run_one. reflexivity.
  - intros e elif s S. cbn [parse]. rewrite run_one. reflexivity.
  - intros e b1 [IH1 _] b2 [IH2 IH2'] elif s S. rewrite parse_if, run_one.
    cbn [safe py exec exec_sections] in *. bools.
    destruct (eval e s) as [[z s1] |]; auto. destruct (truth z); auto.
    rewrite else_meaning.
    destruct (single b2) as [c2 |] eqn:Sg.
    + destruct b2 as [| c3 [|]]; try discriminate. inversion Sg; subst c3.
      cbn [py_block parse_block]. rewrite (IH2' c2 eq_refl true s1 H0).
      unfold run. destruct (exec_block n (put (parse c2) Nil) s1) as [[| | |] s2 | |]; auto.
    + apply IH2. destruct b2 as [| c3 [|]]; try discriminate; auto.
  - intros e b1 [IH1 _] b2 _ elif s S. cbn [parse]. rewrite run_one.
    cbn [safe py exec] in *. bools. destruct b2; try discriminate.
    rewrite (otherwise_ext _ (fun s => Done Next s)) by reflexivity.
    rewrite otherwise_none. f_equal. apply loop_ext. auto.
  - intros x e b1 [IH1 _] b2 _ elif s S. cbn [parse]. rewrite run_one.
    cbn [safe py exec] in *. bools. destruct b2; try discriminate.
    destruct (eval e s) as [[z s1] |]; auto.
    rewrite (otherwise_ext _ (fun s => Done Next s)) by reflexivity.
    rewrite otherwise_none. f_equal. apply count_ext. auto.
  - intros elif s S. reflexivity.
  - intros elif s S. reflexivity.
  - intros e elif s S. cbn [parse]. unfold run. cbn [put exec_block exec py].
    destruct (eval e s) as [[z s1] |]; auto.
  - split; [reflexivity | discriminate].
  - intros c IHc b [IHb _]. split.
    + intros s S. cbn [safe_block] in S. bools. cbn [py_block parse_block].
      rewrite exec_put, (IHc false s H).
      destruct (run n (parse c) s) as [[| | |] s1 | |]; auto. now apply IHb.
    + intros c2 Sg elif s S. destruct b; try discriminate. inversion Sg; subst. eauto.
Qed.

Definition all_ready (f : bool) (p : list stmt) : Prop :=
  Forall (fun c => fit f false c = true /\ inside 0 c) p.

Lemma ready_put : forall f p b, all_ready f p ->
  fit_block f false b = true /\ inside_block 0 b ->
  fit_block f false (put p b) = true /\ inside_block 0 (put p b).
Proof.
  intros f p b H [F N]. induction H as [| c p [H1 H2] _ [IH1 IH2]]; auto.
  cbn [put fit_block inside_block]. rewrite H1, IH1. auto.
Qed.

Lemma good_facts : forall f e, good f e = true -> fine f false e = true /\ below 0 e.
Proof.
  intros f e H. unfold good in H. bools. unfold fine. rewrite H1.
  split; [| now apply user_below]. now rewrite H0.
Qed.

(* An elif *)
Definition elif_ready (f : bool) (c : pstmt) : Prop :=
  safe f true c = true -> forall x, parse c = [If x] ->
    fit_rest f false x = true /\ inside_sections 0 x.

Lemma safe_weaken : forall f c,
  safe f true c = true ->
  (match c with PIf _ _ _ => false | _ => true end) = true -> safe f false c = true.
Proof. intros f [] S M; auto; discriminate. Qed.

Lemma parse_ready : forall f,
  (forall c, (safe f false c = true -> all_ready f (parse c)) /\ elif_ready f c) /\
  (forall b, (safe_block f b = true ->
                fit_block f false (parse_block b) = true /\ inside_block 0 (parse_block b))
    /\ forall c, single b = Some c ->
        (safe f false c = true -> all_ready f (parse c)) /\ elif_ready f c).
Proof.
  intros f. unfold all_ready.
  assert (One : forall c, fit f false c = true -> inside 0 c ->
            Forall (fun c => fit f false c = true /\ inside 0 c) [c]).
  { intros. constructor; auto. }
  apply pstmt_all.
  - intros x e. split; [| intros _ y Y; discriminate].
    intros S. cbn [parse safe] in *. apply good_facts in S. destruct S. now apply One.
  - intros e. split; [| intros _ y Y; discriminate].
    intros S. cbn [parse safe] in *. apply good_facts in S. destruct S. now apply One.
  - intros e b1 [IH1 _] b2 [IH2 IH2'].
    assert (Else : (match b2 with PCons c2 PNil => safe f true c2 | _ => safe_block f b2 end)
                   = true ->
              fit_rest f false (else_of b2) = true /\ inside_sections 0 (else_of b2)).
    { intros S.
      destruct (else_cases b2) as [[-> ->] | [(c2 & x & -> & P & ->) | [El NotIf]]].
      - split; [reflexivity | exact Logic.I].
      - destruct (IH2' c2 eq_refl) as [_ E]. now apply E.
      - rewrite El. cbn [fit_rest inside_sections plain below].
        assert (B : fit_block f false (parse_block b2) = true /\ inside_block 0 (parse_block b2)).
        { destruct (single b2) as [c2 |] eqn:Sg.
          - destruct b2 as [| c3 [|]]; try discriminate. inversion Sg; subst c3.
            apply IH2. cbn [safe_block].
            rewrite (safe_weaken _ _ S (NotIf c2 eq_refl)). reflexivity.
          - apply IH2. destruct b2 as [| c3 [|]]; try discriminate; auto. }
        destruct B as [-> B]. auto. }
    split.
    + intros S. cbn [safe] in S. rewrite parse_if. bools.
      unfold head in H. bools. apply good_facts in H. destruct H as [F B].
      destruct (IH1 H1) as [F1 N1]. destruct (Else H0) as [F2 N2].
      apply One.
      * cbn [fit]. now rewrite F, H2, F1, F2.
      * cbn [inside inside_sections]. auto.
    + intros S x P. cbn [safe] in S. rewrite parse_if in P. inversion P; subst x. bools.
      destruct (IH1 H1) as [F1 N1]. destruct (Else H0) as [F2 N2].
      cbn [fit_rest inside_sections]. rewrite H2, F1, F2.
      split; [reflexivity |]. split; [now apply user_below | auto].
  - intros e b1 [IH1 _] b2 _. split; [| intros _ y Y; discriminate].
    intros S. cbn [parse safe] in *. bools. destruct (IH1 H1) as [F1 N1]. apply One.
    + cbn [fit]. now rewrite H2, F1.
    + cbn [inside]. split; [now apply user_below | auto].
  - intros x e b1 [IH1 _] b2 _. split; [| intros _ y Y; discriminate].
    intros S. cbn [parse safe] in *. bools. destruct (IH1 H1) as [F1 N1].
    unfold head in H. bools. apply good_facts in H. destruct H as [F B]. apply One.
    + cbn [fit]. now rewrite F, H2, F1.
    + cbn [inside]. auto.
  - split; [| intros _ y Y; discriminate]. intros S. apply One; [reflexivity | exact Logic.I].
  - split; [| intros _ y Y; discriminate]. intros S. apply One; [reflexivity | exact Logic.I].
  - intros e. split; [| intros _ y Y; discriminate].
    intros S. cbn [parse safe] in *. apply good_facts in S. destruct S.
    constructor; [auto |]. apply One; [reflexivity | exact Logic.I].
  - split; [| discriminate]. intros S. split; [reflexivity | exact Logic.I].
  - intros c IHc b [IHb _]. split.
    + intros S. cbn [safe_block parse_block] in *. bools. apply ready_put; [| now apply IHb].
      now apply IHc.
    + intros c2 Sg. destruct b; try discriminate. inversion Sg; subst. exact IHc.
Qed.

(* ------------------------------------------------------------------ all stages *)

Lemma related_trans : forall K r1 r2 r3,
  related 0 r1 r2 -> related K r2 r3 -> related 0 r1 r3.
Proof.
  intros K [g s | |] [g' t | |] [g'' u | |] H1 H2; simpl in *; try contradiction; auto.
  destruct H1 as [-> [O1 V1]], H2 as [-> [O2 V2]]. split; auto. split; [congruence |].
  intros v L. rewrite V1 by auto. apply V2. eapply lower_le; [| exact L]. lia.
Qed.

Lemma related_alike : forall r r', related 0 r r' -> alike r r'.
Proof.
  intros [g s | |] [g' t | |] H; simpl in *; try contradiction; auto.
  destruct H as [-> [O V]]. split; auto. split; auto. split.
  - intros x. apply V. exact Logic.I.
  - apply V. exact Logic.I.
Qed.

Lemma related_not_fault : forall K r r', related K r r' -> r' <> Fault.
Proof. intros K [g s | |] [g' t | |] H; simpl in H; try contradiction; discriminate. Qed.

Lemma front : forall f b n s,
  safe_block f b = true -> py_block n b s <> Fault ->
  exists b1 k, visit_block (parse_block b) 0 = (b1, k) /\
    fit_block f true b1 = true /\ inside_block k b1 /\
    related 0 (py_block n b s) (exec_block n b1 s).
Proof.
  intros f b n s S F.
  destruct (visit_block (parse_block b) 0) as [b1 k] eqn:V. exists b1, k.
  destruct (proj1 (proj2 (parse_ready f) b) S) as [R1 R2].
  destruct (proj1 (proj2 (visit_all f 0)) _ 0 b1 k (le_n 0) R1 R2 V) as (_ & T & F1 & I1).
  split; auto. split; auto. split; auto.
  rewrite (proj1 (proj2 (parse_meaning f n) b) s S) in *.
  apply tblock_sim; auto. apply agree_refl.
Qed.

Lemma to_c_right : forall b n s,
  safe_block false b = true -> py_block n b s <> Fault ->
  alike (py_block n b s) (exec_block n (to_c b) s).
Proof.
  intros b n s S F.
  destruct (front false b n s S F) as (b1 & k & V & F1 & I1 & R1).
  unfold to_c. rewrite V.
  destruct (c_block b1 k) as [b2 k2] eqn:C. cbn [fst].
  destruct (proj1 (proj2 (c_all false k)) b1 k b2 k2 (le_n k) F1 I1 C) as (_ & T).
  apply related_alike. eapply related_trans; [exact R1 |].
  apply (tblock_sim k n b1 b2 T); [apply agree_refl | eapply related_not_fault; eauto].
Qed.

Lemma to_fortran_right : forall b n s,
  safe_block true b = true -> py_block n b s <> Fault ->
  alike (py_block n b s) (exec_block n (to_fortran b) s).
Proof.
  intros b n s S F.
  destruct (front true b n s S F) as (b1 & k & V & F1 & I1 & R1).
  unfold to_fortran. rewrite V.
  destruct (f_block b1 [] k) as [[w b2] k2] eqn:C.
  destruct (proj1 (proj2 (f_all k)) b1 k w b2 k2 (le_n k) F1 I1 C) as (_ & _ & T).
  apply related_alike. eapply related_trans; [exact R1 |].
  apply (tblock_sim k n b1 b2 T); [apply agree_refl | eapply related_not_fault; eauto].
Qed.
