(** Proofs about pointers to arrays. *)

From Coq Require Import List ZArith Bool Arith Lia.
From Verif Require Import Alias_Model Alias_Spec.
Import ListNotations.

(** ** Scopes *)

Lemma known_refl : forall s, known s s.
Proof. intros s. split; [auto|]. split; apply incl_refl. Qed.

Lemma known_trans : forall a b c, known a b -> known b c -> known a c.
Proof.
  intros a b c (A & B & C) (A' & B' & C'). split; [auto|].
  split; eapply incl_tran; eassumption.
Qed.

Lemma kind_declare : forall s x k y,
  kind_of (declare s x k) y = if x =? y then Some k else kind_of s y.
Proof. intros. unfold kind_of, declare. cbn. destruct (x =? y); reflexivity. Qed.

Lemma mem_In : forall x l, mem x l = true <-> In x l.
Proof.
  intros x l. unfold mem. rewrite existsb_exists. split.
  - intros (y & H & E). apply Nat.eqb_eq in E. subst. exact H.
  - intros H. exists x. split; [exact H|apply Nat.eqb_refl].
Qed.

Lemma pointed_In : forall s x, pointed_at s x = true <-> exists p, In (p, x) (targets s).
Proof.
  intros s x. unfold pointed_at. rewrite existsb_exists. split.
  - intros ([p t] & H & E). cbn in E. apply Nat.eqb_eq in E. subst. exists p. exact H.
  - intros (p & H). exists (p, x). split; [exact H|apply Nat.eqb_refl].
Qed.

Lemma targets_of_In : forall s x t, In t (targets_of s x) <-> In (x, t) (targets s).
Proof.
  intros s x t. unfold targets_of. rewrite in_map_iff. split.
  - intros ([p t'] & E & H). apply filter_In in H. destruct H as [H G]. cbn in *.
    apply Nat.eqb_eq in G. subst. exact H.
  - intros H. exists (x, t). split; [reflexivity|]. apply filter_In. split; [exact H|].
    apply Nat.eqb_refl.
Qed.

(* Marked variables are those which are pointed at. *)
Definition marked (s : scope) : Prop :=
  forall t, In t (is_target s) <-> exists p, In (p, t) (targets s).

Definition good (s : scope) : Prop :=
  marked s /\ forall p t, In (p, t) (targets s) -> kind_of s t <> None.

Lemma indicate_spec : forall s x y s', indicate s x y = Some s' -> x <> y ->
  kinds s' = kinds s /\
  (forall p, In p (targets s) -> In p (targets s')) /\
  (forall p, In p (targets s') -> In p (targets s) \/
     exists t, p = (x, t) /\ (t = y \/ In (y, t) (targets s))) /\
  (kind_of s y <> Some Alias -> In (x, y) (targets s') /\ is_target s' = y :: is_target s) /\
  (kind_of s y = Some Alias -> is_target s' = is_target s /\
     forall p, In p (targets s') -> In p (targets s) \/
       exists t, p = (x, t) /\ In (y, t) (targets s)) /\
  (kind_of s y = Some Alias -> forall t, In (y, t) (targets s) -> In (x, t) (targets s')).
Proof.
  intros s x y s' H N. unfold indicate in H.
  apply Nat.eqb_neq in N. rewrite N in H.
  destruct (kind_of s y) as [[| |]|] eqn:K; try discriminate.
  1, 2: injection H as <-; cbn;
    (split; [reflexivity|]); (split; [intros; right; assumption|]);
    (split; [intros p [<-|Hp]; [right; exists y; auto|left; exact Hp]|]);
    (split; [intros _; split; [left; reflexivity|reflexivity]|]);
    split; intros; discriminate.
  destruct (targets_of s y) as [|t0 ts] eqn:T; [discriminate|].
  assert (s' = Scope (kinds s) (map (fun t => (x, t)) (targets_of s y) ++ targets s) (is_target s))
    as -> by (rewrite T; congruence).
  cbn [kinds targets is_target]. clear H T.
  split; [reflexivity|]. split; [intros; apply in_or_app; right; assumption|].
  assert (forall p, In p (map (fun t => (x, t)) (targets_of s y) ++ targets s) ->
    In p (targets s) \/ exists t, p = (x, t) /\ In (y, t) (targets s)) as W.
  { intros p Hp. apply in_app_or in Hp. destruct Hp as [Hp|Hp]; [|left; exact Hp].
    apply in_map_iff in Hp. destruct Hp as (t & <- & Ht). apply targets_of_In in Ht.
    right. exists t. auto. }
  split.
  { intros p Hp. destruct (W p Hp) as [?|(t & ? & ?)]; [left; assumption|].
    right. exists t. auto. }
  split; [congruence|]. split; [intros _; split; [reflexivity|exact W]|].
  intros _ t Ht. apply in_or_app. left. apply in_map_iff. exists t.
  split; [reflexivity|]. apply targets_of_In. exact Ht.
Qed.

Lemma kinds_kind : forall s s', kinds s' = kinds s -> forall x, kind_of s' x = kind_of s x.
Proof. intros s s' H x. unfold kind_of. rewrite H. reflexivity. Qed.

Fixpoint translate (c : stmt) : code :=
  match c with
  | Skip => CSkip
  | Seq a b => CSeq (translate a) (translate b)
  | New x vs => CNew x vs
  | Point x y k => CPoint x y k
  | Write x i v => CWrite x i v
  | Read x i => CRead x i
  | If a b => CIf (translate a) (translate b)
  | Loop a => CLoop (translate a)
  | Return => CSkip
  end.

Lemma kind_ensure : forall s y x, kind_of (ensure_target s y) x = kind_of s x.
Proof. intros. unfold ensure_target. destruct (kind_of s y) as [[| |]|]; reflexivity. Qed.

Lemma ensure_known : forall s y, known s (ensure_target s y).
Proof.
  intros s y. unfold ensure_target. destruct (kind_of s y) as [[| |]|]; try apply known_refl;
    (split; [auto|split; [apply incl_refl|intros t; cbn; auto]]).
Qed.

Lemma ensure_targets : forall s y, targets (ensure_target s y) = targets s.
Proof. intros. unfold ensure_target. destruct (kind_of s y) as [[| |]|]; reflexivity. Qed.

Lemma ensure_is_target : forall s y t, In t (is_target (ensure_target s y)) ->
  In t (is_target s) \/ (t = y /\ kind_of s y <> Some Alias).
Proof.
  intros s y t. unfold ensure_target. destruct (kind_of s y) as [[| |]|] eqn:K; cbn; auto;
    (intros [<-|H]; [right; split; [reflexivity|congruence]|left; exact H]).
Qed.

(* What a visit of x = y does, if the generated statement is an AliasAssign. *)
Definition pointed (s : scope) (x y : var) (s' : scope) : Prop :=
  kind_of s y <> None /\
  (kind_of s x = None \/ kind_of s x = Some Alias) /\
  (forall z, kind_of s' z = if x =? z then Some Alias else kind_of s z) /\
  incl (targets s) (targets s') /\
  (x <> y -> kind_of s y <> Some Alias -> In (x, y) (targets s')) /\
  (x <> y -> kind_of s y = Some Alias -> forall t, In (y, t) (targets s) -> In (x, t) (targets s')).

Lemma visit_point : forall r x y k s c s',
  good s -> (x = y -> kind_of s x = Some Alias) ->
  visit r (Point x y k) s = Some (c, s') ->
  c = CPoint x y k /\ known s s' /\ good s' /\ pointed s x y s'.
Proof.
  intros r x y k s c s' [Gd Gk] Rg H. cbn [visit] in H.
  destruct (kind_of s y) as [ky|] eqn:Ky; [|discriminate]. cbv zeta in H.
  rewrite kind_ensure in H.
  assert (forall s0, s0 = ensure_target s y \/ (s0 = declare (ensure_target s y) x Alias /\ kind_of s x = None) ->
    (kind_of s x = None \/ kind_of s x = Some Alias) ->
    (forall z, kind_of s0 z = if x =? z then Some Alias else kind_of s z) ->
    indicate s0 x y = Some s' ->
    known s s' /\ good s' /\ pointed s x y s') as Core.
  { intros s0 E0 Kx Kz I.
    assert (targets s0 = targets s) as T0.
    { destruct E0 as [->|[-> _]]; [apply ensure_targets|]. cbn. apply ensure_targets. }
    assert (is_target s0 = is_target (ensure_target s y)) as M0.
    { destruct E0 as [->|[-> _]]; reflexivity. }
    assert (forall z kz, kind_of s z = Some kz -> kind_of s0 z = Some kz) as Kk.
    { intros z kz Hz. rewrite Kz. destruct (x =? z) eqn:E; [|exact Hz].
      apply Nat.eqb_eq in E. subst z. destruct Kx as [Kx|Kx]; congruence. }
    destruct (Nat.eq_dec x y) as [E|N].
    - subst y. unfold indicate in I. rewrite Nat.eqb_refl in I. injection I as <-.
      specialize (Rg eq_refl).
      assert (ensure_target s x = s) as En by (unfold ensure_target; rewrite Rg; reflexivity).
      rewrite En in *.
      split; [|split].
      + split; [exact Kk|]. rewrite T0, M0. split; apply incl_refl.
      + split; [intros t; rewrite T0, M0; apply Gd|].
        intros q t. rewrite T0. intros Hq. specialize (Gk q t Hq).
        destruct (kind_of s t) as [kt|] eqn:Et; [|congruence]. rewrite (Kk t kt Et). discriminate.
      + split; [congruence|]. split; [exact Kx|]. split; [exact Kz|].
        rewrite T0. split; [apply incl_refl|]. split; congruence.
    - destruct (indicate_spec s0 x y s' I N) as (Ik & It & Iu & Ih & Ia & Ib).
      assert (kind_of s0 y = kind_of s y) as K0.
      { rewrite Kz. apply Nat.eqb_neq in N. rewrite N. reflexivity. }
      assert (forall z, kind_of s' z = kind_of s0 z) as K' by (apply kinds_kind; exact Ik).
      rewrite T0 in *. rewrite K0 in *. rewrite M0 in *.
      split; [|split].
      + split; [intros; rewrite K'; apply Kk; assumption|]. split; [intros p; apply It|].
        destruct ky; try (destruct Ih as [_ ->]; [congruence|]; intros t Ht; right;
          exact (proj2 (proj2 (ensure_known s y)) t Ht)).
        destruct (Ia Ky) as [-> _]. exact (proj2 (proj2 (ensure_known s y))).
      + split.
        2:{ intros q t Hq. assert (kind_of s t <> None) as Nt.
            { destruct (Iu _ Hq) as [Hs|(t' & E & [->|Hs])].
              - exact (Gk q t Hs).
              - injection E as -> ->. congruence.
              - injection E as -> ->. exact (Gk y t' Hs). }
            rewrite K'. destruct (kind_of s t) as [kt|] eqn:Et; [|congruence].
            rewrite (Kk t kt Et). discriminate. }
        intros t. split.
        * intros Ht.
          assert (In t (is_target (ensure_target s y)) \/ (t = y /\ ky <> Alias)) as Ht'.
          { destruct ky; try (destruct Ih as [_ Eq]; [congruence|]; rewrite Eq in Ht;
              destruct Ht as [<-|Ht]; [right; split; [reflexivity|congruence]|left; exact Ht]).
            destruct (Ia Ky) as [Eq _]. rewrite Eq in Ht. left. exact Ht. }
          assert (In t (is_target s) \/ (t = y /\ ky <> Alias)) as Hs.
          { destruct Ht' as [Ht'|Ht']; [|right; exact Ht'].
            destruct (ensure_is_target s y t Ht') as [?|[-> ?]]; [left; assumption|].
            right. split; [reflexivity|congruence]. }
          destruct Hs as [Hs|[-> Ha]].
          -- destruct (proj1 (Gd t) Hs) as [p Hp]. exists p. apply It. exact Hp.
          -- exists x. apply Ih. congruence.
        * intros [p Hp].
          destruct ky.
          1, 2: destruct Ih as [Hin Eq]; [congruence|]; rewrite Eq;
            destruct (Iu _ Hp) as [Hs|(t' & E & [->|Hs])];
              [right; apply (proj2 (proj2 (ensure_known s y))); apply Gd; exists p; exact Hs
              |injection E as -> ->; left; reflexivity
              |injection E as -> ->; right; apply (proj2 (proj2 (ensure_known s y)));
               apply Gd; exists y; exact Hs].
          destruct (Ia Ky) as [Eq W]. rewrite Eq.
          apply (proj2 (proj2 (ensure_known s y))). apply Gd.
          destruct (W _ Hp) as [Hs|(t' & E & Hs)]; [exists p; exact Hs|].
          injection E as -> ->. exists y. exact Hs.
      + split; [congruence|]. split; [exact Kx|].
        split; [intros; rewrite K'; apply Kz|]. split; [intros p; apply It|].
        split; [intros _ Hn; apply Ih; exact Hn|]. intros _ Ha. apply Ib. exact Ha. }
  destruct (kind_of s x) as [kx|] eqn:Kx.
  - destruct (mem x (is_target (ensure_target s y)) && pointed_at (ensure_target s y) x) eqn:E;
      [discriminate|].
    destruct kx.
    + discriminate.
    + destruct (mem x (is_target (ensure_target s y))) eqn:M; [|discriminate].
      exfalso. cbn in E. apply mem_In in M. apply ensure_is_target in M.
      destruct M as [M|[-> _]].
      * apply Gd in M. assert (pointed_at (ensure_target s y) x = true).
        { apply pointed_In. rewrite ensure_targets. exact M. }
        congruence.
      * specialize (Rg eq_refl). congruence.
    + destruct (indicate (ensure_target s y) x y) as [s2|] eqn:I; [|discriminate].
      injection H as <- <-. split; [reflexivity|].
      apply (Core _ (or_introl eq_refl)); [right; reflexivity| |exact I].
      intros z. rewrite kind_ensure. destruct (x =? z) eqn:Ez; [|reflexivity].
      apply Nat.eqb_eq in Ez. subst z. exact Kx.
  - destruct (indicate (declare (ensure_target s y) x Alias) x y) as [s2|] eqn:I; [|discriminate].
    injection H as <- <-. split; [reflexivity|].
    apply (Core (declare (ensure_target s y) x Alias));
      [right; split; [reflexivity|reflexivity]|left; reflexivity| |exact I].
    intros z. rewrite kind_declare, kind_ensure. reflexivity.
Qed.

Lemma visit_scope : forall r c s c' s',
  no_return c = true -> good s -> regular r c s -> visit r c s = Some (c', s') ->
  c' = translate c /\ known s s' /\ good s'.
Proof.
  intros r. induction c; intros s c' s' N Gd Rg H.
  - cbn in H. injection H as <- <-. split; [reflexivity|]. split; [apply known_refl|exact Gd].
  - cbn in N. apply andb_true_iff in N. destruct N as [N1 N2].
    cbn in H. destruct (visit r c1 s) as [[a' s1]|] eqn:V1; [|discriminate].
    destruct (visit r c2 s1) as [[b' s2]|] eqn:V2; [|discriminate]. injection H as <- <-.
    destruct Rg as [R1 R2].
    destruct (IHc1 _ _ _ N1 Gd R1 V1) as (-> & K1 & G1).
    destruct (IHc2 _ _ _ N2 G1 (R2 _ _ V1) V2) as (-> & K2 & G2).
    split; [reflexivity|]. split; [eapply known_trans; eassumption|exact G2].
  - cbn in H. destruct (kind_of s x) as [k|] eqn:K.
    + destruct (reassign_new s x k); [|discriminate]. injection H as <- <-.
      split; [reflexivity|]. split; [apply known_refl|exact Gd].
    + injection H as <- <-. split; [reflexivity|].
      assert (forall z k, kind_of s z = Some k -> kind_of (declare s x Heap) z = Some k) as Kd.
      { intros z k Hz. rewrite kind_declare.
        destruct (x =? z) eqn:E; [|exact Hz]. apply Nat.eqb_eq in E. subst. congruence. }
      split; [split; [exact Kd|split; apply incl_refl]|].
      split; [exact (proj1 Gd)|]. intros q t Hq. pose proof (proj2 Gd q t Hq) as Nt.
      destruct (kind_of s t) as [kt|] eqn:Et; [|congruence]. rewrite (Kd t kt Et). discriminate.
  - destruct (visit_point r x y k s c' s' Gd Rg H) as (-> & K & G & _).
    split; [reflexivity|]. split; assumption.
  - cbn in H. destruct (kind_of s x); [|discriminate]. injection H as <- <-.
    split; [reflexivity|]. split; [apply known_refl|exact Gd].
  - cbn in H. destruct (kind_of s x); [|discriminate]. injection H as <- <-.
    split; [reflexivity|]. split; [apply known_refl|exact Gd].
  - cbn in N. apply andb_true_iff in N. destruct N as [N1 N2].
    cbn in H. destruct (visit r c1 s) as [[a' s1]|] eqn:V1; [|discriminate].
    destruct (visit r c2 s1) as [[b' s2]|] eqn:V2; [|discriminate]. injection H as <- <-.
    destruct Rg as [R1 R2].
    destruct (IHc1 _ _ _ N1 Gd R1 V1) as (-> & K1 & G1).
    destruct (IHc2 _ _ _ N2 G1 (R2 _ _ V1) V2) as (-> & K2 & G2).
    split; [reflexivity|]. split; [eapply known_trans; eassumption|exact G2].
  - cbn in N, H. destruct (visit r c s) as [[a' s1]|] eqn:V1; [|discriminate].
    injection H as <- <-. destruct Rg as [R1 R2].
    destruct (IHc _ _ _ N Gd R1 V1) as (-> & K1 & G1).
    split; [reflexivity|]. split; assumption.
  - discriminate.
Qed.

(** ** The simulation *)

Definition live (g : gstate) (b : nat) (vs : list Z) : Prop :=
  nth_error (blocks g) b = Some (Some vs).

Record inv (la : list var) (ea : var -> option (nat * nat)) (n : nat) (s : scope) (p : pstate) (g : gstate) (h : nat -> option nat) : Prop := Inv {
  i_env : forall x o k, penv p x = Some (o, k) -> exists b, genv g x = Some (b, k) /\ h o = Some b;
  i_none : forall x, penv p x = None -> genv g x = None;
  i_inj : forall o o' b, h o = Some b -> h o' = Some b -> o = o';
  i_heap : forall o b, h o = Some b -> exists vs, nth_error (pheap p) o = Some vs /\ live g b vs;
  i_id : forall o, o < n -> h o = Some o;
  i_own : forall x b k, kind_of s x = Some Heap -> genv g x = Some (b, k) -> n <= b /\ k = 0;
  i_arg : forall x b k, kind_of s x = Some Argument -> genv g x = Some (b, k) -> b < n;
  i_one : forall x y b k k', kind_of s x = Some Heap -> kind_of s y = Some Heap ->
            genv g x = Some (b, k) -> genv g y = Some (b, k') -> x = y;
  i_ptr : forall x o k, kind_of s x = Some Alias -> penv p x = Some (o, k) ->
            exists t k', In (x, t) (targets s) /\
              (kind_of s t = Some Heap \/ kind_of s t = Some Argument) /\
              penv p t = Some (o, k');
  i_def : forall x, penv p x <> None -> kind_of s x <> None;
  i_live : forall b vs, n <= b -> live g b vs ->
            exists x, kind_of s x = Some Heap /\ genv g x = Some (b, 0);
  i_same : forall x, In x la -> kind_of s x = Some Argument /\ penv p x = ea x;
  i_trace : gtrace g = ptrace p;
  i_pdone : pdone p = false;
  i_gdone : gdone g = false }.

Lemma inv_known : forall la ea n s s' p g h, known s s' -> inv la ea n s p g h -> inv la ea n s' p g h.
Proof.
  intros la ea n s s' p g h (Kk & Kt & _) I. destruct I.
  assert (forall x o, penv p x = Some o -> kind_of s' x = kind_of s x) as Same.
  { intros x o Hx. destruct (kind_of s x) as [k|] eqn:K; [apply Kk; exact K|].
    exfalso. apply (i_def0 x); congruence. }
  assert (forall x o, genv g x = Some o -> kind_of s' x = kind_of s x) as Same'.
  { intros x o Hx. destruct (penv p x) as [q|] eqn:Q; [apply (Same x q Q)|].
    rewrite (i_none0 x Q) in Hx. discriminate. }
  constructor; try assumption.
  - intros x b k K Hx. rewrite (Same' _ _ Hx) in K. eapply i_own0; eassumption.
  - intros x b k K Hx. rewrite (Same' _ _ Hx) in K. eapply i_arg0; eassumption.
  - intros x y b k k' K K' Hx Hy. rewrite (Same' _ _ Hx) in K. rewrite (Same' _ _ Hy) in K'.
    eapply i_one0; eassumption.
  - intros x o k K Hx. rewrite (Same _ _ Hx) in K.
    destruct (i_ptr0 x o k K Hx) as (t & k' & A & B & C). exists t, k'.
    split; [apply Kt; exact A|]. split; [|exact C].
    destruct B as [B|B]; [left|right]; apply Kk; exact B.
  - intros x Hx. destruct (penv p x) as [q|] eqn:Q; [|congruence].
    rewrite (Same _ _ Q). apply i_def0. congruence.
  - intros b vs L Hb. destruct (i_live0 b vs L Hb) as (x & K & Hx). exists x.
    split; [apply Kk; exact K|exact Hx].
  - intros x Hx. destruct (i_same0 x Hx) as [A B]. split; [apply Kk; exact A|exact B].
Qed.

Lemma nth_set : forall (A : Type) (l : list A) n m v,
  nth_error (set_nth n v l) m =
  if n =? m then (match nth_error l m with Some _ => Some v | None => None end)
  else nth_error l m.
Proof.
  induction l as [|x l IH]; intros n m v.
  - assert (set_nth n v [] = []) as -> by (destruct n; reflexivity).
    destruct m; cbn [nth_error]; destruct (n =? _); reflexivity.
  - destruct n as [|n]; destruct m as [|m]; cbn; try reflexivity. apply IH.
Qed.

Lemma length_set : forall (A : Type) (l : list A) n v, List.length (set_nth n v l) = List.length l.
Proof. induction l as [|x l IH]; intros [|n] v; cbn; auto. Qed.

Lemma upd_same : forall f x v, upd f x v x = v.
Proof. intros. unfold upd. rewrite Nat.eqb_refl. reflexivity. Qed.

Lemma upd_other : forall f x v y, y <> x -> upd f x v y = f y.
Proof. intros f x v y H. unfold upd. apply Nat.eqb_neq in H. rewrite H. reflexivity. Qed.

Lemma nth_app_last : forall (A : Type) (l : list A) v n,
  nth_error (l ++ [v]) n = if n =? List.length l then Some v else nth_error l n.
Proof.
  intros A l v n. destruct (Nat.eqb_spec n (List.length l)) as [->|N].
  - rewrite nth_error_app2 by lia. rewrite Nat.sub_diag. reflexivity.
  - destruct (Nat.lt_ge_cases n (List.length l)).
    + apply nth_error_app1. exact H.
    + rewrite nth_error_app2 by lia.
      assert (nth_error l n = None) as -> by (apply nth_error_None; lia).
      apply nth_error_None. cbn. lia.
Qed.

Lemma h_bound : forall la ea n s p g h, inv la ea n s p g h -> forall o b, h o = Some b ->
  o < List.length (pheap p) /\ b < List.length (blocks g).
Proof.
  intros la ea n s p g h I o b H. destruct (i_heap _ _ _ _ _ _ _ I o b H) as (vs & A & B).
  split; apply nth_error_Some; [congruence|]. unfold live in B. congruence.
Qed.

(* The assignment of a new array, once the variables which refer to the old
   one are known to be the variable itself only. *)
Lemma new_step : forall la ea n s p g h x vs,
  inv la ea n s p g h -> kind_of s x = Some Heap ->
  (forall y, ~ In (y, x) (targets s)) -> n <= List.length (pheap p) -> n <= List.length (blocks g) ->
  exists g' h', gnew g x vs = Some g' /\
    inv la ea n s (P (upd (penv p) x (Some (List.length (pheap p), 0))) (pheap p ++ [vs]) (ptrace p) false) g' h'
    /\ n <= List.length (blocks g').
Proof.
  intros la ea n s p g h x vs I Kx Np Ln Lb. pose proof (h_bound _ _ _ _ _ _ _ I) as Bd.
  destruct I. set (o' := List.length (pheap p)).
  destruct (penv p x) as [[o k]|] eqn:Px.
  - destruct (i_env0 x o k Px) as (b & Gx & Ho).
    destruct (i_own0 x b k Kx Gx) as [Nb ->].
    destruct (i_heap0 o b Ho) as (old & Po & Bo).
    (* nobody else *)
    assert (forall y k', penv p y = Some (o, k') -> y = x) as Only.
    { assert (forall y k', penv p y = Some (o, k') ->
        kind_of s y = Some Heap \/ kind_of s y = Some Argument -> y = x) as Only1.
      { intros y k' Py [Ky|Ky].
        - destruct (i_env0 y o k' Py) as (b' & Gy & Ho'). rewrite Ho in Ho'.
          injection Ho' as <-. eapply i_one0; eassumption.
        - destruct (i_env0 y o k' Py) as (b' & Gy & Ho'). rewrite Ho in Ho'.
          injection Ho' as <-. pose proof (i_arg0 y b k' Ky Gy). lia. }
      intros y k' Py. destruct (kind_of s y) as [[| |]|] eqn:Ky.
      - apply (Only1 y k' Py). right. exact Ky.
      - apply (Only1 y k' Py). left. exact Ky.
      - destruct (i_ptr0 y o k' Ky Py) as (t & k2 & Ht & Kt & Pt).
        rewrite (Only1 t k2 Pt Kt) in Ht. exfalso. exact (Np y Ht).
      - exfalso. apply (i_def0 y); congruence. }
    unfold gnew. rewrite Gx. unfold live in Bo. rewrite Bo.
    destruct (List.length old =? List.length vs) eqn:El.
    + (* the same memory *)
      eexists. exists (fun z => if z =? o' then Some b else if z =? o then None else h z).
      split; [reflexivity|]. split; [|cbn; rewrite length_set; exact Lb].
      assert (o <> o') as Noo by (intros ->; destruct (Bd _ _ Ho); unfold o' in *; lia).
      constructor; cbn [penv pheap ptrace pdone genv blocks gtrace gdone]; unfold live; cbn [blocks].
      * intros y oy ky Hy. destruct (Nat.eq_dec y x) as [->|N].
        -- rewrite upd_same in Hy. injection Hy as <- <-. exists b. split; [exact Gx|].
           rewrite Nat.eqb_refl. reflexivity.
        -- rewrite upd_other in Hy by exact N.
           destruct (i_env0 y oy ky Hy) as (b' & Gy & Hb). exists b'. split; [exact Gy|].
           destruct (Nat.eqb_spec oy o') as [->|]; [destruct (Bd _ _ Hb); unfold o' in *; lia|].
           destruct (Nat.eqb_spec oy o) as [->|]; [exfalso; apply N; apply (Only y ky Hy)|exact Hb].
      * intros y Hy. destruct (Nat.eq_dec y x) as [->|N].
        -- rewrite upd_same in Hy. discriminate.
        -- rewrite upd_other in Hy by exact N. apply i_none0. exact Hy.
      * intros a a' b' Ha Ha'.
        destruct (Nat.eqb_spec a o') as [->|]; destruct (Nat.eqb_spec a' o') as [->|]; try reflexivity.
        -- destruct (Nat.eqb_spec a' o) as [->|]; [discriminate|]. exfalso.
           injection Ha as <-. apply n1. apply (i_inj0 _ _ b); assumption.
        -- destruct (Nat.eqb_spec a o) as [->|]; [discriminate|]. exfalso.
           injection Ha' as <-. apply n1. apply (i_inj0 _ _ b); assumption.
        -- destruct (Nat.eqb_spec a o); [discriminate|].
           destruct (Nat.eqb_spec a' o); [discriminate|]. eapply i_inj0; eassumption.
      * intros a b' Ha. rewrite nth_app_last. fold o'.
        destruct (Nat.eqb_spec a o') as [->|].
        -- injection Ha as <-. exists vs. split; [reflexivity|].
           rewrite nth_set, Nat.eqb_refl, Bo. reflexivity.
        -- destruct (Nat.eqb_spec a o) as [->|]; [discriminate|].
           destruct (i_heap0 a b' Ha) as (ws & Pa & Ba). exists ws. split; [exact Pa|].
           rewrite nth_set. destruct (Nat.eqb_spec b b') as [->|]; [|exact Ba].
           exfalso. apply n1. apply (i_inj0 _ _ b'); assumption.
      * intros a Ha. destruct (Nat.eqb_spec a o') as [->|]; [unfold o' in *; lia|].
        destruct (Nat.eqb_spec a o) as [->|]; [|apply i_id0; exact Ha].
        rewrite (i_id0 o Ha) in Ho. injection Ho as <-. lia.
      * intros y b' k' Ky Gy. eapply i_own0; eassumption.
      * intros y b' k' Ky Gy. eapply i_arg0; eassumption.
      * intros y z b' k1 k2 Ky Kz Gy Gz. eapply i_one0; eassumption.
      * intros y oy ky Ky Hy. destruct (Nat.eq_dec y x) as [->|N]; [congruence|].
        rewrite upd_other in Hy by exact N.
        destruct (i_ptr0 y oy ky Ky Hy) as (t & k2 & Ht & Kt & Pt).
        exists t, k2. split; [exact Ht|]. split; [exact Kt|].
        rewrite upd_other; [exact Pt|]. intros ->. exact (Np y Ht).
      * intros y Hy. destruct (Nat.eq_dec y x) as [->|N]; [congruence|].
        rewrite upd_other in Hy by exact N. apply i_def0. exact Hy.
      * intros b' ws L Hb. rewrite nth_set in Hb. destruct (Nat.eqb_spec b b') as [->|].
        -- exists x. split; assumption.
        -- apply (i_live0 b' ws L Hb).
      * intros y Hy. destruct (i_same0 y Hy) as [A B]. split; [exact A|].
        rewrite upd_other; [exact B|]. intros ->. congruence.
      * exact i_trace0.
      * reflexivity.
      * exact i_gdone0.
    + (* other memory *)
      eexists. exists (fun z => if z =? o' then Some (List.length (blocks g)) else if z =? o then None else h z).
      split; [reflexivity|]. split; [|cbn; rewrite app_length, length_set; lia].
      assert (o <> o') as Noo by (intros ->; destruct (Bd _ _ Ho); unfold o' in *; lia).
      assert (forall m, nth_error (set_nth b None (blocks g) ++ [Some vs]) m
        = if m =? List.length (blocks g) then Some (Some vs)
          else if b =? m then (match nth_error (blocks g) m with Some _ => Some None | None => None end)
               else nth_error (blocks g) m) as Nm.
      { intros m. rewrite nth_app_last, length_set, nth_set. reflexivity. }
      constructor; cbn [penv pheap ptrace pdone genv blocks gtrace gdone]; unfold live; cbn [blocks].
      * intros y oy ky Hy. destruct (Nat.eq_dec y x) as [->|N].
        -- rewrite upd_same in Hy |- *. injection Hy as <- <-. exists (List.length (blocks g)).
           split; [reflexivity|]. rewrite Nat.eqb_refl. reflexivity.
        -- rewrite upd_other in Hy |- * by exact N.
           destruct (i_env0 y oy ky Hy) as (b' & Gy & Hb). exists b'. split; [exact Gy|].
           destruct (Nat.eqb_spec oy o') as [->|]; [destruct (Bd _ _ Hb); unfold o' in *; lia|].
           destruct (Nat.eqb_spec oy o) as [->|]; [exfalso; apply N; apply (Only y ky Hy)|exact Hb].
      * intros y Hy. destruct (Nat.eq_dec y x) as [->|N].
        -- rewrite upd_same in Hy. discriminate.
        -- rewrite upd_other in Hy |- * by exact N. apply i_none0. exact Hy.
      * intros a a' b' Ha Ha'.
        destruct (Nat.eqb_spec a o') as [->|]; destruct (Nat.eqb_spec a' o') as [->|]; try reflexivity.
        -- destruct (Nat.eqb_spec a' o) as [->|]; [discriminate|]. exfalso.
           injection Ha as <-. destruct (Bd _ _ Ha'). lia.
        -- destruct (Nat.eqb_spec a o) as [->|]; [discriminate|]. exfalso.
           injection Ha' as <-. destruct (Bd _ _ Ha). lia.
        -- destruct (Nat.eqb_spec a o); [discriminate|].
           destruct (Nat.eqb_spec a' o); [discriminate|]. eapply i_inj0; eassumption.
      * intros a b' Ha. rewrite nth_app_last. fold o'.
        destruct (Nat.eqb_spec a o') as [->|].
        -- injection Ha as <-. exists vs. split; [reflexivity|].
           rewrite Nm, Nat.eqb_refl. reflexivity.
        -- destruct (Nat.eqb_spec a o) as [->|]; [discriminate|].
           destruct (i_heap0 a b' Ha) as (ws & Pa & Ba). exists ws. split; [exact Pa|].
           rewrite Nm. destruct (Nat.eqb_spec b' (List.length (blocks g))) as [->|].
           { destruct (Bd _ _ Ha). lia. }
           destruct (Nat.eqb_spec b b') as [->|]; [|exact Ba].
           exfalso. apply n1. apply (i_inj0 _ _ b'); assumption.
      * intros a Ha. destruct (Nat.eqb_spec a o') as [->|]; [unfold o' in *; lia|].
        destruct (Nat.eqb_spec a o) as [->|]; [|apply i_id0; exact Ha].
        rewrite (i_id0 o Ha) in Ho. injection Ho as <-. lia.
      * intros y b' k' Ky Gy. destruct (Nat.eq_dec y x) as [->|N].
        -- rewrite upd_same in Gy. injection Gy as <- <-. split; [lia|reflexivity].
        -- rewrite upd_other in Gy by exact N. eapply i_own0; eassumption.
      * intros y b' k' Ky Gy. destruct (Nat.eq_dec y x) as [->|N]; [congruence|].
        rewrite upd_other in Gy by exact N. eapply i_arg0; eassumption.
      * intros y z b' k1 k2 Ky Kz Gy Gz.
        assert (forall w k0, w <> x -> genv g w = Some (List.length (blocks g), k0) -> False) as Fr.
        { intros w k0 Nw Gw. destruct (penv p w) as [[ow kw]|] eqn:Pw.
          - destruct (i_env0 w ow kw Pw) as (bw & Gw' & Hw). destruct (Bd _ _ Hw).
            rewrite Gw in Gw'. injection Gw' as <- _. lia.
          - rewrite (i_none0 w Pw) in Gw. discriminate. }
        destruct (Nat.eq_dec y x) as [->|Ny]; destruct (Nat.eq_dec z x) as [->|Nz]; try reflexivity.
        -- exfalso. rewrite upd_same in Gy. rewrite upd_other in Gz by exact Nz.
           injection Gy as <- _. exact (Fr z k2 Nz Gz).
        -- exfalso. rewrite upd_same in Gz. rewrite upd_other in Gy by exact Ny.
           injection Gz as <- _. exact (Fr y k1 Ny Gy).
        -- rewrite upd_other in Gy, Gz by assumption. eapply i_one0; eassumption.
      * intros y oy ky Ky Hy. destruct (Nat.eq_dec y x) as [->|N]; [congruence|].
        rewrite upd_other in Hy by exact N.
        destruct (i_ptr0 y oy ky Ky Hy) as (t & k2 & Ht & Kt & Pt).
        exists t, k2. split; [exact Ht|]. split; [exact Kt|].
        rewrite upd_other; [exact Pt|]. intros ->. exact (Np y Ht).
      * intros y Hy. destruct (Nat.eq_dec y x) as [->|N]; [congruence|].
        rewrite upd_other in Hy by exact N. apply i_def0. exact Hy.
      * intros b' ws L Hb. rewrite Nm in Hb.
        destruct (Nat.eqb_spec b' (List.length (blocks g))) as [->|].
        -- exists x. split; [exact Kx|]. rewrite upd_same. reflexivity.
        -- destruct (Nat.eqb_spec b b') as [->|].
           { destruct (nth_error (blocks g) b'); discriminate. }
           destruct (i_live0 b' ws L Hb) as (z & Kz & Gz). exists z. split; [exact Kz|].
           rewrite upd_other; [exact Gz|]. intros ->. congruence.
      * intros y Hy. destruct (i_same0 y Hy) as [A B]. split; [exact A|].
        rewrite upd_other; [exact B|]. intros ->. congruence.
      * exact i_trace0.
      * reflexivity.
      * exact i_gdone0.
  - (* the first array *)
    pose proof (i_none0 x Px) as Gx. unfold gnew. rewrite Gx.
    eexists. exists (fun z => if z =? o' then Some (List.length (blocks g)) else h z).
    split; [reflexivity|]. split; [|cbn; rewrite app_length; lia].
    constructor; cbn [penv pheap ptrace pdone genv blocks gtrace gdone]; unfold live; cbn [blocks].
    + intros y oy ky Hy. destruct (Nat.eq_dec y x) as [->|N].
      * rewrite upd_same in Hy |- *. injection Hy as <- <-. exists (List.length (blocks g)).
        split; [reflexivity|]. rewrite Nat.eqb_refl. reflexivity.
      * rewrite upd_other in Hy |- * by exact N.
        destruct (i_env0 y oy ky Hy) as (b' & Gy & Hb). exists b'. split; [exact Gy|].
        destruct (Nat.eqb_spec oy o') as [->|]; [destruct (Bd _ _ Hb); unfold o' in *; lia|exact Hb].
    + intros y Hy. destruct (Nat.eq_dec y x) as [->|N].
      * rewrite upd_same in Hy. discriminate.
      * rewrite upd_other in Hy |- * by exact N. apply i_none0. exact Hy.
    + intros a a' b' Ha Ha'.
      destruct (Nat.eqb_spec a o') as [->|]; destruct (Nat.eqb_spec a' o') as [->|]; try reflexivity.
      * exfalso. injection Ha as <-. destruct (Bd _ _ Ha'). lia.
      * exfalso. injection Ha' as <-. destruct (Bd _ _ Ha). lia.
      * eapply i_inj0; eassumption.
    + intros a b' Ha. rewrite nth_app_last. fold o'.
      destruct (Nat.eqb_spec a o') as [->|].
      * injection Ha as <-. exists vs. split; [reflexivity|].
        rewrite nth_app_last, Nat.eqb_refl. reflexivity.
      * destruct (i_heap0 a b' Ha) as (ws & Pa & Ba). exists ws. split; [exact Pa|].
        rewrite nth_app_last. destruct (Nat.eqb_spec b' (List.length (blocks g))) as [->|]; [|exact Ba].
        destruct (Bd _ _ Ha). lia.
    + intros a Ha. destruct (Nat.eqb_spec a o') as [->|]; [unfold o' in *; lia|].
      apply i_id0. exact Ha.
    + intros y b' k' Ky Gy. destruct (Nat.eq_dec y x) as [->|N].
      * rewrite upd_same in Gy. injection Gy as <- <-. split; [lia|reflexivity].
      * rewrite upd_other in Gy by exact N. eapply i_own0; eassumption.
    + intros y b' k' Ky Gy. destruct (Nat.eq_dec y x) as [->|N]; [congruence|].
      rewrite upd_other in Gy by exact N. eapply i_arg0; eassumption.
    + intros y z b' k1 k2 Ky Kz Gy Gz.
      assert (forall w k0, w <> x -> genv g w = Some (List.length (blocks g), k0) -> False) as Fr.
      { intros w k0 Nw Gw. destruct (penv p w) as [[ow kw]|] eqn:Pw.
        - destruct (i_env0 w ow kw Pw) as (bw & Gw' & Hw). destruct (Bd _ _ Hw).
          rewrite Gw in Gw'. injection Gw' as <- _. lia.
        - rewrite (i_none0 w Pw) in Gw. discriminate. }
      destruct (Nat.eq_dec y x) as [->|Ny]; destruct (Nat.eq_dec z x) as [->|Nz]; try reflexivity.
      * exfalso. rewrite upd_same in Gy. rewrite upd_other in Gz by exact Nz.
        injection Gy as <- _. exact (Fr z k2 Nz Gz).
      * exfalso. rewrite upd_same in Gz. rewrite upd_other in Gy by exact Ny.
        injection Gz as <- _. exact (Fr y k1 Ny Gy).
      * rewrite upd_other in Gy, Gz by assumption. eapply i_one0; eassumption.
    + intros y oy ky Ky Hy. destruct (Nat.eq_dec y x) as [->|N]; [congruence|].
      rewrite upd_other in Hy by exact N.
      destruct (i_ptr0 y oy ky Ky Hy) as (t & k2 & Ht & Kt & Pt).
      exists t, k2. split; [exact Ht|]. split; [exact Kt|].
      rewrite upd_other; [exact Pt|]. intros ->. exact (Np y Ht).
    + intros y Hy. destruct (Nat.eq_dec y x) as [->|N]; [congruence|].
      rewrite upd_other in Hy by exact N. apply i_def0. exact Hy.
    + intros b' ws L Hb. rewrite nth_app_last in Hb.
      destruct (Nat.eqb_spec b' (List.length (blocks g))) as [->|].
      * exists x. split; [exact Kx|]. rewrite upd_same. reflexivity.
      * destruct (i_live0 b' ws L Hb) as (z & Kz & Gz). exists z. split; [exact Kz|].
        rewrite upd_other; [exact Gz|]. intros ->. congruence.
    + intros y Hy. destruct (i_same0 y Hy) as [A B]. split; [exact A|].
      rewrite upd_other; [exact B|]. intros ->. congruence.
    + exact i_trace0.
    + reflexivity.
    + exact i_gdone0.
Qed.

Lemma declare_known : forall s x k, kind_of s x = None -> known s (declare s x k).
Proof.
  intros s x k H. split; [|split; apply incl_refl]. intros z kz Hz. rewrite kind_declare.
  destruct (x =? z) eqn:E; [|exact Hz]. apply Nat.eqb_eq in E. subst. congruence.
Qed.

Lemma point_step : forall la ea n s s' p g h x y k o j b,
  inv la ea n s p g h -> known s s' -> pointed s x y s' ->
  penv p y = Some (o, j) -> genv g y = Some (b, j) -> h o = Some b ->
  inv la ea n s' (P (upd (penv p) x (Some (o, j + k))) (pheap p) (ptrace p) false)
           (G (upd (genv g) x (Some (b, j + k))) (blocks g) (gtrace g) false) h.
Proof.
  intros la ea n s s' p g h x y k o j b I Kn (Ky & Kx & Kz & Tt & Th & Ta) Py Gy Ho.
  pose proof (inv_known la ea n s s' p g h Kn I) as I'. 
  assert (forall z, kind_of s' z = Some Heap -> z <> x) as NxH.
  { intros z Hz ->. rewrite Kz, Nat.eqb_refl in Hz. discriminate. }
  assert (forall z, kind_of s' z = Some Argument -> z <> x) as NxA.
  { intros z Hz ->. rewrite Kz, Nat.eqb_refl in Hz. discriminate. }
  destruct I'. constructor; cbn [penv pheap ptrace pdone genv blocks gtrace gdone];
    try assumption; try reflexivity.
  - intros z oz kz Hz. destruct (Nat.eq_dec z x) as [->|N].
    + rewrite upd_same in Hz |- *. injection Hz as <- <-. exists b. split; [reflexivity|exact Ho].
    + rewrite upd_other in Hz |- * by exact N. apply i_env0. exact Hz.
  - intros z Hz. destruct (Nat.eq_dec z x) as [->|N].
    + rewrite upd_same in Hz. discriminate.
    + rewrite upd_other in Hz |- * by exact N. apply i_none0. exact Hz.
  - intros z bz kz Hk Hz. rewrite upd_other in Hz by (apply NxH; exact Hk).
    eapply i_own0; eassumption.
  - intros z bz kz Hk Hz. rewrite upd_other in Hz by (apply NxA; exact Hk).
    eapply i_arg0; eassumption.
  - intros z w bz k1 k2 Hk Hk' Hz Hw.
    rewrite upd_other in Hz by (apply NxH; exact Hk).
    rewrite upd_other in Hw by (apply NxH; exact Hk'). eapply i_one0; eassumption.
  - intros z oz kz Hk Hz.
    assert (forall t k', In (z, t) (targets s') ->
      (kind_of s' t = Some Heap \/ kind_of s' t = Some Argument) ->
      penv p t = Some (oz, k') ->
      exists t k', In (z, t) (targets s') /\
        (kind_of s' t = Some Heap \/ kind_of s' t = Some Argument) /\
        upd (penv p) x (Some (o, j + k)) t = Some (oz, k')) as Fin.
    { intros t k' A B C. exists t, k'. split; [exact A|]. split; [exact B|].
      rewrite upd_other; [exact C|]. destruct B as [B|B]; [apply NxH|apply NxA]; exact B. }
    destruct (Nat.eq_dec z x) as [->|N].
    + rewrite upd_same in Hz. injection Hz as <- <-.
      destruct (Nat.eq_dec x y) as [->|Nxy].
      * destruct (i_ptr0 y o j) as (t & k' & A & B & C); [exact Hk|exact Py|].
        eapply Fin; eassumption.
      * destruct (kind_of s y) as [ky|] eqn:Ky'; [|congruence].
        assert (kind_of s' y = Some ky) as Kys by (apply (proj1 Kn); exact Ky').
        destruct ky.
        -- apply (Fin y j); [apply Th; congruence|right; exact Kys|exact Py].
        -- apply (Fin y j); [apply Th; congruence|left; exact Kys|exact Py].
        -- destruct (i_ptr _ _ _ _ _ _ _ I y o j Ky' Py) as (t & k' & A & B & C).
           apply (Fin t k'); [apply Ta; [exact Nxy|reflexivity|exact A]| |exact C].
           destruct B as [B|B]; [left|right]; apply (proj1 Kn); exact B.
    + rewrite upd_other in Hz by exact N.
      destruct (i_ptr0 z oz kz Hk Hz) as (t & k' & A & B & C). eapply Fin; eassumption.
  - intros z Hz. destruct (Nat.eq_dec z x) as [->|N].
    + rewrite Kz, Nat.eqb_refl. discriminate.
    + rewrite upd_other in Hz by exact N. apply i_def0. exact Hz.
  - intros bz ws L Hb. destruct (i_live0 bz ws L Hb) as (z & Hk & Hz). exists z.
    split; [exact Hk|]. rewrite upd_other by (apply NxH; exact Hk). exact Hz.
  - intros z Hz. destruct (i_same0 z Hz) as [A B]. split; [exact A|].
    rewrite upd_other by (apply NxA; exact A). exact B.
Qed.

Lemma under_sim : forall la ea n s p g h x i o j v,
  inv la ea n s p g h -> punder p x i = Some (o, j, v) ->
  exists b vs, gunder g x i = Some (b, j, v) /\ h o = Some b /\
    nth_error (pheap p) o = Some vs /\ live g b vs.
Proof.
  intros la ea n s p g h x i o j v I H. unfold punder in H. unfold gunder.
  destruct (penv p x) as [[o' k]|] eqn:Px; [|discriminate].
  destruct (i_env _ _ _ _ _ _ _ I x o' k Px) as (b & Gx & Ho). rewrite Gx.
  destruct (i_heap _ _ _ _ _ _ _ I o' b Ho) as (vs & Po & Lb). rewrite Po in H.
  unfold live in Lb. rewrite Lb.
  destruct (nth_error vs (k + i)) as [v'|] eqn:Nv; [|discriminate].
  injection H as <- <- <-. exists b, vs. unfold live. auto.
Qed.

Lemma write_step : forall la ea n s p g h o b vs ws,
  inv la ea n s p g h -> h o = Some b -> nth_error (pheap p) o = Some vs -> live g b vs ->
  inv la ea n s (P (penv p) (set_nth o ws (pheap p)) (ptrace p) false)
          (G (genv g) (set_nth b (Some ws) (blocks g)) (gtrace g) false) h.
Proof.
  intros la ea n s p g h o b vs ws I Ho Po Lb. destruct I.
  constructor; cbn [penv pheap ptrace pdone genv blocks gtrace gdone]; try assumption; try reflexivity.
  - intros a b' Ha. unfold live in *. cbn [blocks]. rewrite !nth_set.
    destruct (i_heap0 a b' Ha) as (us & Pa & La). unfold live in La.
    destruct (Nat.eqb_spec o a) as [->|N].
    + rewrite Ho in Ha. injection Ha as <-. rewrite Nat.eqb_refl, Po, Lb.
      exists ws. auto.
    + destruct (Nat.eqb_spec b b') as [->|N'].
      * exfalso. apply N. apply (i_inj0 _ _ b'); assumption.
      * exists us. auto.
  - intros b' us L Hb. unfold live in *. cbn [blocks] in Hb. rewrite nth_set in Hb.
    destruct (Nat.eqb_spec b b') as [->|N'].
    + apply (i_live0 b' vs L). exact Lb.
    + apply (i_live0 b' us L Hb).
Qed.

Lemma inv_trace : forall la ea n s p g h v, inv la ea n s p g h ->
  inv la ea n s (P (penv p) (pheap p) (ptrace p ++ [v]) false)
          (G (genv g) (blocks g) (gtrace g ++ [v]) false) h.
Proof.
  intros la ea n s p g h v I. destruct I.
  constructor; cbn [penv pheap ptrace pdone genv blocks gtrace gdone]; try assumption; try reflexivity.
  rewrite i_trace0. reflexivity.
Qed.

Lemma prun_unfold : forall r c p ds, pdone p = false ->
  prun r c (p, ds) =
  match c with
  | Skip => Some (p, ds)
  | Seq a b => match prun r a (p, ds) with Some w1 => prun r b w1 | None => None end
  | New x vs =>
    Some (P (upd (penv p) x (Some (List.length (pheap p), 0))) (pheap p ++ [vs]) (ptrace p) false, ds)
  | Point x y k =>
    match penv p y with
    | Some (o, j) => Some (P (upd (penv p) x (Some (o, j + k))) (pheap p) (ptrace p) false, ds)
    | None => None
    end
  | Write x i v =>
    match punder p x i with
    | Some (o, j, _) =>
      match nth_error (pheap p) o with
      | Some vs => Some (P (penv p) (set_nth o (set_nth j v vs) (pheap p)) (ptrace p) false, ds)
      | None => None
      end
    | None => None
    end
  | Read x i =>
    match punder p x i with
    | Some (_, _, v) => Some (P (penv p) (pheap p) (ptrace p ++ [v]) false, ds)
    | None => None
    end
  | If a b => let '(d, ds') := decide ds in prun r (if d =? 0 then b else a) (p, ds')
  | Loop a => let '(d, ds') := decide ds in iterate d (prun r a) (p, ds')
  | Return =>
    match r with
    | None => Some (P (penv p) (pheap p) (ptrace p) true, ds)
    | Some x =>
      match penv p x with
      | Some _ => Some (P (penv p) (pheap p) (ptrace p) true, ds)
      | None => None
      end
    end
  end.
Proof. intros r c p ds H. destruct c; cbn [prun]; rewrite H; reflexivity. Qed.

Lemma grun_unfold : forall c g ds, gdone g = false ->
  grun c (g, ds) =
  match c with
  | CSkip => Some (g, ds)
  | CSeq a b => match grun a (g, ds) with Some w1 => grun b w1 | None => None end
  | CNew x vs => match gnew g x vs with Some s' => Some (s', ds) | None => None end
  | CPoint x y k =>
    match genv g y with
    | Some (b, j) => Some (G (upd (genv g) x (Some (b, j + k))) (blocks g) (gtrace g) false, ds)
    | None => None
    end
  | CCopy x y k => match gcopy g x y k with Some s' => Some (s', ds) | None => None end
  | CWrite x i v =>
    match gunder g x i with
    | Some (b, j, _) =>
      match nth_error (blocks g) b with
      | Some (Some vs) =>
        Some (G (genv g) (set_nth b (Some (set_nth j v vs)) (blocks g)) (gtrace g) false, ds)
      | _ => None
      end
    | None => None
    end
  | CRead x i =>
    match gunder g x i with
    | Some (_, _, v) => Some (G (genv g) (blocks g) (gtrace g ++ [v]) false, ds)
    | None => None
    end
  | CIf a b => let '(d, ds') := decide ds in grun (if d =? 0 then b else a) (g, ds')
  | CLoop a => let '(d, ds') := decide ds in iterate d (grun a) (g, ds')
  | CReturn xs =>
    match gfree xs (G (genv g) (blocks g) (gtrace g) true) with
    | Some s' => Some (s', ds)
    | None => None
    end
  end.
Proof. intros c g ds H. destruct c; cbn [grun]; rewrite H; reflexivity. Qed.

(* The invariant with the sizes of the two memories. *)
Definition related (la : list var) (ea : var -> option (nat * nat)) (n : nat) (s : scope) (p : pstate) (g : gstate) : Prop :=
  exists h, inv la ea n s p g h /\ n <= List.length (pheap p) /\ n <= List.length (blocks g).

Lemma related_known : forall la ea n s s' p g, known s s' -> related la ea n s p g -> related la ea n s' p g.
Proof.
  intros la ea n s s' p g K (h & I & A & B). exists h.
  split; [exact (inv_known la ea n s s' p g h K I)|auto].
Qed.

Lemma simulate : forall la ea n r c s c' s',
  no_return c = true -> good s -> regular r c s -> visit r c s = Some (c', s') ->
  forall p g ds p' ds', related la ea n s p g -> prun r c (p, ds) = Some (p', ds') ->
  exists g', grun (translate c) (g, ds) = Some (g', ds') /\ related la ea n s' p' g'.
Proof.
  intros la ea n r. induction c; intros s c' s' N Gd Rg V p g ds p' ds' (h & I & Lp & Lb) H;
    rewrite (prun_unfold r _ p ds (i_pdone _ _ _ _ _ _ _ I)) in H;
    rewrite grun_unfold by (apply (i_gdone _ _ _ _ _ _ _ I)); cbn [translate].
  - injection H as <- <-. cbn in V. injection V as <- <-. exists g. split; [reflexivity|].
    exists h. auto.
  - cbn in N. apply andb_true_iff in N. destruct N as [N1 N2].
    cbn in V. destruct (visit r c1 s) as [[a' s1]|] eqn:V1; [|discriminate].
    destruct (visit r c2 s1) as [[b' s2]|] eqn:V2; [|discriminate]. injection V as <- <-. destruct Rg as [R1 R2].
    destruct (prun r c1 (p, ds)) as [[p1 ds1]|] eqn:H1; [|discriminate].
    destruct (IHc1 _ _ _ N1 Gd R1 V1 p g ds p1 ds1) as (g1 & G1 & I1); [exists h; auto|exact H1|].
    rewrite G1. destruct (visit_scope _ _ _ _ _ N1 Gd R1 V1) as (_ & _ & Gd1).
    exact (IHc2 _ _ _ N2 Gd1 (R2 _ _ V1) V2 p1 g1 ds1 p' ds' I1 H).
  - injection H as <- <-. cbn in V.
    assert (exists s0, inv la ea n s0 p g h /\ kind_of s0 x = Some Heap /\
      (forall y, ~ In (y, x) (targets s0)) /\ s' = s0) as (s0 & I0 & K0 & T0 & ->).
    { destruct (kind_of s x) as [k|] eqn:K.
      - destruct (reassign_new s x k) eqn:Re; [|discriminate]. injection V as <- <-.
        exists s. split; [exact I|]. unfold reassign_new in Re.
        destruct (mem x (is_target s)) eqn:M.
        + exfalso. apply mem_In in M. apply (proj1 Gd) in M. apply pointed_In in M. rewrite M in Re.
          discriminate.
        + destruct k; try discriminate. split; [exact K|]. split; [|reflexivity].
          intros y Hy. assert (mem x (is_target s) = true).
          { apply mem_In. apply (proj1 Gd). exists y. exact Hy. }
          congruence.
      - injection V as <- <-. exists (declare s x Heap).
        split; [exact (inv_known la ea n s _ p g h (declare_known s x Heap K) I)|].
        split; [rewrite kind_declare, Nat.eqb_refl; reflexivity|]. split; [|reflexivity].
        cbn. intros y Hy. 
        exact (proj2 Gd y x Hy K). }
    destruct (new_step la ea n s0 p g h x vs I0 K0 T0 Lp Lb) as (g' & h' & E & I' & L').
    rewrite E. exists g'. split; [reflexivity|]. exists h'. split; [exact I'|].
    split; [cbn; rewrite app_length; lia|exact L'].
  - destruct (penv p y) as [[o j]|] eqn:Py; [|discriminate]. injection H as <- <-.
    destruct (visit_point r x y k s c' s' Gd Rg V) as (_ & Kn & _ & Pt).
    destruct (i_env _ _ _ _ _ _ _ I y o j Py) as (b & Gy & Ho). rewrite Gy.
    eexists. split; [reflexivity|]. exists h.
    split; [exact (point_step la ea n s s' p g h x y k o j b I Kn Pt Py Gy Ho)|cbn; auto].
  - cbn in V. destruct (kind_of s x); [|discriminate]. injection V as <- <-.
    destruct (punder p x i) as [[[o j] v0]|] eqn:U; [|discriminate].
    destruct (under_sim la ea n s p g h x i o j v0 I U) as (b & vs & Gu & Ho & Po & Lv).
    rewrite Po in H. injection H as <- <-. rewrite Gu. pose proof Lv as Lv'. unfold live in Lv'.
    rewrite Lv'. eexists. split; [reflexivity|]. exists h.
    split; [apply (write_step la ea n s p g h o b vs); assumption|].
    cbn. rewrite !length_set. auto.
  - cbn in V. destruct (kind_of s x); [|discriminate]. injection V as <- <-.
    destruct (punder p x i) as [[[o j] v0]|] eqn:U; [|discriminate]. injection H as <- <-.
    destruct (under_sim la ea n s p g h x i o j v0 I U) as (b & vs & Gu & Ho & Po & Lv).
    rewrite Gu. eexists. split; [reflexivity|]. exists h.
    split; [apply inv_trace; exact I|cbn; auto].
  - cbn in N. apply andb_true_iff in N. destruct N as [N1 N2].
    cbn in V. destruct (visit r c1 s) as [[a' s1]|] eqn:V1; [|discriminate].
    destruct (visit r c2 s1) as [[b' s2]|] eqn:V2; [|discriminate]. injection V as <- <-. destruct Rg as [R1 R2].
    destruct (visit_scope _ _ _ _ _ N1 Gd R1 V1) as (_ & Kn1 & Gd1).
    destruct (visit_scope _ _ _ _ _ N2 Gd1 (R2 _ _ V1) V2) as (_ & Kn2 & Gd2).
    destruct (decide ds) as [d ds1]. destruct (d =? 0).
    + apply (IHc2 _ _ _ N2 Gd1 (R2 _ _ V1) V2 p g ds1 p' ds'); [|exact H].
      apply (related_known la ea n s s1); [exact Kn1|exists h; auto].
    + destruct (IHc1 _ _ _ N1 Gd R1 V1 p g ds1 p' ds') as (g1 & G1 & I1); [exists h; auto|exact H|].
      exists g1. split; [exact G1|]. exact (related_known la ea n s1 s2 p' g1 Kn2 I1).
  - cbn in N, V. destruct (visit r c s) as [[a' s1]|] eqn:V1; [|discriminate].
    injection V as <- <-. destruct Rg as [R1 R2].
    destruct (visit_scope _ _ _ _ _ N Gd R1 V1) as (_ & Kn1 & Gd1).
    destruct (R2 _ _ V1) as (R3 & a'' & s2 & V2 & Kn2).
    destruct (decide ds) as [d ds1]. clear V1 R1 R2.
    assert (related la ea n s1 p g) as I1 by (apply (related_known la ea n s s1); [exact Kn1|exists h; auto]).
    clear I Lp Lb. revert p g ds1 I1 H. induction d as [|d IHd]; intros p g ds1 I1 H; cbn in H |- *.
    + injection H as <- <-. exists g. split; [reflexivity|exact I1].
    + destruct (prun r c (p, ds1)) as [[p1 ds2]|] eqn:H1; [|discriminate].
      destruct (IHc _ _ _ N Gd1 R3 V2 p g ds1 p1 ds2 I1 H1) as (g1 & G1 & I2).
      rewrite G1. apply (IHd p1 g1 ds2); [|exact H].
      exact (related_known la ea n s2 s1 p1 g1 Kn2 I2).
  - discriminate.
Qed.

(** ** Releases *)

Lemma visit_nodup : forall r c s c' s', visit r c s = Some (c', s') ->
  NoDup (map fst (kinds s)) -> NoDup (map fst (kinds s')).
Proof.
  assert (forall s x k, kind_of s x = None -> NoDup (map fst (kinds s)) ->
    NoDup (map fst (kinds (declare s x k)))) as De.
  { intros s x k K N. cbn. constructor; [|exact N]. intros H. apply in_map_iff in H.
    destruct H as ([y ky] & E & H). cbn in E. subst y. unfold kind_of in K.
    destruct (find (fun p => fst p =? x) (kinds s)) eqn:F; [discriminate|].
    pose proof (find_none _ _ F _ H) as Q. cbn in Q. rewrite Nat.eqb_refl in Q. discriminate. }
  assert (forall s x y s', indicate s x y = Some s' -> kinds s' = kinds s) as In_.
  { intros s x y s' H. unfold indicate in H. destruct (x =? y); [congruence|].
    destruct (kind_of s y) as [[| |]|]; try discriminate; try (injection H as <-; reflexivity).
    destruct (targets_of s y); [discriminate|]. injection H as <-. reflexivity. }
  assert (forall s y, kinds (ensure_target s y) = kinds s) as En.
  { intros. unfold ensure_target. destruct (kind_of s y) as [[| |]|]; reflexivity. }
  intros r. induction c; intros s c' s' H N; cbn [visit] in H.
  - injection H as <- <-. exact N.
  - destruct (visit r c1 s) as [[a' s1]|] eqn:V1; [|discriminate].
    destruct (visit r c2 s1) as [[b' s2]|] eqn:V2; [|discriminate]. injection H as <- <-. eauto.
  - destruct (kind_of s x) as [k|] eqn:K.
    + destruct (reassign_new s x k); [|discriminate]. injection H as <- <-. exact N.
    + injection H as <- <-. apply De; assumption.
  - destruct (kind_of s y) as [ky|]; [|discriminate]. cbv zeta in H. rewrite kind_ensure in H.
    destruct (kind_of s x) as [kx|] eqn:K.
    + destruct (_ && _); [discriminate|]. destruct kx; try discriminate.
      * destruct (mem _ _); [|discriminate]. injection H as <- <-. rewrite En. exact N.
      * destruct (indicate _ _ _) eqn:I; [|discriminate]. injection H as <- <-.
        rewrite (In_ _ _ _ _ I), En. exact N.
    + destruct (indicate _ _ _) eqn:I; [|discriminate]. injection H as <- <-.
      rewrite (In_ _ _ _ _ I). apply De; [rewrite kind_ensure; exact K|]. rewrite En. exact N.
  - destruct (kind_of s x); [|discriminate]. injection H as <- <-. exact N.
  - destruct (kind_of s x); [|discriminate]. injection H as <- <-. exact N.
  - destruct (visit r c1 s) as [[a' s1]|] eqn:V1; [|discriminate].
    destruct (visit r c2 s1) as [[b' s2]|] eqn:V2; [|discriminate]. injection H as <- <-. eauto.
  - destruct (visit r c s) as [[a' s1]|] eqn:V1; [|discriminate]. injection H as <- <-. eauto.
  - destruct (match r with Some x => kind_of s x | None => Some Heap end); [|discriminate].
    unfold check_targets in H. destruct (existsb _ _); [discriminate|].
    injection H as <- <-. exact N.
Qed.

Lemma kind_In : forall l x k, NoDup (map fst l) -> In (x, k) l ->
  forall t m, kind_of (Scope l t m) x = Some k.
Proof.
  intros l x k N H t m. unfold kind_of. cbn [kinds]. induction l as [|[y ky] l IH]; [contradiction|].
  cbn in *. inversion N as [|? ? N1 N2]; subst. destruct H as [E|H].
  - injection E as -> ->. rewrite Nat.eqb_refl. reflexivity.
  - destruct (y =? x) eqn:E.
    + apply Nat.eqb_eq in E. subst y. exfalso. apply N1. apply in_map_iff. exists (x, k). auto.
    + apply IH; assumption.
Qed.

Lemma kind_In_inv : forall s x k, kind_of s x = Some k -> In (x, k) (kinds s).
Proof.
  intros s x k H. unfold kind_of in H.
  destruct (find (fun p => fst p =? x) (kinds s)) as [[y ky]|] eqn:F; [|discriminate].
  apply find_some in F. destruct F as [F E]. cbn in *. apply Nat.eqb_eq in E. subst.
  injection H as ->. exact F.
Qed.

Definition kept (r : option var) (x : var) : Prop := r = Some x.

Lemma frees_spec : forall s r x, NoDup (map fst (kinds s)) ->
  (In x (frees s r) <-> kind_of s x = Some Heap /\ ~ kept r x).
Proof.
  intros s r x N. unfold frees. rewrite in_map_iff. split.
  - intros ([y k] & E & H). cbn in E. subst y. apply filter_In in H. destruct H as [H G].
    cbn in G. destruct k; try discriminate. split.
    + destruct s as [ks ts ms]. apply kind_In; assumption.
    + cbn in G. destruct r as [y|]; unfold kept; [|discriminate]. intros E. injection E as ->.
      rewrite Nat.eqb_refl in G. discriminate.
  - intros [K R]. exists (x, Heap). split; [reflexivity|]. apply filter_In.
    split; [apply kind_In_inv; exact K|]. cbn. destruct r as [y|]; [|reflexivity].
    destruct (Nat.eqb_spec x y) as [->|]; [|reflexivity]. exfalso. apply R. reflexivity.
Qed.

Lemma frees_nodup : forall s r, NoDup (map fst (kinds s)) -> NoDup (frees s r).
Proof.
  intros s r N. unfold frees. induction (kinds s) as [|[y k] l IH]; cbn; [constructor|].
  cbn in N. inversion N as [|? ? N1 N2]; subst.
  match goal with |- context [if ?c then _ else _] => destruct c end; cbn; [|apply IH; exact N2].
  constructor; [|apply IH; exact N2]. intros H. apply N1. apply in_map_iff in H.
  destruct H as (q & <- & Hq). apply filter_In in Hq. apply in_map. exact (proj1 Hq).
Qed.

Lemma gfree_spec : forall xs g, NoDup xs ->
  (forall x b k, In x xs -> genv g x = Some (b, k) -> exists vs, live g b vs) ->
  (forall x y b k k', In x xs -> In y xs -> genv g x = Some (b, k) -> genv g y = Some (b, k') -> x = y) ->
  exists g', gfree xs g = Some g' /\ genv g' = genv g /\ gtrace g' = gtrace g /\
    gdone g' = gdone g /\
    (forall b, (forall x k, In x xs -> genv g x <> Some (b, k)) ->
       nth_error (blocks g') b = nth_error (blocks g) b) /\
    (forall x b k vs, In x xs -> genv g x = Some (b, k) -> ~ live g' b vs).
Proof.
  induction xs as [|x xs IH]; intros g N Lv One.
  - exists g. cbn. split; [reflexivity|]. do 3 (split; [reflexivity|]). split; [reflexivity|].
    intros x b k vs [].
  - inversion N as [|? ? N1 N2]; subst. cbn.
    destruct (genv g x) as [[b k]|] eqn:Gx.
    + destruct (Lv x b k (or_introl eq_refl) Gx) as (vs & Lb). unfold live in Lb. rewrite Lb.
      set (g1 := G (genv g) (set_nth b None (blocks g)) (gtrace g) (gdone g)).
      assert (forall y b' k', In y xs -> genv g y = Some (b', k') -> b' <> b) as Ot.
      { intros y b' k' Hy Gy ->. assert (y = x) as ->.
        { eapply One; [right; exact Hy|left; reflexivity|exact Gy|exact Gx]. }
        exact (N1 Hy). }
      destruct (IH g1 N2) as (g' & E & Ee & Et & Ed & Ek & Ef).
      { intros y b' k' Hy Gy. cbn in Gy. destruct (Lv y b' k' (or_intror Hy) Gy) as (ws & Lw).
        exists ws. unfold live in *. cbn. rewrite nth_set.
        destruct (Nat.eqb_spec b b') as [->|]; [|exact Lw].
        exfalso. exact (Ot y b' k' Hy Gy eq_refl). }
      { intros y z b' k1 k2 Hy Hz Gy Gz. cbn in Gy, Gz. eapply One; [right; exact Hy|right; exact Hz| |]; eassumption. }
      exists g'. split; [exact E|]. split; [exact Ee|]. split; [exact Et|]. split; [exact Ed|]. split.
      * intros b' Hb. rewrite (Ek b').
        -- cbn. rewrite nth_set. destruct (Nat.eqb_spec b b') as [->|]; [|reflexivity].
           exfalso. exact (Hb x k (or_introl eq_refl) Gx).
        -- intros y k' Hy. cbn. apply Hb. right. exact Hy.
      * intros y b' k' ws [<-|Hy] Gy.
        -- rewrite Gx in Gy. injection Gy as <- <-. unfold live. rewrite (Ek b).
           ++ cbn. rewrite nth_set, Nat.eqb_refl, Lb. discriminate.
           ++ intros y k' Hy Gy. cbn in Gy. exact (Ot y b k' Hy Gy eq_refl).
        -- apply (Ef y b' k' ws Hy). cbn. exact Gy.
    + destruct (IH g N2) as (g' & E & Ee & Et & Ed & Ek & Ef).
      { intros y b' k' Hy. apply Lv. right. exact Hy. }
      { intros y z b' k1 k2 Hy Hz. apply One; right; assumption. }
      exists g'. split; [exact E|]. split; [exact Ee|]. split; [exact Et|]. split; [exact Ed|]. split.
      * intros b' Hb. apply Ek. intros y k' Hy. apply Hb. right. exact Hy.
      * intros y b' k' ws [<-|Hy] Gy; [congruence|]. exact (Ef y b' k' ws Hy Gy).
Qed.

(** ** A call *)

Lemma kind_start : forall l x k, kind_of (start_scope l) x = Some k <-> k = Argument /\ In x l.
Proof.
  intros l x k. unfold kind_of, start_scope. cbn [kinds]. induction l as [|y l IH]; cbn.
  - split; [discriminate|tauto].
  - destruct (Nat.eqb_spec y x) as [->|N].
    + cbn. split; [intros E; injection E as <-; auto|intros [-> _]; reflexivity].
    + rewrite IH. tauto.
Qed.

Lemma bind_In : forall l ps x q, bind l ps x = Some q -> In x l /\ In q ps.
Proof.
  induction l as [|y l IH]; intros [|p ps] x q H; cbn in H; try discriminate.
  unfold upd in H. destruct (Nat.eqb_spec x y) as [->|].
  - injection H as ->. split; left; reflexivity.
  - destruct (IH ps x q H). split; right; assumption.
Qed.

Lemma start_related : forall l ps arrays,
  good_arguments (Fun l Skip None) (List.length arrays) ps ->
  related l (bind l ps) (List.length arrays) (start_scope l)
    (P (bind l ps) arrays [] false) (G (bind l ps) (map Some arrays) [] false).
Proof.
  intros l ps arrays (_ & _ & Ok).
  exists (fun o => if o <? List.length arrays then Some o else None).
  split; [|cbn; rewrite map_length; auto].
  assert (forall x k, kind_of (start_scope l) x = Some k -> k = Argument) as Ka.
  { intros x k H. apply kind_start in H. tauto. }
  assert (forall x q, bind l ps x = Some q -> fst q < List.length arrays) as Bb.
  { intros x q H. apply bind_In in H. apply Ok. tauto. }
  constructor; cbn [penv pheap ptrace pdone genv blocks gtrace gdone]; unfold live; cbn [blocks].
  - intros x o k H. exists o. split; [exact H|]. pose proof (Bb x _ H) as B. cbn in B.
    apply Nat.ltb_lt in B. rewrite B. reflexivity.
  - auto.
  - intros o o' b H H'. destruct (o <? _); [|discriminate]. destruct (o' <? _); [|discriminate].
    congruence.
  - intros o b H. destruct (Nat.ltb_spec o (List.length arrays)) as [L|]; [|discriminate].
    injection H as <-. destruct (nth_error arrays o) as [vs|] eqn:E.
    + exists vs. split; [reflexivity|]. rewrite nth_error_map, E. reflexivity.
    + apply nth_error_None in E. lia.
  - intros o L. apply Nat.ltb_lt in L. rewrite L. reflexivity.
  - intros x b k H. apply Ka in H. discriminate.
  - intros x b k _ H. exact (Bb x _ H).
  - intros x y b k k' H. apply Ka in H. discriminate.
  - intros x o k H. apply Ka in H. discriminate.
  - intros x H. destruct (bind l ps x) as [q|] eqn:E; [|congruence]. apply bind_In in E.
    assert (kind_of (start_scope l) x = Some Argument) as -> by (apply kind_start; tauto).
    discriminate.
  - intros b vs L H. rewrite nth_error_map in H.
    assert (nth_error arrays b = None) as E by (apply nth_error_None; lia).
    rewrite E in H. discriminate.
  - intros x H. split; [apply kind_start; auto|reflexivity].
  - reflexivity.
  - reflexivity.
  - reflexivity.
Qed.

Lemma start_good : forall l, good (start_scope l).
Proof.
  intros l. split.
  - intros t. cbn. split; [contradiction|]. intros [p []].
  - intros p t [].
Qed.

Lemma start_nodup : forall l, NoDup l -> NoDup (map fst (kinds (start_scope l))).
Proof.
  intros l N. cbn. rewrite map_map. cbn. rewrite map_id. exact N.
Qed.

(* The state after the releases of all the local arrays but the result. *)
Lemma release : forall la ea n s p g h r,
  inv la ea n s p g h -> NoDup (map fst (kinds s)) ->
  forall g0, genv g0 = genv g -> blocks g0 = blocks g ->
  exists g', gfree (frees s r) g0 = Some g' /\ genv g' = genv g /\ gtrace g' = gtrace g0 /\
    gdone g' = gdone g0 /\
    (forall i, i < n -> nth_error (blocks g') i = option_map Some (nth_error (pheap p) i)) /\
    (forall b vs, n <= b -> live g' b vs -> exists x, kept r x /\ genv g x = Some (b, 0)) /\
    (forall x o k, kind_of s x = Some Heap -> kept r x -> penv p x = Some (o, k) ->
       exists b vs, genv g x = Some (b, k) /\ nth_error (pheap p) o = Some vs /\ live g' b vs).
Proof.
  intros la ea n s p g h r I N g0 Eg Eb. destruct I.
  destruct (gfree_spec (frees s r) g0 (frees_nodup s r N)) as (g' & E & Ee & Et & Ed & Ek & Ef).
  { intros x b k Hx Gx. rewrite Eg in Gx.
    destruct (penv p x) as [[o k']|] eqn:Px; [|rewrite (i_none0 x Px) in Gx; discriminate].
    destruct (i_env0 x o k' Px) as (b' & Gx' & Ho). rewrite Gx in Gx'. injection Gx' as <- <-.
    destruct (i_heap0 o b Ho) as (vs & _ & L). exists vs. unfold live in *. rewrite Eb. exact L. }
  { intros x y b k k' Hx Hy Gx Gy. rewrite Eg in *.
    apply (frees_spec s r x N) in Hx. apply (frees_spec s r y N) in Hy.
    eapply i_one0; [apply Hx|apply Hy| |]; eassumption. }
  exists g'. split; [exact E|]. split; [congruence|]. split; [exact Et|]. split; [exact Ed|].
  rewrite Eg in *. rewrite Eb in *. split; [|split].
  - intros i L. destruct (i_heap0 i i (i_id0 i L)) as (vs & Pi & Li). rewrite Ek.
    + unfold live in Li. rewrite Pi. exact Li.
    + intros x k Hx Gx. apply (frees_spec s r x N) in Hx.
      destruct (i_own0 x i k (proj1 Hx) Gx). lia.
  - intros b vs L Lb.
    assert (exists vs0, live g b vs0) as (vs0 & L0).
    { destruct (nth_error (blocks g) b) as [[ws|]|] eqn:Q.
      - exists ws. exact Q.
      - assert (nth_error (blocks g') b = nth_error (blocks g) b) as X.
        { apply Ek. intros x k Hx Gx.
          destruct (penv p x) as [[o k']|] eqn:Px; [|rewrite (i_none0 x Px) in Gx; discriminate].
          destruct (i_env0 x o k' Px) as (b' & Gx' & Ho). rewrite Gx in Gx'. injection Gx' as <- <-.
          destruct (i_heap0 o b Ho) as (us & _ & Lu). unfold live in Lu. congruence. }
        unfold live in Lb. congruence.
      - assert (nth_error (blocks g') b = nth_error (blocks g) b) as X.
        { apply Ek. intros x k Hx Gx.
          destruct (penv p x) as [[o k']|] eqn:Px; [|rewrite (i_none0 x Px) in Gx; discriminate].
          destruct (i_env0 x o k' Px) as (b' & Gx' & Ho). rewrite Gx in Gx'. injection Gx' as <- <-.
          destruct (i_heap0 o b Ho) as (us & _ & Lu). unfold live in Lu. congruence. }
        unfold live in Lb. congruence. }
    destruct (i_live0 b vs0 L L0) as (x & Kx & Gx). exists x. split; [|exact Gx].
    destruct r as [y|].
    + destruct (Nat.eq_dec y x) as [->|Nx]; [reflexivity|]. exfalso.
      apply (Ef x b 0 vs); [|exact Gx|exact Lb]. apply (frees_spec s (Some y) x N).
      split; [exact Kx|]. unfold kept. congruence.
    + exfalso. apply (Ef x b 0 vs); [|exact Gx|exact Lb]. apply (frees_spec s None x N).
      split; [exact Kx|]. unfold kept. discriminate.
  - intros x o k Kx Kp Px. destruct (i_env0 x o k Px) as (b & Gx & Ho).
    destruct (i_heap0 o b Ho) as (vs & Po & L). exists b, vs. split; [exact Gx|].
    split; [exact Po|]. unfold live. rewrite Ek; [exact L|].
    intros y k' Hy Gy. apply (frees_spec s r y N) in Hy. destruct Hy as [Ky Ny].
    apply Ny. assert (y = x) as -> by (eapply i_one0; eassumption). exact Kp.
Qed.

Lemma check_alias : forall s r s' t, check_targets s (Some r) = Some s' ->
  In (r, t) (targets s) -> kind_of s t <> Some Heap \/ t = r.
Proof.
  intros s r s' t H Ht. destruct (Nat.eq_dec t r) as [->|N]; [right; reflexivity|]. left.
  intros K. unfold check_targets in H.
  match type of H with (if ?c then _ else _) = _ => destruct c eqn:E end; [discriminate|].
  assert (existsb (fun p => is_local s (snd p) && negb (snd p =? r))
            (targets (pop_pointers s (Some r))) = true) as X; [|congruence].
  apply existsb_exists. exists (r, t). split.
  - cbn. apply filter_In. split; [exact Ht|]. cbn. rewrite Nat.eqb_refl.
    destruct (is_local s r); reflexivity.
  - cbn. unfold is_local. rewrite K. apply Nat.eqb_neq in N. rewrite N. reflexivity.
Qed.

Lemma visit_argument : forall r c s c' s' x, visit r c s = Some (c', s') ->
  kind_of s' x = Some Argument -> kind_of s x = Some Argument.
Proof.
  assert (forall s s' x, kinds s' = kinds s -> kind_of s' x = kind_of s x) as Kk
    by (intros s s' x E; unfold kind_of; rewrite E; reflexivity).
  assert (forall s x y s', indicate s x y = Some s' -> kinds s' = kinds s) as In_.
  { intros s x y s' H. unfold indicate in H. destruct (x =? y); [congruence|].
    destruct (kind_of s y) as [[| |]|]; try discriminate; try (injection H as <-; reflexivity).
    destruct (targets_of s y); [discriminate|]. injection H as <-. reflexivity. }
  assert (forall s x k z, k <> Argument -> kind_of (declare s x k) z = Some Argument ->
            kind_of s z = Some Argument) as De.
  { intros s x k z N H. unfold kind_of, declare in *. cbn in H.
    destruct (x =? z); [cbn in H; congruence|exact H]. }
  intros r. induction c; intros s c' s' z H N; cbn [visit] in H.
  - injection H as <- <-. exact N.
  - destruct (visit r c1 s) as [[a' s1]|] eqn:V1; [|discriminate].
    destruct (visit r c2 s1) as [[b' s2]|] eqn:V2; [|discriminate]. injection H as <- <-. eauto.
  - destruct (kind_of s x) as [k|] eqn:K.
    + destruct (reassign_new s x k); [|discriminate]. injection H as <- <-. exact N.
    + injection H as <- <-. eapply De; [|exact N]. discriminate.
  - destruct (kind_of s y) as [ky|]; [|discriminate]. cbv zeta in H. rewrite kind_ensure in H.
    destruct (kind_of s x) as [kx|] eqn:K.
    + destruct (_ && _); [discriminate|]. destruct kx; try discriminate.
      * destruct (mem _ _); [|discriminate]. injection H as <- <-. rewrite kind_ensure in N. exact N.
      * destruct (indicate _ _ _) eqn:I; [|discriminate]. injection H as <- <-.
        rewrite (Kk _ _ z (In_ _ _ _ _ I)), kind_ensure in N. exact N.
    + destruct (indicate _ _ _) eqn:I; [|discriminate]. injection H as <- <-.
      rewrite (Kk _ _ z (In_ _ _ _ _ I)) in N. apply De in N; [|discriminate].
      rewrite kind_ensure in N. exact N.
  - destruct (kind_of s x); [|discriminate]. injection H as <- <-. exact N.
  - destruct (kind_of s x); [|discriminate]. injection H as <- <-. exact N.
  - destruct (visit r c1 s) as [[a' s1]|] eqn:V1; [|discriminate].
    destruct (visit r c2 s1) as [[b' s2]|] eqn:V2; [|discriminate]. injection H as <- <-. eauto.
  - destruct (visit r c s) as [[a' s1]|] eqn:V1; [|discriminate]. injection H as <- <-. eauto.
  - destruct (match r with Some x => kind_of s x | None => Some Heap end); [|discriminate].
    unfold check_targets in H. destruct (existsb _ _); [discriminate|].
    injection H as <- <-. exact N.
Qed.

Lemma position_bind : forall l ps t, List.length ps = List.length l -> In t l ->
  exists i, position t l = Some i /\ nth_error ps i = bind l ps t.
Proof.
  induction l as [|y l IH]; intros [|q ps] t L H; cbn in *; try discriminate; try contradiction.
  unfold upd. destruct (Nat.eqb_spec y t) as [->|N].
  - exists 0. rewrite Nat.eqb_refl. auto.
  - destruct H as [H|H]; [contradiction|]. destruct (IH ps t (eq_add_S _ _ L) H) as (i & P & E).
    rewrite P. exists (S i). destruct (Nat.eqb_spec t y) as [->|]; [contradiction|]. auto.
Qed.

Lemma positions_In : forall l ts ns t i, positions ts l = Some ns -> In t ts ->
  position t l = Some i -> In i ns.
Proof.
  intros l. induction ts as [|u ts IH]; intros ns t i H Ht E; [contradiction|]. cbn in H.
  destruct (position u l) as [j|] eqn:Pj; [|discriminate].
  destruct (positions ts l) as [ms|] eqn:Pm; [|discriminate]. injection H as <-.
  destruct Ht as [<-|Ht]; [left; congruence|right; eapply IH; eauto].
Qed.

Lemma pop_keeps : forall s r s' t, check_targets s (Some r) = Some s' ->
  In (r, t) (targets s) -> In (r, t) (targets s') /\ forall x, kind_of s' x = kind_of s x.
Proof.
  intros s r s' t H Ht. unfold check_targets in H. destruct (existsb _ _); [discriminate|].
  injection H as <-. split; [|reflexivity]. cbn. apply filter_In. split; [exact Ht|]. cbn.
  rewrite Nat.eqb_refl. destruct (is_local s r); reflexivity.
Qed.

Lemma call_correct : forall f c arrays ps ds p,
  compile f = Some c -> regular_function f ->
  good_arguments f (List.length arrays) ps ->
  pcall f arrays ps ds = Some p ->
  exists g, gcall f c arrays ps ds = Some g /\
    same_effect f (List.length arrays) p g /\
    (forall r b k, result f = Some r -> ~ In r (args f) -> genv g r = Some (b, k) ->
       b < List.length arrays ->
       exists i k', In i (cmap c) /\ nth_error ps i = Some (b, k')).
Proof.
  intros [l bd r] c arrays ps ds p C [RL RG] GA H. unfold compile in C. unfold pcall in H.
  unfold gcall. unfold return_last in RL. cbn [result body args] in *.
  set (n := List.length arrays) in *.
  pose proof (start_related l ps arrays GA) as St. fold n in St.
  pose proof (start_good l) as Gd0. pose proof (start_nodup l (proj1 GA)) as Nd0.
  cbn [args] in Nd0. destruct r as [r|].
  - destruct RL as (b & -> & Nr). specialize (RG b eq_refl).
    cbn [visit] in C.
    destruct (visit (Some r) b (start_scope l)) as [[b' s1]|] eqn:Vb; [|discriminate].
    destruct (kind_of s1 r) as [kr|] eqn:Kr; [|discriminate].
    destruct (check_targets s1 (Some r)) as [s'|] eqn:Ck; [|discriminate].
    rewrite prun_unfold in H by reflexivity.
    destruct (prun (Some r) b (P (bind l ps) arrays [] false, ds)) as [[p1 ds1]|] eqn:H1; [|discriminate].
    destruct (simulate l (bind l ps) n (Some r) b _ _ _ Nr Gd0 RG Vb _ _ ds p1 ds1 St H1)
      as (g1 & G1 & (h & I & Lp & Lb)).
    destruct (visit_scope _ _ _ _ _ Nr Gd0 RG Vb) as (Tr & _ & Gd1).
    pose proof (visit_nodup _ _ _ _ _ Vb Nd0) as Nd1.
    rewrite prun_unfold in H by (apply (i_pdone _ _ _ _ _ _ _ I)).
    destruct (penv p1 r) as [[o k]|] eqn:Pr; [|discriminate]. injection H as <-.
    assert (cbody c = CSeq b' (CReturn (frees s1 (Some r)))) as Cb.
    { destruct (check_targets s' (Some r)) as [s2|]; [|discriminate].
      destruct (kind_of s2 r) as [[| |]|]; try (injection C as <-; reflexivity).
      destruct (positions _ _); [|discriminate]. injection C as <-. reflexivity. }
    rewrite Cb, Tr, grun_unfold by reflexivity. rewrite G1.
    rewrite grun_unfold by (apply (i_gdone _ _ _ _ _ _ _ I)).
    destruct (release l (bind l ps) n s1 p1 g1 h (Some r) I Nd1
                (G (genv g1) (blocks g1) (gtrace g1) true) eq_refl eq_refl)
      as (g' & E & Ee & Et & Ed & Ei & El & Eo).
    rewrite E. cbn in Ed. rewrite Ed. exists g'. split; [reflexivity|]. split.
    { unfold same_effect. cbn [result penv pheap ptrace]. split.
    { rewrite Et. cbn. apply (i_trace _ _ _ _ _ _ _ I). }
    split; [exact Ei|]. split.
    + intros x Hx. injection Hx as <-. unfold pview, gview. cbn [penv pheap]. rewrite Pr, Ee.
      assert (exists b0 vs, genv g1 r = Some (b0, k) /\ nth_error (pheap p1) o = Some vs /\ live g' b0 vs)
        as (b0 & vs & A & B & D).
      { assert (forall b0, genv g1 r = Some (b0, k) -> h o = Some b0 -> b0 < n ->
          exists b0 vs, genv g1 r = Some (b0, k) /\ nth_error (pheap p1) o = Some vs /\ live g' b0 vs) as Low.
        { intros b0 A B L. destruct (i_heap _ _ _ _ _ _ _ I o b0 B) as (vs & Po & Lv).
          assert (o = b0) as ->.
          { apply (i_inj _ _ _ _ _ _ _ I _ _ b0); [exact B|]. apply (i_id _ _ _ _ _ _ _ I). exact L. }
          exists b0, vs. split; [exact A|]. split; [exact Po|]. unfold live. rewrite (Ei b0 L), Po. reflexivity. }
        destruct (i_env _ _ _ _ _ _ _ I r o k Pr) as (b0 & A & B).
        destruct kr.
        - apply (Low b0 A B). exact (i_arg _ _ _ _ _ _ _ I r b0 k Kr A).
        - apply (Eo r o k Kr eq_refl Pr).
        - destruct (i_ptr _ _ _ _ _ _ _ I r o k Kr Pr) as (t & k' & Ht & Kt & Pt).
          destruct (check_alias s1 r s' t Ck Ht) as [Nh|E0].
          + destruct Kt as [Kt|Kt]; [contradiction|].
            destruct (i_env _ _ _ _ _ _ _ I t o k' Pt) as (b1 & A1 & B1).
            apply (Low b0 A B). rewrite B in B1. injection B1 as <-.
            exact (i_arg _ _ _ _ _ _ _ I t b0 k' Kt A1).
          + subst t. destruct Kt; congruence. }
      unfold live in D. rewrite A, B. cbn [option_map]. rewrite D. split; [discriminate|reflexivity].
    + intros b0 vs L Lv. destruct (El b0 vs L Lv) as (x & Kp & Gx). exists x, 0.
      split; [exact Kp|]. rewrite Ee. exact Gx. }
    intros r0 b0 k0 Er Na Gr L. injection Er as <-. rewrite Ee in Gr.
    destruct (i_env _ _ _ _ _ _ _ I r o k Pr) as (b1 & A & B). rewrite Gr in A.
    injection A as <- <-. destruct kr.
    { exfalso. apply Na. cbn [args].
      exact (proj2 (proj1 (kind_start l r Argument) (visit_argument _ _ _ _ _ r Vb Kr))). }
    { destruct (i_own _ _ _ _ _ _ _ I r b0 k0 Kr Gr). lia. }
    destruct (i_ptr _ _ _ _ _ _ _ I r o k0 Kr Pr) as (t & k' & Ht & Kt & Pt).
    assert (o = b0) as ->.
    { apply (i_inj _ _ _ _ _ _ _ I _ _ b0); [exact B|]. apply (i_id _ _ _ _ _ _ _ I). exact L. }
    assert (kind_of s1 t = Some Argument) as Ka.
    { destruct (check_alias s1 r s' t Ck Ht) as [Nh|E0].
      - destruct Kt as [Kt|Kt]; [contradiction|exact Kt].
      - subst t. destruct Kt; congruence. }
    pose proof (proj2 (proj1 (kind_start l t Argument) (visit_argument _ _ _ _ _ t Vb Ka))) as Hl.
    destruct (position_bind l ps t (proj1 (proj2 GA)) Hl) as (i & Pi & Ni).
    rewrite <- (proj2 (i_same _ _ _ _ _ _ _ I t Hl)), Pt in Ni.
    exists i, k'. split; [|exact Ni].
    destruct (check_targets s' (Some r)) as [s2|] eqn:Ck2; [|discriminate].
    destruct (pop_keeps s1 r s' t Ck Ht) as [Ht' Ks'].
    destruct (pop_keeps s' r s2 t Ck2 Ht') as [Ht2 Ks2].
    rewrite Ks2, Ks', Kr in C.
    destruct (positions (targets_of s2 r) l) as [ns|] eqn:Ps; [|discriminate]. injection C as <-.
    cbn [cmap]. apply (positions_In l _ ns t i Ps); [|exact Pi].
    unfold targets_of. apply in_map_iff. exists (r, t). split; [reflexivity|].
    apply filter_In. split; [exact Ht2|]. cbn. apply Nat.eqb_refl.
  - destruct (visit None bd (start_scope l)) as [[b' s1]|] eqn:Vb; [|discriminate].
    destruct (check_targets s1 None) as [s'|] eqn:Ck; [|discriminate]. injection C as <-.
    cbn [cbody cend].
    destruct (prun None bd (P (bind l ps) arrays [] false, ds)) as [[p1 ds1]|] eqn:H1; [|discriminate].
    injection H as <-.
    destruct (simulate l (bind l ps) n None bd _ _ _ RL Gd0 RG Vb _ _ ds p1 ds1 St H1)
      as (g1 & G1 & (h & I & Lp & Lb)).
    destruct (visit_scope _ _ _ _ _ RL Gd0 RG Vb) as (Tr & _ & Gd1).
    pose proof (visit_nodup _ _ _ _ _ Vb Nd0) as Nd1.
    rewrite Tr, G1, (i_gdone _ _ _ _ _ _ _ I).
    destruct (release l (bind l ps) n s1 p1 g1 h None I Nd1 g1 eq_refl eq_refl)
      as (g' & E & Ee & Et & Ed & Ei & El & Eo).
    exists g'. split; [exact E|]. split; [|discriminate].
    split; [rewrite Et; apply (i_trace _ _ _ _ _ _ _ I)|]. split; [exact Ei|]. split; [discriminate|].
    intros b vs L Lv. destruct (El b vs L Lv) as (x & Kp & _). discriminate Kp.
Qed.

Lemma straight_regular : forall r c s, straight c = true -> regular r c s.
Proof.
  intros r. induction c; intros s H; cbn in *; try exact I; try discriminate.
  - apply andb_true_iff in H. destruct H as [H1 H2]. split; [apply IHc1; exact H1|].
    intros a' s1 _. apply IHc2. exact H2.
  - intros E. apply negb_true_iff, Nat.eqb_neq in H. contradiction.
  - apply andb_true_iff in H. destruct H as [H1 H2]. split; [apply IHc1; exact H1|].
    intros a' s1 _. apply IHc2. exact H2.
Qed.

Lemma straight_function : forall f, straight (body f) = true -> return_last f -> regular_function f.
Proof.
  intros f H R. split; [exact R|]. destruct (result f) as [r|].
  - intros b E. apply straight_regular. rewrite E in H. cbn in H. apply andb_true_iff in H. tauto.
  - apply straight_regular. exact H.
Qed.

(** ** Arguments are not assigned *)

Lemma indicate_kinds : forall s x y s', indicate s x y = Some s' -> kinds s' = kinds s.
Proof.
  intros s x y s' H. unfold indicate in H. destruct (x =? y); [congruence|].
  destruct (kind_of s y) as [[]|]; try discriminate; try (injection H as <-; reflexivity).
  destruct (targets_of s y); [discriminate|]. injection H as <-. reflexivity.
Qed.

Lemma ensure_kinds : forall s y, kinds (ensure_target s y) = kinds s.
Proof. intros s y. unfold ensure_target. destruct (kind_of s y) as [[]|]; reflexivity. Qed.

Lemma kind_kinds : forall s s' x, kinds s' = kinds s -> kind_of s' x = kind_of s x.
Proof. intros s s' x H. unfold kind_of. rewrite H. reflexivity. Qed.

Lemma visit_rebinds : forall r c s c' s' x,
  visit r c s = Some (c', s') -> kind_of s x = Some Argument ->
  kind_of s' x = Some Argument /\ ~ rebinds x c.
Proof.
  intros r. induction c; intros s c' s' z H K; cbn [visit rebinds] in *.
  - injection H as <- <-. tauto.
  - destruct (visit r c1 s) as [[a' s1]|] eqn:E1; [|discriminate].
    destruct (visit r c2 s1) as [[b' s2]|] eqn:E2; [|discriminate]. injection H as <- <-.
    destruct (IHc1 _ _ _ _ E1 K) as (K1 & N1). destruct (IHc2 _ _ _ _ E2 K1) as (K2 & N2). tauto.
  - destruct (kind_of s x) as [k|] eqn:E.
    + destruct (reassign_new s x k) eqn:R; [|discriminate]. injection H as <- <-.
      split; [exact K|]. intros ->. rewrite K in E. injection E as <-. unfold reassign_new in R.
      destruct (mem x (is_target s)), (pointed_at s x); discriminate.
    + injection H as <- <-. assert (z <> x) as D by congruence. split; [|exact D].
      unfold kind_of, declare in *. cbn in *.
      try (destruct (x =? z) eqn:Q; [apply Nat.eqb_eq in Q; congruence|]).
      try (destruct (z =? x) eqn:Q; [apply Nat.eqb_eq in Q; congruence|]). exact K.
  - destruct (kind_of s y) as [ky|] eqn:Ey; [|discriminate]. cbv zeta in H.
    pose proof (ensure_kinds s y) as EK. set (s1 := ensure_target s y) in *.
    pose proof (kind_kinds s s1 x EK) as K1. rewrite K1 in H.
    pose proof (kind_kinds s s1 z EK) as K1z. rewrite K in K1z.
    destruct (kind_of s x) as [kx|] eqn:Ex.
    + destruct (mem x (is_target s1) && pointed_at s1 x); [discriminate|].
      destruct kx; try discriminate.
      * destruct (mem x (is_target s1)); [|discriminate]. injection H as <- <-.
        split; [exact K1z|congruence].
      * destruct (indicate s1 x y) as [s2|] eqn:I; [|discriminate]. injection H as <- <-.
        split; [rewrite (kind_kinds _ _ z (indicate_kinds _ _ _ _ I)); exact K1z|congruence].
    + destruct (indicate (declare s1 x Alias) x y) as [s2|] eqn:I; [|discriminate]. injection H as <- <-.
      assert (z <> x) as D by congruence. split; [|exact D].
      rewrite (kind_kinds _ _ z (indicate_kinds _ _ _ _ I)).
      unfold kind_of, declare in *. cbn in *.
      try (destruct (x =? z) eqn:Q; [apply Nat.eqb_eq in Q; congruence|]).
      try (destruct (z =? x) eqn:Q; [apply Nat.eqb_eq in Q; congruence|]). exact K1z.
  - destruct (kind_of s x); [|discriminate]. injection H as <- <-. tauto.
  - destruct (kind_of s x); [|discriminate]. injection H as <- <-. tauto.
  - destruct (visit r c1 s) as [[a' s1]|] eqn:E1; [|discriminate].
    destruct (visit r c2 s1) as [[b' s2]|] eqn:E2; [|discriminate]. injection H as <- <-.
    destruct (IHc1 _ _ _ _ E1 K) as (K1 & N1). destruct (IHc2 _ _ _ _ E2 K1) as (K2 & N2). tauto.
  - destruct (visit r c s) as [[a' s1]|] eqn:E1; [|discriminate]. injection H as <- <-.
    exact (IHc _ _ _ _ E1 K).
  - destruct (match r with Some x => kind_of s x | None => Some Heap end); [|discriminate].
    destruct (check_targets s r) as [s1|] eqn:C; [|discriminate]. injection H as <- <-.
    unfold check_targets in C.
    match type of C with (if ?b then _ else _) = _ => destruct b; [discriminate|] end.
    injection C as <-. split; [exact K|tauto].
Qed.

Lemma compile_argument : forall f c x,
  compile f = Some c -> In x (args f) -> ~ rebinds x (body f).
Proof.
  intros f c x H I. unfold compile in H.
  destruct (visit (result f) (body f) (start_scope (args f))) as [[b s]|] eqn:V; [|discriminate].
  refine (proj2 (visit_rebinds _ _ _ _ _ x V _)). clear V H.
  unfold start_scope, kind_of. cbn. induction (args f) as [|y l IH]; [destruct I|].
  cbn. destruct I as [->|I].
  - rewrite Nat.eqb_refl. reflexivity.
  - try (destruct (y =? x); [reflexivity|]). try (destruct (x =? y); [reflexivity|]). exact (IH I).
Qed.
