(** Proofs about the references in calls of wrapped functions. *)

From Coq Require Import List Bool Arith ZArith Relations Lia.
From Verif Require Import Refs_Model Refs_Spec.
Import ListNotations.

Notation cnt o l := (count_occ Nat.eq_dec l o).

Definition kc (v : option obj) (o : nat) : nat :=
  match v with Some ob => cnt o (kids (pay ob)) | None => 0 end.

Definition rcof (h : heap) (o : nat) : nat := match objs h o with Some ob => rc ob | None => 0 end.

Definition indeg (h : heap) (o : nat) : nat := from_objs (objs h) o (next h).

Record bal (h : heap) (R : list nat) : Prop := Bal {
  b_cnt : forall o, rcof h o = indeg h o + cnt o R;
  b_pos : forall o ob, objs h o = Some ob -> rc ob > 0;
  b_next : forall o, next h <= o -> objs h o = None }.

(** ** Counting *)

Lemma from_upd_out : forall f k v o n, n <= k -> from_objs (upd f k v) o n = from_objs f o n.
Proof.
  intros f k v o n. induction n as [|n IH]; intros L; [reflexivity|]. cbn.
  rewrite IH by lia. unfold upd. replace (n =? k) with false; [reflexivity|].
  symmetry. apply Nat.eqb_neq. lia.
Qed.

Lemma from_upd_in : forall f k v o n, k < n ->
  from_objs (upd f k v) o n + kc (f k) o = from_objs f o n + kc v o.
Proof.
  intros f k v o n. induction n as [|n IH]; intros L; [lia|]. cbn [from_objs].
  fold (kc (upd f k v n) o). fold (kc (f n) o).
  destruct (Nat.eq_dec n k) as [->|D].
  - rewrite from_upd_out by lia. unfold upd. rewrite Nat.eqb_refl. lia.
  - specialize (IH ltac:(lia)). unfold upd at 2. replace (n =? k) with false; [lia|].
    symmetry. apply Nat.eqb_neq. exact D.
Qed.

Lemma from_ge : forall f k n o ob, k < n -> f k = Some ob -> cnt o (kids (pay ob)) <= from_objs f o n.
Proof.
  intros f k n o ob L E. induction n as [|n IH]; [lia|]. cbn.
  destruct (Nat.eq_dec n k) as [->|D]; [rewrite E; lia|]. specialize (IH ltac:(lia)). lia.
Qed.

Lemma from_pos : forall f n o, from_objs f o n > 0 ->
  exists k ob, k < n /\ f k = Some ob /\ In o (kids (pay ob)).
Proof.
  intros f n o. induction n as [|n IH]; cbn; intros H; [lia|].
  destruct (f n) as [ob|] eqn:E.
  - destruct (Nat.eq_dec (from_objs f o n) 0) as [Z|Z].
    + exists n, ob. split; [lia|]. split; [exact E|]. apply (count_occ_In Nat.eq_dec). lia.
    + destruct (IH ltac:(lia)) as (k & ob' & ? & ? & ?). exists k, ob'. repeat split; auto.
  - destruct (IH ltac:(lia)) as (k & ob' & ? & ? & ?). exists k, ob'. repeat split; auto.
Qed.

Lemma alive_lt : forall h R o ob, bal h R -> objs h o = Some ob -> o < next h.
Proof.
  intros h R o ob B E. destruct (le_lt_dec (next h) o) as [G|G]; [|exact G].
  rewrite (b_next _ _ B o G) in E. discriminate.
Qed.

Lemma root_alive : forall h R o, bal h R -> In o R -> exists ob, objs h o = Some ob.
Proof.
  intros h R o B I. pose proof (b_cnt _ _ B o) as C. apply (count_occ_In Nat.eq_dec) in I.
  unfold rcof in C. destruct (objs h o) as [ob|]; [exists ob; reflexivity|lia].
Qed.

Lemma kid_alive : forall h R o ob k, bal h R -> objs h o = Some ob -> In k (kids (pay ob)) ->
  exists ob', objs h k = Some ob'.
Proof.
  intros h R o ob k B E I. pose proof (b_cnt _ _ B k) as C. apply (count_occ_In Nat.eq_dec) in I.
  pose proof (from_ge (objs h) o (next h) k ob (alive_lt _ _ _ _ B E) E) as G.
  unfold rcof, indeg in C. destruct (objs h k) as [ob'|]; [exists ob'; reflexivity|lia].
Qed.

Lemma bal_perm : forall h R R', bal h R -> (forall o, cnt o R = cnt o R') -> bal h R'.
Proof.
  intros h R R' [C P N] E. split; auto. intros o. rewrite C, E. reflexivity.
Qed.

Lemma updE : forall f k v i, upd f k v i = if i =? k then v else f i.
Proof. reflexivity. Qed.

(** One object is changed. *)
Lemma change_bal : forall h R R' o ob ob',
  bal h R -> objs h o = Some ob -> rc ob' > 0 ->
  (forall x, (if x =? o then rc ob' else 0) + cnt x (kids (pay ob)) + cnt x R
             = (if x =? o then rc ob else 0) + cnt x (kids (pay ob')) + cnt x R') ->
  bal (Heap (upd (objs h) o (Some ob')) (next h)) R'.
Proof.
  intros h R R' o ob ob' B E P H. pose proof (alive_lt _ _ _ _ B E) as L. split.
  - intros x. pose proof (b_cnt _ _ B x) as C. specialize (H x). unfold rcof, indeg in *. cbn.
    pose proof (from_upd_in (objs h) o (Some ob') x (next h) L) as F. rewrite E in F. cbn in F.
    rewrite updE. destruct (x =? o) eqn:Q.
    + apply Nat.eqb_eq in Q. subst x. rewrite E in C. lia.
    + lia.
  - intros x xo. cbn. rewrite updE. destruct (x =? o); [intros [= <-]; exact P|apply (b_pos _ _ B)].
  - intros x G. cbn in *. rewrite updE. destruct (x =? o) eqn:Q; [apply Nat.eqb_eq in Q; lia|].
    apply (b_next _ _ B). exact G.
Qed.

Lemma destroy_bal : forall h R o ob,
  bal h (o :: R) -> objs h o = Some ob -> rc ob = 1 ->
  bal (Heap (upd (objs h) o None) (next h)) (kids (pay ob) ++ R).
Proof.
  intros h R o ob B E P. pose proof (alive_lt _ _ _ _ B E) as L. split.
  - intros x. pose proof (b_cnt _ _ B x) as C. unfold rcof, indeg in *. cbn [objs next] in *.
    pose proof (from_upd_in (objs h) o None x (next h) L) as F. rewrite E in F. cbn [kc] in F.
    rewrite count_occ_app. cbn [count_occ] in C. rewrite updE. destruct (x =? o) eqn:Q.
    + apply Nat.eqb_eq in Q. subst x. rewrite E in C. destruct (Nat.eq_dec o o); [|congruence]. lia.
    + apply Nat.eqb_neq in Q. destruct (Nat.eq_dec o x); [congruence|]. lia.
  - intros x xo. cbn. rewrite updE. destruct (x =? o); [discriminate|apply (b_pos _ _ B)].
  - intros x G. cbn in *. rewrite updE. destruct (x =? o); [reflexivity|]. apply (b_next _ _ B). exact G.
Qed.

Lemma new_bal : forall h R p, bal h (kids p ++ R) -> bal (snd (new p h)) (next h :: R).
Proof.
  intros h R p B. unfold new. cbn [snd]. split.
  - intros x. pose proof (b_cnt _ _ B x) as C. unfold rcof, indeg in *. cbn [objs next from_objs] in *.
    rewrite from_upd_out by lia. rewrite !updE, Nat.eqb_refl. cbn [pay].
    rewrite count_occ_app in C. cbn [count_occ]. destruct (x =? next h) eqn:Q.
    + apply Nat.eqb_eq in Q. subst x. rewrite (b_next _ _ B) in C by lia.
      destruct (Nat.eq_dec (next h) (next h)); [|congruence]. cbn. lia.
    + apply Nat.eqb_neq in Q. destruct (Nat.eq_dec (next h) x); [congruence|]. lia.
  - intros x xo. cbn. rewrite updE. destruct (x =? next h); [intros [= <-]; cbn; lia|apply (b_pos _ _ B)].
  - intros x G. cbn in *. rewrite updE. destruct (x =? next h) eqn:Q; [apply Nat.eqb_eq in Q; lia|].
    apply (b_next _ _ B). lia.
Qed.

(** ** What stays the same *)

(** Nothing but the number of references changes, and objects are made. *)
Definition same (h h' : heap) : Prop :=
  next h <= next h' /\
  forall i, i < next h -> option_map pay (objs h' i) = option_map pay (objs h i).

Lemma same_refl : forall h, same h h.
Proof. intros h. split; [lia|reflexivity]. Qed.

Lemma same_trans : forall a b c, same a b -> same b c -> same a c.
Proof.
  intros a b c [L1 H1] [L2 H2]. split; [lia|]. intros i L. rewrite H2 by lia. apply H1. exact L.
Qed.

(** Objects are destroyed too, and the elements of some containers change. *)
Definition keeps (C : nat -> Prop) (h h' : heap) : Prop :=
  next h <= next h' /\
  forall i ob', i < next h -> objs h' i = Some ob' ->
    exists ob, objs h i = Some ob /\
      (pay ob' = pay ob \/ (C i /\ exists k l l', pay ob = PSeq k l /\ pay ob' = PSeq k l')).

Lemma same_keeps : forall C h h', same h h' -> keeps C h h'.
Proof.
  intros C h h' [L H]. split; [exact L|]. intros i ob' Li E. specialize (H i Li). rewrite E in H.
  destruct (objs h i) as [ob|]; [|discriminate]. injection H as H. exists ob. auto.
Qed.

Lemma keeps_refl : forall C h, keeps C h h.
Proof. intros C h. apply same_keeps, same_refl. Qed.

Lemma keeps_trans : forall C a b c, keeps C a b -> keeps C b c -> keeps C a c.
Proof.
  intros C a b c [L1 H1] [L2 H2]. split; [lia|]. intros i ob L E.
  destruct (H2 i ob ltac:(lia) E) as (ob1 & E1 & P1). destruct (H1 i ob1 L E1) as (ob0 & E0 & P0).
  exists ob0. split; [exact E0|].
  destruct P1 as [P1|(I & k & l & l' & P1 & P1')]; destruct P0 as [P0|(I0 & k0 & l0 & l0' & P0 & P0')].
  - left. congruence.
  - right. split; [exact I0|]. exists k0, l0, l0'. split; congruence.
  - right. split; [exact I|]. exists k, l, l'. split; congruence.
  - right. split; [exact I|]. exists k0, l0, l'. rewrite P0' in P1. injection P1 as -> ->. auto.
Qed.

Lemma keeps_weaken : forall (C D : nat -> Prop) h h', (forall i, C i -> D i) -> keeps C h h' -> keeps D h h'.
Proof.
  intros C D h h' CD [L H]. split; [exact L|]. intros i ob' Li E.
  destruct (H i ob' Li E) as (ob & E0 & P). exists ob. split; [exact E0|].
  destruct P as [P|(I & P)]; auto.
Qed.

(** ** The basic operations *)

Lemma incref_ok : forall h R o, bal h R -> (exists ob, objs h o = Some ob) ->
  exists h', incref o h = Some h' /\ bal h' (o :: R) /\ same h h' /\ next h' = next h.
Proof.
  intros h R o B (ob & E). unfold incref. rewrite E. eexists. split; [reflexivity|]. split; [|split].
  - eapply change_bal; [exact B|exact E|cbn; lia|]. intros x. cbn [rc pay count_occ].
    destruct (x =? o) eqn:Q.
    + apply Nat.eqb_eq in Q. subst x. destruct (Nat.eq_dec o o); [lia|congruence].
    + apply Nat.eqb_neq in Q. destruct (Nat.eq_dec o x); [congruence|lia].
  - split; [cbn; lia|]. intros i L. cbn. rewrite updE. destruct (i =? o) eqn:Q; [|reflexivity].
    apply Nat.eqb_eq in Q. subst i. rewrite E. reflexivity.
  - reflexivity.
Qed.

Lemma same_alive : forall h h' i ob, same h h' -> i < next h -> objs h i = Some ob ->
  exists ob', objs h' i = Some ob' /\ pay ob' = pay ob.
Proof.
  intros h h' i ob [_ H] L E. specialize (H i L). rewrite E in H.
  destruct (objs h' i) as [ob'|]; [|discriminate]. injection H as H. exists ob'. auto.
Qed.

Lemma increfs_ok : forall l h R, bal h R -> (forall o, In o l -> exists ob, objs h o = Some ob) ->
  exists h', increfs l h = Some h' /\ bal h' (l ++ R) /\ same h h' /\ next h' = next h.
Proof.
  induction l as [|o l IH]; intros h R B A.
  - exists h. split; [reflexivity|]. split; [exact B|]. split; [apply same_refl|reflexivity].
  - destruct (incref_ok h R o B (A o (or_introl eq_refl))) as (h1 & E1 & B1 & S1 & N1).
    destruct (IH h1 (o :: R) B1) as (h2 & E2 & B2 & S2 & N2).
    { intros x I. destruct (A x (or_intror I)) as (ob & E).
      destruct (same_alive _ _ _ _ S1 (alive_lt _ _ _ _ B E) E) as (ob' & E' & _). exists ob'. exact E'. }
    exists h2. cbn. rewrite E1. cbn. split; [exact E2|]. split; [|split].
    + eapply bal_perm; [exact B2|]. intros x. rewrite ?count_occ_app. cbn [count_occ app].
      rewrite ?count_occ_app. destruct (Nat.eq_dec o x); lia.
    + eapply same_trans; eassumption.
    + congruence.
Qed.

Lemma put_ok : forall h R c e n k l, bal h (e :: R) -> objs h c = Some (Obj n (PSeq k l)) ->
  exists h', put c e h = Some h' /\ bal h' R /\ next h' = next h /\
    objs h' c = Some (Obj n (PSeq k (l ++ [e]))) /\ (forall i, i <> c -> objs h' i = objs h i).
Proof.
  intros h R c e n k l B E. unfold put. rewrite E. eexists. split; [reflexivity|]. split; [|split; [|split]].
  - eapply change_bal; [exact B|exact E|cbn; exact (b_pos _ _ B c _ E)|]. intros x. cbn [rc pay kids].
    rewrite count_occ_app. cbn [count_occ]. destruct (Nat.eq_dec e x), (x =? c); lia.
  - reflexivity.
  - cbn. rewrite updE, Nat.eqb_refl. reflexivity.
  - intros i D. cbn. rewrite updE. replace (i =? c) with false; [reflexivity|].
    symmetry. apply Nat.eqb_neq. exact D.
Qed.

Lemma count_rc_upd : forall f k v n, k < n ->
  count_rc (upd f k v) n + match f k with Some ob => rc ob | None => 0 end
  = count_rc f n + match v with Some ob => rc ob | None => 0 end.
Proof.
  intros f k v n. induction n as [|n IH]; intros L; [lia|]. cbn [count_rc].
  destruct (Nat.eq_dec n k) as [->|D].
  - assert (forall m, m <= k -> count_rc (upd f k v) m = count_rc f m) as O.
    { induction m as [|m IHm]; intros Lm; [reflexivity|]. cbn. rewrite IHm by lia. rewrite updE.
      replace (m =? k) with false; [reflexivity|]. symmetry. apply Nat.eqb_neq. lia. }
    rewrite O by lia. rewrite updE, Nat.eqb_refl. lia.
  - specialize (IH ltac:(lia)). rewrite updE. replace (n =? k) with false; [lia|].
    symmetry. apply Nat.eqb_neq. exact D.
Qed.

Lemma release_ok : forall fuel work h R, bal h (work ++ R) -> count_rc (objs h) (next h) <= fuel ->
  exists h', release fuel work h = Some h' /\ bal h' R /\ keeps (fun _ => False) h h' /\ next h' = next h.
Proof.
  induction fuel as [|fuel IH]; intros work h R B F.
  - destruct work as [|o work].
    + exists h. split; [reflexivity|]. split; [exact B|]. split; [apply keeps_refl|reflexivity].
    + exfalso. destruct (root_alive _ _ o B (or_introl eq_refl)) as (ob & E).
      pose proof (b_pos _ _ B o ob E). pose proof (alive_lt _ _ _ _ B E) as L.
      pose proof (count_rc_upd (objs h) o None (next h) L) as Q. rewrite E in Q. lia.
  - destruct work as [|o work].
    + exists h. split; [reflexivity|]. split; [exact B|]. split; [apply keeps_refl|reflexivity].
    + destruct (root_alive _ _ o B (or_introl eq_refl)) as (ob & E).
      pose proof (b_pos _ _ B o ob E) as P. pose proof (alive_lt _ _ _ _ B E) as L.
      cbn [release]. rewrite E. destruct (rc ob) as [|[|m]] eqn:Q; [lia| |].
      * destruct (IH (kids (pay ob) ++ work) (Heap (upd (objs h) o None) (next h)) R) as (h' & E' & B' & K & N).
        { rewrite <- app_assoc. apply (destroy_bal h (work ++ R) o ob B E Q). }
        { cbn. pose proof (count_rc_upd (objs h) o None (next h) L) as C. rewrite E in C. lia. }
        exists h'. split; [exact E'|]. split; [exact B'|]. split; [|exact N].
        eapply keeps_trans; [|exact K]. split; [cbn; lia|]. intros i ob' Li. cbn. rewrite updE.
        destruct (i =? o); [discriminate|]. intros E1. exists ob'. auto.
      * destruct (IH work (Heap (upd (objs h) o (Some (Obj (S m) (pay ob)))) (next h)) R) as (h' & E' & B' & K & N).
        { eapply change_bal; [exact B|exact E|cbn; lia|]. intros x. cbn [rc pay count_occ app].
          rewrite Q. destruct (x =? o) eqn:D.
          - apply Nat.eqb_eq in D. subst x. destruct (Nat.eq_dec o o); [lia|congruence].
          - apply Nat.eqb_neq in D. destruct (Nat.eq_dec o x); [congruence|lia]. }
        { cbn. pose proof (count_rc_upd (objs h) o (Some (Obj (S m) (pay ob))) (next h) L) as C.
          rewrite E in C. cbn in C. lia. }
        exists h'. split; [exact E'|]. split; [exact B'|]. split; [|exact N].
        eapply keeps_trans; [|exact K]. split; [cbn; lia|]. intros i ob' Li. cbn. rewrite updE.
        destruct (i =? o) eqn:D.
        -- intros [= <-]. apply Nat.eqb_eq in D. subst i. exists ob. auto.
        -- intros E1. exists ob'. auto.
Qed.

Lemma decrefs_ok : forall l h R, bal h (l ++ R) ->
  exists h', decrefs l h = Some h' /\ bal h' R /\ keeps (fun _ => False) h h' /\ next h' = next h.
Proof. intros l h R B. apply release_ok; [exact B|lia]. Qed.

Lemma clear_ok : forall h R c n k l, bal h R -> In c R -> objs h c = Some (Obj n (PSeq k l)) ->
  exists h' n', clear c h = Some h' /\ bal h' R /\ keeps (eq c) h h' /\ next h' = next h /\
    objs h' c = Some (Obj n' (PSeq k [])).
Proof.
  intros h R c n k l B I E. unfold clear. rewrite E.
  set (h1 := Heap (upd (objs h) c (Some (Obj n (PSeq k [])))) (next h)).
  assert (bal h1 (l ++ R)) as B1.
  { eapply change_bal; [exact B|exact E|cbn; exact (b_pos _ _ B c _ E)|]. intros x. cbn [rc pay kids count_occ].
    rewrite count_occ_app. lia. }
  destruct (decrefs_ok l h1 R B1) as (h2 & E2 & B2 & K2 & N2).
  destruct (root_alive _ _ c B2 I) as (ob & Ec).
  assert (c < next h) as Lc by exact (alive_lt _ _ _ _ B E).
  destruct (proj2 K2 c ob Lc Ec) as (ob1 & E1 & [P|([] & _)]).
  cbn in E1. rewrite updE, Nat.eqb_refl in E1. injection E1 as <-. cbn in P.
  exists h2, (rc ob). split; [exact E2|]. split; [exact B2|]. split; [|split].
  - eapply keeps_trans; [|eapply keeps_weaken; [|exact K2]; intros i []].
    split; [cbn; lia|]. intros i ob' Li. cbn. rewrite updE. destruct (i =? c) eqn:D.
    + intros [= <-]. apply Nat.eqb_eq in D. subst i. exists (Obj n (PSeq k l)). split; [exact E|].
      right. split; [reflexivity|]. exists k, l, []. auto.
    + intros E1. exists ob'. auto.
  - exact N2.
  - rewrite Ec. destruct ob as [r p]. cbn in P. subst p. reflexivity.
Qed.

(** ** Values *)

Definition cval_ind' (P : cval -> Prop)
  (HL : forall z, P (CLeaf z))
  (HS : forall k l, Forall P l -> P (CSeq k l))
  (HD : forall l, Forall (fun kv => P (fst kv) /\ P (snd kv)) l -> P (CDict l))
  (HT : forall l, Forall P l -> P (CTup l)) : forall v, P v :=
  fix go v :=
    match v with
    | CLeaf z => HL z
    | CSeq k l => HS k l ((fix all l := match l return Forall P l with
                                        | [] => Forall_nil _
                                        | x :: r => Forall_cons x (go x) (all r)
                                        end) l)
    | CDict l => HD l ((fix all l := match l return Forall (fun kv => P (fst kv) /\ P (snd kv)) l with
                                     | [] => Forall_nil _
                                     | (x, y) :: r => Forall_cons (x, y) (conj (go x) (go y)) (all r)
                                     end) l)
    | CTup l => HT l ((fix all l := match l return Forall P l with
                                    | [] => Forall_nil _
                                    | x :: r => Forall_cons x (go x) (all r)
                                    end) l)
    end.

(** The value of an object, made of objects from n on. *)
Inductive den (n : nat) (h : heap) : cval -> nat -> Prop :=
| den_leaf : forall z o c, n <= o -> objs h o = Some (Obj c (PLeaf z)) -> den n h (CLeaf z) o
| den_seq : forall k l o c es, n <= o -> objs h o = Some (Obj c (PSeq k es)) ->
    Forall2 (den n h) l es -> den n h (CSeq k l) o
| den_dict : forall l o c es, n <= o -> objs h o = Some (Obj c (PDict es)) ->
    Forall2 (fun kv ab => den n h (fst kv) (fst ab) /\ den n h (snd kv) (snd ab)) l es ->
    den n h (CDict l) o
| den_tup : forall l o c es, n <= o -> objs h o = Some (Obj c (PSeq KTuple es)) ->
    Forall2 (den n h) l es -> den n h (CTup l) o.

Lemma fix_forall2 : forall (A B : Type) (P : A -> B -> Prop) l es, Forall2 P l es ->
  (fix all l es := match l, es with
                   | [], [] => True
                   | x :: l', e :: es' => P x e /\ all l' es'
                   | _, _ => False
                   end) l es.
Proof. intros A B P l es H. induction H; auto. Qed.

Lemma forall2_ind : forall (A B : Type) (P Q : A -> B -> Prop) l es,
  Forall (fun x => forall e, P x e -> Q x e) l -> Forall2 P l es -> Forall2 Q l es.
Proof.
  intros A B P Q l es F H. induction H as [|x e l es Hx H IH]; [constructor|].
  apply Forall_cons_iff in F. destruct F as [Fx F]. constructor; auto.
Qed.

Lemma den_denotes : forall n h v o, den n h v o -> denotes h v o.
Proof.
  intros n h v. induction v as [z|k l IH|l IH|l IH] using cval_ind'; intros o D; inversion D; subst; cbn [denotes].
  - exists c. assumption.
  - exists c, es. split; [assumption|]. apply (fix_forall2 _ _ (denotes h)).
    eapply forall2_ind; [|eassumption]. exact IH.
  - exists c, es. split; [assumption|].
    match goal with H : Forall2 _ l es |- _ => revert H end. clear - IH. revert es.
    induction l as [|[x y] l IHl]; intros es H; inversion H; subst; [exact I|].
    apply Forall_cons_iff in IH. destruct IH as [[Hx Hy] IH]. destruct y0 as [a b]. cbn in *.
    match goal with H : den _ _ x a /\ _ |- _ => destruct H as [D1 D2] end.
    exact (conj (Hx _ D1) (conj (Hy _ D2) (IHl IH _ H4))).
  - exists c, es. split; [assumption|]. apply (fix_forall2 _ _ (denotes h)).
    eapply forall2_ind; [|eassumption]. exact IH.
Qed.

Definition frame (n : nat) (h h' : heap) : Prop :=
  forall i ob, n <= i -> objs h i = Some ob -> exists ob', objs h' i = Some ob' /\ pay ob' = pay ob.

Lemma den_frame : forall n m h h' v o, den n h v o -> m <= n -> frame n h h' -> den m h' v o.
Proof.
  intros n m h h' v. induction v as [z|k l IH|l IH|l IH] using cval_ind'; intros o D L F; inversion D; subst.
  all: match goal with H : objs _ _ = Some (Obj _ _), F : frame _ _ _ |- _ => destruct (F _ _ ltac:(eassumption) H) as ([c' p'] & E' & P'); cbn in P'; subst p' end.
  - eapply den_leaf; [lia|exact E'].
  - eapply den_seq; [lia|exact E'|]. eapply forall2_ind; [|eassumption].
    eapply Forall_impl; [|exact IH]. cbn. auto.
  - eapply den_dict; [lia|exact E'|]. eapply forall2_ind; [|eassumption].
    eapply Forall_impl; [|exact IH]. cbn. intros [x y] [Hx Hy] [a b] [D1 D2]. cbn in *. auto.
  - eapply den_tup; [lia|exact E'|]. eapply forall2_ind; [|eassumption].
    eapply Forall_impl; [|exact IH]. cbn. auto.
Qed.

(** When objects are destroyed too: what an object refers to stays with it. *)
Lemma den_keeps : forall C n h h' R v o, den n h v o -> bal h' R -> keeps C h h' ->
  (forall i, C i -> i < n) -> (forall i, next h <= i -> objs h i = None) ->
  (exists ob, objs h' o = Some ob) -> den n h' v o.
Proof.
  intros C n h h' R v. induction v as [z|k l IH|l IH|l IH] using cval_ind'; intros o D B K CN NX (ob & E);
    inversion D; subst.
  all: match goal with
       | E0 : objs ?h ?o = Some (Obj _ _), E : objs _ ?o = Some ?ob, K : keeps _ ?h _,
         NX : forall i, _ -> objs ?h i = None, CN : forall i, _ -> i < _ |- _ =>
         assert (o < next h) as Lo by
           (destruct (le_lt_dec (next h) o) as [G|G]; [rewrite (NX o G) in E0; discriminate|exact G]);
         destruct (proj2 K o ob Lo E) as (ob0 & E1 & [P|(CI & _)]); [|apply CN in CI; lia];
         rewrite E0 in E1; injection E1 as <-;
         destruct ob as [r p]; cbn in P; subst p
       end.
  - eapply den_leaf; eassumption.
  - eapply den_seq; [assumption|exact E|].
    assert (forall e, In e es -> exists x, objs h' e = Some x) as A
      by (intros e I; exact (kid_alive _ _ _ _ e B E I)).
    match goal with H : Forall2 _ l es |- _ => revert H end. revert A IH. clear D E.
    generalize es as qs. induction l as [|x l IHl]; intros qs A IH H; inversion H; subst; [constructor|].
    apply Forall_cons_iff in IH. destruct IH as [IHx IH]. constructor.
    + apply IHx; auto. apply A. left. reflexivity.
    + apply IHl; auto. intros e I. apply A. right. exact I.
  - eapply den_dict; [assumption|exact E|].
    assert (forall e, In e (kids (PDict es)) -> exists x, objs h' e = Some x) as A
      by (intros e I; exact (kid_alive _ _ _ _ e B E I)).
    match goal with H : Forall2 _ l es |- _ => revert H end. revert A IH. cbn [kids]. clear D E.
    generalize es as qs. induction l as [|x l IHl]; intros qs A IH H; inversion H; subst; [constructor|].
    apply Forall_cons_iff in IH. destruct IH as [[IHx IHy] IH]. destruct x as [x1 x2], y as [a b]. cbn in *.
    match goal with H : den _ _ x1 a /\ _ |- _ => destruct H as [D1 D2] end.
    constructor; [split; cbn; auto|]. apply IHl; auto.
  - eapply den_tup; [assumption|exact E|].
    assert (forall e, In e es -> exists x, objs h' e = Some x) as A
      by (intros e I; exact (kid_alive _ _ _ _ e B E I)).
    match goal with H : Forall2 _ l es |- _ => revert H end. revert A IH. clear D E.
    generalize es as qs. induction l as [|x l IHl]; intros qs A IH H; inversion H; subst; [constructor|].
    apply Forall_cons_iff in IH. destruct IH as [IHx IH]. constructor.
    + apply IHx; auto. apply A. left. reflexivity.
    + apply IHl; auto. intros e I. apply A. right. exact I.
Qed.

(** ** No cycles *)

Definition acy (h : heap) : Prop :=
  exists rank : nat -> nat, forall o ob k, objs h o = Some ob -> In k (kids (pay ob)) -> rank k < rank o.

Lemma acy_sub : forall h h', acy h ->
  (forall i ob', objs h' i = Some ob' -> exists ob, objs h i = Some ob /\ pay ob' = pay ob) -> acy h'.
Proof.
  intros h h' (rank & H) F. exists rank. intros o ob k E I. destruct (F o ob E) as (ob0 & E0 & P).
  rewrite P in I. exact (H o ob0 k E0 I).
Qed.

Lemma acy_new : forall h R p, bal h (kids p ++ R) -> acy h -> acy (snd (new p h)).
Proof.
  intros h R p B (rank & H).
  exists (fun x => if x =? next h then S (list_max (map rank (kids p))) else rank x).
  assert (forall k ob, objs h k = Some ob -> k =? next h = false) as NE.
  { intros k ob E. apply Nat.eqb_neq. pose proof (alive_lt _ _ _ _ B E). lia. }
  intros o ob k. unfold new. cbn. rewrite updE. destruct (o =? next h) eqn:Q.
  - intros [= <-] I. cbn in I. destruct (root_alive _ _ k B (in_or_app _ _ _ (or_introl I))) as (ok & Ek).
    rewrite (NE k ok Ek). assert (rank k <= list_max (map rank (kids p))); [|lia].
    pose proof (proj1 (list_max_le (map rank (kids p)) _) (le_n _)) as F.
    rewrite Forall_forall in F. apply F, in_map, I.
  - intros E I. destruct (kid_alive _ _ _ _ k B E I) as (ok & Ek). rewrite (NE k ok Ek). exact (H o ob k E I).
Qed.

(** An object with one reference, which is not from another object. *)
Lemma no_parent : forall h R c p, bal h R -> In c R -> objs h c = Some (Obj 1 p) ->
  forall o ob, objs h o = Some ob -> ~ In c (kids (pay ob)).
Proof.
  intros h R c p B I E o ob Eo J. pose proof (b_cnt _ _ B c) as C. unfold rcof, indeg in C. rewrite E in C. cbn in C.
  apply (count_occ_In Nat.eq_dec) in I. apply (count_occ_In Nat.eq_dec) in J.
  pose proof (from_ge (objs h) o (next h) c ob (alive_lt _ _ _ _ B Eo) Eo). lia.
Qed.

Lemma acy_change : forall h h' R c p p' es,
  bal h R -> In c R -> objs h c = Some (Obj 1 p) -> acy h -> ~ In c es ->
  objs h' c = Some (Obj 1 p') -> (forall k, In k (kids p') -> In k (kids p) \/ In k es) ->
  (forall i ob', i <> c -> objs h' i = Some ob' -> exists ob, objs h i = Some ob /\ pay ob' = pay ob) ->
  acy h'.
Proof.
  intros h h' R c p p' es B I E (rank & H) NI E' K F.
  pose proof (no_parent h R c p B I E) as NP.
  exists (fun x => if x =? c then Nat.max (rank c) (S (list_max (map rank es))) else rank x).
  intros o ob k Eo J. destruct (o =? c) eqn:Q.
  - apply Nat.eqb_eq in Q. subst o. rewrite E' in Eo. injection Eo as <-. cbn in J.
    destruct (K k J) as [G|G].
    + replace (k =? c) with false; [specialize (H c _ k E G); lia|].
      symmetry. apply Nat.eqb_neq. intros ->. exact (NP c _ E G).
    + replace (k =? c) with false; [|symmetry; apply Nat.eqb_neq; intros ->; contradiction].
      pose proof (proj1 (list_max_le (map rank es) _) (le_n _)) as M.
      rewrite Forall_forall in M. specialize (M (rank k) (in_map rank es k G)). lia.
  - apply Nat.eqb_neq in Q. destruct (F o ob Q Eo) as (ob0 & E0 & P). rewrite P in J.
    replace (k =? c) with false; [exact (H o ob0 k E0 J)|].
    symmetry. apply Nat.eqb_neq. intros ->. exact (NP o ob0 E0 J).
Qed.

(** ** PyTuple_Pack and Py_DECREF *)

Lemma release_pt : forall l fuel h h', release fuel l h = Some h' -> NoDup l ->
  (forall o, In o l -> exists n p, objs h o = Some (Obj (S (S n)) p)) ->
  next h' = next h /\
  forall i, objs h' i = if in_dec Nat.eq_dec i l
                        then option_map (fun ob => Obj (pred (rc ob)) (pay ob)) (objs h i)
                        else objs h i.
Proof.
  induction l as [|o l IH]; intros fuel h h' E ND A.
  - destruct fuel; injection E as <-; split; reflexivity.
  - destruct fuel as [|fuel]; [discriminate|]. apply NoDup_cons_iff in ND. destruct ND as [NI ND].
    destruct (A o (or_introl eq_refl)) as (n & p & Eo). cbn [release] in E. rewrite Eo in E. cbn [rc pay] in E.
    destruct (IH _ _ _ E ND) as [N P].
    { intros x I. cbn. rewrite updE. destruct (x =? o) eqn:Q.
      - apply Nat.eqb_eq in Q. subst x. contradiction.
      - apply A. right. exact I. }
    split; [exact N|]. intros i. rewrite P. cbn [objs]. rewrite updE. destruct (i =? o) eqn:Q.
    + apply Nat.eqb_eq in Q. subst i. destruct (in_dec Nat.eq_dec o l); [contradiction|].
      destruct (in_dec Nat.eq_dec o (o :: l)) as [G|G]; [|exfalso; apply G; left; reflexivity].
      rewrite Eo. reflexivity.
    + apply Nat.eqb_neq in Q. destruct (in_dec Nat.eq_dec i l) as [G|G];
        destruct (in_dec Nat.eq_dec i (o :: l)) as [J|J]; auto.
      * exfalso. apply J. right. exact G.
      * destruct J as [J|J]; congruence.
Qed.

Lemma increfs_pt : forall l h h', increfs l h = Some h' -> NoDup l ->
  next h' = next h /\
  forall i, objs h' i = if in_dec Nat.eq_dec i l
                        then option_map (fun ob => Obj (S (rc ob)) (pay ob)) (objs h i)
                        else objs h i.
Proof.
  induction l as [|o l IH]; intros h h' E ND.
  - injection E as <-. split; reflexivity.
  - apply NoDup_cons_iff in ND. destruct ND as [NI ND]. cbn [increfs] in E. unfold incref in E.
    destruct (objs h o) as [ob|] eqn:Eo; [|discriminate]. cbn [bind] in E.
    destruct (IH _ _ E ND) as [N P]. split; [exact N|]. intros i. rewrite P. cbn [objs]. rewrite updE.
    destruct (i =? o) eqn:Q.
    + apply Nat.eqb_eq in Q. subst i. destruct (in_dec Nat.eq_dec o l); [contradiction|].
      destruct (in_dec Nat.eq_dec o (o :: l)) as [G|G]; [|exfalso; apply G; left; reflexivity].
      rewrite Eo. reflexivity.
    + apply Nat.eqb_neq in Q. destruct (in_dec Nat.eq_dec i l) as [G|G];
        destruct (in_dec Nat.eq_dec i (o :: l)) as [J|J]; auto.
      * exfalso. apply J. right. exact G.
      * destruct J as [J|J]; congruence.
Qed.

Lemma pack_ok : forall es h R, bal h (es ++ R) -> NoDup es ->
  exists h',
    bind (increfs es h) (fun h => let (c, h) := new (PSeq KTuple es) h in
                                  bind (decrefs es h) (fun h => Some (c, h))) = Some (next h, h') /\
    bal h' (next h :: R) /\ next h' = S (next h) /\
    objs h' (next h) = Some (Obj 1 (PSeq KTuple es)) /\
    (forall i, i < next h -> objs h' i = objs h i).
Proof.
  intros es h R B ND.
  assert (forall o, In o es -> exists ob, objs h o = Some ob) as A.
  { intros o I. apply (root_alive _ _ o B). apply in_or_app. left. exact I. }
  destruct (increfs_ok es h (es ++ R) B A) as (h1 & E1 & B1 & S1 & N1).
  destruct (increfs_pt es h h1 E1 ND) as [_ P1].
  rewrite E1. unfold bind at 1. unfold new. rewrite N1.
  pose proof (new_bal h1 (es ++ R) (PSeq KTuple es) B1) as B2. unfold new in B2. cbn [snd] in B2. rewrite N1 in B2.
  set (h2 := Heap (upd (objs h1) (next h) (Some (Obj 1 (PSeq KTuple es)))) (S (next h))) in *.
  destruct (decrefs_ok es h2 (next h :: R)) as (h3 & E3 & B3 & _ & N3).
  { eapply bal_perm; [exact B2|]. intros x. rewrite count_occ_app. cbn [count_occ].
    rewrite count_occ_app. destruct (Nat.eq_dec (next h) x); lia. }
  exists h3. rewrite E3. cbn [bind]. split; [reflexivity|]. split; [exact B3|]. split; [exact N3|].
  assert (forall o, In o es -> o <> next h) as NE.
  { intros o I ->. destruct (A _ I) as (ob & E). pose proof (alive_lt _ _ _ _ B E). lia. }
  destruct (release_pt es _ h2 h3 E3 ND) as [_ P3].
  { intros o I. cbn. rewrite updE. destruct (o =? next h) eqn:Q; [apply Nat.eqb_eq in Q; destruct (NE o I Q)|].
    rewrite P1. destruct (in_dec Nat.eq_dec o es); [|contradiction]. destruct (A o I) as (ob & E).
    rewrite E. cbn. pose proof (b_pos _ _ B o ob E). exists (pred (rc ob)), (pay ob). repeat f_equal. lia. }
  split.
  - rewrite P3. destruct (in_dec Nat.eq_dec (next h) es) as [I|I]; [destruct (NE _ I eq_refl)|].
    cbn. rewrite updE, Nat.eqb_refl. reflexivity.
  - intros i L. rewrite P3. cbn [objs h2]. rewrite updE. replace (i =? next h) with false
      by (symmetry; apply Nat.eqb_neq; lia). rewrite P1.
    destruct (in_dec Nat.eq_dec i es); [|reflexivity]. destruct (objs h i) as [[r p]|]; reflexivity.
Qed.

(** ** Conversion of results *)

Definition fillseq (k : kind) (c : nat) : list cval -> heap -> option heap :=
  fix fill l h :=
    match l with
    | [] => Some h
    | x :: r => bind (to_py x h) (fun '(e, h) => bind (add k c e h) (fill r))
    end.

Definition filldict (c : nat) : list (cval * cval) -> heap -> option heap :=
  fix fill l h :=
    match l with
    | [] => Some h
    | (x, y) :: r =>
        bind (to_py x h) (fun '(ek, h) =>
          bind (to_py y h) (fun '(ev, h) =>
            bind (dict_set c ek ev h) (fill r)))
    end.

Definition eachpy : list cval -> heap -> option (list nat * heap) :=
  fix each l h :=
    match l with
    | [] => Some ([], h)
    | x :: r => bind (to_py x h) (fun '(e, h) =>
                  bind (each r h) (fun '(es, h) => Some (e :: es, h)))
    end.

Lemma to_py_seq : forall k l h, to_py (CSeq k l) h =
  let (c, h) := new (PSeq k []) h in bind (fillseq k c l h) (fun h => Some (c, h)).
Proof. reflexivity. Qed.

Lemma to_py_dict : forall l h, to_py (CDict l) h =
  let (c, h) := new (PDict []) h in bind (filldict c l h) (fun h => Some (c, h)).
Proof. reflexivity. Qed.

Lemma to_py_tup : forall l h, to_py (CTup l) h =
  bind (eachpy l h) (fun '(es, h) =>
    bind (increfs es h) (fun h => let (c, h) := new (PSeq KTuple es) h in
                                  bind (decrefs es h) (fun h => Some (c, h)))).
Proof. reflexivity. Qed.

(** What the conversion of a value does. *)
Definition conv_ok (v : cval) : Prop := forall h R, bal h R ->
  exists o h' Ls, to_py v h = Some (o, h') /\ bal h' (o :: Ls ++ R) /\ length Ls = result_cost v /\
    next h <= o < next h' /\ (forall i, i < next h -> objs h' i = objs h i) /\
    den (next h) h' v o /\ (acy h -> acy h').

Definition set_cost (k : kind) : nat := match k with KSet => 1 | _ => 0 end.

Lemma add_ok : forall k h R c e p ks l,
  bal h (e :: R) -> objs h c = Some (Obj 1 (PSeq ks l)) -> objs h e = Some p -> c <> e -> In c R ->
  exists h' Ls, add k c e h = Some h' /\ bal h' (Ls ++ R) /\ length Ls = set_cost k /\ next h' = next h /\
    objs h' c = Some (Obj 1 (PSeq ks (l ++ [e]))) /\
    (forall i, i <> c -> i <> e -> objs h' i = objs h i) /\
    (exists r, objs h' e = Some (Obj r (pay p))) /\ (acy h -> acy h').
Proof.
  intros k h R c e p ks l B Ec Ee D Ic.
  assert (forall h2, objs h2 c = Some (Obj 1 (PSeq ks (l ++ [e]))) ->
            (forall i, i <> c -> i <> e -> objs h2 i = objs h i) ->
            (exists r, objs h2 e = Some (Obj r (pay p))) -> acy h -> acy h2) as AC.
  { intros h2 E2 F2 (r & Er) A. eapply (acy_change h h2 _ c _ _ [e] B); [right; exact Ic|exact Ec|exact A| |exact E2| |].
    - intros [->|[]]. congruence.
    - cbn. intros x I. apply in_app_or in I. tauto.
    - intros i ob' Di Ei. destruct (Nat.eq_dec i e) as [->|De].
      + exists p. split; [exact Ee|]. rewrite Er in Ei. injection Ei as <-. reflexivity.
      + rewrite F2 in Ei by assumption. exists ob'. auto. }
  assert (k = KSet \/ k <> KSet) as [->|NK] by (destruct k; auto; right; discriminate).
  - cbn [add]. unfold append. destruct (incref_ok h (e :: R) e B (ex_intro _ p Ee)) as (h1 & E1 & B1 & S1 & N1).
    assert (objs h1 c = Some (Obj 1 (PSeq ks l)) /\ (forall i, i <> e -> objs h1 i = objs h i) /\
            objs h1 e = Some (Obj (S (rc p)) (pay p))) as (Q1 & Q2 & Q3).
    { unfold incref in E1. rewrite Ee in E1. injection E1 as <-. cbn. split; [|split].
      - rewrite updE. replace (c =? e) with false; [exact Ec|]. symmetry. apply Nat.eqb_neq. exact D.
      - intros i Di. rewrite updE. replace (i =? e) with false; [reflexivity|]. symmetry. apply Nat.eqb_neq. exact Di.
      - rewrite updE, Nat.eqb_refl. reflexivity. }
    destruct (put_ok h1 (e :: R) c e 1 ks l B1 Q1) as (h2 & E2 & B2 & N2 & P2 & F2).
    exists h2, [e]. rewrite E1. cbn [bind]. split; [exact E2|]. split; [exact B2|]. split; [reflexivity|].
    split; [congruence|]. split; [exact P2|].
    assert (forall i, i <> c -> i <> e -> objs h2 i = objs h i) as F.
    { intros i D1 D2. rewrite F2 by exact D1. apply Q2. exact D2. }
    assert (exists r, objs h2 e = Some (Obj r (pay p))) as X.
    { exists (S (rc p)). rewrite F2 by congruence. exact Q3. }
    split; [exact F|]. split; [exact X|]. exact (AC h2 P2 F X).
  - destruct (put_ok h R c e 1 ks l B Ec) as (h2 & E2 & B2 & N2 & P2 & F2).
    assert (forall i, i <> c -> i <> e -> objs h2 i = objs h i) as F by (intros; apply F2; assumption).
    assert (exists r, objs h2 e = Some (Obj r (pay p))) as X.
    { exists (rc p). rewrite F2 by congruence. rewrite Ee. destruct p. reflexivity. }
    exists h2, []. split; [destruct k; [exact E2|exact E2|congruence]|]. split; [exact B2|].
    split; [destruct k; [reflexivity|reflexivity|congruence]|].
    split; [exact N2|]. split; [exact P2|]. split; [exact F|]. split; [exact X|]. exact (AC h2 P2 F X).
Qed.

Lemma Forall2_impl : forall (A B : Type) (P Q : A -> B -> Prop) l es,
  (forall x e, P x e -> Q x e) -> Forall2 P l es -> Forall2 Q l es.
Proof. intros A B P Q l es H F. induction F; constructor; auto. Qed.

Lemma list_sum_cons : forall x l, list_sum (x :: l) = x + list_sum l.
Proof. reflexivity. Qed.

Lemma fillseq_ok : forall k c l, Forall conv_ok l -> forall h R es ks,
  bal h R -> In c R -> objs h c = Some (Obj 1 (PSeq ks es)) ->
  exists h' Ls es', fillseq k c l h = Some h' /\ bal h' (Ls ++ R) /\
    length Ls = length l * set_cost k + list_sum (map result_cost l) /\ next h <= next h' /\
    objs h' c = Some (Obj 1 (PSeq ks (es ++ es'))) /\
    (forall i, i < next h -> i <> c -> objs h' i = objs h i) /\
    Forall2 (den (next h) h') l es' /\ (acy h -> acy h').
Proof.
  intros k c l H. induction H as [|x l Hx H IH]; intros h R es ks B Ic Ec.
  - exists h, [], []. rewrite app_nil_r. split; [reflexivity|]. split; [exact B|]. split; [reflexivity|].
    split; [lia|]. split; [exact Ec|]. split; [reflexivity|]. split; [constructor|auto].
  - destruct (Hx h R B) as (e & h1 & L1 & E1 & B1 & C1 & (G1 & G1') & F1 & D1 & A1).
    pose proof (alive_lt _ _ _ _ B Ec) as Lc.
    assert (objs h1 c = Some (Obj 1 (PSeq ks es))) as Ec1 by (rewrite F1 by exact Lc; exact Ec).
    destruct (root_alive _ _ e B1 (or_introl eq_refl)) as (p & Ee).
    destruct (add_ok k h1 (L1 ++ R) c e p ks es B1 Ec1 Ee) as (h2 & L2 & E2 & B2 & C2 & N2 & P2 & F2 & X2 & A2).
    { lia. } { apply in_or_app. right. exact Ic. }
    destruct (IH h2 (L2 ++ L1 ++ R) (es ++ [e]) ks B2) as (h3 & L3 & es' & E3 & B3 & C3 & N3 & P3 & F3 & D3 & A3).
    { apply in_or_app. right. apply in_or_app. right. exact Ic. } { exact P2. }
    exists h3, (L3 ++ L2 ++ L1), (e :: es'). cbn [fillseq]. fold (fillseq k c). rewrite E1. cbn [bind].
    rewrite E2. cbn [bind]. split; [exact E3|].
    split; [rewrite <- !app_assoc; exact B3|]. split.
    { rewrite !app_length, C1, C2, C3. cbn [length map Nat.mul]. rewrite list_sum_cons. lia. }
    split; [lia|]. split; [rewrite P3, <- app_assoc; reflexivity|]. split.
    { intros i Li Di. rewrite F3 by lia. rewrite F2 by lia. apply F1. exact Li. }
    split; [|tauto]. constructor.
    + eapply den_frame; [exact D1|lia|]. intros i ob Li Ei.
      pose proof (alive_lt _ _ _ _ B1 Ei) as Li1.
      rewrite F3 by lia. destruct (Nat.eq_dec i e) as [->|De].
      * destruct X2 as (r & Er). rewrite Ee in Ei. injection Ei as <-. eauto.
      * rewrite F2 by lia. exists ob. auto.
    + eapply Forall2_impl; [|exact D3]. intros v o Dv. eapply den_frame; [exact Dv|lia|].
      intros i ob _ Ei. exists ob. auto.
Qed.

Lemma dict_set_ok : forall h R c a b pa pb l,
  bal h (b :: a :: R) -> objs h c = Some (Obj 1 (PDict l)) -> objs h a = Some pa -> objs h b = Some pb ->
  c <> a -> c <> b -> a <> b -> In c R ->
  exists h', dict_set c a b h = Some h' /\ bal h' (b :: a :: R) /\ next h' = next h /\
    objs h' c = Some (Obj 1 (PDict (l ++ [(a, b)]))) /\
    (forall i, i <> c -> i <> a -> i <> b -> objs h' i = objs h i) /\
    (exists r, objs h' a = Some (Obj r (pay pa))) /\ (exists r, objs h' b = Some (Obj r (pay pb))) /\
    (acy h -> acy h').
Proof.
  intros h R c a b pa pb l B Ec Ea Eb Da Db Dab Ic. unfold dict_set.
  destruct (incref_ok h _ a B (ex_intro _ pa Ea)) as (h1 & E1 & B1 & _ & N1).
  assert (forall i, objs h1 i = if i =? a then Some (Obj (S (rc pa)) (pay pa)) else objs h i) as P1.
  { unfold incref in E1. rewrite Ea in E1. injection E1 as <-. reflexivity. }
  assert (objs h1 b = Some pb) as Eb1.
  { rewrite P1. replace (b =? a) with false; [exact Eb|]. symmetry. apply Nat.eqb_neq. congruence. }
  destruct (incref_ok h1 _ b B1 (ex_intro _ pb Eb1)) as (h2 & E2 & B2 & _ & N2).
  assert (forall i, objs h2 i = if i =? b then Some (Obj (S (rc pb)) (pay pb)) else objs h1 i) as P2.
  { unfold incref in E2. rewrite Eb1 in E2. injection E2 as <-. reflexivity. }
  assert (objs h2 c = Some (Obj 1 (PDict l))) as Ec2.
  { rewrite P2, P1. replace (c =? b) with false; [|symmetry; apply Nat.eqb_neq; exact Db].
    replace (c =? a) with false; [exact Ec|symmetry; apply Nat.eqb_neq; exact Da]. }
  rewrite E1. cbn [bind]. rewrite E2. cbn [bind]. rewrite Ec2.
  eexists. split; [reflexivity|].
  assert (forall i, i <> c -> upd (objs h2) c (Some (Obj 1 (PDict (l ++ [(a, b)])))) i = objs h2 i) as U.
  { intros i Di. rewrite updE. replace (i =? c) with false; [reflexivity|]. symmetry. apply Nat.eqb_neq. exact Di. }
  assert (objs h2 a = Some (Obj (S (rc pa)) (pay pa))) as Ea2.
  { rewrite P2, P1, Nat.eqb_refl. replace (a =? b) with false; [reflexivity|]. symmetry. apply Nat.eqb_neq. exact Dab. }
  assert (objs h2 b = Some (Obj (S (rc pb)) (pay pb))) as Eb2 by (rewrite P2, Nat.eqb_refl; reflexivity).
  split; [|split; [cbn; congruence|split; [cbn; rewrite updE, Nat.eqb_refl; reflexivity|]]].
  { eapply change_bal; [exact B2|exact Ec2|cbn; lia|]. intros x. cbn [rc pay kids].
    rewrite flat_map_app, count_occ_app. cbn [flat_map count_occ app].
    destruct (Nat.eq_dec a x), (Nat.eq_dec b x), (x =? c); lia. }
  split; [|split; [|split]].
  - intros i D1 D2 D3. cbn [objs]. rewrite U by exact D1. rewrite P2, P1.
    replace (i =? b) with false; [|symmetry; apply Nat.eqb_neq; exact D3].
    replace (i =? a) with false; [reflexivity|symmetry; apply Nat.eqb_neq; exact D2].
  - exists (S (rc pa)). cbn [objs]. rewrite U by congruence. exact Ea2.
  - exists (S (rc pb)). cbn [objs]. rewrite U by congruence. exact Eb2.
  - intros A. eapply (acy_change h _ _ c _ _ [a; b] B); [right; right; exact Ic|exact Ec|exact A| | | |].
    + intros [->|[->|[]]]; congruence.
    + cbn. rewrite updE, Nat.eqb_refl. reflexivity.
    + cbn [kids]. intros k I. rewrite flat_map_app in I. apply in_app_or in I. cbn in I. cbn. tauto.
    + intros i ob' Di Ei. cbn [objs] in Ei. rewrite U in Ei by exact Di. rewrite P2, P1 in Ei.
      destruct (i =? b) eqn:Qb; [|destruct (i =? a) eqn:Qa].
      * apply Nat.eqb_eq in Qb. subst i. injection Ei as <-. exists pb. auto.
      * apply Nat.eqb_eq in Qa. subst i. injection Ei as <-. exists pa. auto.
      * exists ob'. auto.
Qed.

Lemma filldict_ok : forall c l, Forall (fun kv => conv_ok (fst kv) /\ conv_ok (snd kv)) l -> forall h R es,
  bal h R -> In c R -> objs h c = Some (Obj 1 (PDict es)) ->
  exists h' Ls es', filldict c l h = Some h' /\ bal h' (Ls ++ R) /\
    length Ls = 2 * length l + list_sum (map (fun '(k, v) => result_cost k + result_cost v) l) /\
    next h <= next h' /\
    objs h' c = Some (Obj 1 (PDict (es ++ es'))) /\
    (forall i, i < next h -> i <> c -> objs h' i = objs h i) /\
    Forall2 (fun kv ab => den (next h) h' (fst kv) (fst ab) /\ den (next h) h' (snd kv) (snd ab)) l es' /\
    (acy h -> acy h').
Proof.
  intros c l H. induction H as [|[x y] l [Hx Hy] H IH]; intros h R es B Ic Ec.
  - exists h, [], []. rewrite app_nil_r. split; [reflexivity|]. split; [exact B|]. split; [reflexivity|].
    split; [lia|]. split; [exact Ec|]. split; [reflexivity|]. split; [constructor|auto].
  - cbn [fst snd] in *. pose proof (alive_lt _ _ _ _ B Ec) as Lc.
    destruct (Hx h R B) as (a & h1 & L1 & E1 & B1 & C1 & (G1 & G1') & F1 & D1 & A1).
    destruct (Hy h1 _ B1) as (b & h2 & L2 & E2 & B2 & C2 & (G2 & G2') & F2 & D2 & A2).
    assert (objs h2 c = Some (Obj 1 (PDict es))) as Ec2 by (rewrite F2, F1 by lia; exact Ec).
    destruct (root_alive _ _ a B1 (or_introl eq_refl)) as (pa & Ea).
    assert (objs h2 a = Some pa) as Ea2 by (rewrite F2 by lia; exact Ea).
    destruct (root_alive _ _ b B2 (or_introl eq_refl)) as (pb & Eb).
    destruct (dict_set_ok h2 (L2 ++ L1 ++ R) c a b pa pb es) as (h3 & E3 & B3 & N3 & P3 & F3 & (ra & Xa) & (rb & Xb) & A3);
      try assumption; try lia.
    { eapply bal_perm; [exact B2|]. intros i. cbn [count_occ]. rewrite !count_occ_app. cbn [count_occ].
      rewrite !count_occ_app. destruct (Nat.eq_dec a i), (Nat.eq_dec b i); lia. }
    { apply in_or_app. right. apply in_or_app. right. exact Ic. }
    destruct (IH h3 (b :: a :: L2 ++ L1 ++ R) (es ++ [(a, b)]) B3) as (h4 & L4 & es' & E4 & B4 & C4 & N4 & P4 & F4 & D4 & A4).
    { right. right. apply in_or_app. right. apply in_or_app. right. exact Ic. } { exact P3. }
    exists h4, (L4 ++ b :: a :: L2 ++ L1), ((a, b) :: es'). cbn [filldict]. fold (filldict c). rewrite E1. cbn [bind].
    rewrite E2. cbn [bind]. rewrite E3. cbn [bind]. split; [exact E4|].
    split; [rewrite <- app_assoc; cbn [app]; rewrite <- !app_assoc; exact B4|]. split.
    { rewrite !app_length. cbn [length]. rewrite !app_length, C1, C2, C4. cbn [length map]. rewrite list_sum_cons. lia. }
    split; [lia|]. split; [rewrite P4, <- app_assoc; reflexivity|]. split.
    { intros i Li Di. rewrite F4 by lia. rewrite F3 by lia. rewrite F2, F1 by lia. reflexivity. }
    split; [|tauto]. constructor.
    + cbn [fst snd].
      assert (frame (next h) h2 h4) as FR.
      { intros i ob Li Ei. pose proof (alive_lt _ _ _ _ B2 Ei) as Li1.
        rewrite F4 by lia. destruct (Nat.eq_dec i a) as [->|Da]; [|destruct (Nat.eq_dec i b) as [->|Db]].
        * rewrite Ea2 in Ei. injection Ei as <-. eauto.
        * rewrite Eb in Ei. injection Ei as <-. eauto.
        * rewrite F3 by lia. exists ob. auto. }
      split.
      * eapply den_frame; [|exact (le_n _)|exact FR]. eapply den_frame; [exact D1|lia|].
        intros i ob _ Ei. pose proof (alive_lt _ _ _ _ B1 Ei) as Li1. exists ob. rewrite F2 by lia. auto.
      * eapply den_frame; [|exact (le_n _)|exact FR]. eapply den_frame; [exact D2|lia|].
        intros i ob _ Ei. exists ob. auto.
    + eapply Forall2_impl; [|exact D4]. intros kv ab [Q1 Q2].
      assert (frame (next h3) h4 h4) as FR by (intros i ob _ Ei; exists ob; auto).
      split; (eapply den_frame; [eassumption|lia|exact FR]).
Qed.

Lemma eachpy_ok : forall l, Forall conv_ok l -> forall h R, bal h R ->
  exists es h' Ls, eachpy l h = Some (es, h') /\ bal h' (es ++ Ls ++ R) /\
    length Ls = list_sum (map result_cost l) /\ next h <= next h' /\
    NoDup es /\ Forall (fun e => next h <= e < next h') es /\
    (forall i, i < next h -> objs h' i = objs h i) /\
    Forall2 (den (next h) h') l es /\ (acy h -> acy h').
Proof.
  intros l H. induction H as [|x l Hx H IH]; intros h R B.
  - exists [], h, []. split; [reflexivity|]. split; [exact B|]. split; [reflexivity|]. split; [lia|].
    split; [constructor|]. split; [constructor|]. split; [reflexivity|]. split; [constructor|auto].
  - destruct (Hx h R B) as (e & h1 & L1 & E1 & B1 & C1 & (G1 & G1') & F1 & D1 & A1).
    destruct (IH h1 _ B1) as (es & h2 & L2 & E2 & B2 & C2 & N2 & ND & FA & F2 & D2 & A2).
    exists (e :: es), h2, (L2 ++ L1). cbn [eachpy]. fold eachpy. rewrite E1. cbn [bind]. rewrite E2. cbn [bind].
    split; [reflexivity|]. split; [|split; [|split; [lia|split; [|split; [|split; [|split]]]]]].
    + eapply bal_perm; [exact B2|]. intros i. rewrite !count_occ_app. cbn [count_occ app].
      rewrite !count_occ_app. destruct (Nat.eq_dec e i); lia.
    + rewrite app_length, C1, C2. cbn [map]. rewrite list_sum_cons. lia.
    + constructor; [|exact ND]. intros I. rewrite Forall_forall in FA. specialize (FA e I). lia.
    + constructor; [lia|]. eapply Forall_impl; [|exact FA]. cbn. intros. lia.
    + intros i Li. rewrite F2, F1 by lia. reflexivity.
    + constructor.
      * eapply den_frame; [exact D1|lia|]. intros i ob _ Ei. pose proof (alive_lt _ _ _ _ B1 Ei) as Li1.
        exists ob. rewrite F2 by lia. auto.
      * eapply Forall2_impl; [|exact D2]. intros v o Dv. eapply den_frame; [exact Dv|lia|].
        intros i ob _ Ei. exists ob. auto.
    + tauto.
Qed.

Lemma to_py_ok : forall v, conv_ok v.
Proof.
  intros v. induction v as [z|k l IH|l IH|l IH] using cval_ind'; intros h R B.
  - exists (next h), (snd (new (PLeaf z) h)), []. split; [reflexivity|].
    split; [exact (new_bal h R (PLeaf z) B)|]. split; [reflexivity|]. split; [cbn; lia|]. split; [|split].
    + intros i Li. cbn. rewrite updE. replace (i =? next h) with false; [reflexivity|].
      symmetry. apply Nat.eqb_neq. lia.
    + eapply den_leaf; [lia|]. cbn. rewrite updE, Nat.eqb_refl. reflexivity.
    + exact (acy_new h R (PLeaf z) B).
  - rewrite to_py_seq. pose proof (new_bal h R (PSeq k []) B) as B1.
    pose proof (acy_new h R (PSeq k []) B) as A1. unfold new in *. cbn [snd] in *.
    set (h1 := Heap (upd (objs h) (next h) (Some (Obj 1 (PSeq k [])))) (S (next h))) in *.
    destruct (fillseq_ok k (next h) l IH h1 (next h :: R) [] k B1 (or_introl eq_refl))
      as (h2 & Ls & es & E2 & B2 & C2 & N2 & P2 & F2 & D2 & A2).
    { cbn. rewrite updE, Nat.eqb_refl. reflexivity. }
    rewrite E2. cbn [bind]. exists (next h), h2, Ls. split; [reflexivity|]. split; [|split; [|split; [|split; [|split]]]].
    + eapply bal_perm; [exact B2|]. intros i. rewrite !count_occ_app. cbn [count_occ]. rewrite count_occ_app.
      destruct (Nat.eq_dec (next h) i); lia.
    + rewrite C2. destruct k; cbn [set_cost result_cost]; lia.
    + cbn in N2. lia.
    + intros i Li. rewrite F2 by (cbn; lia). cbn. rewrite updE. replace (i =? next h) with false; [reflexivity|].
      symmetry. apply Nat.eqb_neq. lia.
    + eapply den_seq; [lia|exact P2|]. eapply Forall2_impl; [|exact D2]. intros v o Dv.
      eapply den_frame; [exact Dv|cbn; lia|]. intros i ob _ Ei. exists ob. auto.
    + tauto.
  - rewrite to_py_dict. pose proof (new_bal h R (PDict []) B) as B1.
    pose proof (acy_new h R (PDict []) B) as A1. unfold new in *. cbn [snd] in *.
    set (h1 := Heap (upd (objs h) (next h) (Some (Obj 1 (PDict [])))) (S (next h))) in *.
    destruct (filldict_ok (next h) l IH h1 (next h :: R) [] B1 (or_introl eq_refl))
      as (h2 & Ls & es & E2 & B2 & C2 & N2 & P2 & F2 & D2 & A2).
    { cbn. rewrite updE, Nat.eqb_refl. reflexivity. }
    rewrite E2. cbn [bind]. exists (next h), h2, Ls. split; [reflexivity|]. split; [|split; [|split; [|split; [|split]]]].
    + eapply bal_perm; [exact B2|]. intros i. rewrite !count_occ_app. cbn [count_occ]. rewrite count_occ_app.
      destruct (Nat.eq_dec (next h) i); lia.
    + exact C2.
    + cbn in N2. lia.
    + intros i Li. rewrite F2 by (cbn; lia). cbn. rewrite updE. replace (i =? next h) with false; [reflexivity|].
      symmetry. apply Nat.eqb_neq. lia.
    + eapply den_dict; [lia|exact P2|]. eapply Forall2_impl; [|exact D2]. intros kv ab [Q1 Q2].
      assert (frame (next h1) h2 h2) as FR by (intros i ob _ Ei; exists ob; auto).
      split; (eapply den_frame; [eassumption|cbn; lia|exact FR]).
    + tauto.
  - rewrite to_py_tup. destruct (eachpy_ok l IH h R B) as (es & h1 & Ls & E1 & B1 & C1 & N1 & ND & FA & F1 & D1 & A1).
    rewrite E1. cbn [bind]. destruct (pack_ok es h1 (Ls ++ R) B1 ND) as (h2 & E2 & B2 & N2 & P2 & F2).
    cbn [bind] in E2. rewrite E2. exists (next h1), h2, Ls. split; [reflexivity|]. split; [exact B2|].
    split; [exact C1|]. split; [lia|]. split; [|split].
    + intros i Li. rewrite F2, F1 by lia. reflexivity.
    + eapply den_tup; [lia|exact P2|]. eapply Forall2_impl; [|exact D1]. intros v o Dv.
      eapply den_frame; [exact Dv|lia|]. intros i ob _ Ei. pose proof (alive_lt _ _ _ _ B1 Ei) as Li1.
      exists ob. rewrite F2 by lia. auto.
    + intros A. specialize (A1 A). eapply (acy_sub (snd (new (PSeq KTuple es) h1))); [exact (acy_new h1 _ (PSeq KTuple es) B1 A1)|].
      intros i ob' Ei. cbn. rewrite updE. destruct (i =? next h1) eqn:Q.
      * apply Nat.eqb_eq in Q. subst i. rewrite P2 in Ei. injection Ei as <-. eexists. split; reflexivity.
      * apply Nat.eqb_neq in Q. pose proof (alive_lt _ _ _ _ B2 Ei) as Li. rewrite F2 in Ei by lia. exists ob'. auto.
Qed.

(** ** Conversion of arguments *)

Lemma get_iter_ok : forall h R o, bal h R -> In o R ->
  exists it h', get_iter o h = Some (it, h') /\ bal h' (it :: R) /\ same h h' /\
    objs h' it = Some (Obj 1 (PIter o)).
Proof.
  intros h R o B I. destruct (incref_ok h R o B (root_alive _ _ o B I)) as (h1 & E1 & B1 & S1 & N1).
  exists (next h1), (snd (new (PIter o) h1)). unfold get_iter. rewrite E1. cbn [bind].
  split; [reflexivity|]. split; [exact (new_bal h1 R (PIter o) B1)|]. split.
  - eapply same_trans; [exact S1|]. split; [cbn; lia|]. intros i L. cbn. rewrite updE.
    replace (i =? next h1) with false; [reflexivity|]. symmetry. apply Nat.eqb_neq. lia.
  - cbn. rewrite updE, Nat.eqb_refl. reflexivity.
Qed.

(** An iterator is made and each element is read. *)
Lemma iterate_ok : forall h R o n k l, bal h R -> In o R -> objs h o = Some (Obj n (PSeq k l)) ->
  exists it h1 h2 m, get_iter o h = Some (it, h1) /\ iter_all l h1 = Some h2 /\
    bal h2 (l ++ it :: R) /\ same h h2 /\ objs h2 it = Some (Obj m (PIter o)).
Proof.
  intros h R o n k l B I E. destruct (get_iter_ok h R o B I) as (it & h1 & E1 & B1 & S1 & P1).
  destruct (increfs_ok l h1 (it :: R) B1) as (h2 & E2 & B2 & S2 & N2).
  { intros x J. destruct (kid_alive _ _ _ _ x B E J) as (ob & Ex).
    destruct (same_alive _ _ _ _ S1 (alive_lt _ _ _ _ B Ex) Ex) as (ob' & E' & _). eauto. }
  destruct (same_alive _ _ _ _ S2 (alive_lt _ _ _ _ B1 P1) P1) as ([m p] & E' & P'). cbn in P'. subst p.
  exists it, h1, h2, m. split; [exact E1|]. split; [exact E2|]. split; [exact B2|]. split; [|exact E'].
  eapply same_trans; eassumption.
Qed.

Lemma leaf_same : forall h h' e, same h h' -> e < next h -> leaf h' e = leaf h e.
Proof.
  intros h h' e [_ H] L. specialize (H e L). unfold leaf.
  destruct (objs h' e) as [[? []]|], (objs h e) as [[? []]|]; cbn in H; congruence.
Qed.

Lemma leaves_same : forall h h' l, same h h' -> (forall e, In e l -> e < next h) -> leaves h' l = leaves h l.
Proof.
  intros h h' l S. induction l as [|e l IH]; intros H; [reflexivity|]. cbn.
  rewrite (leaf_same h h' e S) by (apply H; left; reflexivity). rewrite IH by (intros x I; apply H; right; exact I).
  reflexivity.
Qed.

Lemma leaves_forall2 : forall h l zs, leaves h l = Some zs <-> Forall2 (fun e z => leaf h e = Some z) l zs.
Proof.
  intros h l. induction l as [|e l IH]; intros zs; cbn.
  - split; [intros [= <-]; constructor|intros H; inversion H; reflexivity].
  - split.
    + destruct (leaf h e) as [z|] eqn:E; [|discriminate]. destruct (leaves h l) as [zs'|] eqn:E'; [|discriminate].
      intros [= <-]. constructor; [exact E|]. apply IH. reflexivity.
    + intros H. inversion H as [|? z ? zs' H1 H2]; subst. apply IH in H2. rewrite H1, H2. reflexivity.
Qed.

Lemma arg_value_same : forall h h' R p o a, bal h R -> same h h' -> arg_value h p o a -> arg_value h' p o a.
Proof.
  intros h h' R p o a B S. destruct p as [|k c], a as [z|zs]; cbn; auto.
  - unfold leaf at 1. destruct (objs h o) as [[n p]|] eqn:E; [|discriminate].
    intros H. rewrite (leaf_same h h' o S (alive_lt _ _ _ _ B E)). unfold leaf. rewrite E. exact H.
  - intros (n & l & E & F).
    destruct (same_alive _ _ _ _ S (alive_lt _ _ _ _ B E) E) as ([m p] & E' & P'). cbn in P'. subst p.
    exists m, l. split; [exact E'|]. apply leaves_forall2. apply leaves_forall2 in F.
    rewrite (leaves_same h h' l S); [exact F|]. intros e I.
    destruct (kid_alive _ _ _ _ e B E I) as (ob & Ee). exact (alive_lt _ _ _ _ B Ee).
Qed.

Lemma Forall2_length : forall (A B : Type) (P : A -> B -> Prop) l es, Forall2 P l es -> length l = length es.
Proof. intros A B P l es F. induction F; cbn; congruence. Qed.
Arguments Forall2_length {A B P l es}.

Lemma kind_eqb_eq : forall a b, kind_eqb a b = true -> a = b.
Proof. intros [] []; cbn; congruence. Qed.

Lemma kind_eqb_refl : forall a, kind_eqb a a = true.
Proof. intros []; reflexivity. Qed.

Definition check_cost (p : param) (a : aval) : nat :=
  match p with TScalar => 0 | TSeq _ _ => 1 + size a end.

Definition extract_cost (p : param) (a : aval) : nat :=
  match p with TScalar | TSeq KTuple _ => 0 | TSeq _ _ => 1 + size a end.

(** A reference to an iterator over the object is among the lost ones. *)
Definition iter_in (Ls : list nat) (h : heap) (o : nat) : Prop :=
  exists it n, In it Ls /\ objs h it = Some (Obj n (PIter o)).

Lemma check_ok : forall p o h R, bal h R -> In o R ->
  exists b h' Ls, check p o h = Some (b, h') /\ bal h' (Ls ++ R) /\ same h h' /\
    (p = TScalar -> Ls = []) /\
    (b = true -> exists a, arg_value h p o a /\ length Ls = check_cost p a /\
                   (forall k c, p = TSeq k c -> iter_in Ls h' o)) /\
    (forall a, arg_value h p o a -> b = true).
Proof.
  intros p o h R B I. destruct (root_alive _ _ o B I) as ([n q] & E). destruct p as [|k c]; cbn [check]; rewrite E.
  - eexists _, h, []. split; [reflexivity|]. split; [exact B|]. split; [apply same_refl|]. split; [reflexivity|]. split.
    + intros H. destruct (leaf h o) as [z|] eqn:F; [|discriminate]. exists (AScalar z). split; [exact F|].
      split; [reflexivity|discriminate].
    + intros [z|zs] A; [|destruct A]. cbn in A. rewrite A. reflexivity.
  - assert (forall (P : Prop), (forall l, q <> PSeq k l) -> (exists a, arg_value h (TSeq k c) o a) -> P) as NO.
    { intros P NQ ([z|zs] & A); [destruct A|]. destruct A as (m & l & E' & _). rewrite E in E'.
      injection E' as _ ->. destruct (NQ l eq_refl). }
    assert (forall k' l, q = PSeq k' l -> kind_eqb k k' = true ->
            exists b h' Ls, bind (get_iter o h) (fun '(_, h) => bind (iter_all l h) (fun h =>
                Some (match leaves h l with Some _ => true | None => false end, h))) = Some (b, h') /\
              bal h' (Ls ++ R) /\ same h h' /\ (TSeq k c = TScalar -> Ls = []) /\
              (b = true -> exists a, arg_value h (TSeq k c) o a /\ length Ls = check_cost (TSeq k c) a /\
                 (forall k0 c0, TSeq k c = TSeq k0 c0 -> iter_in Ls h' o)) /\
              (forall a, arg_value h (TSeq k c) o a -> b = true)) as YES.
    { intros k' l -> Q. apply kind_eqb_eq in Q. subst k'.
      destruct (iterate_ok h R o n k l B I E) as (it & h1 & h2 & m & E1 & E2 & B2 & S2 & P2).
      rewrite E1. cbn [bind]. rewrite E2. cbn [bind]. eexists _, h2, (l ++ [it]). split; [reflexivity|].
      split; [rewrite <- app_assoc; exact B2|]. split; [exact S2|]. split; [discriminate|].
      assert (leaves h2 l = leaves h l) as EL.
      { apply leaves_same; [exact S2|]. intros e J. destruct (kid_alive _ _ _ _ e B E J) as (ob & Ee).
        exact (alive_lt _ _ _ _ B Ee). }
      rewrite EL. split.
      - intros Hb. destruct (leaves h l) as [zs|] eqn:F; [|discriminate]. exists (ASeq zs).
        apply leaves_forall2 in F. split; [cbn; eauto|]. split.
        + cbn. rewrite app_length. cbn. rewrite (Forall2_length F). lia.
        + intros _ _ _. exists it, m. split; [apply in_or_app; right; left; reflexivity|exact P2].
      - intros [z|zs] A; [destruct A|]. destruct A as (m' & l' & E' & F). rewrite E in E'. injection E' as _ <-.
        apply leaves_forall2 in F. rewrite F. reflexivity. }
    assert ((forall l, q <> PSeq k l) -> exists b h' Ls, Some (false, h) = Some (b, h') /\
              bal h' (Ls ++ R) /\ same h h' /\ (TSeq k c = TScalar -> Ls = []) /\
              (b = true -> exists a, arg_value h (TSeq k c) o a /\ length Ls = check_cost (TSeq k c) a /\
                 (forall k0 c0, TSeq k c = TSeq k0 c0 -> iter_in Ls h' o)) /\
              (forall a, arg_value h (TSeq k c) o a -> b = true)) as REJ.
    { intros NQ. exists false, h, []. split; [reflexivity|]. split; [exact B|]. split; [apply same_refl|].
      split; [discriminate|]. split; [discriminate|]. intros a A. apply (NO _ NQ). eauto. }
    destruct q as [z|k' l|l|x].
    + apply REJ. discriminate.
    + destruct (kind_eqb k k') eqn:Q; [apply (YES k' l eq_refl Q)|]. apply REJ.
      intros l' [= -> _]. rewrite kind_eqb_refl in Q. discriminate.
    + apply REJ. discriminate.
    + apply REJ. discriminate.
Qed.

Lemma extract_ok : forall p o h R a, bal h R -> In o R -> arg_value h p o a ->
  exists h' Ls, extract p o h = Some (a, h') /\ bal h' (Ls ++ R) /\ same h h' /\ length Ls = extract_cost p a.
Proof.
  intros p o h R a B I A. destruct p as [|k c], a as [z|zs]; cbn in A; try contradiction; cbn [extract].
  - rewrite A. exists h, []. split; [reflexivity|]. split; [exact B|]. split; [apply same_refl|reflexivity].
  - destruct A as (n & l & E & F). unfold items_of. rewrite E. cbn [bind].
    pose proof (proj2 (leaves_forall2 h l zs) F) as F'. rewrite F'. cbn [bind].
    assert (k = KTuple \/ k <> KTuple) as [->|NK] by (destruct k; auto; right; discriminate).
    + exists h, []. split; [reflexivity|]. split; [exact B|]. split; [apply same_refl|reflexivity].
    + destruct (iterate_ok h R o n k l B I E) as (it & h1 & h2 & m & E1 & E2 & B2 & S2 & P2).
      exists h2, (l ++ [it]). rewrite E1. cbn [bind]. rewrite E2. cbn [bind].
      split; [destruct k; [reflexivity|congruence|reflexivity]|].
      split; [rewrite <- app_assoc; exact B2|]. split; [exact S2|].
      rewrite app_length. cbn. rewrite (Forall2_length F). destruct k; [lia|congruence|lia].
Qed.

Fixpoint conv_cost (ps : list param) (vs : list aval) : nat :=
  match ps, vs with
  | p :: ps', a :: vs' => check_cost p a + extract_cost p a + conv_cost ps' vs'
  | _, _ => 0
  end.

Lemma iter_in_same : forall Ls Ls' h h' R o, bal h R -> same h h' -> incl Ls Ls' -> iter_in Ls h o -> iter_in Ls' h' o.
Proof.
  intros Ls Ls' h h' R o B S IN (it & n & I & E).
  destruct (same_alive _ _ _ _ S (alive_lt _ _ _ _ B E) E) as ([m p] & E' & P'). cbn in P'. subst p.
  exists it, m. split; [apply IN; exact I|exact E'].
Qed.

Lemma convert_ok : forall ps args h R, bal h R -> incl args R ->
  exists r, convert ps args h = Some r /\
  match r with
  | Done vs h' => exists Ls, bal h' (Ls ++ R) /\ same h h' /\ args_value h ps args vs /\
      length Ls = conv_cost ps vs /\
      (forall i k c o, nth_error ps i = Some (TSeq k c) -> nth_error args i = Some o -> iter_in Ls h' o)
  | TypeError h' => exists Ls, bal h' (Ls ++ R) /\ same h h' /\
      ((forall p, In p ps -> p = TScalar) -> Ls = []) /\ (forall vs, ~ args_value h ps args vs)
  end.
Proof.
  induction ps as [|p ps IH]; intros [|o args] h R B IN.
  - eexists. split; [reflexivity|]. exists []. split; [exact B|]. split; [apply same_refl|].
    split; [split; [reflexivity|constructor]|]. split; [reflexivity|]. intros [|i]; discriminate.
  - eexists. split; [reflexivity|]. exists []. split; [exact B|]. split; [apply same_refl|].
    split; [reflexivity|]. intros vs [A _]. discriminate.
  - eexists. split; [reflexivity|]. exists []. split; [exact B|]. split; [apply same_refl|].
    split; [reflexivity|]. intros vs [A _]. discriminate.
  - cbn [convert].
    destruct (check_ok p o h R B (IN o (or_introl eq_refl))) as (b & h1 & L1 & E1 & B1 & S1 & Z1 & V1 & W1).
    rewrite E1. cbn [bind]. destruct b.
    + destruct (V1 eq_refl) as (a & A & C1 & T1).
      destruct (extract_ok p o h1 (L1 ++ R) a B1) as (h2 & L2 & E2 & B2 & S2 & C2).
      { apply in_or_app. right. apply IN. left. reflexivity. } { exact (arg_value_same h h1 R p o a B S1 A). }
      rewrite E2. cbn [bind].
      destruct (IH args h2 (L2 ++ L1 ++ R) B2) as (r & E3 & HR).
      { intros x I. apply in_or_app. right. apply in_or_app. right. apply IN. right. exact I. }
      rewrite E3. cbn [bind].
      assert (same h h2) as S12 by (eapply same_trans; eassumption).
      assert (forall ps args vs, args_value h2 ps args vs -> incl args R -> args_value h ps args vs) as BACK.
      { intros qs as_ ws [Q1 Q2] INC. split; [exact Q1|]. revert as_ ws Q1 Q2 INC.
        induction qs as [|q qs IHq]; intros [|x as_] ws Q1 Q2 INC; cbn in *; inversion Q2; subst; constructor;
          try discriminate.
        - assert (In x R) as Ix by (apply INC; left; reflexivity).
          destruct (root_alive _ _ x B Ix) as ([n0 q0] & Ex). pose proof (alive_lt _ _ _ _ B Ex) as Lx.
          destruct q as [|kq cq], y as [z|zs]; cbn in *; auto.
          + rewrite <- (leaf_same h h2 x S12 Lx). assumption.
          + destruct H1 as (n & l0 & E & F). destruct (same_alive _ _ _ _ S12 Lx Ex) as (ob' & E' & P').
            rewrite E in E'. injection E' as <-. cbn in P'. subst q0. exists n0, l0. split; [exact Ex|].
            apply leaves_forall2. apply leaves_forall2 in F. rewrite <- F. symmetry. apply leaves_same; [exact S12|].
            intros e J. destruct (kid_alive _ _ _ _ e B Ex J) as (ob & Ee). exact (alive_lt _ _ _ _ B Ee).
        - apply IHq; auto. intros y0 I0. apply INC. right. exact I0. }
      eexists. split; [reflexivity|]. destruct r as [vs h3|h3].
      * destruct HR as (L3 & B3 & S3 & V3 & C3 & T3). exists (L3 ++ L2 ++ L1).
        split; [rewrite <- !app_assoc; exact B3|]. split; [eapply same_trans; eassumption|].
        assert (args_value h ps args vs) as [V4 V5] by (apply BACK; [exact V3|intros x I; apply IN; right; exact I]).
        split; [split; [cbn; congruence|cbn [combine]; constructor; [exact A|exact V5]]|].
        split; [rewrite !app_length, C1, C2, C3; cbn [conv_cost]; lia|].
        intros [|i] k c x Hp Hx; cbn in Hp, Hx.
        -- injection Hp as ->. injection Hx as ->.
           eapply (iter_in_same L1 _ h1 h3); [exact B1|eapply same_trans; eassumption| |exact (T1 k c eq_refl)].
           intros y Iy. apply in_or_app. right. apply in_or_app. right. exact Iy.
        -- destruct (T3 i k c x Hp Hx) as (it & n & Iit & Eit). exists it, n. split; [|exact Eit].
           apply in_or_app. left. exact Iit.
      * destruct HR as (L3 & B3 & S3 & Z3 & W3). exists (L3 ++ L2 ++ L1).
        split; [rewrite <- !app_assoc; exact B3|]. split; [eapply same_trans; eassumption|]. split.
        -- intros HS. rewrite (Z3 (fun q I => HS q (or_intror I))).
           pose proof (HS p (or_introl eq_refl)) as ->. rewrite (Z1 eq_refl). cbn in C2.
           destruct L2; [reflexivity|discriminate].
        -- intros vs [Q1 Q2]. cbn in Q1, Q2. inversion Q2 as [|q0 a0 ? ws H1 H2]; subst.
           apply (W3 ws). split; [lia|].
           assert (length ps = length args) as Q3 by lia. assert (incl args R) as INC by (intros x I; apply IN; right; exact I).
           clear - H2 B S12. eapply Forall2_impl; [|exact H2]. intros [q x] w. apply (arg_value_same h h2 R); assumption.
    + eexists. split; [reflexivity|]. exists L1. split; [exact B1|]. split; [exact S1|]. split.
      * intros HS. apply Z1. apply HS. left. reflexivity.
      * intros vs [Q1 Q2]. cbn in Q2. inversion Q2 as [|q0 a0 ? ws H1 H2]; subst. specialize (W1 _ H1). discriminate.
Qed.

(** ** Copying back *)

Lemma keeps_seq : forall C h h' R o n k l, keeps C h h' -> bal h R -> objs h o = Some (Obj n (PSeq k l)) ->
  (exists ob, objs h' o = Some ob) -> exists n' l', objs h' o = Some (Obj n' (PSeq k l')).
Proof.
  intros C h h' R o n k l K B E (ob & E'). destruct (proj2 K o ob (alive_lt _ _ _ _ B E) E') as (ob0 & E0 & P).
  rewrite E in E0. injection E0 as <-. destruct ob as [r p]. cbn in P.
  destruct P as [->|(_ & k' & l1 & l2 & P1 & ->)]; [eauto|]. injection P1 as <- <-. eauto.
Qed.

Lemma keeps_iter : forall C h h' R it n o, keeps C h h' -> bal h R -> objs h it = Some (Obj n (PIter o)) ->
  (exists ob, objs h' it = Some ob) -> exists n', objs h' it = Some (Obj n' (PIter o)).
Proof.
  intros C h h' R it n o K B E (ob & E'). destruct (proj2 K it ob (alive_lt _ _ _ _ B E) E') as (ob0 & E0 & P).
  rewrite E in E0. injection E0 as <-. destruct ob as [r p]. cbn in P.
  destruct P as [->|(_ & k' & l1 & l2 & P1 & _)]; [eauto|discriminate].
Qed.

Lemma refill_ok : forall zs c h R n k l, bal h R -> In c R -> objs h c = Some (Obj n (PSeq k l)) ->
  exists h' Ls, refill c zs h = Some h' /\ bal h' (Ls ++ R) /\ length Ls = length zs /\ keeps (eq c) h h'.
Proof.
  induction zs as [|z zs IH]; intros c h R n k l B I E.
  - exists h, []. split; [reflexivity|]. split; [exact B|]. split; [reflexivity|apply keeps_refl].
  - cbn [refill]. unfold new. pose proof (new_bal h R (PLeaf z) B) as B1. unfold new in B1. cbn [snd] in B1.
    set (h1 := Heap (upd (objs h) (next h) (Some (Obj 1 (PLeaf z)))) (S (next h))) in *.
    pose proof (alive_lt _ _ _ _ B E) as Lc.
    assert (forall i, i < next h -> objs h1 i = objs h i) as F1.
    { intros i Li. cbn. rewrite updE. replace (i =? next h) with false; [reflexivity|].
      symmetry. apply Nat.eqb_neq. lia. }
    assert (objs h1 c = Some (Obj n (PSeq k l))) as Ec by (rewrite F1 by exact Lc; exact E).
    destruct (incref_ok h1 (next h :: R) (next h) B1 (root_alive _ _ _ B1 (or_introl eq_refl))) as (h2 & E2 & B2 & S2 & N2).
    assert (exists n2, objs h2 c = Some (Obj n2 (PSeq k l))) as (n2 & Ec2).
    { destruct (same_alive _ _ _ _ S2 (alive_lt _ _ _ _ B1 Ec) Ec) as ([r p] & E' & P'). cbn in P'. subst p. eauto. }
    destruct (put_ok h2 (next h :: R) c (next h) n2 k l B2 Ec2) as (h3 & E3 & B3 & N3 & P3 & F3).
    destruct (IH c h3 (next h :: R) n2 k (l ++ [next h]) B3 (or_intror I) P3) as (h4 & Ls & E4 & B4 & C4 & K4).
    exists h4, (Ls ++ [next h]). unfold append. rewrite E2. cbn [bind]. rewrite E3. cbn [bind].
    split; [exact E4|]. split; [rewrite <- app_assoc; exact B4|]. split; [rewrite app_length, C4; cbn; lia|].
    eapply keeps_trans; [|eapply keeps_trans; [apply same_keeps; exact S2|eapply keeps_trans; [|exact K4]]].
    + split; [cbn; lia|]. intros i ob' Li Ei. rewrite F1 in Ei by exact Li. exists ob'. auto.
    + split; [lia|]. intros i ob' Li Ei. destruct (Nat.eq_dec i c) as [->|D].
      * rewrite P3 in Ei. injection Ei as <-. exists (Obj n2 (PSeq k l)). split; [exact Ec2|]. right.
        split; [reflexivity|]. exists k, l, (l ++ [next h]). auto.
      * rewrite F3 in Ei by exact D. exists ob'. auto.
Qed.

Fixpoint clean_cost (L : lang) (ps : list param) (args : list nat) (i : nat) (after : nat -> list Z) : nat :=
  match ps, args with
  | p :: ps', o :: args' =>
      (if written L p then length (after i) else 0) + clean_cost L ps' args' (S i) after
  | _, _ => 0
  end.

Lemma clean_up_ok : forall L ps args i after h R, bal h R -> incl args R ->
  (forall p o, In (p, o) (combine ps args) -> written L p = true ->
     exists n k l, objs h o = Some (Obj n (PSeq k l))) ->
  exists h' Ls, clean_up L ps args i after h = Some h' /\ bal h' (Ls ++ R) /\
    length Ls = clean_cost L ps args i after /\ keeps (fun x => In x args) h h' /\
    ((forall p, In p ps -> p = TScalar) -> h' = h).
Proof.
  intros L. induction ps as [|p ps IH]; intros [|o args] i aft h R B IN W;
    try (exists h, []; split; [reflexivity|]; split; [exact B|]; split; [reflexivity|]; split; [apply keeps_refl|reflexivity]).
  cbn [clean_up clean_cost]. destruct (written L p) eqn:Q.
  - destruct (W p o (or_introl eq_refl) Q) as (n & k & l & E).
    assert (In o R) as Io by (apply IN; left; reflexivity).
    destruct (clear_ok h R o n k l B Io E) as (h1 & n1 & E1 & B1 & K1 & N1 & P1).
    destruct (refill_ok (aft i) o h1 R n1 k [] B1 Io P1) as (h2 & L2 & E2 & B2 & C2 & K2).
    assert (keeps (fun x => In x (o :: args)) h h2) as K12.
    { eapply keeps_weaken; [|eapply keeps_trans; eassumption]. intros x <-. left. reflexivity. }
    destruct (IH args (S i) aft h2 (L2 ++ R) B2) as (h3 & L3 & E3 & B3 & C3 & K3 & _).
    { intros x I. apply in_or_app. right. apply IN. right. exact I. }
    { intros q x I Qq. destruct (W q x (or_intror I) Qq) as (m & kx & lx & Ex).
      destruct (keeps_seq _ _ _ _ _ _ _ _ K12 B Ex) as (n' & l' & E').
      - apply (root_alive _ _ x B2). apply in_or_app. right. apply IN. right. exact (in_combine_r _ _ _ _ I).
      - eauto. }
    exists h3, (L3 ++ L2). rewrite E1. cbn [bind]. rewrite E2. cbn [bind]. split; [exact E3|].
    split; [rewrite <- app_assoc; exact B3|]. split; [rewrite app_length, C2, C3; lia|]. split.
    + eapply keeps_trans; [exact K12|]. eapply keeps_weaken; [|exact K3]. intros x I. right. exact I.
    + intros S. rewrite (S p (or_introl eq_refl)) in Q. destruct L; discriminate.
  - cbn [bind]. destruct (IH args (S i) aft h R B) as (h3 & L3 & E3 & B3 & C3 & K3 & Z3).
    { intros x I. apply IN. right. exact I. } { intros q x I. apply W. right. exact I. }
    exists h3, L3. split; [exact E3|]. split; [exact B3|]. split; [exact C3|]. split.
    + eapply keeps_weaken; [|exact K3]. intros x I. right. exact I.
    + intros S. apply Z3. intros q I. apply S. right. exact I.
Qed.

(** ** A call *)

Lemma cost_split : forall L f vs ps ws args i,
  length ps = length ws -> length ps = length args ->
  list_sum (map (fun '(i, (p, a)) => arg_cost L p (size a) (length (after f vs i)))
                (combine (seq i (length ws)) (combine ps ws)))
  = conv_cost ps ws + clean_cost L ps args i (after f vs).
Proof.
  intros L f vs. induction ps as [|p ps IH]; intros [|a ws] [|o args] i H1 H2; try discriminate; [reflexivity|].
  cbn [length seq combine map conv_cost clean_cost]. rewrite list_sum_cons.
  rewrite (IH ws args (S i)) by (cbn in *; lia).
  destruct p as [|[] []], L; cbn [arg_cost check_cost extract_cost written]; lia.
Qed.

Definition opt_list (r : option nat) : list nat := match r with Some o => [o] | None => [] end.

Lemma args_value_length : forall h ps args vs, args_value h ps args vs -> length ps = length vs.
Proof.
  intros h ps args vs [E F]. pose proof (Forall2_length F) as G. rewrite combine_length in G. lia.
Qed.

Lemma call_ok : forall L f args h R, bal h R -> incl args R ->
  exists r, call L f args h = Some r /\
  match r with
  | Done res h' => exists vs Ls,
      args_value h (params f) args vs /\
      match result f vs, res with
      | None, None => True
      | Some v, Some o => denotes h' v o
      | _, _ => False
      end /\
      bal h' (opt_list res ++ Ls ++ R) /\
      length Ls = args_cost L f vs + match result f vs with Some v => result_cost v | None => 0 end /\
      keeps (fun x => In x args) h h' /\
      (forall i k c o, nth_error (params f) i = Some (TSeq k c) -> nth_error args i = Some o -> iter_in Ls h' o) /\
      ((forall p, In p (params f) -> p = TScalar) -> acy h -> acy h')
  | TypeError h' => exists Ls, bal h' (Ls ++ R) /\ keeps (fun x => In x args) h h' /\
      ((forall p, In p (params f) -> p = TScalar) -> Ls = [] /\ (acy h -> acy h')) /\
      (forall vs, ~ args_value h (params f) args vs)
  end.
Proof.
  intros L f args h R B IN. unfold call.
  destruct (convert_ok (params f) args h R B IN) as (r & E1 & HR). rewrite E1. cbn [bind].
  destruct r as [vs h1|h1].
  2:{ eexists. split; [reflexivity|]. destruct HR as (Ls & B1 & S1 & Z1 & W1). exists Ls. split; [exact B1|].
      split; [apply same_keeps; exact S1|]. split; [|exact W1]. intros SC. rewrite (Z1 SC) in *. split; [reflexivity|].
      intros A. eapply acy_sub; [exact A|]. intros i ob' Ei.
      (* no object was made: the heap is the same *)
      assert (forall p, In p (params f) -> p = TScalar) as SC' by exact SC. clear - E1 SC' Ei.
      assert (h1 = h) as ->; [|exists ob'; auto].
      revert args E1. induction (params f) as [|p ps IH]; intros [|o args] E1; cbn in E1; try congruence.
      rewrite (SC' p (or_introl eq_refl)) in E1. cbn in E1.
      destruct (objs h o) eqn:Eo; [|discriminate]. cbn in E1. destruct (leaf h o) eqn:El; cbn in E1; [|congruence].
      specialize (IH (fun q I => SC' q (or_intror I)) args).
      destruct (convert ps args h) as [[vs h2|h2]|]; cbn in E1; try discriminate.
      injection E1 as <-. apply IH. reflexivity. }
  destruct HR as (L1 & B1 & S1 & V1 & C1 & T1).
  assert (incl args (L1 ++ R)) as IN1 by (intros x I; apply in_or_app; right; apply IN; exact I).
  assert (exists res h2 L2,
    (match result f vs with
     | None => Some (None, h1)
     | Some v => bind (to_py v h1) (fun '(o, h) => Some (Some o, h))
     end) = Some (res, h2) /\ bal h2 (opt_list res ++ L2 ++ L1 ++ R) /\
    length L2 = match result f vs with Some v => result_cost v | None => 0 end /\
    same h1 h2 /\ (acy h1 -> acy h2) /\
    match result f vs, res with
    | None, None => True
    | Some v, Some o => den (next h1) h2 v o
    | _, _ => False
    end) as (res & h2 & L2 & E2 & B2 & C2 & S2 & A2 & D2).
  { destruct (result f vs) as [v|].
    - destruct (to_py_ok v h1 (L1 ++ R) B1) as (o & h2 & L2 & E2 & B2 & C2 & G2 & F2 & D2 & A2).
      exists (Some o), h2, L2. rewrite E2. cbn [bind]. split; [reflexivity|]. split; [exact B2|]. split; [exact C2|].
      split; [|split; [exact A2|exact D2]]. split; [lia|]. intros i Li. rewrite F2 by exact Li. reflexivity.
    - exists None, h1, []. split; [reflexivity|]. split; [exact B1|]. split; [reflexivity|].
      split; [apply same_refl|]. split; auto. }
  rewrite E2. cbn [bind].
  assert (same h h2) as S12 by (eapply same_trans; eassumption).
  destruct (clean_up_ok L (params f) args 0 (after f vs) h2 (opt_list res ++ L2 ++ L1 ++ R) B2)
    as (h3 & L3 & E3 & B3 & C3 & K3 & Z3).
  { intros x I. do 2 (apply in_or_app; right). exact (IN1 x I). }
  { intros p o I Q. destruct V1 as [V1 V2]. clear - V2 I Q B S12.
    destruct (In_nth _ _ (TScalar, 0) I) as (i & Li & Ei).
    assert (exists a, arg_value h p o a) as (a & A).
    { clear - V2 I. induction V2 as [|[q x] a l ws H F IH]; [destruct I|]. destruct I as [I|I].
      - injection I as -> ->. exists a. exact H.
      - exact (IH I). }
    apply (arg_value_same h h2 R p o a B S12) in A. destruct p as [|k c]; [destruct L; discriminate|].
    destruct a as [z|zs]; [destruct A|]. destruct A as (n & l & E & _). eauto. }
  rewrite E3. cbn [bind]. eexists. split; [reflexivity|]. exists vs, (L3 ++ L2 ++ L1).
  split; [exact V1|].
  assert (bal h3 (opt_list res ++ (L3 ++ L2 ++ L1) ++ R)) as B4.
  { eapply bal_perm; [exact B3|]. intros x. rewrite !count_occ_app. lia. }
  assert (keeps (fun x => In x args) h h3) as K4.
  { eapply keeps_trans; [apply same_keeps; exact S12|exact K3]. }
  split; [|split; [exact B4|split; [|split; [exact K4|split]]]].
  - destruct (result f vs) as [v|], res as [o|]; auto. apply (den_denotes (next h1)).
    eapply (den_keeps (fun x => In x args) (next h1) h2 h3); [exact D2|exact B4|exact K3| |exact (b_next _ _ B2)|].
    + intros i I. destruct (root_alive _ _ i B (IN i I)) as (ob & Ei). pose proof (alive_lt _ _ _ _ B Ei).
      destruct S1. lia.
    + apply (root_alive _ _ o B4). left. reflexivity.
  - rewrite !app_length, C1, C2, C3. unfold args_cost.
    rewrite (cost_split L f vs (params f) vs args 0).
    + lia.
    + exact (args_value_length _ _ _ _ V1).
    + exact (proj1 V1).
  - intros i k c o Hp Ho. destruct (T1 i k c o Hp Ho) as (it & n & Iit & Eit).
    destruct (same_alive _ _ _ _ S2 (alive_lt _ _ _ _ B1 Eit) Eit) as ([m p] & E' & P'). cbn in P'. subst p.
    destruct (keeps_iter _ _ _ _ _ _ _ K3 B2 E') as (n' & En).
    { apply (root_alive _ _ it B4). do 1 (apply in_or_app; right). apply in_or_app. left.
      do 2 (apply in_or_app; right). exact Iit. }
    exists it, n'. split; [|exact En]. do 2 (apply in_or_app; right). exact Iit.
  - intros SC A. rewrite (Z3 SC). apply A2. eapply acy_sub; [exact A|]. intros i ob' Ei.
    assert (h1 = h) as ->; [|exists ob'; auto]. clear - E1 SC. revert args vs E1.
    induction (params f) as [|p ps IH]; intros [|o args] vs E1; cbn in E1; try congruence.
    rewrite (SC p (or_introl eq_refl)) in E1. cbn in E1.
    destruct (objs h o) eqn:Eo; [|discriminate]. cbn in E1. destruct (leaf h o) eqn:El; cbn in E1; [|congruence].
    specialize (IH (fun q I => SC q (or_intror I)) args).
    destruct (convert ps args h) as [[vs' h2'|h2']|]; cbn in E1; try discriminate.
    injection E1 as _ <-. apply (IH vs'). reflexivity.
Qed.

(** ** What the user does *)

Lemma has_in : forall st o, has st o = true -> In o (names st).
Proof.
  intros st o H. unfold has in H. apply existsb_exists in H. destruct H as (x & I & E).
  apply Nat.eqb_eq in E. subst x. exact I.
Qed.

Lemma has_incl : forall st l, forallb (has st) l = true -> incl l (names st).
Proof. intros st l H x I. rewrite forallb_forall in H. apply has_in, H, I. Qed.

Lemma remove1_cnt : forall o l x, In o l -> cnt x l = cnt x (o :: remove1 o l).
Proof.
  intros o l x. induction l as [|y l IH]; intros I; [destruct I|]. cbn [remove1].
  destruct (y =? o) eqn:Q.
  - apply Nat.eqb_eq in Q. subst y. reflexivity.
  - apply Nat.eqb_neq in Q. destruct I as [I|I]; [congruence|]. specialize (IH I). cbn [count_occ] in *.
    destruct (Nat.eq_dec y x), (Nat.eq_dec o x); lia.
Qed.

Lemma acy_keeps : forall h h' R, keeps (fun _ => False) h h' -> next h' = next h -> bal h' R -> acy h -> acy h'.
Proof.
  intros h h' R [_ K] N B A. eapply acy_sub; [exact A|]. intros i ob' E.
  pose proof (alive_lt _ _ _ _ B E) as Li. rewrite N in Li.
  destruct (K i ob' Li E) as (ob & E0 & [P|([] & _)]). exists ob. auto.
Qed.

Lemma acy_same : forall h h' R, same h h' -> next h' = next h -> bal h' R -> acy h -> acy h'.
Proof. intros h h' R S N B. apply (acy_keeps h h' R); auto. apply same_keeps, S. Qed.

Lemma step_ok : forall L p st Ls, bal (mem st) (names st ++ Ls) ->
  exists st' Ls', step L p st = Some st' /\ bal (mem st') (names st' ++ Ls' ++ Ls) /\
    (exists C, keeps C (mem st) (mem st')) /\
    (simple_op p -> Ls' = [] /\ (acy (mem st) -> acy (mem st'))).
Proof.
  intros L p st Ls B.
  assert (exists st' Ls', Some st = Some st' /\ bal (mem st') (names st' ++ Ls' ++ Ls) /\
    (exists C, keeps C (mem st) (mem st')) /\
    (simple_op p -> Ls' = [] /\ (acy (mem st) -> acy (mem st')))) as STAY.
  { exists st, []. split; [reflexivity|]. split; [exact B|].
    split; [exists (fun _ => False); apply keeps_refl|]. auto. }
  destruct p as [z|k l|f args|o|o]; cbn [step].
  - eexists _, []. split; [reflexivity|]. split; [exact (new_bal (mem st) _ (PLeaf z) B)|]. split.
    + exists (fun _ => False). apply same_keeps. split; [cbn; lia|]. intros i Li. cbn. rewrite updE.
      replace (i =? next (mem st)) with false; [reflexivity|]. symmetry. apply Nat.eqb_neq. lia.
    + intros _. split; [reflexivity|]. exact (acy_new (mem st) _ (PLeaf z) B).
  - destruct (forallb (has st) l) eqn:H; [|exact STAY]. apply has_incl in H.
    destruct (increfs_ok l (mem st) _ B) as (h1 & E1 & B1 & S1 & N1).
    { intros x I. apply (root_alive _ _ x B). apply in_or_app. left. apply H, I. }
    rewrite E1. cbn [bind]. eexists _, []. split; [reflexivity|].
    split; [exact (new_bal h1 _ (PSeq k l) B1)|]. split.
    + exists (fun _ => False). apply same_keeps. eapply same_trans; [exact S1|]. split; [cbn; lia|]. intros i Li. cbn. rewrite updE.
      replace (i =? next h1) with false; [reflexivity|]. symmetry. apply Nat.eqb_neq. lia.
    + intros _. split; [reflexivity|]. intros A. apply (acy_new h1 _ (PSeq k l) B1).
      exact (acy_same _ _ _ S1 N1 B1 A).
  - destruct (forallb (has st) args) eqn:H; [|exact STAY]. apply has_incl in H.
    destruct (call_ok L f args (mem st) _ B) as (r & E1 & HR).
    { intros x I. apply in_or_app. left. apply H, I. }
    rewrite E1. cbn [bind]. destruct r as [res h'|h'].
    + destruct HR as (vs & L1 & V & D & B1 & C1 & K1 & T1 & A1).
      exists (match res with Some o => St h' (o :: names st) | None => St h' (names st) end), L1.
      split; [destruct res; reflexivity|]. split.
      { destruct res as [o|]; cbn [mem names opt_list app] in *;
          (eapply bal_perm; [exact B1|]); intros x; cbn [count_occ]; rewrite !count_occ_app; cbn [count_occ];
          try destruct (Nat.eq_dec o x); lia. }
      split; [exists (fun x => In x args); destruct res; exact K1|].
      intros [SC SR]. split; [|intros A; destruct res; exact (A1 SC A)].
      apply length_zero_iff_nil. rewrite C1. unfold args_cost.
      rewrite (cost_split L f vs (params f) vs args 0 (args_value_length _ _ _ _ V) (proj1 V)).
      assert (conv_cost (params f) vs = 0) as ->.
      { clear - SC. revert vs. induction (params f) as [|p ps IH]; intros [|a vs]; try reflexivity. cbn.
        rewrite (SC p (or_introl eq_refl)). cbn. apply IH. intros q I. apply SC. right. exact I. }
      assert (clean_cost L (params f) args 0 (after f vs) = 0) as ->.
      { clear - SC. generalize (after f vs) as af. intros af. generalize 0 at 1 as i. revert args.
        induction (params f) as [|p ps IH]; intros [|a args] i; try reflexivity. cbn.
        rewrite (SC p (or_introl eq_refl)). replace (written L TScalar) with false by (destruct L; reflexivity).
        apply IH. intros q I. apply SC. right. exact I. }
      destruct (result f vs) as [v|] eqn:Ev; [|reflexivity]. specialize (SR vs v Ev). clear - SR. cbn.
      revert SR. induction v as [z|k l IH|l IH|l IH] using cval_ind'; cbn; intros P; auto.
      * destruct k; try discriminate; induction IH as [|x l Hx Hl IHl]; cbn in *; auto;
          apply andb_prop in P; destruct P as [P1 P2]; rewrite (Hx P1); exact (IHl P2).
      * discriminate.
      * induction IH as [|x l Hx Hl IHl]; cbn in *; auto.
        apply andb_prop in P; destruct P as [P1 P2]; rewrite (Hx P1); exact (IHl P2).
    + destruct HR as (L1 & B1 & K1 & Z1 & W1). exists (St h' (names st)), L1. split; [reflexivity|]. split.
      { eapply bal_perm; [exact B1|]. intros x. cbn. rewrite !count_occ_app. lia. }
      split; [exists (fun x => In x args); exact K1|]. intros [SC SR]. exact (Z1 SC).
  - destruct (has st o) eqn:H; [|exact STAY]. apply has_in in H.
    destruct (incref_ok (mem st) _ o B) as (h1 & E1 & B1 & S1 & N1).
    { apply (root_alive _ _ o B). apply in_or_app. left. exact H. }
    rewrite E1. cbn [bind]. eexists _, []. split; [reflexivity|]. split; [exact B1|].
    split; [exists (fun _ => False); apply same_keeps; exact S1|].
    intros _. split; [reflexivity|]. exact (acy_same _ _ _ S1 N1 B1).
  - destruct (has st o) eqn:H; [|exact STAY]. apply has_in in H.
    destruct (decrefs_ok [o] (mem st) (remove1 o (names st) ++ Ls)) as (h1 & E1 & B1 & K1 & N1).
    { eapply bal_perm; [exact B|]. intros x. rewrite !count_occ_app.
      rewrite (remove1_cnt o (names st) x H). cbn [count_occ]. destruct (Nat.eq_dec o x); lia. }
    rewrite E1. cbn [bind]. eexists _, []. split; [reflexivity|]. split; [exact B1|].
    split; [exists (fun _ => False); exact K1|].
    intros _. split; [reflexivity|]. exact (acy_keeps _ _ _ K1 N1 B1).
Qed.

Lemma run_ok : forall L ops st Ls, bal (mem st) (names st ++ Ls) ->
  exists st' Ls', run L ops st = Some st' /\ bal (mem st') (names st' ++ Ls' ++ Ls) /\
    (forall it n o, In it Ls -> objs (mem st) it = Some (Obj n (PIter o)) ->
       exists n', objs (mem st') it = Some (Obj n' (PIter o))) /\
    ((forall p, In p ops -> simple_op p) -> Ls' = [] /\ (acy (mem st) -> acy (mem st'))).
Proof.
  intros L. induction ops as [|p ops IH]; intros st Ls B.
  - exists st, []. split; [reflexivity|]. split; [exact B|]. split; [eauto|auto].
  - destruct (step_ok L p st Ls B) as (st1 & L1 & E1 & B1 & (C & K1) & S1).
    destruct (IH st1 (L1 ++ Ls) B1) as (st2 & L2 & E2 & B2 & T2 & S2).
    exists st2, (L2 ++ L1). cbn [run]. rewrite E1. cbn [bind]. split; [exact E2|].
    split; [rewrite <- app_assoc; exact B2|]. split.
    + intros it n o I E. destruct (keeps_iter C _ _ _ _ _ _ K1 B E) as (n1 & En).
      { apply (root_alive _ _ it B1). do 2 (apply in_or_app; right). exact I. }
      apply (T2 it n1 o); [apply in_or_app; right; exact I|exact En].
    + intros S. destruct (S1 (S p (or_introl eq_refl))) as [-> A1].
      destruct (S2 (fun q I => S q (or_intror I))) as [-> A2]. split; [reflexivity|auto].
Qed.

Lemma empty_bal : bal (mem empty) (names empty ++ []).
Proof. split; [reflexivity|discriminate|reflexivity]. Qed.

Lemma reach_alive : forall st Ls k, bal (mem st) (names st ++ Ls) -> reachable st k -> exists_obj st k.
Proof.
  intros st Ls k B (o & I & R).
  assert (exists_obj st o) as E by (apply (root_alive _ _ o B); apply in_or_app; left; exact I).
  clear I. apply clos_rt_rt1n in R. induction R as [x|x y z (ob & Ex & J) R IH]; [exact E|].
  apply IH. exact (kid_alive _ _ _ _ y B Ex J).
Qed.

Lemma safe_lemma : forall L ops, exists st, run L ops empty = Some st /\
  (forall o, reachable st o -> exists_obj st o).
Proof.
  intros L ops. destruct (run_ok L ops empty [] empty_bal) as (st & Ls & E & B & _).
  exists st. split; [exact E|]. intros o. exact (reach_alive st _ o B).
Qed.

Lemma run_bal : forall L ops st, run L ops empty = Some st -> exists Ls, bal (mem st) (names st ++ Ls).
Proof.
  intros L ops st E. destruct (run_ok L ops empty [] empty_bal) as (st' & Ls & E' & B & _).
  rewrite E in E'. injection E' as <-. rewrite app_nil_r in B. eauto.
Qed.

(** ** Counting what is lost *)

Fixpoint sum_cnt (l : list nat) (n : nat) : nat :=
  match n with 0 => 0 | S m => sum_cnt l m + cnt m l end.

Lemma sum_cnt_nil : forall n, sum_cnt [] n = 0.
Proof. induction n; cbn; lia. Qed.

Lemma sum_cnt_cons : forall x l n, sum_cnt (x :: l) n = (if x <? n then 1 else 0) + sum_cnt l n.
Proof.
  intros x l n. induction n as [|n IH]; [reflexivity|]. cbn [sum_cnt count_occ]. rewrite IH.
  destruct (Nat.eq_dec x n) as [->|D].
  - replace (n <? n) with false by (symmetry; apply Nat.ltb_ge; lia).
    replace (n <? S n) with true by (symmetry; apply Nat.ltb_lt; lia). lia.
  - destruct (Nat.ltb_spec x n), (Nat.ltb_spec x (S n)); lia.
Qed.

Lemma sum_cnt_length : forall l n, (forall x, In x l -> x < n) -> sum_cnt l n = length l.
Proof.
  induction l as [|x l IH]; intros n H; [apply sum_cnt_nil|]. rewrite sum_cnt_cons, IH by (intros y I; apply H; right; exact I).
  replace (x <? n) with true; [reflexivity|]. symmetry. apply Nat.ltb_lt. apply H. left. reflexivity.
Qed.

Lemma lost_length : forall st Ls, bal (mem st) (names st ++ Ls) -> lost st = length Ls.
Proof.
  intros st Ls B. unfold lost. rewrite <- (sum_cnt_length Ls (next (mem st))).
  - generalize (next (mem st)) as n. intros n. induction n as [|n IH]; [reflexivity|]. cbn [surplus sum_cnt]. rewrite IH.
    f_equal. pose proof (b_cnt _ _ B n) as C. unfold rcof, indeg in C. rewrite count_occ_app in C.
    unfold references. destruct (objs (mem st) n) as [ob|]; lia.
  - intros x I. destruct (root_alive _ _ x B (in_or_app _ _ _ (or_intror I))) as (ob & E).
    exact (alive_lt _ _ _ _ B E).
Qed.

Lemma counted_bal : forall st, bal (mem st) (names st) -> counted st.
Proof.
  intros st B o ob E. pose proof (b_cnt _ _ B o) as C. unfold rcof in C. rewrite E in C. exact C.
Qed.

Lemma simple_lemma : forall L ops st, (forall p, In p ops -> simple_op p) -> run L ops empty = Some st ->
  counted st /\ forall o, exists_obj st o -> reachable st o.
Proof.
  intros L ops st S E. destruct (run_ok L ops empty [] empty_bal) as (st' & Ls & E' & B & _ & Z).
  rewrite E in E'. injection E' as <-. destruct (Z S) as [-> A]. cbn [app] in B. rewrite app_nil_r in B.
  split; [exact (counted_bal st B)|].
  destruct A as (rank & HR). { exists (fun _ => 0). cbn. discriminate. }
  set (M := list_max (map rank (seq 0 (next (mem st))))).
  assert (forall o ob, objs (mem st) o = Some ob -> rank o <= M) as LM.
  { intros o ob Eo. pose proof (proj1 (list_max_le (map rank (seq 0 (next (mem st)))) _) (le_n _)) as F.
    rewrite Forall_forall in F. apply F, in_map, in_seq. pose proof (alive_lt _ _ _ _ B Eo). lia. }
  assert (forall d o ob, objs (mem st) o = Some ob -> M - rank o <= d -> reachable st o) as GO.
  { induction d as [|d IH]; intros o ob Eo Hd.
    - exists o. split; [|apply rt_refl]. pose proof (b_cnt _ _ B o) as C. unfold rcof, indeg in C. rewrite Eo in C.
      pose proof (b_pos _ _ B o ob Eo) as P.
      destruct (Nat.eq_dec (from_objs (objs (mem st)) o (next (mem st))) 0) as [Q|Q].
      + apply (count_occ_In Nat.eq_dec). lia.
      + destruct (from_pos (objs (mem st)) (next (mem st)) o ltac:(lia)) as (k & obk & Lk & Ek & Ik).
        pose proof (HR k obk o Ek Ik). pose proof (LM k obk Ek). lia.
    - pose proof (b_cnt _ _ B o) as C. unfold rcof, indeg in C. rewrite Eo in C.
      pose proof (b_pos _ _ B o ob Eo) as P.
      destruct (Nat.eq_dec (from_objs (objs (mem st)) o (next (mem st))) 0) as [Q|Q].
      + exists o. split; [|apply rt_refl]. apply (count_occ_In Nat.eq_dec). lia.
      + destruct (from_pos (objs (mem st)) (next (mem st)) o ltac:(lia)) as (k & obk & Lk & Ek & Ik).
        pose proof (HR k obk o Ek Ik). pose proof (LM k obk Ek).
        destruct (IH k obk Ek ltac:(lia)) as (x & Ix & Rx). exists x. split; [exact Ix|].
        eapply rt_trans; [exact Rx|]. apply rt_step. exists obk. auto. }
  intros o (ob & Eo). exact (GO (M - rank o) o ob Eo (le_n _)).
Qed.

Lemma value_lemma : forall L ops st f args res h, run L ops empty = Some st -> incl args (names st) ->
  call L f args (mem st) = Some (Done res h) ->
  exists vs, args_value (mem st) (params f) args vs /\
    match result f vs, res with
    | None, None => True
    | Some v, Some o => denotes h v o
    | _, _ => False
    end.
Proof.
  intros L ops st f args res h E IN EC. destruct (run_bal L ops st E) as (Ls & B).
  destruct (call_ok L f args (mem st) _ B) as (r & Er & HR).
  { intros x I. apply in_or_app. left. apply IN, I. }
  rewrite EC in Er. injection Er as <-. destruct HR as (vs & L1 & V & D & _). eauto.
Qed.

Lemma accept_lemma : forall L ops st f args h, run L ops empty = Some st -> incl args (names st) ->
  call L f args (mem st) = Some (TypeError h) -> forall vs, ~ args_value (mem st) (params f) args vs.
Proof.
  intros L ops st f args h E IN EC. destruct (run_bal L ops st E) as (Ls & B).
  destruct (call_ok L f args (mem st) _ B) as (r & Er & HR).
  { intros x I. apply in_or_app. left. apply IN, I. }
  rewrite EC in Er. injection Er as <-. destruct HR as (L1 & _ & _ & _ & W). exact W.
Qed.

Lemma args_unique : forall h ps args ws vs, args_value h ps args ws -> args_value h ps args vs -> ws = vs.
Proof.
  intros h ps args ws vs [_ W] [_ V]. revert W V. generalize (combine ps args) as l. intros l W. revert vs.
  induction W as [|[p o] a l ws H W IH]; intros vs V; inversion V as [|? b ? us H1 H2]; subst; [reflexivity|].
  f_equal; [|exact (IH us H2)]. clear - H H1. destruct p as [|k c], a as [z|zs], b as [z'|zs']; cbn in *; try contradiction.
  - congruence.
  - destruct H as (n & q & E & F), H1 as (n' & q' & E' & F'). rewrite E in E'. injection E' as _ <-.
    apply leaves_forall2 in F. apply leaves_forall2 in F'. congruence.
Qed.

Lemma cost_lemma : forall L ops st f args vs, run L ops empty = Some st -> incl args (names st) ->
  args_value (mem st) (params f) args vs ->
  exists st', step L (Call f args) st = Some st' /\
    lost st' = lost st + args_cost L f vs + match result f vs with Some v => result_cost v | None => 0 end.
Proof.
  intros L ops st f args vs E IN V. destruct (run_bal L ops st E) as (Ls & B).
  destruct (call_ok L f args (mem st) _ B) as (r & Er & HR).
  { intros x I. apply in_or_app. left. apply IN, I. }
  cbn [step]. replace (forallb (has st) args) with true.
  2:{ symmetry. apply forallb_forall. intros x I. unfold has. apply existsb_exists. exists x.
      split; [apply IN, I|apply Nat.eqb_refl]. }
  rewrite Er. cbn [bind]. eexists. split; [reflexivity|]. destruct r as [res h'|h'].
  - destruct HR as (ws & L1 & W & D & B1 & C1 & _).
    assert (ws = vs) as -> by exact (args_unique _ _ _ _ _ W V).
    assert (exists nm, match res with Some o => St h' (o :: names st) | None => St h' (names st) end = St h' nm /\
                       nm = opt_list res ++ names st) as (nm & Enm & Hnm) by (destruct res; eauto).
    rewrite (lost_length st Ls B).
    rewrite (lost_length _ (L1 ++ Ls)).
    + rewrite app_length, C1. lia.
    + eapply bal_perm; [destruct res; exact B1|]. intros x. destruct res; cbn; rewrite !count_occ_app; try lia.
      cbn [count_occ]. destruct (Nat.eq_dec n x); lia.
  - destruct HR as (L1 & _ & _ & _ & W). destruct (W vs V).
Qed.

Lemma grows_lemma : forall L ops ops' st st', run L ops empty = Some st -> run L ops' st = Some st' ->
  lost st <= lost st'.
Proof.
  intros L ops ops' st st' E E'. destruct (run_bal L ops st E) as (Ls & B).
  destruct (run_ok L ops' st Ls B) as (st2 & L2 & E2 & B2 & _). rewrite E' in E2. injection E2 as <-.
  rewrite (lost_length st Ls B), (lost_length st' _ B2), app_length. lia.
Qed.

Lemma lost_alive : forall L ops st, run L ops empty = Some st -> lost st > 0 -> exists o, exists_obj st o.
Proof.
  intros L ops st E H. destruct (run_bal L ops st E) as (Ls & B). rewrite (lost_length st Ls B) in H.
  destruct Ls as [|o Ls]; [cbn in H; lia|]. exists o. apply (root_alive _ _ o B). apply in_or_app. right. left. reflexivity.
Qed.

Lemma forever_lemma : forall L ops st f args vs i k c o, run L ops empty = Some st -> incl args (names st) ->
  args_value (mem st) (params f) args vs ->
  nth_error (params f) i = Some (TSeq k c) -> nth_error args i = Some o ->
  forall ops' st', run L (Call f args :: ops') st = Some st' -> exists_obj st' o.
Proof.
  intros L ops st f args vs i k c o E IN V Hp Ho ops' st' E'. destruct (run_bal L ops st E) as (Ls & B).
  destruct (call_ok L f args (mem st) _ B) as (r & Er & HR).
  { intros x I. apply in_or_app. left. apply IN, I. }
  cbn [run step] in E'. replace (forallb (has st) args) with true in E'.
  2:{ symmetry. apply forallb_forall. intros x I. unfold has. apply existsb_exists. exists x.
      split; [apply IN, I|apply Nat.eqb_refl]. }
  rewrite Er in E'. cbn [bind] in E'. destruct r as [res h'|h'].
  2:{ destruct HR as (L1 & _ & _ & _ & W). destruct (W vs V). }
  destruct HR as (ws & L1 & W & D & B1 & C1 & K1 & T1 & _).
  destruct (T1 i k c o Hp Ho) as (it & n & Iit & Eit).
  set (st1 := match res with Some o => St h' (o :: names st) | None => St h' (names st) end) in *.
  assert (mem st1 = h') as M1 by (destruct res; reflexivity).
  assert (bal (mem st1) (names st1 ++ L1 ++ Ls)) as B2.
  { rewrite M1. eapply bal_perm; [exact B1|]. intros x. destruct res; cbn; rewrite !count_occ_app; try lia.
    cbn [count_occ]. destruct (Nat.eq_dec n0 x); lia. }
  destruct (run_ok L ops' st1 (L1 ++ Ls) B2) as (st2 & L2 & E2 & B3 & T2 & _).
  assert (st2 = st') as -> by congruence.
  destruct (T2 it n o) as (n' & En); [apply in_or_app; left; exact Iit|rewrite M1; exact Eit|].
  exact (kid_alive _ _ _ _ o B3 En (or_introl eq_refl)).
Qed.

Lemma result_lemma : forall L v, result_cost v > 0 ->
  exists st o st', step L (Call (Fn [] (fun _ => Some v) (fun _ _ => [])) []) empty = Some st /\
    names st = [o] /\ step L (Del o) st = Some st' /\ names st' = [] /\ exists k, exists_obj st' k.
Proof.
  intros L v H. set (f := Fn [] (fun _ => Some v) (fun _ _ => [])).
  destruct (cost_lemma L [] empty f [] [] eq_refl (incl_nil_l _)) as (st & E & C).
  { split; [reflexivity|constructor]. }
  assert (exists o, names st = [o]) as (o & N).
  { destruct (call_ok L f [] (mem empty) _ empty_bal (incl_nil_l _)) as (r & Er & HR).
    cbn [step forallb] in E. rewrite Er in E. cbn [bind] in E. injection E as <-.
    destruct r as [[o|] h'|h'].
    - exists o. reflexivity.
    - destruct HR as (vs & Ls & _ & [] & _).
    - destruct HR as (Ls & _ & _ & _ & W). exfalso. apply (W []). split; [reflexivity|constructor]. }
  assert (run L [Call f []] empty = Some st) as R1 by (cbn [run]; rewrite E; reflexivity).
  destruct (run_bal L _ st R1) as (Ls & B).
  destruct (step_ok L (Del o) st Ls B) as (st' & L' & E' & B' & _).
  exists st, o, st'. split; [exact E|]. split; [exact N|]. split; [exact E'|]. split.
  - cbn [step] in E'. unfold has in E'. rewrite N in E'. cbn in E'. rewrite Nat.eqb_refl in E'. cbn in E'.
    destruct (decrefs [o] (mem st)); [|discriminate]. injection E' as <-. reflexivity.
  - assert (run L [Call f []; Del o] empty = Some st') as R2 by (cbn [run]; rewrite E; cbn [bind]; rewrite E'; reflexivity).
    assert (run L [Del o] st = Some st') as R3 by (cbn [run]; rewrite E'; reflexivity).
    apply (lost_alive L _ st' R2). pose proof (grows_lemma L _ _ _ _ R1 R3) as G. cbn in C. lia.
Qed.

(** ** What is copied back *)

Lemma refill_same : forall zs c h h', refill c zs h = Some h' -> next h <= next h' /\
  forall i, i < next h -> i <> c -> option_map pay (objs h' i) = option_map pay (objs h i).
Proof.
  induction zs as [|z zs IH]; intros c h h' E; cbn [refill] in E.
  - injection E as <-. split; [lia|reflexivity].
  - unfold new in E. cbn beta iota in E. unfold append, incref in E. cbn [objs next] in E.
    rewrite updE, Nat.eqb_refl in E. cbn [bind rc pay] in E. unfold put in E. cbn [objs next] in E.
    destruct (upd (upd (objs h) (next h) (Some (Obj 1 (PLeaf z)))) (next h) (Some (Obj 2 (PLeaf z))) c)
      as [[n [?|k l|?|?]]|] eqn:Ec; try discriminate.
    cbn [bind] in E. destruct (IH _ _ _ E) as [L F]. cbn [next objs] in L, F. split; [lia|].
    intros i Li D. rewrite F by lia. rewrite !updE.
    replace (i =? c) with false by (symmetry; apply Nat.eqb_neq; exact D).
    replace (i =? next h) with false by (symmetry; apply Nat.eqb_neq; lia). reflexivity.
Qed.

Lemma refill_items : forall zs c h h' n k l, refill c zs h = Some h' -> c < next h ->
  objs h c = Some (Obj n (PSeq k l)) ->
  exists n' es, objs h' c = Some (Obj n' (PSeq k (l ++ es))) /\
    Forall2 (fun e z => leaf h' e = Some z) es zs.
Proof.
  induction zs as [|z zs IH]; intros c h h' n k l E Lc E0; cbn [refill] in E.
  - injection E as <-. exists n, []. rewrite app_nil_r. auto.
  - unfold new in E. cbn beta iota in E. unfold append, incref in E. cbn [objs next] in E.
    rewrite updE, Nat.eqb_refl in E. cbn [bind rc pay] in E. unfold put in E. cbn [objs next] in E.
    rewrite !updE in E. replace (c =? next h) with false in E by (symmetry; apply Nat.eqb_neq; lia).
    rewrite E0 in E. cbn [bind] in E.
    pose proof (refill_same _ _ _ _ E) as [_ F]. cbn [next objs] in F.
    destruct (IH c _ _ n k (l ++ [next h]) E) as (n' & es & E' & G).
    + cbn [next]. lia.
    + cbn [objs]. rewrite updE, Nat.eqb_refl. reflexivity.
    + exists n', (next h :: es). rewrite <- app_assoc in E'. split; [exact E'|]. constructor; [|exact G].
      specialize (F (next h) ltac:(lia) ltac:(lia)). rewrite !updE in F.
      replace (next h =? c) with false in F by (symmetry; apply Nat.eqb_neq; lia).
      rewrite Nat.eqb_refl in F. cbn in F. unfold leaf.
      destruct (objs h' (next h)) as [[m p]|]; [|discriminate]. cbn in F. injection F as ->. reflexivity.
Qed.

Definition target (L : lang) (ps : list param) (args : list nat) (x : nat) : Prop :=
  exists p, In (p, x) (combine ps args) /\ written L p = true.

Lemma keeps_leaf : forall C h h' R e z, keeps C h h' -> bal h R -> leaf h e = Some z ->
  (exists ob, objs h' e = Some ob) -> leaf h' e = Some z.
Proof.
  intros C h h' R e z K B E (ob & E'). unfold leaf in E. destruct (objs h e) as [[n p]|] eqn:E0; [|discriminate].
  destruct p; try discriminate. injection E as ->.
  destruct (proj2 K e ob (alive_lt _ _ _ _ B E0) E') as (ob0 & E1 & P). rewrite E0 in E1. injection E1 as <-.
  destruct ob as [r p]. cbn in P. destruct P as [->|(_ & k & l1 & l2 & P1 & _)]; [|discriminate].
  unfold leaf. rewrite E'. reflexivity.
Qed.

Lemma clean_up_written : forall L ps args i aft h R h', bal h R -> incl args R ->
  (forall p o, In (p, o) (combine ps args) -> written L p = true ->
     exists n k l, objs h o = Some (Obj n (PSeq k l))) ->
  clean_up L ps args i aft h = Some h' ->
  keeps (target L ps args) h h' /\
  (forall j p o n k l, nth_error ps j = Some p -> nth_error args j = Some o -> written L p = true ->
     (forall j' q, j < j' -> nth_error ps j' = Some q -> nth_error args j' = Some o -> written L q = false) ->
     objs h o = Some (Obj n (PSeq k l)) ->
     exists n' es, objs h' o = Some (Obj n' (PSeq k es)) /\
       Forall2 (fun e z => leaf h' e = Some z) es (aft (i + j))).
Proof.
  intros L. induction ps as [|p ps IH]; intros [|o args] i aft h R h' B IN W E;
    try (cbn in E; injection E as <-; split; [apply keeps_refl|]; intros [] ? ? ? ? ? ? ?; discriminate).
  cbn [clean_up] in E. destruct (written L p) eqn:Q.
  - destruct (W p o (or_introl eq_refl) Q) as (n & k & l & E0).
    assert (In o R) as Io by (apply IN; left; reflexivity).
    destruct (clear_ok h R o n k l B Io E0) as (h1 & n1 & E1 & B1 & K1 & N1 & P1).
    destruct (refill_ok (aft i) o h1 R n1 k [] B1 Io P1) as (h2 & L2 & E2 & B2 & C2 & K2).
    rewrite E1 in E. cbn [bind] in E. rewrite E2 in E. cbn [bind] in E.
    pose proof (keeps_trans _ _ _ _ K1 K2) as K12.
    assert (incl args (L2 ++ R)) as IN2.
    { intros x I. apply in_or_app. right. apply IN. right. exact I. }
    destruct (IH args (S i) aft h2 (L2 ++ R) h' B2 IN2) as (K3 & V3).
    { intros q x I Qq. destruct (W q x (or_intror I) Qq) as (m & kx & lx & Ex).
      destruct (keeps_seq _ _ _ _ _ _ _ _ K12 B Ex) as (n' & l' & E').
      - apply (root_alive _ _ x B2). apply IN2. exact (in_combine_r _ _ _ _ I).
      - eauto. }
    { exact E. }
    split.
    + eapply keeps_trans.
      * eapply keeps_weaken; [|exact K12]. intros x <-. exists p. split; [left; reflexivity|exact Q].
      * eapply keeps_weaken; [|exact K3]. intros x (q & I & Qq). exists q. split; [right; exact I|exact Qq].
    + destruct (clean_up_ok L ps args (S i) aft h2 (L2 ++ R) B2 IN2) as (h3 & L3 & E3 & B3 & _).
      { intros q x I Qq. destruct (W q x (or_intror I) Qq) as (m & kx & lx & Ex).
        destruct (keeps_seq _ _ _ _ _ _ _ _ K12 B Ex) as (n' & l' & E').
        - apply (root_alive _ _ x B2). apply IN2. exact (in_combine_r _ _ _ _ I).
        - eauto. }
      rewrite E in E3. injection E3 as <-.
      intros [|j] q x m kx lx Hp Ho Hw U Ex; cbn in Hp, Ho.
      * injection Hp as <-. injection Ho as <-. rewrite E0 in Ex. injection Ex as <- <- <-.
        rewrite Nat.add_0_r.
        assert (o < next h1) as Lo by exact (alive_lt _ _ _ _ B1 P1).
        destruct (refill_items _ _ _ _ _ _ _ E2 Lo P1) as (n' & es & Eo & F). cbn in Eo.
        destruct (root_alive _ _ o B3) as (ob & Eob).
        { do 2 (apply in_or_app; right). exact Io. }
        destruct (proj2 K3 o ob (alive_lt _ _ _ _ B2 Eo) Eob) as (ob0 & Eo' & P). rewrite Eo in Eo'. injection Eo' as <-.
        destruct ob as [r pp]. cbn in P. destruct P as [->|((q & Iq & Qq) & _)].
        -- exists r, es. split; [exact Eob|].
           assert (forall e, In e es -> exists x, objs h' e = Some x) as A
             by (intros e I; exact (kid_alive _ _ _ _ e B3 Eob I)).
           clear - F A K3 B2. induction F as [|e z es zs Hz F IHF]; constructor.
           ++ eapply keeps_leaf; [exact K3|exact B2|exact Hz|]. apply A. left. reflexivity.
           ++ apply IHF. intros e' I. apply A. right. exact I.
        -- exfalso. apply In_nth_error in Iq. destruct Iq as (j & Ej).
           assert (nth_error ps j = Some q /\ nth_error args j = Some o) as [Ejp Eja].
           { clear - Ej. revert args j Ej. induction ps as [|y ps IHp]; intros [|y' args] [|j] Ej; try discriminate.
             - cbn in Ej. injection Ej as -> ->. auto.
             - cbn in Ej. exact (IHp args j Ej). }
           rewrite (U (S j) q) in Qq; [discriminate|lia|exact Ejp|exact Eja].
      * destruct (keeps_seq _ _ _ _ _ _ _ _ K12 B Ex) as (n' & l' & E').
        { apply (root_alive _ _ x B2). apply IN2. apply nth_error_In in Ho. exact Ho. }
        destruct (V3 j q x n' kx l' Hp Ho Hw) as (n3 & es & G1 & G2).
        { intros j' q' Lj H1 H2. apply (U (S j') q'); [lia|exact H1|exact H2]. }
        { exact E'. }
        exists n3, es. split; [exact G1|]. rewrite Nat.add_succ_r. exact G2.
  - cbn [bind] in E. destruct (IH args (S i) aft h R h' B) as (K3 & V3).
    { intros x I. apply IN. right. exact I. } { intros q x I. apply W. right. exact I. } { exact E. }
    split.
    + eapply keeps_weaken; [|exact K3]. intros x (q & I & Qq). exists q. split; [right; exact I|exact Qq].
    + intros [|j] q x m kx lx Hp Ho Hw U Ex; cbn in Hp, Ho.
      * injection Hp as <-. rewrite Q in Hw. discriminate.
      * rewrite Nat.add_succ_r. apply (V3 j q x m kx lx Hp Ho Hw); [|exact Ex].
        intros j' q' Lj H1 H2. apply (U (S j') q'); [lia|exact H1|exact H2].
Qed.

Lemma written_spec : forall L p, written L p = true <-> copied_back L p.
Proof.
  intros L p. unfold copied_back. split.
  - destruct L, p as [|[] []]; try discriminate; auto.
  - intros [-> [->| ->]]; reflexivity.
Qed.

Lemma written_lemma : forall L ops st f args vs res h, run L ops empty = Some st -> incl args (names st) ->
  args_value (mem st) (params f) args vs -> call L f args (mem st) = Some (Done res h) ->
  (forall i p o, arg_at f args i p o -> copied_back L p ->
     (forall j q, i < j -> arg_at f args j q o -> ~ copied_back L q) ->
     arg_value h p o (ASeq (after f vs i))) /\
  (forall o ob ob', objs (mem st) o = Some ob -> objs h o = Some ob' ->
     (forall i p, arg_at f args i p o -> ~ copied_back L p) -> pay ob' = pay ob).
Proof.
  intros L ops st f args vs res h Hrun IN V Hc. destruct (run_bal _ _ _ Hrun) as (R0 & B).
  set (R := names st ++ R0) in *.
  assert (incl args R) as INR by (intros x I; apply in_or_app; left; exact (IN x I)).
  unfold call in Hc. destruct (convert_ok (params f) args (mem st) R B INR) as (r & E1 & HR).
  rewrite E1 in Hc. cbn [bind] in Hc. destruct r as [ws h1|h1]; [|discriminate].
  destruct HR as (L1 & B1 & S1 & V1 & _).
  rewrite (args_unique _ _ _ _ _ V1 V) in *. clear V1 ws.
  assert (exists res2 h2 L2,
    (match result f vs with
     | None => Some (None, h1)
     | Some v => bind (to_py v h1) (fun '(o, h) => Some (Some o, h))
     end) = Some (res2, h2) /\ bal h2 (opt_list res2 ++ L2 ++ L1 ++ R) /\ same h1 h2)
    as (res2 & h2 & L2 & E2 & B2 & S2).
  { destruct (result f vs) as [v|].
    - destruct (to_py_ok v h1 (L1 ++ R) B1) as (o & h2 & L2 & E2 & B2 & C2 & G2 & F2 & D2 & A2).
      exists (Some o), h2, L2. rewrite E2. cbn [bind]. split; [reflexivity|]. split; [exact B2|].
      split; [lia|]. intros i Li. rewrite F2 by exact Li. reflexivity.
    - exists None, h1, []. split; [reflexivity|]. split; [exact B1|]. apply same_refl. }
  rewrite E2 in Hc. cbn [bind] in Hc.
  destruct (clean_up L (params f) args 0 (after f vs) h2) as [h3|] eqn:E3; [|discriminate].
  cbn [bind] in Hc. injection Hc as <- <-.
  assert (same (mem st) h2) as S12 by (eapply same_trans; eassumption).
  assert (forall p o a, arg_value (mem st) p o a -> arg_value h2 p o a) as AV.
  { intros p o a. exact (arg_value_same _ _ _ _ _ _ B S12). }
  assert (forall p o, In (p, o) (combine (params f) args) -> exists a, arg_value h2 p o a) as AL.
  { intros p o I. destruct V as [_ V2]. clear - V2 I AV.
    induction V2 as [|[q x] a l ws H F IH]; [destruct I|]. destruct I as [I|I].
    - injection I as -> ->. exists a. apply AV. exact H.
    - exact (IH I). }
  destruct (clean_up_written L (params f) args 0 (after f vs) h2 _ h3 B2) as [K3 V3].
  { intros x I. do 3 (apply in_or_app; right). exact (INR x I). }
  { intros p o I Q. destruct (AL p o I) as (a & A). destruct p as [|k c]; [destruct L; discriminate|].
    destruct a as [z|zs]; [destruct A|]. destruct A as (n & l & E & _). eauto. }
  { exact E3. }
  split.
  - intros i p o [Hp Ho] Q U. apply written_spec in Q.
    assert (In (p, o) (combine (params f) args)) as I.
    { clear - Hp Ho. revert args i Hp Ho. induction (params f) as [|q ps IH]; intros [|x args] [|i] Hp Ho; try discriminate.
      - cbn in Hp, Ho. injection Hp as ->. injection Ho as ->. left. reflexivity.
      - right. exact (IH args i Hp Ho). }
    destruct (AL p o I) as (a & A). destruct p as [|k c]; [destruct L; discriminate|].
    destruct a as [z|zs]; [destruct A|]. destruct A as (n & l & E & _).
    destruct (V3 i _ o n k l Hp Ho Q) as (n' & es & G1 & G2).
    { intros j q Lj H1 H2. destruct (written L q) eqn:Qq; [|reflexivity]. exfalso.
      apply (U j q Lj (conj H1 H2)). apply written_spec. exact Qq. }
    { exact E. }
    exists n', es. split; [exact G1|exact G2].
  - intros o ob ob' E E' NW. pose proof (alive_lt _ _ _ _ B E) as Lo.
    destruct (same_alive _ _ _ _ S12 Lo E) as (ob2 & Eo2 & P2).
    destruct (proj2 K3 o ob' (alive_lt _ _ _ _ B2 Eo2) E') as (ob3 & Eo3 & P3). rewrite Eo2 in Eo3. injection Eo3 as <-.
    destruct P3 as [P3|((q & Iq & Qq) & _)]; [congruence|]. exfalso.
    apply In_nth_error in Iq. destruct Iq as (j & Ej).
    assert (nth_error (params f) j = Some q /\ nth_error args j = Some o) as [Ejp Eja].
    { clear - Ej. revert args j Ej. induction (params f) as [|y ps IHp]; intros [|y' args] [|j] Ej; try discriminate.
      - cbn in Ej. injection Ej as -> ->. auto.
      - cbn in Ej. exact (IHp args j Ej). }
    apply (NW j q (conj Ejp Eja)). apply written_spec. exact Qq.
Qed.
