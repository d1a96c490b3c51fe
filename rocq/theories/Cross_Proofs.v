(** Proofs about np.cross. *)
From Coq Require Import List ZArith Bool Lia.
From Verif Require Import Cross_Model Cross_Spec.
Import ListNotations.

Lemma locb_eq : forall x y, locb x y = true <-> x = y.
Proof.
  intros [a i] [b j]. unfold locb. cbn [fst snd]. rewrite andb_true_iff, Nat.eqb_eq.
  destruct (list_eq_dec Nat.eq_dec i j) as [-> | N].
  - split; [intros [-> _]; reflexivity | intro H; injection H as ->; auto].
  - split; [intros [_ H]; discriminate | intro H; injection H as _ H; contradiction].
Qed.

Lemma put_same : forall m t v, put m t v t = v.
Proof. intros m t v. unfold put. rewrite (proj2 (locb_eq t t) eq_refl). reflexivity. Qed.

Lemma put_other : forall m t v l, l <> t -> put m t v l = m l.
Proof.
  intros m t v l H. unfold put. destruct (locb l t) eqn:E; [|reflexivity].
  apply locb_eq in E. contradiction.
Qed.

(** ** The loops *)

Fixpoint indices (S : list nat) : list (list nat) :=
  match S with
  | [] => [[]]
  | n :: S' => flat_map (fun i => map (cons i) (indices S')) (seq 0 n)
  end.

(** The loop indices from [level] on have the values [i]. *)
Definition over (e : env) (level : nat) (i : list nat) : env :=
  fun v => if Nat.leb level v && Nat.ltb v (level + length i) then nth (v - level) i 0 else e v.

Lemma at_ext : forall e e' k l, (forall v, e v = e' v) -> at_ e k l = at_ e' k l.
Proof.
  intros e e' k l H. unfold at_. apply (map_ext (value e k) (value e' k)).
  intros [|v|]; cbn; auto.
Qed.

Lemma three_ext : forall a b c l e e' m, (forall v, e v = e' v) ->
  three a b c l e m = three a b c l e' m.
Proof.
  intros a b c l e e' m H. unfold three.
  rewrite !(at_ext e e' _ _ H). reflexivity.
Qed.

Lemma sub_comm : forall v w x, sub_ix v (sub_ix w x) = sub_ix w (sub_ix v x).
Proof.
  intros v w [|k|]; try reflexivity. cbn.
  destruct (Nat.eqb k w) eqn:E, (Nat.eqb k v) eqn:E'; cbn; rewrite ?E, ?E'; reflexivity.
Qed.

Lemma subst_comm : forall p v w, subst v (subst w p) = subst w (subst v p).
Proof.
  induction p as [a b c [x y z] | u n p IH]; intros v w; cbn.
  - unfold sub_leaf. cbn. rewrite !map_map.
    f_equal. f_equal; apply map_ext; intro; apply sub_comm.
  - rewrite IH. reflexivity.
Qed.

Lemma subst_fors : forall S level v p, v < level ->
  subst v (insert_fors level S p) = insert_fors level S (subst v p).
Proof.
  induction S as [|d S IH]; intros level v p H; cbn [insert_fors]; [reflexivity|].
  destruct (known_one d).
  - rewrite subst_comm, IH by lia. reflexivity.
  - cbn [subst]. rewrite IH by lia. reflexivity.
Qed.

Lemma at_sub : forall e v i k l,
  at_ (over e (Datatypes.S v) i) k (map (sub_ix v) l) = at_ (over e v (0 :: i)) k l.
Proof.
  intros e v i k l. unfold at_. rewrite map_map. apply map_ext.
  intros [|w|]; try reflexivity. cbn [sub_ix]. destruct (Nat.eqb w v) eqn:E.
  - apply Nat.eqb_eq in E. subst w. cbn. unfold over.
    replace (Nat.leb v v) with true by (symmetry; apply Nat.leb_le; lia).
    replace (Nat.ltb v (v + length (0 :: i))) with true
      by (symmetry; apply Nat.ltb_lt; cbn; lia).
    cbn [andb]. rewrite Nat.sub_diag. reflexivity.
  - apply Nat.eqb_neq in E. cbn [value]. unfold over. cbn [length].
    destruct (Nat.leb (Datatypes.S v) w) eqn:L.
    + apply Nat.leb_le in L. replace (Nat.leb v w) with true by (symmetry; apply Nat.leb_le; lia).
      replace (v + Datatypes.S (length i)) with (Datatypes.S v + length i) by lia.
      replace (w - v) with (Datatypes.S (w - Datatypes.S v)) by lia. reflexivity.
    + apply Nat.leb_gt in L. replace (Nat.leb v w) with false by (symmetry; apply Nat.leb_gt; lia).
      reflexivity.
Qed.

Lemma three_sub : forall a b c l e v i m,
  three a b c (sub_leaf v l) (over e (Datatypes.S v) i) m = three a b c l (over e v (0 :: i)) m.
Proof.
  intros a b c l e v i m. unfold three, sub_leaf. cbn [la lb lc]. rewrite !at_sub. reflexivity.
Qed.

(** Two environments which are the same outside of the loops. *)
Definition outside (level n : nat) (e e' : env) : Prop :=
  forall v, v < level \/ level + n <= v -> e' v = e v.

Lemma over_outside : forall e e' level i n, outside level n e e' -> length i = n ->
  forall v, over e' level i v = over e level i v.
Proof.
  intros e e' level i n H L v. unfold over.
  destruct (Nat.leb level v && Nat.ltb v (level + length i)) eqn:E; [reflexivity|].
  apply H. apply andb_false_iff in E. destruct E as [E | E].
  - apply Nat.leb_gt in E. lia.
  - apply Nat.ltb_ge in E. lia.
Qed.

Lemma indices_length : forall S i, In i (indices S) -> length i = length S.
Proof.
  induction S as [|n S IH]; intros i H; cbn in H.
  - destruct H as [<- | []]. reflexivity.
  - apply in_flat_map in H. destruct H as [j [_ H]]. apply in_map_iff in H.
    destruct H as [i' [<- H]]. cbn. f_equal. apply IH. exact H.
Qed.

Lemma in_indices : forall S i, In i (indices S) <-> in_shape S i.
Proof.
  intro S. induction S as [|n S IH]; intro i; cbn [indices].
  - cbn. destruct i; split; intro H; auto; try contradiction.
    destruct H as [H|[]]. discriminate.
  - rewrite in_flat_map. destruct i as [|x i]; cbn [in_shape].
    + split; [intros [y [_ H]]; apply in_map_iff in H; destruct H as [z [H _]]; discriminate
             | contradiction].
    + split.
      * intros [y [Hy H]]. apply in_map_iff in H. destruct H as [z [H Hz]].
        injection H as <- <-. apply in_seq in Hy. split; [lia|]. apply IH. exact Hz.
      * intros [Hx Hi]. exists x. split; [apply in_seq; lia|]. apply in_map. apply IH. exact Hi.
Qed.

Lemma fold_ext_in : forall (A B : Type) (f g : A -> B -> A) l a,
  (forall a x, In x l -> f a x = g a x) -> fold_left f l a = fold_left g l a.
Proof.
  intros A B f g l. induction l as [|x l IH]; intros a H; [reflexivity|]. cbn.
  rewrite (H a x (or_introl eq_refl)). apply IH. intros b y Hy. apply H. right. exact Hy.
Qed.

Lemma fold_map : forall (A B C : Type) (f : A -> B -> A) (g : C -> B) l a,
  fold_left f (map g l) a = fold_left (fun a x => f a (g x)) l a.
Proof.
  intros A B C f g l. induction l as [|x l IH]; intro a; [reflexivity|]. cbn. apply IH.
Qed.

Lemma run_fors : forall S level a b c l e m,
  let st := run (insert_fors level S (Three a b c l)) (e, m) in
  outside level (length S) e (fst st) /\
  snd st = fold_left (fun m i => three a b c l (over e level i) m) (indices (map fst S)) m.
Proof.
  induction S as [|d S IH]; intros level a b c l e m; cbn [insert_fors].
  - cbv zeta. cbn [run fst snd map indices fold_left length]. split; [intros v _; reflexivity|].
    apply three_ext. intro v. unfold over. cbn [length].
    destruct (Nat.leb level v) eqn:E; [|reflexivity]. apply Nat.leb_le in E.
    replace (Nat.ltb v (level + 0)) with false by (symmetry; apply Nat.ltb_ge; lia). reflexivity.
  - destruct (known_one d) eqn:K.
    + rewrite subst_fors by lia. cbn [subst].
      destruct (IH (Datatypes.S level) a b c (sub_leaf level l) e m) as [H1 H2]. cbv zeta in *.
      split.
      * intros v Hv. apply H1. cbn [length] in Hv. lia.
      * rewrite H2. unfold known_one in K. apply andb_true_iff in K. destruct K as [_ K].
        apply Nat.eqb_eq in K. cbn [map]. rewrite K. cbn [indices seq flat_map].
        rewrite app_nil_r, fold_map. apply fold_ext_in. intros x i _. apply three_sub.
    + cbn [run map indices length].
      assert (G : forall js e1 m1, outside level (Datatypes.S (length S)) e e1 ->
        let st := fold_left (fun st i => run (insert_fors (Datatypes.S level) S (Three a b c l))
                      (set_var (fst st) level i, snd st)) js (e1, m1) in
        outside level (Datatypes.S (length S)) e (fst st) /\
        snd st = fold_left (fun m i => three a b c l (over e level i) m)
                   (flat_map (fun i => map (cons i) (indices (map fst S))) js) m1).
      { induction js as [|j js IHj]; intros e1 m1 H1; cbn [fold_left flat_map].
        - cbv zeta. split; [exact H1 | reflexivity].
        - cbn [fst snd].
          destruct (IH (Datatypes.S level) a b c l (set_var e1 level j) m1) as [H2 H3].
          cbv zeta in H2, H3.
          destruct (run (insert_fors (Datatypes.S level) S (Three a b c l))
                      (set_var e1 level j, m1)) as [e2 m2]. cbn [fst snd] in H2, H3.
          rewrite fold_left_app. 
          assert (E2 : fold_left (fun m i => three a b c l (over e level i) m)
                         (map (cons j) (indices (map fst S))) m1 = m2).
          { rewrite H3, fold_map. apply fold_ext_in. intros x i Hi. apply three_ext.
            apply indices_length in Hi. rewrite map_length in Hi.
            intro v. unfold over. cbn [length].
            destruct (Nat.leb (Datatypes.S level) v) eqn:L.
            - apply Nat.leb_le in L.
              replace (Nat.leb level v) with true by (symmetry; apply Nat.leb_le; lia).
              replace (level + Datatypes.S (length i)) with (Datatypes.S level + length i) by lia.
              replace (v - level) with (Datatypes.S (v - Datatypes.S level)) by lia.
              destruct (Nat.ltb v (Datatypes.S level + length i)) eqn:L2; [reflexivity|].
              cbn [andb]. apply Nat.ltb_ge in L2. unfold set_var.
              replace (Nat.eqb v level) with false by (symmetry; apply Nat.eqb_neq; lia).
              symmetry. apply H1. lia.
            - apply Nat.leb_gt in L. cbn [andb]. unfold set_var.
              destruct (Nat.eqb v level) eqn:E.
              + apply Nat.eqb_eq in E. subst v.
                replace (Nat.leb level level) with true by (symmetry; apply Nat.leb_le; lia).
                replace (Nat.ltb level (level + Datatypes.S (length i))) with true
                  by (symmetry; apply Nat.ltb_lt; lia).
                rewrite Nat.sub_diag. reflexivity.
              + apply Nat.eqb_neq in E.
                replace (Nat.leb level v) with false by (symmetry; apply Nat.leb_gt; lia).
                cbn [andb]. symmetry. apply H1. lia. }
          rewrite E2. apply IHj. intros v Hv. rewrite H2 by lia. unfold set_var.
          replace (Nat.eqb v level) with false by (symmetry; apply Nat.eqb_neq; lia).
          apply H1. exact Hv. }
      apply (G (seq 0 (fst d)) e m). intros v _. reflexivity.
Qed.

(** ** The assignments *)

(** [m'] is [m] after the elements [P] of [c] have been set to [V]. *)
Definition sets (c : nat) (V : list nat -> Z) (P : list nat -> Prop) (m m' : mem) : Prop :=
  (forall d i, d <> c -> m' (d, i) = m (d, i)) /\
  (forall o, P o -> m' (c, o) = V o) /\
  (forall o, m (c, o) = V o -> m' (c, o) = V o).

Lemma put_sets : forall c V m o v, v = V o ->
  sets c V (fun o' => o' = o) m (put m (c, o) v).
Proof.
  intros c V m o v E. split; [|split].
  - intros d i H. apply put_other. congruence.
  - intros o' ->. rewrite put_same. exact E.
  - intros o' H. destruct (list_eq_dec Nat.eq_dec o' o) as [-> | N].
    + rewrite put_same. exact E.
    + rewrite put_other by congruence. exact H.
Qed.

Lemma sets_trans : forall c V P Q m m1 m2,
  sets c V P m m1 -> sets c V Q m1 m2 -> sets c V (fun o => P o \/ Q o) m m2.
Proof.
  intros c V P Q m m1 m2 [H1 [H2 H3]] [H4 [H5 H6]]. split; [|split].
  - intros d i H. rewrite H4, H1 by exact H. reflexivity.
  - intros o [H | H]; auto.
  - intros o H. auto.
Qed.

Lemma three_sets : forall a b c l e V m0 m, c <> a -> c <> b ->
  (forall d i, d <> c -> m (d, i) = m0 (d, i)) ->
  (forall k, k < 3 ->
     V (at_ e k (lc l)) = component (fun j => m0 (a, at_ e j (la l)))
                                    (fun j => m0 (b, at_ e j (lb l))) k) ->
  sets c V (fun o => exists k, k < 3 /\ o = at_ e k (lc l)) m (three a b c l e m).
Proof.
  intros a b c l e V m0 m Ha Hb Hm HV. unfold three.
  set (m1 := put m (c, at_ e 0 (lc l)) _).
  set (m2 := put m1 (c, at_ e 1 (lc l)) _).
  set (m3 := put m2 (c, at_ e 2 (lc l)) _).
  assert (S1 : sets c V (fun o => o = at_ e 0 (lc l)) m m1).
  { apply put_sets. rewrite HV by lia. cbn [component]. rewrite !Hm by congruence. reflexivity. }
  assert (E1 : forall d i, d <> c -> m1 (d, i) = m0 (d, i)).
  { intros d i H. destruct S1 as [H1 _]. rewrite H1, Hm by exact H. reflexivity. }
  assert (S2 : sets c V (fun o => o = at_ e 1 (lc l)) m1 m2).
  { apply put_sets. rewrite HV by lia. cbn [component]. rewrite !E1 by congruence. reflexivity. }
  assert (E2 : forall d i, d <> c -> m2 (d, i) = m0 (d, i)).
  { intros d i H. destruct S2 as [H1 _]. rewrite H1, E1 by exact H. reflexivity. }
  assert (S3 : sets c V (fun o => o = at_ e 2 (lc l)) m2 m3).
  { apply put_sets. rewrite HV by lia. cbn [component]. rewrite !E2 by congruence. reflexivity. }
  pose proof (sets_trans _ _ _ _ _ _ _ (sets_trans _ _ _ _ _ _ _ S1 S2) S3) as [H1 [H2 H3]].
  split; [exact H1|]. split; [|exact H3].
  intros o [k [Hk ->]]. apply H2.
  destruct k as [|[|[|k]]]; [left; left | left; right | right | lia]; reflexivity.
Qed.

Lemma fold_sets : forall c V (P : list nat -> list nat -> Prop) (body : mem -> list nat -> mem) m0 is_,
  (forall i m, In i is_ -> (forall d i, d <> c -> m (d, i) = m0 (d, i)) -> sets c V (P i) m (body m i)) ->
  forall m, (forall d i, d <> c -> m (d, i) = m0 (d, i)) ->
  sets c V (fun o => exists i, In i is_ /\ P i o) m (fold_left body is_ m).
Proof.
  intros c V P body m0 is_. induction is_ as [|i l IH]; intros HB m Hm; cbn [fold_left].
  - split; [reflexivity|]. split; [intros o [j [[] _]] | auto].
  - pose proof (HB i m (or_introl eq_refl) Hm) as [H1 [H2 H3]].
    destruct (IH (fun i' m' Hi => HB i' m' (or_intror Hi)) (body m i)) as [H4 [H5 H6]].
    { intros d j Hd. rewrite H1, Hm by exact Hd. reflexivity. }
    split; [|split].
    + intros d j Hd. rewrite H4, H1 by exact Hd. reflexivity.
    + intros o [j [[<- | Hj] Ho]].
      * apply H6, H2, Ho.
      * apply H5. exists j. auto.
    + intros o Ho. apply H6, H3, Ho.
Qed.

(** ** The indices *)

Lemma insert_with : forall e k x l, x <= length l ->
  at_ e k (insert_at x Comp l) = with_axis x k (map (value e k) l).
Proof.
  intros e k x. induction x as [|x IH]; intros l H.
  - reflexivity.
  - destruct l as [|y l]; [cbn in H; lia|]. cbn [insert_at]. unfold with_axis in *.
    cbn [at_ map firstn skipn app]. f_equal. apply IH. cbn in H. lia.
Qed.

Lemma others_with : forall x k i, x <= length i -> others x (with_axis x k i) = i.
Proof.
  intros x k i H. unfold others, with_axis.
  rewrite firstn_app, firstn_firstn, firstn_length, Nat.min_l by lia.
  replace (x - Nat.min x (length i)) with 0 by lia. cbn [firstn]. rewrite app_nil_r, skipn_app.
  rewrite firstn_length. replace (x + 1 - Nat.min x (length i)) with 1 by lia.
  rewrite skipn_all2 by (rewrite firstn_length; lia). cbn [app skipn].
  apply firstn_skipn.
Qed.

Lemma nth_with : forall x k i, x <= length i -> nth x (with_axis x k i) 0 = k.
Proof.
  intros x k i H. unfold with_axis. rewrite app_nth2; rewrite firstn_length; [|lia].
  replace (x - Nat.min x (length i)) with 0 by lia. reflexivity.
Qed.

Lemma remove_others : forall x S, map fst (remove_at x S) = others x (map fst S).
Proof.
  intro x. induction x as [|x IH]; intros [|d S]; cbn; try reflexivity.
  f_equal. apply IH.
Qed.

Lemma in_shape_length : forall S i, in_shape S i -> length i = length S.
Proof.
  intro S. induction S as [|n S IH]; intros [|x i] H; cbn in *; try contradiction; auto.
  f_equal. apply IH. apply H.
Qed.

Lemma in_shape_nth : forall S i j, in_shape S i -> j < length S -> nth j i 0 < nth j S 0.
Proof.
  intro S. induction S as [|n S IH]; intros [|x i] j H L; cbn in *; try contradiction; try lia.
  destruct j; [lia|]. apply IH; [apply H | lia].
Qed.

Lemma zipped_length : forall vars S, length (zipped vars S) = Nat.min (length vars) (length S).
Proof. intros. unfold zipped. rewrite map_length. apply combine_length. Qed.

(** The values of the indices, one by one. *)
Lemma zipped_value : forall S e k n p i, length S = n + 1 -> length i = n ->
  (forall j, j < n -> e (p + j) = nth j i 0) ->
  (forall j, j < n -> known_one (nth j S (0, false)) = true -> nth j i 0 = 0) ->
  map (value e k) (zipped (seq p n) S) = i.
Proof.
  induction S as [|d S IH]; intros e k n p i LS Li He Hk; [cbn in LS; lia|].
  destruct n as [|n].
  - destruct i; [reflexivity | discriminate].
  - destruct i as [|z i]; [discriminate|]. unfold zipped. cbn [seq combine map].
    f_equal.
    + cbn [fst snd]. destruct (known_one d) eqn:K.
      * symmetry. apply (Hk 0); [lia | exact K].
      * cbn [value]. specialize (He 0). rewrite Nat.add_0_r in He. apply He. lia.
    + apply IH.
      * cbn in LS. lia.
      * cbn in Li. lia.
      * intros j Hj. specialize (He (Datatypes.S j)). cbn [nth] in He. rewrite <- He by lia.
        f_equal. lia.
      * intros j Hj K. apply (Hk (Datatypes.S j)); [lia | exact K].
Qed.

Lemma pick_id : forall S i, length i = length S ->
  (forall j, j < length S -> nth j S 0 = 1 -> nth j i 0 = 0) -> pick S i = i.
Proof.
  unfold pick. induction S as [|n S IH]; intros [|x i] L H; try discriminate; [reflexivity|].
  cbn [combine map fst snd]. f_equal.
  - destruct (Nat.eqb n 1) eqn:E; [|reflexivity]. apply Nat.eqb_eq in E. subst n.
    symmetry. apply (H 0); [cbn; lia | reflexivity].
  - apply IH; [cbn in L; lia|]. intros j Hj E. apply (H (Datatypes.S j)); [cbn; lia | exact E].
Qed.

(** The index of an argument, when the axis is the last one. *)
Lemma zipped_last : forall S e k n i, length S = n + 1 -> length i = n ->
  (forall j, j < n -> e j = nth j i 0) ->
  (forall j, j < n -> fst (nth j S (0, false)) = 1 ->
     known_one (nth j S (0, false)) = false -> nth j i 0 = 0) ->
  map (value e k) (zipped (seq 0 n) S) = pick (others n (map fst S)) i.
Proof.
  intros S e k n i LS Li He Hk.
  assert (G : forall S p n i, length S = n + 1 -> length i = n ->
     (forall j, j < n -> e (p + j) = nth j i 0) ->
     (forall j, j < n -> fst (nth j S (0, false)) = 1 ->
       known_one (nth j S (0, false)) = false -> nth j i 0 = 0) ->
     map (value e k) (zipped (seq p n) S) = pick (others n (map fst S)) i).
  { clear. induction S as [|d S IH]; intros p n i LS Li He Hk; [cbn in LS; lia|].
    destruct n as [|n].
    - destruct i; [|discriminate]. destruct S; [reflexivity | cbn in LS; lia].
    - destruct i as [|z i]; [discriminate|].
      unfold zipped, others, pick. cbn [seq combine map firstn Nat.add skipn app fst snd].
      f_equal.
      + destruct (known_one d) eqn:K.
        * unfold known_one in K. apply andb_true_iff in K. destruct K as [_ K]. rewrite K. reflexivity.
        * cbn [value]. specialize (He 0) as He0. rewrite Nat.add_0_r in He0. cbn [nth] in He0.
          rewrite He0 by lia. destruct (Nat.eqb (fst d) 1) eqn:E; [|reflexivity].
          apply Nat.eqb_eq in E. apply (Hk 0); [lia | exact E | exact K].
      + apply (IH (Datatypes.S p) n i).
        * cbn in LS. lia.
        * cbn in Li. lia.
        * intros j Hj. specialize (He (Datatypes.S j)). cbn [nth] in He. rewrite <- He by lia.
          f_equal. lia.
        * intros j Hj. apply (Hk (Datatypes.S j)). lia. }
  apply G; auto.
Qed.

(** ** The sizes *)

Definition pair_ok (d e : dim) : Prop :=
  fst d = fst e \/ known_one d = true \/ known_one e = true.

Definition loop_dim (d e : dim) : dim := if known_one d then e else d.

Lemma one_size : forall d, known_one d = true -> fst d = 1.
Proof.
  intros d H. unfold known_one in H. apply andb_true_iff in H. destruct H as [_ H].
  apply Nat.eqb_eq in H. exact H.
Qed.

Lemma join_size : forall d e f, pair_ok d e -> join d e = Some f ->
  fst f = fst (loop_dim d e).
Proof.
  intros d e f H J. unfold join in J. unfold loop_dim.
  destruct (snd d && snd e && Nat.eqb (fst d) (fst e)) eqn:E1.
  { injection J as <-. apply andb_true_iff in E1. destruct E1 as [_ E1]. apply Nat.eqb_eq in E1.
    destruct (known_one d); [exact E1 | reflexivity]. }
  destruct (known_one d) eqn:E2; [injection J as <-; reflexivity|].
  destruct (known_one e) eqn:E3; [injection J as <-; reflexivity|].
  destruct H as [H | [H | H]]; [| congruence | congruence].
  destruct (snd d && negb (snd e)); [injection J as <-; reflexivity|].
  destruct (snd e && negb (snd d)); [injection J as <-; symmetry; exact H|].
  destruct (negb (snd d) && negb (snd e)); [injection J as <-; reflexivity | discriminate].
Qed.

Lemma join_known : forall d e f, join d e = Some f ->
  known_one d = false -> known_one e = false -> known_one f = false.
Proof.
  intros d e f J Hd He. unfold join in J. rewrite Hd, He in J.
  destruct (snd d && snd e && Nat.eqb (fst d) (fst e)); [injection J as <-; exact Hd|].
  destruct (snd d && negb (snd e)); [injection J as <-; exact Hd|].
  destruct (snd e && negb (snd d)); [injection J as <-; exact He|].
  destruct (negb (snd d) && negb (snd e)); [injection J as <-; exact Hd | discriminate].
Qed.

Lemma broadcast_length : forall S T U, broadcast S T = Some U ->
  length T = length S /\ length U = length S.
Proof.
  induction S as [|d S IH]; intros [|e T] U H; cbn in H; try discriminate.
  - injection H as <-. auto.
  - destruct (join d e); [|discriminate]. destruct (broadcast S T) eqn:E; [|discriminate].
    injection H as <-. destruct (IH _ _ E) as [H1 H2]. cbn. auto.
Qed.

Lemma broadcast_nth : forall S T U j, broadcast S T = Some U -> j < length S ->
  join (nth j S (0, false)) (nth j T (0, false)) = Some (nth j U (0, false)).
Proof.
  induction S as [|d S IH]; intros [|e T] U j H L; cbn in H; try discriminate; cbn in L; [lia|].
  destruct (join d e) eqn:J; [|discriminate]. destruct (broadcast S T) eqn:E; [|discriminate].
  injection H as <-. destruct j; [exact J|]. cbn [nth]. apply IH; [exact E | lia].
Qed.

Lemma Forall2_nth : forall S T j, Forall2 pair_ok S T -> j < length S ->
  pair_ok (nth j S (0, false)) (nth j T (0, false)).
Proof.
  intros S T j H. revert j. induction H as [|d e S T H _ IH]; intros j L; cbn in L; [lia|].
  destruct j; [exact H|]. cbn [nth]. apply IH. lia.
Qed.

Lemma Forall2_remove : forall x S T, Forall2 pair_ok S T ->
  Forall2 pair_ok (remove_at x S) (remove_at x T).
Proof.
  intro x. induction x as [|x IH]; intros S T H; destruct H; cbn; try constructor; auto.
Qed.

Lemma Forall_remove : forall x S, Forall (fun d => known_one d = false) S ->
  Forall (fun d => known_one d = false) (remove_at x S).
Proof.
  intro x. induction x as [|x IH]; intros S H; destruct H; cbn; try constructor; auto.
Qed.

Definition loop_dims (S T : list dim) : list dim :=
  map (fun p => if known_one (fst p) then snd p else fst p) (combine S T).

Lemma np_join_ok : forall S T, Forall2 pair_ok S T ->
  np_join (map fst S) (map fst T) = Some (map fst (loop_dims S T)).
Proof.
  intros S T H. induction H as [|d e S T H _ IH]; [reflexivity|].
  unfold loop_dims in *. cbn [map np_join combine fst snd]. rewrite IH.
  destruct (known_one d) eqn:K.
  - rewrite (one_size _ K). destruct (Nat.eqb 1 (fst e)) eqn:E; [|reflexivity].
    apply Nat.eqb_eq in E. rewrite <- E. reflexivity.
  - destruct (Nat.eqb (fst d) (fst e)) eqn:E; [reflexivity|].
    apply Nat.eqb_neq in E. destruct H as [H | [H | H]]; [congruence | congruence |].
    rewrite (one_size _ H) in *. destruct (Nat.eqb (fst d) 1) eqn:E1; [|reflexivity].
    apply Nat.eqb_eq in E1. congruence.
Qed.

Lemma loop_dims_length : forall S T, length S = length T ->
  length (loop_dims S T) = length S.
Proof. intros S T H. unfold loop_dims. rewrite map_length, combine_length, H. lia. Qed.

Lemma loop_dims_nth : forall S T j, length S = length T -> j < length S ->
  nth j (loop_dims S T) (0, false) = loop_dim (nth j S (0, false)) (nth j T (0, false)).
Proof.
  induction S as [|d S IH]; intros [|e T] j L H; try discriminate; cbn in H; [lia|].
  destruct j; [reflexivity|]. cbn [nth]. apply IH; [cbn in L; lia | lia].
Qed.

Lemma remove_length : forall x S, x < length S -> length (remove_at x S) = length S - 1.
Proof.
  intro x. induction x as [|x IH]; intros [|d S] H; cbn in H; try lia; cbn; [lia|].
  rewrite IH by lia. lia.
Qed.

Lemma remove_last_nth : forall S n j, length S = n + 1 -> j < n ->
  nth j (remove_at n S) (0, false) = nth j S (0, false).
Proof.
  induction S as [|d S IH]; intros n j L H; [cbn in L; lia|].
  destruct n as [|n]; [lia|]. cbn [remove_at]. destruct j; [reflexivity|]. cbn [nth].
  apply IH; [cbn in L; lia | lia].
Qed.

Lemma nth_map_fst : forall (S : list dim) j, nth j (map fst S) 0 = fst (nth j S (0, false)).
Proof. intros S j. change 0 with (fst (0, false)) at 1. apply map_nth. Qed.

(** ** The index lists *)

(** All three index lists, for the index [i] of the loops. *)
Lemma lists_ok : forall Sa Sb Sc x i e k,
  compatible Sa Sb -> x < length Sa -> broadcast Sa Sb = Some Sc ->
  (x + 1 = length Sa \/
   Forall (fun d => known_one d = false) Sa /\ Forall (fun d => known_one d = false) Sb) ->
  in_shape (map fst (loop_dims (remove_at x Sa) (remove_at x Sb))) i ->
  (forall j, j < length Sa - 1 -> e j = nth j i 0) ->
  let n := length Sa - 1 in
  map (value e k) (zipped (seq 0 n) Sa) = pick (others x (map fst Sa)) i /\
  map (value e k) (zipped (seq 0 n) Sb) = pick (others x (map fst Sb)) i /\
  map (value e k) (zipped (seq 0 n) Sc) = i /\ length i = n.
Proof.
  intros Sa Sb Sc x i e k HC Hx HB HL Hi He n.
  destruct (broadcast_length _ _ _ HB) as [Lb Lc].
  assert (La : length Sa = n + 1) by (unfold n; lia).
  assert (Lra : length (remove_at x Sa) = n) by (rewrite remove_length; unfold n; lia).
  assert (Lrb : length (remove_at x Sb) = n) by (rewrite remove_length; unfold n; lia).
  assert (LD : length (loop_dims (remove_at x Sa) (remove_at x Sb)) = n).
  { rewrite loop_dims_length by congruence. exact Lra. }
  assert (Li : length i = n).
  { rewrite (in_shape_length _ _ Hi), map_length. exact LD. }
  assert (Hn : forall j, j < n -> nth j i 0 <
     fst (loop_dim (nth j (remove_at x Sa) (0, false)) (nth j (remove_at x Sb) (0, false)))).
  { intros j Hj. rewrite <- loop_dims_nth by lia. rewrite <- nth_map_fst.
    apply in_shape_nth; [exact Hi|]. rewrite map_length. lia. }
  split; [|split; [|split; [|exact Li]]].
  - destruct HL as [HL | [Ka Kb]].
    + assert (x = n) by lia. subst x. apply zipped_last; [exact La | exact Li | exact He|].
      intros j Hj E K. specialize (Hn j Hj). rewrite !remove_last_nth in Hn by lia.
      unfold loop_dim in Hn. rewrite K in Hn. lia.
    + rewrite zipped_value with (i := i); [|exact La|exact Li|exact He|].
      * symmetry. apply pick_id.
        -- rewrite <- remove_others, map_length. lia.
        -- intros j Hj E. rewrite <- remove_others in E, Hj. rewrite map_length in Hj.
           rewrite nth_map_fst in E. specialize (Hn j ltac:(lia)). unfold loop_dim in Hn.
           pose proof (Forall_remove x _ Ka) as Kr. rewrite Forall_forall in Kr.
           rewrite (Kr (nth j (remove_at x Sa) (0, false))) in Hn by (apply nth_In; exact Hj).
           lia.
      * intros j Hj K. rewrite Forall_forall in Ka.
        rewrite (Ka (nth j Sa (0, false))) in K by (apply nth_In; lia). discriminate.
  - destruct HL as [HL | [Ka Kb]].
    + assert (x = n) by lia. subst x. apply zipped_last; [lia | exact Li | exact He|].
      intros j Hj E K. specialize (Hn j Hj). rewrite !remove_last_nth in Hn by lia.
      unfold loop_dim in Hn. destruct (known_one (nth j Sa (0, false))) eqn:K1; [lia|].
      destruct (Forall2_nth _ _ j HC) as [H | [H | H]]; [lia | lia | congruence | congruence].
    + rewrite zipped_value with (i := i); [|lia|exact Li|exact He|].
      * symmetry. apply pick_id.
        -- rewrite <- remove_others, map_length. lia.
        -- intros j Hj E. rewrite <- remove_others in E, Hj. rewrite map_length in Hj.
           rewrite nth_map_fst in E. specialize (Hn j ltac:(lia)). unfold loop_dim in Hn.
           pose proof (Forall_remove x _ Ka) as Kra. rewrite Forall_forall in Kra.
           rewrite (Kra (nth j (remove_at x Sa) (0, false))) in Hn by (apply nth_In; lia).
           pose proof (Forall_remove x _ Kb) as Krb. rewrite Forall_forall in Krb.
           destruct (Forall2_nth _ _ j (Forall2_remove x _ _ HC)) as [H | [H | H]].
           ++ lia.
           ++ lia.
           ++ rewrite (Kra (nth j (remove_at x Sa) (0, false))) in H by (apply nth_In; lia).
              discriminate.
           ++ rewrite (Krb (nth j (remove_at x Sb) (0, false))) in H by (apply nth_In; lia).
              discriminate.
      * intros j Hj K. rewrite Forall_forall in Kb.
        rewrite (Kb (nth j Sb (0, false))) in K by (apply nth_In; lia). discriminate.
  - apply zipped_value with (i := i); [lia | exact Li | exact He|].
    intros j Hj K. pose proof (broadcast_nth _ _ _ j HB ltac:(lia)) as J.
    destruct HL as [HL | [Ka Kb]].
    + assert (x = n) by lia. subst x. specialize (Hn j Hj). rewrite !remove_last_nth in Hn by lia.
      apply join_size in J; [|apply Forall2_nth; [exact HC | lia]].
      rewrite (one_size _ K) in J. lia.
    + rewrite Forall_forall in Ka, Kb.
      rewrite (join_known _ _ _ J) in K; [discriminate| |].
      * apply Ka. apply nth_In. lia.
      * apply Kb. apply nth_In. lia.
Qed.

(** ** One statement *)

Lemma axis_means : forall axis y rank x, x < rank -> means axis y rank x ->
  axis_of rank (match axis with Some z => z | None => y end) = x.
Proof.
  intros axis y rank x H M. unfold means in M. unfold axis_of.
  destruct M as [-> | ->].
  - replace (Z.of_nat x <? 0)%Z with false by (symmetry; apply Z.ltb_ge; lia). lia.
  - replace (Z.of_nat x - Z.of_nat rank <? 0)%Z with true by (symmetry; apply Z.ltb_lt; lia). lia.
Qed.

Lemma written_axes : forall s x, written s x ->
  xa s = x /\ xb s = x /\ xc s = x /\ broadcast (sa s) (sb s) = Some (sc s).
Proof.
  intros [a b c Sa Sb Sc u v w] x [axa [axb [axc [ax [E [Ma [Mb [Mc [H _]]]]]]]]].
  cbn [na nb nc sa sb sc xa xb xc] in *. unfold make in E.
  destruct (broadcast Sa Sb) as [Sc'|] eqn:B; [|discriminate].
  injection E as -> Eu Ev Ew. destruct H as [_ [Hx _]].
  destruct (broadcast_length _ _ _ B) as [Lb Lc]. rewrite Lb in Ev. rewrite Lc in Ew.
  rewrite <- Eu, <- Ev, <- Ew.
  repeat split; apply axis_means; assumption.
Qed.

Lemma unroll_fors : forall p s, 0 < length (sa s) -> xa s < length (sa s) ->
  p = 0 \/ length (sa s) = 1 ->
  unroll p s = insert_fors 0 (loop_shape s)
                 (Three (na s) (nb s) (nc s) (insert_indices s (seq 0 (n_indices s)))).
Proof.
  intros p s H0 Hx Hp. unfold unroll. destruct (n_indices s) eqn:E.
  - unfold n_indices in E. unfold loop_shape.
    pose proof (remove_length (xa s) (sa s) Hx) as L. rewrite E in L.
    destruct (remove_at (xa s) (sa s)); [|discriminate]. reflexivity.
  - destruct Hp as [-> | Hp]; [reflexivity|]. unfold n_indices in E. lia.
Qed.

Lemma unroll_ok : forall p s x e m, written s x -> p = 0 \/ length (sa s) = 1 ->
  crosses (na s) (nb s) (nc s) (map fst (sa s)) (map fst (sb s)) x x x m
    (snd (run (unroll p s) (e, m))).
Proof.
  intros p s x e m W Hp. destruct (written_axes _ _ W) as [Ea [Eb [Ec EB]]].
  destruct W as [_ [_ [_ [_ [_ [_ [_ [_ [[HC [Hx [_ [_ HL]]]] [Na Nb]]]]]]]]]].
  rewrite unroll_fors by (rewrite ?Ea; lia || exact Hp).
  destruct (run_fors (loop_shape s) 0 (na s) (nb s) (nc s)
              (insert_indices s (seq 0 (n_indices s))) e m) as [_ HR].
  cbv zeta in HR. rewrite HR. clear HR.
  assert (ES : loop_shape s = loop_dims (remove_at x (sa s)) (remove_at x (sb s))).
  { unfold loop_shape, loop_dims. rewrite Ea, Eb. reflexivity. }
  rewrite ES.
  destruct (broadcast_length _ _ _ EB) as [Lb Lc].
  set (Sa := map fst (sa s)). set (Sb := map fst (sb s)).
  set (B := map fst (loop_dims (remove_at x (sa s)) (remove_at x (sb s)))).
  set (V := fun o => component
     (fun j => m (na s, with_axis x j (pick (others x Sa) (others x o))))
     (fun j => m (nb s, with_axis x j (pick (others x Sb) (others x o)))) (nth x o 0)).
  assert (HS : sets (nc s) V
     (fun o => exists i, In i (indices B) /\ exists k, k < 3 /\ o = with_axis x k i) m
     (fold_left (fun m i => three (na s) (nb s) (nc s)
        (insert_indices s (seq 0 (n_indices s))) (over e 0 i) m) (indices B) m)).
  { apply (fold_sets (nc s) V (fun i o => exists k, k < 3 /\ o = with_axis x k i)
             (fun m i => three (na s) (nb s) (nc s)
                (insert_indices s (seq 0 (n_indices s))) (over e 0 i) m) m); [|reflexivity].
    intros i m1 Hi Hm1. apply in_indices in Hi.
    assert (Len : length i = length (sa s) - 1).
    { rewrite (in_shape_length _ _ Hi). unfold B. rewrite map_length, loop_dims_length;
        rewrite !remove_length; lia. }
    assert (HK : forall k,
      at_ (over e 0 i) k (la (insert_indices s (seq 0 (n_indices s)))) =
        with_axis x k (pick (others x Sa) i) /\
      at_ (over e 0 i) k (lb (insert_indices s (seq 0 (n_indices s)))) =
        with_axis x k (pick (others x Sb) i) /\
      at_ (over e 0 i) k (lc (insert_indices s (seq 0 (n_indices s)))) = with_axis x k i).
    { intro k. cbn [insert_indices la lb lc]. rewrite Ea, Eb, Ec.
      destruct (lists_ok (sa s) (sb s) (sc s) x i (over e 0 i) k HC Hx EB HL Hi)
        as [H1 [H2 [H3 H4]]].
      { intros j Hj. unfold over. cbn [Nat.leb andb Nat.add].
        replace (Nat.ltb j (length i)) with true by (symmetry; apply Nat.ltb_lt; lia).
        rewrite Nat.sub_0_r. reflexivity. }
      unfold n_indices.
      rewrite !insert_with by (rewrite zipped_length, seq_length; lia).
      rewrite H1, H2, H3. auto. }
    assert (HT : sets (nc s) V
       (fun o => exists k, k < 3 /\ o = at_ (over e 0 i) k (lc (insert_indices s (seq 0 (n_indices s)))))
       m1 (three (na s) (nb s) (nc s) (insert_indices s (seq 0 (n_indices s))) (over e 0 i) m1)).
    { apply (three_sets _ _ _ _ _ _ m); [exact Na | exact Nb | exact Hm1|].
      intros k Hk. destruct (HK k) as [_ [_ ->]]. unfold V.
      rewrite others_with, nth_with by lia.
      destruct k as [|[|[|k]]]; [| | |lia]; cbn [component];
        rewrite !(proj1 (HK _)), !(proj1 (proj2 (HK _))); reflexivity. }
    destruct HT as [T1 [T2 T3]]. split; [exact T1|]. split; [|exact T3].
    intros o [k [Hk ->]]. apply T2. exists k. split; [exact Hk|]. symmetry. apply HK. }
  destruct HS as [S1 [S2 _]].
  exists B. split; [|split].
  - unfold B, Sa, Sb. rewrite <- !remove_others. apply np_join_ok. apply Forall2_remove. exact HC.
  - intros i k Hi Hk.
    assert (Len : length i = length (sa s) - 1).
    { rewrite (in_shape_length _ _ Hi). unfold B. rewrite map_length, loop_dims_length;
        rewrite !remove_length; lia. }
    rewrite S2.
    + unfold V. rewrite others_with, nth_with by lia. reflexivity.
    + exists i. split; [apply in_indices; exact Hi|]. exists k. auto.
  - exact S1.
Qed.

(** ** A block *)

Lemma run_pair : forall p st, run p st = run p (fst st, snd st).
Proof. intros p [e m]. reflexivity. Qed.

Lemma vectors_ok : forall b p st, Forall (fun s => exists x, written s x) b -> vectors b ->
  chain b (snd st) (snd (run_block (unroll_block p b) st)).
Proof.
  induction b as [|s b IH]; intros p st W H; [constructor|].
  inversion W as [|s' b' [x Wx] W']; subst s' b'. inversion H as [|s' b' H1 H2]; subst s' b'.
  cbn [unroll_block run_block].
  apply (chain_cons s b x (snd st) (snd (run (unroll p s) st))).
  - exact Wx.
  - rewrite (run_pair _ st). apply unroll_ok; [exact Wx | right; exact H1].
  - apply IH; assumption.
Qed.

Lemma block_ok : forall b1 s b2 st, Forall (fun s => exists x, written s x) (b1 ++ s :: b2) ->
  vectors b1 -> vectors b2 ->
  chain (b1 ++ s :: b2) (snd st) (snd (run_block (unroll_block 0 (b1 ++ s :: b2)) st)).
Proof.
  induction b1 as [|t b1 IH]; intros s b2 st W H1 H2; cbn [app unroll_block run_block].
  - inversion W as [|s' b' [x Wx] W']; subst s' b'.
    apply (chain_cons s b2 x (snd st) (snd (run (unroll 0 s) st))).
    + exact Wx.
    + rewrite (run_pair _ st). apply unroll_ok; [exact Wx | left; reflexivity].
    + apply vectors_ok; assumption.
  - inversion W as [|s' b' [x Wx] W']; subst s' b'. inversion H1 as [|s' b' H3 H4]; subst s' b'.
    apply (chain_cons t (b1 ++ s :: b2) x (snd st) (snd (run (unroll 0 t) st))).
    + exact Wx.
    + rewrite (run_pair _ st). apply unroll_ok; [exact Wx | left; reflexivity].
    + unfold n_indices. rewrite H3. cbn [Nat.sub Nat.add]. apply IH; assumption.
Qed.

(** ** The shape *)

Lemma with_others : forall x S, x < length S -> with_axis x (nth x S 0) (others x S) = S.
Proof.
  intro x. induction x as [|x IH]; intros [|n S] H; cbn in H; try lia.
  - reflexivity.
  - unfold with_axis, others in *. cbn [firstn skipn app Nat.add nth]. f_equal. apply IH. lia.
Qed.

Lemma shape_ok : forall s x, written s x ->
  np_shape (map fst (sa s)) (map fst (sb s)) x x x = Some (map fst (sc s)).
Proof.
  intros s x W. destruct (written_axes _ _ W) as [Ea [Eb [Ec EB]]].
  destruct W as [_ [_ [_ [_ [_ [_ [_ [_ [[HC [Hx [H3 [H3' HL]]]] [Na Nb]]]]]]]]]].
  destruct (broadcast_length _ _ _ EB) as [Lb Lc].
  unfold np_shape. rewrite <- !remove_others, np_join_ok by (apply Forall2_remove; exact HC).
  cbn [option_map]. f_equal.
  rewrite <- (with_others x (map fst (sc s))) by (rewrite map_length; lia).
  pose proof (join_size _ _ _ (Forall2_nth _ _ x HC Hx) (broadcast_nth _ _ _ x EB Hx)) as J.
  rewrite nth_map_fst, J. unfold loop_dim.
  assert (E3 : fst (if known_one (nth x (sa s) (0, false)) then nth x (sb s) (0, false)
                    else nth x (sa s) (0, false)) = 3).
  { destruct (known_one (nth x (sa s) (0, false))); assumption. }
  rewrite E3. f_equal. rewrite <- remove_others.
  clear - HC EB. revert HC EB. generalize (sa s) (sb s) (sc s). revert x.
  assert (G : forall S T U, Forall2 pair_ok S T -> broadcast S T = Some U ->
     map fst (loop_dims S T) = map fst U).
  { intros S T U H. revert U. induction H as [|d e S T H _ IH]; intros U E; cbn in E.
    - injection E as <-. reflexivity.
    - destruct (join d e) as [f|] eqn:J; [|discriminate].
      destruct (broadcast S T) as [U'|] eqn:B; [|discriminate]. injection E as <-.
      unfold loop_dims in *. cbn [map combine fst snd]. f_equal.
      + symmetry. apply (join_size _ _ _ H J).
      + apply IH. reflexivity. }
  intros x S T U HC EB. apply G; [apply Forall2_remove; exact HC|].
  clear HC. revert S T U EB. induction x as [|x IH]; intros [|d S] [|e T] U EB; cbn in EB;
    try discriminate; try (injection EB as <-; reflexivity);
    destruct (join d e) as [f|] eqn:J; try discriminate;
    destruct (broadcast S T) as [U'|] eqn:B; try discriminate; injection EB as <-; cbn.
  - exact B.
  - rewrite J, (IH _ _ _ B). reflexivity.
Qed.
