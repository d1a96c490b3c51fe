(** Proofs about np.matmul. *)
From Coq Require Import List ZArith Bool Lia.
From Verif Require Import Matmul_Model Matmul_Spec.
Import ListNotations.

(** ** Memory *)

Lemma locb_eq : forall x y, locb x y = true <-> x = y.
Proof.
  intros [c|c|c] [d|d|d]; cbn; split; intro H; try discriminate;
    try (destruct (list_eq_dec Nat.eq_dec c d); [subst; reflexivity | discriminate]);
    try (injection H as <-; destruct (list_eq_dec Nat.eq_dec c c); congruence).
Qed.

Lemma put_same : forall m t v, put m t v t = v.
Proof. intros m t v. unfold put. rewrite (proj2 (locb_eq t t) eq_refl). reflexivity. Qed.

Lemma put_other : forall m t v l, l <> t -> put m t v l = m l.
Proof.
  intros m t v l H. unfold put. destruct (locb l t) eqn:E; [|reflexivity].
  apply locb_eq in E. contradiction.
Qed.

(** The arguments are the same. *)
Definition inputs (m m' : mem) : Prop :=
  (forall i, m' (In1 i) = m (In1 i)) /\ (forall i, m' (In2 i) = m (In2 i)).

Lemma inputs_refl : forall m, inputs m m.
Proof. split; reflexivity. Qed.

Lemma inputs_trans : forall a b c, inputs a b -> inputs b c -> inputs a c.
Proof. intros a b c [H1 H2] [H3 H4]. split; intro i; [rewrite H3|rewrite H4]; auto. Qed.

Lemma put_inputs : forall m o v, inputs m (put m (Out o) v).
Proof. intros m o v. split; intro i; apply put_other; discriminate. Qed.

Definition dotv (m : mem) (n : nat) (f g : nat -> list nat) : Z :=
  fold_right Z.add 0%Z (map (fun j => (m (In1 (f j)) * m (In2 (g j)))%Z) (seq 0 n)).

Lemma dotv_inputs : forall m m' n f g, inputs m m' -> dotv m' n f g = dotv m n f g.
Proof.
  intros m m' n f g [H1 H2]. unfold dotv. f_equal.
  apply (map_ext (fun j => (m' (In1 (f j)) * m' (In2 (g j)))%Z)
           (fun j => (m (In1 (f j)) * m (In2 (g j)))%Z)).
  intro j. rewrite H1, H2. reflexivity.
Qed.

Lemma dot_acc : forall o (f g : nat -> list nat) (l : list nat) (m : mem),
  let m' := fold_left (fun m i => put m (Out o)
              (m (Out o) + m (In1 (f i)) * m (In2 (g i)))%Z) l m in
  inputs m m' /\
  m' (Out o) = (m (Out o) +
    fold_right Z.add 0 (map (fun j => (m (In1 (f j)) * m (In2 (g j)))%Z) l))%Z /\
  (forall t, t <> Out o -> m' t = m t).
Proof.
  intros o f g l. induction l as [|i l IH]; intro m; cbn [fold_left map fold_right].
  - cbv zeta. split; [apply inputs_refl|]. split; [lia|]. reflexivity.
  - set (m1 := put m (Out o) (m (Out o) + m (In1 (f i)) * m (In2 (g i)))%Z).
    destruct (IH m1) as [H1 [H2 H3]]. cbv zeta.
    split; [eapply inputs_trans; [apply put_inputs | exact H1]|].
    split.
    + rewrite H2. unfold m1 at 1. rewrite put_same.
      rewrite (map_ext (fun j => (m1 (In1 (f j)) * m1 (In2 (g j)))%Z)
                 (fun j => (m (In1 (f j)) * m (In2 (g j)))%Z)).
      * lia.
      * intro j. unfold m1. rewrite !put_other by discriminate. reflexivity.
    + intros t Ht. rewrite H3 by exact Ht. apply put_other. exact Ht.
Qed.

Lemma dot_spec : forall m o n f g,
  let m' := dot m (Job (Out o) n f g) in
  inputs m m' /\ m' (Out o) = dotv m n f g /\ (forall t, t <> Out o -> m' t = m t).
Proof.
  intros m o n f g. unfold dot. cbn [target len left_ right_].
  destruct (dot_acc o f g (seq 0 n) (put m (Out o) 0%Z)) as [H1 [H2 H3]]. cbv zeta.
  split; [eapply inputs_trans; [apply put_inputs | exact H1]|].
  split.
  - rewrite H2, put_same. cbn [Z.add].
    exact (dotv_inputs m (put m (Out o) 0%Z) n f g (put_inputs m o 0%Z)).
  - intros t Ht. rewrite H3 by exact Ht. apply put_other. exact Ht.
Qed.

(** [m'] is [m] after the elements [P] have been set to [V]. *)
Definition sets (V : list nat -> Z) (P : list nat -> Prop) (m m' : mem) : Prop :=
  inputs m m' /\ (forall o, P o -> m' (Out o) = V o) /\
  (forall o, m (Out o) = V o -> m' (Out o) = V o).

Lemma jobs_sets : forall V m0 js m,
  inputs m0 m ->
  Forall (fun j => exists o, target j = Out o /\
            dotv m0 (len j) (left_ j) (right_ j) = V o) js ->
  sets V (fun o => exists j, In j js /\ target j = Out o) m (fold_left dot js m).
Proof.
  intros V m0 js. induction js as [|j js IH]; intros m Hm HF; cbn [fold_left].
  - split; [apply inputs_refl|]. split; [intros o [j [[] _]] | auto].
  - inversion HF as [|j' js' [o [Ho HV]] HF']; subst j' js'.
    destruct j as [t n f g]; cbn [target len left_ right_] in *. subst t.
    destruct (dot_spec m o n f g) as [H1 [H2 H3]].
    destruct (IH (dot m (Job (Out o) n f g)) (inputs_trans _ _ _ Hm H1) HF') as [H4 [H5 H6]].
    rewrite (dotv_inputs _ _ _ _ _ Hm), HV in H2.
    split; [eapply inputs_trans; eassumption|]. split.
    + intros o' [j [[<- | Hj] Ht]].
      * cbn in Ht. injection Ht as <-. apply H6. exact H2.
      * apply H5. exists j. auto.
    + intros o' Ho'. apply H6. destruct (list_eq_dec Nat.eq_dec o' o) as [-> | N].
      * exact H2.
      * rewrite H3 by congruence. exact Ho'.
Qed.

Lemma writes_sets : forall V (T : list nat -> list nat) ws m,
  Forall (fun w => snd w = V (T (fst w))) ws ->
  sets V (fun o => exists w, In w ws /\ T (fst w) = o) m
    (fold_left (fun m w => put m (Out (T (fst w))) (snd w)) ws m).
Proof.
  intros V T ws. induction ws as [|w ws IH]; intros m HF; cbn [fold_left].
  - split; [apply inputs_refl|]. split; [intros o [j [[] _]] | auto].
  - inversion HF as [|w' ws' HV HF']; subst w' ws'.
    destruct (IH (put m (Out (T (fst w))) (snd w)) HF') as [H4 [H5 H6]].
    split; [eapply inputs_trans; [apply put_inputs | exact H4]|]. split.
    + intros o [w' [[<- | Hw] Ho]].
      * subst o. apply H6. rewrite put_same. exact HV.
      * apply H5. exists w'. auto.
    + intros o Ho. apply H6. destruct (list_eq_dec Nat.eq_dec o (T (fst w))) as [-> | N].
      * rewrite put_same. exact HV.
      * rewrite put_other by congruence. exact Ho.
Qed.

(** ** The loops *)

Lemma each_sets : forall V m0 body (P : list nat -> list nat -> Prop) idxs,
  (forall i m, In i idxs -> inputs m0 m ->
     exists m', body i m = Some m' /\ sets V (P i) m m') ->
  forall m, inputs m0 m ->
  exists m', each body idxs m = Some m' /\
    sets V (fun o => exists i, In i idxs /\ P i o) m m'.
Proof.
  intros V m0 body P idxs. induction idxs as [|i l IH]; intros HB m Hm; cbn [each].
  - exists m. split; [reflexivity|]. split; [apply inputs_refl|].
    split; [intros o [j [[] _]] | auto].
  - destruct (HB i m (or_introl eq_refl) Hm) as [m1 [E1 [H1 [H2 H3]]]]. rewrite E1.
    destruct (IH (fun i' m' Hi => HB i' m' (or_intror Hi)) m1 (inputs_trans _ _ _ Hm H1))
      as [m2 [E2 [H4 [H5 H6]]]].
    exists m2. split; [exact E2|]. split; [eapply inputs_trans; eassumption|]. split.
    + intros o [j [[<- | Hj] Ho]].
      * apply H6, H2, Ho.
      * apply H5. exists j. auto.
    + intros o Ho. apply H6, H3, Ho.
Qed.

Lemma in_indices : forall S i, In i (indices S) <-> in_shape S i.
Proof.
  intro S. induction S as [|n S IH]; intro i; cbn [indices].
  - cbn. destruct i; split; intro H; auto; try contradiction.
    destruct H as [H|[]]. discriminate.
  - rewrite in_flat_map. destruct i as [|x i]; cbn [in_shape].
    + split; [intros [y [_ H]]; apply in_map_iff in H; destruct H as [z [H _]]; discriminate
             | contradiction].
    + split.
      * intros [y [Hy H]]. apply in_map_iff in H. destruct H as [z [H Hz]].
        injection H as <- <-. apply in_seq in Hy. split; [lia|]. apply IH. exact Hz.
      * intros [Hx Hi]. exists x. split; [apply in_seq; lia|]. apply in_map. apply IH. exact Hi.
Qed.

Lemma in_shape_length : forall S i, in_shape S i -> length i = length S.
Proof.
  intro S. induction S as [|n S IH]; intros [|x i] H; cbn in *; try contradiction; auto.
  f_equal. apply IH. apply H.
Qed.

Lemma in_shape_app : forall S S' i,
  in_shape (S ++ S') i <->
  exists x y, i = x ++ y /\ in_shape S x /\ in_shape S' y.
Proof.
  intro S. induction S as [|n S IH]; intros S' i; cbn [app].
  - split.
    + intro H. exists [], i. repeat split. exact H.
    + intros [x [y [-> [Hx Hy]]]]. destruct x; [exact Hy | contradiction].
  - destruct i as [|z i].
    + split; [contradiction|]. intros [x [y [E [Hx Hy]]]]. destruct x; [contradiction | discriminate].
    + cbn [in_shape]. rewrite IH. split.
      * intros [Hz [x [y [-> [Hx Hy]]]]]. exists (z :: x), y. repeat split; auto.
      * intros [x [y [E [Hx Hy]]]]. destruct x as [|z' x]; [contradiction|].
        injection E as <- ->. cbn in Hx. destruct Hx as [Hz Hx]. split; [exact Hz|].
        exists x, y. auto.
Qed.

(** ** Broadcasting *)

Lemma bc_nil : forall x, bc x [] = Some x.
Proof. intros [|a x]; reflexivity. Qed.

Lemma bc_prefix : forall w u, bc (w ++ u) w = Some (w ++ u) /\ bc w (w ++ u) = Some (w ++ u).
Proof.
  intro w. induction w as [|a w IH]; intro u; cbn [app bc].
  - rewrite bc_nil. auto.
  - destruct (IH u) as [H1 H2]. rewrite H1, H2, Nat.eqb_refl. auto.
Qed.

Lemma np_batch_suffix : forall u w,
  np_batch (u ++ w) w = Some (u ++ w) /\ np_batch w (u ++ w) = Some (u ++ w).
Proof.
  intros u w. unfold np_batch. rewrite rev_app_distr.
  destruct (bc_prefix (rev w) (rev u)) as [H1 H2]. rewrite H1, H2. cbn.
  rewrite rev_app_distr, !rev_involutive. auto.
Qed.

Lemma pick_rev_snoc : forall B i n x, length B = length i ->
  pick_rev (B ++ [n]) (i ++ [x]) = pick_rev B i ++ [if Nat.eqb n 1 then 0 else x].
Proof.
  intro B. induction B as [|b B IH]; intros [|y i] n x H; try discriminate; cbn; auto.
  f_equal. apply IH. injection H as H. exact H.
Qed.

Lemma pick_rev_app : forall B i j, length B = length i ->
  pick_rev B (i ++ j) = pick_rev B i.
Proof.
  intro B. induction B as [|b B IH]; intros [|y i] j H; try discriminate; cbn [app pick_rev];
    [reflexivity|]. f_equal. apply IH. injection H as H. exact H.
Qed.

Lemma pick_in : forall B i, in_shape B i -> pick B i = i.
Proof.
  intro B. unfold pick. induction B as [|n B IH]; intros [|x i] H; try contradiction; auto.
  cbn [rev]. cbn in H. destruct H as [Hx Hi].
  rewrite pick_rev_snoc by (rewrite !rev_length; symmetry; apply in_shape_length; exact Hi).
  rewrite rev_app_distr, IH by exact Hi. cbn [rev app].
  destruct (Nat.eqb n 1) eqn:E; [|reflexivity]. apply Nat.eqb_eq in E. f_equal. lia.
Qed.

Lemma pick_suffix : forall B x y, in_shape B y -> pick B (x ++ y) = y.
Proof.
  intros B x y H. unfold pick. rewrite rev_app_distr, pick_rev_app.
  - apply (pick_in B y H).
  - rewrite !rev_length. symmetry. apply in_shape_length. exact H.
Qed.

(** ** Inserting the indices *)

Lemma last1_snoc : forall S d e, last1 (S ++ [d; e]) = e.
Proof.
  intros S d e. unfold last1, at_. rewrite app_length. cbn [length].
  rewrite app_nth2 by lia. replace (length S + 2 - 1 - length S) with 1 by lia. reflexivity.
Qed.

Lemma last2_snoc : forall S d e, last2 (S ++ [d; e]) = d.
Proof.
  intros S d e. unfold last2, at_. rewrite app_length. cbn [length].
  rewrite app_nth2 by lia. replace (length S + 2 - 2 - length S) with 0 by lia. reflexivity.
Qed.

Lemma firstn_two : forall (S : list dim) d e, firstn (length (S ++ [d; e]) - 2) (S ++ [d; e]) = S.
Proof.
  intros S d e. rewrite app_length. cbn [length].
  replace (length S + 2 - 2) with (length S + 0) by lia. rewrite firstn_app_2. cbn. apply app_nil_r.
Qed.

Lemma firstn_one : forall (S : list dim) d e, firstn (length (S ++ [d; e]) - 1) (S ++ [d; e]) = S ++ [d].
Proof.
  intros S d e. rewrite app_length. cbn [length].
  replace (length S + 2 - 1) with (length S + 1) by lia. rewrite firstn_app_2. reflexivity.
Qed.

Lemma mm_shape_left : forall d u w w' n m m' p, length w = length w' ->
  mm_shape (d :: u ++ w ++ [n; m]) (w' ++ [m'; p]) = d :: u ++ w ++ [n; p].
Proof.
  intros d u w w' n m m' p L. change (d :: u ++ w ++ [n; m]) with ((d :: u) ++ w ++ [n; m]).
  change (d :: u ++ w ++ [n; p]) with ((d :: u) ++ w ++ [n; p]).
  unfold mm_shape. rewrite !app_assoc, !app_length. cbn [length].
  replace (Nat.eqb (Datatypes.S (length u) + length w + 2) 1) with false
    by (symmetry; apply Nat.eqb_neq; lia).
  replace (Nat.eqb (length w' + 2) 1) with false by (symmetry; apply Nat.eqb_neq; lia).
  cbn [andb orb].
  rewrite !last1_snoc, !last2_snoc.
  replace (Nat.ltb (length w' + 2) (Datatypes.S (length u) + length w + 2)) with true
    by (symmetry; apply Nat.ltb_lt; lia).
  replace (Datatypes.S (length u) + length w + 2) with (length (((d :: u) ++ w) ++ [n; m]))
    by (rewrite !app_length; reflexivity).
  rewrite firstn_one, <- app_assoc. reflexivity.
Qed.

Lemma mm_shape_right : forall u w w' n m m' p, length w = length w' ->
  mm_shape (w ++ [n; m]) (u ++ w' ++ [m'; p]) = u ++ w' ++ [n; p].
Proof.
  intros u w w' n m m' p L. unfold mm_shape. rewrite !app_assoc, !app_length. cbn [length].
  replace (Nat.eqb (length u + length w' + 2) 1) with false
    by (symmetry; apply Nat.eqb_neq; lia).
  replace (Nat.eqb (length w + 2) 1) with false by (symmetry; apply Nat.eqb_neq; lia).
  cbn [andb orb].
  rewrite !last1_snoc, !last2_snoc.
  replace (Nat.ltb (length u + length w' + 2) (length w + 2)) with false
    by (symmetry; apply Nat.ltb_ge; lia).
  replace (length u + length w' + 2) with (length ((u ++ w') ++ [m'; p]))
    by (rewrite !app_length; reflexivity).
  rewrite firstn_two. reflexivity.
Qed.

(** The index inserted for the dimension [d] has the value [z]. *)
Lemma ival_ins : forall e k (d : dim) z, e k = z -> z < fst d ->
  ival e (if known_one d then Zero else Loop k) = z.
Proof.
  intros e k d z He Hz. destruct (known_one d) eqn:E; cbn; [|exact He].
  unfold known_one in E. apply andb_true_iff in E. destruct E as [_ E].
  apply Nat.eqb_eq in E. lia.
Qed.

(** Both arguments are indexed. *)
Lemma unroll_both : forall w w' n m m' p pa pb k e y,
  map fst w = map fst w' ->
  in_shape (map fst w) y -> (forall j, j < length w -> e (k + j) = nth j y 0) ->
  exists xa xb,
    mm_unroll (length w) (pa, w ++ [n; m]) (pb, w' ++ [m'; p]) k =
      ((pa ++ xa, [n; m]), (pb ++ xb, [m'; p])) /\
    map (ival e) xa = y /\ map (ival e) xb = y.
Proof.
  intro w. induction w as [|d w IH]; intros [|d' w'] n m m' p pa pb k e y Ew Hy He; try discriminate.
  - destruct y; [|contradiction]. exists [], []. cbn. rewrite !app_nil_r. auto.
  - destruct y as [|z y]; [contradiction|]. cbn [map in_shape] in Hy. destruct Hy as [Hz Hy].
    assert (L : length (d :: w) = length (d' :: w')).
    { apply (f_equal (@length nat)) in Ew. rewrite !map_length in Ew. exact Ew. }
    cbn [map] in Ew. injection Ew as Ed Ew.
    cbn [length mm_unroll]. unfold mm_insert. cbn [fst snd].
    pose proof (mm_shape_right [] (d :: w) (d' :: w') n m m' p L) as Sh. cbn [app] in Sh.
    cbn [app]. rewrite Sh. cbn [length]. rewrite !app_length. cbn [length] in L |- *.
    injection L as L. rewrite <- L. rewrite Nat.ltb_irrefl. unfold index. cbn [fst snd tl].
    set (x := if known_one d' then Zero else Loop k).
    assert (Hx : ival e x = z).
    { apply ival_ins; [|rewrite <- Ed; exact Hz]. specialize (He 0). rewrite Nat.add_0_r in He.
      apply He. cbn; lia. }
    destruct (IH w' n m m' p (pa ++ [x]) (pb ++ [x]) (Datatypes.S k) e y Ew Hy)
      as [xa [xb [E [Ha Hb]]]].
    { intros j Hj. specialize (He (Datatypes.S j)). cbn [nth length] in He.
      rewrite <- He by lia. f_equal. lia. }
    exists (x :: xa), (x :: xb). unfold at_. cbn [nth]. fold x. rewrite E.
    rewrite <- !app_assoc. cbn [app map]. rewrite Ha, Hb, Hx. auto.
Qed.

Lemma unroll_left : forall u w w' n m m' p pa pb k e x y,
  map fst w = map fst w' ->
  in_shape (map fst u) x -> in_shape (map fst w) y ->
  (forall j, j < length (u ++ w) -> e (k + j) = nth j (x ++ y) 0) ->
  exists xa xb,
    mm_unroll (length (u ++ w)) (pa, u ++ w ++ [n; m]) (pb, w' ++ [m'; p]) k =
      ((pa ++ xa, [n; m]), (pb ++ xb, [m'; p])) /\
    map (ival e) xa = x ++ y /\ map (ival e) xb = y.
Proof.
  intro u. induction u as [|d u IH]; intros w w' n m m' p pa pb k e x y Ew Hx Hy He.
  - destruct x; [|contradiction]. apply unroll_both; assumption.
  - destruct x as [|z x]; [contradiction|]. cbn [map in_shape] in Hx. destruct Hx as [Hz Hx].
    assert (L : length w = length w').
    { apply (f_equal (@length nat)) in Ew. rewrite !map_length in Ew. exact Ew. }
    cbn [app length mm_unroll]. unfold mm_insert. cbn [fst snd].
    rewrite (mm_shape_left d u w w' n m m' p L). cbn [length]. rewrite !app_length. cbn [length].
    unfold at_. cbn [nth]. rewrite <- L.
    replace (Nat.ltb (Datatypes.S (length u + (length w + 2))) (length w + 2)) with false
      by (symmetry; apply Nat.ltb_ge; lia).
    replace (Nat.ltb (length w + 2) (Datatypes.S (length u + (length w + 2)))) with true
      by (symmetry; apply Nat.ltb_lt; lia).
    unfold index. cbn [fst snd tl].
    set (x0 := if known_one d then Zero else Loop k).
    assert (H0 : ival e x0 = z).
    { apply ival_ins; [|exact Hz]. specialize (He 0). rewrite Nat.add_0_r in He. apply He.
      cbn; lia. }
    destruct (IH w w' n m m' p (pa ++ [x0]) pb (Datatypes.S k) e x y Ew Hx Hy)
      as [xa [xb [E [Ha Hb]]]].
    { intros j Hj. specialize (He (Datatypes.S j)). cbn [nth length app] in He.
      rewrite <- He by lia. f_equal. lia. }
    exists (x0 :: xa), xb. rewrite app_length in E. rewrite E.
    rewrite <- !app_assoc. cbn [app map]. rewrite Ha, Hb, H0. auto.
Qed.

Lemma unroll_right : forall u w w' n m m' p pa pb k e x y,
  map fst w = map fst w' ->
  in_shape (map fst u) x -> in_shape (map fst w) y ->
  (forall j, j < length (u ++ w) -> e (k + j) = nth j (x ++ y) 0) ->
  exists xa xb,
    mm_unroll (length (u ++ w)) (pa, w ++ [n; m]) (pb, u ++ w' ++ [m'; p]) k =
      ((pa ++ xa, [n; m]), (pb ++ xb, [m'; p])) /\
    map (ival e) xa = y /\ map (ival e) xb = x ++ y.
Proof.
  intro u. induction u as [|d u IH]; intros w w' n m m' p pa pb k e x y Ew Hx Hy He.
  - destruct x; [|contradiction]. apply unroll_both; assumption.
  - destruct x as [|z x]; [contradiction|]. cbn [map in_shape] in Hx. destruct Hx as [Hz Hx].
    assert (L : length w = length w').
    { apply (f_equal (@length nat)) in Ew. rewrite !map_length in Ew. exact Ew. }
    pose proof (mm_shape_right (d :: u) w w' n m m' p L) as Sh.
    cbn [app length mm_unroll]. unfold mm_insert. cbn [fst snd].
    cbn [app] in Sh. rewrite Sh. cbn [length]. rewrite !app_length. cbn [length].
    unfold at_. cbn [nth]. rewrite <- L.
    replace (Nat.ltb (Datatypes.S (length u + (length w + 2))) (length w + 2)) with false
      by (symmetry; apply Nat.ltb_ge; lia).
    replace (Nat.ltb (length w + 2) (Datatypes.S (length u + (length w + 2)))) with true
      by (symmetry; apply Nat.ltb_lt; lia).
    unfold index. cbn [fst snd tl].
    set (x0 := if known_one d then Zero else Loop k).
    assert (H0 : ival e x0 = z).
    { apply ival_ins; [|exact Hz]. specialize (He 0). rewrite Nat.add_0_r in He. apply He.
      cbn; lia. }
    destruct (IH w w' n m m' p pa (pb ++ [x0]) (Datatypes.S k) e x y Ew Hx Hy)
      as [xa [xb [E [Ha Hb]]]].
    { intros j Hj. specialize (He (Datatypes.S j)). cbn [nth length app] in He.
      rewrite <- He by lia. f_equal. lia. }
    exists xa, (x0 :: xb). rewrite app_length in E. rewrite E.
    rewrite <- !app_assoc. cbn [app map]. rewrite Ha, Hb, H0. auto.
Qed.

(** ** The leaves *)

Lemma sets_weak : forall V (P Q : list nat -> Prop) m m',
  sets V P m m' -> (forall o, Q o -> P o) -> sets V Q m m'.
Proof.
  intros V P Q m m' [H1 [H2 H3]] H. split; [exact H1|]. split; [|exact H3].
  intros o Ho. apply H2, H, Ho.
Qed.

Lemma c_sets : forall V m0 i pa pb Sa Sb js (Q : list nat -> Prop) m,
  c_jobs (fun t => Out (i ++ t)) pa pb Sa Sb = Some js ->
  inputs m0 m ->
  (forall j, In j js -> exists o, target j = Out o /\
            dotv m0 (len j) (left_ j) (right_ j) = V o) ->
  (forall o, Q o -> exists j, In j js /\ target j = Out o) ->
  exists m', c_leaf (fun t => Out (i ++ t)) pa pb Sa Sb m = Some m' /\ sets V Q m m'.
Proof.
  intros V m0 i pa pb Sa Sb js Q m E Hm HV HQ. unfold c_leaf. rewrite E.
  eexists. split; [reflexivity|]. eapply sets_weak; [|exact HQ].
  apply (jobs_sets V m0); [exact Hm|]. apply Forall_forall. exact HV.
Qed.

Lemma in_two : forall (A : Type) (f : nat -> nat -> A) n p x,
  In x (flat_map (fun i => map (fun k => f i k) (seq 0 p)) (seq 0 n)) <->
  exists i k, i < n /\ k < p /\ x = f i k.
Proof.
  intros A f n p x. rewrite in_flat_map. split.
  - intros [i [Hi Hx]]. apply in_map_iff in Hx. destruct Hx as [k [<- Hk]].
    apply in_seq in Hi. apply in_seq in Hk. exists i, k. repeat split; lia.
  - intros [i [k [Hi [Hk ->]]]]. exists i. split; [apply in_seq; lia|].
    apply (in_map (fun k => f i k)). apply in_seq. lia.
Qed.

Lemma in_one : forall (A : Type) (f : nat -> A) n x,
  In x (map f (seq 0 n)) <-> exists i, i < n /\ x = f i.
Proof.
  intros A f n x. rewrite in_map_iff. split.
  - intros [i [<- Hi]]. apply in_seq in Hi. exists i. split; [lia|reflexivity].
  - intros [i [Hi ->]]. exists i. split; [reflexivity|]. apply in_seq. lia.
Qed.

Lemma c_mat : forall V m0 i pa pb n k p m, inputs m0 m ->
  (forall r c, r < n -> c < p ->
     dotv m0 k (fun j => pa ++ [r; j]) (fun j => pb ++ [j; c]) = V (i ++ [r; c])) ->
  exists m', c_leaf (fun t => Out (i ++ t)) pa pb [n; k] [k; p] m = Some m' /\
    sets V (fun o => exists r c, r < n /\ c < p /\ o = i ++ [r; c]) m m'.
Proof.
  intros V m0 i pa pb n k p m Hm HV. eapply c_sets.
  - cbn [c_jobs]. rewrite Nat.eqb_refl. reflexivity.
  - exact Hm.
  - intros j Hj. apply in_two in Hj. destruct Hj as [r [c [Hr [Hc ->]]]].
    exists (i ++ [r; c]). split; [reflexivity|]. cbn [len left_ right_]. auto.
  - intros o [r [c [Hr [Hc ->]]]]. eexists. split; [|]. 
    + apply in_two. exists r, c. repeat split; assumption.
    + reflexivity.
Qed.

Lemma c_matvec : forall V m0 i pa pb n k m, inputs m0 m ->
  (forall r, r < n ->
     dotv m0 k (fun j => pa ++ [r; j]) (fun j => pb ++ [j]) = V (i ++ [r])) ->
  exists m', c_leaf (fun t => Out (i ++ t)) pa pb [n; k] [k] m = Some m' /\
    sets V (fun o => exists r, r < n /\ o = i ++ [r]) m m'.
Proof.
  intros V m0 i pa pb n k m Hm HV. eapply c_sets.
  - cbn [c_jobs]. rewrite Nat.eqb_refl. reflexivity.
  - exact Hm.
  - intros j Hj. apply in_one in Hj. destruct Hj as [r [Hr ->]].
    exists (i ++ [r]). split; [reflexivity|]. cbn [len left_ right_]. auto.
  - intros o [r [Hr ->]]. eexists. split; [|].
    + apply in_one. exists r. split; [assumption | reflexivity].
    + reflexivity.
Qed.

Lemma c_vecmat : forall V m0 i pa pb k p m, inputs m0 m ->
  (forall c, c < p ->
     dotv m0 k (fun j => pa ++ [j]) (fun j => pb ++ [j; c]) = V (i ++ [c])) ->
  exists m', c_leaf (fun t => Out (i ++ t)) pa pb [k] [k; p] m = Some m' /\
    sets V (fun o => exists c, c < p /\ o = i ++ [c]) m m'.
Proof.
  intros V m0 i pa pb k p m Hm HV. eapply c_sets.
  - cbn [c_jobs]. rewrite Nat.eqb_refl. reflexivity.
  - exact Hm.
  - intros j Hj. apply in_one in Hj. destruct Hj as [r [Hr ->]].
    exists (i ++ [r]). split; [reflexivity|]. cbn [len left_ right_]. auto.
  - intros o [r [Hr ->]]. eexists. split; [|].
    + apply in_one. exists r. split; [assumption | reflexivity].
    + reflexivity.
Qed.

Lemma c_vec : forall V m0 i pa pb k m, inputs m0 m ->
  dotv m0 k (fun j => pa ++ [j]) (fun j => pb ++ [j]) = V (i ++ []) ->
  exists m', c_leaf (fun t => Out (i ++ t)) pa pb [k] [k] m = Some m' /\
    sets V (fun o => o = i ++ []) m m'.
Proof.
  intros V m0 i pa pb k m Hm HV. eapply c_sets.
  - reflexivity.
  - exact Hm.
  - intros j [<- | []]. exists (i ++ []). split; [reflexivity|]. exact HV.
  - intros o ->. eexists. split; [left; reflexivity | reflexivity].
Qed.

(** Fortran. *)
Lemma fsum_dotv : forall m0 m k (f g : nat -> list nat) h, inputs m0 m ->
  (forall j, h j = (m (In1 (f j)) * m (In2 (g j)))%Z) ->
  fsum k h = dotv m0 k f g.
Proof.
  intros m0 m k f g h Hm Hh. rewrite <- (dotv_inputs m0 m) by exact Hm. unfold fsum, dotv.
  f_equal. apply (map_ext h (fun j => (m (In1 (f j)) * m (In2 (g j)))%Z)). exact Hh.
Qed.

Lemma f_mat : forall V m0 i pa pb n k p o m, inputs m0 m -> o <> ON ->
  (forall r c, r < n -> c < p ->
     dotv m0 k (fun j => pa ++ [r; j]) (fun j => pb ++ [j; c]) = V (i ++ [r; c])) ->
  exists m', f_leaf (fun t => Out (i ++ t)) pa pb [n; k] [k; p] o o o m = Some m' /\
    sets V (fun o => exists r c, r < n /\ c < p /\ o = i ++ [r; c]) m m'.
Proof.
  intros V m0 i pa pb n k p o m Hm Ho HV. unfold f_leaf, f_arg, f_print.
  destruct o; [| |congruence]; cbn [is_f]; unfold fmatmul; rewrite Nat.eqb_refl;
    unfold f_assign; cbn [is_f]; rewrite !Nat.eqb_refl; cbn [andb]; eexists;
    (split; [reflexivity|]); (eapply sets_weak; [apply writes_sets|]).
  - apply Forall_forall. intros w Hw. apply (in_two _ (fun i k => ([i; k], _)) n p) in Hw.
    destruct Hw as [r [c [Hr [Hc ->]]]]. cbn [fst snd]. rewrite <- HV by assumption.
    apply (fsum_dotv m0 m); [exact Hm|]. intro j. apply Z.mul_comm.
  - intros o [r [c [Hr [Hc ->]]]]. eexists. split; [|].
    + apply (in_two _ (fun i k => ([i; k], _)) n p). exists r, c.
      split; [exact Hr|]. split; [exact Hc|]. reflexivity.
    + reflexivity.
  - apply Forall_forall. intros w Hw. apply (in_two _ (fun i k => ([i; k], _)) n p) in Hw.
    destruct Hw as [r [c [Hr [Hc ->]]]]. cbn [fst snd]. rewrite <- HV by assumption.
    apply (fsum_dotv m0 m); [exact Hm|]. intro j. reflexivity.
  - intros o [r [c [Hr [Hc ->]]]]. eexists. split; [|].
    + apply (in_two _ (fun i k => ([i; k], _)) n p). exists r, c.
      split; [exact Hr|]. split; [exact Hc|]. reflexivity.
    + reflexivity.
Qed.

Lemma f_matvec : forall V m0 i pa pb n k oa oc m, inputs m0 m -> oa <> ON ->
  (forall r, r < n ->
     dotv m0 k (fun j => pa ++ [r; j]) (fun j => pb ++ [j]) = V (i ++ [r])) ->
  exists m', f_leaf (fun t => Out (i ++ t)) pa pb [n; k] [k] oa ON oc m = Some m' /\
    sets V (fun o => exists r, r < n /\ o = i ++ [r]) m m'.
Proof.
  intros V m0 i pa pb n k oa oc m Hm Ho HV. unfold f_leaf, f_arg, f_print.
  destruct oa; [| |congruence]; cbn [is_f]; unfold fmatmul; rewrite Nat.eqb_refl;
    unfold f_assign; rewrite !Nat.eqb_refl; eexists;
    (split; [reflexivity|]); (eapply sets_weak; [apply writes_sets|]).
  - apply Forall_forall. intros w Hw. apply in_one in Hw.
    destruct Hw as [r [Hr ->]]. cbn [fst snd]. rewrite <- HV by assumption.
    apply (fsum_dotv m0 m); [exact Hm|]. intro j. apply Z.mul_comm.
  - intros o [r [Hr ->]]. eexists. split; [|].
    + apply in_one. exists r. split; [exact Hr|]. reflexivity.
    + reflexivity.
  - apply Forall_forall. intros w Hw. apply in_one in Hw.
    destruct Hw as [r [Hr ->]]. cbn [fst snd]. rewrite <- HV by assumption.
    apply (fsum_dotv m0 m); [exact Hm|]. intro j. reflexivity.
  - intros o [r [Hr ->]]. eexists. split; [|].
    + apply in_one. exists r. split; [exact Hr|]. reflexivity.
    + reflexivity.
Qed.

Lemma f_vecmat : forall V m0 i pa pb k p oc m, inputs m0 m ->
  (forall c, c < p ->
     dotv m0 k (fun j => pa ++ [j]) (fun j => pb ++ [j; c]) = V (i ++ [c])) ->
  exists m', f_leaf (fun t => Out (i ++ t)) pa pb [k] [k; p] ON OC oc m = Some m' /\
    sets V (fun o => exists c, c < p /\ o = i ++ [c]) m m'.
Proof.
  intros V m0 i pa pb k p oc m Hm HV. unfold f_leaf, f_arg, f_print.
  cbn [is_f]. unfold fmatmul. rewrite Nat.eqb_refl.
  unfold f_assign. rewrite !Nat.eqb_refl. eexists.
  split; [reflexivity|]. eapply sets_weak; [apply writes_sets|].
  - apply Forall_forall. intros w Hw. apply in_one in Hw.
    destruct Hw as [r [Hr ->]]. cbn [fst snd]. rewrite <- HV by assumption.
    apply (fsum_dotv m0 m); [exact Hm|]. intro j. apply Z.mul_comm.
  - intros o [r [Hr ->]]. eexists. split; [|].
    + apply in_one. exists r. split; [exact Hr|]. reflexivity.
    + reflexivity.
Qed.

Lemma f_vec : forall V m0 i pa pb k oa ob oc m, inputs m0 m ->
  dotv m0 k (fun j => pa ++ [j]) (fun j => pb ++ [j]) = V (i ++ []) ->
  exists m', f_leaf (fun t => Out (i ++ t)) pa pb [k] [k] oa ob oc m = Some m' /\
    sets V (fun o => o = i ++ []) m m'.
Proof.
  intros V m0 i pa pb k oa ob oc m Hm HV. unfold f_leaf, f_arg. rewrite Nat.eqb_refl.
  eexists. split; [reflexivity|]. eapply sets_weak; [apply (writes_sets V (app i))|].
  - constructor; [|constructor]. cbn [fst snd]. rewrite <- HV.
    apply (fsum_dotv m0 m); [exact Hm|]. intro j. reflexivity.
  - intros o ->. eexists. split; [left; reflexivity | reflexivity].
Qed.

(** ** The statement *)

(** What the element [o] of the result should be. *)
Definition want (m0 : mem) (Sa Sb : list nat) (B : nat) (o : list nat) : Z :=
  np_element m0 Sa Sb (firstn B o) (nth B o 0)
    (if Nat.eqb (length Sa) 1 then nth B o 0 else nth (B + 1) o 0).

Lemma nth_front : forall (i : list nat) x l, nth (length i) (i ++ x :: l) 0 = x.
Proof. intros i x l. rewrite app_nth2, Nat.sub_diag by lia. reflexivity. Qed.

Lemma nth_front1 : forall (i : list nat) x y, nth (length i + 1) (i ++ [x; y]) 0 = y.
Proof.
  intros i x y. rewrite app_nth2 by lia.
  replace (length i + 1 - length i) with 1 by lia. reflexivity.
Qed.

Lemma firstn_front : forall (i l : list nat), firstn (length i) (i ++ l) = i.
Proof.
  intros i l. rewrite <- (Nat.add_0_r (length i)), firstn_app_2. cbn. apply app_nil_r.
Qed.

Lemma want_out : forall m0 Sa Sb i r c,
  want m0 Sa Sb (length i) (out_index Sa Sb i r c) = np_element m0 Sa Sb i r c.
Proof.
  intros m0 Sa Sb i r c. unfold want, out_index, np_element, a_index, b_index.
  rewrite firstn_front. f_equal.
  destruct (Nat.eqb (length Sa) 1) eqn:Ea, (Nat.eqb (length Sb) 1) eqn:Eb; cbn [app].
  - reflexivity.
  - rewrite !nth_front. reflexivity.
  - rewrite !nth_front. reflexivity.
  - rewrite nth_front, nth_front1. reflexivity.
Qed.

Definition correct (m0 : mem) (Sa Sb : list nat) (m' : mem) : Prop :=
  (forall i, m' (In1 i) = m0 (In1 i)) /\ (forall i, m' (In2 i) = m0 (In2 i)) /\
  exists B, np_batch (batch Sa) (batch Sb) = Some B /\
  forall i r c, in_shape B i -> r < rows Sa -> c < cols Sb ->
    m' (Out (out_index Sa Sb i r c)) = np_element m0 Sa Sb i r c.

Lemma correct_sets : forall m0 Sa Sb B m',
  np_batch (batch Sa) (batch Sb) = Some B ->
  sets (want m0 Sa Sb (length B))
    (fun o => exists i r c, in_shape B i /\ r < rows Sa /\ c < cols Sb /\
                            o = out_index Sa Sb i r c) m0 m' ->
  correct m0 Sa Sb m'.
Proof.
  intros m0 Sa Sb B m' EB [[H1 H1'] [H2 _]]. split; [exact H1|]. split; [exact H1'|].
  exists B. split; [exact EB|]. intros i r c Hi Hr Hc.
  rewrite H2.
  - rewrite <- (in_shape_length _ _ Hi). apply want_out.
  - exists i, r, c. auto.
Qed.

(** A list with at least two elements. *)
Lemma split_two : forall (A : Type) (S : list A), length S > 1 ->
  exists u x y, S = u ++ [x; y].
Proof.
  intros A S H. destruct (rev S) as [|y [|x u]] eqn:E.
  - apply (f_equal (@rev A)) in E. rewrite rev_involutive in E. subst S. cbn in H. lia.
  - apply (f_equal (@rev A)) in E. rewrite rev_involutive in E. subst S. cbn in H. lia.
  - exists (rev u), x, y. apply (f_equal (@rev A)) in E. rewrite rev_involutive in E.
    rewrite E. cbn [rev]. rewrite <- app_assoc. reflexivity.
Qed.

Lemma split_one : forall (A : Type) (S : list A), length S = 1 -> exists x, S = [x].
Proof. intros A [|x [|y S]] H; try discriminate. exists x. reflexivity. Qed.

Lemma batch_two : forall u x y, batch (u ++ [x; y]) = u.
Proof.
  intros u x y. unfold batch. rewrite app_length. cbn [length].
  replace (length u + 2 - 2) with (length u + 0) by lia.
  rewrite firstn_app_2. cbn. apply app_nil_r.
Qed.

Lemma len_two : forall (u : list nat) x y, Nat.eqb (length (u ++ [x; y])) 1 = false.
Proof. intros u x y. apply Nat.eqb_neq. rewrite app_length. cbn. lia. Qed.

Lemma nth_two : forall (u : list nat) x y,
  nth (length (u ++ [x; y]) - 2) (u ++ [x; y]) 0 = x /\
  nth (length (u ++ [x; y]) - 1) (u ++ [x; y]) 0 = y.
Proof.
  intros u x y. rewrite app_length. cbn [length]. split.
  - replace (length u + 2 - 2) with (length u) by lia. apply nth_front.
  - replace (length u + 2 - 1) with (length u + 1) by lia. apply nth_front1.
Qed.

Lemma rows_two : forall u x y, rows (u ++ [x; y]) = x.
Proof. intros u x y. unfold rows. rewrite len_two. apply nth_two. Qed.
Lemma inner_two : forall u x y, inner (u ++ [x; y]) = y.
Proof. intros u x y. unfold inner. apply nth_two. Qed.
Lemma inner'_two : forall u x y, inner' (u ++ [x; y]) = x.
Proof. intros u x y. unfold inner'. rewrite len_two. apply nth_two. Qed.
Lemma cols_two : forall u x y, cols (u ++ [x; y]) = y.
Proof. intros u x y. unfold cols. rewrite len_two. apply nth_two. Qed.

(** The loops over the stacks, given what each iteration does. *)
Lemma stack_loops : forall m0 Sa Sb B body,
  np_batch (batch Sa) (batch Sb) = Some B ->
  (forall i m, in_shape B i -> inputs m0 m ->
     exists m', body i m = Some m' /\
       sets (want m0 Sa Sb (length B))
         (fun o => exists r c, r < rows Sa /\ c < cols Sb /\ o = out_index Sa Sb i r c) m m') ->
  exists m', each body (indices B) m0 = Some m' /\ correct m0 Sa Sb m'.
Proof.
  intros m0 Sa Sb B body EB HB.
  destruct (each_sets (want m0 Sa Sb (length B)) m0 body
    (fun i o => exists r c, r < rows Sa /\ c < cols Sb /\ o = out_index Sa Sb i r c)
    (indices B)) with (m := m0) as [m' [E H]].
  - intros i m Hi Hm. apply HB; [apply in_indices; exact Hi | exact Hm].
  - apply inputs_refl.
  - exists m'. split; [exact E|]. apply (correct_sets _ _ _ B); [exact EB|].
    eapply sets_weak; [exact H|]. intros o [i [r [c [Hi [Hr [Hc Ho]]]]]].
    exists i. split; [apply in_indices; exact Hi|]. exists r, c. auto.
Qed.

Lemma element_mat : forall m0 ua ub n k p i r c,
  np_element m0 (ua ++ [n; k]) (ub ++ [k; p]) i r c =
  dotv m0 k (fun j => pick ua i ++ [r; j]) (fun j => pick ub i ++ [j; c]).
Proof.
  intros m0 ua ub n k p i r c. unfold np_element, dotv, a_index, b_index.
  rewrite !len_two, !batch_two, inner_two. reflexivity.
Qed.

Lemma out_two : forall ua ub n k p i r c,
  out_index (ua ++ [n; k]) (ub ++ [k; p]) i r c = i ++ [r; c].
Proof. intros. unfold out_index. rewrite !len_two. reflexivity. Qed.

(** One iteration for two stacks. *)
Lemma leaf_stacks : forall l m0 ua ub n k p o B i m,
  in_shape B i -> inputs m0 m -> (l = F -> o <> ON) ->
  forall oa ob oc, (l = F -> oa = o /\ ob = o /\ oc = o) ->
  exists m',
    match l with
    | C => c_leaf (fun t => Out (i ++ t)) (pick ua i) (pick ub i) [n; k] [k; p] m
    | F => f_leaf (fun t => Out (i ++ t)) (pick ua i) (pick ub i) [n; k] [k; p] oa ob oc m
    end = Some m' /\
    sets (want m0 (ua ++ [n; k]) (ub ++ [k; p]) (length B))
      (fun x => exists r c, r < rows (ua ++ [n; k]) /\ c < cols (ub ++ [k; p]) /\
                x = out_index (ua ++ [n; k]) (ub ++ [k; p]) i r c) m m'.
Proof.
  intros l m0 ua ub n k p o B i m Hi Hm Ho oa ob oc Hoo.
  assert (HV : forall r c, r < n -> c < p ->
    dotv m0 k (fun j => pick ua i ++ [r; j]) (fun j => pick ub i ++ [j; c]) =
    want m0 (ua ++ [n; k]) (ub ++ [k; p]) (length B) (i ++ [r; c])).
  { intros r c _ _. rewrite <- (in_shape_length _ _ Hi), <- (out_two ua ub n k p i r c), want_out.
    symmetry. apply element_mat. }
  assert (HQ : forall x, (exists r c, r < rows (ua ++ [n; k]) /\ c < cols (ub ++ [k; p]) /\
                x = out_index (ua ++ [n; k]) (ub ++ [k; p]) i r c) ->
    exists r c, r < n /\ c < p /\ x = i ++ [r; c]).
  { intros x [r [c [Hr [Hc Hx]]]]. rewrite rows_two in Hr. rewrite cols_two in Hc.
    rewrite out_two in Hx. exists r, c. auto. }
  destruct l.
  - destruct (c_mat _ m0 i (pick ua i) (pick ub i) n k p m Hm HV) as [m' [E H]].
    exists m'. split; [exact E|]. eapply sets_weak; [exact H | exact HQ].
  - destruct (Hoo eq_refl) as [-> [-> ->]].
    destruct (f_mat _ m0 i (pick ua i) (pick ub i) n k p o m Hm (Ho eq_refl) HV) as [m' [E H]].
    exists m'. split; [exact E|]. eapply sets_weak; [exact H | exact HQ].
Qed.

(** The orders of stacks. *)
Lemma stack_orders : forall l Sa Sb oa ob oc,
  length Sa > 1 -> length Sb > 1 -> has_order Sa oa ->
  orders l Sa Sb oa ob oc ->
  exists o, (l = F -> o <> ON) /\ (l = F -> oa = o /\ ob = o /\ oc = o).
Proof.
  intros l Sa Sb oa ob oc Ha Hb Ho H. exists oa. split.
  - intros _ E. apply Ho in E. lia.
  - intro El. destruct (H El) as [_ H2]. destruct (H2 Ha Hb) as [-> ->]. auto.
Qed.

Lemma map_two : forall (S : list dim) u x y, map fst S = u ++ [x; y] ->
  exists U d e, S = U ++ [d; e] /\ map fst U = u /\ fst d = x /\ fst e = y.
Proof.
  intros S u x y E.
  destruct (split_two _ S) as [U [d [e ->]]].
  { apply (f_equal (@length nat)) in E. rewrite map_length, app_length in E. cbn in E. lia. }
  rewrite map_app in E. cbn [map] in E.
  change [fst d; fst e] with ([fst d] ++ [fst e]) in E.
  change [x; y] with ([x] ++ [y]) in E. rewrite !app_assoc in E.
  apply app_inj_tail in E. destruct E as [E Ee]. apply app_inj_tail in E. destruct E as [E Ed].
  exists U, d, e. auto.
Qed.

Lemma map_suffix : forall (S : list dim) u w, map fst S = u ++ w ->
  exists U W, S = U ++ W /\ map fst U = u /\ map fst W = w.
Proof.
  intros S u. revert S. induction u as [|x u IH]; intros S w E.
  - exists [], S. auto.
  - destruct S as [|d S]; [discriminate|]. cbn in E. injection E as Ed E.
    destruct (IH S w E) as [U [W [-> [HU HW]]]]. exists (d :: U), W. cbn. rewrite HU, Ed. auto.
Qed.

Lemma env_app : forall i j, env i (0 + j) = nth j i 0.
Proof. reflexivity. Qed.

(** The first argument has more dimensions. *)
Lemma stacks_left : forall l m0 u w w' dn dm dm' dp oa ob oc,
  map fst w = map fst w' -> fst dm = fst dm' ->
  has_order (map fst (u ++ w ++ [dn; dm])) oa ->
  orders l (map fst (u ++ w ++ [dn; dm])) (map fst (w' ++ [dm'; dp])) oa ob oc ->
  exists m', statement l (u ++ w ++ [dn; dm]) (w' ++ [dm'; dp]) oa ob oc Out m0 = Some m' /\
    correct m0 (map fst (u ++ w ++ [dn; dm])) (map fst (w' ++ [dm'; dp])) m'.
Proof.
  intros l m0 u w w' dn dm dm' dp oa ob oc Ew Em Ho Hor.
  assert (L : length w = length w').
  { apply (f_equal (@length nat)) in Ew. rewrite !map_length in Ew. exact Ew. }
  destruct (stack_orders l (map fst (u ++ w ++ [dn; dm])) (map fst (w' ++ [dm'; dp])) oa ob oc)
    as [o [Ho1 Ho2]]; [| | exact Ho | exact Hor |].
  { rewrite !map_app, !app_length. cbn. lia. }
  { rewrite !map_app, !app_length. cbn. lia. }
  assert (Sh : map fst (firstn (length (u ++ w)) (mm_shape (u ++ w ++ [dn; dm]) (w' ++ [dm'; dp])))
               = map fst (u ++ w) /\
               length (mm_shape (u ++ w ++ [dn; dm]) (w' ++ [dm'; dp])) - 2 = length (u ++ w)).
  { destruct u as [|d u].
    - pose proof (mm_shape_right [] w w' dn dm dm' dp L) as E. cbn [app] in E |- *. rewrite E.
      rewrite L, <- (Nat.add_0_r (length w')), firstn_app_2. cbn [firstn]. rewrite app_nil_r.
      split; [symmetry; exact Ew|]. rewrite app_length. cbn. lia.
    - cbn [app]. rewrite (mm_shape_left d u w w' dn dm dm' dp L).
      cbn [length firstn map]. rewrite app_assoc.
      rewrite <- (Nat.add_0_r (length (u ++ w))) at 1. rewrite firstn_app_2. cbn [firstn].
      rewrite app_nil_r. split; [reflexivity|]. rewrite app_length. cbn. lia. }
  destruct Sh as [Sh1 Sh2]. unfold statement. rewrite Sh2, Sh1.
  rewrite !map_app. cbn [map]. rewrite <- Em, <- Ew.
  set (U := map fst u). set (W := map fst w).
  rewrite (app_assoc U W).
  assert (EB : np_batch (batch ((U ++ W) ++ [fst dn; fst dm])) (batch (W ++ [fst dm; fst dp]))
               = Some (U ++ W)).
  { rewrite !batch_two. apply np_batch_suffix. }
  destruct (mm_unroll (length (u ++ w)) ([], u ++ w ++ [dn; dm]) ([], w' ++ [dm'; dp]) 0)
    as [a b] eqn:Eu.
  apply stack_loops with (B := U ++ W); [exact EB|].
  intros i m Hi Hm. apply in_shape_app in Hi as Hi'. destruct Hi' as [x [y [-> [Hx Hy]]]].
  destruct (unroll_left u w w' dn dm dm' dp [] [] 0 (env (x ++ y)) x y Ew Hx Hy)
    as [xa [xb [E [Ha Hb]]]].
  { intros j _. apply env_app. }
  rewrite Eu in E. injection E as -> ->. cbn [fst snd app map].
  rewrite Ha, Hb, <- Em.
  pose proof (leaf_stacks l m0 (U ++ W) W (fst dn) (fst dm) (fst dp) o (U ++ W) (x ++ y) m
                Hi Hm Ho1 oa ob oc Ho2) as H.
  rewrite (pick_in (U ++ W) (x ++ y) Hi), (pick_suffix W x y Hy) in H. exact H.
Qed.

(** The second argument has more dimensions. *)
Lemma stacks_right : forall l m0 u w w' dn dm dm' dp oa ob oc,
  map fst w = map fst w' -> fst dm = fst dm' ->
  has_order (map fst (w ++ [dn; dm])) oa ->
  orders l (map fst (w ++ [dn; dm])) (map fst (u ++ w' ++ [dm'; dp])) oa ob oc ->
  exists m', statement l (w ++ [dn; dm]) (u ++ w' ++ [dm'; dp]) oa ob oc Out m0 = Some m' /\
    correct m0 (map fst (w ++ [dn; dm])) (map fst (u ++ w' ++ [dm'; dp])) m'.
Proof.
  intros l m0 u w w' dn dm dm' dp oa ob oc Ew Em Ho Hor.
  assert (L : length w = length w').
  { apply (f_equal (@length nat)) in Ew. rewrite !map_length in Ew. exact Ew. }
  destruct (stack_orders l (map fst (w ++ [dn; dm])) (map fst (u ++ w' ++ [dm'; dp])) oa ob oc)
    as [o [Ho1 Ho2]]; [| | exact Ho | exact Hor |].
  { rewrite !map_app, !app_length. cbn. lia. }
  { rewrite !map_app, !app_length. cbn. lia. }
  pose proof (mm_shape_right u w w' dn dm dm' dp L) as E.
  assert (Sh : map fst (firstn (length (u ++ w)) (mm_shape (w ++ [dn; dm]) (u ++ w' ++ [dm'; dp])))
               = map fst (u ++ w) /\
               length (mm_shape (w ++ [dn; dm]) (u ++ w' ++ [dm'; dp])) - 2 = length (u ++ w)).
  { rewrite E, app_assoc. replace (length (u ++ w)) with (length (u ++ w') + 0)
      by (rewrite !app_length; lia).
    rewrite firstn_app_2. cbn [firstn]. rewrite app_nil_r, !map_app, Ew.
    split; [reflexivity|]. rewrite app_length. cbn. lia. }
  clear E.
  destruct Sh as [Sh1 Sh2]. unfold statement. rewrite Sh2, Sh1.
  rewrite !map_app. cbn [map]. rewrite <- Em, <- Ew.
  set (U := map fst u). set (W := map fst w).
  rewrite (app_assoc U W).
  assert (EB : np_batch (batch (W ++ [fst dn; fst dm])) (batch ((U ++ W) ++ [fst dm; fst dp]))
               = Some (U ++ W)).
  { rewrite !batch_two. apply np_batch_suffix. }
  destruct (mm_unroll (length (u ++ w)) ([], w ++ [dn; dm]) ([], u ++ w' ++ [dm'; dp]) 0)
    as [a b] eqn:Eu.
  apply stack_loops with (B := U ++ W); [exact EB|].
  intros i m Hi Hm. apply in_shape_app in Hi as Hi'. destruct Hi' as [x [y [-> [Hx Hy]]]].
  destruct (unroll_right u w w' dn dm dm' dp [] [] 0 (env (x ++ y)) x y Ew Hx Hy)
    as [xa [xb [E [Ha Hb]]]].
  { intros j _. apply env_app. }
  rewrite Eu in E. injection E as -> ->. cbn [fst snd app map].
  rewrite Ha, Hb, <- Em.
  pose proof (leaf_stacks l m0 W (U ++ W) (fst dn) (fst dm) (fst dp) o (U ++ W) (x ++ y) m
                Hi Hm Ho1 oa ob oc Ho2) as H.
  rewrite (pick_in (U ++ W) (x ++ y) Hi), (pick_suffix W x y Hy) in H. exact H.
Qed.

Lemma statement_ok : forall l Sa Sb oa ob oc m0,
  stacks (map fst Sa) (map fst Sb) ->
  has_order (map fst Sa) oa -> has_order (map fst Sb) ob ->
  orders l (map fst Sa) (map fst Sb) oa ob oc ->
  exists m', statement l Sa Sb oa ob oc Out m0 = Some m' /\
    correct m0 (map fst Sa) (map fst Sb) m'.
Proof.
  intros l Sa Sb oa ob oc m0 [Na [Nb [Ein [Hab [Hba Hsuf]]]]] Ha Hb Hor.
  rewrite !map_length in *.
  destruct (Nat.eq_dec (length Sa) 1) as [La | La], (Nat.eq_dec (length Sb) 1) as [Lb | Lb].
  - destruct (split_one _ Sa La) as [d ->]. destruct (split_one _ Sb Lb) as [d' ->].
    cbn in Ein. unfold statement. cbn [mm_shape length Nat.eqb andb firstn map Nat.sub mm_unroll].
    apply stack_loops with (B := []); [reflexivity|]. intros i m Hi Hm.
    destruct i; [|contradiction]. cbn [fst snd map]. rewrite <- Ein.
    assert (HQ : forall x, (exists r c, r < rows [fst d] /\ c < cols [fst d] /\
              x = out_index [fst d] [fst d] [] r c) -> x = [] ++ []).
    { intros x [r [c [_ [_ ->]]]]. reflexivity. }
    destruct l.
    + destruct (c_vec (want m0 [fst d] [fst d] 0) m0 [] [] [] (fst d) m Hm) as [m' [E H]].
      { reflexivity. }
      exists m'. split; [exact E|]. eapply sets_weak; [exact H | exact HQ].
    + destruct (f_vec (want m0 [fst d] [fst d] 0) m0 [] [] [] (fst d) oa ob oc m Hm) as [m' [E H]].
      { reflexivity. }
      exists m'. split; [exact E|]. eapply sets_weak; [exact H | exact HQ].
  - destruct (split_one _ Sa La) as [d ->]. specialize (Hab La).
    destruct Sb as [|d1 [|d2 [|d3 Sb]]]; cbn in Nb, Lb, Hab; try lia. clear Nb Lb Hab.
    cbn in Ein. unfold statement. cbn [mm_shape length Nat.eqb andb orb firstn map Nat.sub mm_unroll].
    apply stack_loops with (B := []); [reflexivity|]. intros i m Hi Hm.
    destruct i; [|contradiction]. cbn [fst snd map]. rewrite <- Ein.
    assert (HQ : forall x, (exists r c, r < rows [fst d] /\ c < cols [fst d; fst d2] /\
              x = out_index [fst d] [fst d; fst d2] [] r c) ->
              exists c, c < fst d2 /\ x = [] ++ [c]).
    { intros x [r [c [_ [Hc ->]]]]. exists c. split; [exact Hc | reflexivity]. }
    assert (HV : forall c, c < fst d2 ->
       dotv m0 (fst d) (fun j => [] ++ [j]) (fun j => [] ++ [j; c]) =
       want m0 [fst d] [fst d; fst d2] 0 ([] ++ [c])) by reflexivity.
    destruct l.
    + destruct (c_vecmat _ m0 [] [] [] (fst d) (fst d2) m Hm HV) as [m' [E H]].
      exists m'. split; [exact E|]. eapply sets_weak; [exact H | exact HQ].
    + destruct (Hor eq_refl) as [Hob _]. specialize (Hob eq_refl).
      assert (ob = OC) as ->.
      { destruct ob; [reflexivity | congruence |]. exfalso. destruct Hb as [Hb _].
        specialize (Hb eq_refl). discriminate. }
      assert (oa = ON) as -> by (apply Ha; reflexivity).
      destruct (f_vecmat _ m0 [] [] [] (fst d) (fst d2) oc m Hm HV) as [m' [E H]].
      exists m'. split; [exact E|]. eapply sets_weak; [exact H | exact HQ].
  - destruct (split_one _ Sb Lb) as [d ->]. specialize (Hba Lb).
    destruct Sa as [|d1 [|d2 [|d3 Sa]]]; cbn in Na, La, Hba; try lia. clear Na La Hba.
    cbn in Ein. unfold statement. cbn [mm_shape length Nat.eqb andb orb firstn map Nat.sub mm_unroll].
    apply stack_loops with (B := []); [reflexivity|]. intros i m Hi Hm.
    destruct i; [|contradiction]. cbn [fst snd map]. rewrite <- Ein.
    assert (HQ : forall x, (exists r c, r < rows [fst d1; fst d2] /\ c < cols [fst d2] /\
              x = out_index [fst d1; fst d2] [fst d2] [] r c) ->
              exists r, r < fst d1 /\ x = [] ++ [r]).
    { intros x [r [c [Hr [_ ->]]]]. exists r. split; [exact Hr | reflexivity]. }
    assert (HV : forall r, r < fst d1 ->
       dotv m0 (fst d2) (fun j => [] ++ [r; j]) (fun j => [] ++ [j]) =
       want m0 [fst d1; fst d2] [fst d2] 0 ([] ++ [r])) by reflexivity.
    destruct l.
    + destruct (c_matvec _ m0 [] [] [] (fst d1) (fst d2) m Hm HV) as [m' [E H]].
      exists m'. split; [exact E|]. eapply sets_weak; [exact H | exact HQ].
    + assert (ob = ON) as -> by (apply Hb; reflexivity).
      assert (Noa : oa <> ON).
      { intros ->. destruct Ha as [Ha _]. specialize (Ha eq_refl). discriminate. }
      destruct (f_matvec _ m0 [] [] [] (fst d1) (fst d2) oa oc m Hm Noa HV) as [m' [E H]].
      exists m'. split; [exact E|]. eapply sets_weak; [exact H | exact HQ].
  - destruct (split_two _ Sa) as [ua [dn [dm ->]]]; [lia|].
    destruct (split_two _ Sb) as [ub [dm' [dp ->]]]; [lia|].
    rewrite !map_app in Ein, Hsuf. cbn [map] in Ein, Hsuf.
    rewrite inner_two, inner'_two in Ein. rewrite !batch_two in Hsuf.
    destruct Hsuf as [[u E] | [u E]]; apply map_suffix in E;
      destruct E as [U [W [-> [_ EW]]]]; rewrite <- app_assoc in *.
    + apply stacks_left; auto.
    + apply stacks_right; auto.
Qed.

(** ** The shape *)

Lemma shape_ok : forall Sa Sb,
  stacks (map fst Sa) (map fst Sb) ->
  np_shape (map fst Sa) (map fst Sb) = Some (map fst (mm_shape Sa Sb)).
Proof.
  intros Sa Sb [Na [Nb [Ein [Hab [Hba Hsuf]]]]]. rewrite !map_length in *.
  destruct (Nat.eq_dec (length Sa) 1) as [La | La], (Nat.eq_dec (length Sb) 1) as [Lb | Lb].
  - destruct (split_one _ Sa La) as [d ->]. destruct (split_one _ Sb Lb) as [d' ->]. reflexivity.
  - destruct (split_one _ Sa La) as [d ->]. specialize (Hab La).
    destruct Sb as [|d1 [|d2 [|d3 Sb]]]; cbn in Nb, Lb, Hab; try lia. reflexivity.
  - destruct (split_one _ Sb Lb) as [d ->]. specialize (Hba Lb).
    destruct Sa as [|d1 [|d2 [|d3 Sa]]]; cbn in Na, La, Hba; try lia. reflexivity.
  - destruct (split_two _ Sa) as [ua [dn [dm ->]]]; [lia|].
    destruct (split_two _ Sb) as [ub [dm' [dp ->]]]; [lia|].
    rewrite !map_app in Ein, Hsuf. cbn [map] in Ein, Hsuf.
    rewrite inner_two, inner'_two in Ein. rewrite !batch_two in Hsuf.
    unfold np_shape. rewrite !map_app. cbn [map].
    rewrite !batch_two, rows_two, cols_two.
    assert (Ho : forall B, out_index (map fst ua ++ [fst dn; fst dm])
                             (map fst ub ++ [fst dm'; fst dp]) B (fst dn) (fst dp) =
                           B ++ [fst dn; fst dp]).
    { intro B. unfold out_index. rewrite !len_two. reflexivity. }
    destruct Hsuf as [[u E] | [u E]].
    + rewrite E. rewrite (proj1 (np_batch_suffix u (map fst ub))). cbn [option_map].
      rewrite <- E, Ho. apply map_suffix in E.
      destruct E as [U [W [-> [_ EW]]]]. rewrite <- app_assoc.
      assert (L : length W = length ub).
      { apply (f_equal (@length nat)) in EW. rewrite !map_length in EW. exact EW. }
      destruct U as [|d U].
      * pose proof (mm_shape_right [] W ub dn dm dm' dp L) as Sh. cbn [app] in Sh |- *.
        rewrite Sh, map_app, EW. reflexivity.
      * cbn [app]. rewrite (mm_shape_left d U W ub dn dm dm' dp L), app_assoc.
        cbn [map app]. rewrite !map_app. cbn [map]. reflexivity.
    + rewrite E. rewrite (proj2 (np_batch_suffix u (map fst ua))). cbn [option_map].
      rewrite <- E, Ho. apply map_suffix in E.
      destruct E as [U [W [-> [_ EW]]]]. rewrite <- app_assoc.
      rewrite (mm_shape_right U ua W dn dm dm' dp), app_assoc, !map_app; [reflexivity|].
      apply (f_equal (@length nat)) in EW. rewrite !map_length in EW. symmetry. exact EW.
Qed.
