(* Lemmas for View_Thms.v. *)
From Coq Require Import Bool Arith ZArith Lia List.
From Verif Require Import View_Model View_Spec.
Import ListNotations.
Open Scope Z_scope.
Open Scope list_scope.

Definition steps_of (ps : list part) (dist : list Z) : list Z := map (fun q => p_stride (fst q) * snd q) (combine ps dist).

Lemma col_major_len : forall shape d, length (col_major_from d shape) = length shape.
Proof. induction shape; intros; cbn; auto. Qed.
Lemma row_major_len : forall shape, length (row_major shape) = length shape.
Proof. induction shape; cbn; auto. Qed.
Lemma col_major_scale : forall shape d, col_major_from d shape = map (fun x => d * x) (col_major_from 1 shape).
Proof.
  induction shape as [|n shape IH]; intros d; cbn [col_major_from map]; auto.
  f_equal; [lia|]. rewrite (IH (d * n)), (IH (1 * n)). rewrite map_map. apply map_ext. intros x. lia.
Qed.
Lemma fold_mul_app : forall l x, fold_right Z.mul 1 (l ++ [x]) = fold_right Z.mul 1 l * x.
Proof. induction l; intros x; cbn [app fold_right]; [ring|]. rewrite IHl. ring. Qed.
Lemma fold_mul_rev : forall l, fold_right Z.mul 1 (rev l) = fold_right Z.mul 1 l.
Proof. induction l; cbn; auto. rewrite fold_mul_app, IHl. ring. Qed.
Lemma col_major_app : forall l n d, col_major_from d (l ++ [n]) = col_major_from d l ++ [d * fold_right Z.mul 1 l].
Proof.
  induction l as [|m l IH]; intros n d; cbn [app col_major_from fold_right].
  - rewrite Z.mul_1_r. auto.
  - rewrite IH. cbn. f_equal. f_equal. f_equal. lia.
Qed.
Lemma row_col : forall shape, row_major shape = rev (col_major (rev shape)).
Proof.
  unfold col_major. induction shape as [|n shape IH]; cbn [row_major rev]; auto.
  rewrite col_major_app, rev_app_distr. cbn [rev app]. rewrite IH, fold_mul_rev. f_equal. lia.
Qed.
Lemma row_col_rev : forall shape, row_major (rev shape) = rev (col_major shape).
Proof. intros. rewrite row_col, rev_involutive. auto. Qed.

Lemma combine_rev : forall (A B : Type) (l : list A) (m : list B), length l = length m -> combine (rev l) (rev m) = rev (combine l m).
Proof.
  intros A B. induction l as [|a l IH]; intros [|b m] H; cbn in *; try discriminate; auto.
  rewrite <- IH by lia.
  assert (G : forall (l1 : list A) (m1 : list B), length l1 = length m1 -> combine (l1 ++ [a]) (m1 ++ [b]) = combine l1 m1 ++ [(a, b)]).
  { induction l1; intros [|y m1] E; cbn in *; try discriminate; auto. f_equal. apply IHl1. lia. }
  apply G. rewrite !rev_length. lia.
Qed.
Lemma steps_rev : forall ps dist, length ps = length dist -> steps_of (rev ps) (rev dist) = rev (steps_of ps dist).
Proof. intros. unfold steps_of. rewrite combine_rev by auto. apply map_rev. Qed.

Lemma dot_scale : forall item k l, item * dot k l = dot k (map (fun x => item * x) l).
Proof. intros item. induction k as [|a k IH]; intros [|b l]; cbn; try lia. rewrite <- IH. lia. Qed.

(* ------------------------------ the loop ------------------------------ *)

Lemma f_loop_ok : forall shape strides item d cur,
  0 < item -> 0 < d -> cur = item * d -> match strides with st :: _ => st = cur | [] => True end ->
  length strides = length shape -> Forall (fun n => 0 < n) shape -> nested shape strides ->
  let ps := f_loop cur shape strides in
  map count ps = shape /\ forallb legal ps = true /\ length ps = length shape
  /\ map (fun x => item * x) (steps_of ps (col_major_from d (map p_base ps))) = strides.
Proof.
  induction shape as [|n shape IH]; intros strides item d cur HI HD HC HS HL HP HN.
  - destruct strides; [|discriminate]. cbn. auto.
  - inversion HP as [|n0 l0 P1 P2]; subst n0 l0.
    destruct strides as [|st strides]; [discriminate|]. cbn in HL. injection HL as HL.
    destruct shape as [|n' shape].
    + destruct strides; [|discriminate]. cbn [f_loop map forallb legal count p_ubound p_stride p_base length steps_of col_major_from combine fst snd].
      unfold count, legal; cbn [p_ubound p_stride p_base]. rewrite Z.quot_1_r.
      repeat split.
      * f_equal. lia.
      * rewrite !andb_true_iff. repeat split; try (apply Z.ltb_lt; lia); auto. apply Z.leb_le. lia.
      * f_equal. lia.
    + destruct strides as [|st' strides]; [discriminate|]. cbn [nested] in HN. destruct HN as [DV [RM HN]].
      subst st. assert (CP : 0 < cur) by (subst cur; nia).
      assert (Q : cur * Z.quot st' cur = st').
      { destruct DV as [q E]. rewrite E. rewrite Z.quot_mul by lia. lia. }
      assert (BP : 0 < Z.quot st' cur) by nia.
      set (b := Z.quot st' cur) in *.
      change (f_loop cur (n :: n' :: shape) (cur :: st' :: strides)) with (mk_part b n 1 :: f_loop (cur * b) (n' :: shape) (st' :: strides)).
      specialize (IH (st' :: strides) item (d * b) (cur * b)).
      destruct IH as [C1 [C2 [C4 C3]]]; auto; try nia.
      set (rest := f_loop (cur * b) (n' :: shape) (st' :: strides)) in *. clearbody rest. cbv zeta.
      cbn [map forallb length]. unfold count at 1. unfold legal at 1. cbn [p_ubound p_stride p_base].
      rewrite Z.quot_1_r. rewrite C1, C2, C4. repeat split.
      * f_equal. lia.
      * rewrite !andb_true_iff. repeat split; try (apply Z.ltb_lt; lia); auto. apply Z.leb_le. nia.
      * unfold steps_of in *. cbn [col_major_from combine map fst snd p_stride]. rewrite C3. f_equal. lia.
Qed.

Lemma f_parts_ok : forall item shape strides, 0 < item -> shape <> [] -> length strides = length shape -> Forall (fun n => 0 < n) shape -> fits item shape strides ->
  let ps := f_parts item shape strides in
  map count ps = shape /\ forallb legal ps = true /\ length ps = length shape
  /\ map (fun x => item * x) (steps_of ps (col_major (map p_base ps))) = strides.
Proof.
  intros item shape strides HI HE HL HP HF. destruct shape as [|n shape]; [congruence|].
  destruct strides as [|st strides]; [discriminate|]. cbn in HL. injection HL as HL.
  inversion HP as [|n0 l0 P1 P2]; subst n0 l0. destruct HF as [SP [SD [HF HN]]].
  assert (Q : item * Z.quot st item = st). { destruct SD as [q E]. rewrite E. rewrite Z.quot_mul by lia. lia. }
  assert (BP : 0 < Z.quot st item) by nia.
  assert (CT : Z.quot ((n - 1) * Z.quot st item + 1 - 1) (Z.quot st item) + 1 = n).
  { replace ((n - 1) * Z.quot st item + 1 - 1) with ((n - 1) * Z.quot st item) by lia. rewrite Z.quot_mul by lia. lia. }
  assert (UP : 0 < (n - 1) * Z.quot st item + 1) by nia.
  destruct shape as [|n' shape].
  - destruct strides; [|discriminate]. cbn [f_parts map forallb length]. unfold count, legal, col_major, steps_of. cbn [p_ubound p_stride p_base col_major_from combine map fst snd].
    rewrite CT. repeat split.
    + rewrite !andb_true_iff. repeat split; try (apply Z.ltb_lt; lia); auto. apply Z.leb_le. nia.
    + f_equal. lia.
  - destruct strides as [|st' strides]; [discriminate|]. destruct HF as [D2 RM].
    assert (Q2 : item * Z.quot st' item = st'). { destruct D2 as [q E]. rewrite E. rewrite Z.quot_mul by lia. lia. }
    assert (BP2 : 0 < Z.quot st' item) by nia.
    change (f_parts item (n :: n' :: shape) (st :: st' :: strides)) with (mk_part (Z.quot st' item) ((n - 1) * Z.quot st item + 1) (Z.quot st item) :: f_loop (item * Z.quot st' item) (n' :: shape) (st' :: strides)).
    destruct (f_loop_ok (n' :: shape) (st' :: strides) item (Z.quot st' item) (item * Z.quot st' item)) as [C1 [C2 [C4 C3]]]; auto.
    set (rest := f_loop (item * Z.quot st' item) (n' :: shape) (st' :: strides)) in *. clearbody rest. cbv zeta.
    cbn [map forallb length]. unfold count at 1. unfold legal at 1. unfold col_major, steps_of in *. cbn [p_ubound p_stride p_base col_major_from combine map fst snd].
    rewrite CT, C1, C2, C4. repeat split.
    + rewrite !andb_true_iff. repeat split; try (apply Z.ltb_lt; lia); auto. apply Z.leb_le. nia.
    + replace (1 * Z.quot st' item) with (Z.quot st' item) by lia. rewrite C3. f_equal. lia.
Qed.

Lemma forallb_rev : forall (A : Type) (f : A -> bool) l, forallb f (rev l) = forallb f l.
Proof. intros A f. induction l; cbn; auto. rewrite forallb_app, IHl. cbn. rewrite andb_true_r. apply andb_comm. Qed.

Lemma view_eq : forall l c_order ps, forallb legal ps = true ->
  view l c_order ps = Some (mk_seen (map count ps) (steps_of ps (layout c_order (map p_base ps)))).
Proof.
  intros l c_order ps L. destruct l; cbn [view]; unfold c_view, f_view; rewrite L; auto.
  f_equal. f_equal. unfold steps_of, layout. destruct c_order; auto. rewrite row_col. auto.
Qed.

Lemma regular_view : forall l c_order a, filled a -> regular c_order a -> a_base a = true ->
  exists s, view l c_order (get_parts c_order a) = Some s /\ sees a s.
Proof.
  intros l c_order a [F1 [F2 F3]] [HL HR] B. unfold get_parts. rewrite B. cbn [negb].
  assert (G : forall s, s_shape s = a_shape a -> map (fun x => a_item a * x) (s_steps s) = a_strides a -> sees a s).
  { intros s E1 E2. split; auto. intros k _. unfold seen_address, np_address. rewrite dot_scale, E2. auto. }
  destruct c_order.
  - destruct (f_parts_ok (a_item a) (rev (a_shape a)) (rev (a_strides a))) as [C1 [C2 [C4 C3]]]; auto.
    + intro E. apply F1. rewrite <- (rev_involutive (a_shape a)), E. auto.
    + rewrite !rev_length. auto.
    + apply Forall_rev. auto.
    + set (ps := f_parts (a_item a) (rev (a_shape a)) (rev (a_strides a))) in *.
      eexists. split; [apply view_eq; rewrite forallb_rev; auto|]. apply G; cbn [s_shape s_steps].
      * rewrite map_rev, C1, rev_involutive. auto.
      * unfold layout. rewrite map_rev, row_col_rev. rewrite steps_rev.
        -- rewrite map_rev, C3, rev_involutive. auto.
        -- unfold col_major. rewrite col_major_len, map_length. auto.
  - destruct (f_parts_ok (a_item a) (a_shape a) (a_strides a)) as [C1 [C2 [C4 C3]]]; auto.
    eexists. split; [apply view_eq; auto|]. apply G; cbn [s_shape s_steps]; auto.
Qed.

Lemma owned_view : forall l c_order a, filled a -> gapless (layout c_order) a -> a_base a = false ->
  exists s, view l c_order (get_parts c_order a) = Some s /\ sees a s.
Proof.
  intros l c_order a [F1 [F2 F3]] [HG HL] B. unfold get_parts. rewrite B. cbn [negb].
  set (ps := map (fun n => mk_part n n 1) (a_shape a)).
  assert (LG : forallb legal ps = true).
  { unfold ps. clear - F3. induction (a_shape a) as [|n sh IH]; auto. inversion F3; subst. cbn [map forallb]. rewrite IH by auto. rewrite andb_true_r.
    unfold legal. cbn. rewrite !andb_true_iff. repeat split; try (apply Z.ltb_lt; lia); auto. apply Z.leb_le. lia. }
  assert (BS : map p_base ps = a_shape a) by (unfold ps; rewrite map_map; cbn; apply map_id).
  assert (CT : map count ps = a_shape a).
  { unfold ps. rewrite map_map. rewrite <- (map_id (a_shape a)) at 2. apply map_ext. intros n. unfold count. cbn. rewrite Z.quot_1_r. lia. }
  eexists. split; [apply view_eq; auto|]. rewrite BS, CT. split; auto.
  intros k HK. unfold seen_address, np_address. cbn [s_steps].
  assert (ST : steps_of ps (layout c_order (a_shape a)) = layout c_order (a_shape a)).
  { unfold ps, steps_of. assert (LN : length (layout c_order (a_shape a)) = length (a_shape a)) by (unfold layout; destruct c_order; [apply row_major_len|apply col_major_len]).
    clear - LN. revert LN. generalize (layout c_order (a_shape a)). induction (a_shape a) as [|n sh IH]; intros [|d ds] E; cbn in *; try discriminate; auto.
    f_equal; [destruct d; auto|]. apply IH. lia. }
  rewrite ST. rewrite dot_scale. clear - HG HK HL. revert HG HK HL. generalize (layout c_order (a_shape a)) (a_strides a) (a_item a).
  intros ds st item. revert ds st k. induction (a_shape a) as [|n sh IH]; intros ds st k HG HK HL.
  - inversion HK; subst. auto.
  - destruct st as [|x st]; [discriminate|]. cbn [combine] in HG. inversion HG as [|d q ds' r Q1 Q2]; subst. inversion HK as [|n0 i sh0 k' K1 K2]; subst.
    cbn in HL. cbn [map dot]. rewrite (IH ds' st k') by (auto; lia). cbn in Q1. destruct Q1 as [Q1|Q1].
    + assert (i = 0) by lia. subst i. lia.
    + rewrite Q1. lia.
Qed.

(* ------------------------------ slices ------------------------------ *)

Definition slice_strides (item d : Z) (l : list slice) : list Z :=
  map (fun q => sl_step (fst q) * (item * snd q)) (combine l (col_major_from d (map sl_dim l))).
Lemma slice_strides_len : forall l item d, length (slice_strides item d l) = length l.
Proof. intros. unfold slice_strides. rewrite map_length, combine_length, col_major_len, map_length. lia. Qed.

Lemma sliced_nested : forall l item d, 0 < item -> 0 < d -> Forall slice_ok l -> steps_divide l -> nested (map sl_count l) (slice_strides item d l).
Proof.
  induction l as [|s l IH]; intros item d HI HD HF HS; [exact I|].
  inversion HF as [|s0 l0 F1 F2]; subst s0 l0.
  destruct l as [|s' l]; [exact I|]. destruct HS as [DV HS].
  inversion F2 as [|s0 l0 G1 G2]; subst s0 l0. destruct F1 as [A1 [A2 [A3 A4]]]. destruct G1 as [B1 [B2 [B3 B4]]].
  unfold slice_strides. cbn [map col_major_from combine nested fst snd].
  destruct DV as [q E]. split; [|split].
  - exists q. replace (sl_step s' * (item * (d * sl_dim s))) with (item * d * (sl_dim s * sl_step s')) by lia. rewrite E. lia.
  - replace (sl_step s' * (item * (d * sl_dim s))) with (item * d * (sl_dim s * sl_step s')) by lia. rewrite E.
    assert (Q : sl_count s <= q). { assert ((sl_count s - 1) * sl_step s < q * sl_step s) by nia. nia. }
    assert (0 < item * d) by nia. replace (sl_count s * (sl_step s * (item * d))) with (item * d * (sl_count s * sl_step s)) by lia.
    apply Z.mul_le_mono_nonneg_l; [lia|]. nia.
  - apply (IH item (d * sl_dim s)); auto. assert (0 < sl_dim s) by lia. nia.
Qed.
Lemma sliced_fits : forall l item, 0 < item -> l <> [] -> Forall slice_ok l -> steps_divide (tl l) -> fits item (map sl_count l) (slice_strides item 1 l).
Proof.
  intros [|s l] item HI HE HF HS; [congruence|]. inversion HF as [|s0 l0 F1 F2]; subst s0 l0. destruct F1 as [A1 [A2 [A3 A4]]].
  unfold slice_strides. cbn [map col_major_from combine fst snd fits].
  split; [nia|]. split; [exists (sl_step s); lia|]. split.
  - destruct l as [|s' l]; cbn [map col_major_from combine]; auto. cbn [fst snd].
    inversion F2 as [|s0 l0 G1 G2]; subst s0 l0. destruct G1 as [B1 [B2 [B3 B4]]]. split.
    + exists (sl_step s' * sl_dim s). lia.
    + assert ((sl_count s - 1) * sl_step s + 1 <= sl_dim s) by lia. assert (sl_dim s <= sl_step s' * sl_dim s) by nia.
      replace ((sl_count s - 1) * (sl_step s * (item * 1)) + item) with (item * ((sl_count s - 1) * sl_step s + 1)) by lia.
      replace (sl_step s' * (item * (1 * sl_dim s))) with (item * (sl_step s' * sl_dim s)) by lia.
      apply Z.mul_le_mono_nonneg_l; lia.
  - replace (1 * sl_dim s) with (sl_dim s) by lia. apply (sliced_nested l item (sl_dim s)); auto. lia.
Qed.
Lemma sliced_increasing : forall l item d, 0 < item -> 0 < d -> Forall slice_ok l -> increasing (slice_strides item d l) = true.
Proof.
  induction l as [|s l IH]; intros item d HI HD HF; auto.
  inversion HF as [|s0 l0 F1 F2]; subst s0 l0. destruct l as [|s' l]; auto.
  inversion F2 as [|s0 l0 G1 G2]; subst s0 l0. destruct F1 as [A1 [A2 [A3 A4]]]. destruct G1 as [B1 [B2 [B3 B4]]].
  unfold slice_strides in *. cbn [map col_major_from combine fst snd increasing]. apply andb_true_iff. split.
  - apply Z.leb_le. replace (sl_step s' * (item * (d * sl_dim s))) with (item * d * (sl_dim s * sl_step s')) by lia.
    replace (sl_step s * (item * d)) with (item * d * sl_step s) by lia. apply Z.mul_le_mono_nonneg_l; nia.
  - apply (IH item (d * sl_dim s)); auto. nia.
Qed.
Lemma decreasing_rev : forall l, decreasing l = increasing (rev l).
Proof.
  assert (G : forall l x y, increasing ((l ++ [x]) ++ [y]) = increasing (l ++ [x]) && (x <=? y)).
  { induction l as [|a l IH]; intros x y; cbn [app increasing]; auto.
    - rewrite andb_true_r. auto.
    - destruct l as [|b l]; cbn [app] in *.
      + cbn. rewrite !andb_true_r. auto.
      + rewrite IH. rewrite andb_assoc. auto. }
  induction l as [|a l IH]; auto. destruct l as [|b l]; auto.
  cbn [decreasing rev]. cbn [rev] in IH. rewrite G. rewrite <- IH. rewrite andb_comm. auto.
Qed.

Lemma sliced_strides_order : forall c_order item l,
  a_strides (sliced c_order item l) = if c_order then rev (slice_strides item 1 (rev l)) else slice_strides item 1 l.
Proof.
  intros [|] item l; cbn [a_strides sliced layout]; auto.
  unfold slice_strides. rewrite row_col, <- map_rev, <- map_rev. rewrite <- combine_rev.
  - rewrite rev_involutive. auto.
  - rewrite col_major_len, map_length. auto.
Qed.

Lemma sliced_main : forall l c_order allow_empty item ss, 0 < item -> ss <> [] -> Forall slice_ok ss -> steps_fit c_order ss ->
  exists s, pass_array l c_order (length ss) allow_empty (sliced c_order item ss) = Some (Some s) /\ sees (sliced c_order item ss) s.
Proof.
  intros l c_order ae item ss HI HE HF HS. unfold pass_array.
  assert (SO := sliced_strides_order c_order item ss).
  assert (FL : filled (sliced c_order item ss)).
  { split; [|split; auto].
    - cbn. destruct ss; [congruence|discriminate].
    - cbn. clear - HF. induction HF; cbn; constructor; auto. destruct H as [_ [_ [H _]]]. auto. }
  assert (RG : regular c_order (sliced c_order item ss)).
  { split.
    - rewrite SO. cbn [a_shape sliced]. rewrite map_length. destruct c_order; [rewrite rev_length, slice_strides_len, rev_length|rewrite slice_strides_len]; auto.
    - rewrite SO. cbn [a_shape a_item sliced]. destruct c_order.
      + rewrite rev_involutive, <- map_rev. apply sliced_fits; auto. intro E. apply HE. rewrite <- (rev_involutive ss), E. auto. apply Forall_rev. auto.
      + apply sliced_fits; auto. }
  assert (CK : array_check c_order (length ss) ae (sliced c_order item ss) = true).
  { unfold array_check, check_rank. cbn [a_shape sliced]. rewrite map_length, Nat.eqb_refl. cbn [andb].
    assert (P : forallb (fun n => negb (n =? 0)) (map sl_count ss) = true).
    { clear - HF. induction HF; auto. cbn [map forallb]. rewrite IHHF, andb_true_r. apply negb_true_iff. apply Z.eqb_neq. destruct H as [_ [_ [H _]]]. lia. }
    rewrite P, orb_true_r. cbn [andb]. destruct (1 <? length ss)%nat; auto. unfold check_order. rewrite SO. destruct c_order.
    - rewrite decreasing_rev, rev_involutive. apply sliced_increasing; auto; try lia. apply Forall_rev. auto.
    - apply sliced_increasing; auto. lia. }
  rewrite CK. destruct (regular_view l c_order _ FL RG eq_refl) as [s [E H]]. rewrite E. eauto.
Qed.

(* ------------------------------ results ------------------------------ *)

Lemma steps_one : forall l, (forall s, In s l -> sl_step s = 1) -> steps_divide l.
Proof.
  induction l as [|s l IH]; intros H; [exact I|]. destruct l as [|s' l]; [exact I|]. cbn [steps_divide]. split.
  - rewrite (H s) by (left; auto). apply Z.divide_1_l.
  - apply IH. intros x X. apply H. right. auto.
Qed.
Lemma to_pyarray_strides : forall c_order item shape, a_strides (to_pyarray c_order true item shape) = map (fun d => item * d) (layout c_order shape).
Proof.
  intros [|] item shape; cbn [a_strides to_pyarray].
  - rewrite orb_true_r. auto.
  - rewrite orb_false_r. destruct shape as [|n [|m sh]]; auto.
Qed.
Lemma round_trip : forall l c_order release allow_empty item shape, 0 < item -> shape <> [] -> Forall (fun n => 0 < n) shape ->
  let a := to_pyarray c_order release item shape in
  exists s, pass_array l c_order (length shape) allow_empty a = Some (Some s) /\ sees a s.
Proof.
  intros l c_order release ae item shape HI HE HP. cbv zeta.
  assert (ST := to_pyarray_strides c_order item shape).
  set (ss := map (fun n => mk_slice n 1 n) shape).
  assert (M1 : map sl_count ss = shape) by (unfold ss; rewrite map_map; cbn; apply map_id).
  assert (M2 : map sl_dim ss = shape) by (unfold ss; rewrite map_map; cbn; apply map_id).
  assert (LN : length (layout c_order shape) = length shape) by (unfold layout; destruct c_order; [apply row_major_len|apply col_major_len]).
  assert (EQ : sliced c_order item ss = to_pyarray c_order true item shape).
  { unfold sliced. rewrite M1, M2. unfold to_pyarray in *. cbn [a_strides] in ST. rewrite ST. f_equal.
    unfold ss. clear -shape LN. revert LN. generalize (layout c_order shape). clear. induction shape as [|n sh IH]; intros [|d ds] E; cbn in *; try discriminate; auto.
    f_equal; [destruct (item * d); auto|]. apply IH. lia. }
  assert (OK : Forall slice_ok ss).
  { unfold ss. clear - HP. induction HP; cbn; constructor; auto. unfold slice_ok. cbn. lia. }
  assert (FT : steps_fit c_order ss).
  { apply steps_one. intros s J. assert (K : In s ss). { destruct c_order; [|destruct ss; [destruct J|right; auto]]. apply in_rev. destruct (rev ss); [destruct J|right; auto]. }
    unfold ss in K. apply in_map_iff in K. destruct K as [n [E _]]. rewrite <- E. auto. }
  assert (LS : length ss = length shape) by (unfold ss; apply map_length).
  destruct (sliced_main l c_order ae item ss HI) as [s [E H]]; auto.
  { unfold ss. destruct shape; [congruence|discriminate]. }
  rewrite EQ, LS in *. destruct release; [eauto|].
  assert (CK : array_check c_order (length shape) ae (to_pyarray c_order false item shape) = true).
  { unfold pass_array in E. unfold array_check, check_rank, check_order in *. cbn [a_shape a_strides to_pyarray] in *.
    destruct (_ && _) eqn:Q in E; [auto|discriminate]. }
  unfold pass_array. rewrite CK.
  destruct (owned_view l c_order (to_pyarray c_order false item shape)) as [s' [E' H']]; auto.
  - split; [|split]; auto.
  - assert (ST' : a_strides (to_pyarray c_order false item shape) = map (fun d => item * d) (layout c_order shape)) by (rewrite <- ST; auto).
    split.
    + rewrite ST'. cbn [a_item a_shape to_pyarray]. clear - LN. revert LN. generalize (layout c_order shape). induction shape as [|n sh IH]; intros [|d ds] E; cbn in *; try discriminate; constructor; auto.
    + rewrite ST', map_length. auto.
  - rewrite E'. eauto.
Qed.
