(** Proofs about np.arange and np.linspace. *)

From Coq Require Import List ZArith Bool Reals Lia Lra QArith Qcanon Qround.
From Flocq Require Import Core Relative.
From Verif Require Import Space_Model Space_Spec.
Import ListNotations.

(** ** The size for integers, in double precision *)

Local Open Scope Z_scope.

Definition e53 : Z := 9007199254740992.

Lemma format_int : forall n, Z.abs n <= e53 ->
  generic_format radix2 (FLT_exp (-1074) 53) (IZR n).
Proof.
  intros n H. destruct (Z.eq_dec (Z.abs n) e53) as [E|E].
  - assert (generic_format radix2 (FLT_exp (-1074) 53) (IZR e53)) as G.
    { replace (IZR e53) with (bpow radix2 53) by (cbn; unfold e53; lra).
      apply generic_format_bpow. unfold FLT_exp. cbn. lia. }
    destruct (Z.abs_eq_or_opp n) as [A|A].
    + rewrite A in E. rewrite E. exact G.
    + assert (n = - e53) as -> by lia. rewrite opp_IZR.
      apply generic_format_opp. exact G.
  - apply generic_format_FLT. exists (Defs.Float radix2 n 0).
    + unfold F2R. cbn. lra.
    + cbn. unfold e53 in *. lia.
    + cbn. lia.
Qed.

Lemma double_int : forall n, Z.abs n <= e53 -> double (IZR n) = IZR n.
Proof.
  intros n H. unfold double. apply round_generic; [apply valid_rnd_N|].
  apply format_int. exact H.
Qed.

Lemma double_le : forall x y, (x <= y)%R -> (double x <= double y)%R.
Proof.
  intros. unfold double. apply round_le; [|apply valid_rnd_N|assumption].
  apply FLT_exp_valid. reflexivity.
Qed.

Lemma double_error : forall x, (/ IZR e53 <= Rabs x \/ x = 0)%R ->
  (Rabs (double x - x) <= / IZR e53 * Rabs x)%R.
Proof.
  intros x [H|H]; [|subst x].
  - pose proof (relative_error_N_FLT radix2 (-1074) 53 eq_refl (fun z => negb (Z.even z)) x) as R0.
    assert (bpow radix2 (-1074 + 53 - 1) <= Rabs x)%R as B.
    { eapply Rle_trans; [|exact H].
      replace (/ IZR e53)%R with (bpow radix2 (-53))%R by (cbn; unfold e53; lra).
      apply bpow_le. lia. }
    specialize (R0 B). unfold double. eapply Rle_trans; [exact R0|].
    apply Rmult_le_compat_r; [apply Rabs_pos|].
    change (-53 + 1) with (-52). cbn. unfold e53. lra.
  - unfold double. rewrite round_0; [|apply valid_rnd_N].
    rewrite Rminus_0_r, Rabs_R0. lra.
Qed.

Lemma ceil_pos : forall a b, Z.abs a < e53 -> 0 < b <= e53 ->
  Zceil (double (IZR a / IZR b)) = - ((- a) / b).
Proof.
  intros a b Ha [Hb Bb]. set (n := - ((- a) / b)).
  assert (b * (n - 1) < a <= b * n) as [L U].
  { unfold n. pose proof (Z.div_mod (- a) b ltac:(lia)).
    pose proof (Z.mod_pos_bound (- a) b Hb). split; nia. }
  assert (Z.abs n <= e53) as N by nia.
  assert (0 < IZR b)%R as Hb' by (apply IZR_lt; exact Hb).
  assert (0 < / IZR b)%R as Ib by (apply Rinv_0_lt_compat; exact Hb').
  assert (0 < / IZR e53)%R as I53.
  { apply Rinv_0_lt_compat. unfold e53. lra. }
  set (q := (IZR a / IZR b)%R).
  assert (q * IZR b = IZR a)%R as Q by (unfold q; field; lra).
  assert (Rabs q = Rabs (IZR a) * / IZR b)%R as Aq.
  { unfold q, Rdiv. rewrite Rabs_mult, (Rabs_right (/ IZR b)) by lra. reflexivity. }
  apply Zceil_imp. split.
  - assert (Rabs (double q - q) <= / IZR e53 * Rabs q)%R as E.
    { apply double_error. destruct (Z.eq_dec a 0) as [->|A].
      - right. unfold q. field. lra.
      - left. rewrite Aq.
        assert (1 <= Rabs (IZR a))%R as A1.
        { rewrite <- abs_IZR. apply IZR_le. lia. }
        assert (/ IZR e53 <= / IZR b)%R.
        { apply Rinv_le; [exact Hb'|]. apply IZR_le. exact Bb. }
        nra. }
    assert (/ IZR e53 * Rabs q < / IZR b)%R as D.
    { rewrite Aq.
      assert (Rabs (IZR a) < IZR e53)%R as A2.
      { rewrite <- abs_IZR. apply IZR_lt. exact Ha. }
      assert (/ IZR e53 * Rabs (IZR a) < 1)%R.
      { apply Rmult_lt_reg_l with (IZR e53); [unfold e53; lra|].
        rewrite <- Rmult_assoc, Rinv_r by (unfold e53; lra). lra. }
      nra. }
    assert (IZR (n - 1) + / IZR b <= q)%R as G.
    { apply Rmult_le_reg_r with (IZR b); [exact Hb'|]. rewrite Q.
      rewrite Rmult_plus_distr_r, Rinv_l by lra.
      rewrite <- mult_IZR. change 1%R with (IZR 1). rewrite <- plus_IZR.
      apply IZR_le. nia. }
    apply Rabs_le_inv in E. lra.
  - rewrite <- (double_int n N). apply double_le.
    assert (IZR a <= IZR b * IZR n)%R by (rewrite <- mult_IZR; apply IZR_le; lia).
    apply Rmult_le_reg_r with (IZR b); [exact Hb'|]. rewrite Q. lra.
Qed.

Lemma int_size_exact : forall start stop step,
  Z.abs (stop - start) < e53 -> step <> 0 -> Z.abs step <= e53 ->
  int_size start stop step = - ((start - stop) / step).
Proof.
  intros a b s H N B. unfold int_size. rewrite !double_int by lia.
  destruct (Z.lt_ge_cases 0 s) as [P|P].
  - rewrite ceil_pos by lia. do 2 f_equal. lia.
  - replace (IZR (b - a) / IZR s)%R with (IZR (a - b) / IZR (- s))%R.
    + rewrite ceil_pos by lia. f_equal.
      replace (- (a - b)) with (- (a - b)) by lia.
      rewrite Z.div_opp_opp by lia. reflexivity.
    + rewrite opp_IZR, !minus_IZR. field.
      assert (IZR s < 0)%R by (apply IZR_lt; lia). lra.
Qed.

Lemma int_size_spec : forall start stop step k,
  Z.abs (stop - start) < e53 -> step <> 0 -> Z.abs step <= e53 -> 0 <= k ->
  (k < int_size start stop step <-> before_int step (start + k * step) stop).
Proof.
  intros a b s k H N B K. rewrite int_size_exact by assumption.
  unfold before_int. pose proof (Z.div_mod (a - b) s N) as D.
  destruct (Z.lt_ge_cases 0 s) as [P|P].
  - pose proof (Z.mod_pos_bound (a - b) s P). split.
    + intros. left. split; [exact P|]. nia.
    + intros [[_ L]|[L _]]; [|lia]. nia.
  - assert (s < 0) as P' by lia.
    pose proof (Z.mod_neg_bound (a - b) s P'). split.
    + intros. right. split; [exact P'|]. nia.
    + intros [[L _]|[_ L]]; [lia|]. nia.
Qed.

(** ** Rationals *)

Lemma num_this : forall z, (this (num z) == inject_Z z)%Q.
Proof. intros. unfold num. cbn [this Q2Qc]. apply Qred_correct. Qed.

Lemma num_add : forall a b, num (a + b) = (num a + num b)%Qc.
Proof.
  intros. apply Qc_is_canon. unfold Qcplus. cbn [this Q2Qc].
  rewrite Qred_correct, !num_this, inject_Z_plus. reflexivity.
Qed.

Lemma num_mul : forall a b, num (a * b) = (num a * num b)%Qc.
Proof.
  intros. apply Qc_is_canon. unfold Qcmult. cbn [this Q2Qc].
  rewrite Qred_correct, !num_this, inject_Z_mult. reflexivity.
Qed.

Lemma num_opp : forall a, num (- a) = (- num a)%Qc.
Proof.
  intros. apply Qc_is_canon. unfold Qcopp. cbn [this Q2Qc].
  rewrite Qred_correct, !num_this, inject_Z_opp. reflexivity.
Qed.

Lemma num_sub : forall a b, num (a - b) = (num a - num b)%Qc.
Proof. intros. unfold Z.sub, Qcminus. rewrite num_add, num_opp. reflexivity. Qed.

Lemma num_0 : num 0 = 0%Qc.
Proof. reflexivity. Qed.

Lemma num_1 : num 1 = 1%Qc.
Proof. reflexivity. Qed.

Lemma num_lt : forall a b, a < b <-> (num a < num b)%Qc.
Proof.
  intros. unfold Qclt. rewrite !num_this. rewrite Zlt_Qlt. reflexivity.
Qed.

Lemma num_inj : forall a b, num a = num b -> a = b.
Proof.
  intros a b H. assert (this (num a) == this (num b))%Q as E by (rewrite H; reflexivity).
  rewrite !num_this in E. unfold Qeq in E. cbn in E. lia.
Qed.

Lemma lt_ceiling : forall k (q : Qc), k < Qceiling q <-> (num k < q)%Qc.
Proof.
  intros k q. unfold Qclt. rewrite num_this. split; intros H.
  - pose proof (Qceiling_lt q) as L. eapply Qle_lt_trans; [|exact L].
    rewrite <- Zle_Qle. lia.
  - pose proof (Qle_ceiling q) as L. rewrite Zlt_Qlt.
    eapply Qlt_le_trans; [exact H|exact L].
Qed.

Lemma ceiling_num : forall k, Qceiling (num k) = k.
Proof. intros. rewrite num_this. apply Qceiling_Z. Qed.

Lemma floor_num : forall k, Qfloor (num k) = k.
Proof. intros. rewrite num_this. apply Qfloor_Z. Qed.

Lemma truncate_num : forall k, truncate (num k) = num k.
Proof.
  intros. unfold truncate. destruct (Qclt_le_dec _ _); f_equal;
    [apply ceiling_num|apply floor_num].
Qed.

Lemma lt_scale : forall x y s : Qc, (0 < s)%Qc -> (x < y <-> x * s < y * s)%Qc.
Proof.
  intros x y s H. split; intros L.
  - apply Qcmult_lt_compat_r; assumption.
  - destruct (Qclt_le_dec x y) as [G|G]; [exact G|].
    exfalso. apply (Qclt_not_le _ _ L). apply Qcmult_le_compat_r; [exact G|].
    apply Qclt_le_weak. exact H.
Qed.

Lemma opp_lt : forall x y : Qc, (x < y <-> - y < - x)%Qc.
Proof.
  intros x y. rewrite (Qclt_minus_iff x y), (Qclt_minus_iff (- y) (- x)).
  replace (- x + - - y)%Qc with (y + - x)%Qc by ring. reflexivity.
Qed.

Lemma add_lt : forall a x y : Qc, (x < y <-> a + x < a + y)%Qc.
Proof.
  intros a x y. rewrite (Qclt_minus_iff x y), (Qclt_minus_iff (a + x) (a + y)).
  replace (a + y + - (a + x))%Qc with (y + - x)%Qc by ring. reflexivity.
Qed.

Lemma size_spec : forall a b s n k, size a b s = Some n ->
  (k < n <-> before s (a + num k * s)%Qc b).
Proof.
  intros a b s n k H. unfold size, quotient in H.
  destruct (Qc_eq_dec s 0%Qc) as [E|E]; [discriminate|].
  assert (n = Qceiling ((b - a) / s)%Qc) as -> by congruence. rewrite lt_ceiling. unfold before.
  set (q := ((b - a) / s)%Qc).
  assert (b = a + q * s)%Qc as B by (unfold q; field; exact E).
  rewrite B at 1 2. rewrite <- !add_lt.
  destruct (Qclt_le_dec 0%Qc s) as [P|P].
  - rewrite (lt_scale (num k) q s P). split.
    + intros. left. split; assumption.
    + intros [[_ L]|[L _]]; [exact L|].
      exfalso. exact (Qclt_not_le _ _ P (Qclt_le_weak _ _ L)).
  - assert (s < 0)%Qc as M by (destruct (Qcle_lt_or_eq _ _ P); [assumption|contradiction]).
    assert (0 < - s)%Qc as P'.
    { apply opp_lt in M. replace (- 0)%Qc with 0%Qc in M by ring. exact M. }
    rewrite (lt_scale (num k) q (- s) P').
    replace (num k * - s)%Qc with (- (num k * s))%Qc by ring.
    replace (q * - s)%Qc with (- (q * s))%Qc by ring. rewrite <- opp_lt. split.
    + intros. right. split; assumption.
    + intros [[L _]|[_ L]]; [|exact L].
      exfalso. exact (Qcle_not_lt _ _ P L).
Qed.

Lemma size_some : forall a b s, s <> 0%Qc -> exists n, size a b s = Some n.
Proof.
  intros a b s H. unfold size, quotient.
  destruct (Qc_eq_dec s 0%Qc); [contradiction|]. eexists; reflexivity.
Qed.

Lemma size_int : forall a b s, s <> 0 ->
  size (num a) (num b) (num s) = Some (- ((a - b) / s)).
Proof.
  intros a b s H.
  assert (num s <> 0%Qc) as N.
  { rewrite <- num_0. intros E. apply num_inj in E. exact (H E). }
  destruct (size_some (num a) (num b) (num s) N) as [n E]. rewrite E. f_equal.
  assert (forall k, k < n <-> k < - ((a - b) / s)) as W.
  { intros k. rewrite (size_spec _ _ _ n k E).
    rewrite <- num_mul, <- num_add. unfold before.
    rewrite <- num_0, <- !num_lt.
    pose proof (Z.div_mod (a - b) s H) as D.
    destruct (Z.lt_ge_cases 0 s) as [P|P].
    - pose proof (Z.mod_pos_bound (a - b) s P). split; nia.
    - assert (s < 0) as P' by lia.
      pose proof (Z.mod_neg_bound (a - b) s P'). split; nia. }
  destruct (Z.lt_trichotomy n (- ((a - b) / s))) as [T|[T|T]].
  - apply W in T. lia.
  - exact T.
  - apply W in T. lia.
Qed.

Lemma int_size_size : forall start stop step,
  Z.abs (stop - start) < e53 -> step <> 0 -> Z.abs step <= e53 ->
  size (num start) (num stop) (num step) = Some (int_size start stop step).
Proof.
  intros. rewrite size_int, int_size_exact by assumption. reflexivity.
Qed.

(** ** np.arange *)

Lemma nth_indices : forall (A : Type) (f : Z -> A) n k, (k < Z.to_nat n)%nat ->
  nth_error (map f (indices n)) k = Some (f (Z.of_nat k)).
Proof.
  intros A f n k H. unfold indices. rewrite map_map, nth_error_map.
  rewrite (nth_error_nth' _ 0%nat) by (rewrite seq_length; exact H).
  rewrite seq_nth by exact H. reflexivity.
Qed.

Lemma length_indices : forall (A : Type) (f : Z -> A) n,
  List.length (map f (indices n)) = Z.to_nat n.
Proof. intros. unfold indices. rewrite !map_length, seq_length. reflexivity. Qed.

Lemma arange_items : forall a b s n f,
  size a b s = Some n ->
  (forall k, f k = element a s k) ->
  is_arange a b s (Z.to_nat n) (map f (indices n)).
Proof.
  intros a b s n f H F. split; [|split].
  - apply length_indices.
  - intros k. rewrite <- (size_spec a b s n (Z.of_nat k) H). lia.
  - intros k K. rewrite nth_indices by exact K. rewrite F. reflexivity.
Qed.

Lemma c_arange_float : forall a b s, s <> 0%Qc ->
  exists r, c_arange Float a b s = Some r /\
    is_arange a b s (Z.to_nat (len r)) (items r).
Proof.
  intros a b s H. destruct (size_some a b s H) as [n E].
  unfold c_arange. rewrite E. eexists; split; [reflexivity|]. cbn.
  apply arange_items; [exact E|reflexivity].
Qed.

Lemma c_arange_int : forall a b s, s <> 0 ->
  exists r, c_arange Int (num a) (num b) (num s) = Some r /\
    is_arange (num a) (num b) (num s) (Z.to_nat (len r)) (items r).
Proof.
  intros a b s H. pose proof (size_int a b s H) as E.
  unfold c_arange. rewrite E. eexists; split; [reflexivity|]. cbn [len items].
  apply arange_items; [exact E|]. intros k. unfold convert, element.
  rewrite <- num_mul, <- num_add. apply truncate_num.
Qed.

Lemma f_arange_c : forall d a b s r, c_arange d a b s = Some r ->
  f_arange d a b [s] = Some (Arr (Z.max 0 (len r)) (items r)).
Proof.
  intros d a b s r H. unfold c_arange in H. unfold f_arange.
  assert (total [s] = s) as -> by (cbn; ring).
  destruct (size a b s) as [n|]; [|discriminate]. injection H as <-. cbn [len items].
  do 2 f_equal. apply map_ext. intros i. cbn [times_index]. unfold element.
  f_equal. ring.
Qed.

(** ** np.linspace *)

Lemma store_spec : forall (A : Type) (v : A) m i, (i < List.length m)%nat ->
  exists m', store m i v = Some m' /\ List.length m' = List.length m /\
    forall j, nth_error m' j = if (j =? i)%nat then Some v else nth_error m j.
Proof.
  intros A v. induction m as [|x r IH]; cbn; intros i H; [lia|].
  destruct i as [|i].
  - exists (v :: r). split; [reflexivity|]. split; [reflexivity|].
    intros [|j]; reflexivity.
  - destruct (IH i ltac:(lia)) as (r' & E & L & N). rewrite E.
    exists (x :: r'). split; [reflexivity|]. split; [cbn; lia|].
    intros [|j]; [reflexivity|]. cbn. apply N.
Qed.

Lemma store_end_spec : forall d n e stop m, (0 < n)%nat -> List.length m = n ->
  exists m', store_end d n e stop m = Some m' /\ List.length m' = n /\
    forall j, nth_error m' j =
      if includes e && (j =? n - 1)%nat then Some (last_value d (stop m)) else nth_error m j.
Proof.
  intros d n e stop m P L. destruct n as [|k]; [lia|].
  assert (forall v, exists m', store m k v = Some m' /\ List.length m' = Datatypes.S k /\
    forall j, nth_error m' j = if (j =? k)%nat then Some v else nth_error m j) as St.
  { intros v. destruct (store_spec _ v m k ltac:(lia)) as (m' & A & B & C).
    exists m'. rewrite B. exact (conj A (conj L C)). }
  replace (Datatypes.S k - 1)%nat with k by lia.
  destruct e as [| |[|]]; cbn [store_end includes andb].
  - apply St.
  - exists m. split; [reflexivity|]. split; [exact L|reflexivity].
  - apply St.
  - destruct (nth_error m k) as [v|] eqn:V.
    + destruct (St v) as (m' & A & B & C). exists m'. split; [exact A|].
      split; [exact B|]. intros j. rewrite C. destruct (Nat.eqb_spec j k) as [->|]; congruence.
    + apply nth_error_None in V. lia.
Qed.

Definition written (d : dtype) (n : nat) (e : endpoint) (a b : Qc) (i : nat)
  (m : list (option Qc)) : Prop :=
  List.length m = n /\
  (forall k, (k < i)%nat -> includes e = false \/ k <> (n - 1)%nat ->
     nth_error m k = Some (value d n e (Some a) (Some b) k)) /\
  ((0 < i)%nat -> includes e = true -> nth_error m (n - 1) = Some (last_value d (Some b))).

Lemma c_loop_spec : forall d n e a b start stop,
  (forall m, start m = Some a) -> (forall m, stop m = Some b) ->
  forall l i m, (i + l = n)%nat -> written d n e a b i m ->
  exists m', c_loop d n e start stop (seq i l) m = Some m' /\ written d n e a b n m'.
Proof.
  intros d n e a b start stop Ha Hb. induction l as [|l IH]; intros i m E W; cbn.
  - exists m. split; [reflexivity|]. replace n with i in * by lia. exact W.
  - destruct W as (L & V & Z0). rewrite Ha, Hb.
    destruct (store_spec _ (value d n e (Some a) (Some b) i) m i ltac:(lia))
      as (m1 & E1 & L1 & N1). rewrite E1.
    destruct (store_end_spec d n e stop m1 ltac:(lia) ltac:(lia)) as (m2 & E2 & L2 & N2).
    rewrite E2. apply IH; [lia|]. split; [exact L2|]. split.
    + intros k K C. rewrite N2.
      assert (includes e && (k =? n - 1)%nat = false) as ->.
      { destruct C as [->| C]; [reflexivity|]. apply andb_false_intro2.
        apply Nat.eqb_neq. exact C. }
      rewrite N1. destruct (Nat.eqb_spec k i) as [->|]; [reflexivity|].
      apply V; [lia|exact C].
    + intros _ I. rewrite N2, I, Nat.eqb_refl, Hb. reflexivity.
Qed.

(* The element types for which the conversion of the stop is right. *)
Definition stop_exact (d : dtype) (b : Qc) : Prop :=
  d = Float \/ (0 <= b)%Qc \/ exists z, b = num z.

Lemma convert_exact : forall d b, stop_exact d b -> convert d b = numpy_cell d b.
Proof.
  intros d b [->|H]; [reflexivity|]. destruct d; [|reflexivity]. cbn.
  destruct H as [H|[z ->]].
  - unfold truncate. destruct (Qclt_le_dec b 0%Qc) as [L|L]; [|reflexivity].
    exfalso. exact (Qclt_not_le _ _ L H).
  - rewrite truncate_num, floor_num. reflexivity.
Qed.

Lemma num_neq_0 : forall z, z <> 0 -> num z <> 0%Qc.
Proof. intros z H E. rewrite <- num_0 in E. apply num_inj in E. exact (H E). Qed.

Lemma intervals_includes : forall n e,
  intervals n e = Z.of_nat n - (if includes e then 1 else 0).
Proof. intros n [| |[|]]; cbn; lia. Qed.

Lemma value_numpy : forall d n e a b k,
  (0 < n)%nat -> (includes e = true -> n <> 1%nat) ->
  value d n e (Some a) (Some b) k
  = Some (numpy_cell d (numpy_linspace a b n (includes e) k)).
Proof.
  intros d n e a b k P N. unfold value, step. cbn [lift2].
  rewrite intervals_includes. unfold quotient.
  destruct (Qc_eq_dec _ _) as [E|E].
  - exfalso. revert E. apply num_neq_0. destruct (includes e).
    + specialize (N eq_refl). lia.
    + lia.
  - cbn [lift2]. f_equal. unfold numpy_cell, numpy_linspace.
    destruct (includes e) eqn:I.
    + specialize (N eq_refl). destruct n as [|[|n]]; [lia|congruence|]. destruct d; reflexivity.
    + rewrite Z.sub_0_r. destruct n as [|[|n]]; [lia| |]; destruct d; reflexivity.
Qed.

Lemma numpy_last : forall a b n, (1 < n)%nat ->
  numpy_linspace a b n true (n - 1) = b.
Proof.
  intros a b n H. unfold numpy_linspace. destruct n as [|[|n]]; [lia|lia|].
  replace (Z.of_nat (Datatypes.S (Datatypes.S n) - 1))
    with (Z.of_nat (Datatypes.S (Datatypes.S n)) - 1) by lia.
  field. apply num_neq_0. lia.
Qed.

Lemma written_linspace : forall d n e a b m,
  (includes e = true -> n <> 1%nat) -> (includes e = true -> stop_exact d b) ->
  written d n e a b n m -> is_linspace d a b n (includes e) m.
Proof.
  intros d n e a b m N X (L & V & E). split; [exact L|]. intros k K.
  destruct (includes e) eqn:I.
  - destruct (Nat.eq_dec k (n - 1)) as [->|D].
    + rewrite E by (try lia; reflexivity). cbn [last_value].
      specialize (N eq_refl). rewrite numpy_last by lia.
      rewrite convert_exact by (apply X; reflexivity). reflexivity.
    + rewrite V by (try lia; right; exact D). rewrite value_numpy.
      * rewrite I. reflexivity.
      * lia.
      * exact (fun _ => N eq_refl).
  - rewrite V by (try lia; left; reflexivity). rewrite value_numpy.
    + rewrite I. reflexivity.
    + lia.
    + rewrite I. discriminate.
Qed.

Lemma c_linspace_numpy : forall d n e a b start stop m,
  (forall m', start m' = Some a) -> (forall m', stop m' = Some b) ->
  (includes e = true -> n <> 1%nat) -> (includes e = true -> stop_exact d b) ->
  List.length m = n ->
  exists m', c_linspace d n e start stop m = Some m' /\
             is_linspace d a b n (includes e) m'.
Proof.
  intros d n e a b start stop m Ha Hb N X L. unfold c_linspace.
  destruct (c_loop_spec d n e a b start stop Ha Hb n 0 m eq_refl) as (m' & E & W).
  { split; [exact L|]. split; intros; lia. }
  exists m'. split; [exact E|]. apply written_linspace; assumption.
Qed.

Lemma f_linspace_numpy : forall d n e a b start stop m,
  start m = Some a -> (forall m', stop m' = Some b) ->
  (includes e = true -> n <> 1%nat) -> (includes e = true -> stop_exact d b) ->
  (n = 0%nat -> e = Never) ->
  exists m', f_linspace d n e start stop m = Some m' /\
             is_linspace d a b n (includes e) m'.
Proof.
  intros d n e a b start stop m Ha Hb N X Ze. unfold f_linspace. rewrite Ha, Hb.
  destruct (Nat.eq_dec n 0) as [->|P].
  - rewrite (Ze eq_refl). exists []. split; [reflexivity|]. split; [reflexivity|]. intros; lia.
  - destruct (store_end_spec d n e stop (map (value d n e (Some a) (Some b)) (seq 0 n))
                ltac:(lia)) as (m' & E & L & V).
    { rewrite map_length, seq_length. reflexivity. }
    exists m'. split; [exact E|]. apply written_linspace; try assumption.
    split; [exact L|]. split.
    + intros k K C. rewrite V.
      assert (includes e && (k =? n - 1)%nat = false) as ->.
      { destruct C as [->| C]; [reflexivity|]. apply andb_false_intro2.
        apply Nat.eqb_neq. exact C. }
      rewrite nth_error_map, (nth_error_nth' _ 0%nat) by (rewrite seq_length; exact K).
      rewrite seq_nth by exact K. reflexivity.
    + intros _ I. rewrite V, I, Nat.eqb_refl, Hb. reflexivity.
Qed.

(** *** Arrays of starts and stops *)

Definition rows_written (d : dtype) (n : nat) (e : endpoint) (starts stops : list Qc)
  (i : nat) (m : list (list (option Qc))) : Prop :=
  List.length m = n /\
  (forall k, (k < i)%nat -> includes e = false \/ k <> (n - 1)%nat ->
     nth_error m k = Some (row d n e starts stops k)) /\
  ((0 < i)%nat -> includes e = true -> nth_error m (n - 1) = Some (last_row d stops)).

Lemma rows_loop_spec : forall d n e starts stops l i m,
  (i + l = n)%nat -> rows_written d n e starts stops i m ->
  exists m', rows_loop d n e starts stops (seq i l) m = Some m' /\
             rows_written d n e starts stops n m'.
Proof.
  intros d n e starts stops. induction l as [|l IH]; intros i m E W; cbn.
  - exists m. split; [reflexivity|]. replace n with i in * by lia. exact W.
  - destruct W as (L & V & Z0).
    destruct (store_spec _ (row d n e starts stops i) m i ltac:(lia))
      as (m1 & E1 & L1 & N1). rewrite E1.
    assert (exists m2,
      (if includes e then store m1 (n - 1) (last_row d stops) else Some m1) = Some m2 /\
      List.length m2 = n /\
      forall j, nth_error m2 j = if includes e && (j =? n - 1)%nat
                                 then Some (last_row d stops) else nth_error m1 j)
      as (m2 & E2 & L2 & N2).
    { destruct (includes e).
      - destruct (store_spec _ (last_row d stops) m1 (n - 1) ltac:(lia)) as (m2 & A & B & C).
        exists m2. split; [exact A|]. split; [lia|]. exact C.
      - exists m1. split; [reflexivity|]. split; [lia|]. reflexivity. }
    rewrite E2. apply IH; [lia|]. split; [exact L2|]. split.
    + intros k K C. rewrite N2.
      assert (includes e && (k =? n - 1)%nat = false) as ->.
      { destruct C as [->| C]; [reflexivity|]. apply andb_false_intro2.
        apply Nat.eqb_neq. exact C. }
      rewrite N1. destruct (Nat.eqb_spec k i) as [->|]; [reflexivity|].
      apply V; [lia|exact C].
    + intros _ I. rewrite N2, I, Nat.eqb_refl. reflexivity.
Qed.

Lemma combine_nth : forall (A B : Type) (l : list A) (r : list B) j a b,
  nth_error l j = Some a -> nth_error r j = Some b ->
  nth_error (combine l r) j = Some (a, b).
Proof.
  intros A B. induction l as [|x l IH]; intros [|y r] [|j] a b H G; cbn in *; try discriminate.
  - congruence.
  - apply IH; assumption.
Qed.

Lemma linspace_rows_numpy : forall d n e starts stops m,
  List.length m = n -> (includes e = true -> n <> 1%nat) ->
  (includes e = true -> forall b, In b stops -> stop_exact d b) ->
  exists m', linspace_rows d n e starts stops m = Some m' /\ List.length m' = n /\
    forall j a b, nth_error starts j = Some a -> nth_error stops j = Some b ->
    forall k, (k < n)%nat -> exists r, nth_error m' k = Some r /\
      nth_error r j = Some (Some (numpy_cell d (numpy_linspace a b n (includes e) k))).
Proof.
  intros d n e starts stops m L N X. unfold linspace_rows.
  destruct (rows_loop_spec d n e starts stops n 0 m eq_refl) as (m' & E & (L' & V & Z0)).
  { split; [exact L|]. split; intros; lia. }
  exists m'. split; [exact E|]. split; [exact L'|].
  intros j a b Ja Jb k K.
  assert (forall k0, nth_error (row d n e starts stops k0) j
     = Some (value d n e (Some a) (Some b) k0)) as R0.
  { intros k0. unfold row. rewrite nth_error_map, (combine_nth _ _ _ _ _ _ _ Ja Jb).
    reflexivity. }
  destruct (includes e) eqn:I.
  - specialize (N eq_refl). destruct (Nat.eq_dec k (n - 1)) as [->|D].
    + eexists; split; [apply Z0; [lia|reflexivity]|].
      unfold last_row. rewrite nth_error_map, Jb. cbn [option_map last_value].
      rewrite numpy_last by lia.
      rewrite convert_exact; [reflexivity|]. apply (X eq_refl).
      exact (nth_error_In _ _ Jb).
    + eexists; split; [apply V; [lia|right; exact D]|].
      rewrite R0, value_numpy; [rewrite I; reflexivity|lia|exact (fun _ => N)].
  - eexists; split; [apply V; [lia|left; reflexivity]|].
    rewrite R0, value_numpy; [rewrite I; reflexivity|lia|]. rewrite I. discriminate.
Qed.
