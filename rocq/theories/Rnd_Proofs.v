From Coq Require Import ZArith Lia.
From Verif Require Import Math_Model Root_Model Root_Proofs Fdiv_Model Rnd_Model Rnd_Spec.
Open Scope Z_scope.

Lemma pow_pos k : 0 <= k -> 0 < 2 ^ k.
Proof. intros. apply Z.pow_pos_nonneg; lia. Qed.
Lemma ieee_small m e : 0 < m < 2 ^ 53 -> -1074 <= e <= 0 -> ieee m e = Fin (mkf m e).
Proof.
  intros [M0 M] E. unfold ieee. rewrite Z.abs_eq by lia.
  assert (L : Z.log2 m < 53) by (apply Z.log2_lt_pow2; lia).
  destruct (Z.leb_spec (Z.max (Z.log2 m - 52) (-1074 - e)) 0); [|lia].
  destruct (Z.eqb_spec m 0); [lia|]. destruct (Z.leb_spec 1024 (Z.log2 m + e)); [lia|].
  rewrite Z.sgn_pos by lia. rewrite Z.mul_1_l. reflexivity.
Qed.
Lemma ieee_zero e : ieee 0 e = Fin (mkf 0 0).
Proof.
  unfold ieee. cbn [Z.abs]. destruct (Z.leb_spec (Z.max (Z.log2 0 - 52) (-1074 - e)) 0); [reflexivity|].
  unfold rne. rewrite Z.div_0_l, Z.mod_0_l by (pose proof (pow_pos (Z.max (Z.log2 0 - 52) (-1074 - e))); lia).
  destruct (Z.ltb_spec (2 * 0) (2 ^ Z.max (Z.log2 0 - 52) (-1074 - e))); [reflexivity|].
  pose proof (pow_pos (Z.max (Z.log2 0 - 52) (-1074 - e))). lia.
Qed.
(* rounding at the last place 2 ^ k *)
Lemma ieee_round m e : 0 < m < 2 ^ 200 -> -500 <= e <= 0 ->
  exists q k, 0 <= k /\ k = Z.max 0 (Z.log2 m - 52) /\ ieee m e = Fin (mkf q (e + k)) /\ 0 < q /\
    2 * Z.abs (q * 2 ^ k - m) <= 2 ^ k /\ (k = 0 -> q = m).
Proof.
  intros [M0 M] E.
  assert (L : Z.log2 m < 200) by (apply Z.log2_lt_pow2; lia).
  destruct (Z.le_gt_cases (Z.log2 m) 52) as [S|S].
  - exists m, 0. rewrite (ieee_small m e); [|split; [lia|]|lia].
    + rewrite Z.add_0_r. change (2 ^ 0) with 1. rewrite Z.mul_1_r, Z.sub_diag. cbn [Z.abs]. repeat split; lia.
    + pose proof (Z.log2_spec m M0) as [_ U]. eapply Z.lt_le_trans; [exact U|]. apply Z.pow_le_mono_r; lia.
  - set (k := Z.log2 m - 52).
    pose proof (rne_near m k ltac:(lia) ltac:(lia)) as N. pose proof (pow_pos k ltac:(lia)) as P.
    pose proof (Z.log2_spec m M0) as [B1 B2].
    assert (W : 2 ^ Z.log2 m = 2 ^ 52 * 2 ^ k) by (rewrite <- Z.pow_add_r by lia; f_equal; lia).
    assert (W2 : 2 ^ Z.succ (Z.log2 m) = 2 ^ 53 * 2 ^ k) by (rewrite <- Z.pow_add_r by lia; f_equal; lia).
    set (q := rne m k) in *. set (p := 2 ^ k) in *.
    change (2 ^ 52) with 4503599627370496 in W. change (2 ^ 53) with 9007199254740992 in W2.
    assert (Q : 0 < q) by nia.
    assert (Q2 : q <= 9007199254740992) by nia.
    exists q, k. repeat split; try lia.
    unfold ieee. rewrite Z.abs_eq by lia. rewrite (Z.max_l (Z.log2 m - 52)) by lia. fold k.
    destruct (Z.leb_spec k 0); [lia|]. fold q. destruct (Z.eqb_spec q 0); [lia|].
    assert (Z.log2 q <= 53) by (change 53 with (Z.log2 9007199254740992); apply Z.log2_le_mono; lia).
    destruct (Z.leb_spec 1024 (Z.log2 q + (e + k))); [lia|].
    rewrite Z.sgn_pos by lia. rewrite Z.mul_1_l. reflexivity.
Qed.
(* signs *)
Lemma ieee_neg m e q f : ieee (- m) e = Fin (mkf q f) -> q <> 0 -> ieee m e = Fin (mkf (- q) f).
Proof.
  unfold ieee. rewrite Z.abs_opp, Z.sgn_opp. intros H Q.
  destruct (if Z.max (Z.log2 (Z.abs m) - 52) (-1074 - e) <=? 0 then _ else _) as [q' f'] in *.
  destruct (Z.eqb_spec q' 0); [congruence|]. destruct (1024 <=? Z.log2 q' + f'); [discriminate|].
  injection H as <- <-. do 2 f_equal. lia.
Qed.
Lemma ieee_round_abs m e : 0 < Z.abs m < 2 ^ 200 -> -500 <= e <= 0 ->
  exists q k, 0 <= k /\ k = Z.max 0 (Z.log2 (Z.abs m) - 52) /\ ieee m e = Fin (mkf q (e + k)) /\
    2 * Z.abs (q * 2 ^ k - m) <= 2 ^ k.
Proof.
  intros M E. destruct (Z.le_gt_cases 0 m) as [S|S].
  - rewrite Z.abs_eq in * by lia. destruct (ieee_round m e M E) as (q & k & K0 & K & I & _ & N & _). exists q, k. auto.
  - rewrite Z.abs_neq in * by lia. destruct (ieee_round (- m) e M E) as (q & k & K0 & K & I & Q & N & _).
    exists (- q), k. repeat split; auto; [apply ieee_neg; [exact I|lia]|].
    replace (- q * 2 ^ k - m) with (- (q * 2 ^ k - - m)) by ring. rewrite Z.abs_opp. exact N.
Qed.
Lemma real_small l : - 2 ^ 53 < l < 2 ^ 53 -> l <> 0 -> real l = Fin (mkf l 0).
Proof.
  intros L N. unfold real. destruct (Z.le_gt_cases 0 l).
  - apply ieee_small; lia.
  - replace l with (- - l) at 2 by lia. apply ieee_neg; [|lia]. apply ieee_small; lia.
Qed.
(* bounds that are integers are kept *)
Lemma keep_bounds_abs m t L H q k : 0 < Z.abs m < 2 ^ 53 * 2 ^ t -> 0 <= t -> k = Z.max 0 (Z.log2 (Z.abs m) - 52) ->
  2 * Z.abs (q * 2 ^ k - m) <= 2 ^ k ->
  L * 2 ^ t <= m <= H * 2 ^ t -> L * 2 ^ t <= q * 2 ^ k <= H * 2 ^ t /\ k <= t.
Proof.
  intros [M0 M] T K N B. rewrite <- Z.pow_add_r in M by lia.
  assert (LG : Z.log2 (Z.abs m) < 53 + t) by (apply Z.log2_lt_pow2; lia).
  assert (KT : 0 <= k <= t) by lia.
  assert (E : 2 ^ t = 2 ^ (t - k) * 2 ^ k) by (rewrite <- Z.pow_add_r by lia; f_equal; lia).
  pose proof (pow_pos k ltac:(lia)) as P. pose proof (pow_pos (t - k) ltac:(lia)) as P'.
  rewrite E in *. rewrite !Z.mul_assoc in *.
  set (p := 2 ^ k) in *. set (g := 2 ^ (t - k)) in *. clearbody p g. clear LG E K M M0.
  split; [|lia].
  assert (L * g <= q) by nia. assert (q <= H * g) by nia. nia.
Qed.
Lemma keep_bounds m t L H q k : 0 < m < 2 ^ 53 * 2 ^ t -> 0 <= t -> k = Z.max 0 (Z.log2 m - 52) ->
  2 * Z.abs (q * 2 ^ k - m) <= 2 ^ k ->
  L * 2 ^ t <= m <= H * 2 ^ t -> L * 2 ^ t <= q * 2 ^ k <= H * 2 ^ t /\ k <= t.
Proof. intros M. rewrite <- (Z.abs_eq m) at 1 by lia. apply keep_bounds_abs. rewrite Z.abs_eq; lia. Qed.
Lemma floor_between x t L H : expo x <= 0 -> t = - expo x -> L * 2 ^ t <= mant x <= H * 2 ^ t ->
  L <= ffloor x <= H.
Proof.
  intros E T B. unfold ffloor. destruct (Z.leb_spec 0 (expo x)) as [Z0|Z0].
  - assert (expo x = 0) by lia. replace t with 0 in B by lia. rewrite H0. cbn in *. lia.
  - subst t. pose proof (pow_pos (- expo x) ltac:(lia)). split.
    + apply Z.div_le_lower_bound; lia.
    + apply Z.div_le_upper_bound; lia.
Qed.
Lemma floor_under x t H : expo x <= 0 -> t = - expo x -> mant x < H * 2 ^ t -> ffloor x < H.
Proof.
  intros E T B. unfold ffloor. destruct (Z.leb_spec 0 (expo x)) as [Z0|Z0].
  - assert (expo x = 0) by lia. replace t with 0 in B by lia. rewrite H0. cbn in *. lia.
  - subst t. pose proof (pow_pos (- expo x) ltac:(lia)). apply Z.div_lt_upper_bound; lia.
Qed.
(* the product *)
Lemma product n k : 0 < n < 2 ^ 53 -> is_random k ->
  exists q j, dmul (real n) (random k) = Fin (mkf q (-53 + j)) /\ 0 <= j <= 53 /\ 0 <= q * 2 ^ j < n * 2 ^ 53 /\
    (0 < k -> 0 < q).
Proof.
  intros N [K0 K]. unfold real, random. rewrite ieee_small by lia. cbn [dmul mant expo].
  destruct (Z.eq_dec k 0) as [->|KN].
  { rewrite Z.mul_0_r, ieee_zero. exists 0, 53. repeat split; try lia; try reflexivity. }
  assert (M : 0 < n * k < 2 ^ 200).
  { split; [nia|]. eapply Z.lt_trans with (2 ^ 53 * 2 ^ 53); [|reflexivity]. nia. }
  destruct (ieee_round (n * k) (0 + -53) M ltac:(lia)) as (q & j & J0 & J & -> & Q & NR & _).
  exists q, j.
  assert (V : n * k <= n * 2 ^ 53 - n) by nia.
  assert (LT : Z.log2 (n * k) < 106).
  { apply Z.log2_lt_pow2; [lia|]. change (2 ^ 106) with (2 ^ 53 * 2 ^ 53). nia. }
  assert (HALF : j = 0 \/ 2 ^ j < 2 * n).
  { destruct (Z.eq_dec j 0); [auto|]. right.
    pose proof (Z.log2_spec (n * k) ltac:(lia)) as [B _].
    assert (2 ^ Z.log2 (n * k) = 2 ^ 52 * 2 ^ j) as W by (rewrite <- Z.pow_add_r by lia; f_equal; lia).
    rewrite W in B. change (2 ^ 53) with (2 * 2 ^ 52) in V. pose proof (pow_pos 52 ltac:(lia)). nia. }
  pose proof (pow_pos j ltac:(lia)) as P.
  split; [reflexivity|]. split; [|split; [|auto]].
  - split; [lia|]. destruct HALF as [->|HF]; [lia|].
    assert (2 ^ j < 2 ^ 54) as U by (change (2 ^ 54) with (2 * 2 ^ 53); lia).
    apply Z.pow_lt_mono_r_iff in U; lia.
  - split; [nia|]. destruct HALF as [->|HF].
    + change (2 ^ 0) with 1 in *. lia.
    + lia.
Qed.
Lemma high_main a k : 0 < a < 2 ^ 53 -> is_random k ->
  exists n, randint a None k = Some n /\ in_range a None n.
Proof.
  intros A K. unfold randint. cbn [bounds rand_float].
  destruct (product a k A K) as (q & j & -> & J & [B1 B2] & _). eexists. split; [reflexivity|].
  unfold in_range. cbn [lowest limit].
  pose proof (pow_pos j ltac:(lia)) as P.
  assert (E : 2 ^ 53 = 2 ^ (53 - j) * 2 ^ j) by (rewrite <- Z.pow_add_r by lia; f_equal; lia).
  rewrite E in B2. pose proof (pow_pos (53 - j) ltac:(lia)).
  assert (0 <= q) by nia. assert (q < a * 2 ^ (53 - j)) by nia.
  split.
  - assert (L := floor_between (mkf q (-53 + j)) (53 - j) 0 a ltac:(cbn [expo]; lia) ltac:(cbn [expo]; lia)). cbn [mant] in L. apply L. lia.
  - apply (floor_under _ (53 - j)); cbn [mant expo]; lia.
Qed.
(* the sum *)
Lemma sum_eq q j l : 0 <= j <= 53 -> - 2 ^ 53 < l < 2 ^ 53 ->
  plus (Fin (mkf q (-53 + j))) (real l) = ieee (q + l * 2 ^ (53 - j)) (-53 + j).
Proof.
  intros J L. destruct (Z.eq_dec l 0) as [->|N].
  - unfold real. rewrite ieee_zero. unfold plus, dadd, num, den, low. cbn [mant expo]. rewrite Z.min_l by lia.
    rewrite Z.sub_diag, !Z.mul_0_l, Z.mul_1_r, !Z.add_0_r. reflexivity.
  - rewrite real_small by lia. unfold plus, dadd, num, den, low. cbn [mant expo]. rewrite Z.min_l by lia.
    rewrite Z.sub_diag, Z.mul_1_r. replace (0 - (-53 + j)) with (53 - j) by lia. reflexivity.
Qed.
Lemma range_main a b k : - 2 ^ 53 < a < b -> b < 2 ^ 53 -> b - a < 2 ^ 53 -> is_random k ->
  exists n, randint a (Some b) k = Some n /\ a <= n <= b.
Proof.
  intros A B D K. unfold randint. cbn [bounds rand_float].
  destruct (product (b - a) k ltac:(lia) K) as (q & j & -> & J & [B1 B2] & _).
  rewrite sum_eq by lia.
  pose proof (pow_pos j ltac:(lia)) as P.
  assert (E : 2 ^ 53 = 2 ^ (53 - j) * 2 ^ j) by (rewrite <- Z.pow_add_r by lia; f_equal; lia).
  rewrite E in B2. pose proof (pow_pos (53 - j) ltac:(lia)) as G.
  assert (Q0 : 0 <= q) by (clear - B1 P; nia).
  assert (Q1 : q < (b - a) * 2 ^ (53 - j)) by (rewrite Z.mul_assoc in B2; apply Z.mul_lt_mono_pos_r in B2; assumption).
  replace (-53 + j) with (- (53 - j)) by lia.
  set (t := 53 - j) in *. set (m := q + a * 2 ^ t).
  assert (MB : a * 2 ^ t <= m <= b * 2 ^ t) by (unfold m; lia).
  assert (TJ : 0 <= t <= 53) by lia.
  clearbody m t. clear B1 B2 Q0 Q1 E P J K q j k.
  destruct (Z.eq_dec m 0) as [M0|M0].
  { rewrite M0, ieee_zero. eexists. split; [reflexivity|]. cbn. clear - MB M0 G. nia. }
  assert (T : 2 ^ t <= 2 ^ 53) by (apply Z.pow_le_mono_r; lia).
  assert (M : 0 < Z.abs m < 2 ^ 53 * 2 ^ t).
  { split; [lia|]. set (h := 2 ^ 53) in *. clearbody h. clear - MB A B G. set (g := 2 ^ t) in *. clearbody g.
    apply Z.abs_lt. split; nia. }
  destruct (ieee_round_abs m (- t)) as (q2 & k2 & K0 & K2 & -> & NR); [|lia|].
  { split; [lia|]. eapply Z.lt_le_trans; [apply M|]. eapply Z.le_trans with (2 ^ 53 * 2 ^ 53).
    - apply Z.mul_le_mono_nonneg_l; lia.
    - change (2 ^ 53 * 2 ^ 53) with (2 ^ 106). apply Z.pow_le_mono_r; lia. }
  destruct (keep_bounds_abs m t a b q2 k2 M ltac:(lia) K2 NR MB) as [KB KT].
  eexists. split; [reflexivity|].
  apply (floor_between _ (t - k2)); cbn [mant expo]; try lia.
  assert (E2 : 2 ^ t = 2 ^ (t - k2) * 2 ^ k2) by (rewrite <- Z.pow_add_r by lia; f_equal; lia).
  rewrite E2 in KB. pose proof (pow_pos k2 ltac:(lia)) as P2. rewrite !Z.mul_assoc in KB.
  set (p := 2 ^ k2) in *. set (g := 2 ^ (t - k2)) in *. clearbody p g. clear - KB P2. nia.
Qed.
Lemma top_main j a k : 0 <= j -> 2 ^ j <= a -> a + 1 <= 2 ^ (j + 1) -> a + 1 < 2 ^ 53 -> is_random k -> 2 ^ 53 - k < 2 ^ j ->
  randint a (Some (a + 1)) k = Some (a + 1).
Proof.
  intros J A1 A2 A3 [K0 K1] K.
  assert (J52 : j < 53) by (apply (Z.pow_lt_mono_r_iff 2); lia).
  assert (JP : 2 ^ j <= 2 ^ 52) by (apply Z.pow_le_mono_r; lia).
  assert (KP : 0 < k) by (change (2 ^ 53) with (2 * 2 ^ 52) in K; pose proof (pow_pos 52); lia).
  unfold randint. cbn [bounds rand_float]. replace (a + 1 - a) with 1 by lia.
  unfold random. replace (dmul (real 1) (Fin (mkf k (-53)))) with (Fin (mkf k (-53 + 0))).
  2:{ unfold real. rewrite ieee_small by (split; [lia|reflexivity] || lia). cbn [dmul mant expo].
      rewrite Z.mul_1_l, ieee_small by lia. reflexivity. }
  pose proof (pow_pos j J). rewrite sum_eq by lia. rewrite Z.sub_0_r. 
  set (m := k + a * 2 ^ 53).
  assert (W : 2 ^ (j + 1) = 2 * 2 ^ j) by (rewrite Z.pow_add_r by lia; change (2 ^ 1) with 2; lia).
  assert (ML : 2 ^ (j + 53) <= m) by (rewrite Z.pow_add_r by lia; unfold m; nia).
  assert (MU : m < 2 ^ (j + 54)).
  { replace (j + 54) with (j + 1 + 53) by lia. rewrite Z.pow_add_r by lia. unfold m. nia. }
  assert (LG : Z.log2 m = j + 53) by (apply Z.log2_unique; [lia|]; replace (Z.succ (j + 53)) with (j + 54) by lia; lia).
  destruct (ieee_round m (-53 + 0)) as (q & k2 & _ & K2 & -> & Q & NR & _); [|lia|].
  { split; [pose proof (pow_pos (j + 53)); lia|]. eapply Z.lt_trans; [exact MU|]. apply Z.pow_lt_mono_r; lia. }
  rewrite LG in K2. assert (k2 = j + 1) by lia. subst k2. rewrite H0 in *.
  assert (E : 2 ^ 53 = 2 ^ (52 - j) * 2 ^ (j + 1)) by (rewrite <- Z.pow_add_r by lia; f_equal; lia).
  assert (QV : q = (a + 1) * 2 ^ (52 - j)).
  { assert (D : q * 2 ^ (j + 1) - (a + 1) * 2 ^ 53 = q * 2 ^ (j + 1) - m - (2 ^ 53 - k)) by (unfold m; lia).
    rewrite E in D at 1. rewrite W in *.
    assert (AB : Z.abs (q - (a + 1) * 2 ^ (52 - j)) * (2 * 2 ^ j) < 2 * 2 ^ j).
    { rewrite <- (Z.abs_eq (2 * 2 ^ j)) at 1 by lia. rewrite <- Z.abs_mul.
      replace ((q - (a + 1) * 2 ^ (52 - j)) * (2 * 2 ^ j)) with (q * (2 * 2 ^ j) - m - (2 ^ 53 - k)) by lia. lia. }
    set (z := q - (a + 1) * 2 ^ (52 - j)) in *. assert (PJ : 0 < 2 * 2 ^ j) by lia.
    assert (Z.abs z < 1) by (set (p := 2 * 2 ^ j) in *; clearbody p z; clear - AB PJ; nia). unfold z in *. lia. }
  f_equal. unfold ffloor. cbn [mant expo]. rewrite QV.
  destruct (Z.leb_spec 0 (-53 + 0 + (j + 1))) as [Z0|Z0].
  - replace (52 - j) with 0 by lia. replace (-53 + 0 + (j + 1)) with 0 by lia. lia.
  - replace (- (-53 + 0 + (j + 1))) with (52 - j) by lia. apply Z.div_mul. pose proof (pow_pos (52 - j)). lia.
Qed.
(* a random number for every number in the range *)
Lemma product_onto h n : 0 <= n < h -> h <= 2 ^ 52 ->
  exists k q j, is_random k /\ dmul (real h) (random k) = Fin (mkf q (-53 + j)) /\ 0 <= j <= 53 /\
    n * 2 ^ (53 - j) <= q /\ 2 * q <= (2 * n + 1) * 2 ^ (53 - j).
Proof.
  intros N H. assert (H53 : h < 2 ^ 53) by (change (2 ^ 53) with (2 * 2 ^ 52); lia).
  unfold real, random. rewrite ieee_small by lia. cbn [dmul mant expo].
  destruct (Z.eq_dec n 0) as [->|N0].
  { exists 0, 0, 53. unfold is_random. rewrite Z.mul_0_r, ieee_zero. repeat split; lia. }
  pose proof (Z.div_mod (n * 2 ^ 53 + h - 1) h ltac:(lia)) as D.
  pose proof (Z.mod_pos_bound (n * 2 ^ 53 + h - 1) h ltac:(lia)) as R.
  set (k := (n * 2 ^ 53 + h - 1) / h) in *. set (r := (n * 2 ^ 53 + h - 1) mod h) in *. clearbody k r.
  assert (M1 : n * 2 ^ 53 <= h * k) by lia. assert (M2 : h * k <= n * 2 ^ 53 + 2 ^ 52) by lia.
  assert (K1 : 0 < k) by nia. assert (K2 : k < 2 ^ 53) by nia.
  assert (MB : 0 < h * k < 2 ^ 53 * 2 ^ 52) by nia.
  destruct (ieee_round (h * k) (0 + -53)) as (q & j & J0 & J & E & Q & NR & _); [|lia|].
  { split; [lia|]. eapply Z.lt_trans; [apply MB|reflexivity]. }
  destruct (keep_bounds (h * k) 52 (2 * n) (2 * n + 1) q j MB ltac:(lia) J NR) as [KB KT].
  { change (2 ^ 53) with (2 * 2 ^ 52) in *. lia. }
  exists k, q, j. split; [unfold is_random; lia|]. split; [exact E|]. split; [lia|].
  assert (E2 : 2 ^ 52 = 2 ^ (52 - j) * 2 ^ j) by (rewrite <- Z.pow_add_r by lia; f_equal; lia).
  assert (E3 : 2 ^ (53 - j) = 2 * 2 ^ (52 - j)) by (replace (53 - j) with (1 + (52 - j)) by lia; rewrite Z.pow_add_r by lia; lia).
  rewrite E2 in KB. rewrite E3. pose proof (pow_pos j J0) as P. rewrite !Z.mul_assoc in KB.
  set (p := 2 ^ j) in *. set (g := 2 ^ (52 - j)) in *. clearbody p g. clear - KB P.
  split; nia.
Qed.
Lemma floor_is q e N : e <= 0 -> N * 2 ^ (- e) <= q -> 2 * q <= (2 * N + 1) * 2 ^ (- e) -> ffloor (mkf q e) = N.
Proof.
  intros E L H. pose proof (pow_pos (- e) ltac:(lia)).
  assert (N <= ffloor (mkf q e) <= N + 1) by (apply (floor_between _ (- e)); cbn [mant expo]; lia).
  assert (ffloor (mkf q e) < N + 1) by (apply (floor_under _ (- e)); cbn [mant expo]; lia).
  lia.
Qed.
Lemma high_onto a n : 0 <= n < a -> a <= 2 ^ 52 -> exists k, is_random k /\ randint a None k = Some n.
Proof.
  intros N A. destruct (product_onto a n N A) as (k & q & j & K & E & J & L & H). exists k. split; [exact K|].
  unfold randint. cbn [bounds rand_float]. rewrite E. f_equal.
  apply floor_is; [lia| |]; replace (- (-53 + j)) with (53 - j) by lia; assumption.
Qed.
Lemma range_onto a b n : - 2 ^ 52 < a <= n -> n < b -> b <= 2 ^ 52 -> b - a <= 2 ^ 52 -> exists k, is_random k /\ randint a (Some b) k = Some n.
Proof.
  intros N NB B D. destruct (product_onto (b - a) (n - a) ltac:(lia) ltac:(lia)) as (k & q & j & K & E & J & L & H).
  exists k. split; [exact K|]. unfold randint. cbn [bounds rand_float]. rewrite E.
  rewrite sum_eq by (change (2 ^ 53) with (2 * 2 ^ 52); lia).
  replace (-53 + j) with (- (53 - j)) by lia. set (t := 53 - j) in *. set (m := q + a * 2 ^ t).
  pose proof (pow_pos t ltac:(lia)) as G.
  assert (ML : n * 2 ^ t <= m) by (unfold m; lia). assert (MH : 2 * m <= (2 * n + 1) * 2 ^ t) by (unfold m; lia).
  assert (TJ : 0 <= t <= 53) by lia.
  clearbody m t. clear E L H J q j K k.
  destruct (Z.eq_dec m 0) as [M0|M0].
  { rewrite M0, ieee_zero. f_equal. cbn. clear - ML MH M0 G. nia. }
  destruct (Z.eq_dec t 0) as [->|T0].
  { change (2 ^ 0) with 1 in *. assert (m = n) by lia. subst m.
    change (- 0) with 0. fold (real n). rewrite real_small by (change (2 ^ 53) with (2 * 2 ^ 52); lia). f_equal. apply floor_is; change (2 ^ - 0) with 1; lia. }
  assert (E3 : 2 ^ t = 2 * 2 ^ (t - 1)) by (replace t with (1 + (t - 1)) at 1 by lia; rewrite Z.pow_add_r by lia; lia).
  pose proof (pow_pos (t - 1) ltac:(lia)) as G1.
  assert (MB : 0 < Z.abs m < 2 ^ 53 * 2 ^ (t - 1)).
  { split; [lia|]. change (2 ^ 53) with (2 * 2 ^ 52). rewrite E3 in *. set (h := 2 ^ 52) in *. set (g := 2 ^ (t - 1)) in *.
    clearbody h g. clear - ML MH N NB B G1. apply Z.abs_lt. split; nia. }
  assert (T : 2 ^ (t - 1) <= 2 ^ 52) by (apply Z.pow_le_mono_r; lia).
  destruct (ieee_round_abs m (- t)) as (q & j & J0 & J & E & NR); [|lia|].
  { split; [lia|]. eapply Z.lt_trans; [apply MB|]. eapply Z.le_lt_trans with (2 ^ 53 * 2 ^ 52); [apply Z.mul_le_mono_nonneg_l; lia|reflexivity]. }
  destruct (keep_bounds_abs m (t - 1) (2 * n) (2 * n + 1) q j MB ltac:(lia) J NR ltac:(lia)) as [KB KT].
  rewrite E. f_equal. apply floor_is; [lia| |]; replace (- (- t + j)) with (1 + (t - 1 - j)) by lia;
  rewrite Z.pow_add_r by lia; change (2 ^ 1) with 2;
  (assert (E2 : 2 ^ (t - 1) = 2 ^ (t - 1 - j) * 2 ^ j) by (rewrite <- Z.pow_add_r by lia; f_equal; lia));
  rewrite E2 in KB; pose proof (pow_pos j J0) as P; rewrite !Z.mul_assoc in KB;
  set (p := 2 ^ j) in *; set (g := 2 ^ (t - 1 - j)) in *; clearbody p g; clear - KB P; nia.
Qed.
(* the sum with the lower bound reaches the upper bound *)
Lemma rne_up m k B : 0 < k -> Z.even B = true -> 2 * B * 2 ^ k - 2 ^ k <= 2 * m -> m < B * 2 ^ k -> rne m k = B.
Proof.
  intros K EV L U. pose proof (pow_pos k ltac:(lia)) as P. unfold rne. cbv zeta.
  assert (D : m / 2 ^ k = B - 1) by (symmetry; apply (Z.div_unique _ _ _ (m - (B - 1) * 2 ^ k)); lia).
  pose proof (Z.div_mod m (2 ^ k) ltac:(lia)) as DM. rewrite D in *.
  destruct (Z.ltb_spec (2 * (m mod 2 ^ k)) (2 ^ k)); [lia|].
  destruct (Z.ltb_spec (2 ^ k) (2 * (m mod 2 ^ k))); [lia|].
  rewrite Z.even_sub, EV. cbn. lia.
Qed.
Lemma product_top h i : 0 < h <= 2 ^ i -> 0 <= i <= 52 ->
  exists q j, dmul (real h) (random (2 ^ 53 - 1)) = Fin (mkf q (-53 + j)) /\ 0 <= j <= i /\
    h * 2 ^ 53 - 2 ^ i <= q * 2 ^ j < h * 2 ^ 53.
Proof.
  intros H I. assert (IP : 2 ^ i <= 2 ^ 52) by (apply Z.pow_le_mono_r; lia).
  assert (H53 : h < 2 ^ 53) by (change (2 ^ 53) with (2 * 2 ^ 52); lia).
  assert (MB : 0 < h * (2 ^ 53 - 1) < 2 ^ 53 * 2 ^ i) by (pose proof (pow_pos i ltac:(lia)); lia).
  destruct (product h (2 ^ 53 - 1) ltac:(lia)) as (q0 & j0 & E0 & _ & [_ U0] & _); [unfold is_random; lia|].
  unfold real, random in *. rewrite ieee_small in * by lia. cbn [dmul mant expo] in *.
  destruct (ieee_round (h * (2 ^ 53 - 1)) (0 + -53)) as (q & j & J0 & J & E & Q & NR & _); [|lia|].
  { split; [lia|]. eapply Z.lt_le_trans; [apply MB|]. eapply Z.le_trans with (2 ^ 53 * 2 ^ 52); [lia|].
    change (2 ^ 53 * 2 ^ 52) with (2 ^ 105). apply Z.pow_le_mono_r; lia. }
  assert (EI : 2 ^ 53 = 2 ^ (53 - i) * 2 ^ i) by (rewrite <- Z.pow_add_r by lia; f_equal; lia).
  destruct (keep_bounds (h * (2 ^ 53 - 1)) i (h * 2 ^ (53 - i) - 1) (h * 2 ^ (53 - i)) q j MB ltac:(lia) J NR) as [KB KT].
  { rewrite Z.mul_sub_distr_r, <- Z.mul_assoc, <- EI. lia. }
  rewrite Z.mul_sub_distr_r, <- Z.mul_assoc, <- EI in KB.
  rewrite E in E0. assert (X : mkf q (0 + -53 + j) = mkf q0 (-53 + j0)) by congruence.
  assert (Q0 : q = q0) by exact (f_equal mant X).
  assert (J1 : 0 + -53 + j = -53 + j0) by exact (f_equal expo X). assert (j0 = j) by lia. subst q0 j0.
  exists q, j. split; [exact E|]. lia.
Qed.
Lemma upper_main a b i : 0 <= i -> a < b -> b - a <= 2 ^ i -> 2 ^ i < b -> b <= 2 ^ 52 ->
  randint a (Some b) (2 ^ 53 - 1) = Some b.
Proof.
  intros I AB D IB B. pose proof (pow_pos i I) as IP.
  pose proof (Z.log2_spec (b - 1) ltac:(lia)) as [J1 J2]. set (J := Z.log2 (b - 1)) in *.
  assert (J0 : 0 <= J) by apply Z.log2_nonneg.
  assert (J52 : J < 52) by (apply (Z.pow_lt_mono_r_iff 2); lia).
  assert (IJ : i <= J) by (assert (i < Z.succ J) by (apply (Z.pow_lt_mono_r_iff 2); lia); lia).
  assert (PIJ : 2 ^ i <= 2 ^ J) by (apply Z.pow_le_mono_r; lia).
  assert (SJ : 2 ^ Z.succ J = 2 * 2 ^ J) by (rewrite Z.pow_succ_r; lia). rewrite SJ in J2. clearbody J.
  unfold randint. cbn [bounds rand_float].
  destruct (product_top (b - a) i ltac:(lia) ltac:(lia)) as (q & j & -> & JJ & L & U).
  rewrite sum_eq by (change (2 ^ 53) with (2 * 2 ^ 52); lia).
  pose proof (pow_pos j ltac:(lia)) as PJ.
  assert (EJ : 2 ^ 53 = 2 ^ (53 - j) * 2 ^ j) by (rewrite <- Z.pow_add_r by lia; f_equal; lia).
  set (m := q + a * 2 ^ (53 - j)).
  assert (ME : m * 2 ^ j = q * 2 ^ j + a * 2 ^ 53) by (unfold m; rewrite EJ; ring).
  assert (ML : b * 2 ^ 53 - 2 ^ J <= m * 2 ^ j) by (rewrite ME; lia).
  assert (MU : m * 2 ^ j < b * 2 ^ 53) by (rewrite ME; lia).
  clearbody m. clear ME L U q EJ.
  set (k := J + 1 - j).
  assert (EK : 2 ^ 53 = 2 ^ (52 - J) * (2 ^ k * 2 ^ j)) by (rewrite <- !Z.pow_add_r by lia; f_equal; lia).
  assert (E1 : 2 * 2 ^ J = 2 ^ k * 2 ^ j) by (rewrite <- SJ, <- Z.pow_add_r by lia; f_equal; lia).
  set (B2 := b * 2 ^ (52 - J)).
  assert (EB : b * 2 ^ 53 = B2 * 2 ^ k * 2 ^ j) by (rewrite EK; unfold B2; ring).
  assert (M1 : 2 * B2 * 2 ^ k - 2 ^ k <= 2 * m).
  { apply (Z.mul_le_mono_pos_r _ _ (2 ^ j)); [lia|]. rewrite Z.mul_sub_distr_r, <- E1.
    replace (2 * B2 * 2 ^ k * 2 ^ j) with (2 * (b * 2 ^ 53)) by (rewrite EB; ring). lia. }
  assert (M2 : m < B2 * 2 ^ k) by (apply (Z.mul_lt_mono_pos_r (2 ^ j)); lia).
  assert (EV : Z.even B2 = true).
  { unfold B2. replace (52 - J) with (Z.succ (51 - J)) by lia. rewrite Z.pow_succ_r by lia. rewrite !Z.even_mul. cbn. apply Bool.orb_true_r. }
  assert (LG : Z.log2 m = J + 53 - j).
  { assert (P53 : 2 ^ (J + 53) = 2 ^ J * 2 ^ 53) by (apply Z.pow_add_r; lia).
    assert (X1 : 2 ^ (J + 53 - j) * 2 ^ j = 2 ^ J * 2 ^ 53) by (rewrite <- P53, <- Z.pow_add_r by lia; f_equal; lia).
    assert (X2 : 2 ^ Z.succ (J + 53 - j) = 2 * 2 ^ (J + 53 - j)) by (apply Z.pow_succ_r; lia).
    pose proof (pow_pos J J0). assert (2 ^ J <= 2 ^ 52) by (apply Z.pow_le_mono_r; lia).
    apply Z.log2_unique; [lia|]. rewrite X2. split.
    - apply (Z.mul_le_mono_pos_r _ _ (2 ^ j)); [lia|]. rewrite X1. lia.
    - apply (Z.mul_lt_mono_pos_r (2 ^ j)); [lia|]. rewrite <- Z.mul_assoc, X1. lia. }
  pose proof (pow_pos (52 - J) ltac:(lia)) as PB. pose proof (pow_pos k ltac:(lia)) as PK.
  assert (B0 : 0 < B2) by (unfold B2; apply Z.mul_pos_pos; lia).
  assert (M0 : 0 < m).
  { destruct (Z.le_gt_cases m 0); [|lia]. rewrite Z.log2_nonpos in LG; lia. }
  assert (BL : B2 <= 2 ^ 53).
  { unfold B2. eapply Z.le_trans with (2 * 2 ^ J * 2 ^ (52 - J)); [apply Z.mul_le_mono_nonneg_r; lia|].
    rewrite <- Z.mul_assoc, <- Z.pow_add_r by lia. replace (J + (52 - J)) with 52 by lia. lia. }
  unfold ieee. rewrite Z.abs_eq by lia. rewrite LG. replace (J + 53 - j - 52) with k by lia.
  rewrite Z.max_l by lia. destruct (Z.leb_spec k 0); [lia|].
  rewrite (rne_up m k B2) by lia || assumption.
  destruct (Z.eqb_spec B2 0); [lia|].
  assert (Z.log2 B2 <= 53) by (rewrite <- (Z.log2_pow2 53) by lia; apply Z.log2_le_mono; lia).
  destruct (Z.leb_spec 1024 (Z.log2 B2 + (-53 + j + k))); [lia|].
  rewrite Z.sgn_pos, Z.mul_1_l by lia. f_equal.
  unfold ffloor. cbn [mant expo]. destruct (Z.leb_spec 0 (-53 + j + k)); [lia|].
  replace (- (-53 + j + k)) with (52 - J) by lia. unfold B2. apply Z.div_mul. lia.
Qed.
(* no power of two between the difference and the upper bound: the sum stays below *)
Lemma product_below h i k : 0 < h <= 2 ^ i -> 2 ^ i < 2 * h -> 0 <= i <= 52 -> is_random k -> 0 < k ->
  exists q j, dmul (real h) (random k) = Fin (mkf q (-53 + j)) /\ 0 <= j <= i /\ 0 < q /\
    q * 2 ^ j <= h * 2 ^ 53 - 2 ^ i.
Proof.
  intros H H2 I K K0. assert (IP : 2 ^ i <= 2 ^ 52) by (apply Z.pow_le_mono_r; lia).
  pose proof (pow_pos i ltac:(lia)) as PI.
  assert (H53 : h < 2 ^ 53) by (change (2 ^ 53) with (2 * 2 ^ 52); lia).
  destruct (product h k ltac:(lia) K) as (q0 & j0 & E0 & _ & [_ U0] & _).
  unfold real, random in *. rewrite ieee_small in * by lia. cbn [dmul mant expo] in *. destruct K as [_ K].
  assert (M0 : 0 < h * k) by (apply Z.mul_pos_pos; lia).
  assert (MU : h * k < h * 2 ^ 53) by (apply Z.mul_lt_mono_pos_l; lia).
  assert (MB : 0 < h * k < 2 ^ 53 * 2 ^ i) by lia.
  destruct (ieee_round (h * k) (0 + -53)) as (q & j & J0 & J & E & Q & NR & _); [|lia|].
  { split; [lia|]. eapply Z.lt_le_trans; [apply MB|]. eapply Z.le_trans with (2 ^ 53 * 2 ^ 52); [lia|].
    change (2 ^ 53 * 2 ^ 52) with (2 ^ 105). apply Z.pow_le_mono_r; lia. }
  destruct (keep_bounds (h * k) i 0 (2 ^ 53) q j MB ltac:(lia) J NR ltac:(lia)) as [_ KT].
  rewrite E in E0. assert (X : mkf q (0 + -53 + j) = mkf q0 (-53 + j0)) by congruence.
  assert (Q0 : q = q0) by exact (f_equal mant X).
  assert (J1 : 0 + -53 + j = -53 + j0) by exact (f_equal expo X). assert (j0 = j) by lia. subst q0 j0.
  exists q, j. split; [exact E|]. split; [lia|]. split; [exact Q|].
  destruct (Z.eq_dec j i) as [->|NE].
  - assert (EI : 2 ^ 53 = 2 ^ (53 - i) * 2 ^ i) by (rewrite <- Z.pow_add_r by lia; f_equal; lia).
    rewrite EI, Z.mul_assoc in *. apply Z.mul_lt_mono_pos_r in U0; [|lia].
    replace (h * 2 ^ (53 - i) * 2 ^ i - 2 ^ i) with ((h * 2 ^ (53 - i) - 1) * 2 ^ i) by ring.
    apply Z.mul_le_mono_nonneg_r; lia.
  - assert (LG : Z.log2 (h * k) < 52 + i) by lia.
    assert (MS : h * k < 2 ^ (52 + i)) by (apply Z.log2_lt_pow2; lia).
    rewrite Z.pow_add_r in MS by lia.
    destruct (keep_bounds (h * k) i 0 (2 ^ 52) q j MB ltac:(lia) J NR ltac:(lia)) as [[_ KB] _].
    assert (EI : 2 ^ i = 2 * 2 ^ (i - 1)) by (rewrite <- Z.pow_succ_r by lia; f_equal; lia).
    assert (h >= 2 ^ (i - 1) + 1) by lia. change (2 ^ 53) with (2 * 2 ^ 52) in *. lia.
Qed.
Lemma below_main a b i k : 0 <= a < b -> 0 <= i <= 52 -> b <= 2 ^ i -> 2 ^ i < 2 * (b - a) -> is_random k ->
  exists n, randint a (Some b) k = Some n /\ a <= n < b.
Proof.
  intros A I B D K. assert (IP : 2 ^ i <= 2 ^ 52) by (apply Z.pow_le_mono_r; lia).
  pose proof (pow_pos i ltac:(lia)) as PI.
  destruct (range_main a b k) as (n & R & N); try (change (2 ^ 53) with (2 * 2 ^ 52)); try lia; [exact K|].
  exists n. split; [exact R|]. split; [lia|].
  unfold randint in R. cbn [bounds rand_float] in R.
  destruct (Z.eq_dec k 0) as [->|K0].
  { unfold random in R. replace (dmul (real (b - a)) (Fin (mkf 0 (-53)))) with (Fin (mkf 0 (-53 + 53))) in R.
    2:{ unfold real. rewrite ieee_small by (change (2 ^ 53) with (2 * 2 ^ 52); lia). cbn [dmul mant expo].
        rewrite Z.mul_0_r, ieee_zero. reflexivity. }
    rewrite sum_eq in R by (change (2 ^ 53) with (2 * 2 ^ 52); lia).
    change (53 - 53) with 0 in R. change (-53 + 53) with 0 in R. change (2 ^ 0) with 1 in R.
    rewrite Z.add_0_l, Z.mul_1_r in R. fold (real a) in R. destruct (Z.eq_dec a 0) as [->|A0].
    - unfold real in R. rewrite ieee_zero in R. cbn in R. assert (n = 0) by congruence. lia.
    - rewrite real_small in R by (change (2 ^ 53) with (2 * 2 ^ 52); lia).
      assert (NF : n = ffloor (mkf a 0)) by congruence. cbn [ffloor mant expo] in NF. unfold ffloor in NF.
      cbn [mant expo] in NF. change (0 <=? 0) with true in NF. change (2 ^ 0) with 1 in NF. cbv beta iota in NF. lia. }
  pose proof K as [K1 K2].
  destruct (product_below (b - a) i k ltac:(lia) ltac:(lia) I K ltac:(lia)) as (q & j & E & J & Q & U).
  rewrite E in R. rewrite sum_eq in R by (change (2 ^ 53) with (2 * 2 ^ 52); lia).
  pose proof (pow_pos j ltac:(lia)) as PJ.
  assert (EJ : 2 ^ 53 = 2 ^ (53 - j) * 2 ^ j) by (rewrite <- Z.pow_add_r by lia; f_equal; lia).
  set (m := q + a * 2 ^ (53 - j)) in *. pose proof (pow_pos (53 - j) ltac:(lia)) as P53.
  assert (M0 : 0 < m) by (unfold m; pose proof (Z.mul_nonneg_nonneg a (2 ^ (53 - j)) ltac:(lia) ltac:(lia)); lia).
  assert (ME : m * 2 ^ j = q * 2 ^ j + a * 2 ^ 53) by (unfold m; rewrite EJ; ring).
  assert (MU : m * 2 ^ j <= b * 2 ^ 53 - 2 ^ i) by (rewrite ME; lia).
  clearbody m. clear ME U E q Q EJ.
  assert (EI : 2 ^ 53 = 2 ^ (53 - i) * 2 ^ i) by (rewrite <- Z.pow_add_r by lia; f_equal; lia).
  assert (EIJ : 2 ^ i = 2 ^ (i - j) * 2 ^ j) by (rewrite <- Z.pow_add_r by lia; f_equal; lia).
  pose proof (pow_pos (i - j) ltac:(lia)) as PIJ. pose proof (pow_pos (53 - i) ltac:(lia)) as P53I.
  assert (MH : m <= (b * 2 ^ (53 - i) - 1) * 2 ^ (i - j)).
  { apply (Z.mul_le_mono_pos_r _ _ (2 ^ j)); [lia|]. rewrite <- Z.mul_assoc, <- EIJ, Z.mul_sub_distr_r, <- Z.mul_assoc, <- EI. lia. }
  assert (BH : b * 2 ^ (53 - i) <= 2 ^ 53).
  { rewrite EI. rewrite (Z.mul_comm (2 ^ (53 - i))). apply Z.mul_le_mono_nonneg_r; lia. }
  assert (MB : 0 < m < 2 ^ 53 * 2 ^ (i - j)).
  { split; [lia|]. eapply Z.le_lt_trans; [exact MH|]. apply Z.mul_lt_mono_pos_r; lia. }
  assert (PL : 2 ^ (i - j) <= 2 ^ 52) by (apply Z.pow_le_mono_r; lia).
  destruct (ieee_round m (-53 + j)) as (q2 & k2 & K3 & K4 & E & Q2 & NR & _); [|lia|].
  { split; [lia|]. eapply Z.lt_le_trans; [apply MB|]. eapply Z.le_trans with (2 ^ 53 * 2 ^ 52); [lia|].
    change (2 ^ 53 * 2 ^ 52) with (2 ^ 105). apply Z.pow_le_mono_r; lia. }
  destruct (keep_bounds m (i - j) 0 (b * 2 ^ (53 - i) - 1) q2 k2 MB ltac:(lia) K4 NR ltac:(lia)) as [[_ KB] KT].
  rewrite E in R. assert (NF : n = ffloor (mkf q2 (-53 + j + k2))) by congruence. rewrite NF.
  apply (floor_under _ (53 - j - k2)); cbn [mant expo]; [lia|lia|].
  apply (Z.mul_lt_mono_pos_r (2 ^ k2)); [apply pow_pos; lia|]. eapply Z.le_lt_trans; [exact KB|].
  rewrite <- Z.mul_assoc, <- Z.pow_add_r by lia. replace (53 - j - k2 + k2) with (53 - i + (i - j)) by lia.
  rewrite Z.pow_add_r, Z.mul_assoc by lia. apply Z.mul_lt_mono_pos_r; lia.
Qed.
Lemma exact_main a b : 0 <= a < b -> b <= 2 ^ 52 ->
  (forall k, is_random k -> exists n, randint a (Some b) k = Some n /\ a <= n < b) <->
  ~ exists i, 0 <= i /\ b - a <= 2 ^ i < b.
Proof.
  intros A B. split.
  - intros F (i & I & D & U). destruct (F (2 ^ 53 - 1)) as (n & R & N); [unfold is_random; lia|].
    rewrite (upper_main a b i) in R by lia. assert (n = b) by congruence. lia.
  - intros F k K. pose proof (Z.log2_up_nonneg (b - a)) as L0. set (i := Z.log2_up (b - a)) in *.
    assert (LU : b - a <= 2 ^ i) by (apply Z.log2_up_le_pow2; lia).
    assert (BI : b <= 2 ^ i) by (destruct (Z.le_gt_cases b (2 ^ i)); [assumption|]; exfalso; apply F; exists i; lia).
    assert (I52 : i <= 52) by (apply Z.log2_up_le_pow2; lia).
    apply (below_main a b i k); try lia; [|exact K].
    destruct (Z.eq_dec (b - a) 1) as [E|E]; [unfold i; rewrite E; cbn; lia|].
    destruct (Z.log2_up_spec (b - a) ltac:(lia)) as [S _]. fold i in S.
    assert (0 < i) by (apply Z.log2_up_pos; lia).
    assert (EI : 2 ^ i = 2 * 2 ^ Z.pred i) by (rewrite <- Z.pow_succ_r by lia; f_equal; lia). lia.
Qed.
(* negative lower bounds *)
Lemma rne_down m k B : 0 < k -> Z.even B = true -> B * 2 ^ k <= m -> 2 * m <= 2 * B * 2 ^ k + 2 ^ k -> rne m k = B.
Proof.
  intros K EV L U. pose proof (pow_pos k ltac:(lia)) as P. unfold rne. cbv zeta.
  assert (D : m / 2 ^ k = B) by (symmetry; apply (Z.div_unique _ _ _ (m - B * 2 ^ k)); lia).
  pose proof (Z.div_mod m (2 ^ k) ltac:(lia)) as DM. rewrite D in *.
  destruct (Z.ltb_spec (2 * (m mod 2 ^ k)) (2 ^ k)); [lia|].
  destruct (Z.ltb_spec (2 ^ k) (2 * (m mod 2 ^ k))); [lia|].
  rewrite EV. reflexivity.
Qed.
Lemma upper_neg a c i : 0 <= i -> a < - c -> - c - a <= 2 ^ i -> 2 ^ i <= c -> - 2 ^ 52 <= a ->
  randint a (Some (- c)) (2 ^ 53 - 1) = Some (- c).
Proof.
  intros I AB D IB A. pose proof (pow_pos i I) as IP.
  pose proof (Z.log2_spec c ltac:(lia)) as [J1 J2]. set (J := Z.log2 c) in *.
  assert (J0 : 0 <= J) by apply Z.log2_nonneg.
  assert (J52 : J < 52) by (apply (Z.pow_lt_mono_r_iff 2); lia).
  assert (IJ : i <= J) by (assert (i < Z.succ J) by (apply (Z.pow_lt_mono_r_iff 2); lia); lia).
  assert (PIJ : 2 ^ i <= 2 ^ J) by (apply Z.pow_le_mono_r; lia).
  assert (SJ : 2 ^ Z.succ J = 2 * 2 ^ J) by (rewrite Z.pow_succ_r; lia). rewrite SJ in J2. clearbody J.
  unfold randint. cbn [bounds rand_float].
  destruct (product_top (- c - a) i ltac:(lia) ltac:(lia)) as (q & j & -> & JJ & L & U).
  rewrite sum_eq by (change (2 ^ 53) with (2 * 2 ^ 52); lia).
  pose proof (pow_pos j ltac:(lia)) as PJ.
  assert (EJ : 2 ^ 53 = 2 ^ (53 - j) * 2 ^ j) by (rewrite <- Z.pow_add_r by lia; f_equal; lia).
  set (w := q + a * 2 ^ (53 - j)). set (m := - w).
  assert (ME : m * 2 ^ j = - (q * 2 ^ j + a * 2 ^ 53)) by (unfold m, w; rewrite EJ; ring).
  assert (ML : m * 2 ^ j <= c * 2 ^ 53 + 2 ^ J) by (rewrite ME; lia).
  assert (MU : c * 2 ^ 53 < m * 2 ^ j) by (rewrite ME; lia).
  assert (WM : - w = m) by reflexivity. clearbody w m. clear ME L U q EJ.
  set (k := J + 1 - j).
  assert (EK : 2 ^ 53 = 2 ^ (52 - J) * (2 ^ k * 2 ^ j)) by (rewrite <- !Z.pow_add_r by lia; f_equal; lia).
  assert (E1 : 2 * 2 ^ J = 2 ^ k * 2 ^ j) by (rewrite <- SJ, <- Z.pow_add_r by lia; f_equal; lia).
  set (B2 := c * 2 ^ (52 - J)).
  assert (EB : c * 2 ^ 53 = B2 * 2 ^ k * 2 ^ j) by (rewrite EK; unfold B2; ring).
  assert (M1 : 2 * m <= 2 * B2 * 2 ^ k + 2 ^ k).
  { apply (Z.mul_le_mono_pos_r _ _ (2 ^ j)); [lia|]. rewrite Z.mul_add_distr_r, <- E1.
    replace (2 * B2 * 2 ^ k * 2 ^ j) with (2 * (c * 2 ^ 53)) by (rewrite EB; ring). lia. }
  assert (M2 : B2 * 2 ^ k < m) by (apply (Z.mul_lt_mono_pos_r (2 ^ j)); lia).
  assert (EV : Z.even B2 = true).
  { unfold B2. replace (52 - J) with (Z.succ (51 - J)) by lia. rewrite Z.pow_succ_r by lia. rewrite !Z.even_mul. cbn. apply Bool.orb_true_r. }
  assert (LG : Z.log2 m = J + 53 - j).
  { assert (P53 : 2 ^ (J + 53) = 2 ^ J * 2 ^ 53) by (apply Z.pow_add_r; lia).
    assert (X1 : 2 ^ (J + 53 - j) * 2 ^ j = 2 ^ J * 2 ^ 53) by (rewrite <- P53, <- Z.pow_add_r by lia; f_equal; lia).
    assert (X2 : 2 ^ Z.succ (J + 53 - j) = 2 * 2 ^ (J + 53 - j)) by (apply Z.pow_succ_r; lia).
    pose proof (pow_pos J J0). assert (2 ^ J <= 2 ^ 52) by (apply Z.pow_le_mono_r; lia).
    apply Z.log2_unique; [lia|]. rewrite X2. split.
    - apply (Z.mul_le_mono_pos_r _ _ (2 ^ j)); [lia|]. rewrite X1. lia.
    - apply (Z.mul_lt_mono_pos_r (2 ^ j)); [lia|]. rewrite <- Z.mul_assoc, X1. lia. }
  pose proof (pow_pos (52 - J) ltac:(lia)) as PB. pose proof (pow_pos k ltac:(lia)) as PK.
  assert (B0 : 0 < B2) by (unfold B2; apply Z.mul_pos_pos; lia).
  assert (M0 : 0 < m).
  { destruct (Z.le_gt_cases m 0); [|lia]. rewrite Z.log2_nonpos in LG; lia. }
  assert (BL : B2 <= 2 ^ 53).
  { unfold B2. eapply Z.le_trans with (2 * 2 ^ J * 2 ^ (52 - J)); [apply Z.mul_le_mono_nonneg_r; lia|].
    rewrite <- Z.mul_assoc, <- Z.pow_add_r by lia. replace (J + (52 - J)) with 52 by lia. lia. }
  assert (R : ieee m (-53 + j) = Fin (mkf B2 (-53 + j + k))).
  { unfold ieee. rewrite Z.abs_eq by lia. rewrite LG. replace (J + 53 - j - 52) with k by lia.
    rewrite Z.max_l by lia. destruct (Z.leb_spec k 0); [lia|].
    rewrite (rne_down m k B2) by lia || assumption.
    destruct (Z.eqb_spec B2 0); [lia|].
    assert (Z.log2 B2 <= 53) by (rewrite <- (Z.log2_pow2 53) by lia; apply Z.log2_le_mono; lia).
    destruct (Z.leb_spec 1024 (Z.log2 B2 + (-53 + j + k))); [lia|].
    rewrite Z.sgn_pos, Z.mul_1_l by lia. reflexivity. }
  rewrite <- WM in R. rewrite (ieee_neg _ _ _ _ R) by lia. f_equal.
  unfold ffloor. cbn [mant expo]. destruct (Z.leb_spec 0 (-53 + j + k)); [lia|].
  replace (- (-53 + j + k)) with (52 - J) by lia. unfold B2. rewrite <- Z.mul_opp_l. apply Z.div_mul. lia.
Qed.
Lemma below_neg a b i k : - 2 ^ 52 <= a < 0 -> a < b -> b - a <= 2 ^ i -> 0 <= i <= 52 -> - 2 ^ i < b -> 2 ^ i < 2 * (b - a) -> is_random k ->
  exists n, randint a (Some b) k = Some n /\ a <= n < b.
Proof.
  intros A AB BI I BL D K. assert (IP : 2 ^ i <= 2 ^ 52) by (apply Z.pow_le_mono_r; lia).
  pose proof (pow_pos i ltac:(lia)) as PI.
  destruct (range_main a b k) as (n & R & N); try (change (2 ^ 53) with (2 * 2 ^ 52)); try lia; [exact K|].
  exists n. split; [exact R|]. split; [lia|].
  unfold randint in R. cbn [bounds rand_float] in R.
  destruct (Z.eq_dec k 0) as [->|K0].
  { unfold random in R. replace (dmul (real (b - a)) (Fin (mkf 0 (-53)))) with (Fin (mkf 0 (-53 + 53))) in R.
    2:{ unfold real. rewrite ieee_small by (change (2 ^ 53) with (2 * 2 ^ 52); lia). cbn [dmul mant expo].
        rewrite Z.mul_0_r, ieee_zero. reflexivity. }
    rewrite sum_eq in R by (change (2 ^ 53) with (2 * 2 ^ 52); lia).
    change (53 - 53) with 0 in R. change (-53 + 53) with 0 in R. change (2 ^ 0) with 1 in R.
    rewrite Z.add_0_l, Z.mul_1_r in R. fold (real a) in R.
    rewrite real_small in R by (change (2 ^ 53) with (2 * 2 ^ 52); lia).
    assert (NF : n = ffloor (mkf a 0)) by congruence. unfold ffloor in NF.
    cbn [mant expo] in NF. change (0 <=? 0) with true in NF. change (2 ^ 0) with 1 in NF. cbv beta iota in NF. lia. }
  pose proof K as [K1 K2].
  destruct (product_below (b - a) i k ltac:(lia) ltac:(lia) I K ltac:(lia)) as (q & j & E & J & Q & U).
  rewrite E in R. rewrite sum_eq in R by (change (2 ^ 53) with (2 * 2 ^ 52); lia).
  pose proof (pow_pos j ltac:(lia)) as PJ.
  assert (EJ : 2 ^ 53 = 2 ^ (53 - j) * 2 ^ j) by (rewrite <- Z.pow_add_r by lia; f_equal; lia).
  set (m := q + a * 2 ^ (53 - j)) in *. pose proof (pow_pos (53 - j) ltac:(lia)) as P53.
  assert (ME : m * 2 ^ j = q * 2 ^ j + a * 2 ^ 53) by (unfold m; rewrite EJ; ring).
  assert (MU : m * 2 ^ j <= b * 2 ^ 53 - 2 ^ i) by (rewrite ME; lia).
  assert (MLOW : - 2 ^ 52 * 2 ^ 53 <= m).
  { assert (2 ^ (53 - j) <= 2 ^ 53) by (apply Z.pow_le_mono_r; lia).
    assert (- 2 ^ 52 * 2 ^ (53 - j) <= a * 2 ^ (53 - j)) by (apply Z.mul_le_mono_nonneg_r; lia). unfold m. lia. }
  clearbody m. clear ME U E q Q EJ.
  assert (EI : 2 ^ 53 = 2 ^ (53 - i) * 2 ^ i) by (rewrite <- Z.pow_add_r by lia; f_equal; lia).
  assert (EIJ : 2 ^ i = 2 ^ (i - j) * 2 ^ j) by (rewrite <- Z.pow_add_r by lia; f_equal; lia).
  pose proof (pow_pos (i - j) ltac:(lia)) as PIJ. pose proof (pow_pos (53 - i) ltac:(lia)) as P53I.
  assert (MH : m <= (b * 2 ^ (53 - i) - 1) * 2 ^ (i - j)).
  { apply (Z.mul_le_mono_pos_r _ _ (2 ^ j)); [lia|]. rewrite <- Z.mul_assoc, <- EIJ, Z.mul_sub_distr_r, <- Z.mul_assoc, <- EI. lia. }
  assert (BH : b * 2 ^ (53 - i) <= 2 ^ 53).
  { rewrite EI. rewrite (Z.mul_comm (2 ^ (53 - i))). apply Z.mul_le_mono_nonneg_r; lia. }
  assert (MT : m < 2 ^ 53 * 2 ^ (i - j)).
  { eapply Z.le_lt_trans; [exact MH|]. apply Z.mul_lt_mono_pos_r; lia. }
  assert (PL : 2 ^ (i - j) <= 2 ^ 52) by (apply Z.pow_le_mono_r; lia).
  destruct (Z.eq_dec m 0) as [M0|M0].
  { rewrite M0, ieee_zero in R. cbn in R. assert (n = 0) by congruence. subst n.
    destruct (Z.le_gt_cases b 0); [exfalso|lia]. rewrite M0 in MU. lia. }
  assert (MA : Z.abs m < 2 ^ 200).
  { eapply Z.le_lt_trans with (2 ^ 53 * 2 ^ 52); [lia|reflexivity]. }
  destruct (ieee_round_abs m (-53 + j)) as (q2 & k2 & K3 & K4 & E & NR); [lia|lia|].
  rewrite E in R. assert (NF : n = ffloor (mkf q2 (-53 + j + k2))) by congruence. rewrite NF.
  assert (LG : Z.log2 (Z.abs m) < 106).
  { apply Z.log2_lt_pow2; [lia|]. eapply Z.le_lt_trans with (2 ^ 53 * 2 ^ 52); [lia|reflexivity]. }
  pose proof (pow_pos k2 K3) as PK2.
  assert (VB : q2 * 2 ^ k2 < b * 2 ^ (53 - j)).
  { destruct (Z.lt_ge_cases (Z.abs m) (2 ^ 53 * 2 ^ (i - j))) as [MB|MB].
    - destruct (keep_bounds_abs m (i - j) (- 2 ^ 53) (b * 2 ^ (53 - i) - 1) q2 k2 ltac:(lia) ltac:(lia) K4 NR ltac:(lia)) as [[_ KB] KT].
      eapply Z.le_lt_trans; [exact KB|]. replace (53 - j) with (53 - i + (i - j)) by lia.
      rewrite Z.pow_add_r, Z.mul_assoc by lia. apply Z.mul_lt_mono_pos_r; lia.
    - assert (LS := Z.log2_spec (Z.abs m) ltac:(lia)). destruct LS as [LS _].
      assert (KS : 52 + (i - j) < Z.log2 (Z.abs m)).
      { apply Z.lt_le_trans with (53 + (i - j)); [lia|]. apply Z.log2_le_pow2; [lia|]. rewrite Z.pow_add_r by lia. lia. }
      assert (ES : 2 ^ Z.log2 (Z.abs m) = 2 ^ 52 * 2 ^ k2) by (rewrite <- Z.pow_add_r by lia; f_equal; lia).
      rewrite ES in LS.
      (* the value is at most -(1 - 2 ^ -53) |m| *)
      assert (V : 2 ^ 53 * (q2 * 2 ^ k2) <= - (2 ^ 53 - 1) * Z.abs m).
      { change (2 ^ 53) with (2 * 2 ^ 52) in *. set (h := 2 ^ 52) in *. assert (0 < h) by (apply pow_pos; lia). clearbody h.
        set (p := 2 ^ k2) in *. set (z := q2 * p) in *. clearbody z p. assert (m < 0) by lia. rewrite Z.abs_neq in * by lia.
        assert (2 * (z - m) <= p) by lia. assert (h * (2 * (z - m)) <= h * p) by (apply Z.mul_le_mono_nonneg_l; lia). lia. }
      assert (EB : b * 2 ^ (53 - j) >= (1 - 2 ^ i) * 2 ^ (53 - j)) by (apply Z.le_ge, Z.mul_le_mono_nonneg_r; lia).
      assert (EIJ3 : 2 ^ i * 2 ^ (53 - j) = 2 ^ 53 * 2 ^ (i - j)) by (rewrite <- !Z.pow_add_r by lia; f_equal; lia).
      assert (PG : 2 ^ (i - j) < 2 ^ (53 - j)) by (apply Z.pow_lt_mono_r; lia).
      change (2 ^ 53) with 9007199254740992 in *. lia. }
  assert (EE : -53 + j + k2 <= 0 \/ 0 < -53 + j + k2) by lia. destruct EE as [EE|EE].
  - apply (floor_under _ (53 - j - k2)); cbn [mant expo]; [lia|lia|].
    apply (Z.mul_lt_mono_pos_r (2 ^ k2)); [lia|]. rewrite <- Z.mul_assoc, <- Z.pow_add_r by lia.
    replace (53 - j - k2 + k2) with (53 - j) by lia. exact VB.
  - unfold ffloor. cbn [mant expo]. destruct (Z.leb_spec 0 (-53 + j + k2)); [|lia].
    apply (Z.mul_lt_mono_pos_r (2 ^ (53 - j))); [lia|]. rewrite <- Z.mul_assoc, <- Z.pow_add_r by lia.
    replace (-53 + j + k2 + (53 - j)) with k2 by lia. exact VB.
Qed.
Lemma exact_neg a b : - 2 ^ 52 <= a < 0 -> a < b -> b - a <= 2 ^ 52 ->
  (forall k, is_random k -> exists n, randint a (Some b) k = Some n /\ a <= n < b) <->
  ~ exists i, 0 <= i /\ b - a <= 2 ^ i <= - b.
Proof.
  intros A AB B. split.
  - intros F (i & I & D & U). destruct (F (2 ^ 53 - 1)) as (n & R & N); [unfold is_random; lia|].
    pose proof (upper_neg a (- b) i I) as UN. rewrite Z.opp_involutive in UN.
    rewrite UN in R by lia. assert (n = b) by congruence. lia.
  - intros F k K. pose proof (Z.log2_up_nonneg (b - a)) as L0. set (i := Z.log2_up (b - a)) in *.
    assert (LU : b - a <= 2 ^ i) by (apply Z.log2_up_le_pow2; lia).
    assert (BI : - 2 ^ i < b) by (destruct (Z.lt_ge_cases (- 2 ^ i) b); [assumption|]; exfalso; apply F; exists i; lia).
    assert (I52 : i <= 52) by (apply Z.log2_up_le_pow2; lia).
    apply (below_neg a b i k); try lia; [|exact K].
    destruct (Z.eq_dec (b - a) 1) as [E|E]; [unfold i; rewrite E; cbn; lia|].
    destruct (Z.log2_up_spec (b - a) ltac:(lia)) as [S _]. fold i in S.
    assert (0 < i) by (apply Z.log2_up_pos; lia).
    assert (EI : 2 ^ i = 2 * 2 ^ Z.pred i) by (rewrite <- Z.pow_succ_r by lia; f_equal; lia). lia.
Qed.
