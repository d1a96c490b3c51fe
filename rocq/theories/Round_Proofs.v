(* Proofs about round. *)
From Coq Require Import ZArith List Bool Lia.
From Verif Require Import Math_Model Math_Spec Math_Proofs Round_Model Round_Spec.
Open Scope Z_scope.

Lemma nearest_opp n : nearest (- n) = - nearest n.
Proof.
  unfold nearest. rewrite Z.abs_opp, Z.sgn_opp. cbv zeta.
  destruct (Z.abs n <? 2 ^ 53); [reflexivity|]. now rewrite Z.mul_opp_l.
Qed.

Lemma nearest_repr a j : 0 <= j -> Z.abs a <= 2 ^ 53 -> nearest (a * 2 ^ j) = a * 2 ^ j.
Proof.
  intros Hj Ha. destruct (Z_lt_ge_dec (Z.abs (a * 2 ^ j)) (2 ^ 53)) as [L|L].
  { apply nearest_small. lia. }
  assert (P : 0 < 2 ^ j) by (apply Z.pow_pos_nonneg; lia).
  destruct (nearest_step (a * 2 ^ j) ltac:(lia)) as [k [Ek [Hk [_ Hd]]]]. apply Hd.
  rewrite Z.abs_mul, (Z.abs_eq (2 ^ j)) in Ek by lia.
  assert (A0 : 0 < Z.abs a) by (destruct (Z.eq_dec a 0); [subst a; cbn in L; lia|lia]).
  rewrite Z.log2_mul_pow2 in Ek by lia.
  destruct (Z.eq_dec (Z.abs a) (2 ^ 53)) as [E|E].
  - rewrite E, Z.log2_pow2 in Ek by lia.
    apply Z.divide_abs_r. rewrite Z.abs_mul, E, (Z.abs_eq (2 ^ j)) by lia.
    exists (2 ^ 52). subst k. rewrite <- !Z.pow_add_r by lia. f_equal. lia.
  - assert (L2 : Z.log2 (Z.abs a) < 53) by (apply Z.log2_lt_pow2; lia).
    apply Z.divide_mul_r. exists (2 ^ (j - k)). rewrite <- Z.pow_add_r by lia. f_equal. lia.
Qed.

Lemma fscale_1 x : is_float x -> fscale x 1 = x.
Proof.
  intros H. destruct x as [m e]. unfold is_float in H. cbn in H. unfold fscale. cbn [mant expo].
  rewrite Z.mul_1_r, nearest_small by lia. reflexivity.
Qed.

(* halves: floor (x + 1/2) for x >= 0 *)
Definition up (m e : Z) : Z := if 0 <=? e then m * 2 ^ e else (m + 2 ^ (- e - 1)) / 2 ^ (- e).

Lemma pow2_split d : 1 <= d -> 2 ^ d = 2 * 2 ^ (d - 1).
Proof. intros H. replace d with (Z.succ (d - 1)) at 1 by lia. apply Z.pow_succ_r. lia. Qed.
Lemma pow2_pos d : 0 <= d -> 0 < 2 ^ d.
Proof. intros. apply Z.pow_pos_nonneg; lia. Qed.

(* the sum and its truncation, for an argument that is not negative *)
Lemma sum_int m e : 0 <= m < 2 ^ 53 -> 0 <= e -> (e = 0 -> 2 ^ 52 < m -> Z.odd m = false) ->
  ftrunc (fadd (mkf m e) half) = m * 2 ^ e.
Proof.
  intros Hm He Hx. unfold fadd, half. cbn [mant expo]. rewrite Z.min_r by lia.
  replace (-1 - -1) with 0 by lia. rewrite Z.pow_0_r. replace (e - -1) with (e + 1) by lia.
  rewrite Z.mul_1_l. unfold ftrunc. cbn [mant expo]. change (0 <=? -1) with false. change (- -1) with 1.
  cbv iota. rewrite Z.pow_1_r.
  set (N := m * 2 ^ e). assert (EN : m * 2 ^ (e + 1) = 2 * N).
  { unfold N. rewrite Z.pow_add_r, Z.pow_1_r by lia. lia. }
  rewrite EN. pose proof (pow2_pos e He) as Pe. assert (HN : 0 <= N) by (unfold N; nia).
  assert (G : nearest (2 * N + 1) = 2 * N \/ nearest (2 * N + 1) = 2 * N + 1).
  2:{ destruct G as [-> | ->].
      - rewrite Z.mul_comm. apply Z.quot_mul. lia.
      - rewrite Z.quot_div_nonneg by lia. symmetry. apply Z.div_unique with 1; lia. }
  destruct (Z_lt_ge_dec (2 * N + 1) (2 ^ 53)) as [L|L].
  { right. apply nearest_small. lia. }
  left. unfold nearest. cbv zeta. rewrite Z.abs_eq by lia.
  destruct (Z.ltb_spec (2 * N + 1) (2 ^ 53)); [lia|].
  rewrite Z.sgn_pos by lia. rewrite Z.mul_1_l.
  assert (M0 : 0 < m) by (destruct (Z.eq_dec m 0); [subst m; unfold N in L; cbn in L; lia|lia]).
  assert (EL : Z.log2 (2 * N + 1) = Z.log2 m + e + 1).
  { assert (N0 : 0 < N) by (unfold N; nia).
    rewrite Z.log2_succ_double by lia. unfold N.
    rewrite Z.log2_mul_pow2 by lia. lia. }
  rewrite EL. set (k := Z.log2 m + e + 1 - 52).
  assert (Lm : Z.log2 m <= 52) by (assert (Z.log2 m < 53) by (apply Z.log2_lt_pow2; lia); lia).
  assert (Hk : 1 <= k).
  { assert (53 <= Z.log2 (2 * N + 1)) by (apply Z.log2_le_pow2; lia). unfold k. lia. }
  assert (Hke : k <= e + 1) by (unfold k; lia).
  pose proof (pow2_pos k ltac:(lia)) as Pk.
  assert (Dv : exists q, 2 * N = q * 2 ^ k).
  { rewrite <- EN. exists (m * 2 ^ (e + 1 - k)). rewrite <- Z.mul_assoc, <- Z.pow_add_r by lia. do 2 f_equal. lia. }
  destruct Dv as [q Eq]. rewrite Eq.
  assert (P2 : 2 ^ k = 2 * 2 ^ (k - 1)) by (apply pow2_split; lia).
  pose proof (pow2_pos (k - 1) ltac:(lia)) as Pk1.
  assert (Ediv : (q * 2 ^ k + 1) / 2 ^ k = q).
  { symmetry. apply Z.div_unique with 1; lia. }
  assert (Emod : (q * 2 ^ k + 1) mod 2 ^ k = 1).
  { symmetry. apply Z.mod_unique with q; lia. }
  rewrite Ediv, Emod. destruct (Z.ltb_spec (2 * 1) (2 ^ k)); [reflexivity|].
  destruct (Z.ltb_spec (2 ^ k) (2 * 1)); [lia|].
  (* k = 1: q = N *)
  assert (K1 : k = 1).
  { destruct (Z_le_gt_dec k 1); [lia|]. assert (2 ^ 2 <= 2 ^ k) by (apply Z.pow_le_mono_r; lia). lia. }
  rewrite K1, Z.pow_1_r in *. assert (Q : q = N) by lia.
  assert (Ev : Z.even N = true).
  { destruct (Z.eq_dec e 0) as [E0|E0].
    - subst e. unfold N in *. rewrite Z.pow_0_r, Z.mul_1_r in *.
      destruct (Z.eq_dec m (2 ^ 52)) as [->|]; [reflexivity|].
      rewrite <- Z.negb_odd, Hx by lia. reflexivity.
    - unfold N. rewrite Z.even_mul, Z.even_pow by lia. apply orb_true_r. }
  rewrite Q, Ev. reflexivity.
Qed.

Lemma sum_frac m e : 0 <= m < 2 ^ 53 -> e < 0 -> ~ (m = 2 ^ 53 - 1 /\ e = -54) ->
  ftrunc (fadd (mkf m e) half) = up m e.
Proof.
  intros Hm He Hx. unfold fadd, half, up, ftrunc. cbn [mant expo]. rewrite Z.min_l by lia.
  replace (e - e) with 0 by lia. rewrite Z.pow_0_r, Z.mul_1_r, Z.mul_1_l.
  destruct (Z.leb_spec 0 e); [lia|]. replace (-1 - e) with (- e - 1) by lia.
  set (d := - e). assert (Hd : 1 <= d) by (unfold d; lia).
  pose proof (pow2_split d Hd) as S2. pose proof (pow2_pos (d - 1) ltac:(lia)) as P1.
  set (M := m + 2 ^ (d - 1)).
  assert (G : 0 <= nearest M /\ nearest M / 2 ^ d = M / 2 ^ d).
  2:{ destruct G as [G1 G2]. rewrite Z.quot_div_nonneg by lia. exact G2. }
  destruct (Z_lt_ge_dec M (2 ^ 53)) as [L|L].
  { rewrite nearest_small by (unfold M in *; lia). split; [unfold M; lia|reflexivity]. }
  destruct (Z_le_gt_dec d 54) as [D|D].
  - (* one bit too many *)
    assert (L54 : M < 2 ^ 54).
    { assert (2 ^ (d - 1) <= 2 ^ 53) by (apply Z.pow_le_mono_r; lia). unfold M. lia. }
    assert (EL : Z.log2 M = 53).
    { apply Z.log2_unique; [lia|]. split; [lia|]. change (Z.succ 53) with 54. exact L54. }
    assert (R : nearest M = M \/ (nearest M = M - 1 /\ Z.odd M = true) \/ (nearest M = M + 1 /\ Z.odd M = true)).
    { unfold nearest. cbv zeta. rewrite Z.abs_eq by (unfold M; lia).
      destruct (Z.ltb_spec M (2 ^ 53)); [lia|]. rewrite EL. change (53 - 52) with 1. rewrite Z.pow_1_r.
      rewrite Z.sgn_pos by lia. rewrite Z.mul_1_l.
      pose proof (Z.div_mod M 2 ltac:(lia)) as DM. rewrite Zmod_odd in *.
      destruct (Z.odd M) eqn:O.
      - change (2 * 1 <? 2) with false. change (2 <? 2 * 1) with false. cbv iota.
        destruct (Z.even (M / 2)); [right; left|right; right]; split; auto; lia.
      - change (2 * 0 <? 2) with true. cbv iota. left. lia. }
    assert (N0 : 0 <= nearest M) by lia. split; [exact N0|].
    destruct R as [->|[[-> O]|[-> O]]]; [reflexivity| |].
    + (* M odd: M - 1 is in the same interval *)
      pose proof (Z.div_mod M (2 ^ d) ltac:(lia)) as DM. pose proof (Z.mod_pos_bound M (2 ^ d) ltac:(lia)) as B.
      symmetry. apply Z.div_unique with (M mod 2 ^ d - 1); [|lia]. left.
      assert (M mod 2 ^ d <> 0); [|lia]. intros Z0.
      assert (Z.even M = true).
      { rewrite DM, Z0, Z.add_0_r, Z.even_mul, Z.even_pow by lia. reflexivity. }
      rewrite <- Z.negb_even, H0 in O. discriminate.
    + pose proof (Z.div_mod M (2 ^ d) ltac:(lia)) as DM. pose proof (Z.mod_pos_bound M (2 ^ d) ltac:(lia)) as B.
      symmetry. apply Z.div_unique with (M mod 2 ^ d + 1); [|lia]. left.
      assert (M mod 2 ^ d + 1 <> 2 ^ d); [|lia]. intros Z0.
      (* M + 1 is a multiple of 2 ^ d *)
      destruct (Z.eq_dec d 54) as [E|E].
      * apply Hx. rewrite E in *. change (54 - 1) with 53 in *.
        assert (M / 2 ^ 54 = 0) by (apply Z.div_small; lia).
        assert (EM : M = m + 2 ^ 53) by (unfold M; rewrite E; reflexivity).
        rewrite H0 in DM. split; [lia|unfold d in E; lia].
      * assert (T : 2 ^ 53 = 2 ^ d * 2 ^ (53 - d)) by (rewrite <- Z.pow_add_r by lia; f_equal; lia).
        set (a := M / 2 ^ d) in *. set (b := 2 ^ (53 - d)) in *.
        assert (U : M + 1 = 2 ^ d * (a + 1)) by lia.
        assert (V : 2 ^ d * b < 2 ^ d * (a + 1)) by lia.
        assert (W : 2 ^ d * (a + 1) <= 2 ^ d * b + 2 ^ (d - 1)) by (unfold M in *; lia).
        assert (b < a + 1) by nia. assert (2 ^ d * (b + 1) <= 2 ^ d * (a + 1)) by nia. lia.
  - (* x < 1/4 *)
    assert (Q1 : 2 ^ d = 4 * 2 ^ (d - 2)).
    { rewrite S2, (pow2_split (d - 1)) by lia. replace (d - 1 - 1) with (d - 2) by lia. lia. }
    assert (Q2 : 2 ^ 53 <= 2 ^ (d - 2)) by (apply Z.pow_le_mono_r; lia).
    assert (Q3 : 2 ^ (d - 1) = 2 * 2 ^ (d - 2)) by lia.
    assert (MB : 2 ^ (d - 1) <= M < 2 ^ d) by (unfold M; lia).
    assert (EL : Z.log2 M = d - 1).
    { apply Z.log2_unique; [lia|]. replace (Z.succ (d - 1)) with d by lia. lia. }
    pose proof (nearest_dist M ltac:(lia)) as DI. rewrite (Z.abs_eq M) in DI by lia. rewrite EL in DI.
    assert (Q4 : 2 ^ (d - 1 - 52) <= 2 ^ (d - 2)) by (apply Z.pow_le_mono_r; lia).
    assert (NB : 0 <= nearest M < 2 ^ d) by (unfold M in *; lia).
    split; [lia|]. rewrite !Z.div_small by lia. reflexivity.
Qed.

Lemma is_round_fun n x y z : is_round_of n x y -> is_round_of n x z -> y = z.
Proof.
  unfold is_round_of. cbv zeta. set (D := 2 ^ Z.max 0 (- expo x)). set (N := mant x * 2 ^ Z.max 0 (expo x) * n).
  assert (P : 0 < D) by apply pow_pos. intros [A1 A2] [B1 B2].
  assert (C : Z.abs (y - z) * D <= D) by nia.
  assert (Z.abs (y - z) <= 1) by nia.
  destruct (Z.eq_dec y z) as [|Ne]; [assumption|exfalso].
  assert (E : y = z + 1 \/ z = y + 1) by lia.
  assert (T : 2 * Z.abs (N - y * D) = D /\ 2 * Z.abs (N - z * D) = D) by (destruct E; subst; nia).
  destruct T as [T1 T2]. specialize (A2 T1). specialize (B2 T2).
  destruct E; subst; rewrite Z.add_1_r, Z.even_succ, <- Z.negb_even in *;
    [rewrite B2 in A2|rewrite A2 in B2]; discriminate.
Qed.

Lemma up_bounds m e : e < 0 -> 0 <= m ->
  - 2 ^ (- e - 1) <= m - up m e * 2 ^ (- e) < 2 ^ (- e - 1) /\ 0 <= up m e.
Proof.
  intros He Hm. unfold up. destruct (Z.leb_spec 0 e); [lia|].
  pose proof (pow2_split (- e) ltac:(lia)) as S2. pose proof (pow2_pos (- e - 1) ltac:(lia)) as P.
  pose proof (Z.div_mod (m + 2 ^ (- e - 1)) (2 ^ (- e)) ltac:(lia)) as DM.
  pose proof (Z.mod_pos_bound (m + 2 ^ (- e - 1)) (2 ^ (- e)) ltac:(lia)) as B.
  split; [lia|]. apply Z.div_pos; lia.
Qed.

(* the even one of z - 1 and z *)
Definition evn (z : Z) : Z := 2 * ((2 * z + 1) / 4).
Lemma evn_cases z : (evn z = z \/ evn z = z - 1) /\ Z.even (evn z) = true.
Proof.
  unfold evn. split; [|rewrite Z.even_mul; reflexivity].
  pose proof (Z.div_mod (2 * z + 1) 4 ltac:(lia)). pose proof (Z.mod_pos_bound (2 * z + 1) 4 ltac:(lia)). lia.
Qed.

(* what both functions compute *)
Definition result (m e : Z) : Z :=
  if 0 <=? e then m * 2 ^ e
  else if m - up m e * 2 ^ (- e) =? - 2 ^ (- e - 1) then evn (up m e) else up m e.
Lemma result_ok m e : 0 <= m -> is_round (mkf m e) (result m e).
Proof.
  intros Hm. unfold is_round, is_round_of, result. cbn [mant expo]. cbv zeta. rewrite Z.mul_1_r.
  destruct (Z.leb_spec 0 e) as [He|He].
  - rewrite (Z.max_l 0 (- e)), (Z.max_r 0 e) by lia. rewrite Z.pow_0_r, Z.mul_1_r, Z.sub_diag. cbn. split; lia.
  - rewrite (Z.max_r 0 (- e)), (Z.max_l 0 e) by lia. rewrite Z.pow_0_r, Z.mul_1_r.
    destruct (up_bounds m e He Hm) as [B _]. pose proof (pow2_split (- e) ltac:(lia)) as S2.
    pose proof (pow2_pos (- e - 1) ltac:(lia)) as P. set (z := up m e) in *.
    destruct (Z.eqb_spec (m - z * 2 ^ (- e)) (- 2 ^ (- e - 1))) as [T|T].
    + destruct (evn_cases z) as [[C|C] Ev]; (split; [|auto]).
      * rewrite C. lia.
      * rewrite C. replace ((z - 1) * 2 ^ (- e)) with (z * 2 ^ (- e) - 2 ^ (- e)) by ring. lia.
    + split; [lia|]. intros. lia.
Qed.

Definition good (conv : Z -> Z) : Prop := forall z, Z.abs z < 2 ^ 63 -> conv z = z.
Definition c_core (conv : Z -> Z) (digits : bool) (arg : float) : float :=
  let fix_ := signed_half arg in
  let rnd := whole (nearest (conv (ftrunc (fadd arg fix_)))) in
  let diff := fadd arg (fopp rnd) in
  if negb digits && (feq diff half || feq diff (fopp half))
  then whole (2 * nearest (conv (ftrunc (fadd (fhalf arg) fix_))))
  else rnd.
Definition f_core (conv : Z -> Z) (digits : bool) (arg : float) : float :=
  let rnd := whole (nearest (conv (nint arg))) in
  let diff := fadd arg (fopp rnd) in
  if negb digits && (feq diff half || feq diff (fopp half))
  then whole (nearest (conv (nint (fhalf arg)) * 2))
  else rnd.
Lemma to64_good junk : good (to64 junk).
Proof.
  intros z H. apply to64_fits. unfold fits64. apply andb_true_iff. split; [apply Z.leb_le|apply Z.ltb_lt]; lia.
Qed.

(* the difference *)
Lemma up_small m e : e < 0 -> 0 <= m < 2 ^ 53 -> up m e <= 2 ^ 52 + 1.
Proof.
  intros He Hm. unfold up. destruct (Z.leb_spec 0 e); [lia|].
  pose proof (pow2_split (- e) ltac:(lia)) as S2. pose proof (pow2_pos (- e - 1) ltac:(lia)) as P.
  apply Z.div_le_upper_bound; [lia|]. nia.
Qed.
Lemma diff_int m e : 0 <= e -> 
  fadd (mkf m e) (fopp (whole (m * 2 ^ e))) = mkf 0 0.
Proof.
  intros He. unfold fadd, fopp, whole. cbn [mant expo]. rewrite Z.min_r by lia. rewrite !Z.sub_0_r, Z.pow_0_r.
  replace (m * 2 ^ e + - (m * 2 ^ e) * 1) with 0 by lia. reflexivity.
Qed.
Lemma diff_frac m e : e < 0 -> 0 <= m < 2 ^ 53 ->
  fadd (mkf m e) (fopp (whole (up m e))) = mkf (m - up m e * 2 ^ (- e)) e.
Proof.
  intros He Hm. unfold fadd, fopp, whole. cbn [mant expo]. rewrite Z.min_l by lia.
  rewrite Z.sub_diag, Z.pow_0_r. replace (0 - e) with (- e) by lia.
  replace (m * 1 + - up m e * 2 ^ (- e)) with (m - up m e * 2 ^ (- e)) by ring. f_equal.
  apply nearest_small. destruct (up_bounds m e He ltac:(lia)) as [B Z0].
  pose proof (pow2_split (- e) ltac:(lia)) as S2. pose proof (pow2_pos (- e - 1) ltac:(lia)) as P.
  destruct (Z.eq_dec (up m e) 0) as [->|N]; [lia|]. nia.
Qed.
Lemma tie_frac t e : e < 0 ->
  feq (mkf t e) half || feq (mkf t e) (fopp half) = (t =? 2 ^ (- e - 1)) || (t =? - 2 ^ (- e - 1)).
Proof.
  intros He. unfold feq, half, fopp. cbn [mant expo]. rewrite Z.min_l by lia.
  rewrite Z.sub_diag, Z.pow_0_r. replace (-1 - e) with (- e - 1) by lia.
  rewrite Z.mul_1_r, Z.mul_1_l. reflexivity.
Qed.

(* the second formula, of C *)
Lemma second m e : e < 0 -> 0 <= m < 2 ^ 53 -> m - up m e * 2 ^ (- e) = - 2 ^ (- e - 1) ->
  ftrunc (fadd (fhalf (mkf m e)) half) = (2 * up m e + 1) / 4.
Proof.
  intros He Hm T. set (z := up m e) in *. unfold fhalf, fadd, half. cbn [mant expo]. rewrite Z.min_l by lia.
  replace (e - 1 - (e - 1)) with 0 by lia. rewrite Z.pow_0_r, Z.mul_1_r, Z.mul_1_l.
  replace (-1 - (e - 1)) with (- e) by lia. set (d := - e) in *.
  pose proof (pow2_split d ltac:(unfold d; lia)) as S2. pose proof (pow2_pos (d - 1) ltac:(unfold d; lia)) as P.
  assert (Em : m + 2 ^ d = (2 * z + 1) * 2 ^ (d - 1)) by (rewrite S2 in *; lia).
  assert (Em' : m = (2 * z - 1) * 2 ^ (d - 1)) by (rewrite S2 in *; lia).
  destruct (up_bounds m e He ltac:(lia)) as [_ Z0]. fold z in Z0.
  assert (Zb : 2 * z - 1 < 2 ^ 53) by nia.
  assert (G : nearest (m + 2 ^ d) = (2 * z + 1) * 2 ^ (d - 1) \/
              (d = 1 /\ 2 * z + 1 = 2 ^ 53 + 1 /\ nearest (m + 2 ^ d) = 2 ^ 53)).
  { destruct (Z_le_gt_dec (2 * z + 1) (2 ^ 53)) as [L|L].
    - left. rewrite Em. apply nearest_repr; [unfold d; lia|lia].
    - right. assert (Ez : 2 * z + 1 = 2 ^ 53 + 1) by lia.
      assert (D1 : d = 1).
      { destruct (Z.eq_dec d 1); [assumption|].
        assert (2 ^ 1 <= 2 ^ (d - 1)) by (apply Z.pow_le_mono_r; unfold d in *; lia). nia. }
      split; [exact D1|]. split; [exact Ez|]. rewrite Em, Ez, D1. vm_compute. reflexivity. }
  unfold ftrunc. cbn [mant expo]. destruct (Z.leb_spec 0 (e - 1)); [lia|].
  replace (- (e - 1)) with (d + 1) by (unfold d; lia).
  destruct G as [G|[D1 [Ez G]]]; rewrite G.
  - assert (S4 : 2 ^ (d + 1) = 4 * 2 ^ (d - 1)).
    { rewrite (pow2_split (d + 1)) by (unfold d; lia). replace (d + 1 - 1) with d by lia. lia. }
    rewrite S4. rewrite Z.quot_div_nonneg by nia.
    rewrite Z.div_mul_cancel_r by lia. reflexivity.
  - rewrite D1, Ez. vm_compute. reflexivity.
Qed.
Lemma second_f m e : e < 0 -> 0 <= m -> m - up m e * 2 ^ (- e) = - 2 ^ (- e - 1) ->
  nint (fhalf (mkf m e)) = (2 * up m e + 1) / 4.
Proof.
  intros He Hm T. set (z := up m e) in *. unfold fhalf, nint. cbn [mant expo].
  destruct (Z.leb_spec 0 (e - 1)); [lia|].
  replace (- (e - 1)) with (- e + 1) by lia. replace (- e + 1 - 1) with (- e) by lia. set (d := - e) in *.
  pose proof (pow2_split d ltac:(unfold d; lia)) as S2. pose proof (pow2_pos (d - 1) ltac:(unfold d; lia)) as P.
  assert (Em : m + 2 ^ d = (2 * z + 1) * 2 ^ (d - 1)) by (rewrite S2 in *; lia).
  assert (S4 : 2 ^ (d + 1) = 4 * 2 ^ (d - 1)).
  { rewrite (pow2_split (d + 1)) by (unfold d; lia). replace (d + 1 - 1) with d by lia. lia. }
  assert (M0 : 0 < m).
  { destruct (Z.eq_dec m 0) as [E0|]; [|lia]. subst m. destruct (up_bounds 0 e He ltac:(lia)) as [_ Z0]. fold z in Z0.
    rewrite S2 in T. clearbody z. destruct (Z.eq_dec z 0) as [->|]; [lia|]. nia. }
  rewrite Z.sgn_pos, Z.abs_eq, Z.mul_1_l by lia. rewrite Em, S4, Z.div_mul_cancel_r by lia. reflexivity.
Qed.

Lemma fits_up z : 0 <= z <= 2 ^ 52 + 1 -> Z.abs z < 2 ^ 63 /\ nearest z = z.
Proof. intros H. split; [lia|]. apply nearest_small. lia. Qed.
Lemma quarter z : 0 <= z <= 2 ^ 52 + 1 -> 0 <= (2 * z + 1) / 4 <= 2 ^ 52 + 1.
Proof.
  intros H. pose proof (Z.div_mod (2 * z + 1) 4 ltac:(lia)). pose proof (Z.mod_pos_bound (2 * z + 1) 4 ltac:(lia)). lia.
Qed.

(* the float before 1 / 2: the sum is 1, and the difference is rounded to 1 / 2 *)
Lemma next_half conv : good conv -> c_core conv false (mkf (2 ^ 53 - 1) (-54)) = whole 0.
Proof.
  intros G. unfold c_core. cbv zeta.
  assert (S1 : ftrunc (fadd (mkf (2 ^ 53 - 1) (-54)) (signed_half (mkf (2 ^ 53 - 1) (-54)))) = 1) by (vm_compute; reflexivity).
  assert (S2 : ftrunc (fadd (fhalf (mkf (2 ^ 53 - 1) (-54))) (signed_half (mkf (2 ^ 53 - 1) (-54)))) = 0)
    by (vm_compute; reflexivity).
  rewrite S1, S2. rewrite !G by lia.
  assert (D : feq (fadd (mkf (2 ^ 53 - 1) (-54)) (fopp (whole (nearest 1)))) half
    || feq (fadd (mkf (2 ^ 53 - 1) (-54)) (fopp (whole (nearest 1)))) (fopp half) = true) by (vm_compute; reflexivity).
  rewrite D. reflexivity.
Qed.
Definition exc_pos (m e : Z) : Prop := 2 ^ 52 < m /\ Z.odd m = true /\ e = 0.

Lemma c_pos conv m e : good conv -> 0 <= m < 2 ^ 53 -> ~ exc_pos m e -> Z.abs (result m e) < 2 ^ 63 ->
  c_core conv false (mkf m e) = whole (result m e).
Proof.
  intros Gc Hm Hx Hz. unfold c_core. cbv zeta. unfold signed_half. cbn [mant].
  destruct (Z.ltb_spec m 0); [lia|]. unfold result in *. destruct (Z.leb_spec 0 e) as [He|He].
  - rewrite sum_int; [|assumption|assumption|].
    2:{ intros E0 L. destruct (Z.odd m) eqn:O; [|reflexivity]. exfalso. apply Hx. split; auto. }
    rewrite (Gc _ Hz), nearest_repr by lia. rewrite diff_int by lia. reflexivity.
  - assert (Dec : (m = 2 ^ 53 - 1 /\ e = -54) \/ ~ (m = 2 ^ 53 - 1 /\ e = -54)) by lia.
    destruct Dec as [[-> ->]|Hn].
    { pose proof (next_half conv Gc) as E. unfold c_core in E. cbv zeta in E. unfold signed_half in E. cbn [mant] in E.
      destruct (Z.ltb_spec (2 ^ 53 - 1) 0); [lia|]. rewrite E. vm_compute. reflexivity. }
    rewrite sum_frac by assumption.
    destruct (up_bounds m e He ltac:(lia)) as [B Z0]. pose proof (up_small m e He Hm) as U.
    destruct (fits_up (up m e) (conj Z0 U)) as [F1 F2]. rewrite (Gc _ F1), F2.
    rewrite diff_frac by assumption. rewrite tie_frac by assumption. cbn [negb andb].
    pose proof (pow2_pos (- e - 1) ltac:(lia)) as P.
    destruct (Z.eqb_spec (m - up m e * 2 ^ (- e)) (2 ^ (- e - 1))); [lia|]. cbn [orb].
    destruct (Z.eqb_spec (m - up m e * 2 ^ (- e)) (- 2 ^ (- e - 1))) as [T|T]; [|reflexivity].
    rewrite second by assumption. destruct (fits_up _ (quarter _ (conj Z0 U))) as [F3 F4].
    rewrite (Gc _ F3), F4. reflexivity.
Qed.
Lemma f_pos conv m e : good conv -> 0 <= m < 2 ^ 53 -> Z.abs (result m e) < 2 ^ 63 ->
  f_core conv false (mkf m e) = whole (result m e).
Proof.
  intros Gc Hm Hz. unfold f_core. cbv zeta.
  assert (Ni : nint (mkf m e) = up m e).
  { unfold nint, up. cbn [mant expo]. destruct (0 <=? e) eqn:Le; [reflexivity|]. apply Z.leb_gt in Le.
    rewrite Z.abs_eq by lia. destruct (Z.eq_dec m 0) as [->|]; [|rewrite Z.sgn_pos by lia; lia].
    cbn [Z.sgn Z.mul]. symmetry. pose proof (pow2_split (- e) ltac:(lia)). pose proof (pow2_pos (- e - 1) ltac:(lia)).
    apply Z.div_small. lia. }
  rewrite Ni. unfold result in *. destruct (Z.leb_spec 0 e) as [He|He].
  - assert (Up : up m e = m * 2 ^ e) by (unfold up; destruct (Z.leb_spec 0 e); [reflexivity|lia]).
    rewrite Up. rewrite (Gc _ Hz), nearest_repr by lia. rewrite diff_int by lia. reflexivity.
  - destruct (up_bounds m e He ltac:(lia)) as [B Z0]. pose proof (up_small m e He Hm) as U.
    destruct (fits_up (up m e) (conj Z0 U)) as [F1 F2]. rewrite (Gc _ F1), F2.
    rewrite diff_frac by assumption. rewrite tie_frac by assumption. cbn [negb andb].
    pose proof (pow2_pos (- e - 1) ltac:(lia)) as P.
    destruct (Z.eqb_spec (m - up m e * 2 ^ (- e)) (2 ^ (- e - 1))); [lia|]. cbn [orb].
    destruct (Z.eqb_spec (m - up m e * 2 ^ (- e)) (- 2 ^ (- e - 1))) as [T|T]; [|reflexivity].
    rewrite second_f by (assumption || lia). destruct (fits_up _ (quarter _ (conj Z0 U))) as [F3 F4].
    rewrite (Gc _ F3). rewrite nearest_small; [unfold evn, whole; f_equal; lia|].
    pose proof (quarter _ (conj Z0 U)). destruct (evn_cases (up m e)) as [C _]. unfold evn in C. lia.
Qed.

(* negative arguments *)
Lemma fopp_opp x : fopp (fopp x) = x.
Proof. destruct x. unfold fopp. cbn. now rewrite Z.opp_involutive. Qed.
Lemma fadd_opp x y : fadd (fopp x) (fopp y) = fopp (fadd x y).
Proof.
  unfold fadd, fopp. cbn [mant expo]. f_equal. rewrite <- nearest_opp. f_equal. ring.
Qed.
Lemma ftrunc_opp x : ftrunc (fopp x) = - ftrunc x.
Proof.
  unfold ftrunc, fopp. cbn [mant expo]. destruct (0 <=? expo x) eqn:E; [ring|].
  apply Z.leb_gt in E. apply Z.quot_opp_l. pose proof (pow2_pos (- expo x) ltac:(lia)). lia.
Qed.
Lemma nint_opp x : nint (fopp x) = - nint x.
Proof.
  unfold nint, fopp. cbn [mant expo]. destruct (0 <=? expo x); [ring|]. rewrite Z.sgn_opp, Z.abs_opp. ring.
Qed.
Lemma feq_opp x y : feq (fopp x) y = feq x (fopp y).
Proof.
  unfold feq, fopp. cbn [mant expo]. apply eq_true_iff_eq. rewrite !Z.eqb_eq. lia.
Qed.
Definition conj_ (conv : Z -> Z) (z : Z) : Z := - conv (- z).
Lemma conj_good conv : good conv -> good (conj_ conv).
Proof. intros G z H. unfold conj_. rewrite G by lia. lia. Qed.
Lemma whole_opp z : fopp (whole z) = whole (- z).
Proof. reflexivity. Qed.
Lemma conv_conj conv z : conv (- z) = - conj_ conv z.
Proof. unfold conj_. lia. Qed.

Lemma c_neg conv g m e : 0 < m -> c_core conv g (mkf (- m) e) = fopp (c_core (conj_ conv) g (mkf m e)).
Proof.
  intros Hm. change (mkf (- m) e) with (fopp (mkf m e)). unfold c_core. cbv zeta.
  assert (S1 : signed_half (fopp (mkf m e)) = fopp half).
  { unfold signed_half. cbn [mant fopp]. destruct (Z.ltb_spec (- m) 0); [reflexivity|lia]. }
  assert (S2 : signed_half (mkf m e) = half).
  { unfold signed_half. cbn [mant]. destruct (Z.ltb_spec m 0); [lia|reflexivity]. }
  rewrite S1, S2. change (fhalf (fopp (mkf m e))) with (fopp (fhalf (mkf m e))).
  rewrite !fadd_opp, !ftrunc_opp, !(conv_conj conv), !nearest_opp, <- !whole_opp.
  rewrite !feq_opp, fopp_opp, orb_comm.
  destruct (negb g && _); [|reflexivity].
  rewrite whole_opp. f_equal. ring.
Qed.
Lemma f_neg conv g m e : f_core conv g (mkf (- m) e) = fopp (f_core (conj_ conv) g (mkf m e)).
Proof.
  change (mkf (- m) e) with (fopp (mkf m e)). unfold f_core. cbv zeta.
  change (fhalf (fopp (mkf m e))) with (fopp (fhalf (mkf m e))).
  rewrite !nint_opp, !(conv_conj conv), !nearest_opp, <- !whole_opp.
  rewrite !fadd_opp, !feq_opp, fopp_opp, orb_comm.
  destruct (negb g && _); [|reflexivity].
  rewrite whole_opp. f_equal. rewrite <- nearest_opp. f_equal. ring.
Qed.
Lemma is_round_opp n m e z : is_round_of n (mkf (- m) e) z <-> is_round_of n (mkf m e) (- z).
Proof.
  unfold is_round_of. cbn [mant expo]. cbv zeta. rewrite Z.even_opp.
  replace (- m * 2 ^ Z.max 0 e * n - z * 2 ^ Z.max 0 (- e)) with
    (- (m * 2 ^ Z.max 0 e * n - - z * 2 ^ Z.max 0 (- e))) by ring.
  rewrite Z.abs_opp. reflexivity.
Qed.

Lemma odd_abs m : Z.odd (Z.abs m) = Z.odd m.
Proof. destruct m; reflexivity. Qed.
Lemma exc_iff m e : exceptional (mkf m e) <-> exc_pos (Z.abs m) e.
Proof. unfold exceptional, exc_pos. cbn [mant expo]. rewrite odd_abs. reflexivity. Qed.

Lemma c_round_ok junk x z : is_float x -> ~ exceptional x -> is_round x z -> Z.abs z < 2 ^ 63 ->
  c_round junk x = whole z.
Proof.
  intros F X R B. unfold c_round. rewrite (fscale_1 x F).
  change (c_core (to64 junk) false x = whole z). destruct x as [m e]. unfold is_float in F. cbn [mant] in F.
  rewrite exc_iff in X. destruct (Z_le_gt_dec 0 m) as [H|H].
  - rewrite Z.abs_eq in X by lia. pose proof (is_round_fun _ _ _ _ (result_ok m e H) R) as E.
    rewrite c_pos; [now rewrite E|apply to64_good|lia|exact X|now rewrite E].
  - rewrite Z.abs_neq in X by lia.
    replace m with (- (- m)) in R |- * by lia. rewrite c_neg by lia.
    apply is_round_opp in R. pose proof (is_round_fun _ _ _ _ (result_ok (- m) e ltac:(lia)) R) as E.
    rewrite c_pos; [rewrite E, whole_opp; f_equal; lia|apply conj_good, to64_good|lia|exact X|rewrite E; lia].
Qed.
Lemma f_round_ok junk x z : is_float x -> is_round x z -> Z.abs z < 2 ^ 63 ->
  f_round junk x = whole z.
Proof.
  intros F R B. unfold f_round. rewrite (fscale_1 x F).
  change (f_core (to64 junk) false x = whole z). destruct x as [m e]. unfold is_float in F. cbn [mant] in F.
  destruct (Z_le_gt_dec 0 m) as [H|H].
  - pose proof (is_round_fun _ _ _ _ (result_ok m e H) R) as E.
    rewrite f_pos; [now rewrite E|apply to64_good|lia|now rewrite E].
  - replace m with (- (- m)) in R |- * by lia. rewrite f_neg.
    apply is_round_opp in R. pose proof (is_round_fun _ _ _ _ (result_ok (- m) e ltac:(lia)) R) as E.
    rewrite f_pos; [rewrite E, whole_opp; f_equal; lia|apply conj_good, to64_good|lia|rewrite E; lia].
Qed.

(* the exceptions *)
Lemma exc_odd conv m : good conv -> 2 ^ 52 < m < 2 ^ 53 -> Z.odd m = true ->
  c_core conv false (mkf m 0) = whole (m + 1).
Proof.
  intros G Hm O. unfold c_core. cbv zeta.
  assert (S : ftrunc (fadd (mkf m 0) (signed_half (mkf m 0))) = m + 1).
  { unfold signed_half. cbn [mant]. destruct (Z.ltb_spec m 0); [lia|].
    unfold fadd, half. cbn [mant expo]. change (Z.min 0 (-1)) with (-1). change (0 - -1) with 1.
    change (-1 - -1) with 0. rewrite Z.pow_1_r, Z.pow_0_r, Z.mul_1_r.
    assert (N : nearest (m * 2 + 1) = (m + 1) * 2).
    { unfold nearest. cbv zeta. rewrite Z.abs_eq by lia. destruct (Z.ltb_spec (m * 2 + 1) (2 ^ 53)); [lia|].
      assert (EL : Z.log2 (m * 2 + 1) = 53) by (apply Z.log2_unique; lia).
      rewrite EL. change (53 - 52) with 1. rewrite Z.pow_1_r.
      assert (Ediv : (m * 2 + 1) / 2 = m) by (symmetry; apply Z.div_unique with 1; lia).
      assert (Emod : (m * 2 + 1) mod 2 = 1) by (symmetry; apply Z.mod_unique with m; lia).
      rewrite Ediv, Emod, Z.sgn_pos, Z.mul_1_l by lia.
      change (2 * 1 <? 2) with false. change (2 <? 2 * 1) with false. cbv iota.
      rewrite <- Z.negb_odd, O. reflexivity. }
    rewrite N. unfold ftrunc. cbn [mant expo]. change (0 <=? -1) with false. change (2 ^ (- -1)) with 2.
    cbv iota. apply Z.quot_mul. lia. }
  rewrite S. rewrite G by lia. rewrite nearest_small by lia.
  assert (D : fadd (mkf m 0) (fopp (whole (m + 1))) = mkf (-1) 0).
  { unfold fadd, fopp, whole. cbn [mant expo]. change (Z.min 0 0) with 0. change (0 - 0) with 0.
    rewrite Z.pow_0_r. replace (m * 1 + - (m + 1) * 1) with (-1) by lia. reflexivity. }
  rewrite D. reflexivity.
Qed.
Lemma c_exception junk x z : is_float x -> exceptional x -> is_round x z -> c_round junk x <> whole z.
Proof.
  intros F X R. unfold c_round. rewrite (fscale_1 x F).
  change (c_core (to64 junk) false x <> whole z). destruct x as [m e]. unfold is_float in F. cbn [mant] in F.
  assert (W : forall a b, whole a = whole b -> a = b) by (intros a b E; now injection E).
  assert (Zm : forall n, result n 0 = n) by (intros n; unfold result; rewrite Z.pow_0_r; cbn; lia).
  apply exc_iff in X. destruct (Z_le_gt_dec 0 m) as [H|H].
  - rewrite Z.abs_eq in X, F by lia. pose proof (is_round_fun _ _ _ _ (result_ok m e H) R) as E.
    destruct X as [A [B ->]].
    rewrite exc_odd; [|apply to64_good|lia|assumption]. intros C. apply W in C. rewrite Zm in E. lia.
  - rewrite Z.abs_neq in X, F by lia.
    replace m with (- (- m)) in R |- * by lia. rewrite c_neg by lia.
    apply is_round_opp in R. pose proof (is_round_fun _ _ _ _ (result_ok (- m) e ltac:(lia)) R) as E.
    destruct X as [A [B ->]].
    rewrite exc_odd; [|apply conj_good, to64_good|lia|assumption]. rewrite whole_opp. intros C. apply W in C.
    rewrite Zm in E. lia.
Qed.

(* digits: a half goes up *)
Lemma digits_tie junk x n k : 0 < n -> 0 <= k -> Z.even k = true -> expo x < 0 ->
  mant x * 10 ^ n = (2 * k + 1) * 2 ^ (- expo x - 1) -> mant x * 10 ^ n < 2 ^ 53 ->
  c_digits junk n x = whole (k + 1) /\ f_digits junk n x = whole (k + 1) /\ is_round_of (10 ^ n) x k.
Proof.
  destruct x as [m e]. cbn [mant expo]. intros Hn Hk Ev He T L. unfold c_digits, f_digits, fscale. cbn [mant expo].
  pose proof (pow2_split (- e) ltac:(lia)) as S2. pose proof (pow2_pos (- e - 1) ltac:(lia)) as P.
  set (M := m * 10 ^ n) in *. assert (M0 : 0 < M) by nia. rewrite nearest_small by lia.
  assert (U : up M e = k + 1).
  { unfold up. destruct (Z.leb_spec 0 e); [lia|]. rewrite T.
    replace ((2 * k + 1) * 2 ^ (- e - 1) + 2 ^ (- e - 1)) with ((k + 1) * 2 ^ (- e)) by (rewrite S2; ring).
    apply Z.div_mul. lia. }
  pose proof (up_small M e He ltac:(lia)) as Us. rewrite U in Us.
  destruct (fits_up (k + 1) ltac:(lia)) as [F1 F2]. split; [|split].
  - change (c_core (to64 junk) true (mkf M e) = whole (k + 1)). unfold c_core. cbv zeta.
    unfold signed_half. cbn [mant]. destruct (Z.ltb_spec M 0); [lia|].
    rewrite sum_frac; [|lia|lia|].
    + rewrite U. rewrite (to64_good junk _ F1), F2. reflexivity.
    + intros [E1 E2]. rewrite E2 in T. change (- -54 - 1) with 53 in T. nia.
  - change (f_core (to64 junk) true (mkf M e) = whole (k + 1)). unfold f_core. cbv zeta.
    assert (Ni : nint (mkf M e) = k + 1).
    { rewrite <- U. unfold nint, up. cbn [mant expo]. destruct (0 <=? e) eqn:Le; [reflexivity|].
      rewrite Z.abs_eq, Z.sgn_pos by lia. lia. }
    rewrite Ni, (to64_good junk _ F1), F2. reflexivity.
  - unfold is_round_of. cbn [mant expo]. cbv zeta. rewrite (Z.max_r 0 (- e)), (Z.max_l 0 e) by lia.
    rewrite Z.pow_0_r, Z.mul_1_r. fold M. split; [|auto]. rewrite T, S2.
    replace ((2 * k + 1) * 2 ^ (- e - 1) - k * (2 * 2 ^ (- e - 1))) with (2 ^ (- e - 1)) by ring. lia.
Qed.

Lemma round_unique x : exists z, is_round x z /\ forall y, is_round x y -> y = z.
Proof.
  destruct x as [m e]. destruct (Z_le_gt_dec 0 m) as [H|H].
  - exists (result m e). split; [now apply result_ok|]. intros y R. exact (is_round_fun _ _ _ _ R (result_ok m e H)).
  - assert (Q : is_round (mkf m e) (- result (- m) e)).
    { apply (proj1 (is_round_opp 1 m e (result (- m) e))). apply result_ok. lia. }
    exists (- result (- m) e). split; [exact Q|]. intros y R. exact (is_round_fun _ _ _ _ R Q).
Qed.
Lemma ftrunc_whole z : ftrunc (whole z) = z.
Proof. unfold ftrunc, whole. cbn [mant expo]. change (0 <=? 0) with true. cbv iota. rewrite Z.pow_0_r. lia. Qed.
Lemma fortran_ok junk x z : is_float x -> is_round x z -> Z.abs z < 2 ^ 63 ->
  f_round junk x = whole z /\ f_round_value junk x = VInt z.
Proof.
  intros F R B. pose proof (f_round_ok junk x z F R B) as E. split; [exact E|].
  unfold f_round_value. rewrite E, ftrunc_whole, to64_good by lia. reflexivity.
Qed.
Lemma c_odd junk x : is_float x -> exceptional x ->
  is_round x (mant x) /\ c_round junk x = whole (mant x + Z.sgn (mant x)).
Proof.
  intros F X. destruct x as [m e]. pose proof X as X0. destruct X0 as [A [O E]]. cbn [mant expo] in *. subst e.
  unfold is_float in F. cbn [mant] in F. split.
  { unfold is_round, is_round_of. cbn [mant expo]. change (Z.max 0 0) with 0. change (Z.max 0 (-0)) with 0.
    rewrite Z.pow_0_r. split; [lia|]. intros. lia. }
  unfold c_round. rewrite (fscale_1 (mkf m 0)) by (unfold is_float; cbn [mant]; lia).
  change (c_core (to64 junk) false (mkf m 0) = whole (m + Z.sgn m)). apply exc_iff in X.
  destruct (Z_le_gt_dec 0 m) as [H|H].
  - rewrite Z.abs_eq in X, F by lia. destruct X as [_ [B _]].
    rewrite exc_odd; [|apply to64_good|lia|assumption]. f_equal. lia.
  - rewrite Z.abs_neq in X, F by lia. destruct X as [_ [B _]].
    replace m with (- (- m)) at 1 by lia. rewrite c_neg by lia.
    rewrite exc_odd; [|apply conj_good, to64_good|lia|assumption]. rewrite whole_opp. f_equal. lia.
Qed.
Lemma c_exact junk x z : is_float x -> is_round x z -> Z.abs z < 2 ^ 63 ->
  (c_round junk x = whole z <-> ~ exceptional x) /\
  (assigned junk (c_round_value junk x) = Some z <-> ~ exceptional x).
Proof.
  intros F R B. split; split.
  - intros E X. exact (c_exception junk x z F X R E).
  - intros X. now apply c_round_ok.
  - intros E X. destruct (c_odd junk x F X) as [R' E']. pose proof (is_round_fun _ _ _ _ R' R) as Q.
    unfold c_round_value, assigned in E. rewrite E', ftrunc_whole in E.
    destruct X as [A _]. unfold is_float in F. rewrite to64_good in E by lia. injection E as E. lia.
  - intros X. unfold c_round_value, assigned. rewrite (c_round_ok junk x z F X R B), ftrunc_whole, to64_good by lia. reflexivity.
Qed.
