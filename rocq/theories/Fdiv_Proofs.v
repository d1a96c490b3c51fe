From Coq Require Import ZArith Bool Lia.
From Verif Require Import Math_Model Root_Model Root_Proofs Fdiv_Model Fdiv_Spec.
Open Scope Z_scope.

Lemma pow_pos k : 0 <= k -> 0 < 2 ^ k.
Proof. intros. apply Z.pow_pos_nonneg; lia. Qed.

(* The quotient of positive integers x / y < 2 ^ 53 is rounded to r / 2 ^ g; w = 2 ^ (s + 1), p = 2 ^ k, w = p * 2 ^ g *)
Section Magnitude.
Variables x y : Z.
Hypothesis X : 0 < x.
Hypothesis Y : 0 < y.
Let s := 60 + Z.max 0 (Z.log2 y - Z.log2 x).
Let q := x * 2 ^ s / y.
Let t := if x * 2 ^ s mod y =? 0 then 0 else 1.
Let v := 2 * q + t.
Let k := Z.max (Z.log2 v - 52) (-1074 - (- s - 1)).
Let r := rne v k.
Let g := s + 1 - k.

Lemma s_ge : 60 <= s.
Proof. unfold s. lia. Qed.

Lemma q_ge : 2 ^ 59 <= q.
Proof.
  unfold q. apply Z.div_le_lower_bound; [exact Y|].
  pose proof (Z.log2_spec x X) as [A _]. pose proof (Z.log2_spec y Y) as [_ B].
  assert (2 ^ (Z.log2 x + s) <= x * 2 ^ s) as C.
  { rewrite Z.pow_add_r; [|apply Z.log2_nonneg|unfold s; lia]. apply Z.mul_le_mono_nonneg_r; [|exact A].
    apply Z.lt_le_incl, pow_pos. unfold s. lia. }
  assert (2 ^ (Z.log2 y + 60) <= 2 ^ (Z.log2 x + s)) as D by (apply Z.pow_le_mono_r; [lia|unfold s; lia]).
  replace (Z.log2 y + 60) with (Z.succ (Z.log2 y) + 59) in D by lia.
  rewrite Z.pow_add_r in D by (pose proof (Z.log2_nonneg y); lia).
  pose proof (pow_pos 59). nia.
Qed.

Lemma v_ge : 2 ^ 60 <= v.
Proof. pose proof q_ge. unfold v. change (2 ^ 60) with (2 * 2 ^ 59). assert (0 <= t) by (unfold t; destruct (_ =? 0); lia). lia. Qed.

Lemma log_v : 2 ^ Z.log2 v <= v < 2 ^ (Z.log2 v + 1).
Proof. apply Z.log2_spec. pose proof v_ge. pose proof (pow_pos 60). lia. Qed.

Lemma logv_ge : 60 <= Z.log2 v.
Proof. apply Z.log2_le_pow2; [pose proof v_ge; pose proof (pow_pos 60); lia|exact v_ge]. Qed.

Lemma k_pos : 8 <= k.
Proof. unfold k. pose proof logv_ge. lia. Qed.

Lemma near : 2 * Z.abs (r * 2 ^ k - v) <= 2 ^ k.
Proof. apply rne_near; [pose proof v_ge; pose proof (pow_pos 60); lia|pose proof k_pos; lia]. Qed.

(* x * 2 w / y against v *)
Lemma sticky : x * 2 ^ (s + 1) - y <= v * y <= x * 2 ^ (s + 1) + y.
Proof.
  pose proof s_ge. rewrite Z.pow_add_r by lia. change (2 ^ 1) with 2.
  pose proof (Z.div_mod (x * 2 ^ s) y ltac:(lia)) as D. pose proof (Z.mod_pos_bound (x * 2 ^ s) y Y) as M. fold q in D.
  unfold v, t. destruct (Z.eqb_spec (x * 2 ^ s mod y) 0) as [E|E]; nia.
Qed.

Lemma above n : n * y <= x -> n * 2 ^ (s + 1) <= v.
Proof.
  intros H. pose proof s_ge. pose proof (pow_pos s ltac:(lia)). rewrite Z.pow_add_r by lia. change (2 ^ 1) with 2.
  assert (n * 2 ^ s <= q) by (apply Z.div_le_lower_bound; [exact Y|nia]).
  assert (0 <= t) by (unfold t; destruct (_ =? 0); lia). unfold v. lia.
Qed.
Lemma under n : x <= n * y -> v <= n * 2 ^ (s + 1).
Proof.
  intros H. pose proof s_ge. pose proof (pow_pos s ltac:(lia)). rewrite Z.pow_add_r by lia. change (2 ^ 1) with 2.
  pose proof (Z.div_mod (x * 2 ^ s) y ltac:(lia)) as D. pose proof (Z.mod_pos_bound (x * 2 ^ s) y Y) as M. fold q in D.
  assert (x * 2 ^ s <= n * 2 ^ s * y) by nia.
  unfold v, t. destruct (Z.eqb_spec (x * 2 ^ s mod y) 0) as [E|E]; nia.
Qed.

(* the exponent of the result is not positive *)
Lemma g_pos : x < 2 ^ 53 * y -> 0 <= g.
Proof.
  intros H. unfold g, k. pose proof s_ge.
  assert (Z.log2 v < s + 54); [|lia].
  assert (v <= 2 ^ 53 * 2 ^ (s + 1)) as U by (apply under; lia).
  rewrite <- Z.pow_add_r in U by lia. replace (53 + (s + 1)) with (s + 54) in U by lia.
  destruct (Z.eq_dec v (2 ^ (s + 54))) as [E|E].
  - exfalso. pose proof sticky as [S _]. pose proof s_ge.
    (* v is even and not smaller than 2 ^ 53 * w, so the quotient is not smaller *)
    pose proof (Z.div_mod (x * 2 ^ s) y ltac:(lia)) as D. pose proof (Z.mod_pos_bound (x * 2 ^ s) y Y) as M. fold q in D.
    assert (q = 2 ^ 53 * 2 ^ s) as Q.
    { rewrite <- Z.pow_add_r by lia. replace (s + 54) with ((53 + s) + 1) in E by lia. rewrite Z.pow_add_r in E by lia.
      change (2 ^ 1) with 2 in E. unfold v, t in E. destruct (_ =? 0); lia. }
    rewrite Q in D. pose proof (pow_pos s ltac:(lia)). nia.
  - apply Z.log2_lt_pow2; [pose proof v_ge; pose proof (pow_pos 60); lia|lia].
Qed.

Lemma w_split : x < 2 ^ 53 * y -> 2 ^ (s + 1) = 2 ^ g * 2 ^ k.
Proof. intros H. rewrite <- Z.pow_add_r; [f_equal; unfold g; lia|now apply g_pos|pose proof k_pos; lia]. Qed.

(* the last place of the result against v *)
Lemma p_le : 2 ^ k * 2 ^ 52 <= v \/ 2 ^ k * 2 ^ 52 <= 2 ^ (s + 1).
Proof.
  unfold k. pose proof logv_ge. pose proof s_ge. destruct (Z.max_spec (Z.log2 v - 52) (-1074 - (- s - 1))) as [[_ ->]|[_ ->]].
  - right. destruct (Z.le_gt_cases 0 (-1074 - (- s - 1))).
    + rewrite <- Z.pow_add_r by lia. apply Z.pow_le_mono_r; lia.
    + rewrite Z.pow_neg_r by lia. pose proof (pow_pos (s + 1)). lia.
  - left. rewrite <- Z.pow_add_r by lia. replace (Z.log2 v - 52 + 52) with (Z.log2 v) by lia. apply log_v.
Qed.
Lemma p_gt : v < 2 ^ k * 2 ^ 53.
Proof.
  rewrite <- Z.pow_add_r by (pose proof k_pos; lia). pose proof log_v as [_ L]. eapply Z.lt_le_trans; [exact L|].
  apply Z.pow_le_mono_r; [lia|unfold k; lia].
Qed.
Lemma w_ge : 2 ^ 61 <= 2 ^ (s + 1).
Proof. apply Z.pow_le_mono_r; [lia|pose proof s_ge; lia]. Qed.

Hypothesis B : x < 2 ^ 53 * y.

Lemma r_above n : n * y <= x -> n * 2 ^ g <= r.
Proof.
  intros H. pose proof (above n H) as A. rewrite (w_split B) in A. pose proof near as N.
  pose proof (pow_pos k ltac:(pose proof k_pos; lia)). set (p := 2 ^ k) in *. set (G := 2 ^ g) in *. clearbody p G.
  destruct (Z.le_gt_cases (n * G) r); [assumption|]. exfalso. assert (r * p <= (n * G - 1) * p) by nia. nia.
Qed.
Lemma r_under n : x <= n * y -> r <= n * 2 ^ g.
Proof.
  intros H. pose proof (under n H) as A. rewrite (w_split B) in A. pose proof near as N.
  pose proof (pow_pos k ltac:(pose proof k_pos; lia)). set (p := 2 ^ k) in *. set (G := 2 ^ g) in *. clearbody p G.
  destruct (Z.le_gt_cases r (n * G)); [assumption|]. exfalso. assert ((n * G + 1) * p <= r * p) by nia. nia.
Qed.

(* v against n * w, from x against n * y *)
Lemma dist n d : n * y - x = d -> n * 2 ^ (s + 1) * y - d * 2 ^ (s + 1) - y <= v * y <= n * 2 ^ (s + 1) * y - d * 2 ^ (s + 1) + y.
Proof. intros <-. pose proof sticky. nia. Qed.

Lemma cmul (c a b : Z) : 0 < c -> a * c <= b * c -> a <= b.
Proof. nia. Qed.

Lemma scale n a : n * y <= a * 2 ^ 50 -> n * 2 ^ (s + 1) * y <= a * 2 ^ (s + 1) * 2 ^ 50.
Proof. intros H. pose proof w_ge. pose proof (pow_pos 61). nia. Qed.
Lemma scale' n a : a * 2 ^ 57 <= n * y -> a * 2 ^ (s + 1) * 2 ^ 57 <= n * 2 ^ (s + 1) * y.
Proof. intros H. pose proof w_ge. pose proof (pow_pos 61). nia. Qed.
Lemma split_n n : n * 2 ^ (s + 1) = n * 2 ^ g * 2 ^ k.
Proof. rewrite <- Z.mul_assoc. now rewrite <- (w_split B). Qed.
Lemma p_pos : 0 < 2 ^ k.
Proof. apply pow_pos. pose proof k_pos. lia. Qed.

Ltac nums := change (2 ^ 50) with 1125899906842624 in *; change (2 ^ 52) with 4503599627370496 in *;
  change (2 ^ 53) with 9007199254740992 in *; change (2 ^ 57) with 144115188075855872 in *;
  change (2 ^ 61) with 2305843009213693952 in *.

Lemma r_less n : 1 <= n -> x < n * y -> n * y <= (n * y - x) * 2 ^ 50 -> r < n * 2 ^ g.
Proof.
  intros N1 H Gp. pose proof (dist n _ eq_refl) as [_ D]. pose proof (under n ltac:(lia)) as U. pose proof w_ge as W.
  pose proof (scale _ _ Gp) as S. pose proof near as N. pose proof p_le as P. pose proof p_pos.
  pose proof (split_n n) as NE.
  assert (2 ^ (s + 1) <= n * 2 ^ (s + 1)) as NW by nia.
  set (w := 2 ^ (s + 1)) in *. set (m := n * w) in *.
  assert (m <= (m - v + 1) * 2 ^ 50) as E by (apply (cmul y); [exact Y|nia]).
  assert (r * 2 ^ k < m) as F by (nums; lia).
  rewrite NE in F. now apply Z.mul_lt_mono_pos_r in F.
Qed.
Lemma r_more n : 1 <= n -> n * y < x -> n * y <= (x - n * y) * 2 ^ 50 -> n * 2 ^ g < r.
Proof.
  intros N1 H Gp. pose proof (dist n _ eq_refl) as [D _]. pose proof (above n ltac:(lia)) as U. pose proof w_ge as W.
  pose proof (scale _ _ Gp) as S. pose proof near as N. pose proof p_le as P. pose proof p_pos.
  pose proof (split_n n) as NE.
  assert (2 ^ (s + 1) <= n * 2 ^ (s + 1)) as NW by nia.
  set (w := 2 ^ (s + 1)) in *. set (m := n * w) in *.
  assert (m <= (v - m + 1) * 2 ^ 50) as E by (apply (cmul y); [exact Y|nia]).
  assert (m < r * 2 ^ k) as F by (nums; lia).
  rewrite NE in F. now apply Z.mul_lt_mono_pos_r in F.
Qed.
Lemma r_up n : 1 <= n -> x < n * y -> (n * y - x) * 2 ^ 57 <= n * y -> r = n * 2 ^ g.
Proof.
  intros N1 H Gp. pose proof (dist n _ eq_refl) as [D _]. pose proof (r_under n ltac:(lia)) as U. pose proof w_ge as W.
  pose proof (scale' _ _ Gp) as S. pose proof near as N. pose proof p_gt as P. pose proof p_pos.
  pose proof (split_n n) as NE.
  assert (2 ^ (s + 1) <= n * 2 ^ (s + 1)) as NW by nia.
  set (w := 2 ^ (s + 1)) in *. set (m := n * w) in *.
  assert ((m - v - 1) * 2 ^ 57 <= m) as E by (apply (cmul y); [exact Y|nia]).
  assert (m - 2 ^ k < r * 2 ^ k) as F by (nums; lia).
  rewrite NE in F. enough (n * 2 ^ g - 1 < r) by lia. apply (Z.mul_lt_mono_pos_r (2 ^ k)); lia.
Qed.
Lemma r_down n : 1 <= n -> n * y < x -> (x - n * y) * 2 ^ 57 <= n * y -> r = n * 2 ^ g.
Proof.
  intros N1 H Gp. pose proof (dist n _ eq_refl) as [_ D]. pose proof (r_above n ltac:(lia)) as U. pose proof w_ge as W.
  pose proof (scale' _ _ Gp) as S. pose proof near as N. pose proof p_gt as P. pose proof p_pos.
  pose proof (split_n n) as NE. pose proof (above n ltac:(lia)) as UU.
  assert (2 ^ (s + 1) <= n * 2 ^ (s + 1)) as NW by nia.
  set (w := 2 ^ (s + 1)) in *. set (m := n * w) in *.
  assert ((v - m - 1) * 2 ^ 57 <= m) as E by (apply (cmul y); [exact Y|nia]).
  assert (r * 2 ^ k < m + 2 ^ k) as F by (nums; lia).
  rewrite NE in F. enough (r < n * 2 ^ g + 1) by lia. apply (Z.mul_lt_mono_pos_r (2 ^ k)); lia.
Qed.
(* no underflow *)
Lemma r_pos : y <= x * 2 ^ 1074 -> 0 < r.
Proof.
  intros H. pose proof near as N. pose proof p_pos. pose proof v_ge. pose proof (pow_pos 60).
  assert (2 ^ k <= v); [|nia].
  unfold k. pose proof logv_ge. pose proof s_ge. pose proof log_v as [L _].
  destruct (Z.max_spec (Z.log2 v - 52) (-1074 - (- s - 1))) as [[_ ->]|[_ ->]].
  - destruct (Z.le_gt_cases 0 (-1074 - (- s - 1))) as [K|K].
    + pose proof sticky as [S _].
      assert (x * 2 ^ (s + 1) = x * 2 ^ 1074 * 2 ^ (-1074 - (- s - 1))) as E.
      { rewrite <- Z.mul_assoc, <- Z.pow_add_r by lia. f_equal. f_equal. lia. }
      (* y * 2^(s-1073) <= x * 2^(s+1) <= v y + y, and v is even or larger *)
      assert (y * 2 ^ (-1074 - (- s - 1)) <= x * 2 ^ (s + 1)) as F by (rewrite E; pose proof (pow_pos (-1074 - (- s - 1)) K); nia).
      destruct (Z.eq_dec (-1074 - (- s - 1)) 0) as [Z0|NZ].
      * rewrite Z0. change (2 ^ 0) with 1. lia.
      * pose proof (Z.div_le_lower_bound (x * 2 ^ s) y (2 ^ (-1074 - (- s - 1) - 1)) Y) as Q. fold q in Q.
        assert (2 ^ (-1074 - (- s - 1)) = 2 * 2 ^ (-1074 - (- s - 1) - 1)) as T2.
        { rewrite <- (Z.pow_1_r 2) at 2. rewrite <- Z.pow_add_r by lia. f_equal. lia. }
        assert (2 ^ (s + 1) = 2 * 2 ^ s) as T3 by (rewrite Z.pow_add_r by lia; change (2 ^ 1) with 2; lia).
        rewrite T2, T3 in F. rewrite T2. unfold v. assert (0 <= t) by (unfold t; destruct (_ =? 0); lia).
        assert (2 ^ (-1074 - (- s - 1) - 1) <= q) by (apply Q; lia). lia.
    + rewrite Z.pow_neg_r by lia. lia.
  - eapply Z.le_trans; [|exact L]. apply Z.pow_le_mono_r; lia.
Qed.

(* the division *)
Lemma r_nonneg : 0 <= r.
Proof. pose proof (r_above 0 ltac:(lia)). lia. Qed.
Lemma ieee_mag e : e = 1 \/ e = -1 ->
  exists f, ieee (e * v) (- s - 1) = Fin f /\ ffloor f = (e * r) / 2 ^ g.
Proof.
  intros E. pose proof v_ge. pose proof (pow_pos 60). unfold ieee. cbv zeta.
  replace (Z.abs (e * v)) with v by (destruct E; subst; lia). fold k.
  pose proof k_pos. destruct (Z.leb_spec k 0); [lia|]. fold r.
  pose proof r_nonneg as R0. pose proof (g_pos B) as G0. pose proof (pow_pos g G0).
  destruct (Z.eqb_spec r 0) as [Z0|NZ].
  - exists (mkf 0 0). split; [reflexivity|]. rewrite Z0, Z.mul_0_r, Z.div_0_l by lia. reflexivity.
  - assert (Z.log2 r < 54 + g) as L.
    { pose proof (r_under (2 ^ 53) ltac:(lia)) as U. apply Z.log2_lt_pow2; [lia|]. rewrite Z.pow_add_r by lia.
      change (2 ^ 54) with (2 * 2 ^ 53). pose proof (pow_pos 53). nia. }
    replace (- s - 1 + k) with (- g) by (unfold g; lia).
    destruct (Z.leb_spec 1024 (Z.log2 r + - g)); [lia|].
    eexists. split; [reflexivity|]. replace (Z.sgn (e * v)) with e by (rewrite Z.sgn_mul; destruct E; subst; rewrite (Z.sgn_pos v) by lia; reflexivity).
    unfold ffloor. cbn [mant expo]. destruct (Z.leb_spec 0 (- g)).
    + replace g with 0 by lia. change (2 ^ - 0) with 1. change (2 ^ 0) with 1. rewrite Z.div_1_r. lia.
    + now replace (- - g) with g by lia.
Qed.
End Magnitude.
