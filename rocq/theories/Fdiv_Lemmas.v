From Coq Require Import ZArith Bool Lia.
From Verif Require Import Math_Model Root_Model Root_Proofs Fdiv_Model Fdiv_Spec Fdiv_Proofs.
Open Scope Z_scope.

Section Floor.
Variables a b : float.
Hypothesis NB : mant b <> 0.
Notation A := (num a b).
Notation D := (den a b).
Notation q := (py_floor a b).

Lemma den_nz : D <> 0.
Proof. unfold den. assert (0 < 2 ^ (expo b - low a b)) by (apply pow_pos; unfold low; lia). nia. Qed.

Lemma norm_div : q = (A * Z.sgn D) / Z.abs D.
Proof.
  unfold py_floor. pose proof den_nz. destruct (Z.lt_trichotomy D 0) as [L|[L|L]]; [|lia|].
  - rewrite Z.sgn_neg, Z.abs_neq by lia. rewrite <- (Z.div_opp_opp A D) by lia. f_equal. lia.
  - rewrite Z.sgn_pos, Z.abs_eq by lia. f_equal. lia.
Qed.
Lemma gap_eq : gap a b = (q + 1) * Z.abs D - A * Z.sgn D.
Proof. rewrite norm_div. unfold gap. pose proof den_nz. pose proof (Z.div_mod (A * Z.sgn D) (Z.abs D) ltac:(lia)). lia. Qed.
Lemma gap_pos : 0 < gap a b <= Z.abs D.
Proof. unfold gap. pose proof den_nz. pose proof (Z.mod_pos_bound (A * Z.sgn D) (Z.abs D) ltac:(lia)). lia. Qed.

(* the quotient is positive or negative, and its magnitude is x / y *)
Lemma cases : let x := Z.abs A in let y := Z.abs D in
  (A = 0 /\ q = 0) \/
  (0 < x /\ Z.sgn A * Z.sgn D = 1 /\ 0 <= q /\ q * y <= x < (q + 1) * y /\ gap a b = (q + 1) * y - x) \/
  (0 < x /\ Z.sgn A * Z.sgn D = -1 /\ q <= -1 /\ (- q - 1) * y < x <= - q * y /\ gap a b = x - (- q - 1) * y).
Proof.
  cbv zeta. pose proof gap_eq as G. pose proof gap_pos as P. pose proof den_nz.
  destruct (Z.lt_trichotomy A 0) as [L|[L|L]].
  2:{ left. split; [exact L|]. unfold py_floor. rewrite L. now apply Z.div_0_l. }
  - right. destruct (Z.lt_trichotomy D 0) as [M|[M|M]]; [left|lia|right];
      rewrite ?(Z.sgn_neg A), ?(Z.sgn_neg D), ?(Z.sgn_pos D), ?(Z.abs_neq A), ?(Z.abs_neq D), ?(Z.abs_eq D) in * by lia;
      (split; [lia|]; split; [reflexivity|]; split; [nia|]; lia).
  - right. destruct (Z.lt_trichotomy D 0) as [M|[M|M]]; [right|lia|left];
      rewrite ?(Z.sgn_pos A), ?(Z.sgn_neg D), ?(Z.sgn_pos D), ?(Z.abs_eq A), ?(Z.abs_neq D), ?(Z.abs_eq D) in * by lia;
      (split; [lia|]; split; [reflexivity|]; split; [nia|]; lia).
Qed.

Lemma div_q r g n : 0 < g -> n * g <= r < (n + 1) * g -> r / g = n.
Proof. intros G H. symmetry. apply (Z.div_unique_pos r g n (r - n * g)); lia. Qed.

(* what floor(a / b) can be *)
Lemma floor_main : Z.abs q < 2 ^ 53 ->
  exists n, c_floordiv a b = Some n /\ f_floordiv a b = Some n /\ (n = q \/ n = q + 1) /\
    (Z.abs (q + 1) * Z.abs D <= gap a b * 2 ^ 50 -> Z.abs D <= gap a b * 2 ^ 1074 -> n = q) /\
    (q + 1 <> 0 -> gap a b * 2 ^ 57 <= Z.abs (q + 1) * Z.abs D -> n = q + 1).
Proof.
  intros Q. pose proof den_nz as DZ. pose proof cases as C. cbv zeta in C.
  assert (forall f, ddiv a b = Fin f -> (ffloor f = q \/ ffloor f = q + 1) ->
    c_floordiv a b = Some (ffloor f) /\ f_floordiv a b = Some (ffloor f)) as RES.
  { intros f E H. unfold c_floordiv, f_floordiv. rewrite E. split; [reflexivity|].
    assert (2 ^ 53 + 1 < 2 ^ 63) by reflexivity. clear C.
    assert ((- 2 ^ 63 <=? ffloor f) = true) as -> by (apply Z.leb_le; lia).
    assert ((ffloor f <? 2 ^ 63) = true) as -> by (apply Z.ltb_lt; lia). reflexivity. }
  assert (ddiv a b = if Z.abs A =? 0 then Fin (mkf 0 0) else
    let x := Z.abs A in let y := Z.abs D in
    let s := 60 + Z.max 0 (Z.log2 y - Z.log2 x) in
    ieee (Z.sgn A * Z.sgn D * (2 * (x * 2 ^ s / y) + (if x * 2 ^ s mod y =? 0 then 0 else 1))) (- s - 1)) as DD.
  { unfold ddiv. cbv zeta. destruct (Z.eqb_spec (Z.abs D) 0); [lia|reflexivity]. }
  destruct C as [[A0 Q0]|[(X & S & Q0 & H & Gp)|(X & S & Q0 & H & Gp)]].
  - rewrite A0 in DD. cbn [Z.abs Z.eqb] in DD. destruct (RES _ DD) as [E1 E2]; [left; now rewrite Q0|].
    exists 0. split; [exact E1|]. split; [exact E2|]. rewrite Q0. split; [now left|]. split; [reflexivity|].
    intros _ L. exfalso. pose proof gap_eq as GE. rewrite A0, Q0 in GE. change (Z.abs (0 + 1)) with 1 in L.
    change (2 ^ 57) with 144115188075855872 in L. lia.
  - destruct (Z.eqb_spec (Z.abs A) 0); [lia|]. cbv zeta in DD. rewrite S in DD.
    assert (Z.abs A < 2 ^ 53 * Z.abs D) as B by nia.
    destruct (ieee_mag (Z.abs A) (Z.abs D) X ltac:(lia) B 1 (or_introl eq_refl)) as (f & E & F). rewrite E in DD.
    pose proof (r_above (Z.abs A) (Z.abs D) X ltac:(lia) B q ltac:(lia)) as R1.
    pose proof (r_under (Z.abs A) (Z.abs D) X ltac:(lia) B (q + 1) ltac:(lia)) as R2.
    pose proof (r_less (Z.abs A) (Z.abs D) X ltac:(lia) B (q + 1) ltac:(lia) ltac:(lia)) as R3.
    pose proof (r_up (Z.abs A) (Z.abs D) X ltac:(lia) B (q + 1) ltac:(lia) ltac:(lia)) as R4.
    pose proof (pow_pos _ (g_pos (Z.abs A) (Z.abs D) X ltac:(lia) B)) as G0.
    rewrite Z.mul_1_l in F.
    set (r := rne _ _) in *. set (g := 2 ^ (_ + 1 - _)) in *. clearbody r g.
    rewrite <- Gp in R3, R4.
    assert (ffloor f = q \/ ffloor f = q + 1) as O.
    { rewrite F. destruct (Z.eq_dec r ((q + 1) * g)) as [->|N]; [right; apply Z.div_mul; lia|left; apply div_q; lia]. }
    destruct (RES _ DD O) as [E1 E2]. exists (ffloor f). split; [exact E1|]. split; [exact E2|]. split; [exact O|].
    rewrite (Z.abs_eq (q + 1)) by lia. split.
    + intros L _. rewrite F. apply div_q; [exact G0|]. split; [exact R1|]. now apply R3.
    + intros _ L. rewrite F, (R4 L). apply Z.div_mul. lia.
  - destruct (Z.eqb_spec (Z.abs A) 0); [lia|]. cbv zeta in DD. rewrite S in DD.
    assert (Z.abs A < 2 ^ 53 * Z.abs D) as B by nia.
    destruct (ieee_mag (Z.abs A) (Z.abs D) X ltac:(lia) B (-1) (or_intror eq_refl)) as (f & E & F). rewrite E in DD.
    pose proof (r_above (Z.abs A) (Z.abs D) X ltac:(lia) B (- q - 1) ltac:(lia)) as R1.
    pose proof (r_under (Z.abs A) (Z.abs D) X ltac:(lia) B (- q) ltac:(lia)) as R2.
    pose proof (fun N => r_more (Z.abs A) (Z.abs D) X ltac:(lia) B (- q - 1) N ltac:(lia)) as R3.
    pose proof (fun N => r_down (Z.abs A) (Z.abs D) X ltac:(lia) B (- q - 1) N ltac:(lia)) as R4.
    pose proof (r_pos (Z.abs A) (Z.abs D) X ltac:(lia) B) as R5.
    pose proof (pow_pos _ (g_pos (Z.abs A) (Z.abs D) X ltac:(lia) B)) as G0.
    set (r := rne _ _) in *. set (g := 2 ^ (_ + 1 - _)) in *. clearbody r g.
    rewrite <- Gp in R3, R4.
    assert (ffloor f = q \/ ffloor f = q + 1) as O.
    { rewrite F. destruct (Z.eq_dec r ((- q - 1) * g)) as [->|N].
      - right. replace (-1 * ((- q - 1) * g)) with ((q + 1) * g) by lia. apply Z.div_mul. lia.
      - left. apply div_q; [exact G0|]. lia. }
    destruct (RES _ DD O) as [E1 E2]. exists (ffloor f). split; [exact E1|]. split; [exact E2|]. split; [exact O|].
    replace (Z.abs (q + 1)) with (- q - 1) by lia. split.
    + intros L U. rewrite F. apply div_q; [exact G0|]. split; [lia|].
      destruct (Z.eq_dec q (-1)) as [Q1|Q1].
      * assert (0 < r) by (apply R5; rewrite Q1 in Gp; lia). rewrite Q1. lia.
      * assert ((- q - 1) * g < r) by (apply R3; lia). lia.
    + intros N L. rewrite F, (R4 ltac:(lia) L). replace (-1 * ((- q - 1) * g)) with ((q + 1) * g) by lia. apply Z.div_mul. lia.
Qed.

Lemma range_main : 2 ^ 63 <= q -> f_floordiv a b = None.
Proof.
  intros Q. pose proof den_nz as DZ. pose proof cases as C. cbv zeta in C. pose proof (pow_pos 63).
  destruct C as [[A0 Q0]|[(X & S & Q0 & H1 & Gp)|(X & S & Q0 & H1 & Gp)]]; [lia| |lia].
  unfold f_floordiv, ddiv. cbv zeta. destruct (Z.eqb_spec (Z.abs D) 0); [lia|]. destruct (Z.eqb_spec (Z.abs A) 0); [lia|].
  rewrite S, Z.mul_1_l. pose proof (above (Z.abs A) (Z.abs D) ltac:(lia) (2 ^ 63) ltac:(nia)) as V.
  pose proof (v_ge (Z.abs A) (Z.abs D) X ltac:(lia)) as V0. pose proof (s_ge (Z.abs A) (Z.abs D)) as S0.
  set (s := 60 + Z.max 0 (Z.log2 (Z.abs D) - Z.log2 (Z.abs A))) in *. set (v := 2 * (Z.abs A * 2 ^ s / Z.abs D) + _) in *.
  clearbody v s. rewrite <- Z.pow_add_r in V by lia.
  pose proof (pow_pos 60). assert (63 + (s + 1) <= Z.log2 v) as L by (apply Z.log2_le_pow2; lia).
  unfold ieee. cbv zeta. rewrite (Z.abs_eq v) by lia.
  replace (Z.max (Z.log2 v - 52) (-1074 - (- s - 1))) with (Z.log2 v - 52) by lia.
  destruct (Z.leb_spec (Z.log2 v - 52) 0); [lia|].
  pose proof (rne_near v (Z.log2 v - 52) ltac:(lia) ltac:(lia)) as N. pose proof (Z.log2_spec v ltac:(lia)) as [V1 _].
  assert (2 ^ Z.log2 v = 2 ^ 52 * 2 ^ (Z.log2 v - 52)) as E by (rewrite <- Z.pow_add_r by lia; f_equal; lia).
  pose proof (pow_pos (Z.log2 v - 52) ltac:(lia)) as P. set (r := rne v (Z.log2 v - 52)) in *. clearbody r.
  assert (2 ^ 52 <= r) as R.
  { set (p := 2 ^ (Z.log2 v - 52)) in *. clearbody p. rewrite E in V1. clear -N V1 P.
    destruct (Z.le_gt_cases (2 ^ 52) r); [assumption|]. exfalso. assert (r * p <= (2 ^ 52 - 1) * p) by (apply Z.mul_le_mono_nonneg_r; lia). lia. }
  pose proof (pow_pos 52). destruct (Z.eqb_spec r 0); [lia|]. destruct (_ <=? _); [reflexivity|].
  rewrite (Z.sgn_pos v), Z.mul_1_l by lia. unfold ffloor. cbn [mant expo].
  destruct (Z.leb_spec 0 (- s - 1 + (Z.log2 v - 52))); [|lia].
  assert (2 ^ 11 <= 2 ^ (- s - 1 + (Z.log2 v - 52))) as F by (apply Z.pow_le_mono_r; lia).
  assert (2 ^ 63 <= r * 2 ^ (- s - 1 + (Z.log2 v - 52))) as G.
  { change (2 ^ 63) with (2 ^ 52 * 2 ^ 11). apply Z.mul_le_mono_nonneg; lia. }
  destruct (Z.ltb_spec (r * 2 ^ (- s - 1 + (Z.log2 v - 52))) (2 ^ 63)); [lia|]. now rewrite andb_false_r.
Qed.

Lemma grid_gap : Z.abs A + Z.abs D < 2 ^ 50 ->
  Z.abs q < 2 ^ 53 /\ Z.abs (q + 1) * Z.abs D <= gap a b * 2 ^ 50 /\ Z.abs D <= gap a b * 2 ^ 1074.
Proof.
  intros H. pose proof gap_pos as G. pose proof den_nz. pose proof gap_eq as GE.
  assert (Z.abs (A * Z.sgn D) = Z.abs A) as AS by (rewrite Z.abs_mul; destruct D; cbn; lia).
  assert (Z.abs (q + 1) * Z.abs D <= Z.abs A + Z.abs D) as M.
  { rewrite <- (Z.abs_eq (Z.abs D)) at 1 by lia. rewrite <- Z.abs_mul. lia. }
  assert (Z.abs (q + 1) <= Z.abs (q + 1) * Z.abs D) by nia.
  assert (2 ^ 50 <= 2 ^ 1074) by (apply Z.pow_le_mono_r; lia).
  assert (2 ^ 50 + 1 < 2 ^ 53) by reflexivity.
  split; [lia|]. generalize dependent (2 ^ 1074). intros T T1. generalize dependent (2 ^ 50). intros F HF _ T1.
  assert (0 < F) by lia. assert (F * 1 <= F * gap a b) by (apply Z.mul_le_mono_nonneg_l; lia).
  assert (T * 1 <= T * gap a b) by (apply Z.mul_le_mono_nonneg_l; lia). split; lia.
Qed.
End Floor.

(* ------------------------------ remainder ------------------------------ *)

Lemma rem_mod_same x y : y <> 0 -> xorb (x <? 0) (y <? 0) = false -> Z.rem x y = x mod y.
Proof.
  intros Y H. destruct (Z.ltb_spec x 0), (Z.ltb_spec y 0); try discriminate H.
  - rewrite <- (Z.opp_involutive x), <- (Z.opp_involutive y). rewrite Z.rem_opp_opp, Z.mod_opp_opp by lia.
    f_equal. apply Z.rem_mod_nonneg; lia.
  - apply Z.rem_mod_nonneg; lia.
Qed.
Lemma rem_mod_diff x y : y <> 0 -> Z.rem x y <> 0 -> xorb (x <? 0) (y <? 0) = true -> Z.rem x y + y = x mod y.
Proof.
  intros Y N H. pose proof (Z.quot_rem x y Y) as E. apply (Z.mod_unique x y (Z.quot x y - 1)); [|lia].
  destruct (Z.ltb_spec x 0), (Z.ltb_spec y 0); try discriminate H.
  - left. pose proof (Z.rem_nonpos x y Y ltac:(lia)). pose proof (Z.rem_bound_abs x y Y). lia.
  - right. pose proof (Z.rem_nonneg x y Y ltac:(lia)). pose proof (Z.rem_bound_abs x y Y). lia.
Qed.
Lemma rem_zero x y : y <> 0 -> Z.rem x y = 0 <-> x mod y = 0.
Proof. intros Y. rewrite Z.rem_divide, Z.mod_divide by exact Y. tauto. Qed.

Lemma ieee_exact m e : m <> 0 -> Z.abs m < 2 ^ 53 -> -1074 <= e -> Z.log2 (Z.abs m) + e < 1024 -> ieee m e = Fin (mkf m e).
Proof.
  intros M H E L. unfold ieee. cbv zeta. assert (Z.log2 (Z.abs m) < 53) by (apply Z.log2_lt_pow2; lia).
  destruct (Z.leb_spec (Z.max (Z.log2 (Z.abs m) - 52) (-1074 - e)) 0); [|lia].
  destruct (Z.eqb_spec (Z.abs m) 0); [lia|]. destruct (Z.leb_spec 1024 (Z.log2 (Z.abs m) + e)); [lia|].
  f_equal. f_equal. rewrite Z.mul_comm. apply Z.abs_sgn.
Qed.
Lemma ieee_zero e : -1074 <= e -> ieee 0 e = Fin (mkf 0 0).
Proof. intros E. unfold ieee. cbv zeta. cbn [Z.abs Z.log2]. destruct (Z.leb_spec (Z.max (0 - 52) (-1074 - e)) 0); [reflexivity|lia]. Qed.
Lemma ieee_nonzero m e f : m <> 0 -> -1074 <= e -> ieee m e = Fin f -> mant f <> 0.
Proof.
  intros M E. unfold ieee. cbv zeta. set (k := Z.max _ _).
  destruct (Z.leb_spec k 0).
  - destruct (Z.eqb_spec (Z.abs m) 0); [lia|]. destruct (_ <=? _); [discriminate|]. intros [= <-]. cbn. lia.
  - assert (k = Z.log2 (Z.abs m) - 52) as K by (unfold k in *; lia).
    pose proof (rne_near (Z.abs m) k ltac:(lia) ltac:(lia)) as N. pose proof (Z.log2_spec (Z.abs m) ltac:(lia)) as [L _].
    assert (2 ^ k < Z.abs m) as P by (eapply Z.lt_le_trans; [|exact L]; apply Z.pow_lt_mono_r; lia).
    destruct (Z.eqb_spec (rne (Z.abs m) k) 0) as [Z0|NZ]; [rewrite Z0 in N; lia|].
    destruct (_ <=? _); [discriminate|]. intros [= <-]. cbn. lia.
Qed.

Section Mod.
Variables a b : signed.
Hypothesis SA : is_signed a.
Hypothesis SB : is_signed b.
Hypothesis NB : mant (num_of b) <> 0.
Notation A := (num (num_of a) (num_of b)).
Notation D := (den (num_of a) (num_of b)).
Notation l := (low (num_of a) (num_of b)).

Lemma l_ge : -1074 <= l.
Proof. destruct SA as ((_ & E & _) & _). destruct SB as ((_ & E' & _) & _). unfold low. lia. Qed.
Lemma sgn_num : (A <? 0) = below a.
Proof. unfold below, num. assert (0 < 2 ^ (expo (num_of a) - l)) by (apply pow_pos; unfold low; lia).
  destruct (Z.ltb_spec (mant (num_of a)) 0); [apply Z.ltb_lt; nia|apply Z.ltb_ge; nia]. Qed.
Lemma sgn_den : (D <? 0) = below b.
Proof. unfold below, den. assert (0 < 2 ^ (expo (num_of b) - l)) by (apply pow_pos; unfold low; lia).
  destruct (Z.ltb_spec (mant (num_of b)) 0); [apply Z.ltb_lt; nia|apply Z.ltb_ge; nia]. Qed.

(* fmod is a double *)
Lemma rem_double : Z.rem A D <> 0 -> Z.abs (Z.rem A D) < 2 ^ 53 /\ Z.log2 (Z.abs (Z.rem A D)) + l < 1024.
Proof.
  intros N. pose proof (den_nz (num_of a) (num_of b) NB) as DZ.
  pose proof (Z.rem_bound_abs A D DZ) as LB.
  assert (Z.abs (Z.rem A D) <= Z.abs A) as LA.
  { rewrite <- Z.rem_abs by exact DZ. apply Z.rem_le; lia. }
  destruct SA as ((A1 & A2 & A3) & _). destruct SB as ((B1 & B2 & B3) & _).
  destruct (Z.le_ge_cases (expo (num_of a)) (expo (num_of b))) as [C|C].
  - assert (l = expo (num_of a)) as L by (unfold low; lia).
    assert (A = mant (num_of a)) as EA by (unfold num; rewrite L, Z.sub_diag, Z.mul_1_r; reflexivity).
    rewrite EA in *. split; [lia|]. rewrite L. pose proof (Z.log2_le_mono _ _ LA). lia.
  - assert (l = expo (num_of b)) as L by (unfold low; lia).
    assert (D = mant (num_of b)) as EB by (unfold den; rewrite L, Z.sub_diag, Z.mul_1_r; reflexivity).
    rewrite EB in *. split; [lia|]. rewrite L. pose proof (Z.log2_le_mono (Z.abs (Z.rem A (mant (num_of b)))) (Z.abs (mant (num_of b))) ltac:(lia)). lia.
Qed.

Lemma add_eq : dadd (fmod (num_of a) (num_of b)) (num_of b) = ieee (Z.rem A D + D) l.
Proof.
  unfold dadd. assert (low (fmod (num_of a) (num_of b)) (num_of b) = l) as L by (unfold fmod, low; cbn [expo]; lia).
  unfold num at 1, den at 1. rewrite L. unfold fmod at 1 2. cbn [mant expo]. rewrite Z.sub_diag, Z.mul_1_r. reflexivity.
Qed.

Lemma same_refl x : same_value x x.
Proof. destruct x as [f|]; cbn; [reflexivity|exact I]. Qed.

Lemma py_sign_eq z x : py_sign z x = with_sign z x.
Proof. destruct x as [f|]; [|reflexivity]. cbn. destruct (mant f); reflexivity. Qed.
Lemma mod_main :
  same_value (snd (pyc_fmodulo a b)) (snd (py_mod a b)) /\
  (A mod D <> 0 -> fst (pyc_fmodulo a b) = fst (py_mod a b)) /\
  (A mod D = 0 -> fst (pyc_fmodulo a b) = neg a /\ fst (py_mod a b) = neg b).
Proof.
  pose proof (den_nz (num_of a) (num_of b) NB) as DZ. pose proof l_ge as LG. pose proof (rem_zero A D DZ) as RZ.
  unfold pyc_fmodulo, py_mod. cbv zeta. rewrite py_sign_eq. cbn [fmod mant]. rewrite add_eq.
  destruct (Z.eqb_spec (Z.rem A D) 0) as [E|N].
  - rewrite orb_true_r. assert (A mod D = 0) as M by tauto. rewrite M, (ieee_zero _ LG). unfold fmod. rewrite E. cbn.
    split; [unfold num, den; cbn; lia|]. split; [congruence|]. now split.
  - assert (A mod D <> 0) as M by tauto. rewrite orb_false_r, <- sgn_num, <- sgn_den.
    destruct (xorb (A <? 0) (D <? 0)) eqn:X; cbn [negb].
    + rewrite (rem_mod_diff _ _ DZ N X). split; [|split; [|congruence]].
      * destruct (ieee (A mod D) l); cbn; [reflexivity|exact I].
      * intros _. destruct (ieee (A mod D) l) as [f|] eqn:F; cbn; [|reflexivity].
        pose proof (ieee_nonzero _ _ _ M LG F) as NZ. destruct (Z.eqb_spec (mant f) 0); [congruence|reflexivity].
    + pose proof (rem_double N) as [R1 R2]. rewrite <- (rem_mod_same _ _ DZ X), (ieee_exact _ _ N R1 LG R2).
      unfold fmod. cbn. destruct (Z.eqb_spec (Z.rem A D) 0); [congruence|]. cbn. split; [reflexivity|]. split; [reflexivity|].
      intros H. exfalso. apply M. rewrite <- (rem_mod_same _ _ DZ X). exact H.
Qed.
End Mod.
