(* Proofs about powers. *)
From Coq Require Import Bool ZArith List Lia.
From Verif Require Import Pow_Model Pow_Spec.
Import ListNotations.
Open Scope Z_scope.

Lemma nearest_small z : Z.abs z <= 2 ^ 53 -> nearest z = z.
Proof. intros H. unfold nearest. rewrite (proj2 (Z.leb_le _ _) H). reflexivity. Qed.

Lemma small_double z : Z.abs z <= 2 ^ 53 -> is_double z.
Proof. intros H. exists z, 0. split; [exact H|]. split; [lia|]. rewrite Z.pow_0_r. lia. Qed.

Lemma log_bounds z : 2 ^ 53 < Z.abs z -> let l := Z.log2 (Z.abs z) in 53 <= l /\ 2 ^ l <= Z.abs z < 2 ^ (l + 1).
Proof.
  intros H l. pose proof (Z.log2_spec (Z.abs z) ltac:(lia)) as S. fold l in S. unfold Z.succ in S.
  split; [|exact S]. apply Z.log2_le_pow2; lia.
Qed.
Lemma pow_split l : 53 <= l -> 2 ^ l = 2 ^ (l - 52) * 2 ^ 52.
Proof. intros H. rewrite <- Z.pow_add_r by lia. f_equal. lia. Qed.

Lemma nearest_double z : is_double (nearest z).
Proof.
  unfold nearest. destruct (Z.leb_spec (Z.abs z) (2 ^ 53)) as [H|H]; [apply small_double; exact H|].
  pose proof (log_bounds z H) as (L1 & L2 & L3). set (l := Z.log2 (Z.abs z)) in *.
  set (u := 2 ^ (l - 52)). assert (U : 0 < u) by (apply Z.pow_pos_nonneg; lia).
  assert (Hq : - 2 ^ 53 <= z / u <= 2 ^ 53 - 1).
  { assert (E : 2 ^ (l + 1) = u * 2 ^ 53).
    { unfold u. rewrite <- Z.pow_add_r by lia. f_equal. lia. }
    split.
    - apply Z.div_le_lower_bound; lia.
    - assert (z / u < 2 ^ 53) by (apply Z.div_lt_upper_bound; lia). lia. }
  exists (if 2 * (z mod u) <? u then z / u else if u <? 2 * (z mod u) then z / u + 1 else if Z.even (z / u) then z / u else z / u + 1), (l - 52).
  split; [|split; [lia|reflexivity]].
  destruct (2 * (z mod u) <? u); [lia|]. destruct (u <? 2 * (z mod u)); [lia|]. destruct (Z.even (z / u)); lia.
Qed.

Lemma divides_nearest z : 2 ^ 53 < Z.abs z -> (2 ^ (Z.log2 (Z.abs z) - 52) | z) -> nearest z = z.
Proof.
  intros H D. unfold nearest. rewrite (proj2 (Z.leb_gt _ _) H).
  pose proof (log_bounds z H) as (L1 & _). set (u := 2 ^ (Z.log2 (Z.abs z) - 52)) in *.
  assert (U : 0 < u) by (apply Z.pow_pos_nonneg; lia).
  assert (M : z mod u = 0) by (apply Z.mod_divide; [lia|exact D]). rewrite M.
  replace (2 * 0 <? u) with true by (symmetry; apply Z.ltb_lt; lia).
  pose proof (Z.div_mod z u ltac:(lia)). lia.
Qed.
Lemma nearest_of_double z : is_double z -> nearest z = z.
Proof.
  intros (m & k & Hm & Hk & E). destruct (Z.le_gt_cases (Z.abs z) (2 ^ 53)) as [H|H]; [apply nearest_small; exact H|].
  apply divides_nearest; [exact H|]. pose proof (log_bounds z H) as (L1 & L2 & L3). set (l := Z.log2 (Z.abs z)) in *.
  assert (P : 0 < 2 ^ k) by (apply Z.pow_pos_nonneg; lia).
  assert (A : Z.abs z = Z.abs m * 2 ^ k) by (rewrite E, Z.abs_mul, (Z.abs_eq (2 ^ k)); lia).
  destruct (Z.eq_dec (Z.abs m) (2 ^ 53)) as [Em|Nm].
  - assert (A' : Z.abs z = 2 ^ (53 + k)) by (rewrite A, Em, <- Z.pow_add_r by lia; reflexivity).
    assert (El : l = 53 + k) by (unfold l; rewrite A'; apply Z.log2_pow2; lia).
    exists (if z <? 0 then - 2 ^ 52 else 2 ^ 52).
    replace (l - 52) with (k + 1) by lia. assert (E2 : 2 ^ (53 + k) = 2 ^ 52 * 2 ^ (k + 1)) by (rewrite <- Z.pow_add_r by lia; f_equal; lia).
    destruct (Z.ltb_spec z 0); lia.
  - assert (Lt : l - 52 <= k).
    { destruct (Z.le_gt_cases (l - 52) k) as [?|G]; [assumption|]. exfalso.
      assert (B : 2 ^ 53 * 2 ^ k <= 2 ^ l). { rewrite <- Z.pow_add_r by lia. apply Z.pow_le_mono_r; lia. }
      nia. }
    exists (m * 2 ^ (k - (l - 52))). rewrite E, <- Z.mul_assoc, <- Z.pow_add_r by lia. f_equal. f_equal. lia.
Qed.
Lemma nearest_pow_good : good_pow (fun b e => nearest (b ^ e)).
Proof. intros b e _. split; [apply nearest_double|]. apply nearest_of_double. Qed.

(* ------------------------------ below 2 ^ 53 ------------------------------ *)

Lemma b53_64 z : below53 z = true -> in64 z = true.
Proof. unfold below53, in64. rewrite Z.leb_le, andb_true_iff, Z.leb_le, Z.ltb_lt. lia. Qed.
Lemma b53_nearest z : below53 z = true -> nearest z = z.
Proof. unfold below53. rewrite Z.leb_le. apply nearest_small. Qed.
Lemma b53_double z : below53 z = true -> is_double z.
Proof. unfold below53. rewrite Z.leb_le. apply small_double. Qed.

(* the C value of an expression with the value v: a double if exposed *)
Definition shown (e : expr) (v : Z) : cval := if exposed e then CD v else CI v.
Lemma shown_double e v : below53 v = true -> to_double (shown e v) = v.
Proof. intros H. unfold shown. destruct (exposed e); cbn; [reflexivity|]. apply b53_nearest. exact H. Qed.
Lemma shown_int e v : below53 v = true -> to_int (shown e v) = Ok v.
Proof. intros H. unfold shown. destruct (exposed e); cbn; [rewrite (b53_64 v H)|]; reflexivity. Qed.
Lemma arith_shown f a b x y : below53 x = true -> below53 y = true -> below53 (f x y) = true ->
  arith f (shown a x) (shown b y) = Ok (if exposed a || exposed b then CD (f x y) else CI (f x y)).
Proof.
  intros Hx Hy H. unfold arith, shown.
  destruct (exposed a), (exposed b); cbn; unfold check; rewrite ?(b53_64 _ H), ?(b53_nearest _ Hx), ?(b53_nearest _ Hy), ?(b53_nearest _ H); reflexivity.
Qed.
Lemma cfun_shown f a b x y : below53 x = true -> below53 y = true -> below53 (f x y) = true -> (y =? 0) = false ->
  cfun f (shown a x) (shown b y) = Ok (CI (f x y)).
Proof.
  intros Hx Hy H N. unfold cfun. rewrite (shown_int a x Hx), (shown_int b y Hy). cbn. rewrite N. unfold check. rewrite (b53_64 _ H). reflexivity.
Qed.
Lemma cpow_shown fpow a b x y : good_pow fpow -> below53 x = true -> below53 y = true -> below53 (x ^ y) = true -> (0 <=? y) = true ->
  cpow fpow (shown a x) (shown b y) = Ok (CD (x ^ y)).
Proof.
  intros G Hx Hy H N. pose proof (shown_double a x Hx) as Ex. pose proof (shown_double b y Hy) as Ey.
  assert (E : fpow x y = x ^ y).
  { apply Z.leb_le in N. destruct (G x y N) as [_ X]. apply X. apply b53_double. exact H. }
  unfold cpow, shown in *. destruct (exposed a), (exposed b); rewrite ?Ex, ?Ey, N, E; reflexivity.
Qed.

Lemma atom_visit e n : visit e = Some n -> is_atom n = atom e.
Proof.
  destruct e as [x|x|z|a|a b|a b|a b|a b|a b|a b|a b|a ex]; cbn; intros H; try (injection H as <-; reflexivity).
  - destruct (visit a); [injection H as <-; reflexivity|discriminate].
  - destruct (visit a), (visit b); try discriminate; injection H as <-; reflexivity.
  - destruct (visit a), (visit b); try discriminate; injection H as <-; reflexivity.
  - destruct (visit a), (visit b); try discriminate; injection H as <-; reflexivity.
  - destruct (visit a), (visit b); try discriminate; injection H as <-; reflexivity.
  - destruct (visit a), (visit b); try discriminate; injection H as <-; reflexivity.
  - destruct (visit a), (visit b); try discriminate; injection H as <-; reflexivity.
  - destruct (visit a), (visit b); try discriminate; injection H as <-; reflexivity.
  - destruct (visit a) as [m|]; [|discriminate]. cbn in H. unfold visit_pow in H.
    destruct (exp_is ex 2 1) as [t|]; [|discriminate]. cbn in H. destruct (is_atom m && t); [injection H as <-; reflexivity|].
    destruct (exp_is ex 1 2) as [h|]; [|discriminate]. cbn in H. destruct h; [injection H as <-; reflexivity|].
    destruct ex; injection H as <-; reflexivity.
Qed.
Lemma exp_int_half n : exp_is (EInt n) 1 2 = Some false.
Proof. cbn. f_equal. apply Z.eqb_neq. lia. Qed.
Lemma visit_int_pow m n : visit_pow m (EInt n) = Some (if is_atom m && (n =? 2) then NMul m m else NPow m (NLit n)).
Proof.
  unfold visit_pow. rewrite exp_int_half. cbn [exp_is obind]. rewrite Z.mul_1_r. destruct (is_atom m && (n =? 2)); reflexivity.
Qed.
Lemma atom_exposed e : atom e = true -> exposed e = false.
Proof. destruct e; cbn; congruence. Qed.

Lemma c_value fpow r p : good_pow fpow -> forall e, within below53 r p e -> bits_ok e = true ->
  exists n v, visit e = Some n /\ py r p e = Some v /\ below53 v = true /\ ceval fpow r p n = Ok (shown e v) /\ int_type n = true.
Proof.
  intros G. 
  assert (Two : forall a b, (within below53 r p a -> bits_ok a = true ->
      exists n v, visit a = Some n /\ py r p a = Some v /\ below53 v = true /\ ceval fpow r p n = Ok (shown a v) /\ int_type n = true) ->
    (within below53 r p b -> bits_ok b = true ->
      exists n v, visit b = Some n /\ py r p b = Some v /\ below53 v = true /\ ceval fpow r p n = Ok (shown b v) /\ int_type n = true) ->
    within below53 r p a /\ within below53 r p b -> bits_ok a && bits_ok b = true ->
    exists m n x y, visit a = Some m /\ visit b = Some n /\ py r p a = Some x /\ py r p b = Some y /\ below53 x = true /\ below53 y = true /\
      ceval fpow r p m = Ok (shown a x) /\ ceval fpow r p n = Ok (shown b y) /\ int_type m = true /\ int_type n = true).
  { intros a b Ha Hb [Wa Wb] B. apply andb_true_iff in B. destruct B as [Ba Bb].
    destruct (Ha Wa Ba) as (m & x & A1 & A2 & A3 & A4 & A5). destruct (Hb Wb Bb) as (n & y & B1 & B2 & B3 & B4 & B5).
    exists m, n, x, y. repeat (split; [assumption|]). assumption. }
  induction e as [x|x|z|a IHa|a IHa b IHb|a IHa b IHb|a IHa b IHb|a IHa b IHb|a IHa b IHb|a IHa b IHb|a IHa b IHb|a IHa ex]; intros W B;
    destruct W as [(v & Ev & Hv) W]; cbn [bits_ok] in B.
  - exists (NVar x), v. cbn in *. injection Ev as <-. auto.
  - exists (NFlag x), v. cbn in *. injection Ev as <-. auto.
  - exists (NLit z), v. cbn in *. injection Ev as <-. auto.
  - destruct (IHa W B) as (n & x & A1 & A2 & A3 & A4 & A5). cbn [visit py] in *. rewrite A1, A2 in *. cbn in Ev. injection Ev as <-.
    exists (NNeg n), (- x). cbn [option_map]. split; [reflexivity|]. split; [reflexivity|]. split; [exact Hv|]. split; [|exact A5].
    cbn [ceval]. rewrite A4. cbn [rbind]. unfold shown. cbn [exposed]. destruct (exposed a); [reflexivity|].
    unfold check. rewrite (b53_64 _ Hv). reflexivity.
  - destruct (Two a b IHa IHb W B) as (m & n & x & y & A1 & B1 & A2 & B2 & A3 & B3 & A4 & B4 & A5 & B5). cbn [visit py] in *.
    rewrite A2, B2 in Ev. injection Ev as <-. rewrite A1, B1, A2, B2. eexists _, _. split; [reflexivity|]. split; [reflexivity|].
    split; [exact Hv|]. split; [|cbn; rewrite A5, B5; reflexivity]. cbn [ceval]. rewrite A4, B4. apply arith_shown; assumption.
  - destruct (Two a b IHa IHb W B) as (m & n & x & y & A1 & B1 & A2 & B2 & A3 & B3 & A4 & B4 & A5 & B5). cbn [visit py] in *.
    rewrite A2, B2 in Ev. injection Ev as <-. rewrite A1, B1, A2, B2. eexists _, _. split; [reflexivity|]. split; [reflexivity|].
    split; [exact Hv|]. split; [|cbn; rewrite A5, B5; reflexivity]. cbn [ceval]. rewrite A4, B4. apply arith_shown; assumption.
  - destruct (Two a b IHa IHb W B) as (m & n & x & y & A1 & B1 & A2 & B2 & A3 & B3 & A4 & B4 & A5 & B5). cbn [visit py] in *.
    rewrite A2, B2 in Ev. injection Ev as <-. rewrite A1, B1, A2, B2. eexists _, _. split; [reflexivity|]. split; [reflexivity|].
    split; [exact Hv|]. split; [|cbn; rewrite A5, B5; reflexivity]. cbn [ceval]. rewrite A4, B4. apply arith_shown; assumption.
  - destruct (Two a b IHa IHb W B) as (m & n & x & y & A1 & B1 & A2 & B2 & A3 & B3 & A4 & B4 & A5 & B5). cbn [visit py] in *.
    rewrite A2, B2 in Ev. destruct (y =? 0) eqn:Y; [discriminate|]. injection Ev as <-. rewrite A1, B1, A2, B2, Y. eexists _, _. split; [reflexivity|]. split; [reflexivity|].
    split; [exact Hv|]. split; [|cbn; rewrite A5, B5; reflexivity]. cbn [ceval]. rewrite A4, B4. apply cfun_shown; assumption.
  - destruct (Two a b IHa IHb W B) as (m & n & x & y & A1 & B1 & A2 & B2 & A3 & B3 & A4 & B4 & A5 & B5). cbn [visit py] in *.
    rewrite A2, B2 in Ev. destruct (y =? 0) eqn:Y; [discriminate|]. injection Ev as <-. rewrite A1, B1, A2, B2, Y. eexists _, _. split; [reflexivity|]. split; [reflexivity|].
    split; [exact Hv|]. split; [|cbn; rewrite A5, B5; reflexivity]. cbn [ceval]. rewrite A4, B4. apply cfun_shown; assumption.
  - apply andb_true_iff in B. destruct B as [B Xb]. apply andb_true_iff in B. destruct B as [B Xa]. apply negb_true_iff in Xa, Xb.
    destruct (Two a b IHa IHb W B) as (m & n & x & y & A1 & B1 & A2 & B2 & A3 & B3 & A4 & B4 & A5 & B5). cbn [visit py] in *.
    rewrite A2, B2 in Ev. injection Ev as <-. rewrite A1, B1, A2, B2. eexists _, _. split; [reflexivity|]. split; [reflexivity|].
    split; [exact Hv|]. split; [|cbn; rewrite A5, B5; reflexivity]. cbn [ceval]. rewrite A4, B4. unfold shown. rewrite Xa, Xb. reflexivity.
  - destruct (Two a b IHa IHb W B) as (m & n & x & y & A1 & B1 & A2 & B2 & A3 & B3 & A4 & B4 & A5 & B5). cbn [visit py] in *.
    rewrite A2, B2 in Ev. destruct (0 <=? y) eqn:Y; [|discriminate]. injection Ev as <-. rewrite A1, B1, A2, B2, Y. eexists _, _. split; [reflexivity|]. split; [reflexivity|].
    split; [exact Hv|]. split; [|cbn; rewrite A5, B5; reflexivity]. cbn [ceval]. rewrite A4, B4. apply cpow_shown; assumption.
  - destruct W as [W We]. destruct (IHa W B) as (m & x & A1 & A2 & A3 & A4 & A5). cbn [visit py] in *.
    destruct ex as [n|q1 q2|q1 q2]; [|discriminate|discriminate]. rewrite A2 in Ev. destruct (0 <=? n) eqn:N; [|discriminate]. injection Ev as <-.
    rewrite A1, A2. cbn [obind]. rewrite ?N, visit_int_pow, (atom_visit a m A1).
    eexists _, _. split; [reflexivity|]. split; [reflexivity|]. split; [exact Hv|]. unfold shown. cbn [exposed].
    destruct (atom a && (n =? 2)) eqn:At.
    + apply andb_true_iff in At. destruct At as [At En]. apply Z.eqb_eq in En. subst n.
      split; [|cbn; rewrite A5; reflexivity]. cbn [ceval]. rewrite A4. cbn [rbind]. rewrite Z.pow_2_r in *.
      rewrite (arith_shown Z.mul a a x x A3 A3 Hv), (atom_exposed a At). reflexivity.
    + split; [|cbn; rewrite A5; reflexivity]. cbn [ceval]. rewrite A4. cbn [rbind negb].
      apply (cpow_shown fpow a (Lit n)); assumption.
Qed.

Lemma c_exact fpow r p e : good_pow fpow -> within below53 r p e -> bits_ok e = true ->
  exists n v, visit e = Some n /\ int_type n = true /\ py r p e = Some v /\ c_store fpow r p n = Ok v.
Proof.
  intros G W B. destruct (c_value fpow r p G e W B) as (n & v & V & P & H & C & T). exists n, v.
  split; [exact V|]. split; [exact T|]. split; [exact P|]. unfold c_store. rewrite C. cbn. apply shown_int. exact H.
Qed.
Lemma c_prints fpow r p e : good_pow fpow -> within below53 r p e -> bits_ok e = true ->
  exists n v, visit e = Some n /\ py r p e = Some v /\ (c_print fpow r p n = Ok v <-> exposed e = false).
Proof.
  intros G W B. destruct (c_value fpow r p G e W B) as (n & v & V & P & H & C & T). exists n, v.
  split; [exact V|]. split; [exact P|]. unfold c_print. rewrite C. cbn. unfold shown. destruct (exposed e); split; congruence.
Qed.
Lemma c_bits fpow r p a b : good_pow fpow -> within below53 r p a -> bits_ok a = true -> within below53 r p b -> bits_ok b = true -> exposed a || exposed b = true ->
  exists n, visit (BAnd a b) = Some n /\ c_store fpow r p n = NoCompile.
Proof.
  intros G Wa Ba Wb Bb X. destruct (c_value fpow r p G a Wa Ba) as (m & x & A1 & A2 & A3 & A4 & A5).
  destruct (c_value fpow r p G b Wb Bb) as (n & y & B1 & B2 & B3 & B4 & B5). exists (NBAnd m n). cbn [visit]. rewrite A1, B1. split; [reflexivity|].
  unfold c_store. cbn [ceval]. rewrite A4, B4. cbn. unfold shown. destruct (exposed a), (exposed b); try discriminate; reflexivity.
Qed.

(* ------------------------------ large powers ------------------------------ *)

Lemma c_power fpow r p x y : good_pow fpow -> 0 <= r y -> below53 (r x) = true -> below53 (r y) = true -> fits64 (r x ^ r y) = true ->
  (c_store fpow r p (NPow (NVar x) (NVar y)) = Ok (r x ^ r y) <-> is_double (r x ^ r y)).
Proof.
  intros G H Bx By F. unfold c_store. cbn [ceval rbind cpow to_double]. rewrite (b53_nearest _ Bx), (b53_nearest _ By), (proj2 (Z.leb_le _ _) H).
  cbn [rbind to_int]. destruct (G (r x) (r y) H) as [D E]. split.
  - intros X. destruct (in64 (fpow (r x) (r y))); [|discriminate]. assert (Q : fpow (r x) (r y) = r x ^ r y) by congruence. rewrite <- Q. exact D.
  - intros X. rewrite (E X). unfold in64. unfold fits64 in F. rewrite F. reflexivity.
Qed.
Lemma odd_not_double z : Z.odd z = true -> 2 ^ 53 < Z.abs z -> ~ is_double z.
Proof.
  intros O H (m & k & Hm & Hk & E). destruct (Z.eq_dec k 0) as [->|N].
  - rewrite Z.pow_0_r, Z.mul_1_r in E. subst. lia.
  - replace k with (1 + (k - 1)) in E by lia. rewrite Z.pow_add_r in E by lia. rewrite Z.pow_1_r in E.
    assert (X : Z.even z = true) by (rewrite E, Z.even_mul, Z.even_mul; cbn; rewrite orb_true_r; reflexivity).
    rewrite <- Z.negb_odd, O in X. discriminate.
Qed.
Lemma odd_power b e : Z.odd b = true -> 0 <= e -> Z.odd (b ^ e) = true.
Proof.
  intros O H. apply (natlike_ind (fun e => Z.odd (b ^ e) = true)); [rewrite Z.pow_0_r; reflexivity| |exact H].
  intros x Hx IH. rewrite Z.pow_succ_r by exact Hx. rewrite Z.odd_mul, O, IH. reflexivity.
Qed.
Lemma c_odd_wrong fpow r p x y v : good_pow fpow -> Z.odd (r x) = true -> 0 <= r y -> below53 (r x) = true -> below53 (r y) = true ->
  2 ^ 53 < Z.abs (r x ^ r y) -> c_store fpow r p (NPow (NVar x) (NVar y)) = Ok v -> v <> r x ^ r y.
Proof.
  intros G O H Bx By L C E. subst v. unfold c_store in C. cbn [ceval rbind cpow to_double] in C.
  rewrite (b53_nearest _ Bx), (b53_nearest _ By), (proj2 (Z.leb_le _ _) H) in C. cbn [rbind to_int] in C.
  destruct (in64 (fpow (r x) (r y))); [|discriminate]. assert (Q : fpow (r x) (r y) = r x ^ r y) by congruence.
  apply (odd_not_double _ (odd_power _ _ O H) L). rewrite <- Q. apply G. exact H.
Qed.
Lemma c_compare fpow r p x y : good_pow fpow -> Z.odd (r x) = true -> 0 <= r y -> below53 (r x) = true -> below53 (r y) = true ->
  2 ^ 53 < Z.abs (r x ^ r y) -> exists d, d <> r x ^ r y /\ forall z, r z = d -> c_equal fpow r p (NPow (NVar x) (NVar y)) (NVar z) = Ok true.
Proof.
  intros G O H Bx By L. exists (fpow (r x) (r y)). destruct (G (r x) (r y) H) as [D _]. split.
  - intros Q. apply (odd_not_double _ (odd_power _ _ O H) L). rewrite <- Q. exact D.
  - intros z Z. unfold c_equal. cbn [ceval rbind cpow to_double].
    rewrite (b53_nearest _ Bx), (b53_nearest _ By), (proj2 (Z.leb_le _ _) H). cbn [rbind to_double]. rewrite Z, (nearest_of_double _ D), Z.eqb_refl. reflexivity.
Qed.
Lemma nearest_succ k : 53 <= k -> nearest (2 ^ k + 1) = 2 ^ k.
Proof.
  intros H. destruct (Z.eq_dec k 53) as [->|N]; [reflexivity|].
  assert (P : 2 ^ 54 <= 2 ^ k) by (apply Z.pow_le_mono_r; lia).
  assert (P53 : 2 ^ 53 < 2 ^ 54) by reflexivity.
  assert (E : Z.log2 (Z.abs (2 ^ k + 1)) = k).
  { rewrite Z.abs_eq by lia. apply Z.log2_unique; [lia|]. unfold Z.succ. rewrite (Z.pow_add_r 2 k 1) by lia. lia. }
  unfold nearest. rewrite (proj2 (Z.leb_gt _ _)) by lia. rewrite E.
  assert (S : 2 ^ k = 2 ^ (k - 52) * 2 ^ 52) by (apply pow_split; lia).
  assert (U : 4 <= 2 ^ (k - 52)) by (change 4 with (2 ^ 2); apply Z.pow_le_mono_r; lia).
  set (u := 2 ^ (k - 52)) in *. 
  assert (M : (2 ^ k + 1) mod u = 1).
  { rewrite S, Z.add_comm, (Z.mul_comm u), Z.mod_add by lia. apply Z.mod_small. lia. }
  assert (Q : (2 ^ k + 1) / u = 2 ^ 52).
  { rewrite S, Z.add_comm, (Z.mul_comm u), Z.div_add by lia. rewrite Z.div_small by lia. reflexivity. }
  rewrite M, Q. replace (2 * 1 <? u) with true by (symmetry; apply Z.ltb_lt; lia). lia.
Qed.
Lemma c_sum fpow r p y : good_pow fpow -> 53 <= r y < 63 ->
  exists n, visit (Add (Pow (Lit 2) (Var y)) (Lit 1)) = Some n /\ c_store fpow r p n = Ok (2 ^ r y) /\
    py r p (Add (Pow (Lit 2) (Var y)) (Lit 1)) = Some (2 ^ r y + 1) /\ fits64 (2 ^ r y + 1) = true.
Proof.
  intros G H. eexists. split; [reflexivity|].
  assert (P : 2 ^ r y <= 2 ^ 62) by (apply Z.pow_le_mono_r; lia). assert (P0 : 0 < 2 ^ r y) by (apply Z.pow_pos_nonneg; lia).
  assert (D : is_double (2 ^ r y)).
  { exists 1, (r y). split; [cbn; lia|]. split; [lia|]. lia. }
  assert (F : fpow 2 (r y) = 2 ^ r y) by (apply G; [lia|exact D]).
  split; [|split].
  - unfold c_store. cbn [ceval rbind cpow to_double]. rewrite (nearest_small 2) by (cbn; lia). rewrite (nearest_small (r y)) by lia.
    rewrite (proj2 (Z.leb_le 0 (r y))) by lia. cbn [rbind arith to_double]. rewrite F, (nearest_small 1) by (cbn; lia).
    rewrite nearest_succ by lia. cbn [to_int]. unfold in64. rewrite (proj2 (Z.leb_le _ _)), (proj2 (Z.ltb_lt _ _)) by lia. reflexivity.
  - cbn [py]. rewrite (proj2 (Z.leb_le 0 (r y))) by lia. reflexivity.
  - unfold fits64. rewrite (proj2 (Z.leb_le _ _)), (proj2 (Z.ltb_lt _ _)) by lia. reflexivity.
Qed.
Lemma negative fpow r p x y : 2 <= Z.abs (r x) -> r y < 0 -> below53 (r x) = true -> below53 (r y) = true ->
  c_store fpow r p (NPow (NVar x) (NVar y)) = Ok 0 /\ feval r p (NPow (NVar x) (NVar y)) = Ok 0.
Proof.
  intros Hx Hy Bx By. split.
  - unfold c_store. cbn [ceval rbind cpow to_double]. rewrite (b53_nearest _ Bx), (b53_nearest _ By).
    rewrite (proj2 (Z.leb_gt 0 (r y))), (proj2 (Z.eqb_neq (r x) 0)), (proj2 (Z.eqb_neq (Z.abs (r x)) 1)) by lia. reflexivity.
  - cbn [feval is_flag orb rbind]. unfold fpow_int.
    rewrite (proj2 (Z.leb_gt 0 (r y))), (proj2 (Z.eqb_neq (r x) 0)), (proj2 (Z.eqb_neq (Z.abs (r x)) 1)) by lia. reflexivity.
Qed.

(* ------------------------------ Fortran ------------------------------ *)

Lemma flag_visit e n : visit e = Some n -> is_flag n = flag e.
Proof.
  intros H. pose proof (atom_visit e n H) as A. destruct e; cbn in H, A |- *; try (injection H as <-; reflexivity);
  destruct n; cbn in A |- *; try reflexivity; discriminate.
Qed.
Lemma f_value r p : forall e, within fits64 r p e -> numbers e = true ->
  exists n v, visit e = Some n /\ py r p e = Some v /\ feval r p n = Ok v.
Proof.
  assert (Two : forall a b, (within fits64 r p a -> numbers a = true -> exists n v, visit a = Some n /\ py r p a = Some v /\ feval r p n = Ok v) ->
    (within fits64 r p b -> numbers b = true -> exists n v, visit b = Some n /\ py r p b = Some v /\ feval r p n = Ok v) ->
    within fits64 r p a /\ within fits64 r p b -> numbers a && numbers b = true ->
    exists m n x y, visit a = Some m /\ visit b = Some n /\ py r p a = Some x /\ py r p b = Some y /\
      feval r p m = Ok x /\ feval r p n = Ok y).
  { intros a b Ha Hb [Wa Wb] B. apply andb_true_iff in B. destruct B as [Ba Bb].
    destruct (Ha Wa Ba) as (m & x & A1 & A2 & A3). destruct (Hb Wb Bb) as (n & y & B1 & B2 & B3).
    exists m, n, x, y. repeat (split; [assumption|]). assumption. }
  assert (Ck : forall v, fits64 v = true -> fcheck v = Ok v) by (intros v H; unfold fcheck, in64; unfold fits64 in H; rewrite H; reflexivity).
  induction e as [x|x|z|a IHa|a IHa b IHb|a IHa b IHb|a IHa b IHb|a IHa b IHb|a IHa b IHb|a IHa b IHb|a IHa b IHb|a IHa ex]; intros W B;
    destruct W as [(v & Ev & Hv) W]; cbn [numbers] in B.
  - exists (NVar x), v. cbn in *. injection Ev as <-. auto.
  - exists (NFlag x), v. cbn in *. injection Ev as <-. auto.
  - exists (NLit z), v. cbn in *. injection Ev as <-. auto.
  - apply andb_true_iff in B. destruct B as [B Fl]. apply negb_true_iff in Fl.
    destruct (IHa W B) as (n & x & A1 & A2 & A3). cbn [visit py] in *. rewrite A1, A2 in *. cbn in Ev. injection Ev as <-.
    exists (NNeg n), (- x). cbn [option_map]. split; [reflexivity|]. split; [reflexivity|]. cbn [feval]. rewrite (flag_visit a n A1), Fl, A3. apply Ck. exact Hv.
  - destruct (Two a b IHa IHb W B) as (m & n & x & y & A1 & B1 & A2 & B2 & A3 & B3). cbn [visit py] in *. rewrite A2, B2 in Ev. injection Ev as <-.
    rewrite A1, B1, A2, B2. eexists _, _. split; [reflexivity|]. split; [reflexivity|]. cbn [feval]. rewrite A3, B3. apply Ck. exact Hv.
  - destruct (Two a b IHa IHb W B) as (m & n & x & y & A1 & B1 & A2 & B2 & A3 & B3). cbn [visit py] in *. rewrite A2, B2 in Ev. injection Ev as <-.
    rewrite A1, B1, A2, B2. eexists _, _. split; [reflexivity|]. split; [reflexivity|]. cbn [feval]. rewrite A3, B3. apply Ck. exact Hv.
  - destruct (Two a b IHa IHb W B) as (m & n & x & y & A1 & B1 & A2 & B2 & A3 & B3). cbn [visit py] in *. rewrite A2, B2 in Ev. injection Ev as <-.
    rewrite A1, B1, A2, B2. eexists _, _. split; [reflexivity|]. split; [reflexivity|]. cbn [feval]. rewrite A3, B3. apply Ck. exact Hv.
  - destruct (Two a b IHa IHb W B) as (m & n & x & y & A1 & B1 & A2 & B2 & A3 & B3). cbn [visit py] in *. rewrite A2, B2 in Ev.
    destruct (y =? 0) eqn:Y; [discriminate|]. injection Ev as <-. rewrite A1, B1, A2, B2, Y. eexists _, _. split; [reflexivity|]. split; [reflexivity|].
    cbn [feval]. rewrite A3, B3. cbn [rbind]. rewrite Y. apply Ck. exact Hv.
  - apply andb_true_iff in B. destruct B as [B Fb]. apply andb_true_iff in B. destruct B as [B Fa]. apply negb_true_iff in Fa, Fb.
    destruct (Two a b IHa IHb W B) as (m & n & x & y & A1 & B1 & A2 & B2 & A3 & B3). cbn [visit py] in *. rewrite A2, B2 in Ev.
    destruct (y =? 0) eqn:Y; [discriminate|]. injection Ev as <-. rewrite A1, B1, A2, B2, Y. eexists _, _. split; [reflexivity|]. split; [reflexivity|].
    cbn [feval]. rewrite (flag_visit a m A1), (flag_visit b n B1), Fa, Fb, A3, B3. cbn [rbind orb]. rewrite Y. apply Ck. exact Hv.
  - apply andb_true_iff in B. destruct B as [B Fb]. apply andb_true_iff in B. destruct B as [B Fa]. apply negb_true_iff in Fa, Fb.
    destruct (Two a b IHa IHb W B) as (m & n & x & y & A1 & B1 & A2 & B2 & A3 & B3). cbn [visit py] in *. rewrite A2, B2 in Ev. injection Ev as <-.
    rewrite A1, B1, A2, B2. eexists _, _. split; [reflexivity|]. split; [reflexivity|].
    cbn [feval]. rewrite (flag_visit a m A1), (flag_visit b n B1), Fa, Fb, A3, B3. reflexivity.
  - apply andb_true_iff in B. destruct B as [B Fb]. apply andb_true_iff in B. destruct B as [B Fa]. apply negb_true_iff in Fa, Fb.
    destruct (Two a b IHa IHb W B) as (m & n & x & y & A1 & B1 & A2 & B2 & A3 & B3). cbn [visit py] in *. rewrite A2, B2 in Ev.
    destruct (0 <=? y) eqn:Y; [|discriminate]. injection Ev as <-. rewrite A1, B1, A2, B2, Y. eexists _, _. split; [reflexivity|]. split; [reflexivity|].
    cbn [feval]. rewrite (flag_visit a m A1), (flag_visit b n B1), Fa, Fb, A3, B3. cbn [rbind orb]. unfold fpow_int. rewrite Y. apply Ck. exact Hv.
  - apply andb_true_iff in B. destruct B as [B Fl]. destruct W as [W We]. destruct (IHa W B) as (m & x & A1 & A2 & A3). cbn [visit py] in *.
    destruct ex as [n|q1 q2|q1 q2]; [|discriminate|discriminate]. rewrite A2 in Ev. destruct (0 <=? n) eqn:N; [|discriminate]. injection Ev as <-.
    rewrite A1, A2. cbn [obind]. rewrite ?N, visit_int_pow, (atom_visit a m A1).
    eexists _, _. split; [reflexivity|]. split; [reflexivity|]. destruct (atom a && (n =? 2)) eqn:At.
    + apply andb_true_iff in At. destruct At as [_ En]. apply Z.eqb_eq in En. subst n. cbn [feval]. rewrite A3. cbn [rbind]. rewrite <- Z.pow_2_r. apply Ck. exact Hv.
    + assert (F0 : flag a = false).
      { destruct (flag a) eqn:Fa; [|reflexivity]. cbn in Fl. destruct a; try discriminate. cbn in At. congruence. }
      cbn [feval is_flag]. rewrite (flag_visit a m A1), F0, A3. cbn [orb rbind]. unfold fpow_int. rewrite N. apply Ck. exact Hv.
Qed.

(* ------------------------------ exponents that are not integers ------------------------------ *)

Lemma float_two r p fpow x q ex : 0 < q -> ex = EFloat (2 * q) q \/ ex = EQuot (2 * q) q ->
  visit (PowLit (Var x) ex) = Some (NMul (NVar x) (NVar x)) /\ int_type (NMul (NVar x) (NVar x)) = true /\
  (2 ^ 63 <= r x * r x -> c_store fpow r p (NMul (NVar x) (NVar x)) = Undef /\ feval r p (NMul (NVar x) (NVar x)) = Undef).
Proof.
  intros Hq He. split; [|split; [reflexivity|]].
  - cbn [visit obind]. unfold visit_pow. destruct He as [->| ->]; cbn [exp_is].
    + rewrite (proj2 (Z.eqb_eq _ _)) by lia. reflexivity.
    + rewrite (proj2 (Z.eqb_neq q 0)), (proj2 (Z.eqb_eq _ _)) by lia. reflexivity.
  - intros H. assert (F : in64 (r x * r x) = false).
    { unfold in64. apply andb_false_iff. right. apply Z.ltb_ge. exact H. }
    split; [unfold c_store; cbn [ceval rbind arith]; unfold check; rewrite F; reflexivity|cbn [feval rbind]; unfold fcheck; rewrite F; reflexivity].
Qed.
Lemma float_two_other a m : visit a = Some m -> atom a = false -> exists n, visit (PowLit a (EFloat 2 1)) = Some n /\ int_type n = false.
Proof.
  intros V A. cbn [visit]. rewrite V. cbn [obind]. unfold visit_pow. rewrite (atom_visit a m V), A. cbn. eexists. split; reflexivity.
Qed.

(* ------------------------------ quotients ------------------------------ *)

Lemma quot_iff a b : oval b <> 0 ->
  (match c_div a b with QDouble x y => x = oval a /\ y = oval b | QInt z => z * oval b = oval a end <->
   ~ (a = OBool true /\ exists z, b = OInt z /\ 2 <= Z.abs z)).
Proof.
  intros N. destruct a as [x|p], b as [y|q]; cbn in N |- *.
  - split; [intros _ [? _]; discriminate|auto].
  - split; [intros _ [? _]; discriminate|]. intros _. destruct q; cbn in *; [rewrite Z.quot_1_r; lia|congruence].
  - destruct p; cbn.
    + destruct (Z.le_gt_cases 2 (Z.abs y)) as [H|H].
      * split; [|intros X; exfalso; apply X; split; [reflexivity|]; exists y; auto]. intros E. exfalso.
        assert (Z.quot 1 y = 0). { destruct (Z.le_gt_cases 0 y); [apply Z.quot_small; lia|]. replace y with (- (- y)) by lia. rewrite Z.quot_opp_r by lia. rewrite Z.quot_small by lia. reflexivity. }
        lia.
      * split; [intros _ [_ (z & E & Hz)]; injection E as <-; lia|]. intros _. assert (C : y = 1 \/ y = -1) by lia. destruct C as [-> | ->]; reflexivity.
    + split; [intros _ [? _]; discriminate|]. intros _. destruct y; reflexivity.
  - split; [intros _ [_ (z & E & _)]; discriminate|]. intros _. destruct p, q; cbn in *; try reflexivity; congruence.
Qed.
