(* Lemmas about RtInt_Model. *)
From Coq Require Import ZArith List Bool Lia Znumtheory.
From Coq Require Import ZifyBool.
From Verif Require Import Common RtInt_Model RtInt_Spec.
Open Scope Z_scope.
Open Scope run_scope.

Lemma in_rangeb_spec w z : in_rangeb w z = true <-> in_range w z.
Proof. unfold in_rangeb, in_range. lia. Qed.

Lemma chk_in w z : in_range w z -> chk w z = Ret z.
Proof. intros H. unfold chk. apply in_rangeb_spec in H. now rewrite H. Qed.

Lemma chk_out w z : ~ in_range w z -> chk w z = Undef.
Proof.
  intros H. unfold chk. destruct (in_rangeb w z) eqn:E; trivial.
  apply in_rangeb_spec in E. contradiction.
Qed.

Lemma c_div_in w x y : y <> 0 -> in_range w (Z.quot x y) -> c_div w x y = Ret (Z.quot x y).
Proof.
  intros Hy H. unfold c_div. destruct (Z.eqb_spec y 0); [contradiction|]. now apply chk_in.
Qed.

Lemma c_rem_in w x y : y <> 0 -> in_range w (Z.quot x y) -> c_rem w x y = Ret (Z.rem x y).
Proof.
  intros Hy H. unfold c_rem. destruct (Z.eqb_spec y 0); [contradiction|].
  apply in_rangeb_spec in H. now rewrite H.
Qed.

Lemma pow_half w : 1 <= w -> 2 ^ w = 2 * 2 ^ (w - 1).
Proof. intros H. rewrite <- Z.pow_succ_r by lia. f_equal. lia. Qed.

Lemma wrap_in w z : 1 <= w -> in_range w z -> wrap w z = z.
Proof.
  intros Hw [H1 H2]. unfold wrap, int_min, int_max in *.
  rewrite Z.mod_small; [lia|]. rewrite (pow_half w Hw). lia.
Qed.

Lemma range_mono w w' z : w <= w' -> in_range w z -> in_range w' z.
Proof.
  unfold in_range, int_min, int_max. intros H.
  pose proof (Z.pow_le_mono_r 2 (w-1) (w'-1)). lia.
Qed.

(* Relation between Python's floor quotient and the truncated quotient. *)
Lemma floordiv_quot x y q :
  py_floordiv x y q ->
  q = Z.quot x y - b2z (negb (Z.rem x y =? 0) && xorb (x <? 0) (y <? 0)).
Proof.
  intros (Hy & Hp & Hn).
  pose proof (Z.quot_rem' x y) as E.
  pose proof (Z.rem_bound_pos x y) as B1.
  pose proof (Z.rem_bound_pos (-x) y) as B2.
  pose proof (Z.rem_bound_pos x (-y)) as B3.
  pose proof (Z.rem_bound_pos (-x) (-y)) as B4.
  rewrite ?Z.rem_opp_l', ?Z.rem_opp_r' in *.
  set (r := Z.rem x y) in *. set (t := Z.quot x y) in *.
  clearbody r t.
  unfold b2z.
  destruct (Z.eqb_spec r 0) as [Er|Er]; simpl.
  - subst r. destruct (Z.lt_total y 0) as [H|[H|H]]; [| lia |].
    + specialize (Hn H). nia.
    + specialize (Hp H). nia.
  - destruct (Z.ltb_spec x 0) as [Hx|Hx]; destruct (Z.ltb_spec y 0) as [Hy'|Hy']; simpl.
    + specialize (Hn Hy'). assert (0 <= - r < - y) by lia. nia.
    + assert (Hy2 : 0 < y) by lia. specialize (Hp Hy2). assert (0 <= - r < y) by lia. nia.
    + specialize (Hn Hy'). assert (0 <= r < - y) by lia. nia.
    + assert (Hy2 : 0 < y) by lia. specialize (Hp Hy2). assert (0 <= r < y) by lia. nia.
Qed.

(* The truncated quotient is between the floor quotient and 0 or equal to it. *)
Lemma quot_range w x y q :
  1 <= w -> in_range w x -> in_range w y -> py_floordiv x y q -> in_range w q ->
  in_range w (Z.quot x y).
Proof.
  intros Hw Hx Hy Hf Hq.
  pose proof (floordiv_quot _ _ _ Hf) as E. unfold b2z in E.
  destruct (negb (Z.rem x y =? 0) && xorb (x <? 0) (y <? 0)) eqn:C.
  - assert (Hneg : Z.quot x y <= 0).
    { apply andb_prop in C. destruct C as [_ C].
      destruct Hf as (Hy0 & _).
      destruct (Z.ltb_spec x 0); destruct (Z.ltb_spec y 0); simpl in C; try discriminate.
      - rewrite <- (Z.opp_involutive x), Z.quot_opp_l by lia.
        pose proof (Z.quot_pos (-x) y). lia.
      - rewrite <- (Z.opp_involutive y), Z.quot_opp_r by lia.
        pose proof (Z.quot_pos x (-y)). lia. }
    unfold in_range, int_min, int_max in *.
    assert (0 < 2 ^ (w-1)) by (apply Z.pow_pos_nonneg; lia). lia.
  - replace (Z.quot x y) with q by lia. exact Hq.
Qed.

Lemma c_floor_div_ok w x y q :
  1 <= w -> in_range w x -> in_range w y ->
  py_floordiv x y q -> in_range w q -> c_floor_div w x y = Ret q.
Proof.
  intros Hw Hx Hy Hf Hq. unfold c_floor_div.
  assert (Hle : w <= Z.max 32 w) by lia.
  pose proof (quot_range _ _ _ _ Hw Hx Hy Hf Hq) as Ht.
  apply (range_mono _ _ _ Hle) in Ht.
  destruct Hf as (Hy0 & Hf'). assert (Hf : py_floordiv x y q) by (split; assumption).
  rewrite c_div_in, c_rem_in by assumption. unfold bind.
  rewrite <- (floordiv_quot _ _ _ Hf).
  rewrite chk_in by (eapply range_mono; eassumption).
  now rewrite wrap_in.
Qed.

Lemma f_floor_div_ok w x y q :
  1 <= w -> in_range w x -> in_range w y ->
  py_floordiv x y q -> in_range w q -> f_floor_div w x y = Ret q.
Proof.
  intros Hw Hx Hy Hf Hq. unfold f_floor_div.
  pose proof (quot_range _ _ _ _ Hw Hx Hy Hf Hq) as Ht.
  destruct Hf as (Hy0 & Hf'). assert (Hf : py_floordiv x y q) by (split; assumption).
  unfold f_div, f_mod. rewrite c_div_in, c_rem_in by assumption. unfold bind.
  pose proof (floordiv_quot _ _ _ Hf) as E. unfold b2z in E. rewrite <- E.
  now rewrite chk_in.
Qed.

(* Division by zero is undefined behaviour, never a silent value. *)
Lemma c_floor_div_zero w x : c_floor_div w x 0 = Undef.
Proof. reflexivity. Qed.

Lemma quot_range_nonmin w a b :
  1 <= w -> in_range w a -> in_range w b -> b <> 0 ->
  ~ (a = int_min w /\ b = -1) -> in_range w (Z.quot a b).
Proof.
  intros Hw [Ha1 Ha2] Hb Hb0 Hn.
  assert (P : 0 < 2 ^ (w-1)) by (apply Z.pow_pos_nonneg; lia).
  unfold in_range, int_min, int_max in *.
  assert (Habs : Z.abs (Z.quot a b) <= Z.abs a).
  { rewrite <- Z.quot_abs by assumption.
    apply Z.quot_le_upper_bound; [lia|]. nia. }
  destruct (Z.eq_dec b (-1)) as [->|Hb1].
  - change (-1) with (- (1)) in *. rewrite (Z.quot_opp_r a 1), Z.quot_1_r by lia. lia.
  - destruct (Z.eq_dec (Z.quot a b) (2 ^ (w-1))) as [E|E]; [|lia].
    assert (Ea : a = - 2 ^ (w-1)) by lia.
    exfalso. clear Habs.
    destruct (Z.eq_dec b 1) as [->|].
    + rewrite Z.quot_1_r in E. lia.
    + assert (Z.abs (Z.quot a b) < 2 ^ (w-1)); [|lia].
      rewrite <- Z.quot_abs by assumption.
      apply Z.quot_lt_upper_bound; [lia|lia|]. subst a. rewrite Z.abs_opp, Z.abs_eq by lia. nia.
Qed.

Lemma floordiv_unique x y q q' : py_floordiv x y q -> py_floordiv x y q' -> q = q'.
Proof. intros H H'. apply floordiv_quot in H. apply floordiv_quot in H'. congruence. Qed.

Lemma py_mod_rem a b r :
  py_mod a b r ->
  r = Z.rem a b + (if negb (Z.rem a b =? 0) && xorb (a <? 0) (b <? 0) then b else 0).
Proof.
  intros (q & Hf & ->). pose proof (floordiv_quot _ _ _ Hf) as E.
  pose proof (Z.quot_rem' a b).
  destruct (negb (Z.rem a b =? 0) && xorb (a <? 0) (b <? 0)); unfold b2z in E; nia.
Qed.

Lemma py_mod_bound a b r : py_mod a b r -> (0 < b -> 0 <= r < b) /\ (b < 0 -> b < r <= 0).
Proof. intros (q & (_ & Hp & Hn) & ->). split; intros H; [specialize (Hp H)|specialize (Hn H)]; lia. Qed.

Lemma c_modulo_ok a b r :
  in_range 64 a -> in_range 64 b -> ~ (a = int_min 64 /\ b = -1) ->
  py_mod a b r -> c_modulo a b = Ret r.
Proof.
  intros Ha Hb Hn Hm.
  assert (Hb0 : b <> 0) by (destruct Hm as (q & (H & _) & _); exact H).
  unfold c_modulo. rewrite c_rem_in; [|exact Hb0|apply quot_range_nonmin; auto; lia].
  unfold bind. pose proof (py_mod_rem _ _ _ Hm) as E. pose proof (py_mod_bound _ _ _ Hm) as B.
  destruct (xorb (a <? 0) (b <? 0)); simpl; rewrite ?andb_true_r, ?andb_false_r in E.
  - destruct (Z.eqb_spec (Z.rem a b) 0) as [E0|E0]; simpl in E.
    + f_equal. lia.
    + rewrite <- E. apply chk_in.
      unfold in_range, int_min, int_max in *. lia.
  - f_equal. lia.
Qed.

Lemma f_modulo_ok a b r : py_mod a b r -> f_modulo a b = Ret r.
Proof.
  intros (q & (Hb & Hp & Hn) & ->). unfold f_modulo.
  destruct (Z.eqb_spec b 0); [contradiction|]. f_equal.
  destruct (Z.lt_total b 0) as [H|[H|H]]; [| contradiction |].
  - specialize (Hn H). symmetry. apply (Z.mod_unique_neg a b q); lia.
  - specialize (Hp H). symmetry. apply (Z.mod_unique_pos a b q); lia.
Qed.

(* -------------------------------------------------------------- gcd ---- *)

Lemma xor_swap1 a b : Z.lxor b (Z.lxor a b) = a.
Proof.
  rewrite (Z.lxor_comm a b), <- Z.lxor_assoc, Z.lxor_nilpotent, Z.lxor_0_l. reflexivity.
Qed.
Lemma xor_swap2 a b : Z.lxor (Z.lxor a b) a = b.
Proof.
  rewrite (Z.lxor_comm a b), Z.lxor_assoc, Z.lxor_nilpotent, Z.lxor_0_r. reflexivity.
Qed.

Lemma quot_nonneg_range w a b : 1 <= w -> 0 <= a -> 0 < b -> in_range w a -> in_range w (Z.quot a b).
Proof.
  intros Hw Ha Hb [H1 H2]. unfold in_range, int_min, int_max in *.
  assert (0 <= Z.quot a b) by (apply Z.quot_pos; lia).
  assert (Z.quot a b <= a) by (apply Z.quot_le_upper_bound; nia). lia.
Qed.

Lemma c_gcd_loop_ok fuel a b :
  0 <= a -> 0 <= b -> in_range 64 a -> in_range 64 b -> (Z.to_nat b < fuel)%nat ->
  c_gcd_loop fuel a b = Ret (Z.gcd a b).
Proof.
  revert a b. induction fuel as [|f IH]; intros a b Ha Hb Ra Rb Hf; [lia|].
  cbn [c_gcd_loop]. destruct (Z.eqb_spec b 0) as [->|Hb0].
  - rewrite Z.gcd_0_r, Z.abs_eq by lia. reflexivity.
  - rewrite c_rem_in by (auto; apply quot_nonneg_range; auto; lia). unfold bind. cbv zeta.
    rewrite (xor_swap1 (Z.rem a b) b), xor_swap2.
    pose proof (Z.rem_bound_pos a b Ha ltac:(lia)) as B.
    rewrite IH; try lia; try assumption.
    + f_equal. rewrite Z.rem_mod_nonneg by lia. rewrite Z.gcd_comm, Z.gcd_mod by lia.
      apply Z.gcd_comm.
    + unfold in_range, int_min, int_max in *. lia.
Qed.

Lemma f_gcd_loop_ok w fuel a b :
  1 <= w ->
  0 <= a -> 0 <= b -> in_range w a -> in_range w b -> (Z.to_nat b < fuel)%nat ->
  f_gcd_loop fuel w a b = Ret (Z.gcd a b).
Proof.
  intros Hw. revert a b. induction fuel as [|f IH]; intros a b Ha Hb Ra Rb Hf; [lia|].
  cbn [f_gcd_loop]. destruct (Z.ltb_spec 0 b) as [Hb0|Hb0].
  - unfold f_mod. rewrite c_rem_in by (try lia; apply quot_nonneg_range; auto; lia). unfold bind. cbv zeta.
    rewrite (xor_swap1 (Z.rem a b) b), xor_swap2.
    pose proof (Z.rem_bound_pos a b Ha ltac:(lia)) as B.
    rewrite IH; try lia; try assumption.
    + f_equal. rewrite Z.rem_mod_nonneg by lia. rewrite Z.gcd_comm, Z.gcd_mod by lia.
      apply Z.gcd_comm.
    + unfold in_range, int_min, int_max in *. lia.
  - assert (b = 0) by lia. subst. rewrite Z.gcd_0_r, Z.abs_eq by lia. reflexivity.
Qed.

Lemma c_absolute_ok w a : in_range w a -> a <> int_min w -> c_absolute w a = Ret (Z.abs a).
Proof.
  intros H Hn. unfold c_absolute. destruct (Z.ltb_spec 0 a).
  - f_equal. lia.
  - rewrite chk_in; [f_equal; lia|]. unfold in_range, int_min, int_max in *. lia.
Qed.

Lemma f_absolute_ok w a : in_range w a -> a <> int_min w -> f_absolute w a = Ret (Z.abs a).
Proof.
  intros H Hn. unfold f_absolute. rewrite chk_in.
  - unfold bind. f_equal. destruct (Z.ltb_spec 0 a); lia.
  - unfold in_range, int_min, int_max in *. lia.
Qed.

Lemma abs_range w a : in_range w a -> a <> int_min w -> in_range w (Z.abs a).
Proof. unfold in_range, int_min, int_max. lia. Qed.

Lemma c_gcd_ok fuel a b :
  in_range 64 a -> in_range 64 b -> a <> int_min 64 -> b <> int_min 64 ->
  (Z.to_nat (Z.abs b) < fuel)%nat -> c_gcd fuel a b = Ret (Z.gcd a b).
Proof.
  intros Ha Hb Na Nb Hf. unfold c_gcd. rewrite !c_absolute_ok by assumption. unfold bind.
  rewrite c_gcd_loop_ok; try lia; try now apply abs_range.
  now rewrite Z.gcd_abs_l, Z.gcd_abs_r.
Qed.

Lemma f_gcd_ok w fuel a b :
  1 <= w ->
  in_range w a -> in_range w b -> a <> int_min w -> b <> int_min w ->
  (Z.to_nat (Z.abs b) < fuel)%nat -> f_gcd fuel w a b = Ret (Z.gcd a b).
Proof.
  intros Hw Ha Hb Na Nb Hf. unfold f_gcd. rewrite !f_absolute_ok by assumption. unfold bind.
  rewrite f_gcd_loop_ok; try lia; try now apply abs_range.
  now rewrite Z.gcd_abs_l, Z.gcd_abs_r.
Qed.

Lemma py_gcd_gcd a b g : py_gcd a b g -> g = Z.gcd a b.
Proof.
  intros (H0 & Ha & Hb & H). symmetry. apply Z.gcd_unique; auto.
Qed.

Lemma py_lcm_lcm a b m : py_lcm a b m -> m = Z.lcm a b.
Proof.
  intros (H0 & Ha & Hb & H). symmetry. apply Z.divide_antisym_nonneg; auto.
  - apply Z.lcm_nonneg.
  - now apply Z.lcm_least.
  - apply H; [apply Z.divide_lcm_l|apply Z.divide_lcm_r].
Qed.

Lemma c_lcm_ok fuel a b :
  in_range 64 a -> in_range 64 b -> a <> int_min 64 -> b <> int_min 64 ->
  ~ (a = 0 /\ b = 0) -> in_range 64 (Z.lcm a b) ->
  (Z.to_nat (Z.abs b) < fuel)%nat -> c_lcm fuel a b = Ret (Z.lcm a b).
Proof.
  intros Ha Hb Na Nb H0 Hl Hf. unfold c_lcm. rewrite !c_absolute_ok by assumption. unfold bind at 1 2.
  rewrite c_gcd_ok; try now apply abs_range.
  2:{ unfold in_range, int_min, int_max in *. lia. }
  2:{ unfold in_range, int_min, int_max in *. lia. }
  2: lia.
  unfold bind at 1. rewrite Z.gcd_abs_l, Z.gcd_abs_r.
  pose proof (Z.gcd_nonneg a b) as G0.
  assert (G : 0 < Z.gcd a b).
  { destruct (Z.eq_dec (Z.gcd a b) 0) as [E|]; [|lia].
    apply Z.gcd_eq_0 in E. tauto. }
  rewrite c_div_in; [|lia|apply quot_nonneg_range; [lia|lia|lia|now apply abs_range]].
  unfold bind.
  assert (E : Z.quot (Z.abs a) (Z.gcd a b) * Z.abs b = Z.lcm a b).
  { rewrite Z.quot_div_nonneg by lia. unfold Z.lcm.
    rewrite Z.abs_mul.
    destruct (Z.gcd_divide_l a b) as [a' Ea].
    destruct (Z.gcd_divide_r a b) as [b' Eb].
    set (g := Z.gcd a b) in *. clearbody g.
    assert (Ha' : Z.abs a = Z.abs a' * g) by (rewrite Ea, Z.abs_mul, (Z.abs_eq g) by lia; lia).
    rewrite Ha', Z.div_mul by lia.
    assert (Hb' : b / g = b') by (rewrite Eb; apply Z.div_mul; lia).
    rewrite Hb'. rewrite Eb, Z.abs_mul, (Z.abs_eq g) by lia. lia. }
  rewrite E. now apply chk_in.
Qed.

Lemma f_lcm_ok w fuel a b :
  1 <= w ->
  in_range w a -> in_range w b -> a <> int_min w -> b <> int_min w ->
  ~ (a = 0 /\ b = 0) -> in_range w (Z.lcm a b) ->
  (Z.to_nat (Z.abs b) < fuel)%nat -> f_lcm fuel w a b = Ret (Z.lcm a b).
Proof.
  intros Hw Ha Hb Na Nb H0 Hl Hf. unfold f_lcm. rewrite !f_absolute_ok by assumption. unfold bind at 1 2.
  assert (0 < 2 ^ (w-1)) by (apply Z.pow_pos_nonneg; lia).
  rewrite f_gcd_ok; try now apply abs_range.
  2: lia.
  2:{ unfold in_range, int_min, int_max in *. lia. }
  2:{ unfold in_range, int_min, int_max in *. lia. }
  2: lia.
  unfold bind at 1. rewrite Z.gcd_abs_l, Z.gcd_abs_r.
  pose proof (Z.gcd_nonneg a b) as G0.
  assert (G : 0 < Z.gcd a b).
  { destruct (Z.eq_dec (Z.gcd a b) 0) as [E|]; [|lia].
    apply Z.gcd_eq_0 in E. tauto. }
  unfold f_div. rewrite c_div_in; [|lia|apply quot_nonneg_range; [lia|lia|lia|now apply abs_range]].
  unfold bind.
  assert (E : Z.quot (Z.abs a) (Z.gcd a b) * Z.abs b = Z.lcm a b).
  { rewrite Z.quot_div_nonneg by lia. unfold Z.lcm.
    rewrite Z.abs_mul.
    destruct (Z.gcd_divide_l a b) as [a' Ea].
    destruct (Z.gcd_divide_r a b) as [b' Eb].
    set (g := Z.gcd a b) in *. clearbody g.
    assert (Ha' : Z.abs a = Z.abs a' * g) by (rewrite Ea, Z.abs_mul, (Z.abs_eq g) by lia; lia).
    rewrite Ha', Z.div_mul by lia.
    assert (Hb' : b / g = b') by (rewrite Eb; apply Z.div_mul; lia).
    rewrite Hb'. rewrite Eb, Z.abs_mul, (Z.abs_eq g) by lia. lia. }
  rewrite E. now apply chk_in.
Qed.

(* -------------------------------------------------------- factorial ---- *)

Lemma py_factorial_pos n v : py_factorial n v -> 0 <= n /\ n <= v /\ 1 <= v.
Proof. induction 1; lia || nia. Qed.

Lemma py_factorial_det n v v' : py_factorial n v -> py_factorial n v' -> v = v'.
Proof.
  intros H. revert v'. induction H as [|n v H IH]; intros v' H'.
  - inversion H' as [|m u Hm]; [reflexivity|]. apply py_factorial_pos in Hm. lia.
  - inversion H' as [E|m u Hm E1 E2]; [apply py_factorial_pos in H; lia|].
    assert (m = n) by lia. subst m. now rewrite (IH u Hm).
Qed.

(* The loop from i on multiplies the missing factors. *)
Lemma c_factorial_loop_ok fuel i n res v :
  py_factorial (i - 1) res -> py_factorial n v -> 1 <= i <= n + 1 -> in_range 64 v ->
  in_range 64 (n + 1) ->
  (Z.to_nat (n + 1 - i) < fuel)%nat -> c_factorial_loop fuel i n res = Ret v.
Proof.
  revert i res. induction fuel as [|f IH]; intros i res Hr Hv Hi Rv Rn Hf; [lia|].
  cbn [c_factorial_loop]. destruct (Z.leb_spec i n) as [Hin|Hin].
  - assert (Hr' : py_factorial i (res * i)).
    { replace (py_factorial i (res * i)) with (py_factorial ((i-1)+1) (((i-1)+1) * res))
        by (f_equal; lia).
      now constructor. }
    assert (B : 0 <= res * i <= v).
    { clear - Hr' Hv Hin. pose proof (py_factorial_pos _ _ Hr') as P. split; [lia|].
      remember i as i0. clear Heqi0. remember (res * i0) as u. clear Hequ.
      induction Hv as [|m w Hm IHm].
      - destruct P. assert (i0 = 0) by lia. subst. now rewrite (py_factorial_det _ _ _ Hr' fact_zero).
      - destruct (Z.eq_dec i0 (m+1)) as [->|Hne].
        + rewrite (py_factorial_det _ _ _ Hr' (fact_succ _ _ Hm)). lia.
        + assert (u <= w) by (apply IHm; lia). apply py_factorial_pos in Hm. nia. }
    rewrite chk_in by (unfold in_range, int_min, int_max in *; lia).
    unfold bind at 1. rewrite chk_in by (unfold in_range, int_min, int_max in *; lia).
    unfold bind. apply IH; try lia; try assumption. now replace (i + 1 - 1) with i by lia.
  - f_equal. assert (i - 1 = n) by lia. rewrite H in Hr. eapply py_factorial_det; eassumption.
Qed.

Lemma c_factorial_ok fuel n v :
  py_factorial n v -> in_range 64 v -> (Z.to_nat n < fuel)%nat -> c_factorial fuel n = Ret v.
Proof.
  intros Hv Rv Hf. pose proof (py_factorial_pos _ _ Hv) as P. unfold c_factorial.
  destruct (Z.ltb_spec n 0); [lia|].
  destruct (Z.eq_dec n 0) as [->|Hn].
  - destruct fuel as [|f]; [lia|]. cbn. f_equal. eapply py_factorial_det; [constructor|eassumption].
  - apply c_factorial_loop_ok; auto; try lia.
    + change (2 - 1) with (0 + 1). change 1 with ((0 + 1) * 1) at 2. constructor. constructor.
    + assert (Hlt : n < v \/ n <= 2).
      { inversion Hv as [|m u Hm]; [lia|]. apply py_factorial_pos in Hm. nia. }
      unfold in_range, int_min, int_max in *. change (2 ^ (64-1)) with 9223372036854775808 in *. lia.
Qed.

Lemma f_factorial_loop_ok w trips i res v :
  1 <= w ->
  py_factorial (i - 1) res -> 1 <= i -> py_factorial (i - 1 + Z.of_nat trips) v -> in_range w v ->
  f_factorial_loop trips w i res = Ret v.
Proof.
  intros Hw. revert i res. induction trips as [|t IH]; intros i res Hr Hi Hv Rv.
  - cbn. f_equal. rewrite Z.add_0_r in Hv. eapply py_factorial_det; eassumption.
  - cbn [f_factorial_loop].
    assert (Hr' : py_factorial i (res * i)).
    { replace (py_factorial i (res * i)) with (py_factorial ((i-1)+1) (((i-1)+1) * res))
        by (f_equal; lia).
      now constructor. }
    assert (B : 0 <= res * i <= v).
    { clear - Hr' Hv. pose proof (py_factorial_pos _ _ Hr') as P. split; [lia|].
      remember (i - 1 + Z.of_nat (S t)) as n. assert (Hin : i <= n) by lia. clear Heqn.
      remember (res * i) as u. clear Hequ.
      induction Hv as [|m w' Hm IHm].
      - destruct P. assert (i = 0) by lia. subst. now rewrite (py_factorial_det _ _ _ Hr' fact_zero).
      - destruct (Z.eq_dec i (m+1)) as [->|Hne].
        + rewrite (py_factorial_det _ _ _ Hr' (fact_succ _ _ Hm)). lia.
        + assert (u <= w') by (apply IHm; lia). apply py_factorial_pos in Hm. nia. }
    assert (0 < 2 ^ (w-1)) by (apply Z.pow_pos_nonneg; lia).
    rewrite chk_in by (unfold in_range, int_min, int_max in *; lia).
    unfold bind. apply IH; try lia.
    + now replace (i + 1 - 1) with i by lia.
    + now replace (i + 1 - 1 + Z.of_nat t) with (i - 1 + Z.of_nat (S t)) by lia.
    + exact Rv.
Qed.

Lemma f_factorial_ok w n v :
  1 <= w -> py_factorial n v -> in_range w v -> f_factorial w n = Ret v.
Proof.
  intros Hw Hv Rv. pose proof (py_factorial_pos _ _ Hv) as P. unfold f_factorial.
  destruct (Z.eq_dec n 0) as [->|Hn].
  - cbn. f_equal. eapply py_factorial_det; [constructor|eassumption].
  - apply f_factorial_loop_ok; auto; try lia.
    + change (2 - 1) with (0 + 1). change 1 with ((0 + 1) * 1) at 2. constructor. constructor.
    + now replace (2 - 1 + Z.of_nat (Z.to_nat (n - 1))) with n by lia.
Qed.

(* ------------------------------------------------------------ rounding ---- *)

Lemma c_pow10_ok k : (k <= 18)%nat -> c_pow10 k = Ret (10 ^ Z.of_nat k).
Proof.
  induction k as [|k IH]; intros H; [reflexivity|].
  cbn [c_pow10]. rewrite IH by lia. unfold bind.
  replace (10 ^ Z.of_nat (S k)) with (10 ^ Z.of_nat k * 10)
    by (rewrite Nat2Z.inj_succ, Z.pow_succ_r by lia; lia).
  apply chk_in. pose proof (Z.pow_le_mono_r 10 (Z.of_nat k) 17 ltac:(lia) ltac:(lia)) as P.
  change (10 ^ 17) with 100000000000000000 in P.
  assert (0 < 10 ^ Z.of_nat k) by (apply Z.pow_pos_nonneg; lia).
  unfold in_range, int_min, int_max. change (2 ^ (64 - 1)) with 9223372036854775808. lia.
Qed.

(* Common facts on 10^k, 1 <= k <= 18. *)
Lemma pow10_facts k : 1 <= k <= 18 ->
  exists h, 10 ^ k = 2 * h /\ h = 5 * 10 ^ (k - 1) /\ 5 <= h <= 500000000000000000.
Proof.
  intros H. exists (5 * 10 ^ (k-1)).
  assert (E : 10 ^ k = 10 * 10 ^ (k-1)) by (rewrite <- Z.pow_succ_r by lia; f_equal; lia).
  pose proof (Z.pow_le_mono_r 10 (k-1) 17 ltac:(lia) ltac:(lia)) as P.
  pose proof (Z.pow_le_mono_r 10 0 (k-1) ltac:(lia) ltac:(lia)) as P'.
  change (10 ^ 17) with 100000000000000000 in P. change (10 ^ 0) with 1 in P'. lia.
Qed.

Lemma is_tie_dec n k h : 10 ^ k = 2 * h -> 0 < h -> is_tie n k -> Z.abs (Z.rem n (2 * h)) = h.
Proof.
  intros E Hh [q Hq]. rewrite E in Hq. assert (Hn : n = q * (2 * h) + h) by lia.
  pose proof (Z.quot_rem' n (2*h)) as Q.
  pose proof (Z.rem_bound_pos n (2*h)) as B1.
  pose proof (Z.rem_bound_pos (-n) (2*h)) as B2. rewrite Z.rem_opp_l' in B2.
  set (r := Z.rem n (2*h)) in *. set (t := Z.quot n (2*h)) in *. clearbody r t.
  destruct (Z.le_gt_cases 0 n).
  - assert (0 <= r < 2*h) by lia. assert (t = q) by nia. subst. lia.
  - assert (0 <= - r < 2*h) by lia. assert (t = q + 1 \/ t = q) by nia. nia.
Qed.

Lemma tie_of_rem n k h : 10 ^ k = 2 * h -> 0 < h -> Z.abs (Z.rem n (2 * h)) = h -> is_tie n k.
Proof.
  intros E Hh Hr. pose proof (Z.quot_rem' n (2*h)) as Q. unfold is_tie. rewrite E.
  destruct (Z.le_gt_cases 0 (Z.rem n (2*h))).
  - exists (Z.quot n (2*h)). lia.
  - exists (Z.quot n (2*h) - 1). lia.
Qed.

(* Rounding half away from zero by truncation, for non-ties. *)
Lemma trunc_round n k h :
  0 <= k -> 10 ^ k = 2 * h -> 0 < h -> ~ is_tie n k ->
  py_round n k (Z.quot (n + c_copysign h n) (2 * h) * (2 * h)).
Proof.
  intros Hk E Hh Hn. unfold py_round. exists (Z.quot (n + c_copysign h n) (2 * h)). rewrite E.
  split; [reflexivity|].
  set (s := n + c_copysign h n).
  pose proof (Z.quot_rem' s (2*h)) as Q.
  pose proof (Z.rem_bound_pos s (2*h)) as B1.
  pose proof (Z.rem_bound_pos (-s) (2*h)) as B2. rewrite Z.rem_opp_l' in B2.
  assert (Hs : (n < 0 /\ s = n - h) \/ (0 <= n /\ s = n + h)).
  { unfold s, c_copysign. destruct (Z.ltb_spec n 0); lia. }
  clearbody s. set (r := Z.rem s (2*h)) in *. set (t := Z.quot s (2*h)) in *. clearbody r t.
  assert (Hnt : forall q, n <> q * (2*h) + h).
  { intros q Hq. apply Hn. exists q. rewrite E. lia. }
  assert (2 * Z.abs (n - t * (2*h)) <= 2 * h /\ (2 * Z.abs (n - t * (2*h)) = 2 * h -> n = t * (2*h) + h \/ n = (t-1) * (2*h) + h)).
  { destruct Hs as [[H1 H2]|[H1 H2]].
    - assert (0 <= - r < 2*h) by lia. split; [lia|]. nia.
    - assert (0 <= r < 2*h) by lia. split; [lia|]. nia. }
  destruct H as [H1 H2]. split; [exact H1|]. intros H3. destruct (H2 H3) as [H4|H4]; exfalso; eapply Hnt; exact H4.
Qed.

Lemma py_round_unique n k r r' : 0 <= k -> py_round n k r -> py_round n k r' -> r = r'.
Proof.
  intros Hk (q & -> & H1 & H2) (q' & -> & H1' & H2').
  assert (P : 0 < 10 ^ k) by (apply Z.pow_pos_nonneg; lia). set (m := 10 ^ k) in *. clearbody m.
  destruct (Z.eq_dec q q') as [->|Hne]; [reflexivity|exfalso].
  assert (HE : 2 * Z.abs (n - q * m) = m /\ 2 * Z.abs (n - q' * m) = m /\ (q' = q + 1 \/ q = q' + 1)).
  { assert (Z.abs ((q - q') * m) <= m) by lia.
    assert (Z.abs (q - q') * m <= m) by (rewrite Z.abs_mul, (Z.abs_eq m) in H by lia; lia).
    assert (Z.abs (q-q') = 1) by nia.
    assert (q' = q + 1 \/ q = q' + 1) by lia. destruct H4; subst; nia. }
  destruct HE as (E1 & E2 & E3). specialize (H2 E1). specialize (H2' E2).
  destruct H2 as [u Hu], H2' as [u' Hu']. lia.
Qed.

(* Unfolding of the C routine for 1 <= k <= 18. *)
Lemma c_bankers_round_unfold n k h :
  1 <= k <= 18 -> 10 ^ k = 2 * h -> 5 <= h <= 500000000000000000 -> in_range 64 n ->
  c_bankers_round n (- k) =
    (if Z.rem n (2*h) =? c_copysign h n
     then
       d <- chk 64 (2*h - Z.rem n (2*h)) ;;
       val <- c_div 64 d (2*h) ;;
       s <- chk 64 (val + Z.land val 1) ;;
       chk 64 (s * (2*h))
     else
       s <- chk 64 (n + c_copysign h n) ;;
       q <- c_div 64 s (2*h) ;;
       chk 64 (q * (2*h))).
Proof.
  intros Hk E Hh Hn. unfold c_bankers_round.
  destruct (Z.leb_spec 0 (-k)); [lia|].
  rewrite c_pow10_ok by lia. unfold bind at 1.
  replace (Z.of_nat (Z.to_nat (- - k))) with k by lia. rewrite E.
  rewrite chk_in by (unfold in_range, int_min, int_max; change (2 ^ (64-1)) with 9223372036854775808; lia).
  unfold bind at 1.
  assert (Eq : Z.quot (5 * (2 * h)) 10 = h).
  { replace (5 * (2*h)) with (h * 10) by lia. apply Z.quot_mul. lia. }
  rewrite c_div_in; [|lia|rewrite Eq; unfold in_range, int_min, int_max; change (2 ^ (64-1)) with 9223372036854775808; lia].
  rewrite Eq. unfold bind at 1. cbv zeta.
  rewrite c_rem_in; [reflexivity|lia|].
  apply quot_range_nonmin; auto; try lia.
  unfold in_range, int_min, int_max; change (2 ^ (64-1)) with 9223372036854775808; lia.
Qed.

Lemma copysign_rem_tie n h : 0 < h -> Z.rem n (2*h) = c_copysign h n -> Z.abs (Z.rem n (2 * h)) = h.
Proof. intros Hh ->. unfold c_copysign. destruct (n <? 0); lia. Qed.

Lemma quot_mult_range n h :
  5 <= h <= 500000000000000000 -> in_range 64 n -> in_range 64 (Z.quot n (2*h) * (2*h)) .
Proof.
  intros Hh [H1 H2]. pose proof (Z.quot_rem' n (2*h)) as Q.
  pose proof (Z.rem_bound_pos n (2*h)) as B1.
  pose proof (Z.rem_bound_pos (-n) (2*h)) as B2. rewrite Z.rem_opp_l' in B2.
  unfold in_range, int_min, int_max in *. change (2 ^ (64-1)) with 9223372036854775808 in *.
  destruct (Z.le_gt_cases 0 n).
  - assert (0 <= Z.quot n (2*h)) by (apply Z.quot_pos; lia).
    assert (0 <= Z.rem n (2*h) < 2*h) by lia. nia.
  - assert (0 <= Z.quot (-n) (2*h)) by (apply Z.quot_pos; lia).
    rewrite Z.quot_opp_l in H0 by lia.
    assert (0 <= - Z.rem n (2*h) < 2*h) by lia. nia.
Qed.

Lemma c_bankers_round_nontie n k r :
  1 <= k <= 18 -> in_range 64 n -> in_range 64 (n + c_copysign (5 * 10 ^ (k-1)) n) ->
  ~ is_tie n k -> py_round n k r -> c_bankers_round n (- k) = Ret r.
Proof.
  intros Hk Hn Ho Ht Hr.
  destruct (pow10_facts k Hk) as (h & E & Eh & Bh). rewrite <- Eh in Ho.
  rewrite (c_bankers_round_unfold n k h Hk E Bh Hn).
  destruct (Z.eqb_spec (Z.rem n (2*h)) (c_copysign h n)) as [Et|Et].
  - exfalso. apply Ht. eapply tie_of_rem; [exact E|lia|]. apply copysign_rem_tie; [lia|exact Et].
  - rewrite chk_in by exact Ho. unfold bind at 1.
    assert (R2 : in_range 64 (2 * h)) by (unfold in_range, int_min, int_max; change (2 ^ (64-1)) with 9223372036854775808; lia).
    rewrite c_div_in; [|lia|apply quot_range_nonmin; auto; lia].
    unfold bind. rewrite chk_in by (now apply quot_mult_range).
    f_equal. apply (py_round_unique n k); [lia| |exact Hr].
    apply trunc_round; auto; lia.
Qed.

Lemma tie_rem_sign n k h :
  10 ^ k = 2 * h -> 0 < h -> is_tie n k -> Z.rem n (2*h) = c_copysign h n.
Proof.
  intros E Hh Ht. pose proof (is_tie_dec n k h E Hh Ht) as A. unfold c_copysign.
  pose proof (Z.rem_bound_pos n (2*h)) as B1.
  pose proof (Z.rem_bound_pos (-n) (2*h)) as B2. rewrite Z.rem_opp_l' in B2.
  destruct (Z.ltb_spec n 0); lia.
Qed.

(* What the C routine really does on ties. *)
Lemma c_bankers_round_tie n k :
  1 <= k <= 18 -> in_range 64 n -> is_tie n k ->
  c_bankers_round n (- k) = Ret (if n <? 0 then 2 * 10 ^ k else 0).
Proof.
  intros Hk Hn Ht. destruct (pow10_facts k Hk) as (h & E & Eh & Bh).
  rewrite (c_bankers_round_unfold n k h Hk E Bh Hn).
  assert (Et : Z.rem n (2*h) = c_copysign h n) by (apply (tie_rem_sign n k); auto; lia).
  rewrite Et, Z.eqb_refl, E. unfold c_copysign.
  assert (Rg : forall z, 0 <= z <= 2000000000000000000 -> in_range 64 z).
  { intros z Hz. unfold in_range, int_min, int_max; change (2 ^ (64-1)) with 9223372036854775808; lia. }
  destruct (Z.ltb_spec n 0).
  - assert (Eq : Z.quot (2*h - - h) (2*h) = 1).
    { rewrite Z.quot_div_nonneg by lia. symmetry. apply (Z.div_unique _ _ _ h); lia. }
    rewrite chk_in by (apply Rg; lia). unfold bind at 1.
    rewrite c_div_in; [|lia|rewrite Eq; apply Rg; lia]. rewrite Eq. unfold bind at 1.
    change (1 + Z.land 1 1) with 2. rewrite chk_in by (apply Rg; lia). unfold bind.
    rewrite chk_in by (apply Rg; lia). reflexivity.
  - assert (Eq : Z.quot (2*h - h) (2*h) = 0) by (apply Z.quot_small; lia).
    rewrite chk_in by (apply Rg; lia). unfold bind at 1.
    rewrite c_div_in; [|lia|rewrite Eq; apply Rg; lia]. rewrite Eq. unfold bind at 1.
    change (0 + Z.land 0 1) with 0. rewrite chk_in by (apply Rg; lia). unfold bind.
    rewrite chk_in by (apply Rg; lia). reflexivity.
Qed.

(* Fortran *)
Lemma f_bankers_round_unfold n k h :
  1 <= k <= 18 -> 10 ^ k = 2 * h -> h = 5 * 10 ^ (k - 1) -> 5 <= h <= 500000000000000000 -> in_range 64 n ->
  f_bankers_round n (- k) =
    (if n mod (2*h) =? c_copysign h n
     then
       d <- chk 64 (2*h - n mod (2*h)) ;;
       val <- c_div 64 d (2*h) ;;
       s <- chk 64 (val + Z.land val 1) ;;
       chk 64 (s * (2*h))
     else
       s <- chk 64 (n + c_copysign h n) ;;
       q <- c_div 64 s (2*h) ;;
       chk 64 (q * (2*h))).
Proof.
  intros Hk E Eh Hh Hn. unfold f_bankers_round.
  destruct (Z.leb_spec 0 (-k)); [lia|].
  replace (- - k) with k by lia. rewrite E.
  rewrite chk_in by (unfold in_range, int_min, int_max; change (2 ^ (64-1)) with 9223372036854775808; lia).
  unfold bind at 1. rewrite <- Eh.
  rewrite chk_in by (unfold in_range, int_min, int_max; change (2 ^ (64-1)) with 9223372036854775808; lia).
  unfold bind at 1. cbv zeta. unfold f_sign, f_modulo.
  destruct (Z.eqb_spec (2*h) 0); [lia|]. unfold bind at 1.
  rewrite !Z.abs_eq by lia. reflexivity.
Qed.

Lemma f_bankers_round_nontie n k r :
  1 <= k <= 18 -> in_range 64 n -> in_range 64 (n + c_copysign (5 * 10 ^ (k-1)) n) ->
  ~ is_tie n k -> py_round n k r -> f_bankers_round n (- k) = Ret r.
Proof.
  intros Hk Hn Ho Ht Hr.
  destruct (pow10_facts k Hk) as (h & E & Eh & Bh). rewrite <- Eh in Ho.
  rewrite (f_bankers_round_unfold n k h Hk E Eh Bh Hn).
  destruct (Z.eqb_spec (n mod (2*h)) (c_copysign h n)) as [Et|Et].
  - exfalso. apply Ht. unfold is_tie. rewrite E. unfold c_copysign in Et.
    pose proof (Z.mod_pos_bound n (2*h) ltac:(lia)).
    destruct (Z.ltb_spec n 0); [lia|].
    exists (n / (2*h)). pose proof (Z.div_mod n (2*h) ltac:(lia)). lia.
  - rewrite chk_in by exact Ho. unfold bind at 1.
    assert (R2 : in_range 64 (2 * h)) by (unfold in_range, int_min, int_max; change (2 ^ (64-1)) with 9223372036854775808; lia).
    rewrite c_div_in; [|lia|apply quot_range_nonmin; auto; lia].
    unfold bind. rewrite chk_in by (now apply quot_mult_range).
    f_equal. apply (py_round_unique n k); [lia| |exact Hr].
    apply trunc_round; auto; lia.
Qed.

Lemma f_bankers_round_tie_pos n k :
  1 <= k <= 18 -> in_range 64 n -> 0 <= n -> is_tie n k ->
  f_bankers_round n (- k) = Ret 0.
Proof.
  intros Hk Hn Hn0 Ht. destruct (pow10_facts k Hk) as (h & E & Eh & Bh).
  rewrite (f_bankers_round_unfold n k h Hk E Eh Bh Hn).
  assert (Et : n mod (2*h) = c_copysign h n).
  { rewrite <- Z.rem_mod_nonneg by lia. apply (tie_rem_sign n k); auto; lia. }
  rewrite Et, Z.eqb_refl. unfold c_copysign.
  assert (Rg : forall z, 0 <= z <= 2000000000000000000 -> in_range 64 z).
  { intros z Hz. unfold in_range, int_min, int_max; change (2 ^ (64-1)) with 9223372036854775808; lia. }
  destruct (Z.ltb_spec n 0); [lia|].
  assert (Eq : Z.quot (2*h - h) (2*h) = 0) by (apply Z.quot_small; lia).
  rewrite chk_in by (apply Rg; lia). unfold bind at 1.
  rewrite c_div_in; [|lia|rewrite Eq; apply Rg; lia]. rewrite Eq. unfold bind at 1.
  change (0 + Z.land 0 1) with 0. rewrite chk_in by (apply Rg; lia). unfold bind.
  rewrite chk_in by (apply Rg; lia). reflexivity.
Qed.

(* sign *)
Lemma c_sign_ok w x : 2 <= w -> c_sign w x = Z.sgn x.
Proof.
  intros Hw. unfold c_sign, b2z.
  assert (2 <= 2 ^ (w-1)) by (change 2 with (2 ^ 1) at 1; apply Z.pow_le_mono_r; lia).
  rewrite wrap_in; try lia.
  - destruct (Z.ltb_spec 0 x), (Z.ltb_spec x 0); lia.
  - unfold in_range, int_min, int_max. destruct (0 <? x), (x <? 0); lia.
Qed.

Lemma c_sign_cases w x : 2 <= w ->
  (0 < x -> c_sign w x = 1) /\ (x = 0 -> c_sign w x = 0) /\ (x < 0 -> c_sign w x = -1).
Proof. intros Hw. rewrite c_sign_ok by exact Hw. repeat split; lia. Qed.

Lemma floordiv_exists x y : y <> 0 -> exists q, py_floordiv x y q.
Proof.
  intros ne. exists (x / y). unfold py_floordiv.
  pose proof (Z.div_mod x y ne). pose proof (Z.mod_pos_bound x y).
  pose proof (Z.mod_neg_bound x y). lia.
Qed.

Lemma floordiv_range w x y q :
  1 <= w -> in_range w x -> in_range w y -> py_floordiv x y q ->
  ~ (x = int_min w /\ y = -1) -> in_range w q.
Proof.
  intros Hw Hx Hy (H0 & Hp & Hn) Hnm.
  assert (P : 0 < 2 ^ (w-1)) by (apply Z.pow_pos_nonneg; lia).
  unfold in_range, int_min, int_max in *. set (M := 2 ^ (w-1)) in *. clearbody M.
  destruct (Z.lt_total y 0) as [H|[H|H]]; [| contradiction |].
  - specialize (Hn H). destruct (Z.eq_dec y (-1)) as [->|Hy1]; [lia|].
    assert (y <= -2) by lia. nia.
  - specialize (Hp H). nia.
Qed.

Lemma c_divmod_identity_ok x y q r :
  in_range 64 x -> in_range 64 y ->
  c_floor_div 64 x y = Ret q -> c_modulo x y = Ret r -> x = y * q + r.
Proof.
  intros Hx Hy Hq Hr.
  destruct (Z.eq_dec y 0) as [->|ne]; [discriminate Hq|].
  destruct (floordiv_exists x y ne) as [q0 Hf].
  assert (Hnm : ~ (x = int_min 64 /\ y = -1)).
  { intros [-> ->]. clear - Hq. vm_compute in Hq. discriminate. }
  rewrite (c_modulo_ok x y (x - q0 * y) Hx Hy Hnm (ex_intro _ q0 (conj Hf eq_refl))) in Hr.
  rewrite (c_floor_div_ok 64 x y q0 ltac:(lia) Hx Hy Hf
             (floordiv_range 64 x y q0 ltac:(lia) Hx Hy Hf Hnm)) in Hq.
  injection Hq as <-. injection Hr as <-. lia.
Qed.

Lemma f_divmod_identity_ok w x y q r :
  1 <= w -> in_range w x -> in_range w y ->
  f_floor_div w x y = Ret q -> f_modulo x y = Ret r -> x = y * q + r.
Proof.
  intros Hw Hx Hy Hq Hr.
  destruct (Z.eq_dec y 0) as [->|ne]; [discriminate Hq|].
  destruct (floordiv_exists x y ne) as [q0 Hf].
  rewrite (f_modulo_ok x y (x - q0 * y) (ex_intro _ q0 (conj Hf eq_refl))) in Hr.
  assert (Hnm : ~ (x = int_min w /\ y = -1)).
  { intros [-> ->]. unfold f_floor_div, f_div, c_div in Hq. simpl Z.eqb in Hq. cbv iota in Hq.
    rewrite chk_out in Hq; [discriminate|].
    change (-1) with (- (1)). rewrite Z.quot_opp_r, Z.quot_1_r by lia.
    unfold in_range, int_min, int_max. lia. }
  rewrite (f_floor_div_ok w x y q0 Hw Hx Hy Hf
             (floordiv_range w x y q0 Hw Hx Hy Hf Hnm)) in Hq.
  injection Hq as <-. injection Hr as <-. lia.
Qed.

Lemma c_modulo_overflow :
  exists a b r, in_range 64 a /\ in_range 64 b /\ py_mod a b r /\ in_range 64 r
             /\ c_modulo a b = Undef.
Proof.
  exists (-9223372036854775808), (-1), 0.
  repeat match goal with |- _ /\ _ => split end; try (apply in_rangeb_spec; reflexivity); try reflexivity.
  exists 9223372036854775808. unfold py_floordiv. lia.
Qed.

Lemma c_gcd_terminates a b g :
  in_range 64 a -> in_range 64 b -> a <> int_min 64 -> b <> int_min 64 ->
  py_gcd a b g ->
  exists N, forall fuel, (N <= fuel)%nat -> c_gcd fuel a b = Ret g.
Proof.
  intros Ha Hb Na Nb Hg. apply py_gcd_gcd in Hg. subst g.
  exists (S (Z.to_nat (Z.abs b))). intros fuel Hf. apply c_gcd_ok; auto. 
Qed.

Lemma f_gcd_terminates w a b g :
  1 <= w -> in_range w a -> in_range w b -> a <> int_min w -> b <> int_min w ->
  py_gcd a b g ->
  exists N, forall fuel, (N <= fuel)%nat -> f_gcd fuel w a b = Ret g.
Proof.
  intros Hw Ha Hb Na Nb Hg. apply py_gcd_gcd in Hg. subst g.
  exists (S (Z.to_nat (Z.abs b))). intros fuel Hf. apply f_gcd_ok; auto.
Qed.

Lemma c_lcm_terminates a b m :
  in_range 64 a -> in_range 64 b -> a <> int_min 64 -> b <> int_min 64 ->
  ~ (a = 0 /\ b = 0) ->
  py_lcm a b m -> in_range 64 m ->
  exists N, forall fuel, (N <= fuel)%nat -> c_lcm fuel a b = Ret m.
Proof.
  intros Ha Hb Na Nb H0 Hl Rl. apply py_lcm_lcm in Hl. subst m.
  exists (S (Z.to_nat (Z.abs b))). intros fuel Hf. apply c_lcm_ok; auto.
Qed.

Lemma f_lcm_terminates w a b m :
  1 <= w -> in_range w a -> in_range w b -> a <> int_min w -> b <> int_min w ->
  ~ (a = 0 /\ b = 0) ->
  py_lcm a b m -> in_range w m ->
  exists N, forall fuel, (N <= fuel)%nat -> f_lcm fuel w a b = Ret m.
Proof.
  intros Hw Ha Hb Na Nb H0 Hl Rl. apply py_lcm_lcm in Hl. subst m.
  exists (S (Z.to_nat (Z.abs b))). intros fuel Hf. apply f_lcm_ok; auto.
Qed.

Lemma py_gcd_intro a b : py_gcd a b (Z.gcd a b).
Proof.
  split; [apply Z.gcd_nonneg|].
  split; [apply Z.gcd_divide_l|]. split; [apply Z.gcd_divide_r|].
  intros d. apply Z.gcd_greatest.
Qed.

Lemma py_gcd_ex : py_gcd (-12) 18 6.
Proof. exact (py_gcd_intro (-12) 18). Qed.

Lemma py_lcm_ex : py_lcm (-4) 6 12.
Proof.
  change 12 with (Z.lcm (-4) 6). split; [apply Z.lcm_nonneg|].
  split; [apply Z.divide_lcm_l|]. split; [apply Z.divide_lcm_r|].
  intros d. apply Z.lcm_least.
Qed.

Lemma c_gcd_overflow :
  exists a b g, in_range 64 a /\ in_range 64 b /\ py_gcd a b g /\ in_range 64 g
             /\ forall fuel, c_gcd fuel a b = Undef.
Proof.
  exists (-9223372036854775808), 2, 2.
  repeat match goal with |- _ /\ _ => split end; try (apply in_rangeb_spec; reflexivity); try reflexivity.
  exact (py_gcd_intro (-9223372036854775808) 2).
Qed.

Lemma py_lcm_00 : py_lcm 0 0 0.
Proof. split; [lia|]. split; [exists 0; lia|]. split; [exists 0; lia|]. auto. Qed.

Lemma c_lcm_zero : py_lcm 0 0 0 /\ forall fuel, (1 <= fuel)%nat -> c_lcm fuel 0 0 = Undef.
Proof. split; [exact py_lcm_00|]. intros [|f] H; [lia|reflexivity]. Qed.

Lemma f_lcm_zero : py_lcm 0 0 0 /\ forall fuel, (1 <= fuel)%nat -> f_lcm fuel 64 0 0 = Undef.
Proof. split; [exact py_lcm_00|]. intros [|f] H; [lia|reflexivity]. Qed.

Lemma c_factorial_terminates n v :
  py_factorial n v -> in_range 64 v ->
  exists N, forall fuel, (N <= fuel)%nat -> c_factorial fuel n = Ret v.
Proof.
  intros Hv Rv. exists (S (Z.to_nat n)). intros fuel Hf. apply c_factorial_ok; auto.
Qed.

Lemma py_factorial_ex : py_factorial 3 6.
Proof.
  exact (fact_succ 2 2 (fact_succ 1 1 (fact_succ 0 1 fact_zero))).
Qed.

Lemma c_bankers_round_nontie' n k r :
  1 <= k <= 18 -> in_range 64 n ->
  in_range 64 (if n <? 0 then n - 5 * 10 ^ (k - 1) else n + 5 * 10 ^ (k - 1)) ->
  ~ is_tie n k -> py_round n k r -> c_bankers_round n (- k) = Ret r.
Proof.
  intros Hk Hn Ho. apply c_bankers_round_nontie; auto.
  unfold c_copysign. destruct (n <? 0); exact Ho.
Qed.

Lemma f_bankers_round_nontie' n k r :
  1 <= k <= 18 -> in_range 64 n ->
  in_range 64 (if n <? 0 then n - 5 * 10 ^ (k - 1) else n + 5 * 10 ^ (k - 1)) ->
  ~ is_tie n k -> py_round n k r -> f_bankers_round n (- k) = Ret r.
Proof.
  intros Hk Hn Ho. apply f_bankers_round_nontie; auto.
  unfold c_copysign. destruct (n <? 0); exact Ho.
Qed.

Lemma round_nonneg n k : 0 <= k ->
  c_bankers_round n k = Ret n /\ f_bankers_round n k = Ret n.
Proof.
  intros H. unfold c_bankers_round, f_bankers_round.
  destruct (Z.leb_spec 0 k); [auto|lia].
Qed.

Lemma c_round_ex :
  1 <= 2 <= 18 /\ in_range 64 (-1234) /\ ~ is_tie (-1234) 2 /\ py_round (-1234) 2 (-1200)
  /\ c_bankers_round (-1234) (-2) = Ret (-1200).
Proof.
  split; [lia|]. split; [apply in_rangeb_spec; reflexivity|].
  split; [intros [q H]; change (10 ^ 2) with 100 in H; lia|].
  split; [exists (-12); change (10 ^ 2) with 100; lia | reflexivity].
Qed.

Lemma py_round_wit n k r q :
  r = q * 10 ^ k -> 2 * Z.abs (n - r) <= 10 ^ k -> Z.Even q -> py_round n k r.
Proof. intros. exists q. auto. Qed.

Lemma c_round_wrong :
  py_round 25 1 20 /\ c_bankers_round 25 (-1) = Ret 0 /\
  py_round (-5) 1 0 /\ c_bankers_round (-5) (-1) = Ret 20.
Proof.
  split; [apply (py_round_wit _ _ _ 2); [reflexivity|change (10^1) with 10; lia|exists 1; lia]|].
  split; [reflexivity|].
  split; [apply (py_round_wit _ _ _ 0); [reflexivity|change (10^1) with 10; lia|exists 0; lia]|].
  reflexivity.
Qed.

Lemma c_round_overflow :
  exists n k r, in_range 64 n /\ py_round n k r /\ in_range 64 r /\ c_bankers_round n (- k) = Undef.
Proof.
  exists 9200000000000000000, 18, 9000000000000000000.
  split; [apply in_rangeb_spec; reflexivity|].
  split; [exists 9; change (10^18) with 1000000000000000000; lia|].
  split; [apply in_rangeb_spec; reflexivity|]. vm_compute. reflexivity.
Qed.

Lemma f_round_wrong :
  py_round 25 1 20 /\ f_bankers_round 25 (-1) = Ret 0 /\
  py_round (-25) 1 (-20) /\ f_bankers_round (-25) (-1) = Ret (-30).
Proof.
  split; [apply (py_round_wit _ _ _ 2); [reflexivity|change (10^1) with 10; lia|exists 1; lia]|].
  split; [reflexivity|].
  split; [apply (py_round_wit _ _ _ (-2)); [reflexivity|change (10^1) with 10; lia|exists (-1); lia]|].
  reflexivity.
Qed.
