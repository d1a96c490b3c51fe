From Coq Require Import ZArith List Bool Lia.
From Verif Require Import Math_Model Root_Model Root_Spec.
Import ListNotations.
Open Scope Z_scope.

Lemma rne_near a k : 0 <= a -> 0 < k -> 2 * Z.abs (rne a k * 2 ^ k - a) <= 2 ^ k.
Proof.
  intros A K. unfold rne. cbv zeta. assert (P : 0 < 2 ^ k) by (apply Z.pow_pos_nonneg; lia).
  pose proof (Z.div_mod a (2 ^ k) ltac:(lia)) as D. pose proof (Z.mod_pos_bound a (2 ^ k) P) as B.
  set (q := a / 2 ^ k) in *. set (r := a mod 2 ^ k) in *.
  destruct (Z.ltb_spec (2 * r) (2 ^ k)); [replace (q * 2 ^ k - a) with (- r) by lia; lia|].
  assert (E : (q + 1) * 2 ^ k - a = 2 ^ k - r) by lia.
  destruct (Z.ltb_spec (2 ^ k) (2 * r)); [rewrite E; lia|].
  destruct (Z.even q); [replace (q * 2 ^ k - a) with (- r) by lia; lia|rewrite E; lia].
Qed.
Lemma iroot_ok m n : 0 < m -> Z.abs (n - m * m) < m -> iroot n = m.
Proof.
  intros M H. unfold iroot. cbv zeta. destruct (Z_le_gt_dec (m * m) n).
  - assert (E : Z.sqrt n = m) by (apply Z.sqrt_unique; lia). rewrite E. destruct (Z.ltb_spec (m * m + m) n); lia.
  - assert (E : Z.sqrt n = m - 1) by (apply Z.sqrt_unique; lia). rewrite E.
    destruct (Z.ltb_spec ((m - 1) * (m - 1) + (m - 1)) n); lia.
Qed.
Lemma iroot_near n : 0 <= n -> 4 * n <= (2 * iroot n + 1) ^ 2 /\ (0 < n -> (2 * iroot n - 1) ^ 2 <= 4 * n).
Proof.
  intros N. unfold iroot. cbv zeta. pose proof (Z.sqrt_spec n N) as [A B]. set (s := Z.sqrt n) in *.
  assert (S0 : 0 <= s) by (apply Z.sqrt_nonneg).
  rewrite !Z.pow_2_r. unfold Z.succ in B. destruct (Z.ltb_spec (s * s + s) n); split; intros; try nia.
Qed.

(* the square and its root *)
Lemma log2_square m : 2 ^ 52 <= m < 2 ^ 53 -> Z.log2 (m * m) = 104 \/ (Z.log2 (m * m) = 105 /\ 2 ^ 105 <= m * m).
Proof.
  intros M. destruct (Z_lt_ge_dec (m * m) (2 ^ 105)) as [L|L].
  - left. apply Z.log2_unique; [lia|]. change (2 ^ 104) with (2 ^ 52 * 2 ^ 52). change (2 ^ Z.succ 104) with (2 ^ 105). nia.
  - right. split; [|lia]. apply Z.log2_unique; [lia|]. split; [lia|]. change (2 ^ Z.succ 105) with (2 ^ 53 * 2 ^ 53). nia.
Qed.
Lemma square_root m e : 2 ^ 52 <= Z.abs m < 2 ^ 53 -> -511 <= e + 52 < 512 ->
  dsqrt (dmul (Fin (mkf m e)) (Fin (mkf m e))) = Fin (mkf (Z.abs m) e).
Proof.
  intros M E. cbn [dmul mant expo]. unfold ieee. cbv zeta. replace (Z.abs (m * m)) with (Z.abs m * Z.abs m) by lia.
  assert (SG : Z.sgn (m * m) = 1) by (apply Z.sgn_pos; nia). rewrite SG.
  set (a := Z.abs m) in *. destruct (log2_square a M) as [L|[L L2]].
  - assert (K : Z.max (Z.log2 (a * a) - 52) (-1074 - (e + e)) = 52) by lia. rewrite K. change (52 <=? 0) with false. cbv iota.
    pose proof (rne_near (a * a) 52 ltac:(nia) ltac:(lia)) as R. set (q := rne (a * a) 52) in *.
    assert (B : 2 ^ 104 <= a * a < 2 ^ 105).
    { pose proof (Z.log2_spec (a * a) ltac:(nia)) as Q. rewrite L in Q. exact Q. }
    assert (Q : 2 ^ 52 <= q <= 2 ^ 53) by lia.
    assert (LQ : (Z.log2 q = 52 /\ q < 2 ^ 53) \/ (Z.log2 q = 53 /\ q = 2 ^ 53)).
    { destruct (Z.eq_dec q (2 ^ 53)) as [->|N]; [right; split; reflexivity|left].
      split; [apply Z.log2_unique; [lia|]; change (2 ^ Z.succ 52) with (2 ^ 53); lia|lia]. }
    destruct (Z.eqb_spec q 0); [lia|].
    destruct (Z.leb_spec 1024 (Z.log2 q + (e + e + 52))); [lia|].
    cbn [dsqrt mant expo]. rewrite Z.mul_1_l. destruct (Z.eqb_spec q 0); [lia|]. destruct (Z.ltb_spec q 0); [lia|].
    assert (J : 104 - Z.log2 q + (e + e + 52 - (104 - Z.log2 q)) mod 2 = 52).
    { destruct LQ as [[-> _]|[-> _]].
      - replace (e + e + 52 - (104 - 52)) with (e * 2) by lia. rewrite Z.mod_mul by lia. reflexivity.
      - replace (e + e + 52 - (104 - 53)) with (1 + e * 2) by lia. rewrite Z.mod_add by lia. reflexivity. }
    rewrite J. f_equal. f_equal.
    + apply iroot_ok; lia.
    + replace (e + e + 52 - 52) with (e * 2) by lia. apply Z.div_mul. lia.
  - assert (K : Z.max (Z.log2 (a * a) - 52) (-1074 - (e + e)) = 53) by lia. rewrite K. change (53 <=? 0) with false. cbv iota.
    pose proof (rne_near (a * a) 53 ltac:(nia) ltac:(lia)) as R. set (q := rne (a * a) 53) in *.
    assert (B : a * a <= (2 ^ 53 - 1) * (2 ^ 53 - 1)) by nia.
    assert (Q : 2 ^ 52 <= q < 2 ^ 53) by lia.
    assert (LQ : Z.log2 q = 52) by (apply Z.log2_unique; [lia|]; change (2 ^ Z.succ 52) with (2 ^ 53); lia).
    destruct (Z.eqb_spec q 0); [lia|].
    destruct (Z.leb_spec 1024 (Z.log2 q + (e + e + 53))); [lia|].
    cbn [dsqrt mant expo]. rewrite Z.mul_1_l. destruct (Z.eqb_spec q 0); [lia|]. destruct (Z.ltb_spec q 0); [lia|].
    assert (J : 104 - Z.log2 q + (e + e + 53 - (104 - Z.log2 q)) mod 2 = 53).
    { rewrite LQ. replace (e + e + 53 - (104 - 52)) with (1 + e * 2) by lia. rewrite Z.mod_add by lia. reflexivity. }
    rewrite J. f_equal. f_equal.
    + apply iroot_ok; [lia|]. assert (2 ^ 52 < a) by (destruct (Z_le_gt_dec a (2 ^ 52)); [nia|lia]). lia.
    + replace (e + e + 53 - 53) with (e * 2) by lia. apply Z.div_mul. lia.
Qed.
Lemma ordinary_root v : ordinary v -> dsqrt (dmul v v) = dabs v.
Proof.
  destruct v as [[m e]|]; [|reflexivity]. cbn [ordinary mant expo]. intros [Z0|B].
  - subst m. cbn [dmul dabs mant expo]. change (0 * 0) with 0. change (0 =? 0) with true. cbv iota.
    unfold ieee. cbv zeta. change (Z.abs 0) with 0. change (Z.log2 0 - 52) with (-52).
    destruct (Z.leb_spec (Z.max (-52) (-1074 - (e + e))) 0); [reflexivity|].
    assert (R : rne 0 (Z.max (-52) (-1074 - (e + e))) = 0).
    { unfold rne. cbv zeta. rewrite Z.div_0_l, Z.mod_0_l by (pose proof (Z.pow_pos_nonneg 2 (Z.max (-52) (-1074 - (e + e))) ltac:(lia) ltac:(lia)); lia).
      pose proof (Z.pow_pos_nonneg 2 (Z.max (-52) (-1074 - (e + e))) ltac:(lia) ltac:(lia)).
      destruct (Z.ltb_spec (2 * 0) (2 ^ Z.max (-52) (-1074 - (e + e)))); [reflexivity|lia]. }
    rewrite R. reflexivity.
  - destruct B as [N B]. unfold normalised in N. cbn [mant expo] in *. rewrite square_root by assumption.
    cbn [dabs mant expo]. destruct (Z.eqb_spec m 0); [lia|reflexivity].
Qed.

Section Visit.
Variable env : nat -> double.
Variable fn : nat -> list nat -> double.
Lemma build_pow_eval a log : eval env fn (build_pow a) log = eval env fn (Sq a) log.
Proof. destruct a; reflexivity. Qed.
Lemma visit_var e x : visit e = Var x -> e = Var x.
Proof.
  destruct e as [y|f|a b|a|a|a]; cbn; try discriminate; [auto| |].
  - destruct (visit a); discriminate.
  - destruct (visit a) as [z|f|[u| | | | |] [v| | | | |]|c|c|c]; cbn; try discriminate. destruct (Nat.eqb u v); discriminate.
Qed.
Lemma visit_mul e a b : visit e = Mul a b -> (exists c d, e = Mul c d /\ a = visit c /\ b = visit d) \/
  (exists x, e = Sq (Var x) /\ a = Var x /\ b = Var x).
Proof.
  destruct e as [y|f|c d|c|c|c]; cbn; try discriminate.
  - intros E. injection E as <- <-. left. eauto.
  - destruct (visit c) as [z|f|u v|u|u|u] eqn:V; cbn; try discriminate. intros E. injection E as <- <-. right.
    apply visit_var in V. subst c. eauto.
  - destruct (visit c) as [z|f|[u| | | | |] [v| | | | |]|g|g|g]; cbn; try discriminate. destruct (Nat.eqb u v); discriminate.
Qed.
Lemma visit_sq e a : visit e = Sq a -> exists c, e = Sq c /\ a = visit c.
Proof.
  destruct e as [y|f|c d|c|c|c]; cbn; try discriminate.
  - destruct (visit c) as [z|f|u v|u|u|u] eqn:V; cbn; try discriminate; intros E; injection E as <-; exists c; now rewrite V.
  - destruct (visit c) as [z|f|[u| | | | |] [v| | | | |]|g|g|g]; cbn; try discriminate. destruct (Nat.eqb u v); discriminate.
Qed.
Definition same (e : ex) : Prop := forall log, safe env fn e log -> eval env fn (visit e) log = eval env fn e log.
Lemma visit_eval' : forall e, same e /\ match e with Sq c => same c | _ => True end.
Proof.
  induction e as [x|f|a IHa b IHb|a IHa|a IHa|a IHa]; (split; [|first [exact I|apply IHa]]); intros log S; try reflexivity.
  - cbn [visit eval safe] in *. destruct S as [S1 S2]. rewrite (proj1 IHa log S1). destruct (eval env fn a log) as [u l]. cbn [snd] in S2.
    now rewrite (proj1 IHb l S2).
  - cbn [visit safe] in *. rewrite build_pow_eval. cbn [eval]. now rewrite (proj1 IHa log S).
  - cbn [visit]. cbn [safe] in S. destruct S as [S1 S2]. destruct IHa as [IH1 IH2]. specialize (IH1 log S1).
    cbn [eval]. rewrite <- IH1. destruct (visit a) as [z|f|u v|u|u|u] eqn:V; try reflexivity.
    + destruct u as [u| | | | |]; try reflexivity. destruct v as [v| | | | |]; try reflexivity. cbn [build_sqrt].
      destruct (Nat.eqb_spec u v) as [->|N]; [|reflexivity]. cbn [eval]. f_equal. symmetry. apply ordinary_root.
      apply visit_mul in V. destruct V as [[c [d [E [E1 E2]]]]|[x [E [E1 E2]]]].
      * symmetry in E1, E2. apply visit_var in E1. apply visit_var in E2. subst. now apply S2.
      * subst a. injection E1 as ->. cbn [eval fst] in S2. exact S2.
    + cbn [build_sqrt eval]. apply visit_sq in V as V'. destruct V' as [c [E ->]]. subst a. cbn [safe] in S1.
      rewrite (IH2 log S1). destruct (eval env fn c log) as [w l]. cbn [fst] in S2. f_equal. symmetry. now apply ordinary_root.
  - cbn [visit eval safe] in *. now rewrite (proj1 IHa log S).
Qed.
Lemma visit_eval e log : safe env fn e log -> eval env fn (visit e) log = eval env fn e log.
Proof. apply visit_eval'. Qed.
Lemma build_sqrt_calls a log : snd (eval env fn (build_sqrt a) log) = snd (eval env fn a log).
Proof.
  destruct a as [z|f|u v|u|u|u]; cbn [build_sqrt]; try (cbn [eval]; repeat (destruct (eval env fn _ _)); reflexivity).
  destruct u as [u| | | | |]; try (cbn [eval]; repeat (destruct (eval env fn _ _)); reflexivity).
  destruct v as [v| | | | |]; try (cbn [eval]; repeat (destruct (eval env fn _ _)); reflexivity).
  destruct (Nat.eqb u v); reflexivity.
Qed.
Lemma visit_calls : forall e log, snd (eval env fn (visit e) log) = snd (eval env fn e log).
Proof.
  induction e as [x|f|a IHa b IHb|a IHa|a IHa|a IHa]; intros log; try reflexivity.
  - cbn [visit eval]. specialize (IHa log). destruct (eval env fn (visit a) log) as [u l], (eval env fn a log) as [u' l'].
    cbn [snd] in IHa. subst l'. specialize (IHb l). destruct (eval env fn (visit b) l), (eval env fn b l). exact IHb.
  - cbn [visit]. rewrite build_pow_eval. cbn [eval]. specialize (IHa log). destruct (eval env fn (visit a) log), (eval env fn a log). exact IHa.
  - cbn [visit]. rewrite build_sqrt_calls. cbn [eval]. rewrite IHa. destruct (eval env fn a log). reflexivity.
  - cbn [visit eval]. specialize (IHa log). destruct (eval env fn (visit a) log), (eval env fn a log). exact IHa.
Qed.
End Visit.

Lemma overflow x m : between 512 m x -> dmul (Fin x) (Fin x) = Other.
Proof.
  destruct x as [n e]. intros [N B]. unfold normalised in N. cbn [mant expo] in *. cbn [dmul mant expo]. unfold ieee. cbv zeta.
  replace (Z.abs (n * n)) with (Z.abs n * Z.abs n) by lia. set (a := Z.abs n) in *.
  assert (C : exists k, Z.max (Z.log2 (a * a) - 52) (-1074 - (e + e)) = k /\ 52 <= k <= 53 /\ 2 ^ (k + 52) <= a * a).
  { destruct (log2_square a N) as [L|[L L2]]; [exists 52|exists 53]; (split; [lia|]); (split; [lia|]); [|exact L2].
    change (2 ^ (52 + 52)) with (2 ^ 52 * 2 ^ 52). nia. }
  destruct C as [k [K [K1 K2]]]. rewrite K. destruct (Z.leb_spec k 0); [lia|].
  pose proof (rne_near (a * a) k ltac:(nia) ltac:(lia)) as R. set (q := rne (a * a) k) in *.
  assert (P : 2 ^ (k + 52) = 2 ^ k * 2 ^ 52) by (apply Z.pow_add_r; lia).
  assert (P0 : 0 < 2 ^ k) by (apply Z.pow_pos_nonneg; lia).
  assert (Q : 2 ^ 52 <= q).
  { destruct (Z_le_gt_dec (2 ^ 52) q); [assumption|]. assert (q * 2 ^ k <= (2 ^ 52 - 1) * 2 ^ k) by nia. lia. }
  destruct (Z.eqb_spec q 0); [lia|]. assert (52 <= Z.log2 q) by (apply Z.log2_le_pow2; lia).
  destruct (Z.leb_spec 1024 (Z.log2 q + (e + e + k))); [reflexivity|lia].
Qed.
Lemma underflow x m : between m (-538) x -> dmul (Fin x) (Fin x) = Fin (mkf 0 0).
Proof.
  destruct x as [n e]. intros [N B]. unfold normalised in N. cbn [mant expo] in *. cbn [dmul mant expo]. unfold ieee. cbv zeta.
  replace (Z.abs (n * n)) with (Z.abs n * Z.abs n) by lia. set (a := Z.abs n) in *.
  assert (K : Z.max (Z.log2 (a * a) - 52) (-1074 - (e + e)) = -1074 - (e + e)) by (destruct (log2_square a N) as [L|[L _]]; lia).
  rewrite K. set (k := -1074 - (e + e)) in *. assert (K1 : 108 <= k) by lia. destruct (Z.leb_spec k 0); [lia|].
  assert (P : 2 ^ 108 <= 2 ^ k) by (apply Z.pow_le_mono_r; lia).
  assert (A : 0 <= a * a < 2 ^ 106) by (change (2 ^ 106) with (2 ^ 53 * 2 ^ 53); nia).
  assert (R : rne (a * a) k = 0).
  { unfold rne. cbv zeta. rewrite Z.div_small, Z.mod_small by lia. destruct (Z.ltb_spec (2 * (a * a)) (2 ^ k)); [reflexivity|lia]. }
  rewrite R. reflexivity.
Qed.
Lemma root_ok x : normalised x -> 0 < mant x -> exists y, dsqrt (Fin x) = Fin y /\ is_root x y.
Proof.
  destruct x as [m e]. unfold normalised. cbn [mant expo]. intros N P. rewrite Z.abs_eq in N by lia. cbn [dsqrt mant expo].
  destruct (Z.eqb_spec m 0); [lia|]. destruct (Z.ltb_spec m 0); [lia|].
  assert (L : Z.log2 m = 52) by (apply Z.log2_unique; [lia|]; change (2 ^ Z.succ 52) with (2 ^ 53); lia). rewrite L.
  change (104 - 52) with 52. set (j := 52 + (e - 52) mod 2). pose proof (Z.mod_pos_bound (e - 52) 2 ltac:(lia)) as MB.
  eexists. split; [reflexivity|]. exists j. cbn [mant expo].
  assert (J : 2 ^ j = 2 ^ 52 \/ 2 ^ j = 2 ^ 53).
  { unfold j. destruct (Z.eq_dec ((e - 52) mod 2) 0) as [->|]; [left; reflexivity|]. right.
    replace ((e - 52) mod 2) with 1 by lia. reflexivity. }
  assert (B : 2 ^ 52 * 2 ^ 52 <= m * 2 ^ j < 2 ^ 53 * 2 ^ 53) by (destruct J as [-> | ->]; lia).
  set (w := m * 2 ^ j) in *. split; [|split; [lia|split]].
  - assert (D : (e - j) mod 2 = 0).
    { unfold j. replace (e - (52 + (e - 52) mod 2)) with ((e - 52) - (e - 52) mod 2) by lia.
      rewrite Zminus_mod_idemp_r, Z.sub_diag. reflexivity. }
    pose proof (Z.div_mod (e - j) 2 ltac:(lia)). lia.
  - unfold iroot. cbv zeta.
    assert (S1 : 2 ^ 52 <= Z.sqrt w) by (apply Z.sqrt_le_square; lia).
    assert (S2 : Z.sqrt w < 2 ^ 53) by (apply Z.sqrt_lt_square; lia).
    destruct (_ <? w); lia.
  - destruct (iroot_near w ltac:(lia)) as [A1 A2]. split; [apply A2; lia|exact A1].
Qed.
