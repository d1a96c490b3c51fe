From Coq Require Import List Bool ZArith String Lia Permutation.
From Verif Require Import Common RtInt_Model RtInt_Spec RtInt_Proofs Expr_Model Expr_Spec Expr_Proofs Sem_Model Sem_Spec.
Import ListNotations.
Open Scope string_scope.
Open Scope Z_scope.

(* ---- ranges ---- *)
Lemma in_rangeb_ok w z : in_rangeb w z = true <-> in_range w z.
Proof. unfold in_rangeb, in_range. rewrite andb_true_iff, !Z.leb_le. reflexivity. Qed.
Lemma chk_ok w z : in_range w z -> chk w z = Ret z.
Proof. intros H. unfold chk. apply in_rangeb_ok in H. rewrite H. auto. Qed.
Lemma range_weaken w1 w2 z : 1 <= w1 -> w1 <= w2 -> in_range w1 z -> in_range w2 z.
Proof.
  intros H1 H2. unfold in_range, int_min, int_max. intros.
  assert (2 ^ (w1 - 1) <= 2 ^ (w2 - 1)) by (apply Z.pow_le_mono_r; lia). lia.
Qed.
Lemma range_shift w z : 1 <= w -> in_range w z <-> (Z.shiftr z (w - 1) = 0 \/ Z.shiftr z (w - 1) = -1).
Proof.
  intros Hw. rewrite Z.shiftr_div_pow2 by lia. unfold in_range, int_min, int_max.
  assert (0 < 2 ^ (w - 1)) by (apply Z.pow_pos_nonneg; lia).
  split.
  - intros H0. destruct (Z.neg_nonneg_cases z).
    + right. symmetry. apply Z.div_unique with (z + 2 ^ (w - 1)); lia.
    + left. apply Z.div_small. lia.
  - intros [E|E].
    + pose proof (Z.div_mod z (2 ^ (w - 1)) ltac:(lia)). rewrite E in *.
      pose proof (Z.mod_pos_bound z (2 ^ (w - 1)) ltac:(lia)). lia.
    + pose proof (Z.div_mod z (2 ^ (w - 1)) ltac:(lia)). rewrite E in *.
      pose proof (Z.mod_pos_bound z (2 ^ (w - 1)) ltac:(lia)). lia.
Qed.
Lemma range_bits w a b : 1 <= w -> in_range w a -> in_range w b ->
  in_range w (Z.lxor a b) /\ in_range w (Z.lor a b) /\ in_range w (Z.land a b).
Proof.
  intros Hw Ha Hb. apply range_shift in Ha; auto. apply range_shift in Hb; auto.
  rewrite !range_shift by auto. rewrite Z.shiftr_lxor, Z.shiftr_lor, Z.shiftr_land.
  destruct Ha as [->| ->], Hb as [->| ->]; simpl; auto.
Qed.
Lemma range_lnot w z : 1 <= w -> in_range w z -> in_range w (Z.lnot z).
Proof. unfold in_range, int_min, int_max, Z.lnot. lia. Qed.
Lemma range_bool w z : 2 <= w -> z = 0 \/ z = 1 -> in_range w z.
Proof.
  intros Hw Hz. unfold in_range, int_min, int_max.
  assert (2 ^ 1 <= 2 ^ (w - 1)) by (apply Z.pow_le_mono_r; lia). change (2 ^ 1) with 2 in H. lia.
Qed.
Lemma range_mod w a b : 1 <= w -> in_range w b -> b <> 0 -> in_range w (a mod b).
Proof.
  intros Hw H N. unfold in_range, int_min, int_max in *.
  destruct (Z.neg_nonneg_cases b).
  - pose proof (Z.mod_neg_bound a b ltac:(lia)). assert (0 < 2 ^ (w - 1)) by (apply Z.pow_pos_nonneg; lia). lia.
  - pose proof (Z.mod_pos_bound a b ltac:(lia)). assert (0 < 2 ^ (w - 1)) by (apply Z.pow_pos_nonneg; lia). lia.
Qed.
Lemma range_shiftr w a b : 1 <= w -> 0 <= b -> in_range w a -> in_range w (Z.shiftr a b).
Proof.
  intros Hw Hb H. rewrite Z.shiftr_div_pow2 by auto. unfold in_range, int_min, int_max in *.
  assert (0 < 2 ^ (w - 1)) by (apply Z.pow_pos_nonneg; lia).
  assert (1 <= 2 ^ b) by (change 1 with (2 ^ 0); apply Z.pow_le_mono_r; lia).
  pose proof (Z.div_mod a (2 ^ b) ltac:(lia)). pose proof (Z.mod_pos_bound a (2 ^ b) ltac:(lia)). nia.
Qed.
Lemma b2z_bit b : b2z b = 0 \/ b2z b = 1.
Proof. destruct b; simpl; auto. Qed.
Lemma wid_ge e : 32 <= wid e <= 64.
Proof.
  induction e as [a t | o x IH | o a IHa b IHb | p IHp o b IHb | c IHc a IHa b IHb | x IH]; simpl; try lia.
  - destruct (is_bool t); lia.
  - destruct o; try lia. destruct (is_bool _); lia.
  - destruct o; try lia; destruct (is_bool (sty a)), (is_bool (sty b)); simpl; lia.
Qed.
Local Opaque Z.pow.

(* ---- the values of boolean expressions ---- *)
Lemma tadd_not_bool a b : tadd a b <> TBool.
Proof. destruct a, b; discriminate. Qed.
Lemma tand_bool a b : tand a b = TBool -> a = TBool /\ b = TBool.
Proof. destruct a, b; simpl; try discriminate; auto. Qed.
Lemma same_type_ok a b : same_type a b = true -> a = b.
Proof. destruct a, b; simpl; try discriminate; auto. Qed.
Ltac inv H := inversion H; subst; clear H.
Ltac case_pev H x v l t E := let E' := fresh E in
  destruct (pev _ _ x) as [[[v l] t]|] eqn:E'; [|discriminate H].
Lemma bits_bool o a b v : o = BXor \/ o = BOr \/ o = BAnd -> a = 0 \/ a = 1 -> b = 0 \/ b = 1 ->
  py_bin o a b = Some v -> v = 0 \/ v = 1.
Proof. intros [->|[->| ->]] [->| ->] [->| ->] H; inv H; simpl; auto. Qed.
Lemma cmp_bool o a b v : is_cmp_op o = true -> py_bin o a b = Some v -> v = 0 \/ v = 1.
Proof. destruct o; try discriminate; intros _ H; inv H; apply b2z_bit. Qed.
Lemma bool_value m r e : env_ok r -> chains_ok e -> int_expr r e -> sty e = TBool ->
  forall v l t, pev m r e = Some (v, l, t) -> v = 0 \/ v = 1.
Proof.
  intros R. induction e as [a t | o x IH | o a IHa b IHb | p IHp o b IHb | c IHc a IHa b IHb | x IH];
    cbn [chains_ok int_expr pev]; intros K H T v l t' E.
  - inv E. simpl in T. apply R. destruct H. congruence.
  - case_pev E x v0 l0 t0 E0. destruct (un_ok _ _ _ _); [|discriminate]. inv E.
    destruct o; simpl in *; try discriminate.
    + apply (IH K (proj1 H) T _ _ _ eq_refl).
    + destruct H as (_ & H). rewrite H in T by auto. discriminate.
    + apply b2z_bit.
  - destruct K as (Ka & Kb). destruct H as (Ha & Hb & Ho). case_pev E a va la ta Ea.
    destruct (_ && negb (eager m)) eqn:S in E.
    { destruct o; try discriminate; inv E; destruct Ho as (Ho & _); apply (IHa Ka Ha Ho _ _ _ eq_refl). }
    clear S. case_pev E b vb lb tb Eb.
    specialize (IHa Ka Ha). specialize (IHb Kb Hb).
    destruct o; cbn [sty] in T; try discriminate; try (apply tadd_not_bool in T; contradiction);
      try (destruct (py_bin _ va vb) as [w|] eqn:P; [|discriminate];
           destruct (bin_ok _ _ _ _ _ _); [|discriminate]; inv E;
           first [eapply cmp_bool; [|exact P]; reflexivity
                 |apply tand_bool in T; destruct T as (T1 & T2); eapply bits_bool; [|eapply IHa; eauto|eapply IHb; eauto|exact P]; auto]).
    + destruct Ho as (O1 & O2). inv E. destruct (va =? 0); [apply (IHa O1 _ _ _ eq_refl)|apply (IHb O2 _ _ _ eq_refl)].
    + destruct Ho as (O1 & O2). inv E. destruct (negb (va =? 0)); [apply (IHa O1 _ _ _ eq_refl)|apply (IHb O2 _ _ _ eq_refl)].
  - case_pev E p vp lp tp Ep. destruct (_ && _) eqn:S in E; [inv E; auto|].
    case_pev E b vb lb tb Eb. destruct (py_bin o lp vb) as [w|] eqn:P; [|discriminate]. inv E.
    destruct (vp =? 0); auto. eapply cmp_bool; [|exact P]. tauto.
  - destruct K as (Kc & Ka & Kb). destruct H as (Hc & Ha & Hb). case_pev E c vc lc tc Ec.
    cbn [sty] in T. destruct (same_type (sty a) (sty b)) eqn:ST; [|apply tadd_not_bool in T; contradiction].
    apply same_type_ok in ST. assert (Tb: sty b = TBool) by congruence.
    specialize (IHa Ka Ha T). specialize (IHb Kb Hb Tb).
    destruct (eager m).
    + case_pev E a va la ta Ea. case_pev E b vb lb tb Eb. inv E. destruct (vc =? 0); eauto.
    + destruct (vc =? 0).
      * case_pev E b vb lb tb Eb. inv E. eauto.
      * case_pev E a va la ta Ea. inv E. eauto.
  - case_pev E x v0 l0 t0 E0. inv E. apply b2z_bit.
Qed.

(* ---- C: values ---- *)
Lemma py_floordiv_div a b : b <> 0 -> py_floordiv a b (a / b).
Proof.
  intros H. split; [auto|]. pose proof (Z.div_mod a b H). split; intros.
  - pose proof (Z.mod_pos_bound a b ltac:(lia)). lia.
  - pose proof (Z.mod_neg_bound a b ltac:(lia)). lia.
Qed.
Lemma py_mod_mod a b : b <> 0 -> py_mod a b (a mod b).
Proof. intros H. exists (a / b). split; [apply py_floordiv_div; auto|]. pose proof (Z.div_mod a b H). lia. Qed.
Lemma not_float r e : env_ok r -> cn e -> int_expr r e -> sty e <> TFloat.
Proof.
  intros R. induction e as [a t | o x IH | o a IHa b IHb | p IHp o b IHb | c IHc a IHa b IHb | x IH];
    cbn [cn int_expr sty]; intros K H.
  - tauto.
  - destruct o; try discriminate; apply IH; tauto.
  - destruct K as (Ka & Kb & _). destruct H as (Ha & Hb & Ho). specialize (IHa Ka Ha). specialize (IHb Kb Hb).
    destruct o; try discriminate; try contradiction; destruct (sty a), (sty b); simpl; congruence.
  - contradiction.
  - destruct K as (Kc & Ka & Kb). destruct H as (Hc & Ha & Hb). specialize (IHa Ka Ha). specialize (IHb Kb Hb).
    destruct (sty a), (sty b); simpl; congruence.
  - discriminate.
Qed.
Lemma is_bool_ok t : is_bool t = true -> t = TBool.
Proof. destruct t; simpl; try discriminate; auto. Qed.
Lemma cn_chains e : cn e -> chains_ok e.
Proof. induction e as [| | | | |]; simpl; tauto. Qed.

Lemma c_range_bits (a b : se) w1 w2 va vb v o : o = BXor \/ o = BOr \/ o = BAnd ->
  32 <= w1 <= 64 -> 32 <= w2 <= 64 ->
  in_range w1 va -> in_range w2 vb -> in_range 64 va -> in_range 64 vb ->
  py_bin o va vb = Some v -> is_bool (sty a) && is_bool (sty b) = false ->
  in_range (Z.max (if is_bool (sty a) then 64 else w1) (if is_bool (sty b) then 64 else w2)) v.
Proof.
  intros Ho W1 W2 H1 H2 H3 H4 P N.
  assert (A: in_range (Z.max (if is_bool (sty a) then 64 else w1) (if is_bool (sty b) then 64 else w2)) va).
  { destruct (is_bool (sty a)); (eapply range_weaken; [| |first [exact H1|exact H3]]); lia. }
  assert (B: in_range (Z.max (if is_bool (sty a) then 64 else w1) (if is_bool (sty b) then 64 else w2)) vb).
  { destruct (is_bool (sty b)); (eapply range_weaken; [| |first [exact H2|exact H4]]); lia. }
  assert (M: 1 <= Z.max (if is_bool (sty a) then 64 else w1) (if is_bool (sty b) then 64 else w2))
    by (destruct (is_bool (sty a)), (is_bool (sty b)); lia).
  destruct (range_bits _ _ _ M A B) as (X & Y & Z).
  destruct Ho as [->|[->| ->]]; inv P; auto.
Qed.
Lemma c_range r e : env_ok r -> cn e -> int_expr r e ->
  forall v l t, pev fits_c r e = Some (v, l, t) -> in_range (wid e) v.
Proof.
  intros R. induction e as [a t | o x IH | o a IHa b IHb | p IHp o b IHb | c IHc a IHa b IHb | x IH];
    cbn [cn int_expr pev]; intros K H v l t' E.
  - inv E. destruct H as (-> & H). destruct R as (R1 & R2 & _). simpl.
    destruct (kind r a) eqn:T; simpl; [apply range_bool; [lia|auto]|auto|contradiction].
  - case_pev E x v0 l0 t0 E0. destruct H as (H & _). specialize (IH K H _ _ _ eq_refl).
    destruct (un_ok _ _ _ _) eqn:U; [|discriminate]. inv E. pose proof (wid_ge x).
    destruct o; simpl in *; auto.
    + apply in_rangeb_ok. auto.
    + apply range_bool; [lia|apply b2z_bit].
    + destruct (is_bool (sty x)); (apply range_lnot; [lia|]); (eapply range_weaken; [| |exact IH]; lia).
  - destruct K as (Ka & Kb & _). destruct H as (Ha & Hb & Ho). case_pev E a va la ta Ea.
    specialize (IHa Ka Ha _ _ _ eq_refl).
    pose proof (wid_ge a) as Wa. pose proof (wid_ge b) as Wb.
    destruct (_ && negb (eager fits_c)) eqn:S in E.
    { destruct o; try discriminate; inv E; destruct Ho as (Ho & _); simpl;
        apply range_bool; try lia; exact (bool_value _ _ _ R (cn_chains _ Ka) Ha Ho _ _ _ Ea). }
    clear S. case_pev E b vb lb tb Eb. specialize (IHb Kb Hb _ _ _ eq_refl).
    assert (IA: in_range 64 va) by (eapply range_weaken; [| |exact IHa]; lia).
    assert (IB: in_range 64 vb) by (eapply range_weaken; [| |exact IHb]; lia).
    destruct o; try contradiction;
      try (destruct Ho as (O1 & O2); inv E; simpl; apply range_bool; [lia|];
           match goal with |- context[if ?c then _ else _] => destruct c end;
           first [exact (bool_value _ _ _ R (cn_chains _ Ka) Ha O1 _ _ _ Ea)|exact (bool_value _ _ _ R (cn_chains _ Kb) Hb O2 _ _ _ Eb)]);
      (destruct (py_bin _ va vb) as [w|] eqn:P; [|discriminate]);
      (destruct (bin_ok _ _ _ _ _ _) eqn:B; [|discriminate]); injection E as <- _ _;
      try (simpl in P; inv P; simpl; apply range_bool; [lia|apply b2z_bit]);
      try (apply in_rangeb_ok; exact B); cbn [wid].
    + simpl in P. destruct (Z.eqb_spec vb 0); [discriminate|]. inv P. apply range_mod; auto; lia.
    + simpl in P. destruct (vb <? 0); [discriminate|]. inv P. simpl in B. apply andb_true_iff in B.
      apply in_rangeb_ok. tauto.
    + simpl in P. destruct (Z.ltb_spec vb 0); [discriminate|]. inv P. apply range_shiftr; auto; destruct (is_bool (sty a)); auto; lia.
    + destruct (is_bool (sty a)) eqn:Ta, (is_bool (sty b)) eqn:Tb; simpl;
        try (eapply (c_range_bits a b (wid a) (wid b) va vb) in P; [rewrite Ta, Tb in P; exact P|..]; auto; rewrite Ta, Tb; reflexivity).
      apply range_bool; [lia|]. apply is_bool_ok in Ta. apply is_bool_ok in Tb.
      eapply bits_bool; [| | |exact P]; [auto|exact (bool_value _ _ _ R (cn_chains _ Ka) Ha Ta _ _ _ Ea)|exact (bool_value _ _ _ R (cn_chains _ Kb) Hb Tb _ _ _ Eb)].
    + destruct (is_bool (sty a)) eqn:Ta, (is_bool (sty b)) eqn:Tb; simpl;
        try (eapply (c_range_bits a b (wid a) (wid b) va vb) in P; [rewrite Ta, Tb in P; exact P|..]; auto; rewrite Ta, Tb; reflexivity).
      apply range_bool; [lia|]. apply is_bool_ok in Ta. apply is_bool_ok in Tb.
      eapply bits_bool; [| | |exact P]; [auto|exact (bool_value _ _ _ R (cn_chains _ Ka) Ha Ta _ _ _ Ea)|exact (bool_value _ _ _ R (cn_chains _ Kb) Hb Tb _ _ _ Eb)].
    + destruct (is_bool (sty a)) eqn:Ta, (is_bool (sty b)) eqn:Tb; simpl;
        try (eapply (c_range_bits a b (wid a) (wid b) va vb) in P; [rewrite Ta, Tb in P; exact P|..]; auto; rewrite Ta, Tb; reflexivity).
      apply range_bool; [lia|]. apply is_bool_ok in Ta. apply is_bool_ok in Tb.
      eapply bits_bool; [| | |exact P]; [auto|exact (bool_value _ _ _ R (cn_chains _ Ka) Ha Ta _ _ _ Ea)|exact (bool_value _ _ _ R (cn_chains _ Kb) Hb Tb _ _ _ Eb)].
  - contradiction.
  - destruct K as (Kc & Ka & Kb). destruct H as (Hc & Ha & Hb). case_pev E c vc lc tc Ec.
    cbn [eager fits_c wid] in *. pose proof (wid_ge a) as Wa. pose proof (wid_ge b) as Wb.
    destruct (vc =? 0).
    + case_pev E b vb lb tb Eb. inv E. eapply range_weaken; [| |eapply (IHb Kb Hb _ _ _ eq_refl)]; lia.
    + case_pev E a va la ta Ea. inv E. eapply range_weaken; [| |eapply (IHa Ka Ha _ _ _ eq_refl)]; lia.
  - case_pev E x v0 l0 t0 E0. inv E. simpl. apply range_bool; [lia|apply b2z_bit].
Qed.

Lemma cwid_ge r t : 32 <= cwid r t <= 64.
Proof.
  induction t; simpl; try lia.
  - destruct (is_bool _); lia.
  - destruct (c_pre o) as [[]|]; lia.
  - destruct (c_op o) as [[]|]; lia.
Qed.
Lemma c_wid r e : env_ok r -> cn e -> int_expr r e -> cwid r (c_tree e) = wid e.
Proof.
  intros R. induction e as [a t | o x IH | o a IHa b IHb | p IHp o b IHb | c IHc a IHa b IHb | x IH];
    cbn [cn int_expr]; intros K H.
  - destruct H as (-> & _). reflexivity.
  - destruct H as (H & _). specialize (IH K H). pose proof (not_float _ _ R K H) as N.
    destruct o; simpl; auto. unfold to_type. destruct (sty x) eqn:T; simpl; try congruence.
  - destruct K as (Ka & Kb & _). destruct H as (Ha & Hb & Ho). specialize (IHa Ka Ha). specialize (IHb Kb Hb).
    pose proof (not_float _ _ R Ka Ha) as Na. pose proof (not_float _ _ R Kb Hb) as Nb.
    destruct o; try contradiction; cbn [c_tree sty]; unfold to_type;
      destruct (sty a) eqn:Ta, (sty b) eqn:Tb; try congruence; cbn;
      rewrite ?Ta, ?Tb; cbn; rewrite ?IHa, ?IHb; reflexivity.
  - contradiction.
  - destruct K as (Kc & Ka & Kb). destruct H as (Hc & Ha & Hb). simpl. rewrite IHa, IHb; auto.
  - reflexivity.
Qed.
Lemma bind_ret {A B} (a : A) (k : A -> run B) : bind (Ret a) k = k a.
Proof. reflexivity. Qed.
Lemma cval_In r o x y :
  cval r (In o x y) =
  let w := cwid r (In o x y) in
      match c_op o with
      | Some CLand => a <- cval r x ;; if a =? 0 then Ret 0 else b <- cval r y ;; Ret (b2z (negb (b =? 0)))
      | Some CLor => a <- cval r x ;; if a =? 0 then b <- cval r y ;; Ret (b2z (negb (b =? 0))) else Ret 1
      | Some o =>
          a <- cval r x ;; b <- cval r y ;;
          match o with
          | CAdd => chk w (a + b) | CSub => chk w (a - b) | CMul => chk w (a * b)
          | CDiv => c_div w a b | CRem => c_rem w a b
          | CShl => if (a <? 0) || (b <? 0) || (w <=? b) then Undef else chk w (Z.shiftl a b)
          | CShr => if (b <? 0) || (w <=? b) then Undef else Ret (Z.shiftr a b)
          | CXor => Ret (Z.lxor a b) | CIor => Ret (Z.lor a b) | CAnd_ => Ret (Z.land a b)
          | CEq => Ret (b2z (a =? b)) | CNe => Ret (b2z (negb (a =? b)))
          | CLt => Ret (b2z (a <? b)) | CLe => Ret (b2z (a <=? b))
          | CGt => Ret (b2z (b <? a)) | CGe => Ret (b2z (b <=? a))
          | CLand | CLor => Undef
          end
      | None => Undef
      end.
Proof. reflexivity. Qed.
Lemma cval_type r t e x : cval r (to_type t e x) = if same_type (sty e) t then cval r x
  else if is_int t then cval r x else (v <- cval r x ;; Undef).
Proof.
  unfold to_type. destruct (same_type (sty e) t); [reflexivity|]. destruct (is_int t); simpl; [|reflexivity].
  destruct (cval r x); reflexivity.
Qed.
Lemma neqz_bit v : v = 0 \/ v = 1 -> b2z (negb (v =? 0)) = v.
Proof. intros [->| ->]; reflexivity. Qed.
Lemma c_value r e : env_ok r -> cn e -> int_expr r e ->
  forall v l t, pev fits_c r e = Some (v, l, t) -> cval r (c_tree e) = Ret v.
Proof.
  intros R. induction e as [a t | o x IH | o a IHa b IHb | p IHp o b IHb | c IHc a IHa b IHb | x IH];
    intros K H v l t' E; pose proof (c_wid _ _ R K H) as W; pose proof (c_range _ _ R K H _ _ _ E) as RG;
    cbn [cn int_expr pev] in K, H, E.
  - inv E. reflexivity.
  - case_pev E x v0 l0 t0 E0. destruct H as (H & _). specialize (IH K H _ _ _ eq_refl).
    destruct (un_ok _ _ _ _) eqn:U; [|discriminate]. injection E as <- _ _.
    destruct o; cbn [c_tree cval]; rewrite ?cval_type, ?IH; cbn [c_pre find String.eqb Ascii.eqb Bool.eqb bind].
    + reflexivity.
    + apply chk_ok. rewrite (c_wid _ _ R K H). exact RG.
    + reflexivity.
    + pose proof (not_float _ _ R K H). destruct (sty x); try congruence; reflexivity.
  - destruct K as (Ka & Kb & _). destruct H as (Ha & Hb & Ho). case_pev E a va la ta Ea.
    specialize (IHa Ka Ha _ _ _ eq_refl).
    pose proof (not_float _ _ R Ka Ha) as Na. pose proof (not_float _ _ R Kb Hb) as Nb.
    pose proof (wid_ge a) as Wa. pose proof (wid_ge b) as Wb.
    pose proof (c_range _ _ R Ka Ha _ _ _ Ea) as Ra.
    assert (Ra': in_range 64 va) by (eapply range_weaken; [| |exact Ra]; lia).
    destruct (_ && negb (eager fits_c)) eqn:S in E.
    { cbn [fits_c eager negb] in S. rewrite andb_true_r in S.
      destruct o; try discriminate; injection E as <- _ _; destruct Ho as (Ho & _);
        cbn [c_tree]; rewrite cval_In; cbn [c_op find String.eqb Ascii.eqb Bool.eqb]; rewrite IHa; cbn [bind].
      - rewrite S. apply Z.eqb_eq in S. subst. reflexivity.
      - apply negb_true_iff in S. rewrite S. apply Z.eqb_neq in S.
        destruct (bool_value _ _ _ R (cn_chains _ Ka) Ha Ho _ _ _ Ea); subst; [contradiction|reflexivity]. }
    cbn [fits_c eager negb] in S. rewrite andb_true_r in S.
    case_pev E b vb lb tb Eb. specialize (IHb Kb Hb _ _ _ eq_refl).
    pose proof (c_range _ _ R Kb Hb _ _ _ Eb) as Rb.
    assert (Rb': in_range 64 vb) by (eapply range_weaken; [| |exact Rb]; lia).
    set (e := SBin o a b) in *.
    destruct o; try contradiction;
      try (destruct (py_bin _ va vb) as [w|] eqn:P; [|discriminate E];
           destruct (bin_ok _ _ _ _ _ _) eqn:B; [|discriminate E]; injection E as <- _ _).
    all: try (unfold e in W |- *; cbn [c_tree] in W |- *; rewrite cval_In, W;
              cbn [c_op find String.eqb Ascii.eqb Bool.eqb]; rewrite IHa, IHb; cbn [bind]; cbv zeta;
              inv P; first [apply chk_ok; exact RG|reflexivity]).
    + (* Mod *) unfold e. cbn [c_tree sty]. assert (is_int (tadd (sty a) (sty b)) = true) as ->
        by (destruct (sty a), (sty b); try congruence; reflexivity).
      cbn [cval]. rewrite IHa, IHb. cbn [bind]. cbn [String.eqb Ascii.eqb Bool.eqb].
      simpl in P. destruct (Z.eqb_spec vb 0); [discriminate|]. inv P.
      apply c_modulo_ok; auto; [|apply py_mod_mod; auto].
      simpl in B. intros (A1 & A2). subst. apply negb_true_iff in B. rewrite !Z.eqb_refl in B. discriminate.
    + (* FloorDiv *) unfold e. cbn [c_tree].
      assert (negb (is_float (sty a)) && negb (is_float (sty b)) = true) as ->
        by (destruct (sty a), (sty b); try congruence; reflexivity).
      cbn [cval]. rewrite IHa, IHb. cbn [bind]. cbn [String.eqb Ascii.eqb Bool.eqb].
      simpl in P. destruct (Z.eqb_spec vb 0); [discriminate|]. inv P.
      apply c_floor_div_ok; auto; [lia|apply py_floordiv_div; auto].
    + (* LSh *) unfold e in W |- *. cbn [c_tree] in W |- *. rewrite cval_In, W.
      cbn [c_op find String.eqb Ascii.eqb Bool.eqb].
      assert (T: sty (SBin LSh a b) = TInt) by (simpl; destruct (sty a), (sty b); try congruence; reflexivity).
      rewrite !cval_type, T, IHa, IHb. cbn [is_int].
      assert (Q: forall (c : bool) (A : Type) (x : A), (if c then x else x) = x) by (intros []; auto). rewrite !Q.
      cbn [bind]. cbv zeta.
      simpl in P. destruct (Z.ltb_spec vb 0); [discriminate|]. inv P.
      unfold bin_ok in B. cbn [check width fits_c negb orb] in B. rewrite !andb_true_iff in B. destruct B as ((B1 & B2) & B3).
      apply Z.leb_le in B1. apply Z.ltb_lt in B2.
      destruct (Z.ltb_spec va 0); [lia|]. unfold e in B2.
      destruct (Z.leb_spec (wid (SBin LSh a b)) vb); [lia|]. cbn [orb].
      apply chk_ok. exact RG.
    + (* RSh *) unfold e in W |- *. cbn [c_tree] in W |- *. rewrite cval_In, W.
      cbn [c_op find String.eqb Ascii.eqb Bool.eqb].
      assert (T: sty (SBin RSh a b) = TInt) by (simpl; destruct (sty a), (sty b); try congruence; reflexivity).
      rewrite !cval_type, T, IHa, IHb. cbn [is_int].
      assert (Q: forall (c : bool) (A : Type) (x : A), (if c then x else x) = x) by (intros []; auto). rewrite !Q.
      cbn [bind]. cbv zeta.
      simpl in P. destruct (Z.ltb_spec vb 0); [discriminate|]. inv P.
      unfold bin_ok in B. cbn [check width fits_c negb orb] in B. apply Z.ltb_lt in B. unfold e in B.
      destruct (Z.leb_spec (wid (SBin RSh a b)) vb); [lia|]. reflexivity.
    + (* BXor *) unfold e. cbn [c_tree sty].
      destruct (is_bool (tand (sty a) (sty b))) eqn:T.
      * apply is_bool_ok, tand_bool in T. destruct T as (T1 & T2).
        rewrite cval_In. cbn [c_op find String.eqb Ascii.eqb Bool.eqb]. rewrite IHa, IHb. cbn [bind].
        inv P. destruct (bool_value _ _ _ R (cn_chains _ Ka) Ha T1 _ _ _ Ea), (bool_value _ _ _ R (cn_chains _ Kb) Hb T2 _ _ _ Eb);
          subst; reflexivity.
      * assert (TT: tand (sty a) (sty b) = TInt) by (destruct (sty a), (sty b); simpl in *; congruence).
        rewrite cval_In. cbn [c_op find String.eqb Ascii.eqb Bool.eqb].
        rewrite !cval_type, TT, IHa, IHb. cbn [is_int].
        assert (Q: forall (c : bool) (A : Type) (x : A), (if c then x else x) = x) by (intros []; auto). rewrite !Q.
        cbn [bind]. inv P. reflexivity.
    + (* BOr *) unfold e. cbn [c_tree sty].
      destruct (is_bool (tand (sty a) (sty b))) eqn:T.
      * apply is_bool_ok in T. rewrite T. apply tand_bool in T. destruct T as (T1 & T2).
        rewrite cval_In. cbn [c_op find String.eqb Ascii.eqb Bool.eqb]. rewrite !cval_type, T1, T2, IHa, IHb. cbn.
        inv P. destruct (bool_value _ _ _ R (cn_chains _ Ka) Ha T1 _ _ _ Ea), (bool_value _ _ _ R (cn_chains _ Kb) Hb T2 _ _ _ Eb);
          subst; reflexivity.
      * assert (TT: tand (sty a) (sty b) = TInt) by (destruct (sty a), (sty b); simpl in *; congruence).
        rewrite cval_In. cbn [c_op find String.eqb Ascii.eqb Bool.eqb].
        rewrite !cval_type, TT, IHa, IHb. cbn [is_int].
        assert (Q: forall (c : bool) (A : Type) (x : A), (if c then x else x) = x) by (intros []; auto). rewrite !Q.
        cbn [bind]. inv P. reflexivity.
    + (* BAnd *) unfold e. cbn [c_tree sty].
      destruct (is_bool (tand (sty a) (sty b))) eqn:T.
      * apply is_bool_ok in T. rewrite T. apply tand_bool in T. destruct T as (T1 & T2).
        rewrite cval_In. cbn [c_op find String.eqb Ascii.eqb Bool.eqb]. rewrite !cval_type, T1, T2, IHa, IHb. cbn.
        inv P. destruct (bool_value _ _ _ R (cn_chains _ Ka) Ha T1 _ _ _ Ea), (bool_value _ _ _ R (cn_chains _ Kb) Hb T2 _ _ _ Eb);
          subst; reflexivity.
      * assert (TT: tand (sty a) (sty b) = TInt) by (destruct (sty a), (sty b); simpl in *; congruence).
        rewrite cval_In. cbn [c_op find String.eqb Ascii.eqb Bool.eqb].
        rewrite !cval_type, TT, IHa, IHb. cbn [is_int].
        assert (Q: forall (c : bool) (A : Type) (x : A), (if c then x else x) = x) by (intros []; auto). rewrite !Q.
        cbn [bind]. inv P. reflexivity.
    + (* And *) unfold e. cbn [c_tree]. rewrite cval_In. cbn [c_op find String.eqb Ascii.eqb Bool.eqb]. rewrite IHa, IHb. cbn [bind].
      rewrite S in *. injection E as <- _ _. rewrite neqz_bit; auto.
      destruct Ho as (_ & Ho). exact (bool_value _ _ _ R (cn_chains _ Kb) Hb Ho _ _ _ Eb).
    + (* Or *) unfold e. cbn [c_tree]. rewrite cval_In. cbn [c_op find String.eqb Ascii.eqb Bool.eqb]. rewrite IHa, IHb. cbn [bind].
      rewrite S in E. apply negb_false_iff in S. rewrite S. injection E as <- _ _. rewrite neqz_bit; auto.
      destruct Ho as (_ & Ho). exact (bool_value _ _ _ R (cn_chains _ Kb) Hb Ho _ _ _ Eb).
  - contradiction.
  - destruct K as (Kc & Ka & Kb). destruct H as (Hc & Ha & Hb). case_pev E c vc lc tc Ec.
    cbn [c_tree cval]. rewrite (IHc Kc Hc _ _ _ eq_refl). cbn [bind]. cbn [fits_c eager] in E.
    destruct (vc =? 0).
    + case_pev E b vb lb tb Eb. injection E as <- _ _. eauto.
    + case_pev E a va la ta Ea. injection E as <- _ _. eauto.
  - case_pev E x v0 l0 t0 E0. injection E as <- _ _. cbn [c_tree].
    rewrite cval_In. cbn [c_op find String.eqb Ascii.eqb Bool.eqb].
    rewrite (IH K H _ _ _ eq_refl). cbn [cval bind]. destruct R as (_ & _ & (_ & -> & _) & _). reflexivity.
Qed.

(* ---- the canonical form of an expression ---- *)
Lemma sty_join_and a b : sty (join And a b) = TBool.
Proof. induction b as [| | o b1 IH1 b2 IH2 | | |]; try reflexivity. destruct o; reflexivity. Qed.
Lemma sty_join_or a b : sty (join Or a b) = TBool.
Proof. induction b as [| | o b1 IH1 b2 IH2 | | |]; try reflexivity. destruct o; reflexivity. Qed.
Lemma sty_canon e : chains_ok e -> sty (canon e) = sty e.
Proof.
  induction e as [a t | o x IH | o a IHa b IHb | p IHp o b IHb | c IHc a IHa b IHb | x IH];
    cbn [chains_ok]; intros H; try reflexivity.
  - cbn [canon sty]. rewrite IH; auto.
  - destruct H as (Ha & Hb). specialize (IHa Ha). specialize (IHb Hb).
    destruct o; cbn [canon]; rewrite ?sty_join_and, ?sty_join_or; cbn [sty]; rewrite ?IHa, ?IHb; reflexivity.
  - cbn [canon]. rewrite sty_join_and. reflexivity.
  - destruct H as (Hc & Ha & Hb). cbn [canon sty]. rewrite IHa, IHb; auto.
Qed.
Lemma wid_join_and a b : wid (join And a b) = 32.
Proof. induction b as [| | o b1 IH1 b2 IH2 | | |]; try reflexivity. destruct o; reflexivity. Qed.
Lemma wid_join_or a b : wid (join Or a b) = 32.
Proof. induction b as [| | o b1 IH1 b2 IH2 | | |]; try reflexivity. destruct o; reflexivity. Qed.
Lemma wid_canon e : chains_ok e -> wid (canon e) = wid e.
Proof.
  induction e as [a t | o x IH | o a IHa b IHb | p IHp o b IHb | c IHc a IHa b IHb | x IH];
    cbn [chains_ok]; intros H; try reflexivity.
  - cbn [canon wid]. rewrite IH, ?sty_canon; auto.
  - destruct H as (Ha & Hb). specialize (IHa Ha). specialize (IHb Hb).
    destruct o; cbn [canon]; rewrite ?wid_join_and, ?wid_join_or; cbn [wid]; rewrite ?IHa, ?IHb, ?sty_canon; auto.
  - cbn [canon]. rewrite wid_join_and. reflexivity.
  - destruct H as (Hc & Ha & Hb). cbn [canon wid]. rewrite IHa, IHb; auto.
Qed.
Lemma boolean_bool e : sty e = TBool -> boolean e = e.
Proof. intros H. unfold boolean. rewrite H. reflexivity. Qed.
Lemma pev_join_and m r a b : pev m r (join And a b) = pev m r (SBin And a b).
Proof.
  revert a. induction b as [| | o b1 IH1 b2 IH2 | | |]; intros a0; try reflexivity. destruct o; try reflexivity.
  change (join And a0 (SBin And b1 b2)) with (SBin And (join And a0 b1) b2).
  transitivity (pev m r (SBin And (SBin And a0 b1) b2)); [cbn [pev]; rewrite IH1; reflexivity|].
  cbn [pev]. destruct (pev m r a0) as [[[va la] ta]|]; [|reflexivity].
  destruct (va =? 0) eqn:A, (eager m); cbn [negb andb].
  - destruct (pev m r b1) as [[[v1 l1] t1]|]; [|reflexivity]. rewrite !andb_false_r.
    destruct (pev m r b2) as [[[v2 l2] t2]|]; [|reflexivity]. rewrite A, app_assoc. reflexivity.
  - rewrite A. reflexivity.
  - destruct (pev m r b1) as [[[v1 l1] t1]|]; [|reflexivity]. rewrite !andb_false_r.
    destruct (pev m r b2) as [[[v2 l2] t2]|]; [|reflexivity]. rewrite app_assoc. reflexivity.
  - destruct (pev m r b1) as [[[v1 l1] t1]|]; [|reflexivity]. rewrite !andb_true_r.
    destruct (v1 =? 0); [reflexivity|].
    destruct (pev m r b2) as [[[v2 l2] t2]|]; [|reflexivity]. rewrite app_assoc. reflexivity.
Qed.
Lemma pev_join_or m r a b : pev m r (join Or a b) = pev m r (SBin Or a b).
Proof.
  revert a. induction b as [| | o b1 IH1 b2 IH2 | | |]; intros a0; try reflexivity. destruct o; try reflexivity.
  change (join Or a0 (SBin Or b1 b2)) with (SBin Or (join Or a0 b1) b2).
  transitivity (pev m r (SBin Or (SBin Or a0 b1) b2)); [cbn [pev]; rewrite IH1; reflexivity|].
  cbn [pev]. destruct (pev m r a0) as [[[va la] ta]|]; [|reflexivity].
  destruct (va =? 0) eqn:A, (eager m); cbn [negb andb].
  - destruct (pev m r b1) as [[[v1 l1] t1]|]; [|reflexivity]. rewrite !andb_false_r.
    destruct (pev m r b2) as [[[v2 l2] t2]|]; [|reflexivity]. rewrite app_assoc. reflexivity.
  - destruct (pev m r b1) as [[[v1 l1] t1]|]; [|reflexivity]. rewrite !andb_true_r.
    destruct (v1 =? 0); cbn [negb]; [|reflexivity].
    destruct (pev m r b2) as [[[v2 l2] t2]|]; [|reflexivity]. rewrite app_assoc. reflexivity.
  - destruct (pev m r b1) as [[[v1 l1] t1]|]; [|reflexivity]. rewrite !andb_false_r.
    destruct (pev m r b2) as [[[v2 l2] t2]|]; [|reflexivity]. rewrite A, app_assoc. reflexivity.
  - rewrite A. reflexivity.
Qed.
Lemma int_join_and r a b : int_expr r a -> sty a = TBool -> int_expr r b -> sty b = TBool -> int_expr r (join And a b).
Proof.
  intros Ha Ta. revert a Ha Ta. induction b as [| | o b1 IH1 b2 IH2 | | |]; intros a0 Ha Ta Hb Tb;
    try exact (conj Ha (conj Hb (conj Ta Tb))). destruct o; try exact (conj Ha (conj Hb (conj Ta Tb))).
  destruct Hb as (H1 & H2 & T1 & T2). cbn [join int_expr].
  split; [apply IH1; auto|]. split; [auto|]. split; [apply sty_join_and|auto].
Qed.
Lemma int_join_or r a b : int_expr r a -> sty a = TBool -> int_expr r b -> sty b = TBool -> int_expr r (join Or a b).
Proof.
  intros Ha Ta. revert a Ha Ta. induction b as [| | o b1 IH1 b2 IH2 | | |]; intros a0 Ha Ta Hb Tb;
    try exact (conj Ha (conj Hb (conj Ta Tb))). destruct o; try exact (conj Ha (conj Hb (conj Ta Tb))).
  destruct Hb as (H1 & H2 & T1 & T2). cbn [join int_expr].
  split; [apply IH1; auto|]. split; [auto|]. split; [apply sty_join_or|auto].
Qed.
Lemma canon_int r e : chains_ok e -> int_expr r e -> int_expr r (canon e) /\
  match last_of e with Some x => int_expr r (canon x) | None => True end.
Proof.
  induction e as [a t | o x IH | o a IHa b IHb | p IHp o b IHb | c IHc a IHa b IHb | x IH];
    cbn [chains_ok int_expr last_of]; intros K H.
  - simpl. auto.
  - cbn [canon int_expr]. rewrite sty_canon by auto. split; [|exact I]. split; [apply IH; tauto|tauto].
  - destruct K as (Ka & Kb). destruct H as (Ha & Hb & Ho).
    destruct (IHa Ka Ha) as (Ia & _). destruct (IHb Kb Hb) as (Ib & _). split; [|auto].
    destruct o; cbn [canon int_expr]; rewrite ?sty_canon by auto; try tauto.
    + rewrite !boolean_bool by (rewrite sty_canon; tauto). apply int_join_and; rewrite ?sty_canon; tauto.
    + rewrite !boolean_bool by (rewrite sty_canon; tauto). apply int_join_or; rewrite ?sty_canon; tauto.
  - destruct K as (Kp & Kb & Ko & Kc). destruct H as (Hp & Hb & N1 & N2 & N3).
    destruct (IHp Kp Hp) as (Ip & Il). destruct (IHb Kb Hb) as (Ib & _). split; [|auto].
    assert (Tp: sty p = TBool) by (destruct p as [| | [] | | |]; try contradiction; try discriminate; reflexivity).
    cbn [canon]. apply int_join_and; rewrite ?sty_canon by auto; auto.
    + cbn [int_expr]. split.
      * destruct p as [| | | | |]; try contradiction; exact Il.
      * split; [auto|]. destruct o; try discriminate; try congruence; exact I.
    + destruct o; try discriminate; reflexivity.
  - destruct K as (Kc & Ka & Kb). destruct H as (Hc & Ha & Hb). cbn [canon int_expr].
    split; [|exact I]. repeat split; [apply IHc|apply IHa|apply IHb]; auto.
  - cbn [canon int_expr]. split; [|exact I]. apply IH; auto.
Qed.
Lemma silent_calls r e : silent r e -> calls_ok r e.
Proof.
  induction e as [a t | o x IH | o a IHa b IHb | p IHp o b IHb | c IHc a IHa b IHb | x IH]; simpl; try tauto.
  - intros (Ha & Hb). destruct o; tauto.
  - intros (Ha & Hb). split; [tauto|]. split; [tauto|]. destruct p; simpl in *; tauto.
Qed.
Lemma silent_trace m r e v l t : silent r e -> pev m r e = Some (v, l, t) -> t = [].
Proof.
  revert v l t. induction e as [a t | o x IH | o a IHa b IHb | p IHp o b IHb | c IHc a IHa b IHb | x IH];
    cbn [silent pev]; intros v l t' S E.
  - inv E. unfold events. rewrite S. reflexivity.
  - case_pev E x v0 l0 t0 E0. destruct (un_ok _ _ _ _); [|discriminate]. inv E. eauto.
  - destruct S as (Sa & Sb). case_pev E a va la ta Ea. specialize (IHa _ _ _ Sa eq_refl). subst ta.
    destruct (_ && negb (eager m)); [inv E; auto|]. case_pev E b vb lb tb Eb. specialize (IHb _ _ _ Sb eq_refl). subst tb.
    destruct o; try (inv E; reflexivity);
      (destruct (py_bin _ va vb); [|discriminate]); (destruct (bin_ok _ _ _ _ _ _); [|discriminate]); inv E; reflexivity.
  - destruct S as (Sa & Sb). case_pev E p va la ta Ea. specialize (IHp _ _ _ Sa eq_refl). subst ta.
    destruct (_ && negb (eager m)); [inv E; auto|]. case_pev E b vb lb tb Eb. specialize (IHb _ _ _ Sb eq_refl). subst tb.
    destruct (py_bin _ la vb); [|discriminate]. inv E. reflexivity.
  - destruct S as (Sc & Sa & Sb). case_pev E c vc lc tc Ec. specialize (IHc _ _ _ Sc eq_refl). subst tc.
    destruct (eager m).
    + case_pev E a va la ta Ea. case_pev E b vb lb tb Eb. specialize (IHa _ _ _ Sa eq_refl). specialize (IHb _ _ _ Sb eq_refl).
      subst. inv E. reflexivity.
    + destruct (vc =? 0).
      * case_pev E b vb lb tb Eb. specialize (IHb _ _ _ Sb eq_refl). inv E. reflexivity.
      * case_pev E a va la ta Ea. specialize (IHa _ _ _ Sa eq_refl). inv E. reflexivity.
  - case_pev E x v0 l0 t0 E0. inv E. eauto.
Qed.
Definition last_value (m : mode) (r : env) (x : se) (l : Z) : Prop :=
  exists l' t', pev m r (canon x) = Some (l, l', t') /\ (silent r x -> t' = []).
Lemma cmp_ok m e o a b v : is_cmp_op o = true -> bin_ok m e o a b v = true.
Proof. unfold bin_ok. destruct o; try discriminate; intros _; apply orb_true_r. Qed.
Lemma canon_pev m r e : (forall x, chains_ok x -> width m (canon x) = width m x) ->
  chains_ok e -> int_expr r e ->
  forall v l t, pev m r e = Some (v, l, t) ->
  (exists l' t', pev m r (canon e) = Some (v, l', t') /\ (calls_ok r e -> t' = t)) /\
  match e with
  | SBin o _ x => is_cmp_op o = true -> last_value m r x l
  | SMore _ _ x => (v <> 0 \/ eager m = true) -> last_value m r x l
  | _ => True
  end.
Proof.
  intros HW. induction e as [a t | o x IH | o a IHa b IHb | p IHp o b IHb | c IHc a IHa b IHb | x IH];
    intros K H v l t' E.
  - split; [|exact I]. exists l, t'. auto.
  - split; [|exact I]. pose proof (HW _ K) as W. cbn [canon] in W.
    cbn [chains_ok int_expr pev] in K, H, E. case_pev E x v0 l0 t0 E0.
    destruct (un_ok _ _ _ _) eqn:U; [|discriminate]. inv E.
    destruct (IH K (proj1 H) _ _ _ eq_refl) as ((l1 & t1 & P1 & P2) & _).
    exists (py_un o v0), t1. split; [|exact P2]. cbn [canon pev]. rewrite P1.
    assert (un_ok m (SUn o (canon x)) o (py_un o v0) = true) as ->; [|reflexivity].
    unfold un_ok in *. rewrite W. exact U.
  - pose proof (HW _ K) as W. cbn [chains_ok int_expr pev] in K, H, E.
    destruct K as (Ka & Kb). destruct H as (Ha & Hb & Ho). case_pev E a va la ta Ea.
    destruct (IHa Ka Ha _ _ _ eq_refl) as ((la' & ta' & Pa & Qa) & _). clear IHa.
    destruct (_ && negb (eager m)) eqn:S in E.
    { split; [|destruct o; discriminate]. injection E as <- <- <-.
      destruct o; try discriminate; cbn [canon]; rewrite !boolean_bool by (rewrite sty_canon; tauto);
        rewrite ?pev_join_and, ?pev_join_or; cbn [pev]; rewrite Pa, S; exists va, ta';
        (split; [reflexivity|]); intros (C & _); auto. }
    case_pev E b vb lb tb Eb. destruct (IHb Kb Hb _ _ _ eq_refl) as ((lb' & tb' & Pb & Qb) & _). clear IHb.
    split.
    + destruct o; try contradiction;
      try (destruct (py_bin _ va vb) as [w|] eqn:P; [|discriminate E];
           destruct (bin_ok _ _ _ _ _ _) eqn:B; [|discriminate E]; injection E as <- <- <-;
           cbn [canon] in W |- *; cbn [pev]; rewrite Pa, S, Pb, P;
           unfold bin_ok in B |- *; rewrite ?W, B; do 2 eexists; (split; [reflexivity|]);
           intros (C1 & C2 & _); rewrite Qa, Qb; auto);
      cbn [canon]; rewrite !boolean_bool by (rewrite sty_canon; tauto);
      rewrite ?pev_join_and, ?pev_join_or; cbn [pev]; rewrite Pa, S, Pb; injection E as <- <- <-;
      do 2 eexists; (split; [reflexivity|]); intros (C1 & C2 & _); rewrite Qa, Qb; auto.
    + intros C. assert (l = vb).
      { destruct o; try discriminate; (destruct (py_bin _ va vb) as [w|] eqn:P; [|discriminate E]);
          (destruct (bin_ok _ _ _ _ _ _) eqn:B; [|discriminate E]); injection E as <- <- <-; reflexivity. }
      subst l. exists lb', tb'. split; [exact Pb|]. intros Sb. rewrite Qb by (apply silent_calls; auto).
      eapply silent_trace; eauto.
  - cbn [chains_ok int_expr pev] in K, H, E. destruct K as (Kp & Kb & Ko & Kc). destruct H as (Hp & Hb & N1 & N2 & N3).
    case_pev E p vp lp tp Ep. destruct (IHp Kp Hp _ _ _ eq_refl) as ((lp' & tp' & Pp & Qp) & Lp). clear IHp.
    destruct ((vp =? 0) && negb (eager m)) eqn:S.
    { injection E as <- <- <-. apply andb_true_iff in S. destruct S as (S1 & S2). apply negb_true_iff in S2.
      split; [|intros [C|C]; [congruence|rewrite C in S2; discriminate]].
      cbn [canon]. rewrite pev_join_and. cbn [pev]. rewrite Pp, S1, S2. cbn [negb andb].
      apply Z.eqb_eq in S1. subst. do 2 eexists. split; [reflexivity|]. intros (C & _). auto. }
    case_pev E b vb lb tb Eb. destruct (IHb Kb Hb _ _ _ eq_refl) as ((lb' & tb' & Pb & Qb) & _). clear IHb.
    destruct (py_bin o lp vb) as [w|] eqn:P; [|discriminate]. injection E as <- <- <-.
    split; [|intros _; exists lb', tb'; split; [exact Pb|]; intros Sb; rewrite Qb by (apply silent_calls; auto);
             eapply silent_trace; eauto].
    assert (L: exists x, last_of p = Some x /\ last_value m r x lp).
    { assert (D: vp <> 0 \/ eager m = true).
      { destruct (Z.eqb_spec vp 0); [|auto]. right. apply negb_false_iff. exact S. }
      destruct p as [| | o' p1 p2 | p1 o' p2 | |]; try contradiction; eexists; (split; [reflexivity|]);
        [apply Lp; exact Kc|apply Lp; exact D]. }
    destruct L as (x & Lx & lx & tx & Px & Qx).
    assert (CX: canon (SMore p o b) = join And (canon p) (SBin o (canon x) (canon b)))
      by (destruct p as [| | | | |]; try contradiction; injection Lx as <-; reflexivity).
    rewrite CX, pev_join_and. cbn [pev]. rewrite Pp, S, Px.
    assert (SS: (match o with And => lp =? 0 | Or => negb (lp =? 0) | _ => false end) && negb (eager m) = false)
      by (destruct o; try discriminate; reflexivity).
    rewrite SS, Pb.
    assert (G: pev m r (SBin o (canon x) (canon b)) = Some (w, vb, (tx ++ tb')%list)).
    { cbn [pev]. rewrite Px, SS, Pb, P, cmp_ok by auto. destruct o; try discriminate; reflexivity. }
    cbn [pev] in G. rewrite Px, SS, Pb in G. rewrite G.
    exists (if vp =? 0 then 0 else w), (tp' ++ tx ++ tb')%list.
    split; [destruct (Z.eqb_spec vp 0); [subst vp|]; reflexivity|].
    cbn [calls_ok]. intros (C1 & C2 & C3). rewrite Qp, Qb, Qx; auto.
    destruct p as [| | | | |]; try contradiction; injection Lx as <-; exact C3.
  - split; [|exact I]. cbn [chains_ok int_expr pev] in K, H, E.
    destruct K as (Kc & Ka & Kb). destruct H as (Hc & Ha & Hb). case_pev E c vc lc tc Ec.
    destruct (IHc Kc Hc _ _ _ eq_refl) as ((lc' & tc' & Pc & Qc) & _). clear IHc.
    cbn [canon pev]. rewrite Pc. destruct (eager m).
    + case_pev E a va la ta Ea. case_pev E b vb lb tb Eb. injection E as <- <- <-.
      destruct (IHa Ka Ha _ _ _ eq_refl) as ((la' & ta' & Pa & Qa) & _).
      destruct (IHb Kb Hb _ _ _ eq_refl) as ((lb' & tb' & Pb & Qb) & _). rewrite Pa, Pb. do 2 eexists.
      split; [reflexivity|]. intros (C1 & C2 & C3). rewrite Qc, Qa, Qb; auto.
    + destruct (vc =? 0).
      * case_pev E b vb lb tb Eb. injection E as <- <- <-.
        destruct (IHb Kb Hb _ _ _ eq_refl) as ((lb' & tb' & Pb & Qb) & _). rewrite Pb. do 2 eexists.
        split; [reflexivity|]. intros (C1 & C2 & C3). rewrite Qc, Qb; auto.
      * case_pev E a va la ta Ea. injection E as <- <- <-.
        destruct (IHa Ka Ha _ _ _ eq_refl) as ((la' & ta' & Pa & Qa) & _). rewrite Pa. do 2 eexists.
        split; [reflexivity|]. intros (C1 & C2 & C3). rewrite Qc, Qa; auto.
  - split; [|exact I]. cbn [chains_ok int_expr pev] in K, H, E. case_pev E x v0 l0 t0 E0. injection E as <- <- <-.
    destruct (IH K H _ _ _ eq_refl) as ((l1 & t1 & P1 & P2) & _). cbn [canon pev]. rewrite P1. do 2 eexists.
    split; [reflexivity|exact P2].
Qed.

(* ---- C: the text ---- *)
Lemma cwid_strip r t : cwid r (strip t) = cwid r t.
Proof. induction t; simpl; rewrite ?IHt, ?IHt1, ?IHt2, ?IHt3; reflexivity. Qed.
Lemma cval_strip r t : cval r (strip t) = cval r t.
Proof.
  induction t; cbn [strip cval]; rewrite ?IHt, ?IHt1, ?IHt2, ?IHt3, ?cwid_strip; try reflexivity.
  change (In o (strip t1) (strip t2)) with (strip (In o t1 t2)). rewrite cwid_strip. reflexivity.
Qed.
Lemma fits_exact r e : forall v l t, pev fits_c r e = Some (v, l, t) -> pev python r e = Some (v, l, t).
Proof.
  induction e as [a t | o x IH | o a IHa b IHb | p IHp o b IHb | c IHc a IHa b IHb | x IH];
    cbn [pev]; intros v l t' E.
  - auto.
  - case_pev E x v0 l0 t0 E0. rewrite (IH _ _ _ eq_refl). destruct (un_ok fits_c _ _ _); [|discriminate].
    destruct o; exact E.
  - case_pev E a va la ta Ea. rewrite (IHa _ _ _ eq_refl). cbn [eager fits_c python] in *.
    destruct (_ && negb false); [exact E|]. case_pev E b vb lb tb Eb. rewrite (IHb _ _ _ eq_refl).
    destruct o; try exact E; (destruct (py_bin _ va vb); [|discriminate]); (destruct (bin_ok fits_c _ _ _ _ _); [|discriminate]); exact E.
  - case_pev E p va la ta Ea. rewrite (IHp _ _ _ eq_refl). cbn [eager fits_c python] in *.
    destruct (_ && negb false); [exact E|]. case_pev E b vb lb tb Eb. rewrite (IHb _ _ _ eq_refl). exact E.
  - case_pev E c vc lc tc Ec. rewrite (IHc _ _ _ eq_refl). cbn [eager fits_c python] in *. destruct (vc =? 0).
    + case_pev E b vb lb tb Eb. rewrite (IHb _ _ _ eq_refl). exact E.
    + case_pev E a va la ta Ea. rewrite (IHa _ _ _ eq_refl). exact E.
  - case_pev E x v0 l0 t0 E0. rewrite (IH _ _ _ eq_refl). exact E.
Qed.
Lemma c_text_value r e v calls : env_ok r -> chains_ok e -> c_safe (canon e) -> int_expr r e ->
  py_value_c r e v calls ->
  py_value r e v calls /\
  exists t, read c_lang (words (c_print (build e))) = Some t /\ cval r t = Ret v /\ c_store (sty e) v = v.
Proof.
  intros R K S H (l & E). split; [exists l; apply fits_exact; auto|].
  destruct (c_roundtrip e K S) as (t & Rd & St). exists t. split; [auto|].
  destruct (build_bld e K) as (CN & _ & _).
  destruct (canon_int r e K H) as (HI & _).
  destruct (canon_pev fits_c r e wid_canon K H _ _ _ E) as ((l' & t' & P & _) & _).
  split.
  - rewrite <- cval_strip, St. eapply c_value; eauto.
  - unfold c_store. destruct (sty e) eqn:T; try reflexivity. cbn [is_bool]. apply neqz_bit.
    eapply (bool_value fits_c r e); eauto.
Qed.

(* ---- C: calls ---- *)
Lemma shuffle_app {A} (a b : list A) : shuffle a b (a ++ b).
Proof. induction a; simpl; [|constructor; auto]. induction b; constructor; auto. Qed.
Lemma shuffle_perm {A} (a b c : list A) : shuffle a b c -> Permutation (a ++ b) c.
Proof.
  induction 1; simpl; auto. apply Permutation_sym, Permutation_cons_app, Permutation_sym. auto.
Qed.
Lemma shuffle_nil_l {A} (b c : list A) : shuffle [] b c -> c = b.
Proof. revert c. induction b; intros c H; inv H; auto. f_equal. auto. Qed.
Lemma shuffle_nil_r {A} (a c : list A) : shuffle a [] c -> c = a.
Proof. revert c. induction a; intros c H; inv H; auto. f_equal. auto. Qed.
Lemma ctrace_strip r t : forall l, ctrace r (strip t) l <-> ctrace r t l.
Proof.
  induction t; intros l; cbn [strip ctrace]; try reflexivity; auto.
  - assert (A: (exists la lb, ctrace r (strip t1) la /\ ctrace r (strip t2) lb /\ shuffle la lb l) <->
               (exists la lb, ctrace r t1 la /\ ctrace r t2 lb /\ shuffle la lb l)).
    { split; intros (la & lb & H1 & H2 & H3); exists la, lb; rewrite ?IHt1, ?IHt2 in *; auto. }
    rewrite cval_strip.
    assert (B: (exists la, ctrace r (strip t1) la /\ (if match cval r t1 with Ret v => v =? 0 | _ => false end then l = la
                 else exists lb, ctrace r (strip t2) lb /\ l = (la ++ lb)%list)) <->
               (exists la, ctrace r t1 la /\ (if match cval r t1 with Ret v => v =? 0 | _ => false end then l = la
                 else exists lb, ctrace r t2 lb /\ l = (la ++ lb)%list))).
    { split; intros (la & H1 & H2); exists la; rewrite IHt1 in *; (split; [auto|]);
        destruct (match cval r t1 with Ret v => v =? 0 | _ => false end); auto;
        destruct H2 as (lb & H2 & H3); exists lb; rewrite IHt2 in *; auto. }
    assert (C: (exists la, ctrace r (strip t1) la /\ (if match cval r t1 with Ret v => negb (v =? 0) | _ => false end then l = la
                 else exists lb, ctrace r (strip t2) lb /\ l = (la ++ lb)%list)) <->
               (exists la, ctrace r t1 la /\ (if match cval r t1 with Ret v => negb (v =? 0) | _ => false end then l = la
                 else exists lb, ctrace r t2 lb /\ l = (la ++ lb)%list))).
    { split; intros (la & H1 & H2); exists la; rewrite IHt1 in *; (split; [auto|]);
        destruct (match cval r t1 with Ret v => negb (v =? 0) | _ => false end); auto;
        destruct H2 as (lb & H2 & H3); exists lb; rewrite IHt2 in *; auto. }
    destruct (c_op o) as [[]|]; auto.
  - split; intros (la & lb & H1 & H2 & H3); exists la, lb; rewrite ?IHt1, ?IHt2 in *; auto.
  - rewrite cval_strip. split; intros (lc & H1 & H2); exists lc; rewrite IHt1 in *; (split; [auto|]);
      destruct (match cval r t1 with Ret v => negb (v =? 0) | _ => false end);
      destruct H2 as (lb & H2 & H3); exists lb; rewrite ?IHt2, ?IHt3 in *; auto.
Qed.
Lemma ctrace_type r t e x l : ctrace r (to_type t e x) l <-> ctrace r x l.
Proof. unfold to_type. destruct (same_type _ _); simpl; reflexivity. Qed.
Definition traces (r : env) (x : txt) (one : Prop) (t : list string) : Prop :=
  ctrace r x t /\ forall t', ctrace r x t' -> Permutation t t' /\ (one -> t' = t).
Lemma traces_type r t e x one l : traces r x one l -> traces r (to_type t e x) one l.
Proof. intros (A & B). split; [apply ctrace_type; auto|]. intros t' H. apply B. apply ctrace_type in H. auto. Qed.
Lemma traces_two r (one1 one2 one : Prop) a b ta tb x :
  traces r a one1 ta -> traces r b one2 tb -> (one -> one1 /\ one2 /\ (ta = [] \/ tb = [])) ->
  (forall l, ctrace r x l <-> exists la lb, ctrace r a la /\ ctrace r b lb /\ shuffle la lb l) ->
  traces r x one (ta ++ tb)%list.
Proof.
  intros (A1 & A2) (B1 & B2) O HP. split.
  - apply HP. exists ta, tb. auto using shuffle_app.
  - intros t' H. apply HP in H. destruct H as (la & lb & H1 & H2 & H3).
    destruct (A2 _ H1) as (PA & EA). destruct (B2 _ H2) as (PB & EB). split.
    + eapply Permutation_trans; [apply Permutation_app; eauto|]. apply shuffle_perm; auto.
    + intros Ho. destruct (O Ho) as (O1 & O2 & O3). rewrite (EA O1), (EB O2) in H3. destruct O3 as [-> | ->].
      * apply shuffle_nil_l in H3. auto.
      * apply shuffle_nil_r in H3. rewrite app_nil_r. auto.
Qed.
Lemma traces_seq r (one1 one2 one : Prop) a b ta tb x :
  traces r a one1 ta -> traces r b one2 tb -> (one -> one1 /\ one2) ->
  (forall l, ctrace r x l <-> exists la, ctrace r a la /\ exists lb, ctrace r b lb /\ l = (la ++ lb)%list) ->
  traces r x one (ta ++ tb)%list.
Proof.
  intros (A1 & A2) (B1 & B2) O HP. split.
  - apply HP. eauto 10.
  - intros t' H. apply HP in H. destruct H as (la & H1 & lb & H2 & ->).
    destruct (A2 _ H1) as (PA & EA). destruct (B2 _ H2) as (PB & EB). split.
    + apply Permutation_app; auto.
    + intros Ho. destruct (O Ho) as (O1 & O2). rewrite (EA O1), (EB O2). auto.
Qed.
Lemma traces_first r (one1 one : Prop) a ta x :
  traces r a one1 ta -> (one -> one1) -> (forall l, ctrace r x l <-> exists la, ctrace r a la /\ l = la) ->
  traces r x one ta.
Proof.
  intros (A1 & A2) O HP. split; [apply HP; eauto|]. intros t' H. apply HP in H. destruct H as (la & H & ->).
  destruct (A2 _ H). auto.
Qed.
Lemma c_calls r e : env_ok r -> cn e -> int_expr r e -> calls_ok r e ->
  forall v l t, pev fits_c r e = Some (v, l, t) -> traces r (c_tree e) (one_sided r e) t.
Proof.
  intros R. induction e as [a t | o x IH | o a IHa b IHb | p IHp o b IHb | c IHc a IHa b IHb | x IH];
    cbn [cn int_expr calls_ok one_sided pev]; intros K H C v l t' E.
  - inv E. split; [reflexivity|]. simpl. intros t' ->. auto.
  - case_pev E x v0 l0 t0 E0. destruct (un_ok _ _ _ _); [|discriminate]. injection E as _ _ <-.
    specialize (IH K (proj1 H) C _ _ _ eq_refl). destruct o; cbn [c_tree]; try exact IH.
    apply (traces_type r TInt x) in IH. exact IH.
  - destruct K as (Ka & Kb & _). destruct H as (Ha & Hb & Ho). destruct C as (Ca & Cb & Co). case_pev E a va la ta Ea.
    specialize (IHa Ka Ha Ca _ _ _ eq_refl).
    pose proof (not_float _ _ R Ka Ha) as Na. pose proof (not_float _ _ R Kb Hb) as Nb.
    pose proof (c_value _ _ R Ka Ha _ _ _ Ea) as Va.
    destruct (_ && negb (eager fits_c)) eqn:S in E.
    { cbn [fits_c eager negb] in S. rewrite andb_true_r in S. injection E as _ _ <-.
      destruct o; try discriminate;
        (eapply traces_first; [exact IHa|intros O; exact (proj1 O)|]); intros q; cbn [c_tree ctrace];
        cbn [c_op find String.eqb Ascii.eqb Bool.eqb]; rewrite Va, S; reflexivity. }
    cbn [fits_c eager negb] in S. rewrite andb_true_r in S.
    case_pev E b vb lb tb Eb. specialize (IHb Kb Hb Cb _ _ _ eq_refl).
    assert (ET: t' = (ta ++ tb)%list).
    { destruct o; try (injection E as _ _ <-; reflexivity); (destruct (py_bin _ va vb); [|discriminate E]);
        (destruct (bin_ok _ _ _ _ _ _); [|discriminate E]); injection E as _ _ <-; reflexivity. }
    subst t'. clear E.
    assert (SI: silent r a \/ silent r b -> ta = [] \/ tb = []).
    { intros [Q|Q]; [left|right]; eapply silent_trace; eauto. }
    assert (TWO: forall x y z, traces r x (one_sided r a) ta -> traces r y (one_sided r b) tb ->
        (forall l, ctrace r z l <-> exists la lb, ctrace r x la /\ ctrace r y lb /\ shuffle la lb l) ->
        traces r z (one_sided r a /\ one_sided r b /\ (silent r a \/ silent r b)) (ta ++ tb)%list).
    { intros x y z T1 T2 HP. eapply traces_two; [exact T1|exact T2| |exact HP]. tauto. }
    destruct o; try contradiction;
      try (apply (TWO (c_tree a) (c_tree b)); [exact IHa|exact IHb|]; intros q; cbn [c_tree ctrace];
           cbn [c_op find String.eqb Ascii.eqb Bool.eqb]; reflexivity).
    + (* Mod *) cbn [c_tree sty].
      destruct (sty a), (sty b); try congruence; cbn [tadd is_int is_float is_bool negb andb];
        (apply (TWO (c_tree a) (c_tree b)); [exact IHa|exact IHb|intros; reflexivity]).
    + cbn [c_tree sty].
      destruct (sty a), (sty b); try congruence; cbn [tadd is_int is_float is_bool negb andb];
        (apply (TWO (c_tree a) (c_tree b)); [exact IHa|exact IHb|intros; reflexivity]).
    + cbn [c_tree]. match goal with |- traces _ (In _ ?x ?y) _ _ => apply (TWO x y) end;
        [apply traces_type, IHa|apply traces_type, IHb|intros; reflexivity].
    + cbn [c_tree]. match goal with |- traces _ (In _ ?x ?y) _ _ => apply (TWO x y) end;
        [apply traces_type, IHa|apply traces_type, IHb|intros; reflexivity].
    + cbn [c_tree]. destruct (is_bool _).
      * apply (TWO (c_tree a) (c_tree b)); [exact IHa|exact IHb|intros; reflexivity].
      * match goal with |- traces _ (In _ ?x ?y) _ _ => apply (TWO x y) end;
        [apply traces_type, IHa|apply traces_type, IHb|intros; reflexivity].
    + cbn [c_tree sty]. destruct (is_bool (tand (sty a) (sty b))) eqn:T.
      * apply is_bool_ok in T. rewrite T. apply tand_bool in T. destruct T as (T1 & T2).
        specialize (Co T1 T2). assert (tb = []) by (eapply silent_trace; eauto). subst tb.
        destruct (negb (va =? 0)) eqn:Z0.
        -- rewrite app_nil_r. match goal with |- traces _ (In _ ?x _) _ _ => apply traces_first with (one1 := one_sided r a) (a := x) end;
             [apply traces_type, IHa|intros O; apply O|].
           intros q. cbn [ctrace]; cbn [c_op find String.eqb Ascii.eqb Bool.eqb].
           rewrite cval_type, T1. cbn [same_type]. rewrite Va, Z0. reflexivity.
        -- match goal with |- traces _ (In _ ?x ?y) _ _ =>
             apply traces_seq with (one1 := one_sided r a) (one2 := one_sided r b) (a := x) (b := y) end;
             [apply traces_type, IHa|apply traces_type, IHb|intros O; split; apply O|].
           intros q. cbn [ctrace]; cbn [c_op find String.eqb Ascii.eqb Bool.eqb].
           rewrite cval_type, T1. cbn [same_type]. rewrite Va, Z0. reflexivity.
      * match goal with |- traces _ (In _ ?x ?y) _ _ => apply (TWO x y) end;
        [apply traces_type, IHa|apply traces_type, IHb|intros; reflexivity].
    + cbn [c_tree sty]. destruct (is_bool (tand (sty a) (sty b))) eqn:T.
      * apply is_bool_ok in T. rewrite T. apply tand_bool in T. destruct T as (T1 & T2).
        specialize (Co T1 T2). assert (tb = []) by (eapply silent_trace; eauto). subst tb.
        destruct (va =? 0) eqn:Z0.
        -- rewrite app_nil_r. match goal with |- traces _ (In _ ?x _) _ _ => apply traces_first with (one1 := one_sided r a) (a := x) end;
             [apply traces_type, IHa|intros O; apply O|].
           intros q. cbn [ctrace]; cbn [c_op find String.eqb Ascii.eqb Bool.eqb].
           rewrite cval_type, T1. cbn [same_type]. rewrite Va, Z0. reflexivity.
        -- match goal with |- traces _ (In _ ?x ?y) _ _ =>
             apply traces_seq with (one1 := one_sided r a) (one2 := one_sided r b) (a := x) (b := y) end;
             [apply traces_type, IHa|apply traces_type, IHb|intros O; split; apply O|].
           intros q. cbn [ctrace]; cbn [c_op find String.eqb Ascii.eqb Bool.eqb].
           rewrite cval_type, T1. cbn [same_type]. rewrite Va, Z0. reflexivity.
      * match goal with |- traces _ (In _ ?x ?y) _ _ => apply (TWO x y) end;
        [apply traces_type, IHa|apply traces_type, IHb|intros; reflexivity].
    + eapply traces_seq; [exact IHa|exact IHb|intros O; split; apply O|].
      intros q. cbn [c_tree ctrace]; cbn [c_op find String.eqb Ascii.eqb Bool.eqb]. rewrite Va, S. reflexivity.
    + eapply traces_seq; [exact IHa|exact IHb|intros O; split; apply O|].
      intros q. cbn [c_tree ctrace]; cbn [c_op find String.eqb Ascii.eqb Bool.eqb]. rewrite Va, S. reflexivity.
  - contradiction.
  - destruct K as (Kc & Ka & Kb). destruct H as (Hc & Ha & Hb). destruct C as (Cc & Ca & Cb). case_pev E c vc lc tc Ec.
    specialize (IHc Kc Hc Cc _ _ _ eq_refl). pose proof (c_value _ _ R Kc Hc _ _ _ Ec) as Vc.
    cbn [fits_c eager] in E. destruct (vc =? 0) eqn:Z0.
    + case_pev E b vb lb tb Eb. injection E as _ _ <-. specialize (IHb Kb Hb Cb _ _ _ eq_refl).
      eapply traces_seq; [exact IHc|exact IHb|intros O; split; apply O|].
      intros q. cbn [c_tree ctrace]. rewrite Vc, Z0. reflexivity.
    + case_pev E a va la ta Ea. injection E as _ _ <-. specialize (IHa Ka Ha Ca _ _ _ eq_refl).
      eapply traces_seq; [exact IHc|exact IHa|intros O; split; apply O|].
      intros q. cbn [c_tree ctrace]. rewrite Vc, Z0. reflexivity.
  - case_pev E x v0 l0 t0 E0. injection E as _ _ <-. specialize (IH K H C _ _ _ eq_refl).
    unfold traces. cbn [c_tree ctrace]; cbn [c_op find String.eqb Ascii.eqb Bool.eqb].
    destruct R as (_ & _ & (_ & _ & Z0) & _).
    destruct IH as (I1 & I2). split.
    + exists t0, []. split; [auto|]. unfold events. rewrite Z0. split; [auto|].
      rewrite <- (app_nil_r t0) at 2. apply shuffle_app.
    + intros t' (la & lb & H1 & H2 & H3). unfold events in H2. rewrite Z0 in H2. subst lb.
      apply shuffle_nil_r in H3. subst. apply I2. auto.
Qed.

Lemma join_prop (P : se -> Prop) o a b : (o = And \/ o = Or) ->
  (forall x y, P (SBin o x y) <-> P x /\ P y) -> P a -> P b -> P (join o a b).
Proof.
  intros Ho HP Ha Hb. revert a Ha. induction b as [| | o' b1 IH1 b2 IH2 | | |]; intros a0 Ha;
    try (simpl; apply HP; auto).
  simpl. destruct Ho as [-> | ->]; destruct o'; try (solve [apply HP; split; assumption]);
    (apply HP; apply HP in Hb; destruct Hb as (Hb1 & Hb2); split; [apply IH1; assumption|assumption]).
Qed.
Lemma silent_boolean r e : silent r e -> silent r (boolean e).
Proof. unfold boolean. destruct (is_bool _); auto. Qed.
Lemma last_cases p : match p with SBin o' _ _ | SMore _ o' _ => is_cmp_op o' = true | _ => False end ->
  exists x, last_of p = Some x /\ forall o b, canon (SMore p o b) = join And (canon p) (SBin o (canon x) (canon b)).
Proof. destruct p; try contradiction; intros _; eexists; split; reflexivity. Qed.
Lemma silent_canon r e : chains_ok e -> silent r e -> silent r (canon e) /\
  match last_of e with Some x => silent r (canon x) | None => True end.
Proof.
  induction e as [a t | o x IH | o a IHa b IHb | p IHp o b IHb | c IHc a IHa b IHb | x IH];
    cbn [chains_ok silent last_of]; intros K H.
  - simpl. auto.
  - split; [|exact I]. cbn [canon silent]. apply IH; auto.
  - destruct K as (Ka & Kb). destruct H as (Ha & Hb). destruct (IHa Ka Ha) as (Ia & _). destruct (IHb Kb Hb) as (Ib & _).
    split; [|exact Ib]. destruct o; cbn [canon]; try (split; assumption);
      (apply join_prop; [auto|intros; reflexivity|apply silent_boolean; auto|apply silent_boolean; auto]).
  - destruct K as (Kp & Kb & Ko & Kc). destruct H as (Hp & Hb). destruct (IHp Kp Hp) as (Ip & Il). destruct (IHb Kb Hb) as (Ib & _).
    split; [|exact Ib]. destruct (last_cases p Kc) as (x & Lx & Cx). rewrite Cx. rewrite Lx in Il.
    apply join_prop; [auto|intros; reflexivity|auto|]. split; auto.
  - destruct K as (Kc & Ka & Kb). destruct H as (Hc & Ha & Hb). cbn [canon silent]. split; [|exact I].
    split; [apply IHc; auto|]. split; [apply IHa; auto|apply IHb; auto].
  - split; [|exact I]. cbn [canon silent]. apply IH; auto.
Qed.
Lemma calls_boolean r e : calls_ok r e -> calls_ok r (boolean e).
Proof. unfold boolean. destruct (is_bool _); auto. Qed.
Lemma one_boolean r e : one_sided r e -> one_sided r (boolean e).
Proof. unfold boolean. destruct (is_bool _); auto. Qed.
Lemma calls_canon r e : chains_ok e -> calls_ok r e -> calls_ok r (canon e) /\
  match last_of e with Some x => calls_ok r (canon x) /\ (silent r x -> silent r (canon x)) | None => True end.
Proof.
  induction e as [a t | o x IH | o a IHa b IHb | p IHp o b IHb | c IHc a IHa b IHb | x IH];
    cbn [chains_ok calls_ok last_of]; intros K H.
  - simpl. auto.
  - split; [|exact I]. cbn [canon calls_ok]. apply IH; auto.
  - destruct K as (Ka & Kb). destruct H as (Ha & Hb & Ho). destruct (IHa Ka Ha) as (Ia & _). destruct (IHb Kb Hb) as (Ib & _).
    split; [|split; [exact Ib|apply silent_canon; auto]].
    destruct o; cbn [canon calls_ok]; rewrite ?sty_canon by auto; try (repeat split; auto; fail);
      try (split; [auto|split; [auto|]]; intros T1 T2; apply silent_canon; auto; fail);
      (apply join_prop; [auto|intros; simpl; tauto|apply calls_boolean; auto|apply calls_boolean; auto]).
  - destruct K as (Kp & Kb & Ko & Kc). destruct H as (Hp & Hb & Hl). destruct (IHp Kp Hp) as (Ip & Il). destruct (IHb Kb Hb) as (Ib & _).
    split; [|split; [exact Ib|apply silent_canon; auto]]. destruct (last_cases p Kc) as (x & Lx & Cx). rewrite Cx. rewrite Lx in Il.
    apply join_prop; [auto|intros; simpl; tauto|auto|]. cbn [calls_ok].
    split; [tauto|]. split; [auto|]. destruct o; try discriminate; exact I.
  - destruct K as (Kc & Ka & Kb). destruct H as (Hc & Ha & Hb). cbn [canon calls_ok]. split; [|exact I].
    split; [apply IHc; auto|]. split; [apply IHa; auto|apply IHb; auto].
  - split; [|exact I]. cbn [canon calls_ok]. apply IH; auto.
Qed.
Lemma one_canon r e : chains_ok e -> calls_ok r e -> one_sided r e -> one_sided r (canon e) /\
  match last_of e with Some x => one_sided r (canon x) | None => True end.
Proof.
  induction e as [a t | o x IH | o a IHa b IHb | p IHp o b IHb | c IHc a IHa b IHb | x IH];
    cbn [chains_ok calls_ok one_sided last_of]; intros K C H.
  - simpl. auto.
  - split; [|exact I]. cbn [canon one_sided]. apply IH; auto.
  - destruct K as (Ka & Kb). destruct C as (Ca & Cb & _). destruct H as (Ha & Hb & Ho).
    destruct (IHa Ka Ca Ha) as (Ia & _). destruct (IHb Kb Cb Hb) as (Ib & _).
    split; [|exact Ib].
    assert (Q: silent r a \/ silent r b -> silent r (canon a) \/ silent r (canon b))
      by (intros [S|S]; [left|right]; apply silent_canon; auto).
    destruct o; cbn [canon one_sided]; try (split; [auto|split; [auto|auto]]; fail);
      (apply join_prop; [auto|intros; simpl; tauto|apply one_boolean; auto|apply one_boolean; auto]).
  - destruct K as (Kp & Kb & Ko & Kc). destruct C as (Cp & Cb & Cl). destruct H as (Hp & Hb).
    destruct (IHp Kp Cp Hp) as (Ip & Il). destruct (IHb Kb Cb Hb) as (Ib & _).
    split; [|exact Ib].
    assert (KX: forall x, last_of p = Some x -> chains_ok x)
      by (intros x Q; destruct p; try discriminate; injection Q as <-; cbn [chains_ok] in Kp; tauto).
    destruct (last_cases p Kc) as (x & Lx & Cx). rewrite Cx. rewrite Lx in Il.
    assert (SX: silent r (canon x)).
    { destruct p; try contradiction; injection Lx as <-; apply silent_canon; auto. }
    apply join_prop; [auto|intros; simpl; tauto|auto|]. cbn [one_sided].
    split; [auto|]. split; [auto|]. destruct o; try discriminate; auto.
  - destruct K as (Kc & Ka & Kb). destruct C as (Cc & Ca & Cb). destruct H as (Hc & Ha & Hb). cbn [canon one_sided]. split; [|exact I].
    split; [apply IHc; auto|]. split; [apply IHa; auto|apply IHb; auto].
  - split; [|exact I]. cbn [canon one_sided]. apply IH; auto.
Qed.
Lemma c_text_calls r e v calls : env_ok r -> chains_ok e -> c_safe (canon e) -> int_expr r e -> calls_ok r e ->
  py_value_c r e v calls ->
  exists t, read c_lang (words (c_print (build e))) = Some t /\ ctrace r t calls /\
    forall l, ctrace r t l -> Permutation calls l /\ (one_sided r e -> l = calls).
Proof.
  intros R K S H C (l & E). destruct (c_roundtrip e K S) as (t & Rd & St). exists t. split; [auto|].
  destruct (build_bld e K) as (CN & _ & _).
  destruct (canon_int r e K H) as (HI & _). destruct (calls_canon r e K C) as (HC & _).
  destruct (canon_pev fits_c r e wid_canon K H _ _ _ E) as ((l' & t' & P & Q) & _). rewrite (Q C) in P.
  pose proof (c_calls r (canon e) R CN HI HC _ _ _ P) as (T1 & T2). rewrite <- St in T1, T2.
  split; [apply ctrace_strip; auto|]. intros l0 H0. apply ctrace_strip in H0. destruct (T2 _ H0) as (A & B).
  split; [auto|]. intros O. apply B. apply one_canon; auto.
Qed.

(* ---- Fortran: values ---- *)
Lemma f_range r e : env_ok r -> cn e -> int_expr r e ->
  forall v l t, pev fits_f r e = Some (v, l, t) -> in_range 64 v.
Proof.
  intros R. induction e as [a t | o x IH | o a IHa b IHb | p IHp o b IHb | c IHc a IHa b IHb | x IH];
    cbn [cn int_expr pev]; intros K H v l t' E.
  - inv E. destruct R as (R1 & R2 & _). destruct H as (-> & H). destruct (kind r a) eqn:Ka; try congruence; auto.
    apply range_bool; [lia|auto].
  - case_pev E x v0 l0 t0 E0. destruct (un_ok _ _ _ _) eqn:U; [|discriminate]. injection E as <- _ _.
    specialize (IH K (proj1 H) _ _ _ eq_refl). destruct o; cbn [py_un]; auto.
    + apply in_rangeb_ok. exact U.
    + apply range_bool; [lia|apply b2z_bit].
    + apply range_lnot; auto; lia.
  - destruct K as (Ka & Kb & _). destruct H as (Ha & Hb & Ho). case_pev E a va la ta Ea.
    cbn [fits_f eager negb] in E. rewrite andb_false_r in E. case_pev E b vb lb tb Eb.
    specialize (IHa Ka Ha _ _ _ eq_refl). specialize (IHb Kb Hb _ _ _ eq_refl).
    destruct o; try contradiction;
      try (destruct (py_bin _ va vb) as [w|] eqn:P; [|discriminate E];
           destruct (bin_ok _ _ _ _ _ _) eqn:B; [|discriminate E]; injection E as <- _ _);
      try (apply in_rangeb_ok; exact B);
      try (cbn [py_bin] in P; inv P; apply range_bool; [lia|apply b2z_bit]);
      try (cbn [py_bin] in P; inv P; apply (range_bits 64); auto; lia).
    + cbn [py_bin] in P. destruct (Z.eqb_spec vb 0); [discriminate|]. inv P. apply range_mod; auto; lia.
    + unfold bin_ok in B. cbn [check fits_f negb orb] in B. rewrite !andb_true_iff in B. apply in_rangeb_ok. apply B.
    + cbn [py_bin] in P. destruct (Z.ltb_spec vb 0); [discriminate|]. inv P. apply range_shiftr; auto; lia.
    + injection E as <- _ _. destruct (va =? 0); auto.
    + injection E as <- _ _. destruct (negb (va =? 0)); auto.
  - contradiction.
  - destruct K as (Kc & Ka & Kb). destruct H as (Hc & Ha & Hb). case_pev E c vc lc tc Ec. cbn [fits_f eager] in E.
    case_pev E a va la ta Ea. case_pev E b vb lb tb Eb. injection E as <- _ _.
    destruct (vc =? 0); [exact (IHb Kb Hb _ _ _ eq_refl)|exact (IHa Ka Ha _ _ _ eq_refl)].
  - case_pev E x v0 l0 t0 E0. injection E as <- _ _. apply range_bool; [lia|apply b2z_bit].
Qed.
Definition fv_of (t : ptype) (v : Z) : fv := if is_bool t then FL (negb (v =? 0)) else FN v.
Lemma fval_int r e x v : env_ok r -> sty e <> TFloat -> (sty e = TBool -> v = 0 \/ v = 1) ->
  fval r x = Ret (fv_of (sty e) v) -> fval r (as_int e x) = Ret (FN v).
Proof.
  intros (_ & _ & (K0 & V0 & _) & (K1 & V1 & _)) N Hv H. unfold as_int. destruct (sty e) eqn:T; try congruence; [|exact H].
  cbn [is_bool fval]. rewrite K0, V0, K1, V1, H. cbn [bind]. cbn [String.eqb Ascii.eqb Bool.eqb orb].
  unfold fv_of. cbn [is_bool]. destruct (Hv eq_refl); subst; reflexivity.
Qed.
Lemma fval_bool r e x v : env_ok r -> sty e <> TFloat ->
  fval r x = Ret (fv_of (sty e) v) -> fval r (as_bool e x) = Ret (FL (negb (v =? 0))).
Proof.
  intros (_ & _ & (K0 & V0 & _) & _) N H. unfold as_bool. destruct (sty e) eqn:T; try congruence; [exact H|].
  cbn [is_bool fval]. rewrite K0, V0, H. reflexivity.
Qed.
Lemma fval_type r t e x v : env_ok r -> sty e <> TFloat -> (sty e = TBool -> v = 0 \/ v = 1) -> t <> TFloat ->
  (t = TBool -> sty e = TBool) ->
  fval r x = Ret (fv_of (sty e) v) -> fval r (as_type t e x) = Ret (fv_of t v).
Proof.
  intros R N Hv Nt Ht H. destruct t; try congruence; cbn [as_type].
  - rewrite H, (Ht eq_refl). reflexivity.
  - apply fval_int; auto.
Qed.
Ltac fnd := cbn [find String.eqb Ascii.eqb Bool.eqb].
Lemma b2z_eqb0 b : negb (b2z b =? 0) = b.
Proof. destruct b; reflexivity. Qed.
Lemma f_value r e : env_ok r -> cn e -> int_expr r e -> f_safe e -> mod_ok e ->
  forall v l t, pev fits_f r e = Some (v, l, t) -> fval r (f_tree e) = Ret (fv_of (sty e) v).
Proof.
  intros R. induction e as [a t | o x IH | o a IHa b IHb | p IHp o b IHb | c IHc a IHa b IHb | x IH];
    intros K H F M v l t' E; pose proof (f_range _ _ R K H _ _ _ E) as RG;
    cbn [cn int_expr pev mod_ok] in K, H, E, M.
  - inv E. destruct H as (-> & H). cbn [f_tree fval sty]. unfold fv_of. destruct (kind r a); try congruence; reflexivity.
  - case_pev E x v0 l0 t0 E0. destruct H as (H & Hm).
    assert (F': f_safe x) by (destruct o; apply F).
    specialize (IH K H F' M _ _ _ eq_refl). pose proof (not_float _ _ R K H) as N.
    pose proof (fun T => bool_value _ _ _ R (cn_chains _ K) H T _ _ _ E0) as BV.
    destruct (un_ok _ _ _ _) eqn:U; [|discriminate]. injection E as <- _ _.
    destruct o; cbn [f_tree fval].
    + destruct F as (_ & F). rewrite IH. cbn [sty]. destruct (sty x); try congruence. reflexivity.
    + rewrite IH. cbn [sty]. rewrite (Hm eq_refl). cbn [fv_of is_bool bind]. fnd. rewrite chk_ok by exact RG. reflexivity.
    + cbn [sty]. unfold fv_of. cbn [is_bool py_un]. rewrite b2z_eqb0.
      destruct (sty x) eqn:T; try congruence; cbn [is_bool fval]; rewrite IH; cbn [fv_of is_bool bind]; fnd.
      * rewrite negb_involutive. reflexivity.
      * destruct R as (_ & _ & (K0 & V0 & _) & _). rewrite K0, V0. cbn [bind]. reflexivity.
    + rewrite (fval_int r x _ v0 R N BV IH). cbn [bind]. fnd. cbn [sty]. destruct (sty x); try congruence; reflexivity.
  - destruct K as (Ka & Kb & _). destruct H as (Ha & Hb & Ho). destruct M as (Ma & Mb & Mo). case_pev E a va la ta Ea.
    cbn [f_safe] in F. destruct F as (Fa & Fb & Fo).
    cbn [fits_f eager negb] in E. rewrite andb_false_r in E. case_pev E b vb lb tb Eb.
    specialize (IHa Ka Ha Fa Ma _ _ _ eq_refl). specialize (IHb Kb Hb Fb Mb _ _ _ eq_refl).
    pose proof (not_float _ _ R Ka Ha) as Na. pose proof (not_float _ _ R Kb Hb) as Nb.
    pose proof (fun T => bool_value _ _ _ R (cn_chains _ Ka) Ha T _ _ _ Ea) as Ba.
    pose proof (fun T => bool_value _ _ _ R (cn_chains _ Kb) Hb T _ _ _ Eb) as Bb.
    pose proof (f_range _ _ R Ka Ha _ _ _ Ea) as Ra. pose proof (f_range _ _ R Kb Hb _ _ _ Eb) as Rb.
    pose proof (fval_int r a _ va R Na Ba IHa) as Ia. pose proof (fval_int r b _ vb R Nb Bb IHb) as Ib.
    destruct o; try contradiction;
      try (destruct (py_bin _ va vb) as [w|] eqn:P; [|discriminate E];
           destruct (bin_ok _ _ _ _ _ _) eqn:B; [|discriminate E]; injection E as <- _ _);
      cbn [f_tree].
    (* + - * *)
    1-3: cbn [fval]; rewrite Ia, Ib; cbn [bind]; unfold f_arith; fnd; cbn [py_bin] in P; inv P;
      rewrite chk_ok by exact RG; cbn [bind sty]; destruct (sty a), (sty b); try congruence; reflexivity.
    (* < <= > >= *)
    5-8: cbn [fval]; rewrite Ia, Ib; cbn [bind]; unfold f_arith; fnd; cbn [py_bin] in P; inv P;
      cbn [sty fv_of is_bool]; rewrite b2z_eqb0; reflexivity.
    + (* Mod *) destruct Mo as (Ta & Tb). cbn [sty]. rewrite Ta, Tb in *. cbn [tadd is_float andb fval].
      rewrite IHa, IHb. cbn [fv_of is_bool bind]. unfold f_call2. fnd.
      cbn [py_bin] in P. destruct (Z.eqb_spec vb 0); [discriminate|]. inv P.
      rewrite (f_modulo_ok va vb (va mod vb)) by (apply py_mod_mod; auto). reflexivity.
    + (* FloorDiv *) assert (negb (is_float (sty a)) && negb (is_float (sty b)) = true) as ->
        by (destruct (sty a), (sty b); try congruence; reflexivity).
      assert (T: sty (SBin FloorDiv a b) = TInt) by (cbn [sty]; destruct (sty a), (sty b); try congruence; reflexivity).
      rewrite T. cbn [as_type fval]. rewrite Ia, Ib. cbn [bind]. unfold f_call2. fnd.
      cbn [py_bin] in P. destruct (Z.eqb_spec vb 0); [discriminate|]. inv P.
      rewrite (f_floor_div_ok 64 va vb (va / vb)) by (auto; try lia; apply py_floordiv_div; auto). reflexivity.
    + (* Eq *) destruct Fo as (_ & Fo). cbn [py_bin] in P. inv P. cbn [sty fv_of is_bool fval]. rewrite b2z_eqb0, IHa, IHb.
      destruct (sty a) eqn:Ta, (sty b) eqn:Tb; try congruence; try (destruct Fo as (F1 & F2); (specialize (F1 eq_refl) || specialize (F2 eq_refl)); congruence);
        cbn [is_bool andb fv_of bind]; unfold f_logic, f_arith; fnd; [|reflexivity].
      destruct (Ba eq_refl), (Bb eq_refl); subst; reflexivity.
    + (* Ne *) destruct Fo as (_ & Fo). cbn [py_bin] in P. inv P. cbn [sty fv_of is_bool fval]. rewrite b2z_eqb0, IHa, IHb.
      destruct (sty a) eqn:Ta, (sty b) eqn:Tb; try congruence; try (destruct Fo as (F1 & F2); (specialize (F1 eq_refl) || specialize (F2 eq_refl)); congruence);
        cbn [is_bool andb fv_of bind]; unfold f_logic, f_arith; fnd; [|reflexivity].
      destruct (Ba eq_refl), (Bb eq_refl); subst; reflexivity.
    + (* Is *) destruct Ho as (Ta & Tb). rewrite Ta, Tb in *. cbn [py_bin] in P. inv P. cbn [sty fv_of is_bool fval]. rewrite b2z_eqb0, IHa, IHb.
      cbn [fv_of is_bool bind]. unfold f_logic; fnd. destruct (Ba eq_refl), (Bb eq_refl); subst; reflexivity.
    + destruct Ho as (Ta & Tb). rewrite Ta, Tb in *. cbn [py_bin] in P. inv P. cbn [sty fv_of is_bool fval]. rewrite b2z_eqb0, IHa, IHb.
      cbn [fv_of is_bool bind]. unfold f_logic; fnd. destruct (Ba eq_refl), (Bb eq_refl); subst; reflexivity.
    + (* LSh *) cbn [fval]. rewrite Ia, Ib. cbn [bind]. unfold f_call2. fnd. cbn [py_bin] in P.
      destruct (Z.ltb_spec vb 0); [discriminate|]. inv P.
      unfold bin_ok in B. cbn [check width fits_f negb orb] in B. rewrite !andb_true_iff in B. destruct B as ((B1 & B2) & B3).
      apply Z.ltb_lt in B2. destruct (Z.leb_spec 64 vb); [lia|]. cbn [orb].
      rewrite chk_ok by exact RG. cbn [bind sty]. destruct (sty a), (sty b); try congruence; reflexivity.
    + (* RSh *) cbn [fval]. rewrite Ia, Ib. cbn [bind]. unfold f_call2. fnd. cbn [py_bin] in P.
      destruct (Z.ltb_spec vb 0); [discriminate|]. inv P.
      unfold bin_ok in B. cbn [check width fits_f negb orb] in B.
      apply Z.ltb_lt in B. destruct (Z.leb_spec 64 vb); [lia|]. cbn [orb].
      rewrite chk_ok by exact RG. cbn [bind sty]. destruct (sty a), (sty b); try congruence; reflexivity.
    + cbn [py_bin] in P. inv P. cbn [sty]. destruct (sty a) eqn:Ta, (sty b) eqn:Tb; try congruence; cbn [tand is_bool fval];
        [rewrite IHa, IHb; cbn [fv_of is_bool bind]; unfold f_logic; fnd; destruct (Ba eq_refl), (Bb eq_refl); subst; reflexivity|..];
        rewrite Ia, Ib; reflexivity.
    + cbn [py_bin] in P. inv P. cbn [sty]. destruct (sty a) eqn:Ta, (sty b) eqn:Tb; try congruence; cbn [tand is_bool fval];
        [rewrite IHa, IHb; cbn [fv_of is_bool bind]; unfold f_logic; fnd; destruct (Ba eq_refl), (Bb eq_refl); subst; reflexivity|..];
        rewrite Ia, Ib; reflexivity.
    + cbn [py_bin] in P. inv P. cbn [sty]. destruct (sty a) eqn:Ta, (sty b) eqn:Tb; try congruence; cbn [tand is_bool fval];
        [rewrite IHa, IHb; cbn [fv_of is_bool bind]; unfold f_logic; fnd; destruct (Ba eq_refl), (Bb eq_refl); subst; reflexivity|..];
        rewrite Ia, Ib; reflexivity.
    + injection E as <- _ _. cbn [fval]. rewrite (fval_bool r a _ va R Na IHa), (fval_bool r b _ vb R Nb IHb).
      cbn [bind]. unfold f_logic. fnd. cbn [sty fv_of is_bool]. destruct (va =? 0) eqn:Z0; cbn [negb andb]; rewrite ?Z0; reflexivity.
    + injection E as <- _ _. cbn [fval]. rewrite (fval_bool r a _ va R Na IHa), (fval_bool r b _ vb R Nb IHb).
      cbn [bind]. unfold f_logic. fnd. cbn [sty fv_of is_bool]. destruct (va =? 0) eqn:Z0; cbn [negb orb]; rewrite ?Z0; reflexivity.
  - contradiction.
  - destruct K as (Kc & Ka & Kb). destruct H as (Hc & Ha & Hb). destruct F as (Fc & Fa & Fb). destruct M as (Mc & Ma & Mb).
    case_pev E c vc lc tc Ec. cbn [fits_f eager] in E. case_pev E a va la ta Ea. case_pev E b vb lb tb Eb. injection E as <- _ _.
    specialize (IHc Kc Hc Fc Mc _ _ _ eq_refl). specialize (IHa Ka Ha Fa Ma _ _ _ eq_refl). specialize (IHb Kb Hb Fb Mb _ _ _ eq_refl).
    pose proof (not_float _ _ R Ka Ha) as Na. pose proof (not_float _ _ R Kb Hb) as Nb. pose proof (not_float _ _ R Kc Hc) as Nc.
    pose proof (fun T => bool_value _ _ _ R (cn_chains _ Ka) Ha T _ _ _ Ea) as Ba.
    pose proof (fun T => bool_value _ _ _ R (cn_chains _ Kb) Hb T _ _ _ Eb) as Bb.
    cbn [f_tree fval].
    assert (T1: sty (STern c a b) <> TFloat) by (cbn [sty]; destruct (sty a), (sty b); try congruence; discriminate).
    assert (T2: sty (STern c a b) = TBool -> sty a = TBool /\ sty b = TBool)
      by (cbn [sty]; destruct (sty a), (sty b); try congruence; try discriminate; auto).
    rewrite (fval_type r _ a _ va R Na Ba T1 (fun T => proj1 (T2 T)) IHa).
    rewrite (fval_type r _ b _ vb R Nb Bb T1 (fun T => proj2 (T2 T)) IHb).
    rewrite (fval_bool r c _ vc R Nc IHc). cbn [bind]. fnd. cbn [orb].
    unfold fv_of. destruct (sty (STern c a b)); cbn [is_bool]; destruct (vc =? 0); reflexivity.
  - case_pev E x v0 l0 t0 E0. injection E as <- _ _.
    specialize (IH K H F M _ _ _ eq_refl). pose proof (not_float _ _ R K H) as N.
    cbn [f_tree sty]. unfold fv_of at 1. cbn [is_bool]. rewrite b2z_eqb0.
    destruct (sty x) eqn:T; try congruence; cbn [is_bool fval]; rewrite IH; cbn [fv_of is_bool bind]; fnd.
    + reflexivity.
    + destruct R as (_ & _ & (K0 & V0 & _) & _). rewrite K0, V0. cbn [bind]. reflexivity.
Qed.

Lemma mod_boolean e : mod_ok e -> mod_ok (boolean e).
Proof. unfold boolean. destruct (is_bool _); auto. Qed.
Lemma mod_canon e : chains_ok e -> mod_ok e -> mod_ok (canon e) /\
  match last_of e with Some x => mod_ok (canon x) | None => True end.
Proof.
  induction e as [a t | o x IH | o a IHa b IHb | p IHp o b IHb | c IHc a IHa b IHb | x IH];
    cbn [chains_ok mod_ok last_of]; intros K H.
  - simpl. auto.
  - split; [|exact I]. cbn [canon mod_ok]. apply IH; auto.
  - destruct K as (Ka & Kb). destruct H as (Ha & Hb & Ho). destruct (IHa Ka Ha) as (Ia & _). destruct (IHb Kb Hb) as (Ib & _).
    split; [|exact Ib]. destruct o; cbn [canon mod_ok]; rewrite ?sty_canon by auto; try (repeat split; tauto);
      (apply join_prop; [auto|intros; simpl; tauto|apply mod_boolean; auto|apply mod_boolean; auto]).
  - destruct K as (Kp & Kb & Ko & Kc). destruct H as (Hp & Hb). destruct (IHp Kp Hp) as (Ip & Il). destruct (IHb Kb Hb) as (Ib & _).
    split; [|exact Ib]. destruct (last_cases p Kc) as (x & Lx & Cx). rewrite Cx. rewrite Lx in Il.
    apply join_prop; [auto|intros; simpl; tauto|auto|]. cbn [mod_ok].
    split; [auto|]. split; [auto|]. destruct o; try discriminate; exact I.
  - destruct K as (Kc & Ka & Kb). destruct H as (Hc & Ha & Hb). cbn [canon mod_ok]. split; [|exact I].
    split; [apply IHc; auto|]. split; [apply IHa; auto|apply IHb; auto].
  - split; [|exact I]. cbn [canon mod_ok]. apply IH; auto.
Qed.
Lemma fval_strip r t : fval r (strip t) = fval r t.
Proof. induction t; cbn [strip fval]; rewrite ?IHt, ?IHt1, ?IHt2, ?IHt3; reflexivity. Qed.
Lemma eager_exact r e : forall v l t, pev fits_f r e = Some (v, l, t) ->
  exists l' t', pev python r e = Some (v, l', t') /\ (v <> 0 -> l' = l).
Proof.
  induction e as [a t | o x IH | o a IHa b IHb | p IHp o b IHb | c IHc a IHa b IHb | x IH];
    cbn [pev]; intros v l t' E; cbn [eager fits_f python negb] in *.
  - inv E. eauto.
  - case_pev E x v0 l0 t0 E0. destruct (IH _ _ _ eq_refl) as (l' & t1 & Q & _). rewrite Q.
    destruct (un_ok fits_f _ _ _); [|discriminate]. inv E. destruct o; eexists _, _; (split; [reflexivity|auto]).
  - case_pev E a va la ta Ea. destruct (IHa _ _ _ eq_refl) as (la' & ta' & Qa & _). rewrite Qa.
    rewrite andb_false_r in E. case_pev E b vb lb tb Eb. destruct (IHb _ _ _ eq_refl) as (lb' & tb' & Qb & _).
    destruct o; cbn [andb];
      try (rewrite Qb; destruct (py_bin _ va vb); [|discriminate]; destruct (bin_ok fits_f _ _ _ _ _); [|discriminate];
           inv E; eexists _, _; (split; [reflexivity|auto])).
    + inv E. destruct (va =? 0); cbn [andb]; [eexists _, _; split; [reflexivity|auto]|].
      rewrite Qb. eexists _, _. split; [reflexivity|auto].
    + inv E. destruct (va =? 0); cbn [andb negb]; [|eexists _, _; split; [reflexivity|auto]].
      rewrite Qb. eexists _, _. split; [reflexivity|auto].
  - case_pev E p vp lp tp Ep. destruct (IHp _ _ _ eq_refl) as (lp' & tp' & Qp & Hl). rewrite Qp.
    rewrite andb_false_r in E. case_pev E b vb lb tb Eb. destruct (IHb _ _ _ eq_refl) as (lb' & tb' & Qb & _).
    destruct (py_bin o lp vb) eqn:P; [|discriminate]. inv E. destruct (Z.eqb_spec vp 0); cbn [andb].
    + eexists _, _. split; [reflexivity|]. congruence.
    + rewrite Qb, (Hl n), P. eexists _, _. split; [reflexivity|auto].
  - case_pev E c vc lc tc Ec. destruct (IHc _ _ _ eq_refl) as (lc' & tc' & Qc & _). rewrite Qc.
    case_pev E a va la ta Ea. case_pev E b vb lb tb Eb. inv E.
    destruct (IHa _ _ _ eq_refl) as (? & ? & Qa & _). destruct (IHb _ _ _ eq_refl) as (? & ? & Qb & _).
    destruct (vc =? 0); [rewrite Qb|rewrite Qa]; eexists _, _; (split; [reflexivity|auto]).
  - case_pev E x v0 l0 t0 E0. destruct (IH _ _ _ eq_refl) as (l' & t1 & Q & _). rewrite Q. inv E.
    eexists _, _; (split; [reflexivity|auto]).
Qed.
Lemma f_text_value r e v calls : env_ok r -> chains_ok e -> f_safe (canon e) -> int_expr r e -> mod_ok e ->
  py_value_f r e v calls ->
  (exists calls', py_value r e v calls') /\
  exists t, read f_lang (words (f_print (build e))) = Some t /\ fval r t = Ret (fv_of (sty e) v).
Proof.
  intros R K S H M (l & E). split.
  { destruct (eager_exact _ _ _ _ _ E) as (l' & t' & Q & _). exists t', l'. auto. }
  destruct (f_roundtrip e K S) as (t & Rd & St). exists t. split; [auto|].
  destruct (build_bld e K) as (CN & _ & _).
  destruct (canon_int r e K H) as (HI & _). destruct (mod_canon e K M) as (HM & _).
  destruct (canon_pev fits_f r e (fun _ _ => eq_refl) K H _ _ _ E) as ((l' & t' & P & _) & _).
  rewrite <- fval_strip, St, <- (sty_canon e K). eapply f_value; eauto.
Qed.

(* ---- augmented assignment ---- *)
Lemma c_aug_value r x t o e v calls : env_ok r -> chains_ok e -> c_safe (canon e) ->
  int_expr r (SBin o (SAt x t) e) -> List.In o aug_ops -> sty (SBin o (SAt x t) e) = t ->
  py_value_c r (SBin o (SAt x t) e) v calls ->
  o <> Mod \/ (0 <= val r x /\ forall w c, py_value_c r e w c -> 0 < w) ->
  c_run r (c_aug x t o (build e)) = Ret v.
Proof.
  intros R K S H IN T P MO. pose proof H as H0. cbn [int_expr] in H. destruct H as ((Ht & Nt) & He & Ho).
  assert (BR: forall b, c_aug x t o (build e) = b ->
     match b with Asg _ rhs => o = FloorDiv /\ rhs = c_print (build (SBin o (SAt x t) e))
     | OpAsg y op rhs => y = x /\ op = py_op o /\ o <> FloorDiv /\ rhs = c_print (build e) end).
  { intros b <-. unfold c_aug. destruct o; try (solve [repeat split; first [reflexivity|congruence]]). destruct t; [| |contradiction Nt; reflexivity];
         repeat split; first [reflexivity|congruence]. }
  destruct (c_aug x t o (build e)) as [y rhs|y op rhs] eqn:Q; specialize (BR _ eq_refl).
  - destruct BR as (-> & ->). unfold c_aug in Q. injection Q as <-.
    destruct (c_text_value r (SBin FloorDiv (SAt x t) e) v calls R) as (_ & tt & Rd & V & ST); auto.
    { split; [exact I|auto]. }
    { cbn [canon c_safe]. repeat split; auto. }
    unfold c_run, c_exec. rewrite Rd, V. cbn [bind]. rewrite T, Ht in ST. rewrite ST. reflexivity.
  - destruct BR as (-> & -> & NF & ->). destruct P as (l & P).
    cbn [pev] in P.
    destruct (_ && negb (eager fits_c)) eqn:SS in P.
    { exfalso. destruct o; try discriminate SS; cbn [aug_ops List.In] in IN; intuition discriminate. }
    case_pev P e w lw tw Ew.
    destruct (c_text_value r e w tw R K S He) as (_ & tt & Rd & V & _); [exists lw; auto|].
    unfold c_run, c_exec. rewrite Rd.
    destruct (c_roundtrip e K S) as (tt' & Rd' & St). rewrite Rd in Rd'. injection Rd' as <-.
    destruct (build_bld e K) as (CN & _ & _). destruct (canon_int r e K He) as (HI & _).
    pose proof (c_wid _ _ R CN HI) as W. rewrite <- St, cwid_strip, wid_canon in W by auto.
    pose proof (wid_ge e) as WG.
    assert (KX: cwid r (At x) = wid (SAt x t)) by (cbn [cwid wid]; rewrite <- Ht; reflexivity).
    assert (VX: cval r (At x) = Ret (val r x)) by reflexivity.
    assert (TB: t = TBool -> sty e = TBool /\ (o = BOr \/ o = BAnd)).
    { intros ->. cbn [sty] in T. destruct o; cbn [aug_ops List.In] in IN; try (intuition discriminate);
        destruct (sty e); try discriminate T; auto. }
    destruct o; cbn [aug_ops List.In] in IN; try (intuition discriminate);
      (destruct (py_bin _ (val r x) w) as [u|] eqn:PB; [|discriminate P]);
      (destruct (bin_ok _ _ _ _ _ _) eqn:B; [|discriminate P]); injection P as <- _ _;
      rewrite cval_In; cbn [py_op]; cbn [c_op find String.eqb Ascii.eqb Bool.eqb]; rewrite VX, V; cbn [bind]; cbv zeta.
    all: try (destruct t; [destruct (TB eq_refl) as (_ & [TB'|TB']); discriminate TB'| |congruence]).
    + unfold bin_ok in B. cbn [check width fits_c negb orb wid is_bool] in B. apply in_rangeb_ok in B.
      cbn [cwid]. cbn [c_op find String.eqb Ascii.eqb Bool.eqb]. rewrite W. rewrite <- Ht. cbn [is_bool].
      inv PB. rewrite chk_ok by exact B. reflexivity.
    + unfold bin_ok in B. cbn [check width fits_c negb orb wid is_bool] in B. apply in_rangeb_ok in B.
      cbn [cwid]. cbn [c_op find String.eqb Ascii.eqb Bool.eqb]. rewrite W. rewrite <- Ht. cbn [is_bool].
      inv PB. rewrite chk_ok by exact B. reflexivity.
    + unfold bin_ok in B. cbn [check width fits_c negb orb wid is_bool] in B. apply in_rangeb_ok in B.
      cbn [cwid]. cbn [c_op find String.eqb Ascii.eqb Bool.eqb]. rewrite W. rewrite <- Ht. cbn [is_bool].
      inv PB. rewrite chk_ok by exact B. reflexivity.
    + cbn [py_bin] in PB. destruct (Z.eqb_spec w 0); [discriminate|]. injection PB as <-.
      destruct MO as [MO|(M1 & M2)]; [congruence|]. specialize (M2 w tw (ex_intro _ lw Ew)).
      unfold c_rem. destruct (Z.eqb_spec w 0); [contradiction|].
      cbn [cwid]. cbn [c_op find String.eqb Ascii.eqb Bool.eqb]. rewrite W. rewrite <- Ht. cbn [is_bool].
      rewrite Z.max_l by lia.
      assert (in_rangeb 64 (Z.quot (val r x) w) = true) as ->.
      { apply in_rangeb_ok. destruct R as (_ & R2 & _). specialize (R2 x (eq_sym Ht)). unfold in_range in *.
        rewrite Z.quot_div_nonneg by lia. pose proof (Z.div_pos (val r x) w M1 M2).
        pose proof (Z.div_le_upper_bound (val r x) w (val r x) M2 ltac:(nia)). 
        assert (int_min 64 <= 0) by (vm_compute; discriminate). lia. }
      cbn [bind c_store is_bool].
      rewrite Z.rem_mod_nonneg by lia. reflexivity.
    + cbn [py_bin] in PB. destruct (Z.ltb_spec w 0); [discriminate|]. injection PB as <-.
      unfold bin_ok in B. cbn [check width fits_c negb orb wid sty is_bool] in B. rewrite !andb_true_iff in B.
      destruct B as ((B1 & B2) & B3). apply Z.leb_le in B1. apply Z.ltb_lt in B2. apply in_rangeb_ok in B3.
      cbn [cwid]. cbn [c_op find String.eqb Ascii.eqb Bool.eqb]. rewrite <- Ht. cbn [is_bool].
      destruct (Z.ltb_spec (val r x) 0); [lia|]. destruct (Z.leb_spec 64 w); [lia|]. cbn [orb].
      rewrite chk_ok by exact B3. reflexivity.
    + cbn [py_bin] in PB. destruct (Z.ltb_spec w 0); [discriminate|]. injection PB as <-.
      unfold bin_ok in B. cbn [check width fits_c negb orb wid sty is_bool] in B. apply Z.ltb_lt in B.
      cbn [cwid]. cbn [c_op find String.eqb Ascii.eqb Bool.eqb]. rewrite <- Ht. cbn [is_bool].
      destruct (Z.leb_spec 64 w); [lia|]. cbn [orb]. reflexivity.
    + cbn [py_bin] in PB. injection PB as <-. cbn [bind]. destruct t; [|rewrite <- Ht; reflexivity|congruence].
      destruct (TB eq_refl) as (TE & _). unfold c_store. rewrite <- Ht. cbn [is_bool]. f_equal.
      apply neqz_bit. destruct (proj1 R x (eq_sym Ht)) as [-> | ->],
        (bool_value fits_c r e R K He TE _ _ _ Ew) as [-> | ->]; auto.
    + cbn [py_bin] in PB. injection PB as <-. cbn [bind]. destruct t; [|rewrite <- Ht; reflexivity|congruence].
      destruct (TB eq_refl) as (TE & _). unfold c_store. rewrite <- Ht. cbn [is_bool]. f_equal.
      apply neqz_bit. destruct (proj1 R x (eq_sym Ht)) as [-> | ->],
        (bool_value fits_c r e R K He TE _ _ _ Ew) as [-> | ->]; auto.
Qed.

Lemma f_aug_value r x t o e v calls : env_ok r -> chains_ok e -> f_safe (canon (SBin o (SAt x t) e)) ->
  int_expr r (SBin o (SAt x t) e) -> mod_ok (SBin o (SAt x t) e) -> List.In o aug_ops -> sty (SBin o (SAt x t) e) = t ->
  py_value_f r (SBin o (SAt x t) e) v calls ->
  f_run r (f_aug x t o (build e)) = Ret v.
Proof.
  intros R K S H M IN T P. set (e' := SBin o (SAt x t) e) in *.
  assert (K': chains_ok e') by (split; [exact I|auto]).
  destruct (f_text_value r e' v calls R K' S H M P) as (_ & t' & Rd & V).
  unfold f_run, f_aug. change (basic_rhs x t o (build e)) with (build e'). rewrite Rd, V, T. cbn [bind].
  pose proof H as H0. destruct H0 as ((Ht & Nt) & _). rewrite <- Ht. unfold fv_of. destruct t; try congruence; cbn [is_bool]; [|reflexivity].
  f_equal. apply neqz_bit. destruct P as (l & P). exact (bool_value _ _ _ R K' H T _ _ _ P).
Qed.

(* ---- and, or with operands of any type ---- *)
Lemma boolean_pev m r e v l t : chains_ok e -> pev m r e = Some (v, l, t) -> (sty e = TBool -> v = 0 \/ v = 1) ->
  exists l', pev m r (boolean e) = Some (b2z (negb (v =? 0)), l', t).
Proof.
  intros K E B. unfold boolean. destruct (sty e) eqn:T; cbn [is_bool pev]; rewrite E; eauto.
  rewrite neqz_bit by auto. eauto.
Qed.
Lemma boolean_sty e : sty (boolean e) = TBool.
Proof. unfold boolean. destruct (sty e) eqn:T; cbn [is_bool sty]; auto. Qed.
Lemma boolean_canon e : chains_ok e -> canon (boolean e) = boolean (canon e).
Proof. intros K. unfold boolean. rewrite sty_canon by auto. destruct (is_bool _); reflexivity. Qed.
Lemma boolean_idem e : boolean (boolean e) = boolean e.
Proof. unfold boolean at 1. rewrite boolean_sty. reflexivity. Qed.
Lemma boolean_chains e : chains_ok e -> chains_ok (boolean e).
Proof. unfold boolean. destruct (is_bool _); auto. Qed.
Lemma boolean_int r e : int_expr r e -> int_expr r (boolean e).
Proof. unfold boolean. destruct (is_bool _); auto. Qed.
Lemma c_truth r o a b v calls : env_ok r -> o = And \/ o = Or -> chains_ok a -> chains_ok b ->
  c_safe (canon (SBin o a b)) -> int_expr r a -> int_expr r b ->
  py_value_c r (SBin o a b) v calls ->
  exists t, read c_lang (words (c_print (build (SBin o a b)))) = Some t /\ cval r t = Ret (b2z (negb (v =? 0))) /\
    (calls_ok r a -> calls_ok r b -> ctrace r t calls /\
     forall l, ctrace r t l -> Permutation calls l /\ (one_sided r a -> one_sided r b -> l = calls)).
Proof.
  intros R O Ka Kb S Ha Hb (l & E). set (e' := SBin o (boolean a) (boolean b)).
  assert (KE: chains_ok (SBin o a b)) by (split; auto).
  assert (K': chains_ok e') by (split; apply boolean_chains; auto).
  assert (CE: canon e' = canon (SBin o a b)).
  { unfold e'. destruct O as [-> | ->]; cbn [canon]; rewrite !boolean_canon, !boolean_idem by auto; reflexivity. }
  assert (BE: build e' = build (SBin o a b)).
  { destruct (build_bld e' K') as (_ & B1 & _). destruct (build_bld _ KE) as (_ & B2 & _). unfold build. rewrite B1, B2, CE. reflexivity. }
  assert (H': int_expr r e').
  { split; [apply boolean_int; auto|]. split; [apply boolean_int; auto|].
    destruct O as [-> | ->]; rewrite !boolean_sty; auto. }
  rewrite <- CE in S. rewrite <- BE.
  assert (P': exists l', pev fits_c r e' = Some (b2z (negb (v =? 0)), l', calls)).
  { unfold e'. cbn [pev] in E |- *. case_pev E a va la ta Ea.
    destruct (boolean_pev _ _ _ _ _ _ Ka Ea (fun T => bool_value _ _ _ R Ka Ha T _ _ _ Ea)) as (la' & Qa). rewrite Qa.
    cbn [fits_c eager negb] in *. rewrite !andb_true_r in *.
    destruct O as [-> | ->].
    - destruct (va =? 0) eqn:Z0; cbn [negb b2z Z.eqb Pos.eqb] in E |- *; [injection E as <- _ <-; rewrite Z0; eauto|].
      case_pev E b vb lb tb Eb.
      destruct (boolean_pev _ _ _ _ _ _ Kb Eb (fun T => bool_value _ _ _ R Kb Hb T _ _ _ Eb)) as (lb' & Qb). rewrite Qb.
      injection E as <- _ <-. eauto.
    - destruct (va =? 0) eqn:Z0; cbn [negb b2z Z.eqb Pos.eqb] in E |- *; [|injection E as <- _ <-; rewrite Z0; eauto].
      case_pev E b vb lb tb Eb. 
      destruct (boolean_pev _ _ _ _ _ _ Kb Eb (fun T => bool_value _ _ _ R Kb Hb T _ _ _ Eb)) as (lb' & Qb). rewrite Qb.
      injection E as <- _ <-. eauto. }
  destruct P' as (l' & P'). assert (PV: py_value_c r e' (b2z (negb (v =? 0))) calls) by (exists l'; auto).
  destruct (c_text_value r e' _ calls R K' S H' PV) as (_ & t & Rd & V & _). exists t. split; [auto|]. split; [auto|].
  intros Ca Cb.
  assert (C': calls_ok r e').
  { split; [apply calls_boolean; auto|]. split; [apply calls_boolean; auto|]. destruct O as [-> | ->]; exact I. }
  destruct (c_text_calls r e' _ calls R K' S H' C' PV) as (t2 & Rd2 & T1 & T2). rewrite Rd in Rd2. injection Rd2 as <-.
  split; [auto|]. intros l0 L0. destruct (T2 _ L0) as (P1 & P2). split; [auto|]. intros O1 O2. apply P2.
  split; [apply one_boolean; auto|]. split; [apply one_boolean; auto|]. destruct O as [-> | ->]; exact I.
Qed.

Lemma c_one_branch r c a b vc tc v calls :
  env_ok r -> chains_ok (STern c a b) -> c_safe (canon (STern c a b)) -> int_expr r (STern c a b) ->
  calls_ok r (STern c a b) ->
  py_value_c r c vc tc -> py_value_c r (if vc =? 0 then b else a) v calls ->
  exists t, read c_lang (words (c_print (build (STern c a b)))) = Some t /\ cval r t = Ret v /\
    ctrace r t (tc ++ calls) /\
    forall l, ctrace r t l -> Permutation (tc ++ calls) l /\ (one_sided r (STern c a b) -> l = (tc ++ calls)%list).
Proof.
  intros R K S H C (lc & Ec) (lv & Ev).
  assert (P: py_value_c r (STern c a b) v (tc ++ calls)).
  { exists v. cbn [pev]. rewrite Ec. cbn [fits_c eager]. rewrite Ev. reflexivity. }
  destruct (c_text_value _ _ _ _ R K S H P) as (_ & t & Rd & V & _).
  destruct (c_text_calls _ _ _ _ R K S H C P) as (t' & Rd' & T). rewrite Rd in Rd'. injection Rd' as <-.
  exists t. auto.
Qed.
Lemma f_both r c f g :
  kind r c = TBool -> kind r f = TInt -> kind r g = TInt -> eff r c = false -> eff r f = true -> eff r g = true ->
  let e := STern (SAt c TBool) (SAt f TInt) (SAt g TInt) in
  py_value r e (if val r c =? 0 then val r g else val r f) [if val r c =? 0 then g else f] /\
  exists t, read f_lang (words (f_print (build e))) = Some t /\
    forall l, ftrace r t l -> Permutation l [f; g].
Proof.
  intros Kc Kf Kg Ec Ef Eg e. split.
  - exists (if val r c =? 0 then val r g else val r f). unfold e. cbn [pev python eager]. unfold events. rewrite Ec.
    destruct (val r c =? 0); cbn [pev]; unfold events; rewrite ?Ef, ?Eg; reflexivity.
  - eexists. split; [reflexivity|]. cbn [ftrace]. intros l (la & lb & lc & l2 & -> & -> & -> & H1 & H2).
    unfold events in *. rewrite Ec, Ef, Eg in *. apply shuffle_nil_r in H2. subst.
    apply shuffle_perm in H1. apply Permutation_sym. exact H1.
Qed.
Lemma c_chain r p o b v calls :
  let e := SMore p o b in
  env_ok r -> chains_ok e -> c_safe (canon e) -> int_expr r e -> calls_ok r e -> py_value_c r e v calls ->
  exists t, read c_lang (words (c_print (build e))) = Some t /\ cval r t = Ret v /\ ctrace r t calls /\
    forall l, ctrace r t l -> Permutation calls l /\ (one_sided r e -> l = calls).
Proof.
  intros e R K S H C P.
  destruct (c_text_value _ _ _ _ R K S H P) as (_ & t & Rd & V & _).
  destruct (c_text_calls _ _ _ _ R K S H C P) as (t' & Rd' & T). rewrite Rd in Rd'. injection Rd' as <-.
  exists t. auto.
Qed.
Lemma c_both r o a b v calls :
  let e := SBin o a b in
  o = BAnd \/ o = BOr \/ o = BXor -> sty a = TInt -> sty b = TInt ->
  env_ok r -> chains_ok e -> c_safe (canon e) -> int_expr r e -> calls_ok r a -> calls_ok r b ->
  py_value_c r e v calls ->
  exists t va vb ta tb, py_value_c r a va ta /\ py_value_c r b vb tb /\
    read c_lang (words (c_print (build e))) = Some t /\ ctrace r t (ta ++ tb) /\
    forall l, ctrace r t l -> Permutation (ta ++ tb) l.
Proof.
  intros e O Ta Tb R K S H Ca Cb P.
  assert (C: calls_ok r e).
  { split; [auto|]. split; [auto|]. destruct O as [-> | [-> | ->]]; auto; congruence. }
  destruct (c_text_calls _ _ _ _ R K S H C P) as (t & Rd & T1 & T2).
  destruct P as (l & P). unfold e in P. cbn [pev] in P. case_pev P a va la ta Ea.
  destruct (_ && negb (eager fits_c)) eqn:SS in P.
  { destruct O as [-> | [-> | ->]]; discriminate SS. }
  case_pev P b vb lb tb Eb.
  assert (calls = (ta ++ tb)%list) as ->.
  { destruct O as [-> | [-> | ->]]; cbn [py_bin] in P; (destruct (bin_ok _ _ _ _ _ _); [|discriminate]); injection P as _ _ <-; reflexivity. }
  exists t, va, vb, ta, tb. split; [eexists; eauto|]. split; [eexists; eauto|]. split; [auto|]. split; [auto|].
  intros l' L. apply T2. auto.
Qed.
Lemma pow_double : exists a b,
  sty (SBin Pow (SAt "a" TInt) (SAt "b" TInt)) = TInt /\
  read c_lang (words (c_print (build (SBin Pow (SAt "a" TInt) (SAt "b" TInt))))) =
    Some (Call2 "pow" (Pre "(double)" (Par (At "a"))) (Pre "(double)" (Par (At "b")))) /\
  in_range 64 (a ^ b) /\
  forall m e, Z.abs m < 2 ^ 53 -> 0 <= e -> m * 2 ^ e <> a ^ b /\ m <> a ^ b * 2 ^ e.
Proof.
  exists 3, 39. split; [reflexivity|]. split; [vm_compute; reflexivity|]. split; [vm_compute; intuition discriminate|].
  intros m e M E. assert (B: 2 ^ 53 < 3 ^ 39) by (vm_compute; reflexivity). split; intros Q.
  - destruct (Z.eq_dec e 0) as [-> | NE]; [rewrite Z.mul_1_r in Q; lia|].
    assert (OD: Z.odd (3 ^ 39) = true) by (vm_compute; reflexivity). rewrite <- Q in OD.
    replace e with (Z.succ (e - 1)) in OD by lia. rewrite Z.pow_succ_r in OD by lia.
    rewrite Z.odd_mul, Z.odd_mul in OD. cbn in OD. rewrite andb_false_r in OD. discriminate.
  - assert (0 < 2 ^ e) by (apply Z.pow_pos_nonneg; lia). nia.
Qed.
