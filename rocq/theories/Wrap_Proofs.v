(* Lemmas for Wrap_Thms.v. *)
From Coq Require Import Bool Arith ZArith Lia List Sorted.
From Verif Require Import View_Model Wrap_Model Wrap_Spec.
Import ListNotations.
Open Scope Z_scope.
Open Scope list_scope.

(* ------------------------------ types ------------------------------ *)

Lemma np_int_ok : forall b o, np_int b o = true <-> exists z, o = ONpInt b z.
Proof.
  intros b o; split.
  - destruct o; cbn; try discriminate. intros H. apply Z.eqb_eq in H. subst. eauto.
  - intros [z E]. subst. cbn. apply Z.eqb_refl.
Qed.
Lemma check_scalar_ok : forall s o, check_scalar s o = true <-> scalar_instance s o.
Proof.
  intros s o.
  destruct s; cbn [check_scalar scalar_instance]; try apply np_int_ok; split;
    try (destruct o; try discriminate; intros _; eauto; fail);
    try (intros [b [E|E]]; subst; reflexivity);
    try (intros [b E]; subst; reflexivity);
    try (intros [a [b [E|E]]]; subst; reflexivity);
    try (intros [a [b E]]; subst; reflexivity).
Qed.
Lemma decreasing_ok : forall l, decreasing l = true <-> Sorted (fun x y => y <= x) l.
Proof.
  induction l as [|a [|b l] IH]; cbn [decreasing]; split; intros H; auto; try (repeat constructor; fail).
  - apply andb_true_iff in H. destruct H as [H1 H2]. apply Z.leb_le in H1. constructor; [apply IH; auto|constructor; auto].
  - inversion H; subst. inversion H3; subst. apply andb_true_iff. split; [apply Z.leb_le; auto|apply IH; auto].
Qed.
Lemma increasing_ok : forall l, increasing l = true <-> Sorted (fun x y => x <= y) l.
Proof.
  induction l as [|a [|b l] IH]; cbn [increasing]; split; intros H; auto; try (repeat constructor; fail).
  - apply andb_true_iff in H. destruct H as [H1 H2]. apply Z.leb_le in H1. constructor; [apply IH; auto|constructor; auto].
  - inversion H; subst. inversion H3; subst. apply andb_true_iff. split; [apply Z.leb_le; auto|apply IH; auto].
Qed.
Lemma array_check_ok : forall l n b a,
  array_check b n match l with LC => false | LFortran => true end a = true <-> array_instance l n b a.
Proof.
  intros l n b a. unfold array_check, check_rank, array_instance. rewrite !andb_true_iff, Nat.eqb_eq.
  assert (E1 : (match l with LC => false | LFortran => true end || forallb (fun n0 => negb (n0 =? 0)) (a_shape a)) = true
               <-> (l = LC -> Forall (fun x => x <> 0) (a_shape a))).
  { destruct l; cbn.
    - rewrite forallb_forall, Forall_forall. split; intros H; [intros _|]; intros x I.
      + specialize (H x I). apply negb_true_iff, Z.eqb_neq in H. auto.
      + apply negb_true_iff, Z.eqb_neq. apply H; auto.
    - split; auto. discriminate. }
  assert (E2 : (if (1 <? n)%nat then check_order b a else true) = true
               <-> ((1 < n)%nat -> Sorted (fun x y => if b then y <= x else x <= y) (a_strides a))).
  { destruct (1 <? n)%nat eqn:E.
    - apply Nat.ltb_lt in E. unfold check_order. destruct b; [rewrite decreasing_ok|rewrite increasing_ok]; tauto.
    - apply Nat.ltb_ge in E. split; auto. intros _ H. lia. }
  rewrite E1, E2. tauto.
Qed.
Lemma forallb_Forall : forall (A : Type) (f : A -> bool) (P : A -> Prop) l,
  (forall x, f x = true <-> P x) -> (forallb f l = true <-> Forall P l).
Proof.
  intros A f P l H. rewrite forallb_forall, Forall_forall. split; intros G x I; apply H; auto.
Qed.
Lemma check_ok : forall l h t o, check l h t o = true <-> instance l h t o.
Proof.
  intros l h. induction t as [s| |s n b|t IH|t IH|t IH|c]; intros o; cbn [instance].
  - cbn [check]. apply check_scalar_ok.
  - cbn [check]. destruct o; split; intros H; try discriminate; try (destruct H; discriminate); eauto.
  - destruct o as [| | | | | | | | | | | | | | |s0 a| |]; cbn [check]; split; intros H; try discriminate; try (destruct H as [x [H _]]; discriminate).
    + apply andb_true_iff in H. destruct H as [H1 H2]. destruct (scalar_eq_dec s s0); [|discriminate]. subst.
      exists a. split; auto. apply array_check_ok. auto.
    + destruct H as [x [E H]]. inversion E; subst. apply andb_true_iff. split.
      * match goal with |- context [scalar_eq_dec ?x ?x] => destruct (scalar_eq_dec x x); [auto|contradiction] end.
      * apply array_check_ok. auto.
  - destruct o as [| | | | | | | | | | | | |i|i| | |]; cbn [check]; split; intros H; try discriminate; try (destruct H as [x [H _]]; discriminate).
    + exists i. split; auto. apply (forallb_Forall _ _ _ _ IH). auto.
    + destruct H as [x [E H]]. inversion E; subst. apply (forallb_Forall _ _ _ _ IH). auto.
  - destruct o as [| | | | | | | | | | | | |i|i| | |]; cbn [check]; split; intros H; try discriminate; try (destruct H as [x [H _]]; discriminate).
    + exists i. split; auto. apply (forallb_Forall _ _ _ _ IH). auto.
    + destruct H as [x [E H]]. inversion E; subst. apply (forallb_Forall _ _ _ _ IH). auto.
  - destruct o as [| | | | | | | | | | | |os0| | | | |]; cbn [check]; split; intros H; try discriminate; try (destruct H as [x [H _]]; discriminate).
    + exists os0. split; auto. apply (forallb_Forall _ _ _ _ IH). auto.
    + destruct H as [x [E H]]. inversion E; subst. apply (forallb_Forall _ _ _ _ IH). auto.
  - destruct o; cbn [check]; split; intros H; try discriminate; try (destruct H as [x H]; discriminate).
    + apply Nat.eqb_eq in H. subst. eauto.
    + destruct H as [x E]. inversion E; subst. apply Nat.eqb_refl.
Qed.
Lemma instance_not_none : forall l h t, ~ instance l h t ONone.
Proof. intros l h t H. apply check_ok in H. destruct t; cbn in H; try discriminate. destruct s; discriminate. Qed.

Lemma wrap_arg_ok : forall l rnd h p o,
  (accepted l h p o -> exists c, wrap_arg l rnd h true p o = Some c
     /\ ((o = ONone /\ p_default p = Some (fst c) /\ snd c = false) \/ (o <> ONone /\ c = conv l rnd h (p_ty p) o)))
  /\ (~ accepted l h p o -> wrap_arg l rnd h true p o = None).
Proof.
  intros l rnd h [t fin d] o. unfold accepted, wrap_arg. cbn [p_default p_ty]. split.
  - intros [[D E]|I].
    + subst o. destruct d as [v|]; [|congruence]. eexists. split; [reflexivity|]. left. auto.
    + assert (N : o <> ONone) by (intros ->; apply (instance_not_none _ _ _ I)).
      apply check_ok in I. exists (conv l rnd h t o). split; [|right; auto].
      destruct d; rewrite I; [|reflexivity]. destruct o; try reflexivity. congruence.
  - intros N. assert (C : check l h t o = false).
    { destruct (check l h t o) eqn:C; auto. exfalso. apply N. right. apply check_ok. auto. }
    destruct d; rewrite C; [|reflexivity]. destruct o; try reflexivity. exfalso. apply N. left. split; [discriminate|reflexivity].
Qed.
Lemma accepted_dec : forall l h p o, {accepted l h p o} + {~ accepted l h p o}.
Proof.
  intros l h p o. unfold accepted.
  destruct (check l h (p_ty p) o) eqn:C.
  - left. right. apply check_ok. auto.
  - destruct (p_default p) eqn:D.
    + destruct o; try (right; intros [[_ X]|X]; [discriminate|apply check_ok in X; congruence]).
      left. left. split; [discriminate|auto].
    + right. intros [[X _]|X]; [congruence|apply check_ok in X; congruence].
Qed.
Lemma types_main : forall l rnd ps f os h, length ps = length os ->
  (call_wrapper l rnd true ps f os h = TypeErr <-> exists p o, In (p, o) (combine ps os) /\ ~ accepted l h p o).
Proof.
  intros l rnd ps f os h L. unfold call_wrapper.
  assert (G : wrap_args l rnd h true ps os = None <-> exists p o, In (p, o) (combine ps os) /\ ~ accepted l h p o).
  { clear f. revert os L. induction ps as [|p ps IH]; intros [|o os] L; try discriminate; cbn [wrap_args combine In].
    - split; [discriminate|]. intros [p [o [[] _]]].
    - cbn in L. apply Nat.succ_inj in L. specialize (IH os L).
      destruct (wrap_arg_ok l rnd h p o) as [W1 W2].
      destruct (accepted_dec l h p o) as [A|A].
      + destruct (W1 A) as [c [E _]]. rewrite E.
        destruct (wrap_args l rnd h true ps os) as [cs|].
        * split; [discriminate|]. intros [p' [o' [[X|X] N]]]; [inversion X; subst; contradiction|].
          assert (Q : Some cs = None) by (apply IH; eauto). discriminate.
        * split; auto. intros _. destruct IH as [IH _]. destruct (IH eq_refl) as [p' [o' [I N]]]. exists p', o'. auto.
      + rewrite (W2 A). split; auto. intros _. exists p, o. auto. }
  destruct (wrap_args l rnd h true ps os); [|tauto].
  split; [discriminate|]. intros X. apply G in X. discriminate.
Qed.

(* ------------------------------ values ------------------------------ *)

Lemma wrap_id : forall bits z, 0 < bits -> in_range bits z -> wrap bits z = z.
Proof.
  intros bits z B [H1 H2]. unfold wrap.
  assert (P : 2 ^ bits = 2 * 2 ^ (bits - 1)). { rewrite <- Z.pow_succ_r by lia. f_equal. lia. }
  rewrite Z.mod_small; lia.
Qed.
Lemma in_int_ok : forall bits z, in_range bits z -> in_int bits z = true.
Proof. intros bits z [H1 H2]. unfold in_int. apply andb_true_iff. split; [apply Z.leb_le|apply Z.ltb_lt]; auto. Qed.
Lemma conv_scalar_ok : forall rnd l s o, scalar_instance s o -> real rnd o -> simple l o ->
  snd (conv_scalar rnd s o) = false /\ scalar_value o = Some (fst (conv_scalar rnd s o)).
Proof.
  intros rnd l s o I R P.
  destruct s; cbn [scalar_instance] in I;
    repeat match goal with H : exists _, _ |- _ => destruct H as [? H] end;
    try (destruct I as [I|I]); subst o; cbn [real simple] in R, P; try contradiction;
    unfold conv_scalar; cbn [as_long as_double as_complex scalar_value]; cbv zeta.
  all: try (destruct x; cbn; auto; fail).
  all: try (rewrite (in_int_ok 64 _ P), (wrap_id 64) by (auto; lia); auto; fail).
  all: try (destruct R as [_ R]; cbn [fst snd]; rewrite wrap_id by (auto; lia); auto; fail).
  all: try (cbn [fst snd]; rewrite R; auto; fail).
  all: auto.
Qed.

Lemma utf8_nonzero : forall c, valid_char c -> c <> 0 -> Forall (fun b => b <> 0) (utf8 c).
Proof.
  intros c [V1 V2] N. unfold utf8.
  assert (A : forall x, 128 + x mod 64 <> 0). { intros x. pose proof (Z.mod_pos_bound x 64 ltac:(lia)). lia. }
  assert (B : forall x, 0 < x -> 0 <= c / x). { intros x H. apply Z.div_pos; lia. }
  destruct (c <? 128); [constructor; auto|].
  destruct (c <? 2048); [pose proof (B 64 ltac:(lia)); repeat constructor; auto; lia|].
  destruct (c <? 65536); [pose proof (B 4096 ltac:(lia)); repeat constructor; auto; lia|].
  pose proof (B 262144 ltac:(lia)); repeat constructor; auto; lia.
Qed.
Lemma c_string_id : forall b, Forall (fun x => x <> 0) b -> c_string b = b.
Proof. induction b as [|x b IH]; intros H; cbn; auto. inversion H; subst. destruct (x =? 0) eqn:E; [apply Z.eqb_eq in E; contradiction|]. rewrite IH; auto. Qed.
Lemma encode_nonzero : forall s, Forall valid_char s -> Forall (fun c => c <> 0) s -> Forall (fun b => b <> 0) (encode s).
Proof.
  induction s as [|c s IH]; intros V N; cbn; auto. inversion V; inversion N; subst. apply Forall_app. split; [apply utf8_nonzero; auto|apply IH; auto].
Qed.
Lemma conv_str_ok : forall l s, Forall valid_char s -> Forall (fun c => c <> 0 /\ (l = LFortran -> c < 128)) s -> conv_str l s = encode s.
Proof.
  intros l s V P. destruct l; cbn [conv_str].
  - apply c_string_id, encode_nonzero; auto. eapply Forall_impl; [|exact P]. intros c [H _]. exact H.
  - assert (E : encode s = s).
    { clear V. induction P as [|c s [_ A] P IH]; cbn; auto. unfold encode in IH. rewrite IH.
      unfold utf8. specialize (A eq_refl). apply Z.ltb_lt in A. rewrite A. reflexivity. }
    rewrite E. apply firstn_all.
Qed.
Definition element (t : ty) : Prop := match t with Scalar _ | Str => True | _ => False end.
Lemma conv_elem_ok : forall rnd l h t o, element t -> instance l h t o -> real rnd o -> simple l o ->
  snd (conv_elem l rnd t o) = false /\ same h t o (fst (conv_elem l rnd t o)).
Proof.
  intros rnd l h t o E I R P. destruct t; try contradiction; cbn [instance same conv_elem] in *.
  - apply conv_scalar_ok with (l := l); auto.
  - destruct I as [s I]. subst o. cbn [real simple] in R, P. split; auto. cbn [fst]. rewrite conv_str_ok; auto.
    exists s. auto.
Qed.
Lemma conv_all_ok : forall rnd l h t os, element t -> Forall (instance l h t) os -> Forall (real rnd) os -> Forall (simple l) os ->
  snd (conv_all l rnd t os) = false /\ exists vs, fst (conv_all l rnd t os) = CSeq vs /\ Forall2 (same h t) os vs.
Proof.
  intros rnd l h t os E I R P. unfold conv_all. cbn [fst snd].
  induction os as [|o os IH]; cbn.
  - split; auto. exists []. split; auto.
  - inversion I; inversion R; inversion P; subst.
    destruct (IH ltac:(auto) ltac:(auto) ltac:(auto)) as [IH1 [vs [IH2 IH3]]].
    destruct (conv_elem_ok rnd l h t o E) as [C1 C2]; auto.
    split; [rewrite C1; auto|]. eexists. split; [reflexivity|]. constructor; auto. injection IH2 as IH2. rewrite IH2. auto.
Qed.
Lemma conv_ok : forall rnd l h t o, wrappable t -> instance l h t o -> Forall (real rnd) (leaves h o) -> Forall (simple l) (leaves h o) ->
  snd (conv l rnd h t o) = false /\ same h t o (fst (conv l rnd h t o)).
Proof.
  intros rnd l h t o W I R P. destruct t as [s| |s n b|t|t|t|c].
  - assert (L : leaves h o = [o]). { apply check_scalar_ok in I. destruct s, o; cbn in *; try discriminate; auto. }
    rewrite L in *. inversion R; inversion P; subst. apply (conv_elem_ok rnd l h (Scalar s) o); cbn; auto.
  - destruct I as [s I]. subst o. inversion R; inversion P; subst. apply (conv_elem_ok rnd l h Str (OStr s)); cbn; eauto.
  - destruct I as [a [E _]]. subst o. cbn. split; auto. eauto.
  - destruct I as [i [E I]]. subst o. cbn [leaves] in R, P. cbn [conv]. destruct (conv_all_ok rnd l h t (h i) W I R P) as [C1 [vs [C2 C3]]].
    split; auto. cbn [same]. exists i, vs. auto.
  - destruct I as [i [E I]]. subst o. cbn [leaves] in R, P. cbn [conv]. destruct (conv_all_ok rnd l h t (h i) W I R P) as [C1 [vs [C2 C3]]].
    split; auto. cbn [same]. exists i, vs. auto.
  - destruct I as [os [E I]]. subst o. cbn [leaves] in R, P. cbn [conv]. destruct (conv_all_ok rnd l h t os W I R P) as [C1 [vs [C2 C3]]].
    split; auto. cbn [same]. exists os, vs. auto.
  - destruct I as [p E]. subst o. cbn. split; auto. eauto.
Qed.
Lemma values_main : forall l rnd ps f os h, length ps = length os ->
  (forall p o, In (p, o) (combine ps os) -> accepted l h p o /\ wrappable (p_ty p) /\ Forall (real rnd) (leaves h o) /\ Forall (simple l) (leaves h o)) ->
  exists seen h', call_wrapper l rnd true ps f os h = Ran seen false h' /\ length seen = length ps
    /\ forall k p o v, nth_error ps k = Some p -> nth_error os k = Some o -> nth_error seen k = Some v -> sees h p o v.
Proof.
  intros l rnd ps f os h L A. unfold call_wrapper.
  assert (G : exists cs, wrap_args l rnd h true ps os = Some cs /\ length cs = length ps /\ existsb snd cs = false
    /\ forall k p o v, nth_error ps k = Some p -> nth_error os k = Some o -> nth_error (map fst cs) k = Some v -> sees h p o v).
  { clear f. revert os L A. induction ps as [|p ps IH]; intros [|o os] L A; try discriminate; cbn [wrap_args].
    - exists []. repeat split; auto. intros [|k]; discriminate.
    - cbn in L. apply Nat.succ_inj in L. destruct (IH os L) as [cs [E [LC [S N]]]]. { intros; apply A; right; auto. }
      destruct (A p o (or_introl eq_refl)) as [Ac [W [R P]]].
      destruct (proj1 (wrap_arg_ok l rnd h p o) Ac) as [c [E1 D]]. rewrite E1, E. exists (c :: cs).
      assert (Q : snd c = false /\ sees h p o (fst c)).
      { destruct D as [[D1 [D2 D3]]|[D1 D2]].
        - split; auto. left. auto.
        - subst c. destruct Ac as [[_ X]|I]; [contradiction|].
          destruct (conv_ok rnd l h (p_ty p) o W I R P) as [C1 C2]. split; auto. right. auto. }
      destruct Q as [Q1 Q2]. split; [auto|]. split; [cbn; lia|]. split; [cbn; rewrite Q1; auto|].
      intros [|k] p' o' v H1 H2 H3; cbn in H1, H2, H3.
      + congruence.
      + eapply N; eauto. }
  destruct G as [cs [E [LC [S N]]]]. rewrite E, S. eexists. eexists. split; [reflexivity|]. split; [rewrite map_length; auto|auto].
Qed.

(* ------------------------------ results ------------------------------ *)

Lemma result_ok : forall rnd l h s v, typed rnd s v ->
  instance l h (Scalar s) (to_py_scalar s v) /\ scalar_value (to_py_scalar s v) = Some v
  /\ real rnd (to_py_scalar s v) /\ simple l (to_py_scalar s v).
Proof.
  intros rnd l h s v T.
  destruct s; cbn [typed] in T; repeat match goal with H : exists _, _ |- _ => destruct H as [? H] end;
    match type of T with _ /\ _ => destruct T as [T ?] | _ => idtac end; subst v; cbn [to_py_scalar instance scalar_instance scalar_value real simple];
    repeat split; eauto; try (cbn; tauto); try tauto; try (unfold in_range in *; lia).
Qed.
Lemma utf8_length : forall c, (1 <= length (utf8 c))%nat.
Proof. intros c. unfold utf8. destruct (c <? 128), (c <? 2048), (c <? 65536); cbn; lia. Qed.
Lemma decode_one : forall c n r, valid_char c -> decode_from (S n) (utf8 c ++ r) = c :: decode_from n r.
Proof.
  intros c n r [V1 V2]. unfold utf8.
  assert (M : forall x, 0 <= x mod 64 < 64) by (intros; apply Z.mod_pos_bound; lia).
  assert (D1 : c / 64 / 64 = c / 4096) by (rewrite Z.div_div by lia; reflexivity).
  assert (D2 : c / 4096 / 64 = c / 262144) by (rewrite Z.div_div by lia; reflexivity).
  pose proof (Z.div_mod c 64 ltac:(lia)) as E0.
  pose proof (Z.div_mod (c / 64) 64 ltac:(lia)) as E1.
  pose proof (Z.div_mod (c / 4096) 64 ltac:(lia)) as E2.
  pose proof (M c). pose proof (M (c / 64)). pose proof (M (c / 4096)).
  pose proof (Z.div_pos c 64 V1 ltac:(lia)). pose proof (Z.div_pos c 4096 V1 ltac:(lia)). pose proof (Z.div_pos c 262144 V1 ltac:(lia)).
  destruct (c <? 128) eqn:L1.
  { cbn [app decode_from]. rewrite L1. reflexivity. }
  apply Z.ltb_ge in L1.
  destruct (c <? 2048) eqn:L2.
  { apply Z.ltb_lt in L2. cbn [app decode_from].
    assert (c / 64 < 32) by (apply Z.div_lt_upper_bound; lia).
    replace (192 + c / 64 <? 128) with false by (symmetry; apply Z.ltb_ge; lia).
    replace (192 + c / 64 <? 224) with true by (symmetry; apply Z.ltb_lt; lia).
    f_equal. lia. }
  apply Z.ltb_ge in L2.
  destruct (c <? 65536) eqn:L3.
  { apply Z.ltb_lt in L3. cbn [app decode_from].
    assert (c / 4096 < 16) by (apply Z.div_lt_upper_bound; lia).
    replace (224 + c / 4096 <? 128) with false by (symmetry; apply Z.ltb_ge; lia).
    replace (224 + c / 4096 <? 224) with false by (symmetry; apply Z.ltb_ge; lia).
    replace (224 + c / 4096 <? 240) with true by (symmetry; apply Z.ltb_lt; lia).
    f_equal. lia. }
  apply Z.ltb_ge in L3. cbn [app decode_from].
  replace (240 + c / 262144 <? 128) with false by (symmetry; apply Z.ltb_ge; lia).
  replace (240 + c / 262144 <? 224) with false by (symmetry; apply Z.ltb_ge; lia).
  replace (240 + c / 262144 <? 240) with false by (symmetry; apply Z.ltb_ge; lia).
  f_equal. lia.
Qed.
Lemma decode_encode_from : forall s n, Forall valid_char s -> (length s <= n)%nat -> decode_from n (encode s) = s.
Proof.
  induction s as [|c s IH]; intros n V L.
  - destruct n; reflexivity.
  - inversion V; subst. destruct n as [|n]; [cbn in L; lia|]. cbn [encode flat_map]. rewrite decode_one by auto. f_equal. apply IH; auto. cbn in L; lia.
Qed.
Lemma encode_length : forall s, (length s <= length (encode s))%nat.
Proof. induction s as [|c s IH]; cbn; auto. rewrite app_length. pose proof (utf8_length c). unfold encode in IH. lia. Qed.
Lemma string_result : forall s, Forall valid_char s -> Forall (fun c => c <> 0) s -> to_py_elem Str (CStr (flat_map utf8 s)) = OStr s.
Proof.
  intros s V N. cbn [to_py_elem]. change (flat_map utf8 s) with (encode s).
  rewrite c_string_id by (apply encode_nonzero; auto). unfold decode. rewrite decode_encode_from; auto. apply encode_length.
Qed.
Lemma to_py_elem_same : forall rnd h t v, typed_elem rnd t v -> same h t (to_py_elem t v) v.
Proof.
  intros rnd h t v T. destruct t; cbn [typed_elem] in T; try contradiction.
  - apply (result_ok rnd LC h s v T).
  - destruct T as [s [E [V N]]]. subst v. rewrite string_result; auto. exists s. auto.
Qed.

(* ------------------------------ changes of lists ------------------------------ *)

Lemma write_back_other : forall l p o v h j,
  ~ In j (if p_final p then [] else match p_ty p, o with TList _, OList i => [i] | TSet _, OSet i => [i] | _, _ => [] end) ->
  write_back l p o v h j = h j.
Proof.
  intros l [t f d] o v h j N. unfold write_back. cbn [p_final p_ty] in *.
  destruct l; auto. destruct f; auto. destruct t; auto; destruct o; auto; destruct v; auto; unfold set_heap.
  all: destruct (Nat.eqb j i) eqn:E; auto; apply Nat.eqb_eq in E; subst; exfalso; apply N; left; auto.
Qed.
Lemma clean_up_other : forall l ps os vs h j, ~ In j (changeable ps os) -> clean_up l ps os vs h j = h j.
Proof.
  induction ps as [|p ps IH]; intros os vs h j N; cbn [clean_up]; auto.
  destruct os as [|o os]; auto. destruct vs as [|v vs]; auto. cbn [changeable] in N.
  rewrite in_app_iff in N. rewrite IH by tauto. apply write_back_other. tauto.
Qed.
Lemma NoDup_app_l : forall (A : Type) (a b : list A), NoDup (a ++ b) -> NoDup b /\ forall x, In x a -> ~ In x b.
Proof.
  induction a as [|x a IH]; intros b H; cbn in *; [split; auto|]. inversion H; subst. destruct (IH b H3) as [I1 I2].
  split; auto. intros y [E|E]; [subst; intros X; apply H2; apply in_app_iff; auto|auto].
Qed.
Lemma to_py_all : forall rnd h t cs, Forall (typed_elem rnd t) cs -> Forall2 (same h t) (map (to_py_elem t) cs) cs.
Proof. induction 1; cbn [map]; constructor; auto. eapply to_py_elem_same; eauto. Qed.
Lemma clean_up_at : forall rnd ps os vs h k p o t i cs,
  NoDup (changeable ps os) ->
  nth_error ps k = Some p -> nth_error os k = Some o -> nth_error vs k = Some (CSeq cs) ->
  p_final p = false -> (p_ty p = TList t /\ o = OList i) \/ (p_ty p = TSet t /\ o = OSet i) ->
  Forall (typed_elem rnd t) cs ->
  Forall2 (same (clean_up LC ps os vs h) t) (clean_up LC ps os vs h i) cs.
Proof.
  intros rnd. induction ps as [|p0 ps IH]; intros os vs h k p o t i cs D K1 K2 K3 F T C; [destruct k; discriminate|].
  destruct os as [|o0 os]; [destruct k; discriminate|]. destruct vs as [|v0 vs]; [destruct k; discriminate|].
  cbn [clean_up changeable] in *. apply NoDup_app_l in D. destruct D as [D1 D2].
  destruct k as [|k]; cbn in K1, K2, K3.
  - injection K1 as K1; injection K2 as K2; injection K3 as K3. subst p0 o0 v0.
    assert (I : ~ In i (changeable ps os)).
    { apply D2. rewrite F. destruct T as [[T1 T2]|[T1 T2]]; rewrite T1, T2; left; auto. }
    rewrite (clean_up_other LC ps os vs _ i I).
    assert (W : write_back LC p o (CSeq cs) h i = map (to_py_elem t) cs).
    { unfold write_back. rewrite F. destruct T as [[T1 T2]|[T1 T2]]; rewrite T1, T2; unfold set_heap; rewrite Nat.eqb_refl; auto. }
    rewrite W. apply to_py_all with (rnd := rnd). auto.
  - eapply IH; eauto.
Qed.
Lemma lists_main : forall rnd ps f os h seen pending h',
  call_wrapper LC rnd true ps f os h = Ran seen pending h' -> NoDup (changeable ps os) ->
  (forall k p o t i cs,
     nth_error ps k = Some p -> nth_error os k = Some o -> nth_error (f seen) k = Some (CSeq cs) ->
     p_final p = false -> (p_ty p = TList t /\ o = OList i) \/ (p_ty p = TSet t /\ o = OSet i) ->
     Forall (typed_elem rnd t) cs -> Forall2 (same h' t) (h' i) cs)
  /\ (forall j, ~ In j (changeable ps os) -> h' j = h j).
Proof.
  intros rnd ps f os h seen pending h' E D. unfold call_wrapper in E.
  destruct (wrap_args LC rnd h true ps os) as [cs0|]; [|discriminate]. injection E as E1 E2 E3. subst.
  split.
  - intros. eapply clean_up_at; eauto.
  - intros j N. apply clean_up_other. auto.
Qed.

(* ------------------------------ overloads ------------------------------ *)

Lemma index_of_range : forall t ts, In t ts -> 0 <= index_of t ts < Z.of_nat (length ts).
Proof.
  induction ts as [|u ts IH]; intros H; [destruct H|]. cbn [index_of length]. destruct (ty_eq_dec t u); [lia|].
  destruct H as [H|H]; [congruence|]. specialize (IH H). lia.
Qed.
Lemma index_of_inj : forall t u ts, In t ts -> In u ts -> index_of t ts = index_of u ts -> t = u.
Proof.
  induction ts as [|x ts IH]; intros H1 H2 E; [destruct H1|]. cbn [index_of] in E.
  assert (R : forall y, In y (x :: ts) -> y <> x -> In y ts) by (intros y [H|H] N; congruence).
  destruct (ty_eq_dec t x) as [T|T], (ty_eq_dec u x) as [U|U]; try congruence.
  - pose proof (index_of_range u ts (R u H2 U)). lia.
  - pose proof (index_of_range t ts (R t H1 T)). lia.
  - apply IH; auto. lia.
Qed.
Lemma first_type_some : forall l h ts o k, first_type l h ts o = Some k ->
  exists t, In t ts /\ instance l h t o /\ k = index_of t ts.
Proof.
  induction ts as [|u ts IH]; intros o k E; cbn [first_type] in E; [discriminate|].
  destruct (check l h u o) eqn:C.
  - injection E as E. exists u. split; [left; auto|]. split; [apply check_ok; auto|]. cbn. destruct (ty_eq_dec u u); congruence.
  - destruct (first_type l h ts o) as [k'|] eqn:F; [|discriminate]. assert (E2 : k = 1 + k') by congruence.
    destruct (IH o k' F) as [t [I1 [I2 I3]]]. exists t. split; [right; auto|]. split; auto.
    cbn [index_of]. destruct (ty_eq_dec t u) as [Q|Q]; [|lia]. subst u. apply check_ok in I2. congruence.
Qed.
Lemma first_type_none : forall l h ts o, first_type l h ts o = None -> forall t, In t ts -> ~ instance l h t o.
Proof.
  induction ts as [|u ts IH]; intros o E t I; [destruct I|]. cbn in E.
  destruct (check l h u o) eqn:C; [discriminate|]. destruct (first_type l h ts o) eqn:F; [discriminate|].
  destruct I as [I|I]; [subst; intros X; apply check_ok in X; congruence|apply IH; auto].
Qed.
Lemma keys_in : forall ts t, In t (keys ts) <-> In t ts.
Proof.
  assert (G : forall ts acc t, In t (fold_left add_key ts acc) <-> In t acc \/ In t ts).
  { induction ts as [|u ts IH]; intros acc t; cbn [fold_left]; [cbn; tauto|]. rewrite IH. unfold add_key.
    destruct (in_dec ty_eq_dec u acc) as [I|I]; [|rewrite in_app_iff]; cbn; split; intros H; try tauto.
    destruct H as [H|[H|H]]; auto. subst. auto. }
  intros ts t. unfold keys. rewrite G. cbn. tauto.
Qed.

(* an overload is known to a list of columns *)
Fixpoint known (cols : list (bool * list ty)) (f : list param) : Prop :=
  match cols, f with
  | (_, ts) :: cols', p :: f' => In (p_ty p) ts /\ known cols' f'
  | [], [] => True
  | _, _ => False
  end.
Lemma columns_known : forall first fs f, In f fs -> (forall g, In g fs -> length g = length first) -> known (columns fs first) f.
Proof.
  induction first as [|p first IH]; intros fs f I L; cbn [columns known].
  - specialize (L f I). destruct f; [auto|discriminate].
  - pose proof (L f I) as Lf. destruct f as [|q f]; [discriminate|]. split.
    + apply keys_in. apply in_map_iff. exists (q :: f). auto.
    + apply IH.
      * apply in_map_iff. exists (q :: f). auto.
      * intros g G. apply in_map_iff in G. destruct G as [g' [E G]]. subst g. specialize (L g' G). destruct g'; cbn in *; lia.
Qed.
(* the digits of a flag *)
Fixpoint digits (cols : list (bool * list ty)) (f : list param) : list Z :=
  match cols, f with
  | (dflt, ts) :: cols', p :: f' =>
    (if dflt then 0 else if Nat.eqb (length ts) 1 then 0 else index_of (p_ty p) ts) :: digits cols' f'
  | _, _ => []
  end.
Fixpoint radix (cols : list (bool * list ty)) (ds : list Z) : Z :=
  match cols, ds with (_, ts) :: cols', d :: ds' => d + Z.of_nat (length ts) * radix cols' ds' | _, _ => 0 end.
Lemma flag_radix : forall cols f step, flag_of step cols f = step * radix cols (digits cols f).
Proof.
  induction cols as [|[dflt ts] cols IH]; intros f step; cbn [flag_of digits radix]; [destruct f; lia|].
  destruct f as [|p f]; [lia|]. rewrite IH. destruct dflt, (Nat.eqb (length ts) 1); ring.
Qed.
(* what the type check function computes *)
Fixpoint found (l : lang) (h : heap) (cols : list (bool * list ty)) (os : list obj) : option (list Z) :=
  match cols, os with
  | (dflt, ts) :: cols', o :: os' =>
    match (if dflt then Some 0
           else if Nat.eqb (length ts) 1 then (if forallb (fun t => check l h t o) ts then Some 0 else None)
           else first_type l h ts o) with
    | Some d => match found l h cols' os' with Some ds => Some (d :: ds) | None => None end
    | None => None
    end
  | _, _ => Some []
  end.
Definition nonempty (cols : list (bool * list ty)) : Prop := Forall (fun c => snd c <> []) cols.
Lemma indicator_found : forall l h cols os step acc, length cols = length os ->
  indicator l h step acc cols os = match found l h cols os with Some ds => acc + step * radix cols ds | None => -1 end.
Proof.
  induction cols as [|[dflt ts] cols IH]; intros os step acc L; destruct os as [|o os]; try discriminate; cbn [indicator found radix]; [lia|].
  cbn in L. apply Nat.succ_inj in L. cbv zeta. destruct dflt.
  - rewrite IH by auto. destruct (found l h cols os); [cbn [radix]; ring|auto].
  - destruct (Nat.eqb (length ts) 1) eqn:N; cbn [negb].
    + destruct (forallb _ ts); [|auto]. rewrite IH by auto. destruct (found l h cols os); [cbn [radix]; ring|auto].
    + destruct (first_type l h ts o) as [k|]; [|auto]. rewrite IH by auto. destruct (found l h cols os); [cbn [radix]; ring|auto].
Qed.
Fixpoint bounded (cols : list (bool * list ty)) (ds : list Z) : Prop :=
  match cols, ds with
  | (_, ts) :: cols', d :: ds' => 0 <= d < Z.of_nat (length ts) /\ bounded cols' ds'
  | [], [] => True
  | _, _ => False
  end.
Lemma radix_inj : forall cols d e, bounded cols d -> bounded cols e -> radix cols d = radix cols e -> d = e.
Proof.
  induction cols as [|[b ts] cols IH]; intros [|x d] [|y e] B1 B2 E; cbn [bounded radix] in *; try contradiction; auto.
  destruct B1 as [X1 X2], B2 as [Y1 Y2].
  assert (Q : radix cols d = radix cols e) by nia. f_equal; [nia|apply IH; auto].
Qed.
Lemma radix_pos : forall cols d, bounded cols d -> 0 <= radix cols d.
Proof.
  induction cols as [|[b ts] cols IH]; intros [|x d] B; cbn [bounded radix] in *; try contradiction; try lia.
  destruct B as [X1 X2]. specialize (IH d X2). nia.
Qed.
Lemma digits_bounded : forall cols f, known cols f -> bounded cols (digits cols f).
Proof.
  induction cols as [|[dflt ts] cols IH]; intros [|p f] K; cbn [known digits bounded] in *; try contradiction; auto.
  destruct K as [K1 K2]. split; [|apply IH; auto]. pose proof (index_of_range _ _ K1).
  destruct dflt; [lia|]. destruct (Nat.eqb (length ts) 1); lia.
Qed.
Lemma found_bounded : forall l h cols os ds f, known cols f -> length cols = length os -> found l h cols os = Some ds -> bounded cols ds.
Proof.
  induction cols as [|[dflt ts] cols IH]; intros os ds [|p f] K L E; cbn [known] in K; try contradiction; destruct os as [|o os]; try discriminate; cbn [found bounded] in *.
  - injection E as E. subst. auto.
  - destruct K as [K1 K2]. cbn in L. apply Nat.succ_inj in L.
    assert (P : 0 < Z.of_nat (length ts)) by (destruct ts; [destruct K1|cbn; lia]).
    match type of E with match ?x with _ => _ end = _ => destruct x as [d|] eqn:D; [|discriminate] end.
    destruct (found l h cols os) as [ds'|] eqn:F; [|discriminate]. injection E as E. subst ds.
    split; [|eapply IH; eauto].
    destruct dflt; [injection D as D; lia|].
    destruct (Nat.eqb (length ts) 1).
    + destruct (forallb _ ts); [injection D as D; lia|discriminate].
    + apply first_type_some in D. destruct D as [t [I [_ E]]]. subst. apply index_of_range. auto.
Qed.
Lemma select_ok : forall cols fs n z k, select cols fs n z = Some k ->
  exists j f, k = (n + j)%nat /\ nth_error fs j = Some f /\ z = flag_of 1 cols f
    /\ forall i g, (i < j)%nat -> nth_error fs i = Some g -> z <> flag_of 1 cols g.
Proof.
  induction fs as [|f fs IH]; intros n z k E; cbn in E; [discriminate|].
  destruct (z =? flag_of 1 cols f) eqn:Q.
  - injection E as E. apply Z.eqb_eq in Q. exists O, f. split; [lia|]. split; auto. split; auto. intros; lia.
  - apply Z.eqb_neq in Q. destruct (IH (S n) z k E) as [j [g [E1 [E2 [E3 E4]]]]]. exists (S j), g. split; [lia|]. split; auto. split; auto.
    intros [|i] g' L N; cbn in N; [congruence|]. apply (E4 i); auto. lia.
Qed.
Lemma select_none : forall cols fs n z, select cols fs n z = None -> forall f, In f fs -> z <> flag_of 1 cols f.
Proof.
  induction fs as [|f fs IH]; intros n z E g I; [destruct I|]. cbn in E. destruct (z =? flag_of 1 cols f) eqn:Q; [discriminate|].
  apply Z.eqb_neq in Q. destruct I as [I|I]; [congruence|eapply IH; eauto].
Qed.
Lemma columns_plain : forall first fs, (forall p, In p first -> p_default p = None) -> Forall (fun c => fst c = false) (columns fs first).
Proof.
  induction first as [|p first IH]; intros fs H; cbn [columns]; constructor.
  - cbn. rewrite (H p); [auto|left; auto].
  - apply IH. intros q I. apply H. right. auto.
Qed.
(* the digits found are those of an overload that fits *)
Lemma found_fits : forall l h cols f os, Forall (fun c => fst c = false) cols -> known cols f -> length cols = length os ->
  found l h cols os = Some (digits cols f) -> fits l h f os.
Proof.
  intros l h. induction cols as [|[dflt ts] cols IH]; intros [|p f] os P K L E; cbn [known] in K; try contradiction; destruct os as [|o os]; try discriminate.
  - constructor.
  - inversion P; subst. cbn in H1. subst dflt. destruct K as [K1 K2]. cbn in L. apply Nat.succ_inj in L. cbn [found digits] in E.
    destruct (Nat.eqb (length ts) 1) eqn:N.
    + destruct (forallb (fun t => check l h t o) ts) eqn:C; [|discriminate].
      destruct (found l h cols os) as [ds|] eqn:F; [|discriminate]. injection E as E. subst ds.
      constructor; [|apply IH; auto]. apply check_ok. rewrite forallb_forall in C. apply (C (p_ty p) K1).
    + destruct (first_type l h ts o) as [k|] eqn:C; [|discriminate].
      destruct (found l h cols os) as [ds|] eqn:F; [|discriminate]. injection E as E1 E2. subst ds k.
      constructor; [|apply IH; auto]. apply first_type_some in C. destruct C as [t [I1 [I2 I3]]].
      apply index_of_inj in I3; auto. cbn. congruence.
Qed.
Lemma columns_length : forall first fs, length (columns fs first) = length first.
Proof. induction first; intros; cbn; auto. Qed.
Lemma sound_main : forall l h fs os k n,
  (forall f, In f fs -> length f = n) -> length os = n -> no_defaults fs ->
  choose l h fs os = Some k -> exists f, nth_error fs k = Some f /\ fits l h f os.
Proof.
  intros l h [|f0 fs] os k n L Lo D E; cbn [choose] in E; [discriminate|]. cbv zeta in E.
  set (cols := columns (f0 :: fs) f0) in *.
  assert (L0 : length f0 = n) by (apply L; left; auto).
  assert (Lc : length cols = length os) by (unfold cols; rewrite columns_length; lia).
  assert (KN : forall f, In f (f0 :: fs) -> known cols f).
  { intros f I. unfold cols. apply columns_known; auto. intros g G. rewrite (L g G). auto. }
  assert (PL : Forall (fun c => fst c = false) cols). { apply columns_plain. intros p I. apply (D f0 p); auto. left; auto. }
  apply select_ok in E. destruct E as [j [f [E1 [E2 [E3 _]]]]]. cbn in E1. subst j. exists f. split; auto.
  assert (I : In f (f0 :: fs)) by (eapply nth_error_In; eauto).
  apply (found_fits l h cols f os); auto. rewrite indicator_found in E3 by auto. rewrite flag_radix in E3.
  pose proof (digits_bounded cols f (KN f I)) as DB.
  destruct (found l h cols os) as [ds|] eqn:F.
  - f_equal. apply (radix_inj cols); auto; [eapply found_bounded; eauto|lia].
  - pose proof (radix_pos cols _ DB). lia.
Qed.
(* with unambiguous types, an overload that fits has the digits that are found *)
Lemma fits_found : forall l h cols f os, Forall (fun c => fst c = false) cols -> known cols f -> fits l h f os ->
  (forall k ts o t u, nth_error (map snd cols) k = Some ts -> nth_error os k = Some o -> In t ts -> In u ts -> instance l h t o -> instance l h u o -> t = u) ->
  found l h cols os = Some (digits cols f).
Proof.
  intros l h. induction cols as [|[dflt ts] cols IH]; intros [|p f] os P K F U; cbn [known] in K; try contradiction.
  - inversion F; subst. reflexivity.
  - inversion P; subst. cbn in H1. subst dflt. destruct K as [K1 K2]. unfold fits in F. cbn [types_of map] in F.
    inversion F as [|t0 o0 ts0 os0 I F']; subst. cbn [found digits].
    assert (R : found l h cols os0 = Some (digits cols f)).
    { apply IH; auto. intros k ts1 o t u H3 H4. apply (U (S k) ts1 o t u); auto. }
    rewrite R. destruct (Nat.eqb (length ts) 1) eqn:N.
    + apply Nat.eqb_eq in N. destruct ts as [|t1 [|t2 ts]]; try discriminate. destruct K1 as [K1|[]]. subst t1.
      cbn [forallb]. apply check_ok in I. rewrite I. reflexivity.
    + destruct (first_type l h ts o0) as [k|] eqn:C.
      * apply first_type_some in C. destruct C as [t [I1 [I2 I3]]]. subst k. f_equal. f_equal. f_equal.
        apply (U O ts o0 t (p_ty p)); auto.
      * exfalso. apply (first_type_none l h ts o0 C (p_ty p) K1 I).
Qed.
Lemma columns_types : forall first fs k ts t, (forall g, In g fs -> length g = length first) ->
  nth_error (map snd (columns fs first)) k = Some ts -> In t ts -> exists f, In f fs /\ nth_error (types_of f) k = Some t.
Proof.
  induction first as [|p first IH]; intros fs k ts t L N I; cbn [columns map] in N; [destruct k; discriminate|].
  destruct k as [|k]; cbn in N.
  - injection N as N. subst ts. rewrite keys_in in I. apply in_map_iff in I. destruct I as [f [E I]]. pose proof (L f I). destruct f as [|q f]; [discriminate|].
    exists (q :: f). split; auto. cbn. congruence.
  - destruct (IH (map (@tl param) fs) k ts t) as [f [I1 I2]]; auto.
    { intros g G. apply in_map_iff in G. destruct G as [g' [E G]]. subst g. specialize (L g' G). destruct g'; cbn in *; lia. }
    apply in_map_iff in I1. destruct I1 as [f' [E I1]]. subst f. exists f'. split; auto.
    destruct f'; cbn in *; [destruct k; discriminate|auto].
Qed.
Lemma digits_types : forall cols f g, Forall (fun c => fst c = false) cols -> known cols f -> known cols g -> digits cols f = digits cols g -> types_of f = types_of g.
Proof.
  induction cols as [|[dflt ts] cols IH]; intros [|p f] [|q g] P K1 K2 E; cbn [known] in *; try contradiction; auto.
  inversion P; subst. cbn in H1. subst dflt. destruct K1 as [A1 A2], K2 as [B1 B2]. cbn [digits] in E. injection E as E1 E2.
  cbn [types_of map]. f_equal; [|apply IH; auto].
  destruct (Nat.eqb (length ts) 1) eqn:N.
  - apply Nat.eqb_eq in N. destruct ts as [|t1 [|t2 ts]]; try discriminate. destruct A1 as [A1|[]], B1 as [B1|[]]. congruence.
  - apply index_of_inj in E1; auto.
Qed.
Lemma types_digits : forall cols f g, types_of f = types_of g -> digits cols f = digits cols g.
Proof.
  induction cols as [|[dflt ts] cols IH]; intros [|p f] [|q g] E; cbn [types_of map digits] in *; try discriminate; auto.
  injection E as E1 E2. rewrite E1. f_equal. apply IH. auto.
Qed.
Lemma Forall2_length' : forall (A B : Type) (R : A -> B -> Prop) a b, Forall2 R a b -> length a = length b.
Proof. induction 1; cbn; auto. Qed.
Lemma complete_main : forall l h fs os n k f,
  (forall f, In f fs -> length f = n) -> no_defaults fs -> unambiguous l h fs os ->
  nth_error fs k = Some f -> fits l h f os ->
  exists j g, choose l h fs os = Some j /\ nth_error fs j = Some g /\ types_of g = types_of f /\ (j <= k)%nat.
Proof.
  intros l h [|f0 fs] os n k f L D U N F; [destruct k; discriminate|]. cbn [choose]. cbv zeta.
  set (cols := columns (f0 :: fs) f0) in *.
  assert (L0 : length f0 = n) by (apply L; left; auto).
  assert (I : In f (f0 :: fs)) by (eapply nth_error_In; eauto).
  assert (Lo : length os = n).
  { rewrite <- (L f I). unfold fits in F. apply Forall2_length' in F. unfold types_of in F. rewrite map_length in F. auto. }
  assert (Lc : length cols = length os) by (unfold cols; rewrite columns_length; lia).
  assert (LL : forall g, In g (f0 :: fs) -> length g = length f0) by (intros g G; rewrite (L g G); auto).
  assert (KN : forall f, In f (f0 :: fs) -> known cols f) by (intros g G; apply columns_known; auto).
  assert (PL : Forall (fun c => fst c = false) cols). { apply columns_plain. intros p Ip. apply (D f0 p); auto. left; auto. }
  assert (FD : found l h cols os = Some (digits cols f)).
  { apply fits_found; auto. intros k' ts o t u H1 H2 H3 H4.
    destruct (columns_types f0 (f0 :: fs) k' ts t LL H1 H3) as [g1 [G1 G2]].
    destruct (columns_types f0 (f0 :: fs) k' ts u LL H1 H4) as [g2 [G3 G4]].
    apply (U g1 g2 k' t u o); auto. }
  assert (IN : indicator l h 1 0 cols os = flag_of 1 cols f).
  { rewrite indicator_found, FD by auto. rewrite flag_radix. lia. }
  rewrite IN. destruct (select cols (f0 :: fs) 0 (flag_of 1 cols f)) as [j|] eqn:E.
  - apply select_ok in E. destruct E as [j' [g [E1 [E2 [E3 E4]]]]]. cbn in E1. subst j'. exists j, g. split; auto. split; auto. split.
    + assert (Ig : In g (f0 :: fs)) by (eapply nth_error_In; eauto).
      symmetry. apply (digits_types cols); auto. apply (radix_inj cols); try (apply digits_bounded; auto).
      rewrite !flag_radix in E3. lia.
    + destruct (le_lt_dec j k) as [Q|Q]; auto. exfalso. apply (E4 k f Q N). auto.
  - exfalso. apply (select_none _ _ _ _ E f I). auto.
Qed.
Lemma none_main : forall l h fs os n,
  (forall f, In f fs -> length f = n) -> length os = n -> no_defaults fs ->
  (forall f, In f fs -> ~ fits l h f os) -> choose l h fs os = None.
Proof.
  intros l h fs os n L Lo D N. destruct (choose l h fs os) as [k|] eqn:E; auto. exfalso.
  destruct (sound_main l h fs os k n L Lo D E) as [f [E1 E2]]. apply (N f); auto. eapply nth_error_In; eauto.
Qed.

(* the objects that two types have in common *)
Lemma both_orders : forall n b a l l', array_instance l n b a -> array_instance l' n (negb b) a -> (1 < n)%nat -> Sorted (fun x y => x = y) (a_strides a).
Proof.
  intros n b a l l' [_ [_ H1]] [_ [_ H2]] N. specialize (H1 N). specialize (H2 N).
  induction (a_strides a) as [|x s IH]; constructor; inversion H1; inversion H2; subst; auto.
  destruct s; constructor. inversion H4; inversion H8; subst. destruct b; cbn in *; lia.
Qed.
Lemma overlap_main : forall l h t u o, instance l h t o -> instance l h u o -> t = u \/ overlap h t u o.
Proof.
  intros l h. induction t as [s| |s n b|t IH|t IH|t IH|c]; intros u o I J.
  - destruct u; try (exfalso; apply check_ok in I; apply check_ok in J; destruct s, o; cbn in *; discriminate).
    apply check_ok in I. apply check_ok in J. cbn [check] in I, J.
    destruct s, s0; auto; destruct o; cbn in I, J; try discriminate; try (right; cbn; eauto; fail).
    all: apply Z.eqb_eq in I; apply Z.eqb_eq in J; lia.
  - destruct I as [x I]. subst o. destruct u; auto; cbn [instance] in J; exfalso.
    all: try (destruct s; cbn in J; repeat match goal with H : exists _, _ |- _ => destruct H as [? H] end; intuition discriminate).
    all: repeat match goal with H : exists _, _ |- _ => destruct H as [? H] end; intuition discriminate.
  - destruct I as [a [I1 I2]]. subst o. destruct u; try (exfalso; apply check_ok in J; cbn in J; try destruct s0; discriminate).
    destruct J as [a' [J1 J2]]. injection J1 as J1 J3. subst a' s0.
    assert (rank = n) by (destruct I2 as [I2 _], J2 as [J2 _]; congruence). subst rank.
    destruct (bool_dec b c_order) as [E|E]; [subst; auto|]. right.
    assert (c_order = negb b) by (destruct b, c_order; auto; congruence). subst c_order. cbn. repeat split; auto.
    exists a. split; auto. intros N. apply (both_orders n b a l l); auto.
  - destruct I as [i [I1 I2]]. subst o. destruct u; try (exfalso; apply check_ok in J; cbn in J; try destruct s; discriminate).
    destruct J as [i' [J1 J2]]. injection J1 as J1. subst i'.
    destruct (ty_eq_dec t u) as [E|E]; [subst; auto|]. right. cbn. exists i. split; auto.
    rewrite Forall_forall in *. intros x X. destruct (IH u x (I2 x X) (J2 x X)); [congruence|auto].
  - destruct I as [i [I1 I2]]. subst o. destruct u; try (exfalso; apply check_ok in J; cbn in J; try destruct s; discriminate).
    destruct J as [i' [J1 J2]]. injection J1 as J1. subst i'.
    destruct (ty_eq_dec t u) as [E|E]; [subst; auto|]. right. cbn. exists i. split; auto.
    rewrite Forall_forall in *. intros x X. destruct (IH u x (I2 x X) (J2 x X)); [congruence|auto].
  - destruct I as [i [I1 I2]]. subst o. destruct u; try (exfalso; apply check_ok in J; cbn in J; try destruct s; discriminate).
    destruct J as [i' [J1 J2]]. injection J1 as J1. subst i'.
    destruct (ty_eq_dec t u) as [E|E]; [subst; auto|]. right. cbn. exists i. split; auto.
    rewrite Forall_forall in *. intros x X. destruct (IH u x (I2 x X) (J2 x X)); [congruence|auto].
  - destruct I as [p I]. subst o. destruct u; try (exfalso; apply check_ok in J; cbn in J; try destruct s; discriminate).
    destruct J as [p' J]. injection J as J1 J2. subst. auto.
Qed.

(* calls in the translated code *)
Lemma matches_ok : forall args f, matches args f = true <-> (length args <= length f)%nat /\ args = firstn (length args) (types_of f).
Proof.
  induction args as [|a args IH]; intros [|p f]; cbn [matches length firstn types_of map]; split; intros H; auto; try discriminate; try (split; [lia|auto]; fail).
  - destruct H; lia.
  - apply andb_true_iff in H. destruct H as [H1 H2]. destruct (ty_eq_dec a (p_ty p)); [|discriminate]. apply IH in H2. destruct H2 as [H2 H3].
    split; [lia|]. f_equal; auto.
  - destruct H as [H1 H2]. injection H2 as H2 H3. apply andb_true_iff. split.
    + destruct (ty_eq_dec a (p_ty p)); congruence.
    + apply IH. split; [lia|auto].
Qed.
Lemma point_some : forall fs args n k, point fs args n = Some k ->
  exists j f, k = (n + j)%nat /\ nth_error fs j = Some f /\ matches args f = true /\ forall i g, (i < j)%nat -> nth_error fs i = Some g -> matches args g = false.
Proof.
  induction fs as [|f fs IH]; intros args n k E; cbn in E; [discriminate|]. destruct (matches args f) eqn:M.
  - injection E as E. exists O, f. split; [lia|]. split; auto. split; auto. intros; lia.
  - destruct (IH args (S n) k E) as [j [g [E1 [E2 [E3 E4]]]]]. exists (S j), g. split; [lia|]. split; auto. split; auto.
    intros [|i] g' L N; cbn in N; [congruence|]. apply (E4 i); auto. lia.
Qed.
Lemma point_none : forall fs args n, point fs args n = None -> forall f, In f fs -> matches args f = false.
Proof.
  induction fs as [|f fs IH]; intros args n E g I; [destruct I|]. cbn in E. destruct (matches args f) eqn:M; [discriminate|].
  destruct I as [I|I]; [congruence|eapply IH; eauto].
Qed.

(* a wrapper in an interface does what the wrapper with its own checks does *)
Lemma wrap_args_false : forall l rnd h ps os cs, wrap_args l rnd h true ps os = Some cs -> wrap_args l rnd h false ps os = Some cs.
Proof.
  induction ps as [|p ps IH]; intros os cs E; cbn [wrap_args] in *; auto. destruct os as [|o os]; auto.
  destruct (wrap_arg l rnd h true p o) as [c|] eqn:W; [|discriminate].
  assert (W' : wrap_arg l rnd h false p o = Some c).
  { unfold wrap_arg in *. destruct (p_default p); auto. cbn [negb orb] in *. destruct (check l h (p_ty p) o); [auto|discriminate]. }
  rewrite W'. destruct (wrap_args l rnd h true ps os) as [cs'|] eqn:E'; [|discriminate]. rewrite (IH os cs' E'). auto.
Qed.
Lemma call_wrapper_false : forall l rnd ps f os h s b h', call_wrapper l rnd true ps f os h = Ran s b h' -> call_wrapper l rnd false ps f os h = Ran s b h'.
Proof.
  intros l rnd ps f os h s b h' E. unfold call_wrapper in *. destruct (wrap_args l rnd h true ps os) as [cs|] eqn:W; [|discriminate].
  rewrite (wrap_args_false _ _ _ _ _ _ W). auto.
Qed.
Lemma fits_accepted : forall l h f os p o, fits l h f os -> In (p, o) (combine f os) -> accepted l h p o.
Proof.
  intros l h f os p o F I. unfold fits, types_of in F. revert os F I. induction f as [|q f IH]; intros os F I; [destruct I|].
  cbn [map] in F. inversion F; subst. cbn in I. destruct I as [I|I]; [inversion I; subst; right; auto|eapply IH; eauto].
Qed.
Lemma call_main : forall l rnd fs bodies os h n k f,
  (forall f, In f fs -> length f = n) -> no_defaults fs -> unambiguous l h fs os ->
  nth_error fs k = Some f -> fits l h f os -> (forall t, In t (types_of f) -> wrappable t) ->
  (forall o, In o os -> Forall (real rnd) (leaves h o) /\ Forall (simple l) (leaves h o)) ->
  exists j g seen h', call_interface l rnd fs bodies os h = Some (j, Ran seen false h') /\ nth_error fs j = Some g
    /\ types_of g = types_of f /\ length seen = n
    /\ forall i t o v, nth_error (types_of f) i = Some t -> nth_error os i = Some o -> nth_error seen i = Some v -> same h t o v.
Proof.
  intros l rnd fs bodies os h n k f L D U N F W C.
  destruct (complete_main l h fs os n k f L D U N F) as [j [g [E [G [T _]]]]].
  assert (Ig : In g fs) by (eapply nth_error_In; eauto).
  assert (Fg : fits l h g os) by (unfold fits; rewrite T; exact F).
  assert (Lg : length g = length os).
  { unfold fits in Fg. apply Forall2_length' in Fg. unfold types_of in Fg. rewrite map_length in Fg. auto. }
  destruct (values_main l rnd g (bodies j) os h Lg) as [seen [h' [V1 [V2 V3]]]].
  { intros p o I. split; [eapply fits_accepted; eauto|]. split.
    - apply W. rewrite <- T. apply in_map. apply in_combine_l in I. auto.
    - apply C. apply in_combine_r in I. auto. }
  exists j, g, seen, h'. unfold call_interface. rewrite E.
  assert (NT : nth j fs [] = g) by (apply nth_error_nth; auto). rewrite NT, (call_wrapper_false _ _ _ _ _ _ _ _ _ V1).
  repeat split; auto; [rewrite V2; auto|].
  intros i t o v H1 H2 H3. rewrite <- T in H1. unfold types_of in H1. rewrite nth_error_map in H1.
  destruct (nth_error g i) as [p|] eqn:P; [|discriminate]. injection H1 as H1.
  destruct (V3 i p o v P H2 H3) as [[O _]|[_ S]]; [|congruence].
  exfalso. subst o. assert (A : instance l h t ONone).
  { unfold fits in Fg. rewrite <- H1. clear - Fg P H2. unfold types_of in Fg. revert g os Fg P H2. induction i as [|i IH]; intros g os F P H; destruct g, os; try discriminate; inversion F; subst.
    - cbn in P, H. injection P as P. injection H as H. subst. auto.
    - eapply IH; eauto. }
  apply (instance_not_none _ _ _ A).
Qed.
