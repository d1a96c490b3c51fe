(* Proofs for Alloc: the generated code does what Python does. *)
From Coq Require Import Bool Arith ZArith Lia List.
From Verif Require Import Alloc_Model Alloc_Spec Alloc_Static.
Import ListNotations.
Open Scope list_scope.

Definition fits (st : list (option Z)) (sh : list Z) : Prop := Forall2 (fun o n => match o with Some m => m = n | None => True end) st sh.

Lemma fits_none (st : list (option Z)) sh : length st = length sh -> fits (map (fun _ => None) st) sh.
Proof. revert sh. induction st; destruct sh; cbn; intros; try discriminate; constructor; auto. apply IHst. congruence. Qed.
Lemma fits_length st sh : fits st sh -> length st = length sh.
Proof. induction 1; cbn; auto. Qed.
Lemma fits_weaker st st' sh : weaker st st' -> fits st sh -> fits st' sh.
Proof. intros [->| ->] F; [exact F|apply fits_none, fits_length, F]. Qed.
Lemma fits_loose st sh : no_literal st -> length st = length sh -> fits st sh.
Proof. intros N. revert sh. induction N; destruct sh; cbn; intros; try discriminate; constructor; auto; [subst; auto|]. apply IHN. congruence. Qed.
Lemma fits_fixed ds sh : fits (map Some ds) sh <-> sh = ds.
Proof.
  split.
  - revert sh. induction ds; cbn; intros sh F; inversion F; subst; auto. f_equal. auto.
  - intros ->. induction ds; cbn; constructor; auto.
Qed.

(* ------------------------------ expressions ------------------------------ *)

Definition agrees (ps : pstate) (cs : gstate) (K : list nat) : Prop :=
  g_env cs = p_env ps /\ forall y, In y K -> exists sh v, p_arr ps y = Some (sh, v) /\ g_arr cs y = mk_cell sh (Some (Some v)).

Lemma agrees_sub ps cs K K' : (forall y, In y K' -> In y K) -> agrees ps cs K -> agrees ps cs K'.
Proof. intros H [A B]. split; auto. Qed.

Lemma eval_ok l ps cs ds : forall sh, agrees ps cs (flat_map dim_reads ds) -> py_dims ps ds = Some sh -> eval_dims l cs ds = Some sh.
Proof.
  induction ds as [|d ds IH]; cbn; intros sh A H; [exact H|].
  destruct (py_dim ps d) as [n|] eqn:D; [|discriminate]. destruct (py_dims ps ds) as [r|] eqn:R; [|discriminate].
  destruct (n <? 0)%Z; [discriminate|]. rewrite (IH r (agrees_sub _ _ _ _ (fun y h => in_or_app _ _ _ (or_intror h)) A) eq_refl).
  assert (E : eval_dim l cs d = Some n).
  { destruct A as [A B]. destruct d as [m|v|y i]; cbn in *; [exact D|rewrite A; exact D|].
    destruct (B y (or_introl eq_refl)) as (sh' & v & P & C). rewrite P in D. rewrite C. cbn. destruct l; exact D. }
  rewrite E. exact H.
Qed.
Lemma own_eval_gen l cs y sh v st : g_arr cs y = mk_cell sh (Some v) -> forall i, fits st (skipn i sh) -> eval_dims l cs (own_dims y i st) = Some (skipn i sh).
Proof.
  intros C. induction st as [|o st IH]; intros i F.
  - inversion F as [E|]; subst. reflexivity.
  - inversion F as [|? n ? r E F' Q1 Q2]; subst.
    assert (N : nth_error sh i = Some n /\ skipn (S i) sh = r).
    { clear - Q2. revert i Q2. induction sh as [|m sh IH]; intros i Q2; [rewrite skipn_nil in Q2; discriminate|].
      destruct i; cbn in *; [injection Q2 as -> ->; auto|apply IH, Q2]. }
    destruct N as [N1 N2]. specialize (IH (S i)). rewrite N2 in IH. specialize (IH F').
    destruct o as [m|]; cbn [own_dims eval_dims eval_dim].
    + rewrite IH. subst m. reflexivity.
    + rewrite C. cbn [is_null c_data c_shape]. rewrite IH, N1. destruct l; reflexivity.
Qed.
Lemma own_eval l cs y sh v st : g_arr cs y = mk_cell sh (Some v) -> fits st sh -> eval_dims l cs (own_dims y 0 st) = Some sh.
Proof. intros C F. apply (own_eval_gen l cs y sh v st C 0%nat F). Qed.

Lemma rhs_eval l a ps cs r sh v : agrees ps cs (rhs_reads r) ->
  (forall y sh' v', In y (rhs_reads r) -> p_arr ps y = Some (sh', v') -> fits (a_shape a y) sh') ->
  py_rhs ps r = Some (sh, v) -> eval_dims l cs (rhs_dims a r) = Some sh.
Proof.
  intros A S H. destruct r as [ds f|call y ys f|ds f]; cbn in *.
  - destruct (py_dims ps ds) as [sh'|] eqn:D; [|discriminate]. injection H as <- <-. apply (eval_ok _ _ _ _ _ A D).
  - destruct (p_arr ps y) as [[sh' v']|] eqn:P; [|discriminate].
    destruct (py_operands ps sh' ys) as [vs|]; [|discriminate]. destruct (list_eq_dec Z.eq_dec sh' sh'); [|discriminate]. injection H as <- <-.
    destruct A as [_ A]. destruct (A y (or_introl eq_refl)) as (sh2 & v2 & Q & C). rewrite P in Q. injection Q as <- <-.
    apply (own_eval _ _ _ _ _ _ C). apply (S y sh' v' (or_introl eq_refl) P).
  - destruct (py_dims ps ds) as [sh'|] eqn:D; [|discriminate]. injection H as <- <-. apply (eval_ok _ _ _ _ _ A D).
Qed.
Lemma fits_static l cs ds : forall sh, eval_dims l cs ds = Some sh -> fits (map static_of ds) sh.
Proof.
  induction ds as [|d ds IH]; cbn; intros sh H; [injection H as <-; constructor|].
  destruct (eval_dim l cs d) as [n|] eqn:D; [|discriminate]. destruct (eval_dims l cs ds) as [r|]; [|discriminate]. injection H as <-.
  constructor; [|apply IH; reflexivity]. destruct d; cbn in *; auto. congruence.
Qed.

Lemma eval_other l cs cs' x ds : g_env cs' = g_env cs -> (forall y, y <> x -> g_arr cs' y = g_arr cs y) -> ~ In x (flat_map dim_reads ds) ->
  eval_dims l cs' ds = eval_dims l cs ds.
Proof.
  intros E O'. induction ds as [|d ds IH]; cbn; intros N; [reflexivity|]. rewrite in_app_iff in N. rewrite IH by tauto.
  assert (Q : eval_dim l cs' d = eval_dim l cs d).
  { destruct d as [m|v|y i]; cbn in *; [reflexivity|congruence|]. rewrite O' by (intros ->; tauto). reflexivity. }
  rewrite Q. reflexivity.
Qed.

(* ------------------------------ Allocate ------------------------------ *)

Definition only (x : nat) (cs cs' : gstate) : Prop := g_env cs' = g_env cs /\ g_leak cs' = g_leak cs /\ forall y, y <> x -> g_arr cs' y = g_arr cs y.
Lemma only_trans x a b c : only x a b -> only x b c -> only x a c.
Proof. intros (A1 & A2 & A3) (B1 & B2 & B3). repeat split; [congruence|congruence|]. intros y Y. rewrite B3, A3; auto. Qed.
Lemma only_set x cs cl : only x cs (set_cell cs x cl).
Proof. repeat split. intros y Y. cbn. apply upd_other, Y. Qed.
Lemma set_at cs x cl : g_arr (set_cell cs x cl) x = cl.
Proof. cbn. apply upd_same. Qed.

Lemma fresh_ok l cs x ds sh : eval_dims l cs ds = Some sh -> fresh l cs x ds = ONext (set_cell cs x (mk_cell sh (Some None))).
Proof. unfold fresh. intros ->. reflexivity. Qed.

Lemma run_alloc_ok l cs x ds st sh : ~ In x (flat_map dim_reads ds) -> eval_dims l cs ds = Some sh ->
  (st = Unallocated -> is_null (g_arr cs x) = true) -> (st = Allocated -> is_null (g_arr cs x) = false) ->
  (l = LFortran -> length sh = 1%nat /\ (is_null (g_arr cs x) = false -> length (c_shape (g_arr cs x)) = 1%nat)) ->
  (exists cs1 d, run_alloc l x ds st false cs = ONext cs1 /\ only x cs cs1 /\ g_arr cs1 x = mk_cell sh (Some d))
  /\ (exists cs1, run_alloc l x ds st true cs = ONext cs1 /\ only x cs cs1 /\ is_null (g_arr cs1 x) = true).
Proof.
  intros N E U A R.
  assert (EF : eval_dims l (free cs x) ds = Some sh).
  { rewrite (eval_other l cs (free cs x) x ds); auto. intros y Y. cbn. apply upd_other, Y. }
  assert (NF : is_null (g_arr (free cs x) x) = true) by (unfold free; rewrite set_at; reflexivity).
  destruct l.
  - (* C *)
    assert (Q : exists s1, only x cs s1 /\ is_null (g_arr s1 x) = true /\ eval_dims LC s1 ds = Some sh
        /\ s1 = match st with Unallocated => cs | Allocated | Unknown => free cs x end).
    { destruct st; eexists; (split; [|split; [|split; [|reflexivity]]]); auto; try apply only_set. repeat split. }
    destruct Q as (s1 & O1 & N1 & E1 & ES). split.
    + exists (set_cell s1 x (mk_cell sh (Some None))), None. split; [|split].
      * unfold run_alloc. rewrite <- ES. unfold lose. rewrite N1. apply fresh_ok, E1.
      * apply (only_trans _ _ _ _ O1), only_set.
      * apply set_at.
    + exists s1. split; [|split; auto]. unfold run_alloc. rewrite <- ES. reflexivity.
  - (* Fortran *)
    destruct (R eq_refl) as [R1 R2]. split.
    + unfold run_alloc.
      assert (Q : is_null (g_arr cs x) = false ->
        exists cs1 d, (if existsb (fun n => negb (product (c_shape (g_arr cs x)) =? n)%Z) sh then fresh LFortran (free cs x) x ds else ONext cs) = ONext cs1
          /\ only x cs cs1 /\ g_arr cs1 x = mk_cell sh (Some d)).
      { intros NN. specialize (R2 NN). destruct sh as [|n [|? ?]]; try discriminate.
        destruct (c_shape (g_arr cs x)) as [|m [|? ?]] eqn:CS; try discriminate.
        unfold product. cbn [fold_right existsb]. rewrite Z.mul_1_r, orb_false_r. destruct (m =? n)%Z eqn:MN; cbn [negb].
        - apply Z.eqb_eq in MN. subst m. destruct (g_arr cs x) as [s [d|]] eqn:GX; cbn in *; [|discriminate]. subst s.
          exists cs, d. repeat split. exact GX.
        - exists (set_cell (free cs x) x (mk_cell [n] (Some None))), None. split; [apply fresh_ok, EF|]. split; [|apply set_at].
          eapply only_trans; apply only_set. }
      assert (Q0 : is_null (g_arr cs x) = true -> exists cs1 d, fresh LFortran cs x ds = ONext cs1 /\ only x cs cs1 /\ g_arr cs1 x = mk_cell sh (Some d)).
      { intros _. exists (set_cell cs x (mk_cell sh (Some None))), None. split; [apply fresh_ok, E|]. split; [apply only_set|apply set_at]. }
      rewrite E. destruct (is_null (g_arr cs x)) eqn:NX.
      * destruct st; [apply Q0; reflexivity|specialize (A eq_refl); discriminate|apply Q0; reflexivity].
      * destruct st; [specialize (U eq_refl); discriminate|apply Q; reflexivity|apply Q; reflexivity].
    + unfold run_alloc. destruct st.
      * exists cs. repeat split. apply U; reflexivity.
      * rewrite (A eq_refl). exists (free cs x). split; [reflexivity|]. split; [apply only_set|exact NF].
      * exists (free cs x). split; [reflexivity|]. split; [apply only_set|exact NF].
Qed.

Lemma zlist_refl l : zlist_eqb l l = true.
Proof. induction l; cbn; rewrite ?Z.eqb_refl; auto. Qed.
Lemma contents_ok ps cs sh ys : forall vs, agrees ps cs ys -> py_operands ps sh ys = Some vs ->
  contents cs ys = Some (map Some vs) /\ forallb (fun z => zlist_eqb (c_shape (g_arr cs z)) sh) ys = true.
Proof.
  induction ys as [|y ys IH]; cbn; intros vs A H; [injection H as <-; auto|].
  destruct A as [A0 A]. destruct (A y (or_introl eq_refl)) as (sh' & v & P & C). rewrite P in H.
  destruct (py_operands ps sh ys) as [r|] eqn:R; [|discriminate]. destruct (list_eq_dec Z.eq_dec sh sh') as [<-|]; [|discriminate].
  injection H as <-. destruct (IH r (conj A0 (fun z h => A z (or_intror h))) eq_refl) as [I1 I2].
  rewrite C, I1, I2. cbn. rewrite zlist_refl. auto.
Qed.
Lemma all_some_map vs : all_some (map Some vs) = Some vs.
Proof. induction vs; cbn; [reflexivity|]. rewrite IHvs. reflexivity. Qed.

Lemma run_assign_ok l ps cs x r sh v : agrees ps cs (rhs_reads r) -> py_rhs ps r = Some (sh, v) ->
  (is_user r = false -> c_shape (g_arr cs x) = sh /\ is_null (g_arr cs x) = false) -> (is_user r = true -> is_null (g_arr cs x) = true) ->
  run_assign l x r cs = ONext (set_cell cs x (mk_cell sh (Some (Some v)))).
Proof.
  intros A H C N. destruct r as [ds f|call y ys f|ds f]; cbn [run_assign py_rhs is_user rhs_reads] in *.
  - destruct (C eq_refl) as [C1 C2]. rewrite C1, C2. destruct (py_dims ps ds); [|discriminate]. injection H as <- <-. rewrite (proj1 A). reflexivity.
  - destruct (C eq_refl) as [C1 C2]. rewrite C2. destruct (p_arr ps y) as [[sh' v']|]; [|discriminate].
    destruct (py_operands ps sh' (y :: ys)) as [vs|] eqn:P; [|discriminate]. cbn [option_map] in H. injection H as E1 E2. subst sh' v. rewrite C1.
    destruct (contents_ok _ _ _ _ _ A P) as [I1 I2]. rewrite I1, I2, all_some_map. reflexivity.
  - destruct (py_dims ps ds) as [sh'|] eqn:D; [|discriminate]. injection H as <- <-. rewrite (eval_ok l _ _ _ _ A D).
    unfold lose. rewrite (N eq_refl), (proj1 A). destruct l; reflexivity.
Qed.

(* ------------------------------ the simulation ------------------------------ *)

Record rel (kind : nat -> skind) (rank : nat -> nat) (hold fz : list nat) (F : nat -> list Z) (U : list nat) (c : cst) (a : an) (ps : pstate) (cs : gstate) : Prop := mk_rel {
  r_env : g_env cs = p_env ps;
  r_leak : g_leak cs = O;
  r_known : forall x, In x (known c) -> exists sh v, p_arr ps x = Some (sh, v) /\ g_arr cs x = mk_cell sh (Some (Some v)) /\ fits (a_shape a x) sh;
  r_full : forall x, is_null (g_arr cs x) = false -> In x (a_frees a) \/ In x U;
  r_null : forall x, ~ In x (seen c) \/ In x (pend c) \/ In x hold -> ~ In x U -> is_null (g_arr cs x) = true;
  r_fz : forall x, In x fz -> kind x = Free -> c_shape (g_arr cs x) = F x;
  r_rank : forall x, is_null (g_arr cs x) = false -> length (c_shape (g_arr cs x)) = rank x
}.

Lemma rel_move kind rank hold fz F U c a c2 a2 ps cs : rel kind rank hold fz F U c a ps cs ->
  (forall x, In x (known c2) -> In x (known c)) -> (forall x, In x (known c2) -> weaker (a_shape a x) (a_shape a2 x)) ->
  (forall x, In x (a_frees a) -> In x (a_frees a2)) ->
  (forall x, ~ In x (seen c2) \/ In x (pend c2) -> ~ In x (seen c) \/ In x (pend c)) ->
  rel kind rank hold fz F U c2 a2 ps cs.
Proof.
  intros R K W FR P. constructor; try apply R.
  - intros x H. destruct (r_known _ _ _ _ _ _ _ _ _ _ R x (K x H)) as (sh & v & A & B & C). exists sh, v. repeat split; auto.
    apply (fits_weaker _ _ _ (W x H) C).
  - intros x H. destruct (r_full _ _ _ _ _ _ _ _ _ _ R x H); auto.
  - intros x H N. apply (r_null _ _ _ _ _ _ _ _ _ _ R x); [|exact N]. destruct H as [H|[H|H]]; [| |auto].
    + destruct (P x (or_introl H)); auto.
    + destruct (P x (or_intror H)); auto.
Qed.

Lemma agrees_rel kind rank hold fz F U c a ps cs K : rel kind rank hold fz F U c a ps cs -> (forall x, In x K -> In x (known c)) -> agrees ps cs K.
Proof.
  intros R H. split; [apply R|]. intros y Y. destruct (r_known _ _ _ _ _ _ _ _ _ _ R y (H y Y)) as (sh & v & A & B & _). eauto.
Qed.

(* cs' is cs with a new array x *)
Lemma rel_set kind rank hold fz F U c a c' a' ps cs cs' x sh v : rel kind rank hold fz F U c a ps cs ->
  only x cs cs' -> g_arr cs' x = mk_cell sh (Some (Some v)) -> fits (a_shape a' x) sh -> length (a_shape a' x) = rank x ->
  (forall y, In y (known c') -> y = x \/ In y (known c)) -> (forall y, y <> x -> a_shape a' y = a_shape a y) ->
  (forall y, In y (a_frees a) -> In y (a_frees a')) -> In x (a_frees a') ->
  (forall y, ~ In y (seen c') \/ In y (pend c') \/ In y hold -> y <> x /\ (~ In y (seen c) \/ In y (pend c) \/ In y hold)) ->
  (In x fz -> kind x = Free -> sh = F x) ->
  rel kind rank hold fz F U c' a' (py_bind ps x (sh, v)) cs'.
Proof.
  intros R (O1 & O2 & O3) CX FX LX K S F1 F2 N FZ. constructor.
  - rewrite O1. apply R.
  - rewrite O2. apply R.
  - intros y Y. cbn [py_bind p_arr]. destruct (Nat.eqb y x) eqn:E.
    + apply Nat.eqb_eq in E. subst y. exists sh, v. auto.
    + apply Nat.eqb_neq in E. destruct (K y Y) as [?|Y']; [tauto|]. rewrite O3, S by exact E. apply (r_known _ _ _ _ _ _ _ _ _ _ R y Y').
  - intros y Y. destruct (Nat.eq_dec y x) as [->|E]; [auto|]. rewrite O3 in Y by exact E. destruct (r_full _ _ _ _ _ _ _ _ _ _ R y Y); auto.
  - intros y Y NU. destruct (N y Y) as [E Y']. rewrite O3 by exact E. apply (r_null _ _ _ _ _ _ _ _ _ _ R y Y' NU).
  - intros y Y KF. destruct (Nat.eq_dec y x) as [->|E]; [rewrite CX; cbn; auto|]. rewrite O3 by exact E. apply (r_fz _ _ _ _ _ _ _ _ _ _ R y Y KF).
  - intros y Y. destruct (Nat.eq_dec y x) as [->|E]; [rewrite CX; cbn; rewrite <- (fits_length _ _ FX); exact LX|].
    rewrite O3 in * by exact E. apply (r_rank _ _ _ _ _ _ _ _ _ _ R y Y).
Qed.

Definition holds_ok (hold : list nat) (c : cst) : Prop := forall x, In x hold -> In x (seen c) /\ ~ In x (known c) /\ ~ In x (pend c).

Lemma assign_sim kind rank l lp hold fz F U c a c' g a' ps cs x r sh v :
  (l = LFortran -> forall y, rank y = 1%nat) -> (lp = false -> U = []) -> (forall y, In y fz -> In y (known c)) -> holds_ok hold c ->
  check_assign kind rank fz x r c = Some c' -> good kind rank lp c a -> visit_assign lp x r a = (g, a') ->
  rel kind rank hold fz F U c a ps cs -> py_rhs ps r = Some (sh, v) ->
  forall fuel, exists cs', run_block l fuel g cs = ONext cs' /\ rel kind rank hold fz F U c' a' (py_bind ps x (sh, v)) cs'.
Proof.
  intros HL HU HF HH H G V R P fuel.
  pose proof (assign_static _ _ _ _ _ _ _ _ _ _ _ H G V) as [G' T].
  destruct (assign_cases _ _ _ _ _ _ _ _ _ H G) as [A B]. rewrite V in A, B. cbn [fst snd] in A, B.
  assert (RD : forall y, In y (rhs_reads r) -> In y (known c)).
  { destruct B as [(_ & _ & _ & B & _)|[(_ & _ & _ & B & _)|(_ & _ & B & _)]]; exact B. }
  assert (ST : forall y sh' v', In y (rhs_reads r) -> p_arr ps y = Some (sh', v') -> fits (a_shape a y) sh').
  { intros y sh' v' Y Q. destruct (r_known _ _ _ _ _ _ _ _ _ _ R y (RD y Y)) as (s2 & v2 & Q1 & _ & Q3). rewrite Q in Q1. injection Q1 as <- <-. exact Q3. }
  pose proof (agrees_rel _ _ _ _ _ _ _ _ _ _ _ R RD) as AG.
  pose proof (rhs_eval l _ _ _ _ _ _ AG ST P) as EV.
  assert (KX : In x (known c')).
  { destruct B as [(-> & _ & K & _)|[(K & -> & _)|(_ & -> & _)]]; cbn; auto. }
  assert (KS : forall y, In y (known c') -> y = x \/ In y (known c)).
  { destruct B as [(-> & _)|[(_ & -> & _)|(_ & -> & _)]]; cbn; intros y; intuition. }
  assert (NN : forall y, ~ In y (seen c') \/ In y (pend c') \/ In y hold -> y <> x /\ (~ In y (seen c) \/ In y (pend c) \/ In y hold)).
  { intros y Y. pose proof (s_sub _ _ _ _ _ G' x KX) as SX. split.
    - intros ->. destruct Y as [Y|[Y|Y]]; [tauto|destruct (s_pend _ _ _ _ _ G' x Y); tauto|].
      destruct (HH x Y) as (H1 & H2 & H3). destruct (t_known' _ _ _ _ _ _ _ T x KX) as [Q|[[Q|Q] _]]; tauto.
    - destruct Y as [Y|[Y|Y]]; [left; intros Q; apply Y, (t_seen _ _ _ _ _ _ _ T), Q|right; left; apply (t_pend' _ _ _ _ _ _ _ T), Y|auto]. }
  destruct (s_known _ _ _ _ _ G' x KX) as (i & I & _ & LX & _).
  pose proof (s_frees _ _ _ _ _ G' x (s_sub _ _ _ _ _ G' x KX)) as FX.
  assert (FZ : In x fz -> kind x = Free -> sh = F x).
  { intros Z KF. pose proof (HF _ Z) as K.
    destruct B as [(_ & _ & _ & _ & B)|[(_ & _ & B & _)|(B & _)]]; [|destruct (B KF Z)|tauto].
    specialize (B KF). destruct r as [ds f|[|] y ys f|ds f]; cbn in B; try discriminate. apply Nat.eqb_eq in B. subst y.
    destruct (r_known _ _ _ _ _ _ _ _ _ _ R x K) as (s2 & v2 & Q1 & Q2 & _). cbn [py_rhs] in P. rewrite Q1 in P.
    destruct (py_operands ps s2 (x :: ys)); [|discriminate]. cbn [option_map] in P. injection P as E _. subst s2.
    pose proof (r_fz _ _ _ _ _ _ _ _ _ _ R x Z KF) as E. rewrite Q2 in E. exact E. }
  destruct A as [j K J C D UR|st sh' fr N W W' F1 F2 F3 Q KF KL SL].
  - (* assigned in place *)
    destruct (r_known _ _ _ _ _ _ _ _ _ _ R x K) as (s2 & v2 & Q1 & Q2 & Q3).
    assert (E : s2 = sh).
    { apply dims_eqb_eq in D. rewrite D in EV. rewrite (own_eval _ _ _ _ _ _ Q2 Q3) in EV. congruence. }
    subst s2. exists (set_cell cs x (mk_cell sh (Some (Some v)))). split.
    + cbn [run_block run_stmt]. rewrite (run_assign_ok l ps cs x r sh v AG P); [reflexivity| |congruence]. intros _. rewrite Q2. auto.
    + apply (rel_set _ _ _ _ _ _ _ _ _ _ _ _ _ _ _ _ R (only_set _ _ _) (set_at _ _ _)); auto.
  - (* allocated *)
    set (ds := rhs_dims a r) in *.
    assert (ND : ~ In x (flat_map dim_reads ds)) by (intros Z; apply N, (dims_reads a r x Z)).
    assert (FS : fits sh' sh) by (apply (fits_weaker _ _ _ W), (fits_static _ _ _ _ EV)).
    assert (UN : st = Unallocated -> is_null (g_arr cs x) = true).
    { intros ->. destruct Q as [(_ & Q & _)|(_ & Q & QS)]; [tauto|]. apply (r_null _ _ _ _ _ _ _ _ _ _ R x); [tauto|].
      destruct lp; [discriminate|]. rewrite (HU eq_refl). auto. }
    assert (AL : st = Allocated -> is_null (g_arr cs x) = false).
    { intros ->. destruct Q as [(Q & _)|(_ & Q & QS)]; [|destruct lp; discriminate].
      destruct (r_known _ _ _ _ _ _ _ _ _ _ R x Q) as (s2 & v2 & _ & Q2 & _). rewrite Q2. reflexivity. }
    assert (RK : l = LFortran -> length sh = 1%nat /\ (is_null (g_arr cs x) = false -> length (c_shape (g_arr cs x)) = 1%nat)).
    { intros L. split; [rewrite <- (fits_length _ _ FS), SL; auto|]. intros Z. rewrite (r_rank _ _ _ _ _ _ _ _ _ _ R x Z). auto. }
    destruct (run_alloc_ok l cs x ds st sh ND EV UN AL RK) as [(cs1 & d & E1 & O1 & X1) (cs2 & E2 & O2 & X2)].
    assert (AG' : forall cs', only x cs cs' -> agrees ps cs' (rhs_reads r)).
    { intros cs' (Z1 & _ & Z3). split; [rewrite Z1; apply R|]. intros y Y. rewrite Z3; [apply (proj2 AG y Y)|]. intros ->. tauto. }
    assert (SH : fits (a_shape (add_alloc x st sh' fr a) x) sh) by (cbn; rewrite upd_same; exact FS).
    assert (SO : forall y, y <> x -> a_shape (add_alloc x st sh' fr a) y = a_shape a y) by (intros; cbn; apply upd_other; auto).
    destruct (is_user r) eqn:UR.
    + exists (set_cell cs2 x (mk_cell sh (Some (Some v)))). split.
      * cbn [run_block run_stmt]. rewrite E2. cbn [bind]. rewrite (run_assign_ok l ps cs2 x r sh v (AG' _ O2) P); [reflexivity|congruence|auto].
      * apply (rel_set _ _ _ _ _ _ _ _ _ _ _ _ _ _ _ _ R (only_trans _ _ _ _ O2 (only_set _ _ _)) (set_at _ _ _)); auto.
    + exists (set_cell cs1 x (mk_cell sh (Some (Some v)))). split.
      * cbn [run_block run_stmt]. rewrite E1. cbn [bind]. rewrite (run_assign_ok l ps cs1 x r sh v (AG' _ O1) P); [reflexivity| |congruence]. rewrite X1. auto.
      * apply (rel_set _ _ _ _ _ _ _ _ _ _ _ _ _ _ _ _ R (only_trans _ _ _ _ O1 (only_set _ _ _)) (set_at _ _ _)); auto.
Qed.

Definition broken (c c' : cst) : cst := mk_cst (known c) (seen c') [] [] [].
Definition sim (kind : nat -> skind) (rank : nat -> nat) (lp : bool) (hold fz : list nat) (F : nat -> list Z) (U : list nat) (c c' : cst) (a' : an)
  (o : outcome pstate) (og : outcome gstate) : Prop :=
  match o with
  | ONext ps' => exists cs', og = ONext cs' /\ rel kind rank hold fz F U c' a' ps' cs'
  | OBreak ps' => lp = true /\ exists cs', og = OBreak cs' /\ rel kind rank hold fz F U (broken c c') a' ps' cs'
  | OReturn ps' xs => same_result ps' xs og
  | _ => True
  end.

Lemma run_app l fuel g : forall g' s, run_block l fuel (gapp g g') s = bind (run_block l fuel g s) (run_block l fuel g').
Proof.
  induction g as [|st g IH]; intros; cbn [gapp run_block]; [reflexivity|]. destruct (run_stmt l fuel st s); cbn [bind]; auto.
Qed.

Lemma free_all_at fr : forall cs x, g_env (free_all cs fr) = g_env cs /\ g_leak (free_all cs fr) = g_leak cs
  /\ (In x fr -> c_data (g_arr (free_all cs fr) x) = None) /\ (~ In x fr -> g_arr (free_all cs fr) x = g_arr cs x)
  /\ (c_data (g_arr cs x) = None -> c_data (g_arr (free_all cs fr) x) = None).
Proof.
  induction fr as [|y fr IH]; intros cs x; cbn [free_all].
  - repeat split; auto. intros [].
  - destruct (IH (free cs y) x) as (A1 & A2 & A3 & A4 & A5). repeat split.
    + exact A1.
    + exact A2.
    + intros [->|H]; [|auto]. apply A5. unfold free. rewrite set_at. reflexivity.
    + intros H. rewrite A4 by (intros Q; apply H; right; exact Q). cbn. apply upd_other. intros ->. apply H. left. reflexivity.
    + intros H. apply A5. cbn. unfold upd. destruct (Nat.eqb x y) eqn:E; [reflexivity|exact H].
Qed.

Lemma null_data cl : is_null cl = true <-> c_data cl = None.
Proof. unfold is_null. destruct (c_data cl); split; congruence. Qed.

Lemma leave kind rank lp hold fz F U c a ps cs xs : good kind rank lp c a -> rel kind rank hold fz F U c a ps cs -> (forall x, In x xs -> In x (known c)) ->
  (forall x, In x U -> In x (a_frees a)) -> forall fr, (forall x, In x fr <-> In x (a_frees a) /\ ~ In x xs) ->
  same_result ps xs (OReturn (free_all cs fr) xs).
Proof.
  intros G R K HU fr FR. exists (free_all cs fr). split; [reflexivity|]. split; [|split; [|split]].
  - intros v. destruct (free_all_at fr cs 0%nat) as (A & _). rewrite A, (r_env _ _ _ _ _ _ _ _ _ _ R). reflexivity.
  - intros x X. destruct (free_all_at fr cs x) as (_ & _ & _ & A & _). rewrite A by (rewrite FR; tauto).
    destruct (r_known _ _ _ _ _ _ _ _ _ _ R x (K x X)) as (sh & v & P & C & _). eauto.
  - intros x X. destruct (free_all_at fr cs x) as (_ & _ & A & _ & B). destruct (is_null (g_arr cs x)) eqn:N.
    + apply B. apply null_data, N.
    + apply A, FR. split; [|exact X]. destruct (r_full _ _ _ _ _ _ _ _ _ _ R x N); auto.
  - destruct (free_all_at fr cs 0%nat) as (_ & A & _). rewrite A. apply R.
Qed.

Lemma sim_weaken kind rank lp hold fz F U c c1 a1 c2 a2 o og :
  sim kind rank lp hold fz F U c c1 a1 o og ->
  (forall x, In x (known c2) -> In x (known c1)) -> (forall x, In x (known c2) -> weaker (a_shape a1 x) (a_shape a2 x)) ->
  (forall x, In x (known c) -> weaker (a_shape a1 x) (a_shape a2 x)) ->
  (forall x, In x (a_frees a1) -> In x (a_frees a2)) ->
  (forall x, ~ In x (seen c2) \/ In x (pend c2) -> ~ In x (seen c1) \/ In x (pend c1)) ->
  (forall x, In x (seen c1) -> In x (seen c2)) ->
  forall c', known c' = known c -> sim kind rank lp hold fz F U c' c2 a2 o og.
Proof.
  intros S K W W' FR P SE c' EK. destruct o as [ps|ps|ps xs| | |]; cbn [sim] in *; auto.
  - destruct S as (cs & E & R). exists cs. split; [exact E|]. apply (rel_move _ _ _ _ _ _ _ _ _ _ _ _ R K W FR P).
  - destruct S as (L & cs & E & R). split; [exact L|]. exists cs. split; [exact E|]. apply (rel_move _ _ _ _ _ _ _ _ _ _ _ _ R); cbn; rewrite ?EK; auto.
    intros x [H|[]]. left. intros Q. apply H, SE, Q.
Qed.

Definition env_ok (rank : nat -> nat) (l : lang) (lp : bool) (hold fz U : list nat) (c : cst) : Prop :=
  (l = LFortran -> forall y, rank y = 1%nat) /\ (lp = false -> U = []) /\ (forall y, In y fz -> In y (known c)) /\ holds_ok hold c.

Lemma env_ok_trans kind rank l lp hold fz U asg alc c a c' a' : env_ok rank l lp hold fz U c -> trans kind asg alc c a c' a' -> env_ok rank l lp hold fz U c'.
Proof.
  intros (E1 & E2 & E3 & E4) T. repeat split; auto.
  - intros y Y. apply (t_known _ _ _ _ _ _ _ T), E3, Y.
  - apply (t_seen _ _ _ _ _ _ _ T), E4, H.
  - intros K. destruct (E4 x H) as (A & B & C). destruct (t_known' _ _ _ _ _ _ _ T x K) as [Q|[[Q|Q] _]]; tauto.
  - intros P. apply (t_pend' _ _ _ _ _ _ _ T) in P. apply (E4 x H), P.
Qed.

Lemma back kind rank lp hold fz F U asg alc c c1 a a1 ps cs :
  good kind rank lp c a -> good kind rank true c1 a1 -> trans kind asg alc (enter_loop c) a c1 a1 ->
  rel kind rank hold (fz ++ known c) F (U ++ asg) c1 a1 ps cs ->
  (forall x, In x (known c) -> kind x = Free -> fits (a_shape a x) (F x)) ->
  rel kind rank hold (fz ++ known c) F (U ++ asg) (enter_loop c) a ps cs.
Proof.
  intros G G1 T R FF. constructor; try apply R.
  - intros x K. cbn in K. destruct (r_known _ _ _ _ _ _ _ _ _ _ R x (t_known _ _ _ _ _ _ _ T x K)) as (sh & v & A & B & C).
    exists sh, v. repeat split; auto.
    destruct (s_known _ _ _ _ _ G x K) as (i & _ & _ & L & FX & LS & _).
    destruct (s_known _ _ _ _ _ G1 x (t_known _ _ _ _ _ _ _ T x K)) as (i1 & _ & _ & L1 & FX1 & LS1 & _).
    destruct (kind x) as [ds| |] eqn:KX.
    + rewrite (FX _ eq_refl). rewrite (FX1 _ eq_refl) in C. exact C.
    + apply fits_loose; [auto|]. rewrite L, <- L1. apply (fits_length _ _ C).
    + assert (E : c_shape (g_arr cs x) = F x) by (apply (r_fz _ _ _ _ _ _ _ _ _ _ R x); [apply in_app_iff; auto|exact KX]).
      rewrite B in E. cbn in E. subst sh. apply FF; auto.
  - intros x N. destruct (r_full _ _ _ _ _ _ _ _ _ _ R x N) as [Q|Q]; [|auto].
    destruct (t_frees' _ _ _ _ _ _ _ T x Q) as [Q'|Q']; [auto|]. right. apply in_app_iff. auto.
  - intros x [Q|[[]|Q]] N; apply (r_null _ _ _ _ _ _ _ _ _ _ R x); auto. left. intros Q'. cbn in Q.
    destruct (t_seen' _ _ _ _ _ _ _ T x Q') as [Z|Z]; [cbn in Z; tauto|]. apply N, in_app_iff. auto.
Qed.

Theorem sim_all kind rank l fuel :
  (forall s, (l = LC -> no_bare_stmt s = true) -> forall lp fz U c a c' g a' hold F ps cs, check_stmt kind rank lp fz U s c = Some c' -> good kind rank lp c a -> visit_stmt lp s a = (g, a') ->
     env_ok rank l lp hold fz U c -> rel kind rank hold fz F U c a ps cs ->
     sim kind rank lp hold fz F U c c' a' (py_stmt fuel s ps) (run_block l fuel g cs))
  /\ (forall b, (l = LC -> no_bare b = true) -> forall lp fz U c a c' g a' hold F ps cs, check_block kind rank lp fz U b c = Some c' -> good kind rank lp c a -> visit_block lp b a = (g, a') ->
     env_ok rank l lp hold fz U c -> rel kind rank hold fz F U c a ps cs ->
     sim kind rank lp hold fz F U c c' a' (py_block fuel b ps) (run_block l fuel g cs))
  /\ (forall b, (l = LC -> no_bare_branches b = true) -> forall lp fz U first c a c' res v a' hold F ps cs, check_branches kind rank lp fz U first b c = Some (c', res) -> good kind rank lp c a -> visit_branches lp first b a = (v, a') ->
     env_ok rank l lp hold fz U c -> rel kind rank hold fz F U c a ps cs ->
     match res, v with
     | inl _, VBody g => sim kind rank lp hold fz F U c c' a' (py_branches fuel b ps) (run_block l fuel g cs)
     | inr E, VIf g => sim kind rank lp hold fz F U c (mk_cst (E ++ known c) (seen c') (minus (pend c) (assigned_branches b)) [] []) a' (py_branches fuel b ps) (run_branches l fuel g cs)
     | _, _ => False
     end).
Proof.
  destruct (static_all kind rank) as (SS & SB & SR).
  apply program_ind.
  - intros x r NB lp fz U c a c' g a' hold F ps cs H G V E R. cbn [py_stmt].
    destruct (py_rhs ps r) as [[sh v]|] eqn:P; [|exact I]. destruct E as (E1 & E2 & E3 & E4).
    apply (assign_sim _ _ _ _ _ _ _ _ _ _ _ _ _ _ _ _ _ _ _ E1 E2 E3 E4 H G V R P).
  - (* x += *)
    intros x f NB lp fz U c a c' g a' hold F ps cs H G V E R. cbn [check_stmt visit_stmt py_stmt] in *.
    destruct (mem x (known c)) eqn:M; [|discriminate]. injection H as <-. injection V as <- <-. apply mem_spec in M.
    destruct (r_known _ _ _ _ _ _ _ _ _ _ R x M) as (sh & v & P & C & FT). rewrite P. cbn [run_block run_stmt]. rewrite C.
    eexists. split; [reflexivity|]. cbn [c_shape option_map].
    destruct (s_known _ _ _ _ _ G x M) as (i & _ & _ & L & _).
    apply (rel_set _ _ _ _ _ _ _ _ _ _ _ _ _ _ _ _ R (only_set _ _ _) (set_at _ _ _)); auto.
    + apply (s_frees _ _ _ _ _ G), (s_sub _ _ _ _ _ G), M.
    + intros y Y. split; [|exact Y]. intros ->. destruct E as (_ & _ & _ & E4). pose proof (s_sub _ _ _ _ _ G x M).
      destruct Y as [Y|[Y|Y]]; [tauto|destruct (s_pend _ _ _ _ _ G x Y); tauto|destruct (E4 x Y); tauto].
    + intros Z KF. pose proof (r_fz _ _ _ _ _ _ _ _ _ _ R x Z KF) as Q. rewrite C in Q. exact Q.
  - (* read *)
    intros w x NB lp fz U c a c' g a' hold F ps cs H G V E R. cbn [check_stmt visit_stmt py_stmt] in *.
    destruct (mem x (known c)) eqn:M; [|discriminate]. injection H as <-. injection V as <- <-. apply mem_spec in M.
    destruct (r_known _ _ _ _ _ _ _ _ _ _ R x M) as (sh & v & P & C & FT). rewrite P. cbn [run_block run_stmt]. rewrite C.
    eexists. split; [reflexivity|]. constructor; try apply R. cbn. rewrite (r_env _ _ _ _ _ _ _ _ _ _ R). reflexivity.
  - (* shape *)
    intros w x i NB lp fz U c a c' g a' hold F ps cs H G V E R. cbn [check_stmt visit_stmt py_stmt py_dim] in *.
    destruct (mem x (known c)) eqn:M; [|discriminate]. injection H as <-. injection V as <- <-. apply mem_spec in M.
    destruct (r_known _ _ _ _ _ _ _ _ _ _ R x M) as (sh & v & P & C & FT). rewrite P.
    destruct (nth_error sh i) as [n|] eqn:N; [|exact I].
    assert (Q : run_stmt l fuel (GLen w x i (nth i (a_shape a x) None)) cs = ONext (set_env cs w n)).
    { cbn [run_stmt eval_dim]. rewrite C. cbn [is_null c_data c_shape]. rewrite N.
      assert (Z : match nth i (a_shape a x) None with Some m => m = n | None => True end).
      { clear - FT N. revert i N. induction FT as [|o m st' sh' H FT IH]; intros [|i] N; cbn in *; try discriminate; [injection N as <-; exact H|exact (IH i N)]. }
      destruct (nth i (a_shape a x) None) as [m|]; [subst m; reflexivity|]. destruct l; reflexivity. }
    cbn [run_block]. rewrite Q. eexists. split; [reflexivity|]. constructor; try apply R. cbn. rewrite (r_env _ _ _ _ _ _ _ _ _ _ R). reflexivity.
  - intros w f NB lp fz U c a c' g a' hold F ps cs H G V E R. cbn [check_stmt visit_stmt py_stmt] in *.
    injection H as <-. injection V as <- <-. cbn [run_block run_stmt bind]. eexists. split; [reflexivity|].
    constructor; try apply R. cbn. rewrite (r_env _ _ _ _ _ _ _ _ _ _ R). reflexivity.
  - (* if *)
    intros b IH NB lp fz U c a c' g a' hold F ps cs H G V E R. cbn [check_stmt visit_stmt py_stmt] in *.
    destruct (check_branches kind rank lp fz U true b c) as [[c1 res]|] eqn:C; [|discriminate].
    destruct (visit_branches lp true b a) as [v a1] eqn:B. pose proof (SR _ _ _ _ _ _ _ _ _ _ _ C G B) as O'.
    pose proof (IH NB _ _ _ _ _ _ _ _ _ _ hold F ps cs C G B E R) as S.
    destruct res as [u|EX], v as [g1|g1]; try (destruct O'; fail).
    + injection H as <-. injection V as <- <-. exact S.
    + injection H as <-. injection V as <- <-. destruct (if_static _ _ _ _ _ _ _ _ _ _ G O') as (G2 & T2 & W).
      assert (EQ : run_block l fuel (GCons (GIf g1) GNil) cs = run_branches l fuel g1 cs).
      { cbn [run_block run_stmt]. destruct (run_branches l fuel g1 cs); reflexivity. }
      rewrite EQ. apply (sim_weaken _ _ _ _ _ _ _ _ _ _ _ _ _ _ S); [|intros x _; apply W|intros x _; apply W|..]; cbn; auto.
      intros x K. apply in_app_iff in K. apply in_app_iff. destruct K as [K|K]; [|auto]. apply in_loose in K. tauto.
  - (* loop *)
    intros f b IH NB lp fz U c a c' g a' hold F ps cs H G V E R. cbn [check_stmt visit_stmt py_stmt] in *.
    destruct (check_block kind rank true (fz ++ known c) (U ++ assigned b) b (enter_loop c)) as [c1|] eqn:C; [|discriminate].
    destruct (visit_block true b a) as [g1 a1] eqn:B. injection H as <-. injection V as <- <-.
    assert (G0 : good kind rank true (enter_loop c) a) by (apply (good_recast _ _ _ _ _ _ _ G); auto).
    destruct (SB _ _ _ _ _ _ _ _ _ C G0 B) as [G1 T].
    destruct E as (E1 & E2 & E3 & E4).
    assert (NP : forall x, In x (pend c) -> ~ In x (assigned b)).
    { intros x P A. destruct (s_pend _ _ _ _ _ G x P) as (N1 & N2 & _). destruct (t_asg _ _ _ _ _ _ _ T _ A) as [_ [Q|[Q|Q]]]; cbn in Q; tauto. }
    assert (NH : forall x, In x hold -> ~ In x (assigned b)).
    { intros x P A. destruct (E4 x P) as (N1 & N2 & _). destruct (t_asg _ _ _ _ _ _ _ T _ A) as [_ [Q|[Q|Q]]]; cbn in Q; tauto. }
    assert (E' : env_ok rank l true (hold ++ pend c) (fz ++ known c) (U ++ assigned b) (enter_loop c)).
    { split; [exact E1|]. split; [discriminate|]. split.
      - intros y Y. apply in_app_iff in Y. cbn. destruct Y; auto.
      - intros x Y. cbn. apply in_app_iff in Y. destruct Y as [Y|Y]; [destruct (E4 x Y); tauto|]. destruct (s_pend _ _ _ _ _ G x Y) as (A1 & A2 & _). tauto. }
    set (F' := fun x => c_shape (g_arr cs x)).
    assert (FF : forall x, In x (known c) -> kind x = Free -> fits (a_shape a x) (F' x)).
    { intros x K _. destruct (r_known _ _ _ _ _ _ _ _ _ _ R x K) as (sh & v & _ & Q & FT). unfold F'. rewrite Q. exact FT. }
    assert (F0 : forall x, In x fz -> kind x = Free -> F' x = F x) by (intros x Z KF; apply (r_fz _ _ _ _ _ _ _ _ _ _ R x Z KF)).
    assert (R0 : rel kind rank (hold ++ pend c) (fz ++ known c) F' (U ++ assigned b) (enter_loop c) a ps cs).
    { constructor; try apply R.
      - intros x N. destruct (r_full _ _ _ _ _ _ _ _ _ _ R x N); [auto|right; apply in_app_iff; auto].
      - intros x Q N. assert (N' : ~ In x U) by (intros Z; apply N, in_app_iff; auto). apply (r_null _ _ _ _ _ _ _ _ _ _ R x); [|exact N'].
        cbn in Q. rewrite in_app_iff in Q. tauto.
      - reflexivity. }
    (* the end of the loop *)
    assert (OUT : forall ps' cs' cx ax, rel kind rank (hold ++ pend c) (fz ++ known c) F' (U ++ assigned b) cx ax ps' cs' ->
        known cx = known c -> (forall x, In x (seen cx) -> In x (seen c1)) -> (forall x, In x (known c) -> weaker (a_shape ax x) (a_shape a1 x)) ->
        (forall x, In x (a_frees ax) -> In x (a_frees a1)) ->
        rel kind rank hold fz F U (mk_cst (known c) (seen c1) (pend c) (minus (once c) (assigned b)) (dirty c1)) (close (a_next a) FLoop false a1) ps' cs').
    { intros ps' cs' cx ax R' EK ES W FR. constructor; try apply R'.
      - intros x K. cbn in K. rewrite <- EK in K. destruct (r_known _ _ _ _ _ _ _ _ _ _ R' x K) as (sh & v & A1 & A2 & A3).
        exists sh, v. repeat split; auto. cbn. apply (fits_weaker _ _ _ (W x (eq_ind _ (fun l => In x l) K _ EK)) A3).
      - intros x N. cbn. destruct (r_full _ _ _ _ _ _ _ _ _ _ R' x N) as [Q|Q]; [auto|]. apply in_app_iff in Q. destruct Q as [Q|Q]; [auto|].
        left. apply (s_frees _ _ _ _ _ G1), (t_asg _ _ _ _ _ _ _ T x Q).
      - intros x Q N. cbn in Q. apply (r_null _ _ _ _ _ _ _ _ _ _ R' x).
        + rewrite in_app_iff. destruct Q as [Q|[Q|Q]]; [left; intros Z; apply Q, ES, Z|tauto|tauto].
        + rewrite in_app_iff. intros [Z|Z]; [tauto|]. destruct Q as [Q|[Q|Q]].
          * apply Q, (t_asg _ _ _ _ _ _ _ T x Z).
          * apply (NP x Q Z).
          * apply (NH x Q Z).
      - intros x Z KF. rewrite <- (F0 x Z KF). apply (r_fz _ _ _ _ _ _ _ _ _ _ R' x); [apply in_app_iff; auto|exact KF]. }
    cbn [run_block run_stmt].
    assert (IT : forall k ps' cs', rel kind rank (hold ++ pend c) (fz ++ known c) F' (U ++ assigned b) (enter_loop c) a ps' cs' ->
        match iterate k (fun s => f (p_env s)) (py_block fuel b) ps' with
        | ONext p2 => exists c2, iterate k (fun s => f (g_env s)) (run_block l fuel g1) cs' = ONext c2
            /\ rel kind rank hold fz F U (mk_cst (known c) (seen c1) (pend c) (minus (once c) (assigned b)) (dirty c1)) (close (a_next a) FLoop false a1) p2 c2
        | OReturn p2 xs => same_result p2 xs (iterate k (fun s => f (g_env s)) (run_block l fuel g1) cs')
        | OBreak _ => False
        | _ => True
        end).
    { induction k as [|k IHk]; intros ps' cs' R'; [exact I|]. cbn [iterate]. rewrite (r_env _ _ _ _ _ _ _ _ _ _ R').
      destruct (f (p_env ps')).
      - pose proof (IH NB _ _ _ _ _ _ _ _ (hold ++ pend c) F' ps' cs' C G0 B E' R') as S.
        destruct (py_block fuel b ps') as [p2|p2|p2 xs| | |]; cbn [sim] in S; auto.
        + destruct S as (c2 & EQ & R2). rewrite EQ. apply IHk. apply (back _ _ _ _ _ _ _ _ _ _ _ _ _ _ _ G G1 T R2 FF).
        + destruct S as (_ & c2 & EQ & R2). rewrite EQ. exists c2. split; [reflexivity|]. apply (OUT _ _ _ _ R2); cbn; auto. intros; apply weaker_refl.
        + destruct S as (c2 & EQ & S). rewrite EQ. exists c2. auto.
      - exists cs'. split; [reflexivity|]. apply (OUT _ _ _ _ R'); cbn; auto.
        + apply (t_seen _ _ _ _ _ _ _ T).
        + intros x K. apply (t_shape _ _ _ _ _ _ _ T). cbn. apply (s_sub _ _ _ _ _ G), K.
        + apply (t_frees _ _ _ _ _ _ _ T). }
    pose proof (IT fuel ps cs R0) as S.
    destruct (iterate fuel (fun s => f (p_env s)) (py_block fuel b) ps) as [p2|p2|p2 xs| | |]; cbn [sim]; auto; [|destruct S|].
    + destruct S as (c2 & EQ & R2). rewrite EQ. exists c2. auto.
    + destruct S as (c2 & EQ & S). rewrite EQ. exists c2. auto.
  - intros NB lp fz U c a c' g a' hold F ps cs H G V E R. cbn [check_stmt visit_stmt py_stmt] in *. destruct lp; [|discriminate].
    injection H as <-. injection V as <- <-. cbn [sim run_block run_stmt bind]. split; [reflexivity|]. exists cs. split; [reflexivity|].
    apply (rel_move _ _ _ _ _ _ _ _ _ _ _ _ R); cbn; auto; [intros; apply weaker_refl|]. intros x [Q|[]]. auto.
  - (* return *)
    intros xs NB lp fz U c a c' g a' hold F ps cs H G V E R. cbn [check_stmt visit_stmt] in *.
    destruct (all_in (match xs with Some l => l | None => [] end) (known c) && all_in U (seen c)) eqn:Q; [|discriminate].
    injection H as <-. injection V as <- <-. apply andb_true_iff in Q. destruct Q as [Q1 Q2].
    assert (K := proj1 (all_in_spec _ _) Q1). assert (US := proj1 (all_in_spec _ _) Q2). cbn [run_block run_stmt bind].
    assert (SR' : same_result ps (match xs with Some l => l | None => [] end)
      (OReturn (free_all cs (filter (fun x => negb (existsb (Nat.eqb x) (match xs with Some l => l | None => [] end))) (a_frees a))) (match xs with Some l => l | None => [] end))).
    { apply (leave _ _ _ _ _ _ _ _ _ _ _ _ G R K).
      - intros x X. apply (s_frees _ _ _ _ _ G), US, X.
      - intros x. rewrite filter_In, negb_true_iff. fold (mem x (match xs with Some l => l | None => [] end)). rewrite mem_no. tauto. }
    destruct xs as [xs|]; cbn [py_stmt].
    + destruct (forallb (fun x => match p_arr ps x with Some _ => true | None => false end) xs); [destruct l; exact SR'|exact I].
    + destruct l; [discriminate (NB eq_refl)|exact SR'].
  - intros NB lp fz U c a c' g a' hold F ps cs H G V E R. cbn in *. injection H as <-. injection V as <- <-. exists cs. auto.
  - (* sequence *)
    intros s IHs b IHb NB lp fz U c a c' g a' hold F ps cs H G V E R. cbn [check_block visit_block py_block] in *.
    destruct (check_stmt kind rank lp fz U s c) as [c1|] eqn:C1; [|discriminate].
    destruct (visit_stmt lp s a) as [g1 a1] eqn:V1. destruct (visit_block lp b a1) as [g2 a2] eqn:V2. injection V as <- <-.
    destruct (SS _ _ _ _ _ _ _ _ _ C1 G V1) as [G1 T1]. destruct (SB _ _ _ _ _ _ _ _ _ H G1 V2) as [G2 T2].
    pose proof (IHs (fun h => proj1 (andb_prop _ _ (NB h))) _ _ _ _ _ _ _ _ hold F ps cs C1 G V1 E R) as S1. rewrite run_app.
    destruct (py_stmt fuel s ps) as [p2|p2|p2 xs| | |]; cbn [bind]; cbn [sim] in *; auto.
    + destruct S1 as (c2 & EQ & R2). rewrite EQ. cbn [bind].
      pose proof (IHb (fun h => proj2 (andb_prop _ _ (NB h))) _ _ _ _ _ _ _ _ hold F p2 c2 H G1 V2 (env_ok_trans _ _ _ _ _ _ _ _ _ _ _ _ _ E T1) R2) as S2.
      destruct (py_block fuel b p2) as [p3|p3|p3 xs| | |]; cbn [sim] in *; auto.
      destruct S2 as (L & c3 & EQ3 & R3). split; [exact L|]. exists c3. split; [exact EQ3|].
      apply (rel_move _ _ _ _ _ _ _ _ _ _ _ _ R3); cbn; auto; [apply (t_known _ _ _ _ _ _ _ T1)|intros; apply weaker_refl].
    + destruct S1 as (L & c2 & EQ & R2). rewrite EQ. cbn [bind]. split; [exact L|]. exists c2. split; [reflexivity|].
      apply (rel_move _ _ _ _ _ _ _ _ _ _ _ _ R2); cbn; auto.
      * intros x K. apply (t_shape _ _ _ _ _ _ _ T2), (t_seen _ _ _ _ _ _ _ T1), (s_sub _ _ _ _ _ G), K.
      * apply (t_frees _ _ _ _ _ _ _ T2).
      * intros x [Q|[]]. left. intros Z. apply Q, (t_seen _ _ _ _ _ _ _ T2), Z.
    + destruct S1 as (c2 & EQ & S1). rewrite EQ. exists c2. auto.
  - (* no branch *)
    intros NB lp fz U first c a c' res v a' hold F ps cs H G V E R. cbn in *. injection H as <- <-. injection V as <- <-. cbn.
    exists cs. split; [reflexivity|]. apply (rel_move _ _ _ _ _ _ _ _ _ _ _ _ R); cbn; auto; [intros; apply weaker_refl|].
    intros x [Q|Q]; [auto|]. apply in_minus in Q. tauto.
  - intros cd b1 IH1 rest IHr NB lp fz U first c a c' res v a' hold F ps cs H G V E R.
    assert (G0 : good kind rank lp (enter_branch c) a) by (apply (good_recast _ _ _ _ _ _ _ G); auto).
    assert (R0 : rel kind rank hold fz F U (enter_branch c) a ps cs).
    { apply (rel_move _ _ _ _ _ _ _ _ _ _ _ _ R); cbn; auto. intros; apply weaker_refl. }
    assert (E0 : env_ok rank l lp hold fz U (enter_branch c)) by exact E.
    destruct cd as [| |f]; cbn [check_branches visit_branches assigned_branches py_branches] in *.
    + destruct (check_block kind rank lp fz U b1 (enter_branch c)) as [c1|] eqn:C; [|discriminate].
      destruct (visit_block lp b1 a) as [g1 a1] eqn:B.
      destruct (SB _ _ _ _ _ _ _ _ _ C G0 B) as [G1 T].
      pose proof (IH1 (fun h => proj1 (andb_prop _ _ (NB h))) _ _ _ _ _ _ _ _ hold F ps cs C G0 B E0 R0) as S.
      destruct first; injection H as <- <-; injection V as <- <-.
      * apply (sim_weaken _ _ _ _ _ _ _ _ _ _ _ _ _ _ S); cbn; auto; try (intros; apply weaker_refl).
        -- apply (t_known _ _ _ _ _ _ _ T).
        -- intros x [Q|Q]; [auto|]. apply in_minus in Q. right. apply (t_pend _ _ _ _ _ _ _ T); tauto.
      * cbn [run_branches holds]. apply (sim_weaken _ _ _ _ _ _ _ _ _ _ _ _ _ _ S); cbn; auto; try (intros; apply weaker_refl).
        -- intros x K. apply in_app_iff in K. destruct K as [K|K]; [apply in_minus in K; tauto|apply (t_known _ _ _ _ _ _ _ T x K)].
        -- intros x [Q|Q]; [auto|]. apply in_minus in Q. right. apply (t_pend _ _ _ _ _ _ _ T); tauto.
    + apply (IHr (fun h => proj2 (andb_prop _ _ (NB h))) _ _ _ _ _ _ _ _ _ _ hold F ps cs H G V E R).
    + destruct (check_block kind rank lp fz U b1 (enter_branch c)) as [c1|] eqn:C; [|discriminate].
      destruct (visit_block lp b1 a) as [g1 a1] eqn:B.
      destruct (SB _ _ _ _ _ _ _ _ _ C G0 B) as [G1 T].
      destruct (check_branches kind rank lp fz U false rest (next_branch kind b1 c c1)) as [[c2 [u|EX]]|] eqn:C2; try discriminate.
      injection H as <- <-.
      destruct (visit_branches lp false rest (close (a_next a) FSec false a1)) as [v2 a2] eqn:B2.
      pose proof (next_static _ _ _ _ _ _ _ _ _ G G1 G0 T) as Gn. cbn zeta in Gn.
      pose proof (SR _ _ _ _ _ _ _ _ _ _ _ C2 Gn B2) as O'. destruct v2 as [g2|g2]; [destruct O'|]. injection V as <- <-.
      destruct O' as (G2 & EK & T2 & _).
      assert (HP : forall x, In x (pend (next_branch kind b1 c c1)) -> In x (pend c) \/ ~ In x (seen c)).
      { intros x P. cbn in P. apply in_app_iff in P. destruct P as [P|P]; [apply in_minus in P; tauto|].
        apply in_loose in P. destruct P as [P _]. apply in_minus in P. destruct P as [P N].
        destruct (t_known' _ _ _ _ _ _ _ T x (proj1 (s_once _ _ _ _ _ G1 x P))) as [Q|[Q _]]; [cbn in Q; tauto|]. cbn in Q. tauto. }
      cbn [run_branches holds]. rewrite (r_env _ _ _ _ _ _ _ _ _ _ R). destruct (f (p_env ps)).
      * pose proof (IH1 (fun h => proj1 (andb_prop _ _ (NB h))) _ _ _ _ _ _ _ _ hold F ps cs C G0 B E0 R0) as S.
        assert (W : forall x, In x (seen c1) -> weaker (a_shape a1 x) (a_shape a2 x)) by apply (t_shape _ _ _ _ _ _ _ T2).
        apply (sim_weaken _ _ _ _ _ _ _ _ _ _ _ _ _ _ S); cbn; auto.
        -- intros x K. apply in_app_iff in K. destruct K as [K|K]; [apply in_both in K; destruct K as [K _]; apply in_minus in K; tauto|apply (t_known _ _ _ _ _ _ _ T x K)].
        -- intros x K. apply W. apply (s_sub _ _ _ _ _ G1).
           apply in_app_iff in K. destruct K as [K|K]; [apply in_both in K; destruct K as [K _]; apply in_minus in K; tauto|apply (t_known _ _ _ _ _ _ _ T x K)].
        -- intros x K. apply W. apply (s_sub _ _ _ _ _ G1), (t_known _ _ _ _ _ _ _ T x K).
        -- apply (t_frees _ _ _ _ _ _ _ T2).
        -- intros x [Q|Q].
           ++ left. intros Z. apply Q, (t_seen _ _ _ _ _ _ _ T2 x Z).
           ++ apply in_minus in Q. right. rewrite in_app_iff in Q. apply (t_pend _ _ _ _ _ _ _ T); [cbn; tauto|tauto].
        -- apply (t_seen _ _ _ _ _ _ _ T2).
      * assert (Rn : rel kind rank hold fz F U (next_branch kind b1 c c1) (close (a_next a) FSec false a1) ps cs).
        { apply (rel_move _ _ _ _ _ _ _ _ _ _ _ _ R); cbn [next_branch known seen].
          - auto.
          - intros x K. apply (t_shape _ _ _ _ _ _ _ T). apply (s_sub _ _ _ _ _ G), K.
          - apply (t_frees _ _ _ _ _ _ _ T).
          - intros x [Q|Q]; [left; intros Z; apply Q, (t_seen _ _ _ _ _ _ _ T), Z|]. destruct (HP x Q); auto. }
        assert (En : env_ok rank l lp hold fz U (next_branch kind b1 c c1)).
        { destruct E as (E1 & E2 & E3 & E4). split; [exact E1|]. split; [exact E2|]. split; [exact E3|]. intros x X. destruct (E4 x X) as (A1 & A2 & A3).
          split; [apply (t_seen _ _ _ _ _ _ _ T), A1|]. split; [exact A2|]. intros P. destruct (HP x P); tauto. }
        pose proof (IHr (fun h => proj2 (andb_prop _ _ (NB h))) _ _ _ _ _ _ _ _ _ _ hold F ps cs C2 Gn B2 En Rn) as S. cbn beta iota in S.
        apply (sim_weaken _ _ _ _ _ _ _ _ _ _ _ _ _ _ S); cbn; auto; try (intros; apply weaker_refl).
        -- intros x K. apply in_app_iff. apply in_app_iff in K. destruct K as [K|K]; [apply in_both in K; tauto|auto].
        -- intros x [Q|Q]; [auto|]. right. apply in_minus in Q. rewrite in_app_iff in Q. apply in_minus. split; [|tauto].
           apply in_app_iff. left. apply in_minus. tauto.
Qed.

Lemma gives_returns : (forall s, gives_stmt s = returns_stmt s) /\ (forall b, gives_block b = returns_block b) /\ (forall b, gives_branches b = returns_branches b).
Proof.
  apply program_ind; intros; cbn; auto; congruence.
Qed.

Lemma function_sim kind rank l b fuel e ps xs : (l = LFortran -> forall y, rank y = 1%nat) -> (l = LC -> no_bare b = true) -> tidy kind rank b ->
  py_function fuel b e = OReturn ps xs -> same_result ps xs (run_function l fuel b e).
Proof.
  intros HL NB HT H. unfold tidy in HT. destruct (check_block kind rank false [] [] b (mk_cst [] [] [] [] [])) as [c'|] eqn:C; [|tauto].
  unfold run_function, visit_function. destruct (visit_block false b an0) as [g a'] eqn:V.
  destruct (static_all kind rank) as (_ & SB & _). destruct (SB _ _ _ _ _ _ _ _ _ C (good0 _ _) V) as [G _].
  destruct (sim_all kind rank l fuel) as (_ & S & _).
  assert (E : env_ok rank l false [] [] [] (mk_cst [] [] [] [] [])).
  { split; [exact HL|]. split; [reflexivity|]. split; intros y []. }
  assert (R : rel kind rank [] [] (fun _ => []) [] (mk_cst [] [] [] [] []) an0 (mk_pstate e (fun _ => None)) (gstate0 e)).
  { constructor; cbn; auto; try tauto; try discriminate. }
  specialize (S b NB _ _ _ _ _ _ _ _ [] (fun _ => []) _ _ C (good0 _ _) V E R). unfold py_function in H.
  destruct (py_block fuel b (mk_pstate e (fun _ => None))) as [p2|p2|p2 ys| | |]; try discriminate.
  - destruct (gives_block b) eqn:GB; [discriminate|]. injection H as <- <-. rewrite (proj1 (proj2 gives_returns)) in GB.
    cbn [sim] in S. destruct S as (c2 & EQ & R2). rewrite EQ, GB. apply (leave _ _ _ _ _ _ _ _ _ _ _ _ G R2); [intros x []|intros x []|].
    intros x. cbn. tauto.
  - injection H as <- <-. cbn [sim] in S. destruct S as (c2 & EQ & S). rewrite EQ. exists c2. auto.
Qed.

(* ------------------------------ the end of any function ------------------------------ *)

Fixpoint targets_stmt (s : gstmt) : list nat :=
  match s with
  | GAlloc x _ _ _ | GAssign x _ => [x]
  | GIf b => targets_branches b
  | GLoop _ b => targets b
  | _ => []
  end
with targets (b : gblock) : list nat := match b with GNil => [] | GCons s b' => targets_stmt s ++ targets b' end
with targets_branches (b : gbranches) : list nat := match b with GNo => [] | GBranch _ b1 b' => targets b1 ++ targets_branches b' end.
Fixpoint stays_stmt (s : gstmt) : bool :=
  match s with GReturn _ _ _ => false | GIf b => stays_branches b | GLoop _ b => stays b | _ => true end
with stays (b : gblock) : bool := match b with GNil => true | GCons s b' => stays_stmt s && stays b' end
with stays_branches (b : gbranches) : bool := match b with GNo => true | GBranch _ b1 b' => stays b1 && stays_branches b' end.

Scheme gstmt_rec' := Induction for gstmt Sort Prop
with gblock_rec' := Induction for gblock Sort Prop
with gbranches_rec' := Induction for gbranches Sort Prop.
Combined Scheme generated_ind from gstmt_rec', gblock_rec', gbranches_rec'.

Lemma targets_app g g' : targets (gapp g g') = targets g ++ targets g'.
Proof. induction g; cbn; [reflexivity|]. rewrite IHg, app_assoc. reflexivity. Qed.
Lemma stays_app g g' : stays (gapp g g') = stays g && stays g'.
Proof. induction g; cbn; [reflexivity|]. rewrite IHg, andb_assoc. reflexivity. Qed.

Definition tame (T : list nat) (s : gstate) (o : outcome gstate) : Prop :=
  match o with
  | ONext s' | OBreak s' => forall x, is_null (g_arr s' x) = false -> is_null (g_arr s x) = false \/ In x T
  | OReturn _ _ => False
  | _ => True
  end.
Lemma tame_same s x o : (forall s', o = ONext s' -> forall y, y <> x -> g_arr s' y = g_arr s y) -> (match o with OBreak _ | OReturn _ _ => False | _ => True end) -> tame [x] s o.
Proof.
  intros H N. destruct o; cbn in *; auto; try tauto. intros y Y. destruct (Nat.eq_dec y x) as [->|E]; [right; auto|]. left. rewrite (H _ eq_refl y E) in Y. exact Y.
Qed.
Lemma arr_free s x y : y <> x -> g_arr (free s x) y = g_arr s y.
Proof. intros H. cbn. apply upd_other, H. Qed.
Lemma arr_set s x c y : y <> x -> g_arr (set_cell s x c) y = g_arr s y.
Proof. intros H. cbn. apply upd_other, H. Qed.
Lemma arr_lose s x y : g_arr (lose s x) y = g_arr s y.
Proof. unfold lose. destruct (is_null (g_arr s x)); reflexivity. Qed.
Lemma fresh_cases l s x ds : fresh l s x ds = OUndef \/ exists c, fresh l s x ds = ONext (set_cell s x c).
Proof. unfold fresh. destruct (eval_dims l s ds); eauto. Qed.
Lemma tame_fresh l s0 s x ds : (forall y, y <> x -> g_arr s0 y = g_arr s y) -> tame [x] s (fresh l s0 x ds).
Proof.
  intros H. destruct (fresh_cases l s0 x ds) as [->|(c & ->)]; [exact I|]. apply tame_same; [|exact I]. intros s' E y Y. injection E as <-. rewrite arr_set by exact Y. auto.
Qed.
Lemma tame_next s0 s x : (forall y, y <> x -> g_arr s0 y = g_arr s y) -> tame [x] s (ONext s0).
Proof. intros H. apply tame_same; [|exact I]. intros s' E. injection E as <-. exact H. Qed.
Lemma tame_alloc l x ds st fn s : tame [x] s (run_alloc l x ds st fn s).
Proof.
  unfold run_alloc. destruct l, fn, st; repeat (match goal with
    | |- tame _ _ (if ?b then _ else _) => destruct b
    | |- tame _ _ (match eval_dims ?l ?s ?d with _ => _ end) => destruct (eval_dims l s d)
    end); try exact I; try (apply tame_fresh); try (apply tame_next); intros; rewrite ?arr_lose, ?arr_free; auto.
Qed.
Lemma tame_assign l x r s : tame [x] s (run_assign l x r s).
Proof.
  destruct r as [ds f|call y ys f|ds f]; cbn [run_assign].
  - destruct (is_null (g_arr s x)); [exact I|]. apply tame_next. intros. apply arr_set; auto.
  - destruct (is_null (g_arr s x)); [exact I|]. destruct (contents s (y :: ys)); [|exact I]. destruct (forallb _ (y :: ys)); [|exact I].
    apply tame_next. intros. apply arr_set; auto.
  - destruct (eval_dims l s ds); [|exact I]. apply tame_next. intros. rewrite arr_set by auto. destruct l; rewrite ?arr_lose; reflexivity.
Qed.

Lemma tame_all l fuel :
  (forall g s, stays_stmt g = true -> tame (targets_stmt g) s (run_stmt l fuel g s))
  /\ (forall g s, stays g = true -> tame (targets g) s (run_block l fuel g s))
  /\ (forall g s, stays_branches g = true -> tame (targets_branches g) s (run_branches l fuel g s)).
Proof.
  apply generated_ind; cbn [stays_stmt stays stays_branches targets_stmt targets targets_branches run_stmt run_block run_branches]; intros.
  - apply tame_alloc.
  - apply tame_assign.
  - destruct (c_data (g_arr s x)) as [v|] eqn:E; [|exact I]. intros y Y. left. destruct (Nat.eq_dec y x) as [->|N]; [unfold is_null; rewrite E; reflexivity|].
    rewrite arr_set in Y by exact N. exact Y.
  - destruct (c_data (g_arr s x)) as [[n|]|]; try exact I. intros y Y. left. exact Y.
  - destruct n as [n|]; [intros y Y; left; exact Y|]. destruct (eval_dim l s (DShape x i)); [|exact I]. intros y Y. left. exact Y.
  - intros y Y. left. exact Y.
  - apply H, H0.
  - enough (Q : forall k s0, (forall x, is_null (g_arr s0 x) = false -> is_null (g_arr s x) = false \/ In x (targets b)) ->
      tame (targets b) s (iterate k (fun s => c (g_env s)) (run_block l fuel b) s0)) by (apply Q; auto).
    induction k as [|k IH]; intros s0 S0; [exact I|]. cbn [iterate]. destruct (c (g_env s0)); [|exact S0].
    specialize (H s0 H0). destruct (run_block l fuel b s0) as [s2|s2|s2 xs| | |]; cbn [tame] in H; auto; try exact I.
    + apply IH. intros x X. destruct (H x X); auto.
    + intros x X. destruct (H x X); auto.
  - intros y Y. left. exact Y.
  - discriminate.
  - intros y Y. left. exact Y.
  - apply andb_true_iff in H1. destruct H1 as [A B]. specialize (H s0 A). destruct (run_stmt l fuel s s0) as [s2|s2|s2 xs| | |]; cbn [tame bind] in *; auto.
    + specialize (H0 s2 B). destruct (run_block l fuel b s2) as [s3|s3|s3 xs| | |]; cbn [tame] in *; auto; intros x X; rewrite in_app_iff; destruct (H0 x X) as [Q|Q]; auto; destruct (H x Q); auto.
    + intros x X. rewrite in_app_iff. destruct (H x X); auto.
  - intros y Y. left. exact Y.
  - apply andb_true_iff in H1. destruct H1 as [A B]. destruct (holds c (g_env s)).
    + specialize (H s A). destruct (run_block l fuel b s); cbn [tame] in *; auto; intros x X; rewrite in_app_iff; destruct (H x X); auto.
    + specialize (H0 s B). destruct (run_branches l fuel rest s); cbn [tame] in *; auto; intros x X; rewrite in_app_iff; destruct (H0 x X); auto.
Qed.

Definition covered (a : an) : Prop := forall x, a_last a x <> None -> In x (a_frees a).
Definition vtargets (v : vbranches) : list nat := match v with VBody g => targets g | VIf g => targets_branches g end.
Definition vstays (v : vbranches) : bool := match v with VBody g => stays g | VIf g => stays_branches g end.
Definition grows (a a' : an) (T : list nat) : Prop := covered a' /\ (forall x, In x (a_frees a) -> In x (a_frees a')) /\ (forall x, In x T -> In x (a_frees a')).
Lemma covered_close n f o a : covered a -> covered (close n f o a).
Proof. intros H x. rewrite close_seen. apply H. Qed.
Lemma grows_all :
  (forall s lp a g a', visit_stmt lp s a = (g, a') -> covered a -> grows a a' (targets g) /\ (no_return_stmt s = true -> stays g = true))
  /\ (forall b lp a g a', visit_block lp b a = (g, a') -> covered a -> grows a a' (targets g) /\ (no_return b = true -> stays g = true))
  /\ (forall b lp first a v a', visit_branches lp first b a = (v, a') -> covered a -> grows a a' (vtargets v) /\ (no_return_branches b = true -> vstays v = true)).
Proof.
  assert (R : forall a T, covered a -> (forall x, In x T -> In x (a_frees a)) -> grows a a T) by (intros a T C H; repeat split; auto).
  apply program_ind.
  - intros x r lp a g a' V C. cbn [visit_stmt] in V. unfold visit_assign in V.
    assert (NEW : forall st sh fr, (forall y, In y (a_frees a) -> In y fr) -> In x fr -> grows a (add_alloc x st sh fr a) [x; x]).
    { intros st sh fr F1 F2. split; [|split].
      - intros y Y. cbn in *. unfold upd in Y. destruct (Nat.eqb y x) eqn:E; [apply Nat.eqb_eq in E; subst; exact F2|apply F1, C, Y].
      - exact F1.
      - intros y [<-|[<-|[]]]; exact F2. }
    destruct (a_last a x) as [i|] eqn:L.
    + assert (X : In x (a_frees a)) by (apply C; congruence).
      destruct (negb _ || _ || _).
      * injection V as <- <-. split; [|reflexivity]. apply NEW; destruct (if open_sec i then _ else _); cbn; auto.
      * destruct (has_sec i && negb (has_if i)); injection V as <- <-; (split; [|reflexivity]); [apply NEW; auto|].
        apply R; [exact C|]. intros y [<-|[]]. exact X.
    + injection V as <- <-. split; [|reflexivity]. apply NEW; cbn; auto.
  - intros x f lp a g a' V C. injection V as <- <-. split; [|reflexivity]. apply R; [exact C|intros y []].
  - intros w x lp a g a' V C. injection V as <- <-. split; [|reflexivity]. apply R; [exact C|intros y []].
  - intros w x i lp a g a' V C. injection V as <- <-. split; [|reflexivity]. apply R; [exact C|intros y []].
  - intros w f lp a g a' V C. injection V as <- <-. split; [|reflexivity]. apply R; [exact C|intros y []].
  - intros b IH lp a g a' V C. cbn [visit_stmt no_return_stmt] in *. destruct (visit_branches lp true b a) as [v a1] eqn:B.
    destruct (IH _ _ _ _ _ B C) as [(G1 & G2 & G3) S]. destruct v as [g1|g1]; injection V as <- <-; cbn [vtargets vstays] in *.
    + split; [repeat split; auto|exact S].
    + split; [|intros N; cbn; rewrite (S N); reflexivity]. split; [|split].
      * intros x X. cbn in X. apply (covered_close (a_next a) FIf false a1 G1 x X).
      * exact G2.
      * cbn. intros x X. rewrite app_nil_r in X. apply G3, X.
  - intros f b IH lp a g a' V C. cbn [visit_stmt no_return_stmt] in *. destruct (visit_block true b a) as [g1 a1] eqn:B. injection V as <- <-.
    destruct (IH _ _ _ _ B C) as [(G1 & G2 & G3) S].
    split; [|intros N; cbn; rewrite (S N); reflexivity]. split; [apply covered_close, G1|]. split; [exact G2|].
    cbn. intros x X. rewrite app_nil_r in X. apply G3, X.
  - intros lp a g a' V C. injection V as <- <-. split; [|reflexivity]. apply R; [exact C|intros y []].
  - intros xs lp a g a' V C. injection V as <- <-. split; [|discriminate]. apply R; [exact C|intros y []].
  - intros lp a g a' V C. injection V as <- <-. split; [|reflexivity]. apply R; [exact C|intros y []].
  - intros s IHs b IHb lp a g a' V C. cbn [visit_block no_return] in *. destruct (visit_stmt lp s a) as [g1 a1] eqn:V1.
    destruct (visit_block lp b a1) as [g2 a2] eqn:V2. injection V as <- <-.
    destruct (IHs _ _ _ _ V1 C) as [(G1 & G2 & G3) S1]. destruct (IHb _ _ _ _ V2 G1) as [(H1 & H2 & H3) S2]. split.
    + split; [exact H1|]. split; [auto|]. intros x X. rewrite targets_app, in_app_iff in X. destruct X; auto.
    + intros N. apply andb_true_iff in N. destruct N. rewrite stays_app, S1, S2 by assumption. reflexivity.
  - intros lp first a v a' V C. injection V as <- <-. split; [|reflexivity]. apply R; [exact C|intros y []].
  - intros cd b1 IH1 rest IHr lp first a v a' V C.
    destruct cd as [| |f]; cbn [visit_branches no_return_branches] in *.
    + destruct (visit_block lp b1 a) as [g1 a1] eqn:B. destruct (IH1 _ _ _ _ B C) as [(G1 & G2 & G3) S].
      destruct first; injection V as <- <-; cbn [vtargets vstays targets_branches stays_branches].
      * split; [|intros N; apply andb_true_iff in N; apply S, N]. split; [apply covered_close, G1|]. split; [exact G2|exact G3].
      * split; [|intros N; apply andb_true_iff in N; rewrite S by apply N; reflexivity]. split; [apply covered_close, G1|]. split; [exact G2|].
        rewrite app_nil_r. exact G3.
    + destruct (IHr _ _ _ _ _ V C) as [G S]. split; [exact G|]. intros N. apply andb_true_iff in N. apply S, N.
    + destruct (visit_block lp b1 a) as [g1 a1] eqn:B. destruct (IH1 _ _ _ _ B C) as [(G1 & G2 & G3) S].
      destruct (visit_branches lp false rest (close (a_next a) FSec false a1)) as [v2 a2] eqn:B2.
      destruct (IHr _ _ _ _ _ B2 (covered_close _ _ _ _ G1)) as [(H1 & H2 & H3) S2].
      destruct v2 as [g2|g2]; injection V as <- <-; cbn [vtargets vstays targets_branches stays_branches] in *; (split; [split; [exact H1|]; split|]).
      * intros x X. apply H2, G2, X.
      * intros x X. rewrite app_nil_r, in_app_iff in X. destruct X as [X|X]; [apply H2, G3, X|auto].
      * intros N. apply andb_true_iff in N. destruct N as [N1 N2]. rewrite (S N1), (S2 N2). reflexivity.
      * intros x X. apply H2, G2, X.
      * intros x X. rewrite in_app_iff in X. destruct X as [X|X]; [apply H2, G3, X|auto].
      * intros N. apply andb_true_iff in N. destruct N as [N1 N2]. rewrite (S N1), (S2 N2). reflexivity.
Qed.

Lemma gives_no_return : (forall s, no_return_stmt s = true -> returns_stmt s = false) /\ (forall b, no_return b = true -> returns_block b = false)
  /\ (forall b, no_return_branches b = true -> returns_branches b = false).
Proof.
  apply program_ind; cbn; intros; auto; try discriminate.
  - apply andb_true_iff in H1. destruct H1. rewrite H, H0; auto.
  - apply andb_true_iff in H1. destruct H1. destruct c; auto. rewrite H, H0; auto.
Qed.

Lemma all_freed l b fuel e cs xs : no_return b = true -> run_function l fuel b e = OReturn cs xs -> xs = [] /\ forall x, c_data (g_arr cs x) = None.
Proof.
  intros N H. unfold run_function, visit_function in H. destruct (visit_block false b an0) as [g a] eqn:V.
  destruct grows_all as (_ & GA & _). destruct (GA _ _ _ _ _ V) as [(_ & _ & G) S]; [intros x X; cbn in X; tauto|].
  rewrite (proj1 (proj2 gives_no_return) _ N) in H. destruct (tame_all l fuel) as (_ & TA & _). specialize (TA g (gstate0 e) (S N)).
  destruct (run_block l fuel g (gstate0 e)) as [s|s|s ys| | |]; cbn [tame] in TA; try discriminate; [|tauto].
  injection H as <- <-. split; [reflexivity|]. intros x. destruct (free_all_at (a_frees a) s x) as (_ & _ & A & _ & B).
  destruct (is_null (g_arr s x)) eqn:Q; [apply B, null_data, Q|]. destruct (TA x Q) as [Z|Z]; [discriminate|]. apply A, G, Z.
Qed.
