From Coq Require Import List Bool ZArith QArith Qround String Lia.
From Verif Require Import Common Types_Model Types_Spec Types_Proofs Simp_Model Simp_Spec.
Import ListNotations.
Open Scope Z_scope.

(* ---- constructors ---- *)
Lemma eval_hp : forall env p f e, eval env (hp p f e) = eval env e.
Proof. intros. unfold hp. destruct (_ || _); reflexivity. Qed.
Lemma ty_hp : forall p f e, ty (hp p f e) = ty e.
Proof. intros. unfold hp. destruct (_ || _); reflexivity. Qed.
Lemma eval_par : forall env e, eval env (par_neg e) = eval env e.
Proof. intros env []; reflexivity. Qed.
Lemma ty_par : forall e, ty (par_neg e) = ty e.
Proof. intros []; reflexivity. Qed.
Lemma eval_hpa : forall env p f e, eval env (hpa p f e) = eval env e.
Proof. intros. unfold hpa. rewrite eval_par. apply eval_hp. Qed.
Lemma ty_hpa : forall p f e, ty (hpa p f e) = ty e.
Proof. intros. unfold hpa. rewrite ty_par. apply ty_hp. Qed.
Lemma eval_mkAdd : forall env a b, eval env (mkAdd a b) = eval env (EAdd a b).
Proof. intros. unfold mkAdd. cbn [eval]. rewrite !eval_hpa. reflexivity. Qed.
Lemma eval_mkSub : forall env a b, eval env (mkSub a b) = eval env (ESub a b).
Proof. intros. unfold mkSub. cbn [eval]. rewrite !eval_hpa. reflexivity. Qed.
Lemma eval_mkMul : forall env a b, eval env (mkMul a b) = eval env (EMul a b).
Proof. intros. unfold mkMul. cbn [eval]. rewrite !eval_hpa. reflexivity. Qed.
Lemma eval_mkDiv : forall env a b, eval env (mkDiv a b) = eval env (EDiv a b).
Proof. intros. unfold mkDiv. cbn [eval]. rewrite !eval_hpa. reflexivity. Qed.
Lemma eval_mkNeg : forall env a, eval env (mkNeg a) = eval env (ENeg a).
Proof. intros. unfold mkNeg. cbn [eval]. rewrite eval_par, eval_hp. reflexivity. Qed.
Lemma eval_mkGt : forall env a b, eval env (mkGt a b) = eval env (EGt a b).
Proof. intros. unfold mkGt. cbn [eval]. rewrite !eval_hp. reflexivity. Qed.
Lemma eval_mkEq : forall env a b, eval env (mkEq a b) = eval env (EEq a b).
Proof. intros. unfold mkEq. cbn [eval]. rewrite !eval_hp. reflexivity. Qed.
Lemma eval_mkNe : forall env a b, eval env (mkNe a b) = eval env (ENe a b).
Proof. intros. unfold mkNe. cbn [eval]. rewrite !eval_hp. reflexivity. Qed.
Lemma eval_mkNot : forall env a, eval env (mkNot a) = eval env (ENot a).
Proof. intros. unfold mkNot. cbn [eval]. rewrite !eval_hp. reflexivity. Qed.
Lemma ty_mkAdd : forall a b, ty (mkAdd a b) = tadd (ty a) (ty b).
Proof. intros. unfold mkAdd. cbn [ty]. rewrite !ty_hpa. reflexivity. Qed.
Lemma ty_mkSub : forall a b, ty (mkSub a b) = tadd (ty a) (ty b).
Proof. intros. unfold mkSub. cbn [ty]. rewrite !ty_hpa. reflexivity. Qed.
Lemma ty_mkMul : forall a b, ty (mkMul a b) = tadd (ty a) (ty b).
Proof. intros. unfold mkMul. cbn [ty]. rewrite !ty_hpa. reflexivity. Qed.
Lemma ty_mkDiv : forall a b, ty (mkDiv a b) = tdiv (ty a) (ty b).
Proof. intros. unfold mkDiv. cbn [ty]. rewrite !ty_hpa. reflexivity. Qed.
Lemma ty_mkNeg : forall a, ty (mkNeg a) = ty a.
Proof. intros. unfold mkNeg. cbn [ty]. rewrite ty_par, ty_hp. reflexivity. Qed.

(* ---- types ---- *)
Definition teq (a b : fty) : Prop := prim a = prim b /\ precision a = precision b.
Lemma teq_refl : forall a, teq a a.
Proof. split; reflexivity. Qed.
Lemma ty_eqb_teq : forall a b, ty_eqb a b = true -> teq a b.
Proof. intros [] [] H; try discriminate H; split; reflexivity. Qed.
Lemma tadd_ty : forall a b, ty_add a b = Some (tadd a b).
Proof. intros. unfold tadd. destruct (add_total a b) as (c & ->). reflexivity. Qed.
Lemma tadd_int : forall a b, prim (tadd a b) = KInt -> int_like a /\ int_like b.
Proof. unfold int_like. intros [] [] H; vm_compute in H; try discriminate H; vm_compute; auto. Qed.
Lemma tadd_nobool : forall a b, prim (tadd a b) <> KBool.
Proof. intros [] []; vm_compute; discriminate. Qed.
Lemma ty_conv : forall q t, ty (conv q t) = t.
Proof.
  intros. unfold conv. destruct (prim t); [destruct (Qeq_bool q 0); reflexivity| |reflexivity|reflexivity].
  destruct (Qle_bool 0 q); [reflexivity|]. rewrite ty_mkNeg. reflexivity.
Qed.

(* ---- values ---- *)
Definition integral (q : Q) : Prop := exists z, (q == inject_Z z)%Q.
Lemma Qfloor_int : forall q z, (q == inject_Z z)%Q -> Qfloor q = z.
Proof. intros q z H. rewrite (Qfloor_comp _ _ H). apply Qfloor_Z. Qed.
Lemma conv_val : forall env q t, (prim t = KInt -> integral q) -> prim t <> KBool ->
  exists w, eval env (conv q t) = Some w /\ (w == q)%Q.
Proof.
  intros env q t Hi Hb. unfold conv. destruct (prim t) eqn:E; [congruence| | |].
  - destruct (Hi eq_refl) as (z & Hz).
    destruct (Qle_bool 0 q).
    + eexists. split; [reflexivity|]. cbn [lval]. rewrite (Qfloor_int q z Hz). symmetry. exact Hz.
    + rewrite eval_mkNeg. cbn [eval lval]. eexists. split; [reflexivity|].
      rewrite (Qfloor_int q z Hz), Hz, inject_Z_opp. ring.
  - eexists. split; reflexivity.
  - eexists. split; reflexivity.
Qed.
Lemma lit_integral : forall l, lit_ok l -> int_like (lty l) -> integral (lval l).
Proof.
  intros [t|t|n t|q t|q t] H [I|I]; cbn in *; try congruence; [exists 1|exists 0|exists n]; reflexivity.
Qed.
Lemma int_add : forall p q, integral p -> integral q -> integral (p + q).
Proof. intros p q [a Ha] [b Hb]. exists (a + b). rewrite Ha, Hb, inject_Z_plus. reflexivity. Qed.
Lemma int_sub : forall p q, integral p -> integral q -> integral (p - q).
Proof. intros p q [a Ha] [b Hb]. exists (a - b). unfold Qminus. rewrite Ha, Hb, <- inject_Z_opp, <- inject_Z_plus. reflexivity. Qed.
Lemma int_mul : forall p q, integral p -> integral q -> integral (p * q).
Proof. intros p q [a Ha] [b Hb]. exists (a * b). rewrite Ha, Hb, inject_Z_mult. reflexivity. Qed.
Lemma is_int_val : forall env e n, is_int e n = true -> exists v, eval env e = Some v /\ (v == inject_Z n)%Q.
Proof.
  intros env. induction e; intros n0 H; cbn [is_int] in H; try discriminate H.
  - eexists. split; [reflexivity|]. apply Qeq_bool_iff, H.
  - destruct (IHe _ H) as (v & E & V). cbn [eval]. rewrite E. eexists. split; [reflexivity|].
    rewrite V, inject_Z_opp. ring.
Qed.
Lemma is_int_any : forall e n, is_int e n = true -> forall env, exists v, eval env e = Some v /\ (v == inject_Z n)%Q.
Proof. intros. apply is_int_val. assumption. Qed.
Definition sound (same : ex -> ex -> bool) : Prop := forall a b, same a b = true -> a = b.
Lemma node_eq_val : forall same env a b v w, sound same -> node_eq same a b = true ->
  eval env a = Some v -> eval env b = Some w -> (v == w)%Q.
Proof.
  intros same env a b v w Hs H Ha Hb.
  assert (D : a = b \/ (exists l m, a = ELit l /\ b = ELit m /\ lit_eqb l m = true)
              \/ (exists x t u, a = ELeaf x t /\ b = ELeaf x u)).
  { destruct a; destruct b; cbn [node_eq] in H; try discriminate H; try (left; apply Hs; exact H).
    - right. right. apply Nat.eqb_eq in H. subst. eauto.
    - right. left. eauto. }
  destruct D as [-> | [(l & m & -> & -> & E) | (x & t & u & -> & ->)]].
  - rewrite Ha in Hb. injection Hb as ->. reflexivity.
  - cbn in Ha, Hb. injection Ha as <-. injection Hb as <-.
    destruct l, m; cbn in E |- *; try discriminate; try reflexivity.
    + apply Z.eqb_eq in E. subst. reflexivity.
    + apply Qeq_bool_iff, E.
    + apply Qeq_bool_iff, E.
  - cbn in Ha, Hb. rewrite Ha in Hb. injection Hb as ->. reflexivity.
Qed.
Lemma is_lit_inv : forall e l, is_lit e = Some l -> e = ELit l.
Proof. intros [] l0 H; try discriminate H. injection H as ->. reflexivity. Qed.

Ltac keep := let v := fresh "v" in let H := fresh "H" in
  intros v H; exists v; split; [rewrite ?eval_mkAdd, ?eval_mkSub, ?eval_mkMul; exact H|reflexivity].
Definition vle (env : nat -> Q) (e1 e2 : ex) : Prop :=
  forall v, eval env e1 = Some v -> exists w, eval env e2 = Some w /\ (w == v)%Q.
Lemma vle_keep : forall env e1 e2, eval env e2 = eval env e1 -> vle env e1 e2.
Proof. intros env e1 e2 H v E. exists v. split; [congruence|reflexivity]. Qed.

Lemma conv_add : forall env l m, lit_ok l -> lit_ok m ->
  exists w, eval env (conv (lval l + lval m) (tadd (lty l) (lty m))) = Some w /\ (w == lval l + lval m)%Q.
Proof.
  intros env l m Hl Hm. apply conv_val; [|apply tadd_nobool].
  intros H. apply tadd_int in H. destruct H. apply int_add; apply lit_integral; assumption.
Qed.
Lemma conv_sub : forall env l m, lit_ok l -> lit_ok m ->
  exists w, eval env (conv (lval l - lval m) (tadd (lty l) (lty m))) = Some w /\ (w == lval l - lval m)%Q.
Proof.
  intros env l m Hl Hm. apply conv_val; [|apply tadd_nobool].
  intros H. apply tadd_int in H. destruct H. apply int_sub; apply lit_integral; assumption.
Qed.
Ltac evs H := repeat match type of H with
  | context [eval ?e ?x] => let v := fresh "v" in let E := fresh "E" in destruct (eval e x) as [v|] eqn:E; [|discriminate H] end;
  injection H as <-.

Lemma add_base_val : forall same env a b, sound same -> ex_ok a -> ex_ok b -> vle env (EAdd a b) (add_base same a b).
Proof.
  intros same env a b Hs Ka Kb. unfold add_base. cbv zeta.
  destruct (is_lit a) as [l|] eqn:La, (is_lit b) as [m|] eqn:Lb.
  { apply is_lit_inv in La, Lb. subst. cbn [ty]. intros v H. cbn in H. injection H as <-. apply conv_add; assumption. }
  all: destruct (ty_eqb (tadd (ty a) (ty b)) (ty b) && is_int a 0) eqn:E1.
  1, 3, 5: apply andb_true_iff in E1; destruct E1 as [_ E1]; destruct (is_int_val env a 0 E1) as (z & Ez & Vz);
     intros v H; cbn [eval] in H; rewrite Ez in H; evs H; eexists; (split; [reflexivity|]); rewrite Vz; ring.
  all: destruct (ty_eqb (tadd (ty a) (ty b)) (ty a) && is_int b 0) eqn:E2.
  1, 3, 5: apply andb_true_iff in E2; destruct E2 as [_ E2]; destruct (is_int_val env b 0 E2) as (z & Ez & Vz);
     intros v H; cbn [eval] in H; rewrite Ez in H; evs H; eexists; (split; [reflexivity|]); rewrite Vz; ring.
  all: destruct a; try (apply vle_keep, eval_mkAdd); try discriminate La.
  - destruct a2; try (apply vle_keep, eval_mkAdd). apply is_lit_inv in Lb. subst b.
    intros v H. rewrite eval_mkAdd. cbn [eval] in H |- *. destruct Ka as [_ Kl].
    destruct (conv_add env l m Kl Kb) as (w & Ew & Vw). rewrite Ew.
    evs H. eexists. split; [reflexivity|]. rewrite Vw. ring.
  - destruct (node_eq same a2 b && ty_eqb (ty a1) (tadd (ty (ESub a1 a2)) (ty b))) eqn:E3; [|apply vle_keep, eval_mkAdd].
    apply andb_true_iff in E3. destruct E3 as [E3 _]. intros v H. cbn [eval] in H. evs H.
    eexists. split; [reflexivity|]. rewrite (node_eq_val same env a2 b _ _ Hs E3 E0 E4). ring.
  - destruct a2; apply vle_keep, eval_mkAdd.
  - destruct (node_eq same a2 b && ty_eqb (ty a1) (tadd (ty (ESub a1 a2)) (ty b))) eqn:E3; [|apply vle_keep, eval_mkAdd].
    apply andb_true_iff in E3. destruct E3 as [E3 _]. intros v H. cbn [eval] in H. evs H.
    eexists. split; [reflexivity|]. rewrite (node_eq_val same env a2 b _ _ Hs E3 E0 E4). ring.
Qed.
Lemma sub_base_val : forall same env a b, sound same -> ex_ok a -> ex_ok b -> vle env (ESub a b) (sub_base same a b).
Proof.
  intros same env a b Hs Ka Kb. unfold sub_base. cbv zeta.
  destruct (is_lit a) as [l|] eqn:La, (is_lit b) as [m|] eqn:Lb.
  { apply is_lit_inv in La, Lb. subst. cbn [ty]. intros v H. cbn in H. injection H as <-. apply conv_sub; assumption. }
  all: destruct (ty_eqb (tadd (ty a) (ty b)) (ty b) && is_int a 0) eqn:E1.
  1, 3, 5: apply andb_true_iff in E1; destruct E1 as [_ E1]; destruct (is_int_val env a 0 E1) as (z & Ez & Vz);
     intros v H; rewrite eval_mkNeg; cbn [eval] in H |- *; rewrite Ez in H; evs H; eexists; (split; [reflexivity|]); rewrite Vz; ring.
  all: destruct (ty_eqb (tadd (ty a) (ty b)) (ty a) && is_int b 0) eqn:E2.
  1, 3, 5: apply andb_true_iff in E2; destruct E2 as [_ E2]; destruct (is_int_val env b 0 E2) as (z & Ez & Vz);
     intros v H; cbn [eval] in H; rewrite Ez in H; evs H; eexists; (split; [reflexivity|]); rewrite Vz; ring.
  all: destruct a; try (apply vle_keep, eval_mkSub); try discriminate La.
  - destruct (node_eq same a2 b && ty_eqb (ty a1) (tadd (ty (EAdd a1 a2)) (ty b))) eqn:E3.
    + apply andb_true_iff in E3. destruct E3 as [E3 _]. intros v H. cbn [eval] in H. evs H.
      eexists. split; [reflexivity|]. rewrite (node_eq_val same env a2 b _ _ Hs E3 E0 E4). ring.
    + destruct (is_lit a2) as [l|] eqn:L2; [|apply vle_keep, eval_mkSub].
      apply is_lit_inv in L2, Lb. subst a2 b. destruct Ka as [_ Kl].
      intros v H. rewrite eval_mkAdd. cbn [eval] in H |- *.
      destruct (conv_sub env l m Kl Kb) as (w & Ew & Vw). rewrite Ew.
      evs H. eexists. split; [reflexivity|]. rewrite Vw. ring.
  - destruct a2; try (apply vle_keep, eval_mkSub). apply is_lit_inv in Lb. subst b. destruct Ka as [_ Kl].
    intros v H. rewrite eval_mkSub. cbn [eval] in H |- *.
    destruct (conv_add env l m Kl Kb) as (w & Ew & Vw). rewrite Ew.
    evs H. eexists. split; [reflexivity|]. rewrite Vw. ring.
  - destruct (node_eq same a2 b && ty_eqb (ty a1) (tadd (ty (EAdd a1 a2)) (ty b))) eqn:E3.
    + apply andb_true_iff in E3. destruct E3 as [E3 _]. intros v H. cbn [eval] in H. evs H.
      eexists. split; [reflexivity|]. rewrite (node_eq_val same env a2 b _ _ Hs E3 E0 E4). ring.
    + destruct (is_lit a2); apply vle_keep, eval_mkSub.
  - destruct a2; apply vle_keep, eval_mkSub.
Qed.
Lemma addsub_val : forall same env b (neg : bool) a, sound same -> ex_ok a -> ex_ok b ->
  vle env (if neg then ESub a b else EAdd a b) (addsub same neg a b).
Proof.
  intros same env. induction b; intros neg a Hs Ka Kb;
    try (cbn [addsub]; destruct neg; [apply sub_base_val|apply add_base_val]; assumption).
  cbn [addsub]. intros v H.
  assert (H' : exists u, eval env (if negb neg then ESub a b else EAdd a b) = Some u /\ (u == v)%Q).
  { destruct neg; cbn [negb eval] in *; evs H; eexists; (split; [reflexivity|]); ring. }
  destruct H' as (u & Hu & Vu). destruct (IHb (negb neg) a Hs Ka Kb u Hu) as (w & Hw & Vw).
  exists w. split; [exact Hw|]. rewrite Vw. exact Vu.
Qed.
Lemma add_val : forall same a b, sound same -> ex_ok a -> ex_ok b -> same_value (mkAdd a b) (add_s same a b).
Proof. intros same a b Hs Ka Kb env v H. rewrite eval_mkAdd in H. exact (addsub_val same env b false a Hs Ka Kb v H). Qed.
Lemma sub_val : forall same a b, sound same -> ex_ok a -> ex_ok b -> same_value (mkSub a b) (sub_s same a b).
Proof. intros same a b Hs Ka Kb env v H. rewrite eval_mkSub in H. exact (addsub_val same env b true a Hs Ka Kb v H). Qed.

Lemma tadd_zero_int : forall t, prim t <> KBool -> forall env, exists w, eval env (conv 0 t) = Some w /\ (w == 0)%Q.
Proof. intros t H env. apply conv_val; [|exact H]. intros _. exists 0. reflexivity. Qed.
Lemma mul_val : forall a b, ex_ok a -> ex_ok b -> same_value (mkMul a b) (mul_s a b).
Proof.
  intros a b Ka Kb env v H. rewrite eval_mkMul in H. unfold mul_s. cbv zeta.
  destruct (is_int a 1 && _) eqn:E1.
  { apply andb_true_iff in E1. destruct E1 as [E1 _]. destruct (is_int_val env a 1 E1) as (z & Ez & Vz).
    cbn [eval] in H. rewrite Ez in H. evs H. eexists. split; [reflexivity|]. rewrite Vz. ring. }
  destruct (is_int b 1 && _) eqn:E2.
  { apply andb_true_iff in E2. destruct E2 as [E2 _]. destruct (is_int_val env b 1 E2) as (z & Ez & Vz).
    cbn [eval] in H. rewrite Ez in H. evs H. eexists. split; [reflexivity|]. rewrite Vz. ring. }
  destruct (is_int a 0 || is_int b 0) eqn:E3.
  { destruct (tadd_zero_int (tadd (ty a) (ty b)) (tadd_nobool _ _) env) as (w & Ew & Vw). exists w. split; [exact Ew|].
    rewrite Vw. apply orb_true_iff in E3. cbn [eval] in H. destruct E3 as [E3|E3];
      destruct (is_int_val env _ 0 E3) as (z & Ez & Vz); rewrite Ez in H; evs H; rewrite Vz; ring. }
  destruct ((match a with ENeg x => is_int x 1 | _ => false end) && _) eqn:E4.
  { apply andb_true_iff in E4. destruct E4 as [E4 _]. destruct a as [| | | x | | | | | | | | | |]; try discriminate E4.
    destruct (is_int_val env x 1 E4) as (z & Ez & Vz). rewrite eval_mkNeg. cbn [eval] in H |- *. rewrite Ez in H. evs H.
    eexists. split; [reflexivity|]. rewrite Vz. ring. }
  destruct ((match b with ENeg x => is_int x 1 | _ => false end) && _) eqn:E5.
  { apply andb_true_iff in E5. destruct E5 as [E5 _]. destruct b as [| | | x | | | | | | | | | |]; try discriminate E5.
    destruct (is_int_val env x 1 E5) as (z & Ez & Vz). rewrite eval_mkNeg. cbn [eval] in H |- *. rewrite Ez in H. evs H.
    eexists. split; [reflexivity|]. rewrite Vz. ring. }
  destruct (is_lit a) as [l|] eqn:La, (is_lit b) as [m|] eqn:Lb;
    try (exists v; rewrite eval_mkMul; split; [exact H|reflexivity]).
  apply is_lit_inv in La, Lb. subst. cbn in H. injection H as <-. cbn [ty].
  apply conv_val; [|apply tadd_nobool]. intros H. apply tadd_int in H. destruct H.
  apply int_mul; apply lit_integral; assumption.
Qed.
Lemma tdiv_noint : forall a b, prim (tdiv a b) <> KInt /\ prim (tdiv a b) <> KBool.
Proof. intros [] []; vm_compute; split; discriminate. Qed.
Lemma div_val : forall a b e, div_s a b = Some e -> same_value (mkDiv a b) e.
Proof.
  intros a b e D env v H. rewrite eval_mkDiv in H. unfold div_s in D. cbv zeta in D.
  destruct (is_int b 1 && _) eqn:E1.
  { injection D as <-. apply andb_true_iff in E1. destruct E1 as [E1 _].
    destruct (is_int_val env b 1 E1) as (z & Ez & Vz). cbn [eval] in H. rewrite Ez in H.
    destruct (eval env a) as [p|] eqn:Ea; [|discriminate H]. destruct (Qeq_bool z 0); [discriminate H|].
    injection H as <-. eexists. split; [reflexivity|]. rewrite Vz. change (inject_Z 1) with 1%Q. field. }
  destruct (is_lit a) as [l|] eqn:La, (is_lit b) as [m|] eqn:Lb;
    try (injection D as <-; exists v; rewrite eval_mkDiv; split; [exact H|reflexivity]).
  apply is_lit_inv in La, Lb. subst. cbn [eval] in H. destruct (Qeq_bool (lval m) 0); [discriminate|].
  injection D as <-. injection H as <-. destruct (tdiv_noint (ty (ELit l)) (ty (ELit m))) as [T1 T2].
  apply conv_val; [intros H; contradiction (T1 H)|exact T2].
Qed.
Lemma div_zero : forall a b, div_s a b = None -> forall env, eval env (mkDiv a b) = None.
Proof.
  intros a b D env. unfold div_s in D. cbv zeta in D. destruct (is_int b 1 && _); [discriminate D|].
  destruct (is_lit a) as [l|] eqn:La, (is_lit b) as [m|] eqn:Lb; try discriminate D.
  apply is_lit_inv in La, Lb. subst. rewrite eval_mkDiv. cbn [eval]. destruct (Qeq_bool (lval m) 0); [reflexivity|discriminate].
Qed.
Lemma truth0 : forall c, Qeq_bool (truth c) 0 = negb c.
Proof. intros []; reflexivity. Qed.
Lemma not_val : forall a, same_value (mkNot a) (not_s a).
Proof.
  intros a env v H. rewrite eval_mkNot in H.
  destruct a; cbn [not_s]; try (exists v; rewrite eval_mkNot; split; [exact H|reflexivity]);
    rewrite ?eval_mkNe, ?eval_mkEq; cbn [eval] in H |- *;
    (destruct (eval env a1) as [p|]; [|discriminate H]); (destruct (eval env a2) as [q|]; [|discriminate H]);
    injection H as <-; eexists; (split; [reflexivity|]); rewrite truth0; [reflexivity|].
  destruct (Qeq_bool p q); reflexivity.
Qed.
Lemma lit_or_neg_val : forall env e q, lit_or_neg e = Some q -> eval env e = Some q.
Proof.
  intros env [] q0 H; cbn in H; try discriminate H; [injection H as <-; reflexivity|].
  destruct e; try discriminate H. injection H as <-. reflexivity.
Qed.
Lemma gt_val : forall a b, same_value (mkGt a b) (gt_s a b).
Proof.
  intros a b env v H. unfold gt_s. pose proof H as H0. rewrite eval_mkGt in H.
  destruct (lit_or_neg a) as [p|] eqn:Ea, (lit_or_neg b) as [q|] eqn:Eb;
    try (exists v; split; [exact H0|reflexivity]).
  cbn [eval] in H. rewrite (lit_or_neg_val env a p Ea), (lit_or_neg_val env b q Eb) in H. injection H as <-.
  destruct (negb (Qle_bool p q)); eexists; (split; [reflexivity|]); reflexivity.
Qed.

(* and, or *)
Definition ev_and env (l : list ex) : option Q := eval env (EAnd l).
Definition ev_or env (l : list ex) : option Q := eval env (EOr l).
Lemma ev_and_cons : forall env a l, ev_and env (a :: l) =
  match eval env a with Some v => if Qeq_bool v 0 then Some 0%Q else ev_and env l | None => None end.
Proof. reflexivity. Qed.
Lemma ev_or_cons : forall env a l, ev_or env (a :: l) =
  match eval env a with Some v => if Qeq_bool v 0 then ev_or env l else Some 1%Q | None => None end.
Proof. reflexivity. Qed.
Lemma ev_and_app : forall env l m, ev_and env (l ++ m) =
  match ev_and env l with Some v => if Qeq_bool v 0 then Some 0%Q else ev_and env m | None => None end.
Proof.
  intros env. induction l as [|a l IH]; intros m; [reflexivity|].
  cbn [app]. rewrite !ev_and_cons. destruct (eval env a) as [v|]; [|reflexivity].
  destruct (Qeq_bool v 0); [reflexivity|]. apply IH.
Qed.
Lemma ev_or_app : forall env l m, ev_or env (l ++ m) =
  match ev_or env l with Some v => if Qeq_bool v 0 then ev_or env m else Some 1%Q | None => None end.
Proof.
  intros env. induction l as [|a l IH]; intros m; [reflexivity|].
  cbn [app]. rewrite !ev_or_cons. destruct (eval env a) as [v|]; [|reflexivity].
  destruct (Qeq_bool v 0); [apply IH|reflexivity].
Qed.
Lemma ev_and_flat : forall env l, ev_and env (flat_map flat_and l) = ev_and env l.
Proof.
  intros env. induction l as [|a l IH]; [reflexivity|]. cbn [flat_map flat_and]. rewrite ev_and_app, IH, ev_and_cons.
  assert (S1 : forall a, ev_and env [a] = match eval env a with Some v => if Qeq_bool v 0 then Some 0%Q else Some 1%Q | None => None end) by reflexivity.
  destruct a; cbn [flat_and flat_or]; try (rewrite S1; destruct (eval env _) as [v|]; [|reflexivity]; destruct (Qeq_bool v 0); reflexivity).
  fold (ev_and env l0). reflexivity.
Qed.
Lemma ev_or_flat : forall env l, ev_or env (flat_map flat_or l) = ev_or env l.
Proof.
  intros env. induction l as [|a l IH]; [reflexivity|]. cbn [flat_map flat_or]. rewrite ev_or_app, IH, ev_or_cons.
  assert (S1 : forall a, ev_or env [a] = match eval env a with Some v => if Qeq_bool v 0 then Some 0%Q else Some 1%Q | None => None end) by reflexivity.
  destruct a; cbn [flat_and flat_or]; try (rewrite S1; destruct (eval env _) as [v|]; [|reflexivity]; destruct (Qeq_bool v 0); reflexivity).
  fold (ev_or env l0). reflexivity.
Qed.
Lemma ev_and_map : forall env f l, (forall x, eval env (f x) = eval env x) -> ev_and env (map f l) = ev_and env l.
Proof. intros env f l H. induction l as [|a l IH]; [reflexivity|]. cbn [map]. rewrite !ev_and_cons, H, IH. reflexivity. Qed.
Lemma ev_or_map : forall env f l, (forall x, eval env (f x) = eval env x) -> ev_or env (map f l) = ev_or env l.
Proof. intros env f l H. induction l as [|a l IH]; [reflexivity|]. cbn [map]. rewrite !ev_or_cons, H, IH. reflexivity. Qed.
Lemma eval_mkAnd : forall env l, eval env (mkAnd l) = ev_and env l.
Proof.
  intros. unfold mkAnd. fold (ev_and env (map and_arg (flat_map flat_and l))).
  rewrite ev_and_map, ev_and_flat; [reflexivity|]. intros x. unfold and_arg. destruct (prec x <? 5); destruct x; reflexivity.
Qed.
Lemma eval_mkOr : forall env l, eval env (mkOr l) = ev_or env l.
Proof.
  intros. unfold mkOr. fold (ev_or env (map or_arg (flat_map flat_or l))).
  rewrite ev_or_map, ev_or_flat; [reflexivity|]. intros x. unfold or_arg. destruct (prec x <? 4); destruct x; reflexivity.
Qed.
Lemma is_true_val : forall env e, is_true e = true -> eval env e = Some 1%Q.
Proof. intros env [| [] | | | | | | | | | | | |] H; try discriminate H. reflexivity. Qed.
Lemma is_false_val : forall env e, is_false e = true -> eval env e = Some 0%Q.
Proof. intros env [| [] | | | | | | | | | | | |] H; try discriminate H. reflexivity. Qed.
Lemma and_val : forall l, same_value (mkAnd l) (and_s l).
Proof.
  intros l env v H. rewrite eval_mkAnd in H. unfold and_s.
  destruct (existsb is_false l) eqn:E1.
  { exists 0%Q. split; [reflexivity|]. revert v H. induction l as [|a l IH]; intros v H; [discriminate E1|].
    rewrite ev_and_cons in H. cbn [existsb] in E1. destruct (is_false a) eqn:Ea.
    - rewrite (is_false_val env a Ea) in H. injection H as <-. reflexivity.
    - destruct (eval env a) as [u|]; [|discriminate H]. destruct (Qeq_bool u 0); [injection H as <-; reflexivity|].
      apply IH; assumption. }
  destruct (forallb is_true l) eqn:E2.
  { exists 1%Q. split; [reflexivity|]. clear E1. revert v H. induction l as [|a l IH]; intros v H.
    - injection H as <-. reflexivity.
    - cbn [forallb] in E2. apply andb_true_iff in E2. destruct E2 as [E2 E3].
      rewrite ev_and_cons, (is_true_val env a E2) in H. apply IH; assumption. }
  exists v. split; [|reflexivity]. rewrite eval_mkAnd, <- H. clear.
  induction l as [|a l IH]; [reflexivity|]. cbn [filter]. rewrite (ev_and_cons env a l).
  destruct (is_true a) eqn:Ea; cbn [negb].
  - rewrite (is_true_val env a Ea). exact IH.
  - rewrite ev_and_cons, IH. reflexivity.
Qed.
Lemma or_val : forall l, same_value (mkOr l) (or_s l).
Proof.
  intros l env v H. rewrite eval_mkOr in H. unfold or_s.
  destruct (existsb is_true l) eqn:E1.
  { exists 1%Q. split; [reflexivity|]. revert v H. induction l as [|a l IH]; intros v H; [discriminate E1|].
    rewrite ev_or_cons in H. cbn [existsb] in E1. destruct (is_true a) eqn:Ea.
    - rewrite (is_true_val env a Ea) in H. injection H as <-. reflexivity.
    - destruct (eval env a) as [u|]; [|discriminate H]. destruct (Qeq_bool u 0); [|injection H as <-; reflexivity].
      apply IH; assumption. }
  destruct (forallb is_false l) eqn:E2.
  { exists 0%Q. split; [reflexivity|]. clear E1. revert v H. induction l as [|a l IH]; intros v H.
    - injection H as <-. reflexivity.
    - cbn [forallb] in E2. apply andb_true_iff in E2. destruct E2 as [E2 E3].
      rewrite ev_or_cons, (is_false_val env a E2) in H. apply IH; assumption. }
  exists v. split; [|reflexivity]. rewrite eval_mkOr, <- H. clear.
  induction l as [|a l IH]; [reflexivity|]. cbn [filter]. rewrite (ev_or_cons env a l).
  destruct (is_false a) eqn:Ea; cbn [negb].
  - rewrite (is_false_val env a Ea). exact IH.
  - rewrite ev_or_cons, IH. reflexivity.
Qed.

(* ---- types ---- *)
Lemma ungrouped_tadd : forall x y z, ty_add (tadd x y) z = ty_add x (tadd y z) -> tadd (tadd x y) z = tadd x (tadd y z).
Proof. intros x y z H. rewrite !tadd_ty in H. injection H. auto. Qed.
Lemma teq_sym : forall a b, teq a b -> teq b a.
Proof. intros a b [H1 H2]. split; congruence. Qed.
Lemma add_base_ty : forall same a b, ungrouped a b -> teq (tadd (ty a) (ty b)) (ty (add_base same a b)).
Proof.
  intros same a b U. unfold add_base. cbv zeta.
  destruct (is_lit a) as [l|] eqn:La, (is_lit b) as [m|] eqn:Lb; [rewrite ty_conv; apply teq_refl| | |].
  all: destruct (ty_eqb (tadd (ty a) (ty b)) (ty b) && is_int a 0) eqn:E1;
    [apply andb_true_iff in E1; apply ty_eqb_teq, E1|].
  all: destruct (ty_eqb (tadd (ty a) (ty b)) (ty a) && is_int b 0) eqn:E2;
    [apply andb_true_iff in E2; apply ty_eqb_teq, E2|].
  all: destruct a; try (rewrite ty_mkAdd; apply teq_refl); try discriminate La.
  - destruct a2; try (rewrite ty_mkAdd; apply teq_refl). rewrite ty_mkAdd, ty_conv.
    apply is_lit_inv in Lb. subst b. cbn [ty]. cbn [ungrouped ty] in U. rewrite (ungrouped_tadd _ _ _ U). apply teq_refl.
  - destruct (node_eq _ _ _ && _) eqn:E3; [|rewrite ty_mkAdd; apply teq_refl].
    apply andb_true_iff in E3. apply teq_sym, ty_eqb_teq, E3.
  - destruct a2; rewrite ty_mkAdd; apply teq_refl.
  - destruct (node_eq _ _ _ && _) eqn:E3; [|rewrite ty_mkAdd; apply teq_refl].
    apply andb_true_iff in E3. apply teq_sym, ty_eqb_teq, E3.
Qed.
Lemma sub_base_ty : forall same a b, ungrouped a b -> teq (tadd (ty a) (ty b)) (ty (sub_base same a b)).
Proof.
  intros same a b U. unfold sub_base. cbv zeta.
  destruct (is_lit a) as [l|] eqn:La, (is_lit b) as [m|] eqn:Lb; [rewrite ty_conv; apply teq_refl| | |].
  all: destruct (ty_eqb (tadd (ty a) (ty b)) (ty b) && is_int a 0) eqn:E1;
    [apply andb_true_iff in E1; rewrite ty_mkNeg; apply ty_eqb_teq, E1|].
  all: destruct (ty_eqb (tadd (ty a) (ty b)) (ty a) && is_int b 0) eqn:E2;
    [apply andb_true_iff in E2; apply ty_eqb_teq, E2|].
  all: destruct a; try (rewrite ty_mkSub; apply teq_refl); try discriminate La.
  - destruct (node_eq _ _ _ && _) eqn:E3; [apply andb_true_iff in E3; apply teq_sym, ty_eqb_teq, E3|].
    destruct (is_lit a2) as [l|] eqn:L2; [|rewrite ty_mkSub; apply teq_refl].
    apply is_lit_inv in L2, Lb. subst a2 b. rewrite ty_mkAdd, ty_conv. cbn [ungrouped ty] in U |- *. rewrite (ungrouped_tadd _ _ _ U). apply teq_refl.
  - destruct a2; try (rewrite ty_mkSub; apply teq_refl). rewrite ty_mkSub, ty_conv.
    apply is_lit_inv in Lb. subst b. cbn [ty]. cbn [ungrouped ty] in U. rewrite (ungrouped_tadd _ _ _ U). apply teq_refl.
  - destruct (node_eq _ _ _ && _) eqn:E3; [apply andb_true_iff in E3; apply teq_sym, ty_eqb_teq, E3|].
    destruct (is_lit a2); rewrite ty_mkSub; apply teq_refl.
  - destruct a2; rewrite ty_mkSub; apply teq_refl.
Qed.
Lemma addsub_ty : forall same b neg a, ungrouped a b -> teq (tadd (ty a) (ty b)) (ty (addsub same neg a b)).
Proof.
  intros same. induction b; intros neg a U;
    try (cbn [addsub]; destruct neg; [apply sub_base_ty|apply add_base_ty]; exact U).
  cbn [addsub ty]. apply IHb. exact U.
Qed.
Lemma add_ty : forall same a b, ungrouped a b -> same_type (mkAdd a b) (add_s same a b).
Proof. intros same a b U. unfold same_type. rewrite ty_mkAdd. exact (addsub_ty same b false a U). Qed.
Lemma sub_ty : forall same a b, ungrouped a b -> same_type (mkSub a b) (sub_s same a b).
Proof. intros same a b U. unfold same_type. rewrite ty_mkSub. exact (addsub_ty same b true a U). Qed.
Lemma mul_ty : forall a b, is_int b 1 = false -> same_type (mkMul a b) (mul_s a b).
Proof.
  intros a b H. unfold same_type. rewrite ty_mkMul. fold (teq (tadd (ty a) (ty b)) (ty (mul_s a b))).
  unfold mul_s. cbv zeta. rewrite H. cbn [andb].
  destruct (is_int a 1 && _) eqn:E1; [apply andb_true_iff in E1; apply teq_sym, ty_eqb_teq, E1|].
  destruct (is_int a 0 || is_int b 0); [rewrite ty_conv; apply teq_refl|].
  destruct ((match a with ENeg x => is_int x 1 | _ => false end) && _) eqn:E4;
    [apply andb_true_iff in E4; rewrite ty_mkNeg; apply teq_sym, ty_eqb_teq, E4|].
  destruct ((match b with ENeg x => is_int x 1 | _ => false end) && _) eqn:E5;
    [apply andb_true_iff in E5; rewrite ty_mkNeg; apply teq_sym, ty_eqb_teq, E5|].
  destruct (is_lit a), (is_lit b); rewrite ?ty_conv, ?ty_mkMul; apply teq_refl.
Qed.
Lemma div_ty : forall a b e, div_s a b = Some e -> same_type (mkDiv a b) e.
Proof.
  intros a b e D. unfold same_type. rewrite ty_mkDiv. fold (teq (tdiv (ty a) (ty b)) (ty e)).
  unfold div_s in D. cbv zeta in D.
  destruct (is_int b 1 && _) eqn:E1; [injection D as <-; apply andb_true_iff in E1; apply teq_sym, ty_eqb_teq, E1|].
  destruct (is_lit a), (is_lit b); try (injection D as <-; rewrite ty_mkDiv; apply teq_refl).
  destruct (Qeq_bool (lval l0) 0); [discriminate D|]. injection D as <-. rewrite ty_conv. apply teq_refl.
Qed.
Lemma bool_ty : forall a b l, same_type (mkNot a) (not_s a) /\ same_type (mkGt a b) (gt_s a b)
  /\ same_type (mkAnd l) (and_s l) /\ same_type (mkOr l) (or_s l).
Proof.
  intros a b l. split; [|split; [|split]].
  - destruct a; split; reflexivity.
  - unfold gt_s. destruct (lit_or_neg a), (lit_or_neg b); try (split; reflexivity). destruct (negb _); split; reflexivity.
  - unfold and_s. destruct (existsb _ _); [split; reflexivity|]. destruct (forallb _ _); split; reflexivity.
  - unfold or_s. destruct (existsb _ _); [split; reflexivity|]. destruct (forallb _ _); split; reflexivity.
Qed.
