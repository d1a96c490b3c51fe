From Coq Require Import List Bool String Ascii QArith Qcanon Lia.
From Verif Require Import Expr_Model Expr_Spec Expr_Proofs Norm_Model Norm_Spec.
Import ListNotations.
Open Scope string_scope.
Open Scope list_scope.
Open Scope Qc_scope.

Lemma grouped_ok t : grouped t -> ok f_lang t.
Proof.
  induction t; cbn [grouped ok]; auto; try tauto.
  - destruct (prefix_ f_lang o) as [[l r]|]; tauto.
  - destruct (infix f_lang o) as [[[l ll] r]|]; tauto.
Qed.
Fixpoint ft (e : ne) : txt :=
  match e with E t => t | N k => norm_text k | B o a b => In o (ft a) (ft b) end.
Lemma ft_words e : words (ft e) = f_text e.
Proof. induction e; simpl; congruence. Qed.
Lemma ft_level e : level e = top f_lang (ft e).
Proof. destruct e as [t|[]|o a b]; reflexivity. Qed.
Lemma norm_ok k : ok f_lang (norm_text k).
Proof. destruct k; cbn; repeat split; lia. Qed.
Lemma ft_ok e : fits e -> ok f_lang (ft e).
Proof.
  induction e as [t|k|o a IHa b IHb]; cbn [fits ft ok].
  - apply grouped_ok.
  - intros _. apply norm_ok.
  - destruct (infix f_lang o) as [[[l ll] r]|]; [|tauto]. rewrite !ft_level. tauto.
Qed.
Section Values.
Variables (pw : Qc -> Qc -> Qc) (red : string -> list Qc -> Qc) (xs : list Qc) (env : string -> Qc).
Notation tval := (tval pw red xs). Notation py_value := (py_value pw red xs). Notation f_value := (f_value pw red xs).
Notation np_norm := (np_norm pw red xs).
Hypothesis C : constants env.
Lemma all_map {A} (f : A -> Qc) (l : list A) : all_some (map (fun v => Some (f v)) l) = Some (map f l).
Proof. induction l; simpl; auto. rewrite IHl. reflexivity. Qed.
Lemma all_put {A} (g : A -> option Qc) (f : A -> Qc) (l : list A) : (forall v, g v = Some (f v)) ->
  all_some (map g l) = Some (map f l).
Proof. intros H. rewrite <- all_map. f_equal. apply map_ext. exact H. Qed.
Lemma norm_val k : named k -> tval env (norm_text k) = Some (np_norm env k).
Proof.
  destruct C as [C1 C0]. intros Hk.
  destruct k as [| | | | | |p q]; cbn [norm_text Norm_Spec.tval arr one].
  1-3, 5: rewrite (all_put _ (fun v => v)) by reflexivity; rewrite map_id; reflexivity.
  - rewrite (all_put _ (fun v => if Qclt_le_dec 0 v then 1 else 0)).
    + reflexivity.
    + intros v. cbn. unfold put. cbn. rewrite C0. reflexivity.
  - rewrite (all_put _ (fun v => 1 / v)).
    + cbn. rewrite C1. reflexivity.
    + intros v. cbn. unfold put. cbn. rewrite C1. reflexivity.
  - rewrite (all_put _ (fun v => pw v (env p))).
    + reflexivity.
    + intros v. cbn. unfold put. cbn. cbn in Hk. destruct (String.eqb_spec p "x"); [contradiction|reflexivity].
Qed.
Fixpoint all_named (e : ne) : Prop :=
  match e with E _ => True | N k => named k | B _ a b => all_named a /\ all_named b end.
Lemma fits_named e : fits e -> all_named e.
Proof.
  induction e as [t|k|o a IHa b IHb]; cbn [fits all_named]; auto.
  destruct (infix f_lang o) as [[[l ll] r]|]; tauto.
Qed.
Lemma ft_val e : all_named e -> tval env (ft e) = py_value env e.
Proof.
  induction e as [t|k|o a IHa b IHb]; cbn [all_named ft Norm_Spec.tval Norm_Spec.py_value]; auto.
  - apply norm_val.
  - intros [Ha Hb]. rewrite IHa, IHb by auto. reflexivity.
Qed.
Lemma norm_main e : fits e -> f_value env e = py_value env e.
Proof.
  intros G. unfold Norm_Spec.f_value. rewrite <- ft_words, (read_ok f_lang f_table) by (apply ft_ok; auto).
  apply ft_val. apply fits_named; auto.
Qed.
(* text that is read as another tree *)
Lemma other e t : f_text e = words t -> ok f_lang t -> f_value env e = tval env t.
Proof. intros H G. unfold Norm_Spec.f_value. rewrite H, (read_ok f_lang f_table) by auto. reflexivity. Qed.
Lemma sum_inv : tval env (Call1 "sum" (In "/" one arr)) = Some (sum (map (fun v => 1 / v) xs)).
Proof.
  destruct C as [C1 C0]. cbn [Norm_Spec.tval].
  rewrite (all_put _ (fun v => 1 / v)); [reflexivity|].
  intros v. cbn. unfold put. cbn. rewrite C1. reflexivity.
Qed.
Lemma sum_pow p : p <> "x" -> tval env (Call1 "sum" (In "**" arr (At p))) = Some (sum (map (fun v => pw v (env p)) xs)).
Proof.
  intros Hp. cbn [Norm_Spec.tval].
  rewrite (all_put _ (fun v => pw v (env p))); [reflexivity|].
  intros v. cbn. unfold put. cbn. destruct (String.eqb_spec p "x"); [contradiction|reflexivity].
Qed.
(* a op norm(x, -1), for * and / *)
Lemma left_main o t : o = "*" \/ o = "/" -> grouped t -> (13 <= top f_lang t)%nat ->
  f_value env (B o (E t) (N MinusOne)) =
  lift2 (fun x y => Some (x / y)) (lift2 (op2 pw o) (tval env t) (Some 1)) (Some (sum (map (fun v => 1 / v) xs))).
Proof.
  intros Ho G Ht. apply grouped_ok in G.
  set (S := Call1 "sum" (In "/" one arr)).
  rewrite (other _ (In "/" (In o t one) S)).
  - cbn [Norm_Spec.tval]. fold (tval env S). unfold S. rewrite sum_inv. cbn [Norm_Spec.tval one].
    destruct C as [C1 _]. rewrite C1. reflexivity.
  - unfold S. cbn [f_text norm_text words one arr]. rewrite <- ?app_assoc. cbn [app]. rewrite <- ?app_assoc. reflexivity.
  - destruct Ho as [-> | ->]; cbn; repeat split; auto; try lia.
Qed.
Lemma exponent_main t : grouped t -> (16 <= top f_lang t)%nat ->
  f_value env (B "**" (E t) (N MinusOne)) =
  lift2 (fun x y => Some (x / y)) (lift2 (op2 pw "**") (tval env t) (Some 1)) (Some (sum (map (fun v => 1 / v) xs))).
Proof.
  intros G Ht. apply grouped_ok in G.
  set (S := Call1 "sum" (In "/" one arr)).
  rewrite (other _ (In "/" (In "**" t one) S)).
  - cbn [Norm_Spec.tval]. fold (tval env S). unfold S. rewrite sum_inv. cbn [Norm_Spec.tval one].
    destruct C as [C1 _]. rewrite C1. reflexivity.
  - unfold S. cbn [f_text norm_text words one arr]. rewrite <- ?app_assoc. cbn [app]. rewrite <- ?app_assoc. reflexivity.
  - cbn; repeat split; auto; try lia.
Qed.
Lemma base_main p q t : p <> "x" -> grouped t -> (15 <= top f_lang t)%nat ->
  f_value env (B "**" (N (Power p q)) (E t)) =
  lift2 (op2 pw "**") (Some (sum (map (fun v => pw v (env p)) xs))) (lift2 (op2 pw "**") (Some (env q)) (tval env t)).
Proof.
  intros Hp G Ht. apply grouped_ok in G.
  set (S := Call1 "sum" (In "**" arr (At p))).
  rewrite (other _ (In "**" S (In "**" (At q) t))).
  - cbn [Norm_Spec.tval]. fold (tval env S). unfold S. rewrite sum_pow by auto. reflexivity.
  - unfold S. cbn [f_text norm_text words one arr]. rewrite <- ?app_assoc. cbn [app]. rewrite <- ?app_assoc. reflexivity.
  - cbn; repeat split; auto; try lia.
Qed.
End Values.

(* ---- C ---- *)
Lemma app_nil_s (s : string) : (s ++ "")%string = s.
Proof. induction s; simpl; congruence. Qed.
Lemma id_app s t : identifier s = s -> (identifier (s ++ t) = s ++ identifier t)%string.
Proof.
  induction s as [|c s IH]; cbn [identifier append]; auto.
  destruct (id_char c); intros H; [|discriminate]. injection H as H. rewrite IH by exact H. reflexivity.
Qed.
Lemma app_longer (s : string) : forall t, (s ++ t)%string = t -> s = "".
Proof.
  intros t H. apply (f_equal String.length) in H. 
  assert (L : forall u v, String.length (u ++ v)%string = (String.length u + String.length v)%nat).
  { induction u; simpl; auto. }
  rewrite L in H. destruct s; auto. simpl in H. lia.
Qed.
Lemma root_eq k : final_power k = has_root k.
Proof. destruct k; reflexivity. Qed.
Lemma inside_main k lhs tmp body p : has_root k = true -> is_name tmp ->
  identifier (snd (c_norm Inside k lhs tmp body p)) = (tmp ++ tmp)%string /\ (tmp ++ tmp)%string <> tmp.
Proof.
  intros Hk [Hn Hi]. unfold c_norm. cbn [functional]. rewrite root_eq. rewrite Hk. cbn [snd]. split.
  - unfold pow_code. rewrite (id_app tmp _ Hi). f_equal. rewrite (id_app tmp _ Hi). cbn. apply app_nil_s.
  - intros H. apply Hn. exact (app_longer _ _ H).
Qed.
Lemma c_main : forall k lhs tmp body p,
  let tail v := if has_root k then pow_code v p else "" in
  fst (c_norm Assigned k lhs tmp body p) = "" /\
  snd (c_norm Assigned k lhs tmp body p) = (loop_code lhs body ++ tail lhs)%string /\
  fst (c_norm Augmented k lhs tmp body p) = (loop_code tmp body ++ tail tmp)%string /\
  snd (c_norm Augmented k lhs tmp body p) = tmp /\
  (has_root k = false -> c_norm Inside k lhs tmp body p = (loop_code tmp body, tmp)).
Proof.
  intros k lhs tmp body p. unfold c_norm. cbn [functional]. rewrite root_eq. cbv zeta.
  destruct (has_root k); cbn [fst snd]; rewrite ?app_nil_s; repeat split; auto. discriminate.
Qed.
