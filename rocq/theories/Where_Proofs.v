From Coq Require Import List Bool String ZArith Lia.
From Verif Require Import Expr_Model Expr_Spec Expr_Proofs Where_Model Where_Spec.
Import ListNotations.
Open Scope string_scope.
Open Scope list_scope.
Open Scope Z_scope.

Lemma grouped_ok L t : grouped L t -> ok L t.
Proof.
  induction t; cbn [grouped ok]; auto; try tauto.
  - destruct (prefix_ L o) as [[l r]|]; tauto.
  - destruct (infix L o) as [[[l ll] r]|]; tauto.
Qed.
Definition ends (rest : list tok) : Prop :=
  match rest with KOp _ :: _ | KIf :: _ => False | _ => True end.
Lemma plain_read t rest : grouped c_lang t -> ends rest ->
  rd_expr c_lang (4 * List.length (words t ++ rest) + 4) 0 (words t ++ rest) = Some (t, rest).
Proof.
  intros G Hr. apply grouped_ok in G.
  assert (Hs : forall m, stops c_lang m rest) by (intros m; destruct rest as [|[] ?]; simpl in *; tauto).
  pose proof (depth_len t) as D. 
  rewrite (reads c_lang c_table t G 0); [|lia|auto|rewrite app_length; lia].
  rewrite app_length.
  destruct (4 * (List.length (words t) + List.length rest) + 4 - depth t)%nat as [|g] eqn:Eg; [lia|].
  apply more_stops. auto.
Qed.
(* the tree C reads *)
Fixpoint tree (e : we) : ctree :=
  match e with
  | E t => Plain t
  | W (E c) a b => Cond c (tree a) (tree b)
  | _ => Plain (At "")
  end.
Lemma tree_val env fn e : outside e -> cval env fn (tree e) = py_value env fn e.
Proof.
  induction e as [t|c IHc a IHa b IHb|o a IHa b IHb]; cbn [outside tree]; try tauto; auto.
  destruct c as [c| |]; try tauto. intros (_ & Ha & Hb). cbn [cval py_value].
  rewrite IHa, IHb by assumption. reflexivity.
Qed.
Definition closes (rest : list tok) : Prop :=
  match rest with KOp _ :: _ | KIf :: _ | KQ :: _ => False | _ => True end.
Lemma closes_ends r : closes r -> ends r.
Proof. destruct r as [|[] ?]; simpl; tauto. Qed.
Lemma plain_step t rest fuel : grouped c_lang t -> closes rest ->
  rd_cond (S fuel) (words t ++ rest) = Some (Plain t, rest).
Proof.
  intros G H. cbn [rd_cond]. rewrite plain_read by auto using closes_ends.
  destruct rest as [|[] ?]; simpl in *; tauto || reflexivity.
Qed.
Lemma cond_step c rest fuel : grouped c_lang c ->
  rd_cond (S fuel) (words c ++ KQ :: rest) =
  match rd_cond fuel rest with
  | Some (a, KColon :: r) =>
    match rd_cond fuel r with Some (b, r) => Some (Cond c a b, r) | None => None end
  | _ => None
  end.
Proof. intros G. cbn [rd_cond]. rewrite plain_read by (simpl; auto). reflexivity. Qed.
Lemma tree_read e : outside e -> forall rest fuel, closes rest ->
  (List.length (c_text e) <= fuel)%nat ->
  rd_cond fuel (c_text e ++ rest) = Some (tree e, rest).
Proof.
  induction e as [t|c IHc a IHa b IHb|o a IHa b IHb]; cbn [outside tree c_text]; try tauto.
  - intros G rest fuel Hr Hf. destruct fuel as [|f]; [pose proof (words_len t); lia|].
    apply plain_step; auto.
  - destruct c as [c| |]; try tauto. intros (Gc & Ga & Gb) rest fuel Hr Hf. cbn [c_text] in *.
    rewrite !app_length in Hf. cbn [List.length] in Hf. rewrite app_length in Hf. cbn [List.length] in Hf.
    destruct fuel as [|f]; [lia|].
    rewrite <- !app_assoc. cbn [app]. rewrite cond_step by auto.
    rewrite <- app_assoc. cbn [app].
    rewrite (IHa Ga) by (simpl; auto; lia).
    rewrite (IHb Gb) by (auto; lia). reflexivity.
Qed.
Lemma read_tree e : outside e -> rd_c (c_text e) = Some (tree e).
Proof.
  intros G. unfold rd_c. pose proof (tree_read e G [] (S (List.length (c_text e)))) as R.
  rewrite app_nil_r in R. rewrite R by (simpl; auto; lia). reflexivity.
Qed.
Lemma outside_main env fn e : outside e -> c_value env fn e = py_value env fn e.
Proof. intros G. unfold c_value. rewrite read_tree by auto. apply tree_val; auto. Qed.
(* C sees only the words *)
Lemma same_text env fn e e' : c_text e = c_text e' -> outside e' ->
  c_value env fn e = py_value env fn e'.
Proof.
  intros H G. rewrite <- outside_main by auto. unfold c_value. rewrite H. reflexivity.
Qed.
Lemma left_main env fn o c a b e t : grouped c_lang c -> outside a -> grouped c_lang t ->
  words t = words b ++ KOp o :: words e ->
  c_value env fn (B o (W (E c) a (E b)) (E e)) = choose (tval env fn c) (py_value env fn a) (tval env fn t).
Proof.
  intros Gc Ga Gt Ht. rewrite (same_text env fn _ (W (E c) a (E t))); [reflexivity| |simpl; auto].
  cbn [c_text]. rewrite Ht, <- !app_assoc. cbn [app]. rewrite <- app_assoc. reflexivity.
Qed.
Lemma right_main env fn o c a b e t : grouped c_lang t -> outside a -> outside b ->
  words t = words e ++ KOp o :: words c ->
  c_value env fn (B o (E e) (W (E c) a b)) = choose (tval env fn t) (py_value env fn a) (py_value env fn b).
Proof.
  intros Gt Ga Gb Ht. rewrite (same_text env fn _ (W (E t) a b)); [reflexivity| |simpl; auto].
  cbn [c_text]. rewrite Ht, <- !app_assoc. reflexivity.
Qed.
Lemma condition_main env fn c x y a b : grouped c_lang c -> outside x -> grouped c_lang y ->
  outside a -> outside b ->
  c_value env fn (W (W (E c) x (E y)) a b) =
  choose (tval env fn c) (py_value env fn x) (choose (tval env fn y) (py_value env fn a) (py_value env fn b)).
Proof.
  intros Gc Gx Gy Ga Gb.
  rewrite (same_text env fn _ (W (E c) x (W (E y) a b))); [reflexivity| |simpl; auto].
  cbn [c_text]. rewrite <- !app_assoc. cbn [app]. rewrite <- !app_assoc. reflexivity.
Qed.

(* Fortran *)
Fixpoint ft (e : we) : txt :=
  match e with
  | E t => t
  | W c a b => Call3 "merge" (ft a) (ft b) (ft c)
  | B o a b => In o (ft a) (ft b)
  end.
Lemma ft_words e : words (ft e) = f_text e.
Proof. induction e; simpl; congruence. Qed.
Lemma ft_top e : f_top e = top f_lang (ft e).
Proof. destruct e; reflexivity. Qed.
Lemma ft_ok e : anywhere e -> ok f_lang (ft e).
Proof.
  induction e as [t|c IHc a IHa b IHb|o a IHa b IHb]; cbn [anywhere ft ok].
  - apply grouped_ok.
  - tauto.
  - destruct (infix f_lang o) as [[[l ll] r]|]; [|tauto]. rewrite !ft_top. tauto.
Qed.
Lemma ft_val env fn e : tval env fn (ft e) = py_value env fn e.
Proof. induction e; simpl; congruence. Qed.
Lemma fortran_main env fn e : anywhere e -> f_value env fn e = py_value env fn e.
Proof.
  intros G. unfold f_value. rewrite <- ft_words, (read_ok f_lang f_table) by (apply ft_ok; auto).
  apply ft_val.
Qed.
