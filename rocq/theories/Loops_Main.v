(* Proofs about the unrolling of array statements: blocks. *)
From Coq Require Import Bool Arith ZArith Lia List.
From Verif Require Import Loops_Model Loops_Spec Loops_Proofs Loops_Fuse.
Import ListNotations.
Open Scope list_scope.

(* ------------------------------ the generated loops --------------------------- *)

Lemma addr_ext : forall rho sg env env' l v, (forall k, env k = env' k) -> addr rho sg env l v = addr rho sg env' l v.
Proof.
  intros rho sg env env' l v H. revert v. induction l as [|[k|st step n base|lv st step base] l IH]; intros v; cbn [addr]; rewrite ?IH; try reflexivity.
  destruct lv as [k|]; [rewrite H|]; reflexivity.
Qed.

Lemma op_addr_ext : forall rho sg env env' o v, (forall k, env k = env' k) -> op_addr rho sg env o v = op_addr rho sg env' o v.
Proof. intros. apply addr_ext. assumption. Qed.

Lemma eval_ext : forall rho sg env env' m e v, (forall k, env k = env' k) -> eval rho sg env m e v = eval rho sg env' m e v.
Proof.
  intros rho sg env env' m e v H. revert v. induction e as [z|o|f e IH|f e1 IH1 e2 IH2|g sh e IH]; intros v; cbn [eval].
  - reflexivity.
  - rewrite (op_addr_ext rho sg env env') by exact H. reflexivity.
  - rewrite IH. reflexivity.
  - rewrite IH1, IH2. reflexivity.
  - f_equal. apply map_ext. exact IH.
Qed.

Lemma line_ext : forall rho sg env env' s m, (forall k, env k = env' k) -> exec_line rho sg env s m = exec_line rho sg env' s m.
Proof. intros rho sg env env' s m H. rewrite !exec_line_write. apply write_all_ext. intros v _. split; [apply op_addr_ext|apply eval_ext]; exact H. Qed.

Lemma fold_ext : forall (A B : Type) (f g : A -> B -> A) l a, (forall a b, f a b = g a b) -> fold_left f l a = fold_left g l a.
Proof. intros A B f g l. induction l as [|b l IH]; intros a H; [reflexivity|]. cbn. rewrite H. apply IH. exact H. Qed.

Lemma exec_ext : forall rho sg c env env' m, (forall k, env k = env' k) -> exec rho sg env c m = exec rho sg env' c m.
Proof.
  intros rho sg. induction c as [|s rest IH|k l body IHb rest IHr]; intros env env' m H; cbn [exec].
  - reflexivity.
  - rewrite (line_ext rho sg env env') by exact H. apply IH. exact H.
  - rewrite (IHr env env') by exact H. f_equal. apply fold_ext. intros m1 i. apply IHb. intros j. unfold set_env. rewrite H. reflexivity.
Qed.

Lemma exec_app : forall rho sg c c' env m, exec rho sg env (code_app c c') m = exec rho sg env c' (exec rho sg env c m).
Proof. intros rho sg. induction c as [|s rest IH|k l body IHb rest IHr]; intros c' env m; cbn [code_app exec]; [reflexivity|apply IH|apply IHr]. Qed.

Fixpoint free_of (lev : nat) (c : code) : Prop :=
  match c with
  | CNil => True
  | CLine _ rest => free_of lev rest
  | CFor k _ body rest => k <> lev /\ free_of lev body /\ free_of lev rest
  end.

Lemma zero_addr : forall rho sg env lev l v, addr rho sg env (map (zero_dim lev) l) v = addr rho sg (set_env env lev 0) l v.
Proof.
  intros rho sg env lev. induction l as [|[k|st step n base|[k|] st step base] l IH]; intros v; cbn [map zero_dim addr]; rewrite ?IH; try reflexivity.
  unfold set_env at 2. destruct (Nat.eqb k lev) eqn:E; cbn [addr]; rewrite ?IH; unfold set_env; rewrite ?E; reflexivity.
Qed.

Lemma zero_shape : forall lev l, dims_shape (map (zero_dim lev) l) = dims_shape l.
Proof.
  intros lev. induction l as [|x l IH]; [reflexivity|]. change (x :: l) with ([x] ++ l). rewrite map_app, !shape_app, IH. f_equal.
  destruct x as [k|st step n base|[k|] st step base]; cbn; try reflexivity. destruct (Nat.eqb k lev); reflexivity.
Qed.

Lemma zero_op_addr : forall rho sg env lev o v, op_addr rho sg env (zero_op lev o) v = op_addr rho sg (set_env env lev 0) o v.
Proof. intros. unfold op_addr, rank, shape, zero_op. cbn [o_dims]. rewrite zero_shape. apply zero_addr. Qed.

Lemma zero_eval : forall rho sg env lev m e v, eval rho sg env m (zero_expr lev e) v = eval rho sg (set_env env lev 0) m e v.
Proof.
  intros rho sg env lev m. induction e as [z|o|f e IH|f e1 IH1 e2 IH2|g sh e IH]; intros v; cbn [zero_expr eval].
  - reflexivity.
  - rewrite zero_op_addr. reflexivity.
  - rewrite IH. reflexivity.
  - rewrite IH1, IH2. reflexivity.
  - f_equal. apply map_ext. exact IH.
Qed.

Lemma zero_exec : forall rho sg lev c env m, free_of lev c -> exec rho sg env (zero_code lev c) m = exec rho sg (set_env env lev 0) c m.
Proof.
  intros rho sg lev. induction c as [|s rest IH|k l body IHb rest IHr]; intros env m F; cbn [zero_code exec free_of] in *.
  - reflexivity.
  - rewrite IH by exact F. f_equal. rewrite !exec_line_write. cbn [s_lhs s_rhs]. change (o_var (zero_op lev (s_lhs s))) with (o_var (s_lhs s)). change (shape (zero_op lev (s_lhs s))) with (dims_shape (map (zero_dim lev) (o_dims (s_lhs s)))). rewrite zero_shape.
    apply write_all_ext. intros v _. split; [apply zero_op_addr|apply zero_eval].
  - destruct F as (N & Fb & Fr). rewrite IHr by exact Fr. f_equal. apply fold_ext. intros m1 i. rewrite IHb by exact Fb. apply exec_ext.
    intros j. unfold set_env. destruct (Nat.eqb_spec j lev) as [E|E]; destruct (Nat.eqb_spec j k) as [E'|E']; congruence.
Qed.

Lemma free_app : forall lev c c', free_of lev c -> free_of lev c' -> free_of lev (code_app c c').
Proof. intros lev. induction c as [|s rest IH|k l body IHb rest IHr]; intros c' F F'; cbn in *; [exact F'|apply IH; assumption|]. destruct F as (A & B & C). repeat split; auto. Qed.

Lemma free_zero : forall lev k c, free_of lev c -> free_of lev (zero_code k c).
Proof. intros lev k. induction c as [|s rest IH|j l body IHb rest IHr]; intros F; cbn in *; [exact I|apply IH; exact F|]. destruct F as (A & B & C). repeat split; auto. Qed.

Lemma free_fors : forall r lev k, lev < k -> free_of lev (insert_fors k r).
Proof.
  induction r as [|s rest IH|l mods body IHb rest IHr]; intros lev k L; cbn [insert_fors free_of].
  - exact I.
  - apply IH. exact L.
  - destruct (is_one l).
    + apply free_app; [apply free_zero, IHb; lia|apply IHr; exact L].
    + cbn [free_of]. split; [lia|]. split; [apply IHb; lia|apply IHr; exact L].
Qed.

Lemma fors_run : forall rho sg r lev env m, exec rho sg env (insert_fors lev r) m = run rho sg lev env r m.
Proof.
  intros rho sg. induction r as [|s rest IH|l mods body IHb rest IHr]; intros lev env m; cbn [insert_fors run exec].
  - reflexivity.
  - apply IH.
  - destruct (is_one l) eqn:O.
    + rewrite exec_app, IHr, zero_exec by (apply free_fors; lia). rewrite IHb, (is_one_val rho l O). reflexivity.
    + cbn [exec]. rewrite IHr. f_equal. apply fold_ext. intros m1 i. apply IHb.
Qed.

(* ------------------------------- the statements ------------------------------ *)

Lemma good_src : forall sg o, good_op sg o -> src_op o /\ strided (o_dims o).
Proof.
  intros sg o [F _]. unfold src_op, src, strided. rewrite !Forall_forall in *. split; intros d I; specialize (F d I); destruct d as [k|st step n base|lv st step base]; cbn in F; auto.
  destruct F as [F _]. destruct step; [lia|exact Logic.I].
Qed.

Lemma good_expr_src : forall rho sg e out, good_expr rho sg out e -> src_expr e /\ fit_expr rho out e.
Proof.
  intros rho sg. induction e as [z|o|f e IH|f e1 IH1 e2 IH2|g sh e IH]; intros out G; cbn [good_expr src_expr] in *.
  - split; [exact I|constructor].
  - destruct G as [G F]. destruct (good_src sg o G) as [A B]. split; [exact A|]. constructor; [split; assumption|constructor].
  - apply IH. exact G.
  - destruct G as [G1 G2]. destruct (IH1 out G1), (IH2 out G2). split; [split; assumption|]. apply Forall_app. split; assumption.
  - destruct (IH sh G). split; [assumption|constructor].
Qed.

Lemma good_ready : forall rho sg s, good_stmt rho sg s -> ready rho s.
Proof. intros rho sg s [G1 G2]. destruct (good_src sg _ G1). destruct (good_expr_src rho sg _ _ G2). constructor; assumption. Qed.

Lemma good_users : forall rho sg e out, good_expr rho sg out e -> forall x, In x (all_vars e) -> is_user x.
Proof.
  intros rho sg. induction e as [z|o|f e IH|f e1 IH1 e2 IH2|g sh e IH]; intros out G x I; cbn [good_expr all_vars] in *.
  - destruct I.
  - destruct I as [<-|[]]. apply G.
  - apply (IH out); assumption.
  - destruct G. apply in_app_or in I. destruct I; [apply (IH1 out)|apply (IH2 out)]; assumption.
  - apply (IH sh); assumption.
Qed.

Lemma element_addr : forall rho sg l u, Forall (forward sg) l -> List.length u = List.length (dims_shape l) ->
  element rho sg l (map (fun p => if Nat.eqb (len_val rho (fst p)) 1 then 0 else snd p) (combine (dims_shape l) u)) = addr rho sg env0 l u.
Proof.
  intros rho sg. induction l as [|[k|st step n base|lv st step base] l IH]; intros u F L; inversion F as [|? ? Fd Fl]; subst.
  - reflexivity.
  - cbn [element addr]. f_equal. apply IH; assumption.
  - change (dims_shape (DSlice st step n base :: l)) with (n :: dims_shape l) in *. destruct u as [|i u]; [discriminate|]. cbn [List.length] in L. injection L as L.
    cbn [combine map fst snd element addr hd tl]. rewrite IH by assumption. f_equal. f_equal. cbn [forward] in Fd. destruct Fd as [F1 F2].
    unfold first_of, start_val. destruct st as [|z|k].
    + destruct step as [z|]; [|reflexivity]. destruct (Z.ltb_spec z 0); [lia|reflexivity].
    + destruct (Z.ltb z 0); [lia|reflexivity].
    + destruct (Z.ltb_spec (sg k) 0); [lia|reflexivity].
  - destruct Fd.
Qed.

Lemma element_at : forall rho sg o v, good_op sg o -> inside rho (shape o) v -> element rho sg (o_dims o) v = at_pos rho sg o v.
Proof.
  intros rho sg o v [F _] I. unfold at_pos, op_addr. rewrite (inside_length _ _ _ I). unfold rank. rewrite Nat.sub_diag. cbn [skipn].
  rewrite <- element_addr; [|exact F|apply (inside_length _ _ _ I)]. f_equal. unfold inside, shape in I.
  induction I as [|l i sh w H W IH]; [reflexivity|]. cbn [combine map fst snd]. rewrite <- IH. f_equal. destruct (Nat.eqb_spec (len_val rho l) 1); [lia|reflexivity].
Qed.

Lemma value_eval : forall rho sg m e out v, good_expr rho sg out e -> inside rho out v -> value rho sg m e v = eval rho sg env0 m e v.
Proof.
  intros rho sg m. induction e as [z|o|f e IH|f e1 IH1 e2 IH2|g sh e IH]; intros out v G I; cbn [good_expr value eval] in *.
  - reflexivity.
  - destruct G as [G F]. f_equal. unfold broadcast, op_addr. fold (rank o). apply element_addr; [apply G|].
    rewrite skipn_length. rewrite (inside_length _ _ _ I). destruct F as [F _]. unfold rank, shape in *. lia.
  - rewrite (IH out) by assumption. reflexivity.
  - destruct G. rewrite (IH1 out), (IH2 out) by assumption. reflexivity.
  - f_equal. apply map_ext_in. intros w Iw. apply box_inside in Iw. apply (IH sh); assumption.
Qed.

(* equal user variables *)
Definition same_user (m m' : mem) : Prop := forall n a, m (VUser n) a = m' (VUser n) a.

Lemma eval_user : forall rho sg m m' e v, (forall x, In x (all_vars e) -> is_user x) -> same_user m m' -> eval rho sg env0 m e v = eval rho sg env0 m' e v.
Proof.
  intros rho sg m m' e. induction e as [z|o|f e IH|f e1 IH1 e2 IH2|g sh e IH]; intros v U S; cbn [eval all_vars] in *.
  - reflexivity.
  - destruct (U (o_var o) (or_introl eq_refl)) as (n & ->). apply S.
  - rewrite IH; auto.
  - rewrite IH1, IH2; auto; intros x I; apply U; apply in_or_app; auto.
  - f_equal. apply map_ext. intros w. apply IH; assumption.
Qed.

(* ------------------------------- temporaries -------------------------------- *)

Definition temp_op (j : nat) : operand := mk_op (VTemp j) [].

Lemma pull_facts : forall rho e k k' l e', pull k e = (k', l, e') ->
  k <= k' /\ dependencies e' = [] /\ (l = [] -> e' = e /\ has_call e = false) /\
  (forall o, In o (operands e') -> In o (operands e) \/ exists j, k <= j < k' /\ o = temp_op j) /\
  (src_expr e -> src_expr e') /\ (forall out, fit_expr rho out e -> fit_expr rho out e').
Proof.
  intros rho. induction e as [z|o|f e IH|f e1 IH1 e2 IH2|g sh e IH]; intros k k' l e' E; cbn [pull] in E.
  - injection E as <- <- <-. split; [lia|]. repeat split; auto; intros; contradiction.
  - injection E as <- <- <-. split; [lia|]. repeat split; auto.
  - destruct (pull k e) as [[k1 l1] e1'] eqn:P. injection E as <- <- <-. destruct (IH k k1 l1 e1' P) as (A & B & C & D & F & G). split; [exact A|]. split; [exact B|].
    split. { intros X. destruct (C X) as [-> Y]. split; [reflexivity|exact Y]. } split; [exact D|]. split; [exact F|exact G].
  - destruct (pull k e1) as [[k1 l1] e1'] eqn:P1. destruct (pull k1 e2) as [[k2 l2] e2'] eqn:P2. injection E as <- <- <-.
    destruct (IH1 k k1 l1 e1' P1) as (A & B & C & D & F & G). destruct (IH2 k1 k2 l2 e2' P2) as (A' & B' & C' & D' & F' & G').
    split; [lia|]. split; [cbn; rewrite B, B'; reflexivity|].
    split. { intros X. apply app_eq_nil in X. destruct X as [X X']. destruct (C X) as [-> Y]. destruct (C' X') as [-> Y']. split; [reflexivity|]. cbn. rewrite Y, Y'. reflexivity. }
    split.
    { intros o I. cbn [operands] in *. apply in_app_or in I. destruct I as [I|I].
      - destruct (D o I) as [J|(j & L & J)]; [left; apply in_or_app; auto|right; exists j; split; [lia|exact J]].
      - destruct (D' o I) as [J|(j & L & J)]; [left; apply in_or_app; auto|right; exists j; split; [lia|exact J]]. }
    split; [intros [X Y]; split; [apply F, X|apply F', Y]|]. intros out X. unfold fit_expr in *. cbn [operands] in *. apply Forall_app in X. apply Forall_app. destruct X. split; [apply G|apply G']; assumption.
  - injection E as <- <- <-. split; [lia|]. split; [reflexivity|]. split; [discriminate|].
    split. { intros o [<-|[]]. right. exists k. split; [lia|reflexivity]. }
    split; [intros _; constructor|]. intros out _. constructor; [|constructor]. split; [constructor|]. split; [cbn; lia|].
    change (List.length (shape (mk_op (VTemp k) []))) with 0. rewrite Nat.sub_0_r, skipn_all. constructor.
Qed.

Lemma run_lines_app : forall rho sg lev env l l' m, run rho sg lev env (lines (l ++ l')) m = run rho sg lev env (lines l') (run rho sg lev env (lines l) m).
Proof. intros rho sg lev env. induction l as [|s l IH]; intros l' m; [reflexivity|]. cbn [app lines run]. apply IH. Qed.

Lemma pull_run : forall rho sg env e k k' l e', pull k e = (k', l, e') -> src_expr e -> (forall x, In x (all_vars e) -> is_user x) -> forall m,
  let mt := run rho sg 0 env (lines l) m in
  same_user mt m /\ (forall j a, j < k -> mt (VTemp j) a = m (VTemp j) a) /\ (forall v, eval rho sg env0 mt e' v = eval rho sg env0 m e v).
Proof.
  intros rho sg env. induction e as [z|o|f e IH|f e1 IH1 e2 IH2|g sh e IH]; intros k k' l e' E S U m; cbn [pull] in E.
  - injection E as <- <- <-. cbn. repeat split; auto.
  - injection E as <- <- <-. cbn. repeat split; auto.
  - destruct (pull k e) as [[k1 l1] e1'] eqn:P. injection E as <- <- <-. destruct (IH k k1 l1 e1' P S U m) as (A & B & C). split; [exact A|]. split; [exact B|].
    intros v. cbn [eval]. rewrite C. reflexivity.
  - destruct (pull k e1) as [[k1 l1] e1'] eqn:P1. destruct (pull k1 e2) as [[k2 l2] e2'] eqn:P2. injection E as <- <- <-. destruct S as [S1 S2]. cbn [all_vars] in U.
    assert (U1 : forall x, In x (all_vars e1) -> is_user x) by (intros x I; apply U; apply in_or_app; auto).
    assert (U2 : forall x, In x (all_vars e2) -> is_user x) by (intros x I; apply U; apply in_or_app; auto).
    rewrite run_lines_app. set (m1 := run rho sg 0 env (lines l1) m). destruct (IH1 k k1 l1 e1' P1 S1 U1 m) as (A & B & C). fold m1 in A, B, C.
    destruct (IH2 k1 k2 l2 e2' P2 S2 U2 m1) as (A' & B' & C'). set (m2 := run rho sg 0 env (lines l2) m1) in *. cbn zeta in *.
    destruct (pull_facts rho e1 k k1 l1 e1' P1) as (Lk & Dn & _ & Ops & _).
    split; [intros n a; rewrite A'; apply A|]. split; [intros j a L; rewrite B' by lia; apply B; exact L|].
    intros v. cbn [eval]. rewrite C', <- C. f_equal.
    + apply eval_agree.
      * intros o I. destruct (Ops o I) as [J|(j & L & ->)].
        -- assert (X : is_user (o_var o)). { apply U1. clear - J. induction e1 as [z|o1|f e IH|f e1 IH1 e2 IH2|g sh e IH]; cbn [operands all_vars] in *; auto.
             - destruct J as [->|[]]. left. reflexivity.
             - apply in_app_or in J. apply in_or_app. destruct J; auto.
             - destruct J. }
           destruct X as (n & ->). apply A'.
        -- apply B'. lia.
      * rewrite Dn. intros x a [].
    + apply eval_user; [exact U2|exact A].
  - injection E as <- <- <-. cbn [lines run]. rewrite exec_line_write. cbn [s_lhs s_rhs o_var]. change (shape (mk_op (VTemp k) [])) with (@nil len). cbn [map box]. unfold write_all. cbn [fold_left].
    change (op_addr rho sg env (mk_op (VTemp k) []) []) with (@nil Z). split; [intros n a; apply write_other; left; discriminate|].
    split. { intros j a L. apply write_other. left. intros X. injection X as ->. lia. }
    intros v. cbn [eval o_var]. change (op_addr rho sg env0 (mk_op (VTemp k) []) v) with (@nil Z). rewrite write_same. cbn [src_expr] in S. f_equal.
    apply map_ext. intros w. apply eval_src. exact S.
Qed.

(* ---------------------------- one statement ------------------------------ *)

Lemma assigned_part : forall rho sg s e m m' mt mt', good_stmt rho sg s -> assigned rho sg s m m' -> same_user mt m -> same_user mt' mt ->
  ready rho (mk_stmt (s_lhs s) e) -> (forall v, eval rho sg env0 mt' e v = eval rho sg env0 mt (s_rhs s) v) ->
  same_user (part rho sg (mk_stmt (s_lhs s) e) [] mt') m'.
Proof.
  intros rho sg s e m m' mt mt' [G1 G2] [A1 A2] U1 U2 R Ev n a.
  destruct (var_dec (VUser n) (o_var (s_lhs s))) as [Ex|Nx].
  - destruct (at_pos_dec rho sg (mk_stmt (s_lhs s) e) [] a (shape (s_lhs s))) as [(v & Iv & ->)|N].
    + rewrite Ex. pose proof (part_at rho sg (mk_stmt (s_lhs s) e) [] mt' v R) as X. cbn [s_lhs s_rhs app List.length firstn skipn] in X.
      cbn [s_lhs app]. rewrite X; [|constructor|exact Iv]. rewrite Ev, <- (element_at rho sg (s_lhs s) v G1 Iv), A1 by exact Iv.
      rewrite (value_eval rho sg m (s_rhs s) (shape (s_lhs s)) v G2 Iv). apply eval_user; [apply (good_users rho sg _ _ G2)|exact U1].
    + rewrite part_frame; [|intros _ v Iv; apply N; exact Iv]. rewrite U2, U1. symmetry. apply A2. intros _ v Iv. rewrite (element_at rho sg (s_lhs s) v G1 Iv). apply (N v Iv).
  - rewrite part_frame; [|intros X; contradiction]. rewrite U2, U1. symmetry. apply A2. intros X. contradiction.
Qed.

(* ------------------------------- the block ------------------------------- *)

Definition pulled (g : list stmt) (t : stmt) : Prop :=
  exists s k k' l e', In s g /\ pull k (s_rhs s) = (k', l, e') /\ t = mk_stmt (s_lhs s) e'.

Lemma pulled_pure : forall rho sg g t, Forall (good_stmt rho sg) g -> pulled g t -> pure rho t.
Proof.
  intros rho sg g t G (s & k & k' & l & e' & I & P & ->). rewrite Forall_forall in G. pose proof (good_ready rho sg s (G s I)) as [R1 R2 R3 R4].
  destruct (pull_facts rho (s_rhs s) k k' l e' P) as (_ & Dn & _ & _ & Sr & Ft). split; [|exact Dn]. constructor; cbn [s_lhs s_rhs]; auto.
Qed.

Lemma pulled_step : forall rho sg g s t s' t', Forall (good_stmt rho sg) g -> In t g -> in_step s t ->
  (exists k k' l e', pull k (s_rhs s) = (k', l, e') /\ s' = mk_stmt (s_lhs s) e') -> s_lhs t' = s_lhs t -> in_step s' t'.
Proof.
  intros rho sg g s t s' t' G It IS (k & k' & l & e' & P & ->) Et o Io Ev. rewrite Et in *. cbn [s_lhs]. cbn [accesses s_lhs s_rhs] in Io.
  destruct Io as [<-|Io]; [apply IS; [left; reflexivity|exact Ev]|].
  destruct (pull_facts rho (s_rhs s) k k' l e' P) as (_ & _ & _ & Ops & _). destruct (Ops o Io) as [J|(j & _ & ->)]; [apply IS; [right; exact J|exact Ev]|].
  rewrite Forall_forall in G. destruct (G t It) as [[_ (n & X)] _]. rewrite X in Ev. discriminate.
Qed.

Definition level_ok (st : state) (done : list stmt) : Prop :=
  0 < st_level st -> exists pre g l b, done = pre ++ g /\ g <> [] /\ last_loop (st_result st) = Some (l, b) /\ made (pulled g) [l] b /\
    Forall (fun s => hd_error (shape (s_lhs s)) = Some l) g /\ Forall (fun s => has_call (s_rhs s) = false) (tl g).

Lemma last_place : forall deps x t r m sh,
  (exists l b m' sh', last_loop r = Some (l, b) /\ m = S m' /\ sh = l :: sh' /\ last_loop (place m deps sh x t r) = Some (l, place m' deps sh' x t b)) \/
  last_loop (place m deps sh x t r) = last_loop (nest sh x t).
Proof.
  intros deps x t. induction r as [|t0 rest IH|l mods body IHb rest IHr]; intros m sh.
  - right. reflexivity.
  - cbn [place last_loop]. apply IH.
  - destruct rest as [|t' rest'|l' mods' body' rest'].
    + assert (N : last_loop (ILoop l mods body (nest sh x t)) = last_loop (nest sh x t)) by (destruct sh; reflexivity).
      destruct m as [|m]; [right; exact N|]. destruct sh as [|l' sh]; [right; exact N|]. cbn [place].
      destruct (len_eqb l l' && negb (existsb (fun u => existsb (var_eqb u) mods) deps)) eqn:C; [|right; exact N].
      apply andb_true_iff in C. destruct C as [C _]. assert (El : l = l') by (destruct l, l'; cbn in C; try discriminate; apply Nat.eqb_eq in C; congruence). subst l'.
      left. exists l, body, m, sh. repeat split; reflexivity.
    + change (place m deps sh x t (ILoop l mods body (ILine t' rest'))) with (ILoop l mods body (ILine t' (place m deps sh x t rest'))).
      cbn [last_loop]. apply IHr.
    + change (place m deps sh x t (ILoop l mods body (ILoop l' mods' body' rest'))) with (ILoop l mods body (place m deps sh x t (ILoop l' mods' body' rest'))).
      assert (X : last_loop (ILoop l mods body (place m deps sh x t (ILoop l' mods' body' rest'))) = last_loop (place m deps sh x t (ILoop l' mods' body' rest'))).
      { cbn [place]. destruct rest'; try reflexivity. destruct m; [reflexivity|]. destruct sh; [reflexivity|]. destruct (len_eqb l' l0 && _); reflexivity. }
      rewrite X. change (last_loop (ILoop l mods body (ILoop l' mods' body' rest'))) with (last_loop (ILoop l' mods' body' rest')). apply IHr.
Qed.

Lemma append_nil : forall r, append r INil = r.
Proof. induction r as [|s rest IH|l mods body IHb rest IHr]; cbn; congruence. Qed.

Lemma collect_step : forall vectors rho sg block done s rest env m0 m1 m2 st,
  block = done ++ s :: rest -> Forall (good_stmt rho sg) block -> independent block -> level_ok st done ->
  same_user (run rho sg 0 env (st_result st) m0) m1 -> assigned rho sg s m1 m2 ->
  level_ok (collect_line vectors st s) (done ++ [s]) /\ same_user (run rho sg 0 env (st_result (collect_line vectors st s)) m0) m2.
Proof.
  intros vectors rho sg block done s rest env m0 m1 m2 st Eb G Ind LO U As.
  assert (Gs : good_stmt rho sg s) by (rewrite Forall_forall in G; apply G; rewrite Eb; apply in_or_app; right; left; reflexivity).
  unfold collect_line. destruct (compatible vectors (accesses s)).
  - split; [intros L; cbn in L; lia|]. cbn [st_result]. rewrite run_append. cbn [run].
    pose proof (exec_line_ins rho sg env s 0 (run rho sg 0 env (st_result st) m0) (good_ready rho sg s Gs) (Nat.le_0_l _)) as X.
    rewrite ins_stmt_zero in X. rewrite X by constructor. destruct s as [lhs rhs]. apply (assigned_part rho sg (mk_stmt lhs rhs) rhs m1 m2 (run rho sg 0 env (st_result st) m0)); auto.
    + intros n a. reflexivity.
    + apply (good_ready rho sg). exact Gs.
  - destruct (pull (st_temps st) (s_rhs s)) as [[k assigns] rhs] eqn:P.
    set (level := match assigns with [] => st_level st | _ => 0 end).
    set (result := append (st_result st) (lines assigns)).
    set (s' := mk_stmt (s_lhs s) rhs).
    assert (Hp : pulled [s] s') by (exists s, (st_temps st), k, assigns, rhs; split; [left; reflexivity|split; [exact P|reflexivity]]).
    assert (Ps' : pure rho s') by (apply (pulled_pure rho sg [s]); [constructor; [exact Gs|constructor]|exact Hp]).
    assert (Rk : ranked (rank (s_lhs s')) (s_rhs s')).
    { destruct Ps' as [[_ _ _ F] _]. unfold ranked, fit_expr in *. rewrite Forall_forall in *. intros o I. destruct (F o I) as [_ [L _]]. exact L. }
    destruct (levels_ins vectors s' (rank (s_lhs s')) eq_refl Rk (rank (s_lhs s')) 0 eq_refl) as (d & D1 & D2 & El). rewrite ins_stmt_zero in El.
    change (rank (s_lhs s)) with (rank (s_lhs s')). rewrite El.
    set (sh := firstn d (shape (s_lhs s))). set (t := ins_stmt (rank (s_lhs s')) d s').
    assert (Lsh : List.length sh = d) by (unfold sh; rewrite firstn_length; unfold rank, s' in D1; cbn [s_lhs] in D1; lia).
    assert (Fsh : firstn (List.length (@nil len) + List.length sh) (shape (s_lhs s')) = [] ++ sh) by (cbn [List.length Nat.add app]; rewrite Lsh; reflexivity).
    assert (Et : t = ins_stmt (rank (s_lhs s')) (List.length (@nil len) + List.length sh) s') by (unfold t; rewrite Lsh; reflexivity).
    set (mn := Nat.min d level). cbn [st_result st_level].
    assert (Share : forall g pre l, done = pre ++ g -> g <> [] -> Forall (fun s => hd_error (shape (s_lhs s)) = Some l) g -> Forall (fun s => has_call (s_rhs s) = false) (tl g) ->
              assigns = [] -> hd_error (shape (s_lhs s)) = Some l -> forall u v, In u (g ++ [s]) -> In v (g ++ [s]) -> in_step u v).
    { intros g pre l Ed Ng Hl Hc Ea Hh u v Iu Iv. apply (Ind pre (g ++ [s]) rest); [rewrite Eb, Ed, <- !app_assoc; reflexivity| |exact Iu|exact Iv].
      destruct (pull_facts rho (s_rhs s) (st_temps st) k assigns rhs P) as (_ & _ & Nc & _). destruct (Nc Ea) as [_ Nc'].
      split; [exists l; apply Forall_app; split; [exact Hl|constructor; [exact Hh|constructor]]|].
      destruct g as [|g0 g]; [contradiction|]. cbn [tl app] in *. apply Forall_app. split; [exact Hc|constructor; [exact Nc'|constructor]]. }
    assert (Gsub : forall pre g, done = pre ++ g -> Forall (good_stmt rho sg) (g ++ [s])).
    { intros pre g Ed. rewrite Forall_forall in *. intros u Iu. apply G. rewrite Eb, Ed. apply in_app_or in Iu. destruct Iu as [Iu|[<-|[]]];
        [apply in_or_app; left; apply in_or_app; right; exact Iu|apply in_or_app; right; left; reflexivity]. }
    assert (Hd : forall l, hd_error sh = Some l -> hd_error (shape (s_lhs s)) = Some l).
    { intros l. unfold sh. destruct d; cbn; [discriminate|]. destruct (shape (s_lhs s)); cbn; auto. }
    assert (Self : sh <> [] -> self_step s').
    { intros Ns o Io Ev. destruct sh as [|l sh'] eqn:Esh; [contradiction|].
      assert (X : in_step s s).
      { apply (Ind done [s] rest); [exact Eb| |left; reflexivity|left; reflexivity]. split; [exists l; constructor; [apply Hd; reflexivity|constructor]|constructor]. }
      assert (Y : in_step s' s').
      { apply (pulled_step rho sg [s] s s); [constructor; [exact Gs|constructor]|left; reflexivity|exact X| |reflexivity]. exists (st_temps st), k, assigns, rhs. split; [exact P|reflexivity]. }
      destruct (Y o (or_intror Io) Ev) as [Z _]. exact Z. }
    split.
    + (* the last loop *)
      intros Ld. cbn [st_level] in Ld. destruct sh as [|l sh'] eqn:Esh; [cbn in Lsh; lia|].
      assert (Hh : hd_error (shape (s_lhs s)) = Some l) by (apply Hd; reflexivity).
      assert (Ft : firstn (List.length [l] + List.length sh') (shape (s_lhs s')) = [l] ++ sh') by (exact Fsh).
      assert (Et' : t = ins_stmt (rank (s_lhs s')) (List.length [l] + List.length sh') s') by (exact Et).
      destruct (last_place (dependencies (s_rhs s)) (o_var (s_lhs s)) t result mn (l :: sh')) as [(l1 & b & m' & sh1 & E1 & E2 & E3 & E4)|E4].
      * injection E3 as <- <-. assert (Lv : 0 < level) by (unfold mn in E2; lia).
        assert (Ea : assigns = []) by (destruct assigns; [reflexivity|unfold level in Lv; lia]).
        unfold level in Lv. rewrite Ea in Lv. destruct (LO Lv) as (pre & g & l2 & b2 & Ed & Ng & Ell & Mb & Hl & Hc).
        unfold result in E1. rewrite Ea in E1. cbn [lines] in E1. rewrite append_nil, Ell in E1. injection E1 as -> ->.
        exists pre, (g ++ [s]), l, (place m' (dependencies (s_rhs s)) sh' (o_var (s_lhs s)) t b).
        split; [rewrite Ed, <- app_assoc; reflexivity|]. split; [destruct g; discriminate|]. split; [exact E4|].
        split.
        { rewrite Et'. apply made_place; [|exact Ft|].
          - exists s, (st_temps st), k, assigns, rhs. split; [apply in_or_app; right; left; reflexivity|]. split; [exact P|reflexivity].
          - apply (made_impl (pulled g)); [|exact Mb]. intros u (s0 & k0 & k1 & l0 & e0 & I0 & X). exists s0, k0, k1, l0, e0. split; [apply in_or_app; left; exact I0|exact X]. }
        split; [apply Forall_app; split; [exact Hl|constructor; [exact Hh|constructor]]|].
        destruct (pull_facts rho (s_rhs s) (st_temps st) k assigns rhs P) as (_ & _ & Nc & _). destruct (Nc Ea) as [_ Nc'].
        destruct g as [|g0 g]; [contradiction|]. cbn [tl app] in *. apply Forall_app. split; [exact Hc|constructor; [exact Nc'|constructor]].
      * exists done, [s], l, (nest sh' (o_var (s_lhs s)) t). split; [reflexivity|]. split; [discriminate|]. split; [cbn [st_result]; rewrite E4; reflexivity|].
        split; [rewrite Et'; apply made_nest; [exact Hp|exact Ft]|]. split; [constructor; [exact Hh|constructor]|constructor].
    + (* the memory *)
      assert (Run : meq (run rho sg 0 env (place mn (dependencies (s_rhs s)) sh (o_var (s_lhs s)) t result) m0)
                        (run rho sg 0 env (nest sh (o_var (s_lhs s)) t) (run rho sg 0 env result m0))).
      { rewrite Et. destruct (Nat.eq_dec mn 0) as [Z|Z].
        - apply (place_run rho sg (fun _ => False) s' (o_var (s_lhs s)) (dependencies (s_rhs s)) ltac:(intros u []) Ps' ltac:(intros u []) result mn sh [] env m0 Fsh ltac:(constructor)).
          intros L. lia.
        - assert (Lv : 0 < level) by (unfold mn in Z; lia). assert (Ea : assigns = []) by (destruct assigns; [reflexivity|unfold level in Lv; lia]).
          unfold level in Lv. rewrite Ea in Lv. destruct (LO Lv) as (pre & g & l2 & b2 & Ed & Ng & Ell & Mb & Hl & Hc).
          assert (Er : last_loop result = Some (l2, b2)) by (unfold result; rewrite Ea; cbn [lines]; rewrite append_nil; exact Ell).
          destruct (match hd_error sh with Some l => len_eqb l l2 | None => false end) eqn:C.
          + assert (Hh2 : hd_error sh = Some l2). { destruct (hd_error sh) as [l|]; [|discriminate]. f_equal. destruct l, l2; cbn in C; try discriminate; apply Nat.eqb_eq in C; congruence. }
            assert (H1 : forall u, pulled g u -> pure rho u).
            { intros u Pu. apply (pulled_pure rho sg g); [|exact Pu]. pose proof (Gsub pre g Ed) as X. apply Forall_app in X. apply X. }
            assert (H2 : forall u, pulled g u -> in_step s' u /\ in_step u s').
            { intros u (s0 & k0 & k1 & l0 & e0 & I0 & P0 & ->). split.
              - apply (pulled_step rho sg (g ++ [s]) s s0); auto.
                + apply (Gsub pre). exact Ed.
                + apply in_or_app. left. exact I0.
                + apply (Share g pre l2); auto; [apply in_or_app; right; left; reflexivity|apply in_or_app; left; exact I0].
                + exists (st_temps st), k, assigns, rhs. split; [exact P|reflexivity].
              - apply (pulled_step rho sg (g ++ [s]) s0 s); auto.
                + apply (Gsub pre). exact Ed.
                + apply in_or_app. right. left. reflexivity.
                + apply (Share g pre l2); auto; [apply in_or_app; left; exact I0|apply in_or_app; right; left; reflexivity].
                + exists k0, k1, l0, e0. split; [exact P0|reflexivity]. }
            apply (place_run rho sg (pulled g) s' (o_var (s_lhs s)) (dependencies (s_rhs s)) H1 Ps' H2 result mn sh [] env m0 Fsh ltac:(constructor)).
            intros _ l b El2 _. rewrite Er in El2. injection El2 as <- <-. exact Mb.
          + apply (place_run rho sg (fun _ => False) s' (o_var (s_lhs s)) (dependencies (s_rhs s)) ltac:(intros u []) Ps' ltac:(intros u []) result mn sh [] env m0 Fsh ltac:(constructor)).
            intros _ l b El2 Hh2. rewrite Er in El2. injection El2 as <- <-. rewrite Hh2 in C. destruct l2; cbn in C; rewrite Nat.eqb_refl in C; discriminate. }
      intros n a. rewrite Run.
      assert (Np : meq (run rho sg 0 env (nest sh (o_var (s_lhs s)) t) (run rho sg 0 env result m0)) (part rho sg s' [] (run rho sg 0 env result m0))).
      { rewrite Et. apply (nest_run rho sg s' (o_var (s_lhs s)) Ps' sh [] env); [exact Self|exact Fsh|constructor]. }
      rewrite Np. unfold result. rewrite run_append. destruct Gs as [G1 G2].
      destruct (pull_run rho sg env (s_rhs s) (st_temps st) k assigns rhs P (proj1 (good_expr_src rho sg _ _ G2)) (good_users rho sg _ _ G2) (run rho sg 0 env (st_result st) m0)) as (A & _ & C).
      apply (assigned_part rho sg s rhs m1 m2 (run rho sg 0 env (st_result st) m0)); auto; [split; assumption|apply Ps'].
Qed.

Lemma collect_all : forall vectors rho sg block env m0, Forall (good_stmt rho sg) block -> independent block ->
  forall rest done st m1 m2, block = done ++ rest -> level_ok st done -> same_user (run rho sg 0 env (st_result st) m0) m1 -> numpy rho sg rest m1 m2 ->
  same_user (run rho sg 0 env (st_result (fold_left (collect_line vectors) rest st)) m0) m2.
Proof.
  intros vectors rho sg block env m0 G Ind. induction rest as [|s rest IH]; intros done st m1 m2 Eb LO U N; inversion N as [|? ? ? ma ? As Nr]; subst.
  - exact U.
  - cbn [fold_left]. destruct (collect_step vectors rho sg _ done s rest env m0 m1 ma st eq_refl G Ind LO U As) as [LO' U'].
    apply (IH (done ++ [s]) _ ma m2); [rewrite <- app_assoc; reflexivity|exact LO'|exact U'|exact Nr].
Qed.

Theorem expand_correct : forall vectors rho sg block m m', Forall (good_stmt rho sg) block -> independent block -> numpy rho sg block m m' ->
  forall env n a, exec rho sg env (expand vectors block) m (VUser n) a = m' (VUser n) a.
Proof.
  intros vectors rho sg block m m' G Ind N env n a. unfold expand. rewrite fors_run.
  apply (collect_all vectors rho sg block env m G Ind block [] (mk_state INil 0 0) m m'); auto.
  - intros L. cbn in L. lia.
  - intros k b. reflexivity.
Qed.

(* ---------------------------- the specification ----------------------------- *)

Lemma assigned_part_self : forall rho sg s m, good_stmt rho sg s -> assigned rho sg s m (part rho sg s [] m).
Proof.
  intros rho sg s m G. pose proof (good_ready rho sg s G) as R. destruct G as [G1 G2]. split.
  - intros v Iv. rewrite (element_at rho sg (s_lhs s) v G1 Iv), (value_eval rho sg m (s_rhs s) (shape (s_lhs s)) v G2 Iv).
    apply (part_at rho sg s [] m v R); [constructor|exact Iv].
  - intros y a H. apply part_frame. intros E v Iv X. apply (H E v Iv). rewrite (element_at rho sg (s_lhs s) v G1 Iv). exact X.
Qed.

Lemma value_meq : forall rho sg m m' e v, meq m m' -> value rho sg m e v = value rho sg m' e v.
Proof.
  intros rho sg m m' e v H. revert v. induction e as [z|o|f e IH|f e1 IH1 e2 IH2|g sh e IH]; intros v; cbn [value].
  - reflexivity.
  - apply H.
  - rewrite IH. reflexivity.
  - rewrite IH1, IH2. reflexivity.
  - f_equal. apply map_ext. exact IH.
Qed.

Lemma assigned_fun : forall rho sg s m m' m1 m1', assigned rho sg s m m1 -> assigned rho sg s m' m1' -> meq m m' -> meq m1 m1'.
Proof.
  intros rho sg s m m' m1 m1' [A B] [A' B'] E x a. destruct (var_dec x (o_var (s_lhs s))) as [Ex|Nx].
  - destruct (in_dec (list_eq_dec Z.eq_dec) a (map (element rho sg (o_dims (s_lhs s))) (box (map (len_val rho) (shape (s_lhs s)))))) as [I|N].
    + apply in_map_iff in I. destruct I as (v & <- & I). apply box_inside in I. rewrite Ex, A, A' by exact I. apply value_meq. exact E.
    + assert (X : x = o_var (s_lhs s) -> forall v, inside rho (shape (s_lhs s)) v -> a <> element rho sg (o_dims (s_lhs s)) v).
      { intros _ v I Ea. apply N. apply in_map_iff. exists v. split; [auto|apply box_inside; exact I]. }
      rewrite B, B' by exact X. apply E.
  - rewrite B, B' by (intros X; contradiction). apply E.
Qed.

Lemma numpy_fun : forall rho sg l m m1, numpy rho sg l m m1 -> forall m' m1', numpy rho sg l m' m1' -> meq m m' -> meq m1 m1'.
Proof.
  intros rho sg l m m1 N. induction N as [m|s l m ma m1 A N IH]; intros m' m1' N' E; inversion N' as [|? ? ? mb ? A' Nr]; subst; [exact E|].
  apply (IH mb m1' Nr). apply (assigned_fun rho sg s m m'); assumption.
Qed.

Theorem numpy_defined : forall rho sg block m, Forall (good_stmt rho sg) block ->
  exists m', numpy rho sg block m m' /\ forall m'', numpy rho sg block m m'' -> forall x a, m'' x a = m' x a.
Proof.
  intros rho sg block m G.
  assert (X : exists m', numpy rho sg block m m').
  { revert m. induction G as [|s l Gs Gl IH]; intros m; [exists m; constructor|]. destruct (IH (part rho sg s [] m)) as (m' & N).
    exists m'. econstructor; [apply assigned_part_self; exact Gs|exact N]. }
  destruct X as (m' & N). exists m'. split; [exact N|]. intros m'' N' x a. apply (numpy_fun rho sg block m m'' N' m m' N). intros y b. reflexivity.
Qed.

(* a way to execute the specification *)
Definition np_step (rho : nat -> nat) (sg : nat -> Z) (s : stmt) (m : mem) : mem :=
  write_all (o_var (s_lhs s)) (element rho sg (o_dims (s_lhs s))) (value rho sg m (s_rhs s)) (box (map (len_val rho) (shape (s_lhs s)))) m.

Lemma np_step_ok : forall rho sg s m,
  (forall v w, In v (box (map (len_val rho) (shape (s_lhs s)))) -> In w (box (map (len_val rho) (shape (s_lhs s)))) ->
     element rho sg (o_dims (s_lhs s)) v = element rho sg (o_dims (s_lhs s)) w -> v = w) ->
  assigned rho sg s m (np_step rho sg s m).
Proof.
  intros rho sg s m H. split.
  - intros v Iv. apply box_inside in Iv. apply write_all_at; [exact Iv|]. intros w Iw E. f_equal. apply H; assumption.
  - intros y a N. apply write_all_frame. intros E v Iv. apply N; [exact E|]. apply box_inside. exact Iv.
Qed.

Lemma all_in_step : forall block, (forall s t, In s block -> In t block -> in_step s t) -> independent block.
Proof. intros block H pre g post -> _ s t Is It. apply H; apply in_or_app; right; apply in_or_app; left; assumption. Qed.
