(* Proofs about the unrolling of array statements: statements that share loops. *)
From Coq Require Import Bool Arith ZArith Lia List.
From Verif Require Import Loops_Model Loops_Spec Loops_Proofs.
Import ListNotations.
Open Scope list_scope.

(* ---------------------------- effects on memory ----------------------------- *)

Definition loc := (var * list Z)%type.
Definition loc_dec : forall p q : loc, {p = q} + {p <> q}.
Proof. decide equality; [apply list_eq_dec; exact Z.eq_dec|exact (var_dec _ _)]. Defined.

Record eff (f : mem -> mem) (W : list loc) (R : loc -> Prop) : Prop := {
  eff_frame : forall m x a, ~ In (x, a) W -> f m x a = m x a;
  eff_dep : forall (S : loc -> Prop) m m', (forall p, R p -> S p) -> (forall x a, S (x, a) -> m x a = m' x a) ->
            forall x a, S (x, a) \/ In (x, a) W -> f m x a = f m' x a
}.

Lemma eff_meq : forall f W R m m', eff f W R -> meq m m' -> meq (f m) (f m').
Proof. intros f W R m m' E H x a. apply (eff_dep f W R E (fun _ => True)); auto. Qed.

Lemma eff_id : eff (fun m => m) [] (fun _ => False).
Proof. split; [reflexivity|]. intros S m m' _ H x a [P|[]]. apply H. exact P. Qed.

Lemma eff_more : forall f W (R R' : loc -> Prop), eff f W R -> (forall p, R p -> R' p) -> eff f W R'.
Proof. intros f W R R' E H. split; [apply E|]. intros S m m' HS. apply (eff_dep f W R E). intros p P. apply HS, H, P. Qed.

Lemma eff_seq : forall f g W V R Q, eff f W R -> eff g V Q -> eff (fun m => g (f m)) (W ++ V) (fun p => R p \/ Q p).
Proof.
  intros f g W V R Q F G. split.
  - intros m x a N. rewrite (eff_frame g V Q G) by (intros I; apply N, in_or_app; auto). apply (eff_frame f W R F). intros I. apply N, in_or_app. auto.
  - intros S m m' HS H x a P. apply (eff_dep g V Q G (fun p => S p \/ In p W)).
    + intros p Qp. left. apply HS. right. exact Qp.
    + intros y b Py. apply (eff_dep f W R F S); [intros p Rp; apply HS; left; exact Rp|exact H|exact Py].
    + destruct P as [P|P]; [left; left; exact P|]. apply in_app_or in P. destruct P; [left; right; assumption|right; assumption].
Qed.

Lemma eff_fold : forall (f : nat -> mem -> mem) (W : nat -> list loc) (R : nat -> loc -> Prop) l,
  (forall i, In i l -> eff (f i) (W i) (R i)) -> eff (fun m => fold_left (fun m1 i => f i m1) l m) (flat_map W l) (fun p => exists i, In i l /\ R i p).
Proof.
  intros f W R l. induction l as [|i l IH]; intros H.
  - cbn. eapply eff_more; [apply eff_id|]. intros p [].
  - cbn [fold_left flat_map]. eapply eff_more.
    + apply (eff_seq (f i) (fun m => fold_left (fun m1 i => f i m1) l m)); [apply H; left; reflexivity|apply IH; intros j J; apply H; right; exact J].
    + intros p [P|(j & J & P)]; [exists i; split; [left; reflexivity|exact P]|exists j; split; [right; exact J|exact P]].
Qed.

(* two effects that do not meet *)
Definition apart (W1 : list loc) (R1 : loc -> Prop) (W2 : list loc) (R2 : loc -> Prop) : Prop :=
  (forall p, In p W1 -> ~ In p W2) /\ (forall p, In p W1 -> ~ R2 p) /\ (forall p, In p W2 -> ~ R1 p).

Lemma commute : forall f g W1 R1 W2 R2, eff f W1 R1 -> eff g W2 R2 -> apart W1 R1 W2 R2 -> forall m, meq (g (f m)) (f (g m)).
Proof.
  intros f g W1 R1 W2 R2 F G (A & B & C) m x a.
  destruct (in_dec loc_dec (x, a) W1) as [I1|N1]; destruct (in_dec loc_dec (x, a) W2) as [I2|N2].
  - elim (A _ I1 I2).
  - rewrite (eff_frame g W2 R2 G) by exact N2. symmetry. apply (eff_dep f W1 R1 F R1); [auto| |right; exact I1].
    intros y b Ry. apply (eff_frame g W2 R2 G). intros I. exact (C _ I Ry).
  - rewrite (eff_frame f W1 R1 F (g m)) by exact N1. apply (eff_dep g W2 R2 G R2); [auto| |right; exact I2].
    intros y b Ry. apply (eff_frame f W1 R1 F). intros I. exact (B _ I Ry).
  - rewrite (eff_frame g W2 R2 G), (eff_frame f W1 R1 F), (eff_frame f W1 R1 F), (eff_frame g W2 R2 G); auto.
Qed.

Lemma meq_refl : forall m, meq m m.
Proof. intros m x a. reflexivity. Qed.
Lemma meq_sym : forall m m', meq m m' -> meq m' m.
Proof. intros m m' H x a. symmetry. apply H. Qed.
Lemma meq_trans : forall m1 m2 m3, meq m1 m2 -> meq m2 m3 -> meq m1 m3.
Proof. intros m1 m2 m3 H K x a. rewrite H. apply K. Qed.

Lemma meq_fold : forall (f g : nat -> mem -> mem) l m m', (forall i m1 m1', In i l -> meq m1 m1' -> meq (f i m1) (g i m1')) -> meq m m' ->
  meq (fold_left (fun m1 i => f i m1) l m) (fold_left (fun m1 i => g i m1) l m').
Proof.
  intros f g. induction l as [|i l IH]; intros m m' H E; [exact E|]. cbn [fold_left]. apply IH.
  - intros j m1 m1' J. apply H. right. exact J.
  - apply H; [left; reflexivity|exact E].
Qed.

(* one loop, or two *)
Lemma fission : forall (f g : nat -> mem -> mem) (W V : nat -> list loc) (R Q : nat -> loc -> Prop) l, NoDup l ->
  (forall i, In i l -> eff (f i) (W i) (R i)) -> (forall i, In i l -> eff (g i) (V i) (Q i)) ->
  (forall i k, In i l -> In k l -> i <> k -> apart (W i) (R i) (V k) (Q k)) ->
  forall m, meq (fold_left (fun m1 i => g i (f i m1)) l m) (fold_left (fun m1 i => g i m1) l (fold_left (fun m1 i => f i m1) l m)).
Proof.
  intros f g W V R Q. induction l as [|i l IH]; intros ND F G A m; [apply meq_refl|]. cbn [fold_left]. inversion ND as [|? ? Ni ND']; subst.
  assert (F' : forall j, In j l -> eff (f j) (W j) (R j)) by (intros j J; apply F; right; exact J).
  assert (G' : forall j, In j l -> eff (g j) (V j) (Q j)) by (intros j J; apply G; right; exact J).
  eapply meq_trans; [apply IH; try assumption; intros j k J K; apply A; right; assumption|].
  apply (meq_fold g g).
  - intros j m1 m1' J. apply (eff_meq (g j) (V j) (Q j)). apply G'. exact J.
  - (* g i moves past the f j *)
    assert (X : forall l', incl l' l -> ~ In i l' -> forall m0, meq (fold_left (fun m1 j => f j m1) l' (g i m0)) (g i (fold_left (fun m1 j => f j m1) l' m0))).
    { induction l' as [|j l' IH']; intros IL NI m0; [apply meq_refl|]. cbn [fold_left].
      assert (J : In j l) by (apply IL; left; reflexivity). assert (Nj : j <> i) by (intros ->; apply NI; left; reflexivity).
      eapply meq_trans; [|apply IH'; [intros k K; apply IL; right; exact K|intros K; apply NI; right; exact K]].
      apply (meq_fold f f).
      + intros k m1 m1' K. apply (eff_meq (f k) (W k) (R k)). apply F'. apply IL. right. exact K.
      + apply meq_sym. apply (commute (f j) (g i) (W j) (R j) (V i) (Q i)); [apply F', J|apply G; left; reflexivity|apply A; [right; exact J|left; reflexivity|exact Nj]]. }
    apply X; [apply incl_refl|exact Ni].
Qed.

(* ----------------------- the items and their footprints ------------------------ *)

Fixpoint run (rho : nat -> nat) (sg : nat -> Z) (lev : nat) (env : nat -> nat) (r : items) (m : mem) : mem :=
  match r with
  | INil => m
  | ILine s rest => run rho sg lev env rest (exec_line rho sg env s m)
  | ILoop l _ body rest =>
    run rho sg lev env rest (fold_left (fun m1 i => run rho sg (S lev) (set_env env lev i) body m1) (seq 0 (len_val rho l)) m)
  end.

Definition line_w (rho : nat -> nat) (sg : nat -> Z) (env : nat -> nat) (s : stmt) : list loc :=
  map (fun v => (o_var (s_lhs s), op_addr rho sg env (s_lhs s) v)) (box (map (len_val rho) (shape (s_lhs s)))).
Definition line_r (rho : nat -> nat) (sg : nat -> Z) (env : nat -> nat) (s : stmt) (p : loc) : Prop :=
  (exists o v, In o (operands (s_rhs s)) /\ inside rho (shape (s_lhs s)) v /\ p = (o_var o, op_addr rho sg env o v)) \/ In (fst p) (dependencies (s_rhs s)).

Fixpoint foot_w (rho : nat -> nat) (sg : nat -> Z) (lev : nat) (env : nat -> nat) (r : items) : list loc :=
  match r with
  | INil => []
  | ILine s rest => line_w rho sg env s ++ foot_w rho sg lev env rest
  | ILoop l _ body rest => flat_map (fun i => foot_w rho sg (S lev) (set_env env lev i) body) (seq 0 (len_val rho l)) ++ foot_w rho sg lev env rest
  end.
Fixpoint foot_r (rho : nat -> nat) (sg : nat -> Z) (lev : nat) (env : nat -> nat) (r : items) (p : loc) : Prop :=
  match r with
  | INil => False
  | ILine s rest => line_r rho sg env s p \/ foot_r rho sg lev env rest p
  | ILoop l _ body rest => (exists i, In i (seq 0 (len_val rho l)) /\ foot_r rho sg (S lev) (set_env env lev i) body p) \/ foot_r rho sg lev env rest p
  end.

Lemma eff_line : forall rho sg env s, eff (exec_line rho sg env s) (line_w rho sg env s) (line_r rho sg env s).
Proof.
  intros rho sg env s. split.
  - intros m x a N. rewrite exec_line_write. apply write_all_frame. intros -> v I ->. apply N. unfold line_w. apply in_map_iff. exists v. auto.
  - intros S m m' HS H x a P. rewrite !exec_line_write. unfold line_w in P.
    assert (V : forall v, In v (box (map (len_val rho) (shape (s_lhs s)))) -> eval rho sg env m (s_rhs s) v = eval rho sg env m' (s_rhs s) v).
    { intros v I. apply eval_agree.
      - intros o Io. apply H, HS. left. exists o, v. split; [exact Io|]. split; [apply box_inside; exact I|reflexivity].
      - intros y b Iy. apply H, HS. right. exact Iy. }
    revert V P. generalize (box (map (len_val rho) (shape (s_lhs s)))) as pts. intros pts. induction pts as [|v pts IH] using rev_ind; intros V P.
    + cbn. destruct P as [P|[]]. apply H. exact P.
    + unfold write_all in *. rewrite !fold_left_app. cbn [fold_left]. rewrite (V v) by (apply in_or_app; right; left; reflexivity).
      unfold write at 1 3. destruct (var_eqb x (o_var (s_lhs s)) && zs_eqb a (op_addr rho sg env (s_lhs s) v)) eqn:E; [reflexivity|].
      apply IH; [intros w I; apply V; apply in_or_app; left; exact I|]. destruct P as [P|P]; [left; exact P|]. rewrite map_app in P. apply in_app_or in P.
      destruct P as [P|[P|[]]]; [right; exact P|]. injection P as <- <-. rewrite (proj2 (var_eqb_eq _ _) eq_refl), (proj2 (zs_eqb_eq _ _) eq_refl) in E. discriminate.
Qed.

Lemma eff_run : forall rho sg r lev env, eff (run rho sg lev env r) (foot_w rho sg lev env r) (foot_r rho sg lev env r).
Proof.
  intros rho sg. induction r as [|s rest IH|l mods body IHb rest IHr]; intros lev env.
  - apply eff_id.
  - cbn [run foot_w foot_r]. apply (eff_seq (exec_line rho sg env s)); [apply eff_line|apply IH].
  - cbn [run foot_w foot_r]. apply (eff_seq (fun m => fold_left (fun m1 i => run rho sg (S lev) (set_env env lev i) body m1) (seq 0 (len_val rho l)) m)).
    + apply (eff_fold (fun i => run rho sg (S lev) (set_env env lev i) body) (fun i => foot_w rho sg (S lev) (set_env env lev i) body)
        (fun i => foot_r rho sg (S lev) (set_env env lev i) body)). intros i _. apply IHb.
    + apply IHr.
Qed.

Lemma run_meq : forall rho sg lev env r m m', meq m m' -> meq (run rho sg lev env r m) (run rho sg lev env r m').
Proof. intros. eapply eff_meq; [apply eff_run|assumption]. Qed.

Lemma run_append : forall rho sg lev env r r' m, run rho sg lev env (append r r') m = run rho sg lev env r' (run rho sg lev env r m).
Proof. intros rho sg lev env. induction r as [|s rest IH|l mods body IHb rest IHr]; intros r' m; cbn [append run]; [reflexivity|apply IH|apply IHr]. Qed.

Lemma prefix_set : forall env lev i, prefix (set_env env lev i) lev = prefix env lev.
Proof.
  intros env lev i. unfold prefix. apply map_ext_in. intros q Q. apply in_seq in Q. unfold set_env. destruct (Nat.eqb_spec q lev); [lia|reflexivity].
Qed.

Lemma prefix_next : forall env lev i, prefix (set_env env lev i) (S lev) = prefix env lev ++ [i].
Proof.
  intros env lev i. rewrite <- (prefix_set env lev i). unfold prefix. rewrite seq_S, map_app. cbn. f_equal. f_equal. unfold set_env. rewrite Nat.eqb_refl. reflexivity.
Qed.

(* --------------------------- the lines of the loops ---------------------------- *)

(* in the loops of the lengths path, each line is a statement that satisfies P with as many
   indices inserted *)
Definition line_from (P : stmt -> Prop) (path : list len) (t : stmt) : Prop :=
  exists s, P s /\ t = ins_stmt (rank (s_lhs s)) (List.length path) s /\ firstn (List.length path) (shape (s_lhs s)) = path.
Fixpoint made (P : stmt -> Prop) (path : list len) (r : items) : Prop :=
  match r with
  | INil => True
  | ILine t rest => line_from P path t /\ made P path rest
  | ILoop l _ body rest => made P (path ++ [l]) body /\ made P path rest
  end.

Lemma made_impl : forall (P Q : stmt -> Prop) r path, (forall s, P s -> Q s) -> made P path r -> made Q path r.
Proof.
  intros P Q. induction r as [|t rest IH|l mods body IHb rest IHr]; intros path H M; cbn [made] in *; [exact I| |].
  - destruct M as [(s & Ps & X) M]. split; [exists s; split; [apply H; exact Ps|exact X]|apply IH; assumption].
  - destruct M. split; [apply IHb|apply IHr]; assumption.
Qed.

Lemma made_nest : forall (P : stmt -> Prop) x s, P s -> forall sh path, firstn (List.length path + List.length sh) (shape (s_lhs s)) = path ++ sh ->
  made P path (nest sh x (ins_stmt (rank (s_lhs s)) (List.length path + List.length sh) s)).
Proof.
  intros P x s Ps. induction sh as [|l sh IH]; intros path E; cbn [nest made List.length].
  - cbn [List.length] in E. rewrite Nat.add_0_r in *. rewrite app_nil_r in E. split; [exists s; auto|exact I].
  - split; [|exact I]. cbn [List.length] in E. specialize (IH (path ++ [l])). rewrite app_length in IH. cbn [List.length] in IH.
    replace (List.length path + 1 + List.length sh) with (List.length path + S (List.length sh)) in IH by lia. apply IH. rewrite <- app_assoc. exact E.
Qed.

Lemma made_place : forall (P : stmt -> Prop) x s deps, P s -> forall r m sh path, firstn (List.length path + List.length sh) (shape (s_lhs s)) = path ++ sh ->
  made P path r -> made P path (place m deps sh x (ins_stmt (rank (s_lhs s)) (List.length path + List.length sh) s) r).
Proof.
  intros P x s deps Ps. induction r as [|t rest IH|l mods body IHb rest IHr]; intros m sh path E M.
  - apply made_nest; assumption.
  - cbn [place made] in *. destruct M. split; [assumption|apply IH; assumption].
  - destruct M as [Mb Mr]. destruct rest as [|t' rest'|l' mods' body' rest'].
    + assert (N : made P path (ILoop l mods body (nest sh x (ins_stmt (rank (s_lhs s)) (List.length path + List.length sh) s)))).
      { cbn [made]. split; [exact Mb|]. apply made_nest; assumption. }
      destruct m as [|m]; [exact N|]. destruct sh as [|l' sh]; [exact N|]. cbn [place].
      destruct (len_eqb l l' && negb (existsb (fun u => existsb (var_eqb u) mods) deps)) eqn:C; [|exact N]. cbn [made]. split; [|exact I].
      apply andb_true_iff in C. destruct C as [C _]. assert (El : l = l') by (destruct l, l'; cbn in C; try discriminate; apply Nat.eqb_eq in C; congruence). subst l'.
      specialize (IHb m sh (path ++ [l])). rewrite app_length in IHb. cbn [List.length] in *.
      replace (List.length path + 1 + List.length sh) with (List.length path + S (List.length sh)) in IHb by lia. apply IHb; [rewrite <- app_assoc; exact E|exact Mb].
    + change (made P path (ILoop l mods body (place m deps sh x (ins_stmt (rank (s_lhs s)) (List.length path + List.length sh) s) (ILine t' rest')))).
      split; [exact Mb|]. apply IHr; assumption.
    + change (made P path (ILoop l mods body (place m deps sh x (ins_stmt (rank (s_lhs s)) (List.length path + List.length sh) s) (ILoop l' mods' body' rest')))).
      split; [exact Mb|]. apply IHr; assumption.
Qed.

(* what the lines touch *)
Definition touches (rho : nat -> nat) (sg : nat -> Z) (s : stmt) (o : operand) (pre : list nat) (p : loc) : Prop :=
  exists w, inside rho (shape (s_lhs s)) w /\ firstn (List.length pre) w = pre /\ p = (o_var o, at_pos rho sg o w).

Definition pure (rho : nat -> nat) (s : stmt) : Prop := ready rho s /\ dependencies (s_rhs s) = [].

Lemma inside_ins : forall rho s d v env, firstn d (shape (s_lhs s)) = firstn d (shape (s_lhs s)) -> inside rho (firstn d (shape (s_lhs s))) (prefix env d) ->
  inside rho (skipn d (shape (s_lhs s))) v -> inside rho (shape (s_lhs s)) (prefix env d ++ v).
Proof. intros rho s d v env _ A B. rewrite <- (firstn_skipn d (shape (s_lhs s))). apply inside_app; assumption. Qed.

Lemma shape_ins : forall s d, shape (ins_op (rank (s_lhs s)) d (s_lhs s)) = skipn d (shape (s_lhs s)).
Proof. intros s d. unfold ins_op, shape at 1. cbn [o_dims]. rewrite Nat.sub_diag, ins_shape, Nat.sub_0_r. reflexivity. Qed.

Lemma operands_ins : forall r d e o, In o (operands (ins_expr r d e)) -> exists o0, In o0 (operands e) /\ o = ins_op r d o0.
Proof.
  intros r d. induction e as [z|o1|f e IH|f e1 IH1 e2 IH2|g sh e IH]; intros o I; cbn [ins_expr operands] in *.
  - destruct I.
  - destruct I as [<-|[]]. exists o1. split; [left; reflexivity|reflexivity].
  - apply IH. exact I.
  - apply in_app_or in I. destruct I as [I|I]; [destruct (IH1 o I) as (o0 & J & E)|destruct (IH2 o I) as (o0 & J & E)]; exists o0; split; auto; apply in_or_app; auto.
  - destruct I.
Qed.

Lemma deps_ins : forall r d e, dependencies (ins_expr r d e) = dependencies e.
Proof. intros r d. induction e as [z|o1|f e IH|f e1 IH1 e2 IH2|g sh e IH]; cbn; congruence. Qed.

Lemma firstn_prefix : forall env d v, firstn d (prefix env d ++ v) = prefix env d.
Proof. intros env d v. rewrite firstn_app, prefix_length, Nat.sub_diag. cbn [firstn]. rewrite app_nil_r. apply firstn_all2. rewrite prefix_length. lia. Qed.

Lemma firstn_le : forall (A : Type) a b (l l' : list A), a <= b -> firstn b l = l' -> firstn a l = firstn a l'.
Proof. intros A a b l l' L <-. rewrite firstn_firstn. f_equal. lia. Qed.

Lemma path_length : forall d (sh path : list len), d = List.length path -> firstn d sh = path -> d <= List.length sh.
Proof. intros d sh path -> E. apply (f_equal (@List.length len)) in E. rewrite firstn_length in E. lia. Qed.

Lemma foot_w_made : forall rho sg (P : stmt -> Prop), (forall s, P s -> pure rho s) -> forall r path env k, k <= List.length path ->
  made P path r -> inside rho path (prefix env (List.length path)) ->
  forall p, In p (foot_w rho sg (List.length path) env r) -> exists s, P s /\ firstn (List.length path) (shape (s_lhs s)) = path /\ touches rho sg s (s_lhs s) (prefix env (List.length path)) p.
Proof.
  intros rho sg P HP. induction r as [|t rest IH|l mods body IHb rest IHr]; intros path env k K M Ip p W.
  - destruct W.
  - cbn [made foot_w] in *. destruct M as [(s & Ps & -> & Ep) M]. apply in_app_or in W. destruct W as [W|W]; [|apply (IH path env k); assumption].
    exists s. split; [exact Ps|]. split; [exact Ep|]. unfold line_w in W. apply in_map_iff in W. destruct W as (v & <- & I). apply box_inside in I.
    cbn [ins_stmt s_lhs] in I. rewrite shape_ins in I.
    assert (D : List.length path <= rank (s_lhs s)) by (apply (path_length _ (shape (s_lhs s)) path); auto).
    assert (F : inside rho (shape (s_lhs s)) (prefix env (List.length path) ++ v)) by (apply inside_ins; try reflexivity; [rewrite Ep; exact Ip|exact I]).
    exists (prefix env (List.length path) ++ v). split; [exact F|]. rewrite prefix_length, firstn_prefix. split; [reflexivity|].
    cbn [ins_stmt s_lhs]. f_equal. destruct (HP s Ps) as [R _]. apply op_addr_ins; try apply R; try lia.
    + apply inside_length in I. rewrite skipn_length in I. exact I.
    + unfold rank. rewrite Nat.sub_diag. cbn [skipn]. clear - F. induction F as [|l i sh w H W IH]; constructor; auto. intros E. right. lia.
  - cbn [made foot_w] in *. destruct M as [Mb Mr]. apply in_app_or in W. destruct W as [W|W]; [|apply (IHr path env k); assumption].
    apply in_flat_map in W. destruct W as (i & I & W). apply in_seq in I.
    specialize (IHb (path ++ [l]) (set_env env (List.length path) i) 0). rewrite app_length in IHb. cbn [List.length] in IHb.
    replace (List.length path + 1) with (S (List.length path)) in IHb by lia.
    assert (Ip2 : inside rho (path ++ [l]) (prefix (set_env env (List.length path) i) (S (List.length path)))).
    { rewrite prefix_next. apply inside_app; [exact Ip|]. constructor; [lia|constructor]. }
    destruct (IHb (Nat.le_0_l _) Mb Ip2 p W) as (s & Ps & Ep & w & Iw & Ew & Epp). exists s. split; [exact Ps|].
    split. { rewrite (firstn_le _ (List.length path) (S (List.length path)) (shape (s_lhs s)) (path ++ [l])); [|lia|exact Ep]. rewrite firstn_app, Nat.sub_diag. cbn. rewrite app_nil_r. apply firstn_all. }
    exists w. split; [exact Iw|]. split; [|exact Epp]. rewrite prefix_length in *. rewrite prefix_next in Ew.
    rewrite (firstn_le _ (List.length path) (S (List.length path)) w _ (Nat.le_succ_diag_r _) Ew). apply firstn_prefix.
Qed.

Lemma foot_r_made : forall rho sg (P : stmt -> Prop), (forall s, P s -> pure rho s) -> forall r path env,
  made P path r -> inside rho path (prefix env (List.length path)) ->
  forall p, foot_r rho sg (List.length path) env r p -> exists s o, P s /\ In o (operands (s_rhs s)) /\ firstn (List.length path) (shape (s_lhs s)) = path /\
    touches rho sg s o (prefix env (List.length path)) p.
Proof.
  intros rho sg P HP. induction r as [|t rest IH|l mods body IHb rest IHr]; intros path env M Ip p W.
  - destruct W.
  - cbn [made foot_r] in *. destruct M as [(s & Ps & -> & Ep) M]. destruct W as [W|W]; [|apply (IH path env); assumption].
    destruct (HP s Ps) as [R Dn]. unfold line_r in W. cbn [ins_stmt s_rhs s_lhs] in W. rewrite deps_ins, Dn in W. destruct W as [(o & v & Io & I & ->)|[]].
    rewrite shape_ins in I. destruct (operands_ins _ _ _ _ Io) as (o0 & Io0 & ->).
    assert (D : List.length path <= rank (s_lhs s)) by (apply (path_length _ (shape (s_lhs s)) path); auto).
    assert (F : inside rho (shape (s_lhs s)) (prefix env (List.length path) ++ v)) by (apply inside_ins; try reflexivity; [rewrite Ep; exact Ip|exact I]).
    exists s, o0. split; [exact Ps|]. split; [exact Io0|]. split; [exact Ep|].
    exists (prefix env (List.length path) ++ v). split; [exact F|]. rewrite prefix_length, firstn_prefix. split; [reflexivity|].
    pose proof (rd_fit rho s R) as Ft. unfold fit_expr in Ft. rewrite Forall_forall in Ft. destruct (Ft o0 Io0) as [So Fo].
    cbn [ins_op o_var]. f_equal. apply op_addr_ins; try assumption.
    + destruct Fo as [Fo _]. exact Fo.
    + apply inside_length in I. rewrite skipn_length in I. exact I.
    + apply fits_thin; assumption.
  - cbn [made foot_r] in *. destruct M as [Mb Mr]. destruct W as [(i & I & W)|W]; [|apply (IHr path env); assumption].
    apply in_seq in I.
    specialize (IHb (path ++ [l]) (set_env env (List.length path) i)). rewrite app_length in IHb. cbn [List.length] in IHb.
    replace (List.length path + 1) with (S (List.length path)) in IHb by lia.
    assert (Ip2 : inside rho (path ++ [l]) (prefix (set_env env (List.length path) i) (S (List.length path)))).
    { rewrite prefix_next. apply inside_app; [exact Ip|]. constructor; [lia|constructor]. }
    destruct (IHb Mb Ip2 p W) as (s & o & Ps & Io & Ep & w & Iw & Ew & Epp). exists s, o. split; [exact Ps|]. split; [exact Io|].
    split. { rewrite (firstn_le _ (List.length path) (S (List.length path)) (shape (s_lhs s)) (path ++ [l])); [|lia|exact Ep]. rewrite firstn_app, Nat.sub_diag. cbn. rewrite app_nil_r. apply firstn_all. }
    exists w. split; [exact Iw|]. split; [|exact Epp]. rewrite prefix_length in *. rewrite prefix_next in Ew.
    rewrite (firstn_le _ (List.length path) (S (List.length path)) w _ (Nat.le_succ_diag_r _) Ew). apply firstn_prefix.
Qed.

(* two statements touch the same element in the same iteration *)
Lemma same_iteration : forall rho sg s t o l path pre1 pre2 i k p, ready rho t -> in_step s t -> In o (accesses s) ->
  List.length pre1 = List.length path -> List.length pre2 = List.length path ->
  firstn (S (List.length path)) (shape (s_lhs t)) = path ++ [l] -> i < len_val rho l -> k < len_val rho l ->
  firstn (S (List.length path)) (shape (s_lhs s)) = path ++ [l] ->
  touches rho sg s o (pre1 ++ [i]) p -> touches rho sg t (s_lhs t) (pre2 ++ [k]) p -> i = k.
Proof.
  intros rho sg s t o l path pre1 pre2 i k p R IS Io L1 L2 Et Li Lk Es (w & Iw & Ew & Ep) (w' & Iw' & Ew' & Ep').
  rewrite Ep in Ep'. injection Ep' as Ev Ea. destruct (IS o Io Ev) as [-> Er].
  assert (Q : nth_error (shape (s_lhs t)) (List.length path) = Some l).
  { rewrite <- (firstn_skipn (S (List.length path)) (shape (s_lhs t))), Et. rewrite nth_error_app1 by (rewrite app_length; cbn; lia).
    rewrite nth_error_app2, Nat.sub_diag by lia. reflexivity. }
  destruct (Nat.eq_dec (len_val rho l) 1) as [One|One]; [lia|].
  assert (N : nth_error w (List.length path) = nth_error w' (List.length path)).
  { unfold at_pos, op_addr in Ea. assert (Lw : List.length w = rank (s_lhs t)) by (rewrite (inside_length _ _ _ Iw), <- Er; reflexivity).
    assert (Lw' : List.length w' = rank (s_lhs t)) by (rewrite (inside_length _ _ _ Iw'); reflexivity).
    rewrite Lw, Lw', Nat.sub_diag in Ea. cbn [skipn] in Ea.
    apply (addr_inj rho sg (o_dims (s_lhs t)) w w') with (n := l); auto; try apply R. congruence. }
  assert (X : forall (pre u : list nat) j, List.length pre = List.length path -> firstn (List.length (pre ++ [j])) u = pre ++ [j] -> nth_error u (List.length path) = Some j).
  { intros pre u j L E. rewrite <- (firstn_skipn (List.length (pre ++ [j])) u), E. rewrite nth_error_app1 by (rewrite app_length; cbn; lia).
    rewrite nth_error_app2, L, Nat.sub_diag by lia. reflexivity. }
  rewrite (X pre1 w i L1 Ew), (X pre2 w' k L2 Ew') in N. congruence.
Qed.

(* iterations of one body do not meet other iterations of another *)
Lemma bodies_apart : forall rho sg (P Q : stmt -> Prop) path l b c env i k,
  (forall s, P s -> pure rho s) -> (forall s, Q s -> pure rho s) -> (forall s t, P s -> Q t -> in_step s t /\ in_step t s) ->
  made P (path ++ [l]) b -> made Q (path ++ [l]) c -> inside rho path (prefix env (List.length path)) ->
  i < len_val rho l -> k < len_val rho l -> i <> k ->
  let n := List.length path in
  apart (foot_w rho sg (S n) (set_env env n i) b) (foot_r rho sg (S n) (set_env env n i) b) (foot_w rho sg (S n) (set_env env n k) c) (foot_r rho sg (S n) (set_env env n k) c).
Proof.
  intros rho sg P Q path l b c env i k HP HQ IS Mb Mc Ip Li Lk Nik n.
  assert (Ln : List.length (path ++ [l]) = S n) by (rewrite app_length; cbn; unfold n; lia).
  assert (Iq : forall j, j < len_val rho l -> inside rho (path ++ [l]) (prefix (set_env env n j) (S n))).
  { intros j Lj. unfold n. rewrite prefix_next. apply inside_app; [exact Ip|]. constructor; [exact Lj|constructor]. }
  assert (Lp : List.length (prefix env n) = List.length path) by (rewrite prefix_length; reflexivity).
  assert (Wb := foot_w_made rho sg P HP b (path ++ [l]) (set_env env n i) 0 (Nat.le_0_l _) Mb). rewrite Ln in Wb. specialize (Wb (Iq i Li)).
  assert (Wc := foot_w_made rho sg Q HQ c (path ++ [l]) (set_env env n k) 0 (Nat.le_0_l _) Mc). rewrite Ln in Wc. specialize (Wc (Iq k Lk)).
  assert (Rb := foot_r_made rho sg P HP b (path ++ [l]) (set_env env n i) Mb). rewrite Ln in Rb. specialize (Rb (Iq i Li)).
  assert (Rc := foot_r_made rho sg Q HQ c (path ++ [l]) (set_env env n k) Mc). rewrite Ln in Rc. specialize (Rc (Iq k Lk)).
  unfold n in Wb, Wc, Rb, Rc. rewrite prefix_next in Wb, Wc, Rb, Rc. fold n in Wb, Wc, Rb, Rc.
  split; [|split].
  - intros p I J. destruct (Wb p I) as (s & Ps & Es & Ts). destruct (Wc p J) as (t & Qt & Et & Tt). apply Nik.
    apply (same_iteration rho sg s t (s_lhs s) l path (prefix env n) (prefix env n) i k p); auto; [apply HQ; exact Qt|exact (proj1 (IS s t Ps Qt))|left; reflexivity].
  - intros p I J. destruct (Wb p I) as (s & Ps & Es & Ts). destruct (Rc p J) as (t & o & Qt & Io & Et & Tt). apply Nik. symmetry.
    apply (same_iteration rho sg t s o l path (prefix env n) (prefix env n) k i p); auto; [apply HP; exact Ps|exact (proj2 (IS s t Ps Qt))|right; exact Io].
  - intros p I J. destruct (Wc p I) as (t & Qt & Et & Tt). destruct (Rb p J) as (s & o & Ps & Io & Es & Ts). apply Nik.
    apply (same_iteration rho sg s t o l path (prefix env n) (prefix env n) i k p); auto; [apply HQ; exact Qt|exact (proj1 (IS s t Ps Qt))|right; exact Io].
Qed.

(* the last item, if it is a loop *)
Fixpoint last_loop (r : items) : option (len * items) :=
  match r with
  | INil => None
  | ILine _ rest => last_loop rest
  | ILoop l _ body INil => Some (l, body)
  | ILoop _ _ _ rest => last_loop rest
  end.

Lemma made_last : forall P r path l b, made P path r -> last_loop r = Some (l, b) -> made P (path ++ [l]) b.
Proof.
  intros P. induction r as [|t rest IH|l0 mods body IHb rest IHr]; intros path l b M E; cbn [made last_loop] in *.
  - discriminate.
  - apply (IH path); [apply M|exact E].
  - destruct rest as [|t' rest'|l' mods' body' rest']; [injection E as <- <-; apply M| |]; apply IHr; try apply M; exact E.
Qed.

(* placing a line is executing it last *)
Lemma place_run : forall rho sg (P : stmt -> Prop) s x deps, (forall t, P t -> pure rho t) -> pure rho s -> (forall t, P t -> in_step s t /\ in_step t s) ->
  forall r m sh path env mm, firstn (List.length path + List.length sh) (shape (s_lhs s)) = path ++ sh ->
  inside rho path (prefix env (List.length path)) ->
  (0 < m -> forall l b, last_loop r = Some (l, b) -> hd_error sh = Some l -> made P (path ++ [l]) b) ->
  let t := ins_stmt (rank (s_lhs s)) (List.length path + List.length sh) s in
  meq (run rho sg (List.length path) env (place m deps sh x t r) mm) (run rho sg (List.length path) env (nest sh x t) (run rho sg (List.length path) env r mm)).
Proof.
  intros rho sg P s x deps HP Hs IS. induction r as [|t0 rest IH|l mods body IHb rest IHr]; intros m sh path env mm E Ip LF t.
  - apply meq_refl.
  - cbn [place run]. apply IH; try assumption.
  - destruct rest as [|t' rest'|l' mods' body' rest'].
    + assert (N : meq (run rho sg (List.length path) env (ILoop l mods body (nest sh x t)) mm)
                      (run rho sg (List.length path) env (nest sh x t) (run rho sg (List.length path) env (ILoop l mods body INil) mm))) by (apply meq_refl).
      destruct m as [|m]; [exact N|]. destruct sh as [|l' sh]; [exact N|]. cbn [place].
      destruct (len_eqb l l' && negb (existsb (fun u => existsb (var_eqb u) mods) deps)) eqn:C; [|exact N]. clear N.
      apply andb_true_iff in C. destruct C as [C _]. assert (El : l = l') by (destruct l, l'; cbn in C; try discriminate; apply Nat.eqb_eq in C; congruence). subst l'.
      cbn [run nest].
      assert (Mb : made P (path ++ [l]) body) by (apply LF; [lia|reflexivity|reflexivity]).
      set (n := List.length path) in *.
      assert (Et : t = ins_stmt (rank (s_lhs s)) (List.length (path ++ [l]) + List.length sh) s) by (unfold t; rewrite app_length; cbn [List.length]; f_equal; unfold n; lia).
      assert (E' : firstn (List.length (path ++ [l]) + List.length sh) (shape (s_lhs s)) = (path ++ [l]) ++ sh).
      { rewrite <- app_assoc. cbn [app]. rewrite <- E. f_equal. rewrite app_length. cbn [List.length]. unfold n. lia. }
      assert (Iq : forall j, j < len_val rho l -> inside rho (path ++ [l]) (prefix (set_env env n j) (S n))).
      { intros j Lj. unfold n. rewrite prefix_next. apply inside_app; [exact Ip|]. constructor; [exact Lj|constructor]. }
      assert (Ln : List.length (path ++ [l]) = S n) by (rewrite app_length; cbn; unfold n; lia).
      eapply meq_trans.
      * apply (meq_fold (fun i m1 => run rho sg (S n) (set_env env n i) (place m deps sh x t body) m1)
                 (fun i m1 => run rho sg (S n) (set_env env n i) (nest sh x t) (run rho sg (S n) (set_env env n i) body m1))); [|apply meq_refl].
        intros i m1 m1' I Em. apply in_seq in I. eapply meq_trans; [apply run_meq; exact Em|].
        specialize (IHb m sh (path ++ [l]) (set_env env n i) m1' E'). rewrite Ln in IHb. rewrite Et, Ln. apply IHb.
        -- apply Iq. lia.
        -- intros _ l2 b2 E2 _. apply (made_last P body (path ++ [l])); assumption.
      * apply (fission (fun i => run rho sg (S n) (set_env env n i) body) (fun i => run rho sg (S n) (set_env env n i) (nest sh x t))
          (fun i => foot_w rho sg (S n) (set_env env n i) body) (fun i => foot_w rho sg (S n) (set_env env n i) (nest sh x t))
          (fun i => foot_r rho sg (S n) (set_env env n i) body) (fun i => foot_r rho sg (S n) (set_env env n i) (nest sh x t))).
        -- apply seq_NoDup.
        -- intros i _. apply eff_run.
        -- intros i _. apply eff_run.
        -- intros i k I K Nik. apply in_seq in I. apply in_seq in K.
           apply (bodies_apart rho sg P (fun u => u = s) path l); auto; try lia.
           ++ intros u ->. exact Hs.
           ++ intros u v Pu ->. destruct (IS u Pu). split; assumption.
           ++ rewrite Et. apply made_nest; [reflexivity|exact E'].
    + cbn [place run]. apply IHr; try assumption.
    + change (place m deps sh x t (ILoop l mods body (ILoop l' mods' body' rest'))) with (ILoop l mods body (place m deps sh x t (ILoop l' mods' body' rest'))).
      set (rest0 := ILoop l' mods' body' rest') in *. cbn [run]. apply IHr; try assumption.
Qed.

(* nested loops are the statement *)
Lemma nest_run : forall rho sg s x, pure rho s -> forall sh path env mm, (sh <> [] -> self_step s) ->
  firstn (List.length path + List.length sh) (shape (s_lhs s)) = path ++ sh -> inside rho path (prefix env (List.length path)) ->
  meq (run rho sg (List.length path) env (nest sh x (ins_stmt (rank (s_lhs s)) (List.length path + List.length sh) s)) mm)
      (part rho sg s (prefix env (List.length path)) mm).
Proof.
  intros rho sg s x [R Dn]. induction sh as [|l sh IH]; intros path env mm SS E Ip.
  - cbn [nest run List.length] in *. rewrite Nat.add_0_r in *. rewrite app_nil_r in E. rewrite exec_line_ins; [apply meq_refl|exact R| |rewrite E; exact Ip].
    apply (path_length _ (shape (s_lhs s)) path); auto.
  - cbn [nest run List.length] in *. set (n := List.length path) in *.
    assert (Ln : List.length (path ++ [l]) = S n) by (rewrite app_length; cbn; unfold n; lia).
    assert (Q : nth_error (shape (s_lhs s)) n = Some l).
    { rewrite <- (firstn_skipn (n + S (List.length sh)) (shape (s_lhs s))), E. rewrite nth_error_app1 by (rewrite app_length; cbn [List.length]; unfold n; lia).
      rewrite nth_error_app2 by (unfold n; lia). unfold n. rewrite Nat.sub_diag. reflexivity. }
    assert (En : firstn n (shape (s_lhs s)) = path).
    { rewrite (firstn_le _ n (n + S (List.length sh)) _ (path ++ l :: sh)); [|lia|exact E]. unfold n. rewrite firstn_app, Nat.sub_diag. cbn. rewrite app_nil_r. apply firstn_all. }
    eapply meq_trans; [|apply (part_loop rho sg s (prefix env n) l mm R); [apply SS; discriminate| | |]].
    + apply (meq_fold (fun i m1 => run rho sg (S n) (set_env env n i) (nest sh x (ins_stmt (rank (s_lhs s)) (n + S (List.length sh)) s)) m1)
        (fun i m1 => part rho sg s (prefix env n ++ [i]) m1)); [|apply meq_refl].
      intros i m1 m1' I Em. apply in_seq in I. eapply meq_trans; [apply run_meq; exact Em|].
      specialize (IH (path ++ [l]) (set_env env n i) m1'). rewrite Ln in IH. replace (n + S (List.length sh)) with (S n + List.length sh) in * by lia.
      unfold n in IH at 4 5. rewrite prefix_next in IH. fold n in IH. apply IH.
      * intros _. apply SS. discriminate.
      * rewrite <- app_assoc. exact E.
      * apply inside_app; [exact Ip|]. constructor; [lia|constructor].
    + rewrite Dn. intros y [].
    + rewrite prefix_length, En. exact Ip.
    + rewrite prefix_length. exact Q.
Qed.
