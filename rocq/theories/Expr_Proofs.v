From Coq Require Import List Bool Arith String Lia.
From Verif Require Import Expr_Model Expr_Spec.
Import ListNotations.
Open Scope list_scope.
Open Scope string_scope.
Open Scope nat_scope.

(* ---- reading what has been written with enough parentheses ---- *)
Section Reader.
Variable L : lang.
Notation top := (top L).
Definition if_op : list (nat * nat) := if has_if L then [(3, 4)] else [].
(* levels of infix operators with the least level of their left operands *)
Definition levels : list (nat * nat) := if_op ++ map (fun e => fst (snd e)) (infixes L).
Definition closed_by (p : nat * nat) (l r : nat) : bool :=
  if snd p <=? l then (fst p <? r) && (snd p <=? r) else true.
Definition table_ok : bool :=
  forallb (fun p => forallb (fun e => let '(l, _, r) := snd e in closed_by p l r) (infixes L)
                 && forallb (fun e => let '(l, r) := snd e in closed_by p l r) (prefixes L)
                 && closed_by p 3 3 && (fst p <? 100) && (fst p <=? snd p)) levels.
Hypothesis Htab : table_ok = true.

Fixpoint ok (t : txt) : Prop :=
  match t with
  | At _ => True
  | Par t => ok t
  | Pre o t => match prefix_ L o with Some (_, r) => ok t /\ r <= top t | None => False end
  | In o a b => match infix L o with
                | Some (l, ll, r) => ok a /\ ok b /\ ll <= top a /\ r <= top b
                | None => False
                end
  | Call1 _ a => ok a
  | Call2 _ a b => ok a /\ ok b
  | Call3 _ a b c => ok a /\ ok b /\ ok c
  | TQ c a b => ok c /\ ok a /\ ok b
  | TIf a c b => has_if L = true /\ ok a /\ ok c /\ ok b /\ 4 <= top a /\ 4 <= top c /\ 3 <= top b
  end.
(* the levels open at the right end *)
Fixpoint redge (t : txt) : nat :=
  match t with
  | Pre o t => match prefix_ L o with Some (_, r) => Nat.min r (redge t) | None => 0 end
  | In o _ b => match infix L o with Some (_, _, r) => Nat.min r (redge b) | None => 0 end
  | TIf _ _ b => Nat.min 3 (redge b)
  | _ => 100
  end.
Fixpoint depth (t : txt) : nat :=
  match t with In _ a _ => S (depth a) | TIf a _ _ => S (depth a) | _ => 1 end.

Lemma find_in {A} o (l : list (string * A)) v : find o l = Some v -> List.In (o, v) l.
Proof.
  induction l as [|(k, w) r IH]; simpl; [discriminate|].
  destruct (String.eqb_spec o k) as [->|]; intros E; [injection E as <-; auto|auto].
Qed.
Lemma level_in o l ll r : infix L o = Some (l, ll, r) -> List.In (l, ll) levels.
Proof.
  intros H. apply find_in in H. unfold levels. apply in_or_app. right.
  apply in_map_iff. exists (o, (l, ll, r)). auto.
Qed.
Lemma table p : List.In p levels ->
  (forall o l ll r, infix L o = Some (l, ll, r) -> closed_by p l r = true) /\
  (forall o l r, prefix_ L o = Some (l, r) -> closed_by p l r = true) /\
  closed_by p 3 3 = true /\ fst p < 100 /\ fst p <= snd p.
Proof.
  intros Hp. unfold table_ok in Htab. rewrite forallb_forall in Htab. specialize (Htab p Hp).
  rewrite !andb_true_iff, !forallb_forall in Htab. destruct Htab as ((((A & B) & C) & D) & E).
  split; [|split; [|split; [|split]]]; auto.
  - intros o l ll r H. apply find_in in H. exact (A _ H).
  - intros o l r H. apply find_in in H. exact (B _ H).
  - apply Nat.ltb_lt. auto.
  - apply Nat.leb_le. auto.
Qed.
Lemma edge t : ok t -> forall p, List.In p levels -> snd p <= top t -> fst p < redge t.
Proof.
  induction t; simpl; intros H p Hp Ht; destruct (table p Hp) as (A & B & C & D & E); try lia.
  - destruct (prefix_ L o) as [(l, r)|] eqn:Eo; [|tauto]. destruct H as (H & Hr).
    specialize (B o l r Eo). unfold closed_by in B. rewrite (proj2 (Nat.leb_le _ _) Ht) in B.
    apply andb_true_iff in B as (B1 & B2). apply Nat.ltb_lt in B1. apply Nat.leb_le in B2.
    specialize (IHt H p Hp ltac:(lia)). lia.
  - destruct (infix L o) as [((l, ll), r)|] eqn:Eo; [|tauto]. destruct H as (Ha & Hb & H1 & H2).
    specialize (A o l ll r Eo). unfold closed_by in A. rewrite (proj2 (Nat.leb_le _ _) Ht) in A.
    apply andb_true_iff in A as (B1 & B2). apply Nat.ltb_lt in B1. apply Nat.leb_le in B2.
    specialize (IHt2 Hb p Hp ltac:(lia)). lia.
  - destruct H as (_ & _ & _ & H & _ & _ & H3). unfold closed_by in C. rewrite (proj2 (Nat.leb_le _ _) Ht) in C.
    apply andb_true_iff in C as (B1 & _). apply Nat.ltb_lt in B1.
    assert (Q: snd p <= top t3) by (cbn in Ht; lia). specialize (IHt3 H p Hp Q). assert (fst p < Nat.min 3 (redge t3)) as W by lia. exact W.
Qed.

(* the text stops here for an expression of level m *)
Definition stops (m : nat) (rest : list tok) : Prop :=
  match rest with
  | KOp o :: _ => match infix L o with Some (l, _, _) => l < m | None => True end
  | KIf :: _ => has_if L = true -> 3 < m
  | _ => True
  end.
Lemma stops_le m m' rest : stops m rest -> m <= m' -> stops m' rest.
Proof.
  unfold stops. destruct rest as [|[a|o|f| | | | | | |] r]; auto.
  - destruct (infix L o) as [((l, ll), rr)|]; auto. lia.
  - intros H E1 E2. specialize (H E2). lia.
Qed.
Lemma more_stops f lvl t rest : stops lvl rest -> rd_more L (S f) lvl t rest = Some (t, rest).
Proof.
  unfold stops. intros H. simpl. destruct rest as [|[a|o|g| | | | | | |] r]; auto.
  - destruct (infix L o) as [((l, ll), rr)|]; auto.
    destruct (Nat.leb_spec lvl l); auto. lia.
  - destruct (has_if L); auto. destruct (Nat.leb_spec lvl 3); auto. specialize (H eq_refl). lia.
Qed.
Lemma depth_len t : depth t <= List.length (words t).
Proof. induction t; simpl; rewrite ?app_length; simpl; lia. Qed.
Lemma words_len t : 1 <= List.length (words t).
Proof. pose proof (depth_len t). destruct t; simpl in *; lia. Qed.

Lemma rd_expr_S f lvl ts : rd_expr L (S f) lvl ts =
  match rd_first L f lvl ts with Some (t, r) => rd_more L f lvl t r | None => None end.
Proof. reflexivity. Qed.
Lemma rd_first_op f lvl o r : rd_first L (S f) lvl (KOp o :: r) =
  match prefix_ L o with
  | Some (l, arg) =>
      if lvl <=? l then match rd_expr L f arg r with Some (t, r') => Some (Pre o t, r') | None => None end else None
  | None => None
  end.
Proof. reflexivity. Qed.
Lemma rd_first_L f lvl r : rd_first L (S f) lvl (KL :: r) =
  match rd_expr L f 0 r with
  | Some (t, KR :: r') => Some (Par t, r')
  | Some (c, KQ :: r') =>
      match rd_expr L f 0 r' with
      | Some (a, KColon :: r'') =>
          match rd_expr L f 0 r'' with Some (b, KR :: r3) => Some (TQ c a b, r3) | _ => None end
      | _ => None
      end
  | _ => None
  end.
Proof. reflexivity. Qed.
Lemma rd_first_fun f lvl g r : rd_first L (S f) lvl (KFun g :: KL :: r) =
  match rd_expr L f 0 r with
  | Some (a, KR :: r') => Some (Call1 g a, r')
  | Some (a, KComma :: r') =>
      match rd_expr L f 0 r' with
      | Some (b, KR :: r2) => Some (Call2 g a b, r2)
      | Some (b, KComma :: r2) =>
          match rd_expr L f 0 r2 with Some (c, KR :: r3) => Some (Call3 g a b c, r3) | _ => None end
      | _ => None
      end
  | _ => None
  end.
Proof. reflexivity. Qed.
Lemma rd_more_op f lvl left o r : rd_more L (S f) lvl left (KOp o :: r) =
  match infix L o with
  | Some (l, ll, rl) =>
      if lvl <=? l then
        if ll <=? top left then
          match rd_expr L f rl r with Some (b, r') => rd_more L f lvl (In o left b) r' | None => None end
        else None
      else Some (left, KOp o :: r)
  | None => Some (left, KOp o :: r)
  end.
Proof. reflexivity. Qed.
Lemma rd_more_if f lvl left r : rd_more L (S f) lvl left (KIf :: r) =
  if has_if L && (lvl <=? 3) then
    if 4 <=? top left then
      match rd_expr L f 4 r with
      | Some (c, KElse :: r') =>
          match rd_expr L f 3 r' with Some (b, r2) => rd_more L f lvl (TIf left c b) r2 | None => None end
      | _ => None
      end
    else None
  else Some (left, KIf :: r).
Proof. reflexivity. Qed.
Ltac norm := repeat (rewrite <- app_assoc; cbn [app]).
Lemma reads t : ok t -> forall lvl rest fuel, lvl <= top t -> stops (redge t) rest ->
  2 * List.length (words t) + 2 <= fuel ->
  rd_expr L fuel lvl (words t ++ rest) = rd_more L (fuel - depth t) lvl t rest.
Proof.
  induction t; intros Hok lvl rest fuel Hl Hs Hf; cbn [words] in *.
  - destruct fuel as [|[|f]]; simpl in Hf; try lia. simpl. rewrite ?Nat.sub_0_r. reflexivity.
  - (* Par *) destruct fuel as [|[|[|f]]]; simpl in Hf; rewrite ?app_length in Hf; simpl in Hf; try lia.
    cbn [depth]. replace (S (S (S f)) - 1) with (S (S f)) by lia.
    cbn [app]. rewrite rd_expr_S, ?rd_first_op, ?rd_first_L, ?rd_first_fun. norm.
    simpl in Hok. rewrite (IHt Hok 0 (KR :: rest) (S f)); [|lia|exact I|lia].
    pose proof (depth_len t). destruct (S f - depth t) as [|g] eqn:Eg; [lia|].
    rewrite more_stops by exact I. reflexivity.
  - (* Pre *) simpl in Hok, Hl. cbn [redge] in Hs. destruct (prefix_ L o) as [(l, r)|] eqn:Eo; [|tauto].
    destruct Hok as (Hok & Hr).
    destruct fuel as [|[|[|f]]]; simpl in Hf; try lia.
    cbn [depth]. replace (S (S (S f)) - 1) with (S (S f)) by lia.
    cbn [app]. rewrite rd_expr_S, ?rd_first_op, ?rd_first_L, ?rd_first_fun. rewrite Eo. rewrite (proj2 (Nat.leb_le _ _) Hl).
    rewrite (IHt Hok r rest (S f)); [|lia|eapply stops_le; [exact Hs|lia]|lia].
    pose proof (depth_len t). destruct (S f - depth t) as [|g] eqn:Eg; [lia|].
    rewrite more_stops by (eapply stops_le; [exact Hs|lia]). reflexivity.
  - (* In *) simpl in Hok, Hl. cbn [redge] in Hs. destruct (infix L o) as [((l, ll), r)|] eqn:Eo; [|tauto].
    destruct Hok as (Ha & Hb & H1 & H2).
    rewrite app_length in Hf. simpl in Hf. norm.
    pose proof (level_in o l ll r Eo) as Hin.
    destruct (table (l, ll) Hin) as (_ & _ & _ & _ & Hle). simpl in Hle.
    pose proof (edge t1 Ha (l, ll) Hin H1) as He. simpl in He.
    rewrite (IHt1 Ha lvl (KOp o :: words t2 ++ rest) fuel); [|lia| |lia].
    2:{ simpl. rewrite Eo. auto. }
    pose proof (depth_len t1). pose proof (depth_len t2). pose proof (words_len t2).
    cbn [depth]. destruct (fuel - depth t1) as [|f] eqn:Ef; [lia|].
    replace (fuel - S (depth t1)) with f by lia.
    rewrite rd_more_op, Eo, (proj2 (Nat.leb_le _ _) Hl), (proj2 (Nat.leb_le _ _) H1).
    rewrite (IHt2 Hb r rest f); [|lia|eapply stops_le; [exact Hs|lia]|lia].
    destruct (f - depth t2) as [|g] eqn:Eg; [lia|].
    rewrite more_stops by (eapply stops_le; [exact Hs|lia]). reflexivity.
  - (* Call1 *) simpl in Hok. rename t into a.
    destruct fuel as [|[|[|f0]]]; simpl in Hf; rewrite ?app_length in Hf; simpl in Hf; try lia.
    cbn [depth]. replace (S (S (S f0)) - 1) with (S (S f0)) by lia.
    cbn [app]. rewrite rd_expr_S, ?rd_first_op, ?rd_first_L, ?rd_first_fun. norm.
    rewrite (IHt Hok 0 (KR :: rest) (S f0)); [|lia|exact I|lia].
    pose proof (depth_len a). destruct (S f0 - depth a) as [|g] eqn:Eg; [lia|].
    rewrite more_stops by exact I. reflexivity.
  - (* Call2 *) simpl in Hok. destruct Hok as (Ha & Hb).
    destruct fuel as [|[|[|f0]]]; simpl in Hf; rewrite ?app_length in Hf; simpl in Hf; rewrite ?app_length in Hf; simpl in Hf; try lia.
    cbn [depth]. replace (S (S (S f0)) - 1) with (S (S f0)) by lia.
    cbn [app]. rewrite rd_expr_S, ?rd_first_op, ?rd_first_L, ?rd_first_fun. norm.
    rewrite (IHt1 Ha 0 (KComma :: words t2 ++ KR :: rest) (S f0)); [|lia|exact I|lia].
    pose proof (depth_len t1). destruct (S f0 - depth t1) as [|g] eqn:Eg; [lia|].
    rewrite more_stops by exact I.
    rewrite (IHt2 Hb 0 (KR :: rest) (S f0)); [|lia|exact I|lia].
    pose proof (depth_len t2). destruct (S f0 - depth t2) as [|g2] eqn:Eg2; [lia|].
    rewrite more_stops by exact I. reflexivity.
  - (* Call3 *) simpl in Hok. destruct Hok as (Ha & Hb & Hc).
    destruct fuel as [|[|[|f0]]]; simpl in Hf; repeat (rewrite ?app_length in Hf; simpl in Hf); try lia.
    cbn [depth]. replace (S (S (S f0)) - 1) with (S (S f0)) by lia.
    cbn [app]. rewrite rd_expr_S, ?rd_first_op, ?rd_first_L, ?rd_first_fun. norm.
    rewrite (IHt1 Ha 0 (KComma :: words t2 ++ KComma :: words t3 ++ KR :: rest) (S f0)); [|lia|exact I|lia].
    pose proof (depth_len t1). destruct (S f0 - depth t1) as [|g] eqn:Eg; [lia|].
    rewrite more_stops by exact I.
    rewrite (IHt2 Hb 0 (KComma :: words t3 ++ KR :: rest) (S f0)); [|lia|exact I|lia].
    pose proof (depth_len t2). destruct (S f0 - depth t2) as [|g2] eqn:Eg2; [lia|].
    rewrite more_stops by exact I.
    rewrite (IHt3 Hc 0 (KR :: rest) (S f0)); [|lia|exact I|lia].
    pose proof (depth_len t3). destruct (S f0 - depth t3) as [|g3] eqn:Eg3; [lia|].
    rewrite more_stops by exact I. reflexivity.
  - (* TQ *) simpl in Hok. destruct Hok as (Ha & Hb & Hc).
    destruct fuel as [|[|[|f0]]]; simpl in Hf; repeat (rewrite ?app_length in Hf; simpl in Hf); try lia.
    cbn [depth]. replace (S (S (S f0)) - 1) with (S (S f0)) by lia.
    cbn [app]. rewrite rd_expr_S, ?rd_first_op, ?rd_first_L, ?rd_first_fun. norm.
    rewrite (IHt1 Ha 0 (KQ :: words t2 ++ KColon :: words t3 ++ KR :: rest) (S f0)); [|lia|exact I|lia].
    pose proof (depth_len t1). destruct (S f0 - depth t1) as [|g] eqn:Eg; [lia|].
    rewrite more_stops by exact I.
    rewrite (IHt2 Hb 0 (KColon :: words t3 ++ KR :: rest) (S f0)); [|lia|exact I|lia].
    pose proof (depth_len t2). destruct (S f0 - depth t2) as [|g2] eqn:Eg2; [lia|].
    rewrite more_stops by exact I.
    rewrite (IHt3 Hc 0 (KR :: rest) (S f0)); [|lia|exact I|lia].
    pose proof (depth_len t3). destruct (S f0 - depth t3) as [|g3] eqn:Eg3; [lia|].
    rewrite more_stops by exact I. reflexivity.
  - (* TIf *) simpl in Hok, Hl. cbn [redge] in Hs. destruct Hok as (Hif & Ha & Hc & Hb & H1 & H2 & H3).
    repeat (rewrite ?app_length in Hf; simpl in Hf). norm.
    assert (Hin: List.In (3, 4) levels).
    { unfold levels, if_op. rewrite Hif. simpl. auto. }
    pose proof (edge t1 Ha (3, 4) Hin H1) as He. simpl in He.
    rewrite (IHt1 Ha lvl (KIf :: words t2 ++ KElse :: words t3 ++ rest) fuel); [|lia| |lia].
    2:{ simpl. auto. }
    pose proof (depth_len t1). pose proof (depth_len t2). pose proof (depth_len t3).
    pose proof (words_len t2). pose proof (words_len t3).
    cbn [depth]. destruct (fuel - depth t1) as [|f] eqn:Ef; [lia|].
    replace (fuel - S (depth t1)) with f by lia.
    rewrite rd_more_if, Hif. cbn [andb]. rewrite (proj2 (Nat.leb_le _ _) Hl).
    rewrite (proj2 (Nat.leb_le _ _) H1).
    rewrite (IHt2 Hc 4 (KElse :: words t3 ++ rest) f); [|lia|exact I|lia].
    destruct (f - depth t2) as [|g] eqn:Eg; [lia|].
    rewrite more_stops by exact I.
    rewrite (IHt3 Hb 3 rest f); [|lia|eapply stops_le; [exact Hs|lia]|lia].
    destruct (f - depth t3) as [|g2] eqn:Eg2; [lia|].
    rewrite more_stops by (eapply stops_le; [exact Hs|lia]). reflexivity.
Qed.
Lemma read_ok t : ok t -> read L (words t) = Some t.
Proof.
  intros H. unfold read. pose proof (reads t H 0 [] (4 * List.length (words t) + 4)) as R.
  rewrite app_nil_r in R. rewrite R; [|lia|simpl; auto|lia].
  pose proof (depth_len t). destruct (4 * List.length (words t) + 4 - depth t) as [|g] eqn:E; [lia|].
  rewrite more_stops by exact I. reflexivity.
Qed.
End Reader.

(* ---- building on canonical expressions ---- *)
Fixpoint bld (e : se) : pe :=
  match e with
  | SAt a t => PAt a t
  | SUn o x => mk_un o (bld x)
  | SBin And a b => PBin And (match a with SBin And _ _ => bld a | _ => and_arg (bld a) end) (and_arg (bld b))
  | SBin Or a b => PBin Or (match a with SBin Or _ _ => bld a | _ => or_arg (bld a) end) (or_arg (bld b))
  | SBin o a b => mk_bin o (bld a) (bld b)
  | SMore _ _ _ => PAt "" TBool
  | STern c a b => mk_tern (bld c) (bld a) (bld b)
  | SBool x => PBool (bld x)
  end.
Definition s_and (e : se) : bool := match e with SBin And _ _ => true | _ => false end.
Definition s_or (e : se) : bool := match e with SBin Or _ _ => true | _ => false end.
Fixpoint cn (e : se) : Prop :=
  match e with
  | SAt _ _ => True
  | SUn _ x => cn x
  | SBin o a b => cn a /\ cn b /\
      match o with And => s_and b = false | Or => s_or b = false | _ => True end
  | SMore _ _ _ => False
  | STern c a b => cn c /\ cn a /\ cn b
  | SBool x => cn x
  end.
Definition head_of (e : se) : bop := match e with SBin o _ _ => o | _ => Add end.
Lemma bld_and e : is_and (bld e) = s_and e.
Proof. destruct e as [| o x | o a b | | |]; simpl; auto; destruct o; reflexivity. Qed.
Lemma bld_or e : is_or (bld e) = s_or e.
Proof. destruct e as [| o x | o a b | | |]; simpl; auto; destruct o; reflexivity. Qed.
Lemma and_arg_notand x : is_and x = false -> is_and (and_arg x) = false.
Proof. destruct x as [| [] | [] | | |]; simpl; intros; try discriminate; auto. Qed.
Lemma or_arg_notor x : is_or x = false -> is_or (or_arg x) = false.
Proof. destruct x as [| [] | [] | | |]; simpl; intros; try discriminate; auto. Qed.
Lemma and_arg_twice x : and_arg (and_arg x) = and_arg x.
Proof. destruct x as [| [] | [] | | |]; reflexivity. Qed.
Lemma or_arg_twice x : or_arg (or_arg x) = or_arg x.
Proof. destruct x as [| [] | [] | | |]; reflexivity. Qed.
Lemma and_join_other l r : is_and r = false -> and_join l r = PBin And l (and_arg r).
Proof. destruct r as [| [] | [] | | |]; simpl; intros; try discriminate; auto. Qed.
Lemma or_join_other l r : is_or r = false -> or_join l r = PBin Or l (or_arg r).
Proof. destruct r as [| [] | [] | | |]; simpl; intros; try discriminate; auto. Qed.
Definition and_left (a : se) : pe := if s_and a then bld a else and_arg (bld a).
Definition or_left (a : se) : pe := if s_or a then bld a else or_arg (bld a).
Lemma bld_And a b : bld (SBin And a b) = PBin And (and_left a) (and_arg (bld b)).
Proof. unfold and_left. destruct a as [| | [] | | |]; reflexivity. Qed.
Lemma bld_Or a b : bld (SBin Or a b) = PBin Or (or_left a) (or_arg (bld b)).
Proof. unfold or_left. destruct a as [| | [] | | |]; reflexivity. Qed.
Lemma join_and_other a b : s_and b = false -> join And a b = SBin And a b.
Proof. destruct b as [| | [] | | |]; simpl; intros; try discriminate; auto. Qed.
Lemma join_or_other a b : s_or b = false -> join Or a b = SBin Or a b.
Proof. destruct b as [| | [] | | |]; simpl; intros; try discriminate; auto. Qed.
Lemma s_and_join a b : s_and (join And a b) = true.
Proof. destruct b as [| | [] | | |]; simpl; auto. Qed.
Lemma s_or_join a b : s_or (join Or a b) = true.
Proof. destruct b as [| | [] | | |]; simpl; auto. Qed.
Lemma s_and_true e : s_and e = true -> exists a b, e = SBin And a b.
Proof. destruct e as [| | [] | | |]; simpl; intros; try discriminate; eauto. Qed.
Lemma s_or_true e : s_or e = true -> exists a b, e = SBin Or a b.
Proof. destruct e as [| | [] | | |]; simpl; intros; try discriminate; eauto. Qed.
Lemma cn_join_and a b : cn a -> cn b -> cn (join And a b).
Proof.
  intros Ha. induction b as [| | o b1 IH1 b2 IH2 | | |]; intros Hb; try (simpl in *; tauto).
  destruct (s_and (SBin o b1 b2)) eqn:E.
  - destruct o; try discriminate. simpl in *. tauto.
  - rewrite join_and_other by auto. simpl. simpl in Hb. tauto.
Qed.
Lemma cn_join_or a b : cn a -> cn b -> cn (join Or a b).
Proof.
  intros Ha. induction b as [| | o b1 IH1 b2 IH2 | | |]; intros Hb; try (simpl in *; tauto).
  destruct (s_or (SBin o b1 b2)) eqn:E.
  - destruct o; try discriminate. simpl in *. tauto.
  - rewrite join_or_other by auto. simpl. simpl in Hb. tauto.
Qed.
Lemma mk_and_left a r : mk_and (bld a) r = and_join (and_left a) r.
Proof.
  unfold mk_and, and_left. rewrite <- bld_and. destruct (bld a) as [| | [] | | |]; reflexivity.
Qed.
Lemma mk_or_left a r : mk_or (bld a) r = or_join (or_left a) r.
Proof.
  unfold mk_or, or_left. rewrite <- bld_or. destruct (bld a) as [| | [] | | |]; reflexivity.
Qed.
Lemma mk_and_bld a b : cn b -> mk_and (bld a) (bld b) = bld (join And a b).
Proof.
  rewrite mk_and_left. induction b as [| | o b1 IH1 b2 IH2 | | |]; intros Hb;
    try (rewrite join_and_other, bld_And, and_join_other by (rewrite ?bld_and; reflexivity); reflexivity).
  destruct (s_and (SBin o b1 b2)) eqn:E.
  - destruct o; try discriminate. simpl in Hb. destruct Hb as (H1 & H2 & H3).
    specialize (IH1 H1). rewrite bld_And. simpl (join _ _ _). rewrite bld_And. cbn [and_join]. f_equal.
    unfold and_left at 3. rewrite s_and_join. rewrite <- IH1. unfold and_left at 2.
    destruct (s_and b1) eqn:E1; auto.
    rewrite (and_join_other _ (bld b1)) by (rewrite bld_and; auto).
    rewrite and_join_other by (apply and_arg_notand; rewrite bld_and; auto).
    rewrite and_arg_twice. auto.
  - rewrite join_and_other, bld_And, and_join_other by (rewrite ?bld_and; auto). reflexivity.
Qed.
Lemma mk_or_bld a b : cn b -> mk_or (bld a) (bld b) = bld (join Or a b).
Proof.
  rewrite mk_or_left. induction b as [| | o b1 IH1 b2 IH2 | | |]; intros Hb;
    try (rewrite join_or_other, bld_Or, or_join_other by (rewrite ?bld_or; reflexivity); reflexivity).
  destruct (s_or (SBin o b1 b2)) eqn:E.
  - destruct o; try discriminate. simpl in Hb. destruct Hb as (H1 & H2 & H3).
    specialize (IH1 H1). rewrite bld_Or. simpl (join _ _ _). rewrite bld_Or. cbn [or_join]. f_equal.
    unfold or_left at 3. rewrite s_or_join. rewrite <- IH1. unfold or_left at 2.
    destruct (s_or b1) eqn:E1; auto.
    rewrite (or_join_other _ (bld b1)) by (rewrite bld_or; auto).
    rewrite or_join_other by (apply or_arg_notor; rewrite bld_or; auto).
    rewrite or_arg_twice. auto.
  - rewrite join_or_other, bld_Or, or_join_other by (rewrite ?bld_or; auto). reflexivity.
Qed.
(* ---- the shape of what is built ---- *)
Definition par_of (x y : pe) : Prop := y = x \/ y = PPar x.
Definition is_sign (x : pe) : bool := match x with PUn (Plus | Minus) _ => true | _ => false end.
Definition arith (o : bop) : bool :=
  match o with Add | Sub | Mul | Div | Mod | FloorDiv => true | _ => false end.
Lemma par_ty x y : par_of x y -> ty y = ty x.
Proof. intros [->| ->]; reflexivity. Qed.
Lemma hp_par p f x : par_of x (hp p f x).
Proof. unfold par_of, hp. destruct (_ || _); auto. Qed.
Lemma prec_le x : prec x <= 18.
Proof. destruct x as [| [] | [] | | |]; simpl; lia. Qed.
Lemma hp_prec p (f : bool) x : p < 18 -> (if f then p else S p) <= prec (hp p f x).
Proof.
  intros Hp. unfold hp. destruct (Nat.ltb_spec (prec x) p); simpl; [destruct f; lia|].
  destruct (Nat.eqb_spec (prec x) p), f; simpl; lia.
Qed.
Lemma sign_hp_par p f x : par_of x (sign_par (hp p f x)).
Proof.
  destruct (hp_par p f x) as [->| ->]; [|right; reflexivity].
  destruct x as [| [] | [] | | |]; simpl; unfold par_of; auto.
Qed.
Lemma sign_par_prec x : prec x <= prec (sign_par x).
Proof. destruct x as [| [] | [] | | |]; simpl; lia. Qed.
Lemma sign_par_sign x : is_sign (sign_par x) = false.
Proof. destruct x as [| [] | [] | | |]; reflexivity. Qed.
Lemma and_arg_par x : par_of x (and_arg x).
Proof. destruct x as [| [] | [] | | |]; simpl; unfold par_of; auto. Qed.
Lemma or_arg_par x : par_of x (or_arg x).
Proof. destruct x as [| [] | [] | | |]; simpl; unfold par_of; auto. Qed.

Record un_shape (o : uop) (x A : pe) : Prop := {
  us_par : par_of x A;
  us_prec : uprec o <= prec A;
  us_sign : match o with Plus | Minus => is_sign A = false | _ => True end }.
Lemma un_shaped o x : exists A, mk_un o x = PUn o A /\ un_shape o x A.
Proof.
  destruct o; simpl; eexists; (split; [reflexivity|]); split; simpl; auto;
    try apply sign_hp_par; try apply hp_par; try apply sign_par_sign.
  - eapply Nat.le_trans; [|apply sign_par_prec]. apply (hp_prec 14 true); lia.
  - eapply Nat.le_trans; [|apply sign_par_prec]. apply (hp_prec 14 true); lia.
  - apply (hp_prec 6 true); lia.
  - apply (hp_prec 14 true); lia.
Qed.
Record bin_shape (o : bop) (a b : se) (A B : pe) : Prop := {
  bs_a : par_of (bld a) A;
  bs_b : par_of (bld b) B;
  bs_la : (match o with Pow => 16 | _ => bprec o end) <= prec A;
  bs_lb : (match o with Pow => 15 | _ => S (bprec o) end) <= prec B;
  bs_sign : arith o = true -> is_sign A = false /\ is_sign B = false }.
Lemma bin_shaped o a b : cn (SBin o a b) -> exists A B, bld (SBin o a b) = PBin o A B /\ bin_shape o a b A B.
Proof.
  intros (Ha & Hb & H).
  assert (D: o = And \/ o = Or \/ (o <> And /\ o <> Or /\ bld (SBin o a b) = mk_bin o (bld a) (bld b)))
    by (destruct o; auto; right; right; repeat split; discriminate).
  destruct D as [->|[->|(N1 & N2 & D)]].
  - rewrite bld_And. do 2 eexists. split; [reflexivity|]. split; try discriminate.
    + unfold and_left. destruct (s_and a); [left; auto|apply and_arg_par].
    + apply and_arg_par.
    + unfold and_left. destruct (s_and a) eqn:E.
      * rewrite <- bld_and in E. destruct (bld a) as [| | [] | | |]; try discriminate. simpl. lia.
      * destruct (bld a) as [| [] | [] | | |]; simpl; lia.
    + rewrite <- bld_and in H. destruct (bld b) as [| [] | [] | | |]; simpl in *; try discriminate; lia.
  - rewrite bld_Or. do 2 eexists. split; [reflexivity|]. split; try discriminate.
    + unfold or_left. destruct (s_or a); [left; auto|apply or_arg_par].
    + apply or_arg_par.
    + unfold or_left. destruct (s_or a) eqn:E.
      * rewrite <- bld_or in E. destruct (bld a) as [| | [] | | |]; try discriminate. simpl. lia.
      * destruct (bld a) as [| [] | [] | | |]; simpl; lia.
    + rewrite <- bld_or in H. destruct (bld b) as [| [] | [] | | |]; simpl in *; try discriminate; lia.
  - rewrite D. pose proof (fun p f x (h: p < 18) => hp_prec p f x h) as P.
    assert (Q1: forall p x, p < 18 -> p <= prec (hp p true x)) by (intros; apply (P p true x); auto).
    assert (Q2: forall p x, p < 18 -> S p <= prec (hp p false x)) by (intros; apply (P p false x); auto).
    assert (Q3: forall p x, p < 18 -> p <= prec (sign_par (hp p true x)))
      by (intros; eapply Nat.le_trans; [|apply sign_par_prec]; auto).
    assert (Q4: forall p x, p < 18 -> S p <= prec (sign_par (hp p false x)))
      by (intros; eapply Nat.le_trans; [|apply sign_par_prec]; auto).
    clear D P.
    destruct o; try congruence; cbn [mk_bin]; (do 2 eexists; split; [reflexivity|];
      split; [first [apply hp_par|apply sign_hp_par]|first [apply hp_par|apply sign_hp_par]
             |first [apply Q1|apply Q3|apply Q2]; simpl; lia|first [apply Q2|apply Q4|apply Q1]; simpl; lia
             |first [discriminate|intros _; split; apply sign_par_sign]]).
Qed.

Lemma ty_bld e : cn e -> ty (bld e) = sty e.
Proof.
  induction e as [a t | o x IH | o a IHa b IHb | p IHp o b IHb | c IHc a IHa b IHb | x IH]; intros H.
  - reflexivity.
  - cbn [bld]. destruct (un_shaped o (bld x)) as (A & -> & S). simpl in H. specialize (IH H).
    destruct S as [P _ _]. apply par_ty in P. destruct o; simpl; congruence.
  - destruct (bin_shaped o a b H) as (A & B & -> & S). destruct H as (Ha & Hb & _).
    specialize (IHa Ha). specialize (IHb Hb). destruct S as [P Q _ _ _]. apply par_ty in P. apply par_ty in Q.
    rewrite IHa in P. rewrite IHb in Q. destruct o; simpl; rewrite ?P, ?Q; reflexivity.
  - destruct H.
  - simpl in H. destruct H as (Hc & Ha & Hb). cbn [bld mk_tern ty].
    rewrite !(par_ty _ _ (hp_par _ _ _)), IHa, IHb by auto. reflexivity.
  - reflexivity.
Qed.

Definition last_of (e : se) : option se :=
  match e with SBin _ _ x | SMore _ _ x => Some x | _ => None end.
Lemma bld_boolean e : cn e -> to_bool (bld e) = bld (boolean e).
Proof. intros H. unfold to_bool, boolean. rewrite ty_bld by auto. destruct (is_bool (sty e)); reflexivity. Qed.
Lemma cn_boolean e : cn e -> cn (boolean e).
Proof. intros H. unfold boolean. destruct (is_bool (sty e)); auto. Qed.
Lemma build_bld e : chains_ok e ->
  cn (canon e) /\ fst (build_chain e) = bld (canon e) /\
  match last_of e with Some x => snd (build_chain e) = bld (canon x) | None => True end.
Proof.
  induction e as [a t | o x IH | o a IHa b IHb | p IHp o b IHb | c IHc a IHa b IHb | x IH];
    cbn [chains_ok canon last_of build_chain]; intros H.
  - simpl. auto.
  - destruct (IH H) as (A & B & _). simpl. rewrite B. auto.
  - destruct H as (Ha & Hb). destruct (IHa Ha) as (A1 & A2 & _). destruct (IHb Hb) as (B1 & B2 & _).
    cbn [fst snd]. rewrite A2, B2.
    destruct o; try (simpl; tauto); (split; [|split; [|auto]]).
    + apply cn_join_and; apply cn_boolean; auto.
    + cbn [mk_bin]. rewrite !bld_boolean by auto. apply mk_and_bld; apply cn_boolean; auto.
    + apply cn_join_or; apply cn_boolean; auto.
    + cbn [mk_bin]. rewrite !bld_boolean by auto. apply mk_or_bld; apply cn_boolean; auto.
  - destruct H as (Hp & Hb & Ho & Hs). destruct (IHp Hp) as (P1 & P2 & P3). destruct (IHb Hb) as (B1 & B2 & _).
    set (last := match p with SBin _ _ x | SMore _ _ x => canon x | _ => canon p end).
    assert (Hl: snd (build_chain p) = bld last /\ cn last).
    { unfold last. destruct p as [| | o' p1 p2 | p1 o' p2 | |]; try tauto.
      - split; [exact P3|]. destruct Hp as (_ & Hp2). clear - P1 Hs.
        destruct o'; try discriminate; simpl in P1; tauto.
      - split; [exact P3|]. cbn [canon] in P1.
        set (q := SBin o' _ (canon p2)) in P1.
        assert (Q: forall c, cn (join And c q) -> cn q).
        { intros c. unfold q. destruct o'; try discriminate; simpl; tauto. }
        apply Q in P1. unfold q in P1. simpl in P1. tauto. }
    destruct Hl as (L1 & L2).
    destruct (build_chain p) as (cmp, second). cbn [fst snd] in *.
    assert (Q: mk_bin o second (fst (build_chain b)) = bld (SBin o last (canon b))).
    { rewrite L1, B2. destruct o; try discriminate; reflexivity. }
    assert (C: cn (SBin o last (canon b))).
    { simpl. destruct o; try discriminate; tauto. }
    rewrite Q, P2. split; [|split; [|auto]].
    + apply cn_join_and; auto.
    + apply mk_and_bld; auto.
  - destruct H as (Hc & Ha & Hb). destruct (IHc Hc) as (A1 & A2 & _).
    destruct (IHa Ha) as (B1 & B2 & _). destruct (IHb Hb) as (C1 & C2 & _).
    simpl. rewrite A2, B2, C2. auto.
  - destruct (IH H) as (A & B & _). simpl. rewrite B. auto.
Qed.

(* ---- pieces for the three languages ---- *)
Lemma ok_In L o l ll r a b : infix L o = Some (l, ll, r) -> ok L a -> ok L b ->
  ll <= top L a -> r <= top L b -> ok L (In o a b).
Proof. intros E. cbn [ok]. rewrite E. auto. Qed.
Lemma ok_Pre L o l r t : prefix_ L o = Some (l, r) -> ok L t -> r <= top L t -> ok L (Pre o t).
Proof. intros E. cbn [ok]. rewrite E. auto. Qed.

(* ---- Python ---- *)
Lemma py_table : table_ok py_lang = true.
Proof. vm_compute. reflexivity. Qed.
Lemma py_top x : prec x <= top py_lang (py_print x).
Proof. destruct x as [| [] | [] | | |]; vm_compute; lia. Qed.
Lemma py_par x y : par_of x y -> ok py_lang (py_print x) ->
  ok py_lang (py_print y) /\ py_strip (py_print y) = py_strip (py_print x).
Proof. intros [->| ->]; auto. Qed.
Definition chain_flag (o : string) (a : txt) : bool :=
  match a with In o' _ _ => is_cmp o && is_cmp o' | _ => false end.
Lemma is_cmp_py o : is_cmp (py_op o) = is_cmp_op o.
Proof. destruct o; reflexivity. Qed.
Lemma py_main e : cn e -> py_safe e ->
  ok py_lang (py_print (bld e)) /\ py_strip (py_print (bld e)) = py_tree e.
Proof.
  induction e as [a t | o x IH | o a IHa b IHb | p IHp o b IHb | c IHc a IHa b IHb | x IH]; intros H Hs.
  - simpl. auto.
  - cbn [bld]. destruct (un_shaped o (bld x)) as (A & -> & [P Q _]). simpl in H, Hs.
    destruct (IH H Hs) as (I1 & I2). destruct (py_par _ _ P I1) as (J1 & J2). rewrite I2 in J2.
    pose proof (py_top A) as T. split.
    + cbn [py_print]. destruct o; (eapply ok_Pre; [reflexivity|exact J1|simpl in Q; lia]).
    + cbn [py_print py_strip]. rewrite J2. destruct o; reflexivity.
  - destruct (bin_shaped o a b H) as (A & B & -> & [P1 P2 Q1 Q2 _]). destruct H as (Ha & Hb & _).
    destruct Hs as (Sa & Sb & Hc).
    destruct (IHa Ha Sa) as (I1 & I2). destruct (py_par _ _ P1 I1) as (J1 & J2). rewrite I2 in J2.
    destruct (IHb Hb Sb) as (K1 & K2). destruct (py_par _ _ P2 K1) as (L1 & L2). rewrite K2 in L2.
    pose proof (py_top A) as TA. pose proof (py_top B) as TB. split.
    + cbn [py_print]. destruct o; (eapply ok_In; [reflexivity|exact J1|exact L1|simpl in Q1; lia|simpl in Q2; lia]).
    + cbn [py_print py_strip]. fold (chain_flag (py_op o) (py_print A)).
      assert (F: chain_flag (py_op o) (py_print A) = false).
      { destruct P1 as [->| ->]; [|reflexivity]. unfold chain_flag.
        destruct a as [| o' x | o' a1 a2 | | |]; try reflexivity.
        - cbn [bld]. destruct (un_shaped o' (bld x)) as (A' & -> & _). reflexivity.
        - destruct (bin_shaped o' a1 a2 Ha) as (A' & B' & -> & _). cbn [py_print]. rewrite !is_cmp_py.
          destruct (is_cmp_op o); [|reflexivity]. rewrite Hc; auto. }
      rewrite F, J2, L2. destruct o; reflexivity.
  - destruct H.
  - simpl in H, Hs. destruct H as (Hc & Ha & Hb). destruct Hs as (Sc & Sa & Sb & N).
    destruct (IHc Hc Sc) as (I1 & I2). destruct (IHa Ha Sa) as (J1 & J2). destruct (IHb Hb Sb) as (K1 & K2).
    cbn [bld]. unfold mk_tern.
    destruct (py_par _ _ (hp_par 3 true (bld c)) I1) as (I3 & I4).
    destruct (py_par _ _ (hp_par 3 false (bld a)) J1) as (J3 & J4).
    destruct (py_par _ _ (hp_par 3 false (bld b)) K1) as (K3 & K4).
    pose proof (py_top (hp 3 true (bld c))) as T1. pose proof (py_top (hp 3 false (bld a))) as T2.
    pose proof (py_top (hp 3 false (bld b))) as T3.
    pose proof (hp_prec 3 false (bld a) ltac:(lia) : 4 <= _). pose proof (hp_prec 3 false (bld b) ltac:(lia) : 4 <= _).
    assert (4 <= prec (hp 3 true (bld c))).
    { clear - N Hc. destruct c as [| o x | o a b | | |]; try (simpl; lia).
      - cbn [bld]. destruct o; simpl; lia.
      - destruct (bin_shaped o a b Hc) as (A' & B' & -> & _). destruct o; simpl; lia. }
    split.
    + cbn [py_print ok]. repeat split; auto; lia.
    + cbn [py_print py_strip py_tree]. rewrite I4, J4, K4, I2, J2, K2; reflexivity.
  - simpl in H, Hs. destruct (IH H Hs) as (I1 & I2). cbn [bld py_print ok py_strip py_tree]. split; [auto|congruence].
Qed.
Lemma py_roundtrip e : chains_ok e -> py_safe (canon e) ->
  exists t, read py_lang (words (py_print (build e))) = Some t /\ py_strip t = py_tree (canon e).
Proof.
  intros H1 H2. destruct (build_bld e H1) as (A & B & _). unfold build. rewrite B.
  destruct (py_main _ A H2) as (C & D). eexists. split; [|exact D]. apply read_ok; auto.
Qed.

(* ---- C ---- *)
Lemma c_table : table_ok c_lang = true.
Proof. vm_compute. reflexivity. Qed.
(* the precedence of what is built, and the level of its text *)
Definition sprec (e : se) : nat :=
  match e with SUn o _ => uprec o | SBin o _ _ => bprec o | STern _ _ _ => 3 | _ => 17 end.
Lemma prec_bld e : cn e -> prec (bld e) = sprec e.
Proof.
  destruct e as [| o x | o a b | | |]; intros H; try reflexivity.
  - cbn [bld]. destruct (un_shaped o (bld x)) as (A & -> & _). reflexivity.
  - destruct (bin_shaped o a b H) as (A & B & -> & _). reflexivity.
Qed.
Definition ctop (e : se) : nat :=
  match e with
  | SUn _ _ => 14
  | SBin o a b =>
      let bools := is_bool (tand (sty a) (sty b)) in
      match o with
      | Add | Sub => 12
      | Mul | Div => 13
      | LSh | RSh => 11
      | Eq | Ne | Is | IsNot => 9
      | Lt | Le | Gt | Ge => 10
      | BXor => if bools then 9 else 7
      | BOr => if bools then 4 else 6
      | BAnd => if bools then 5 else 8
      | And => 5
      | Or => 4
      | Pow | Mod | FloorDiv | InOp => 100
      end
  | _ => 100
  end.
Lemma c_top e : cn e -> top c_lang (c_print (bld e)) = ctop e.
Proof.
  destruct e as [| o x | o a b | | |]; intros H; try reflexivity.
  - cbn [bld]. destruct (un_shaped o (bld x)) as (A & -> & _). destruct o; reflexivity.
  - pose proof (ty_bld _ H) as T.
    destruct (bin_shaped o a b H) as (A & B & -> & [P1 P2 _ _ _]). destruct H as (Ha & Hb & _).
    pose proof (par_ty _ _ P1) as T1. pose proof (par_ty _ _ P2) as T2. rewrite ty_bld in T1, T2 by auto.
    destruct o; try reflexivity; simpl; rewrite ?T1, ?T2;
      repeat match goal with |- context[if ?c then _ else _] => destruct c end; reflexivity.
Qed.
Lemma c_par x y : par_of x y -> ok c_lang (c_print x) ->
  ok c_lang (c_print y) /\ strip (c_print y) = strip (c_print x).
Proof. intros [->| ->]; auto. Qed.
Lemma c_par_top a A p l : cn a -> par_of (bld a) A -> p <= prec A -> (p <= sprec a -> l <= ctop a) -> l <= 100 ->
  l <= top c_lang (c_print A).
Proof.
  intros Ha P Hp Hl H100. destruct P as [->| ->]; [|exact H100].
  rewrite c_top by auto. rewrite prec_bld in Hp by auto. auto.
Qed.
Ltac heads e := destruct e as [| [] ? | [] e1 e2 | | |]; simpl; intros;
  repeat match goal with |- context[if ?c then _ else _] => destruct c eqn:? end; try discriminate; try lia;
  exfalso; destruct (sty e1), (sty e2); simpl in *; try discriminate; try congruence; try lia.
Lemma c_hi e p : 11 <= p <= 14 -> p <= sprec e -> p <= ctop e.
Proof. heads e. Qed.
Lemma c_eq_left e : is_low_bit e = false -> 7 <= sprec e -> 9 <= ctop e.
Proof. heads e. Qed.
Lemma c_lt_left e : is_bit e = false -> is_equality e = false -> 7 <= sprec e -> 10 <= ctop e.
Proof. heads e. Qed.
Lemma c_cmp_right e : is_bit e = false -> 8 <= sprec e -> 11 <= ctop e.
Proof. heads e. Qed.
Lemma c_xor_left e : is_band e = false -> 9 <= sprec e -> sty e = TBool -> 9 <= ctop e.
Proof. heads e. Qed.
Lemma c_xor_right e : is_band e = false -> 10 <= sprec e -> 10 <= ctop e.
Proof. heads e. Qed.
Lemma c_bit_left e : 9 <= sprec e -> sty e <> TBool -> 7 <= ctop e.
Proof. heads e. Qed.
Lemma c_bit_right e : 10 <= sprec e -> sty e <> TBool -> 8 <= ctop e.
Proof. heads e. Qed.
(* casts and wrapping *)
Lemma c_cast_ok t x : (t = "(double)" \/ t = "(int64_t)") -> ok c_lang x ->
  ok c_lang (c_cast t x) /\ top c_lang (c_cast t x) = 14 /\ strip (c_cast t x) = Pre t (strip x).
Proof.
  intros [->| ->] H; unfold c_cast; (split; [eapply ok_Pre; [reflexivity|exact H|vm_compute; lia]|]);
    split; reflexivity.
Qed.
Lemma c_double_ok a A x l : ty A = sty a -> ok c_lang x -> l <= top c_lang x -> l <= 14 ->
  ok c_lang (c_double A x) /\ l <= top c_lang (c_double A x) /\ strip (c_double A x) = to_double a (strip x).
Proof.
  intros T Hx Hl H14. unfold c_double, to_double. rewrite T.
  destruct (is_float (sty a)); [auto|]. destruct (c_cast_ok "(double)" x) as (P & Q & R); auto.
  all: rewrite Q; auto.
Qed.
Lemma c_bitarg_ok t a A x l : ty A = sty a -> ok c_lang x -> (sty a = t -> l <= top c_lang x) -> l <= 14 ->
  ok c_lang (c_bitarg t A x) /\ l <= top c_lang (c_bitarg t A x) /\
  strip (c_bitarg t A x) = to_type t a (strip x).
Proof.
  intros T Hx Hl H14. unfold c_bitarg, to_type. rewrite T.
  destruct (same_type (sty a) t) eqn:E.
  - split; auto. split; auto. apply Hl. destruct (sty a), t; try discriminate; auto.
  - destruct (c_cast_ok (if is_int t then "(int64_t)" else "(double)") x) as (P & Q & R); auto.
    { destruct (is_int t); auto. }
    rewrite Q. auto.
Qed.
Lemma wrap_ok A x : ok c_lang x -> x = c_print A ->
  ok c_lang (wrap A x) /\ top c_lang (wrap A x) = 100 /\ strip (wrap A x) = strip x.
Proof.
  intros H ->. unfold wrap. destruct (is_operator A) eqn:E; [auto|]. split; auto. split; auto.
  destruct A; try discriminate; reflexivity.
Qed.
Lemma c_bitwrap_ok t a A : ty A = sty a -> ok c_lang (c_print A) ->
  ok c_lang (c_bitwrap t A (c_print A)) /\ 14 <= top c_lang (c_bitwrap t A (c_print A)) /\
  strip (c_bitwrap t A (c_print A)) = to_type t a (strip (c_print A)).
Proof.
  intros T Hx. unfold c_bitwrap. destruct (same_type (ty A) t) eqn:E.
  - destruct (wrap_ok A _ Hx eq_refl) as (P & Q & R). rewrite Q, R.
    split; auto. split; [lia|]. unfold to_type. rewrite <- T, E. auto.
  - apply c_bitarg_ok; auto. intros E'. rewrite <- T in E'. rewrite E' in E. destruct t; discriminate.
Qed.
Lemma c_arg e A : cn e -> par_of (bld e) A ->
  ok c_lang (c_print (bld e)) -> strip (c_print (bld e)) = c_tree e ->
  ok c_lang (c_print A) /\ strip (c_print A) = c_tree e /\ ty A = sty e.
Proof.
  intros H P O S. destruct (c_par _ _ P O) as (Q & R). repeat split; auto.
  - congruence.
  - rewrite (par_ty _ _ P). apply ty_bld; auto.
Qed.
Ltac level := first [reflexivity | eassumption | lia].
Lemma c_main e : cn e -> c_safe e ->
  ok c_lang (c_print (bld e)) /\ strip (c_print (bld e)) = c_tree e.
Proof.
  induction e as [a t | o x IH | o a IHa b IHb | p IHp o b IHb | c IHc a IHa b IHb | x IH]; intros H Hs.
  - simpl. auto.
  - cbn [bld]. destruct (un_shaped o (bld x)) as (A & -> & [P Q _]). simpl in H, Hs.
    destruct (IH H Hs) as (I1 & I2). destruct (c_arg x A H P I1 I2) as (J1 & J2 & T).
    destruct o; simpl in Q; cbn [c_print].
    + split; [|cbn [strip c_tree]; congruence]. eapply ok_Pre; [reflexivity|exact J1|].
      apply (c_par_top x A 14); auto; [apply c_hi|]; lia.
    + split; [|cbn [strip c_tree]; congruence]. eapply ok_Pre; [reflexivity|exact J1|].
      apply (c_par_top x A 14); auto; [apply c_hi|]; lia.
    + destruct (wrap_ok A _ J1 eq_refl) as (W1 & W2 & W3).
      split; [|cbn [strip c_tree]; congruence]. eapply ok_Pre; [reflexivity|exact W1|]. lia.
    + destruct (c_bitarg_ok TInt x A (c_print A) 14 T J1) as (W1 & W2 & W3); auto.
      { intros _. apply (c_par_top x A 14); auto; [apply c_hi|]; lia. }
      split; [|cbn [strip c_tree]; rewrite W3, J2; auto]. eapply ok_Pre; [reflexivity|exact W1|]. lia.
  - destruct (bin_shaped o a b H) as (A & B & -> & [P1 P2 Q1 Q2 SG]). destruct H as (Ha & Hb & Hn).
    destruct Hs as (Sa & Sb & Hc).
    destruct (IHa Ha Sa) as (I1 & I2). destruct (c_arg a A Ha P1 I1 I2) as (J1 & J2 & TA).
    destruct (IHb Hb Sb) as (K1 & K2). destruct (c_arg b B Hb P2 K1 K2) as (L1 & L2 & TB).
    assert (HA: forall p, 11 <= p <= 14 -> p <= prec A -> p <= top c_lang (c_print A)).
    { intros p Hp Hq. apply (c_par_top a A p p); auto; [|lia]. apply c_hi. auto. }
    assert (HB: forall p, 11 <= p <= 14 -> p <= prec B -> p <= top c_lang (c_print B)).
    { intros p Hp Hq. apply (c_par_top b B p p); auto; [|lia]. apply c_hi. auto. }
    destruct o; simpl in Q1, Q2; cbn [c_print]; cbv zeta.
    all: cbn [c_tree]; cbv zeta.
    all: cbn [ty sty]; rewrite ?TA, ?TB.
    + (* Pow *) destruct (c_double_ok a A (c_print A) 0 TA J1) as (X1 & _ & X2); try lia.
      destruct (c_double_ok b B (c_print B) 0 TB L1) as (Y1 & _ & Y2); try lia.
      split; [simpl; auto|]. cbn [strip]. rewrite X2, Y2, J2, L2. auto.
    + split; [|cbn [strip]; congruence]. eapply ok_In; [reflexivity|auto|auto|apply HA; lia|apply HB; lia].
    + split; [|cbn [strip]; congruence]. eapply ok_In; [reflexivity|auto|auto|apply HA; lia|apply HB; lia].
    + split; [|cbn [strip]; congruence]. eapply ok_In; [reflexivity|auto|auto|apply HA; lia|apply HB; lia].
    + destruct (is_int (sty a) && is_int (sty b)).
      * destruct (c_cast_ok "(double)" _ (or_introl eq_refl) J1) as (X1 & X2 & X3).
        destruct (c_cast_ok "(double)" _ (or_introl eq_refl) L1) as (Y1 & Y2 & Y3).
        split; [|cbn [strip]; rewrite X3, Y3; congruence]. eapply ok_In; [reflexivity|auto|auto|lia|lia].
      * split; [|cbn [strip]; congruence]. eapply ok_In; [reflexivity|auto|auto|apply HA; lia|apply HB; lia].
    + destruct (c_cast_ok "(double)" _ (or_introl eq_refl) J1) as (X1 & X2 & X3).
      destruct (c_cast_ok "(double)" _ (or_introl eq_refl) L1) as (Y1 & Y2 & Y3).
      destruct (is_int (tadd (sty a) (sty b))); cbn [ok strip].
      { split; auto. congruence. }
      destruct (is_int (sty a)), (is_int (sty b)); rewrite ?X3, ?Y3, ?J2, ?L2; auto.
    + destruct (negb (is_float (sty a)) && negb (is_float (sty b))).
      * cbn [ok strip]. split; auto. congruence.
      * destruct (c_double_ok a A (c_print A) 13 TA J1) as (X1 & X2 & X3); [apply HA; lia|lia|].
        destruct (c_double_ok b B (c_print B) 14 TB L1) as (Y1 & Y2 & Y3); [apply HB; lia|lia|].
        split; [|cbn [strip]; rewrite X3, Y3; congruence]. cbn [ok].
        eapply ok_In; [reflexivity|auto|auto|lia|lia].
    + (* Eq *) destruct Hc as (C1 & C2). split; [|cbn [strip]; congruence].
      eapply ok_In; [reflexivity|auto|auto| |].
      * apply (c_par_top a A 7); auto; [apply c_eq_left|]; auto; lia.
      * apply (c_par_top b B 8); auto; [|lia]. intros. pose proof (c_cmp_right b C2). lia.
    + destruct Hc as (C1 & C2). split; [|cbn [strip]; congruence].
      eapply ok_In; [reflexivity|auto|auto| |].
      * apply (c_par_top a A 7); auto; [apply c_eq_left|]; auto; lia.
      * apply (c_par_top b B 8); auto; [|lia]. intros. pose proof (c_cmp_right b C2). lia.
    + destruct Hc as (C1 & C2 & C3). split; [|cbn [strip]; congruence].
      eapply ok_In; [reflexivity|auto|auto| |].
      * apply (c_par_top a A 7); auto; [apply c_lt_left|]; auto; lia.
      * apply (c_par_top b B 8); auto; [|lia]. intros. pose proof (c_cmp_right b C2). lia.
    + destruct Hc as (C1 & C2 & C3). split; [|cbn [strip]; congruence].
      eapply ok_In; [reflexivity|auto|auto| |].
      * apply (c_par_top a A 7); auto; [apply c_lt_left|]; auto; lia.
      * apply (c_par_top b B 8); auto; [|lia]. intros. pose proof (c_cmp_right b C2). lia.
    + destruct Hc as (C1 & C2 & C3). split; [|cbn [strip]; congruence].
      eapply ok_In; [reflexivity|auto|auto| |].
      * apply (c_par_top a A 7); auto; [apply c_lt_left|]; auto; lia.
      * apply (c_par_top b B 8); auto; [|lia]. intros. pose proof (c_cmp_right b C2). lia.
    + destruct Hc as (C1 & C2 & C3). split; [|cbn [strip]; congruence].
      eapply ok_In; [reflexivity|auto|auto| |].
      * apply (c_par_top a A 7); auto; [apply c_lt_left|]; auto; lia.
      * apply (c_par_top b B 8); auto; [|lia]. intros. pose proof (c_cmp_right b C2). lia.
    + destruct Hc as (C1 & C2). split; [|cbn [strip]; congruence].
      eapply ok_In; [reflexivity|auto|auto| |].
      * apply (c_par_top a A 7); auto; [apply c_eq_left|]; auto; lia.
      * apply (c_par_top b B 8); auto; [|lia]. intros. pose proof (c_cmp_right b C2). lia.
    + destruct Hc as (C1 & C2). split; [|cbn [strip]; congruence].
      eapply ok_In; [reflexivity|auto|auto| |].
      * apply (c_par_top a A 7); auto; [apply c_eq_left|]; auto; lia.
      * apply (c_par_top b B 8); auto; [|lia]. intros. pose proof (c_cmp_right b C2). lia.
    + (* in *) cbn [ok strip]. split; [auto|congruence].
    + (* shifts *)
      destruct (c_bitarg_ok (tadd (sty a) (sty b)) a A (c_print A) 11 TA J1) as (X1 & X2 & X3); [intros _; apply HA; lia|lia|].
      destruct (c_bitarg_ok (tadd (sty a) (sty b)) b B (c_print B) 12 TB L1) as (Y1 & Y2 & Y3); [intros _; apply HB; lia|lia|].
      split; [|cbn [strip]; rewrite X3, Y3; congruence]. eapply ok_In; [reflexivity|auto|auto|lia|lia].
    + destruct (c_bitarg_ok (tadd (sty a) (sty b)) a A (c_print A) 11 TA J1) as (X1 & X2 & X3); [intros _; apply HA; lia|lia|].
      destruct (c_bitarg_ok (tadd (sty a) (sty b)) b B (c_print B) 12 TB L1) as (Y1 & Y2 & Y3); [intros _; apply HB; lia|lia|].
      split; [|cbn [strip]; rewrite X3, Y3; congruence]. eapply ok_In; [reflexivity|auto|auto|lia|lia].
    + (* xor *) cbn [sty] in Hc. destruct (is_bool (tand (sty a) (sty b))) eqn:E.
      * assert (E1: sty a = TBool) by (destruct (sty a), (sty b); simpl in E; try discriminate; auto).
        assert (E2: sty b = TBool) by (destruct (sty a), (sty b); simpl in E; try discriminate; auto).
        destruct Hc as (C1 & C2); [rewrite E1, E2; auto|].
        split; [|cbn [strip]; congruence]. eapply ok_In; [reflexivity|auto|auto| |].
        -- apply (c_par_top a A 9); auto; [|lia]. intros. apply c_xor_left; auto.
        -- apply (c_par_top b B 10); auto; [|lia]. intros. apply c_xor_right; auto.
      * assert (N: tand (sty a) (sty b) <> TBool) by (intros N; rewrite N in E; discriminate).
        destruct (c_bitarg_ok (tand (sty a) (sty b)) a A (c_print A) 7 TA J1) as (X1 & X2 & X3); [|lia|].
        { intros E'. apply (c_par_top a A 9); auto; [|lia]. intros. apply c_bit_left; congruence. }
        destruct (c_bitarg_ok (tand (sty a) (sty b)) b B (c_print B) 8 TB L1) as (Y1 & Y2 & Y3); [|lia|].
        { intros E'. apply (c_par_top b B 10); auto; [|lia]. intros. apply c_bit_right; congruence. }
        split; [|cbn [strip]; rewrite X3, Y3; congruence]. eapply ok_In; [reflexivity|auto|auto|lia|lia].
    + destruct (c_bitwrap_ok (tand (sty a) (sty b)) a A TA J1) as (X1 & X2 & X3).
      destruct (c_bitwrap_ok (tand (sty a) (sty b)) b B TB L1) as (Y1 & Y2 & Y3).
      split; [|cbn [strip]; rewrite X3, Y3; congruence].
      destruct (is_bool (tand (sty a) (sty b))); (eapply ok_In; [reflexivity|auto|auto|lia|lia]).
    + destruct (c_bitwrap_ok (tand (sty a) (sty b)) a A TA J1) as (X1 & X2 & X3).
      destruct (c_bitwrap_ok (tand (sty a) (sty b)) b B TB L1) as (Y1 & Y2 & Y3).
      split; [|cbn [strip]; rewrite X3, Y3; congruence].
      destruct (is_bool (tand (sty a) (sty b))); (eapply ok_In; [reflexivity|auto|auto|lia|lia]).
    + destruct (wrap_ok A _ J1 eq_refl) as (X1 & X2 & X3). destruct (wrap_ok B _ L1 eq_refl) as (Y1 & Y2 & Y3).
      destruct (is_and A) eqn:E; (split; [|cbn [strip]; congruence]);
        (eapply ok_In; [reflexivity|auto|auto| |lia]); [|lia].
      destruct A as [| | [] | | |]; try discriminate. vm_compute. lia.
    + destruct (wrap_ok A _ J1 eq_refl) as (X1 & X2 & X3). destruct (wrap_ok B _ L1 eq_refl) as (Y1 & Y2 & Y3).
      destruct (is_or A) eqn:E; (split; [|cbn [strip]; congruence]);
        (eapply ok_In; [reflexivity|auto|auto| |lia]); [|lia].
      destruct A as [| | [] | | |]; try discriminate. vm_compute. lia.
  - destruct H.
  - simpl in H, Hs. destruct H as (Hc & Ha & Hb). destruct Hs as (Sc & Sa & Sb).
    destruct (IHc Hc Sc) as (I1 & I2). destruct (IHa Ha Sa) as (J1 & J2). destruct (IHb Hb Sb) as (K1 & K2).
    cbn [bld]. unfold mk_tern. cbn [c_print ok strip c_tree].
    destruct (c_arg c _ Hc (hp_par 3 true (bld c)) I1 I2) as (I3 & I4 & _).
    destruct (c_arg a _ Ha (hp_par 3 false (bld a)) J1 J2) as (J3 & J4 & _).
    destruct (c_arg b _ Hb (hp_par 3 false (bld b)) K1 K2) as (K3 & K4 & _).
    rewrite I4, J4, K4. auto.
  - simpl in H. destruct Hs as (Hs & N1 & N2). destruct (IH H Hs) as (I1 & I2).
    cbn [bld c_print strip c_tree]. rewrite I2. split; [|reflexivity].
    change (ok c_lang (In "!=" (c_print (bld x)) (At "0"))). eapply ok_In; [reflexivity|auto|exact I| |vm_compute; lia].
    rewrite c_top by auto. clear - N1 N2. revert N1 N2. heads x.
Qed.
Lemma c_roundtrip e : chains_ok e -> c_safe (canon e) ->
  exists t, read c_lang (words (c_print (build e))) = Some t /\ strip t = c_tree (canon e).
Proof.
  intros H1 H2. destruct (build_bld e H1) as (A & B & _). unfold build. rewrite B.
  destruct (c_main _ A H2) as (C & D). eexists. split; [|exact D]. apply read_ok; auto.
Qed.

(* ---- Fortran ---- *)
Lemma f_table : table_ok f_lang = true.
Proof. vm_compute. reflexivity. Qed.
Definition ftop (e : se) : nat :=
  match e with
  | SUn (Plus | Minus) _ => 12
  | SUn Not x => if is_bool (sty x) then 6 else 7
  | SBin o a b =>
      let bools := is_bool (tand (sty a) (sty b)) in
      match o with
      | Pow => 15
      | Add | Sub => 12
      | Mul | Div => 13
      | Eq | Ne => if is_bool (sty a) && is_bool (sty b) then 2 else 7
      | Is | IsNot => 2
      | Lt | Le | Gt | Ge | InOp => 7
      | BXor => if bools then 2 else 100
      | BOr => if bools then 4 else 100
      | BAnd => if bools then 5 else 100
      | And => 5
      | Or => 4
      | Mod | FloorDiv | LSh | RSh => 100
      end
  | _ => 100
  end.
Lemma f_top e : cn e -> top f_lang (f_print (bld e)) = ftop e.
Proof.
  destruct e as [| o x | o a b | | |x]; intros H; try reflexivity.
  - cbn [bld]. destruct (un_shaped o (bld x)) as (A & -> & [P _ _]). simpl in H.
    pose proof (par_ty _ _ P) as T. rewrite ty_bld in T by auto.
    destruct o; try reflexivity. simpl. rewrite T. destruct (is_bool (sty x)); reflexivity.
  - pose proof (ty_bld _ H) as T.
    destruct (bin_shaped o a b H) as (A & B & -> & [P1 P2 _ _ _]). destruct H as (Ha & Hb & _).
    pose proof (par_ty _ _ P1) as T1. pose proof (par_ty _ _ P2) as T2. rewrite ty_bld in T1, T2 by auto.
    destruct o; try reflexivity; simpl; rewrite ?T1, ?T2;
      repeat match goal with |- context[if ?c then _ else _] => destruct c end; reflexivity.
  - simpl. destruct (is_bool _); reflexivity.
Qed.
Lemma f_par x y : par_of x y -> ok f_lang (f_print x) ->
  ok f_lang (f_print y) /\ strip (f_print y) = strip (f_print x).
Proof. intros [->| ->]; auto. Qed.
Lemma f_par_top a A p l : cn a -> par_of (bld a) A -> p <= prec A -> (p <= sprec a -> l <= ftop a) -> l <= 100 ->
  l <= top f_lang (f_print A).
Proof.
  intros Ha P Hp Hl H100. destruct P as [->| ->]; [|exact H100].
  rewrite f_top by auto. rewrite prec_bld in Hp by auto. auto.
Qed.
Definition s_sign (e : se) : bool := match e with SUn (Plus | Minus) _ => true | _ => false end.
Lemma f_num e : sty e <> TBool -> 12 <= ftop e.
Proof.
  destruct e as [| [] ? | [] e1 e2 | | |]; simpl; intros; try congruence; try lia;
    destruct (sty e1), (sty e2); simpl in *; try congruence; lia.
Qed.
Lemma f_add_left e : s_sign e = false -> 12 <= sprec e -> 12 <= ftop e.
Proof. heads e. Qed.
Lemma f_add_right e : s_sign e = false -> 13 <= sprec e -> 13 <= ftop e.
Proof. heads e. Qed.
Lemma f_mul_right e : s_sign e = false -> 14 <= sprec e -> 15 <= ftop e.
Proof. heads e. Qed.
Lemma f_pow_left e : 16 <= sprec e -> 16 <= ftop e.
Proof. heads e. Qed.
Lemma f_pow_right e : 15 <= sprec e -> 15 <= ftop e.
Proof. heads e. Qed.
Lemma f_any e : 2 <= ftop e.
Proof. heads e. Qed.
Lemma f_eqv_right e : looks_eqv e = false -> 3 <= ftop e.
Proof. heads e. Qed.
Lemma f_neqv_right e : 10 <= sprec e -> 3 <= ftop e.
Proof. heads e. Qed.
Lemma f_bor_left e : looks_eqv e = false -> 4 <= ftop e.
Proof. heads e. Qed.
Lemma f_bor_right e : looks_eqv e = false -> 9 <= sprec e -> 5 <= ftop e.
Proof. heads e. Qed.
Lemma f_band_left e : 10 <= sprec e -> 5 <= ftop e.
Proof. heads e. Qed.
Lemma f_band_right e : 11 <= sprec e -> 6 <= ftop e.
Proof. heads e. Qed.
Lemma f_and_left e : looks_eqv e = false -> looks_or e = false -> 5 <= sprec e -> 5 <= ftop e.
Proof. heads e. Qed.
Lemma f_and_right e : looks_eqv e = false -> looks_or e = false -> looks_and e = false -> 6 <= sprec e -> 6 <= ftop e.
Proof. heads e. Qed.
Lemma f_or_right e : looks_eqv e = false -> looks_or e = false -> 5 <= sprec e -> 5 <= ftop e.
Proof. heads e. Qed.
Lemma f_not_arg e : looks_eqv e = false -> looks_or e = false -> looks_and e = false -> is_not_bool e = false ->
  6 <= sprec e -> 7 <= ftop e.
Proof. heads e. Qed.
Lemma sign_bld e : is_sign (bld e) = s_sign e.
Proof. destruct e as [| [] ? | [] ? ? | | |]; reflexivity. Qed.
Lemma f_sign_top a A p l : cn a -> par_of (bld a) A -> p <= prec A -> is_sign A = false ->
  (s_sign a = false -> p <= sprec a -> l <= ftop a) -> l <= 100 -> l <= top f_lang (f_print A).
Proof.
  intros Ha P Hp Hs Hl H100. destruct P as [->| ->]; [|exact H100].
  rewrite f_top by auto. rewrite prec_bld in Hp by auto. rewrite sign_bld in Hs. auto.
Qed.
Lemma f_num_top a A l : cn a -> par_of (bld a) A -> l <= 12 -> sty a <> TBool -> l <= top f_lang (f_print A).
Proof.
  intros Ha [->| ->] Hl N; [|exact (Nat.le_trans _ _ 100 Hl ltac:(lia))].
  rewrite f_top by auto. pose proof (f_num a N). lia.
Qed.
Lemma f_int_ok a A x l : ty A = sty a -> ok f_lang x -> (sty a <> TBool -> l <= top f_lang x) -> l <= 100 ->
  ok f_lang (f_int A x) /\ l <= top f_lang (f_int A x) /\ strip (f_int A x) = as_int a (strip x).
Proof.
  intros T Hx Hl H100. unfold f_int, as_int. rewrite T. destruct (sty a); simpl is_bool; cbv iota.
  - split; [simpl; auto|]. split; auto.
  - split; auto. split; auto. apply Hl. discriminate.
  - split; auto. split; auto. apply Hl. discriminate.
Qed.
Lemma f_real_ok a A x l : ty A = sty a -> ok f_lang x -> (sty a = TFloat -> l <= top f_lang x) -> l <= 100 ->
  ok f_lang (f_real A x) /\ l <= top f_lang (f_real A x) /\ strip (f_real A x) = as_real a (strip x).
Proof.
  intros T Hx Hl H100. unfold f_real, as_real. rewrite T. destruct (sty a).
  - split; [simpl; auto|]. split; auto.
  - split; auto.
  - split; auto.
Qed.
Lemma f_as_ok t a A x l : ty A = sty a -> ok f_lang x -> l <= top f_lang x -> l <= 100 ->
  ok f_lang (f_as t A x) /\ l <= top f_lang (f_as t A x) /\ strip (f_as t A x) = as_type t a (strip x).
Proof.
  intros T Hx Hl H100. destruct t; cbn [f_as as_type].
  - auto.
  - apply f_int_ok; auto.
  - apply f_real_ok; auto.
Qed.
Lemma f_bool_ok a A x l : ty A = sty a -> ok f_lang x -> (sty a <> TBool -> 8 <= top f_lang x) ->
  (sty a = TBool -> l <= top f_lang x) -> l <= 100 ->
  ok f_lang (f_bool A x) /\ l <= top f_lang (f_bool A x) /\ strip (f_bool A x) = as_bool a (strip x).
Proof.
  intros T Hx H8 Hl H100. unfold f_bool, as_bool. rewrite T. destruct (is_bool (sty a)) eqn:E.
  - split; auto. split; auto. apply Hl. destruct (sty a); auto; discriminate.
  - split; [|auto]. change (ok f_lang (In "/=" x (At "0"))).
    eapply ok_In; [reflexivity|auto|exact I| |vm_compute; lia]. apply H8. intros N. rewrite N in E. discriminate.
Qed.
Lemma f_arg e A : cn e -> par_of (bld e) A ->
  ok f_lang (f_print (bld e)) -> strip (f_print (bld e)) = f_tree e ->
  ok f_lang (f_print A) /\ strip (f_print A) = f_tree e /\ ty A = sty e.
Proof.
  intros H P O S. destruct (f_par _ _ P O) as (Q & R). repeat split; auto.
  - congruence.
  - rewrite (par_ty _ _ P). apply ty_bld; auto.
Qed.
Lemma tadd_not_bool a b : tadd a b <> TBool.
Proof. destruct a, b; discriminate. Qed.
Lemma tand_bool a b : is_bool (tand a b) = true -> a = TBool /\ b = TBool.
Proof. destruct a, b; simpl; intros; try discriminate; auto. Qed.
Lemma f_main e : cn e -> f_safe e ->
  ok f_lang (f_print (bld e)) /\ strip (f_print (bld e)) = f_tree e.
Proof.
  induction e as [a t | o x IH | o a IHa b IHb | p IHp o b IHb | c IHc a IHa b IHb | x IH]; intros H Hs.
  - simpl. auto.
  - cbn [bld]. destruct (un_shaped o (bld x)) as (A & -> & [P Q SG]). simpl in H.
    assert (Hx: f_safe x) by (destruct o; simpl in Hs; tauto).
    destruct (IH H Hx) as (I1 & I2). destruct (f_arg x A H P I1 I2) as (J1 & J2 & T).
    destruct o; simpl in Q; cbn [f_print f_tree].
    + split; [|cbn [strip]; congruence]. eapply ok_Pre; [reflexivity|exact J1|].
      apply (f_sign_top x A 14); auto; [|lia]. intros. pose proof (f_mul_right x). specialize (H2 H0 H1). lia.
    + split; [|cbn [strip]; congruence]. eapply ok_Pre; [reflexivity|exact J1|].
      apply (f_sign_top x A 14); auto; [|lia]. intros. pose proof (f_mul_right x). specialize (H2 H0 H1). lia.
    + destruct Hs as (_ & C1 & C2 & C3 & C4). rewrite T. destruct (is_bool (sty x)) eqn:E.
      * split; [|cbn [strip]; congruence]. eapply ok_Pre; [reflexivity|exact J1|].
        apply (f_par_top x A 6); auto; [|lia]. apply f_not_arg; auto.
      * split; [|cbn [strip]; congruence]. eapply ok_In; [reflexivity|exact J1|exact I| |vm_compute; lia].
        apply (f_num_top x A); auto; try lia. intros N. rewrite N in E. discriminate.
    + destruct (f_int_ok x A (f_print A) 0 T J1) as (W1 & W2 & W3); try (intros; lia).
      split; [exact W1|]. cbn [strip]. congruence.
  - destruct (bin_shaped o a b H) as (A & B & -> & [P1 P2 Q1 Q2 SG]). destruct H as (Ha & Hb & Hn).
    destruct Hs as (Sa & Sb & Hc).
    destruct (IHa Ha Sa) as (I1 & I2). destruct (f_arg a A Ha P1 I1 I2) as (J1 & J2 & TA).
    destruct (IHb Hb Sb) as (K1 & K2). destruct (f_arg b B Hb P2 K1 K2) as (L1 & L2 & TB).
    assert (NA: sty a <> TBool -> 8 <= top f_lang (f_print A)) by (apply f_num_top; auto; lia).
    assert (NB: sty b <> TBool -> 8 <= top f_lang (f_print B)) by (apply f_num_top; auto; lia).
    assert (AddA: is_sign A = false -> 12 <= prec A -> 12 <= top f_lang (f_print A)).
    { intros h1 h2. apply (f_sign_top a A 12); auto; [|lia]. apply f_add_left. }
    assert (MulA: is_sign A = false -> 13 <= prec A -> 13 <= top f_lang (f_print A)).
    { intros h1 h2. apply (f_sign_top a A 13); auto; [|lia]. apply f_add_right. }
    assert (AddB: is_sign B = false -> 13 <= prec B -> 13 <= top f_lang (f_print B)).
    { intros h1 h2. apply (f_sign_top b B 13); auto; [|lia]. apply f_add_right. }
    assert (MulB: is_sign B = false -> 14 <= prec B -> 14 <= top f_lang (f_print B)).
    { intros h1 h2. apply (f_sign_top b B 14); auto; [|lia]. intros u v. pose proof (f_mul_right b u v). lia. }
    assert (AnyA: 2 <= top f_lang (f_print A)).
    { apply (f_par_top a A 0); auto; try lia. intros. apply f_any. }
    assert (EqvB: looks_eqv b = false -> 3 <= top f_lang (f_print B)).
    { intros. apply (f_par_top b B 0); auto; try lia. intros. apply f_eqv_right; auto. }
    assert (IA: forall l, l <= 100 -> (sty a <> TBool -> l <= top f_lang (f_print A)) ->
      ok f_lang (f_int A (f_print A)) /\ l <= top f_lang (f_int A (f_print A)) /\
      strip (f_int A (f_print A)) = as_int a (f_tree a)).
    { intros l h1 h2. rewrite <- J2. apply f_int_ok; auto. }
    assert (IB: forall l, l <= 100 -> (sty b <> TBool -> l <= top f_lang (f_print B)) ->
      ok f_lang (f_int B (f_print B)) /\ l <= top f_lang (f_int B (f_print B)) /\
      strip (f_int B (f_print B)) = as_int b (f_tree b)).
    { intros l h1 h2. rewrite <- L2. apply f_int_ok; auto. }
    assert (LT: 8 <= top f_lang (f_int A (f_print A)) /\ 8 <= top f_lang (f_int B (f_print B))).
    { split; [apply (IA 8)|apply (IB 8)]; auto; lia. }
    destruct LT as (LT1 & LT2).
    assert (FI: ok f_lang (f_int A (f_print A)) /\ ok f_lang (f_int B (f_print B)) /\
       strip (f_int A (f_print A)) = as_int a (f_tree a) /\ strip (f_int B (f_print B)) = as_int b (f_tree b)).
    { destruct (IA 0) as (u1 & _ & u2); try (intros; lia). destruct (IB 0) as (v1 & _ & v2); try (intros; lia). auto. }
    destruct FI as (FA & FB & FSA & FSB).
    destruct o; simpl in Q1, Q2; cbn [f_print]; cbv zeta.
    all: cbn [f_tree]; cbv zeta.
    all: cbn [ty sty]; rewrite ?TA, ?TB.
    + (* Pow *) split; [|cbn [strip]; congruence]. eapply ok_In; [reflexivity|auto|auto| |].
      * apply (f_par_top a A 16); auto; [|lia]. apply f_pow_left.
      * apply (f_par_top b B 15); auto; [|lia]. apply f_pow_right.
    + destruct (SG eq_refl) as (S1 & S2).
      destruct (IA 12) as (X1 & X2 & X3); [lia|intros _; auto|].
      destruct (IB 13) as (Y1 & Y2 & Y3); [lia|intros _; auto|].
      split; [|cbn [strip]; congruence]. eapply ok_In; [reflexivity|auto|auto|lia|lia].
    + destruct (SG eq_refl) as (S1 & S2).
      destruct (IA 12) as (X1 & X2 & X3); [lia|intros _; auto|].
      destruct (IB 13) as (Y1 & Y2 & Y3); [lia|intros _; auto|].
      split; [|cbn [strip]; congruence]. eapply ok_In; [reflexivity|auto|auto|lia|lia].
    + destruct (SG eq_refl) as (S1 & S2).
      destruct (IA 13) as (X1 & X2 & X3); [lia|intros _; auto|].
      destruct (IB 14) as (Y1 & Y2 & Y3); [lia|intros _; auto|].
      split; [|cbn [strip]; congruence]. eapply ok_In; [reflexivity|auto|auto|lia|lia].
    + destruct (SG eq_refl) as (S1 & S2).
      destruct (f_real_ok a A (f_print A) 13 TA J1) as (X1 & X2 & X3); [auto|lia|].
      destruct (f_real_ok b B (f_print B) 14 TB L1) as (Y1 & Y2 & Y3); [auto|lia|].
      destruct (negb (is_float (sty a)) && negb (is_float (sty b))).
      * split; [|cbn [strip]; congruence]. eapply ok_In; [reflexivity|auto|auto|lia|lia].
      * split; [|cbn [strip]; congruence]. eapply ok_In; [reflexivity|auto|auto|auto|auto].
    + destruct (is_float (tadd (sty a) (sty b)) && is_int (sty a)), (is_float (tadd (sty a) (sty b)) && is_int (sty b));
        cbn [ok strip]; rewrite J2, L2; auto.
    + destruct (SG eq_refl) as (S1 & S2).
      destruct (f_as_ok (tadd (sty a) (sty b)) a A (f_print A) 13 TA J1) as (X1 & X2 & X3); [auto|lia|].
      destruct (f_as_ok (tadd (sty a) (sty b)) b B (f_print B) 14 TB L1) as (Y1 & Y2 & Y3); [auto|lia|].
      destruct (negb (is_float (sty a)) && negb (is_float (sty b))).
      * cbn [ok strip]. rewrite X3, Y3, J2, L2. auto.
      * split; [|cbn [strip]; congruence].
        change (ok f_lang (In "/" (f_as (tadd (sty a) (sty b)) A (f_print A)) (f_as (tadd (sty a) (sty b)) B (f_print B)))).
        eapply ok_In; [reflexivity|auto|auto|lia|lia].
    + (* Eq *) destruct Hc as (C1 & C2). split; [|cbn [strip]; congruence].
      destruct (is_bool (sty a) && is_bool (sty b)) eqn:E.
      * eapply ok_In; [reflexivity|auto|auto|auto|auto].
      * assert (sty a <> TBool /\ sty b <> TBool) as (n1 & n2).
        { destruct (sty a), (sty b); try discriminate; split; try discriminate;
            exfalso; destruct C2 as (c1 & c2); try (specialize (c1 eq_refl); discriminate); specialize (c2 eq_refl); discriminate. }
        eapply ok_In; [reflexivity|auto|auto|auto|auto].
    + destruct Hc as (C1 & C2). split; [|cbn [strip]; congruence].
      destruct (is_bool (sty a) && is_bool (sty b)) eqn:E.
      * eapply ok_In; [reflexivity|auto|auto|auto|auto].
      * assert (sty a <> TBool /\ sty b <> TBool) as (n1 & n2).
        { destruct (sty a), (sty b); try discriminate; split; try discriminate;
            exfalso; destruct C2 as (c1 & c2); try (specialize (c1 eq_refl); discriminate); specialize (c2 eq_refl); discriminate. }
        eapply ok_In; [reflexivity|auto|auto|auto|auto].
    + split; [|cbn [strip]; congruence]. eapply ok_In; [reflexivity|auto|auto|auto|auto].
    + split; [|cbn [strip]; congruence]. eapply ok_In; [reflexivity|auto|auto|auto|auto].
    + split; [|cbn [strip]; congruence]. eapply ok_In; [reflexivity|auto|auto|auto|auto].
    + split; [|cbn [strip]; congruence]. eapply ok_In; [reflexivity|auto|auto|auto|auto].
    + split; [|cbn [strip]; congruence]. eapply ok_In; [reflexivity|auto|auto|auto|auto].
    + split; [|cbn [strip]; congruence]. eapply ok_In; [reflexivity|auto|auto|auto|auto].
    + (* in *) split; [|cbn [strip]; congruence].
      eapply ok_In; [reflexivity|simpl; auto|exact I|vm_compute; lia|vm_compute; lia].
    + cbn [ok strip]. rewrite FSA, FSB. auto.
    + cbn [ok strip]. rewrite FSA, FSB. auto.
    + (* xor *) destruct (is_bool (tand (sty a) (sty b))) eqn:E.
      * split; [|cbn [strip]; congruence]. eapply ok_In; [reflexivity|auto|auto|auto|].
        apply (f_par_top b B 10); auto; [|lia]. apply f_neqv_right.
      * cbn [ok strip]. rewrite FSA, FSB. auto.
    + cbn [sty] in Hc. destruct (is_bool (tand (sty a) (sty b))) eqn:E.
      * destruct (tand_bool _ _ E) as (E1 & E2). destruct Hc as (C1 & C2); [rewrite E1, E2; auto|].
        split; [|cbn [strip]; congruence]. eapply ok_In; [reflexivity|auto|auto| |].
        -- apply (f_par_top a A 8); auto; [|lia]. intros _. apply f_bor_left; auto.
        -- apply (f_par_top b B 9); auto; [|lia]. apply f_bor_right; auto.
      * cbn [ok strip]. rewrite FSA, FSB. auto.
    + destruct (is_bool (tand (sty a) (sty b))) eqn:E.
      * split; [|cbn [strip]; congruence]. eapply ok_In; [reflexivity|auto|auto| |].
        -- apply (f_par_top a A 10); auto; [|lia]. apply f_band_left; auto.
        -- apply (f_par_top b B 11); auto; [|lia]. apply f_band_right; auto.
      * cbn [ok strip]. rewrite FSA, FSB. auto.
    + destruct Hc as ((C1 & C2) & C3 & C4 & C5).
      destruct (f_bool_ok a A (f_print A) 5 TA J1) as (X1 & X2 & X3); auto; [|lia|].
      { intros. apply (f_par_top a A 5); auto; [|lia]. apply f_and_left; auto. }
      destruct (f_bool_ok b B (f_print B) 6 TB L1) as (Y1 & Y2 & Y3); auto; [|lia|].
      { intros. apply (f_par_top b B 6); auto; [|lia]. apply f_and_right; auto. }
      destruct (is_and A) eqn:E; [|split; [|cbn [strip]; congruence]; (eapply ok_In; [reflexivity|auto|auto|lia|lia])].
      assert (A = bld a /\ sty a = TBool) as (EA & EB).
      { destruct P1 as [->| ->]; [|discriminate]. split; auto. rewrite bld_and in E.
        destruct a as [| | [] | | |]; try discriminate. reflexivity. }
      split; [|cbn [strip]; unfold as_bool at 1; rewrite EB; simpl is_bool; cbv iota; congruence].
      eapply ok_In; [reflexivity|auto|auto| |lia].
      destruct A as [| | [] | | |]; try discriminate. vm_compute. lia.
    + destruct Hc as (C1 & C3 & C4).
      destruct (f_bool_ok a A (f_print A) 4 TA J1) as (X1 & X2 & X3); auto; [|lia|].
      { intros. apply (f_par_top a A 4); auto; [|lia]. intros _. apply f_bor_left; auto. }
      destruct (f_bool_ok b B (f_print B) 5 TB L1) as (Y1 & Y2 & Y3); auto; [|lia|].
      { intros. apply (f_par_top b B 5); auto; [|lia]. apply f_or_right; auto. }
      destruct (is_or A) eqn:E; [|split; [|cbn [strip]; congruence]; (eapply ok_In; [reflexivity|auto|auto|lia|lia])].
      assert (A = bld a /\ sty a = TBool) as (EA & EB).
      { destruct P1 as [->| ->]; [|discriminate]. split; auto. rewrite bld_or in E.
        destruct a as [| | [] | | |]; try discriminate. reflexivity. }
      split; [|cbn [strip]; unfold as_bool at 1; rewrite EB; simpl is_bool; cbv iota; congruence].
      eapply ok_In; [reflexivity|auto|auto| |lia].
      destruct A as [| | [] | | |]; try discriminate. vm_compute. lia.
  - destruct H.
  - pose proof (ty_bld _ H) as TT. simpl in H, Hs. destruct H as (Hc & Ha & Hb). destruct Hs as (Sc & Sa & Sb).
    destruct (IHc Hc Sc) as (I1 & I2). destruct (IHa Ha Sa) as (J1 & J2). destruct (IHb Hb Sb) as (K1 & K2).
    cbn [bld] in TT |- *. unfold mk_tern in *. cbn [f_print]. rewrite TT. cbn [f_tree].
    destruct (f_arg c _ Hc (hp_par 3 true (bld c)) I1 I2) as (I3 & I4 & IT).
    destruct (f_arg a _ Ha (hp_par 3 false (bld a)) J1 J2) as (J3 & J4 & JT).
    destruct (f_arg b _ Hb (hp_par 3 false (bld b)) K1 K2) as (K3 & K4 & KT).
    destruct (f_as_ok (sty (STern c a b)) a _ _ 0 JT J3) as (X1 & _ & X2); try lia.
    destruct (f_as_ok (sty (STern c a b)) b _ _ 0 KT K3) as (Y1 & _ & Y2); try lia.
    destruct (f_bool_ok c _ _ 0 IT I3) as (Z1 & _ & Z2); try (intros; lia).
    { apply f_num_top; auto; try apply hp_par; lia. }
    split; [cbn [ok]; auto|]. cbn [strip]. congruence.
  - simpl in H, Hs. destruct (IH H Hs) as (I1 & I2). cbn [bld f_print f_tree]. rewrite ty_bld by auto.
    destruct (is_bool (sty x)) eqn:E.
    + cbn [ok strip]. rewrite I2. auto.
    + split; [|cbn [strip]; congruence]. change (ok f_lang (In "/=" (f_print (bld x)) (At "0"))).
      eapply ok_In; [reflexivity|auto|exact I| |vm_compute; lia]. rewrite f_top by auto.
      assert (N: sty x <> TBool) by (intros N; rewrite N in E; discriminate). pose proof (f_num x N). lia.
Qed.
Lemma f_roundtrip e : chains_ok e -> f_safe (canon e) ->
  exists t, read f_lang (words (f_print (build e))) = Some t /\ strip t = f_tree (canon e).
Proof.
  intros H1 H2. destruct (build_bld e H1) as (A & B & _). unfold build. rewrite B.
  destruct (f_main _ A H2) as (C & D). eexists. split; [|exact D]. apply read_ok; auto.
Qed.
