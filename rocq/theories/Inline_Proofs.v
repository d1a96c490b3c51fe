(* Proofs about functions with the decorator inline (C69) *)
From Coq Require Import Bool Arith ZArith Lia List String.
From Verif Require Import Inline_Model Inline_Spec.
Import ListNotations.
Open Scope list_scope.

Scheme stmt_mut := Induction for stmt Sort Prop
  with block_mut := Induction for block Sort Prop.
Combined Scheme stmt_block_ind from stmt_mut, block_mut.
Scheme cstmt_mut := Induction for cstmt Sort Prop
  with cblock_mut := Induction for cblock Sort Prop.
Combined Scheme cstmt_cblock_ind from cstmt_mut, cblock_mut.

Lemma mem_in : forall x l, mem x l = true <-> In x l.
Proof.
  intros x l. unfold mem. rewrite existsb_exists. split.
  - intros (y & H & E). apply String.eqb_eq in E. subst. exact H.
  - intros H. exists x. split; [exact H | apply String.eqb_refl].
Qed.

Lemma mem_out : forall x l, mem x l = false <-> ~ In x l.
Proof.
  intros x l. split.
  - intros E H. apply mem_in in H. congruence.
  - intros H. destruct (mem x l) eqn:E; [| reflexivity]. apply mem_in in E. contradiction.
Qed.

Lemma put_same : forall x z s, put x z s x = Some z.
Proof. intros. unfold put. rewrite String.eqb_refl. reflexivity. Qed.

Lemma put_other : forall x y z s, y <> x -> put x z s y = s y.
Proof. intros x y z s H. unfold put. destruct (String.eqb_spec y x); [contradiction | reflexivity]. Qed.

(* ------------------------------------------------------------------ execution *)

Lemma exec_app : forall A (get : A -> store -> option Z) b1 b2 s k,
  exec_block get (app_block b1 b2) s k =
  match exec_block get b1 s k with Next s1 k1 => exec_block get b2 s1 k1 | r => r end.
Proof.
  intros A get b1 b2. induction b1 as [| c b1 IH]; intros s k; cbn [app_block exec_block].
  - reflexivity.
  - destruct (exec get c s k); [apply IH | reflexivity | reflexivity].
Qed.

Lemma repeat_not_left : forall step n i s k z k',
  (forall i s k z k', step i s k <> Left z k') -> repeat_ step n i s k <> Left z k'.
Proof.
  intros step n. induction n as [| n IH]; intros i s k z k' H; cbn [repeat_]; [discriminate |].
  destruct (step i s k) as [s1 k1 | z1 k1 |] eqn:E; [apply IH, H | | discriminate].
  destruct (H _ _ _ _ _ E).
Qed.

Lemma no_left : forall (get : string -> store -> option Z),
  (forall c s k z k', returns c = [] -> exec get c s k <> Left z k') /\
  (forall b s k z k', returns_block b = [] -> exec_block get b s k <> Left z k').
Proof.
  intros get. apply stmt_block_ind.
  - intros x t s k z k' _. cbn [exec]. destruct (eval _ k t) as [[]|]; discriminate.
  - intros t b1 IH1 b2 IH2 s k z k' H. cbn [returns exec] in *. apply app_eq_nil in H as [H1 H2].
    destruct (eval _ k t) as [[w k1] |]; [| discriminate]. destruct (0 <? w)%Z; auto.
  - intros x t b IH s k z k' H. cbn [returns exec] in *.
    destruct (eval _ k t) as [[w k1] |]; [| discriminate]. apply repeat_not_left. auto.
  - intros t s k z k' H. discriminate.
  - intros s k z k' _. discriminate.
  - intros c IH1 b IH2 s k z k' H. cbn [returns_block exec_block] in *.
    apply app_eq_nil in H as [H1 H2].
    destruct (exec get c s k) as [s1 k1 | w k1 |] eqn:E; [auto | | discriminate].
    destruct (IH1 _ _ _ _ H1 E).
Qed.

(* Terms with the same values of variables *)
Lemma eval_env : forall (g : string -> option Z) (h : place -> option Z) env t k r,
  (forall x z, In x (vars t) -> g x = Some z -> forall k, eval h k (env x) = Some (z, k)) ->
  eval g k t = Some r -> eval h k (visit_term env t) = Some r.
Proof.
  intros g h env t. induction t as [z | x | a IHa b IHb | t IH]; intros k r H E;
    cbn [eval visit_term] in *.
  - exact E.
  - destruct (g x) as [z |] eqn:X; [| discriminate]. injection E as <-.
    apply H; [left; reflexivity | exact X].
  - destruct (eval g k a) as [[x k1] |] eqn:Ea; [| discriminate].
    rewrite (IHa k (x, k1)); [| intros; apply H; [cbn [vars]; apply in_or_app; auto | auto] | exact Ea].
    destruct (eval g k1 b) as [[y k2] |] eqn:Eb; [| discriminate].
    rewrite (IHb k1 (y, k2)); [exact E | | exact Eb].
    intros; apply H; [cbn [vars]; apply in_or_app; auto | auto].
  - destruct (eval g k t) as [[x k1] |] eqn:Et; [| discriminate].
    rewrite (IH k (x, k1)); auto.
Qed.

Lemma eval_pure : forall A (g : A -> option Z) t k z k1, pure t = true ->
  eval g k t = Some (z, k1) -> k1 = k /\ forall k', eval g k' t = Some (z, k').
Proof.
  intros A g t. induction t as [w | x | a IHa b IHb | t IH]; intros k z k1 P E; cbn [pure eval] in *.
  - injection E as -> ->. auto.
  - destruct (g x); [| discriminate]. injection E as -> ->. auto.
  - apply andb_prop in P as [Pa Pb]. destruct (eval g k a) as [[x k2] |] eqn:Ea; [| discriminate].
    destruct (IHa _ _ _ Pa Ea) as [-> Ka].
    destruct (eval g k b) as [[y k3] |] eqn:Eb; [| discriminate].
    destruct (IHb _ _ _ Pb Eb) as [-> Kb]. injection E as <- <-. split; [reflexivity |].
    intros k'. rewrite Ka, Kb. reflexivity.
  - discriminate.
Qed.

Lemma eval_same : forall A (g h : A -> option Z) t k, (forall x, In x (vars t) -> g x = h x) ->
  eval g k t = eval h k t.
Proof.
  intros A g h t. induction t as [w | x | a IHa b IHb | t IH]; intros k H; cbn [eval vars] in *.
  - reflexivity.
  - rewrite H by (left; reflexivity). reflexivity.
  - rewrite IHa by (intros; apply H, in_or_app; auto). destruct (eval h k a) as [[x k1] |]; [| reflexivity].
    rewrite IHb by (intros; apply H, in_or_app; auto). reflexivity.
  - rewrite IH by exact H. reflexivity.
Qed.

(* ------------------------------------------------------------------ the scope *)

(* sc: the variables l of the caller and names that are not in use in the module *)
Definition scope (gs l sc : list string) : Prop :=
  (forall x, In x l -> In x sc) /\ (forall x, In x sc -> In x l \/ ~ In x gs).

Lemma rename_keys : forall new gs vs sc, map fst (fst (rename new gs sc vs)) = vs.
Proof.
  intros new gs. induction vs as [| v vs IH]; intros sc; [reflexivity |]. cbn [rename].
  specialize (IH ((if mem v (sc ++ gs) then new (sc ++ gs) v else v) :: sc)).
  destruct (rename new gs _ vs) as [m sc']. cbn [fst map] in *. rewrite IH. reflexivity.
Qed.

Lemma rename_values : forall new gs vs sc, fresh new ->
  let '(m, sc') := rename new gs sc vs in
  NoDup (map snd m) /\
  (forall x, In x (map snd m) -> ~ In x sc /\ ~ In x gs) /\
  (forall x, In x sc' <-> In x (map snd m) \/ In x sc).
Proof.
  intros new gs vs. induction vs as [| v vs IH]; intros sc F; cbn [rename].
  - split; [apply NoDup_nil |]. split; [intros x [] |]. intros x. cbn [map In]. tauto.
  - set (v' := if mem v (sc ++ gs) then new (sc ++ gs) v else v).
    assert (N : ~ In v' (sc ++ gs)).
    { unfold v'. destruct (mem v (sc ++ gs)) eqn:E; [apply F | apply mem_out, E]. }
    specialize (IH (v' :: sc) F). destruct (rename new gs (v' :: sc) vs) as [m sc'].
    destruct IH as (A & B & C). cbn [map snd]. split; [| split].
    + apply NoDup_cons; [| exact A]. intros H. apply B in H as [H _]. apply H. left. reflexivity.
    + intros x [<- | H].
      * split; intros H; apply N, in_or_app; auto.
      * destruct (B x H) as [B1 B2]. split; [| exact B2]. intros Q. apply B1. right. exact Q.
    + intros x. rewrite C. cbn [In]. tauto.
Qed.

Lemma assoc_in : forall B (m : list (string * B)) x b, assoc x m = Some b -> In (x, b) m.
Proof.
  intros B m x b. induction m as [| [y c] m IH]; cbn [assoc]; [discriminate |].
  destruct (String.eqb_spec x y); intros H.
  - injection H as ->. subst. left. reflexivity.
  - right. auto.
Qed.

Lemma assoc_none : forall B (m : list (string * B)) x, assoc x m = None <-> ~ In x (map fst m).
Proof.
  intros B m x. induction m as [| [y c] m IH]; cbn [assoc map fst In]; [tauto |].
  destruct (String.eqb_spec x y).
  - subst. split; [discriminate |]. tauto.
  - rewrite IH. split; [intros H [E | E]; [congruence | auto] | tauto].
Qed.

Lemma assoc_some : forall B (m : list (string * B)) x, In x (map fst m) -> exists b, assoc x m = Some b.
Proof.
  intros B m x H. destruct (assoc x m) eqn:E; [eauto |]. apply assoc_none in E. contradiction.
Qed.

Lemma assoc_inj : forall (m : list (string * string)) x y b, NoDup (map snd m) ->
  assoc x m = Some b -> assoc y m = Some b -> x = y.
Proof.
  intros m x y b N. induction m as [| [v c] m IH]; cbn [assoc]; [discriminate |].
  cbn [map snd] in N. inversion N; subst.
  destruct (String.eqb_spec x v), (String.eqb_spec y v); subst; intros H3 H4.
  - reflexivity.
  - injection H3 as ->. apply assoc_in in H4. exfalso. apply H1. apply in_map_iff.
    exists (y, b). auto.
  - injection H4 as ->. apply assoc_in in H3. exfalso. apply H1. apply in_map_iff.
    exists (x, b). auto.
  - auto.
Qed.

(* ------------------------------------------------------------------ the body of f *)

(* The name y, the map m and the expressions of the call, for a caller with the variables l;
   c0: the store before the call *)
Record site (G : store) (gs l sc : list string) (f : fdef) (y : string)
            (actual : list (term place)) (zs : list Z) (m : list (string * string))
            (c0 : store) : Prop := {
  s_scope : scope gs l sc;
  s_glob : forall x, G x <> None -> In x gs;
  s_fine : fine f;
  s_reads : forall x, In x (reads_block (body f)) -> In x (locals f) \/ ~ In x l;
  s_vals : NoDup (map snd m);
  s_dom : forall x, In x (locals f) -> In x (map fst m);
  s_keys : forall x, In x (map fst m) -> In x (locals f);
  s_res : match result_name f with
          | Some r => assoc r m = Some y
          | None => ~ In y (map snd m)
          end;
  s_args : Forall2 (fun t z => forall k, eval (fun a => c_get G a c0) k t = Some (z, k)) actual zs;
  s_vars : forall t x, In t actual -> In (Loc x) (vars t) -> ~ In x (map snd m);
  s_num : List.length (args f) = List.length zs
}.

(* The store of f and the store of the generated code *)
Definition rel (f : fdef) (zs : list Z) (m : list (string * string)) (c0 s c : store) : Prop :=
  (forall x z, assoc x (combine (args f) zs) = Some z -> s x = Some z) /\
  (forall x x' z, ~ In x (args f) -> assoc x m = Some x' -> s x = Some z -> c x' = Some z) /\
  (forall x, ~ In x (map snd m) -> c x = c0 x).

Lemma combine_keys : forall A B (l1 : list A) (l2 : list B), List.length l1 = List.length l2 ->
  map fst (combine l1 l2) = l1.
Proof.
  intros A B. induction l1 as [| a l1 IH]; intros [| b l2] H; try discriminate; [reflexivity |].
  cbn [combine map fst]. rewrite IH; [reflexivity |]. injection H as H. exact H.
Qed.

Lemma args_eval : forall G (c0 : store) (xs : list string) actual zs x t,
  Forall2 (fun t z => forall k, eval (fun a => c_get G a c0) k t = Some (z, k)) actual zs ->
  assoc x (combine xs actual) = Some t ->
  exists z, In t actual /\ assoc x (combine xs zs) = Some z /\
            forall k, eval (fun a => c_get G a c0) k t = Some (z, k).
Proof.
  intros G c0 xs actual zs x t H. revert xs.
  induction H as [| t1 z1 actual zs E H IH]; intros [| v xs] A; cbn [combine assoc] in *; try discriminate.
  destruct (String.eqb x v).
  - injection A as ->. exists z1. split; [left; reflexivity |]. auto.
  - destruct (IH xs A) as (z & I & B & C). exists z. split; [right; exact I |]. auto.
Qed.

Lemma forall2_length : forall A B (R : A -> B -> Prop) l1 l2, Forall2 R l1 l2 ->
  List.length l1 = List.length l2.
Proof. intros A B R l1 l2 H. induction H; cbn [List.length]; congruence. Qed.

Lemma env_right : forall G gs l sc f y actual zs m c0 s c x z,
  site G gs l sc f y actual zs m c0 -> rel f zs m c0 s c ->
  In x (reads_block (body f)) -> py_get G (locals f) x s = Some z ->
  forall k, eval (fun a => c_get G a c) k (env f actual m sc x) = Some (z, k).
Proof.
  intros G gs l sc f y actual zs m c0 s c x z St (R1 & R2 & R3) Rd E k.
  pose proof (forall2_length _ _ _ _ _ (s_args _ _ _ _ _ _ _ _ _ _ St)) as Len.
  unfold env, py_get in *. destruct (assoc x (combine (args f) actual)) as [t |] eqn:A.
  - destruct (args_eval _ _ _ _ _ _ _ (s_args _ _ _ _ _ _ _ _ _ _ St) A) as (w & I & B & C).
    pose proof (R1 _ _ B) as Sx.
    assert (L : mem x (locals f) = true).
    { apply mem_in. unfold locals. apply in_or_app. left.
      apply assoc_in in B. apply in_combine_l in B. exact B. }
    rewrite L, Sx in E. injection E as <-. rewrite <- (C k). apply eval_same.
    intros [v | v] V; cbn [c_get]; [| reflexivity].
    apply R3. eapply (s_vars _ _ _ _ _ _ _ _ _ _ St); eauto.
  - assert (NA : ~ In x (args f)).
    { apply assoc_none in A. rewrite combine_keys in A; [exact A |].
      rewrite (s_num _ _ _ _ _ _ _ _ _ _ St). congruence. }
    destruct (mem x (locals f)) eqn:L.
    + apply mem_in in L. apply (s_dom _ _ _ _ _ _ _ _ _ _ St) in L.
      destruct (assoc_some _ _ _ L) as [x' X]. rewrite X. cbn [eval c_get].
      rewrite (R2 x x' z NA X E). reflexivity.
    + apply mem_out in L. destruct (assoc x m) as [x' |] eqn:X.
      * exfalso. apply L, (s_keys _ _ _ _ _ _ _ _ _ _ St). apply assoc_in in X.
        apply in_map_iff. exists (x, x'). auto.
      * destruct (s_reads _ _ _ _ _ _ _ _ _ _ St x Rd) as [H | NL]; [contradiction |].
        unfold find. assert (Gx : In x gs) by (apply (s_glob _ _ _ _ _ _ _ _ _ _ St); congruence).
        destruct (mem x sc) eqn:M.
        -- apply mem_in in M. destruct (s_scope _ _ _ _ _ _ _ _ _ _ St) as [_ Q].
           destruct (Q x M); contradiction.
        -- cbn [eval c_get]. rewrite E. reflexivity.
Qed.

Lemma term_right : forall G gs l sc f y actual zs m c0 s c t k r,
  site G gs l sc f y actual zs m c0 -> rel f zs m c0 s c ->
  (forall x, In x (vars t) -> In x (reads_block (body f))) ->
  eval (fun a => py_get G (locals f) a s) k t = Some r ->
  eval (fun a => c_get G a c) k (visit_term (env f actual m sc) t) = Some r.
Proof.
  intros G gs l sc f y actual zs m c0 s c t k r St R V E.
  eapply eval_env; [| exact E]. intros x z X Gx k'. eapply env_right; eauto.
Qed.

Lemma rel_put : forall f zs m c0 s c x x' z,
  NoDup (map snd m) -> rel f zs m c0 s c -> ~ In x (args f) -> assoc x m = Some x' ->
  rel f zs m c0 (put x z s) (put x' z c).
Proof.
  intros f zs m c0 s c x x' z N (R1 & R2 & R3) NA X. split; [| split].
  - intros v w A. rewrite put_other; [auto |]. intros ->. apply NA.
    apply assoc_in in A. apply in_combine_l in A. exact A.
  - intros v v' w NV A S. destruct (string_dec v x) as [-> | D].
    + rewrite X in A. injection A as <-. rewrite put_same in S. injection S as <-. apply put_same.
    + rewrite put_other in S by exact D. rewrite put_other.
      * eapply R2; eauto.
      * intros ->. apply D. eapply assoc_inj; eauto.
  - intros v V. rewrite put_other; [auto |]. intros ->. apply V. apply assoc_in in X.
    apply in_map_iff. exists (x, x'). auto.
Qed.

Definition sim (f : fdef) (zs : list Z) (m : list (string * string)) (c0 : store) (y : string)
  (none last : Prop) (r r' : result) : Prop :=
  match r with
  | Next s k => none -> exists c, r' = Next c k /\ rel f zs m c0 s c
  | Left z k => last -> exists c, r' = Next c k /\ c y = Some z /\
                  forall x, ~ In x (y :: map snd m) -> c x = c0 x
  | Fault => True
  end.

Lemma visit_return : forall y e tg t b, visit y e tg (Return t) = Some b ->
  (exists x, t = Var x /\ b = Nil) \/ b = Cons (Set_ y (visit_term e t)) Nil.
Proof.
  intros y e tg t b H. destruct t; cbn [visit] in H; injection H as <-; eauto.
Qed.

Lemma app_nil_r' : forall A (b : block A), app_block b Nil = b.
Proof. intros A b. induction b as [| c b IH]; cbn [app_block]; congruence. Qed.

Lemma body_right : forall G gs l sc f y actual zs m c0,
  site G gs l sc f y actual zs m c0 ->
  let e := env f actual m sc in let tg := target f actual m in
  let get := py_get G (locals f) in
  (forall b c s k b' ,
     (forall x, In x (reads b) -> In x (reads_block (body f))) ->
     (forall x, In x (assigned b) -> In x (assigned_block (body f))) ->
     (forall t, In t (returns b) -> In t (returns_block (body f))) ->
     visit y e tg b = Some b' -> rel f zs m c0 s c ->
     sim f zs m c0 y (returns b = []) (last_stmt b = true)
         (exec get b s k) (exec_block (c_get G) b' c k)) /\
  (forall b c s k b',
     (forall x, In x (reads_block b) -> In x (reads_block (body f))) ->
     (forall x, In x (assigned_block b) -> In x (assigned_block (body f))) ->
     (forall t, In t (returns_block b) -> In t (returns_block (body f))) ->
     visit_block y e tg b = Some b' -> rel f zs m c0 s c ->
     sim f zs m c0 y (returns_block b = []) (last_block b = true)
         (exec_block get b s k) (exec_block (c_get G) b' c k)).
Proof.
  intros G gs l sc f y actual zs m c0 St e tg get.
  destruct (s_fine _ _ _ _ _ _ _ _ _ _ St) as (_ & Fa & Fr).
  assert (Tg : forall x, In x (assigned_block (body f)) ->
            exists x', tg x = Some x' /\ assoc x m = Some x' /\ ~ In x (args f)).
  { intros x H. assert (NA := Fa x H). unfold tg, target.
    destruct (assoc x (combine (args f) actual)) as [t |] eqn:A.
    - exfalso. apply NA. apply assoc_in in A. apply in_combine_l in A. exact A.
    - destruct (assoc_some _ m x) as [x' X]; [| exists x'; rewrite X; auto].
      apply (s_dom _ _ _ _ _ _ _ _ _ _ St). unfold locals. apply in_or_app. auto. }
  assert (N := s_vals _ _ _ _ _ _ _ _ _ _ St).
  apply stmt_block_ind.
  - (* Set *)
    intros x t c s k b' Rd As _ V R. cbn [visit exec] in *.
    destruct (Tg x (As x (or_introl eq_refl))) as (x' & Tx & X & NA). rewrite Tx in V.
    injection V as <-. destruct (eval (fun a => get a s) k t) as [[z k1] |] eqn:E; [| exact Logic.I].
    intros _. cbn [exec_block exec]. unfold e.
    rewrite (term_right _ _ _ _ _ _ _ _ _ _ _ _ _ _ _ St R Rd E).
    eexists. split; [reflexivity |]. apply rel_put; auto.
  - (* If *)
    intros t b1 IH1 b2 IH2 c s k b' Rd As Rt V R. cbn [visit exec reads assigned returns] in *.
    destruct (visit_block y e tg b1) as [b1' |] eqn:V1; [| discriminate].
    destruct (visit_block y e tg b2) as [b2' |] eqn:V2; [| discriminate]. injection V as <-.
    destruct (eval (fun a => get a s) k t) as [[z k1] |] eqn:E; [| exact Logic.I].
    assert (Rdt : forall x, In x (vars t) -> In x (reads_block (body f)))
      by (intros; apply Rd, in_or_app; auto).
    cbn [exec_block exec]; unfold e; rewrite (term_right _ _ _ _ _ _ _ _ _ _ _ _ _ _ _ St R Rdt E).
    assert (S1 := IH1 c s k1 b1'). assert (S2 := IH2 c s k1 b2').
    specialize (S1 ltac:(intros; apply Rd, in_or_app; right; apply in_or_app; auto)
                   ltac:(intros; apply As, in_or_app; auto)
                   ltac:(intros; apply Rt, in_or_app; auto) eq_refl R).
    specialize (S2 ltac:(intros; apply Rd, in_or_app; right; apply in_or_app; auto)
                   ltac:(intros; apply As, in_or_app; auto)
                   ltac:(intros; apply Rt, in_or_app; auto) eq_refl R).
    destruct (0 <? z)%Z.
    + destruct (exec_block get b1 s k1); cbn [sim] in *; [| | exact Logic.I].
      * intros H. apply app_eq_nil in H as [H1 H2]. destruct (S1 H1) as (c1 & -> & R').
        exists c1. auto.
      * intros H. cbn [last_stmt] in H. apply andb_prop in H as [H1 H2].
        destruct (S1 H1) as (c1 & -> & Q). exists c1. auto.
    + destruct (exec_block get b2 s k1); cbn [sim] in *; [| | exact Logic.I].
      * intros H. apply app_eq_nil in H as [H1 H2]. destruct (S2 H2) as (c1 & -> & R').
        exists c1. auto.
      * intros H. cbn [last_stmt] in H. apply andb_prop in H as [H1 H2].
        destruct (S2 H2) as (c1 & -> & Q). exists c1. auto.
  - (* For *)
    intros x t b IH c s k b' Rd As Rt V R. cbn [visit exec reads assigned returns] in *.
    destruct (Tg x (As x (or_introl eq_refl))) as (x' & Tx & X & NA). rewrite Tx in V.
    destruct (visit_block y e tg b) as [b1' |] eqn:V1; [| discriminate]. injection V as <-.
    destruct (eval (fun a => get a s) k t) as [[z k1] |] eqn:E; [| exact Logic.I].
    assert (Rdt : forall x, In x (vars t) -> In x (reads_block (body f)))
      by (intros; apply Rd, in_or_app; auto).
    cbn [exec_block exec]; unfold e; rewrite (term_right _ _ _ _ _ _ _ _ _ _ _ _ _ _ _ St R Rdt E).
    clear E. generalize (Z.to_nat z) as n. generalize 0%Z as i. intros i n. revert i c s k1 R.
    induction n as [| n IHn]; intros i c s k1 R; cbn [repeat_].
    + intros _. exists c. auto.
    + assert (S1 := IH (put x' i c) (put x i s) k1 b1'
                   ltac:(intros; apply Rd, in_or_app; auto)
                   ltac:(intros; apply As; right; assumption) Rt eq_refl
                   (rel_put _ _ _ _ _ _ _ _ i N R NA X)).
      destruct (exec_block get b (put x i s) k1) as [s1 k2 | w k2 |]; cbn [sim] in *.
      * specialize (IHn (i + 1)%Z).
        destruct (repeat_ (fun i s k => exec_block get b (put x i s) k) n (i + 1)%Z s1 k2)
          as [s2 k3 | w k3 |] eqn:Er.
        -- intros H. destruct (S1 H) as (c1 & -> & R1).
           specialize (IHn c1 s1 k2 R1). rewrite Er in IHn. exact (IHn H).
        -- intros H. discriminate.
        -- exact Logic.I.
      * intros H. discriminate.
      * exact Logic.I.
  - (* Return *)
    intros t c s k b' Rd _ Rt V R. cbn [exec].
    destruct (eval (fun a => get a s) k t) as [[z k1] |] eqn:E; [| exact Logic.I].
    intros _. apply visit_return in V as [(x & -> & ->) | ->].
    + cbn [eval] in E. destruct (get x s) as [w |] eqn:Gx; [| discriminate].
      injection E as <- <-. cbn [exec_block]. exists c. split; [reflexivity |].
      pose proof (Fr x (Rt _ (or_introl eq_refl))) as Rn.
      pose proof (s_res _ _ _ _ _ _ _ _ _ _ St) as Sr. rewrite Rn in Sr.
      destruct R as (R1 & R2 & R3). split.
      * unfold result_name in Rn.
        destruct (nodup string_dec _) as [| r [| ? ?]]; try discriminate.
        destruct (mem r (args f)) eqn:Ma; [discriminate |].
        destruct (mem r (locals f)) eqn:Ml; [| discriminate]. injection Rn as <-.
        eapply R2; [apply mem_out, Ma | exact Sr |].
        unfold get, py_get in Gx. rewrite Ml in Gx. exact Gx.
      * intros v V. apply R3. intros H. apply V. right. exact H.
    + cbn [exec_block exec]; unfold e; rewrite (term_right _ _ _ _ _ _ _ _ _ _ _ _ _ _ _ St R Rd E).
      eexists. split; [reflexivity |]. split; [apply put_same |]. intros v V.
      rewrite put_other; [| intros ->; apply V; left; reflexivity].
      destruct R as (_ & _ & R3). apply R3. intros H. apply V. right. exact H.
  - (* Nil *)
    intros c s k b' _ _ _ V R. cbn [visit_block] in V. injection V as <-. intros _.
    exists c. auto.
  - (* Cons *)
    intros c1 IH1 b IH2 c s k b' Rd As Rt V R.
    cbn [visit_block exec_block reads_block assigned_block returns_block] in *.
    destruct (visit y e tg c1) as [c1' |] eqn:V1; [| discriminate].
    destruct (visit_block y e tg b) as [b1' |] eqn:V2; [| discriminate]. injection V as <-.
    rewrite exec_app.
    assert (S1 := IH1 c s k c1'
                   ltac:(intros; apply Rd, in_or_app; auto)
                   ltac:(intros; apply As, in_or_app; auto)
                   ltac:(intros; apply Rt, in_or_app; auto) eq_refl R).
    pose proof (proj1 (no_left get) c1 s k) as NL.
    destruct (exec get c1 s k) as [s1 k1 | z k1 |]; cbn [sim] in S1; [| | exact Logic.I].
    + assert (Nr : returns c1 = [] ->
                   sim f zs m c0 y (returns_block b = []) (last_block b = true)
                     (exec_block get b s1 k1)
                     match exec_block (c_get G) c1' c k with
                     | Next s2 k2 => exec_block (c_get G) b1' s2 k2
                     | r => r
                     end).
      { intros H. destruct (S1 H) as (cc & -> & R1). apply IH2; auto;
          intros; first [apply Rd | apply As | apply Rt]; apply in_or_app; auto. }
      destruct (exec_block get b s1 k1) as [s2 k2 | z k2 |] eqn:Eb; cbn [sim] in *; [| | exact Logic.I].
      * intros H. apply app_eq_nil in H as [H1 H2]. exact (Nr H1 H2).
      * intros H. destruct b as [| c2 b2].
        -- discriminate.
        -- cbn [last_block] in H. destruct (returns c1); [| discriminate]. exact (Nr eq_refl H).
    + intros H. destruct b as [| c2 b2].
      * cbn [last_block] in H. destruct (S1 H) as (cc & -> & Q). cbn [visit_block] in V2.
        injection V2 as <-. exists cc. auto.
      * cbn [last_block] in H. destruct (returns c1); [| discriminate].
        destruct (NL z k1 eq_refl eq_refl).
Qed.

(* ------------------------------------------------------------------ the call *)

Lemma find_right : forall G gs l sc s c x z, scope gs l sc -> (forall x, G x <> None -> In x gs) ->
  agree l s c -> py_get G l x s = Some z -> c_get G (find sc x) c = Some z.
Proof.
  intros G gs l sc s c x z [S1 S2] HG A E. unfold py_get in E. unfold find.
  destruct (mem x l) eqn:L.
  - apply mem_in in L. rewrite (proj2 (mem_in x sc) (S1 x L)). cbn [c_get]. rewrite <- A by exact L.
    exact E.
  - apply mem_out in L. assert (Gx : In x gs) by (apply HG; congruence).
    destruct (mem x sc) eqn:M; [| exact E]. apply mem_in in M. destruct (S2 x M); contradiction.
Qed.

Lemma caller_right : forall G gs l sc s c t k r, scope gs l sc -> (forall x, G x <> None -> In x gs) ->
  agree l s c -> eval (fun x => py_get G l x s) k t = Some r ->
  eval (fun x => c_get G x c) k (visit_term (caller_env sc) t) = Some r.
Proof.
  intros G gs l sc s c t k r Sc HG A E. eapply eval_env; [| exact E].
  intros x z _ Gx k'. unfold caller_env. cbn [eval].
  rewrite (find_right _ _ _ _ _ _ _ _ Sc HG A Gx). reflexivity.
Qed.

Lemma eval_defined : forall A (g : A -> option Z) t k r x, eval g k t = Some r -> In x (vars t) ->
  g x <> None.
Proof.
  intros A g t. induction t as [w | v | a IHa b IHb | t IH]; intros k r x E V; cbn [eval vars] in *.
  - destruct V.
  - destruct V as [<- | []]. destruct (g v); congruence.
  - destruct (eval g k a) as [[z1 k1] |] eqn:Ea; [| discriminate].
    destruct (eval g k1 b) as [[z2 k2] |] eqn:Eb; [| discriminate].
    apply in_app_or in V as [V | V]; eauto.
  - destruct (eval g k t) as [[z1 k1] |] eqn:Ea; [| discriminate]. eauto.
Qed.

Lemma py_args_defined : forall g ts k r t x, py_args g k ts = Some r -> In t ts -> In x (vars t) ->
  g x <> None.
Proof.
  intros g ts. induction ts as [| t0 ts IH]; intros k r t x E I V; [destruct I |]. cbn [py_args] in E.
  destruct (eval g k t0) as [[z k1] |] eqn:Et; [| discriminate].
  destruct (py_args g k1 ts) as [[zs k2] |] eqn:Es; [| discriminate].
  destruct I as [-> | I]; [eapply eval_defined; eauto | eapply IH; eauto].
Qed.

Lemma pure_visit : forall sc t, pure (visit_term (caller_env sc) t) = pure t.
Proof.
  intros sc t. induction t as [w | v | a IHa b IHb | t IH]; cbn [pure visit_term]; try reflexivity.
  congruence.
Qed.

Lemma vars_visit : forall sc t x, In (Loc x) (vars (visit_term (caller_env sc) t)) ->
  In x (vars t) /\ In x sc.
Proof.
  intros sc t x. induction t as [w | v | a IHa b IHb | t IH]; cbn [vars visit_term].
  - intros [].
  - unfold caller_env, find. cbn [vars]. destruct (mem v sc) eqn:M; intros [E | []]; [| discriminate].
    injection E as ->. split; [left; reflexivity | apply mem_in, M].
  - intros H. rewrite in_app_iff in *. tauto.
  - exact IH.
Qed.

Lemma args_right : forall G gs l sc s c ts k zs k1, scope gs l sc ->
  (forall x, G x <> None -> In x gs) -> agree l s c -> forallb pure ts = true ->
  py_args (fun x => py_get G l x s) k ts = Some (zs, k1) ->
  k1 = k /\
  Forall2 (fun t z => forall k, eval (fun a => c_get G a c) k t = Some (z, k))
          (map (visit_term (caller_env sc)) ts) zs.
Proof.
  intros G gs l sc s c ts. induction ts as [| t ts IH]; intros k zs k1 Sc HG A P E;
    cbn [py_args forallb map] in *.
  - injection E as <- <-. split; [reflexivity | apply Forall2_nil].
  - apply andb_prop in P as [P1 P2].
    destruct (eval _ k t) as [[z k2] |] eqn:Et; [| discriminate].
    destruct (py_args _ k2 ts) as [[zs' k3] |] eqn:Es; [| discriminate]. injection E as <- <-.
    pose proof (caller_right _ _ _ _ _ _ _ _ _ Sc HG A Et) as Ec.
    destruct (eval_pure _ _ _ _ _ _ P1 Et) as [-> _].
    destruct (IH k zs' k3 Sc HG A P2 Es) as [-> F]. split; [reflexivity |].
    apply Forall2_cons; [| exact F].
    eapply eval_pure; [| exact Ec]. rewrite pure_visit. exact P1.
Qed.

Lemma bind_right : forall xs zs s, bind xs zs = Some s ->
  List.length xs = List.length zs /\ forall x, s x = assoc x (combine xs zs).
Proof.
  induction xs as [| x xs IH]; intros [| z zs] s E; cbn [bind] in E; try discriminate.
  - injection E as <-. auto.
  - destruct (bind xs zs) as [s1 |] eqn:B; [| discriminate]. injection E as <-.
    destruct (IH zs s1 B) as [L A]. split; [cbn [List.length]; congruence |].
    intros v. cbn [combine assoc]. unfold put. rewrite A. reflexivity.
Qed.

Lemma scope_more : forall gs l sc sc' new, scope gs l sc ->
  (forall x, In x sc' <-> In x new \/ In x sc) -> (forall x, In x new -> ~ In x gs) ->
  scope gs l sc'.
Proof.
  intros gs l sc sc' new [S1 S2] E N. split.
  - intros x L. apply E. auto.
  - intros x H. apply E in H as [H | H]; [right; auto | auto].
Qed.

Lemma expand_scope : forall new gs l sc y f ts b sc', fresh new -> scope gs l sc ->
  expand new gs sc y f ts = (b, sc') -> scope gs l sc' /\ (forall x, In x sc -> In x sc').
Proof.
  intros new gs l sc y f ts b sc' F Sc E. unfold expand in E.
  set (others := filter _ _) in E.
  pose proof (rename_values new gs others sc F) as Rn.
  destruct (rename new gs sc others) as [m sc1]. injection E as _ <-.
  destruct Rn as (N & V & I). split.
  - eapply scope_more; [exact Sc | exact I |]. intros x H. apply V, H.
  - intros x H. apply I. auto.
Qed.

Lemma expand_right : forall new G gs l sc y f ts b sc' s c k zs k1 z k2,
  fresh new -> (forall x, G x <> None -> In x gs) -> scope gs l sc -> call_ok l f ts -> In y sc ->
  ((forall t, In t ts -> ~ In y (vars t)) \/ result_name f = None) ->
  agree l s c ->
  py_args (fun x => py_get G l x s) k ts = Some (zs, k1) ->
  py_call G f zs k1 = Some (z, k2) ->
  expand new gs sc y f ts = (Some b, sc') ->
  exists c', run G b c k = Next c' k2 /\ c' y = Some z /\
             forall x, In x sc -> x <> y -> c' x = c x.
Proof.
  intros new G gs l sc y f ts b sc' s c k zs k1 z k2 F HG Sc (Fi & Pu & Rd) Iy Yv A Ea Ec Ex.
  pose proof (proj1 (expand_scope _ _ _ _ _ _ _ _ _ F Sc Ex)) as Sc'.
  destruct (args_right _ _ _ _ _ _ _ _ _ _ Sc HG A Pu Ea) as [-> Fa].
  unfold py_call in Ec. destruct (bind (args f) zs) as [s0 |] eqn:B; [| discriminate].
  destruct (bind_right _ _ _ B) as [Len Bs].
  unfold expand in Ex. set (res := result_name f) in *. set (others := filter _ _) in Ex.
  pose proof (rename_values new gs others sc F) as Rn.
  pose proof (rename_keys new gs others sc) as Rk.
  destruct (rename new gs sc others) as [m sc1]. cbn [fst] in Rk. injection Ex as Ev <-.
  destruct Rn as (Nd & Vs & In1).
  set (m' := match res with Some r => (r, y) :: m | None => m end) in *.
  assert (Oth : forall x, In x others <-> In x (locals f) /\ res <> Some x).
  { intros x. unfold others. rewrite filter_In, nodup_In. destruct res as [r |].
    - rewrite negb_true_iff, String.eqb_neq. split; intros [H1 H2]; split; congruence.
    - split; intros [H1 H2]; split; congruence. }
  assert (Rl : forall r, res = Some r -> In r (locals f) /\ ~ In r (args f)).
  { intros r H. unfold res, result_name in H.
    destruct (nodup string_dec (flat_map symbol (returns_block (body f)))) as [| r' [| ? ?]];
      try discriminate.
    destruct (mem r' (args f)) eqn:Ma; [discriminate |].
    destruct (mem r' (locals f)) eqn:Ml; [| discriminate]. injection H as <-.
    split; [apply mem_in, Ml | apply mem_out, Ma]. }
  assert (Vals : forall x, In x (map snd m') -> x = y \/ ~ In x sc).
  { intros x. unfold m'. destruct res; cbn [map snd]; intros H.
    - destruct H as [<- | H]; [auto |]. right. apply Vs, H.
    - right. apply Vs, H. }
  assert (St : site G gs l sc1 f y (map (visit_term (caller_env sc)) ts) zs m' c).
  { constructor.
    - exact Sc'.
    - exact HG.
    - exact Fi.
    - exact Rd.
    - unfold m'. destruct res; [| exact Nd]. cbn [map snd]. apply NoDup_cons; [| exact Nd].
      intros H. apply Vs in H as [H _]. contradiction.
    - intros x H. unfold m'. destruct res as [r |] eqn:Er.
      + cbn [map fst]. destruct (string_dec r x) as [-> | D]; [left; reflexivity |].
        right. rewrite Rk. apply Oth. split; [exact H | congruence].
      + rewrite Rk. apply Oth. split; [exact H | congruence].
    - intros x H. unfold m' in H. destruct res as [r |] eqn:Er; cbn [map fst] in H.
      + destruct H as [<- | H]; [apply Rl; reflexivity |]. rewrite Rk in H. apply Oth in H. apply H.
      + rewrite Rk in H. apply Oth in H. apply H.
    - fold res. unfold m'. destruct res as [r |].
      + cbn [assoc]. rewrite String.eqb_refl. reflexivity.
      + intros H. apply Vs in H as [H _]. contradiction.
    - exact Fa.
    - intros t x Ht Hx Hv. apply in_map_iff in Ht as (t0 & <- & Ht).
      apply vars_visit in Hx as [Hx Hs]. destruct (Vals x Hv) as [-> | N]; [| contradiction].
      destruct Yv as [Yv | Yv]; [eapply Yv; eauto |].
      fold res in Yv. unfold m' in Hv. rewrite Yv in Hv. apply Vs in Hv as [Hv _]. contradiction.
    - exact Len. }
  assert (R : rel f zs m' c s0 c).
  { split; [| split].
    - intros x w H. rewrite Bs. exact H.
    - intros x x' w NA _ H. rewrite Bs in H. apply assoc_in in H. apply in_combine_l in H. contradiction.
    - intros x _. reflexivity. }
  pose proof (proj2 (body_right _ _ _ _ _ _ _ _ _ _ St) (body f) c s0 k b
                (fun x H => H) (fun x H => H) (fun x H => H) Ev R) as Q.
  destruct (exec_block (py_get G (locals f)) (body f) s0 k) as [| z' k' |]; try discriminate.
  injection Ec as -> ->. cbn [sim] in Q. destruct (Q (proj1 Fi)) as (c' & E & Y & O).
  exists c'. split; [exact E |]. split; [exact Y |]. intros x Hx D. apply O.
  intros [H | H]; [congruence |]. destruct (Vals x H); contradiction.
Qed.

Lemma split_right : forall b i e, split_last b = Some (i, e) -> b = app_block i (Cons e Nil).
Proof.
  induction b as [| c b IH]; intros i e E; cbn [split_last] in E; [discriminate |].
  destruct b as [| c2 b2].
  - injection E as <- <-. reflexivity.
  - destruct (split_last (Cons c2 b2)) as [[i' e'] |]; [| discriminate].
    injection E as <- <-. cbn [app_block]. rewrite (IH i' e' eq_refl) at 1. reflexivity.
Qed.

(* What an expression with the call uses *)
Lemma use_right : forall G d f b b' e c k c2 k2 z, use d f b = Code (b', e) ->
  run G b c k = Next c2 k2 -> c2 d = Some z ->
  exists c1 k1, run G b' c k = Next c1 k1 /\ eval (fun a => c_get G a c1) k1 e = Some (z, k2) /\
                forall x, x <> d -> c1 x = c2 x.
Proof.
  intros G d f b b' e c k c2 k2 z U E D. unfold use in U.
  destruct (mem d (assigned_block b)); [| discriminate].
  assert (Simple : Code (b, Var (Loc d)) = Code (b', e) ->
    exists c1 k1, run G b' c k = Next c1 k1 /\ eval (fun a => c_get G a c1) k1 e = Some (z, k2) /\
                  forall x, x <> d -> c1 x = c2 x).
  { intros H. injection H as <- <-. exists c2, k2. split; [exact E |]. cbn [eval c_get].
    rewrite D. auto. }
  destruct (returns_block (body f)) as [| t [| t2 tl]]; [exact (Simple U) | | exact (Simple U)].
  destruct (split_last b) as [[i [p e' | | |]] |] eqn:Sp; try exact (Simple U).
  destruct (String.eqb_spec p d) as [-> | Np]; cbn [andb] in U; [| discriminate].
  destruct (negb _); [| discriminate]. injection U as <- <-.
  apply split_right in Sp. subst b. unfold run in *. rewrite exec_app in E.
  destruct (exec_block (c_get G) i c k) as [c1 k1 | |]; try discriminate.
  cbn [exec_block exec] in E. destruct (eval _ k1 e') as [[w k3] |] eqn:Ee; [| discriminate].
  injection E as <- <-. rewrite put_same in D. injection D as <-.
  exists c1, k1. split; [reflexivity |]. split; [exact Ee |].
  intros x Hx. rewrite put_other by exact Hx. reflexivity.
Qed.

(* ------------------------------------------------------------------ the caller *)

Lemma agree_put : forall l s c x z, agree l s c -> agree l (put x z s) (put x z c).
Proof. intros l s c x z A v V. unfold put. rewrite (A v V). reflexivity. Qed.

Lemma translate_scope : forall new gs l, fresh new ->
  (forall c sc b sc', scope gs l sc -> translate new gs sc c = Code (b, sc') -> scope gs l sc') /\
  (forall c sc b sc', scope gs l sc -> translate_block new gs sc c = Code (b, sc') -> scope gs l sc').
Proof.
  intros new gs l F. apply cstmt_cblock_ind.
  - intros x t sc b sc' Sc E. cbn [translate] in E. injection E as _ <-. exact Sc.
  - intros t b1 IH1 b2 IH2 sc b sc' Sc E. cbn [translate] in E.
    destruct (translate_block new gs sc b1) as [[b1' sc1] | |] eqn:E1; try discriminate.
    destruct (translate_block new gs sc1 b2) as [[b2' sc2] | |] eqn:E2; try discriminate.
    injection E as _ <-. eauto.
  - intros x t b IH sc b' sc' Sc E. cbn [translate] in E.
    destruct (translate_block new gs sc b) as [[b1' sc1] | |] eqn:E1; try discriminate.
    injection E as _ <-. eauto.
  - intros y f ts sc b sc' Sc E. cbn [translate] in E.
    destruct (expand new gs sc y f ts) as [[b1 |] sc1] eqn:Ex; [| discriminate].
    injection E as _ <-. eapply expand_scope; eauto.
  - intros y t f ts sc b sc' Sc E. cbn [translate] in E.
    set (d := new (sc ++ gs) "Dummy"%string) in E.
    destruct (expand new gs (d :: sc) d f ts) as [[b1 |] sc1] eqn:Ex; [| discriminate].
    destruct (use d f b1) as [[b2 e] | |]; try discriminate. injection E as _ <-.
    eapply expand_scope; [exact F | | exact Ex].
    eapply (scope_more gs l sc (d :: sc) [d]); [exact Sc | |].
    + intros x. cbn [In]. tauto.
    + intros x [<- | []] H. apply (F (sc ++ gs) "Dummy"%string). apply in_or_app. auto.
  - intros sc b sc' Sc E. cbn [translate_block] in E. injection E as _ <-. exact Sc.
  - intros c IH1 b IH2 sc b' sc' Sc E. cbn [translate_block] in E.
    destruct (translate new gs sc c) as [[b1' sc1] | |] eqn:E1; try discriminate.
    destruct (translate_block new gs sc1 b) as [[b2' sc2] | |] eqn:E2; try discriminate.
    injection E as _ <-. eauto.
Qed.

Lemma translate_right : forall new G gs l, fresh new -> (forall x, G x <> None -> In x gs) ->
  (forall p sc code sc' s c k s' k', scope gs l sc -> ok l p ->
     translate new gs sc p = Code (code, sc') -> agree l s c ->
     py G l p s k = Next s' k' ->
     exists c', run G code c k = Next c' k' /\ agree l s' c') /\
  (forall p sc code sc' s c k s' k', scope gs l sc -> ok_block l p ->
     translate_block new gs sc p = Code (code, sc') -> agree l s c ->
     py_block G l p s k = Next s' k' ->
     exists c', run G code c k = Next c' k' /\ agree l s' c').
Proof.
  intros new G gs l F HG. apply cstmt_cblock_ind.
  - intros x t sc code sc' s c k s' k' Sc O T A E. cbn [translate py] in *. injection T as <- _.
    destruct (eval _ k t) as [[z k1] |] eqn:Et; [| discriminate]. injection E as <- <-.
    unfold run. cbn [exec_block exec]. rewrite (caller_right _ _ _ _ _ _ _ _ _ Sc HG A Et).
    eexists. split; [reflexivity |]. apply agree_put, A.
  - intros t b1 IH1 b2 IH2 sc code sc' s c k s' k' Sc [O1 O2] T A E. cbn [translate py] in *.
    destruct (translate_block new gs sc b1) as [[b1' sc1] | |] eqn:T1; try discriminate.
    destruct (translate_block new gs sc1 b2) as [[b2' sc2] | |] eqn:T2; try discriminate.
    injection T as <- _. destruct (eval _ k t) as [[z k1] |] eqn:Et; [| discriminate].
    unfold run. cbn [exec_block exec]. rewrite (caller_right _ _ _ _ _ _ _ _ _ Sc HG A Et).
    pose proof (proj2 (translate_scope new gs l F) _ _ _ _ Sc T1) as Sc1.
    destruct (0 <? z)%Z.
    + destruct (IH1 _ _ _ _ _ _ _ _ Sc O1 T1 A E) as (c' & R & A'). unfold run in R. rewrite R. eauto.
    + destruct (IH2 _ _ _ _ _ _ _ _ Sc1 O2 T2 A E) as (c' & R & A'). unfold run in R. rewrite R. eauto.
  - intros x t b IH sc code sc' s c k s' k' Sc [O1 O2] T A E. cbn [translate py] in *.
    destruct (translate_block new gs sc b) as [[b1' sc1] | |] eqn:T1; try discriminate.
    injection T as <- _. destruct (eval _ k t) as [[z k1] |] eqn:Et; [| discriminate].
    unfold run. cbn [exec_block exec]. rewrite (caller_right _ _ _ _ _ _ _ _ _ Sc HG A Et).
    clear Et. revert E A. generalize (Z.to_nat z) as n. generalize 0%Z as i. intros i n.
    revert i s c k1. induction n as [| n IHn]; intros i s c k1 E A; cbn [repeat_] in *.
    + injection E as <- <-. eauto.
    + destruct (py_block G l b (put x i s) k1) as [s1 k2 | |] eqn:E1; try discriminate.
      destruct (IH _ _ _ _ _ _ _ _ Sc O2 T1 (agree_put l s c x i A) E1) as (c1 & R & A1).
      unfold run in R. rewrite R. eapply IHn; eauto.
  - intros y f ts sc code sc' s c k s' k' Sc (Oy & Oc & Yv) T A E. cbn [translate py] in *.
    destruct (expand new gs sc y f ts) as [[b1 |] sc1] eqn:Ex; [| discriminate].
    injection T as <- _. destruct (py_args _ k ts) as [[zs k1] |] eqn:Ea; [| discriminate].
    destruct (py_call G f zs k1) as [[z k2] |] eqn:Ec; [| discriminate]. injection E as <- <-.
    destruct (expand_right _ _ _ _ _ _ _ _ _ _ _ _ _ _ _ _ _ F HG Sc Oc (proj1 Sc y Oy) Yv A Ea Ec Ex)
      as (c' & R & Y & Q).
    exists c'. split; [exact R |]. intros x X. destruct (string_dec x y) as [-> | D].
    + rewrite put_same, Y. reflexivity.
    + rewrite put_other by exact D. rewrite Q; [apply A, X | apply Sc, X | exact D].
  - intros y t f ts sc code sc' s c k s' k' Sc (Oy & Pt & Oc) T A E. cbn [translate py] in *.
    set (d := new (sc ++ gs) "Dummy"%string) in T.
    assert (Nd : ~ In d sc /\ ~ In d gs).
    { pose proof (F (sc ++ gs) "Dummy"%string) as N. fold d in N. rewrite in_app_iff in N. tauto. }
    destruct Nd as [Nd Ng]. assert (Nl : ~ In d l) by (intros H; apply Nd, Sc, H).
    destruct (expand new gs (d :: sc) d f ts) as [[b1 |] sc1] eqn:Ex; [| discriminate].
    destruct (use d f b1) as [[b2 e] | |] eqn:U; try discriminate. injection T as <- _.
    destruct (eval _ k t) as [[z0 k0] |] eqn:Et; [| discriminate].
    destruct (py_args _ k0 ts) as [[zs k1] |] eqn:Ea; [| discriminate].
    destruct (py_call G f zs k1) as [[z k2] |] eqn:Ec; [| discriminate]. injection E as <- <-.
    destruct (eval_pure _ _ _ _ _ _ Pt Et) as [-> Et'].
    assert (Sd : scope gs l (d :: sc)).
    { eapply (scope_more gs l sc (d :: sc) [d]); [exact Sc | |].
      - intros x. cbn [In]. tauto.
      - intros x [<- | []]. exact Ng. }
    assert (Yv : (forall t, In t ts -> ~ In d (vars t)) \/ result_name f = None).
    { left. intros u Iu Vu. pose proof (py_args_defined _ _ _ _ _ _ Ea Iu Vu) as H. cbv beta in H.
      unfold py_get in H. rewrite (proj2 (mem_out d l) Nl) in H. apply Ng, HG, H. }
    destruct (expand_right _ _ _ _ _ _ _ _ _ _ _ _ _ _ _ _ _ F HG Sd Oc (or_introl eq_refl) Yv A Ea Ec Ex)
      as (c2 & R & Y & Q).
    destruct (use_right _ _ _ _ _ _ _ _ _ _ _ U R Y) as (c1 & k3 & R1 & Ee & Q1).
    assert (A1 : agree l s c1).
    { intros x X. assert (D : x <> d) by congruence.
      rewrite Q1 by exact D. rewrite Q; [apply A, X | right; apply Sc, X | exact D]. }
    unfold run in *. rewrite exec_app, R1. cbn [exec_block exec eval].
    rewrite (caller_right _ _ _ _ _ _ _ _ _ Sc HG A1 (Et' k3)), Ee.
    eexists. split; [reflexivity |]. apply agree_put, A1.
  - intros sc code sc' s c k s' k' Sc _ T A E. cbn [translate_block py_block] in *.
    injection T as <- _. injection E as <- <-. unfold run. cbn [exec_block]. eauto.
  - intros p IH1 b IH2 sc code sc' s c k s' k' Sc [O1 O2] T A E.
    cbn [translate_block py_block] in *.
    destruct (translate new gs sc p) as [[b1' sc1] | |] eqn:T1; try discriminate.
    destruct (translate_block new gs sc1 b) as [[b2' sc2] | |] eqn:T2; try discriminate.
    injection T as <- _. destruct (py G l p s k) as [s1 k1 | |] eqn:E1; try discriminate.
    pose proof (proj1 (translate_scope new gs l F) _ _ _ _ Sc T1) as Sc1.
    destruct (IH1 _ _ _ _ _ _ _ _ Sc O1 T1 A E1) as (c1 & R1 & A1).
    destruct (IH2 _ _ _ _ _ _ _ _ Sc1 O2 T2 A1 E) as (c2 & R2 & A2).
    exists c2. split; [| exact A2]. unfold run in *. rewrite exec_app, R1. exact R2.
Qed.

Theorem inline_right : forall new G gs l p code sc s c k s' k',
  fresh new -> (forall x, G x <> None -> In x gs) -> ok_block l p ->
  translate_block new gs l p = Code (code, sc) -> agree l s c ->
  py_block G l p s k = Next s' k' ->
  exists c', run G code c k = Next c' k' /\ agree l s' c'.
Proof.
  intros new G gs l p code sc s c k s' k' F HG O T A E.
  eapply (proj2 (translate_right new G gs l F HG)); eauto. split; auto.
Qed.

(* ------------------------------------------------------------------ what is accepted *)

Lemma visit_some : forall y e tg,
  (forall c, (forall x, In x (assigned c) -> tg x <> None) -> exists b, visit y e tg c = Some b) /\
  (forall c, (forall x, In x (assigned_block c) -> tg x <> None) ->
             exists b, visit_block y e tg c = Some b).
Proof.
  intros y e tg. apply stmt_block_ind; cbn [assigned assigned_block].
  - intros x t H. cbn [visit]. specialize (H x (or_introl eq_refl)). destruct (tg x); [eauto | congruence].
  - intros t b1 IH1 b2 IH2 H. cbn [visit].
    destruct IH1 as [b1' ->]; [intros; apply H, in_or_app; auto |].
    destruct IH2 as [b2' ->]; [intros; apply H, in_or_app; auto |]. eauto.
  - intros x t b IH H. cbn [visit]. destruct IH as [b' ->]; [intros; apply H; right; assumption |].
    specialize (H x (or_introl eq_refl)). destruct (tg x); [eauto | congruence].
  - intros t _. destruct t; cbn [visit]; eauto.
  - intros _. cbn [visit_block]. eauto.
  - intros c IH1 b IH2 H. cbn [visit_block].
    destruct IH1 as [b1' ->]; [intros; apply H, in_or_app; auto |].
    destruct IH2 as [b2' ->]; [intros; apply H, in_or_app; auto |]. eauto.
Qed.

Lemma target_some : forall f actual m, fine f ->
  (forall x, In x (locals f) -> In x (map fst m)) ->
  forall x, In x (assigned_block (body f)) ->
  exists x', target f actual m x = Some x' /\ assoc x m = Some x'.
Proof.
  intros f actual m (_ & Fa & _) Dom x H. unfold target.
  destruct (assoc x (combine (args f) actual)) as [t |] eqn:A.
  - exfalso. apply (Fa x H). apply assoc_in in A. apply in_combine_l in A. exact A.
  - destruct (assoc_some _ m x) as [x' X]; [| eauto]. apply Dom. unfold locals. apply in_or_app. auto.
Qed.

(* The map of a call *)
Lemma keys_right : forall new gs sc f y,
  let res := result_name f in
  let others := filter (fun v => match res with Some r => negb (String.eqb v r) | None => true end)
                       (nodup string_dec (locals f)) in
  forall m sc', rename new gs sc others = (m, sc') ->
  forall x, In x (locals f) ->
    In x (map fst (match res with Some r => (r, y) :: m | None => m end)).
Proof.
  intros new gs sc f y res others m sc' E x H.
  pose proof (rename_keys new gs others sc) as K. rewrite E in K. cbn [fst] in K.
  assert (Q : In x others <-> In x (locals f) /\ res <> Some x).
  { unfold others. rewrite filter_In, nodup_In. destruct res as [r |].
    - rewrite negb_true_iff, String.eqb_neq. split; intros [H1 H2]; split; congruence.
    - split; intros [H1 H2]; split; congruence. }
  destruct res as [r |].
  - cbn [map fst]. destruct (string_dec r x) as [-> | D]; [left; reflexivity |].
    right. rewrite K. apply Q. split; [exact H | congruence].
  - rewrite K. apply Q. split; [exact H | congruence].
Qed.

Lemma expand_some : forall new gs sc y f ts, fine f ->
  exists b sc', expand new gs sc y f ts = (Some b, sc').
Proof.
  intros new gs sc y f ts Fi. unfold expand.
  pose proof (keys_right new gs sc f y) as K. cbv zeta in K.
  destruct (rename new gs sc _) as [m sc'] eqn:Rn. specialize (K m sc' eq_refl).
  set (m' := match result_name f with Some r => (r, y) :: m | None => m end) in *.
  set (actual := map _ ts).
  destruct (proj2 (visit_some y (env f actual m' sc') (target f actual m')) (body f)) as [b ->]; [| eauto].
  intros x H. destruct (target_some f actual m' Fi K x H) as (x' & -> & _). discriminate.
Qed.

(* The variable of the result is not in the statements before the last *)
Lemma names_term_app : forall d e t,
  (forall x, In x (vars t) -> ~ In d (names_term (e x))) -> ~ In d (names_term (visit_term e t)).
Proof.
  intros d e t. induction t as [z | x | a IHa b IHb | t IH]; intros H; cbn [visit_term names_term vars] in *.
  - intros [].
  - apply H. left. reflexivity.
  - rewrite in_app_iff. intros [Q | Q]; revert Q; [apply IHa | apply IHb];
      intros; apply H, in_or_app; auto.
  - auto.
Qed.

Lemma names_app : forall b1 b2, names_block (app_block b1 b2) = names_block b1 ++ names_block b2.
Proof.
  induction b1 as [| c b1 IH]; intros b2; cbn [app_block names_block]; [reflexivity |].
  rewrite IH, app_assoc. reflexivity.
Qed.

Lemma visit_names : forall d y e tg,
  (forall c b, returns c = [] -> visit y e tg c = Some b ->
     (forall x, In x (reads c) -> ~ In d (names_term (e x))) ->
     (forall x x', In x (assigned c) -> tg x = Some x' -> x' <> d) -> ~ In d (names_block b)) /\
  (forall c b, returns_block c = [] -> visit_block y e tg c = Some b ->
     (forall x, In x (reads_block c) -> ~ In d (names_term (e x))) ->
     (forall x x', In x (assigned_block c) -> tg x = Some x' -> x' <> d) -> ~ In d (names_block b)).
Proof.
  intros d y e tg. apply stmt_block_ind; cbn [assigned assigned_block reads reads_block returns returns_block].
  - intros x t b _ V Rd As. cbn [visit] in V. destruct (tg x) as [x' |] eqn:T; [| discriminate].
    injection V as <-. cbn [names_block names]. rewrite app_nil_r. intros [H | H].
    + exact (As x x' (or_introl eq_refl) T H).
    + revert H. apply names_term_app. exact Rd.
  - intros t b1 IH1 b2 IH2 b R V Rd As. cbn [visit] in V. apply app_eq_nil in R as [R1 R2].
    destruct (visit_block y e tg b1) as [b1' |]; [| discriminate].
    destruct (visit_block y e tg b2) as [b2' |]; [| discriminate]. injection V as <-.
    cbn [names_block names]. rewrite app_nil_r, !in_app_iff. intros [H | [H | H]]; revert H.
    + apply names_term_app. intros; apply Rd, in_or_app; auto.
    + apply (IH1 b1' R1 eq_refl); intros; [apply Rd, in_or_app; right; apply in_or_app; auto |].
      eapply As; [apply in_or_app; left; eassumption | eassumption].
    + apply (IH2 b2' R2 eq_refl); intros; [apply Rd, in_or_app; right; apply in_or_app; auto |].
      eapply As; [apply in_or_app; right; eassumption | eassumption].
  - intros x t b IH b0 R V Rd As. cbn [visit] in V. destruct (tg x) as [x' |] eqn:T; [| discriminate].
    destruct (visit_block y e tg b) as [b1' |]; [| discriminate]. injection V as <-.
    cbn [names_block names]. rewrite app_nil_r. intros [H | H].
    + exact (As x x' (or_introl eq_refl) T H).
    + apply in_app_or in H as [H | H]; revert H.
      * apply names_term_app. intros; apply Rd, in_or_app; auto.
      * apply (IH b1' R eq_refl); intros; [apply Rd, in_or_app; auto |].
        eapply As; [right; eassumption | eassumption].
  - discriminate.
  - intros b _ V _ _. injection V as <-. intros [].
  - intros c IH1 b IH2 b0 R V Rd As. cbn [visit_block] in V. apply app_eq_nil in R as [R1 R2].
    destruct (visit y e tg c) as [b1' |]; [| discriminate].
    destruct (visit_block y e tg b) as [b2' |]; [| discriminate]. injection V as <-.
    rewrite names_app, in_app_iff. intros [H | H]; revert H.
    + apply (IH1 b1' R1 eq_refl); intros; [apply Rd, in_or_app; auto |].
      eapply As; [apply in_or_app; left; eassumption | eassumption].
    + apply (IH2 b2' R2 eq_refl); intros; [apply Rd, in_or_app; auto |].
      eapply As; [apply in_or_app; right; eassumption | eassumption].
Qed.

Lemma split_app : forall b1 b2 i c, split_last b2 = Some (i, c) ->
  split_last (app_block b1 b2) = Some (app_block b1 i, c).
Proof.
  induction b1 as [| c1 b1 IH]; intros b2 i c H; cbn [app_block]; [exact H |].
  specialize (IH b2 i c H). cbn [split_last]. rewrite IH.
  destruct (app_block b1 b2); [discriminate | reflexivity].
Qed.

Lemma last_assigned : forall d e tg,
  (forall c b, visit d e tg c = Some b -> last_stmt c = true ->
     (forall x, ~ In (Var x) (returns c)) -> In d (assigned_block b)) /\
  (forall c b, visit_block d e tg c = Some b -> last_block c = true ->
     (forall x, ~ In (Var x) (returns_block c)) -> In d (assigned_block b)).
Proof.
  assert (App : forall A (b1 b2 : block A), assigned_block (app_block b1 b2) = assigned_block b1 ++ assigned_block b2).
  { intros A. induction b1 as [| c b1 IH]; intros b2; cbn [app_block assigned_block]; [reflexivity |].
    rewrite IH, app_assoc. reflexivity. }
  intros d e tg. apply stmt_block_ind; cbn [last_stmt]; try discriminate.
  - intros t b1 IH1 b2 IH2 b V L R. cbn [visit returns] in *. apply andb_prop in L as [L1 L2].
    destruct (visit_block d e tg b1) as [b1' |]; [| discriminate].
    destruct (visit_block d e tg b2) as [b2' |]; [| discriminate]. injection V as <-.
    cbn [assigned_block assigned]. apply in_or_app. left. apply in_or_app. left.
    apply (IH1 b1' eq_refl L1). intros x H. apply (R x), in_or_app. auto.
  - intros t b V _ R. destruct t; cbn [visit returns] in *;
      [| exfalso; eapply R; left; reflexivity | |]; injection V as <-; left; reflexivity.
  - intros c IH1 b IH2 b0 V L R. cbn [visit_block returns_block] in *.
    destruct (visit d e tg c) as [b1' |]; [| discriminate].
    destruct (visit_block d e tg b) as [b2' |]; [| discriminate]. injection V as <-.
    rewrite App. apply in_or_app. destruct b as [| c2 b2].
    + left. apply (IH1 b1' eq_refl L). intros x H. apply (R x), in_or_app. auto.
    + right. apply (IH2 b2' eq_refl).
      * cbn [last_block] in L. destruct (returns c); [exact L | discriminate].
      * intros x H. apply (R x), in_or_app. auto.
Qed.

Lemma last_split : forall d e tg b b', visit_block d e tg b = Some b' -> last_block b = true ->
  (forall x, ~ In (Var x) (returns_block b)) ->
  (forall x, In x (reads_block b) -> ~ In d (names_term (e x))) ->
  (forall x x', In x (assigned_block b) -> tg x = Some x' -> x' <> d) ->
  exists i c, split_last b' = Some (i, c) /\
    match c with
    | Set_ p t => p = d /\ ~ In d (names_block i ++ names_term t)
    | _ => True
    end.
Proof.
  intros d e tg b. induction b as [| c b IH]; intros b' V L R Rd As; [discriminate |].
  cbn [visit_block returns_block reads_block assigned_block] in *.
  destruct (visit d e tg c) as [b1 |] eqn:Vc; [| discriminate].
  destruct (visit_block d e tg b) as [b2 |] eqn:Vb; [| discriminate]. injection V as <-.
  destruct b as [| c2 b3].
  - cbn [visit_block] in Vb. injection Vb as <-. rewrite app_nil_r'. cbn [last_block] in L.
    destruct c as [x t | t c1 c2 | x t c1 | t]; try discriminate.
    + cbn [visit] in Vc. destruct (visit_block d e tg c1); [| discriminate].
      destruct (visit_block d e tg c2); [| discriminate]. injection Vc as <-.
      eexists Nil, _. split; [reflexivity | exact Logic.I].
    + apply visit_return in Vc as [(x & -> & _) | ->].
      * exfalso. apply (R x). left. reflexivity.
      * eexists Nil, _. split; [reflexivity |]. split; [reflexivity |]. cbn [names_block app].
        apply names_term_app. intros x H. apply Rd. cbn [reads]. apply in_or_app. auto.
  - assert (Lc : returns c = [] /\ last_block (Cons c2 b3) = true).
    { cbn [last_block] in L. destruct (returns c); [auto | discriminate]. }
    destruct Lc as [Rc Lb].
    destruct (IH b2 eq_refl Lb) as (i & cc & Sp & Q).
    + intros x H. apply (R x), in_or_app. auto.
    + intros x H. apply Rd, in_or_app. auto.
    + intros x x' H. apply As, in_or_app. auto.
    + exists (app_block b1 i), cc. split; [apply split_app, Sp |]. destruct cc; try exact Q.
      destruct Q as [-> Q]. split; [reflexivity |]. rewrite names_app, !in_app_iff. rewrite in_app_iff in Q.
      assert (N : ~ In d (names_block b1)).
      { apply (proj1 (visit_names d d e tg) c b1 Rc Vc).
        - intros v H. apply Rd, in_or_app. auto.
        - intros v v' H. apply As, in_or_app. auto. }
      tauto.
Qed.

Lemma names_vars : forall t d, In d (names_term t) -> In (Loc d) (vars t).
Proof.
  induction t as [z | [x | x] | a IHa b IHb | t IH]; intros d H; cbn [names_term vars] in *.
  - destruct H.
  - destruct H as [-> | []]. left. reflexivity.
  - destruct H.
  - rewrite in_app_iff in *. destruct H; auto.
  - auto.
Qed.

Lemma use_some : forall new gs l sc d f ts b sc', fresh new -> scope gs l sc -> fine f ->
  bound gs l f ts -> ~ In d sc -> ~ In d gs -> ~ In d l ->
  expand new gs (d :: sc) d f ts = (Some b, sc') ->
  exists b' e, use d f b = Code (b', e).
Proof.
  intros new gs l sc d f ts b sc' F Sc Fi (B1 & B2 & B3) Ns Ng Nl E. unfold expand in E.
  pose proof (keys_right new gs (d :: sc) f d) as K. cbv zeta in K.
  rewrite B3 in *. set (others := filter _ _) in *.
  pose proof (rename_values new gs others (d :: sc) F) as Rn.
  destruct (rename new gs (d :: sc) others) as [m sc1]. specialize (K m sc1 eq_refl). cbv zeta in E.
  injection E as E <-. destruct Rn as (_ & Vs & I1).
  set (actual := map _ ts) in E.
  assert (NV : forall x, ~ In (Var x) (returns_block (body f))).
  { intros x H. destruct Fi as (_ & _ & Fr). specialize (Fr x H). congruence. }
  assert (Mv : forall x x', assoc x m = Some x' -> x' <> d).
  { intros x x' H ->. apply assoc_in in H. destruct (Vs d) as [Q _].
    - apply in_map_iff. exists (x, d). auto.
    - apply Q. left. reflexivity. }
  destruct (last_split d (env f actual m sc1) (target f actual m) (body f) b E (proj1 Fi) NV)
    as (i & cc & Sp & Q).
  - intros x Rx H. apply names_vars in H. unfold env in H.
    destruct (assoc x (combine (args f) actual)) as [t |] eqn:A.
    + apply assoc_in, in_combine_r in A. unfold actual in A. apply in_map_iff in A as (t0 & <- & It).
      apply vars_visit in H as [H _]. destruct (B1 t0 d It H); contradiction.
    + destruct (assoc x m) as [x' |] eqn:X.
      * destruct H as [H | []]. injection H as ->. exact (Mv x d X eq_refl).
      * unfold find in H. cbn [vars] in H. destruct (mem x sc1); destruct H as [H | []]; [| discriminate].
        injection H as ->. apply assoc_none in X.
        destruct (B2 d Rx) as [Ld | Gd]; [| contradiction]. exact (X (K d Ld)).
  - intros x x' H T. destruct (target_some f actual m Fi K x H) as (x2 & T2 & X2).
    assert (x' = x2) by congruence. subst. eapply Mv; eauto.
  - unfold use. rewrite (proj2 (mem_in d (assigned_block b))).
    + destruct (returns_block (body f)) as [| t [| t2 tl]]; eauto. rewrite Sp.
      destruct cc as [p t3 | | |]; eauto. destruct Q as [-> Q]. rewrite String.eqb_refl.
      apply mem_out in Q. rewrite Q. cbn [negb andb]. eauto.
    + apply (proj2 (last_assigned d (env f actual m sc1) (target f actual m)) (body f) b E (proj1 Fi) NV).
Qed.

Lemma translate_some : forall new gs l, fresh new ->
  (forall p sc, scope gs l sc -> ok l p -> usable gs l p ->
     exists r, translate new gs sc p = Code r) /\
  (forall p sc, scope gs l sc -> ok_block l p -> usable_block gs l p ->
     exists r, translate_block new gs sc p = Code r).
Proof.
  intros new gs l F. apply cstmt_cblock_ind; cbn [ok ok_block usable usable_block].
  - intros x t sc _ _ _. cbn [translate]. eauto.
  - intros t b1 IH1 b2 IH2 sc Sc [O1 O2] [U1 U2]. cbn [translate].
    destruct (IH1 sc Sc O1 U1) as [[b1' sc1] E1]. rewrite E1.
    pose proof (proj2 (translate_scope new gs l F) _ _ _ _ Sc E1) as Sc1.
    destruct (IH2 sc1 Sc1 O2 U2) as [[b2' sc2] ->]. eauto.
  - intros x t b IH sc Sc [_ O] U. cbn [translate]. destruct (IH sc Sc O U) as [[b' sc1] ->]. eauto.
  - intros y f ts sc Sc (_ & (Fi & _) & _) _. cbn [translate].
    destruct (expand_some new gs sc y f ts Fi) as (b & sc' & ->). eauto.
  - intros y t f ts sc Sc (_ & _ & (Fi & _)) Bd. cbn [translate].
    set (d := new (sc ++ gs) "Dummy"%string).
    pose proof (F (sc ++ gs) "Dummy"%string) as N. fold d in N. rewrite in_app_iff in N.
    destruct (expand_some new gs (d :: sc) d f ts Fi) as (b & sc' & Ex). rewrite Ex.
    destruct (use_some new gs l sc d f ts b sc' F Sc Fi Bd) as (b' & e & ->); try tauto; eauto.
    intros H. apply N. left. apply Sc, H.
  - intros sc _ _ _. cbn [translate_block]. eauto.
  - intros c IH1 b IH2 sc Sc [O1 O2] [U1 U2]. cbn [translate_block].
    destruct (IH1 sc Sc O1 U1) as [[c' sc1] E1]. rewrite E1.
    pose proof (proj1 (translate_scope new gs l F) _ _ _ _ Sc E1) as Sc1.
    destruct (IH2 sc1 Sc1 O2 U2) as [[b' sc2] ->]. eauto.
Qed.

Theorem inline_accepted : forall new gs l p, fresh new -> ok_block l p -> usable_block gs l p ->
  exists code sc, translate_block new gs l p = Code (code, sc).
Proof.
  intros new gs l p F O U. destruct (proj2 (translate_some new gs l F) p l) as [[code sc] E]; auto.
  - split; auto.
  - eauto.
Qed.
