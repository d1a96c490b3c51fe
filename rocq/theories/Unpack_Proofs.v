(* Proofs about assignments to several targets. *)
From Coq Require Import Bool Arith ZArith Lia List.
From Verif Require Import Unpack_Model Unpack_Spec.
Import ListNotations.
Open Scope list_scope.

Lemma var_eqb_eq : forall a b, var_eqb a b = true <-> a = b.
Proof. intros [x|x] [y|y]; cbn; rewrite ?Nat.eqb_eq; split; congruence. Qed.
Lemma var_eqb_refl : forall a, var_eqb a a = true.
Proof. intros a. apply var_eqb_eq. reflexivity. Qed.
Lemma var_eqb_neq : forall a b, a <> b -> var_eqb a b = false.
Proof. intros a b N. destruct (var_eqb a b) eqn:E; [apply var_eqb_eq in E; contradiction|reflexivity]. Qed.
Lemma idx_eqb_eq : forall a b, idx_eqb a b = true -> a = b.
Proof. intros [x|x|f x x'] [y|y|g y y'] E; cbn in E; try discriminate; [apply Z.eqb_eq in E|apply var_eqb_eq in E]; congruence. Qed.

(* ------------------------------- the two loops -------------------------------- *)

Fixpoint loop (k : nat) (ts : list target) (rs : list expr) {struct ts} : option (nat * list stmt) :=
  match ts, rs with
  | [], _ => Some (k, [])
  | _ :: _, [] => None
  | t1 :: ts', r :: rs' =>
    let '(k1, pre, r1, rs1) := save k t1 r rs' in
    match visit k1 t1 r1 with
    | None => None
    | Some (k2, l1) =>
      match loop k2 ts' rs1 with
      | None => None
      | Some (k3, l2) => Some (k3, pre ++ l1 ++ l2)
      end
    end
  end.
Lemma visit_tup : forall k ts rs, visit k (TTup ts) (ETup rs) = if accepted ts rs then loop k ts rs else None.
Proof. reflexivity. Qed.

Fixpoint store_all (ts : list target) (vs : list value) (s : state) {struct ts} : option state :=
  match ts, vs with
  | [], [] => Some s
  | t1 :: ts', v1 :: vs' => match py_store t1 v1 s with Some s1 => store_all ts' vs' s1 | None => None end
  | _, _ => None
  end.
Lemma store_tup : forall ts vs s, py_store (TTup ts) (VSeq vs) s = store_all ts vs s.
Proof. reflexivity. Qed.

Lemma flat_value : forall s e, flat e -> py_value s e = VInt (eval s e).
Proof. intros s [z|x|x i|f e|f e1 e2|l] F; try reflexivity. destruct F. Qed.

(* ------------------ expressions in which temporaries stand for values ----------------- *)

Definition var_ok (s0 sg : state) (k : nat) (before : list target) (x y : var) : Prop :=
  scalar sg y = scalar s0 x /\ (y = x \/ exists j, j < k /\ y = VTemp j /\ In (TVar x) before).

Fixpoint oki (s0 sg : state) (k : nat) (before : list target) (i0 i : idx) : Prop :=
  match i0, i with
  | ILit a, ILit b => a = b
  | IVar x, IVar y => var_ok s0 sg k before x y
  | IOp f a b, IOp g c d => f = g /\ oki s0 sg k before a c /\ oki s0 sg k before b d
  | _, _ => False
  end.
Fixpoint ok (s0 sg : state) (k : nat) (before : list target) (e0 e : expr) : Prop :=
  match e0, e with
  | ELit a, ELit b => a = b
  | EVar x, EVar y => var_ok s0 sg k before x y
  | EElem x i0, EElem y i => x = y /\ oki s0 sg k before i0 i /\ array sg x (ival sg i) = array s0 x (ival s0 i0)
  | EElem x i0, EVar y => scalar sg y = array s0 x (ival s0 i0) /\ exists j, j < k /\ y = VTemp j
  | EUn f a, EUn g c => f = g /\ ok s0 sg k before a c
  | EBin f a b, EBin g c d => f = g /\ ok s0 sg k before a c /\ ok s0 sg k before b d
  | _, _ => False
  end.

Lemma oki_val : forall s0 sg k before i0 i, oki s0 sg k before i0 i -> ival sg i = ival s0 i0.
Proof.
  intros s0 sg k before. induction i0 as [z|x|f a IHa b IHb]; intros [z'|y|g c d] O; cbn in O; try contradiction; cbn [ival].
  - congruence.
  - apply O.
  - destruct O as (-> & O1 & O2). rewrite (IHa c O1), (IHb d O2). reflexivity.
Qed.

Lemma ok_val : forall s0 sg k before e0 e, ok s0 sg k before e0 e -> eval sg e = eval s0 e0.
Proof.
  intros s0 sg k before. induction e0 as [z|x|x i0|f a IHa|f a IHa b IHb|l]; intros [z'|y|y i|g c|g c d|l'] O; cbn in O; try contradiction; cbn [eval].
  - congruence.
  - apply O.
  - apply O.
  - destruct O as (-> & _ & E). exact E.
  - destruct O as [-> O]. rewrite (IHa c O). reflexivity.
  - destruct O as (-> & O1 & O2). rewrite (IHa c O1), (IHb d O2). reflexivity.
Qed.

Lemma oki_vars : forall s0 sg k before i0 i n, oki s0 sg k before i0 i -> In (VUser n) (ivars i) -> In (VUser n) (ivars i0).
Proof.
  intros s0 sg k before. induction i0 as [z|x|f a IHa b IHb]; intros [z'|y|g c d] n O I; cbn in O; try contradiction; cbn [ivars] in *.
  - destruct O as [_ [->|(j & _ & -> & _)]]; [exact I|]. destruct I as [I|[]]; discriminate.
  - destruct O as (-> & O1 & O2). apply in_app_or in I. apply in_or_app. destruct I as [I|I]; [left; apply (IHa c)|right; apply (IHb d)]; assumption.
Qed.

Lemma oki_same : forall s0 sg k before i0 i, oki s0 sg k before i0 i -> (forall y, In (TVar y) before -> ~ In y (ivars i0)) -> i = i0.
Proof.
  intros s0 sg k before. induction i0 as [z|x|f a IHa b IHb]; intros [z'|y|g c d] O N; cbn in O; try contradiction; cbn [ivars] in *.
  - congruence.
  - destruct O as [_ [->|(j & _ & _ & I)]]; [reflexivity|]. elim (N x I). left. reflexivity.
  - destruct O as (-> & O1 & O2). rewrite (IHa c O1), (IHb d O2); [reflexivity| |]; intros y I J; apply (N y I); apply in_or_app; auto.
Qed.

Lemma ok_elem : forall s0 sg k before e0 e x i, ok s0 sg k before e0 e -> In (LElem x i) (leaves e) -> exists i0, In (LElem x i0) (leaves e0) /\ oki s0 sg k before i0 i.
Proof.
  intros s0 sg k before. induction e0 as [z|x0|x0 i0|f a IHa|f a IHa b IHb|l]; intros [z'|y|y j|g c|g c d|l'] x i O I; cbn in O; try contradiction; cbn [leaves] in *;
    try (destruct I as [I|[]]; discriminate).
  - destruct I as [I|[]]. injection I as -> ->. destruct O as (-> & O & _). exists i0. split; [left; reflexivity|exact O].
  - destruct O as [-> O]. apply (IHa c); assumption.
  - destruct O as (-> & O1 & O2). apply in_app_or in I. destruct I as [I|I]; [destruct (IHa c x i O1 I) as (i1 & J & K)|destruct (IHb d x i O2 I) as (i1 & J & K)];
      exists i1; (split; [apply in_or_app; auto|exact K]).
Qed.

Definition occurs (x : var) (e : expr) : Prop := In (LVar x) (leaves e) \/ exists y i, In (LElem y i) (leaves e) /\ In x (ivars i).

(* more temporaries, more targets *)
Lemma oki_more : forall s0 sg k k' before before' i0 i, k <= k' -> incl before before' -> oki s0 sg k before i0 i -> oki s0 sg k' before' i0 i.
Proof.
  intros s0 sg k k' before before' i0 i L B. revert i. induction i0 as [z|x|f a IHa b IHb]; intros [z'|y|g c d] O; cbn in *; try contradiction; auto.
  - destruct O as [E [->|(j & J & -> & I)]]; split; auto. right. exists j. split; [lia|]. split; [reflexivity|apply B; exact I].
  - destruct O as (-> & O1 & O2). auto.
Qed.
Lemma ok_more : forall s0 sg k k' before before' e0 e, k <= k' -> incl before before' -> ok s0 sg k before e0 e -> ok s0 sg k' before' e0 e.
Proof.
  intros s0 sg k k' before before' e0 e L B. revert e. induction e0 as [z|x|x i0|f a IHa|f a IHa b IHb|l]; intros [z'|y|y i|g c|g c d|l'] O; cbn in *; try contradiction; auto.
  - destruct O as [E [->|(j & J & -> & I)]]; split; auto. right. exists j. split; [lia|]. split; [reflexivity|apply B; exact I].
  - destruct O as (E & j & J & ->). split; [exact E|]. exists j. split; [lia|reflexivity].
  - destruct O as (-> & O & E). split; [reflexivity|]. split; [apply (oki_more s0 sg k k' before before'); assumption|exact E].
  - destruct O as [-> O]. auto.
  - destruct O as (-> & O1 & O2). auto.
Qed.

(* assigning a variable that does not occur *)
Lemma ival_scalar : forall s x z i, ~ In x (ivars i) -> ival (set_scalar s x z) i = ival s i.
Proof.
  intros s x z. induction i as [a|y|f a IHa b IHb]; intros N; cbn [ival ivars] in *.
  - reflexivity.
  - unfold set_scalar. cbn [scalar]. rewrite var_eqb_neq; [reflexivity|]. intros ->. apply N. left. reflexivity.
  - rewrite IHa, IHb; [reflexivity| |]; intros I; apply N; apply in_or_app; auto.
Qed.
Lemma oki_scalar : forall s0 sg k before x z i0 i, ~ In x (ivars i) -> oki s0 sg k before i0 i -> oki s0 (set_scalar sg x z) k before i0 i.
Proof.
  intros s0 sg k before x z. induction i0 as [a|x0|f a IHa b IHb]; intros [a'|y|g c d] N O; cbn [oki ivars] in *; try contradiction; auto.
  - destruct O as [E O]. split; [|exact O]. unfold set_scalar. cbn [scalar]. rewrite var_eqb_neq; [exact E|]. intros ->. apply N. left. reflexivity.
  - destruct O as (-> & O1 & O2). split; [reflexivity|]. split; [apply IHa|apply IHb]; auto; intros I; apply N; apply in_or_app; auto.
Qed.
Lemma ok_scalar : forall s0 sg k before x z e0 e, ~ occurs x e -> ok s0 sg k before e0 e -> ok s0 (set_scalar sg x z) k before e0 e.
Proof.
  intros s0 sg k before x z. induction e0 as [a|x0|x0 i0|f a IHa|f a IHa b IHb|l]; intros [a'|y|y i|g c|g c d|l'] N O; cbn [ok] in *; try contradiction; auto.
  - destruct O as [E O]. split; [|exact O]. unfold set_scalar. cbn [scalar]. rewrite var_eqb_neq; [exact E|]. intros ->. apply N. left. left. reflexivity.
  - destruct O as [E O]. split; [|exact O]. unfold set_scalar. cbn [scalar]. rewrite var_eqb_neq; [exact E|]. intros ->. apply N. left. left. reflexivity.
  - assert (Ni : ~ In x (ivars i)) by (intros I; apply N; right; exists y, i; split; [left; reflexivity|exact I]).
    destruct O as (-> & O & E). split; [reflexivity|]. split; [apply oki_scalar; assumption|]. rewrite ival_scalar by exact Ni. exact E.
  - destruct O as [-> O]. split; [reflexivity|]. apply IHa; assumption.
  - destruct O as (-> & O1 & O2). split; [reflexivity|].
    split; [apply IHa|apply IHb]; auto; intros [I|(y & i & I & J)]; apply N; [left|right; exists y, i; split; [|exact J]|left|right; exists y, i; split; [|exact J]]; cbn [leaves]; apply in_or_app; auto.
Qed.

(* assigning an element that is not read *)
Lemma ival_elem : forall s x j z i, ival (set_elem s x j z) i = ival s i.
Proof. intros s x j z. induction i as [a|y|f a IHa b IHb]; cbn [ival]; [reflexivity|reflexivity|congruence]. Qed.
Lemma oki_elem : forall s0 sg k before x j z i0 i, oki s0 sg k before i0 i -> oki s0 (set_elem sg x j z) k before i0 i.
Proof.
  intros s0 sg k before x j z. induction i0 as [a|x0|f a IHa b IHb]; intros [a'|y|g c d] O; cbn [oki] in *; try contradiction; auto. destruct O as (-> & O1 & O2). auto.
Qed.
Lemma ok_set_elem : forall s0 sg k before x j z e0 e, (forall i, In (LElem x i) (leaves e) -> ival sg i <> j) -> ok s0 sg k before e0 e -> ok s0 (set_elem sg x j z) k before e0 e.
Proof.
  intros s0 sg k before x j z. induction e0 as [a|x0|x0 i0|f a IHa|f a IHa b IHb|l]; intros [a'|y|y i|g c|g c d|l'] N O; cbn [ok leaves] in *; try contradiction; auto.
  - destruct O as (-> & O & E). split; [reflexivity|]. split; [apply oki_elem; exact O|]. rewrite ival_elem. unfold set_elem. cbn [array].
    destruct (var_eqb y x && Z.eqb (ival sg i) j) eqn:C; [|exact E]. apply andb_true_iff in C. destruct C as [C1 C2]. apply var_eqb_eq in C1. subst y.
    apply Z.eqb_eq in C2. elim (N i); [left; reflexivity|exact C2].
  - destruct O as [-> O]. split; [reflexivity|]. apply IHa; assumption.
  - destruct O as (-> & O1 & O2). split; [reflexivity|]. split; [apply IHa|apply IHb]; auto; intros i I; apply N; apply in_or_app; auto.
Qed.

(* ---------------------------- saving a target ---------------------------- *)

Definition temps_below (k : nat) (e : expr) : Prop := forall j, occurs (VTemp j) e -> j < k.

Lemma oki_temps : forall s0 sg k before i0 i j, Forall is_user (ivars i0) -> oki s0 sg k before i0 i -> In (VTemp j) (ivars i) -> j < k.
Proof.
  intros s0 sg k before. induction i0 as [a|x0|f a IHa b IHb]; intros [a'|y|g c d] j U O I; cbn [oki ivars] in *; try contradiction.
  - destruct I as [->|[]]. destruct O as [_ [E|(j' & L & E & _)]]; [|injection E as ->; exact L]. inversion U as [|? ? (n & Un) _]; subst. discriminate.
  - destruct O as (-> & O1 & O2). apply Forall_app in U. destruct U. apply in_app_or in I. destruct I; [apply (IHa c)|apply (IHb d)]; assumption.
Qed.
Lemma ok_temps : forall s0 sg k before e0 e, flat e0 -> ok s0 sg k before e0 e -> temps_below k e.
Proof.
  intros s0 sg k before. induction e0 as [a|x0|x0 i0|f a IHa|f a IHa b IHb|l]; intros [a'|y|y i|g c|g c d|l'] F O j H; cbn [ok flat] in *; try contradiction.
  - destruct H as [[]|(? & ? & [] & _)].
  - destruct H as [[E|[]]|(? & ? & [E|[]] & _)]; [|discriminate]. injection E as ->. destruct O as [_ [E|(j' & L & E & _)]]; [|injection E as ->; exact L]. subst. destruct F as (n & Fn). discriminate.
  - destruct H as [[E|[]]|(? & ? & [E|[]] & _)]; [|discriminate]. injection E as ->. destruct O as (_ & j' & L & E). injection E as ->. exact L.
  - destruct H as [[E|[]]|(y' & i' & [E|[]] & I)]; [discriminate|]. injection E as -> ->. destruct O as (_ & O & _). destruct F as [_ F]. apply (oki_temps s0 sg k before i0 i'); assumption.
  - destruct O as [-> O]. apply (IHa c F O j H).
  - destruct O as (-> & O1 & O2). destruct F as [F1 F2]. destruct H as [H|(y & i & H & I)]; cbn [leaves] in H; apply in_app_or in H; destruct H as [H|H].
    + apply (IHa c F1 O1 j). left. exact H.
    + apply (IHb d F2 O2 j). left. exact H.
    + apply (IHa c F1 O1 j). right. exists y, i. auto.
    + apply (IHb d F2 O2 j). right. exists y, i. auto.
Qed.

(* the value of the leaf is in the temporary *)
Definition held (sg : state) (k : nat) (a : leaf) : Prop := scalar sg (VTemp k) = eval sg (leaf_expr a).

Lemma oki_subst : forall s0 sg k before n i0 i, Forall is_user (ivars i0) -> held sg k (LVar (VUser n)) -> In (TVar (VUser n)) before ->
  oki s0 sg k before i0 i -> oki s0 sg (S k) before i0 (subst_idx (VUser n) (VTemp k) i).
Proof.
  intros s0 sg k before n. induction i0 as [a|x0|f a IHa b IHb]; intros [a'|y|g c d] U H B O; cbn [oki ivars subst_idx] in *; try contradiction; auto.
  - destruct (var_eqb y (VUser n)) eqn:E; cbn [oki].
    + apply var_eqb_eq in E. subst y. destruct O as [E [X|(j & _ & X & _)]]; [|discriminate]. subst x0. split; [rewrite H; exact E|]. right. exists k. split; [lia|]. split; [reflexivity|exact B].
    + apply (oki_more s0 sg k (S k) before before (IVar x0) (IVar y)); [lia|apply incl_refl|exact O].
  - destruct O as (-> & O1 & O2). apply Forall_app in U. destruct U. split; [reflexivity|]. split; [apply IHa|apply IHb]; assumption.
Qed.
Lemma subst_idx_val : forall sg k n i, held sg k (LVar (VUser n)) -> ival sg (subst_idx (VUser n) (VTemp k) i) = ival sg i.
Proof.
  intros sg k n. induction i as [a|y|f a IHa b IHb]; intros H; cbn [subst_idx ival].
  - reflexivity.
  - destruct (var_eqb y (VUser n)) eqn:E; cbn [ival]; [|reflexivity]. apply var_eqb_eq in E. subst y. exact H.
  - rewrite IHa, IHb by exact H. reflexivity.
Qed.

Definition leaf_user (a : leaf) : Prop := match a with LVar x => is_user x | LElem x i => is_user x /\ Forall is_user (ivars i) end.
Definition leaf_target (a : leaf) : target := match a with LVar x => TVar x | LElem x i => TElem x i end.

Lemma ok_subst : forall s0 sg k before a e0 e, flat e0 -> leaf_user a -> held sg k a -> In (leaf_target a) before ->
  ok s0 sg k before e0 e -> ok s0 sg (S k) before e0 (subst a (VTemp k) e).
Proof.
  intros s0 sg k before a. induction e0 as [z|x0|x0 i0|f e1 IHa|f e1 IHa e2 IHb|l]; intros [z'|y|y i|g c|g c d|l'] F U H B O; cbn [ok flat subst] in *; try contradiction; auto.
  - destruct a as [x|x j].
    + destruct U as (n & ->). destruct (var_eqb y (VUser n)) eqn:E; cbn [ok].
      * apply var_eqb_eq in E. subst y. destruct O as [E [X|(j & _ & X & _)]]; [|discriminate]. subst x0. split; [rewrite H; exact E|]. right. exists k. split; [lia|]. split; [reflexivity|exact B].
      * apply (ok_more s0 sg k (S k) before before (EVar x0) (EVar y)); [lia|apply incl_refl|exact O].
    + cbn [ok]. apply (ok_more s0 sg k (S k) before before (EVar x0) (EVar y)); [lia|apply incl_refl|exact O].
  - assert (X : ok s0 sg (S k) before (EElem x0 i0) (EVar y)) by (apply (ok_more s0 sg k (S k) before before); [lia|apply incl_refl|exact O]).
    destruct a as [x|x j]; [|exact X]. destruct U as (n & ->). destruct (var_eqb y (VUser n)) eqn:E; [|exact X]. apply var_eqb_eq in E. subst y.
    destruct O as (_ & j & _ & Z). discriminate.
  - destruct O as (-> & O & E). destruct F as [_ F]. destruct a as [x|x j].
    + destruct U as (n & ->). cbn [ok]. split; [reflexivity|]. split; [apply oki_subst; assumption|]. rewrite subst_idx_val by exact H. exact E.
    + destruct (var_eqb y x && idx_eqb i j) eqn:C.
      * apply andb_true_iff in C. destruct C as [C1 C2]. apply var_eqb_eq in C1. apply idx_eqb_eq in C2. subst y j. cbn [ok]. split; [rewrite H; exact E|]. exists k. split; [lia|reflexivity].
      * cbn [ok]. split; [reflexivity|]. split; [apply (oki_more s0 sg k (S k) before before); [lia|apply incl_refl|exact O]|exact E].
  - destruct O as [-> O]. cbn [ok]. split; [reflexivity|]. apply IHa; assumption.
  - destruct O as (-> & O1 & O2). destruct F. cbn [ok]. split; [reflexivity|]. split; [apply IHa|apply IHb]; assumption.
Qed.

(* what is left after the substitution *)
Lemma subst_idx_vars : forall x k i y, In y (ivars (subst_idx x (VTemp k) i)) -> y = VTemp k \/ (In y (ivars i) /\ y <> x).
Proof.
  intros x k. induction i as [a|z|f a IHa b IHb]; intros y I; cbn [subst_idx ivars] in *.
  - destruct I.
  - destruct (var_eqb z x) eqn:E; cbn [ivars] in I; destruct I as [<-|[]]; [left; reflexivity|]. right. split; [left; reflexivity|]. intros ->. rewrite var_eqb_refl in E. discriminate.
  - apply in_app_or in I. destruct I as [I|I]; [destruct (IHa y I) as [?|[? ?]]|destruct (IHb y I) as [?|[? ?]]]; auto; right; split; auto; apply in_or_app; auto.
Qed.


Fixpoint no_tup (e : expr) : Prop :=
  match e with ETup _ => False | EUn _ a => no_tup a | EBin _ a b => no_tup a /\ no_tup b | _ => True end.

Lemma ok_no_tup : forall s0 sg k before e0 e, ok s0 sg k before e0 e -> no_tup e.
Proof.
  intros s0 sg k before. induction e0 as [z|x0|x0 i0|f e1 IHa|f e1 IHa e2 IHb|l]; intros [z'|y|y i|g c|g c d|l'] O; cbn [ok no_tup] in *; try contradiction; auto.
  - apply (IHa c). apply O.
  - split; [apply (IHa c)|apply (IHb d)]; apply O.
Qed.

Lemma subst_gone_var : forall x k e, no_tup e -> x <> VTemp k -> ~ occurs x (subst (LVar x) (VTemp k) e).
Proof.
  intros x k. induction e as [z|y|y i|f a IHa|f a IHa b IHb|l]; intros T N [H|(y' & i' & H & I)]; cbn [subst leaves no_tup] in *.
  - destruct H.
  - destruct H.
  - destruct (var_eqb y x) eqn:E; destruct H as [H|[]]; injection H as H; [congruence|]. subst y. rewrite var_eqb_refl in E. discriminate.
  - destruct (var_eqb y x); destruct H as [H|[]]; discriminate.
  - destruct H as [H|[]]. discriminate.
  - destruct H as [H|[]]. injection H as -> <-. destruct (subst_idx_vars x k i x I) as [E|[_ E]]; congruence.
  - apply (IHa T N). left. exact H.
  - apply (IHa T N). right. exists y', i'. auto.
  - destruct T. apply in_app_or in H. destruct H as [H|H]; [apply (IHa H0 N)|apply (IHb H1 N)]; left; exact H.
  - destruct T. apply in_app_or in H. destruct H as [H|H]; [apply (IHa H0 N)|apply (IHb H1 N)]; right; exists y', i'; auto.
  - destruct T.
  - destruct T.
Qed.

Lemma subst_elem_leaf : forall x j k e y i, no_tup e -> In (LElem y i) (leaves (subst (LElem x j) (VTemp k) e)) -> In (LElem y i) (leaves e) /\ (var_eqb y x && idx_eqb i j = false).
Proof.
  intros x j k. induction e as [z|y0|y0 i0|f a IHa|f a IHa b IHb|l]; intros y i T H; cbn [subst leaves no_tup] in *.
  - destruct H.
  - destruct H as [H|[]]. discriminate.
  - destruct (var_eqb y0 x && idx_eqb i0 j) eqn:E; destruct H as [H|[]]; [discriminate|]. injection H as -> ->. split; [left; reflexivity|exact E].
  - apply IHa; assumption.
  - destruct T as [T1 T2]. apply in_app_or in H. destruct H as [H|H]; [destruct (IHa y i T1 H)|destruct (IHb y i T2 H)]; (split; [apply in_or_app; auto|assumption]).
  - destruct T.
Qed.

(* variables of the program: no new ones *)
Lemma subst_occurs : forall a k e n, no_tup e -> occurs (VUser n) (subst a (VTemp k) e) -> occurs (VUser n) e.
Proof.
  intros a k. induction e as [z|y0|y0 i0|f e1 IHa|f e1 IHa e2 IHb|l]; intros n T H; cbn [subst no_tup] in *.
  - exact H.
  - destruct a as [x|x j]; [|exact H]. destruct (var_eqb y0 x); [|exact H]. destruct H as [[H|[]]|(? & ? & [H|[]] & _)]; discriminate.
  - destruct a as [x|x j].
    + destruct H as [[H|[]]|(y & i & [H|[]] & I)]; [discriminate|]. injection H as <- <-. right. exists y0, i0. split; [left; reflexivity|].
      destruct (subst_idx_vars x k i0 _ I) as [E|[E _]]; [discriminate|exact E].
    + destruct (var_eqb y0 x && idx_eqb i0 j); [|exact H]. destruct H as [[H|[]]|(? & ? & [H|[]] & _)]; discriminate.
  - apply IHa; assumption.
  - destruct T as [T1 T2].
    assert (X : occurs (VUser n) e1 \/ occurs (VUser n) e2).
    { destruct H as [H|(y & i & H & I)]; cbn [leaves] in H; apply in_app_or in H; destruct H as [H|H].
      - left. apply IHa; [exact T1|]. left. exact H.
      - right. apply IHb; [exact T2|]. left. exact H.
      - left. apply IHa; [exact T1|]. right. exists y, i. auto.
      - right. apply IHb; [exact T2|]. right. exists y, i. auto. }
    destruct X as [[X|(y & i & X & I)]|[X|(y & i & X & I)]]; [left|right; exists y, i; split; [|exact I]|left|right; exists y, i; split; [|exact I]]; cbn [leaves]; apply in_or_app; auto.
  - destruct T.
Qed.

(* other variables stay outside of subscripts *)
Lemma subst_plain : forall a k e n, no_tup e -> a <> LVar (VUser n) -> In (LVar (VUser n)) (leaves e) -> In (LVar (VUser n)) (leaves (subst a (VTemp k) e)).
Proof.
  intros a k. induction e as [z|y0|y0 i0|f e1 IHa|f e1 IHa e2 IHb|l]; intros n T N H; cbn [subst leaves no_tup] in *.
  - exact H.
  - destruct a as [x|x j]; [|exact H]. destruct H as [H|[]]. injection H as ->. rewrite var_eqb_neq by congruence. left. reflexivity.
  - destruct H as [H|[]]. discriminate.
  - apply IHa; assumption.
  - destruct T as [T1 T2]. apply in_app_or in H. apply in_or_app. destruct H; [left; apply IHa|right; apply IHb]; assumption.
  - destruct T.
Qed.

(* ----------------------------- the invariant ------------------------------ *)

Lemma same_idx : forall s s' i, same s s' -> Forall is_user (ivars i) -> ival s i = ival s' i.
Proof.
  intros s s' i [S _]. induction i as [a|x|f a IHa b IHb]; intros U; cbn [ival ivars] in *.
  - reflexivity.
  - inversion U as [|? ? (n & ->) _]; subst. apply S.
  - apply Forall_app in U. destruct U. rewrite IHa, IHb by assumption. reflexivity.
Qed.

Definition kept (n : nat) (rs0 rs : list expr) : Prop :=
  (forall r, In r rs -> ~ occurs (VUser n) r) \/ Forall2 (fun r0 r => In (LVar (VUser n)) (leaves r0) -> In (LVar (VUser n)) (leaves r)) rs0 rs.

Record inv (s0 : state) (before : list target) (now sg : state) (k : nat) (rs0 rs : list expr) : Prop := {
  i_same : same now sg;
  i_ok : Forall2 (ok s0 sg k before) rs0 rs;
  i_kept : forall n, kept n rs0 rs
}.

Lemma leaf_eqb_eq : forall a b, leaf_eqb a b = true -> a = b.
Proof.
  intros [x|x i] [y|y j] E; cbn in E; try discriminate; [apply var_eqb_eq in E; congruence|]. apply andb_true_iff in E. destruct E as [E1 E2].
  apply var_eqb_eq in E1. apply idx_eqb_eq in E2. congruence.
Qed.
Lemma leaf_eqb_var : forall x l, mem_leaf (LVar x) l = true <-> In (LVar x) l.
Proof.
  intros x l. unfold mem_leaf. rewrite existsb_exists. split.
  - intros (b & I & E). apply leaf_eqb_eq in E. congruence.
  - intros I. exists (LVar x). split; [exact I|]. apply var_eqb_refl.
Qed.

Lemma forall2_in_r : forall (A B : Type) (P : A -> B -> Prop) l l' y, Forall2 P l l' -> In y l' -> exists x, In x l /\ P x y.
Proof. intros A B P l l' y F. induction F as [|a b l l' H F IH]; intros I; [destruct I|]. destruct I as [<-|I]; [exists a; split; [left; reflexivity|exact H]|]. destruct (IH I) as (x & J & K). exists x. split; [right; exact J|exact K]. Qed.

Lemma forall2_map_r : forall (A B : Type) (P Q : A -> B -> Prop) (f : B -> B) l l', (forall x y, In x l -> P x y -> Q x (f y)) -> Forall2 P l l' -> Forall2 Q l (map f l').
Proof. intros A B P Q f l l' H F. induction F as [|a b l l' K F IH]; cbn [map]; constructor; [apply H; [left; reflexivity|exact K]|]. apply IH. intros x y I. apply H. right. exact I. Qed.

Lemma forall2_impl : forall (A B : Type) (P Q : A -> B -> Prop) l l', (forall x y, In x l -> In y l' -> P x y -> Q x y) -> Forall2 P l l' -> Forall2 Q l l'.
Proof.
  intros A B P Q l l' H F. induction F as [|a b l l' K F IH]; constructor; [apply H; [left; reflexivity|left; reflexivity|exact K]|]. apply IH. intros x y I J. apply H; right; assumption.
Qed.

(* one target *)
Lemma step_ok : forall s0 before now sg k t r0 rs0 r rs now' k1 pre r1 rs1 k2 l1,
  flat_target t -> Forall flat (r0 :: rs0) -> inv s0 before now sg k (r0 :: rs0) (r :: rs) ->
  (forall r' x i, In r' rs0 -> In (LElem x i) (leaves r') ->
     match t with
     | TVar y => In y (ivars i) -> exists r'', In r'' rs0 /\ In (LVar y) (leaves r'')
     | TElem x' i' => x' = x -> (idx_eqb i' i = true /\ forall y, In (TVar y) before -> ~ In y (ivars i)) \/ ival now i' <> ival s0 i
     | TTup _ => False
     end) ->
  py_store t (VInt (eval s0 r0)) now = Some now' -> save k t r rs = (k1, pre, r1, rs1) -> visit k1 t r1 = Some (k2, l1) ->
  inv s0 (before ++ [t]) now' (exec (pre ++ l1) sg) k2 rs0 rs1.
Proof.
  intros s0 before now sg k t r0 rs0 r rs now' k1 pre r1 rs1 k2 l1 Ft Fr [Sm Ok Kp] CL St Sv Vi.
  inversion Ok as [|? ? ? ? Okr Oks]; subst. inversion Fr as [|? ? Fr0 Frs]; subst.
  assert (Inc : incl before (before ++ [t])) by (intros u I; apply in_or_app; left; exact I).
  assert (Kp' : forall n, kept n rs0 rs).
  { intros n. destruct (Kp n) as [K|K]; [left; intros u I; apply K; right; exact I|right; inversion K; assumption]. }
  assert (NT : forall r', In r' rs -> no_tup r').
  { intros r' I. destruct (forall2_in_r _ _ _ _ _ _ Oks I) as (r0' & _ & O). apply (ok_no_tup _ _ _ _ _ _ O). }
  (* the state after saving *)
  assert (X : exists sg1, exec pre sg = sg1 /\ same now sg1 /\ ok s0 sg1 k1 (before ++ [t]) r0 r1 /\ Forall2 (ok s0 sg1 k1 (before ++ [t])) rs0 rs1 /\
    (forall n, kept n rs0 rs1) /\
    (match t with TVar x => forall r', In r' rs1 -> ~ occurs x r' | TElem x i => forall r' i', In r' rs1 -> In (LElem x i') (leaves r') -> idx_eqb i' i = false | TTup _ => True end \/
     rs1 = rs /\ pre = [] /\ match leaf_of t with Some a => mem_leaf a (flat_map leaves rs) = false | None => True end)).
  { unfold save in Sv. destruct t as [x|x i|l]; [| |destruct Ft]; cbn [leaf_of] in Sv.
    - set (a := LVar x) in *. destruct (mem_leaf a (flat_map leaves rs)) eqn:M; injection Sv as <- <- <- <-.
      + set (sg1 := set_scalar sg (VTemp k) (eval sg (leaf_expr a))). exists sg1. split; [reflexivity|].
        assert (U : leaf_user a) by exact Ft.
        assert (H : held sg1 k a). { unfold held, sg1, a. cbn [leaf_expr eval set_scalar scalar]. rewrite var_eqb_refl. destruct Ft as (n & ->). reflexivity. }
        assert (Fresh : forall e0 e, flat e0 -> ok s0 sg k before e0 e -> ok s0 sg1 k before e0 e).
        { intros e0 e Fe O. apply ok_scalar; [|exact O]. intros Oc. pose proof (ok_temps s0 sg k before e0 e Fe O k Oc). lia. }
        assert (B : In (leaf_target a) (before ++ [TVar x])) by (apply in_or_app; right; left; reflexivity).
        split. { destruct Sm as [S1 S2]. split; [intros n; rewrite S1; reflexivity|exact S2]. }
        split. { apply ok_subst; auto. apply (ok_more s0 sg1 k k before); [lia|exact Inc|]. apply Fresh; assumption. }
        split. { apply (forall2_map_r _ _ (ok s0 sg k before)); [|exact Oks]. intros e0 e I0 O. rewrite Forall_forall in Frs. apply ok_subst; auto. apply (ok_more s0 sg1 k k before); [lia|exact Inc|]. apply Fresh; auto. }
        split.
        { intros n. destruct (var_eqb x (VUser n)) eqn:E.
          - apply var_eqb_eq in E. subst x. left. intros r' I. apply in_map_iff in I. destruct I as (u & <- & I). apply subst_gone_var; [apply NT; exact I|discriminate].
          - destruct (Kp' n) as [K|K].
            + left. intros r' I Oc. apply in_map_iff in I. destruct I as (u & <- & I). apply (K u I). apply (subst_occurs a k u n); [apply NT; exact I|exact Oc].
            + right. apply (forall2_map_r _ _ (fun r0 r => (In (LVar (VUser n)) (leaves r0) -> In (LVar (VUser n)) (leaves r)) /\ no_tup r)).
              * intros u v _ [P Tv] Q. apply subst_plain; [exact Tv| |apply P; exact Q]. unfold a. intros Z. injection Z as ->. rewrite var_eqb_refl in E. discriminate.
              * apply (forall2_impl _ _ (fun r0 r => In (LVar (VUser n)) (leaves r0) -> In (LVar (VUser n)) (leaves r))); [|exact K]. intros u v _ Iv P. split; [exact P|apply NT; exact Iv]. }
        left. intros r' I. apply in_map_iff in I. destruct I as (u & <- & I). apply subst_gone_var; [apply NT; exact I|]. destruct Ft as (n & ->). discriminate.
      + exists sg. split; [reflexivity|]. split; [exact Sm|]. split; [apply (ok_more s0 sg k k before); auto|]. split; [apply (forall2_impl _ _ (ok s0 sg k before)); [|exact Oks]; intros u v _ _; apply ok_more; auto|].
        split; [exact Kp'|]. right. split; [reflexivity|]. split; [reflexivity|exact M].
    - set (a := LElem x i) in *. destruct (mem_leaf a (flat_map leaves rs)) eqn:M; injection Sv as <- <- <- <-.
      + set (sg1 := set_scalar sg (VTemp k) (eval sg (leaf_expr a))). exists sg1. split; [reflexivity|].
        assert (U : leaf_user a) by exact Ft.
        assert (H : held sg1 k a).
        { unfold held, sg1, a. cbn [leaf_expr eval]. rewrite ival_scalar; [cbn [set_scalar scalar array]; rewrite var_eqb_refl; reflexivity|].
          destruct Ft as [_ Ui]. rewrite Forall_forall in Ui. intros I. destruct (Ui _ I). discriminate. }
        assert (Fresh : forall e0 e, flat e0 -> ok s0 sg k before e0 e -> ok s0 sg1 k before e0 e).
        { intros e0 e Fe O. apply ok_scalar; [|exact O]. intros Oc. pose proof (ok_temps s0 sg k before e0 e Fe O k Oc). lia. }
        assert (B : In (leaf_target a) (before ++ [TElem x i])) by (apply in_or_app; right; left; reflexivity).
        split. { destruct Sm as [S1 S2]. split; [intros n; rewrite S1; reflexivity|exact S2]. }
        split. { apply ok_subst; auto. apply (ok_more s0 sg1 k k before); [lia|exact Inc|]. apply Fresh; assumption. }
        split. { apply (forall2_map_r _ _ (ok s0 sg k before)); [|exact Oks]. intros e0 e I0 O. rewrite Forall_forall in Frs. apply ok_subst; auto. apply (ok_more s0 sg1 k k before); [lia|exact Inc|]. apply Fresh; auto. }
        split.
        { intros n. destruct (Kp' n) as [K|K].
          + left. intros r' I Oc. apply in_map_iff in I. destruct I as (u & <- & I). apply (K u I). apply (subst_occurs a k u n); [apply NT; exact I|exact Oc].
          + right. apply (forall2_map_r _ _ (fun r0 r => (In (LVar (VUser n)) (leaves r0) -> In (LVar (VUser n)) (leaves r)) /\ no_tup r)).
            * intros u v _ [P Tv] Q. apply subst_plain; [exact Tv|discriminate|apply P; exact Q].
            * apply (forall2_impl _ _ (fun r0 r => In (LVar (VUser n)) (leaves r0) -> In (LVar (VUser n)) (leaves r))); [|exact K]. intros u v _ Iv P. split; [exact P|apply NT; exact Iv]. }
        left. intros r' i' I J. apply in_map_iff in I. destruct I as (u & <- & I). destruct (subst_elem_leaf x i k u x i' (NT u I) J) as [_ E]. rewrite var_eqb_refl in E. exact E.
      + exists sg. split; [reflexivity|]. split; [exact Sm|]. split; [apply (ok_more s0 sg k k before); auto|]. split; [apply (forall2_impl _ _ (ok s0 sg k before)); [|exact Oks]; intros u v _ _; apply ok_more; auto|].
        split; [exact Kp'|]. right. split; [reflexivity|]. split; [reflexivity|exact M]. }
  destruct X as (sg1 & Ex & Sm1 & Okr1 & Oks1 & Kp1 & Gone).
  unfold exec in *. rewrite fold_left_app, Ex. pose proof (ok_val _ _ _ _ _ _ Okr1) as Ev. pose proof (ok_no_tup _ _ _ _ _ _ Okr1) as Tr1.
  destruct t as [x|x i|l]; [| |destruct Ft]; cbn [visit] in Vi.
  - assert (Z : k2 = k1 /\ l1 = [SVar x r1]) by (destruct r1; try (injection Vi as <- <-; split; reflexivity); destruct Tr1). destruct Z as [-> ->]. clear Vi.
    cbn [fold_left exec1]. rewrite Ev. cbn [py_store] in St. injection St as <-.
    assert (No : forall r', In r' rs1 -> ~ occurs x r').
    { destruct Gone as [G|(-> & -> & M)]; [exact G|]. cbn [leaf_of] in M. destruct Ft as (n & ->). cbn [fold_left] in Ex. subst sg1.
      assert (M' : forall r', In r' rs -> ~ In (LVar (VUser n)) (leaves r')).
      { intros r' I J. assert (Y : mem_leaf (LVar (VUser n)) (flat_map leaves rs) = true) by (apply leaf_eqb_var; apply in_flat_map; exists r'; auto). congruence. }
      intros r' I [J|(y & j & J & Iy)]; [exact (M' r' I J)|].
      destruct (forall2_in_r _ _ _ _ _ _ Oks1 I) as (r0' & I0 & O). destruct (ok_elem _ _ _ _ _ _ y j O J) as (j0 & J0 & Oj).
      destruct (CL r0' y j0 I0 J0 (oki_vars _ _ _ _ _ _ _ Oj Iy)) as (r'' & I'' & J'').
      destruct (Kp1 n) as [K|K]; [apply (K r' I); right; exists y, j; auto|].
      clear - K I'' J'' M'. induction K as [|a b l l' H K IH]; [destruct I''|]. destruct I'' as [<-|I'']; [apply (M' b); [left; reflexivity|apply H; exact J'']|].
      apply IH; auto. intros u Iu. apply M'. right. exact Iu. }
    constructor.
    + destruct Sm1 as [S1 S2]. split; [|exact S2]. intros n. unfold set_scalar. cbn [scalar]. rewrite S1. reflexivity.
    + apply (forall2_impl _ _ (ok s0 sg1 k1 (before ++ [TVar x]))); [|exact Oks1]. intros u v _ Iv O. apply ok_scalar; [apply No; exact Iv|exact O].
    + exact Kp1.
  - assert (Z : k2 = k1 /\ l1 = [SElem x i r1]) by (destruct r1; try (injection Vi as <- <-; split; reflexivity); destruct Tr1). destruct Z as [-> ->]. clear Vi.
    cbn [fold_left exec1]. rewrite Ev. cbn [py_store] in St. injection St as <-. destruct Ft as [Ux Ui].
    assert (Ei : ival sg1 i = ival now i) by (symmetry; apply same_idx; assumption). rewrite Ei.
    constructor.
    + destruct Sm1 as [S1 S2]. split; [exact S1|]. intros n j. unfold set_elem. cbn [array]. rewrite S2. reflexivity.
    + apply (forall2_impl _ _ (ok s0 sg1 k1 (before ++ [TElem x i]))); [|exact Oks1]. intros u v I0 Iv O. apply ok_set_elem; [|exact O].
      intros j J Ej. destruct (ok_elem _ _ _ _ _ _ x j O J) as (j0 & J0 & Oj).
      destruct (CL u x j0 I0 J0 eq_refl) as [[E Nb]|E].
      * assert (Y : j = j0). { apply (oki_same _ _ _ _ _ _ Oj). intros y Iy. apply in_app_or in Iy. destruct Iy as [Iy|[Iy|[]]]; [apply Nb; exact Iy|discriminate]. }
        subst j0. apply idx_eqb_eq in E as E'. subst j. destruct Gone as [G|(-> & -> & M)].
        -- rewrite (G v i Iv J) in E. discriminate.
        -- cbn [leaf_of] in M. assert (Y : mem_leaf (LElem x i) (flat_map leaves rs) = true).
           { unfold mem_leaf. apply existsb_exists. exists (LElem x i). split; [apply in_flat_map; exists v; auto|]. cbn. rewrite var_eqb_refl. exact E. }
           congruence.
      * apply E. rewrite (oki_val _ _ _ _ _ _ Oj) in Ej. congruence.
    + exact Kp1.
Qed.

Lemma loop_ok : forall s0 ts before now sg k rs0 rs k' code s', Forall flat_target ts -> Forall flat rs0 -> inv s0 before now sg k rs0 rs ->
  clear s0 before now ts rs0 -> store_all ts (map (py_value s0) rs0) now = Some s' -> loop k ts rs = Some (k', code) -> same s' (exec code sg).
Proof.
  intros s0. induction ts as [|t ts IH]; intros before now sg k rs0 rs k' code s' Ft Fr Iv CL St Lo.
  - cbn [loop] in Lo. injection Lo as <- <-. destruct rs0; [|discriminate]. injection St as <-. apply Iv.
  - inversion Ft as [|? ? Ft0 Fts]; subst. destruct rs0 as [|r0 rs0]; [discriminate|]. pose proof (i_ok _ _ _ _ _ _ _ Iv) as O. inversion O as [|? r ? rs' Or Ors]; subst.
    cbn [loop] in Lo. destruct (save k t r rs') as [[[k1 pre] r1] rs1] eqn:Sv. destruct (visit k1 t r1) as [[k2 l1]|] eqn:Vi; [|discriminate].
    destruct (loop k2 ts rs1) as [[k3 l2]|] eqn:Lo2; [|discriminate]. injection Lo as <- <-.
    cbn [map store_all] in St. inversion Fr as [|? ? Fr0 Frs]; subst. rewrite (flat_value s0 r0 Fr0) in St.
    destruct (py_store t (VInt (eval s0 r0)) now) as [now'|] eqn:Sn; [|discriminate].
    cbn [clear] in CL. destruct CL as [CL1 CL2]. rewrite Sn in CL2.
    pose proof (step_ok s0 before now sg k t r0 rs0 r rs' now' k1 pre r1 rs1 k2 l1 Ft0 Fr Iv CL1 Sn Sv Vi) as Iv'.
    unfold exec. rewrite app_assoc, fold_left_app. apply (IH (before ++ [t]) now' _ k2 rs0 rs1 k3 l2 s'); assumption.
Qed.

Lemma oki_refl : forall s i, oki s s 0 [] i i.
Proof. intros s. induction i; cbn; auto. split; [reflexivity|left; reflexivity]. Qed.
Lemma ok_refl : forall s e, flat e -> ok s s 0 [] e e.
Proof.
  intros s. induction e as [z|x|x i|f a IHa|f a IHa b IHb|l]; intros F; cbn [ok flat] in *; auto.
  - split; [reflexivity|left; reflexivity].
  - split; [reflexivity|]. split; [apply oki_refl|reflexivity].
  - destruct F. auto.
Qed.

Theorem simultaneous : forall ts rs s code s', Forall flat_target ts -> Forall flat rs -> clear s [] s ts rs ->
  unpack ts rs = Some code -> py_assign ts rs s = Some s' -> same s' (exec code s).
Proof.
  intros ts rs s code s' Ft Fr CL Un Py. unfold unpack in Un. rewrite visit_tup in Un. destruct (accepted ts rs); [|discriminate].
  destruct (loop 0 ts rs) as [[k' l]|] eqn:Lo; [|discriminate]. injection Un as <-. unfold py_assign in Py. cbn [py_value] in Py. rewrite store_tup in Py.
  apply (loop_ok s ts [] s s 0 rs rs k' l s'); auto. constructor.
  - split; reflexivity.
  - clear - Fr. induction Fr; constructor; [apply ok_refl; assumption|assumption].
  - intros n. right. clear. induction rs; constructor; auto.
Qed.

(* ---------------------------- when it is refused ---------------------------- *)

Lemma subst_no_tup : forall a k e, no_tup e -> no_tup (subst a (VTemp k) e).
Proof.
  intros a k. induction e as [z|x|x i|f e1 IHa|f e1 IHa e2 IHb|l]; intros T; cbn [subst no_tup] in *; auto.
  - destruct a; [destruct (var_eqb x x0)|]; exact I.
  - destruct a; [exact I|]. destruct (var_eqb x x0 && idx_eqb i i0); exact I.
  - destruct T. auto.
Qed.

Lemma flat_no_tup : forall e, flat e -> no_tup e.
Proof. induction e as [z|x|x i|f e1 IHa|f e1 IHa e2 IHb|l]; intros F; cbn in *; auto. destruct F. auto. Qed.

Lemma loop_total : forall ts k rs, Forall flat_target ts -> Forall no_tup rs -> List.length ts <= List.length rs -> exists r, loop k ts rs = Some r.
Proof.
  induction ts as [|t ts IH]; intros k rs Ft Nt L; [eexists; reflexivity|]. destruct rs as [|r rs]; [cbn in L; lia|].
  inversion Ft as [|? ? Ft0 Fts]; subst. inversion Nt as [|? ? Nr Nrs]; subst. cbn [loop List.length] in *.
  assert (X : exists k1 pre r1 rs1, save k t r rs = (k1, pre, r1, rs1) /\ no_tup r1 /\ Forall no_tup rs1 /\ List.length rs1 = List.length rs).
  { unfold save. destruct (leaf_of t) as [a|]; [|do 4 eexists; repeat split; auto]. destruct (mem_leaf a (flat_map leaves rs)); [|do 4 eexists; repeat split; auto].
    do 4 eexists. split; [reflexivity|]. split; [apply subst_no_tup; exact Nr|]. split; [|apply map_length]. apply Forall_map. apply (Forall_impl _ (subst_no_tup a k) Nrs). }
  destruct X as (k1 & pre & r1 & rs1 & -> & N1 & N2 & E).
  assert (V : exists k2 l1, visit k1 t r1 = Some (k2, l1)).
  { destruct t as [x|x i|l]; [| |destruct Ft0]; destruct r1; try destruct N1; do 2 eexists; reflexivity. }
  destruct V as (k2 & l1 & ->). destruct (IH k2 rs1 Fts N2) as [[k3 l2] ->]; [lia|]. eexists. reflexivity.
Qed.

Theorem refused : forall ts rs, Forall flat_target ts -> Forall flat rs -> List.length ts = List.length rs ->
  (unpack ts rs = None <->
   (exists t a, In t ts /\ leaf_of t = Some a /\ mem_leaf a (flat_map leaves rs) = true) /\ (exists x i, In (TElem x i) ts /\ simple_idx i = false)).
Proof.
  intros ts rs Ft Fr L. unfold unpack. rewrite visit_tup.
  assert (FL : flat_map target_leaves ts = flat_map (fun t => match leaf_of t with Some a => [a] | None => [] end) ts).
  { clear - Ft. induction Ft as [|t ts H Ft IH]; [reflexivity|]. cbn [flat_map]. rewrite IH. destruct t; try reflexivity. destruct H. }
  assert (IL : forall a, In a (flat_map target_leaves ts) <-> exists t, In t ts /\ leaf_of t = Some a).
  { intros a. rewrite FL, in_flat_map. split; intros (t & I & E); exists t; (split; [exact I|]); [destruct (leaf_of t); [destruct E as [E|[]]; congruence|destruct E]|]. rewrite E. left. reflexivity. }
  destruct (accepted ts rs) eqn:A.
  - destruct (loop_total ts 0 rs Ft) as [[k l] ->]; [apply (Forall_impl _ flat_no_tup Fr)|lia|]. split; [discriminate|]. intros [(t & a & It & Et & M) (x & i & Ii & Si)]. exfalso.
    unfold accepted in A. apply orb_true_iff in A. destruct A as [A|A].
    + apply negb_true_iff in A. assert (Y : existsb (fun a => mem_leaf a (flat_map leaves rs)) (flat_map target_leaves ts) = true).
      { apply existsb_exists. exists a. split; [apply IL; exists t; auto|exact M]. } congruence.
    + rewrite forallb_forall in A. specialize (A (LElem x i)). cbn in A. rewrite A in Si; [discriminate|]. apply IL. exists (TElem x i). auto.
  - split; [|reflexivity]. intros _. unfold accepted in A. apply orb_false_iff in A. destruct A as [A1 A2]. apply negb_false_iff in A1. split.
    + apply existsb_exists in A1. destruct A1 as (a & I & M). apply IL in I. destruct I as (t & It & Et). exists t, a. auto.
    + assert (X : exists a, In a (flat_map target_leaves ts) /\ simple_leaf a = false).
      { clear - A2. induction (flat_map target_leaves ts) as [|a l IH]; [discriminate|]. cbn in A2. destruct (simple_leaf a) eqn:E.
        - destruct (IH A2) as (b & I & F). exists b. split; [right; exact I|exact F].
        - exists a. split; [left; reflexivity|exact E]. }
      destruct X as (a & I & Sa). apply IL in I. destruct I as (t & It & Et). destruct a as [x|x i]; [discriminate|]. destruct t as [y|y j|l]; try discriminate. injection Et as -> ->.
      exists x, i. auto.
Qed.

(* ------------------------------ tuples as variables --------------------------- *)

Theorem rebind_ok : forall x rs s, Forall flat rs ->
  (forall i j r n, j < List.length rs -> i < j -> nth_error rs j = Some r -> In (LElem x n) (leaves r) -> ival s n <> Z.of_nat i) ->
  forall i r, nth_error rs i = Some r -> array (exec (rebind x rs) s) x (Z.of_nat i) = eval s r.
Proof.
  intros x rs s Fr H.
  (* executing from position b *)
  assert (X : forall l b sg, b + List.length l = List.length rs -> skipn b rs = l ->
    (forall y, scalar sg y = scalar s y) -> (forall y j, y <> x \/ (forall i, i < b -> j <> Z.of_nat i) -> array sg y j = array s y j) ->
    (forall i r, i < b -> nth_error rs i = Some r -> array sg x (Z.of_nat i) = eval s r) ->
    forall i r, nth_error rs i = Some r -> array (exec (map (fun p => SElem x (ILit (Z.of_nat (fst p))) (snd p)) (combine (seq b (List.length l)) l)) sg) x (Z.of_nat i) = eval s r).
  { induction l as [|r0 l IH]; intros b sg Lb Sk Sc Ar Dn i r E.
    - cbn. apply (Dn i r); [|exact E]. assert (i < List.length rs) by (apply nth_error_Some; congruence). cbn in Lb. lia.
    - cbn [List.length seq combine map]. unfold exec. cbn [fold_left exec1 fst snd].
      assert (E0 : nth_error rs b = Some r0).
      { clear - Sk. revert rs Sk. induction b as [|b IH]; intros [|u rs] Sk; cbn in *; try discriminate; [congruence|]. apply IH. exact Sk. }
      assert (Iv : forall n, ival sg n = ival s n) by (induction n as [z|y|f p IHp q IHq]; cbn [ival]; [reflexivity|apply Sc|congruence]).
      assert (EV : eval sg r0 = eval s r0).
      { assert (F0 : flat r0) by (rewrite Forall_forall in Fr; apply Fr; apply (nth_error_In rs b E0)).
        assert (R0 : forall n, In (LElem x n) (leaves r0) -> forall i, i < b -> ival s n <> Z.of_nat i) by (intros n In0 i0 Li; apply (H i0 b r0 n); [cbn in Lb; lia|exact Li|exact E0|exact In0]).
        clear - F0 R0 Sc Ar Iv. induction r0 as [z|y|y n|f p IHp|f p IHp q IHq|l]; cbn [eval leaves flat] in *; auto.
        - rewrite Iv. apply Ar. destruct (var_eqb y x) eqn:C; [apply var_eqb_eq in C; subst y; right; intros i L; apply R0; [left; reflexivity|exact L]|].
          left. intros ->. rewrite var_eqb_refl in C. discriminate.
        - rewrite IHp; auto.
        - destruct F0. rewrite IHp, IHq; auto; intros n I; apply R0; apply in_or_app; auto. }
      rewrite EV. apply (IH (S b)).
      + cbn in Lb. lia.
      + clear - Sk. revert rs Sk. induction b as [|b IH]; intros [|u rs] Sk; cbn [skipn] in *; try discriminate; [congruence|]. apply IH. exact Sk.
      + exact Sc.
      + intros y j C. unfold set_elem. cbn [array ival]. destruct (var_eqb y x && Z.eqb j (Z.of_nat b)) eqn:D.
        * apply andb_true_iff in D. destruct D as [D1 D2]. apply var_eqb_eq in D1. apply Z.eqb_eq in D2. destruct C as [C|C]; [contradiction|]. elim (C b); [lia|exact D2].
        * apply Ar. destruct C as [C|C]; [left; exact C|right; intros i0 Li; apply C; lia].
      + intros i0 r1 Li E1. unfold set_elem. cbn [array ival]. rewrite var_eqb_refl. cbn [andb]. destruct (Z.eqb_spec (Z.of_nat i0) (Z.of_nat b)) as [C|C].
        * assert (i0 = b) by lia. subst i0. congruence.
        * apply Dn; [lia|exact E1].
      + exact E. }
  intros i r E. unfold rebind. apply (X rs 0 s); auto. intros i0 r0 L. lia.
Qed.

(* --------------------------- two simple criteria -------------------------- *)

Lemma separate_clear : forall s ts before now rs, Forall flat_target ts -> separate ts rs -> clear s before now ts rs.
Proof.
  intros s. induction ts as [|t ts IH]; intros before now rs Ft Se; [exact I|]. destruct rs as [|r rs]; [exact I|]. inversion Ft as [|? ? Ft0 Fts]; subst. cbn [clear]. split.
  - intros r' x i Ir Il. destruct (Se r' x i (or_intror Ir) Il) as [S1 S2]. destruct t as [y|y j|l]; [| |destruct Ft0].
    + intros J. elim (S1 y); [left; reflexivity|exact J].
    + intros ->. elim (S2 j). left. reflexivity.
  - destruct (py_store t (VInt (eval s r)) now); [|exact I]. apply IH; [exact Fts|]. intros r' x i Ir Il. destruct (Se r' x i (or_intror Ir) Il) as [S1 S2].
    split; [intros y Iy; apply S1; right; exact Iy|intros j Ij; apply (S2 j); right; exact Ij].
Qed.

Theorem separate_ok : forall ts rs s code s', Forall flat_target ts -> Forall flat rs -> separate ts rs ->
  unpack ts rs = Some code -> py_assign ts rs s = Some s' -> same s' (exec code s).
Proof. intros ts rs s code s' Ft Fr Se. apply simultaneous; auto. apply separate_clear; assumption. Qed.

Theorem py_defined : forall ts rs s, Forall flat_target ts -> Forall flat rs -> ((exists s', py_assign ts rs s = Some s') <-> List.length ts = List.length rs).
Proof.
  intros ts rs s Ft Fr. unfold py_assign. cbn [py_value]. rewrite store_tup.
  assert (X : forall now, (exists s', store_all ts (map (py_value s) rs) now = Some s') <-> List.length ts = List.length rs); [|apply X].
  revert rs Fr. induction Ft as [|t ts Ht Ft IH]; intros rs Fr now; destruct rs as [|r rs]; cbn [map store_all List.length].
  - split; [reflexivity|eexists; reflexivity].
  - split; [intros (? & E); discriminate|discriminate].
  - split; [intros (? & E); discriminate|discriminate].
  - inversion Fr as [|? ? F0 Fs]; subst. rewrite (flat_value s r F0).
    assert (Y : exists n1, py_store t (VInt (eval s r)) now = Some n1) by (destruct t; [eexists; reflexivity|eexists; reflexivity|destruct Ht]).
    destruct Y as (n1 & ->). rewrite (IH rs Fs n1). lia.
Qed.
