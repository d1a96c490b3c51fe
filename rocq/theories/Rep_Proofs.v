From Coq Require Import Bool ZArith List Arith Lia.
From Verif Require Import Rep_Model Rep_Spec.
Import ListNotations.
Open Scope list_scope.
Open Scope nat_scope.

Lemma upd_eq {A} (f : nat -> A) x v : upd f x v x = v.
Proof. unfold upd. now rewrite Nat.eqb_refl. Qed.
Lemma upd_ne {A} (f : nat -> A) x y v : y <> x -> upd f x v y = f y.
Proof. intros H. unfold upd. now rewrite (proj2 (Nat.eqb_neq y x) H). Qed.

(* ------------------------------ writing ------------------------------ *)

Lemma set_at_mid pre a post v : set_at (pre ++ a :: post) (length pre) v = Some (pre ++ v :: post).
Proof. induction pre as [|b pre IH]; cbn; [reflexivity|]. rewrite IH. reflexivity. Qed.
Lemma set_at_out l i v : length l <= i -> set_at l i v = None.
Proof. revert i. induction l as [|a l IH]; intros [|i] H; cbn in *; try reflexivity; try lia. rewrite IH by lia. reflexivity. Qed.
Lemma set_at_length l i v l' : set_at l i v = Some l' -> length l' = length l.
Proof.
  revert i l'. induction l as [|a l IH]; intros [|i] l'; cbn; try discriminate; [intros [= <-]; reflexivity|].
  destruct (set_at l i v) eqn:E; cbn; [|discriminate]. intros [= <-]. cbn. f_equal. eauto.
Qed.

Lemma assign_mid s x pre a post v : s x = Some (pre ++ a :: post) ->
  exists s', assign s x (length pre) v = Some s' /\ s' x = Some (pre ++ v :: post) /\ forall y, y <> x -> s' y = s y.
Proof.
  intros H. unfold assign. rewrite H. cbn. rewrite set_at_mid. cbn. eexists. split; [reflexivity|]. split; [apply upd_eq|]. intros; now apply upd_ne.
Qed.

Lemma copy_lit_ok x l : forall s pre mid post, s x = Some (pre ++ mid ++ post) -> length mid = length l ->
  exists s', copy_lit s x (length pre) l = Some s' /\ s' x = Some (pre ++ map Some l ++ post) /\ forall y, y <> x -> s' y = s y.
Proof.
  induction l as [|v l IH]; intros s pre mid post H L; destruct mid as [|a mid]; cbn in L; try lia.
  - cbn. eauto.
  - cbn [app] in H. destruct (assign_mid s x pre a (mid ++ post) (Some v) H) as (s1 & E1 & H1 & O1).
    destruct (IH s1 (pre ++ [Some v]) mid post) as (s2 & E2 & H2 & O2); [rewrite <- app_assoc; exact H1|lia|].
    rewrite app_length in E2. cbn in E2. replace (length pre + 1) with (S (length pre)) in E2 by lia.
    exists s2. cbn [copy_lit]. rewrite E1. cbn [obind]. split; [exact E2|]. rewrite <- app_assoc in H2. split; [exact H2|].
    intros y N. rewrite O2, O1 by assumption. reflexivity.
Qed.

Lemma copy_var_ok x y l : x <> y -> forall n s pre mid post j, s y = Some (map Some l) -> j + n = length l ->
  s x = Some (pre ++ mid ++ post) -> length mid = n ->
  forall off, off + j = length pre ->
  exists s', copy_var s x off y j n = Some s' /\ s' x = Some (pre ++ map Some (skipn j l) ++ post) /\ forall z, z <> x -> s' z = s z.
Proof.
  intros N. induction n as [|n IH]; intros s pre mid post j Hy J Hx M off O.
  - destruct mid; cbn in M; [|lia]. cbn. rewrite skipn_all2 by lia. cbn. eauto.
  - destruct mid as [|a mid]; cbn in M; [lia|].
    destruct (nth_error l j) as [v|] eqn:V; [|apply nth_error_None in V; lia].
    cbn [copy_var]. rewrite Hy. cbn [obind]. rewrite (map_nth_error Some _ _ V). cbn [obind].
    cbn [app] in Hx. destruct (assign_mid s x pre a (mid ++ post) (Some v) Hx) as (s1 & E1 & H1 & O1).
    rewrite O, E1. cbn [obind].
    destruct (IH s1 (pre ++ [Some v]) mid post (S j)) with (off := off) as (s2 & E2 & H2 & O2).
    + rewrite O1 by congruence. exact Hy.
    + lia.
    + rewrite <- app_assoc. exact H1.
    + lia.
    + rewrite app_length. cbn. lia.
    + exists s2. split; [exact E2|]. split.
      * rewrite H2. f_equal. rewrite <- app_assoc. cbn. f_equal.
        assert (E : skipn j l = v :: skipn (S j) l).
        { clear -V. revert j V. induction l as [|b l IH]; intros [|j] V; cbn in V; try discriminate; [injection V as ->; reflexivity|]. cbn. rewrite (IH j V). destruct l; [destruct j; discriminate|reflexivity]. }
        rewrite E. reflexivity.
      * intros z Hz. rewrite O2, O1 by assumption. reflexivity.
Qed.

(* ------------------------------ sizes ------------------------------ *)

Definition okv (st : infos) (s : store) (ps : pstore) (y : nat) : Prop :=
  exists i l, st y = Some i /\ s y = Some (map Some l) /\ ps y = Some l /\ (forall n, vsh i = Some n -> n = length l).
Definition oke st s ps e := forall y, In y (vars e) -> okv st s ps y.

Lemma oke_cat st s ps a b : oke st s ps (ECat a b) -> oke st s ps a /\ oke st s ps b.
Proof. intros H. split; intros y Hy; apply H; cbn; apply in_or_app; auto. Qed.

Lemma py_some inp st s ps e : oke st s ps e -> exists l, py_exp inp ps e = Some l.
Proof.
  induction e as [y|l|a IHa b IHb|a IH n]; intros H; cbn.
  - destruct (H y) as (i & l & _ & _ & P & _); [now left|]. eauto.
  - eauto.
  - destruct (oke_cat _ _ _ _ _ H) as [Ha Hb]. destruct (IHa Ha) as [l ->], (IHb Hb) as [m ->]. eauto.
  - destruct (IH H) as [l ->]. eauto.
Qed.
Lemma size_some inp st s ps e : oke st s ps e -> exists z, size_val inp s (size_of st e) = Some z.
Proof.
  induction e as [y|l|a IHa b IHb|a IH n]; intros H; cbn.
  - destruct (H y) as (i & l & E & S & P & V); [now left|]. rewrite E. destruct i as [h [m|]]; cbn; [eauto|]. rewrite S. cbn. eauto.
  - eauto.
  - destruct (oke_cat _ _ _ _ _ H) as [Ha Hb]. destruct (IHa Ha) as [l ->], (IHb Hb) as [m ->]. eauto.
  - destruct (IH H) as [l ->]. cbn. eauto.
Qed.
Lemma operand_size inp st s ps e l : operand e = true -> oke st s ps e -> py_exp inp ps e = Some l ->
  size_val inp s (size_of st e) = Some (Z.of_nat (length l)).
Proof.
  destruct e as [y|k|a b|a [[|n]|k]]; cbn [operand]; try discriminate; intros _ H P.
  - destruct (H y) as (i & m & E & S & Q & V); [now left|]. cbn in P. assert (m = l) by congruence. subst m.
    cbn. rewrite E. destruct i as [h [n|]]; cbn.
    + rewrite (V n eq_refl). reflexivity.
    + rewrite S. cbn. rewrite map_length. reflexivity.
  - cbn in *. injection P as <-. reflexivity.
  - destruct (size_some inp st s ps a H) as [z E]. cbn. rewrite E. cbn in P. destruct (py_exp inp ps a); [|discriminate]. injection P as <-. cbn. f_equal. lia.
Qed.

Lemma concat_length {A} (l : list A) n : length (concat (repeat l n)) = n * length l.
Proof. induction n as [|n IH]; cbn; [reflexivity|]. rewrite app_length, IH. reflexivity. Qed.

(* literal shapes are right *)
Lemma shape_lit inp st s ps e : oke st s ps e -> forall n l, shape_of st e = Some (ShLit n) -> py_exp inp ps e = Some l -> length l = n.
Proof.
  induction e as [y|k|a IHa b IHb|a IH m]; intros H n l S P; cbn in S, P.
  - destruct (H y) as (i & q & E & Q & R & V); [now left|]. rewrite E in S. assert (q = l) by congruence. subst q.
    destruct (vsh i) as [z|]; [|discriminate]. injection S as <-. symmetry. apply V. reflexivity.
  - injection P as <-. destruct k; [discriminate|]. injection S as <-. reflexivity.
  - destruct (shape_of st a); [|discriminate]. destruct (shape_of st b); discriminate.
  - destruct (shape_of st a) as [sa|] eqn:Ea; [|discriminate]. injection S as S.
    destruct (py_exp inp ps a) as [la|] eqn:Pa; [|discriminate]. injection P as <-. rewrite concat_length.
    assert (A : forall q, sa = ShLit q -> length la = q) by (intros q ->; exact (IH H q la eq_refl eq_refl)).
    destruct sa as [q| |]; [specialize (A q eq_refl)|clear A|clear A]; destruct m as [m|k]; cbn in S.
    + rewrite Nat2Z.id, A. destruct q as [|[|q]], m as [|[|m]]; cbn in S; injection S as <-; lia.
    + destruct q as [|[|q]]; try discriminate. injection S as <-. lia.
    + destruct m as [|[|m]]; try discriminate. injection S as <-. reflexivity.
    + discriminate.
    + destruct m as [|[|m]]; try discriminate. injection S as <-. reflexivity.
    + discriminate.
Qed.
Lemma shape_of_self st e x : shape_of st e = Some (ShOf x) -> In x (vars e).
Proof.
  induction e as [y|k|a IHa b IHb|a IH m]; cbn; intros S.
  - destruct (st y) as [i|]; [|discriminate]. destruct (vsh i); [discriminate|]. left. congruence.
  - destruct k; discriminate.
  - destruct (shape_of st a); [|discriminate]. destruct (shape_of st b); discriminate.
  - destruct (shape_of st a) as [sa|]; [|discriminate]. apply IH. injection S as S.
    destruct sa as [[|[|q]]|y|], m as [[|[|m]]|k]; cbn in S; try discriminate. congruence.
Qed.

(* ------------------------------ copies ------------------------------ *)

Lemma put_operand st o e c : put st o e = Some c -> operand e = true.
Proof. destruct e as [y|k|a b|a [[|n]|k]]; cbn; try discriminate; auto. Qed.
Lemma put_some st o e : operand e = true -> exists c, put st o e = Some c.
Proof. destruct e as [y|k|a b|a [[|n]|k]]; cbn; try discriminate; eauto. Qed.

Lemma put_ok inp st s ps o e cs x i l off pre mid post :
  put st o e = Some cs -> oke st s ps e -> ~ In x (vars e) -> py_exp inp ps e = Some l ->
  off_val inp s o i = Some (Z.of_nat off) -> s x = Some (pre ++ mid ++ post) -> length pre = off -> length mid = length l ->
  (cs = [] /\ l = []) \/ (exists c s', cs = [c] /\ c_off c = o /\ run_copy inp s x c i = Some s' /\
    s' x = Some (pre ++ map Some l ++ post) /\ forall y, y <> x -> s' y = s y).
Proof.
  intros P H N Q O X Lp Lm. assert (Op := put_operand _ _ _ _ P).
  destruct e as [y|k|a b|a [[|n]|k]]; cbn [put operand] in P, Op; try discriminate.
  - right. injection P as <-. assert (Z := operand_size inp st s ps (EVar y) l eq_refl H Q).
    assert (Ny : x <> y) by (intros ->; apply N; now left).
    destruct (H y) as (i' & m & E & S & R & V); [now left|]. cbn in Q. assert (m = l) by congruence. subst m.
    destruct (copy_var_ok x y l Ny (length l) s pre mid post 0 S eq_refl X Lm off) as (s' & E' & X' & O'); [lia|].
    exists (mk_copy o (AVar y) (size_of st (EVar y))), s'. split; [reflexivity|]. split; [reflexivity|].
    split; [|split; [exact X'|exact O']]. unfold run_copy. cbn [c_off c_src c_size]. rewrite O. cbn [obind]. rewrite Z. cbn [obind]. rewrite !Nat2Z.id. exact E'.
  - right. injection P as <-. cbn in Q. injection Q as <-.
    destruct (copy_lit_ok x k s pre mid post X Lm) as (s' & E' & X' & O').
    eexists. exists s'. split; [reflexivity|]. split; [reflexivity|]. split; [|split; [exact X'|exact O']].
    unfold run_copy. cbn [c_off c_src]. rewrite O. cbn [obind]. rewrite Nat2Z.id, Lp in *. exact E'.
  - left. injection P as <-. cbn in Q. destruct (py_exp inp ps a); [|discriminate]. injection Q as <-. auto.
Qed.

Lemma size_frame inp s s' x e st : ~ In x (vars e) -> (forall y, y <> x -> s' y = s y) ->
  size_val inp s' (size_of st e) = size_val inp s (size_of st e).
Proof.
  intros N F. induction e as [y|k|a IHa b IHb|a IH m]; cbn.
  - assert (y <> x) by (intros ->; apply N; now left). destruct (st y) as [[h [n|]]|]; cbn; rewrite ?F by assumption; reflexivity.
  - reflexivity.
  - cbn in N. rewrite IHa, IHb; [reflexivity| |]; intros Hy; apply N; apply in_or_app; auto.
  - rewrite IH; [reflexivity|exact N].
Qed.
Lemma oke_frame st s s' ps e x : ~ In x (vars e) -> (forall y, y <> x -> s' y = s y) -> oke st s ps e -> oke st s' ps e.
Proof. intros N F H y Hy. destruct (H y Hy) as (i & l & A & B & C). exists i, l. rewrite F; [auto|]. intros ->. contradiction. Qed.

(* ------------------------------ loops ------------------------------ *)

Section Loop.
  Context (inp : nat -> Z) (st : infos) (ps : pstore) (a : exp) (x : nat) (l : list Z).
  Context (Nx : ~ In x (vars a)) (Pa : py_exp inp ps a = Some l) (Op : operand a = true).

  Lemma loop_ok c : put st (OLoop (size_of st a)) a = Some [c] -> forall n s i pre mid,
    oke st s ps a -> s x = Some (pre ++ mid) -> length pre = i * length l -> length mid = n * length l ->
    exists s', run_loop inp s x c i n = Some s' /\ s' x = Some (pre ++ map Some (concat (repeat l n))) /\ forall y, y <> x -> s' y = s y.
  Proof.
    intros P. induction n as [|n IH]; intros s i pre mid H X Lp Lm.
    - destruct mid; cbn in Lm; [|lia]. cbn. eauto.
    - assert (O : off_val inp s (OLoop (size_of st a)) i = Some (Z.of_nat (length pre))).
      { cbn. rewrite (operand_size inp st s ps a l Op H Pa). cbn. f_equal. lia. }
      cbn [Nat.mul] in Lm.
      assert (M : mid = firstn (length l) mid ++ skipn (length l) mid) by (symmetry; apply firstn_skipn).
      rewrite M in X.
      destruct (put_ok inp st s ps _ a [c] x i l (length pre) pre (firstn (length l) mid) (skipn (length l) mid) P H Nx Pa O X eq_refl) as [[C _]|(c' & s1 & C & _ & R & X1 & F1)].
      { apply firstn_length_le. lia. }
      { discriminate. }
      injection C as <-. cbn [run_loop]. rewrite R. cbn [obind].
      destruct (IH s1 (S i) (pre ++ map Some l) (skipn (length l) mid)) as (s2 & R2 & X2 & F2).
      + exact (oke_frame st s s1 ps a x Nx F1 H).
      + rewrite <- app_assoc. exact X1.
      + rewrite app_length, map_length. cbn. lia.
      + rewrite skipn_length. lia.
      + exists s2. split; [exact R2|]. split.
        * rewrite X2. cbn [repeat concat]. rewrite map_app, app_assoc. reflexivity.
        * intros y Hy. rewrite F2, F1 by assumption. reflexivity.
  Qed.

  Lemma unroll_ok : forall n i codes, unroll st a i n = Some codes -> forall s pre mid,
    oke st s ps a -> s x = Some (pre ++ mid) -> length pre = i * length l -> length mid = n * length l ->
    exists s', run_codes inp s x codes = Some s' /\ s' x = Some (pre ++ map Some (concat (repeat l n))) /\ forall y, y <> x -> s' y = s y.
  Proof.
    induction n as [|n IH]; intros i codes U s pre mid H X Lp Lm; cbn [unroll] in U.
    - injection U as <-. destruct mid; cbn in Lm; [|lia]. cbn. eauto.
    - destruct (put st (OTimes (size_of st a) i) a) as [cs|] eqn:P; [|discriminate]. cbn [obind] in U.
      destruct (unroll st a (S i) n) as [rest|] eqn:U'; [|discriminate]. injection U as <-.
      assert (O : off_val inp s (OTimes (size_of st a) i) 0 = Some (Z.of_nat (length pre))).
      { cbn. rewrite (operand_size inp st s ps a l Op H Pa). cbn. f_equal. lia. }
      cbn [Nat.mul] in Lm.
      assert (M : mid = firstn (length l) mid ++ skipn (length l) mid) by (symmetry; apply firstn_skipn).
      assert (X' := X). rewrite M in X'.
      destruct (put_ok inp st s ps _ a cs x 0 l (length pre) pre (firstn (length l) mid) (skipn (length l) mid) P H Nx Pa O X' eq_refl) as [[-> L0]|(c' & s1 & -> & _ & R & X1 & F1)].
      { apply firstn_length_le. lia. }
      + destruct (IH (S i) rest U' s pre mid H X) as (s2 & R2 & X2 & F2); [rewrite L0 in *; cbn in *; lia|rewrite L0 in *; cbn in *; lia|].
        exists s2. split; [exact R2|]. split; [|exact F2]. cbn [repeat concat]. rewrite X2, L0. reflexivity.
      + cbn [map app run_codes]. rewrite R. cbn [obind].
        destruct (IH (S i) rest U' s1 (pre ++ map Some l) (skipn (length l) mid)) as (s2 & R2 & X2 & F2).
        * exact (oke_frame st s s1 ps a x Nx F1 H).
        * rewrite <- app_assoc. exact X1.
        * rewrite app_length, map_length. cbn. lia.
        * rewrite skipn_length. lia.
        * exists s2. split; [exact R2|]. split.
          -- rewrite X2. cbn [repeat concat]. rewrite map_app, app_assoc. reflexivity.
          -- intros y Hy. rewrite F2, F1 by assumption. reflexivity.
  Qed.
End Loop.

(* ------------------------------ statements ------------------------------ *)

Lemma unroll_operand st a i n codes : n <> 0 -> unroll st a i n = Some codes -> operand a = true.
Proof. destruct n; [congruence|]. intros _. cbn. destruct (put st (OTimes (size_of st a) i) a) eqn:P; [|discriminate]. intros _. exact (put_operand _ _ _ _ P). Qed.

Lemma expand_ok inp st ps c codes s mid l : expand st c = Some codes -> oke st s ps (rhs c) -> ~ In (target c) (vars (rhs c)) ->
  py_exp inp ps (rhs c) = Some l -> s (target c) = Some mid -> length mid = length l ->
  exists s', run_codes inp s (target c) codes = Some s' /\ s' (target c) = Some (map Some l) /\ forall y, y <> target c -> s' y = s y.
Proof.
  destruct c as [x k|x a b|x a n]; cbn [target rhs]; intros E H N P X L.
  - cbn in E. injection E as <-. cbn in P. injection P as <-.
    destruct (copy_lit_ok x k s [] mid []) as (s' & E' & X' & F'); [cbn; rewrite app_nil_r; exact X|exact L|].
    exists s'. cbn in E', X'. rewrite app_nil_r in X'. split; [|split; assumption]. cbn. unfold run_copy. cbn. rewrite E'. reflexivity.
  - cbn [expand] in E. destruct (oke_cat _ _ _ _ _ H) as [Ha Hb].
    assert (Na : ~ In x (vars a)) by (intros Hx; apply N; cbn; apply in_or_app; auto).
    assert (Nb : ~ In x (vars b)) by (intros Hx; apply N; cbn; apply in_or_app; auto).
    cbn [py_exp] in P. destruct (py_exp inp ps a) as [la|] eqn:Pa; [|discriminate]. destruct (py_exp inp ps b) as [lb|] eqn:Pb; [|discriminate]. injection P as <-.
    destruct (put st OZero a) as [ca|] eqn:Ca; [|discriminate]. cbn [obind] in E.
    destruct (put st (OSize (size_of st a)) b) as [cb|] eqn:Cb; [|discriminate]. injection E as <-.
    rewrite app_length in L.
    assert (M : mid = firstn (length la) mid ++ skipn (length la) mid) by (symmetry; apply firstn_skipn).
    assert (L1 : length (firstn (length la) mid) = length la) by (apply firstn_length_le; lia).
    assert (L2 : length (skipn (length la) mid) = length lb) by (rewrite skipn_length; lia).
    set (m1 := firstn (length la) mid) in *. set (m2 := skipn (length la) mid) in *.
    assert (A : exists s1, run_codes inp s x (map COne ca) = Some s1 /\ s1 x = Some (map Some la ++ m2) /\ (forall y, y <> x -> s1 y = s y) /\
                forall r, run_codes inp s x (map COne ca ++ r) = run_codes inp s1 x r).
    { destruct (put_ok inp st s ps OZero a ca x 0 la 0 [] m1 m2 Ca Ha Na Pa eq_refl) as [[-> L0]|(c & s1 & -> & _ & R & X1 & F1)]; [cbn; rewrite X; f_equal; exact M|reflexivity|exact L1| |].
      - exists s. rewrite L0 in *. destruct m1; [|discriminate]. cbn in M. rewrite M in X. cbn. repeat split; auto.
      - exists s1. cbn. rewrite R. cbn. repeat split; auto. }
    destruct A as (s1 & _ & X1 & F1 & A). rewrite map_app, A.
    assert (Hb1 := oke_frame st s s1 ps b x Nb F1 Hb).
    assert (O : off_val inp s1 (OSize (size_of st a)) 0 = Some (Z.of_nat (length la))).
    { cbn. exact (operand_size inp st s1 ps a la (put_operand _ _ _ _ Ca) (oke_frame st s s1 ps a x Na F1 Ha) Pa). }
    destruct (put_ok inp st s1 ps _ b cb x 0 lb (length la) (map Some la) m2 [] Cb Hb1 Nb Pb O) as [[-> L0]|(c & s2 & -> & _ & R & X2 & F2)].
    + rewrite app_nil_r. exact X1.
    + apply map_length.
    + exact L2.
    + exists s1. rewrite L0 in *. destruct m2; [|discriminate]. rewrite app_nil_r in *. split; [reflexivity|]. split; [exact X1|exact F1].
    + exists s2. cbn. rewrite R. split; [reflexivity|]. rewrite app_nil_r in X2. rewrite map_app. split; [exact X2|]. intros y Hy. rewrite F2, F1 by assumption. reflexivity.
  - cbn [vars] in N. assert (Ha : oke st s ps a) by exact H. cbn [py_exp] in P. destruct (py_exp inp ps a) as [la|] eqn:Pa; [|discriminate].
    assert (LL : forall m, put st (OLoop (size_of st a)) a <> None -> expand st (SDup x a n) = option_map (map (CLoop m)) (put st (OLoop (size_of st a)) a) -> value inp m = value inp n ->
      exists s', run_codes inp s x codes = Some s' /\ s' x = Some (map Some l) /\ forall y, y <> x -> s' y = s y).
    { intros m NN EE V. rewrite EE in E. destruct (put st (OLoop (size_of st a)) a) as [cs|] eqn:C; [|congruence]. cbn in E. injection E as <-.
      assert (Op := put_operand _ _ _ _ C). injection P as <-. rewrite concat_length in L.
      destruct cs as [|c [|c' cs]].
      - exists s. cbn. split; [reflexivity|]. split; [|auto].
        assert (la = []). { destruct a as [y|k|? ?|? [[|?]|?]]; cbn in C; try discriminate. cbn in Pa. destruct (py_exp inp ps a); [|discriminate]. injection Pa as <-. reflexivity. }
        subst la. rewrite Nat.mul_0_r in L. destruct mid; [|discriminate]. rewrite X.
        assert (G : forall q, concat (repeat (@nil Z) q) = []) by (induction q; cbn; auto). rewrite G. reflexivity.
      - destruct (loop_ok inp st ps a x la N Pa Op c C (Z.to_nat (value inp n)) s 0 [] mid Ha X eq_refl L) as (s' & R & X' & F).
        exists s'. cbn [map run_codes]. rewrite V, R. cbn. split; [reflexivity|]. split; [exact X'|exact F].
      - destruct a as [y|k|? ?|? [[|?]|?]]; cbn in C; discriminate. }
    destruct n as [n|k].
    + destruct (n <=? 10) eqn:G.
      * cbn [expand] in E. rewrite G in E. injection P as <-. rewrite Nat2Z.id, concat_length in *.
        destruct n as [|n].
        { cbn in E. injection E as <-. exists s. cbn. split; [reflexivity|]. destruct mid; [|discriminate]. auto. }
        destruct (unroll_ok inp st ps a x la N Pa (unroll_operand st a 0 (S n) codes ltac:(lia) E) (S n) 0 codes E s [] mid Ha X eq_refl L) as (s' & R & X' & F).
        exists s'. split; [exact R|]. split; [exact X'|exact F].
      * apply (LL (LLit n)); [|cbn [expand]; rewrite G; reflexivity|reflexivity].
        cbn [expand] in E. rewrite G in E. destruct (put st (OLoop (size_of st a)) a); [congruence|discriminate].
    + apply (LL (LVar k)); [|reflexivity|reflexivity]. cbn [expand] in E. destruct (put st (OLoop (size_of st a)) a); [congruence|discriminate].
Qed.

(* ------------------------------ allocation ------------------------------ *)

Lemma alloc_ok l inp s x a fresh z n : size_val inp s z = Some n -> a <> Reserve ->
  (l = LC \/ a = Resize -> (0 <= n)%Z) -> (fresh = false -> exists c, s x = Some c) ->
  exists s' c, run_alloc l inp s x a fresh z = Some s' /\ s' x = Some c /\ length c = Z.to_nat n /\ forall y, y <> x -> s' y = s y.
Proof.
  intros E A P Fr. unfold run_alloc. rewrite E. cbn [obind].
  assert (New : forall c : cells, length c = Z.to_nat n -> exists s' d, Some (upd s x (Some c)) = Some s' /\ s' x = Some d /\ length d = Z.to_nat n /\ (forall y, y <> x -> s' y = s y)).
  { intros c L. eexists. exists c. split; [reflexivity|]. split; [apply upd_eq|]. split; [exact L|]. intros; now apply upd_ne. }
  assert (New0 := New (repeat None (Z.to_nat n)) (repeat_length _ _)).
  assert (Mal : exists s' c, (match l with LC => if (n <? 0)%Z then None else Some (upd s x (Some (repeat None (Z.to_nat n))))
     | LFortran => Some (if negb fresh && (Z.of_nat (length (match s x with Some o => o | None => [] end)) =? n)%Z then s else upd s x (Some (repeat None (Z.to_nat n)))) end) = Some s'
     /\ s' x = Some c /\ length c = Z.to_nat n /\ (forall y, y <> x -> s' y = s y)).
  { destruct l.
    - rewrite (proj2 (Z.ltb_ge n 0)) by (apply P; auto). exact New0.
    - destruct (negb fresh && _) eqn:K; [|exact New0].
      apply andb_true_iff in K. destruct K as [K1 K2]. apply Z.eqb_eq in K2. destruct Fr as [o X]; [destruct fresh; [discriminate|reflexivity]|].
      rewrite X in K2. exists s, o. split; [reflexivity|]. split; [exact X|]. split; [lia|]. auto. }
  destruct a; try congruence; [exact Mal| |exact New0|exact Mal].
  rewrite (proj2 (Z.ltb_ge n 0)) by (apply P; auto). destruct l; [|exact New0].
  apply New. unfold resize. rewrite app_length, repeat_length, firstn_length. lia.
Qed.

Lemma stmt_size inp st st' s ps c codes l : expand st' c = Some codes -> oke st s ps (rhs c) -> py_exp inp ps (rhs c) = Some l ->
  exists n, size_val inp s (size_of st (rhs c)) = Some n /\ Z.to_nat n = length l /\ (not_negative inp c -> (0 <= n)%Z).
Proof.
  destruct c as [x k|x a b|x a n]; cbn [rhs]; intros E H P.
  - cbn in P. injection P as <-. exists (Z.of_nat (length k)). cbn. split; [reflexivity|]. split; lia.
  - cbn [expand] in E. destruct (put st' OZero a) as [ca|] eqn:Ca; [|discriminate]. cbn [obind] in E.
    destruct (put st' _ b) as [cb|] eqn:Cb; [|discriminate]. destruct (oke_cat _ _ _ _ _ H) as [Ha Hb].
    cbn [py_exp] in P. destruct (py_exp inp ps a) as [la|] eqn:Pa; [|discriminate]. destruct (py_exp inp ps b) as [lb|] eqn:Pb; [|discriminate]. injection P as <-.
    cbn [size_of size_val]. rewrite (operand_size inp st s ps a la (put_operand _ _ _ _ Ca) Ha Pa), (operand_size inp st s ps b lb (put_operand _ _ _ _ Cb) Hb Pb).
    eexists. split; [reflexivity|]. rewrite app_length. split; lia.
  - cbn [py_exp] in P. destruct (py_exp inp ps a) as [la|] eqn:Pa; [|discriminate]. injection P as <-. rewrite concat_length.
    cbn [size_of size_val]. assert (Ha : oke st s ps a) by exact H.
    assert (C : operand a = true \/ n = LLit 0).
    { destruct n as [[|n]|k]; [now right| |]; left; cbn [expand] in E.
      - destruct (S n <=? 10) eqn:G; [exact (unroll_operand st' a 0 (S n) codes ltac:(lia) E)|].
        destruct (put st' _ a) eqn:Q; [exact (put_operand _ _ _ _ Q)|discriminate].
      - destruct (put st' _ a) eqn:Q; [exact (put_operand _ _ _ _ Q)|discriminate]. }
    destruct C as [Op| ->].
    + rewrite (operand_size inp st s ps a la Op Ha Pa). cbn. eexists. split; [reflexivity|]. change (match n with LLit n0 => Z.of_nat n0 | LVar k => inp k end) with (value inp n).
      split.
      * destruct (Z.le_gt_cases 0 (value inp n)); [rewrite Z2Nat.inj_mul, Nat2Z.id by lia; lia|].
        replace (Z.to_nat (value inp n)) with 0 by lia. assert ((Z.of_nat (length la) * value inp n <= 0)%Z) by nia. destruct (Z.of_nat (length la) * value inp n)%Z; cbn; lia.
      * intros NN. assert ((0 <= value inp n)%Z) by (destruct n as [n|k]; [cbn; lia|apply (NN k); cbn; auto]). nia.
    + destruct (size_some inp st s ps a Ha) as [z ->]. cbn. exists (z * 0)%Z. split; [reflexivity|]. split; lia.
Qed.

(* ------------------------------ programs ------------------------------ *)

Definition inv (st : infos) (s : store) (ps : pstore) : Prop :=
  forall y, match st y with None => s y = None /\ ps y = None | Some _ => okv st s ps y end.

Lemma shape_oke st s ps e sh : inv st s ps -> shape_of st e = Some sh -> oke st s ps e.
Proof.
  intros I. revert sh. induction e as [y|k|a IHa b IHb|a IH n]; intros sh E z Hz; cbn in E, Hz.
  - destruct Hz as [<-|[]]. specialize (I y). destruct (st y); [exact I|discriminate].
  - destruct Hz.
  - destruct (shape_of st a) as [sa|]; [|discriminate]. destruct (shape_of st b) as [sb|]; [|discriminate].
    apply in_app_or in Hz. destruct Hz as [Hz|Hz]; [exact (IHa sa eq_refl z Hz)|exact (IHb sb eq_refl z Hz)].
  - destruct (shape_of st a) as [sa|]; [|discriminate]. exact (IH sa eq_refl z Hz).
Qed.

Definition cond (l : lang) (k : kind) (inp : nat -> Z) (c : stmt) : Prop :=
  fresh_target c /\ (k = KList -> is_cat c = false) /\ (l = LC \/ k = KList -> not_negative inp c).

Lemma fresh_rhs c : fresh_target c -> ~ In (target c) (vars (rhs c)).
Proof. destruct c as [x k|x a b|x a n]; cbn; [tauto| |tauto]. intros [A B] H. apply in_app_or in H. tauto. Qed.
Lemma alloc_kind k c : (k = KList -> is_cat c = false) -> alloc_type k c <> Reserve.
Proof. destruct k, c; cbn; try congruence. intros H. specialize (H eq_refl). discriminate. Qed.
Lemma alloc_resize k c : alloc_type k c = Resize -> k = KList.
Proof. destruct k, c; cbn; congruence. Qed.

Lemma run_app l inp p : forall s q, run l inp s (p ++ q) = obind (run l inp s p) (fun s' => run l inp s' q).
Proof.
  induction p as [|g p IH]; intros s q; cbn; [reflexivity|]. destruct g as [x a f z|x c].
  - destruct (run_alloc l inp s x a f z); cbn; [apply IH|reflexivity].
  - destruct (run_codes inp s x c); cbn; [apply IH|reflexivity].
Qed.
Lemma py_stmt_eq inp ps c : py_stmt inp ps c = match py_exp inp ps (rhs c) with Some l => Some (upd ps (target c) (Some l)) | None => None end.
Proof. destruct c; reflexivity. Qed.

Lemma inv_upd st s ps x i s' l : inv st s ps -> s' x = Some (map Some l) -> (forall y, y <> x -> s' y = s y) -> (forall n, vsh i = Some n -> n = length l) ->
  inv (upd st x (Some i)) s' (upd ps x (Some l)).
Proof.
  intros I X F V y. destruct (Nat.eq_dec y x) as [->|N].
  - rewrite upd_eq. exists i, l. rewrite !upd_eq. auto.
  - rewrite upd_ne by exact N. specialize (I y). destruct (st y) as [j|] eqn:E.
    + destruct I as (j' & m & A & B & C & D). exists j', m. rewrite !upd_ne, F by exact N. auto.
    + rewrite upd_ne, F by exact N. exact I.
Qed.
Lemma oke_upd st s ps e x i s' : ~ In x (vars e) -> (forall y, y <> x -> s' y = s y) -> oke st s ps e -> oke (upd st x i) s' ps e.
Proof.
  intros N F H y Hy. assert (y <> x) by (intros ->; contradiction). destruct (H y Hy) as (j & l & A & B & C). exists j, l. rewrite upd_ne, F by assumption. auto.
Qed.

Lemma step l k inp st s ps c g st' : visit k st c = Some (g, st') -> inv st s ps -> cond l k inp c ->
  exists s' ps', run l inp s g = Some s' /\ py_stmt inp ps c = Some ps' /\ inv st' s' ps'.
Proof.
  unfold visit. intros V I (Fr & Kc & Nn). destruct (shape_of st (rhs c)) as [sh|] eqn:Sh; [|discriminate]. cbn [obind] in V.
  assert (H := shape_oke st s ps _ sh I Sh). destruct (py_some inp st s ps _ H) as [v P]. rewrite py_stmt_eq, P.
  assert (N := fresh_rhs c Fr). assert (Ix := I (target c)). set (x := target c) in *.
  assert (Lit : forall n, literal k sh = Some n -> n = length v).
  { intros n E. unfold literal in E. destruct k; [|discriminate]. destruct sh; try discriminate. injection E as <-. symmetry. exact (shape_lit inp st s ps (rhs c) H _ v Sh P). }
  assert (Al : forall a fresh i codes, expand (upd st x i) c = Some codes -> a <> Reserve -> (a = Resize -> k = KList) -> (fresh = false -> exists c, s x = Some c) ->
    exists s', run l inp s [GAlloc x a fresh (size_of st (rhs c)); GCode x codes] = Some s' /\ s' x = Some (map Some v) /\ forall y, y <> x -> s' y = s y).
  { intros a fresh i codes E Ra Rs Ff. destruct (stmt_size inp st (upd st x i) s ps c codes v E H P) as (n & Z1 & Z2 & Z3).
    destruct (alloc_ok l inp s x a fresh _ n Z1 Ra) as (s1 & c1 & R1 & X1 & L1 & F1); [intros [->|A]; apply Z3, Nn; auto|exact Ff|].
    destruct (expand_ok inp (upd st x i) ps c codes s1 c1 v E) as (s2 & R2 & X2 & F2); [exact (oke_upd st s ps _ x i s1 N F1 H)|exact N|exact P|exact X1|congruence|].
    exists s2. cbn. rewrite R1. cbn. fold x in R2. rewrite R2. split; [reflexivity|]. split; [exact X2|]. intros y Hy. rewrite F2, F1 by exact Hy. reflexivity. }
  destruct (st x) as [i|] eqn:Ex.
  - destruct Ix as (i' & old & A & B & C & D). assert (i' = i) by congruence. subst i'.
    destruct (same x i sh) eqn:Sm.
    + destruct (expand st c) as [codes|] eqn:E; [|discriminate]. injection V as <- <-.
      assert (L : length (map Some old) = length v).
      { rewrite map_length. unfold same in Sm. destruct sh as [n|y|]; [|destruct (vsh i); [discriminate|]|discriminate].
        - destruct (vsh i) as [m|]; [|discriminate]. apply Nat.eqb_eq in Sm. subst m. rewrite <- (D n eq_refl). symmetry. exact (shape_lit inp st s ps _ H n v Sh P).
        - apply Nat.eqb_eq in Sm. subst y. exfalso. exact (N (shape_of_self st _ x Sh)). }
      destruct (expand_ok inp st ps c codes s (map Some old) v E H N P B L) as (s' & R & X & F).
      exists s', (upd ps x (Some v)). cbn. fold x in R, X, F. rewrite R. split; [reflexivity|]. split; [reflexivity|].
      assert (I' := inv_upd st s ps x i s' v I X F). 
      assert (Q : forall n, vsh i = Some n -> n = length v) by (intros n E'; rewrite (D n E'); rewrite map_length in L; exact L).
      specialize (I' Q). intros y. specialize (I' y). destruct (Nat.eq_dec y x) as [->|Ny].
      * rewrite upd_eq in I'. rewrite Ex. destruct I' as (j & m & A1 & A2 & A3 & A4). rewrite upd_eq in A1. exists j, m. rewrite Ex. auto.
      * rewrite upd_ne in I' by exact Ny. destruct (st y) as [j|] eqn:Ey; [|exact I']. destruct I' as (j' & m & A1 & A2 & A3 & A4).
        rewrite upd_ne in A1 by exact Ny. exists j', m. auto.
    + destruct (heap i); [|discriminate]. destruct (expand _ c) as [codes|] eqn:E; [|discriminate]. injection V as <- <-.
      destruct (Al (alloc_type k c) false _ codes E (alloc_kind k c Kc) (alloc_resize k c)) as (s' & R & X & F); [eauto|].
      exists s', (upd ps x (Some v)). split; [exact R|]. split; [reflexivity|]. apply (inv_upd st s ps x _ s' v I X F). discriminate.
  - set (on_stack := match k with KTuple => _ | KList => false end) in V.
    destruct (expand _ c) as [codes|] eqn:E; [|discriminate]. injection V as <- <-.
    destruct (Al (if on_stack then Stack else alloc_type k c) true _ codes E) as (s' & R & X & F).
    + destruct on_stack; [discriminate|exact (alloc_kind k c Kc)].
    + destruct on_stack; [discriminate|exact (alloc_resize k c)].
    + discriminate.
    + exists s', (upd ps x (Some v)). split; [exact R|]. split; [reflexivity|]. apply (inv_upd st s ps x _ s' v I X F). exact Lit.
Qed.

Lemma program l k inp p : forall st s ps g st', translate k st p = Some (g, st') -> inv st s ps -> Forall (cond l k inp) p ->
  exists s' ps', run l inp s g = Some s' /\ python inp ps p = Some ps' /\ inv st' s' ps'.
Proof.
  induction p as [|c p IH]; intros st s ps g st' T I C; cbn in T.
  - injection T as <- <-. cbn. eauto.
  - destruct (visit k st c) as [[g1 st1]|] eqn:V; [|discriminate]. cbn in T. destruct (translate k st1 p) as [[g2 st2]|] eqn:T2; [|discriminate]. injection T as <- <-.
    inversion C as [|? ? C1 C2]; subst. destruct (step l k inp st s ps c g1 st1 V I C1) as (s1 & ps1 & R1 & P1 & I1).
    destruct (IH st1 s1 ps1 g2 st2 T2 I1 C2) as (s2 & ps2 & R2 & P2 & I2). exists s2, ps2. cbn. rewrite run_app, R1, P1. cbn. auto.
Qed.
Lemma inv_start : inv (fun _ => None) (fun _ => None) (fun _ => None).
Proof. intros y. cbn. auto. Qed.

Lemma same_values l k inp p : translate k (fun _ => None) p <> None -> Forall (cond l k inp) p ->
  exists s ps, compiled l k p inp = Some s /\ python inp (fun _ => None) p = Some ps /\ forall x, s x = option_map (map Some) (ps x).
Proof.
  intros T C. unfold compiled. destruct (translate k (fun _ => None) p) as [[g st]|] eqn:E; [|congruence]. cbn.
  destruct (program l k inp p _ _ _ g st E inv_start C) as (s & ps & R & P & I). exists s, ps. split; [exact R|]. split; [exact P|].
  intros x. specialize (I x). destruct (st x).
  - destruct I as (j & m & _ & A & B & _). rewrite A, B. reflexivity.
  - destruct I as [-> ->]. reflexivity.
Qed.

(* ------------------------------ which programs are translated ------------------------------ *)

Lemma expand_flat st c : (exists codes, expand st c = Some codes) <-> flat c = true.
Proof.
  assert (U : forall a n i, (exists codes, unroll st a i (S n) = Some codes) <-> operand a = true).
  { intros a n. induction n as [|n IH]; intros i; cbn [unroll].
    - destruct (put st _ a) eqn:P; cbn; split; intros H; eauto using put_operand; [destruct H; discriminate|].
      destruct (put_some st (OTimes (size_of st a) i) a H) as [c0 E]. congruence.
    - destruct (put st _ a) eqn:P; cbn [obind]; split; intros H; eauto using put_operand; [|destruct H; discriminate|destruct (put_some st (OTimes (size_of st a) i) a H) as [c0 E]; congruence].
      apply (IH (S i)) in H. destruct H as [r H]. cbn [unroll] in H. rewrite H. cbn. eauto. }
  assert (Q : forall o a f, (exists codes, option_map f (put st o a) = Some codes :> option (list code)) <-> operand a = true).
  { intros o a f. split.
    - intros [r H]. destruct (put st o a) eqn:P; [exact (put_operand _ _ _ _ P)|discriminate].
    - intros H. destruct (put_some st o a H) as [r ->]. cbn. eauto. }
  destruct c as [x l|x a b|x a n]; cbn [expand flat].
  - split; eauto.
  - rewrite andb_true_iff. split.
    + intros [r H]. destruct (put st OZero a) eqn:P; [|discriminate]. cbn [obind] in H. split; [exact (put_operand _ _ _ _ P)|]. apply (Q (OSize (size_of st a)) b (fun d => map COne (l ++ d))). eauto.
    + intros [A B]. destruct (put_some st OZero a A) as [r ->]. cbn [obind]. apply (Q (OSize (size_of st a)) b (fun d => map COne (r ++ d))). exact B.
  - destruct n as [[|n]|k].
    + cbn. split; eauto.
    + destruct (S n <=? 10); [apply U|apply Q].
    + apply Q.
Qed.

Lemma visit_flat k st c g : visit k st c = Some g -> flat c = true.
Proof.
  unfold visit. destruct (shape_of st (rhs c)); [|discriminate]. cbn [obind]. intros H. destruct (st (target c)) as [i|].
  - destruct (same (target c) i s); [|destruct (heap i); [|discriminate]].
    + destruct (expand st c) eqn:E; [|discriminate]. apply (expand_flat st). eauto.
    + destruct (expand _ c) eqn:E in H; [|discriminate]. eapply expand_flat. eauto.
  - destruct (expand _ c) eqn:E in H; [|discriminate]. eapply expand_flat. eauto.
Qed.

Lemma shape_defined (inp : nat -> Z) st (ps : pstore) e : (forall y, st y = None <-> ps y = None) -> has_elements e = true ->
  ((exists sh, shape_of st e = Some sh) <-> (exists l, py_exp inp ps e = Some l)).
Proof.
  intros D. induction e as [y|l|a IHa b IHb|a IH n]; cbn; intros F.
  - specialize (D y). destruct (st y), (ps y); split; intros [r H]; eauto; try discriminate; [destruct D as [_ D]; discriminate (D eq_refl)|destruct D as [D _]; discriminate (D eq_refl)].
  - destruct l; [discriminate|]. split; eauto.
  - apply andb_true_iff in F. destruct F as [Fa Fb]. specialize (IHa Fa). specialize (IHb Fb).
    destruct (shape_of st a), (py_exp inp ps a); [|exfalso; destruct IHa as [IHa _]; destruct IHa as [? ?]; [eauto|discriminate]|exfalso; destruct IHa as [_ IHa]; destruct IHa as [? ?]; [eauto|discriminate]|split; intros [? ?]; discriminate].
    destruct (shape_of st b), (py_exp inp ps b); [|exfalso; destruct IHb as [IHb _]; destruct IHb as [? ?]; [eauto|discriminate]|exfalso; destruct IHb as [_ IHb]; destruct IHb as [? ?]; [eauto|discriminate]|split; intros [? ?]; discriminate].
    split; eauto.
  - specialize (IH F). destruct (shape_of st a), (py_exp inp ps a); [|exfalso; destruct IH as [IH _]; destruct IH as [? ?]; [eauto|discriminate]|exfalso; destruct IH as [_ IH]; destruct IH as [? ?]; [eauto|discriminate]|split; intros [? ?]; discriminate].
    split; eauto.
Qed.

Lemma accepted k inp p : forall st (ps : pstore), (forall y, st y = None <-> ps y = None) -> (forall y, In y (map target p) -> st y = None) ->
  NoDup (map target p) -> forallb all_elements p = true ->
  (translate k st p <> None <-> python inp ps p <> None /\ forallb flat p = true).
Proof.
  induction p as [|c p IH]; intros st ps D T N F; cbn [translate python forallb].
  - split; [split; [discriminate|reflexivity]|discriminate].
  - cbn [map] in N, T. inversion N as [|? ? N1 N2]; subst. cbn in F. apply andb_true_iff in F. destruct F as [F1 F2].
    assert (E := shape_defined inp st ps (rhs c) D ltac:(destruct c; exact F1)).
    assert (X := T (target c) (or_introl eq_refl)). rewrite py_stmt_eq, andb_true_iff.
    assert (V : forall g st', visit k st c = Some (g, st') -> exists i, st' = upd st (target c) (Some i)).
    { intros g st'. unfold visit. destruct (shape_of st (rhs c)); [|discriminate]. cbn [obind]. rewrite X. destruct (expand _ c); [|discriminate]. intros [= _ <-]. eauto. }
    assert (W : visit k st c <> None <-> (exists l, py_exp inp ps (rhs c) = Some l) /\ flat c = true).
    { rewrite <- E. unfold visit. split.
      - intros H. destruct (shape_of st (rhs c)); [|exfalso; apply H; reflexivity]. cbn [obind] in H. rewrite X in H. split; [eauto|].
        cbv zeta in H; match type of H with option_map _ (expand ?s c) <> None => destruct (expand s c) eqn:G end; [|exfalso; apply H; reflexivity]. eapply expand_flat. eauto.
      - intros [[sh ->] G]. cbn [obind]. rewrite X. set (st' := upd st _ _). destruct (proj2 (expand_flat st' c) G) as [r ->]. discriminate. }
    destruct (visit k st c) as [[g st']|] eqn:VV.
    + destruct (V g st' eq_refl) as [i ->]. destruct (proj1 W ltac:(discriminate)) as [[l P] G]. rewrite P. cbn [obind fst snd].
      assert (Step : translate k (upd st (target c) (Some i)) p <> None <-> python inp (upd ps (target c) (Some l)) p <> None /\ forallb flat p = true).
      { apply IH; [| |exact N2|exact F2].
        - intros y. unfold upd. destruct (Nat.eqb y (target c)); [split; discriminate|apply D].
        - intros y Hy. rewrite upd_ne; [apply T; now right|]. intros ->. contradiction. }
      destruct (translate k (upd st (target c) (Some i)) p); cbn [option_map].
      * split; [intros _|intros _; discriminate]. destruct (proj1 Step ltac:(discriminate)) as [S1 S2]. auto.
      * split; [congruence|]. intros (H & _ & H2). apply Step. auto.
    + split; [intros H; cbn in H; congruence|]. intros (H & G & _). exfalso. apply (proj2 W); [|reflexivity].
      split; [|exact G]. destruct (py_exp inp ps (rhs c)); [eauto|congruence].
Qed.

Lemma nested k p : translate k (fun _ => None) p <> None -> forallb flat p = true.
Proof.
  generalize (fun _ : nat => @None info). induction p as [|c p IH]; intros st H; cbn in *; [reflexivity|].
  destruct (visit k st c) as [g|] eqn:V; [|cbn in H; congruence]. rewrite (visit_flat k st c g V). cbn. apply (IH (snd g)). intros E. apply H. cbn. rewrite E. reflexivity.
Qed.

(* ------------------------------ operands that are assigned ------------------------------ *)

Lemma set_same l : forall j v, nth_error l j = Some v -> set_at l j v = Some l.
Proof. induction l as [|a l IH]; intros [|j] v H; cbn in *; try discriminate; [injection H as ->; reflexivity|]. rewrite (IH j v H). reflexivity. Qed.
Lemma copy_self n : forall s x j c, s x = Some c -> j + n <= length c -> exists s', copy_var s x 0 x j n = Some s' /\ s' x = Some c /\ forall y, y <> x -> s' y = s y.
Proof.
  induction n as [|n IH]; intros s x j c X L; cbn [copy_var].
  - eauto.
  - rewrite X. cbn [obind]. destruct (nth_error c j) as [v|] eqn:V; [|apply nth_error_None in V; lia]. cbn [obind].
    unfold assign. rewrite X. cbn [obind Nat.add]. rewrite (set_same c j v V). cbn [option_map obind].
    destruct (IH (upd s x (Some c)) x (S j) c) as (s' & R & X' & F); [apply upd_eq|lia|]. exists s'. split; [exact R|]. split; [exact X'|].
    intros y Hy. rewrite F, upd_ne by exact Hy. reflexivity.
Qed.
Lemma assign_out s x i v c : s x = Some c -> length c <= i -> assign s x i v = None.
Proof. intros X L. unfold assign. rewrite X. cbn. rewrite set_at_out by exact L. reflexivity. Qed.

Section Self.
  Context (inp : nat -> Z) (x : nat).
  Definition self_copy (o : offset) : copy := mk_copy o (AVar x) (ZLen x).
  Lemma self_first s c o i : s x = Some c -> off_val inp s o i = Some 0%Z ->
    exists s', run_copy inp s x (self_copy o) i = Some s' /\ s' x = Some c /\ forall y, y <> x -> s' y = s y.
  Proof. intros X O. unfold run_copy, self_copy. cbn [c_off c_src c_size]. rewrite O. cbn [obind size_val]. rewrite X. cbn [option_map obind]. rewrite Nat2Z.id. apply copy_self; [exact X|lia]. Qed.
  Lemma self_second s c o i : s x = Some c -> c <> [] -> off_val inp s o i = Some (Z.of_nat (length c)) -> run_copy inp s x (self_copy o) i = None.
  Proof.
    intros X N O. unfold run_copy, self_copy. cbn [c_off c_src c_size]. rewrite O. cbn [obind size_val]. rewrite X. cbn [option_map obind]. rewrite !Nat2Z.id.
    destruct c as [|a c]; [congruence|]. cbn [length copy_var]. rewrite X. cbn [obind nth_error]. rewrite (assign_out s x _ _ _ X); [reflexivity|]. cbn. lia.
  Qed.
  Lemma self_dup_fails st i s c n codes : st x = Some i -> vsh i = None -> s x = Some c -> c <> [] -> (2 <= value inp n)%Z ->
    expand st (SDup x (EVar x) n) = Some codes -> run_codes inp s x codes = None.
  Proof.
    intros E V X N G H. destruct i as [h v]. cbn in V. subst v.
    assert (L : forall m, run_loop inp s x (self_copy (OLoop (ZLen x))) 0 (S (S m)) = None).
    { intros m. cbn [run_loop]. destruct (self_first s c (OLoop (ZLen x)) 0 X) as (s1 & R & X1 & _); [cbn; rewrite X; cbn; f_equal; lia|]. rewrite R. cbn [obind].
      rewrite (self_second s1 c _ 1 X1 N); [reflexivity|]. cbn. rewrite X1. cbn. f_equal. lia. }
    assert (M : exists m, Z.to_nat (value inp n) = S (S m)) by (exists (Z.to_nat (value inp n) - 2); lia). destruct M as [m M].
    destruct n as [n|k]; cbn [expand put option_map] in H; unfold size_of in H; rewrite E in H.
    - cbn in M. rewrite Nat2Z.id in M. subst n. destruct (S (S m) <=? 10).
      + cbn [unroll put obind] in H. unfold size_of in H. rewrite E in H. destruct (unroll st (EVar x) 2 m) as [r|]; [|discriminate]. cbn in H. injection H as <-.
        cbn [run_codes]. change (mk_copy ?o (AVar x) (ZLen x)) with (self_copy o).
        destruct (self_first s c (OTimes (ZLen x) 0) 0 X) as (s1 & R & X1 & _); [cbn; rewrite X; cbn; f_equal; lia|]. rewrite R. cbn [obind].
        rewrite (self_second s1 c _ 0 X1 N); [reflexivity|]. cbn. rewrite X1. cbn. f_equal. lia.
      + injection H as <-. cbn [map run_codes]. change (value inp (LLit (S (S m)))) with (Z.of_nat (S (S m))). rewrite Nat2Z.id.
        change (mk_copy ?o (AVar x) (ZLen x)) with (self_copy o). rewrite L. reflexivity.
    - injection H as <-. cbn [map run_codes]. rewrite M. change (mk_copy ?o (AVar x) (ZLen x)) with (self_copy o). rewrite L. reflexivity.
  Qed.
End Self.

(* ------------------------------ programs that go wrong ------------------------------ *)

Definition first_info (k : kind) (u : list Z) : info := mk_info true (match k with KTuple => Some (length u) | KList => None end).
Lemma first_lit l k inp x u : u <> [] -> exists g s, visit k (fun _ => None) (SLit x u) = Some (g, upd (fun _ => None) x (Some (first_info k u))) /\
  run l inp (fun _ => None) g = Some s /\ s x = Some (map Some u) /\ forall y, y <> x -> s y = None.
Proof.
  intros N. assert (V : exists g, visit k (fun _ => None) (SLit x u) = Some (g, upd (fun _ => None) x (Some (first_info k u)))).
  { unfold visit. cbn. destruct u; [congruence|]. destruct k; cbn; eauto. }
  destruct V as [g V]. destruct (step l k inp _ _ _ (SLit x u) g _ V inv_start) as (s & ps & R & P & I).
  { split; [exact Logic.I|]. split; [reflexivity|]. intros _ j []. }
  exists g, s. split; [exact V|]. split; [exact R|]. rewrite py_stmt_eq in P. cbn in P. injection P as <-. split.
  - specialize (I x). rewrite upd_eq in I. destruct I as (i & m & _ & B & C & _). rewrite upd_eq in C. congruence.
  - intros y Hy. specialize (I y). rewrite upd_ne in I by exact Hy. apply I.
Qed.

Lemma mul_not_same k x u n inp : u <> [] -> (2 <= value inp n)%Z ->
  same x (first_info k u) (mul (match vsh (first_info k u) with Some m => ShLit m | None => ShOf x end) n) = false.
Proof.
  intros N G. destruct u as [|a u]; [congruence|]. destruct k; cbn -[Nat.mul].
  - destruct n as [n|j]; [|destruct u; reflexivity]. cbn in G. destruct n as [|[|n]]; try lia.
    destruct u as [|b u]; [reflexivity|]. unfold mul, same. cbn [vsh]. apply Nat.eqb_neq. cbn. lia.
  - destruct n as [[|[|n]]|j]; cbn in *; try lia; reflexivity.
Qed.

Lemma self_dup l k inp x u n q : u <> [] -> (2 <= value inp n)%Z -> compiled l k (SLit x u :: SDup x (EVar x) n :: q) inp = None.
Proof.
  intros N G. unfold compiled. destruct (first_lit l k inp x u N) as (g & s & V & R & X & _). cbn [translate]. rewrite V. cbn [obind snd fst].
  unfold visit. cbn [target rhs shape_of]. rewrite upd_eq. cbn [obind]. rewrite (mul_not_same k x u n inp N G). cbn [heap first_info].
  set (st' := upd _ x (Some (mk_info true None))). destruct (expand st' (SDup x (EVar x) n)) as [codes|] eqn:E; [|reflexivity]. cbn [option_map obind fst snd].
  destruct (translate k st' q) as [[h st2]|]; [|reflexivity]. cbn [option_map obind fst snd].
  rewrite run_app, R. cbn [obind run app]. unfold run_alloc.
  assert (Sz : size_val inp s (size_of (upd (fun _ => None) x (Some (first_info k u))) (EDup (EVar x) n)) = Some (Z.of_nat (length u) * value inp n)%Z).
  { cbn [size_of]. rewrite upd_eq. destruct k; cbn; [reflexivity|]. rewrite X. cbn. rewrite map_length. reflexivity. }
  rewrite Sz. cbn [obind].
  assert (P : (2 <= Z.of_nat (length u) * value inp n)%Z /\ (Z.of_nat (length u) < Z.of_nat (length u) * value inp n)%Z) by (destruct u; [congruence|]; cbn [length]; nia).
  set (m := (Z.of_nat (length u) * value inp n)%Z) in *. rewrite X, map_length.
  assert (F : forall s1 c, s1 x = Some c -> c <> [] -> run_codes inp s1 x codes = None).
  { intros s1 c X1 C. apply (self_dup_fails inp x st' (mk_info true None) s1 c n codes); [apply upd_eq|reflexivity|exact X1|exact C|exact G|exact E]. }
  assert (B : (m <? 0)%Z = false) by (apply Z.ltb_ge; lia).
  assert (RR : repeat (@None Z) (Z.to_nat m) <> []) by (intros Q; apply (f_equal (@length _)) in Q; rewrite repeat_length in Q; cbn in Q; lia).
  destruct k; cbn [alloc_type]; destruct l; rewrite ?B; cbn [negb andb obind].
  - rewrite (F _ _ (upd_eq _ _ _) RR). reflexivity.
  - rewrite (proj2 (Z.eqb_neq _ _)) by lia. rewrite (F _ _ (upd_eq _ _ _) RR). reflexivity.
  - rewrite (F _ _ (upd_eq _ _ _)); [reflexivity|]. intros Q. apply (f_equal (@length _)) in Q. unfold resize in Q. rewrite app_length, repeat_length, firstn_length, map_length in Q. cbn in Q. lia.
  - rewrite (F _ _ (upd_eq _ _ _) RR). reflexivity.
Qed.

Lemma copy_lit_out s x off v w c : s x = Some c -> length c <= off -> copy_lit s x off (v :: w) = None.
Proof. intros X L. cbn. rewrite (assign_out s x off _ c X L). reflexivity. Qed.

(* x = x + v *)
Lemma self_cat l inp x u v q : u <> [] -> v <> [] -> compiled l KTuple (SLit x u :: SCat x (EVar x) (ELit v) :: q) inp = None.
Proof.
  intros N G. destruct v as [|v0 v]; [congruence|]. unfold compiled. destruct (first_lit l KTuple inp x u N) as (g & s & V & R & X & _). cbn [translate]. rewrite V. cbn [obind snd fst].
  unfold visit. cbn [target rhs shape_of]. rewrite upd_eq. cbn [obind same heap first_info vsh option_map expand put size_of].
  rewrite !upd_eq. cbn [obind first_info option_map fst snd].
  set (st' := upd _ x (Some (mk_info true None))).
  destruct (translate KTuple st' q) as [[h st2]|]; [|reflexivity]. cbn [option_map obind fst snd].
  rewrite run_app, R. cbn [obind run app]. unfold run_alloc. cbn [size_val obind]. set (m := (Z.of_nat (length u) + Z.of_nat (length (v0 :: v)))%Z). rewrite X, map_length.
  assert (P : (Z.of_nat (length u) < m)%Z) by (unfold m; cbn [length]; lia).
  assert (F : forall s1 c, s1 x = Some c -> run_codes inp s1 x (map COne ([mk_copy OZero (AVar x) (ZLen x)] ++ [mk_copy (OSize (ZLen x)) (ALit (v0 :: v)) (ZLit (length (v0 :: v)))])) = None).
  { intros s1 c X1. cbn [map app run_codes]. destruct (self_first inp x s1 c OZero 0 X1 eq_refl) as (s2 & R2 & X2 & _). change (mk_copy OZero (AVar x) (ZLen x)) with (self_copy x OZero). rewrite R2. cbn [obind].
    unfold run_copy. cbn [c_off c_src off_val size_val]. rewrite X2. cbn [option_map obind]. rewrite Nat2Z.id, (copy_lit_out s2 x _ v0 v c X2 (le_n _)). reflexivity. }
  destruct l; cbn [alloc_type negb andb].
  - rewrite (proj2 (Z.ltb_ge m 0)) by lia. cbn [obind]. rewrite (F _ _ (upd_eq _ _ _)). reflexivity.
  - rewrite (proj2 (Z.eqb_neq _ _)) by lia. cbn [obind]. rewrite (F _ _ (upd_eq _ _ _)). reflexivity.
Qed.

(* a sum of lists *)
Lemma list_cat l inp x y u v q : u <> [] -> v <> [] -> y <> x -> compiled l KList (SLit x u :: SCat y (EVar x) (ELit v) :: q) inp = None.
Proof.
  intros N G Nxy. destruct v as [|v0 v]; [congruence|]. unfold compiled. destruct (first_lit l KList inp x u N) as (g & s & V & R & X & F). cbn [translate]. rewrite V. cbn [obind snd fst].
  unfold visit. cbn [target rhs shape_of]. rewrite upd_eq, (upd_ne _ x y) by exact Nxy. cbn [obind same heap first_info vsh option_map expand put size_of].
  rewrite upd_eq, (upd_ne _ y x), upd_eq by congruence. cbn [obind first_info option_map fst snd alloc_type].
  set (st' := upd _ y _).
  destruct (translate KList st' q) as [[h st2]|]; [|reflexivity]. cbn [option_map obind fst snd].
  rewrite run_app, R. cbn [obind run app]. unfold run_alloc. cbn [size_val]. rewrite X. cbn [option_map obind].
  cbn [map app run_codes]. unfold run_copy. cbn [c_off c_src c_size off_val obind size_val]. rewrite (upd_ne _ y x) by congruence. rewrite X. cbn [option_map obind]. rewrite map_length, Nat2Z.id.
  destruct u as [|u0 u]; [congruence|]. cbn [length Z.to_nat copy_var]. rewrite (upd_ne _ y x) by congruence. rewrite X. cbn [obind map nth_error].
  rewrite (assign_out _ y _ _ [] (upd_eq _ _ _)) by (cbn; lia). reflexivity.
Qed.

Lemma negative inp x u k q : u <> [] -> (inp k < 0)%Z -> compiled LC KTuple (SDup x (ELit u) (LVar k) :: q) inp = None.
Proof.
  intros N G. unfold compiled. cbn [translate]. unfold visit. cbn [target rhs shape_of]. destruct u as [|u0 u]; [congruence|]. cbn [obind expand put option_map alloc_type fst snd size_of].
  destruct (translate KTuple _ q) as [[h st2]|]; [|reflexivity]. cbn [option_map obind fst snd app run]. unfold run_alloc. cbn [size_val value option_map obind].
  rewrite (proj2 (Z.ltb_lt _ 0)); [reflexivity|]. cbn [length]. nia.
Qed.

Lemma stack_again k x u v u' v' q : k = KTuple -> translate k (fun _ => None) (SCat x (ELit u) (ELit v) :: SCat x (ELit u') (ELit v') :: q) = None.
Proof.
  intros ->. cbn [translate]. destruct (visit KTuple _ (SCat x (ELit u) (ELit v))) as [[g st]|] eqn:V; [|reflexivity]. cbn [obind fst snd].
  assert (E : st x = Some (mk_info false None)).
  { unfold visit in V. cbn in V. destruct u; [discriminate|]. destruct v; [discriminate|]. cbn in V. injection V as _ <-. apply upd_eq. }
  unfold visit at 1. cbn [rhs target shape_of]. destruct u'; [reflexivity|]. destruct v'; [reflexivity|]. cbn [obind]. rewrite E. reflexivity.
Qed.

Lemma self_once inp x u k : u <> [] -> inp k = 1%Z ->
  exists s, compiled LC KTuple [SLit x u; SDup x (EVar x) (LVar k)] inp = Some s /\ s x = Some (repeat None (length u)).
Proof.
  intros N G. unfold compiled. destruct (first_lit LC KTuple inp x u N) as (g & s & V & R & X & _). cbn [translate]. rewrite V. cbn [obind snd fst].
  unfold visit. cbn [target rhs shape_of]. rewrite upd_eq. cbn [obind vsh first_info].
  assert (M : same x (mk_info true (Some (length u))) (mul (ShLit (length u)) (LVar k)) = false \/ length u = 0) by (destruct u as [|? [|? ?]]; cbn; auto).
  destruct M as [M|M]; [|destruct u; [congruence|discriminate]]. unfold first_info. rewrite M. cbn [heap expand put size_of]. rewrite !upd_eq. cbn [option_map obind fst snd map app first_info].
  rewrite run_app, R. cbn [obind run app alloc_type]. unfold run_alloc. cbn [size_val value option_map obind]. rewrite G.
  rewrite (proj2 (Z.ltb_ge _ 0)) by lia. cbn [obind run_codes value]. rewrite G. change (Z.to_nat 1) with 1. cbn [run_loop].
  assert (Y := upd_eq s x (Some (repeat (@None Z) (Z.to_nat (Z.of_nat (length u) * 1))))). set (s1 := upd s x _) in *.
  destruct (self_first inp x s1 _ (OLoop (ZLen x)) 0 Y) as (s2 & R2 & X2 & _); [cbn; rewrite Y; cbn; f_equal; lia|].
  change (mk_copy (OLoop (ZLen x)) (AVar x) (ZLen x)) with (self_copy x (OLoop (ZLen x))). rewrite R2. cbn. exists s2. split; [reflexivity|]. rewrite X2. do 2 f_equal. lia.
Qed.

Lemma put_operand_some st o e : operand e = true -> put st o e <> None.
Proof. destruct e as [y|l|a b|a [[|n]|n]]; cbn; congruence. Qed.
Lemma shape_heap (st : infos) y e : st y <> None -> operand e = true -> has_elements e = true -> (forall z, In z (vars e) -> z = y) ->
  shape_of st e <> None.
Proof.
  intros D. revert e. assert (G : forall e, has_elements e = true -> (forall z, In z (vars e) -> z = y) -> shape_of st e <> None).
  { induction e as [z|l|a IHa b IHb|a IHa n]; cbn; intros H V.
    - rewrite (V z (or_introl eq_refl)). destruct (st y); congruence.
    - destruct l; cbn in *; congruence.
    - apply andb_true_iff in H as [H1 H2]. specialize (IHa H1 (fun z i => V z (in_or_app _ _ _ (or_introl i)))).
      specialize (IHb H2 (fun z i => V z (in_or_app _ _ _ (or_intror i)))).
      destruct (shape_of st a), (shape_of st b); congruence.
    - specialize (IHa H V). destruct (shape_of st a); congruence. }
  intros e _. apply G.
Qed.
Lemma heap_again (st : infos) x y a b : st x = Some (mk_info true None) -> st y <> None -> operand a = true -> operand b = true ->
  has_elements a = true -> has_elements b = true -> (forall z, In z (vars a ++ vars b) -> z = y) ->
  translate KTuple st [SCat x a b] <> None.
Proof.
  intros X Y A B E F V. cbn [translate]. unfold visit. cbn [target rhs shape_of].
  pose proof (shape_heap st y a Y A E (fun z i => V z (in_or_app _ _ _ (or_introl i)))) as SA.
  pose proof (shape_heap st y b Y B F (fun z i => V z (in_or_app _ _ _ (or_intror i)))) as SB.
  destruct (shape_of st a); [|congruence]. destruct (shape_of st b); [|congruence]. cbn [obind]. rewrite X. cbn [same vsh heap].
  set (st' := upd _ _ _). unfold expand.
  pose proof (put_operand_some st' OZero a A) as PA. destruct (put st' OZero a); [|congruence].
  pose proof (put_operand_some st' (OSize (size_of st' a)) b B) as PB. destruct (put st' (OSize (size_of st' a)) b); [|congruence].
  cbn. discriminate.
Qed.
Lemma sum_heap x y w v a b : x <> y -> w <> [] -> v <> [] -> operand a = true -> operand b = true ->
  has_elements a = true -> has_elements b = true -> (forall z, In z (vars a ++ vars b) -> z = y) ->
  translate KTuple (fun _ => None) [SLit y w; SCat x (EVar y) (ELit v); SCat x a b] <> None /\
  translate KTuple (fun _ => None) [SLit y w; SCat x (ELit v) (EVar y); SCat x a b] <> None.
Proof.
  intros N W U A B E F V. destruct w as [|w0 w]; [congruence|]. destruct v as [|v0 v]; [congruence|].
  assert (K : forall st, st x = Some (mk_info true None) -> st y <> None -> translate KTuple st [SCat x a b] <> None).
  { intros st H1 H2. now apply (heap_again st x y). }
  assert (T : forall st c r, (exists g st', visit KTuple st c = Some (g, st') /\ translate KTuple st' r <> None) -> translate KTuple st (c :: r) <> None).
  { intros st c r [g [st' [H1 H2]]]. cbn [translate]. rewrite H1. cbn. destruct (translate KTuple st' r); cbn; congruence. }
  assert (I0 : visit KTuple (fun _ => None) (SLit y (w0 :: w)) = Some
    ([GAlloc y Malloc true (ZLit (S (length w))); GCode y [COne (mk_copy OZero (ALit (w0 :: w)) (ZLit (S (length w))))]],
     upd (fun _ => None) y (Some (mk_info true (Some (S (length w))))))) by reflexivity.
  set (s0 := upd (fun _ => None) y (Some (mk_info true (Some (S (length w)))))) in *.
  assert (Y0 : s0 y = Some (mk_info true (Some (S (length w))))) by (unfold s0, upd; now rewrite Nat.eqb_refl).
  assert (X0 : s0 x = None) by (unfold s0, upd; destruct (Nat.eqb_spec x y); congruence).
  set (s1 := upd s0 x (Some (mk_info true None))).
  assert (Y1 : s1 y <> None) by (unfold s1, upd; destruct (Nat.eqb_spec y x); congruence).
  assert (X1 : s1 x = Some (mk_info true None)) by (unfold s1, upd; now rewrite Nat.eqb_refl).
  split; (apply T; eexists; exists s0; split; [exact I0|]; apply T).
  - assert (H : exists g, visit KTuple s0 (SCat x (EVar y) (ELit (v0 :: v))) = Some (g, s1)).
    { unfold visit. cbn [target rhs shape_of]. rewrite Y0, X0. cbn [vsh obind on_heap]. rewrite Y0. cbn. eexists. reflexivity. }
    destruct H as [g H]. exists g, s1. split; [exact H|now apply K].
  - assert (H : exists g, visit KTuple s0 (SCat x (ELit (v0 :: v)) (EVar y)) = Some (g, s1)).
    { unfold visit. cbn [target rhs shape_of]. rewrite Y0, X0. cbn [vsh obind on_heap]. rewrite Y0. cbn. eexists. reflexivity. }
    destruct H as [g H]. exists g, s1. split; [exact H|now apply K].
Qed.
