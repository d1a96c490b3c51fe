(* Proofs about the links of the syntax tree: heaps and invalidation. *)
From Coq Require Import Bool Arith Lia List.
From Verif Require Import Graph_Model Graph_Spec.
Import ListNotations.
Open Scope list_scope.

(* ------------------------------- heaps ------------------------------------- *)

Lemma nth_update : forall h i f j, nth_error (update h i f) j = if Nat.eqb j i then option_map f (nth_error h i) else nth_error h j.
Proof.
  intros h i f j. unfold update. destruct (nth_error h i) as [n|] eqn:E.
  - assert (L : i < List.length h) by (apply nth_error_Some; rewrite E; discriminate).
    destruct (Nat.eqb_spec j i) as [->|N].
    + rewrite nth_error_app2 by (rewrite firstn_length; lia). rewrite firstn_length, Nat.min_l by lia.
      rewrite Nat.sub_diag. reflexivity.
    + destruct (Nat.lt_ge_cases j i).
      * rewrite nth_error_app1 by (rewrite firstn_length; lia). 
        rewrite <- (firstn_skipn i h) at 2. rewrite nth_error_app1 by (rewrite firstn_length; lia). reflexivity.
      * rewrite nth_error_app2 by (rewrite firstn_length; lia). rewrite firstn_length, Nat.min_l by lia.
        destruct (j - i) as [|k] eqn:K; [lia|]. cbn [nth_error].
        rewrite <- (firstn_skipn (S i) h) at 2. rewrite nth_error_app2 by (rewrite firstn_length; lia).
        rewrite firstn_length, Nat.min_l by lia. f_equal. lia.
  - destruct (Nat.eqb_spec j i) as [->|N]; [rewrite E|]; reflexivity.
Qed.

Lemma length_update : forall h i f, List.length (update h i f) = List.length h.
Proof.
  intros h i f. unfold update. destruct (nth_error h i) as [n|] eqn:E; [|reflexivity].
  assert (L : i < List.length h) by (apply nth_error_Some; rewrite E; discriminate).
  rewrite app_length, firstn_length. cbn [List.length]. rewrite skipn_length. lia.
Qed.

Definition dead_of (h : heap) (i : id) : bool := match nth_error h i with Some n => n_dead n | None => true end.

Lemma alive_dead : forall h i, alive h i <-> dead_of h i = false.
Proof.
  intros h i. unfold alive, dead_of. destruct (nth_error h i) as [n|]; split.
  - intros (m & E & D). injection E as <-. exact D.
  - intros D. exists n. auto.
  - intros (m & E & _). discriminate.
  - discriminate.
Qed.

Lemma alive_lt : forall h i, alive h i -> i < List.length h.
Proof. intros h i (n & E & _). apply nth_error_Some. rewrite E. discriminate. Qed.

Ltac look := unfold users_of, attrs_of, dead_of, stage_of in *; rewrite ?nth_update.

Lemma users_update : forall h i us j, i < List.length h -> users_of (update h i (with_users us)) j = if Nat.eqb j i then us else users_of h j.
Proof.
  intros h i us j L. look. destruct (Nat.eqb j i); [|reflexivity].
  apply nth_error_Some in L. destruct (nth_error h i); [reflexivity|congruence].
Qed.

(* the same but for the users and the flag *)
Definition same_shape (h h' : heap) : Prop :=
  List.length h' = List.length h /\ (forall i, attrs_of h' i = attrs_of h i) /\ (forall i, stage_of h' i = stage_of h i).

Lemma same_shape_refl : forall h, same_shape h h.
Proof. intros h. repeat split. Qed.

Lemma same_shape_trans : forall a b c, same_shape a b -> same_shape b c -> same_shape a c.
Proof.
  intros a b c (L1 & A1 & S1) (L2 & A2 & S2). split; [congruence|]. split; intros i; [rewrite A2; apply A1|rewrite S2; apply S1].
Qed.

Lemma shape_users : forall h i us, same_shape h (update h i (with_users us)).
Proof.
  intros h i us. split; [apply length_update|]. split; intros j; look; destruct (Nat.eqb_spec j i) as [->|]; try reflexivity;
    destruct (nth_error h i); reflexivity.
Qed.

Lemma shape_kill : forall h i, same_shape h (update h i kill).
Proof.
  intros h i. split; [apply length_update|]. split; intros j; look; destruct (Nat.eqb_spec j i) as [->|]; try reflexivity;
    destruct (nth_error h i); reflexivity.
Qed.

Lemma shape_kids : forall h h' i, same_shape h h' -> kids h' i = kids h i.
Proof. intros h h' i (_ & A & _). unfold kids. rewrite A. reflexivity. Qed.

Lemma dead_users : forall h i us j, dead_of (update h i (with_users us)) j = dead_of h j.
Proof. intros h i us j. look. destruct (Nat.eqb_spec j i) as [->|]; [|reflexivity]. destruct (nth_error h i); reflexivity. Qed.

Lemma dead_kill : forall h i j, dead_of (update h i kill) j = if Nat.eqb j i then true else dead_of h j.
Proof. intros h i j. look. destruct (Nat.eqb j i); [|reflexivity]. destruct (nth_error h i); reflexivity. Qed.

Lemma users_kill : forall h i j, users_of (update h i kill) j = users_of h j.
Proof. intros h i j. look. destruct (Nat.eqb_spec j i) as [->|]; [|reflexivity]. destruct (nth_error h i); reflexivity. Qed.

(* --------------------------- the number of links ------------------------------ *)

Lemma links_update : forall h i f n, nth_error h i = Some n ->
  links (update h i f) + List.length (n_users n) = links h + List.length (n_users (f n)).
Proof.
  intros h i f n E. unfold update, links. rewrite E.
  assert (H : h = firstn i h ++ n :: skipn (S i) h).
  { rewrite <- (firstn_skipn i h) at 1. f_equal. clear f. revert i E. induction h as [|m h IH]; intros [|i] E; try discriminate.
    - injection E as <-. reflexivity.
    - cbn [nth_error] in E. rewrite (IH i E) at 1. destruct h; [destruct i; discriminate|]. reflexivity. }
  rewrite H at 3. rewrite !map_app. cbn [map]. 
  assert (A : forall a b, list_sum (a ++ b) = list_sum a + list_sum b) by (intros; apply list_sum_app).
  rewrite !A. cbn [list_sum fold_right]. unfold list_sum. cbn [fold_right]. lia.
Qed.

Lemma links_kill : forall h i, links (update h i kill) = links h.
Proof.
  intros h i. destruct (nth_error h i) as [n|] eqn:E; [|unfold update; rewrite E; reflexivity].
  pose proof (links_update h i kill n E) as H. cbn in H. lia.
Qed.

(* ------------------------------ equality ----------------------------------- *)

Lemma same_eq : forall a b, same a b = true <-> a = b.
Proof.
  intros [x|x] [y|y]; cbn [same]; rewrite ?Nat.eqb_eq; split; congruence.
Qed.

Lemma same_refl : forall a, same a a = true.
Proof. intros a. apply same_eq. reflexivity. Qed.

Lemma remove_first_none : forall p l, remove_first (fun u => same (CNode u) (CNode p)) l = None -> count_occ Nat.eq_dec l p = 0.
Proof.
  intros p. induction l as [|u l IH]; intros H; [reflexivity|]. cbn [remove_first same] in H.
  destruct (Nat.eqb_spec u p) as [->|N]; [discriminate|]. cbn [count_occ]. destruct (Nat.eq_dec u p); [congruence|].
  apply IH. destruct (remove_first _ l); [discriminate|reflexivity].
Qed.

Lemma remove_first_some : forall p l l', remove_first (fun u => same (CNode u) (CNode p)) l = Some l' ->
  (forall q, count_occ Nat.eq_dec l q = count_occ Nat.eq_dec l' q + if Nat.eqb q p then 1 else 0) /\ List.length l = S (List.length l').
Proof.
  intros p. induction l as [|u l IH]; intros l' H; [discriminate|]. cbn [remove_first same] in H.
  destruct (Nat.eqb_spec u p) as [->|N].
  - injection H as <-. split; [|reflexivity]. intros q. cbn [count_occ]. destruct (Nat.eq_dec p q), (Nat.eqb_spec q p); try congruence; lia.
  - destruct (remove_first _ l) as [l1|] eqn:E; [|discriminate]. cbn in H. injection H as <-.
    destruct (IH l1 eq_refl) as [C L]. split; [|cbn; lia]. intros q. cbn [count_occ]. specialize (C q).
    destruct (Nat.eq_dec u q); lia.
Qed.

(* ------------------------- the balance of the links --------------------------- *)

Notation cnt := (count_occ Nat.eq_dec).

(* ex: links without an attribute, ow: attributes without a link *)
Definition ledger := id -> id -> nat.
Definition plus (e : ledger) (i : id) (l : list id) : ledger := fun p c => e p c + if Nat.eqb p i then cnt l c else 0.
Definition none : ledger := fun _ _ => 0.

Record Inv (h : heap) (ex ow : ledger) : Prop := {
  inv_bal : forall p c, c < List.length h -> cnt (users_of h c) p + ow p c = (if dead_of h p then 0 else cnt (kids h p) c) + ex p c;
  inv_dead : forall c, dead_of h c = true -> users_of h c = [];
  inv_kids : one_stage h
}.

Lemma one_stage_shape : forall h h', same_shape h h' -> one_stage h -> one_stage h'.
Proof.
  intros h h' S O p c I. rewrite (shape_kids _ _ _ S) in I. destruct S as (L & _ & G). rewrite L, !G. apply O. exact I.
Qed.

Lemma consistent_inv : forall h, one_stage h -> (consistent h <-> Inv h none none).
Proof.
  intros h O. split.
  - intros (A & B & C). split; [|intros c D|exact O].
    + intros p c L. unfold none. rewrite !Nat.add_0_r. destruct (dead_of h p) eqn:D.
      * apply count_occ_not_In. intros I. apply B in I. apply alive_dead in I. congruence.
      * apply A; [exact L|]. apply alive_dead. exact D.
    + destruct (Nat.lt_ge_cases c (List.length h)) as [L|L].
      * apply C; [exact L|]. rewrite alive_dead. congruence.
      * unfold users_of. apply nth_error_None in L. rewrite L. reflexivity.
  - intros [A B _]. unfold none in A. split; [|split].
    + intros p c L V. specialize (A p c L). apply alive_dead in V. rewrite V in A. lia.
    + intros p c I. apply alive_dead. destruct (dead_of h p) eqn:D; [|reflexivity].
      destruct (Nat.lt_ge_cases c (List.length h)) as [L|L].
      * specialize (A p c L). rewrite D in A. apply (count_occ_In Nat.eq_dec) in I. lia.
      * unfold users_of in I. apply nth_error_None in L. rewrite L in I. contradiction.
    + intros c L V. apply B. rewrite alive_dead in V. destruct (dead_of h c); congruence.
Qed.

(* ------------------------------ invalidation -------------------------------- *)

(* V: protected nodes; D: nodes that may be discarded *)
Record Guard (V D : id -> Prop) (h : heap) (ow : ledger) : Prop := {
  g_held : forall v, V v -> D v -> exists y, V y /\ In y (users_of h v);
  g_down : forall x c, D x -> ~ V x -> In c (kids h x) -> D c;
  g_owes : forall q o, ow q o <> 0 -> V q;
  g_live : forall v, V v -> dead_of h v = false
}.

Record Killed (V D : id -> Prop) (h h' : heap) : Prop := {
  k_shape : same_shape h h';
  k_dead : forall x, dead_of h x = true -> dead_of h' x = true;
  k_only : forall x, dead_of h' x = true -> dead_of h x = true \/ (D x /\ ~ V x);
  k_users : forall x y, In y (users_of h x) -> V y -> In y (users_of h' x);
  k_links : links h' <= links h
}.

Lemma killed_refl : forall V D h, Killed V D h h.
Proof. intros V D h. split; auto. apply same_shape_refl. Qed.

Lemma killed_trans : forall V D a b c, Killed V D a b -> Killed V D b c -> Killed V D a c.
Proof.
  intros V D a b c [S1 D1 O1 U1 L1] [S2 D2 O2 U2 L2]. split.
  - eapply same_shape_trans; eassumption.
  - intros x H. apply D2, D1, H.
  - intros x H. destruct (O2 x H) as [H'|H']; [apply O1; exact H'|right; exact H'].
  - intros x y I Vy. apply U2; [apply U1|]; assumption.
  - lia.
Qed.

Lemma guard_killed : forall V D h h' ow, Guard V D h ow -> Killed V D h h' -> Guard V D h' ow.
Proof.
  intros V D h h' ow [H1 H2 H3 H4] [S Dd O U L]. split.
  - intros v Vv Dv. destruct (H1 v Vv Dv) as (y & Vy & I). exists y. split; [exact Vy|]. apply U; assumption.
  - intros x c Dx NV I. rewrite (shape_kids _ _ _ S) in I. exact (H2 x c Dx NV I).
  - exact H3.
  - intros v Vv. destruct (dead_of h' v) eqn:E; [|reflexivity]. destruct (O v E) as [E'|[_ N]]; [rewrite (H4 v Vv) in E'; discriminate|contradiction].
Qed.

(* the loop of invalidate *)
Definition inval_loop (k : nat) (i : id) (st : nat) : list child -> heap -> res :=
  fix go (cs : list child) (h : heap) : res :=
         match cs with
         | [] => Ok h
         | CSym _ :: cs' => go cs' h
         | CNode j :: cs' =>
           match nth_error h j with
           | None => Raised
           | Some m =>
             if Nat.eqb (n_stage m) st then
               match remove_user same (invalidate same k) i true h j with
               | Ok h' => go cs' h'
               | e => e
               end
             else go cs' h
           end
         end.

Lemma invalidate_step : forall k h i n, nth_error h i = Some n ->
  invalidate same (S k) h i = inval_loop k i (n_stage n) (flat_map attr_children (n_attrs n)) (update h i kill).
Proof. intros k h i n E. cbn [invalidate]. rewrite E. reflexivity. Qed.

Lemma users_remove_in : forall us us' p y, (forall q, cnt us q = cnt us' q + if Nat.eqb q p then 1 else 0) -> y <> p -> In y us -> In y us'.
Proof.
  intros us us' p y C N I. apply (count_occ_In Nat.eq_dec) in I. apply (count_occ_In Nat.eq_dec). specialize (C y).
  destruct (Nat.eqb_spec y p); [congruence|]. lia.
Qed.

(* one entry of the users of j disappears *)
Lemma remove_link : forall h ex ow i j us us', j < List.length h -> Inv h (plus ex i [j]) ow -> users_of h j = us ->
  (forall q, cnt us q = cnt us' q + if Nat.eqb q i then 1 else 0) -> Inv (update h j (with_users us')) ex ow.
Proof.
  intros h ex ow i j us us' L [B D O] E C. split.
  - intros p c Lc. rewrite length_update in Lc. rewrite users_update by exact L. rewrite dead_users.
    rewrite (shape_kids _ _ _ (shape_users h j us')). specialize (B p c Lc). unfold plus in B. cbn [count_occ] in B.
    destruct (Nat.eqb_spec c j) as [->|N].
    + rewrite E in B. specialize (C p). destruct (Nat.eq_dec j j); [|congruence]. destruct (Nat.eqb p i); lia.
    + destruct (Nat.eq_dec j c); [congruence|]. destruct (Nat.eqb p i); lia.
  - intros c Dc. rewrite dead_users in Dc. rewrite users_update by exact L. destruct (Nat.eqb_spec c j) as [->|N]; [|apply D; exact Dc].
    rewrite (D j Dc) in E. subst us. specialize (C i). rewrite Nat.eqb_refl in C. cbn in C. lia.
  - exact (one_stage_shape _ _ (shape_users h j us') O).
Qed.

Lemma invalidate_ok : forall V D fuel h i ex ow, links h < fuel -> Inv h ex ow -> Guard V D h ow -> alive h i -> users_of h i = [] ->
  D i -> ~ V i ->
  exists h', invalidate same fuel h i = Ok h' /\ Inv h' ex ow /\ Killed V D h h' /\ dead_of h' i = true.
Proof.
  intros V D. induction fuel as [|k IH]; intros h i ex ow L I G A U Di Vi; [lia|].
  destruct A as (n & E & A). rewrite (invalidate_step k h i n E).
  assert (Li : i < List.length h) by (apply nth_error_Some; rewrite E; discriminate).
  (* the loop *)
  assert (LOOP : forall cs h1, (forall j, In (CNode j) cs -> j < List.length h1 /\ stage_of h1 j = Some (n_stage n) /\ D j) ->
    links h1 <= k -> Inv h1 (plus ex i (nodes cs)) ow -> Guard V D h1 ow -> dead_of h1 i = true ->
    exists h2, inval_loop k i (n_stage n) cs h1 = Ok h2 /\ Inv h2 ex ow /\ Killed V D h1 h2).
  { induction cs as [|c cs IHc]; intros h1 Hcs L1 I1 G1 D1.
    - exists h1. split; [reflexivity|]. split; [|apply killed_refl]. destruct I1 as [B Dd O]. split; [|exact Dd|exact O].
      intros p c Lc. specialize (B p c Lc). unfold plus in B. cbn in B. destruct (Nat.eqb p i); lia.
    - destruct c as [s|j].
      + cbn [inval_loop]. apply IHc; try assumption. intros j I'. apply Hcs. right. exact I'.
      + destruct (Hcs j (or_introl eq_refl)) as (Lj & Sj & Dj). cbn [inval_loop].
        destruct (nth_error h1 j) as [m|] eqn:Ej; [|apply nth_error_None in Ej; lia].
        unfold stage_of in Sj. rewrite Ej in Sj. cbn in Sj. injection Sj as Sj. rewrite Sj, Nat.eqb_refl.
        unfold remove_user. rewrite Ej.
        assert (Uj : users_of h1 j = n_users m) by (unfold users_of; rewrite Ej; reflexivity).
        destruct (remove_first (fun u => same (CNode u) (CNode i)) (n_users m)) as [us|] eqn:Er.
        2: { exfalso. apply remove_first_none in Er. pose proof (inv_bal _ _ _ I1 i j Lj) as B. rewrite Uj, Er, D1 in B.
             unfold plus in B. rewrite Nat.eqb_refl in B. cbn [nodes flat_map node_of app] in B. cbn [count_occ] in B.
             destruct (Nat.eq_dec j j); [|congruence].
             destruct (ow i j) eqn:W; [lia|]. apply Vi. apply (g_owes _ _ _ _ G1 i j). lia. }
        destruct (remove_first_some _ _ _ Er) as [C Len].
        set (h2 := update h1 j (with_users us)).
        assert (I2 : Inv h2 (plus ex i (nodes cs)) ow).
        { apply (remove_link h1 (plus ex i (nodes cs)) ow i j (n_users m) us Lj); try assumption.
          destruct I1 as [B Dd O]. split; [|exact Dd|exact O]. intros p c Lc. rewrite (B p c Lc). unfold plus.
          change (nodes (CNode j :: cs)) with (j :: nodes cs). cbn [count_occ]. destruct (Nat.eqb p i); [|lia].
          destruct (Nat.eq_dec j c); lia. }
        assert (K2 : Killed V D h1 h2).
        { split.
          - apply shape_users.
          - intros x Hx. unfold h2. rewrite dead_users. exact Hx.
          - intros x Hx. left. unfold h2 in Hx. rewrite dead_users in Hx. exact Hx.
          - intros x y Iy Vy. unfold h2. rewrite users_update by exact Lj. destruct (Nat.eqb_spec x j) as [->|]; [|exact Iy].
            rewrite Uj in Iy. apply (users_remove_in _ us i y C); [|exact Iy]. intros ->. contradiction.
          - unfold h2. pose proof (links_update h1 j (with_users us) m Ej) as Lk. cbn in Lk. lia. }
        assert (Lk2 : S (links h2) = links h1).
        { unfold h2. pose proof (links_update h1 j (with_users us) m Ej) as Lk. cbn in Lk. lia. }
        assert (NEXT : forall h3, Inv h3 (plus ex i (nodes cs)) ow -> Killed V D h1 h3 -> links h3 <= k ->
          exists h4, inval_loop k i (n_stage n) cs h3 = Ok h4 /\ Inv h4 ex ow /\ Killed V D h1 h4).
        { intros h3 I3 K3 L3. destruct (IHc h3) as (h4 & E4 & I4 & K4).
          - intros j' I'. destruct (Hcs j' (or_intror I')) as (La & Sa & Da). destruct (k_shape _ _ _ _ K3) as (X & _ & Z).
            rewrite X, Z. auto.
          - exact L3.
          - exact I3.
          - eapply guard_killed; eassumption.
          - apply (k_dead _ _ _ _ K3). exact D1.
          - exists h4. split; [exact E4|]. split; [exact I4|]. eapply killed_trans; eassumption. }
        destruct us as [|u us].
        * destruct (IH h2 j (plus ex i (nodes cs)) ow) as (h3 & E3 & I3 & K3 & D3).
          -- lia.
          -- exact I2.
          -- eapply guard_killed; eassumption.
          -- apply alive_dead. unfold h2. rewrite dead_users. destruct (dead_of h1 j) eqn:Dead; [|reflexivity].
             pose proof (inv_dead _ _ _ I1 j Dead) as Z. rewrite Uj in Z. rewrite Z in Er. discriminate.
          -- unfold h2. rewrite users_update by exact Lj. rewrite Nat.eqb_refl. reflexivity.
          -- exact Dj.
          -- intros Vj. assert (G2 : Guard V D h2 ow) by (eapply guard_killed; eassumption).
             destruct (g_held _ _ _ _ G2 j Vj Dj) as (y & _ & Iy). unfold h2 in Iy. rewrite users_update in Iy by exact Lj.
             rewrite Nat.eqb_refl in Iy. contradiction.
          -- rewrite E3. apply NEXT; [exact I3|eapply killed_trans; eassumption|]. pose proof (k_links _ _ _ _ K3). lia.
        * apply NEXT; [exact I2|exact K2|lia]. }
  assert (KIDS : forall j, In (CNode j) (flat_map attr_children (n_attrs n)) -> In j (kids h i)).
  { intros j I'. unfold kids, attrs_of. rewrite E. unfold nodes. apply in_flat_map. exists (CNode j). split; [exact I'|left; reflexivity]. }
  destruct (LOOP (flat_map attr_children (n_attrs n)) (update h i kill)) as (h2 & E2 & I2 & K2).
  - intros j I'. apply KIDS in I'. destruct (inv_kids _ _ _ I i j I') as [Lj Sj]. destruct (shape_kill h i) as (X & _ & Z).
    rewrite X, Z. split; [exact Lj|]. split; [|exact (g_down _ _ _ _ G i j Di Vi I')].
    rewrite Sj. unfold stage_of. rewrite E. reflexivity.
  - rewrite links_kill. lia.
  - destruct I as [B Dd O]. split.
    + intros p c Lc. rewrite length_update in Lc. rewrite users_kill, dead_kill, (shape_kids _ _ _ (shape_kill h i)).
      specialize (B p c Lc). unfold plus. destruct (Nat.eqb_spec p i) as [->|N]; [|lia].
      assert (Dn : dead_of h i = false) by (unfold dead_of; rewrite E; exact A). rewrite Dn in B.
      assert (Ek : kids h i = nodes (flat_map attr_children (n_attrs n))) by (unfold kids, attrs_of; rewrite E; reflexivity).
      rewrite Ek in B. lia.
    + intros c Dc. rewrite users_kill. rewrite dead_kill in Dc. destruct (Nat.eqb_spec c i) as [Ec|Ec]; [rewrite Ec; exact U|apply Dd; exact Dc].
    + exact (one_stage_shape _ _ (shape_kill h i) O).
  - destruct G as [G1 G2 G3 G4]. split.
    + intros v Vv Dv. destruct (G1 v Vv Dv) as (y & Vy & Iy). exists y. rewrite users_kill. auto.
    + intros x c Dx NV Ic. rewrite (shape_kids _ _ _ (shape_kill h i)) in Ic. exact (G2 x c Dx NV Ic).
    + exact G3.
    + intros v Vv. rewrite dead_kill. destruct (Nat.eqb_spec v i) as [->|]; [contradiction|apply G4; exact Vv].
  - rewrite dead_kill, Nat.eqb_refl. reflexivity.
  - exists h2. split; [exact E2|]. split; [exact I2|].
    assert (K0 : Killed V D h (update h i kill)).
    { split.
      - apply shape_kill.
      - intros x Hx. rewrite dead_kill. destruct (Nat.eqb x i); [reflexivity|exact Hx].
      - intros x Hx. rewrite dead_kill in Hx. destruct (Nat.eqb_spec x i) as [Ex|Ex]; [right; rewrite Ex; auto|left; exact Hx].
      - intros x y Iy _. rewrite users_kill. exact Iy.
      - rewrite links_kill. lia. }
    split; [eapply killed_trans; eassumption|]. apply (k_dead _ _ _ _ K2). rewrite dead_kill, Nat.eqb_refl. reflexivity.
Qed.
