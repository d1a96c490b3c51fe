(* Proofs about the links of the syntax tree: construction and substitution. *)
From Coq Require Import Bool Arith Lia List Permutation.
From Verif Require Import Graph_Model Graph_Spec Graph_Proofs.
Import ListNotations.
Open Scope list_scope.

Lemma nodes_app : forall a b, nodes (a ++ b) = nodes a ++ nodes b.
Proof. intros a b. unfold nodes. apply flat_map_app. Qed.

Lemma in_nodes : forall i l, In i (nodes l) <-> In (CNode i) l.
Proof.
  intros i l. unfold nodes. rewrite in_flat_map. split.
  - intros ([s|j] & I & H); [contradiction|]. destruct H as [->|[]]. exact I.
  - intros I. exists (CNode i). split; [exact I|left; reflexivity].
Qed.

(* ------------------------------ adding users --------------------------------- *)

Lemma users_add : forall h i p j, users_of (add_user p h (CNode i)) j = if Nat.eqb j i && Nat.ltb i (List.length h) then users_of h j ++ [p] else users_of h j.
Proof.
  intros h i p j. cbn [add_user]. unfold users_of. rewrite nth_update. destruct (Nat.eqb_spec j i) as [->|]; [|reflexivity]. cbn [andb].
  destruct (nth_error h i) as [n|] eqn:E.
  - assert (L : i < List.length h) by (apply nth_error_Some; rewrite E; discriminate). apply Nat.ltb_lt in L. rewrite L. reflexivity.
  - apply nth_error_None in E. destruct (Nat.ltb_spec i (List.length h)); [lia|]. reflexivity.
Qed.

Record Added (p : id) (l : list id) (h h' : heap) : Prop := {
  ad_shape : same_shape h h';
  ad_dead : forall x, dead_of h' x = dead_of h x;
  ad_users : forall c q, c < List.length h -> count_occ Nat.eq_dec (users_of h' c) q = count_occ Nat.eq_dec (users_of h c) q + if Nat.eqb q p then count_occ Nat.eq_dec l c else 0
}.

Lemma add_users : forall p cs h, Added p (nodes cs) h (fold_left (add_user p) cs h).
Proof.
  intros p. induction cs as [|c cs IH]; intros h.
  - split; [apply same_shape_refl|reflexivity|]. intros c q L. cbn. destruct (Nat.eqb q p); lia.
  - cbn [fold_left]. destruct (IH (add_user p h c)) as [S D U]. destruct c as [s|i].
    + split; assumption.
    + assert (S1 : same_shape h (add_user p h (CNode i))).
      { cbn [add_user]. split; [apply length_update|]. split; intros j; look; destruct (Nat.eqb_spec j i) as [->|]; try reflexivity;
        destruct (nth_error h i); reflexivity. }
      split.
      * eapply same_shape_trans; eassumption.
      * intros x. rewrite D. cbn [add_user]. look. destruct (Nat.eqb_spec x i) as [->|]; [|reflexivity]. destruct (nth_error h i); reflexivity.
      * intros c q L. rewrite U by (destruct S1 as [-> _]; exact L). rewrite users_add.
        change (nodes (CNode i :: cs)) with (i :: nodes cs). cbn [count_occ].
        destruct (Nat.eqb_spec c i) as [->|N]; cbn [andb].
        -- apply Nat.ltb_lt in L. rewrite L. rewrite count_occ_app. cbn [count_occ].
           destruct (Nat.eq_dec i i); [|congruence]. destruct (Nat.eq_dec p q), (Nat.eqb_spec q p); try congruence; lia.
        -- destruct (Nat.eq_dec i c); [congruence|]. lia.
Qed.

Lemma users_nil : forall l, (forall q, count_occ Nat.eq_dec l q = 0) -> l = [].
Proof. intros [|x l] H; [reflexivity|]. specialize (H x). cbn in H. destruct (Nat.eq_dec x x); [discriminate|congruence]. Qed.

Lemma inv_added : forall p l h h' ex ow, Added p l h h' -> Inv h ex ow -> (forall j, In j l -> dead_of h j = false) ->
  Inv h' (plus ex p l) ow.
Proof.
  intros p l h h' ex ow [S D U] [B Dd O] A. split.
  - intros q c L. destruct S as (Ls & As & Ss). rewrite Ls in L. rewrite U by exact L. rewrite D.
    assert (K : kids h' q = kids h q) by (unfold kids; rewrite As; reflexivity). rewrite K.
    specialize (B q c L). unfold plus. destruct (Nat.eqb q p); lia.
  - intros c Dc. rewrite D in Dc. destruct (Nat.lt_ge_cases c (List.length h)) as [L|L].
    + apply users_nil. intros q. rewrite U by exact L. rewrite (Dd c Dc). cbn [count_occ].
      destruct (Nat.eqb q p); [|reflexivity]. destruct (count_occ Nat.eq_dec l c) eqn:C; [reflexivity|].
      assert (I : In c l) by (apply (count_occ_In Nat.eq_dec); lia). rewrite (A c I) in Dc. discriminate.
    + unfold users_of. destruct S as (Ls & _ & _). rewrite <- Ls in L. apply nth_error_None in L. rewrite L. reflexivity.
  - exact (one_stage_shape _ _ S O).
Qed.

Lemma inv_cancel : forall h i l l' ex ow, (forall c, count_occ Nat.eq_dec l c = count_occ Nat.eq_dec l' c) -> Inv h (plus ex i l) (plus ow i l') -> Inv h ex ow.
Proof.
  intros h i l l' ex ow E [B D O]. split; [|exact D|exact O]. intros p c L. specialize (B p c L). unfold plus in B. specialize (E c).
  destruct (Nat.eqb p i); lia.
Qed.

(* ------------------------------ construction --------------------------------- *)

Lemma construct_ok : forall h st attrs, one_stage h -> consistent h ->
  (forall c, In c (nodes (flat_map attr_children attrs)) -> alive h c /\ stage_of h c = Some st) ->
  one_stage (construct h st attrs) /\ consistent (construct h st attrs) /\
  List.length (construct h st attrs) = S (List.length h) /\
  attrs_of (construct h st attrs) (List.length h) = attrs /\ users_of (construct h st attrs) (List.length h) = [] /\
  alive (construct h st attrs) (List.length h) /\
  (forall i, i < List.length h -> attrs_of (construct h st attrs) i = attrs_of h i /\ (alive (construct h st attrs) i <-> alive h i)).
Proof.
  intros h st attrs O C K. set (h1 := h ++ [mk_node attrs [] st false]).
  assert (L1 : List.length h1 = S (List.length h)) by (unfold h1; rewrite app_length; cbn; lia).
  assert (NEW : nth_error h1 (List.length h) = Some (mk_node attrs [] st false))
    by (unfold h1; rewrite nth_error_app2 by lia; rewrite Nat.sub_diag; reflexivity).
  assert (OLD : forall i, i < List.length h -> nth_error h1 i = nth_error h i) by (intros i L; unfold h1; apply nth_error_app1; exact L).
  assert (OUT : forall i, List.length h < i -> nth_error h1 i = None) by (intros i L; apply nth_error_None; lia).
  assert (NOLD : forall i, List.length h <= i -> nth_error h i = None) by (intros i L; apply nth_error_None; lia).
  apply (consistent_inv h O) in C.
  assert (I1 : Inv h1 none (plus none (List.length h) (nodes (flat_map attr_children attrs)))).
  { assert (RNG : forall p c, In c (kids h1 p) -> c < List.length h).
    { intros p c I. destruct (lt_eq_lt_dec p (List.length h)) as [[L|L]|L].
      - unfold kids, attrs_of in I. rewrite (OLD p L) in I. apply (O p c I).
      - subst p. unfold kids, attrs_of in I. rewrite NEW in I. cbn [n_attrs] in I. apply alive_lt. apply K. exact I.
      - unfold kids, attrs_of in I. rewrite (OUT p L) in I. contradiction. }
    split.
    - intros p c Lc. rewrite L1 in Lc. destruct (Nat.eq_dec c (List.length h)) as [->|Nc].
      + unfold users_of. rewrite NEW. cbn [n_users count_occ]. unfold plus, none.
        assert (Z : forall q, count_occ Nat.eq_dec (kids h1 q) (List.length h) = 0).
        { intros q. apply count_occ_not_In. intros I. apply RNG in I. lia. }
        specialize (Z p).
        assert (Z2 : count_occ Nat.eq_dec (nodes (flat_map attr_children attrs)) (List.length h) = 0).
        { apply count_occ_not_In. intros I. apply K in I. destruct I as [I _]. apply alive_lt in I. lia. }
        destruct (dead_of h1 p), (Nat.eqb p (List.length h)); lia.
      + assert (Lc' : c < List.length h) by lia. pose proof (inv_bal _ _ _ C p c Lc') as B. unfold none in B.
        unfold users_of. rewrite (OLD c Lc'). fold (users_of h c). unfold plus, none.
        destruct (lt_eq_lt_dec p (List.length h)) as [[L|L]|L].
        * destruct (Nat.eqb_spec p (List.length h)); [lia|].
          unfold dead_of, kids, attrs_of. rewrite (OLD p L). unfold dead_of, kids, attrs_of in B. lia.
        * subst p. rewrite Nat.eqb_refl. unfold dead_of, kids, attrs_of. rewrite NEW. cbn [n_dead n_attrs].
          assert (D : dead_of h (List.length h) = true) by (unfold dead_of; rewrite NOLD by lia; reflexivity). rewrite D in B. lia.
        * destruct (Nat.eqb_spec p (List.length h)); [lia|].
          assert (D : dead_of h p = true) by (unfold dead_of; rewrite NOLD by lia; reflexivity). rewrite D in B.
          unfold dead_of. rewrite (OUT p L). lia.
    - intros c Dc. destruct (lt_eq_lt_dec c (List.length h)) as [[L|L]|L].
      + unfold users_of. rewrite (OLD c L). apply (inv_dead _ _ _ C). unfold dead_of in *. rewrite (OLD c L) in Dc. exact Dc.
      + subst c. unfold users_of. rewrite NEW. reflexivity.
      + unfold users_of. rewrite (OUT c L). reflexivity.
    - intros p c I. pose proof (RNG p c I) as Lc. split; [lia|]. destruct (lt_eq_lt_dec p (List.length h)) as [[L|L]|L].
      + unfold stage_of. rewrite (OLD c Lc), (OLD p L). apply (O p c). unfold kids, attrs_of in *. rewrite (OLD p L) in I. exact I.
      + subst p. unfold stage_of. rewrite (OLD c Lc), NEW. cbn. apply (K c). unfold kids, attrs_of in I. rewrite NEW in I. exact I.
      + unfold kids, attrs_of in I. rewrite (OUT p L) in I. contradiction. }
  assert (AD : Added (List.length h) (nodes (flat_map attr_children attrs)) h1 (construct h st attrs))
    by (unfold construct; apply add_users).
  assert (I2 : Inv (construct h st attrs) none none).
  { apply (inv_cancel _ (List.length h) (nodes (flat_map attr_children attrs)) (nodes (flat_map attr_children attrs))); [reflexivity|].
    apply (inv_added _ _ h1); [exact AD|exact I1|].
    intros j Ij. apply K in Ij. destruct Ij as [Aj _]. pose proof (alive_lt _ _ Aj) as Lj. apply alive_dead in Aj.
    unfold dead_of in *. rewrite (OLD j Lj). exact Aj. }
  destruct AD as [(S1 & S2 & S3) D U].
  split; [exact (inv_kids _ _ _ I2)|]. split; [apply consistent_inv; [exact (inv_kids _ _ _ I2)|exact I2]|].
  split; [rewrite S1; exact L1|]. split; [rewrite S2; unfold attrs_of; rewrite NEW; reflexivity|].
  split; [|split].
  - apply users_nil. intros q. rewrite U by lia. unfold users_of. rewrite NEW. cbn [n_users count_occ].
    destruct (Nat.eqb q (List.length h)); [|reflexivity]. apply count_occ_not_In. intros I. apply K in I. destruct I as [I _]. apply alive_lt in I. lia.
  - apply alive_dead. rewrite D. unfold dead_of. rewrite NEW. reflexivity.
  - intros i L. split.
    + rewrite S2. unfold attrs_of. rewrite (OLD i L). reflexivity.
    + rewrite !alive_dead, D. unfold dead_of. rewrite (OLD i L). reflexivity.
Qed.

(* ------------------------------ substitution --------------------------------- *)

Definition tos (s : sub) : list id := nodes (flat_map attr_children (s_to s)).

(* what a caller of substitute ensures *)
Record Pre (h0 : heap) (s : sub) (r : id) : Prop := {
  p_inv : Inv h0 none none;
  p_root_alive : dead_of h0 r = false;
  p_len : List.length (s_from s) = List.length (s_to s);
  p_to : forall t, In t (tos s) -> dead_of h0 t = false /\ stage_of h0 t = stage_of h0 r;
  p_root : s_invalidate s = true -> forall o, In (CNode o) (s_from s) -> ~ reaches h0 o r;
  p_direct : forall c, In c (flat_map attr_children (s_to s)) -> ~ In c (s_from s);
  p_sep : forall t x c, In t (tos s) -> reaches h0 t x -> In c (flat_map attr_children (attrs_of h0 x)) -> ~ In c (s_from s);
  p_single : s_invalidate s = true -> List.length (s_from s) = 1 \/ forall o t, In (CNode o) (s_from s) -> In t (tos s) -> ~ reaches h0 o t;
  p_equiv : s_equiv s = same
}.

Definition Rv (h0 : heap) (s : sub) (x : id) : Prop := exists t, In t (tos s) /\ reaches h0 t x.
Definition Vv (h0 : heap) (s : sub) (r x : id) : Prop := region h0 s r x \/ Rv h0 s x.
Definition Dv (h0 : heap) (s : sub) (x : id) : Prop := exists o, In (CNode o) (s_from s) /\ reaches h0 o x.

Record St (h0 : heap) (s : sub) (r : id) (h : heap) (ex ow : ledger) : Prop := {
  st_inv : Inv h ex ow;
  st_len : List.length h = List.length h0;
  st_stage : forall i, stage_of h i = stage_of h0 i;
  st_attrs : forall p, Forall2 (fun a0 a => a = a0 \/ (region h0 s r p /\ a = sub_attr s a0)) (attrs_of h0 p) (attrs_of h p);
  st_live : forall v, Vv h0 s r v -> dead_of h v = false;
  st_owes : forall q o, ow q o <> 0 -> Vv h0 s r q /\ In (CNode o) (s_from s)
}.

Lemma reaches_last : forall h p x, reaches h p x -> x = p \/ exists y, reaches h p y /\ In x (kids h y).
Proof.
  intros h p x H. induction H as [p|p c x I H IH]; [left; reflexivity|]. right. destruct IH as [->|(y & R & K)].
  - exists p. split; [constructor|exact I].
  - exists y. split; [eapply reach_step; eassumption|exact K].
Qed.

Lemma reaches_trans : forall h a b c, reaches h a b -> reaches h b c -> reaches h a c.
Proof. intros h a b c H. induction H; [auto|]. intros H'. eapply reach_step; [eassumption|auto]. Qed.

Lemma reaches_next : forall h a b c, reaches h a b -> In c (kids h b) -> reaches h a c.
Proof. intros h a b c H I. eapply reaches_trans; [exact H|]. eapply reach_step; [exact I|constructor]. Qed.

Lemma kid_child : forall h p c, In c (kids h p) <-> In (CNode c) (flat_map attr_children (attrs_of h p)).
Proof. intros h p c. unfold kids. apply in_nodes. Qed.

Lemma replaced_none : forall from to c, List.length from = List.length to -> (replaced from to c = None <-> ~ In c from).
Proof.
  induction from as [|o from IH]; intros [|a to] c L; try discriminate.
  - cbn. split; auto.
  - cbn [replaced]. destruct (same c o) eqn:E.
    + apply same_eq in E. subst. split; [discriminate|]. intros N. elim N. left. reflexivity.
    + injection L as L. rewrite (IH to c L). cbn [In]. split; [|tauto]. intros N [->|I]; [|tauto]. rewrite same_refl in E. discriminate.
Qed.

Lemma replaced_in : forall from to c a, replaced from to c = Some a -> In a to.
Proof.
  induction from as [|o from IH]; intros [|b to] c a H; try discriminate. cbn [replaced] in H. destruct (same c o).
  - injection H as <-. left. reflexivity.
  - right. exact (IH to c a H).
Qed.

Lemma index_replaced : forall from to c a, replaced from to c = Some a ->
  exists k, index_of (fun o => same o c) from = Some k /\ nth_error to k = Some a.
Proof.
  induction from as [|o from IH]; intros [|b to] c a H; try discriminate. cbn [replaced] in H. cbn [index_of].
  assert (E : same o c = same c o) by (destruct (same o c) eqn:A, (same c o) eqn:B; try reflexivity;
    [apply same_eq in A|apply same_eq in B]; subst; rewrite same_refl in *; discriminate).
  rewrite E. destruct (same c o).
  - injection H as <-. exists 0. split; reflexivity.
  - destruct (IH to c a H) as (k & K1 & K2). exists (S k). rewrite K1. split; [reflexivity|exact K2].
Qed.

Lemma existsb_from : forall c from, existsb (same c) from = true <-> In c from.
Proof.
  intros c from. rewrite existsb_exists. split.
  - intros (o & I & E). apply same_eq in E. subst. exact I.
  - intros I. exists c. split; [exact I|apply same_refl].
Qed.

(* ----- children after the substitution ----- *)

Lemma sub_child_id : forall s c, ~ In c (s_from s) -> List.length (s_from s) = List.length (s_to s) -> sub_child s c = [c].
Proof. intros s c N L. unfold sub_child. destruct (s_excl s c); [reflexivity|]. apply (replaced_none _ _ _ L) in N. rewrite N. reflexivity. Qed.

Lemma sub_attr_id : forall s a, (forall c, In c (attr_children a) -> ~ In c (s_from s)) -> List.length (s_from s) = List.length (s_to s) -> sub_attr s a = a.
Proof.
  intros s [c|l] N L; cbn [sub_attr].
  - destruct (s_excl s c); [reflexivity|]. assert (X : replaced (s_from s) (s_to s) c = None) by (apply replaced_none; [exact L|apply N; left; reflexivity]).
    rewrite X. reflexivity.
  - f_equal. cbn [attr_children] in N. induction l as [|c l IH]; [reflexivity|]. cbn [flat_map]. rewrite sub_child_id; [|apply N; left; reflexivity|exact L].
    rewrite IH; [reflexivity|]. intros c' I. apply N. right. exact I.
Qed.

Lemma sub_attr_children : forall s a, attr_children (sub_attr s a) = flat_map (sub_child s) (attr_children a).
Proof.
  intros s [c|l]; cbn [sub_attr attr_children flat_map]; [|reflexivity]. unfold sub_child. rewrite app_nil_r. destruct (s_excl s c); [reflexivity|].
  destruct (replaced (s_from s) (s_to s) c); reflexivity.
Qed.

Lemma sub_child_in : forall s c d, In d (sub_child s c) -> d = c \/ In d (flat_map attr_children (s_to s)).
Proof.
  intros s c d I. unfold sub_child in I. destruct (s_excl s c); [left; destruct I as [<-|[]]; reflexivity|].
  destruct (replaced (s_from s) (s_to s) c) as [a|] eqn:E; [|left; destruct I as [<-|[]]; reflexivity].
  right. apply in_flat_map. exists a. split; [exact (replaced_in _ _ _ _ E)|exact I].
Qed.

Lemma sub_attr_in : forall s a d, In d (attr_children (sub_attr s a)) -> In d (attr_children a) \/ In d (flat_map attr_children (s_to s)).
Proof.
  intros s a d I. rewrite sub_attr_children in I. apply in_flat_map in I. destruct I as (c & Ic & Id).
  destruct (sub_child_in s c d Id) as [->|T]; [left|right]; assumption.
Qed.

Lemma sub_child_twice : forall s c, List.length (s_from s) = List.length (s_to s) ->
  (forall c, In c (flat_map attr_children (s_to s)) -> ~ In c (s_from s)) ->
  flat_map (sub_child s) (sub_child s c) = sub_child s c.
Proof.
  intros s c L P. unfold sub_child at 2 3. destruct (s_excl s c) eqn:X.
  - cbn [flat_map]. unfold sub_child. rewrite X. reflexivity.
  - destruct (replaced (s_from s) (s_to s) c) as [a|] eqn:E.
    + apply replaced_in in E. assert (N : forall d, In d (attr_children a) -> ~ In d (s_from s)).
      { intros d I. apply P. apply in_flat_map. exists a. split; assumption. }
      rewrite <- sub_attr_children, (sub_attr_id s a N L). reflexivity.
    + cbn [flat_map]. unfold sub_child. rewrite X, E. reflexivity.
Qed.

Lemma sub_attr_twice : forall s a, List.length (s_from s) = List.length (s_to s) ->
  (forall c, In c (flat_map attr_children (s_to s)) -> ~ In c (s_from s)) ->
  sub_attr s (sub_attr s a) = sub_attr s a.
Proof.
  intros s [c|l] L P.
  - cbn [sub_attr]. destruct (s_excl s c) eqn:X; [cbn [sub_attr]; rewrite X; reflexivity|].
    destruct (replaced (s_from s) (s_to s) c) as [a|] eqn:E; [|cbn [sub_attr]; rewrite X, E; reflexivity].
    apply replaced_in in E. apply sub_attr_id; [|exact L]. intros d I. apply P. apply in_flat_map. exists a. split; assumption.
  - cbn [sub_attr]. f_equal. induction l as [|c l IH]; [reflexivity|]. cbn [flat_map]. rewrite flat_map_app, IH, sub_child_twice by assumption. reflexivity.
Qed.

Lemma sub_attr_keeps : forall s a d, In d (attr_children a) -> ~ In d (s_from s) -> List.length (s_from s) = List.length (s_to s) ->
  In d (attr_children (sub_attr s a)).
Proof.
  intros s a d I N L. rewrite sub_attr_children. apply in_flat_map. exists d. split; [exact I|]. rewrite sub_child_id by assumption. left. reflexivity.
Qed.

(* ----- facts about the state ----- *)

Lemma forall2_in : forall (A B : Type) (P : A -> B -> Prop) l l', Forall2 P l l' -> forall x, In x l -> exists y, In y l' /\ P x y.
Proof.
  intros A B P l l' H. induction H as [|a b l l' Pab H IH]; intros x I; [contradiction|]. destruct I as [<-|I].
  - exists b. split; [left; reflexivity|exact Pab].
  - destruct (IH x I) as (y & Iy & Py). exists y. split; [right; exact Iy|exact Py].
Qed.

Lemma forall2_in_r : forall (A B : Type) (P : A -> B -> Prop) l l', Forall2 P l l' -> forall y, In y l' -> exists x, In x l /\ P x y.
Proof.
  intros A B P l l' H. induction H as [|a b l l' Pab H IH]; intros y I; [contradiction|]. destruct I as [<-|I].
  - exists a. split; [left; reflexivity|exact Pab].
  - destruct (IH y I) as (x & Ix & Px). exists x. split; [right; exact Ix|exact Px].
Qed.

Lemma kept : forall h0 s r h ex ow, Pre h0 s r -> St h0 s r h ex ow -> forall p c, In c (flat_map attr_children (attrs_of h0 p)) -> ~ In c (s_from s) ->
  In c (flat_map attr_children (attrs_of h p)).
Proof.
  intros h0 s r h ex ow P S p c I N. apply in_flat_map in I. destruct I as (a0 & Ia & Ic).
  destruct (forall2_in _ _ _ _ _ (st_attrs _ _ _ _ _ _ S p) a0 Ia) as (a & Ia' & H). apply in_flat_map. exists a. split; [exact Ia'|].
  destruct H as [->|[_ ->]]; [exact Ic|]. apply sub_attr_keeps; [exact Ic|exact N|exact (p_len _ _ _ P)].
Qed.

Lemma came : forall h0 s r h ex ow, St h0 s r h ex ow -> forall p c, In c (flat_map attr_children (attrs_of h p)) ->
  In c (flat_map attr_children (attrs_of h0 p)) \/ In c (flat_map attr_children (s_to s)).
Proof.
  intros h0 s r h ex ow S p c I. apply in_flat_map in I. destruct I as (a & Ia & Ic).
  destruct (forall2_in_r _ _ _ _ _ (st_attrs _ _ _ _ _ _ S p) a Ia) as (a0 & Ia0 & H). destruct H as [->|[_ ->]].
  - left. apply in_flat_map. exists a0. split; assumption.
  - destruct (sub_attr_in s a0 c Ic) as [J|J]; [left; apply in_flat_map; exists a0; split; assumption|right; exact J].
Qed.

Lemma kid_V : forall h0 s r h ex ow, St h0 s r h ex ow -> forall i j, Vv h0 s r i ->
  In (CNode j) (flat_map attr_children (attrs_of h i)) -> s_excl s (CNode j) = false -> ~ In (CNode j) (s_from s) -> Vv h0 s r j.
Proof.
  intros h0 s r h ex ow S i j V I X N. destruct (came _ _ _ _ _ _ S i _ I) as [J|J].
  - apply kid_child in J. destruct V as [V|(t & T & R)].
    + left. eapply region_step; eassumption.
    + right. exists t. split; [exact T|]. eapply reaches_next; eassumption.
  - right. exists j. split; [apply in_nodes; exact J|constructor].
Qed.

Lemma R_not_from : forall h0 s r j, Pre h0 s r -> Rv h0 s j -> ~ In (CNode j) (s_from s).
Proof.
  intros h0 s r j P (t & T & R). destruct (reaches_last _ _ _ R) as [->|(y & Ry & K)].
  - apply (p_direct _ _ _ P). apply in_nodes. exact T.
  - apply (p_sep _ _ _ P t y); [exact T|exact Ry|]. apply kid_child. exact K.
Qed.

Lemma from_not_V : forall h0 s r j, Pre h0 s r -> s_invalidate s = true -> In (CNode j) (s_from s) -> ~ Vv h0 s r j.
Proof.
  intros h0 s r j P Inv F [V|R].
  - destruct V as [|p c V K X N]; [|contradiction]. apply (p_root _ _ _ P Inv r F). constructor.
  - exact (R_not_from _ _ _ _ P R F).
Qed.

Lemma V_stage : forall h0 s r v, Pre h0 s r -> Vv h0 s r v -> stage_of h0 v = stage_of h0 r.
Proof.
  intros h0 s r v P [V|(t & T & R)].
  - induction V as [|p c V IH K X N]; [reflexivity|]. rewrite <- IH. apply (inv_kids _ _ _ (p_inv _ _ _ P)). exact K.
  - destruct (p_to _ _ _ P t T) as [_ <-]. clear T. induction R as [|p c x K R IH]; [reflexivity|]. rewrite IH. apply (inv_kids _ _ _ (p_inv _ _ _ P)). exact K.
Qed.

Lemma live_kid : forall h p c, Inv h none none -> dead_of h p = false -> In c (kids h p) -> dead_of h c = false.
Proof.
  intros h p c I D K. destruct (dead_of h c) eqn:E; [|reflexivity]. pose proof (inv_dead _ _ _ I c E) as U.
  destruct (inv_kids _ _ _ I p c K) as [L _]. pose proof (inv_bal _ _ _ I p c L) as B. rewrite U, D in B. unfold none in B.
  apply (count_occ_In Nat.eq_dec) in K. cbn in B. lia.
Qed.

Lemma start : forall h0 s r, Pre h0 s r -> St h0 s r h0 none none.
Proof.
  intros h0 s r P. split; try reflexivity.
  - exact (p_inv _ _ _ P).
  - intros p. induction (attrs_of h0 p); constructor; auto.
  - intros v [V|(t & T & R)].
    + induction V as [|p c V IH K X N]; [exact (p_root_alive _ _ _ P)|]. exact (live_kid _ _ _ (p_inv _ _ _ P) IH K).
    + destruct (p_to _ _ _ P t T) as [D _]. clear T. induction R as [|p c x K R IH]; [exact D|]. apply IH. exact (live_kid _ _ _ (p_inv _ _ _ P) D K).
  - unfold none. intros q o H. congruence.
Qed.

(* a live user of a child that is not replaced *)
Lemma still_user : forall h0 s r h ex ow, Pre h0 s r -> St h0 s r h ex ow -> forall y v, Vv h0 s r y -> In v (kids h0 y) -> ~ In (CNode v) (s_from s) ->
  In y (users_of h v).
Proof.
  intros h0 s r h ex ow P S y v V K N. pose proof (proj1 (inv_kids _ _ _ (p_inv _ _ _ P) y v K)) as L.
  apply kid_child in K. pose proof (kept _ _ _ _ _ _ P S y _ K N) as K'. apply kid_child in K'.
  assert (L' : v < List.length h) by (rewrite (st_len _ _ _ _ _ _ S); exact L).
  pose proof (inv_bal _ _ _ (st_inv _ _ _ _ _ _ S) y v L') as B. rewrite (st_live _ _ _ _ _ _ S y V) in B.
  assert (W : ow y v = 0). { destruct (ow y v) eqn:E; [reflexivity|]. elim N. apply (st_owes _ _ _ _ _ _ S y v). lia. }
  apply (count_occ_In Nat.eq_dec) in K'. apply (count_occ_In Nat.eq_dec). lia.
Qed.

Lemma state_guard : forall h0 s r h ex ow, Pre h0 s r -> s_invalidate s = true -> St h0 s r h ex ow ->
  (forall t, In t (tos s) -> Dv h0 s t -> exists y, Vv h0 s r y /\ In y (users_of h t)) ->
  Guard (Vv h0 s r) (Dv h0 s) h ow.
Proof.
  intros h0 s r h ex ow P Iv S T. split.
  - intros v [V|(t & Tt & R)] D.
    + destruct V as [|p c V K X N].
      * destruct D as (o & F & Ro). elim (p_root _ _ _ P Iv o F Ro).
      * exists p. split; [left; exact V|]. apply (still_user _ _ _ _ _ _ P S); [left; exact V|exact K|exact N].
    + destruct (reaches_last _ _ _ R) as [->|(y & Ry & K)]; [exact (T t Tt D)|].
      assert (Y : Vv h0 s r y) by (right; exists t; split; assumption).
      exists y. split; [exact Y|]. apply (still_user _ _ _ _ _ _ P S); [exact Y|exact K|].
      apply (R_not_from _ _ _ _ P). exists t. split; assumption.
  - intros x c (o & F & Ro) NV K. exists o. split; [exact F|]. eapply reaches_next; [exact Ro|].
    assert (E : attrs_of h x = attrs_of h0 x).
    { pose proof (st_attrs _ _ _ _ _ _ S x) as A. induction A as [|a0 a l0 l H A IH]; [reflexivity|]. f_equal; [|exact IH].
      destruct H as [->|[V _]]; [reflexivity|]. elim NV. left. exact V. }
    unfold kids in *. rewrite E in K. exact K.
  - intros q o H. apply (st_owes _ _ _ _ _ _ S q o H).
  - exact (st_live _ _ _ _ _ _ S).
Qed.

(* ------------------------------ prepare_sub ------------------------------------ *)

Lemma forall2_attrs : forall h0 s r h h', (forall p, attrs_of h' p = attrs_of h p) ->
  (forall p, Forall2 (fun a0 a => a = a0 \/ (region h0 s r p /\ a = sub_attr s a0)) (attrs_of h0 p) (attrs_of h p)) ->
  (forall p, Forall2 (fun a0 a => a = a0 \/ (region h0 s r p /\ a = sub_attr s a0)) (attrs_of h0 p) (attrs_of h' p)).
Proof. intros h0 s r h h' E H p. rewrite E. apply H. Qed.

Lemma prepare_ok : forall h0 s r h ex ow i c, Pre h0 s r -> St h0 s r h ex ow -> Vv h0 s r i -> In c (s_from s) ->
  (forall j, c = CNode j -> j < List.length h /\ ow i j < count_occ Nat.eq_dec (kids h i) j + ex i j) ->
  exists h' rep, prepare_sub same s i h c = Ok2 h' rep /\ replaced (s_from s) (s_to s) c = Some rep /\
    St h0 s r h' (plus ex i (nodes (attr_children rep))) (plus ow i (node_of c)) /\ same_shape h h'.
Proof.
  intros h0 s r h ex ow i c P S V F B.
  destruct (replaced (s_from s) (s_to s) c) as [rep|] eqn:E.
  2: { apply (replaced_none _ _ _ (p_len _ _ _ P)) in E. contradiction. }
  destruct (index_replaced _ _ _ _ E) as (k & K1 & K2).
  unfold prepare_sub. rewrite K1, K2.
  pose proof (replaced_in _ _ _ _ E) as IR.
  assert (TR : forall t, In t (nodes (attr_children rep)) -> In t (tos s)).
  { intros t I. unfold tos. apply in_nodes. apply in_nodes in I. apply in_flat_map. exists rep. split; assumption. }
  set (h1 := fold_left (add_user i) (attr_children rep) h).
  assert (AD : Added i (nodes (attr_children rep)) h h1) by apply add_users.
  assert (I1 : Inv h1 (plus ex i (nodes (attr_children rep))) ow).
  { apply (inv_added _ _ h); [exact AD|exact (st_inv _ _ _ _ _ _ S)|].
    intros t I. apply (st_live _ _ _ _ _ _ S). right. exists t. split; [apply TR; exact I|constructor]. }
  assert (S1 : St h0 s r h1 (plus ex i (nodes (attr_children rep))) ow).
  { destruct AD as [(L1 & A1 & G1) D1 U1]. destruct S as [Si Sl Sg Sa Sv So]. split; try assumption.
    - congruence.
    - intros x. rewrite G1. apply Sg.
    - exact (forall2_attrs _ _ _ _ _ A1 Sa).
    - intros v Vx. rewrite D1. apply Sv. exact Vx. }
  destruct c as [sym|j].
  - exists h1, rep. split; [reflexivity|]. split; [reflexivity|]. split; [|exact (ad_shape _ _ _ _ AD)].
    destruct S1 as [Si Sl Sg Sa Sv So]. split; try assumption.
    + destruct Si as [X Y Z]. split; [|exact Y|exact Z]. intros p d Ld. specialize (X p d Ld). unfold plus at 1. cbn. 
      destruct (Nat.eqb p i); lia.
    + intros q o H. apply So. unfold plus in H. cbn in H. destruct (Nat.eqb q i); lia.
  - destruct (B j eq_refl) as [Lj Bj]. assert (Lj1 : j < List.length h1) by (rewrite (proj1 (ad_shape _ _ _ _ AD)); exact Lj).
    unfold remove_user. destruct (nth_error h1 j) as [m|] eqn:Ej; [|apply nth_error_None in Ej; lia].
    assert (Uj : users_of h1 j = n_users m) by (unfold users_of; rewrite Ej; reflexivity).
    pose proof (inv_bal _ _ _ I1 i j Lj1) as Bal. rewrite (st_live _ _ _ _ _ _ S1 i V) in Bal.
    rewrite (shape_kids _ _ _ (ad_shape _ _ _ _ AD)) in Bal. unfold plus in Bal. rewrite Nat.eqb_refl in Bal.
    destruct (remove_first (fun u => same (CNode u) (CNode i)) (n_users m)) as [us|] eqn:Er.
    2: { exfalso. apply remove_first_none in Er. rewrite Uj, Er in Bal. lia. }
    destruct (remove_first_some _ _ _ Er) as [C Len].
    set (h2 := update h1 j (with_users us)).
    assert (SH2 : same_shape h1 h2) by apply shape_users.
    assert (U2 : forall x, users_of h2 x = if Nat.eqb x j then us else users_of h1 x) by (intros x; apply users_update; exact Lj1).
    assert (D2 : forall x, dead_of h2 x = dead_of h1 x) by (intros x; apply dead_users).
    assert (NJ : dead_of h1 j = false).
    { destruct (dead_of h1 j) eqn:Z; [|reflexivity]. apply (inv_dead _ _ _ I1) in Z. rewrite Uj in Z. rewrite Z in Er. discriminate. }
    assert (I2 : Inv h2 (plus ex i (nodes (attr_children rep))) (plus ow i [j])).
    { destruct I1 as [X Y Z]. split.
      - intros p d Ld. rewrite U2, D2, (shape_kids _ _ _ SH2). rewrite (proj1 SH2) in Ld. specialize (X p d Ld).
        unfold plus in *. cbn [count_occ]. specialize (C p). destruct (Nat.eqb_spec d j) as [->|Nd].
        + rewrite Uj in X. destruct (Nat.eq_dec j j); [|congruence]. destruct (Nat.eqb p i); lia.
        + destruct (Nat.eq_dec j d); [congruence|]. destruct (Nat.eqb p i); lia.
      - intros d Dd. rewrite D2 in Dd. rewrite U2. destruct (Nat.eqb_spec d j) as [Ed|]; [|apply Y; exact Dd]. subst d. congruence.
      - exact (one_stage_shape _ _ SH2 Z). }
    assert (S2 : St h0 s r h2 (plus ex i (nodes (attr_children rep))) (plus ow i [j])).
    { destruct SH2 as (L2 & A2 & G2). destruct S1 as [Si Sl Sg Sa Sv So]. split; try assumption.
      - congruence.
      - intros x. rewrite G2. apply Sg.
      - exact (forall2_attrs _ _ _ _ _ A2 Sa).
      - intros v Vx. rewrite D2. apply Sv. exact Vx.
      - intros q o H. unfold plus in H. cbn [count_occ] in H. destruct (Nat.eqb_spec q i) as [->|Nq].
        + destruct (Nat.eq_dec j o) as [<-|]; [split; [exact V|exact F]|]. apply So. lia.
        + apply So. lia. }
    assert (DONE : exists h', Ok2 h2 rep = Ok2 h' rep /\ St h0 s r h' (plus ex i (nodes (attr_children rep))) (plus ow i [j]) /\ same_shape h h').
    { exists h2. split; [reflexivity|]. split; [exact S2|]. eapply same_shape_trans; [exact (ad_shape _ _ _ _ AD)|exact SH2]. }
    destruct us as [|u us].
    2: { destruct DONE as (h' & E' & S' & H'). exists h', rep. auto. }
    destruct (s_invalidate s) eqn:Iv.
    2: { destruct DONE as (h' & E' & S' & H'). exists h', rep. auto. }
    unfold invalidate_node.
    assert (T2 : forall t, In t (tos s) -> Dv h0 s t -> exists y, Vv h0 s r y /\ In y (users_of h2 t)).
    { intros t Tt Dt. destruct (p_single _ _ _ P Iv) as [One1|Sep].
      - exists i. split; [exact V|].
        assert (RT : s_to s = [rep]).
        { pose proof (p_len _ _ _ P) as PL. rewrite One1 in PL. destruct (s_to s) as [|a [|b to]]; try discriminate.
          destruct IR as [->|[]]. reflexivity. }
        assert (It : In t (nodes (attr_children rep))).
        { unfold tos in Tt. rewrite RT in Tt. cbn [flat_map] in Tt. rewrite app_nil_r in Tt. exact Tt. }
        assert (Nt : t <> j).
        { intros ->. apply (p_direct _ _ _ P (CNode j)); [apply in_nodes; exact Tt|exact F]. }
        rewrite U2. destruct (Nat.eqb_spec t j); [congruence|].
        apply (count_occ_In Nat.eq_dec).
        assert (Lt : t < List.length h).
        { rewrite (st_len _ _ _ _ _ _ S). apply alive_lt. apply alive_dead. apply (p_to _ _ _ P t Tt). }
        rewrite (ad_users _ _ _ _ AD t i Lt). rewrite Nat.eqb_refl. apply (count_occ_In Nat.eq_dec) in It. lia.
      - destruct Dt as (o & Fo & Ro). elim (Sep o t Fo Tt Ro). }
    pose proof (state_guard _ _ _ _ _ _ P Iv S2 T2) as G.
    destruct (invalidate_ok (Vv h0 s r) (Dv h0 s) (Datatypes.S (links h2)) h2 j _ _ (Nat.lt_succ_diag_r _) I2 G) as (h3 & E3 & I3 & K3 & D3).
    + apply alive_dead. rewrite D2. exact NJ.
    + rewrite U2, Nat.eqb_refl. reflexivity.
    + exists j. split; [exact F|constructor].
    + exact (from_not_V _ _ _ _ P Iv F).
    + exists h3, rep. rewrite E3. split; [reflexivity|]. split; [reflexivity|]. split.
      * destruct (k_shape _ _ _ _ K3) as (L3 & A3 & G3). destruct S2 as [Si Sl Sg Sa Sv So]. split; try assumption.
        -- congruence.
        -- intros x. rewrite G3. apply Sg.
        -- exact (forall2_attrs _ _ _ _ _ A3 Sa).
        -- apply (guard_killed _ _ _ _ _ G K3).
      * eapply same_shape_trans; [exact (ad_shape _ _ _ _ AD)|]. eapply same_shape_trans; [exact SH2|exact (k_shape _ _ _ _ K3)].
Qed.
