(* Proofs about the links of the syntax tree: the walk of a substitution. *)
From Coq Require Import Bool Arith Lia List.
From Verif Require Import Graph_Model Graph_Spec Graph_Proofs Graph_Subst.
Import ListNotations.
Open Scope list_scope.

Lemma nth_set : forall l n a m, nth_error (set_nth l n a) m = if Nat.eqb m n then option_map (fun _ => a) (nth_error l n) else nth_error l m.
Proof.
  induction l as [|x l IH]; intros n a m.
  - cbn. destruct n, m; cbn; try reflexivity. destruct (Nat.eqb m n); reflexivity.
  - destruct n as [|n], m as [|m]; cbn; try reflexivity. apply IH.
Qed.

Lemma set_same : forall l n a, nth_error l n = Some a -> set_nth l n a = l.
Proof. induction l as [|x l IH]; intros [|n] a H; try discriminate; cbn in *; [congruence|]. f_equal. apply IH. exact H. Qed.

Lemma length_set : forall l n a, List.length (set_nth l n a) = List.length l.
Proof. induction l as [|x l IH]; intros [|n] a; cbn; congruence. Qed.

Lemma count_set : forall l n a b c, nth_error l n = Some a ->
  count_occ Nat.eq_dec (nodes (flat_map attr_children (set_nth l n b))) c + count_occ Nat.eq_dec (nodes (attr_children a)) c
  = count_occ Nat.eq_dec (nodes (flat_map attr_children l)) c + count_occ Nat.eq_dec (nodes (attr_children b)) c.
Proof.
  induction l as [|x l IH]; intros [|n] a b c H; try discriminate; cbn [set_nth flat_map nth_error] in *; rewrite !nodes_app, !count_occ_app.
  - injection H as ->. lia.
  - specialize (IH n a b c H). lia.
Qed.

Lemma attrs_set : forall h i n a j, i < List.length h -> attrs_of (set_attr h i n a) j = if Nat.eqb j i then set_nth (attrs_of h i) n a else attrs_of h j.
Proof.
  intros h i n a j L. unfold set_attr, attrs_of. rewrite nth_update. destruct (Nat.eqb j i); [|reflexivity].
  destruct (nth_error h i) eqn:E; [reflexivity|]. apply nth_error_None in E. lia.
Qed.

Definition Done (h0 : heap) (s : sub) (h : heap) (p : id) : Prop := attrs_of h p = map (sub_attr s) (attrs_of h0 p).

Lemma V_lt : forall h0 s r h ex ow i, St h0 s r h ex ow -> Vv h0 s r i -> i < List.length h.
Proof. intros h0 s r h ex ow i S V. apply alive_lt, alive_dead, (st_live _ _ _ _ _ _ S), V. Qed.

Lemma forall2_set : forall (P : attr -> attr -> Prop) l0 l n a a0, Forall2 P l0 l -> nth_error l0 n = Some a0 -> P a0 a -> Forall2 P l0 (set_nth l n a).
Proof.
  intros P l0 l n a a0 H. revert n. induction H as [|x y l0 l Pxy H IH]; intros [|n] E Q; try discriminate; cbn in *.
  - constructor; [congruence|assumption].
  - constructor; [assumption|]. apply IH; assumption.
Qed.

Lemma forall2_length : forall (P : attr -> attr -> Prop) l0 l, Forall2 P l0 l -> List.length l0 = List.length l.
Proof. intros P l0 l H. induction H; cbn; congruence. Qed.

Lemma forall2_nth : forall (P : attr -> attr -> Prop) l0 l n a, Forall2 P l0 l -> nth_error l n = Some a -> exists a0, nth_error l0 n = Some a0 /\ P a0 a.
Proof.
  intros P l0 l n a H. revert n. induction H as [|x y l0 l Pxy H IH]; intros [|n] E; try discriminate; cbn in *.
  - exists x. split; [reflexivity|congruence].
  - apply IH. exact E.
Qed.

(* the attribute after the substitution, from the attribute now *)
Lemma sub_now : forall h0 s r h ex ow p n a a0, Pre h0 s r -> St h0 s r h ex ow -> nth_error (attrs_of h p) n = Some a ->
  nth_error (attrs_of h0 p) n = Some a0 -> sub_attr s a = sub_attr s a0.
Proof.
  intros h0 s r h ex ow p n a a0 P S E E0. destruct (forall2_nth _ _ _ _ _ (st_attrs _ _ _ _ _ _ S p) E) as (b & Eb & H).
  rewrite E0 in Eb. injection Eb as <-. destruct H as [->|[_ ->]]; [reflexivity|].
  apply sub_attr_twice; [exact (p_len _ _ _ P)|exact (p_direct _ _ _ P)].
Qed.

Lemma set_ok : forall h0 s r h ex ow i n a exP owP, Pre h0 s r -> Vv h0 s r i -> St h0 s r h (plus ex i exP) (plus ow i owP) ->
  nth_error (attrs_of h i) n = Some a ->
  (forall c, count_occ Nat.eq_dec (nodes (attr_children (sub_attr s a))) c + count_occ Nat.eq_dec owP c
           = count_occ Nat.eq_dec (nodes (attr_children a)) c + count_occ Nat.eq_dec exP c) ->
  St h0 s r (set_attr h i n (sub_attr s a)) ex ow /\ (forall p, Done h0 s h p -> Done h0 s (set_attr h i n (sub_attr s a)) p).
Proof.
  intros h0 s r h ex ow i n a exP owP P V S E B. pose proof (V_lt _ _ _ _ _ _ _ S V) as L.
  set (h' := set_attr h i n (sub_attr s a)).
  assert (A' : forall j, attrs_of h' j = if Nat.eqb j i then set_nth (attrs_of h i) n (sub_attr s a) else attrs_of h j)
    by (intros j; apply attrs_set; exact L).
  assert (U' : forall j, users_of h' j = users_of h j).
  { intros j. unfold h', set_attr. look. destruct (Nat.eqb_spec j i) as [->|]; [|reflexivity]. destruct (nth_error h i); reflexivity. }
  assert (D' : forall j, dead_of h' j = dead_of h j).
  { intros j. unfold h', set_attr. look. destruct (Nat.eqb_spec j i) as [->|]; [|reflexivity]. destruct (nth_error h i); reflexivity. }
  assert (G' : forall j, stage_of h' j = stage_of h j).
  { intros j. unfold h', set_attr. look. destruct (Nat.eqb_spec j i) as [->|]; [|reflexivity]. destruct (nth_error h i); reflexivity. }
  assert (L' : List.length h' = List.length h) by (unfold h', set_attr; apply length_update).
  destruct (forall2_nth _ _ _ _ _ (st_attrs _ _ _ _ _ _ S i) E) as (a0 & E0 & H0).
  pose proof (sub_now _ _ _ _ _ _ _ _ _ _ P S E E0) as N0.
  assert (K' : forall p c, In c (kids h' p) -> In c (kids h p) \/ (p = i /\ In c (tos s))).
  { intros p c I. unfold kids in *. rewrite A' in I. destruct (Nat.eqb_spec p i) as [->|]; [|left; exact I].
    apply in_nodes in I. apply in_flat_map in I. destruct I as (b & Ib & Ic). apply In_nth_error in Ib. destruct Ib as (m & Em).
    rewrite nth_set in Em. destruct (Nat.eqb_spec m n) as [Emn|Emn].
    - rewrite E in Em. cbn in Em. injection Em as <-. destruct (sub_attr_in s a _ Ic) as [J|J].
      + left. apply in_nodes. apply in_flat_map. exists a. split; [exact (nth_error_In _ _ E)|exact J].
      + right. split; [reflexivity|]. apply in_nodes. exact J.
    - left. apply in_nodes. apply in_flat_map. exists b. split; [exact (nth_error_In _ _ Em)|exact Ic]. }
  split.
  - destruct S as [[X Y Z] Sl Sg Sa Sv So]. split.
    + split.
      * intros p c Lc. rewrite L' in Lc. rewrite U', D'. specialize (X p c Lc). unfold plus in X.
        destruct (Nat.eqb_spec p i) as [->|Np].
        -- rewrite (Sv i V) in *. specialize (B c).
           assert (CK : count_occ Nat.eq_dec (kids h' i) c + count_occ Nat.eq_dec (nodes (attr_children a)) c
                      = count_occ Nat.eq_dec (kids h i) c + count_occ Nat.eq_dec (nodes (attr_children (sub_attr s a))) c).
           { unfold kids. rewrite A', Nat.eqb_refl. apply count_set. exact E. }
           lia.
        -- assert (EK : kids h' p = kids h p) by (unfold kids; rewrite A'; destruct (Nat.eqb_spec p i); [congruence|reflexivity]).
           rewrite EK. lia.
      * intros c Dc. rewrite D' in Dc. rewrite U'. apply Y. exact Dc.
      * intros p c I. rewrite L', !G'. destruct (K' p c I) as [I'|[-> I']]; [apply Z; exact I'|].
        destruct (p_to _ _ _ P c I') as [Dc Sc]. split.
        -- rewrite Sl. apply alive_lt, alive_dead. exact Dc.
        -- rewrite !Sg, Sc. symmetry. apply (V_stage _ _ _ _ P V).
    + congruence.
    + intros j. rewrite G'. apply Sg.
    + intros p. rewrite A'. destruct (Nat.eqb_spec p i) as [->|]; [|apply Sa]. apply (forall2_set _ _ _ _ _ a0); [apply Sa|exact E0|].
      rewrite N0. destruct V as [V|(t & T & R)]; [right; split; [exact V|reflexivity]|]. left. apply sub_attr_id; [|exact (p_len _ _ _ P)].
      intros c Ic. apply (p_sep _ _ _ P t i); [exact T|exact R|]. apply in_flat_map. exists a0. split; [exact (nth_error_In _ _ E0)|exact Ic].
    + intros v Vx. rewrite D'. apply Sv. exact Vx.
    + intros q o H. apply So. unfold plus. lia.
  - intros p Dp. unfold Done in *. rewrite A'. destruct (Nat.eqb_spec p i) as [->|]; [|exact Dp].
    rewrite <- Dp. apply set_same. rewrite Dp. rewrite (map_nth_error _ _ _ E0), N0. reflexivity.
Qed.

(* ------------------------------ the walk ------------------------------------- *)

(* a route through nodes that the substitution enters *)
Fixpoint route (h0 : heap) (s : sub) (j : id) (l : list id) : Prop :=
  match l with
  | [] => True
  | k :: l' => In k (kids h0 j) /\ s_excl s (CNode k) = false /\ ~ In (CNode k) (s_from s) /\ route h0 s k l'
  end.

Definition free (busy l : list id) : Prop := forall x, In x l -> ~ In x busy.

(* after the walk, the nodes on routes from j that avoid busy are done *)
Definition Covers (h0 : heap) (s : sub) (busy : list id) (h : heap) (j : id) : Prop :=
  forall l, route h0 s j l -> NoDup (j :: l) -> free busy (j :: l) -> Done h0 s h (last l j).

Record Progress (h0 : heap) (s : sub) (busy : list id) (h h' : heap) : Prop := {
  pr_busy : forall b, In b busy -> attrs_of h' b = attrs_of h b;
  pr_done : forall p, Done h0 s h p -> Done h0 s h' p
}.

Lemma progress_refl : forall h0 s busy h, Progress h0 s busy h h.
Proof. intros. split; auto. Qed.

Lemma progress_trans : forall h0 s busy a b c, Progress h0 s busy a b -> Progress h0 s busy b c -> Progress h0 s busy a c.
Proof. intros h0 s busy a b c [A1 A2] [B1 B2]. split; [intros x I; rewrite B1, A1 by exact I; reflexivity|auto]. Qed.

Lemma progress_shape : forall h0 s busy h h', same_shape h h' -> Progress h0 s busy h h'.
Proof. intros h0 s busy h h' (_ & A & _). split; [intros; apply A|]. intros p D. unfold Done in *. rewrite A. exact D. Qed.

Lemma covers_mono : forall h0 s busy h h' j, Progress h0 s busy h h' -> Covers h0 s busy h j -> Covers h0 s busy h' j.
Proof. intros h0 s busy h h' j [_ D] C l R N F. apply D. apply C; assumption. Qed.

Definition VisitOK (h0 : heap) (s : sub) (r : id) (busy : list id) (visit : heap -> id -> res) : Prop :=
  forall h j ex ow, St h0 s r h ex ow -> Vv h0 s r j -> (forall q o, ow q o <> 0 -> In q busy) ->
  exists h', visit h j = Ok h' /\ St h0 s r h' ex ow /\ Progress h0 s busy h h' /\ Covers h0 s busy h' j.

Definition enters (s : sub) (j : id) : Prop := s_excl s (CNode j) = false /\ ~ In (CNode j) (s_from s).

Lemma count_nodes_app : forall a b c, count_occ Nat.eq_dec (nodes (a ++ b)) c = count_occ Nat.eq_dec (nodes a) c + count_occ Nat.eq_dec (nodes b) c.
Proof. intros. rewrite nodes_app, count_occ_app. reflexivity. Qed.

Lemma count_attr : forall (l : list attr) n a c, nth_error l n = Some a ->
  count_occ Nat.eq_dec (nodes (attr_children a)) c <= count_occ Nat.eq_dec (nodes (flat_map attr_children l)) c.
Proof.
  induction l as [|x l IH]; intros [|n] a c H; try discriminate; cbn [flat_map nth_error] in *; rewrite count_nodes_app.
  - injection H as ->. lia.
  - specialize (IH n a c H). lia.
Qed.

Lemma in_attr : forall (l : list attr) n a c, nth_error l n = Some a -> In c (attr_children a) -> In c (flat_map attr_children l).
Proof. intros l n a c E I. apply in_flat_map. exists a. split; [exact (nth_error_In _ _ E)|exact I]. Qed.

Lemma tuple_ok : forall h0 s r busy visit i n, Pre h0 s r -> Vv h0 s r i -> VisitOK h0 s r (i :: busy) visit ->
  forall l pre acc h ex ow exP owP,
  St h0 s r h (plus ex i exP) (plus ow i owP) -> (forall q o, ow q o <> 0 -> In q busy) -> ~ In i busy ->
  nth_error (attrs_of h i) n = Some (Many (pre ++ l)) ->
  acc = flat_map (sub_child s) pre ->
  (forall c, count_occ Nat.eq_dec owP c <= count_occ Nat.eq_dec (nodes pre) c) ->
  (forall c, count_occ Nat.eq_dec (nodes acc) c + count_occ Nat.eq_dec owP c = count_occ Nat.eq_dec (nodes pre) c + count_occ Nat.eq_dec exP c) ->
  exists h' exP' owP', sub_tuple same s visit i l acc h = Ok2 h' (flat_map (sub_child s) (pre ++ l)) /\
    St h0 s r h' (plus ex i exP') (plus ow i owP') /\ Progress h0 s (i :: busy) h h' /\
    (forall c, count_occ Nat.eq_dec (nodes (flat_map (sub_child s) (pre ++ l))) c + count_occ Nat.eq_dec owP' c
             = count_occ Nat.eq_dec (nodes (pre ++ l)) c + count_occ Nat.eq_dec exP' c) /\
    (forall j, In (CNode j) l -> enters s j -> Covers h0 s (i :: busy) h' j).
Proof.
  intros h0 s r busy visit i n P V VIS. induction l as [|c l IH]; intros pre acc h ex ow exP owP S OW NB E EA LE BAL.
  - exists h, exP, owP. rewrite app_nil_r in *. subst acc. split; [reflexivity|]. split; [exact S|]. split; [apply progress_refl|].
    split; [exact BAL|]. intros j [].
  - assert (EQ : pre ++ c :: l = (pre ++ [c]) ++ l) by (rewrite <- app_assoc; reflexivity).
    pose proof (p_len _ _ _ P) as PL.
    (* a child that stays *)
    assert (STAY : sub_child s c = [c] -> forall h1, St h0 s r h1 (plus ex i exP) (plus ow i owP) -> Progress h0 s (i :: busy) h h1 ->
      (forall j, CNode j = c -> enters s j -> Covers h0 s (i :: busy) h1 j) ->
      exists h' exP' owP', sub_tuple same s visit i l (acc ++ [c]) h1 = Ok2 h' (flat_map (sub_child s) (pre ++ c :: l)) /\
        St h0 s r h' (plus ex i exP') (plus ow i owP') /\ Progress h0 s (i :: busy) h h' /\
        (forall x, count_occ Nat.eq_dec (nodes (flat_map (sub_child s) (pre ++ c :: l))) x + count_occ Nat.eq_dec owP' x
                 = count_occ Nat.eq_dec (nodes (pre ++ c :: l)) x + count_occ Nat.eq_dec exP' x) /\
        (forall j, In (CNode j) (c :: l) -> enters s j -> Covers h0 s (i :: busy) h' j)).
    { intros ST h1 S1 P1 C1. destruct (IH (pre ++ [c]) (acc ++ [c]) h1 ex ow exP owP S1 OW NB) as (h' & exP' & owP' & R1 & R2 & R3 & R4 & R5).
      - rewrite (pr_busy _ _ _ _ _ P1 i (or_introl eq_refl)), <- EQ. exact E.
      - rewrite flat_map_app, <- EA. cbn [flat_map]. rewrite ST. reflexivity.
      - intros x. rewrite count_nodes_app. specialize (LE x). lia.
      - intros x. rewrite !count_nodes_app. specialize (BAL x). lia.
      - exists h', exP', owP'. rewrite EQ. split; [exact R1|]. split; [exact R2|]. split; [eapply progress_trans; eassumption|]. split; [exact R4|].
        intros j [Ec|I] En; [|apply R5; assumption]. eapply covers_mono; [exact R3|]. apply C1; [symmetry; exact Ec|exact En]. }
    cbn [sub_tuple]. destruct (s_excl s c) eqn:X.
    + apply STAY; [unfold sub_child; rewrite X; reflexivity|exact S|apply progress_refl|].
      intros j <- [X' _]. congruence.
    + rewrite (p_equiv _ _ _ P). destruct (existsb (same c) (s_from s)) eqn:F.
      * apply existsb_from in F.
        destruct (prepare_ok h0 s r h (plus ex i exP) (plus ow i owP) i c P S V F) as (h1 & rep & E1 & E2 & S1 & SH).
        { intros j ->. assert (Ij : In j (kids h i)) by (apply kid_child; apply (in_attr _ n _ _ E); apply in_elt).
          split; [apply (inv_kids _ _ _ (st_inv _ _ _ _ _ _ S) i j Ij)|].
          unfold plus. rewrite Nat.eqb_refl. assert (W : ow i j = 0) by (destruct (ow i j) eqn:W; [reflexivity|elim NB; apply (OW i j); lia]).
          pose proof (count_attr _ _ _ j E) as CA. cbn [attr_children] in CA. rewrite count_nodes_app in CA.
          change (nodes (CNode j :: l)) with (j :: nodes l) in CA. cbn [count_occ] in CA. destruct (Nat.eq_dec j j); [|congruence].
          specialize (LE j). unfold kids. lia. }
        rewrite E1. destruct (IH (pre ++ [c]) (acc ++ attr_children rep) h1 ex ow (exP ++ nodes (attr_children rep)) (owP ++ node_of c))
          as (h' & exP' & owP' & R1 & R2 & R3 & R4 & R5); try assumption.
        -- destruct S1 as [[B1 B2 B3] Sl Sg Sa Sv So]. split; try assumption.
           ++ split; [|exact B2|exact B3]. intros p x Lx. specialize (B1 p x Lx). unfold plus in *. rewrite !count_occ_app. destruct (Nat.eqb p i); lia.
           ++ intros q o H. apply So. unfold plus in *. rewrite count_occ_app in H. destruct (Nat.eqb q i); lia.
        -- destruct SH as (_ & A & _). rewrite A, <- EQ. exact E.
        -- rewrite flat_map_app, <- EA. cbn [flat_map]. rewrite app_nil_r. unfold sub_child. rewrite X, E2. reflexivity.
        -- intros x. rewrite count_nodes_app, count_occ_app. unfold nodes at 2. cbn [flat_map]. rewrite app_nil_r. specialize (LE x). lia.
        -- intros x. rewrite !count_nodes_app, !count_occ_app. unfold nodes at 4. cbn [flat_map]. rewrite app_nil_r. specialize (BAL x). lia.
        -- exists h', exP', owP'. rewrite EQ. split; [exact R1|]. split; [exact R2|].
           split; [eapply progress_trans; [apply progress_shape; exact SH|exact R3]|]. split; [exact R4|].
           intros j [Ec|I] En; [|apply R5; assumption]. subst c. destruct En as [_ En]. contradiction.
      * assert (NF : ~ In c (s_from s)) by (intros I; apply existsb_from in I; congruence).
        assert (ST : sub_child s c = [c]) by (apply sub_child_id; assumption).
        destruct c as [sym|j].
        -- apply STAY; [exact ST|exact S|apply progress_refl|]. intros j Ej. discriminate.
        -- assert (Vj : Vv h0 s r j).
           { apply (kid_V _ _ _ _ _ _ S i j V); [apply (in_attr _ n _ _ E); apply in_elt|exact X|exact NF]. }
           destruct (VIS h j (plus ex i exP) (plus ow i owP) S Vj) as (h1 & E1 & S1 & P1 & C1).
           { intros q o H. unfold plus in H. destruct (Nat.eqb_spec q i) as [->|]; [left; reflexivity|right; apply (OW q o); lia]. }
           rewrite E1. apply STAY; [exact ST|exact S1|exact P1|]. intros j' Ej En. injection Ej as ->. exact C1.
Qed.

Lemma attrs_ok : forall h0 s r busy visit i, Pre h0 s r -> Vv h0 s r i -> VisitOK h0 s r (i :: busy) visit -> ~ In i busy ->
  forall cnt n h ex ow, St h0 s r h ex ow -> (forall q o, ow q o <> 0 -> In q busy) -> n + cnt = List.length (attrs_of h i) ->
  exists h', sub_attrs same s visit i n cnt h = Ok h' /\ St h0 s r h' ex ow /\ Progress h0 s busy h h' /\
    (forall m, nth_error (attrs_of h' i) m = if Nat.ltb m n then nth_error (attrs_of h i) m else option_map (sub_attr s) (nth_error (attrs_of h i) m)) /\
    (forall m a j, n <= m -> nth_error (attrs_of h i) m = Some a -> In (CNode j) (attr_children a) -> enters s j -> Covers h0 s (i :: busy) h' j).
Proof.
  intros h0 s r busy visit i P V VIS NB. pose proof (p_len _ _ _ P) as PL.
  induction cnt as [|cnt IH]; intros n h ex ow S OW L.
  - exists h. split; [reflexivity|]. split; [exact S|]. split; [apply progress_refl|]. split.
    + intros m. destruct (Nat.ltb_spec m n); [reflexivity|]. assert (Z : nth_error (attrs_of h i) m = None) by (apply nth_error_None; lia).
      rewrite Z. reflexivity.
    + intros m a j G E. assert (Z : nth_error (attrs_of h i) m = None) by (apply nth_error_None; lia). congruence.
  - cbn [sub_attrs]. destruct (nth_error (attrs_of h i) n) as [a|] eqn:E; [|apply nth_error_None in E; lia].
    (* after the attribute n *)
    assert (NEXT : forall h1, St h0 s r h1 ex ow -> Progress h0 s busy h h1 ->
      (forall m, nth_error (attrs_of h1 i) m = if Nat.eqb m n then Some (sub_attr s a) else nth_error (attrs_of h i) m) ->
      (forall j, In (CNode j) (attr_children a) -> enters s j -> Covers h0 s (i :: busy) h1 j) ->
      exists h', sub_attrs same s visit i (Datatypes.S n) cnt h1 = Ok h' /\ St h0 s r h' ex ow /\ Progress h0 s busy h h' /\
        (forall m, nth_error (attrs_of h' i) m = if Nat.ltb m n then nth_error (attrs_of h i) m else option_map (sub_attr s) (nth_error (attrs_of h i) m)) /\
        (forall m b j, n <= m -> nth_error (attrs_of h i) m = Some b -> In (CNode j) (attr_children b) -> enters s j -> Covers h0 s (i :: busy) h' j)).
    { intros h1 S1 P1 A1 C1.
      assert (L1 : List.length (attrs_of h1 i) = List.length (attrs_of h i)).
      { rewrite <- (forall2_length _ _ _ (st_attrs _ _ _ _ _ _ S1 i)), <- (forall2_length _ _ _ (st_attrs _ _ _ _ _ _ S i)). reflexivity. }
      destruct (IH (Datatypes.S n) h1 ex ow S1 OW) as (h' & R1 & R2 & R3 & R4 & R5); [lia|].
      exists h'. split; [exact R1|]. split; [exact R2|]. split; [eapply progress_trans; eassumption|]. split.
      - intros m. rewrite R4, A1. destruct (Nat.eqb_spec m n) as [->|Nm].
        + destruct (Nat.ltb_spec n (Datatypes.S n)); [|lia]. destruct (Nat.ltb_spec n n); [lia|]. rewrite E. reflexivity.
        + destruct (Nat.ltb_spec m (Datatypes.S n)), (Nat.ltb_spec m n); try lia; reflexivity.
      - intros m b j G Eb I En. destruct (Nat.eq_dec m n) as [->|Nm].
        + rewrite E in Eb. injection Eb as <-. assert (C : Covers h0 s (i :: busy) h1 j) by (apply C1; assumption).
          intros l Rl Nd Fr. apply (pr_done _ _ _ _ _ R3). apply C; assumption.
        + apply (R5 m b j); try assumption; [lia|]. rewrite A1. destruct (Nat.eqb_spec m n); [congruence|exact Eb]. }
    assert (WEAK : forall h1, Progress h0 s (i :: busy) h h1 -> Progress h0 s busy h h1).
    { intros h1 [A B]. split; [|exact B]. intros b I. apply A. right. exact I. }
    assert (SAME : sub_attr s a = a -> forall h1, St h0 s r h1 ex ow -> Progress h0 s (i :: busy) h h1 ->
      (forall j, In (CNode j) (attr_children a) -> enters s j -> Covers h0 s (i :: busy) h1 j) ->
      exists h', sub_attrs same s visit i (Datatypes.S n) cnt h1 = Ok h' /\ St h0 s r h' ex ow /\ Progress h0 s busy h h' /\
        (forall m, nth_error (attrs_of h' i) m = if Nat.ltb m n then nth_error (attrs_of h i) m else option_map (sub_attr s) (nth_error (attrs_of h i) m)) /\
        (forall m b j, n <= m -> nth_error (attrs_of h i) m = Some b -> In (CNode j) (attr_children b) -> enters s j -> Covers h0 s (i :: busy) h' j)).
    { intros SA h1 S1 P1 C1. apply NEXT; [exact S1|apply WEAK; exact P1| |exact C1].
      intros m. rewrite (pr_busy _ _ _ _ _ P1 i (or_introl eq_refl)). destruct (Nat.eqb_spec m n) as [->|]; [|reflexivity]. rewrite SA. exact E. }
    assert (SETP : forall h1 a', same_shape h h1 \/ Progress h0 s (i :: busy) h h1 -> i < List.length h1 ->
      (forall p, Done h0 s h1 p -> Done h0 s (set_attr h1 i n a') p) -> a' = sub_attr s a ->
      Progress h0 s busy h (set_attr h1 i n a') /\
      (forall m, nth_error (attrs_of (set_attr h1 i n a') i) m = if Nat.eqb m n then Some (sub_attr s a) else nth_error (attrs_of h i) m)).
    { intros h1 a' HP Li HD ->. assert (HP' : Progress h0 s (i :: busy) h h1) by (destruct HP as [HP|HP]; [apply progress_shape; exact HP|exact HP]).
      pose proof (pr_busy _ _ _ _ _ HP' i (or_introl eq_refl)) as Ai. split.
      - split.
        + intros b Ib. rewrite attrs_set by exact Li. destruct (Nat.eqb_spec b i) as [->|]; [contradiction|]. apply (pr_busy _ _ _ _ _ HP'). right. exact Ib.
        + intros p Dp. apply HD. apply (pr_done _ _ _ _ _ HP'). exact Dp.
      - intros m. rewrite attrs_set by exact Li. rewrite Nat.eqb_refl, nth_set, Ai. destruct (Nat.eqb_spec m n) as [->|]; [|reflexivity]. rewrite E. reflexivity. }
    destruct a as [c|l].
    + destruct (s_excl s c) eqn:X.
      * apply SAME; [cbn [sub_attr]; rewrite X; reflexivity|exact S|apply progress_refl|]. intros j [Ej|[]] [X' _]. congruence.
      * rewrite (p_equiv _ _ _ P). destruct (existsb (same c) (s_from s)) eqn:F.
        -- apply existsb_from in F. destruct (prepare_ok h0 s r h ex ow i c P S V F) as (h1 & rep & E1 & E2 & S1 & SH).
           { intros j ->. assert (Ij : In j (kids h i)) by (apply kid_child; apply (in_attr _ n _ _ E); left; reflexivity).
             split; [apply (inv_kids _ _ _ (st_inv _ _ _ _ _ _ S) i j Ij)|].
             assert (W : ow i j = 0) by (destruct (ow i j) eqn:W; [reflexivity|elim NB; apply (OW i j); lia]).
             apply (count_occ_In Nat.eq_dec) in Ij. lia. }
           rewrite E1. assert (SA : sub_attr s (One c) = rep) by (cbn [sub_attr]; rewrite X, E2; reflexivity).
           destruct (set_ok h0 s r h1 ex ow i n (One c) (nodes (attr_children rep)) (node_of c) P V S1) as [S2 D2].
           { destruct SH as (_ & A & _). rewrite A. exact E. }
           { intros x. rewrite SA. cbn [attr_children]. unfold nodes at 2. cbn [flat_map]. rewrite app_nil_r. lia. }
           rewrite SA in S2, D2.
           destruct (SETP h1 rep (or_introl SH)) as [Q1 Q2]; [exact (V_lt _ _ _ _ _ _ _ S1 V)|exact D2|symmetry; exact SA|].
           apply NEXT; [exact S2|exact Q1|exact Q2|]. intros j [Ej|[]] [_ En]. congruence.
        -- assert (NF : ~ In c (s_from s)) by (intros I; apply existsb_from in I; congruence).
           assert (SA : sub_attr s (One c) = One c).
           { cbn [sub_attr]. rewrite X. apply (replaced_none _ _ _ PL) in NF. rewrite NF. reflexivity. }
           destruct c as [sym|j].
           ++ apply SAME; [exact SA|exact S|apply progress_refl|]. intros j [Ej|[]]. discriminate.
           ++ assert (Vj : Vv h0 s r j).
              { apply (kid_V _ _ _ _ _ _ S i j V); [apply (in_attr _ n _ _ E); left; reflexivity|exact X|exact NF]. }
              destruct (VIS h j ex ow S Vj) as (h1 & E1 & S1 & P1 & C1); [intros q o H; right; apply (OW q o H)|].
              rewrite E1. apply SAME; [exact SA|exact S1|exact P1|]. intros j' [Ej|[]] En. injection Ej as <-. exact C1.
    + destruct (tuple_ok h0 s r busy visit i n P V VIS l [] [] h ex ow [] []) as (h1 & exP & owP & E1 & S1 & P1 & B1 & C1); try assumption; try reflexivity.
      * destruct S as [[B1 B2 B3] Sl Sg Sa Sv So]. split; try assumption.
        -- split; [|exact B2|exact B3]. intros p x Lx. specialize (B1 p x Lx). unfold plus. cbn. destruct (Nat.eqb p i); lia.
        -- intros q o H. apply So. unfold plus in H. cbn in H. destruct (Nat.eqb q i); lia.
      * cbn [app] in E1, B1. rewrite E1.
        destruct (set_ok h0 s r h1 ex ow i n (Many l) exP owP P V S1) as [S2 D2].
        { rewrite (pr_busy _ _ _ _ _ P1 i (or_introl eq_refl)). exact E. }
        { exact B1. }
        destruct (SETP h1 (Many (flat_map (sub_child s) l)) (or_intror P1)) as [Q1 Q2]; [exact (V_lt _ _ _ _ _ _ _ S1 V)|exact D2|reflexivity|].
        apply NEXT; [exact S2|exact Q1|exact Q2|]. intros j Ij En l' R N Fr. apply D2. apply (C1 j Ij En l'); assumption.
Qed.

Lemma last_cons : forall (l : list id) a d, last (a :: l) d = last l a.
Proof. induction l as [|x l IH]; intros a d; [reflexivity|]. change (last (x :: l) d = last (x :: l) a). rewrite !IH. reflexivity. Qed.

Lemma last_app_cons : forall (a : list id) x b d, last (a ++ x :: b) d = last b x.
Proof. induction a as [|y a IH]; intros x b d; [apply last_cons|]. cbn [app]. rewrite last_cons. apply IH. Qed.

Lemma walk_ok : forall h0 s r, Pre h0 s r -> forall fuel busy, NoDup busy -> (forall b, In b busy -> b < List.length h0) ->
  List.length h0 < fuel + List.length busy -> VisitOK h0 s r busy (subst_from same s fuel busy).
Proof.
  intros h0 s r P. induction fuel as [|k IH]; intros busy ND LT FU h i ex ow S V OW.
  - exfalso. assert (I : incl busy (seq 0 (List.length h0))) by (intros b B; apply in_seq; specialize (LT b B); lia).
    apply (NoDup_incl_length ND) in I. rewrite seq_length in I. lia.
  - cbn [subst_from]. destruct (existsb (Nat.eqb i) busy) eqn:B.
    + exists h. split; [reflexivity|]. split; [exact S|]. split; [apply progress_refl|]. intros l _ _ F. exfalso.
      apply existsb_exists in B. destruct B as (b & Ib & Eb). apply Nat.eqb_eq in Eb. subst b. exact (F i (or_introl eq_refl) Ib).
    + assert (NB : ~ In i busy).
      { intros I. assert (X : existsb (Nat.eqb i) busy = true) by (apply existsb_exists; exists i; split; [exact I|apply Nat.eqb_refl]). congruence. }
      assert (COV : forall h', (forall m, nth_error (attrs_of h' i) m = option_map (sub_attr s) (nth_error (attrs_of h i) m)) ->
         (forall m a j, nth_error (attrs_of h i) m = Some a -> In (CNode j) (attr_children a) -> enters s j -> Covers h0 s (i :: busy) h' j) ->
         Covers h0 s busy h' i).
      { intros h' A C l R N F. destruct l as [|j l].
        - cbn [last]. unfold Done.
          assert (X : attrs_of h' i = map (sub_attr s) (attrs_of h i)).
          { generalize (attrs_of h' i) (attrs_of h i) A. intros l1 l2 Al. clear - Al. revert l2 Al. induction l1 as [|x l1 IH]; intros [|y l2] Al.
            - reflexivity.
            - specialize (Al 0). discriminate.
            - specialize (Al 0). discriminate.
            - cbn [map]. f_equal; [specialize (Al 0); cbn in Al; congruence|]. apply IH. intros m. exact (Al (Datatypes.S m)). }
          rewrite X. pose proof (st_attrs _ _ _ _ _ _ S i) as Fa. clear - Fa P. induction Fa as [|a0 a l0 l H Fa IH]; [reflexivity|]. cbn [map]. f_equal; [|exact IH].
          destruct H as [->|[_ ->]]; [reflexivity|]. apply sub_attr_twice; [exact (p_len _ _ _ P)|exact (p_direct _ _ _ P)].
        - destruct R as (K & X & NF & R). apply kid_child in K. pose proof (kept _ _ _ _ _ _ P S i _ K NF) as K'.
          apply in_flat_map in K'. destruct K' as (a & Ia & Ij). apply In_nth_error in Ia. destruct Ia as (m & Em).
          assert (E : last (j :: l) i = last l j) by apply last_cons.
          rewrite E. apply (C m a j Em Ij (conj X NF) l R).
          + inversion N; assumption.
          + intros x Ix [<-|Ib]; [inversion N; contradiction|]. apply (F x); [right; exact Ix|exact Ib]. }
      destruct (s_from s) as [|f0 from] eqn:EF.
      * exists h. split; [reflexivity|]. split; [exact S|]. split; [apply progress_refl|].
        assert (ID : forall a, sub_attr s a = a) by (intros a; apply sub_attr_id; [rewrite EF; intros c _ []|exact (p_len _ _ _ P)]).
        intros l R N F. unfold Done. pose proof (st_attrs _ _ _ _ _ _ S (last l i)) as Fa. clear - Fa ID.
        induction Fa as [|a0 a l0 l1 H Fa IH]; [reflexivity|]. cbn [map]. f_equal; [|exact IH]. rewrite ID. destruct H as [->|[_ ->]]; [reflexivity|apply ID].
      * assert (VIS : VisitOK h0 s r (i :: busy) (subst_from same s k (i :: busy))).
        { apply IH.
          - constructor; assumption.
          - intros b [<-|Ib]; [|apply LT; exact Ib]. rewrite <- (st_len _ _ _ _ _ _ S). exact (V_lt _ _ _ _ _ _ _ S V).
          - cbn [List.length]. lia. }
        destruct (attrs_ok h0 s r busy _ i P V VIS NB (List.length (attrs_of h i)) 0 h ex ow S OW eq_refl) as (h' & E1 & S1 & P1 & A1 & C1).
        exists h'. split; [exact E1|]. split; [exact S1|]. split; [exact P1|]. apply COV.
        -- intros m. rewrite A1. reflexivity.
        -- intros m a j Em Ij En. apply (C1 m a j); [lia|exact Em|exact Ij|exact En].
Qed.

(* ----- routes without repetition ----- *)


Lemma route_app : forall h0 s l1 i l2, route h0 s i (l1 ++ l2) <-> route h0 s i l1 /\ route h0 s (last l1 i) l2.
Proof.
  intros h0 s. induction l1 as [|x l1 IH]; intros i l2.
  - cbn. tauto.
  - cbn [app route]. rewrite IH, last_cons. tauto.
Qed.

Lemma route_simple : forall h0 s n i l, List.length l <= n -> route h0 s i l ->
  exists l', route h0 s i l' /\ NoDup (i :: l') /\ last l' i = last l i.
Proof.
  intros h0 s. induction n as [|n IH]; intros i l L R.
  - destruct l; [|cbn in L; lia]. exists []. split; [exact I|]. split; [constructor; [auto|constructor]|reflexivity].
  - destruct l as [|j l]; [exists []; split; [exact I|]; split; [constructor; [auto|constructor]|reflexivity]|].
    destruct (in_dec Nat.eq_dec i (j :: l)) as [In1|NIn].
    + apply in_split in In1. destruct In1 as (a & b & E). rewrite E in R, L. apply route_app in R. destruct R as [_ R].
      destruct R as (_ & _ & _ & R). destruct (IH i b) as (l' & R' & N' & E').
      * rewrite app_length in L. cbn [List.length] in L. lia.
      * exact R.
      * exists l'. split; [exact R'|]. split; [exact N'|]. rewrite E', E. rewrite last_app_cons. reflexivity.
    + destruct R as (K & X & F & R). destruct (IH j l) as (l' & R' & N' & E'); [cbn in L; lia|exact R|].
      destruct (in_dec Nat.eq_dec i l') as [I2|N2].
      * apply in_split in I2. destruct I2 as (a & b & E2). subst l'. apply route_app in R'. destruct R' as [_ (_ & _ & _ & R')].
        exists b. split; [exact R'|]. inversion N' as [|? ? Nj Nl]; subst. apply NoDup_remove in Nl. destruct Nl as [Nl Ni].
        assert (Nb : NoDup (i :: b)). { constructor; [intros Ib; apply Ni; apply in_or_app; right; exact Ib|]. clear - Nl. induction a; [exact Nl|]. inversion Nl; auto. }
        split; [exact Nb|]. rewrite last_cons, <- E', last_app_cons. reflexivity.
      * exists (j :: l'). split; [split; [exact K|split; [exact X|split; [exact F|exact R']]]|]. split.
        -- constructor; [|exact N']. intros [<-|I2]; [apply NIn; left; reflexivity|contradiction].
        -- rewrite !last_cons. exact E'.
Qed.

Lemma region_route : forall h0 s r p, region h0 s r p -> exists l, route h0 s r l /\ last l r = p.
Proof.
  intros h0 s r p H. induction H as [|p c H (l & R & E) K X F].
  - exists []. split; [exact I|reflexivity].
  - exists (l ++ [c]). split; [|apply last_last]. apply route_app. split; [exact R|]. rewrite E. split; [exact K|]. split; [exact X|]. split; [exact F|exact I].
Qed.

(* ------------------------------ substitute ------------------------------------- *)

Lemma substitute_ok : forall h0 s r, Pre h0 s r ->
  exists h', substitute same s h0 r = Ok h' /\ Inv h' none none /\ List.length h' = List.length h0 /\
    (forall p, region h0 s r p -> attrs_of h' p = map (sub_attr s) (attrs_of h0 p)) /\
    (forall p, ~ region h0 s r p -> attrs_of h' p = attrs_of h0 p) /\
    (forall p, region h0 s r p -> dead_of h' p = false) /\ (forall t, In t (tos s) -> dead_of h' t = false) /\
    (forall p, attrs_of h' p = attrs_of h0 p \/ region h0 s r p).
Proof.
  intros h0 s r P. destruct (walk_ok h0 s r P (S (List.length h0)) [] (NoDup_nil _)) with (h := h0) (j := r) (ex := none) (ow := none) as (h' & E & S1 & _ & C).
  - intros b [].
  - cbn. lia.
  - apply start. exact P.
  - left. constructor.
  - unfold none. congruence.
  - exists h'. split; [exact E|]. split; [exact (st_inv _ _ _ _ _ _ S1)|]. split; [exact (st_len _ _ _ _ _ _ S1)|]. split; [|split; [|split; [|split]]].
    + intros p Rp. destruct (region_route _ _ _ _ Rp) as (l & R & L). destruct (route_simple h0 s (List.length l) r l (le_n _) R) as (l' & R' & N' & L').
      rewrite L in L'. rewrite <- L'. apply C; [exact R'|exact N'|]. intros x _ [].
    + intros p NR. pose proof (st_attrs _ _ _ _ _ _ S1 p) as F. induction F as [|a0 a l0 l H F IH]; [reflexivity|]. f_equal; [|exact IH].
      destruct H as [->|[X _]]; [reflexivity|contradiction].
    + intros p Rp. apply (st_live _ _ _ _ _ _ S1). left. exact Rp.
    + intros t T. apply (st_live _ _ _ _ _ _ S1). right. exists t. split; [exact T|constructor].
    + intros p. pose proof (st_attrs _ _ _ _ _ _ S1 p) as F. induction F as [|a0 a l0 l H F [IH|IH]]; [left; reflexivity| |right; exact IH].
      destruct H as [->|[X _]]; [left; f_equal; exact IH|right; exact X].
Qed.
