(* Proofs about conditions on optional arguments (C66) *)
From Coq Require Import Bool Arith ZArith Lia List String.
From Verif Require Import Opt_Model Opt_Spec.
Import ListNotations.
Open Scope list_scope.

(* ------------------------------------------------------------------ induction *)

Fixpoint cond_ind' (P : cond -> Prop)
  (H1 : forall v, P (Present v)) (H2 : forall v, P (Missing v)) (H3 : forall t, P (Truth t))
  (H4 : forall v, P (Flag v)) (H5 : forall a b, P (Less a b)) (H6 : forall z b, P (Call z b))
  (H7 : forall l, Forall P l -> P (All l)) (H8 : forall l, Forall P l -> P (Any l))
  (H9 : forall c, P c -> P (Neg c)) (H10 : forall k, P (Temp k)) (c : cond) : P c :=
  let go := cond_ind' P H1 H2 H3 H4 H5 H6 H7 H8 H9 H10 in
  match c with
  | Present v => H1 v | Missing v => H2 v | Truth t => H3 t | Flag v => H4 v
  | Less a b => H5 a b | Call z b => H6 z b
  | All l => H7 l ((fix f l : Forall P l :=
      match l with [] => Forall_nil P | d :: l' => Forall_cons d (go d) (f l') end) l)
  | Any l => H8 l ((fix f l : Forall P l :=
      match l with [] => Forall_nil P | d :: l' => Forall_cons d (go d) (f l') end) l)
  | Neg d => H9 d (go d)
  | Temp k => H10 k
  end.

(* ------------------------------------------------------------------ values *)

Fixpoint val (st : state) (c : cond) : bool :=
  match c with
  | Present v => here st v
  | Missing v => negb (here st v)
  | Truth t => match value st t with Some z => truth z | None => false end
  | Flag v => match given st v with Some z => truth z | None => false end
  | Less a b =>
      match value st a, value st b with Some x, Some y => Z.ltb x y | _, _ => false end
  | Call _ b => b
  | All l => forallb (val st) l
  | Any l => existsb (val st) l
  | Neg c => negb (val st c)
  | Temp _ => false
  end.

(* No calls, divisions, flags, temporaries *)
Fixpoint fine (c : cond) : bool :=
  match c with
  | Present _ | Missing _ => true
  | Truth t => total t
  | Less a b => total a && total b
  | Flag _ | Call _ _ | Temp _ => false
  | All l | Any l => forallb fine l
  | Neg c => fine c
  end.

Fixpoint reads' (c : cond) : list string :=
  match c with
  | Truth t => opts t
  | Flag v => [v]
  | Less a b => opts a ++ opts b
  | All l | Any l => flat_map reads' l
  | Neg c => reads' c
  | _ => []
  end.

Definition direct (c : cond) : list string :=
  flat_map (fun d => match d with Present v => [v] | _ => [] end) (and_args c).

Lemma value_total : forall st t,
  total t = true -> (forall v, In v (opts t) -> given st v <> None) ->
  exists z, value st t = Some z.
Proof.
  induction t; cbn [total opts value]; intros T H; try discriminate; eauto.
  - destruct (given st v) eqn:E; eauto. exfalso. apply (H v); cbn; auto.
  - apply andb_prop in T as [T1 T2].
    destruct IHt1 as [x X]; [exact T1 | intros; apply H, in_or_app; auto |].
    destruct IHt2 as [y Y]; [exact T2 | intros; apply H, in_or_app; auto |].
    rewrite X, Y. eauto.
Qed.

Lemma test_val : forall g m st c,
  fine c = true -> (forall v, In v (reads' c) -> given st v <> None) ->
  test g m st c = Some ([], val st c).
Proof.
  intros g m st. induction c using cond_ind'; cbn [fine reads']; intros F H0;
    try discriminate; try reflexivity.
  - destruct (value_total st t F H0) as [z Z]. cbn [test val]. rewrite Z. reflexivity.
  - apply andb_prop in F as [F1 F2].
    destruct (value_total st a F1) as [x X]; [intros; apply H0, in_or_app; auto |].
    destruct (value_total st b F2) as [y Y]; [intros; apply H0, in_or_app; auto |].
    cbn [test val]. rewrite X, Y. reflexivity.
  - cbn [val]. induction H as [| d l Hd Hl IH]; [reflexivity |].
    cbn [forallb] in F. apply andb_prop in F as [F1 F2].
    cbn [test forallb]. rewrite (Hd F1); [| intros; apply H0; cbn; apply in_or_app; auto].
    assert (E : test g m st (All l) = Some ([], forallb (val st) l)).
    { apply IH; [exact F2 |]. intros; apply H0; cbn; apply in_or_app; auto. }
    cbn [test] in E. rewrite E. destruct g, (val st d); reflexivity.
  - cbn [val]. induction H as [| d l Hd Hl IH]; [reflexivity |].
    cbn [forallb] in F. apply andb_prop in F as [F1 F2].
    cbn [test existsb]. rewrite (Hd F1); [| intros; apply H0; cbn; apply in_or_app; auto].
    assert (E : test g m st (Any l) = Some ([], existsb (val st) l)).
    { apply IH; [exact F2 |]. intros; apply H0; cbn; apply in_or_app; auto. }
    cbn [test] in E. rewrite E. destruct g, (val st d); reflexivity.
  - cbn [test val]. rewrite IHc by assumption. reflexivity.
Qed.

(* ------------------------------------------------------------------ the visit *)

Lemma and_args_val : forall st c, forallb (val st) (and_args c) = val st c.
Proof. intros st []; cbn [and_args forallb]; try apply andb_true_r. reflexivity. Qed.

Lemma or_args_val : forall st c, existsb (val st) (or_args c) = val st c.
Proof. intros st []; cbn [or_args existsb]; try apply orb_false_r. reflexivity. Qed.

Lemma py_val : forall st p o b,
  simple p = true -> py st p = Some (o, b) -> o = [] /\ b = val st (visit p).
Proof.
  intros st. induction p; intros o b0 S E.
  - inversion E; auto.
  - inversion E; auto.
  - cbn [simple] in S. destruct t; cbn [py visit python_bool val forallb value] in *;
      try (inversion E; subst; auto; fail).
    + injection E as E1 E2. subst. split; [reflexivity |]. unfold here.
      destruct (given st v); [rewrite andb_true_r; reflexivity | reflexivity].
    + destruct (value st t1), (value st t2); try discriminate. inversion E; auto.
    + discriminate.
  - discriminate.
  - cbn [py visit val] in *. destruct (value st a), (value st b); try discriminate.
    inversion E; auto.
  - discriminate.
  - cbn [simple] in S. apply andb_prop in S as [S1 S2]. cbn [py visit val] in *.
    rewrite forallb_app, !and_args_val.
    destruct (py st p1) as [[o1 b1] |] eqn:E1; [| discriminate].
    destruct (IHp1 o1 b1 S1 eq_refl) as [-> ->].
    destruct (val st (visit p1)).
    + destruct (py st p2) as [[o2 b2] |] eqn:E2; [| discriminate].
      destruct (IHp2 o2 b2 S2 eq_refl) as [-> ->]. inversion E; auto.
    + inversion E; auto.
  - cbn [simple] in S. apply andb_prop in S as [S1 S2]. cbn [py visit val] in *.
    rewrite existsb_app, !or_args_val.
    destruct (py st p1) as [[o1 b1] |] eqn:E1; [| discriminate].
    destruct (IHp1 o1 b1 S1 eq_refl) as [-> ->].
    destruct (val st (visit p1)).
    + inversion E; auto.
    + destruct (py st p2) as [[o2 b2] |] eqn:E2; [| discriminate].
      destruct (IHp2 o2 b2 S2 eq_refl) as [-> ->]. inversion E; auto.
  - change (match py st p with Some (o, b) => Some (o, negb b) | None => None end =
            Some (o, b0)) in E.
    destruct (py st p) as [[o1 b1] |] eqn:E1; [| discriminate].
    assert (S' : simple p = true) by (destruct p as [| | [] | | | | | |]; try exact S; discriminate).
    destruct (IHp o1 b1 S' eq_refl) as [-> ->]. inversion E; subst. split; [reflexivity |].
    destruct p as [| | [] | | | | | |]; try reflexivity. discriminate S.
Qed.

Lemma flat_and : forall A (f : cond -> list A) c,
  (forall l, f (All l) = flat_map f l) -> flat_map f (and_args c) = f c.
Proof. intros A f [] H; cbn [and_args flat_map]; rewrite ?app_nil_r; auto. Qed.

Lemma flat_or : forall A (f : cond -> list A) c,
  (forall l, f (Any l) = flat_map f l) -> flat_map f (or_args c) = f c.
Proof. intros A f [] H; cbn [or_args flat_map]; rewrite ?app_nil_r; auto. Qed.

Lemma forall_and : forall (f : cond -> bool) c,
  (forall l, f (All l) = forallb f l) -> forallb f (and_args c) = f c.
Proof. intros f [] H; cbn [and_args forallb]; rewrite ?andb_true_r; auto. Qed.

Lemma forall_or : forall (f : cond -> bool) c,
  (forall l, f (Any l) = forallb f l) -> forallb f (or_args c) = f c.
Proof. intros f [] H; cbn [or_args forallb]; rewrite ?andb_true_r; auto. Qed.

Lemma visit_fine : forall p, simple p = true -> fine (visit p) = true.
Proof.
  induction p; cbn [simple visit fine]; intros S; try reflexivity; try discriminate.
  - destruct t; cbn in *; auto.
  - exact S.
  - apply andb_prop in S as [S1 S2].
    rewrite forallb_app, !forall_and, IHp1, IHp2 by auto. reflexivity.
  - apply andb_prop in S as [S1 S2].
    rewrite forallb_app, !forall_or, IHp1, IHp2 by auto. reflexivity.
  - destruct p as [| | [] | | | | | |]; try discriminate; cbn in *; auto.
Qed.

Lemma visit_reads : forall p, simple p = true -> reads' (visit p) = reads p.
Proof.
  induction p; cbn [simple visit reads reads']; intros S; try reflexivity; try discriminate.
  - destruct t; cbn [python_bool reads' opts flat_map app]; rewrite ?app_nil_r; reflexivity.
  - apply andb_prop in S as [S1 S2].
    rewrite flat_map_app, !flat_and, IHp1, IHp2 by auto. reflexivity.
  - apply andb_prop in S as [S1 S2].
    rewrite flat_map_app, !flat_or, IHp1, IHp2 by auto. reflexivity.
  - destruct p as [| | [] | | | | | |]; try discriminate; cbn [reads'] in *; auto.
Qed.

Lemma visit_mentions : forall p, simple p = true -> mentions (visit p) = names p.
Proof.
  induction p; cbn [simple visit names mentions]; intros S; try reflexivity; try discriminate.
  - destruct t; cbn [python_bool mentions opts flat_map app]; rewrite ?app_nil_r; reflexivity.
  - apply andb_prop in S as [S1 S2].
    rewrite flat_map_app, !flat_and, IHp1, IHp2 by auto. reflexivity.
  - apply andb_prop in S as [S1 S2].
    rewrite flat_map_app, !flat_or, IHp1, IHp2 by auto. reflexivity.
  - destruct p as [| | [] | | | | | |]; try discriminate; cbn [mentions] in *; auto.
Qed.

Lemma visit_checked : forall p, simple p = true -> direct (visit p) = checked p.
Proof.
  unfold direct. induction p; cbn [simple visit checked]; intros S; try reflexivity;
    try discriminate.
  - destruct t; reflexivity.
  - apply andb_prop in S as [S1 S2]. cbn [and_args].
    rewrite flat_map_app, IHp1, IHp2 by auto. reflexivity.
  - destruct p as [| | [] | | | | | |]; reflexivity.
Qed.

(* no `and` directly in an `and` *)
Definition flat (c : cond) : bool :=
  forallb (fun d => match d with All _ => false | _ => true end) (and_args c).

Lemma visit_flat : forall p, simple p = true ->
  forallb (fun d => match d with All _ => false | _ => true end) (and_args (visit p)) = true.
Proof.
  induction p; cbn [simple visit]; intros S; try reflexivity; try discriminate.
  - destruct t; reflexivity.
  - apply andb_prop in S as [S1 S2]. cbn [and_args].
    rewrite forallb_app, IHp1, IHp2 by auto. reflexivity.
  - destruct p as [| | [] | | | | | |]; reflexivity.
Qed.

(* ------------------------------------------------------------------ treat_condition *)

Definition count (l : list string) (v : string) : nat := count_occ string_dec l v.

Definition tested (d : cond) : list string := match d with Present v => [v] | _ => [] end.

Lemma direct_eq : forall c, direct c = flat_map tested (and_args c).
Proof. reflexivity. Qed.

Lemma count_in : forall l v, In v l -> 1 <= count l v.
Proof. intros l v H. apply (count_occ_In string_dec) in H. unfold count. lia. Qed.

Lemma reads_count : forall v c, count (reads' c) v <= count (mentions c) v.
Proof.
  intros v.
  assert (L : forall l, Forall (fun c => count (reads' c) v <= count (mentions c) v) l ->
              count (flat_map reads' l) v <= count (flat_map mentions l) v).
  { intros l H. induction H as [| d l Hd Hl IH]; [apply Nat.le_refl |].
    cbn [flat_map]. unfold count in *. rewrite !count_occ_app. lia. }
  induction c using cond_ind'; cbn [reads' mentions]; try apply Nat.le_refl;
    try (apply Nat.le_0_l); auto.
Qed.

Lemma list_count : forall v l,
  count (flat_map tested l) v + count (flat_map reads' l) v <= count (flat_map mentions l) v.
Proof.
  intros v. induction l as [| d l IH]; [apply Nat.le_refl |].
  cbn [flat_map]. unfold count in *. rewrite !count_occ_app.
  assert (count_occ string_dec (tested d) v + count_occ string_dec (reads' d) v <=
          count_occ string_dec (mentions d) v).
  { destruct d as [w | | | | | | | | |]; cbn [tested];
      try (apply (reads_count v); fail). cbn [reads' mentions]. rewrite (count_occ_nil string_dec v). lia. }
  lia.
Qed.

Lemma fine_below : forall l, forallb fine l = true -> flat_map below l = flat_map mentions l.
Proof.
  induction l as [| d l IH]; [reflexivity |]. cbn [forallb flat_map]. intros F.
  apply andb_prop in F as [F1 F2]. rewrite IH by assumption.
  destruct d; try reflexivity. discriminate.
Qed.

Lemma twice_all : forall l v, forallb fine l = true ->
  twice (All l) v = true <-> 2 <= count (flat_map mentions l) v.
Proof.
  intros l v F. unfold twice, uses. cbn [children]. rewrite (fine_below l F).
  unfold count. apply Nat.ltb_lt.
Qed.

Lemma search_direct : forall c l front v rest,
  search c front l = Direct v rest ->
  exists l1 l2, rev front ++ l = l1 ++ Present v :: l2 /\ rest = l1 ++ l2 /\ twice c v = true.
Proof.
  intros c. induction l as [| d l IH]; intros front v rest E; [discriminate |].
  assert (G : search c (d :: front) l = Direct v rest ->
     exists l1 l2, rev front ++ d :: l = l1 ++ Present v :: l2 /\ rest = l1 ++ l2 /\
       twice c v = true).
  { intros E'. apply IH in E' as (l1 & l2 & E1 & E2 & E3). exists l1, l2. split; [| auto].
    rewrite <- E1. cbn [rev]. rewrite <- app_assoc. reflexivity. }
  destruct d; cbn [search] in E;
    try (destruct (existsb (twice c) _) in E; [discriminate | exact (G E)]).
  destruct (twice c v0) eqn:T; [| exact (G E)].
  injection E as <- <-. exists (rev front), l. auto.
Qed.

Lemma search_free : forall c l front, search c front l = Free ->
  forall v, In (Present v) l -> twice c v = false.
Proof.
  intros c. induction l as [| d l IH]; intros front E v H; [destruct H |].
  destruct H as [-> | H].
  - cbn [search] in E. destruct (twice c v); [discriminate | reflexivity].
  - destruct d; cbn [search] in E;
      try (destruct (existsb (twice c) _) in E; [discriminate | eauto]).
    destruct (twice c v0); [discriminate | eauto].
Qed.

Lemma in_tested : forall v l, In v (flat_map tested l) <-> In (Present v) l.
Proof.
  intros v l. rewrite in_flat_map. split.
  - intros ([] & H1 & H2); cbn [tested] in H2; try (destruct H2; fail).
    destruct H2 as [-> | []]. exact H1.
  - intros H. exists (Present v). cbn. auto.
Qed.

Definition no_all (d : cond) : bool := match d with All _ => false | _ => true end.

Lemma join_args : forall l, forallb no_all l = true -> and_args (join l) = l.
Proof.
  intros [| d []] H; try reflexivity. cbn in *. destruct d; try reflexivity. discriminate.
Qed.

Lemma join_fine : forall l, fine (join l) = forallb fine l.
Proof. intros [| d []]; try reflexivity. cbn. rewrite andb_true_r. reflexivity. Qed.

Lemma join_val : forall st l, val st (join l) = forallb (val st) l.
Proof. intros st [| d []]; try reflexivity. cbn. rewrite andb_true_r. reflexivity. Qed.

Lemma join_reads : forall l, reads' (join l) = flat_map reads' l.
Proof. intros [| d []]; try reflexivity. cbn. rewrite app_nil_r. reflexivity. Qed.

Lemma join_mentions : forall l, mentions (join l) = flat_map mentions l.
Proof. intros [| d []]; try reflexivity. cbn. rewrite app_nil_r. reflexivity. Qed.

(* What is known of the conditions *)
Definition known (c : cond) : Prop := fine c = true /\ forallb no_all (and_args c) = true.

Definition safe (st : state) (c : cond) : Prop :=
  forall v, In v (reads' c) -> given st v <> None \/ In v (direct c).

Definition single (c : cond) : Prop :=
  forall v w, In v (direct c) -> In w (direct c) ->
    2 <= count (mentions c) v -> 2 <= count (mentions c) w -> v = w.

Lemma known_rest : forall l1 v l2,
  known (All (l1 ++ Present v :: l2)) -> known (join (l1 ++ l2)).
Proof.
  intros l1 v l2 [F N]. cbn [fine and_args] in *. rewrite forallb_app in F, N.
  cbn [forallb fine no_all andb] in F, N. split.
  - rewrite join_fine, forallb_app. exact F.
  - rewrite join_args; rewrite forallb_app; exact N.
Qed.

Lemma rest_no_all : forall l1 v l2,
  known (All (l1 ++ Present v :: l2)) -> forallb no_all (l1 ++ l2) = true.
Proof.
  intros l1 v l2 [_ N]. cbn [and_args] in N. rewrite forallb_app in *. exact N.
Qed.

Lemma rest_direct : forall l1 v l2 w,
  known (All (l1 ++ Present v :: l2)) ->
  In w (direct (All (l1 ++ Present v :: l2))) <-> w = v \/ In w (direct (join (l1 ++ l2))).
Proof.
  intros l1 v l2 w K. rewrite !direct_eq, (join_args _ (rest_no_all _ _ _ K)).
  cbn [and_args]. rewrite !in_tested, !in_app_iff. cbn [In]. split.
  - intros [H | [H | H]]; auto. injection H as ->. auto.
  - intros [-> | [H | H]]; auto.
Qed.

Lemma rest_reads : forall l1 v l2,
  reads' (All (l1 ++ Present v :: l2)) = reads' (join (l1 ++ l2)).
Proof. intros. rewrite join_reads. cbn [reads']. rewrite !flat_map_app. reflexivity. Qed.

Lemma rest_val : forall st l1 v l2,
  val st (All (l1 ++ Present v :: l2)) = here st v && val st (join (l1 ++ l2)).
Proof.
  intros. rewrite join_val. cbn [val]. rewrite !forallb_app. cbn [forallb val].
  destruct (forallb (val st) l1), (here st v); reflexivity.
Qed.

Lemma rest_count : forall l1 v l2 w,
  count (mentions (join (l1 ++ l2))) w <= count (mentions (All (l1 ++ Present v :: l2))) w.
Proof.
  intros. rewrite join_mentions. cbn [mentions]. rewrite !flat_map_app. cbn [flat_map mentions].
  unfold count. rewrite !count_occ_app. lia.
Qed.

Lemma rest_single : forall l1 v l2,
  known (All (l1 ++ Present v :: l2)) -> single (All (l1 ++ Present v :: l2)) ->
  single (join (l1 ++ l2)).
Proof.
  intros l1 v l2 K S u w U W Cu Cw.
  pose proof (rest_count l1 v l2 u). pose proof (rest_count l1 v l2 w).
  apply S; try lia; apply rest_direct; auto.
Qed.

(* A condition that is not split reads nothing that is not there *)
Lemma free_reads : forall st c, known c -> safe st c ->
  (forall v, In v (direct c) -> twice c v = false) ->
  forall v, In v (reads' c) -> given st v <> None.
Proof.
  intros st c [F _] S T v H. destruct (S v H) as [G | G]; [exact G |]. exfalso.
  specialize (T v G).
  assert (D : forall l, c = All l -> False).
  { intros l ->. cbn [fine] in F.
    assert (X : twice (All l) v = true).
    { apply twice_all; [exact F |]. pose proof (list_count v l).
      rewrite direct_eq in G. cbn [and_args reads'] in G, H.
      pose proof (count_in _ _ G). pose proof (count_in _ _ H). lia. }
    rewrite X in T. discriminate. }
  destruct c; try (exact (D _ eq_refl)); unfold direct in G; cbn in G; try (destruct G; fail);
    destruct H.
Qed.

Lemma not_split : forall fuel last c b k h c' b' k',
  treat fuel last c b k = Some (h, c', b', k') ->
  (forall v, In v (direct c) -> twice c v = false) ->
  h = [] /\ c' = c /\ b' = b /\ k' = k.
Proof.
  intros [| f] last c b k h c' b' k' E T; [discriminate |]. cbn [treat] in E.
  destruct c; try (destruct (existsb _ _) in E; [discriminate | inversion E; auto]).
  destruct (search (All l) [] l) eqn:Q; try discriminate.
  - inversion E; auto.
  - apply search_direct in Q as (l1 & l2 & E1 & _ & E3). cbn [rev app] in E1.
    rewrite T in E3; [discriminate |]. rewrite direct_eq. cbn [and_args]. apply in_tested.
    rewrite E1. apply in_elt.
Qed.

(* The three ways of treat *)
Lemma treat_cases : forall f last c b k h c' b' k',
  treat (S f) last c b k = Some (h, c', b', k') ->
  (h = [] /\ c' = c /\ b' = b /\ k' = k /\
   forall v, In v (direct c) -> twice c v = false \/ c = Present v) \/
  exists l1 v l2 h1 c1 b1, c = All (l1 ++ Present v :: l2) /\ twice c v = true /\
    treat f last (join (l1 ++ l2)) b (S k) = Some (h1, c1, b1, k') /\
    ((last = true /\ h = h1 /\ c' = Present v /\ b' = Inner c1 b1) \/
     (last = false /\ h = h1 ++ [(v, k, c1)] /\ c' = Temp k /\ b' = b1)).
Proof.
  intros f last c b k h c' b' k' E. cbn [treat] in E.
  destruct c;
    try (left; destruct (existsb _ _) in E; [discriminate |]; injection E as <- <- <- <-;
         repeat (split; [reflexivity |]); intros w W; unfold direct in W; cbn in W;
         destruct W as [W | W]; [subst; auto | destruct W]; fail);
    try (left; destruct (existsb _ _) in E; [discriminate |]; injection E as <- <- <- <-;
         repeat (split; [reflexivity |]); intros w W; destruct W; fail).
  destruct (search (All l) [] l) eqn:Q; try discriminate.
  - left. injection E as <- <- <- <-. repeat (split; [reflexivity |]). intros v V. left.
    apply (search_free _ _ _ Q). apply in_tested. exact V.
  - right. apply search_direct in Q as (l1 & l2 & E1 & E2 & E3). cbn [rev app] in E1. subst.
    destruct (treat f last (join (l1 ++ l2)) b (S k)) as [[[[h1 c1] b1] k1] |] eqn:R;
      [| discriminate].
    destruct last; injection E as <- <- <- <-;
      exists l1, v, l2, h1, c1, b1; repeat (split; [auto |]); auto.
Qed.

Lemma present_twice : forall v, twice (Present v) v = false.
Proof. reflexivity. Qed.

(* ------------------------------------------------------------------ the last section *)

Lemma treat_last : forall fuel st c b k h c' b' k',
  known c -> safe st c ->
  treat fuel true c b k = Some (h, c', b', k') ->
  h = [] /\ k <= k' /\
  forall g m o r, run_body g m st b = Some (o, r) ->
    run_body g m st (Inner c' b') = if val st c then Some (o, r) else Some ([], None).
Proof.
  induction fuel as [| f IH]; intros st c b k h c' b' k' K Sf E; [discriminate |].
  apply treat_cases in E as
    [(-> & -> & -> & -> & T) |
     (l1 & v & l2 & h1 & c1 & b1 & -> & T & R & [(_ & -> & -> & ->) | (D & _)])];
    [| | discriminate].
  - split; [reflexivity |]. split; [lia |]. intros g m o r B. cbn [run_body].
    rewrite test_val; [| apply K |].
    + destruct (val st c); [rewrite B |]; reflexivity.
    + apply (free_reads st c K Sf). intros v V. destruct (T v V) as [X | ->]; auto.
  - assert (G : given st v <> None -> h1 = [] /\ S k <= k' /\
      forall g m o r, run_body g m st b = Some (o, r) ->
        run_body g m st (Inner c1 b1) =
        if val st (join (l1 ++ l2)) then Some (o, r) else Some ([], None)).
    { intros V. apply (IH st (join (l1 ++ l2)) b (S k) h1 c1 b1 k');
        [eapply known_rest; eauto | | exact R].
      intros w W. rewrite <- (rest_reads l1 v l2) in W.
      destruct (Sf w W) as [X | X]; [auto |]. apply rest_direct in X as [-> | X]; auto. }
    (* what does not depend on the state holds in a state with all arguments *)
    assert (G' : h1 = [] /\ S k <= k').
    { destruct (IH (mk (local st) (fun _ => Some 0%Z)) (join (l1 ++ l2)) b (S k)
                   h1 c1 b1 k') as (A & B & _);
        [eapply known_rest; eauto | | exact R | auto].
      intros w W. left. discriminate. }
    destruct G' as [-> G']. split; [reflexivity |]. split; [lia |].
    intros g m o r B. rewrite rest_val.
    cbn [run_body test]. unfold here in *. destruct (given st v) eqn:V; [| reflexivity].
    destruct G as (_ & _ & G); [discriminate |]. specialize (G g m o r B).
    cbn [run_body andb] in *. rewrite G. destruct (val st (join (l1 ++ l2))); reflexivity.
Qed.

(* ------------------------------------------------------------------ the other sections *)

Lemma run_before_app : forall g st l1 l2 m,
  run_before g st (l1 ++ l2) m =
  match run_before g st l1 m with
  | None => None
  | Some (o, m1) =>
      match run_before g st l2 m1 with
      | Some (o', m') => Some (o ++ o', m')
      | None => None
      end
  end.
Proof.
  intros g st. induction l1 as [| [[v k] c] l1 IH]; intros l2 m.
  - cbn [app run_before]. destruct (run_before g st l2 m) as [[] |]; reflexivity.
  - cbn [app run_before].
    destruct (if here st v then test g m st c else Some ([], false)) as [[o b] |];
      [| reflexivity].
    rewrite IH. destruct (run_before g st l1 (set m k b)) as [[o1 m1] |]; [| reflexivity].
    destruct (run_before g st l2 m1) as [[o2 m2] |]; [| reflexivity].
    rewrite app_assoc. reflexivity.
Qed.

Lemma treat_early : forall fuel st c b k h c' b' k',
  known c -> safe st c -> single c ->
  treat fuel false c b k = Some (h, c', b', k') ->
  b' = b /\ k <= k' /\
  forall g m, exists m1, run_before g st h m = Some ([], m1) /\
    (forall j, j < k \/ k' <= j -> m1 j = m j) /\
    (forall m2, (forall j, k <= j < k' -> m2 j = m1 j) ->
       test g m2 st c' = Some ([], val st c)).
Proof.
  induction fuel as [| f IH]; intros st c b k h c' b' k' K Sf Si E; [discriminate |].
  apply treat_cases in E as
    [(-> & -> & -> & -> & T) |
     (l1 & v & l2 & h1 & c1 & b1 & -> & T & R & [(D & _) | (_ & -> & -> & ->)])];
    [| discriminate |].
  - split; [reflexivity |]. split; [lia |]. intros g m. exists m. split; [reflexivity |].
    split; [auto |]. intros m2 _. apply test_val; [apply K |].
    apply (free_reads st c K Sf). intros v V. destruct (T v V) as [X | ->]; auto.
  - assert (K1 := known_rest _ _ _ K). assert (Si1 := rest_single _ _ _ K Si).
    assert (Fl : forallb fine (l1 ++ Present v :: l2) = true) by apply K.
    destruct (in_dec string_dec v (direct (join (l1 ++ l2)))) as [I | I];
      [| destruct (given st v) eqn:V].
    1, 2: assert (Sf1 : safe st (join (l1 ++ l2)));
      [intros w W; rewrite <- (rest_reads l1 v l2) in W; destruct (Sf w W) as [X | X];
       [auto |]; apply rest_direct in X as [-> | X]; auto; rewrite V; left; discriminate |].
    1, 2: destruct (IH st _ b (S k) h1 c1 b1 k' K1 Sf1 Si1 R) as (-> & Le & G);
      split; [reflexivity |]; split; [lia |]; intros g m;
      destruct (G g m) as (m1 & R1 & A1 & T1);
      exists (set m1 k (val st (All (l1 ++ Present v :: l2)))); split;
      [ rewrite run_before_app, R1; cbn [run_before]; rewrite (T1 m1) by auto;
        rewrite rest_val; destruct (here st v); reflexivity
      | split;
        [ intros j J; unfold set; destruct (Nat.eqb_spec j k); [lia |]; apply A1; lia
        | intros m2 M; cbn [test]; rewrite M by lia; unfold set;
          rewrite Nat.eqb_refl; reflexivity ] ].
    assert (N : forall u, In u (direct (join (l1 ++ l2))) -> twice (join (l1 ++ l2)) u = false).
    { intros u U. destruct (twice (join (l1 ++ l2)) u) eqn:W; [| reflexivity]. exfalso.
      apply I. replace v with u; [exact U |].
      apply Si.
      - apply rest_direct; auto.
      - apply rest_direct; auto.
      - pose proof (rest_count l1 v l2 u).
        assert (2 <= count (mentions (join (l1 ++ l2))) u); [| lia].
        unfold twice in W. apply Nat.ltb_lt in W.
        assert (Y : uses u (join (l1 ++ l2)) <= count (mentions (join (l1 ++ l2))) u); [| lia].
        destruct K1 as [F1 _]. unfold uses, count.
        destruct (join (l1 ++ l2)) as [| | | | | | l | l | d |];
          cbn [children flat_map mentions]; try apply Nat.le_0_l.
        + rewrite fine_below by exact F1. apply Nat.le_refl.
        + rewrite fine_below by exact F1. apply Nat.le_refl.
        + rewrite app_nil_r. destruct d; try apply Nat.le_refl. discriminate F1.
      - apply twice_all; [exact Fl | exact T]. }
    destruct (not_split _ _ _ _ _ _ _ _ _ R N) as (-> & -> & -> & ->).
    split; [reflexivity |]. split; [lia |]. intros g m. exists (set m k false).
    split; [cbn [app run_before]; unfold here; rewrite V; reflexivity |]. split.
    + intros j J. unfold set. destruct (Nat.eqb_spec j k); [lia | reflexivity].
    + intros m2 M. cbn [test]. rewrite M by lia. unfold set. rewrite Nat.eqb_refl, rest_val.
      unfold here. rewrite V. reflexivity.
Qed.

(* ------------------------------------------------------------------ the whole if *)

Fixpoint pick (st : state) (l : list (pcond * nat)) (o : option nat) : option nat :=
  match l with
  | [] => o
  | (p, n) :: l' => if val st (visit p) then Some n else pick st l' o
  end.

Lemma py_pick : forall st l o t x,
  Forall (fun b => simple (fst b) = true) l ->
  py_branches st l o = Some (t, x) -> t = [] /\ x = pick st l o.
Proof.
  intros st. induction l as [| [p n] l IH]; intros o t x F E; cbn [py_branches pick] in *.
  - injection E as <- <-. auto.
  - inversion F as [| ? ? F1 F2]; subst. cbn [fst] in F1.
    destruct (py st p) as [[t1 b] |] eqn:P; [| discriminate].
    destruct (py_val st p t1 b F1 P) as [-> ->].
    destruct (val st (visit p)).
    + injection E as <- <-. auto.
    + destruct (py_branches st l o) as [[t2 r] |] eqn:Q; [| discriminate].
      injection E as <- <-. apply IH; auto.
Qed.

Lemma visit_known : forall p, simple p = true -> known (visit p).
Proof. intros p S. split; [apply visit_fine | apply visit_flat]; exact S. Qed.

Lemma visit_safe : forall st p, simple p = true -> guarded st p -> safe st (visit p).
Proof.
  intros st p S G v V. rewrite visit_checked by exact S. rewrite visit_reads in V by exact S.
  apply G. exact V.
Qed.

Lemma visit_single : forall p, simple p = true -> one p -> single (visit p).
Proof.
  intros p S O v w. rewrite visit_checked, visit_mentions by exact S. apply O.
Qed.

Definition early' (l : list (pcond * nat)) (o : option nat) : list (pcond * nat) :=
  match o with Some _ => l | None => removelast l end.

Lemma treat_all_right : forall st l o k h r,
  Forall (fun b => simple (fst b) = true) l ->
  Forall (fun b => guarded st (fst b)) l ->
  Forall (fun b => one (fst b)) (early' l o) ->
  treat_all l o k = Some (h, r) ->
  forall g m, exists m1, run_before g st h m = Some ([], m1) /\
    (forall j, j < k -> m1 j = m j) /\
    (forall m2, (forall j, k <= j -> m2 j = m1 j) ->
       run_sections g m2 st r o = Some ([], pick st l o)).
Proof.
  intros st. induction l as [| [p n] l IH]; intros o k h r S G O E g m.
  - cbn [treat_all] in E. injection E as <- <-. exists m. auto.
  - inversion S as [| ? ? S1 S2]; inversion G as [| ? ? G1 G2]; subst. cbn [fst] in S1, G1.
    cbn [treat_all] in E.
    assert (Cases : (l = [] /\ o = None) \/
      (match l, o with [], None => true | _, _ => false end = false /\ one p /\
       Forall (fun b => one (fst b)) (early' l o))).
    { destruct l as [| q l]; [destruct o |].
      - right. split; [reflexivity |]. inversion O; subst. auto.
      - auto.
      - right. split; [reflexivity |]. destruct o; inversion O; subst; auto. }
    destruct Cases as [[-> ->] | (L & O1 & O2)]; [| cbv zeta in E; rewrite L in E].
    + destruct (treat _ true (visit p) (Body n) k) as [[[[h1 c1] b1] k1] |] eqn:T;
        [| discriminate].
      cbn [treat_all] in E. injection E as <- <-.
      destruct (treat_last _ st _ _ _ _ _ _ _ (visit_known p S1) (visit_safe st p S1 G1) T)
        as (-> & _ & R).
      exists m. split; [reflexivity |]. split; [auto |]. intros m2 _.
      specialize (R g m2 [] (Some n) eq_refl). cbn [run_sections pick run_body] in *.
      destruct (test g m2 st c1) as [[o1 [|]] |].
      * destruct (run_body g m2 st b1) as [[o2 r2] |].
        -- rewrite R. destruct (val st (visit p)); reflexivity.
        -- destruct (val st (visit p)); discriminate.
      * destruct (val st (visit p)); [discriminate |]. injection R as ->. reflexivity.
      * destruct (val st (visit p)); discriminate.
    + destruct (treat _ false (visit p) (Body n) k) as [[[[h1 c1] b1] k1] |] eqn:T;
        [| discriminate].
      destruct (treat_all l o k1) as [[h2 r2] |] eqn:R2; [| discriminate].
      injection E as <- <-.
      destruct (treat_early _ st _ _ _ _ _ _ _ (visit_known p S1) (visit_safe st p S1 G1)
                  (visit_single p S1 O1) T) as (-> & Le & R).
      destruct (R g m) as (m1 & Q1 & A1 & T1).
      destruct (IH o k1 h2 r2 S2 G2 O2 R2 g m1) as (m' & Q2 & A2 & T2).
      exists m'. split; [rewrite run_before_app, Q1, Q2; reflexivity |].
      split; [intros j J; rewrite A2 by lia; apply A1; lia |].
      intros m2 M. cbn [run_sections pick].
      rewrite (T1 m2); [| intros j J; rewrite M by lia; apply A2; lia].
      destruct (val st (visit p)); [reflexivity |].
      rewrite (T2 m2); [reflexivity |]. intros j J. apply M. lia.
Qed.

Lemma translate_right : forall g st s x t r,
  translate s = Some x ->
  Forall (fun b => simple (fst b) = true) (branches s) ->
  Forall (fun b => guarded st (fst b)) (branches s) ->
  Forall (fun b => one (fst b)) (early s) ->
  py_if st s = Some (t, r) -> run g st x = Some (t, r).
Proof.
  intros g st s x t r E S G O P. unfold translate in E.
  destruct (treat_all (branches s) (otherwise s) 0) as [[h l] |] eqn:T; [| discriminate].
  injection E as <-. destruct (py_pick st _ _ _ _ S P) as [-> ->].
  destruct (treat_all_right st _ _ _ _ _ S G O T g (fun _ => None)) as (m & R & _ & Q).
  unfold run. cbn [before sections final]. rewrite R, (Q m) by auto. reflexivity.
Qed.

(* ------------------------------------------------------------------ no error *)

Definition innocent (d : cond) : Prop :=
  match d with Present _ => True | _ => tests d = [] end.

Lemma untested_tests : forall p, untested p = true -> tests (visit p) = [].
Proof.
  assert (A : forall c, flat_map tests (and_args c) = tests c)
    by (intros; apply flat_and; reflexivity).
  assert (O : forall c, flat_map tests (or_args c) = tests c)
    by (intros; apply flat_or; reflexivity).
  induction p; cbn [untested visit tests]; intros U; try reflexivity; try discriminate.
  - destruct t; try reflexivity. discriminate.
  - apply andb_prop in U as [U1 U2]. rewrite flat_map_app, !A, IHp1, IHp2 by auto. reflexivity.
  - apply andb_prop in U as [U1 U2]. rewrite flat_map_app, !O, IHp1, IHp2 by auto. reflexivity.
  - destruct p; try (exact (IHp U)). reflexivity.
Qed.

Lemma tests_args : forall c, tests c = [] -> Forall innocent (and_args c).
Proof.
  intros c H. destruct c; cbn [and_args]; try (constructor; [exact H | constructor]);
    [constructor; [exact Logic.I | constructor] |].
  cbn [tests] in H. induction l as [| d l IH]; [constructor |]. cbn [flat_map] in H.
  apply app_eq_nil in H as [H1 H2]. constructor; [| auto].
  destruct d; try exact H1. exact Logic.I.
Qed.

Lemma clean_innocent : forall p, clean p = true -> Forall innocent (and_args (visit p)).
Proof.
  induction p; cbn [clean]; intros H;
    try (apply tests_args, untested_tests; exact H).
  - repeat constructor.
  - destruct t; cbn [visit python_bool and_args]; repeat constructor.
  - apply andb_prop in H as [H1 H2]. cbn [visit and_args]. apply Forall_app. auto.
Qed.

Lemma search_innocent : forall c l front, Forall innocent l -> search c front l <> Inside.
Proof.
  intros c. induction l as [| d l IH]; intros front H; [discriminate |].
  inversion H as [| ? ? H1 H2]; subst.
  destruct d; cbn [search]; try (rewrite H1; cbn [existsb]; apply IH; exact H2).
  destruct (twice c v); [discriminate | apply IH; exact H2].
Qed.

Definition width (c : cond) : nat := match c with All l => List.length l | _ => 0 end.

Lemma treat_some : forall fuel last c b k,
  width c < fuel -> forallb no_all (and_args c) = true ->
  Forall innocent (and_args c) -> treat fuel last c b k <> None.
Proof.
  induction fuel as [| f IH]; intros last c b k W N H; [lia |].
  cbn [treat].
  destruct c; try (inversion H as [| ? ? H1 _]; subst;
    cbn [children flat_map innocent tests] in *;
    rewrite ?app_nil_r, ?H1; cbn [existsb]; discriminate).
  cbn [and_args] in H, N. destruct (search (All l) [] l) eqn:Q; [discriminate | |].
  - apply search_direct in Q as (l1 & l2 & E1 & -> & _). cbn [rev app] in E1. subst.
    assert (T : treat f last (join (l1 ++ l2)) b (S k) <> None).
    { apply Forall_app in H as [H1 H2]. inversion H2 as [| ? ? _ H3]; subst.
      rewrite forallb_app in N. cbn [forallb no_all andb] in N. rewrite <- forallb_app in N.
      cbn [width] in W. rewrite app_length in W. cbn [List.length] in W.
      assert (HF : Forall innocent (l1 ++ l2)) by (apply Forall_app; auto).
      apply IH; rewrite ?join_args by exact N; auto.
      assert (L : List.length (l1 ++ l2) < f) by (rewrite app_length; lia).
      destruct (l1 ++ l2) as [| d []]; cbn [join width List.length] in *; try lia.
      destruct d; cbn in *; try lia. }
    destruct (treat f last (join (l1 ++ l2)) b (S k)) as [[[[]]] |]; [| congruence].
    destruct last; discriminate.
  - exfalso. exact (search_innocent _ _ _ H Q).
Qed.

Lemma and_flat : forall p, forallb no_all (and_args (visit p)) = true.
Proof.
  induction p; try reflexivity.
  - destruct t; reflexivity.
  - cbn [visit and_args]. rewrite forallb_app, IHp1, IHp2. reflexivity.
  - destruct p; reflexivity.
Qed.

Lemma translate_some : forall s,
  Forall (fun b => clean (fst b) = true) (branches s) -> translate s <> None.
Proof.
  intros [l o]. unfold translate. cbn [branches otherwise]. intros H.
  assert (G : forall k, treat_all l o k <> None).
  { induction H as [| [p n] l H1 H2 IH]; [discriminate |]. intros k. cbn [treat_all fst] in *.
    cbv zeta.
    match goal with |- context [treat ?f ?b ?c ?d ?k] =>
      assert (T : treat f b c d k <> None);
      [ apply treat_some; [| apply and_flat | apply clean_innocent; exact H1] |] end.
    { destruct (visit p); cbn [width children]; lia. }
    destruct (treat _ _ _ _ _) as [[[[]]] |]; [| congruence].
    specialize (IH n0). destruct (treat_all l o n0) as [[] |]; [discriminate | congruence]. }
  specialize (G 0). destruct (treat_all l o 0) as [[] |]; [discriminate | congruence].
Qed.
