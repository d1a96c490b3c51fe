(** Proofs about [isinstance] and [in]. *)

From Coq Require Import List Bool Arith ZArith Lia Wf_nat.
From Verif Require Import Isin_Model Isin_Spec.
Import ListNotations.

Lemma npk_eqb_eq : forall a b, npk_eqb a b = true <-> a = b.
Proof. intros [] []; cbn; split; intro H; try reflexivity; discriminate. Qed.

Lemma ty_eqb_plain : forall t u, plain t = true -> (ty_eqb t u = true <-> t = u).
Proof.
  intros t u P. destruct t; try discriminate P; destruct u; cbn [ty_eqb];
    split; intro H; try reflexivity; try discriminate.
  - apply npk_eqb_eq in H. congruence.
  - apply npk_eqb_eq. congruence.
  - apply Nat.eqb_eq in H. congruence.
  - apply Nat.eqb_eq. congruence.
Qed.

(** * The loop *)

Inductive reach (sups : nat -> list nat) : base -> ty -> Prop :=
  | reach_own : forall b t, class_type b = Some t -> reach sups b t
  | reach_super : forall b s t, In s (superclasses sups b) -> reach sups s t ->
      reach sups b t.

Lemma possible_reach : forall sups fuel stack acc l,
  possible fuel sups stack acc = Some l ->
  forall t, In t l <-> In t acc \/ exists b, In b stack /\ reach sups b t.
Proof.
  intros sups fuel. induction fuel as [|fuel IH]; intros stack acc l H t;
    destruct stack as [|b rest]; cbn [possible] in H; try discriminate;
    try (injection H as <-; split; [intro K; left; exact K|
           intros [K|[b [[] _]]]; exact K]).
  specialize (IH _ _ _ H t). rewrite IH. clear IH H.
  split.
  - intros [H|[s [H K]]].
    + destruct (class_type b) as [u|] eqn:E.
      * destruct H as [->|H]; [|left; exact H].
        right. exists b. split; [left; reflexivity|]. apply reach_own. exact E.
      * left. exact H.
    + apply in_app_or in H. destruct H as [H|H].
      * apply in_rev in H. right. exists b. split; [left; reflexivity|].
        apply (reach_super sups b s); assumption.
      * right. exists s. split; [right; exact H|exact K].
  - intros [H|[s [[<-|H] K]]].
    + left. destruct (class_type b); [right|]; exact H.
    + inversion K as [b' t' E|b' s t' Hs Hr]; subst.
      * left. rewrite E. left. reflexivity.
      * right. exists s. split; [|exact Hr]. apply in_or_app. left.
        apply -> in_rev. exact Hs.
    + right. exists s. split; [|exact K]. apply in_or_app. right. exact H.
Qed.

Definition ends (sups : nat -> list nat) (b : base) : Prop :=
  exists n, forall rest acc, exists acc', forall fuel,
    possible (n + fuel) sups (b :: rest) acc = possible fuel sups rest acc'.

Lemma ends_list : forall sups l,
  (forall b, In b l -> ends sups b) ->
  exists n, forall rest acc, exists acc', forall fuel,
    possible (n + fuel) sups (l ++ rest) acc = possible fuel sups rest acc'.
Proof.
  intros sups l. induction l as [|b l IH]; intro H.
  - exists 0. intros rest acc. exists acc. intro fuel. reflexivity.
  - destruct (H b (or_introl eq_refl)) as [n Hn].
    destruct IH as [m Hm]; [intros c Hc; apply H; right; exact Hc|].
    exists (n + m). intros rest acc.
    destruct (Hn (l ++ rest) acc) as [acc1 H1].
    destruct (Hm rest acc1) as [acc2 H2]. exists acc2. intro fuel.
    cbn [app]. rewrite <- Nat.add_assoc, H1, H2. reflexivity.
Qed.

Lemma ends_step : forall sups b,
  (forall s, In s (superclasses sups b) -> ends sups s) -> ends sups b.
Proof.
  intros sups b H.
  destruct (ends_list sups (rev (superclasses sups b))) as [n Hn].
  { intros s Hs. apply H. apply in_rev. exact Hs. }
  exists (S n). intros rest acc.
  destruct (Hn rest (match class_type b with Some t => t :: acc | None => acc end))
    as [acc' Ha].
  exists acc'. intro fuel. cbn [possible Nat.add]. apply Ha.
Qed.

Lemma ends_all : forall sups, ordered sups -> forall b, ends sups b.
Proof.
  intros sups HO. assert (forall t, t <> TBool -> ends sups (BScalar t)) as HS.
  { intros t Ht. apply ends_step. intros s Hs. cbn [superclasses] in Hs.
    destruct t; try (destruct Hs; fail). exfalso. apply Ht. reflexivity. }
  assert (forall c, ends sups (BUser c)) as HU.
  { intro c. induction c as [c IH] using lt_wf_ind. apply ends_step.
    intros s Hs. cbn [superclasses] in Hs. apply in_map_iff in Hs.
    destruct Hs as [d [<- Hd]]. apply IH. apply (HO c d Hd). }
  intros [t| |c].
  - destruct t; try (apply HS; discriminate).
    apply ends_step. intros s [<-|[]]. apply HS. discriminate.
  - apply ends_step. intros s [].
  - apply HU.
Qed.

Lemma possible_ends : forall sups b acc, ordered sups ->
  exists n, forall fuel, n <= fuel -> exists l, possible fuel sups [b] acc = Some l.
Proof.
  intros sups b acc HO. destruct (ends_all sups HO b) as [n Hn].
  destruct (Hn [] acc) as [acc' Ha]. exists n. intros fuel Hf.
  exists acc'. replace fuel with (n + (fuel - n)) by lia. rewrite Ha.
  destruct (fuel - n); reflexivity.
Qed.

(** * The types found are those of the superclasses *)

Lemma reach_user : forall sups c t,
  reach sups (BUser c) t -> plain t = true -> subclass sups (PUser c) (class_of t).
Proof.
  intros sups c t H. remember (BUser c) as b eqn:Eb. revert c Eb.
  induction H as [b t E|b s t Hs Hr IH]; intros c -> P.
  - cbn in E. injection E as <-. apply sub_refl.
  - cbn in Hs. apply in_map_iff in Hs. destruct Hs as [d [<- Hd]].
    apply (sub_user sups c d); [exact Hd|]. apply IH; [reflexivity|exact P].
Qed.

Lemma reach_sub : forall sups obj t, plain t = true ->
  (t = obj \/ reach sups (get_cls_base obj) t) ->
  subclass sups (class_of obj) (class_of t).
Proof.
  intros sups obj t P [->|H]; [apply sub_refl|].
  destruct obj; cbn [get_cls_base] in H;
    try (inversion H as [b u E|b s u Hs Hr]; subst; cbn in *;
         [first [discriminate|injection E as <-; apply sub_refl]|
          first [contradiction Hs|idtac]]).
  - destruct Hs as [<-|[]]. inversion Hr as [b u E|b s u Hs2 Hr2]; subst; cbn in *.
    + injection E as <-. apply sub_bool.
    + contradiction Hs2.
  - apply (reach_user sups c); assumption.
Qed.

Lemma sub_reach_user : forall sups p q, subclass sups p q ->
  forall c t, p = PUser c -> q = class_of t -> plain t = true ->
  reach sups (BUser c) t.
Proof.
  intros sups p q H. induction H as [p| | | |c d p Hd Hs IH]; intros e t Ep Eq P;
    try discriminate.
  - subst p. destruct t; try discriminate. injection Eq as ->.
    apply reach_own. reflexivity.
  - injection Ep as ->. apply (reach_super sups (BUser e) (BUser d)).
    + cbn. apply in_map. exact Hd.
    + apply IH; [reflexivity|exact Eq|exact P].
Qed.

Lemma sub_reach : forall sups obj t, plain t = true ->
  subclass sups (class_of obj) (class_of t) ->
  ~ numpy_exception obj (class_of t) ->
  t = obj \/ reach sups (get_cls_base obj) t.
Proof.
  intros sups obj t P H NE.
  destruct obj.
  12: { right. cbn [get_cls_base]. apply (sub_reach_user sups (PUser c) (class_of t));
        [exact H|reflexivity|reflexivity|exact P]. }
  all: inversion H as [p E1 E2|E1 E2|E1 E2|E1 E2|c' d p Hd Hs E1 E2]; subst;
    cbn [class_of] in *.
  all: try (destruct t; try discriminate; cbn [class_of] in *; try (left; congruence); fail).
  - right. destruct t; try discriminate E2. cbn [get_cls_base].
    apply (reach_super sups _ (BScalar TInt)); [left; reflexivity|].
    apply reach_own. reflexivity.
  - exfalso. apply NE. left. split; [reflexivity|symmetry; exact E2].
  - exfalso. apply NE. right. split; [reflexivity|symmetry; exact E2].
Qed.

(** * The whole call *)

Section Target_ind.
  Variable P : target -> Prop.
  Hypothesis PT : forall t, P (GType t).
  Hypothesis PK : forall k, P (GKind k).
  Hypothesis PU : P GUnknown.
  Hypothesis PM : forall l, (forall g, In g l -> P g) -> P (GMany l).
  Fixpoint target_ind2 (g : target) : P g :=
    match g with
    | GType t => PT t
    | GKind k => PK k
    | GUnknown => PU
    | GMany l => PM l ((fix go (l : list target) : forall g, In g l -> P g :=
        match l return forall g, In g l -> P g with
        | [] => fun g H => match H with end
        | h :: l' => fun g H =>
            match H with
            | or_introl E => eq_ind h P (target_ind2 h) g E
            | or_intror K => go l' g K
            end
        end) l)
    end.
End Target_ind.

Lemma kind_sub : forall sups obj k,
  of_kind k obj = true <-> subclass sups (class_of obj) (kind_class k).
Proof.
  intros sups obj k. split.
  - intro H. destruct k, obj; try discriminate H; apply sub_refl.
  - intro H. remember (class_of obj) as p eqn:Ep. remember (kind_class k) as q eqn:Eq.
    revert obj Ep. induction H as [p| | | |c d p Hd Hs IH]; intros obj Ep;
      try (destruct k; discriminate).
    + subst p. destruct k, obj; try discriminate; reflexivity.
    + subst. exfalso. specialize (IH eq_refl (TCls d) eq_refl). destruct k; discriminate.
Qed.

Lemma isinstance_literal : forall sups obj g, ordered sups -> legal g ->
  (forall q, names g q -> ~ numpy_exception obj q) ->
  exists n, forall fuel, n <= fuel ->
    exists b, build_isinstance fuel sups obj g = Lit b /\
      (b = true <-> py_isinstance sups (class_of obj) g).
Proof.
  intros sups obj g HO. induction g as [t|k| |l IH] using target_ind2; intros HL HN.
  - inversion HL as [t' P| |]; subst.
    destruct (possible_ends sups (get_cls_base obj) [obj] HO) as [n Hn].
    exists n. intros fuel Hf. destruct (Hn fuel Hf) as [l El].
    exists (existsb (ty_eqb t) l). cbn [build_isinstance]. rewrite El.
    split; [reflexivity|].
    assert (existsb (ty_eqb t) l = true <-> In t l) as ->.
    { rewrite existsb_exists. split.
      - intros [u [Hu E]]. apply (proj1 (ty_eqb_plain t u P)) in E. subst. exact Hu.
      - intro H. exists t. split; [exact H|]. apply ty_eqb_plain; [exact P|reflexivity]. }
    rewrite (possible_reach _ _ _ _ _ El t). split.
    + intros H. exists (class_of t). split; [apply names_type|].
      apply reach_sub; [exact P|]. destruct H as [[H|[]]|[b [[<-|[]] H]]].
      * left. symmetry. exact H.
      * right. exact H.
    + intros [q [Hq Hs]]. inversion Hq; subst.
      destruct (sub_reach sups obj t P Hs (HN _ (names_type t))) as [->|H].
      * left. left. reflexivity.
      * right. exists (get_cls_base obj). split; [left; reflexivity|exact H].
  - exists 0. intros fuel _. exists (of_kind k obj). split; [reflexivity|].
    rewrite (kind_sub sups obj k). split.
    + intro H. exists (kind_class k). split; [apply names_kind|exact H].
    + intros [q [Hq Hs]]. inversion Hq; subst. exact Hs.
  - inversion HL.
  - inversion HL as [| |l' HA]; subst. clear HL.
    assert (exists n, forall fuel, n <= fuel -> exists b,
      build_isinstance fuel sups obj (GMany l) = Lit b /\
      (b = true <-> exists g, In g l /\ py_isinstance sups (class_of obj) g)) as K.
    { induction l as [|h l IHl].
      - exists 0. intros fuel _. exists false. split; [reflexivity|].
        split; [discriminate|]. intros [g [[] _]].
      - destruct (IH h (or_introl eq_refl) (HA h (or_introl eq_refl))) as [n Hn].
        { intros q Hq. apply HN. apply (names_many _ h); [left; reflexivity|exact Hq]. }
        destruct IHl as [m Hm].
        { intros g Hg. apply IH. right. exact Hg. }
        { intros q Hq. apply HN. inversion Hq as [| |l' g p Hg Hp]; subst.
          apply (names_many _ g); [right; exact Hg|exact Hp]. }
        { intros g Hg. apply HA. right. exact Hg. }
        exists (n + m). intros fuel Hf.
        destruct (Hn fuel ltac:(lia)) as [b1 [E1 H1]].
        destruct (Hm fuel ltac:(lia)) as [b2 [E2 H2]].
        exists (b1 || b2). split.
        + cbn [build_isinstance] in E2 |- *. rewrite E1, E2. reflexivity.
        + rewrite orb_true_iff, H1, H2. split.
          * intros [H|[g [Hg H]]].
            -- exists h. split; [left; reflexivity|exact H].
            -- exists g. split; [right; exact Hg|exact H].
          * intros [g [[<-|Hg] H]]; [left; exact H|].
            right. exists g. split; assumption. }
    destruct K as [n Hn]. exists n. intros fuel Hf. destruct (Hn fuel Hf) as [b [E H]].
    exists b. split; [exact E|]. rewrite H. split.
    + intros [g [Hg [q [Hq Hs]]]]. exists q. split; [|exact Hs].
      apply (names_many _ g); assumption.
    + intros [q [Hq Hs]]. inversion Hq as [| |l' g p Hg Hp]; subst.
      exists g. split; [exact Hg|]. exists q. split; assumption.
Qed.

Lemma isinstance_numpy : forall sups fuel obj t l,
  numpy_exception obj (class_of t) -> possible fuel sups [get_cls_base obj] [obj] = Some l ->
  build_isinstance fuel sups obj (GType t) = Lit false /\
  py_isinstance sups (class_of obj) (GType t).
Proof.
  intros sups fuel obj t l NE El. split.
  - cbn [build_isinstance]. rewrite El. f_equal.
    destruct (existsb (ty_eqb t) l) eqn:E; [|reflexivity]. exfalso.
    apply existsb_exists in E. destruct E as [u [Hu Eu]].
    assert (plain t = true) as P.
    { destruct NE as [[_ K]|[_ K]]; destruct t; try discriminate K; reflexivity. }
    apply (proj1 (ty_eqb_plain t u P)) in Eu. subst u.
    apply (possible_reach _ _ _ _ _ El) in Hu.
    destruct NE as [[-> K]|[-> K]]; destruct t; try discriminate K;
      (destruct Hu as [[Hu|[]]|[b [[<-|[]] Hr]]]; [discriminate Hu|];
       inversion Hr as [b u E|b s u Hs2 Hr2]; subst;
         [discriminate E|contradiction Hs2]).
  - exists (class_of t). split; [apply names_type|].
    destruct NE as [[-> ->]|[-> ->]]; [apply sub_f64|apply sub_c128].
Qed.

Lemma none_sub : forall sups p q, subclass sups p q -> p = PNone -> q = PNone.
Proof. intros sups p q H E. inversion H; subst; try discriminate. reflexivity. Qed.

Lemma isinstance_none : forall sups g, ~ py_isinstance sups PNone g.
Proof.
  intros sups g [q [Hq Hs]]. apply none_sub in Hs; [|reflexivity]. subst q.
  remember PNone as p eqn:Ep. revert Ep. induction Hq as [t|k|l g p Hg Hp IH]; intro E.
  - destruct t; discriminate.
  - destruct k; discriminate.
  - apply IH. exact E.
Qed.

(** An object of a subclass, passed where the class is expected. *)
Lemma isinstance_derived : forall sups c d,
  ordered sups -> In c (sups d) ->
  (exists n, forall fuel, n <= fuel ->
     build_isinstance fuel sups (TCls c) (GType (TCls d)) = Lit false) /\
  subclass sups (PUser d) (class_of (TCls c)) /\
  py_isinstance sups (PUser d) (GType (TCls d)).
Proof.
  intros sups c d HO Hin. split; [|split].
  - destruct (isinstance_literal sups (TCls c) (GType (TCls d)) HO) as [n Hn].
    + apply legal_type. reflexivity.
    + intros q _ [[K _]|[K _]]; discriminate.
    + exists n. intros fuel Hf. destruct (Hn fuel Hf) as [b [E H]].
      rewrite E. f_equal. destruct b; [|reflexivity]. exfalso.
      destruct (proj1 H eq_refl) as [q [Hq Hs]]. inversion Hq; subst.
      assert (forall p q, subclass sups p q -> forall x y, p = PUser x -> q = PUser y -> y <= x)
        as LE.
      { intros p q0 S. induction S as [p| | | |a b p Hb S IH]; intros x y Ex Ey; try discriminate.
        - subst p. injection Ey as ->. lia.
        - injection Ex as ->. specialize (IH b y eq_refl Ey). pose proof (HO _ _ Hb). lia. }
      specialize (LE _ _ Hs c d eq_refl eq_refl). pose proof (HO _ _ Hin). lia.
  - cbn [class_of]. apply (sub_user sups d c); [exact Hin|apply sub_refl].
  - exists (PUser d). split; [apply (names_type (TCls d))|apply sub_refl].
Qed.

(** * Membership *)

Lemma plain_type : forall v, plain (type_of v) = true.
Proof. intros [b|[k|] z|[k|] t|s]; reflexivity. Qed.

Lemma same_eqb_py : forall x y,
  wf_val x = true -> wf_val y = true -> type_of x = type_of y ->
  (same_eqb x y = true <-> py_eq x y).
Proof.
  intros x y Wx Wy T.
  destruct x as [b|k z|k t|s], y as [b'|k' z'|k' t'|s'];
    try (exfalso; destruct k as [[]|]; discriminate);
    try (exfalso; destruct k' as [[]|]; discriminate);
    try (exfalso; destruct k as [[]|], k' as [[]|]; discriminate);
    try discriminate T.
  - unfold py_eq. cbn [same_eqb number]. destruct b, b'; cbn; split; intro H;
      try reflexivity; try discriminate.
  - unfold py_eq. cbn [same_eqb number]. rewrite Z.eqb_eq. lia.
  - unfold py_eq. cbn [same_eqb number]. destruct t as [t|], t' as [t'|];
      try (split; [discriminate|contradiction]). apply Z.eqb_eq.
  - unfold py_eq. cbn [same_eqb number].
    destruct (list_eq_dec Nat.eq_dec s s') as [->|N].
    + split; reflexivity.
    + split; [discriminate|]. intro E. exfalso. apply N. congruence.
Qed.

Lemma c_find_le : forall x l k, k <= c_find x l k <= k + length l.
Proof.
  intros x l. induction l as [|y l IH]; intro k; cbn [c_find length]; [lia|].
  destruct (same_eqb x y); [lia|]. specialize (IH (S k)). lia.
Qed.

Lemma c_find_spec : forall x l k,
  c_find x l k <> k + length l <-> existsb (same_eqb x) l = true.
Proof.
  intros x l. induction l as [|y l IH]; intro k; cbn [c_find length existsb].
  - split; [intro H; exfalso; apply H; lia|discriminate].
  - destruct (same_eqb x y); cbn [orb].
    + split; [reflexivity|]. intros _. lia.
    + rewrite <- (IH (S k)). replace (k + S (length l)) with (S k + length l) by lia. tauto.
Qed.

Lemma f_index_spec : forall x l k, 0 < k ->
  (f_index x l k <> 0 <-> existsb (same_eqb x) l = true).
Proof.
  intros x l. induction l as [|y l IH]; intros k Hk; cbn [f_index existsb].
  - split; [intro H; exfalso; apply H; reflexivity|discriminate].
  - destruct (same_eqb x y); cbn [orb]; [split; [reflexivity|lia]|].
    apply IH. lia.
Qed.

Lemma f_count_spec : forall x l,
  f_count x l <> 0 <-> existsb (same_eqb x) l = true.
Proof.
  intros x l. induction l as [|y l IH]; cbn [f_count existsb].
  - split; [intro H; exfalso; apply H; reflexivity|discriminate].
  - destruct (same_eqb x y); cbn [orb]; [split; [reflexivity|lia]|]. exact IH.
Qed.

Lemma search_spec : forall g s x l, search g s x l = existsb (same_eqb x) l.
Proof.
  intros g s x l.
  assert (forall b c : bool, (b = true <-> c = true) -> b = c) as BE.
  { intros [] [] H; try reflexivity; [symmetry; apply H|apply H]; reflexivity. }
  assert (forall a b, negb (Nat.eqb a b) = true <-> a <> b) as NE.
  { intros a b. rewrite negb_true_iff. apply Nat.eqb_neq. }
  destruct g; [|destruct s]; cbn [search]; apply BE.
  - unfold c_in. rewrite NE. apply (c_find_spec x l 0).
  - unfold f_in_list. rewrite NE. apply f_index_spec. lia.
  - unfold f_in_set. rewrite NE. apply f_count_spec.
Qed.

Lemma in_same_type : forall g s same x et l,
  wf_val x = true -> container et l -> type_of x = et ->
  identity same x l -> is_nan x = false ->
  (translated_in g s x et l = true <-> py_in same x l).
Proof.
  intros g s same x et l W HC T HI HN. unfold translated_in, visit_in.
  rewrite (proj2 (ty_eqb_plain (type_of x) et (plain_type x)) T).
  rewrite search_spec, existsb_exists. split.
  - intros [y [Hy E]]. destruct (HC y Hy) as [Wy Ty].
    destruct (In_nth_error _ _ Hy) as [i Hi]. exists i, y. split; [exact Hi|].
    right. apply same_eqb_py; [exact W|exact Wy|congruence|exact E].
  - intros [i [y [Hi H]]]. pose proof (nth_error_In _ _ Hi) as Hy.
    destruct (HC y Hy) as [Wy Ty]. exists y. split; [exact Hy|].
    apply (same_eqb_py x y W Wy); [congruence|].
    destruct H as [H|H]; [|exact H]. rewrite (HI i y Hi H).
    unfold py_eq. destruct x as [b|k z|k [t|]|s']; cbn [number]; try reflexivity.
    discriminate.
Qed.

Lemma in_other_type : forall g s x et l,
  type_of x <> et -> translated_in g s x et l = false.
Proof.
  intros g s x et l T. unfold translated_in, visit_in.
  destruct (ty_eqb (type_of x) et) eqn:E; [|reflexivity].
  exfalso. apply T. apply (ty_eqb_plain _ _ (plain_type x)). exact E.
Qed.

Lemma in_other_python : forall g s same x et l y,
  type_of x <> et -> In y l -> py_eq x y ->
  translated_in g s x et l = false /\ py_in same x l.
Proof.
  intros g s same x et l y T Hy E. split; [apply in_other_type; exact T|].
  destruct (In_nth_error _ _ Hy) as [i Hi]. exists i, y. split; [exact Hi|].
  right. exact E.
Qed.

Lemma in_nan : forall g s x et l, is_nan x = true -> translated_in g s x et l = false.
Proof.
  intros g s x et l H. unfold translated_in. destruct (visit_in (type_of x) et); [|reflexivity].
  rewrite search_spec. destruct (existsb (same_eqb x) l) eqn:E; [|reflexivity].
  apply existsb_exists in E. destruct E as [y [_ E]].
  destruct x as [b|k z|k [t|]|s']; discriminate.
Qed.

Lemma in_calls_kept : forall x et cc, ty_eqb (e_type x) et = true ->
  in_calls x et cc = e_calls x ++ cc.
Proof. intros x et cc H. unfold in_calls, visit_in. rewrite H. reflexivity. Qed.

Lemma in_calls_dropped : forall x et cc, ty_eqb (e_type x) et = false ->
  in_calls x et cc = [].
Proof. intros x et cc H. unfold in_calls, visit_in. rewrite H. reflexivity. Qed.

Lemma isinstance_optional : forall sups e, ordered sups ->
  plain (e_type e) = true ->
  exists n, forall fuel, n <= fuel ->
    t_answer (isinstance_call fuel sups e (GType (e_type e))) = Lit true /\
    ~ py_isinstance sups PNone (GType (e_type e)).
Proof.
  intros sups e HO P.
  destruct (isinstance_literal sups (e_type e) (GType (e_type e)) HO) as [n Hn].
  - apply legal_type. exact P.
  - intros q Hq NE. inversion Hq as [t Et| |]. subst q.
    destruct NE as [[K1 K2]|[K1 K2]]; rewrite K1 in K2; discriminate K2.
  - exists n. intros fuel Hf. destruct (Hn fuel Hf) as [b [E H]]. split.
    + cbn [isinstance_call t_answer]. rewrite E. f_equal. apply H.
      exists (class_of (e_type e)). split; [apply names_type|apply sub_refl].
    + apply isinstance_none.
Qed.

Lemma isinstance_numpy_all : forall sups obj t, ordered sups ->
  numpy_exception obj (class_of t) ->
  (exists n, forall fuel, n <= fuel ->
     build_isinstance fuel sups obj (GType t) = Lit false) /\
  py_isinstance sups (class_of obj) (GType t).
Proof.
  intros sups obj t HO NE.
  destruct (possible_ends sups (get_cls_base obj) [obj] HO) as [n Hn].
  split.
  - exists n. intros fuel Hf. destruct (Hn fuel Hf) as [l El].
    apply (isinstance_numpy sups fuel obj t l NE El).
  - destruct (Hn n (Nat.le_refl n)) as [l El].
    apply (isinstance_numpy sups n obj t l NE El).
Qed.
