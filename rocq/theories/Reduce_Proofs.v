From Coq Require Import List ZArith Bool Lia Permutation.
From Verif Require Import Reduce_Model Reduce_Spec.
Import ListNotations.

(** ** The axes *)

Definition axis_ok (ax : list Z) (f : list bool) : Prop :=
  NoDup ax /\
  forall a, In a ax <-> (0 <= a)%Z /\ nth (Z.to_nat a) f false = true.

Lemma mem_in : forall i l, mem i l = true <-> In i l.
Proof.
  intros i l. unfold mem. rewrite existsb_exists. split.
  - intros (x & h & e). apply Z.eqb_eq in e. subst. exact h.
  - intros h. exists i. split; [exact h | apply Z.eqb_refl].
Qed.

Lemma nth_rep : forall q l a,
  nth a (repeat true q ++ l) false =
  if a <? q then true else nth (a - q) l false.
Proof.
  induction q as [|q IH]; intros l a.
  - cbn [repeat app]. replace (a <? 0) with false by (symmetry; apply Nat.ltb_ge; lia).
    rewrite Nat.sub_0_r. reflexivity.
  - destruct a as [|a]; [reflexivity|].
    cbn [repeat app nth]. rewrite IH. reflexivity.
Qed.

Lemma ok_mem : forall ax f j, axis_ok ax f ->
  mem (Z.of_nat j) ax = nth j f false.
Proof.
  intros ax f j [_ h]. specialize (h (Z.of_nat j)). rewrite Nat2Z.id in h.
  destruct (mem (Z.of_nat j) ax) eqn:e.
  - apply mem_in in e. apply h in e. symmetry. apply e.
  - destruct (nth j f false) eqn:e2; [|reflexivity].
    assert (X : In (Z.of_nat j) ax) by (apply h; split; [lia | reflexivity]).
    apply mem_in in X. congruence.
Qed.

Definition firsts (q : nat) : list Z := map Z.of_nat (seq 0 q).

Lemma in_firsts : forall q a, In a (firsts q) <-> (0 <= a < Z.of_nat q)%Z.
Proof.
  intros q a. unfold firsts. rewrite in_map_iff. split.
  - intros (x & e & h). apply in_seq in h. lia.
  - intros h. exists (Z.to_nat a). split; [lia | apply in_seq; lia].
Qed.

Lemma nodup_firsts : forall q, NoDup (firsts q).
Proof.
  intros q. unfold firsts. apply FinFun.Injective_map_NoDup; [|apply seq_NoDup].
  intros x y h. lia.
Qed.

Lemma firsts_length : forall q, length (firsts q) = q.
Proof. intros q. unfold firsts. rewrite map_length, seq_length. reflexivity. Qed.

Lemma axis_many : forall ax q f, axis_ok ax (repeat true q ++ f) ->
  q <= length ax.
Proof.
  intros ax q f [n h]. rewrite <- (firsts_length q).
  apply NoDup_incl_length; [apply nodup_firsts|].
  intros a i. apply in_firsts in i. apply h. split; [lia|].
  rewrite nth_rep. replace (Z.to_nat a <? q) with true; [reflexivity|].
  symmetry. apply Nat.ltb_lt. lia.
Qed.

(** The axes after one index. *)
Definition sh (b : bool) : Z := if b then 0%Z else 1%Z.

Definition next_axes (q : nat) (b : bool) (ax : list Z) : list Z :=
  firsts (if b then Datatypes.S q else q) ++
  map (fun a => (a - sh b)%Z)
    (filter (fun a => (Z.of_nat (Datatypes.S q) <=? a)%Z) ax).

Lemma nodup_app : forall (X : Type) (l r : list X), NoDup l -> NoDup r ->
  (forall x, In x l -> In x r -> False) -> NoDup (l ++ r).
Proof.
  induction l as [|a l IH]; intros r hl hr d; [exact hr|].
  cbn. inversion hl as [|? ? na nl]; subst. constructor.
  - rewrite in_app_iff. intros [i|i]; [exact (na i)|].
    apply (d a); [left; reflexivity | exact i].
  - apply IH; [exact nl | exact hr|].
    intros x i j. apply (d x); [right; exact i | exact j].
Qed.

Lemma next_length : forall q b f ax, axis_ok ax (repeat true q ++ b :: f) ->
  length (next_axes q b ax) = length ax.
Proof.
  intros q b f ax [n h]. unfold next_axes.
  rewrite app_length, map_length, <- app_length.
  apply Permutation_length. apply NoDup_Permutation.
  - apply nodup_app; [apply nodup_firsts | apply NoDup_filter; exact n|].
    intros x i j. apply in_firsts in i. apply filter_In in j.
    destruct j as [_ j]. apply Z.leb_le in j. destruct b; lia.
  - exact n.
  - intros a. rewrite in_app_iff, in_firsts, filter_In, h, nth_rep.
    rewrite Z.leb_le.
    destruct (Nat.ltb_spec (Z.to_nat a) q) as [l|l].
    + destruct b; split; intros K; (destruct K as [K|K]; lia) || (left; lia).
    + destruct (Nat.eq_dec (Z.to_nat a) q) as [e|e].
      * rewrite e, Nat.sub_diag. cbn [nth]. destruct b.
        -- split; intros K; [split; [lia|reflexivity] | left; lia].
        -- split; intros K; [|destruct K; discriminate].
           destruct K as [K|[K1 K2]]; [lia|]. exfalso. lia.
      * split; intros K.
        -- destruct K as [K|[K1 K2]]; [destruct b; lia|]. exact K1.
        -- right. split; [exact K | lia].
Qed.

Lemma next_ok : forall q b f ax, axis_ok ax (repeat true q ++ b :: f) ->
  axis_ok (next_axes q b ax)
    (repeat true q ++ (if b then true :: f else f)).
Proof.
  intros q b f ax [n h]. unfold next_axes. split.
  - apply nodup_app; [apply nodup_firsts| |].
    + apply FinFun.Injective_map_NoDup; [intros x y e; lia|].
      apply NoDup_filter. exact n.
    + intros x i j. apply in_firsts in i. apply in_map_iff in j.
      destruct j as (y & e & j). apply filter_In in j.
      destruct j as [_ j]. apply Z.leb_le in j. unfold sh in e. destruct b; lia.
  - intros a. rewrite in_app_iff, in_firsts, in_map_iff, nth_rep.
    destruct (Nat.ltb_spec (Z.to_nat a) q) as [l|l].
    + split; intros K.
      * split; [|reflexivity]. destruct K as [K|(y & e & K)]; [lia|].
        apply filter_In in K. destruct K as [_ K]. apply Z.leb_le in K.
        unfold sh in e. destruct b; lia.
      * left. destruct b; lia.
    + destruct b; cbn [sh].
      * split; intros K.
        -- destruct K as [K|(y & e & K)].
           ++ split; [lia|]. replace (Z.to_nat a - q) with 0 by lia. reflexivity.
           ++ apply filter_In in K. destruct K as [K1 K2]. apply h in K1.
              rewrite Z.sub_0_r in e. subst y. rewrite nth_rep in K1.
              replace (Z.to_nat a <? q) with false in K1
                by (symmetry; apply Nat.ltb_ge; exact l). exact K1.
        -- destruct (Nat.eq_dec (Z.to_nat a) q) as [e|e]; [left; lia|].
           right. exists a. split; [lia|]. apply filter_In. split.
           ++ apply h. rewrite nth_rep.
              replace (Z.to_nat a <? q) with false
                by (symmetry; apply Nat.ltb_ge; exact l). exact K.
           ++ apply Z.leb_le. lia.
      * split; intros K.
        -- destruct K as [K|(y & e & K)]; [lia|].
           apply filter_In in K. destruct K as [K1 K2]. apply h in K1.
           apply Z.leb_le in K2. rewrite nth_rep in K1.
           replace (Z.to_nat y <? q) with false in K1
             by (symmetry; apply Nat.ltb_ge; lia).
           destruct K1 as [K0 K1]. split; [lia|].
           replace (Z.to_nat y - q) with (Datatypes.S (Z.to_nat a - q)) in K1 by lia.
           exact K1.
        -- right. exists (a + 1)%Z. split; [lia|]. apply filter_In. split.
           ++ apply h. split; [lia|]. rewrite nth_rep.
              replace (Z.to_nat (a + 1) <? q) with false
                by (symmetry; apply Nat.ltb_ge; lia).
              replace (Z.to_nat (a + 1) - q) with (Datatypes.S (Z.to_nat a - q)) by lia.
              apply K.
           ++ apply Z.leb_le. lia.
Qed.

(** ** The walk over the indices *)

Lemma walk_nil : forall fu i s a k, walk fu i s [] a k = Some ([], [], i, s).
Proof. intros fu. destruct fu; reflexivity. Qed.

Lemma walk_drop : forall m j q f ax x fuel,
  axis_ok ax (repeat true q ++ false :: f) -> j + m = q -> m < fuel ->
  walk fuel (Z.of_nat j) 0 [At 0 1 x] ax false =
  Some (repeat All m ++ [At 0 1 x], map Z.of_nat (seq j m),
        Z.of_nat (Datatypes.S q), 1%Z).
Proof.
  induction m as [|m IH]; intros j q f ax x fuel h e l.
  - destruct fuel as [|fuel]; [lia|]. cbn [walk].
    rewrite (ok_mem _ _ _ h), nth_rep.
    replace (j <? q) with false by (symmetry; apply Nat.ltb_ge; lia).
    replace (j - q) with 0 by lia. cbn [nth].
    rewrite walk_nil. cbn [repeat app seq map]. repeat f_equal. lia.
  - destruct fuel as [|fuel]; [lia|]. cbn [walk].
    rewrite (ok_mem _ _ _ h), nth_rep.
    replace (j <? q) with true by (symmetry; apply Nat.ltb_lt; lia).
    cbn [is_all]. replace (Z.of_nat j + 1)%Z with (Z.of_nat (Datatypes.S j)) by lia.
    rewrite (IH (Datatypes.S j) q f ax x fuel h ltac:(lia) ltac:(lia)).
    cbn [repeat app seq map]. rewrite Z.sub_0_r. reflexivity.
Qed.

Lemma walk_keep : forall m j q b f ax x fuel,
  axis_ok ax (repeat true q ++ b :: f) -> (b = true -> x = Zero) ->
  j + m = q -> m < fuel ->
  walk fuel (Z.of_nat j) 0 (repeat All m ++ [At 0 1 x]) ax true =
  Some (repeat All m ++ [if b then All else At 0 1 x],
        map Z.of_nat (seq j (if b then Datatypes.S m else m)),
        Z.of_nat (Datatypes.S q), sh b).
Proof.
  induction m as [|m IH]; intros j q b f ax x fuel h z e l.
  - destruct fuel as [|fuel]; [lia|]. cbn [repeat app walk].
    rewrite (ok_mem _ _ _ h), nth_rep.
    replace (j <? q) with false by (symmetry; apply Nat.ltb_ge; lia).
    replace (j - q) with 0 by lia. cbn [nth].
    destruct b.
    + cbn [is_all]. rewrite (z eq_refl). cbn [is_zero]. rewrite walk_nil.
      cbn [repeat app seq map sh]. repeat f_equal; lia.
    + rewrite walk_nil. cbn [repeat app seq map sh]. repeat f_equal; lia.
  - destruct fuel as [|fuel]; [lia|]. cbn [repeat app walk].
    rewrite (ok_mem _ _ _ h), nth_rep.
    replace (j <? q) with true by (symmetry; apply Nat.ltb_lt; lia).
    cbn [is_all All]. replace (Z.of_nat j + 1)%Z with (Z.of_nat (Datatypes.S j)) by lia.
    rewrite (IH (Datatypes.S j) q b f ax x fuel h z ltac:(lia) ltac:(lia)).
    destruct b; cbn [repeat app seq map]; rewrite Z.sub_0_r; reflexivity.
Qed.

Lemma process_drop : forall q f ax x,
  axis_ok ax (repeat true q ++ false :: f) ->
  process [At 0 1 x] ax false =
  Some (repeat All q ++ [At 0 1 x], next_axes q false ax).
Proof.
  intros q f ax x h. unfold process.
  change 0%Z with (Z.of_nat 0) at 1.
  rewrite (walk_drop q 0 q f ax x _ h eq_refl)
    by (cbn [length]; pose proof (axis_many _ _ _ h); lia).
  cbv zeta. change (map Z.of_nat (seq 0 q)) with (firsts q).
  change (firsts q ++
     map (fun a => (a - 1)%Z) (filter (fun a => (Z.of_nat (Datatypes.S q) <=? a)%Z) ax))
    with (next_axes q false ax).
  rewrite (next_length _ _ _ _ h), Nat.eqb_refl. reflexivity.
Qed.

Lemma process_keep : forall q b f ax x,
  axis_ok ax (repeat true q ++ b :: f) -> (b = true -> x = Zero) ->
  process (repeat All q ++ [At 0 1 x]) ax true =
  Some (repeat All q ++ [if b then All else At 0 1 x], next_axes q b ax).
Proof.
  intros q b f ax x h z. unfold process.
  change 0%Z with (Z.of_nat 0) at 1.
  rewrite (walk_keep q 0 q b f ax x _ h z eq_refl)
    by (rewrite app_length, repeat_length; cbn [length]; lia).
  cbv zeta.
  change (map Z.of_nat (seq 0 (if b then Datatypes.S q else q)) ++
     map (fun a => (a - sh b)%Z) (filter (fun a => (Z.of_nat (Datatypes.S q) <=? a)%Z) ax))
    with (next_axes q b ax).
  rewrite (next_length _ _ _ _ h), Nat.eqb_refl. reflexivity.
Qed.

(** ** One index *)

Fixpoint nsl (s : list sub) : nat :=
  match s with
  | [] => 0
  | At _ _ _ :: s' => nsl s'
  | Sl _ _ _ :: s' => Datatypes.S (nsl s')
  end.

Definition blank (s : sub) : sub :=
  match s with At p q x => At p q x | Sl _ _ _ => All end.

(** Two lists of indices which are the same up to the way the whole dimension
    is written. *)
Inductive sim : list dim -> list sub -> list sub -> Prop :=
| sim_nil : sim [] [] []
| sim_at : forall d D p q x s s', sim D s s' ->
    sim (d :: D) (At p q x :: s) (At p q x :: s')
| sim_sl : forall n kn D a b c a' b' c' s s',
    whole n (Sl a b c) -> whole n (Sl a' b' c') -> sim D s s' ->
    sim ((n, kn) :: D) (Sl a b c :: s) (Sl a' b' c' :: s').

Lemma sim_trans : forall D s1 s2, sim D s1 s2 -> forall s3, sim D s2 s3 ->
  sim D s1 s3.
Proof.
  induction 1 as [|d D p q x s s' h IH|n kn D a b c a' b' c' s s' w w' h IH];
    intros s3 H.
  - exact H.
  - inversion H; subst. constructor. apply IH. assumption.
  - inversion H; subst. constructor; [exact w | assumption | apply IH; assumption].
Qed.

Lemma sim_blank : forall D s s', sim D s s' -> sim D s (map blank s).
Proof.
  induction 1 as [|d D p q x s s' h IH|n kn D a b c a' b' c' s s' w w' h IH];
    cbn [map blank].
  - constructor.
  - constructor. exact IH.
  - constructor; [exact w | repeat split | exact IH].
Qed.

Lemma sim_refl_left : forall D s s', sim D s s' -> sim D s s.
Proof.
  induction 1; constructor; assumption.
Qed.

Lemma sim_refl_right : forall D s s', sim D s s' -> sim D s' s'.
Proof.
  induction 1; constructor; assumption.
Qed.

Lemma sim_app : forall D s s', sim D s s' -> forall D2 t t', sim D2 t t' ->
  sim (D ++ D2) (s ++ t) (s' ++ t').
Proof.
  induction 1; intros D2 t t' h; cbn [app]; [exact h | |];
    constructor; auto.
Qed.

Lemma sim_length : forall D s s', sim D s s' ->
  length s = length D /\ length s' = length D.
Proof.
  induction 1 as [| ? ? ? ? ? ? ? ? [e1 e2] | ? ? ? ? ? ? ? ? ? ? ? ? ? ? [e1 e2]];
    cbn; split; congruence.
Qed.

Lemma sim_snoc : forall D s d x l, length s = length D ->
  sim (D ++ [d]) (s ++ [x]) l ->
  exists l1 y, l = l1 ++ [y] /\ sim D s l1 /\ sim [d] [x] [y].
Proof.
  induction D as [|d0 D IH]; intros s d x l e H.
  - destruct s as [|? ?]; [|discriminate]. cbn [app] in H.
    assert (L := sim_length _ _ _ H). destruct L as [_ L]. cbn in L.
    destruct l as [|y [|? ?]]; try discriminate.
    exists [], y. split; [reflexivity|]. split; [constructor | exact H].
  - destruct s as [|x0 s]; [discriminate|]. cbn in e.
    cbn [app] in H. inversion H; subst.
    + destruct (IH s d x s' ltac:(congruence) ltac:(assumption))
        as (l1 & y & -> & h1 & h2).
      exists (At p q x1 :: l1), y. split; [reflexivity|].
      split; [constructor; exact h1 | exact h2].
    + destruct (IH s d x s' ltac:(congruence) ltac:(assumption))
        as (l1 & y & -> & h1 & h2).
      exists (Sl a' b' c' :: l1), y. split; [reflexivity|].
      split; [constructor; assumption | exact h2].
Qed.

Lemma shape_app : forall D s, length s = length D -> forall D2 s2,
  shape (D ++ D2) (s ++ s2) = shape D s ++ shape D2 s2.
Proof.
  induction D as [|[n kn] D IH]; intros s e D2 s2; destruct s as [|x s];
    try discriminate; [reflexivity|].
  cbn in e. cbn [app shape]. destruct x; [apply IH; congruence|].
  cbn [app]. f_equal. apply IH. congruence.
Qed.

Lemma shape_length : forall D s, length s = length D ->
  length (shape D s) = nsl s.
Proof.
  induction D as [|[n kn] D IH]; intros s e; destruct s as [|x s];
    try discriminate; [reflexivity|].
  cbn in e. cbn [shape nsl]. destruct x; [apply IH; congruence|].
  cbn [length]. f_equal. apply IH. congruence.
Qed.

Lemma whole_into : forall n a b c, whole n (Sl a b c) -> into a c All = Some All.
Proof.
  intros n a b c (ha & _ & hc). cbn [into All].
  replace (one_step c) with true by (destruct c as [k|]; cbn in *; [subst; reflexivity | reflexivity]).
  replace (zero_start a) with true by (destruct a as [k|]; cbn in *; [subst; reflexivity | reflexivity]).
  reflexivity.
Qed.

Lemma merge_nil : forall s, merge s [] = Some s.
Proof.
  induction s as [|x s IH]; [reflexivity|].
  destruct x; cbn [merge]; rewrite IH; reflexivity.
Qed.

Lemma merge_prefix : forall D s s', sim D s s' -> forall t rest,
  merge (s ++ t) (repeat All (nsl s) ++ rest) =
  option_map (app (map blank s)) (merge t rest).
Proof.
  induction 1 as [|d D p q x s s' h IH|n kn D a b c a' b' c' s s' w w' h IH];
    intros t rest.
  - cbn. destruct (merge t rest); reflexivity.
  - cbn [app merge nsl map blank]. rewrite IH.
    destruct (merge t rest); reflexivity.
  - cbn [app merge nsl repeat map blank]. rewrite (whole_into _ _ _ _ w), IH.
    destruct (merge t rest); reflexivity.
Qed.

(** The shape of the result. *)
Fixpoint oshape (keep : bool) (f : list bool) (S : list dim) : list dim :=
  match f, S with
  | true :: f', _ :: S' =>
      if keep then (1, true) :: oshape keep f' S' else oshape keep f' S'
  | false :: f', d :: S' => d :: oshape keep f' S'
  | _, _ => []
  end.

Lemma literal_ok : forall ax f n, axis_ok ax f -> literal n ax = ax.
Proof.
  intros ax f n [_ h]. unfold literal. rewrite <- (map_id ax) at 2.
  apply map_ext_in. intros a i. apply h in i.
  replace (a <? 0)%Z with false; [reflexivity|]. symmetry. apply Z.ltb_ge. lia.
Qed.

Lemma kept_flags : forall S g f ax, axis_ok ax (g ++ f) ->
  length f = length S ->
  kept (Z.of_nat (length g)) ax S = oshape true f S /\
  dropped (Z.of_nat (length g)) ax S = oshape false f S.
Proof.
  induction S as [|d S IH]; intros g f ax h e;
    (destruct f as [|b f]; [try discriminate | try discriminate]).
  - split; reflexivity.
  - cbn in e. cbn [kept dropped].
    rewrite (ok_mem _ _ _ h), app_nth2, Nat.sub_diag by lia. cbn [nth].
    destruct (IH (g ++ [b]) f ax) as [h1 h2].
    + rewrite <- app_assoc. exact h.
    + congruence.
    + rewrite app_length in h1, h2. cbn [length] in h1, h2.
      replace (Z.of_nat (length g + 1)) with (Z.of_nat (length g) + 1)%Z in h1, h2 by lia.
      rewrite h1, h2. destruct b; split; reflexivity.
Qed.

Lemma out_shape_flags : forall D s ax k f, axis_ok ax f ->
  length f = length (shape D s) ->
  out_shape (Red D s (Some ax) k) = oshape k f (shape D s).
Proof.
  intros D s ax k f h e. unfold out_shape. cbn [axes dims subs keep].
  rewrite (literal_ok _ _ _ h).
  destruct (kept_flags (shape D s) [] f ax h e) as [h1 h2].
  cbn [length Z.of_nat] in h1, h2. cbv zeta. destruct k; assumption.
Qed.

Lemma oshape_app : forall k f1 S1, length f1 = length S1 -> forall f2 S2,
  oshape k (f1 ++ f2) (S1 ++ S2) = oshape k f1 S1 ++ oshape k f2 S2.
Proof.
  induction f1 as [|b f1 IH]; intros S1 e f2 S2; destruct S1 as [|d S1];
    try discriminate; [reflexivity|].
  cbn in e. cbn [app oshape]. rewrite IH by congruence.
  destruct b, k; reflexivity.
Qed.

Lemma oshape_true : forall k S,
  oshape k (repeat true (length S)) S = if k then repeat (1, true) (length S) else [].
Proof.
  intros k. induction S as [|d S IH]; [destruct k; reflexivity|].
  cbn [length repeat oshape]. rewrite IH. destruct k; reflexivity.
Qed.

Definition new_index (n : nat) (kn : bool) (a b c : option nat) (k : nat) : sub :=
  At (or_else a 0) (or_else c 1)
     (if known_one (size n a b c, kn) then Zero else Loop k).

Lemma insert_right : forall (keepd b : bool) DP sP n kn a b0 c DS sS fS ax k,
  sim DP sP sP -> (b = true -> whole n (Sl a b0 c)) ->
  (keepd = true \/ b = false) ->
  length sS = length DS -> length fS = nsl sS ->
  axis_ok ax (repeat true (nsl sP) ++ b :: fS) ->
  insert (Red (DP ++ (n, kn) :: DS) (sP ++ Sl a b0 c :: sS) (Some ax) keepd)
    (length (oshape keepd (b :: fS) (shape ((n, kn) :: DS) (Sl a b0 c :: sS))))
    (Loop k) =
  Some (Red (DP ++ (n, kn) :: DS)
          (map blank sP ++ (if b then All else new_index n kn a b0 c k) :: sS)
          (Some (next_axes (nsl sP) b ax)) keepd).
Proof.
  intros keepd b DP sP n kn a b0 c DS sS fS ax k hP hw hk eS ef hax.
  assert (lP : length sP = length DP) by apply (sim_length _ _ _ hP).
  assert (lsh : length (shape DP sP) = nsl sP) by (apply shape_length; exact lP).
  assert (lS : length (shape DS sS) = nsl sS) by (apply shape_length; exact eS).
  assert (OS : out_shape (Red (DP ++ (n, kn) :: DS) (sP ++ Sl a b0 c :: sS) (Some ax) keepd)
     = (if keepd then repeat (1, true) (nsl sP) else []) ++
       oshape keepd (b :: fS) (shape ((n, kn) :: DS) (Sl a b0 c :: sS))).
  { rewrite (out_shape_flags _ _ _ _ _ hax).
    - rewrite shape_app by exact lP.
      rewrite oshape_app by (rewrite repeat_length; congruence).
      rewrite <- lsh at 1. rewrite oshape_true, lsh. reflexivity.
    - rewrite shape_app, !app_length, repeat_length by exact lP.
      cbn [shape length]. lia. }
  unfold insert. rewrite OS. cbv zeta.
  set (X := oshape keepd (b :: fS) (shape ((n, kn) :: DS) (Sl a b0 c :: sS))).
  assert (HX : exists d X', X = d :: X' /\
     d = (if b then (1, true) else (size n a b0 c, kn))).
  { unfold X. cbn [shape oshape]. destruct b.
    - destruct hk as [-> | e]; [|discriminate]. eexists. eexists.
      split; reflexivity.
    - eexists. eexists. split; reflexivity. }
  destruct HX as (d & X' & EX & Ed).
  assert (lX : length X = Datatypes.S (length X')) by (rewrite EX; reflexivity).
  set (Q := if keepd then repeat (1, true) (nsl sP) else []).
  assert (lQ : length (Q ++ X) = (if keepd then nsl sP else 0) + length X).
  { rewrite app_length. f_equal. unfold Q. destruct keepd; [apply repeat_length | reflexivity]. }
  replace (length (Q ++ X) =? 0) with false by (symmetry; apply Nat.eqb_neq; lia).
  replace (length (Q ++ X) <? length X) with false by (symmetry; apply Nat.ltb_ge; lia).
  cbn [orb].
  assert (N : nth (length (Q ++ X) - length X) (Q ++ X) (0, false) = d).
  { rewrite lQ. replace ((if keepd then nsl sP else 0) + length X - length X)
      with (length Q).
    - rewrite app_nth2 by lia. rewrite Nat.sub_diag, EX. reflexivity.
    - unfold Q. destruct keepd; [rewrite repeat_length|]; cbn [length]; lia. }
  rewrite N.
  set (x' := if known_one d then Zero else Loop k).
  assert (Z0 : b = true -> x' = Zero).
  { intros ->. unfold x'. rewrite Ed. reflexivity. }
  assert (XN : b = false -> At (or_else a 0) (or_else c 1) x' = new_index n kn a b0 c k).
  { intros ->. unfold x', new_index. rewrite Ed. reflexivity. }
  assert (ARG : forall args y,
     process args ax keepd = Some (repeat All (nsl sP) ++ [y], next_axes (nsl sP) b ax) ->
     into a c y = Some (if b then All else new_index n kn a b0 c k) ->
     getitem (Red (DP ++ (n, kn) :: DS) (sP ++ Sl a b0 c :: sS) (Some ax) keepd) args =
     Some (Red (DP ++ (n, kn) :: DS)
          (map blank sP ++ (if b then All else new_index n kn a b0 c k) :: sS)
          (Some (next_axes (nsl sP) b ax)) keepd)).
  { intros args y hp hi. unfold getitem. cbn [axes keep dims subs]. rewrite hp.
    rewrite shape_app by exact lP. rewrite !app_length, repeat_length.
    cbn [shape length].
    replace (nsl sP + 1 <=? length (shape DP sP) + Datatypes.S (length (shape DS sS)))
      with true by (symmetry; apply Nat.leb_le; lia).
    rewrite (merge_prefix _ _ _ hP). cbn [merge]. rewrite hi, merge_nil.
    cbn [option_map]. unfold make.
    rewrite (literal_ok _ _ _ (next_ok _ _ _ _ hax)). destruct keepd; reflexivity. }
  assert (IN : b = false -> into a c (At 0 1 x') = Some (new_index n kn a b0 c k)).
  { intros e. rewrite <- (XN e). cbn [into]. rewrite Nat.mul_0_r, Nat.add_0_r, Nat.mul_1_r.
    reflexivity. }
  destruct keepd.
  - assert (E : (if length X <? length (Q ++ X)
       then getitem (Red (DP ++ (n, kn) :: DS) (sP ++ Sl a b0 c :: sS) (Some ax) true)
          (repeat All (length (Q ++ X) - length X) ++ [At 0 1 x'])
       else getitem (Red (DP ++ (n, kn) :: DS) (sP ++ Sl a b0 c :: sS) (Some ax) true)
          [At 0 1 x']) =
       getitem (Red (DP ++ (n, kn) :: DS) (sP ++ Sl a b0 c :: sS) (Some ax) true)
          (repeat All (nsl sP) ++ [At 0 1 x'])).
    { rewrite lQ. replace (nsl sP + length X - length X) with (nsl sP) by lia.
      destruct (Nat.ltb_spec (length X) (nsl sP + length X)) as [l|l]; [reflexivity|].
      replace (nsl sP) with 0 by lia. reflexivity. }
    rewrite E.
    eapply ARG.
    + apply (process_keep _ _ _ _ _ hax Z0).
    + destruct b; [apply (whole_into n a b0 c); apply hw; reflexivity|].
      apply IN. reflexivity.
  - destruct hk as [e | ->]; [discriminate|].
    replace (length X <? length (Q ++ X)) with false
      by (symmetry; apply Nat.ltb_ge; lia).
    eapply ARG.
    + apply (process_drop _ _ _ _ hax).
    + apply IN. reflexivity.
Qed.

(** ** All the indices *)

Inductive fin (keepd : bool) : list dim -> list sub -> list bool -> nat ->
    list sub -> Prop :=
| fin_nil : forall k, fin keepd [] [] [] k []
| fin_at : forall d D p q x s f k s', fin keepd D s f k s' ->
    fin keepd (d :: D) (At p q x :: s) f k (At p q x :: s')
| fin_same : forall n kn D a b c s f k s',
    fin keepd D s f (if keepd then Datatypes.S k else k) s' ->
    fin keepd ((n, kn) :: D) (Sl a b c :: s) (true :: f) k (Sl a b c :: s')
| fin_whole : forall n kn D a b c a' b' c' s f k s',
    whole n (Sl a b c) -> whole n (Sl a' b' c') ->
    fin keepd D s f (if keepd then Datatypes.S k else k) s' ->
    fin keepd ((n, kn) :: D) (Sl a b c :: s) (true :: f) k (Sl a' b' c' :: s')
| fin_free : forall n kn D a b c s f k s',
    fin keepd D s f (Datatypes.S k) s' ->
    fin keepd ((n, kn) :: D) (Sl a b c :: s) (false :: f) k
      (new_index n kn a b c k :: s').

Lemma fin_refl : forall D s f k, length s = length D -> length f = nsl s ->
  length (oshape false f (shape D s)) = 0 -> fin false D s f k s.
Proof.
  induction D as [|[n kn] D IH]; intros s f k e ef h; destruct s as [|x s];
    try discriminate.
  - destruct f; [constructor | discriminate].
  - cbn in e. destruct x as [p q x|a b c].
    + constructor. apply IH; [congruence | exact ef | exact h].
    + destruct f as [|fb f]; [discriminate|]. cbn [nsl length] in ef.
      cbn [shape oshape] in h. destruct fb; [|discriminate].
      constructor. apply IH; [congruence | congruence | exact h].
Qed.

Lemma nsl_app : forall s t, nsl (s ++ t) = nsl s + nsl t.
Proof.
  induction s as [|x s IH]; intros t; [reflexivity|].
  destruct x; cbn [app nsl]; rewrite IH; reflexivity.
Qed.

Lemma nsl_blank : forall s, nsl (map blank s) = nsl s.
Proof.
  induction s as [|x s IH]; [reflexivity|].
  destruct x; cbn [map blank nsl All]; rewrite IH; reflexivity.
Qed.

Lemma all_true : forall f S, Forall (fun x => x = true) f ->
  length (oshape false f S) = 0.
Proof.
  induction f as [|b f IH]; intros S h; [reflexivity|].
  inversion h; subst. destruct S; [reflexivity|]. cbn [oshape]. apply IH. assumption.
Qed.

Lemma unroll_right : forall keepd DS sS fS DP sP ax k,
  sim DP sP sP -> length sS = length DS -> length fS = nsl sS ->
  axis_ok ax (repeat true (nsl sP) ++ fS) ->
  whole_slices keepd DS sS fS ->
  exists sP' s' ax',
    unroll (Red (DP ++ DS) (sP ++ sS) (Some ax) keepd)
      (length (oshape keepd fS (shape DS sS))) k =
    Some (Red (DP ++ DS) (sP' ++ s') (Some ax') keepd) /\
    sim DP sP sP' /\ fin keepd DS sS fS k s'.
Proof.
  intros keepd. induction DS as [|[n kn] DS IH];
    intros sS fS DP sP ax k hP eS ef hax hw.
  - destruct sS; [|discriminate]. destruct fS; [|discriminate].
    exists sP, [], ax. split; [reflexivity|]. split; [exact hP | constructor].
  - destruct sS as [|x sS]; [discriminate|]. cbn in eS.
    assert (lP : length sP = length DP) by apply (sim_length _ _ _ hP).
    destruct x as [p q x|a b c].
    + destruct (IH sS fS (DP ++ [(n, kn)]) (sP ++ [At p q x]) ax k)
        as (sP' & s' & ax' & h1 & h2 & h3).
      * apply sim_app; [exact hP | constructor; constructor].
      * congruence.
      * exact ef.
      * rewrite nsl_app. cbn [nsl]. rewrite Nat.add_0_r. exact hax.
      * exact hw.
      * destruct (sim_snoc _ _ _ _ _ lP h2) as (l1 & y & -> & h4 & h5).
        inversion h5; subst.
        exists l1, (At p q x :: s'), ax'.
        rewrite <- !app_assoc in h1. cbn [app] in h1.
        split; [exact h1|]. split; [exact h4|]. constructor. exact h3.
    + destruct fS as [|fb fS]; [discriminate|]. cbn [length nsl] in ef.
      assert (ef' : length fS = nsl sS) by congruence.
      assert (eS' : length sS = length DS) by congruence.
      destruct fb.
      * cbn [whole_slices] in hw. destruct hw as [hd hw].
        destruct keepd eqn:EK.
        -- assert (W : whole n (Sl a b c)) by (destruct hd as [h|[h _]]; [exact h | discriminate]).
           assert (INS := insert_right true true DP sP n kn a b c DS sS fS ax k
                     hP (fun _ => W) (or_introl eq_refl) eS' ef' hax).
           cbn [shape oshape length] in INS |- *. cbn [unroll].
           rewrite INS.
           destruct (IH sS fS (DP ++ [(n, kn)]) (map blank sP ++ [All])
                       (next_axes (nsl sP) true ax) (Datatypes.S k))
             as (sP' & s' & ax' & h1 & h2 & h3).
           ++ apply sim_app; [exact (sim_refl_right _ _ _ (sim_blank _ _ _ hP))|].
              constructor; [repeat split | repeat split | constructor].
           ++ exact eS'.
           ++ exact ef'.
           ++ rewrite nsl_app, nsl_blank. cbn [nsl All].
              replace (nsl sP + 1) with (Datatypes.S (nsl sP)) by lia.
              cbn [repeat]. rewrite repeat_cons, <- app_assoc. exact (next_ok _ _ _ _ hax).
           ++ exact hw.
           ++ destruct (sim_snoc _ _ _ _ _ ltac:(rewrite map_length; exact lP) h2)
                as (l1 & y & -> & h4 & h5).
              inversion h5; subst.
              exists l1, (Sl a' b' c' :: s'), ax'.
              rewrite <- !app_assoc in h1. cbn [app] in h1.
              split; [exact h1|]. split.
              ** eapply sim_trans; [apply (sim_blank _ _ _ hP) | exact h4].
              ** apply fin_whole; assumption.
        -- destruct (length (oshape false (true :: fS) (shape ((n, kn) :: DS) (Sl a b c :: sS))))
             as [|p'] eqn:EP.
           ++ exists sP, (Sl a b c :: sS), ax. split; [reflexivity|].
              split; [exact hP|]. apply fin_refl; [cbn; congruence | cbn; congruence | exact EP].
           ++ assert (W : whole n (Sl a b c)).
              { destruct hd as [h|[_ h]]; [exact h|]. exfalso.
                cbn [shape oshape] in EP. rewrite (all_true _ _ h) in EP. discriminate. }
              destruct (IH sS fS (DP ++ [(n, kn)]) (sP ++ [Sl a b c]) ax k)
                as (sP' & s' & ax' & h1 & h2 & h3).
              ** apply sim_app; [exact hP | constructor; [exact W | exact W | constructor]].
              ** exact eS'.
              ** exact ef'.
              ** rewrite nsl_app. cbn [nsl].
                 replace (nsl sP + 1) with (Datatypes.S (nsl sP)) by lia.
                 cbn [repeat]. rewrite repeat_cons, <- app_assoc. exact hax.
              ** exact hw.
              ** destruct (sim_snoc _ _ _ _ _ lP h2) as (l1 & y & -> & h4 & h5).
                 inversion h5; subst.
                 exists l1, (Sl a' b' c' :: s'), ax'.
                 rewrite <- !app_assoc in h1. cbn [app] in h1.
                 cbn [shape oshape] in EP. rewrite EP in h1.
                 split; [exact h1|]. split; [exact h4|].
                 apply fin_whole; assumption.
      * cbn [whole_slices] in hw.
        assert (INS := insert_right keepd false DP sP n kn a b c DS sS fS ax k
                     hP ltac:(discriminate) (or_intror eq_refl) eS' ef' hax).
        cbn [shape oshape length] in INS |- *. cbn [unroll].
        rewrite INS.
        destruct (IH sS fS (DP ++ [(n, kn)]) (map blank sP ++ [new_index n kn a b c k])
                    (next_axes (nsl sP) false ax) (Datatypes.S k))
          as (sP' & s' & ax' & h1 & h2 & h3).
        -- apply sim_app; [exact (sim_refl_right _ _ _ (sim_blank _ _ _ hP))|].
           constructor. constructor.
        -- exact eS'.
        -- exact ef'.
        -- rewrite nsl_app, nsl_blank. cbn [nsl new_index].
           rewrite Nat.add_0_r. exact (next_ok _ _ _ _ hax).
        -- exact hw.
        -- destruct (sim_snoc _ _ _ _ _ ltac:(rewrite map_length; exact lP) h2)
             as (l1 & y & -> & h4 & h5).
           inversion h5; subst.
           exists l1, (new_index n kn a b c k :: s'), ax'.
           rewrite <- !app_assoc in h1. cbn [app] in h1.
           split; [exact h1|]. split.
           ++ eapply sim_trans; [apply (sim_blank _ _ _ hP) | exact h4].
           ++ apply fin_free. exact h3.
Qed.

(** ** The elements *)

Fixpoint gl (keepd : bool) (D : list dim) (s : list sub) (f : list bool)
    (i : list nat) : list (list nat) :=
  match D, s with
  | _ :: D', At _ _ _ :: s' => gl keepd D' s' f i
  | (n, _) :: D', Sl a b c :: s' =>
      match f with
      | true :: f' =>
          flat_map
            (fun j => map (cons j)
                        (gl keepd D' s' f' (if keepd then tl i else i)))
            (seq 0 (size n a b c))
      | false :: f' => map (cons (hd 0 i)) (gl keepd D' s' f' (tl i))
      | [] => [[]]
      end
  | _, _ => [[]]
  end.

Lemma size_whole : forall n a b c, whole n (Sl a b c) -> size n a b c = n.
Proof.
  intros n a b c (ha & hb & hc). unfold size. rewrite ha, hb, Nat.sub_0_r.
  destruct c as [k|]; [|reflexivity]. cbn in hc. subst k.
  cbn [Nat.sub]. rewrite Nat.add_0_r. apply Nat.div_1_r.
Qed.

Lemma size_positions : forall n kn s, written n s ->
  match s with
  | Sl a b c => size n a b c = length (positions n a b c)
  | At _ _ _ => kn = kn :> bool
  end.
Proof.
  intros n kn [p q x|a b c] w; [reflexivity|].
  destruct w as (h1 & h2 & h3). unfold positions, size.
  set (st := or_else a 0) in *. set (sp := or_else b n) in *.
  set (m := match c with None => sp - st | Some k => (sp - st + (k - 1)) / k end).
  assert (K : or_else c 1 <> 0).
  { destruct c as [k|]; cbn; [|lia]. intros ->. apply h3. reflexivity. }
  assert (M : forall j, (st + or_else c 1 * j <? sp) = (j <? m)).
  { intros j. unfold m. destruct c as [k|]; cbn [or_else] in *.
    - destruct (Nat.ltb_spec (st + k * j) sp) as [l|l];
        destruct (Nat.ltb_spec j ((sp - st + (k - 1)) / k)) as [l2|l2];
        try reflexivity; exfalso.
      + assert (X : Datatypes.S j <= (sp - st + (k - 1)) / k); [|lia].
        apply Nat.div_le_lower_bound; [exact K|]. nia.
      + assert (X := Nat.div_lt_upper_bound (sp - st + (k - 1)) k (Datatypes.S j) K).
        assert (Y : (sp - st + (k - 1)) / k < Datatypes.S j) by (apply X; nia). lia.
    - destruct (Nat.ltb_spec (st + 1 * j) sp); destruct (Nat.ltb_spec j (sp - st));
        try reflexivity; lia. }
  assert (L : m <= n).
  { unfold m. destruct c as [k|]; [|lia].
    assert (X : (sp - st + (k - 1)) / k <= sp - st); [|lia].
    cbn [or_else] in K. apply Nat.lt_succ_r. apply Nat.div_lt_upper_bound; [exact K|]. nia. }
  assert (F : filter (fun j => st + or_else c 1 * j <? sp) (seq 0 n) = seq 0 m).
  { rewrite (filter_ext _ (fun j => j <? m)) by exact M.
    clearbody m. replace n with (m + (n - m)) by lia.
    rewrite seq_app, filter_app. cbn [Nat.add].
    assert (F1 : forall l, (forall x, In x l -> x < m) -> filter (fun j => j <? m) l = l).
    { induction l as [|x l IH]; intros hl; [reflexivity|]. cbn [filter].
      replace (x <? m) with true by (symmetry; apply Nat.ltb_lt; apply hl; left; reflexivity).
      f_equal. apply IH. intros y i. apply hl. right. exact i. }
    assert (F2 : forall l, (forall x, In x l -> m <= x) -> filter (fun j => j <? m) l = []).
    { induction l as [|x l IH]; intros hl; [reflexivity|]. cbn [filter].
      replace (x <? m) with false by (symmetry; apply Nat.ltb_ge; apply hl; left; reflexivity).
      apply IH. intros y i. apply hl. right. exact i. }
    rewrite F1, F2, app_nil_r; [reflexivity | |].
    - intros x i. apply in_seq in i. lia.
    - intros x i. apply in_seq in i. lia. }
  rewrite F, seq_length. unfold m. reflexivity.
Qed.

Lemma view_shape_right : forall D s, Forall2 (fun d x => written (fst d) x) D s ->
  map fst (shape D s) = view_shape D s.
Proof.
  induction 1 as [|[n kn] x D s w h IH]; [reflexivity|].
  cbn [shape view_shape]. destruct x as [p q x|a b c]; [exact IH|].
  cbn [map fst]. f_equal; [|exact IH].
  exact (size_positions n kn (Sl a b c) w).
Qed.

Lemma map_flat_map : forall (X Y W : Type) (g : Y -> W) (h : X -> list Y) l,
  map g (flat_map h l) = flat_map (fun x => map g (h x)) l.
Proof.
  intros X Y W g h. induction l as [|x l IH]; [reflexivity|].
  cbn [flat_map]. rewrite map_app, IH. reflexivity.
Qed.

Lemma cells_right : forall keepd D s f k s', fin keepd D s f k s' ->
  forall e i LS, (forall j, e (k + j) = nth j i 0) ->
  fits keepd f (map fst (shape D s)) LS -> in_shape LS i ->
  Forall2 (fun d x => written (fst d) x) D s ->
  cells D s' e = map (source s) (gl keepd D s f i).
Proof.
  induction 1 as [k|d D p q x s f k s' h IH|n kn D a b c s f k s' h IH
                  |n kn D a b c a' b' c' s f k s' w w' h IH
                  |n kn D a b c s f k s' h IH]; intros e i LS he hf hi hw.
  - reflexivity.
  - inversion hw; subst. destruct d as [n kn]. cbn [cells gl].
    destruct H2 as [-> _]. cbn [ival]. rewrite Nat.mul_0_r, Nat.add_0_r.
    cbn [shape] in hf. rewrite (IH e i LS he hf hi H4), map_map. reflexivity.
  - inversion hw; subst. cbn [cells gl]. rewrite map_flat_map.
    apply flat_map_ext. intros j. rewrite map_map.
    assert (E : cells D s' e = map (source s) (gl keepd D s f (if keepd then tl i else i))).
    { cbn [shape map fits] in hf. destruct keepd.
      - destruct LS as [|l LS]; [contradiction|]. destruct i as [|y i]; [contradiction|].
        apply (IH e i LS); [|exact hf|apply hi|assumption].
        intros j0. specialize (he (Datatypes.S j0)).
        rewrite Nat.add_succ_r in he. exact he.
      - apply (IH e i LS); assumption. }
    rewrite E, map_map. reflexivity.
  - inversion hw; subst. cbn [cells gl]. rewrite map_flat_map.
    rewrite (size_whole _ _ _ _ w), (size_whole _ _ _ _ w').
    apply flat_map_ext. intros j. rewrite map_map.
    assert (E : cells D s' e = map (source s) (gl keepd D s f (if keepd then tl i else i))).
    { cbn [shape map fits] in hf. destruct keepd.
      - destruct LS as [|l LS]; [contradiction|]. destruct i as [|y i]; [contradiction|].
        apply (IH e i LS); [|exact hf|apply hi|assumption].
        intros j0. specialize (he (Datatypes.S j0)).
        rewrite Nat.add_succ_r in he. exact he.
      - apply (IH e i LS); assumption. }
    rewrite E, map_map. cbn [source].
    destruct w as (wa & _ & wc). destruct w' as (wa' & _ & wc').
    rewrite wa, wc, wa', wc'. reflexivity.
  - inversion hw; subst. cbn [cells gl new_index shape map fits fst] in *.
    destruct LS as [|l LS]; [contradiction|]. destruct i as [|y i]; [contradiction|].
    destruct hf as [-> hf]. cbn [in_shape] in hi. destruct hi as [hy hi].
    cbn [hd tl]. rewrite (IH e i LS); [|intros j; specialize (he (Datatypes.S j));
       rewrite Nat.add_succ_r in he; exact he | exact hf | exact hi | assumption].
    rewrite !map_map.
    assert (V : ival e (if known_one (size n a b c, kn) then Zero else Loop k) = y).
    { destruct (known_one (size n a b c, kn)) eqn:K.
      - unfold known_one in K. apply andb_true_iff in K. destruct K as [_ K].
        apply Nat.eqb_eq in K. cbn [fst] in K. cbn [ival]. lia.
      - cbn [ival]. specialize (he 0). rewrite Nat.add_0_r in he. exact he. }
    rewrite V. reflexivity.
Qed.

Lemma nodup_map_cons : forall (x : nat) l, NoDup l -> NoDup (map (cons x) l).
Proof.
  intros x l h. apply FinFun.Injective_map_NoDup; [|exact h].
  intros u v e. congruence.
Qed.

Lemma nodup_flat : forall (g : nat -> list (list nat)) l, NoDup l ->
  (forall j, NoDup (g j)) -> NoDup (flat_map (fun j => map (cons j) (g j)) l).
Proof.
  intros g. induction l as [|x l IH]; intros h hg; [constructor|].
  inversion h as [|? ? nx nl]; subst. cbn [flat_map]. apply nodup_app.
  - apply nodup_map_cons. apply hg.
  - apply IH; assumption.
  - intros v i j. apply in_map_iff in i. destruct i as (u & <- & _).
    apply in_flat_map in j. destruct j as (y & iy & j). apply in_map_iff in j.
    destruct j as (u' & e & _). injection e as e1 _. subst y. exact (nx iy).
Qed.

Lemma gl_group : forall keepd D s f i LS, length s = length D ->
  length f = nsl s ->
  fits keepd f (map fst (shape D s)) LS -> in_shape LS i ->
  group keepd f (map fst (shape D s)) (read_at keepd f i) (gl keepd D s f i).
Proof.
  intros keepd. induction D as [|[n kn] D IH]; intros s f i LS es ef hf hi;
    destruct s as [|x s]; try discriminate.
  - destruct f; [|discriminate]. cbn. split.
    + constructor; [intros [] | constructor].
    + intros v. cbn [read_at]. split.
      * intros [<-|[]]. split; [exact Logic.I | reflexivity].
      * intros [h _]. destruct v; [left; reflexivity | contradiction].
  - cbn in es. destruct x as [p q x|a b c].
    + cbn [shape gl] in *. apply (IH s f i LS); [congruence | exact ef | exact hf | exact hi].
    + destruct f as [|b0 f]; [discriminate|]. cbn [nsl length] in ef.
      cbn [shape map fst] in *. cbn [gl]. destruct b0.
      * cbn [fits] in hf.
        assert (G : group keepd f (map fst (shape D s))
                      (read_at keepd f (if keepd then tl i else i))
                      (gl keepd D s f (if keepd then tl i else i)) /\
                    (keepd = true -> exists y i', i = y :: i')).
        { destruct keepd.
          - destruct LS as [|l LS]; [contradiction|].
            destruct i as [|y i]; [contradiction|]. split.
            + apply (IH s f i LS); [congruence | congruence | exact hf | apply hi].
            + intros _. exists y, i. reflexivity.
          - split; [|discriminate].
            apply (IH s f i LS); [congruence | congruence | exact hf | exact hi]. }
        destruct G as [[n1 m1] ne]. split.
        -- apply (nodup_flat (fun _ => gl keepd D s f (if keepd then tl i else i)));
             [apply seq_NoDup | intros _; exact n1].
        -- intros v. rewrite in_flat_map. split.
           ++ intros (j & ij & iv). apply in_seq in ij. apply in_map_iff in iv.
              destruct iv as (v' & <- & iv). apply m1 in iv. destruct iv as [iv bv].
              split; [split; [lia | exact iv]|].
              cbn [read_at belongs]. destruct keepd; cbn [negb andb].
              ** destruct (ne eq_refl) as (y & i' & ->). exact bv.
              ** exact bv.
           ++ intros [iv bv]. destruct v as [|j v]; [contradiction|].
              destruct iv as [hj iv]. exists j. split; [apply in_seq; lia|].
              apply in_map. apply m1. split; [exact iv|].
              cbn [read_at belongs] in bv. destruct keepd; cbn [negb andb] in bv.
              ** destruct (ne eq_refl) as (y & i' & ->). exact bv.
              ** exact bv.
      * cbn [fits] in hf.
        destruct LS as [|l LS]; [contradiction|].
        destruct i as [|y i]; [contradiction|]. destruct hf as [-> hf].
        cbn [in_shape] in hi. destruct hi as [hy hi].
        destruct (IH s f i LS ltac:(congruence) ltac:(congruence) hf hi) as [n1 m1].
        cbn [hd tl]. split; [apply nodup_map_cons; exact n1|].
        intros v. rewrite in_map_iff. cbn [read_at andb]. split.
        -- intros (v' & <- & iv). apply m1 in iv. destruct iv as [iv bv].
           split; [split; [exact hy | exact iv]|]. cbn [belongs].
           rewrite Nat.eqb_refl. exact bv.
        -- intros [iv bv]. destruct v as [|j v]; [contradiction|].
           cbn [belongs] in bv. apply andb_true_iff in bv. destruct bv as [e bv].
           apply Nat.eqb_eq in e. subst j. exists v. split; [reflexivity|].
           apply m1. split; [apply iv | exact bv].
Qed.

(** ** The values *)

Lemma np_value_perm : forall o init l l' v, Permutation l l' ->
  np_value o init l v -> np_value o init l' v.
Proof.
  intros o init l l' v p h. unfold np_value in *.
  assert (P : Permutation (given init ++ l) (given init ++ l'))
    by (apply Permutation_app_head; exact p).
  cbv zeta in *. destruct o.
  - rewrite h. clear -P. induction P; cbn [total fold_right] in *.
    + reflexivity.
    + unfold total in IHP. rewrite IHP. reflexivity.
    + lia.
    + congruence.
  - destruct h as [h1 h2]. split; [eapply Permutation_in; eassumption|].
    intros x i. apply h2. eapply Permutation_in; [apply Permutation_sym; exact P | exact i].
  - destruct h as [h1 h2]. split; [eapply Permutation_in; eassumption|].
    intros x i. apply h2. eapply Permutation_in; [apply Permutation_sym; exact P | exact i].
Qed.

Lemma fold_sum : forall vals v, fold_left (apply Sum) vals v = (v + total vals)%Z.
Proof.
  induction vals as [|x l IH]; intros v; cbn [fold_left total fold_right apply].
  - lia.
  - rewrite IH. unfold total. lia.
Qed.

Lemma fold_min : forall vals v,
  In (fold_left (apply Min) vals v) (v :: vals) /\
  (forall x, In x (v :: vals) -> fold_left (apply Min) vals v <= x)%Z.
Proof.
  induction vals as [|y l IH]; intros v.
  - cbn. split; [left; reflexivity|]. intros x [<-|[]]. lia.
  - cbn [fold_left apply]. destruct (IH (Z.min v y)) as [h1 h2]. split.
    + destruct h1 as [h1|h1].
      * rewrite <- h1. destruct (Z.min_spec v y) as [[_ ->]|[_ ->]];
          [left; reflexivity | right; left; reflexivity].
      * right. right. exact h1.
    + assert (B := h2 (Z.min v y) (or_introl eq_refl)).
      intros x [<-|[<-|i]]; [lia | lia |]. apply h2. right. exact i.
Qed.

Lemma fold_max : forall vals v,
  In (fold_left (apply Max) vals v) (v :: vals) /\
  (forall x, In x (v :: vals) -> x <= fold_left (apply Max) vals v)%Z.
Proof.
  induction vals as [|y l IH]; intros v.
  - cbn. split; [left; reflexivity|]. intros x [<-|[]]. lia.
  - cbn [fold_left apply]. destruct (IH (Z.max v y)) as [h1 h2]. split.
    + destruct h1 as [h1|h1].
      * rewrite <- h1. destruct (Z.max_spec v y) as [[_ ->]|[_ ->]];
          [right; left; reflexivity | left; reflexivity].
      * right. right. exact h1.
    + assert (B := h2 (Z.max v y) (or_introl eq_refl)).
      intros x [<-|[<-|i]]; [lia | lia |]. apply h2. right. exact i.
Qed.

Lemma fold_np : forall o init vals v, start o init vals = Some v ->
  np_value o init vals (fold_left (apply o) vals v).
Proof.
  intros o init vals v h. unfold np_value. cbv zeta.
  destruct init as [i|]; cbn [start given app] in *.
  - injection h as ->. destruct o.
    + rewrite fold_sum. reflexivity.
    + apply fold_min.
    + apply fold_max.
  - destruct o.
    + injection h as <-. rewrite fold_sum. lia.
    + destruct vals as [|x l]; [discriminate|]. cbn in h. injection h as ->.
      destruct (fold_min (v :: l) v) as [h1 h2]. split.
      * destruct h1 as [h1|h1]; [rewrite <- h1; left; reflexivity | exact h1].
      * intros x i. apply h2. right. exact i.
    + destruct vals as [|x l]; [discriminate|]. cbn in h. injection h as ->.
      destruct (fold_max (v :: l) v) as [h1 h2]. split.
      * destruct h1 as [h1|h1]; [rewrite <- h1; left; reflexivity | exact h1].
      * intros x i. apply h2. right. exact i.
Qed.

Lemma extreme_min : forall vals v, extreme Min vals = Some v ->
  In v vals /\ (forall x, In x vals -> v <= x)%Z.
Proof.
  induction vals as [|y l IH]; intros v h; [discriminate|]. cbn [extreme] in h.
  destruct (extreme Min l) as [w|] eqn:E.
  - injection h as <-. destruct (IH w eq_refl) as [h1 h2]. cbn [apply]. split.
    + destruct (Z.min_spec y w) as [[_ ->]|[_ ->]]; [left; reflexivity | right; exact h1].
    + intros x [<-|i]; [lia|]. specialize (h2 x i). lia.
  - injection h as <-. destruct l as [|z l].
    + split; [left; reflexivity|]. intros x [<-|[]]. lia.
    + cbn [extreme] in E. destruct (extreme Min l); discriminate.
Qed.

Lemma extreme_max : forall vals v, extreme Max vals = Some v ->
  In v vals /\ (forall x, In x vals -> x <= v)%Z.
Proof.
  induction vals as [|y l IH]; intros v h; [discriminate|]. cbn [extreme] in h.
  destruct (extreme Max l) as [w|] eqn:E.
  - injection h as <-. destruct (IH w eq_refl) as [h1 h2]. cbn [apply]. split.
    + destruct (Z.max_spec y w) as [[_ ->]|[_ ->]]; [right; exact h1 | left; reflexivity].
    + intros x [<-|i]; [lia|]. specialize (h2 x i). lia.
  - injection h as <-. destruct l as [|z l].
    + split; [left; reflexivity|]. intros x [<-|[]]. lia.
    + cbn [extreme] in E. destruct (extreme Max l); discriminate.
Qed.

Lemma extreme_none : forall o vals, extreme o vals = None -> vals = [].
Proof.
  intros o [|x l] h; [reflexivity|]. cbn [extreme] in h.
  destruct (extreme o l); discriminate.
Qed.

Lemma f_np : forall o init vals v, f_value o init vals = Some v ->
  np_value o init vals v.
Proof.
  intros o init vals v h. unfold np_value. cbv zeta. destruct o; cbn [f_value] in h.
  - injection h as <-. destruct init; reflexivity.
  - destruct init as [i|].
    + destruct (extreme Min vals) as [w|] eqn:E; injection h as <-.
      * destruct (extreme_min _ _ E) as [h1 h2]. cbn [given app apply]. split.
        -- destruct (Z.min_spec i w) as [[_ ->]|[_ ->]]; [left; reflexivity | right; exact h1].
        -- intros x [<-|k]; [lia|]. specialize (h2 x k). lia.
      * apply extreme_none in E. subst vals. cbn. split; [left; reflexivity|].
        intros x [<-|[]]. lia.
    + exact (extreme_min _ _ h).
  - destruct init as [i|].
    + destruct (extreme Max vals) as [w|] eqn:E; injection h as <-.
      * destruct (extreme_max _ _ E) as [h1 h2]. cbn [given app apply]. split.
        -- destruct (Z.max_spec i w) as [[_ ->]|[_ ->]]; [right; exact h1 | left; reflexivity].
        -- intros x [<-|k]; [lia|]. specialize (h2 x k). lia.
      * apply extreme_none in E. subst vals. cbn. split; [left; reflexivity|].
        intros x [<-|[]]. lia.
    + exact (extreme_max _ _ h).
Qed.

(** ** The statement *)

Lemma locb_refl : forall l, locb l l = true.
Proof.
  intros [c|c]; cbn; destruct (list_eq_dec Nat.eq_dec c c); congruence.
Qed.

Lemma locb_eq : forall x y, locb x y = true -> x = y.
Proof.
  intros [c|c] [d|d]; cbn; try discriminate;
    destruct (list_eq_dec Nat.eq_dec c d); congruence.
Qed.

Lemma put_same : forall m t v, put m t v t = v.
Proof. intros m t v. unfold put. rewrite locb_refl. reflexivity. Qed.

Lemma put_other : forall m t v l, l <> t -> put m t v l = m l.
Proof.
  intros m t v l h. unfold put. destruct (locb l t) eqn:E; [|reflexivity].
  apply locb_eq in E. contradiction.
Qed.

Lemma fold_code : forall o t cs m, (forall c, In c cs -> A c <> t) ->
  (fold_left (fun m c => put m t (apply o (m t) (m (A c)))) cs m) t =
    fold_left (apply o) (map (fun c => m (A c)) cs) (m t) /\
  forall l, l <> t ->
    (fold_left (fun m c => put m t (apply o (m t) (m (A c)))) cs m) l = m l.
Proof.
  intros o t. induction cs as [|c cs IH]; intros m h.
  - split; [reflexivity | intros; reflexivity].
  - cbn [fold_left map].
    destruct (IH (put m t (apply o (m t) (m (A c))))) as [h1 h2].
    { intros c' i. apply h. right. exact i. }
    split.
    + rewrite h1, put_same. f_equal. apply map_ext_in. intros c' i.
      apply put_other. apply h. right. exact i.
    + intros l n. rewrite h2 by exact n. apply put_other. exact n.
Qed.

Lemma code_right : forall l o init r e t m,
  has_slice (subs r) = true ->
  (forall c, In c (cells (dims r) (subs r) e) -> A c <> t) ->
  has_value o init (cells (dims r) (subs r) e) ->
  exists m', (match l with C => c_code | F => f_code end) o init r e t m = Some m' /\
    (forall x, x <> t -> m' x = m x) /\
    np_value o init (map (fun c => m (A c)) (cells (dims r) (subs r) e)) (m' t).
Proof.
  intros l o init r e t m hs hc hv. destruct l.
  - unfold c_code. rewrite hs.
    set (cs := cells (dims r) (subs r) e) in *. cbv zeta.
    destruct (start o init (map (fun c => m (A c)) cs)) as [v|] eqn:E.
    + eexists. split; [reflexivity|].
      destruct (fold_code o t cs (put m t v) hc) as [h1 h2]. split.
      * intros x n. rewrite h2 by exact n. apply put_other. exact n.
      * rewrite h1, put_same.
        rewrite (map_ext_in (fun c => put m t v (A c)) (fun c => m (A c)))
          by (intros c i; apply put_other; apply hc; exact i).
        apply fold_np. exact E.
    + exfalso. destruct init as [i|]; [discriminate|].
      destruct hv as [-> | [hv | hv]]; [discriminate | congruence|].
      destruct cs as [|c cs]; [congruence|]. destruct o; discriminate.
  - unfold f_code. rewrite hs.
    set (cs := cells (dims r) (subs r) e) in *.
    destruct (f_value o init (map (fun c => m (A c)) cs)) as [v|] eqn:E.
    + eexists. split; [reflexivity|]. split.
      * intros x n. apply put_other. exact n.
      * rewrite put_same. apply f_np. exact E.
    + exfalso.
      destruct hv as [-> | [hv | hv]]; [discriminate | |].
      * destruct init as [i|]; [|congruence]. destruct o; cbn [f_value] in E;
          [discriminate | |]; destruct (extreme _ _); discriminate.
      * destruct o; cbn [f_value] in E; [discriminate | |];
          (destruct init as [i|];
           [destruct (extreme _ _); discriminate |
            apply extreme_none in E; apply map_eq_nil in E; contradiction]).
Qed.

Lemma loops_right : forall code (P : list nat -> Z -> Prop) m0 idxs m,
  (forall c, m (A c) = m0 (A c)) ->
  (forall i m1, In i idxs -> (forall c, m1 (A c) = m0 (A c)) ->
     exists m2, code (env i) (Out i) m1 = Some m2 /\
       (forall x, x <> Out i -> m2 x = m1 x) /\ P i (m2 (Out i))) ->
  exists m', loops code Out idxs m = Some m' /\
    (forall c, m' (A c) = m0 (A c)) /\
    (forall i, In i idxs -> P i (m' (Out i))) /\
    (forall i, ~ In i idxs -> m' (Out i) = m (Out i)).
Proof.
  intros code P m0. induction idxs as [|i idxs IH]; intros m hm hc.
  - exists m. split; [reflexivity|]. split; [exact hm|].
    split; [intros ? [] | reflexivity].
  - cbn [loops].
    destruct (hc i m (or_introl eq_refl) hm) as (m2 & e2 & o2 & p2). rewrite e2.
    destruct (IH m2) as (m' & e' & a' & p' & n').
    + intros c. rewrite o2 by discriminate. apply hm.
    + intros j m1 ij h1. apply hc; [right; exact ij | exact h1].
    + exists m'. split; [exact e'|]. split; [exact a'|]. split.
      * intros j [<-|ij]; [|apply p'; exact ij].
        destruct (in_dec (list_eq_dec Nat.eq_dec) i idxs) as [k|k]; [apply p'; exact k|].
        rewrite (n' i k). exact p2.
      * intros j nj. rewrite n'; [|intros k; apply nj; right; exact k].
        apply o2. intros e. injection e as ->. apply nj. left. reflexivity.
Qed.

Lemma indices_in : forall S i, In i (indices S) <-> in_shape S i.
Proof.
  induction S as [|n S IH]; intros i; cbn [indices in_shape].
  - destruct i; split; intros h.
    + exact Logic.I.
    + left. reflexivity.
    + destruct h as [h|[]]; discriminate.
    + contradiction.
  - rewrite in_flat_map. split.
    + intros (x & ix & h). apply in_map_iff in h. destruct h as (u & <- & h).
      apply in_seq in ix. split; [lia | apply IH; exact h].
    + destruct i as [|x i]; [contradiction|]. intros [hx h]. exists x.
      split; [apply in_seq; lia|]. apply in_map. apply IH. exact h.
Qed.

Lemma in_shape_app : forall S1 S2 i, in_shape (S1 ++ S2) i ->
  exists u v, i = u ++ v /\ in_shape S1 u /\ in_shape S2 v.
Proof.
  induction S1 as [|n S1 IH]; intros S2 i h.
  - exists [], i. split; [reflexivity|]. split; [exact Logic.I | exact h].
  - destruct i as [|x i]; [contradiction|]. destruct h as [hx h].
    destruct (IH S2 i h) as (u & v & -> & h1 & h2).
    exists (x :: u), v. split; [reflexivity|]. split; [split; assumption | exact h2].
Qed.

Lemma in_shape_both : forall S1 S2 u v, in_shape S1 u -> in_shape S2 v ->
  in_shape (S1 ++ S2) (u ++ v).
Proof.
  induction S1 as [|n S1 IH]; intros S2 u v h1 h2; destruct u as [|x u];
    try contradiction; [exact h2|].
  destruct h1 as [hx h1]. split; [exact hx | apply IH; assumption].
Qed.

Lemma in_shape_length : forall S i, in_shape S i -> length i = length S.
Proof.
  induction S as [|n S IH]; intros i h; destruct i as [|x i]; try contradiction;
    [reflexivity|]. cbn. f_equal. apply IH. apply h.
Qed.

Lemma unroll_skip : forall r m k,
  unroll r (m + length (out_shape r)) k =
  unroll r (length (out_shape r)) (k + m).
Proof.
  intros r. induction m as [|m IH]; intros k.
  - rewrite Nat.add_0_r. reflexivity.
  - cbn [Nat.add unroll]. unfold insert at 1. cbv zeta.
    replace (length (out_shape r) <? Datatypes.S (m + length (out_shape r))) with true
      by (symmetry; apply Nat.ltb_lt; lia).
    rewrite orb_true_r. rewrite IH. f_equal. lia.
Qed.

Lemma fits_length : forall keepd f S LS, length f = length S ->
  fits keepd f (map fst S) LS -> length LS = length (oshape keepd f S).
Proof.
  intros keepd. induction f as [|b f IH]; intros S LS e h;
    destruct S as [|d S]; try discriminate.
  - cbn in h. subst. reflexivity.
  - cbn in e. cbn [map fits oshape] in *. destruct b.
    + destruct keepd.
      * destruct LS as [|l LS]; [contradiction|]. cbn [length]. f_equal.
        apply IH; [congruence | exact h].
      * apply IH; [congruence | exact h].
    + destruct LS as [|l LS]; [contradiction|]. cbn [length]. f_equal.
      apply IH; [congruence | apply h].
Qed.

Lemma literal_axis : forall n l, literal n l = map (axis_of n) l.
Proof.
  intros n l. unfold literal. apply map_ext. intros a. unfold axis_of.
  destruct (a <? 0)%Z; [lia | reflexivity].
Qed.

Lemma flags_ok : forall n l, valid_axes n l ->
  axis_ok (literal n l) (flags n (Some l)).
Proof.
  intros n l [h nd]. rewrite literal_axis. split; [exact nd|].
  intros a. rewrite in_map_iff. split.
  - intros (x & <- & i). specialize (h x i).
    assert (R : (0 <= axis_of n x < Z.of_nat n)%Z).
    { unfold axis_of. destruct (Z.ltb_spec x 0); lia. }
    split; [lia|]. unfold flags.
    rewrite (nth_indep _ false (reduced n (Some l) 0)) by (rewrite map_length, seq_length; lia).
    rewrite map_nth, seq_nth by lia. cbn [reduced]. apply existsb_exists.
    exists x. split; [exact i|]. apply Z.eqb_eq. lia.
  - intros [h0 e]. unfold flags in e.
    destruct (Nat.ltb_spec (Z.to_nat a) n) as [q|q].
    + rewrite (nth_indep _ false (reduced n (Some l) 0)) in e by (rewrite map_length, seq_length; lia).
      rewrite map_nth, seq_nth in e by lia. cbn [reduced] in e. apply existsb_exists in e.
      destruct e as (x & i & e). apply Z.eqb_eq in e. exists x. split; [lia | exact i].
    + rewrite nth_overflow in e by (rewrite map_length, seq_length; lia). discriminate.
Qed.

Lemma flags_length : forall n ax, length (flags n ax) = n.
Proof. intros n ax. unfold flags. rewrite map_length, seq_length. reflexivity. Qed.

Lemma fin_slice : forall keepd D s f k s', fin keepd D s f k s' ->
  In true f -> has_slice s' = true.
Proof.
  induction 1; intros i; try reflexivity.
  - destruct i.
  - cbn. apply IHfin. exact i.
  - cbn. apply IHfin. destruct i as [i|i]; [discriminate | exact i].
Qed.

Lemma forall2_len : forall (X Y : Type) (R : X -> Y -> Prop) l r, Forall2 R l r ->
  length r = length l.
Proof. induction 1; cbn; congruence. Qed.

Lemma make_axes : forall D s l keepd, valid_axes (length (shape D s)) l ->
  (keepd = true -> forall a, In a l -> 0 <= a)%Z ->
  make D s (Some l) keepd =
  Red D s (Some (literal (length (shape D s)) l)) keepd.
Proof.
  intros D s l keepd v h. unfold make. destruct keepd; [|reflexivity].
  f_equal. f_equal. unfold literal. rewrite <- (map_id l) at 1.
  apply map_ext_in. intros a i.
  replace (a <? 0)%Z with false; [reflexivity|]. symmetry. apply Z.ltb_ge.
  apply h; [reflexivity | exact i].
Qed.

(** The reduction with its indices, for any valid call. *)
Lemma unrolled : forall D s ax keepd pre LS,
  valid_call D s ax keepd ->
  fits keepd (flags (length (view_shape D s)) ax) (view_shape D s) LS ->
  exists r', unroll (make D s ax keepd) (length (pre ++ LS)) 0 = Some r' /\
    dims r' = D /\
    fin keepd D s (flags (length (view_shape D s)) ax) (length pre) (subs r') /\
    has_slice (subs r') = true.
Proof.
  intros D s ax keepd pre LS (hw & hax & hs) hf.
  assert (V := view_shape_right _ _ hw). rewrite <- V in *. rewrite map_length in *.
  set (f := flags (length (shape D s)) ax) in *.
  assert (ls : length s = length D) by apply (forall2_len _ _ _ _ _ hw).
  assert (lf : length f = length (shape D s)) by apply flags_length.
  assert (LL := fits_length _ _ _ _ lf hf).
  rewrite app_length, LL.
  assert (lsh := shape_length _ _ ls).
  destruct ax as [l|].
  - destruct hax as (ne & va & nn).
    rewrite (make_axes _ _ _ _ va nn).
    assert (OK : axis_ok (literal (length (shape D s)) l) f) by (apply flags_ok; exact va).
    assert (OS := out_shape_flags D s _ keepd f OK lf).
    rewrite <- OS, unroll_skip, OS. cbn [Nat.add].
    destruct (unroll_right keepd D s f [] [] (literal (length (shape D s)) l) (length pre))
      as (sP' & s' & ax' & h1 & h2 & h3).
    + constructor.
    + exact ls.
    + congruence.
    + exact OK.
    + exact hs.
    + inversion h2; subst. cbn [app] in h1. rewrite h1. eexists.
      split; [reflexivity|]. cbn [dims subs].
      split; [reflexivity|]. split; [exact h3|].
      eapply fin_slice; [exact h3|].
      destruct l as [|a l]; [congruence|]. destruct OK as [_ OK].
      assert (I1 : In (axis_of (length (shape D s)) a) (literal (length (shape D s)) (a :: l)))
        by (rewrite literal_axis; left; reflexivity).
      apply OK in I1. destruct I1 as [_ I1].
      destruct (Nat.ltb_spec (Z.to_nat (axis_of (length (shape D s)) a)) (length f)) as [q|q].
      * rewrite <- I1. apply nth_In. exact q.
      * rewrite nth_overflow in I1 by exact q. discriminate.
  - destruct hax as [-> rk].
    assert (FT : Forall (fun x => x = true) f).
    { unfold f, flags. apply Forall_forall. intros x i. apply in_map_iff in i.
      destruct i as (y & <- & _). reflexivity. }
    rewrite (all_true _ _ FT), Nat.add_0_r.
    assert (E : unroll (make D s None false) (length pre) 0 = Some (make D s None false)).
    { assert (U := unroll_skip (make D s None false) (length pre) 0).
      cbn [out_shape make axes length] in U. rewrite Nat.add_0_r in U. exact U. }
    rewrite E. eexists. split; [reflexivity|]. cbn [make dims subs].
    split; [reflexivity|].
    assert (FI : fin false D s f (length pre) s).
    { apply fin_refl; [exact ls | congruence | apply all_true; exact FT]. }
    split; [exact FI|]. eapply fin_slice; [exact FI|].
    destruct f as [|b f0] eqn:Ef; [cbn in lf; congruence|].
    inversion FT; subst. left. reflexivity.
Qed.

Lemma reduction_right : forall l o initial D s ax keepd pre LS m,
  valid_call D s ax keepd ->
  fits keepd (flags (length (view_shape D s)) ax) (view_shape D s) LS ->
  (forall i g, in_shape LS i ->
     group keepd (flags (length (view_shape D s)) ax) (view_shape D s)
       (read_at keepd (flags (length (view_shape D s)) ax) i) g ->
     has_value o initial g) ->
  exists m',
    statement l o initial D s ax keepd (pre ++ LS) Out m = Some m' /\
    (forall c, m' (A c) = m (A c)) /\
    (forall u i g, in_shape pre u -> in_shape LS i ->
       group keepd (flags (length (view_shape D s)) ax) (view_shape D s)
         (read_at keepd (flags (length (view_shape D s)) ax) i) g ->
       np_value o initial (map (fun v => m (A (source s v))) g)
         (m' (Out (u ++ i)))).
Proof.
  intros l o initial D s ax keepd pre LS m hv hf hval.
  destruct (unrolled D s ax keepd pre LS hv hf) as (r' & hu & hd & hfin & hsl).
  destruct hv as (hw & _ & _).
  assert (V := view_shape_right _ _ hw).
  assert (ls : length s = length D) by apply (forall2_len _ _ _ _ _ hw).
  set (f := flags (length (view_shape D s)) ax) in *.
  assert (lf : length f = nsl s).
  { unfold f. rewrite flags_length, <- V, map_length. apply shape_length. exact ls. }
  assert (GR : forall i, in_shape LS i ->
     group keepd f (view_shape D s) (read_at keepd f i) (gl keepd D s f i)).
  { intros i hi. rewrite <- V. apply (gl_group keepd D s f i LS); [exact ls | exact lf | | exact hi].
    rewrite V. exact hf. }
  assert (CE : forall u i, in_shape pre u -> in_shape LS i ->
     cells (dims r') (subs r') (env (u ++ i)) = map (source s) (gl keepd D s f i)).
  { intros u i hu0 hi. rewrite hd.
    apply (cells_right keepd D s f (length pre) (subs r') hfin _ i LS);
      [|rewrite V; exact hf | exact hi | exact hw].
    intros j. unfold env. rewrite <- (in_shape_length _ _ hu0).
    rewrite app_nth2 by lia. f_equal. lia. }
  unfold statement. rewrite hu.
  destruct (loops_right ((match l with C => c_code | F => f_code end) o initial r')
     (fun ui v => exists u i, ui = u ++ i /\ in_shape pre u /\ in_shape LS i /\
        np_value o initial (map (fun v => m (A (source s v))) (gl keepd D s f i)) v)
     m (indices (pre ++ LS)) m (fun c => eq_refl)) as (m' & h1 & h2 & h3 & _).
  - intros ui m1 iui hm1. apply indices_in in iui.
    destruct (in_shape_app _ _ _ iui) as (u & i & -> & hu0 & hi).
    destruct (code_right l o initial r' (env (u ++ i)) (Out (u ++ i)) m1 hsl)
      as (m2 & e2 & o2 & p2).
    + intros c _. discriminate.
    + rewrite (CE u i hu0 hi). destruct (hval i _ hi (GR i hi)) as [h|[h|h]].
      * left. exact h.
      * right. left. exact h.
      * right. right. intros e. apply map_eq_nil in e. contradiction.
    + exists m2. split; [exact e2|]. split; [exact o2|].
      exists u, i. split; [reflexivity|]. split; [exact hu0|]. split; [exact hi|].
      rewrite (CE u i hu0 hi), map_map in p2.
      rewrite (map_ext (fun v => m1 (A (source s v))) (fun v => m (A (source s v)))) in p2
        by (intros v; apply hm1).
      exact p2.
  - exists m'. split; [exact h1|]. split; [exact h2|].
    intros u i g hu0 hi hg.
    destruct (h3 (u ++ i)) as (u' & i' & e & hu1 & hi' & p).
    { apply indices_in. apply in_shape_both; assumption. }
    assert (EQ : u = u' /\ i = i').
    { assert (L1 := in_shape_length _ _ hu0). assert (L2 := in_shape_length _ _ hu1).
      clear - e L1 L2. assert (L : length u = length u') by congruence. clear L1 L2.
      revert u' L e. induction u as [|x u IH]; intros u' L e; destruct u' as [|x' u'];
        try discriminate; [split; [reflexivity | exact e]|].
      cbn in L, e. injection e as -> e. destruct (IH u' ltac:(congruence) e) as [-> ->].
      split; reflexivity. }
    destruct EQ as [<- <-].
    apply (np_value_perm o initial _ _ _ ) with (2 := p).
    apply Permutation_map. destruct hg as [n1 m1]. destruct (GR i hi) as [n2 m2].
    apply NoDup_Permutation; [exact n2 | exact n1|].
    intros v. rewrite m1, m2. reflexivity.
Qed.

Lemma np_shape_map : forall keepd f S,
  map fst (oshape keepd f S) = np_shape keepd f (map fst S).
Proof.
  intros keepd. induction f as [|b f IH]; intros S; [reflexivity|].
  destruct S as [|d S]; [destruct b; reflexivity|].
  cbn [oshape map np_shape]. destruct b.
  - destruct keepd; cbn [map fst]; rewrite IH; reflexivity.
  - cbn [map]. rewrite IH. reflexivity.
Qed.

(** The shape, also for negative axes with kept dimensions. *)
Lemma shape_right : forall D s l keepd,
  Forall2 (fun d x => written (fst d) x) D s ->
  valid_axes (length (view_shape D s)) l ->
  result_shape D s (Some l) keepd =
  np_shape keepd (flags (length (view_shape D s)) (Some l)) (view_shape D s).
Proof.
  intros D s l keepd hw va. assert (V := view_shape_right _ _ hw).
  rewrite <- V in *. rewrite map_length in *. unfold result_shape.
  assert (OK := flags_ok _ _ va).
  rewrite <- np_shape_map. f_equal.
  unfold out_shape, make. cbn [axes dims subs keep]. cbv zeta.
  destruct (kept_flags (shape D s) [] _ _ OK ltac:(apply flags_length)) as [h1 h2].
  cbn [length Z.of_nat] in h1, h2. destruct keepd.
  - exact h1.
  - rewrite (literal_ok _ _ _ OK). exact h2.
Qed.

Lemma fits_itself : forall keepd f S, length f = length S ->
  fits keepd f S (np_shape keepd f S).
Proof.
  intros keepd. induction f as [|b f IH]; intros S e; destruct S as [|n S];
    try discriminate; [reflexivity|].
  cbn in e. cbn [fits np_shape]. destruct b.
  - destruct keepd; apply IH; congruence.
  - split; [reflexivity | apply IH; congruence].
Qed.

(** ** The index of a result *)

Lemma axes_of_in : forall f i a, In a (axes_of i f) <->
  (i <= a)%Z /\ nth (Z.to_nat (a - i)) f false = true.
Proof.
  induction f as [|b f IH]; intros i a; cbn [axes_of].
  - split; [intros []|]. intros [_ H]. destruct (Z.to_nat (a - i)); discriminate.
  - rewrite in_app_iff, IH. destruct (Z.eq_dec a i) as [-> | N].
    + rewrite Z.sub_diag. cbn [Z.to_nat nth]. destruct b; cbn [In]; split.
      * intros _. split; [lia | reflexivity].
      * intros _. left. left. reflexivity.
      * intros [[] | [H _]]; lia.
      * intros [_ H]. discriminate.
    + split.
      * intros [H | [H1 H2]].
        -- destruct b; cbn [In] in H; [destruct H as [H | []]; congruence | destruct H].
        -- split; [lia|]. replace (Z.to_nat (a - i)) with (Datatypes.S (Z.to_nat (a - (i + 1)))) by lia.
           exact H2.
      * intros [H1 H2]. right. split; [lia|].
        replace (Z.to_nat (a - i)) with (Datatypes.S (Z.to_nat (a - (i + 1)))) in H2 by lia.
        exact H2.
Qed.

Lemma axes_of_shift : forall f i s,
  map (fun a => (a - s)%Z) (axes_of i f) = axes_of (i - s) f.
Proof.
  induction f as [|b f IH]; intros i s; cbn [axes_of]; [reflexivity|].
  rewrite map_app, IH. replace (i + 1 - s)%Z with (i - s + 1)%Z by lia. destruct b; reflexivity.
Qed.

Lemma left_nil : forall f, left_over f [] = f.
Proof. induction f as [|[|] f IH]; cbn; rewrite ?IH; reflexivity. Qed.

Lemma is_all_whole : forall x, not_whole x -> is_all x = false.
Proof.
  intros [p q x|a b c] H; [reflexivity|]. destruct a, b, c; try reflexivity.
  exfalso. apply H. reflexivity.
Qed.

Lemma filter_none : forall (A : Type) (p : A -> bool) l,
  (forall x, In x l -> p x = false) -> filter p l = [].
Proof.
  intros A p l. induction l as [|x l IH]; intro H; [reflexivity|].
  cbn. rewrite (H x (or_introl eq_refl)). apply IH. intros y Hy. apply H. right. exact Hy.
Qed.

Lemma filter_all : forall (A : Type) (p : A -> bool) l,
  (forall x, In x l -> p x = true) -> filter p l = l.
Proof.
  intros A p l. induction l as [|x l IH]; intro H; [reflexivity|].
  cbn. rewrite (H x (or_introl eq_refl)). f_equal. apply IH. intros y Hy. apply H. right. exact Hy.
Qed.

(** The walk, when the dimensions from [ii] on are [f] and [pre] are the axes
    before. *)
Lemma walk_index : forall f fuel ii shift idx pre,
  Forall not_whole idx -> length idx <= falses f ->
  length idx + length (axes_of ii f) <= fuel ->
  (forall a, In a pre -> (a < ii)%Z) ->
  exists ax i s,
    walk fuel ii shift idx (pre ++ axes_of ii f) false = Some (weave f idx, ax, i, s) /\
    (ii <= i)%Z /\
    ax ++ map (fun a => (a - s)%Z) (filter (fun a => (i <=? a)%Z) (axes_of ii f)) =
      axes_of (ii - shift) (left_over f idx).
Proof.
  induction f as [|b f IH]; intros fuel ii shift idx pre HF Hl Hn Hp.
  - cbn in Hl. destruct idx; [|cbn in Hl; lia]. rewrite walk_nil.
    exists [], ii, shift. repeat split. lia.
  - destruct idx as [|x idx].
    { rewrite walk_nil. exists [], ii, shift. cbn [weave]. split; [reflexivity|].
      split; [lia|]. rewrite filter_all, axes_of_shift, left_nil; [reflexivity|].
      intros a Ha. apply axes_of_in in Ha. apply Z.leb_le. lia. }
    cbn [length] in Hn. destruct fuel as [|fuel]; [lia|]. cbn [walk].
    assert (EM : mem ii (pre ++ axes_of ii (b :: f)) = b).
    { destruct (mem ii (pre ++ axes_of ii (b :: f))) eqn:E; unfold mem in E.
      - apply existsb_exists in E. destruct E as [a [Ha Ea]]. apply Z.eqb_eq in Ea. subst a.
        apply in_app_iff in Ha. destruct Ha as [Ha | Ha]; [apply Hp in Ha; lia|].
        apply axes_of_in in Ha. rewrite Z.sub_diag in Ha. cbn in Ha. symmetry. apply Ha.
      - destruct b; [|reflexivity]. exfalso.
        assert (K : existsb (Z.eqb ii) (pre ++ axes_of ii (true :: f)) = true).
        { apply existsb_exists. exists ii. split; [|apply Z.eqb_refl].
          apply in_app_iff. right. left. reflexivity. }
        rewrite E in K. discriminate. }
    rewrite EM. destruct b.
    + rewrite (is_all_whole x) by (inversion HF; assumption).
      cbn [axes_of app]. change (pre ++ ii :: axes_of (ii + 1) f)
        with (pre ++ [ii] ++ axes_of (ii + 1) f). rewrite app_assoc.
      cbn [falses Nat.add axes_of app length] in Hl, Hn.
      destruct (IH fuel (ii + 1)%Z shift (x :: idx) (pre ++ [ii]) HF Hl) as [ax [i [s [E [H1 H2]]]]].
      { cbn [length]. lia. }
      { intros a Ha. apply in_app_iff in Ha. destruct Ha as [Ha | [<- | []]]; [|lia].
        apply Hp in Ha. lia. }
      rewrite E. exists ((ii - shift)%Z :: ax), i, s. split; [reflexivity|]. split; [lia|].
      cbn [filter app]. replace (i <=? ii)%Z with false by (symmetry; apply Z.leb_gt; lia).
      cbn [left_over axes_of app]. f_equal. rewrite H2. f_equal. lia.
    + inversion HF as [|x' idx' Hx HF']; subst x' idx'.
      cbn [falses Nat.add axes_of app length] in Hl, Hn. cbn [axes_of app].
      destruct (IH fuel (ii + 1)%Z (match x with At _ _ _ => shift + 1 | Sl _ _ _ => shift end)%Z
                  idx pre HF') as [ax [i [s [E [H1 H2]]]]].
      { lia. } { lia. }
      { intros a Ha. apply Hp in Ha. lia. }
      rewrite E. exists ax, i, s. split; [reflexivity|]. split; [lia|].
      rewrite H2. destruct x; cbn [left_over axes_of app].
      * f_equal. lia.
      * f_equal. lia.
Qed.

Lemma axes_of_length : forall f i j, length (axes_of i f) = length (axes_of j f).
Proof.
  induction f as [|b f IH]; intros i j; [reflexivity|]. cbn [axes_of].
  rewrite !app_length, (IH (i + 1)%Z (j + 1)%Z). destruct b; reflexivity.
Qed.

Lemma left_length : forall f idx i,
  length (axes_of i (left_over f idx)) = length (axes_of i f).
Proof.
  induction f as [|[|] f IH]; intros idx i; cbn [left_over axes_of app]; [reflexivity| |].
  - cbn [length]. f_equal. apply IH.
  - destruct idx as [|[p q x|a b c] idx]; cbn [axes_of app]; [apply IH| |apply IH].
    rewrite IH. apply axes_of_length.
Qed.

Lemma process_index : forall f idx,
  Forall not_whole idx -> length idx <= falses f ->
  process idx (axes_of 0 f) false =
  Some (weave f idx, axes_of 0 (left_over f idx)).
Proof.
  intros f idx HF Hl. unfold process.
  destruct (walk_index f (length idx + length (axes_of 0 f)) 0 0 idx [] HF Hl)
    as [ax [i [s [E [H1 H2]]]]].
  - lia.
  - intros a [].
  - cbn [app] in E. rewrite E. cbv zeta. rewrite H2.
    rewrite left_length, Nat.eqb_refl. reflexivity.
Qed.
