(** Proofs about lists and sets. *)

From Coq Require Import List Bool Arith ZArith Sorted Lia.
From Verif Require Import Bag_Model Bag_Spec.
Import ListNotations.

(** ** Sorted lists *)

Definition sorted := StronglySorted Z.lt.

Lemma sorted_cons : forall z l, sorted (z :: l) <-> sorted l /\ forall y, In y l -> (z < y)%Z.
Proof.
  intros z l. split; intros H.
  - inversion H as [|? ? H1 H2]; subst. split; [exact H1|]. apply Forall_forall. exact H2.
  - destruct H as [H1 H2]. constructor; [exact H1|]. apply Forall_forall. exact H2.
Qed.

Lemma sorted_ext : forall a b, sorted a -> sorted b -> (forall z, In z a <-> In z b) -> a = b.
Proof.
  induction a as [|x a IH]; intros b Ha Hb H.
  - destruct b as [|y b]; [reflexivity|]. destruct (proj2 (H y) (or_introl eq_refl)).
  - destruct b as [|y b]; [destruct (proj1 (H x) (or_introl eq_refl))|].
    apply sorted_cons in Ha. apply sorted_cons in Hb. destruct Ha as [Ha1 Ha2]. destruct Hb as [Hb1 Hb2].
    assert (E : x = y).
    { destruct (proj1 (H x) (or_introl eq_refl)) as [E|E]; [symmetry; exact E|].
      destruct (proj2 (H y) (or_introl eq_refl)) as [E'|E']; [exact E'|].
      pose proof (Hb2 _ E). pose proof (Ha2 _ E'). lia. }
    subst y. f_equal. apply IH; [assumption|assumption|].
    intros z. split; intros Hz.
    + destruct (proj1 (H z) (or_intror Hz)) as [E|E]; [|exact E]. subst z. pose proof (Ha2 _ Hz). lia.
    + destruct (proj2 (H z) (or_intror Hz)) as [E|E]; [|exact E]. subst z. pose proof (Hb2 _ Hz). lia.
Qed.

Lemma sorted_filter : forall f l, sorted l -> sorted (filter f l).
Proof.
  induction l as [|z l IH]; intros H; cbn; [constructor|].
  apply sorted_cons in H. destruct H as [H1 H2]. destruct (f z); [|apply IH; exact H1].
  apply sorted_cons. split; [apply IH; exact H1|]. intros y Hy. apply filter_In in Hy. apply H2. tauto.
Qed.

Lemma sorted_mid : forall z a b, sorted a -> sorted b -> (forall y, In y a -> (y < z)%Z) -> (forall y, In y b -> (z < y)%Z) ->
  sorted (a ++ z :: b).
Proof.
  induction a as [|x a IH]; intros b Ha Hb H1 H2; cbn.
  - apply sorted_cons. tauto.
  - apply sorted_cons in Ha. destruct Ha as [Ha1 Ha2]. apply sorted_cons. split.
    + apply IH; auto. intros y Hy. apply H1. right. exact Hy.
    + intros y Hy. apply in_app_iff in Hy. destruct Hy as [Hy|[Hy|Hy]].
      * apply Ha2. exact Hy.
      * subst y. apply H1. left. reflexivity.
      * pose proof (H1 x (or_introl eq_refl)). pose proof (H2 y Hy). lia.
Qed.

Lemma norm_ok : forall l, set_of l (norm l).
Proof.
  induction l as [|z l [IH1 IH2]]; split; cbn.
  - constructor.
  - tauto.
  - apply sorted_mid.
    + apply sorted_filter. exact IH1.
    + apply sorted_filter. exact IH1.
    + intros y Hy. apply filter_In in Hy. apply Z.ltb_lt. tauto.
    + intros y Hy. apply filter_In in Hy. apply Z.ltb_lt. tauto.
  - intros y. rewrite in_app_iff. cbn [In]. rewrite !filter_In, !IH2, !Z.ltb_lt.
    destruct (Z.lt_trichotomy y z) as [H|[H|H]]; intuition.
Qed.

Lemma norm_sorted : forall l, sorted (norm l).
Proof. intros l. exact (proj1 (norm_ok l)). Qed.

Lemma norm_in : forall l z, In z (norm l) <-> In z l.
Proof. intros l. exact (proj2 (norm_ok l)). Qed.

Lemma sadd_in : forall z s y, In y (sadd z s) <-> y = z \/ In y s.
Proof.
  induction s as [|x s IH]; intros y; cbn [sadd].
  - cbn. intuition.
  - destruct (Z.ltb_spec z x); [cbn; intuition|].
    destruct (Z.eqb_spec z x); [subst; cbn; intuition|]. cbn [In]. rewrite IH. intuition.
Qed.

Lemma sadd_sorted : forall z s, sorted s -> sorted (sadd z s).
Proof.
  induction s as [|x s IH]; intros H; cbn [sadd].
  - apply sorted_cons. split; [constructor|intros y []].
  - destruct (Z.ltb_spec z x) as [L|L].
    + apply sorted_cons. split; [exact H|]. intros y [Hy|Hy]; [lia|].
      apply sorted_cons in H. pose proof (proj2 H _ Hy). lia.
    + destruct (Z.eqb_spec z x) as [E|E]; [exact H|].
      apply sorted_cons in H. destruct H as [H1 H2]. apply sorted_cons. split; [apply IH; exact H1|].
      intros y Hy. apply sadd_in in Hy. destruct Hy as [Hy|Hy]; [lia|]. apply H2. exact Hy.
Qed.

Lemma join_ok : forall a l, sorted l -> sorted (join l a) /\ forall y, In y (join l a) <-> In y l \/ In y a.
Proof.
  unfold join. induction a as [|z a IH]; intros l H; cbn [fold_left].
  - split; [exact H|]. cbn. tauto.
  - destruct (IH (sadd z l) (sadd_sorted z l H)) as [H1 H2]. split; [exact H1|].
    intros y. rewrite H2, sadd_in. cbn [In]. intuition.
Qed.

Lemma join_norm : forall a l, sorted l -> join l a = norm (l ++ a).
Proof.
  intros a l H. destruct (join_ok a l H) as [H1 H2]. apply sorted_ext; [exact H1|apply norm_sorted|].
  intros z. rewrite H2, norm_in, in_app_iff. tauto.
Qed.

Lemma joins_norm : forall ls l, sorted l -> fold_left join ls l = norm (l ++ concat ls).
Proof.
  induction ls as [|a ls IH]; intros l H; cbn [fold_left concat].
  - rewrite app_nil_r. apply sorted_ext; [exact H|apply norm_sorted|]. intros z. rewrite norm_in. tauto.
  - rewrite IH by (apply join_ok; exact H). apply sorted_ext; try apply norm_sorted.
    intros z. rewrite !norm_in, !in_app_iff. rewrite (proj2 (join_ok a l H)). tauto.
Qed.

Lemma norm_id : forall l, sorted l -> norm l = l.
Proof. intros l H. apply sorted_ext; [apply norm_sorted|exact H|]. apply norm_in. Qed.

Lemma norm_eq : forall a b, (forall z, In z a <-> In z b) -> norm a = norm b.
Proof. intros a b H. apply sorted_ext; try apply norm_sorted. intros z. rewrite !norm_in. apply H. Qed.

Lemma build_list : forall l acc, fold_left (fun s z => insert KList z s) l acc = acc ++ l.
Proof.
  induction l as [|z l IH]; intros acc; cbn [fold_left]; [rewrite app_nil_r; reflexivity|].
  rewrite IH. cbn. rewrite <- app_assoc. reflexivity.
Qed.

Lemma build_ok : forall k l, build k l = value k l.
Proof.
  intros [|] l; unfold build, value.
  - rewrite build_list. reflexivity.
  - change (fold_left (fun s z => insert KSet z s) l []) with (join [] l).
    rewrite join_norm by constructor. reflexivity.
Qed.

Lemma loop_list : forall f c ly lx, loop_over KList f c ly lx = lx ++ map f (filter c ly).
Proof.
  unfold loop_over. induction ly as [|z l IH]; intros lx; cbn [fold_left filter]; [rewrite app_nil_r; reflexivity|].
  rewrite IH. destruct (c z); [|reflexivity]. cbn. rewrite <- app_assoc. reflexivity.
Qed.

Lemma loop_set : forall ly lx, loop_over KSet (fun i => i) (fun _ => true) ly lx = join lx ly.
Proof. reflexivity. Qed.

Lemma loop_add : forall k ly lx, (k = KSet -> sorted lx) ->
  loop_over k (fun i => i) (fun _ => true) ly lx = value k (lx ++ ly).
Proof.
  intros [|] ly lx H.
  - rewrite loop_list. cbn. rewrite map_id. f_equal. induction ly as [|z l IH]; cbn; [|rewrite IH]; reflexivity.
  - rewrite loop_set. apply join_norm. apply H. reflexivity.
Qed.

Lemma insert_add : forall k z l, (k = KSet -> sorted l) -> insert k z l = value k (l ++ [z]).
Proof.
  intros [|] z l H; [reflexivity|]. cbn. rewrite <- join_norm by (apply H; reflexivity). reflexivity.
Qed.

Lemma value_sorted : forall k l, k = KSet -> sorted (value k l).
Proof. intros k l ->. apply norm_sorted. Qed.

Lemma mem_is_in : forall z l, mem z l = is_in z l.
Proof.
  intros z l. unfold mem, is_in. destruct (in_dec Z.eq_dec z l) as [H|H].
  - apply existsb_exists. exists z. split; [exact H|]. apply Z.eqb_refl.
  - apply not_true_is_false. intros E. apply existsb_exists in E. destruct E as (y & H1 & H2).
    apply Z.eqb_eq in H2. subst y. exact (H H1).
Qed.

Lemma is_in_iff : forall z l, is_in z l = true <-> In z l.
Proof. intros z l. unfold is_in. destruct (in_dec Z.eq_dec z l); split; intros H; try assumption; try reflexivity; try discriminate. contradiction. Qed.

Lemma is_in_ext : forall z a b, (In z a <-> In z b) -> is_in z a = is_in z b.
Proof.
  intros z a b H. unfold is_in. destruct (in_dec Z.eq_dec z a), (in_dec Z.eq_dec z b); tauto.
Qed.

(** ** Evaluating *)

Lemma read_set_eq : forall st x o l, read (set_cell st x (Live o l)) x = Some l.
Proof. intros. unfold read, set_cell. cbn. rewrite Nat.eqb_refl. reflexivity. Qed.

Lemma cells_set_neq : forall st x c v, v <> x -> cells (set_cell st x c) v = cells st v.
Proof. intros st x c v H. unfold set_cell. cbn. apply Nat.eqb_neq in H. rewrite H. reflexivity. Qed.

Lemma read_set_neq : forall st x c v, v <> x -> read (set_cell st x c) v = read st v.
Proof. intros st x c v H. unfold read. rewrite cells_set_neq by exact H. reflexivity. Qed.

(** st shows the variables for which P holds. *)
Definition agree (P : nat -> Prop) (s : env) (st : state) : Prop :=
  forall v l, P v -> s v = Some l -> read st v = Some l.

Lemma get_eval : forall s st e z, agree (fun v => in_elem v e) s st -> eval s e = Some z -> get st e = Some z.
Proof.
  intros s st [i|v|v i] z H E; cbn in *.
  - exact E.
  - destruct (s v) as [l|] eqn:Ev; [|discriminate]. rewrite (H v l eq_refl Ev). exact E.
  - destruct (s v) as [l|] eqn:Ev; [|discriminate]. rewrite (H v l eq_refl Ev). exact E.
Qed.

Lemma all_traverse : forall {A B} (f : A -> option B) (g : A -> option B) l r,
  (forall x y, In x l -> f x = Some y -> g x = Some y) -> all f l = Some r -> traverse g l = Some r.
Proof.
  induction l as [|x l IH]; intros r H E; cbn in *; [exact E|].
  destruct (f x) as [y|] eqn:Ex; [|discriminate]. destruct (all f l) as [ys|] eqn:El; [|discriminate].
  rewrite (H x y (or_introl eq_refl) Ex). cbn. rewrite (IH ys); [exact E| |reflexivity].
  intros a b Ha. apply H. right. exact Ha.
Qed.

Lemma gets_eval : forall s st l zs, agree (fun v => in_elems v l) s st -> all (eval s) l = Some zs ->
  traverse (get st) l = Some zs.
Proof.
  intros s st l zs H. apply all_traverse. intros e z He. apply get_eval.
  intros v a Hv. apply H. exists e. split; assumption.
Qed.

(** The values of an argument, before duplicates are removed. *)
Definition raw (s : env) (it : iter) : option (list Z) :=
  match it with IVar v => s v | ILit _ l => all (eval s) l end.

Definition same (a b : list Z) : Prop := forall z, In z a <-> In z b.

Lemma raw_elements : forall s it l, elements s it = Some l -> exists r, raw s it = Some r /\ same r l.
Proof.
  intros s [v|k l] r E; cbn in *.
  - exists r. split; [exact E|]. intros z. tauto.
  - destruct (all (eval s) l) as [zs|]; [|discriminate]. cbn in E. injection E as <-.
    exists zs. split; [reflexivity|]. intros z. destruct k; cbn; [tauto|]. rewrite norm_in. tauto.
Qed.

Lemma raws_elements : forall s its ls, all (elements s) its = Some ls -> exists rs, all (raw s) its = Some rs /\ Forall2 same rs ls.
Proof.
  induction its as [|it its IH]; intros ls E; cbn in *.
  - injection E as <-. exists []. split; [reflexivity|constructor].
  - destruct (elements s it) as [l|] eqn:El; [|discriminate]. destruct (all (elements s) its) as [ls'|]; [|discriminate].
    injection E as <-. destruct (raw_elements _ _ _ El) as (r & Hr & Sr). destruct (IH _ eq_refl) as (rs & Hrs & Srs).
    rewrite Hr, Hrs. exists (r :: rs). split; [reflexivity|]. constructor; assumption.
Qed.

Lemma same_concat : forall rs ls, Forall2 same rs ls -> same (concat rs) (concat ls).
Proof.
  intros rs ls H. induction H as [|a b rs ls H1 H2 IH]; intros z; cbn; [tauto|].
  rewrite !in_app_iff, (H1 z), (IH z). tauto.
Qed.

Lemma same_forallb : forall z rs ls, Forall2 same rs ls -> forallb (is_in z) rs = forallb (is_in z) ls.
Proof.
  intros z rs ls H. induction H as [|a b rs ls H1 H2 IH]; cbn; [reflexivity|].
  rewrite (is_in_ext z a b (H1 z)), IH. reflexivity.
Qed.

Lemma raw_values : forall s st it l, agree (fun v => in_iter v it) s st -> raw s it = Some l -> values st it = Some l.
Proof.
  intros s st [v|k l] r H E; cbn in *.
  - apply H; [reflexivity|exact E].
  - eapply gets_eval; eassumption.
Qed.

(** ** Statements *)

(** After a statement: x has the value l, k blocks have been lost. *)
Definition done (st : state) (x : nat) (l : list Z) (k : nat) (r : option state) : Prop :=
  exists st', r = Some st' /\ (exists o, cells st' x = Live o l) /\ (forall v, v <> x -> cells st' v = cells st v) /\
    lost st' = lost st + k.

Lemma done_read : forall st x l k st', done st x l k (Some st') -> read st' x = Some l.
Proof. intros st x l k st' (s' & E & (o & H) & _). injection E as <-. unfold read. rewrite H. reflexivity. Qed.

Lemma done_set : forall st x o l, done st x l 0 (Some (set_cell st x (Live o l))).
Proof.
  intros. exists (set_cell st x (Live o l)). split; [reflexivity|]. split.
  - exists o. unfold set_cell. cbn. rewrite Nat.eqb_refl. reflexivity.
  - split; [intros v H; apply cells_set_neq; exact H|]. cbn. lia.
Qed.

Lemma done_trans : forall st x l1 k1 r1 l2 k2 f, done st x l1 k1 r1 ->
  (forall st1, r1 = Some st1 -> done st1 x l2 k2 (f st1)) -> done st x l2 (k1 + k2) (bind r1 f).
Proof.
  intros st x l1 k1 r1 l2 k2 f (st1 & E & H1 & H2 & H3) H.
  destruct (H st1 E) as (st2 & E2 & G1 & G2 & G3). exists st2. subst r1. cbn. split; [exact E2|].
  split; [exact G1|]. split; [|lia]. intros v Hv. rewrite G2, H2 by exact Hv. reflexivity.
Qed.

Lemma done_agree : forall s st x l k st' (P : nat -> Prop), (forall v r, s v = Some r -> read st v = Some r) ->
  done st x l k (Some st') -> ~ P x -> agree P s st'.
Proof.
  intros s st x l k st' P H (s' & E & _ & H2 & _) Hx v r Hv Ev. injection E as <-.
  unfold read. rewrite H2 by (intros ->; contradiction). exact (H v r Ev).
Qed.

(** The state before the assigning statement: x is whatever. *)
Definition ready (st st1 : state) (x : nat) : Prop :=
  (forall v, v <> x -> cells st1 v = cells st v) /\ lost st1 = lost st.

Lemma overwrite_done : forall L st st1 x l k, ready st st1 x ->
  (k = match L, cells st1 x with C, Live true _ => 1 | _, _ => 0 end) -> done st x l k (Some (overwrite L st1 x l)).
Proof.
  intros L st st1 x l k [H1 H2] ->. exists (overwrite L st1 x l). split; [reflexivity|].
  assert (Hc : forall v, cells (overwrite L st1 x l) v = cells (set_cell st1 x (Live true l)) v).
  { intros v. unfold overwrite. destruct L, (cells st1 x) as [|[|] ?]; reflexivity. }
  split; [exists true; rewrite Hc; unfold set_cell; cbn; rewrite Nat.eqb_refl; reflexivity|].
  split; [intros v Hv; rewrite Hc, cells_set_neq by exact Hv; apply H1; exact Hv|].
  unfold overwrite. destruct L, (cells st1 x) as [|[|] ?]; cbn; lia.
Qed.

(** ** GAlloc *)

Lemma exec_all_app : forall L K a b st, exec_all L K (a ++ b) st = bind (exec_all L K a st) (exec_all L K b).
Proof.
  induction a as [|g a IH]; intros b st; cbn; [reflexivity|].
  destruct (exec L K g st) as [st'|]; cbn; [apply IH|reflexivity].
Qed.

(** In C the variable has no block after drop. *)
Lemma alloc_drop : forall K st x a known, (exists o l, cells st x = Live o l) ->
  (known = false -> cells st x = Live false []) -> (a = Init \/ a = NoSize \/ a = Func) ->
  exists st1, exec C K (GAlloc x a known) st = Some st1 /\ ready st st1 x /\
    match cells st1 x with Live true _ => 1 | _ => 0 end = 0.
Proof.
  intros K st x a known (o & l & E) Hk Ha.
  assert (R : read st x = Some l) by (unfold read; rewrite E; reflexivity).
  assert (H : exec C K (GAlloc x a known) st =
              if known then Some (set_cell st x Dropped) else Some st).
  { destruct Ha as [->|[->| ->]], known; cbn; rewrite ?R; reflexivity. }
  rewrite H. destruct known.
  - exists (set_cell st x Dropped). split; [reflexivity|]. split.
    + split; [intros v Hv; apply cells_set_neq; exact Hv|reflexivity].
    + unfold set_cell. cbn. rewrite Nat.eqb_refl. reflexivity.
  - exists st. split; [reflexivity|]. split; [split; reflexivity|]. rewrite (Hk eq_refl). reflexivity.
Qed.

(** reserve leaves an empty container with a block. *)
Lemma alloc_reserve : forall K st x y known, (forall v, exists o l, cells st v = Live o l) ->
  (known = false -> cells st x = Live false []) ->
  exists st1, exec C K (GAlloc x (Reserve y) known) st = Some st1 /\ ready st st1 x /\ cells st1 x = Live true [].
Proof.
  intros K st x y known Hl Hk. destruct (Hl x) as (o & l & E). destruct (Hl y) as (o' & l' & E').
  assert (R : read st x = Some l) by (unfold read; rewrite E; reflexivity).
  assert (R' : read st y = Some l') by (unfold read; rewrite E'; reflexivity).
  exists (set_cell st x (Live true [])). split.
  - destruct known; cbn.
    + rewrite R. cbn. destruct (Nat.eq_dec y x) as [->|N].
      * rewrite read_set_eq. reflexivity.
      * rewrite read_set_neq, R' by exact N. reflexivity.
    + rewrite R'. cbn. rewrite R. cbn. rewrite (Hk eq_refl) in E. injection E as _ <-. reflexivity.
  - split; [split; [intros v Hv; apply cells_set_neq; exact Hv|reflexivity]|].
    unfold set_cell. cbn. rewrite Nat.eqb_refl. reflexivity.
Qed.

Lemma alloc_fortran_set : forall K st x a known, K x = KSet -> exec Fortran K (GAlloc x a known) st = Some st.
Proof. intros K st x a known E. cbn. rewrite E. reflexivity. Qed.

Lemma alloc_fortran_init : forall K st x known, exec Fortran K (GAlloc x Init known) st = Some st.
Proof. intros K st x known. cbn. destruct (K x), known; reflexivity. Qed.

Lemma alloc_fortran_list : forall K st x a known, K x = KList -> (exists y, a = Reserve y) \/ a = Func ->
  (known = false -> cells st x = Live false []) ->
  exists st1, exec Fortran K (GAlloc x a known) st = Some st1 /\ ready st st1 x /\ exists o, cells st1 x = Live o [].
Proof.
  intros K st x a known E Ha Hk. destruct known.
  - exists (set_cell st x (Live true [])). split; [|split].
    + cbn. rewrite E. destruct Ha as [[y ->]| ->]; reflexivity.
    + split; [intros v Hv; apply cells_set_neq; exact Hv|reflexivity].
    + exists true. unfold set_cell. cbn. rewrite Nat.eqb_refl. reflexivity.
  - exists st. split; [|split].
    + cbn. rewrite E. destruct Ha as [[y ->]| ->]; reflexivity.
    + split; reflexivity.
    + exists false. apply Hk. reflexivity.
Qed.

Lemma ready_agree : forall s st st1 x (P : nat -> Prop), (forall v r, s v = Some r -> read st v = Some r) ->
  ready st st1 x -> ~ P x -> agree P s st1.
Proof.
  intros s st st1 x P H [H1 _] Hx v r Hv Ev. unfold read. rewrite H1 by (intros ->; contradiction). exact (H v r Ev).
Qed.

Lemma ready_refl : forall st x, ready st st x.
Proof. split; reflexivity. Qed.

(** ** Adding the elements of the arguments *)

Lemma read_live : forall st x o l, cells st x = Live o l -> read st x = Some l.
Proof. intros st x o l E. unfold read. rewrite E. reflexivity. Qed.

Lemma live_read : forall st x l, read st x = Some l -> exists o, cells st x = Live o l.
Proof. intros st x l E. unfold read in E. destruct (cells st x) as [|o l']; [discriminate|]. injection E as <-. exists o. reflexivity. Qed.

Lemma done_refl : forall st x l, read st x = Some l -> done st x l 0 (Some st).
Proof.
  intros st x l E. exists st. split; [reflexivity|]. split; [apply live_read; exact E|].
  split; [reflexivity|lia].
Qed.

Lemma value_id : forall k l, (k = KSet -> sorted l) -> value k l = l.
Proof. intros [|] l H; [reflexivity|]. apply norm_id. apply H. reflexivity. Qed.

Lemma value_app : forall k a b, value k (value k a ++ b) = value k (a ++ b).
Proof.
  intros [|] a b; [reflexivity|]. cbn. apply norm_eq. intros z. rewrite !in_app_iff, norm_in. tauto.
Qed.

Definition others (s : env) (st : state) (x : nat) : Prop := forall v l, v <> x -> s v = Some l -> read st v = Some l.

Lemma others_done : forall s st x l k st', others s st x -> done st x l k (Some st') -> others s st' x.
Proof.
  intros s st x l k st' H (s' & E & _ & H2 & _) v r Hv Ev. injection E as <-.
  unfold read. rewrite H2 by exact Hv. exact (H v r Hv Ev).
Qed.

Lemma others_agree : forall s st x (P : nat -> Prop), others s st x -> ~ P x -> agree P s st.
Proof. intros s st x P H Hx v l Hv Ev. apply H; [intros ->; contradiction|exact Ev]. Qed.

Lemma push_all : forall L K s x l st zs lc, others s st x -> ~ in_elems x l -> all (eval s) l = Some zs ->
  read st x = Some lc -> (K x = KSet -> sorted lc) ->
  done st x (value (K x) (lc ++ zs)) 0 (exec_all L K (map (GPush x) l) st).
Proof.
  intros L K s x. induction l as [|e l IH]; intros st zs lc Ho Hn Ez Er Hs; cbn [map exec_all].
  - injection Ez as <-. rewrite app_nil_r, value_id by exact Hs. apply done_refl. exact Er.
  - cbn in Ez. destruct (eval s e) as [z|] eqn:Ee; [|discriminate]. destruct (all (eval s) l) as [zs'|] eqn:El; [|discriminate].
    injection Ez as <-.
    assert (G : get st e = Some z).
    { apply (get_eval s); [|exact Ee]. apply (others_agree s st x); [exact Ho|].
      intros Hx. apply Hn. exists e. split; [left; reflexivity|exact Hx]. }
    change 0 with (0 + 0). apply (done_trans st x (value (K x) (lc ++ [z]))).
    + cbn [exec]. rewrite G. cbn [bind]. rewrite Er. cbn [bind]. rewrite insert_add by exact Hs. apply done_set.
    + intros st1 E1. replace (lc ++ z :: zs') with ((lc ++ [z]) ++ zs') by (rewrite <- app_assoc; reflexivity).
      assert (D : done st x (value (K x) (lc ++ [z])) 0 (Some st1)).
      { rewrite <- E1. cbn [exec]. rewrite G. cbn [bind]. rewrite Er. cbn [bind]. rewrite insert_add by exact Hs. apply done_set. }
      rewrite <- value_app. apply IH; auto.
      * eapply others_done; eassumption.
      * intros (e' & H1 & H2). apply Hn. exists e'. split; [right; exact H1|exact H2].
      * eapply done_read. exact D.
      * intros Hk. apply value_sorted. exact Hk.
Qed.

Definition cur (x : nat) (it : iter) (lc r : list Z) : list Z :=
  match it with IVar v => if v =? x then lc else r | ILit _ _ => r end.

Lemma add_one : forall L K s x it st r lc, others s st x -> ~ in_literal x it -> raw s it = Some r ->
  read st x = Some lc -> (K x = KSet -> sorted lc) -> (it = IVar x -> L = Fortran) ->
  done st x (value (K x) (lc ++ cur x it lc r)) 0 (exec_all L K (add_all x it) st).
Proof.
  intros L K s x it st r lc Ho Hn Er Ec Hs HL. destruct it as [v|k l].
  - cbn [add_all exec_all exec cur]. destruct (Nat.eqb_spec v x) as [->|N].
    + rewrite Ec. cbn [bind]. rewrite (HL eq_refl), loop_add by exact Hs. cbn [bind]. apply done_set.
    + cbn [raw] in Er. rewrite (Ho v r N Er). cbn [bind]. rewrite Ec. cbn [bind].
      apply not_eq_sym in N. apply Nat.eqb_neq in N. rewrite N, loop_add by exact Hs. destruct L; cbn [bind]; apply done_set.
  - cbn [cur]. eapply push_all; eassumption.
Qed.

Lemma add_sets : forall L K s x its st rs lc, K x = KSet -> others s st x -> (forall it, In it its -> ~ in_literal x it) ->
  (forall it, In it its -> it = IVar x -> L = Fortran /\ exists a, s x = Some a /\ incl a lc) ->
  all (raw s) its = Some rs -> read st x = Some lc -> sorted lc ->
  done st x (norm (lc ++ concat rs)) 0 (exec_all L K (flat_map (add_all x) its) st).
Proof.
  intros L K s x its st rs lc HK. revert st rs lc. induction its as [|it its IH]; intros st rs lc Ho Hn Hx Er Ec Hs; cbn [flat_map exec_all].
  - injection Er as <-. cbn. rewrite app_nil_r, norm_id by exact Hs. apply done_refl. exact Ec.
  - cbn in Er. destruct (raw s it) as [r|] eqn:Ei; [|discriminate]. destruct (all (raw s) its) as [rs'|] eqn:El; [|discriminate].
    injection Er as <-. rewrite exec_all_app.
    assert (D : done st x (norm (lc ++ r)) 0 (exec_all L K (add_all x it) st)).
    { replace (norm (lc ++ r)) with (value (K x) (lc ++ cur x it lc r)).
      - apply (add_one L K s); auto.
        + apply Hn. left. reflexivity.
        + intros E. exact (proj1 (Hx it (or_introl eq_refl) E)).
      - rewrite HK. cbn [value]. destruct it as [v|k l]; cbn [cur]; [|reflexivity].
        destruct (Nat.eqb_spec v x) as [->|N]; [|reflexivity].
        destruct (Hx _ (or_introl eq_refl) eq_refl) as (_ & a & Ea & Ha). cbn [raw] in Ei. rewrite Ei in Ea. injection Ea as <-.
        apply norm_eq. intros z. rewrite !in_app_iff. specialize (Ha z). tauto. }
    change 0 with (0 + 0). eapply done_trans; [exact D|]. intros st1 E1. rewrite E1 in D.
    replace (norm (lc ++ concat (r :: rs'))) with (norm (norm (lc ++ r) ++ concat rs')).
    + apply IH; auto.
      * eapply others_done; eassumption.
      * intros a Ha. apply Hn. right. exact Ha.
      * intros a Ha Ea. destruct (Hx a (or_intror Ha) Ea) as (HL & b & Hb & Ib). split; [exact HL|]. exists b. split; [exact Hb|].
        intros z Hz. rewrite norm_in, in_app_iff. left. apply Ib. exact Hz.
      * eapply done_read. exact D.
      * apply norm_sorted.
    + apply norm_eq. intros z. cbn [concat]. rewrite !in_app_iff, norm_in, in_app_iff. tauto.
Qed.

(** ** intersection_update and difference_update *)

(** neg = false: the elements of the argument are kept; neg = true: they are removed. *)
Definition q (neg : bool) (z : Z) (a : list Z) : bool := xorb neg (is_in z a).
Definition keeps (neg : bool) (keep : list Z -> list Z -> list Z) : Prop := forall l a, keep l a = filter (fun z => q neg z a) l.

Lemma keeps_inter : keeps false inter.
Proof. intros l a. unfold inter. apply filter_ext. intros z. rewrite mem_is_in. unfold q. destruct (is_in z a); reflexivity. Qed.

Lemma keeps_diff : keeps true diff.
Proof. intros l a. unfold diff. apply filter_ext. intros z. rewrite mem_is_in. unfold q. destruct (is_in z a); reflexivity. Qed.

Lemma q_ext : forall neg z a b, (In z a <-> In z b) -> q neg z a = q neg z b.
Proof. intros neg z a b H. unfold q. rewrite (is_in_ext z a b H). reflexivity. Qed.

Lemma filter_filter : forall {A} (f g : A -> bool) l, filter f (filter g l) = filter (fun z => g z && f z) l.
Proof.
  induction l as [|z l IH]; cbn; [reflexivity|]. destruct (g z); cbn; [|exact IH].
  destruct (f z); rewrite IH; reflexivity.
Qed.

Definition holds (st : state) (x : nat) (lc : list Z) (r : nat + list Z) (a : list Z) : Prop :=
  match r with
  | inl v => (v <> x /\ read st v = Some a) \/ (v = x /\ incl lc a)
  | inr b => b = a
  end.

Lemma update_with_ok : forall neg keep, keeps neg keep -> forall x rs bs st lc, Forall2 (holds st x lc) rs bs ->
  read st x = Some lc -> done st x (filter (fun z => forallb (q neg z) bs) lc) 0 (update_with keep x rs st).
Proof.
  intros neg keep Hk x. induction rs as [|r rs IH]; intros bs st lc F Er; inversion F as [|? a ? bs' H1 H2]; subst; cbn [update_with].
  - cbn [forallb]. assert (E : filter (fun _ : Z => true) lc = lc) by (clear; induction lc as [|z l IH]; cbn; [|rewrite IH]; reflexivity).
    rewrite E. apply done_refl. exact Er.
  - rewrite Er. cbn [bind].
    assert (Hc : exists a', content st r = Some a' /\ keep lc a' = filter (fun z => q neg z a) lc).
    { destruct r as [v|b]; cbn in *.
      - destruct H1 as [[N E]|[-> I]].
        + exists a. split; [exact E|apply Hk].
        + exists lc. split; [exact Er|]. rewrite Hk. apply filter_ext_in. intros z Hz. apply q_ext. split; intros _; [apply I|]; exact Hz.
      - subst b. exists a. split; [reflexivity|apply Hk]. }
    destruct Hc as (a' & E1 & E2). rewrite E1. cbn [bind]. rewrite E2.
    assert (D := done_set st x true (filter (fun z => q neg z a) lc)).
    change 0 with (0 + 0).
    change (update_with keep x rs (set_cell st x (Live true (filter (fun z => q neg z a) lc))))
      with (bind (Some (set_cell st x (Live true (filter (fun z => q neg z a) lc)))) (update_with keep x rs)).
    eapply done_trans; [exact D|]. intros st1 Es. injection Es as <-.
    cbn [forallb]. rewrite <- (filter_filter (fun z => forallb (q neg z) bs') (fun z => q neg z a) lc).
    apply IH; [|apply read_set_eq].
    clear - H2. induction H2 as [|r b rs bs H _ IHf]; constructor; [|exact IHf].
    destruct r as [v|c]; cbn in *; [|exact H].
    destruct H as [[N E]|[-> I]].
    + left. split; [exact N|]. rewrite read_set_neq by exact N. exact E.
    + right. split; [reflexivity|]. intros z Hz. apply filter_In in Hz. apply I. tauto.
Qed.

Lemma resolve_holds : forall s st x lc it a, others s st x -> ~ in_literal x it ->
  (it = IVar x -> incl lc a) -> raw s it = Some a ->
  exists r, resolve st it = Some r /\ holds st x lc r a.
Proof.
  intros s st x lc [v|k l] a Ho Hn Hx E; cbn in *.
  - exists (inl v). split; [reflexivity|]. destruct (Nat.eq_dec v x) as [->|N].
    + right. split; [reflexivity|]. apply Hx. reflexivity.
    + left. split; [exact N|]. apply Ho; assumption.
  - rewrite (gets_eval s st l a); [|apply (others_agree s st x); assumption|exact E].
    exists (inr a). split; reflexivity.
Qed.

(** One argument after the other. *)
Lemma update_each_ok : forall neg keep, keeps neg keep -> forall s x its st lc bs, others s st x ->
  (forall it, In it its -> ~ in_literal x it) -> (forall it a, In it its -> it = IVar x -> s x = Some a -> incl lc a) ->
  all (raw s) its = Some bs -> read st x = Some lc ->
  done st x (filter (fun z => forallb (q neg z) bs) lc) 0 (update_each keep x its st).
Proof.
  intros neg keep Hk s x. induction its as [|it its IH]; intros st lc bs Ho Hn Hx E Er; cbn [update_each].
  - injection E as <-. exact (update_with_ok neg keep Hk x [] [] st lc (Forall2_nil _) Er).
  - cbn in E. destruct (raw s it) as [a|] eqn:Ea; [|discriminate]. destruct (all (raw s) its) as [bs'|] eqn:Eb; [|discriminate].
    injection E as <-.
    destruct (resolve_holds s st x lc it a Ho (Hn it (or_introl eq_refl))) as (r & E1 & H1); [|exact Ea|].
    { intros ->. apply (Hx (IVar x) a (or_introl eq_refl) eq_refl). exact Ea. }
    rewrite E1. cbn [bind].
    assert (D := update_with_ok neg keep Hk x [r] [a] st lc (Forall2_cons _ _ H1 (Forall2_nil _)) Er).
    change 0 with (0 + 0). eapply done_trans; [exact D|]. intros st1 E2. rewrite E2 in D.
    cbn [forallb]. rewrite <- (filter_filter (fun z => forallb (q neg z) bs') (fun z => q neg z a) lc).
    assert (Ef : filter (fun z => forallb (q neg z) [a]) lc = filter (fun z => q neg z a) lc)
      by (apply filter_ext; intros z; cbn; apply andb_true_r).
    rewrite Ef in D. apply IH; auto.
    + eapply others_done; eassumption.
    + intros i Hi. apply Hn. right. exact Hi.
    + intros i b Hi Ei Eb' z Hz. apply filter_In in Hz. apply (Hx i b (or_intror Hi) Ei Eb'). tauto.
    + eapply done_read. exact D.
Qed.

Lemma update_c_ok : forall neg keep, keeps neg keep -> forall s x its st lc bs,
  (forall v l, s v = Some l -> read st v = Some l) -> s x = Some lc ->
  all (raw s) its = Some bs ->
  done st x (filter (fun z => forallb (q neg z) bs) lc) 0 (update C keep x its st).
Proof.
  intros neg keep Hk s x its st lc bs Hv Ex Eb. cbn [update].
  assert (H : exists rs, traverse (resolve st) its = Some rs /\ Forall2 (holds st x lc) rs bs).
  { revert bs Eb. induction its as [|it its IH]; intros bs Eb; cbn in *.
    - injection Eb as <-. exists []. split; [reflexivity|constructor].
    - destruct (raw s it) as [a|] eqn:Ea; [|discriminate]. destruct (all (raw s) its) as [bs'|]; [|discriminate]. injection Eb as <-.
      destruct (IH bs' eq_refl) as (rs & E & F).
      assert (G : exists r, resolve st it = Some r /\ holds st x lc r a).
      { destruct it as [v|k l]; cbn in *.
        - exists (inl v). split; [reflexivity|]. destruct (Nat.eq_dec v x) as [->|N].
          + right. split; [reflexivity|]. rewrite Ex in Ea. injection Ea as <-. intros z Hz. exact Hz.
          + left. split; [exact N|]. apply Hv. exact Ea.
        - rewrite (gets_eval s st l a); [|intros v b _; apply Hv|exact Ea]. exists (inr a). split; reflexivity. }
      destruct G as (r & E1 & G). rewrite E1. cbn. rewrite E. cbn. exists (r :: rs). split; [reflexivity|]. constructor; assumption. }
  destruct H as (rs & E & F). rewrite E. cbn [bind]. apply update_with_ok; auto.
Qed.

(** The statements of x = s & ... *)
Lemma update_one : forall L keep x it st, update L keep x [it] st = update_each keep x [it] st.
Proof.
  intros [|] keep x it st; cbn; [|reflexivity]. destruct (resolve st it) as [r|]; cbn; [|reflexivity].
  destruct (read st x); cbn; [|reflexivity]. destruct (content st r); reflexivity.
Qed.

Lemma exec_updates : forall L K keep x its st (g : nat -> list iter -> gstmt),
  (forall it st, exec L K (g x [it]) st = update L keep x [it] st) ->
  exec_all L K (map (fun it => g x [it]) its) st = update_each keep x its st.
Proof.
  intros L K keep x its st g Hg. revert st. induction its as [|it its IH]; intros st; cbn [map exec_all update_each]; [reflexivity|].
  rewrite Hg, update_one. cbn [update_each]. destruct (resolve st it) as [r|]; cbn [bind]; [|reflexivity].
  destruct (update_with keep x [r] st) as [st'|]; cbn [bind]; [apply IH|reflexivity].
Qed.

Lemma forallb_inter : forall ls l, filter (fun z => forallb (q false z) ls) l = filter (fun z => forallb (is_in z) ls) l.
Proof.
  intros ls l. apply filter_ext. intros z. induction ls as [|a ls IH]; cbn; [reflexivity|].
  rewrite IH. unfold q. destruct (is_in z a); reflexivity.
Qed.

Lemma forallb_diff : forall ls l, filter (fun z => forallb (q true z) ls) l = filter (fun z => negb (is_in z (concat ls))) l.
Proof.
  intros ls l. apply filter_ext. intros z. induction ls as [|a ls IH]; cbn [forallb concat]; [reflexivity|].
  rewrite IH. unfold q. cbn [xorb]. destruct (is_in z (a ++ concat ls)) eqn:E.
  - apply is_in_iff, in_app_iff in E. destruct E as [E|E].
    + rewrite (proj2 (is_in_iff z a) E). reflexivity.
    + rewrite (proj2 (is_in_iff z (concat ls)) E). destruct (is_in z a); reflexivity.
  - destruct (is_in z a) eqn:E1.
    + apply is_in_iff in E1. assert (is_in z (a ++ concat ls) = true) by (apply is_in_iff, in_app_iff; tauto). congruence.
    + destruct (is_in z (concat ls)) eqn:E2; [|reflexivity].
      apply is_in_iff in E2. assert (is_in z (a ++ concat ls) = true) by (apply is_in_iff, in_app_iff; tauto). congruence.
Qed.

(** ** union in Fortran *)

Lemma update_join_ok : forall x rs bs st lc,
  Forall2 (fun r a => match r with inl v => v <> x /\ read st v = Some a | inr b => b = a end) rs bs ->
  read st x = Some lc -> sorted lc -> done st x (norm (lc ++ concat bs)) 0 (update_with join x rs st).
Proof.
  intros x. induction rs as [|r rs IH]; intros bs st lc F Er Hs; inversion F as [|? a ? bs' H1 H2]; subst; cbn [update_with].
  - cbn. rewrite app_nil_r, norm_id by exact Hs. apply done_refl. exact Er.
  - rewrite Er. cbn [bind].
    assert (Hc : content st r = Some a) by (destruct r as [v|b]; cbn in *; [tauto|congruence]).
    rewrite Hc. cbn [bind]. rewrite join_norm by exact Hs.
    change 0 with (0 + 0).
    change (update_with join x rs (set_cell st x (Live true (norm (lc ++ a)))))
      with (bind (Some (set_cell st x (Live true (norm (lc ++ a))))) (update_with join x rs)).
    eapply done_trans; [apply done_set|]. intros st1 Es. injection Es as <-.
    replace (norm (lc ++ concat (a :: bs'))) with (norm (norm (lc ++ a) ++ concat bs')).
    + apply IH; [|apply read_set_eq|apply norm_sorted].
      clear - H2. induction H2 as [|r b rs bs H _ IHf]; constructor; [|exact IHf].
      destruct r as [v|c]; cbn in *; [|exact H]. destruct H as [N E]. split; [exact N|]. rewrite read_set_neq by exact N. exact E.
    + apply norm_eq. intros z. cbn [concat]. rewrite !in_app_iff, norm_in, in_app_iff. tauto.
Qed.

(** ** One statement *)

Definition subject (s : stmt) : nat :=
  match s with
  | SLit x _ | SCopy x _ | SCall x _ _ | SComp x _ _ _ | SUnion x _ _ | SInter x _ _ | SDiff x _ _
  | SSetOf x _ | SAdd x _ | SExtend x _ | SInterU x _ | SDiffU x _ => x
  end.

Record good (K : nat -> kind) (e : env) (st : state) : Prop := Good {
  g_live : forall v, exists o l, cells st v = Live o l;
  g_val : forall v l, e v = Some l -> read st v = Some l;
  g_sort : forall v l, e v = Some l -> K v = KSet -> sorted l }.

Lemma good_others : forall K e st x, good K e st -> others e st x.
Proof. intros K e st x G v l _ E. exact (g_val K e st G v l E). Qed.

Lemma ready_others : forall e st st1 x, others e st x -> ready st st1 x -> others e st1 x.
Proof. intros e st st1 x H [R _] v l N E. unfold read. rewrite R by exact N. exact (H v l N E). Qed.

(** A statement which makes x ready, then one which assigns it. *)
Lemma two : forall L K g1 r st st1 x l k, exec L K g1 st = Some st1 -> done st x l k (exec_all L K r st1) ->
  done st x l k (exec_all L K (g1 :: r) st).
Proof. intros L K g1 r st st1 x l k E H. cbn [exec_all]. rewrite E. exact H. Qed.

Lemma assign_then : forall L K g r st st1 x l1 k1 l2 k2, done st x l1 k1 (exec L K g st1) ->
  (forall st2, done st x l1 k1 (Some st2) -> done st2 x l2 k2 (exec_all L K r st2)) -> done st x l2 (k1 + k2) (exec_all L K (g :: r) st1).
Proof.
  intros L K g r st st1 x l1 k1 l2 k2 H1 H2. cbn [exec_all].
  eapply done_trans; [exact H1|]. intros st2 E. apply H2. rewrite <- E. exact H1.
Qed.

Lemma assign_end : forall L K g st st1 x l k, done st x l k (exec L K g st1) -> done st x l k (exec_all L K [g] st1).
Proof. intros L K g st st1 x l k (st' & E & H). exists st'. cbn [exec_all]. rewrite E. split; [reflexivity|exact H]. Qed.

Lemma sets_flags : forall K its, forallb (is_set K) its = false -> exists a, In a its /\ is_set K a = false.
Proof.
  induction its as [|a its IH]; cbn; intros E; [discriminate|].
  destruct (is_set K a) eqn:Ea; [|exists a; split; [left; reflexivity|exact Ea]].
  destruct (IH E) as (b & Hb & Eb). exists b. split; [right; exact Hb|exact Eb].
Qed.

Lemma elements_sorted : forall K e it l, (forall v r, e v = Some r -> K v = KSet -> sorted r) ->
  is_set K it = true -> elements e it = Some l -> sorted l.
Proof.
  intros K e [v|k zs] l H Hs E; cbn in *.
  - apply (H v); [exact E|]. destruct (K v); [discriminate|reflexivity].
  - destruct (all (eval e) zs) as [r|]; [|discriminate]. cbn in E. injection E as <-.
    destruct k; [discriminate|]. apply norm_sorted.
Qed.

Lemma in_literal_iter : forall x it, ~ in_iter x it -> ~ in_literal x it.
Proof. intros x [v|k l] H; cbn in *; [tauto|exact H]. Qed.

Lemma not_var : forall x it, ~ in_iter x it -> it = IVar x -> False.
Proof. intros x it H ->. apply H. reflexivity. Qed.

(** The same for the two languages: what happens after x has been set to the start. *)
Lemma inter_rest : forall L K e st x lc its ls, others e st x -> read st x = Some lc ->
  (forall it, In it its -> ~ in_iter x it) -> all (elements e) its = Some ls ->
  done st x (filter (fun z => forallb (is_in z) ls) lc) 0 (exec_all L K (map (fun it => GInter x [it]) its) st).
Proof.
  intros L K e st x lc its ls Ho Er Hn El. destruct (raws_elements _ _ _ El) as (rs & Ers & Srs).
  rewrite (exec_updates L K inter x its st GInter) by reflexivity.
  replace (filter (fun z => forallb (is_in z) ls) lc) with (filter (fun z => forallb (q false z) rs) lc).
  - apply (update_each_ok false inter keeps_inter e); auto.
    + intros it Hi. apply in_literal_iter. apply Hn. exact Hi.
    + intros it a Hi E. exfalso. exact (not_var x it (Hn it Hi) E).
  - rewrite forallb_inter. apply filter_ext. intros z. apply same_forallb. exact Srs.
Qed.

Lemma diff_concat : forall rs ls l, Forall2 same rs ls ->
  filter (fun z => forallb (q true z) rs) l = filter (fun z => negb (is_in z (concat ls))) l.
Proof.
  intros rs ls l H. rewrite forallb_diff. apply filter_ext. intros z. f_equal. apply is_in_ext.
  apply same_concat. exact H.
Qed.

Lemma inter_concat : forall rs ls l, Forall2 same rs ls ->
  filter (fun z => forallb (q false z) rs) l = filter (fun z => forallb (is_in z) ls) l.
Proof.
  intros rs ls l H. rewrite forallb_inter. apply filter_ext. intros z. apply same_forallb. exact H.
Qed.

Lemma diff_rest : forall L K e st x lc its ls, others e st x -> read st x = Some lc ->
  (forall it, In it its -> ~ in_iter x it) -> all (elements e) its = Some ls ->
  done st x (filter (fun z => negb (is_in z (concat ls))) lc) 0 (exec_all L K (map (fun it => GDiff x [it]) its) st).
Proof.
  intros L K e st x lc its ls Ho Er Hn El. destruct (raws_elements _ _ _ El) as (rs & Ers & Srs).
  rewrite (exec_updates L K diff x its st GDiff) by reflexivity.
  rewrite <- (diff_concat rs ls lc Srs).
  apply (update_each_ok true diff keeps_diff e); auto.
  - intros it Hi. apply in_literal_iter. apply Hn. exact Hi.
  - intros it a Hi E. exfalso. exact (not_var x it (Hn it Hi) E).
Qed.

Lemma norm_raws : forall l rs ls, Forall2 same rs ls -> norm (l ++ concat rs) = norm (l ++ concat ls).
Proof.
  intros l rs ls H. apply norm_eq. intros z. rewrite !in_app_iff, (same_concat rs ls H z). tauto.
Qed.

Lemma start_c : forall K e st x i l known, good K e st -> K x = KSet -> is_set K i = true ->
  (known = false -> cells st x = Live false []) -> ~ in_iter x i -> elements e i = Some l ->
  done st x l (match i with IVar _ => 1 | ILit _ _ => 0 end) (exec_all C K (start known x i) st).
Proof.
  intros K e st x [v|k zs] l known G HK Hi Hf Hn E; cbn [start].
  - cbn in E, Hn. destruct (alloc_reserve K st x v known (g_live _ _ _ G) Hf) as (st1 & E1 & R & Ec).
    eapply two; [exact E1|]. apply assign_end. cbn [exec].
    assert (Ev : read st1 v = Some l).
    { apply (ready_others e st st1 x); [eapply good_others; exact G|exact R|exact Hn|exact E]. }
    rewrite Ev. cbn [bind]. apply overwrite_done; [exact R|]. rewrite Ec. reflexivity.
  - cbn in E, Hn. destruct (all (eval e) zs) as [r|] eqn:Ez; [|discriminate]. cbn in E. injection E as <-.
    destruct (alloc_drop K st x Init known (g_live _ _ _ G x) Hf (or_introl eq_refl)) as (st1 & E1 & R & Ec).
    eapply two; [exact E1|]. apply assign_end. cbn [exec].
    rewrite (gets_eval e st1 zs r); [|apply (others_agree e st1 x); [apply (ready_others e st); [eapply good_others; exact G|exact R]|exact Hn]|exact Ez].
    cbn [bind]. rewrite build_ok. rewrite HK. destruct k; [discriminate|].
    apply overwrite_done; [exact R|]. rewrite Ec. reflexivity.
Qed.

Lemma start_f : forall K e st x i l known, good K e st -> K x = KSet -> is_set K i = true ->
  elements e i = Some l -> done st x l 0 (exec_all Fortran K (start known x i) st).
Proof.
  intros K e st x [v|k zs] l known G HK Hi E; cbn [start]; (eapply two; [apply alloc_fortran_set; exact HK|]); apply assign_end; cbn [exec].
  - cbn in E. rewrite (g_val _ _ _ G v l E). cbn [bind]. apply overwrite_done; [apply ready_refl|reflexivity].
  - cbn in E. destruct (all (eval e) zs) as [r|] eqn:Ez; [|discriminate]. cbn in E. injection E as <-.
    rewrite (gets_eval e st zs r); [|intros v a _; apply (g_val _ _ _ G)|exact Ez]. cbn [bind].
    rewrite build_ok, HK. destruct k; [discriminate|]. apply overwrite_done; [apply ready_refl|reflexivity].
Qed.

(** Adding to a list or a set. *)
Lemma extend_ok : forall L K e st x its l ls, good K e st -> e x = Some l ->
  (K x = KList -> length its = 1 /\ forall it, In it its -> is_set K it = false) ->
  (forall it, In it its -> ~ in_literal x it) -> (forall it, In it its -> it = IVar x -> L = Fortran) ->
  all (elements e) its = Some ls ->
  done st x (value (K x) (l ++ concat ls)) 0 (exec_all L K (flat_map (add_all x) its) st).
Proof.
  intros L K e st x its l ls G Ex Ht Hn Hx El. destruct (raws_elements _ _ _ El) as (rs & Ers & Srs).
  assert (Er := g_val _ _ _ G x l Ex). assert (Ho := good_others K e st x G).
  destruct (K x) eqn:HK.
  - destruct (Ht eq_refl) as [H1 H2]. destruct its as [|it [|? ?]]; try discriminate. clear H1.
    cbn [flat_map]. rewrite app_nil_r. cbn in El. destruct (elements e it) as [r|] eqn:Ei; [|discriminate]. injection El as <-.
    cbn [concat]. rewrite app_nil_r. cbn [value].
    assert (Hr : raw e it = Some r).
    { specialize (H2 it (or_introl eq_refl)). destruct it as [v|k zs]; cbn in *; [exact Ei|].
      destruct k; [|discriminate]. destruct (all (eval e) zs); [|discriminate]. exact Ei. }
    assert (D := add_one L K e x it st r l Ho (Hn it (or_introl eq_refl)) Hr Er).
    rewrite HK in D. cbn [value] in D.
    replace (l ++ r) with (l ++ cur x it l r); [apply D; [discriminate|apply Hx; left; reflexivity]|].
    f_equal. destruct it as [v|k zs]; cbn [cur]; [|reflexivity]. destruct (Nat.eqb_spec v x) as [->|N]; [|reflexivity].
    cbn in Hr. congruence.
  - cbn [value]. rewrite <- (norm_raws l rs ls Srs). apply (add_sets L K e); auto.
    + intros it Hi E. split; [apply (Hx it Hi E)|]. exists l. split; [exact Ex|]. intros z Hz. exact Hz.
    + apply (g_sort _ _ _ G x); assumption.
Qed.

Lemma in_place : forall f c (l : list Z), (forall z, c z = true) ->
  map f (filter c l) ++ skipn (length (map f (filter c l))) l = map f (filter c l).
Proof.
  intros f c l H. assert (E : filter c l = l).
  { induction l as [|z l IH]; cbn; [reflexivity|]. rewrite H, IH. reflexivity. }
  rewrite E, map_length, skipn_all, app_nil_r. reflexivity.
Qed.

Lemma stmt_c : forall K before known earlier s e st e', typed K s -> safe_c earlier s ->
  (forall x, assigned x earlier -> target s = Some x -> before = true) ->
  good K e st -> (forall x, target s = Some x -> known = false -> cells st x = Live false []) ->
  py K s e = Some e' ->
  exists l, e' = assign e (subject s) l /\ (K (subject s) = KSet -> sorted l) /\
    done st (subject s) l (copies K s) (exec_all C K (compile K before known s) st).
Proof.
  intros K before known earlier s e st e' Ht Hs Hb G Hf Hp.
  destruct s as [x l|x y|x args f|x y f c|x y its|x i its|x i its|x it|x el|x its|x its|x its]; cbn [subject target] in *; cbn [py] in Hp.
  - (* SLit *)
    cbn [safe_c] in Hs. destruct (all (eval e) l) as [zs|] eqn:Ez; [|discriminate]. injection Hp as <-.
    exists (value (K x) zs). split; [reflexivity|]. split; [apply value_sorted|]. cbn [compile copies].
    destruct (alloc_drop K st x Init known (g_live _ _ _ G x) (Hf x eq_refl) (or_introl eq_refl)) as (st1 & E1 & R & Ec).
    eapply two; [exact E1|]. apply assign_end. cbn [exec].
    rewrite (gets_eval e st1 l zs); [|apply (others_agree e st1 x); [apply (ready_others e st); [eapply good_others; exact G|exact R]|exact Hs]|exact Ez].
    cbn [bind]. rewrite build_ok. apply overwrite_done; [exact R|]. rewrite Ec. reflexivity.
  - (* SCopy *)
    destruct (e y) as [l|] eqn:Ey; [|discriminate]. injection Hp as <-. destruct Ht as [HKx HKy].
    exists l. split; [reflexivity|]. split; [intros _; apply (g_sort _ _ _ G y l Ey HKy)|].
    change (compile K before known (SCopy x y)) with (start known x (IVar y)).
    apply (start_c K e st x (IVar y) l known G HKx); auto.
    cbn. rewrite HKy. reflexivity.
  - (* SCall *)
    destruct (all e args) as [ls|] eqn:El; [|discriminate]. injection Hp as <-.
    exists (value (K x) (f ls)). split; [reflexivity|]. split; [apply value_sorted|]. cbn [compile copies].
    destruct (alloc_drop K st x Func known (g_live _ _ _ G x) (Hf x eq_refl) (or_intror (or_intror eq_refl))) as (st1 & E1 & R & Ec).
    eapply two; [exact E1|]. apply assign_end. cbn [exec].
    rewrite (all_traverse e (read st1) args ls); [| |exact El].
    + cbn [bind]. rewrite build_ok. apply overwrite_done; [exact R|]. rewrite Ec. reflexivity.
    + intros v a Hv Ea. apply (ready_others e st st1 x); [eapply good_others; exact G|exact R| |exact Ea].
      intros ->. apply Hs. exact Hv.
  - (* SComp *)
    destruct (e y) as [l|] eqn:Ey; [|discriminate]. injection Hp as <-. destruct Ht as [HKx HKy].
    exists (map f (filter c l)). split; [reflexivity|]. split; [rewrite HKx; discriminate|]. cbn [compile copies].
    destruct (Nat.eqb_spec x y) as [->|N].
    + destruct (Hs eq_refl) as [Ha Hc]. rewrite (Hb y Ha eq_refl). cbn [andb]. apply assign_end. cbn [exec].
      rewrite (g_val _ _ _ G y l Ey). cbn [bind]. rewrite in_place by exact Hc. apply done_set.
    + rewrite andb_false_r.
      destruct (alloc_reserve K st x y known (g_live _ _ _ G) (Hf x eq_refl)) as (st1 & E1 & R & Ec).
      eapply two; [exact E1|]. apply assign_end. cbn [exec].
      assert (Ey1 : read st1 y = Some l) by (apply (ready_others e st st1 x); [eapply good_others; exact G|exact R|auto|exact Ey]).
      rewrite Ey1. cbn [bind]. rewrite (read_live _ _ _ _ Ec). cbn [bind]. apply Nat.eqb_neq in N. rewrite N.
      rewrite HKx, loop_list. cbn [app].
      destruct (done_set st1 x true (map f (filter c l))) as (st2 & E2 & D1 & D2 & D3). exists st2. split; [exact E2|].
      split; [exact D1|]. split; [intros v Hv; rewrite D2 by exact Hv; apply R; exact Hv|]. rewrite D3, (proj2 R). lia.
  - (* SUnion *)
    destruct (e y) as [l|] eqn:Ey; [|discriminate]. destruct (all (elements e) its) as [ls|] eqn:El; [|discriminate].
    injection Hp as <-. destruct Ht as [HKx HKy]. destruct Hs as [Hxy Hn].
    exists (norm (l ++ concat ls)). split; [reflexivity|]. split; [intros _; apply norm_sorted|].
    destruct (raws_elements _ _ _ El) as (rs & Ers & Srs). rewrite <- (norm_raws l rs ls Srs).
    assert (Hl : sorted l) by (apply (g_sort _ _ _ G y); assumption).
    cbn [compile copies]. destruct (forallb (is_set K) its) eqn:Ef.
    + destruct (alloc_drop K st x NoSize known (g_live _ _ _ G x) (Hf x eq_refl) (or_intror (or_introl eq_refl))) as (st1 & E1 & R & Ec).
      eapply two; [exact E1|]. apply assign_end. cbn [exec].
      assert (Ho1 : others e st1 x) by (apply (ready_others e st); [eapply good_others; exact G|exact R]).
      rewrite (Ho1 y l) by auto. cbn [bind].
      rewrite (all_traverse (raw e) (values st1) its rs); [| |exact Ers].
      * cbn [bind]. rewrite joins_norm by exact Hl. apply overwrite_done; [exact R|]. rewrite Ec. reflexivity.
      * intros it a Hi. apply raw_values. apply (others_agree e st1 x); [exact Ho1|]. apply Hn. exact Hi.
    + change (GAlloc x (Reserve y) known :: GClone x y :: flat_map (add_all x) its) with (start known x (IVar y) ++ flat_map (add_all x) its).
      rewrite exec_all_app. change 1 with (1 + 0).
      assert (D : done st x l 1 (exec_all C K (start known x (IVar y)) st)).
      { apply (start_c K e st x (IVar y) l known G HKx); auto.
        cbn. rewrite HKy. reflexivity. }
      eapply done_trans; [exact D|]. intros st1 E1. rewrite E1 in D.
      apply (add_sets C K e); auto.
      * eapply others_done; [eapply good_others; exact G|exact D].
      * intros it Hi. apply in_literal_iter, Hn. exact Hi.
      * intros it Hi E. exfalso. exact (not_var x it (Hn it Hi) E).
      * eapply done_read. exact D.
  - (* SInter *)
    destruct (elements e i) as [l|] eqn:Ei; [|discriminate]. destruct (all (elements e) its) as [ls|] eqn:El; [|discriminate].
    injection Hp as <-. destruct Ht as (HKx & Hi & Hits). destruct Hs as [Hni Hn].
    eexists. split; [reflexivity|]. split; [intros _; apply sorted_filter; apply (elements_sorted K e i l (g_sort _ _ _ G) Hi Ei)|].
    cbn [compile]. rewrite exec_all_app.
    replace (copies K (SInter x i its)) with ((match i with IVar _ => 1 | ILit _ _ => 0 end) + 0) by (destruct i; reflexivity).
    assert (D := start_c K e st x i l known G HKx Hi (Hf x eq_refl) Hni Ei).
    eapply done_trans; [exact D|]. intros st1 E1. rewrite E1 in D. apply (inter_rest C K e); auto.
    + eapply others_done; [eapply good_others; exact G|exact D].
    + eapply done_read. exact D.
  - (* SDiff *)
    destruct (elements e i) as [l|] eqn:Ei; [|discriminate]. destruct (all (elements e) its) as [ls|] eqn:El; [|discriminate].
    injection Hp as <-. destruct Ht as (HKx & Hi & Hits). destruct Hs as [Hni Hn].
    eexists. split; [reflexivity|]. split; [intros _; apply sorted_filter; apply (elements_sorted K e i l (g_sort _ _ _ G) Hi Ei)|].
    cbn [compile]. rewrite exec_all_app.
    replace (copies K (SDiff x i its)) with ((match i with IVar _ => 1 | ILit _ _ => 0 end) + 0) by (destruct i; reflexivity).
    assert (D := start_c K e st x i l known G HKx Hi (Hf x eq_refl) Hni Ei).
    eapply done_trans; [exact D|]. intros st1 E1. rewrite E1 in D. apply (diff_rest C K e); auto.
    + eapply others_done; [eapply good_others; exact G|exact D].
    + eapply done_read. exact D.
  - (* SSetOf *)
    destruct (elements e it) as [l|] eqn:Ei; [|discriminate]. injection Hp as <-. cbn [typed] in Ht.
    exists (norm l). split; [reflexivity|]. split; [intros _; apply norm_sorted|]. cbn [safe_c] in Hs.
    destruct it as [v|k zs].
    + cbn [compile copies]. cbn in Ei, Hs. destruct (K v) eqn:HKv.
      * destruct (alloc_reserve K st x v known (g_live _ _ _ G) (Hf x eq_refl)) as (st1 & E1 & R & Ec).
        eapply two; [exact E1|]. apply assign_end. cbn [exec].
        assert (Ev : read st1 v = Some l) by (apply (ready_others e st st1 x); [eapply good_others; exact G|exact R|exact Hs|exact Ei]).
        rewrite Ev. cbn [bind]. rewrite (read_live _ _ _ _ Ec). cbn [bind].
        apply not_eq_sym in Hs. apply Nat.eqb_neq in Hs. rewrite Hs, loop_add by (intros _; constructor).
        rewrite Ht. cbn [app value].
        destruct (done_set st1 x true (norm l)) as (st2 & E2 & D1 & D2 & D3). exists st2. split; [exact E2|].
        split; [exact D1|]. split; [intros w Hw; rewrite D2 by exact Hw; apply R; exact Hw|]. rewrite D3, (proj2 R). lia.
      * change [GAlloc x (Reserve v) known; GClone x v] with (start known x (IVar v)).
        rewrite norm_id by (apply (g_sort _ _ _ G v); assumption).
        apply (start_c K e st x (IVar v) l known G Ht); auto. cbn. rewrite HKv. reflexivity.
    + cbn [compile copies]. change [GAlloc x Init known; GLit x zs] with (start known x (ILit KSet zs)).
      apply (start_c K e st x (ILit KSet zs) (norm l) known G Ht); auto.
      cbn in *. destruct (all (eval e) zs) as [r|]; [|discriminate]. cbn in *. injection Ei as <-.
      f_equal. destruct k; [reflexivity|]. cbn. symmetry. apply norm_id. apply norm_sorted.
  - (* SAdd *)
    destruct (e x) as [l|] eqn:Ex; [|discriminate]. destruct (eval e el) as [z|] eqn:Ez; [|discriminate]. injection Hp as <-.
    exists (value (K x) (l ++ [z])). split; [reflexivity|]. split; [apply value_sorted|]. cbn [compile copies].
    apply assign_end. cbn [exec]. rewrite (get_eval e st el z); [|intros v a _; apply (g_val _ _ _ G)|exact Ez]. cbn [bind].
    rewrite (g_val _ _ _ G x l Ex). cbn [bind]. rewrite insert_add by (apply (g_sort _ _ _ G x); assumption). apply done_set.
  - (* SExtend *)
    destruct (e x) as [l|] eqn:Ex; [|discriminate]. destruct (all (elements e) its) as [ls|] eqn:El; [|discriminate]. injection Hp as <-.
    exists (value (K x) (l ++ concat ls)). split; [reflexivity|]. split; [apply value_sorted|]. cbn [compile copies].
    apply (extend_ok C K e); auto.
    + intros it Hi. apply in_literal_iter, Hs. exact Hi.
    + intros it Hi E. exfalso. exact (not_var x it (Hs it Hi) E).
  - (* SInterU *)
    destruct (e x) as [l|] eqn:Ex; [|discriminate]. destruct (all (elements e) its) as [ls|] eqn:El; [|discriminate]. injection Hp as <-.
    eexists. split; [reflexivity|]. split; [intros E; apply sorted_filter, (g_sort _ _ _ G x); assumption|]. cbn [compile copies].
    apply assign_end. cbn [exec]. destruct (raws_elements _ _ _ El) as (rs & Ers & Srs). rewrite <- (inter_concat rs ls l Srs).
    apply (update_c_ok false inter keeps_inter e); auto. apply (g_val _ _ _ G).
  - (* SDiffU *)
    destruct (e x) as [l|] eqn:Ex; [|discriminate]. destruct (all (elements e) its) as [ls|] eqn:El; [|discriminate]. injection Hp as <-.
    eexists. split; [reflexivity|]. split; [intros E; apply sorted_filter, (g_sort _ _ _ G x); assumption|]. cbn [compile copies].
    apply assign_end. cbn [exec]. destruct (raws_elements _ _ _ El) as (rs & Ers & Srs). rewrite <- (diff_concat rs ls l Srs).
    apply (update_c_ok true diff keeps_diff e); auto. apply (g_val _ _ _ G).
Qed.

Lemma stmt_f : forall K before known earlier loop s e st e', typed K s -> safe_fortran K earlier loop s ->
  (forall x, assigned x earlier -> target s = Some x -> before = true) ->
  (forall x, target s = Some x -> loop = false -> ~ assigned x earlier -> known = false) ->
  good K e st -> (forall x, target s = Some x -> known = false -> cells st x = Live false []) ->
  py K s e = Some e' ->
  exists l, e' = assign e (subject s) l /\ (K (subject s) = KSet -> sorted l) /\
    done st (subject s) l 0 (exec_all Fortran K (compile K before known s) st).
Proof.
  intros K before known earlier loop s e st e' Ht Hs Hb Hk G Hf Hp.
  destruct s as [x l|x y|x args f|x y f c|x y its|x i its|x i its|x it|x el|x its|x its|x its]; cbn [subject target] in *; cbn [py] in Hp.
  - (* SLit *)
    destruct (all (eval e) l) as [zs|] eqn:Ez; [|discriminate]. injection Hp as <-.
    exists (value (K x) zs). split; [reflexivity|]. split; [apply value_sorted|]. cbn [compile].
    eapply two; [apply alloc_fortran_init|]. apply assign_end. cbn [exec].
    rewrite (gets_eval e st l zs); [|intros v a _; apply (g_val _ _ _ G)|exact Ez].
    cbn [bind]. rewrite build_ok. apply overwrite_done; [apply ready_refl|reflexivity].
  - (* SCopy *)
    destruct (e y) as [l|] eqn:Ey; [|discriminate]. injection Hp as <-. destruct Ht as [HKx HKy].
    exists l. split; [reflexivity|]. split; [intros _; apply (g_sort _ _ _ G y l Ey HKy)|].
    change (compile K before known (SCopy x y)) with (start known x (IVar y)).
    apply (start_f K e st x (IVar y) l known G HKx); auto.
    cbn. rewrite HKy. reflexivity.
  - (* SCall *)
    destruct (all e args) as [ls|] eqn:El; [|discriminate]. injection Hp as <-.
    exists (value (K x) (f ls)). split; [reflexivity|]. split; [apply value_sorted|]. cbn [compile].
    assert (A : exists st1, exec Fortran K (GAlloc x Func known) st = Some st1 /\ ready st st1 x /\ (K x = KSet -> st1 = st)).
    { destruct (K x) eqn:HK.
      - destruct (alloc_fortran_list K st x Func known HK (or_intror eq_refl) (Hf x eq_refl)) as (st1 & E1 & R & _).
        exists st1. split; [exact E1|]. split; [exact R|]. discriminate.
      - exists st. split; [apply alloc_fortran_set; exact HK|]. split; [apply ready_refl|]. reflexivity. }
    destruct A as (st1 & E1 & R & Hst).
    eapply two; [exact E1|]. apply assign_end. cbn [exec].
    rewrite (all_traverse e (read st1) args ls); [| |exact El].
    + cbn [bind]. rewrite build_ok. apply overwrite_done; [exact R|reflexivity].
    + intros v a Hv Ea. destruct (Nat.eq_dec v x) as [->|N].
      * destruct (K x) eqn:HK; [exfalso; exact (Hs HK Hv)|]. rewrite (Hst eq_refl). apply (g_val _ _ _ G). exact Ea.
      * apply (ready_others e st st1 x); [eapply good_others; exact G|exact R|exact N|exact Ea].
  - (* SComp *)
    destruct (e y) as [l|] eqn:Ey; [|discriminate]. injection Hp as <-. destruct Ht as [HKx HKy].
    exists (map f (filter c l)). split; [reflexivity|]. split; [rewrite HKx; discriminate|]. cbn [compile].
    destruct (Nat.eqb_spec x y) as [->|N].
    + destruct (Hs eq_refl) as [Ha Hc]. rewrite (Hb y Ha eq_refl). cbn [andb]. apply assign_end. cbn [exec].
      rewrite (g_val _ _ _ G y l Ey). cbn [bind]. rewrite in_place by exact Hc. apply done_set.
    + rewrite andb_false_r.
      destruct (alloc_fortran_list K st x (Reserve y) known HKx (or_introl (ex_intro _ y eq_refl)) (Hf x eq_refl)) as (st1 & E1 & R & o & Ec).
      eapply two; [exact E1|]. apply assign_end. cbn [exec].
      assert (Ey1 : read st1 y = Some l) by (apply (ready_others e st st1 x); [eapply good_others; exact G|exact R|auto|exact Ey]).
      rewrite Ey1. cbn [bind]. rewrite (read_live _ _ _ _ Ec). cbn [bind].
      rewrite HKx, loop_list. cbn [app].
      destruct (done_set st1 x true (map f (filter c l))) as (st2 & E2 & D1 & D2 & D3). exists st2. split; [exact E2|].
      split; [exact D1|]. split; [intros v Hv; rewrite D2 by exact Hv; apply R; exact Hv|]. rewrite D3, (proj2 R). lia.
  - (* SUnion *)
    destruct (e y) as [l|] eqn:Ey; [|discriminate]. destruct (all (elements e) its) as [ls|] eqn:El; [|discriminate].
    injection Hp as <-. destruct Ht as [HKx HKy].
    exists (norm (l ++ concat ls)). split; [reflexivity|]. split; [intros _; apply norm_sorted|].
    destruct (raws_elements _ _ _ El) as (rs & Ers & Srs). rewrite <- (norm_raws l rs ls Srs).
    assert (Hl : sorted l) by (apply (g_sort _ _ _ G y); assumption).
    cbn [compile]. destruct (forallb (is_set K) its) eqn:Ef.
    + eapply two; [apply alloc_fortran_set; exact HKx|]. apply assign_end. cbn [exec].
      assert (H : exists xs, traverse (resolve st) its = Some xs /\
                Forall2 (fun r a => match r with inl v => v <> x /\ read st v = Some a | inr b => b = a end) xs rs).
      { clear - Hs Ers G. revert rs Ers. cbn [safe_fortran] in Hs.
        assert (Hn : forall it, In it its -> it <> IVar x) by (intros it Hi; apply Hs; exact Hi). clear Hs.
        induction its as [|it its IH]; intros rs Ers; cbn in *.
        - injection Ers as <-. exists []. split; [reflexivity|constructor].
        - destruct (raw e it) as [a|] eqn:Ea; [|discriminate]. destruct (all (raw e) its) as [rs'|]; [|discriminate]. injection Ers as <-.
          destruct (IH (fun i Hi => Hn i (or_intror Hi)) rs' eq_refl) as (xs & E & F). specialize (Hn it (or_introl eq_refl)).
          destruct it as [v|k zs]; cbn in *.
          + rewrite E. cbn. exists (inl v :: xs). split; [reflexivity|]. constructor; [|exact F]. split; [congruence|]. apply (g_val _ _ _ G). exact Ea.
          + rewrite (gets_eval e st zs a); [|intros v b _; apply (g_val _ _ _ G)|exact Ea]. cbn. rewrite E. cbn.
            exists (inr a :: xs). split; [reflexivity|]. constructor; [reflexivity|exact F]. }
      destruct H as (xs & E & F). rewrite E. cbn [bind]. rewrite (g_val _ _ _ G y l Ey). cbn [bind].
      assert (D := overwrite_done Fortran st st x l 0 (ready_refl st x) eq_refl).
      change (update_with join x xs (overwrite Fortran st x l)) with (bind (Some (overwrite Fortran st x l)) (update_with join x xs)).
      change 0 with (0 + 0). eapply done_trans; [exact D|]. intros st1 Es. injection Es as <-.
      apply update_join_ok; [|eapply done_read; exact D|exact Hl].
      destruct D as (st' & Ed & _ & D2 & _). injection Ed as <-. clear - F D2.
      induction F as [|r b xs rs H _ IHf]; constructor; [|exact IHf].
      destruct r as [v|w]; [|exact H]. destruct H as [N E]. split; [exact N|]. unfold read. rewrite D2 by exact N. exact E.
    + change (GAlloc x (Reserve y) known :: GClone x y :: flat_map (add_all x) its) with (start known x (IVar y) ++ flat_map (add_all x) its).
      rewrite exec_all_app. change 0 with (0 + 0).
      assert (D : done st x l 0 (exec_all Fortran K (start known x (IVar y)) st)).
      { apply (start_f K e st x (IVar y) l known G HKx); auto.
        cbn. rewrite HKy. reflexivity. }
      assert (Hn : forall it, In it its -> ~ in_iter x it).
      { intros it Hi. apply (Hs it Hi). apply sets_flags. exact Ef. }
      eapply done_trans; [exact D|]. intros st1 E1. rewrite E1 in D.
      apply (add_sets Fortran K e); auto.
      * eapply others_done; [eapply good_others; exact G|exact D].
      * intros it Hi. apply in_literal_iter, Hn. exact Hi.
      * intros it Hi E. exfalso. exact (not_var x it (Hn it Hi) E).
      * eapply done_read. exact D.
  - (* SInter *)
    destruct (elements e i) as [l|] eqn:Ei; [|discriminate]. destruct (all (elements e) its) as [ls|] eqn:El; [|discriminate].
    injection Hp as <-. destruct Ht as (HKx & Hi & Hits).
    eexists. split; [reflexivity|]. split; [intros _; apply sorted_filter; apply (elements_sorted K e i l (g_sort _ _ _ G) Hi Ei)|].
    cbn [compile]. rewrite exec_all_app. change 0 with (0 + 0).
    assert (D := start_f K e st x i l known G HKx Hi Ei).
    eapply done_trans; [exact D|]. intros st1 E1. rewrite E1 in D. apply (inter_rest Fortran K e); auto.
    + eapply others_done; [eapply good_others; exact G|exact D].
    + eapply done_read. exact D.
  - (* SDiff *)
    destruct (elements e i) as [l|] eqn:Ei; [|discriminate]. destruct (all (elements e) its) as [ls|] eqn:El; [|discriminate].
    injection Hp as <-. destruct Ht as (HKx & Hi & Hits).
    eexists. split; [reflexivity|]. split; [intros _; apply sorted_filter; apply (elements_sorted K e i l (g_sort _ _ _ G) Hi Ei)|].
    cbn [compile]. rewrite exec_all_app. change 0 with (0 + 0).
    assert (D := start_f K e st x i l known G HKx Hi Ei).
    eapply done_trans; [exact D|]. intros st1 E1. rewrite E1 in D. apply (diff_rest Fortran K e); auto.
    + eapply others_done; [eapply good_others; exact G|exact D].
    + eapply done_read. exact D.
  - (* SSetOf *)
    destruct (elements e it) as [l|] eqn:Ei; [|discriminate]. injection Hp as <-. cbn [typed] in Ht.
    exists (norm l). split; [reflexivity|]. split; [intros _; apply norm_sorted|]. cbn [safe_fortran] in Hs.
    destruct it as [v|k zs].
    + cbn [compile]. cbn in Ei. destruct (K v) eqn:HKv.
      * destruct (Hs eq_refl) as [Hl Ha]. assert (Ec := Hf x eq_refl (Hk x eq_refl Hl Ha)).
        eapply two; [apply alloc_fortran_set; exact Ht|]. apply assign_end. cbn [exec].
        rewrite (g_val _ _ _ G v l Ei). cbn [bind]. rewrite (read_live _ _ _ _ Ec). cbn [bind].
        rewrite loop_add by (intros _; constructor). rewrite Ht. cbn [app value]. apply done_set.
      * change [GAlloc x (Reserve v) known; GClone x v] with (start known x (IVar v)).
        rewrite norm_id by (apply (g_sort _ _ _ G v); assumption).
        apply (start_f K e st x (IVar v) l known G Ht); auto. cbn. rewrite HKv. reflexivity.
    + cbn [compile]. change [GAlloc x Init known; GLit x zs] with (start known x (ILit KSet zs)).
      apply (start_f K e st x (ILit KSet zs) (norm l) known G Ht); auto.
      cbn in *. destruct (all (eval e) zs) as [r|]; [|discriminate]. cbn in *. injection Ei as <-.
      f_equal. destruct k; [reflexivity|]. cbn. symmetry. apply norm_id. apply norm_sorted.
  - (* SAdd *)
    destruct (e x) as [l|] eqn:Ex; [|discriminate]. destruct (eval e el) as [z|] eqn:Ez; [|discriminate]. injection Hp as <-.
    exists (value (K x) (l ++ [z])). split; [reflexivity|]. split; [apply value_sorted|]. cbn [compile].
    apply assign_end. cbn [exec]. rewrite (get_eval e st el z); [|intros v a _; apply (g_val _ _ _ G)|exact Ez]. cbn [bind].
    rewrite (g_val _ _ _ G x l Ex). cbn [bind]. rewrite insert_add by (apply (g_sort _ _ _ G x); assumption). apply done_set.
  - (* SExtend *)
    destruct (e x) as [l|] eqn:Ex; [|discriminate]. destruct (all (elements e) its) as [ls|] eqn:El; [|discriminate]. injection Hp as <-.
    exists (value (K x) (l ++ concat ls)). split; [reflexivity|]. split; [apply value_sorted|]. cbn [compile].
    apply (extend_ok Fortran K e); auto.
  - (* SInterU *)
    destruct (e x) as [l|] eqn:Ex; [|discriminate]. destruct (all (elements e) its) as [ls|] eqn:El; [|discriminate]. injection Hp as <-.
    eexists. split; [reflexivity|]. split; [intros E; apply sorted_filter, (g_sort _ _ _ G x); assumption|]. cbn [compile].
    apply assign_end. cbn [exec update]. destruct (raws_elements _ _ _ El) as (rs & Ers & Srs). rewrite <- (inter_concat rs ls l Srs).
    apply (update_each_ok false inter keeps_inter e); auto.
    + eapply good_others. exact G.
    + intros it a _ _ E. rewrite Ex in E. injection E as <-. intros z Hz. exact Hz.
    + apply (g_val _ _ _ G). exact Ex.
  - (* SDiffU *)
    destruct (e x) as [l|] eqn:Ex; [|discriminate]. destruct (all (elements e) its) as [ls|] eqn:El; [|discriminate]. injection Hp as <-.
    eexists. split; [reflexivity|]. split; [intros E; apply sorted_filter, (g_sort _ _ _ G x); assumption|]. cbn [compile].
    apply assign_end. cbn [exec update]. destruct (raws_elements _ _ _ El) as (rs & Ers & Srs). rewrite <- (diff_concat rs ls l Srs).
    apply (update_each_ok true diff keeps_diff e); auto.
    + eapply good_others. exact G.
    + intros it a _ _ E. rewrite Ex in E. injection E as <-. intros z Hz. exact Hz.
    + apply (g_val _ _ _ G). exact Ex.
Qed.

(** ** Programs *)

Lemma good_step : forall K e st x l k st', good K e st -> (K x = KSet -> sorted l) -> done st x l k (Some st') ->
  good K (assign e x l) st'.
Proof.
  intros K e st x l k st' G Hs (s' & E & (o & D1) & D2 & _). injection E as <-. constructor.
  - intros v. destruct (Nat.eq_dec v x) as [->|N]; [exists o, l; exact D1|]. rewrite D2 by exact N. apply (g_live _ _ _ G).
  - intros v r Ev. unfold assign in Ev. unfold read. destruct (Nat.eqb_spec v x) as [->|N].
    + injection Ev as <-. rewrite D1. reflexivity.
    + rewrite D2 by exact N. apply (g_val _ _ _ G). exact Ev.
  - intros v r Ev. unfold assign in Ev. destruct (Nat.eqb_spec v x) as [->|N].
    + injection Ev as <-. exact Hs.
    + apply (g_sort _ _ _ G). exact Ev.
Qed.

(** The variables outside A have not been used. *)
Definition unused (A : nat -> bool) (e : env) (st : state) : Prop :=
  forall v, A v = false -> cells st v = Live false [] /\ e v = None.

Lemma py_subject : forall K s e e', py K s e = Some e' -> target s = Some (subject s) \/ exists l, e (subject s) = Some l.
Proof.
  intros K s e e' H. destruct s; cbn in *; try (left; reflexivity); right;
    match goal with |- exists l, ?e ?x = Some l => destruct (e x) as [r|]; [exists r; reflexivity|discriminate] end.
Qed.

Lemma unused_step : forall A s e st l k st', unused A e st -> (target s = Some (subject s) \/ exists l, e (subject s) = Some l) ->
  done st (subject s) l k (Some st') -> unused (seen A s) (assign e (subject s) l) st'.
Proof.
  intros A s e st l k st' U Hp (s' & E & _ & D2 & _) v Hv. injection E as <-.
  assert (N : v <> subject s).
  { intros ->. unfold seen in Hv. destruct Hp as [Ht|[r Hr]].
    - rewrite Ht in Hv. rewrite Nat.eqb_refl in Hv. discriminate.
    - destruct (target s) as [y|] eqn:Et.
      + destruct (subject s =? y); [discriminate|]. destruct (U _ Hv) as [_ U2]. congruence.
      + destruct (U _ Hv) as [_ U2]. congruence. }
  assert (Hv' : A v = false).
  { unfold seen in Hv. destruct (target s) as [y|]; [|exact Hv]. destruct (v =? y); [discriminate|exact Hv]. }
  destruct (U v Hv') as [U1 U2]. split; [rewrite D2 by exact N; exact U1|].
  unfold assign. apply Nat.eqb_neq in N. rewrite N. exact U2.
Qed.

(** A is the set of the variables which are assigned by earlier. *)
Definition tells (A : nat -> bool) (earlier : list stmt) : Prop := forall x, A x = true <-> assigned x earlier.

Lemma tells_step : forall A earlier s, tells A earlier -> tells (seen A s) (earlier ++ [s]).
Proof.
  intros A earlier s H x. unfold seen. split.
  - intros E. destruct (target s) as [y|] eqn:Et.
    + destruct (Nat.eqb_spec x y) as [->|N].
      * exists s. split; [apply in_app_iff; right; left; reflexivity|exact Et].
      * apply H in E. destruct E as (s' & H1 & H2). exists s'. split; [apply in_app_iff; left; exact H1|exact H2].
    + apply H in E. destruct E as (s' & H1 & H2). exists s'. split; [apply in_app_iff; left; exact H1|exact H2].
  - intros (s' & H1 & H2). apply in_app_iff in H1. destruct H1 as [H1|[<-|[]]].
    + assert (E : A x = true) by (apply H; exists s'; split; assumption).
      destruct (target s) as [y|]; [destruct (x =? y); [reflexivity|exact E]|exact E].
    + rewrite H2, Nat.eqb_refl. reflexivity.
Qed.

Definition safe (L : lang) (K : nat -> kind) (earlier : list stmt) (loop : bool) (s : stmt) : Prop :=
  match L with C => safe_c earlier s | Fortran => safe_fortran K earlier loop s end.

Definition losses (L : lang) (n : nat) : nat := match L with C => n | Fortran => 0 end.

(** B: the variables which may have been used when the statement is executed. *)
Lemma stmt_ok : forall L K loop A B earlier s e st e', typed K s -> safe L K earlier loop s -> tells A earlier ->
  (loop = false -> B = A) -> (forall v, A v = true -> B v = true) -> good K e st -> unused B e st -> py K s e = Some e' ->
  exists st', exec_all L K (compile K (before_of A s) (before_of A s || loop) s) st = Some st' /\
    good K e' st' /\ unused (seen B s) e' st' /\ lost st' = lost st + losses L (copies K s).
Proof.
  intros L K loop A B earlier s e st e' Ht Hs HA HB HAB G U Hp.
  assert (H1 : forall x, assigned x earlier -> target s = Some x -> before_of A s = true).
  { intros x Hx E. unfold before_of. rewrite E. apply HA. exact Hx. }
  assert (H2 : forall x, target s = Some x -> before_of A s || loop = false -> cells st x = Live false []).
  { intros x E Hk. apply orb_false_elim in Hk. destruct Hk as [Hk Hl]. unfold before_of in Hk. rewrite E in Hk.
    apply U. rewrite (HB Hl). exact Hk. }
  assert (H3 : forall x, target s = Some x -> loop = false -> ~ assigned x earlier -> before_of A s || loop = false).
  { intros x E -> Hn. rewrite orb_false_r. unfold before_of. rewrite E. apply not_true_is_false. intros HAx. apply Hn, HA. exact HAx. }
  assert (D : exists l, e' = assign e (subject s) l /\ (K (subject s) = KSet -> sorted l) /\
    done st (subject s) l (losses L (copies K s)) (exec_all L K (compile K (before_of A s) (before_of A s || loop) s) st)).
  { destruct L; cbn [losses safe] in *.
    - eapply stmt_c; eassumption.
    - eapply stmt_f; eassumption. }
  destruct D as (l & -> & Hl & st' & E & D). exists st'. split; [exact E|].
  assert (D' : done st (subject s) l (losses L (copies K s)) (Some st')) by (exists st'; split; [reflexivity|exact D]).
  split; [eapply good_step; eassumption|]. split; [|exact (proj2 (proj2 D))].
  eapply unused_step; [exact U|eapply py_subject; exact Hp|exact D'].
Qed.

Lemma seen_mono : forall B s v, B v = true -> seen B s v = true.
Proof. intros B s v H. unfold seen. destruct (target s) as [y|]; [destruct (v =? y); [reflexivity|exact H]|exact H]. Qed.

Lemma block_ok : forall L K loop p A B earlier e st e', (forall s, In s p -> typed K s) ->
  each_stmt (fun e s => safe L K e loop s) earlier p -> tells A earlier ->
  (loop = false -> B = A) -> (forall v, A v = true -> B v = true) -> good K e st -> unused B e st -> py_all K p e = Some e' ->
  exists st', exec_all L K (compile_all K loop A p) st = Some st' /\
    good K e' st' /\ unused (seen_all B p) e' st' /\ lost st' = lost st + losses L (copies_all K p).
Proof.
  intros L K loop. induction p as [|s p IH]; intros A B earlier e st e' Ht Hs HA HB HAB G U Hp.
  - cbn in Hp. injection Hp as <-. exists st. cbn. split; [reflexivity|]. split; [exact G|]. split; [exact U|]. destruct L; cbn; lia.
  - cbn in Hp. destruct (py K s e) as [e1|] eqn:E1; [|discriminate]. cbn in Hp. destruct Hs as [Hs1 Hs2].
    destruct (stmt_ok L K loop A B earlier s e st e1 (Ht s (or_introl eq_refl)) Hs1 HA HB HAB G U E1) as (st1 & X1 & G1 & U1 & L1).
    destruct (IH (seen A s) (seen B s) (earlier ++ [s]) e1 st1 e') as (st2 & X2 & G2 & U2 & L2); auto.
    + intros s' H. apply Ht. right. exact H.
    + apply tells_step. exact HA.
    + intros Hl. rewrite (HB Hl). reflexivity.
    + intros v Hv. unfold seen in *. destruct (target s) as [y|]; [destruct (v =? y); [reflexivity|]|]; apply HAB; exact Hv.
    + exists st2. cbn [compile_all]. rewrite exec_all_app, X1. cbn [bind]. split; [exact X2|]. split; [exact G2|]. split; [exact U2|].
      rewrite L2, L1. unfold copies_all. cbn [map list_sum fold_right]. destruct L; cbn [losses]; unfold list_sum; cbn; lia.
Qed.

Lemma tells_all : forall p A earlier, tells A earlier -> tells (seen_all A p) (earlier ++ p).
Proof.
  induction p as [|s p IH]; intros A earlier H; cbn; [rewrite app_nil_r; exact H|].
  replace (earlier ++ s :: p) with ((earlier ++ [s]) ++ p) by (rewrite <- app_assoc; reflexivity).
  apply IH, tells_step. exact H.
Qed.

Lemma seen_all_iff : forall p A v, seen_all A p v = true <-> A v = true \/ assigned v p.
Proof.
  induction p as [|s p IH]; intros A v; cbn.
  - split; [tauto|]. intros [H|(s & [] & _)]. exact H.
  - rewrite IH. unfold seen. split.
    + intros [H|(s' & H1 & H2)]; [|right; exists s'; split; [right; exact H1|exact H2]].
      destruct (target s) as [y|] eqn:E; [|left; exact H]. destruct (Nat.eqb_spec v y) as [->|N]; [|left; exact H].
      right. exists s. split; [left; reflexivity|exact E].
    + intros [H|(s' & [<-|H1] & H2)].
      * left. destruct (target s) as [y|]; [destruct (v =? y); [reflexivity|exact H]|exact H].
      * left. rewrite H2, Nat.eqb_refl. reflexivity.
      * right. exists s'. split; assumption.
Qed.

Lemma unused_mono : forall A B e st, (forall v, B v = false -> A v = false) -> unused A e st -> unused B e st.
Proof. intros A B e st H U v Hv. apply U, H. exact Hv. Qed.

Lemma loop_ok : forall L K n p A B earlier e st e', (forall s, In s p -> typed K s) ->
  each_stmt (fun e s => safe L K e true s) earlier p -> tells A earlier ->
  (forall v, A v = true -> B v = true) -> (forall v, B v = true -> seen_all A p v = true) ->
  good K e st -> unused B e st -> py_times n K p e = Some e' ->
  exists st', times n (exec_all L K (compile_all K true A p)) st = Some st' /\
    good K e' st' /\ unused (seen_all A p) e' st' /\ lost st' = lost st + losses L (n * copies_all K p).
Proof.
  intros L K. induction n as [|n IH]; intros p A B earlier e st e' Ht Hs HA H1 H2 G U Hp; cbn [times].
  - cbn in Hp. injection Hp as <-. exists st. split; [reflexivity|]. split; [exact G|]. split.
    + eapply unused_mono; [|exact U]. intros v Hv. apply not_true_is_false. intros E. apply H2 in E. congruence.
    + destruct L; cbn; lia.
  - cbn in Hp. destruct (py_all K p e) as [e1|] eqn:E1; [|discriminate]. cbn in Hp.
    destruct (block_ok L K true p A B earlier e st e1 Ht Hs HA ltac:(discriminate) H1 G U E1) as (st1 & X1 & G1 & U1 & L1).
    destruct (IH p A (seen_all A p) earlier e1 st1 e') as (st2 & X2 & G2 & U2 & L2); auto.
    + eapply unused_mono; [|exact U1]. intros v Hv. apply not_true_is_false. intros E.
      assert (seen_all A p v = true); [|congruence].
      apply seen_all_iff in E. apply seen_all_iff. destruct E as [E|E]; [|right; exact E].
      apply H2 in E. apply seen_all_iff in E. exact E.
    + exists st2. rewrite X1. cbn [bind]. split; [exact X2|]. split; [exact G2|]. split; [exact U2|].
      rewrite L2, L1. destruct L; cbn [losses]; lia.
Qed.

Lemma run_ok : forall L K p A earlier e st e', each (fun _ _ => typed K) earlier p ->
  each (safe L K) earlier p -> tells A earlier -> good K e st -> unused A e st -> py_run K p e = Some e' ->
  exists st', run L K (program K A p) st = Some st' /\ good K e' st' /\ lost st' = lost st + losses L (copies_run K p).
Proof.
  intros L K. induction p as [|i p IH]; intros A earlier e st e' Ht Hs HA G U Hp.
  - cbn in Hp. injection Hp as <-. exists st. split; [reflexivity|]. split; [exact G|]. destruct L; cbn; lia.
  - destruct i as [s|n b]; cbn in Ht, Hs; destruct Ht as [Ht1 Ht2]; destruct Hs as [Hs1 Hs2]; cbn [py_run] in Hp; cbn [program run].
    + destruct (py K s e) as [e1|] eqn:E1; [|discriminate]. cbn in Hp.
      destruct (stmt_ok L K false A A earlier s e st e1 Ht1 Hs1 HA (fun _ => eq_refl) (fun _ H => H) G U E1) as (st1 & X1 & G1 & U1 & L1).
      destruct (IH (seen A s) (earlier ++ [s]) e1 st1 e' Ht2 Hs2 (tells_step A earlier s HA) G1 U1 Hp) as (st2 & X2 & G2 & L2).
      exists st2. cbn [compile_all]. rewrite app_nil_r, X1. cbn [bind]. split; [exact X2|]. split; [exact G2|].
      rewrite L2, L1. destruct L; cbn; lia.
    + destruct (py_times n K b e) as [e1|] eqn:E1; [|discriminate]. cbn in Hp.
      assert (Htb : forall s, In s b -> typed K s).
      { clear - Ht1. revert earlier Ht1. induction b as [|s b IHb]; intros earlier H s' Hi; [destruct Hi|].
        destruct H as [H1 H2]. destruct Hi as [<-|Hi]; [exact H1|]. exact (IHb _ H2 s' Hi). }
      destruct (loop_ok L K n b A A earlier e st e1 Htb Hs1 HA (fun _ H => H)
                  ltac:(intros v Hv; apply seen_all_iff; left; exact Hv) G U E1) as (st1 & X1 & G1 & U1 & L1).
      destruct (IH (seen_all A b) (earlier ++ b) e1 st1 e' Ht2 Hs2 (tells_all b A earlier HA) G1 U1 Hp) as (st2 & X2 & G2 & L2).
      exists st2. rewrite X1. cbn [bind]. split; [exact X2|]. split; [exact G2|].
      rewrite L2, L1. cbn [copies_run]. destruct L; cbn [losses]; lia.
Qed.

Lemma program_ok : forall L K p e', each (fun _ _ => typed K) [] p -> each (safe L K) [] p -> py_run K p nothing = Some e' ->
  exists st, run L K (program K (fun _ => false) p) initial = Some st /\ shows st e' /\ lost st = losses L (copies_run K p).
Proof.
  intros L K p e' Ht Hs Hp.
  destruct (run_ok L K p (fun _ => false) [] nothing initial e' Ht Hs) as (st & X & G & Hl); auto.
  - intros x. split; [discriminate|]. intros (s & [] & _).
  - constructor; [intros v; exists false, []; reflexivity|discriminate|discriminate].
  - intros v _. split; reflexivity.
  - exists st. split; [exact X|]. split; [|exact Hl]. intros v l E. apply live_read. exact (g_val _ _ _ G v l E).
Qed.

(** ** What goes wrong *)

Lemma traverse_none : forall {A B} (f : A -> option B) l a, In a l -> f a = None -> traverse f l = None.
Proof.
  induction l as [|x l IH]; intros a Hi E; [destruct Hi|]. cbn. destruct Hi as [->|Hi]; [rewrite E; reflexivity|].
  rewrite (IH a Hi E). destruct (f x); reflexivity.
Qed.

Lemma read_dropped : forall st x, read (set_cell st x Dropped) x = None.
Proof. intros. unfold read, set_cell. cbn. rewrite Nat.eqb_refl. reflexivity. Qed.

Lemma get_dropped : forall st x e, in_elem x e -> get (set_cell st x Dropped) e = None.
Proof. intros st x [z|v|v i] H; cbn in *; [destruct H| |]; subst v; rewrite read_dropped; reflexivity. Qed.

Lemma gets_dropped : forall st x l, in_elems x l -> traverse (get (set_cell st x Dropped)) l = None.
Proof. intros st x l (e & H1 & H2). apply (traverse_none _ l e H1). apply get_dropped. exact H2. Qed.

Lemma values_dropped : forall st x it, in_iter x it -> values (set_cell st x Dropped) it = None.
Proof. intros st x [v|k l] H; cbn in *; [subst v; apply read_dropped|apply gets_dropped; exact H]. Qed.

Lemma literal_bad : forall K x l st, in_elems x l -> exec_all C K (compile K true true (SLit x l)) st = None.
Proof.
  intros K x l st H. cbn. destruct (read st x); [|reflexivity]. cbn. rewrite gets_dropped by exact H. reflexivity.
Qed.

Lemma call_bad : forall K x args f st, In x args -> exec_all C K (compile K true true (SCall x args f)) st = None.
Proof.
  intros K x args f st H. cbn. destruct (read st x); [|reflexivity]. cbn.
  rewrite (traverse_none _ args x H (read_dropped st x)). reflexivity.
Qed.

Lemma union_bad : forall K x y its st, (forall it, In it its -> is_set K it = true) ->
  x = y \/ (exists it, In it its /\ in_iter x it) ->
  exec_all C K (compile K true true (SUnion x y its)) st = None.
Proof.
  intros K x y its st Hs H. cbn [compile]. assert (E : forallb (is_set K) its = true) by (apply forallb_forall; exact Hs).
  rewrite E. cbn [exec_all exec]. destruct (read st x); [|reflexivity]. cbn [bind].
  destruct H as [->|(it & H1 & H2)].
  - rewrite read_dropped. reflexivity.
  - rewrite (traverse_none _ its it H1 (values_dropped st x it H2)). destruct (read _ y); reflexivity.
Qed.

Lemma overwrite_read : forall L st x l, read (overwrite L st x l) x = Some l.
Proof. intros L st x l. unfold overwrite, read. destruct L, (cells st x) as [|[|] ?]; cbn; rewrite Nat.eqb_refl; reflexivity. Qed.

Lemma overwrite_neq : forall L st x l v, v <> x -> read (overwrite L st x l) v = read st v.
Proof.
  intros L st x l v H. apply Nat.eqb_neq in H. unfold overwrite, read.
  destruct L, (cells st x) as [|[|] ?]; cbn; rewrite H; reflexivity.
Qed.

Lemma copy_bad : forall K x st l, read st x = Some l ->
  exists st', exec_all C K (compile K true true (SCopy x x)) st = Some st' /\ read st' x = Some [].
Proof.
  intros K x st l E. cbn [compile exec_all exec]. rewrite E. cbn [bind]. rewrite read_set_eq. cbn [bind].
  rewrite read_set_eq. cbn [bind]. eexists. split; [reflexivity|]. apply overwrite_read.
Qed.

Lemma self_bad : forall K x b st l lb, x <> b -> read st x = Some l -> read st b = Some lb ->
  (exists st', exec_all C K (compile K true true (SInter x (IVar x) [IVar b])) st = Some st' /\ read st' x = Some []) /\
  (exists st', exec_all C K (compile K true true (SDiff x (IVar x) [IVar b])) st = Some st' /\ read st' x = Some []).
Proof.
  intros K x b st l lb N E Eb.
  split; cbn [compile start app map exec_all exec]; rewrite E; cbn [bind]; rewrite read_set_eq; cbn [bind]; rewrite read_set_eq; cbn [bind];
    cbn [update traverse resolve bind update_with content]; rewrite overwrite_read; cbn [bind]; rewrite overwrite_neq, read_set_neq by auto; rewrite Eb; cbn [bind];
    (eexists; split; [reflexivity|]); apply read_set_eq.
Qed.

Lemma start_var : forall L K known x a st lx la, a <> x -> K x = KSet -> read st x = Some lx -> read st a = Some la ->
  exists st1, exec_all L K (start known x (IVar a)) st = Some st1 /\ read st1 x = Some la.
Proof.
  intros L K known x a st lx la N HK Ex Ea. cbn [start exec_all exec]. destruct L; [destruct known|].
  - rewrite Ex. cbn [bind]. rewrite read_set_neq, Ea by exact N. cbn [bind]. rewrite read_set_neq, Ea by exact N. cbn [bind].
    eexists. split; [reflexivity|]. apply overwrite_read.
  - rewrite Ea. cbn [bind]. rewrite Ex. cbn [bind]. rewrite read_set_neq, Ea by exact N. cbn [bind].
    eexists. split; [reflexivity|]. apply overwrite_read.
  - rewrite HK. cbn [bind]. rewrite Ea. cbn [bind]. eexists. split; [reflexivity|]. apply overwrite_read.
Qed.

Lemma inter_self : forall l, inter l l = l.
Proof.
  intros l. unfold inter. assert (H : forall z, In z l -> mem z l = true) by (intros z Hz; rewrite mem_is_in; apply is_in_iff; exact Hz).
  revert H. generalize l at 1 4 5 as r. induction r as [|z r IH]; intros H; cbn; [reflexivity|].
  rewrite (H z (or_introl eq_refl)), IH; [reflexivity|]. intros y Hy. apply H. right. exact Hy.
Qed.

Lemma diff_self : forall l, diff l l = [].
Proof.
  intros l. unfold diff. assert (H : forall z, In z l -> mem z l = true) by (intros z Hz; rewrite mem_is_in; apply is_in_iff; exact Hz).
  revert H. generalize l at 1 4 as r. induction r as [|z r IH]; intros H; cbn; [reflexivity|].
  rewrite (H z (or_introl eq_refl)). cbn. apply IH. intros y Hy. apply H. right. exact Hy.
Qed.

Lemma right_bad : forall L K a b st la lb, a <> b -> K b = KSet -> read st a = Some la -> read st b = Some lb ->
  (exists st', exec_all L K (compile K true true (SInter b (IVar a) [IVar b])) st = Some st' /\ read st' b = Some la) /\
  (exists st', exec_all L K (compile K true true (SDiff b (IVar a) [IVar b])) st = Some st' /\ read st' b = Some []).
Proof.
  intros L K a b st la lb N HK Ea Eb. destruct (start_var L K true b a st lb la N HK Eb Ea) as (st1 & E1 & R1).
  split; cbn [compile map]; rewrite exec_all_app, E1; cbn [bind exec_all exec]; rewrite update_one;
    cbn [update_each resolve bind update_with content]; rewrite R1; cbn [bind]; rewrite ?inter_self, ?diff_self;
    (eexists; split; [reflexivity|]); apply read_set_eq.
Qed.

Lemma union_f_bad : forall K a b st la lb, a <> b -> K b = KSet -> K a = KSet -> sorted la -> read st a = Some la -> read st b = Some lb ->
  exists st', exec_all Fortran K (compile K true true (SUnion b a [IVar b])) st = Some st' /\ read st' b = Some la.
Proof.
  intros K a b st la lb N HK HKa Hs Ea Eb. cbn [compile forallb is_set]. rewrite HK. cbn [andb exec_all exec]. rewrite HK. cbn [bind traverse resolve].
  rewrite Ea. cbn [bind update_with content]. rewrite overwrite_read. cbn [bind].
  eexists. split; [reflexivity|]. rewrite read_set_eq. f_equal. rewrite join_norm by exact Hs.
  transitivity (norm la); [apply norm_eq; intros z; rewrite in_app_iff; tauto|apply norm_id; exact Hs].
Qed.

Lemma setof_f_bad : forall K x v st lx lv, K x = KSet -> K v = KList -> sorted lx -> read st x = Some lx -> read st v = Some lv ->
  exists st', exec_all Fortran K (compile K true true (SSetOf x (IVar v))) st = Some st' /\ read st' x = Some (norm (lx ++ lv)).
Proof.
  intros K x v st lx lv HK HKv Hs Ex Ev. cbn [compile]. rewrite HKv. cbn [exec_all exec]. rewrite HK. cbn [bind]. rewrite Ev. cbn [bind].
  rewrite Ex. cbn [bind]. rewrite loop_add by (intros _; exact Hs). eexists. split; [reflexivity|]. apply read_set_eq.
Qed.

Lemma filter_length_le : forall {A} (c : A -> bool) l, length (filter c l) <= length l.
Proof. induction l as [|z l IH]; cbn; [lia|]. destruct (c z); cbn; lia. Qed.

Lemma comp_bad : forall L K x f c st l, read st x = Some l ->
  exists st' l', exec_all L K (compile K true true (SComp x x f c)) st = Some st' /\ read st' x = Some l' /\
    length l' = length l /\ firstn (length (filter c l)) l' = map f (filter c l).
Proof.
  intros L K x f c st l E. cbn [compile]. rewrite Nat.eqb_refl. cbn [andb exec_all exec]. rewrite E. cbn [bind].
  eexists. exists (map f (filter c l) ++ skipn (length (map f (filter c l))) l). split; [reflexivity|]. split; [apply read_set_eq|].
  assert (H := filter_length_le c l). split.
  - rewrite app_length, skipn_length, map_length. lia.
  - rewrite firstn_app, map_length, Nat.sub_diag, firstn_O, app_nil_r. rewrite firstn_all2; [reflexivity|]. rewrite map_length. lia.
Qed.

Lemma extend_self_bad : forall K x st l b k, l <> [] -> read st x = Some l ->
  exec_all C K (compile K b k (SExtend x [IVar x])) st = None.
Proof.
  intros K x st l b k N E. cbn. rewrite E. cbn. rewrite Nat.eqb_refl. destruct l; [contradiction|reflexivity].
Qed.

Lemma extend_len_bad : forall L K x st l b k, K x = KList -> read st x = Some l ->
  exists st', exec_all L K (compile K b k (SExtend x [ILit KList [ELen x; ELen x]])) st = Some st' /\
    read st' x = Some (l ++ [Z.of_nat (length l); Z.of_nat (S (length l))]).
Proof.
  intros L K x st l b k HK E. cbn [compile flat_map add_all map app exec_all exec get]. rewrite E. cbn [bind]. rewrite HK. cbn [bind insert].
  rewrite !read_set_eq. cbn [bind]. eexists. split; [reflexivity|]. rewrite read_set_eq. f_equal. rewrite <- app_assoc. cbn [app].
  rewrite app_length. cbn [length]. rewrite Nat.add_1_r. reflexivity.
Qed.

Lemma gives_of : forall r x l, (exists st', r = Some st' /\ read st' x = Some l) -> gives r x l.
Proof. intros r x l (st & E & R). destruct (live_read _ _ _ R) as (o & H). exists st, o. split; assumption. Qed.
