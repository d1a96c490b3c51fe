From Coq Require Import ZArith List Bool Arith Lia Permutation.
From Verif Require Import Common Cont_Model Cont_Spec.
Import ListNotations.
Open Scope list_scope.
Open Scope Z_scope.

(* ---- vectors ---- *)
Lemma erase_nth_split {A} (l : list A) i : erase_nth l i = firstn i l ++ skipn (S i) l.
Proof. revert i. induction l as [|y r IH]; intros [|i]; simpl; auto. rewrite IH. reflexivity. Qed.

Lemma insert_nth_split {A} (l : list A) i x : (i <= List.length l)%nat ->
  insert_nth l i x = firstn i l ++ x :: skipn i l.
Proof.
  revert i. induction l as [|y r IH]; intros [|i] H; simpl in *; auto; try lia.
  rewrite IH by lia. reflexivity.
Qed.

Lemma c_insert_ok {A} (l : list A) i v : c_insert l i v = py_insert l i v.
Proof.
  unfold c_insert, py_insert, zlen. cbv zeta.
  set (n := Z.of_nat (List.length l)).
  set (j := if i <? 0 then i + n else i).
  assert (Hn: 0 <= n) by lia.
  destruct (Z.ltb_spec j 0).
  - destruct (Z.leb_spec n 0).
    + assert (List.length l = 0%nat) by lia. destruct l; [|discriminate].
      rewrite firstn_nil, skipn_nil. reflexivity.
    + rewrite insert_nth_split by lia. replace (Z.max 0 (Z.min j n)) with 0 by lia. reflexivity.
  - destruct (Z.leb_spec n j).
    + replace (Z.to_nat (Z.max 0 (Z.min j n))) with (List.length l) by lia.
      rewrite firstn_all, skipn_all. reflexivity.
    + rewrite insert_nth_split by lia. replace (Z.max 0 (Z.min j n)) with j by lia. reflexivity.
Qed.

Lemma f_insert_ok {A} (l : list A) i v : f_insert l i v = py_insert l i v.
Proof.
  unfold f_insert, py_insert, zlen. cbv zeta.
  set (n := Z.of_nat (List.length l)).
  set (j := if i <? 0 then i + n else i).
  assert (Hn: 0 <= n) by lia.
  assert (E: (if n <? (if j <? 0 then 0 else j) then n else (if j <? 0 then 0 else j))
             = Z.max 0 (Z.min j n)).
  { destruct (Z.ltb_spec j 0); [destruct (Z.ltb_spec n 0)|destruct (Z.ltb_spec n j)]; lia. }
  rewrite E. apply insert_nth_split. lia.
Qed.

Lemma pull_elem_ok {A} (l : list A) i v l' : 0 <= i ->
  py_pop l i = Some (v, l') -> c_pull_elem l i = Ret (v, l').
Proof.
  unfold py_pop, c_pull_elem. intros H. destruct (Z.ltb_spec i 0); [lia|].
  destruct (Z.ltb_spec i 0); [lia|]. simpl. destruct (Z.leb_spec (zlen l) i); [discriminate|].
  destruct (nth_error l (Z.to_nat i)); [|discriminate].
  intros E; injection E as <- <-. rewrite erase_nth_split. reflexivity.
Qed.
Lemma py_pop_neg {A} (l : list A) i : i < 0 -> 0 <= zlen l + i -> py_pop l i = py_pop l (zlen l + i).
Proof.
  intros H H1. unfold py_pop. destruct (Z.ltb_spec i 0); [|lia].
  destruct (Z.ltb_spec (zlen l + i) 0); [lia|]. rewrite (Z.add_comm (zlen l) i). reflexivity.
Qed.
Lemma py_pop_neg_range {A} (l : list A) i p : i < 0 -> py_pop l i = Some p -> 0 <= zlen l + i.
Proof.
  unfold py_pop. intros H. destruct (Z.ltb_spec i 0); [|lia].
  destruct (Z.ltb_spec (i + zlen l) 0); [discriminate|]. lia.
Qed.
Lemma py_pop_last {A} (l : list A) v l' : py_pop l (-1) = Some (v, l') -> l = l' ++ [v].
Proof.
  unfold py_pop. change (-1 <? 0) with true. cbv iota.
  destruct (Z.ltb_spec (-1 + zlen l) 0); [discriminate|]. rewrite orb_false_l.
  destruct (Z.leb_spec (zlen l) (-1 + zlen l)); [lia|].
  destruct (nth_error l (Z.to_nat (-1 + zlen l))) as [x|] eqn:E; [|discriminate].
  intros H1; injection H1 as <- <-.
  unfold zlen in *. set (k := Z.to_nat (-1 + Z.of_nat (List.length l))) in *.
  assert (Hk: S k = List.length l) by lia.
  destruct (nth_error_split l k E) as (a & b & E1 & E2).
  assert (b = []) by (subst l; rewrite app_length in Hk; simpl in Hk; destruct b; auto; simpl in Hk; lia).
  subst b. change (l = (firstn k l ++ skipn (S k) l) ++ [x]).
  rewrite Hk, skipn_all, app_nil_r. rewrite E1, <- E2, firstn_app, firstn_all, Nat.sub_diag. simpl.
  rewrite app_nil_r. reflexivity.
Qed.

Lemma c_pop_ok {A} (l : list A) a v l' :
  (forall i, a = Computed i -> 0 <= i) ->
  py_pop l (arg_index a) = Some (v, l') -> c_list_pop l a = Ret (v, l').
Proof.
  intros Hc H. destruct a as [|i|i]; simpl in *.
  - apply py_pop_last in H. subst l. unfold c_pull. rewrite rev_app_distr. simpl.
    rewrite rev_involutive. reflexivity.
  - destruct (Z.ltb_spec i 0).
    + pose proof (py_pop_neg_range _ _ _ H0 H) as R.
      fold (zlen l). apply pull_elem_ok; auto. rewrite <- py_pop_neg; auto.
    + apply pull_elem_ok; auto.
  - apply pull_elem_ok; auto.
Qed.

Lemma at1_last {A} (l : list A) v : at1 (l ++ [v]) (Z.of_nat (List.length (l ++ [v]))) = Ret v.
Proof.
  unfold at1. rewrite app_length. simpl. destruct (Z.leb_spec (Z.of_nat (List.length l + 1)) 0); [lia|].
  replace (Z.to_nat (Z.of_nat (List.length l + 1) - 1)) with (List.length l) by lia.
  rewrite nth_error_app2 by lia. rewrite Nat.sub_diag. reflexivity.
Qed.

Lemma f_list_pop_index {A} (l : list A) a : a <> NoArg ->
  f_list_pop l a = c_list_pop l a.
Proof.
  destruct a as [|i|i]; intros H; [congruence| |reflexivity].
  change (f_list_pop l (Written i)) with
    (if i <? 0 then c_pull_elem l (Z.of_nat (List.length l) - - i) else c_pull_elem l i).
  simpl. rewrite Z.sub_opp_r. reflexivity.
Qed.
Lemma f_pop_ok {A} (l : list A) a v l' :
  (forall i, a = Computed i -> 0 <= i) ->
  py_pop l (arg_index a) = Some (v, l') -> f_list_pop l a = Ret (v, l').
Proof.
  intros Hc H. destruct a as [|i|i].
  - unfold f_list_pop; cbv zeta; simpl arg_index in H.
    apply py_pop_last in H. subst l. rewrite at1_last. simpl. rewrite removelast_last. reflexivity.
  - rewrite f_list_pop_index by discriminate. apply c_pop_ok; auto.
  - rewrite f_list_pop_index by discriminate. apply c_pop_ok; auto.
Qed.

(* the two-pointer reversal *)
Lemma nth_error_set_nth {A} (l : list A) i j x :
  nth_error (set_nth l i x) j =
  if Nat.eqb j i then (if Nat.ltb i (List.length l) then Some x else None) else nth_error l j.
Proof.
  revert i j. induction l as [|y r IH]; intros i j.
  - simpl. destruct i; simpl; destruct j; simpl; auto; destruct (Nat.eqb_spec j i); auto.
  - destruct i, j; simpl; auto. rewrite IH.
    destruct (Nat.eqb_spec j i); auto.
Qed.
Lemma set_nth_length {A} (l : list A) i x : List.length (set_nth l i x) = List.length l.
Proof. revert i. induction l; intros [|i]; simpl; auto. Qed.
Lemma at1_some {A} (l : list A) i : 1 <= i <= Z.of_nat (List.length l) ->
  exists v, at1 l i = Ret v /\ nth_error l (Z.to_nat (i - 1)) = Some v.
Proof.
  intros H. unfold at1. destruct (Z.leb_spec i 0); [lia|].
  destruct (nth_error l (Z.to_nat (i - 1))) eqn:E; [eauto|].
  apply nth_error_None in E. lia.
Qed.

Lemma nth_error_rev {A} (l : list A) i : (i < List.length l)%nat ->
  nth_error (rev l) i = nth_error l (List.length l - 1 - i).
Proof.
  intros H. destruct l as [|d l0] eqn:El; [simpl in H; lia|]. rewrite <- El in *. clear El.
  rewrite (nth_error_nth' (rev l) d) by (rewrite rev_length; auto).
  rewrite (nth_error_nth' l d) by lia. rewrite rev_nth by auto.
  f_equal. f_equal. lia.
Qed.

Lemma nth_error_ext {A} (l l' : list A) : (forall i, nth_error l i = nth_error l' i) -> l = l'.
Proof.
  revert l'. induction l as [|x r IH]; intros [|y r'] H; auto.
  - specialize (H 0%nat). discriminate.
  - specialize (H 0%nat). discriminate.
  - pose proof (H 0%nat) as H0. simpl in H0. injection H0 as <-. f_equal. apply IH.
    intros i. exact (H (S i)).
Qed.

(* state reached when left = k + 1, right = n - k *)
Lemma rev_loop_ok {A} (l0 : list A) : let n := List.length l0 in
  forall fuel l k, List.length l = n -> (n < 2 * fuel + 2 * k)%nat ->
  (k <= n)%nat -> (2 * k <= n)%nat ->
  (forall i, (i < n)%nat -> nth_error l i =
     if (i <? k)%nat || (n - k <=? i)%nat then nth_error l0 (n - 1 - i) else nth_error l0 i) ->
  rev_loop fuel l (Z.of_nat k + 1) (Z.of_nat n - Z.of_nat k) = Ret (rev l0).
Proof.
  intros n. induction fuel as [|fuel IH]; intros l k Hl Hf Hk Hk2 Hi; [lia|].
  simpl. destruct (Z.ltb_spec (Z.of_nat k + 1) (Z.of_nat n - Z.of_nat k)) as [Hlt|Hge].
  - destruct (at1_some l (Z.of_nat k + 1)) as (a & Ea & Na); [lia|].
    destruct (at1_some l (Z.of_nat n - Z.of_nat k)) as (b & Eb & Nb); [lia|].
    rewrite Ea, Eb. simpl. unfold set1 at 1. rewrite Ea. simpl.
    replace (Z.to_nat (Z.of_nat k + 1 - 1)) with k in * by lia.
    replace (Z.to_nat (Z.of_nat n - Z.of_nat k - 1)) with (n - k - 1)%nat in * by lia.
    destruct (at1_some (set_nth l k b) (Z.of_nat n - Z.of_nat k)) as (c & Ec & Nc);
      [rewrite set_nth_length; lia|].
    unfold set1. rewrite Ec. simpl.
    replace (Z.to_nat (Z.of_nat n - Z.of_nat k - 1)) with (n - k - 1)%nat by lia.
    replace (Z.of_nat k + 1 + 1) with (Z.of_nat (S k) + 1) by lia.
    replace (Z.of_nat n - Z.of_nat k - 1) with (Z.of_nat n - Z.of_nat (S k)) by lia.
    apply IH; [rewrite !set_nth_length; auto|lia|lia|lia|].
    intros i Hin. rewrite !nth_error_set_nth, set_nth_length.
    destruct (Nat.eqb_spec i (n - k - 1)) as [->|N1].
    + destruct (Nat.ltb_spec (n - k - 1) (List.length l)); [|lia].
      destruct (Nat.leb_spec (n - S k) (n - k - 1)); [|lia]. rewrite orb_true_r.
      rewrite <- Na, Hi by lia.
      destruct (Nat.ltb_spec k k); [lia|]. destruct (Nat.leb_spec (n - k) k); [lia|]. simpl.
      f_equal. lia.
    + destruct (Nat.eqb_spec i k) as [->|N2].
      * destruct (Nat.ltb_spec k (List.length l)); [|lia].
        destruct (Nat.ltb_spec k (S k)); [|lia]. simpl.
        rewrite <- Nb, Hi by lia.
        destruct (Nat.ltb_spec (n - k - 1) k); [lia|].
        destruct (Nat.leb_spec (n - k) (n - k - 1)); [lia|]. simpl. f_equal. lia.
      * rewrite Hi by auto.
        replace (i <? S k)%nat with (i <? k)%nat
          by (destruct (Nat.ltb_spec i k), (Nat.ltb_spec i (S k)); lia || reflexivity).
        replace (n - S k <=? i)%nat with (n - k <=? i)%nat
          by (destruct (Nat.leb_spec (n - k) i), (Nat.leb_spec (n - S k) i); lia || reflexivity).
        reflexivity.
  - f_equal. apply nth_error_ext. intros i.
    destruct (Nat.lt_ge_cases i n) as [Hin|Hin].
    + rewrite Hi, nth_error_rev by auto. fold n.
      destruct (Nat.ltb_spec i k); [reflexivity|]. simpl.
      destruct (Nat.leb_spec (n - k) i); [reflexivity|].
      assert (i = n - 1 - i)%nat by lia. congruence.
    + rewrite (proj2 (nth_error_None l i)) by lia.
      symmetry. apply nth_error_None. rewrite rev_length. auto.
Qed.
Lemma f_reverse_ok {A} (l : list A) : f_reverse l = Ret (rev l).
Proof.
  unfold f_reverse.
  pose proof (rev_loop_ok l (S (List.length l)) l 0 eq_refl ltac:(lia) ltac:(lia) ltac:(lia)) as H.
  simpl Z.of_nat in H. rewrite Z.sub_0_r in H. apply H. intros i Hi.
  destruct (Nat.ltb_spec i 0); [lia|]. simpl.
  destruct (Nat.leb_spec (List.length l - 0) i); [lia|]. reflexivity.
Qed.

Lemma list_run_ok {A} (step : list A -> list_op -> run (list A * list A)) :
  (forall l v, step l (Append v) = Ret (l ++ [v], [])) ->
  (forall l i v, step l (Insert i v) = Ret (py_insert l i v, [])) ->
  (forall l a v l', (forall i, a = Computed i -> 0 <= i) ->
     py_pop l (arg_index a) = Some (v, l') -> step l (Pop a) = Ret (l', [v])) ->
  (forall l, step l Reverse = Ret (rev l, [])) ->
  (forall l, step l Clear = Ret ([], [])) ->
  forall ops l l' out, no_computed_negative ops ->
  py_list_run l ops = Some (l', out) -> list_run step l ops = Ret (l', out).
Proof.
  intros HA HI HP HR HC. induction ops as [|o ops IH]; intros l l' out Hc H.
  - simpl in *. injection H as <- <-. reflexivity.
  - assert (Hc': no_computed_negative ops) by (intros i Hi; apply Hc; right; auto).
    destruct o; simpl in *.
    + rewrite HA. simpl. rewrite (IH _ _ _ Hc' H). reflexivity.
    + rewrite HI. simpl. rewrite (IH _ _ _ Hc' H). reflexivity.
    + destruct (py_pop l (arg_index a)) as [[v l1]|] eqn:E; [|discriminate].
      destruct (py_list_run l1 ops) as [[l2 o2]|] eqn:E2; [|discriminate].
      injection H as <- <-.
      assert (Ha: forall i, a = Computed i -> 0 <= i) by (intros i ->; apply Hc; left; auto).
      rewrite (HP _ _ _ _ Ha E).
      simpl. rewrite (IH _ _ _ Hc' E2). reflexivity.
    + rewrite HR. simpl. rewrite (IH _ _ _ Hc' H). reflexivity.
    + rewrite HC. simpl. rewrite (IH _ _ _ Hc' H). reflexivity.
Qed.
Lemma c_list_run_ok {A} : forall ops (l l' out : list A), no_computed_negative ops ->
  py_list_run l ops = Some (l', out) -> list_run c_list_step l ops = Ret (l', out).
Proof.
  apply list_run_ok; intros; simpl; auto.
  - rewrite c_insert_ok. reflexivity.
  - rewrite (c_pop_ok _ _ _ _ H H0). reflexivity.
Qed.
Lemma f_list_run_ok {A} : forall ops (l l' out : list A), no_computed_negative ops ->
  py_list_run l ops = Some (l', out) -> list_run f_list_step l ops = Ret (l', out).
Proof.
  apply list_run_ok; intros; simpl; auto.
  - rewrite f_insert_ok. reflexivity.
  - rewrite (f_pop_ok _ _ _ _ H H0). reflexivity.
  - rewrite f_reverse_ok. reflexivity.
Qed.

(* min / max, for any comparison at all *)
Lemma min_loop_fold {A} (less : A -> A -> bool) l m :
  min_loop less l m = fold_left (fun m y => if less y m then y else m) l m.
Proof. revert m. induction l; intros m; simpl; auto. Qed.
Lemma max_loop_fold {A} (less : A -> A -> bool) l m :
  max_loop less l m = fold_left (fun m y => if less m y then y else m) l m.
Proof. revert m. induction l; intros m; simpl; auto. Qed.
Lemma gt_loop_fold {A} (less : A -> A -> bool) l m :
  gt_loop less l m = fold_left (fun m y => if less m y then y else m) l m.
Proof. revert m. induction l; intros m; simpl; auto. Qed.
Definition of_opt {A} (o : option A) : run A := match o with Some v => Ret v | None => Undef end.
Lemma vec_min_ok {A} (less : A -> A -> bool) l v : py_min less l = Some v ->
  c_vec_min less l = Ret v /\ f_vec_min less l = Ret v /\ c_arr_min less l = Ret v.
Proof.
  destruct l as [|x r]; [discriminate|]. simpl. intros E; injection E as <-.
  rewrite !min_loop_fold. destruct (less x x); auto.
Qed.
Lemma vec_max_ok {A} (less : A -> A -> bool) l v : py_max less l = Some v ->
  c_vec_max less l = Ret v /\ f_vec_max less l = Ret v /\ c_arr_max less l = Ret v.
Proof.
  destruct l as [|x r]; [discriminate|]. simpl. intros E; injection E as <-.
  rewrite ?max_loop_fold, ?gt_loop_fold. destruct (less x x); auto.
Qed.

(* ---- sets ---- *)
Lemma contains_iff {A} (eqb : A -> A -> bool) (E : equality eqb) s x :
  contains eqb s x = true <-> In x s.
Proof.
  unfold contains. rewrite existsb_exists. split.
  - intros (y & Hy & H). apply E in H. subst. auto.
  - intros H. exists x. split; auto. apply E. auto.
Qed.
Lemma contains_false {A} (eqb : A -> A -> bool) (E : equality eqb) s x :
  contains eqb s x = false <-> ~ In x s.
Proof. rewrite <- (contains_iff eqb E). destruct (contains eqb s x); intuition discriminate. Qed.

Lemma union_ok {A} (ins : A -> list A -> list A) :
  (forall x s y, In y (ins x s) <-> y = x \/ In y s) ->
  forall others s y, In y (set_union ins s others) <-> In y s \/ exists o, In o others /\ In y o.
Proof.
  intros Hi.
  assert (H1: forall o s y, In y (fold_left (fun acc x => ins x acc) o s) <-> In y s \/ In y o).
  { induction o as [|x o IH]; intros s y; simpl; [tauto|]. rewrite IH, Hi. intuition. }
  unfold set_union. induction others as [|o r IH]; intros s y; simpl.
  - split; [auto|]. intros [H|(o & [] & _)]; auto.
  - rewrite IH, H1. split.
    + intros [[H|H]|(o' & Ho & H)]; eauto.
    + intros [H|(o' & [->|Ho] & H)]; eauto.
Qed.

Lemma in_erase_nth {A} (s : list A) i x : NoDup s -> nth_error s i = Some x ->
  forall y, In y (erase_nth s i) <-> In y s /\ y <> x.
Proof.
  revert i. induction s as [|z r IH]; intros [|i] N E y; simpl in *; try discriminate.
  - injection E as ->. inversion N; subst. split.
    + intros H. split; auto. intros ->. auto.
    + intros [[->|H] H']; [congruence|auto].
  - inversion N; subst. rewrite (IH i H2 E). split.
    + intros [->|[H H']]; split; auto. intros ->. apply nth_error_In in E. auto.
    + intros [[->|H] H']; auto.
Qed.
Lemma skipn_cons {A} (s : list A) i x : nth_error s i = Some x -> skipn i s = x :: skipn (S i) s.
Proof.
  revert i. induction s as [|z r IH]; intros [|i] E; simpl in *; try discriminate.
  - injection E as ->. reflexivity.
  - apply IH in E. exact E.
Qed.

(* whatever drop is, as long as its verdict on an element does not change while
   that element is in the set *)
Lemma in_firstn {A} (x : A) n l : In x (firstn n l) -> In x l.
Proof. intros H. rewrite <- (firstn_skipn n l). apply in_or_app. auto. Qed.
Lemma in_skipn {A} (x : A) n l : In x (skipn n l) -> In x l.
Proof. intros H. rewrite <- (firstn_skipn n l). apply in_or_app. auto. Qed.

Lemma erasing_ok {A} (drop : list A -> A -> bool) (d : A -> bool) s i r :
  erasing drop s i r -> NoDup s ->
  (forall s' x, In x s' -> (forall y, In y s' -> In y s) -> drop s' x = d x) ->
  (forall x, In x (firstn i s) -> d x = false) ->
  NoDup r /\ forall x, In x r <-> In x s /\ d x = false.
Proof.
  induction 1 as [s i E|s i x r E D H IH|s i x s' j r E D [He [Hn Hv]] H IH]; intros N Hd Hf.
  - split; auto. intros x. split; [|tauto]. intros Hx. split; auto. apply Hf.
    apply nth_error_None in E. rewrite firstn_all2; auto.
  - apply IH; auto. intros y Hy. rewrite <- (firstn_skipn i (firstn (S i) s)) in Hy.
    rewrite firstn_firstn in Hy. replace (Nat.min i (S i)) with i in Hy by lia.
    apply in_app_or in Hy as [Hy|Hy]; auto.
    rewrite skipn_firstn_comm in Hy. replace (S i - i)%nat with 1%nat in Hy by lia.
    rewrite (skipn_cons _ _ _ E) in Hy. simpl in Hy. destruct Hy as [<-|[]].
    rewrite <- (Hd s x); auto. apply nth_error_In in E. auto.
  - assert (Dx: d x = true) by (rewrite <- (Hd s x); auto; eapply nth_error_In; eauto).
    assert (Hsub: forall y, In y s' -> In y s) by
      (intros y Hy; apply He in Hy; apply (in_erase_nth s i x N E) in Hy; tauto).
    destruct IH as (Nr & Hr); auto.
    + (* first j of s' were visited *)
      intros y Hy. assert (Hin: In y s') by (eapply in_firstn; eauto).
      apply He in Hin. apply (in_erase_nth s i x N E) in Hin as [Hin Hne].
      rewrite <- (firstn_skipn i s) in Hin. apply in_app_or in Hin as [Hin|Hin]; [auto|].
      rewrite (skipn_cons _ _ _ E) in Hin. destruct Hin as [<-|Hin]; [congruence|].
      apply Hv in Hin. exfalso. rewrite <- (firstn_skipn j s') in Hn.
      revert Hn Hy Hin. generalize (firstn j s') (skipn j s'). clear. intros a b N Ha Hb.
      apply in_split in Ha as (a1 & a2 & ->). rewrite <- app_assoc in N.
      apply NoDup_remove_2 in N. apply N. apply in_or_app. right. apply in_or_app. auto.
    + split; auto. intros y. rewrite Hr, He, (in_erase_nth s i x N E). split; [tauto|].
      intros [Hy Hd']. repeat split; auto. intros ->. congruence.
Qed.

Lemma intersection_ok {A} (eqb : A -> A -> bool) : equality eqb ->
  forall self other r, NoDup self -> intersection_update eqb self other r ->
  NoDup r /\ forall x, In x r <-> In x self /\ In x (other_of other self).
Proof.
  intros E self other r N H. unfold intersection_update in H.
  destruct (erasing_ok _ (fun x => negb (contains eqb (other_of other self) x) && contains eqb self x) _ _ _ H N) as (Nr & Hr).
  - intros s' x Hx Hs. rewrite (proj2 (contains_iff eqb E self x)) by auto. rewrite andb_true_r.
    destruct other as [o|]; simpl; auto. f_equal.
    rewrite (proj2 (contains_iff eqb E s' x)), (proj2 (contains_iff eqb E self x)); auto.
  - simpl. tauto.
  - split; auto. intros x. rewrite Hr. rewrite andb_false_iff, negb_false_iff, (contains_iff eqb E), (contains_false eqb E). tauto.
Qed.
Lemma difference_ok {A} (eqb : A -> A -> bool) : equality eqb ->
  forall self other r, NoDup self -> difference_update eqb self other r ->
  NoDup r /\ forall x, In x r <-> In x self /\ ~ In x (other_of other self).
Proof.
  intros E self other r N H. unfold difference_update in H.
  destruct (erasing_ok _ (fun x => contains eqb (other_of other self) x) _ _ _ H N) as (Nr & Hr).
  - intros s' x Hx Hs. destruct other as [o|]; simpl; auto.
    rewrite (proj2 (contains_iff eqb E s' x)), (proj2 (contains_iff eqb E self x)); auto.
  - simpl. tauto.
  - split; auto. intros x. rewrite Hr, (contains_false eqb E). tauto.
Qed.

(* the order-keeping version is an instance, and terminates *)
Lemma nodup_erase {A} (s : list A) i : NoDup s -> NoDup (erase_nth s i).
Proof.
  revert i. induction s as [|x r IH]; intros [|i] N; simpl; auto; inversion N; subst; auto.
  constructor; auto. intros H. apply H1. rewrite erase_nth_split in H.
  apply in_app_or in H as [H|H]; [eapply in_firstn|eapply in_skipn]; eauto.
Qed.
Lemma erase_skipn {A} (s : list A) i : skipn (S i) s = skipn i (erase_nth s i).
Proof. revert i. induction s as [|x r IH]; intros [|i]; simpl; auto. exact (IH i). Qed.
Lemma erase_length {A} (s : list A) i x : nth_error s i = Some x ->
  S (List.length (erase_nth s i)) = List.length s.
Proof.
  revert i. induction s as [|y r IH]; intros [|i] E; simpl in *; try discriminate; auto.
Qed.
Lemma update_loop_erasing {A} (drop : list A -> A -> bool) : forall f s i, NoDup s ->
  (i <= List.length s)%nat -> (List.length s < f + i)%nat -> exists r, update_loop f drop s i = Ret r /\ erasing drop s i r.
Proof.
  induction f as [|f IH]; intros s i N Hi Hf; simpl.
  - lia.
  - destruct (nth_error s i) eqn:E.
    + destruct (drop s a) eqn:D.
      * destruct (IH (erase_nth s i) i) as (r & Hr & He).
        { apply nodup_erase; auto. }
        { pose proof (erase_length _ _ _ E).
          assert (i < List.length s)%nat by (apply nth_error_Some; congruence). lia. }
        { pose proof (erase_length _ _ _ E). lia. }
        exists r. split; auto. eapply er_erase; eauto. split; [tauto|]. split; [apply nodup_erase; auto|].
        intros x. rewrite erase_skipn. auto.
      * destruct (IH s (S i)) as (r & Hr & He); auto;
          [apply nth_error_Some; congruence|lia|].
        exists r. split; auto. eapply er_keep; eauto.
    + exists s. split; auto. constructor; auto.
Qed.

Lemma update_loop_order {A} (drop : A -> bool) : forall f s i, 
  (i <= List.length s)%nat -> (List.length s < f + i)%nat ->
  update_loop f (fun _ => drop) s i = Ret (firstn i s ++ filter (fun x => negb (drop x)) (skipn i s)).
Proof.
  induction f as [|f IH]; intros s i Hi Hf; simpl; [lia|].
  destruct (nth_error s i) eqn:E.
  - pose proof (skipn_cons _ _ _ E) as Es. rewrite Es. simpl.
    assert (i < List.length s)%nat by (apply nth_error_Some; congruence).
    destruct (drop a) eqn:D; simpl.
    + pose proof (erase_length _ _ _ E). rewrite IH by lia. f_equal. rewrite <- erase_skipn. f_equal.
      rewrite erase_nth_split, firstn_app, firstn_firstn, firstn_length, Nat.min_id.
      replace (i - Nat.min i (List.length s))%nat with 0%nat by lia. simpl. apply app_nil_r.
    + rewrite IH by lia. f_equal.
      assert (Ef: firstn (S i) s = firstn i s ++ [a]).
      { rewrite <- (firstn_skipn i s) at 1. rewrite firstn_app, firstn_firstn, firstn_length.
        replace (Nat.min (S i) i) with i by lia.
        replace (S i - Nat.min i (List.length s))%nat with 1%nat by lia. rewrite Es. reflexivity. }
      rewrite Ef, <- app_assoc. reflexivity.
  - apply nth_error_None in E. rewrite skipn_all2, firstn_all2 by auto. simpl. rewrite app_nil_r. reflexivity.
Qed.

Lemma disjoint_loop_iff {A} (eqb : A -> A -> bool) : equality eqb -> forall s l,
  disjoint_loop eqb s l = true <-> forall x, In x s -> ~ In x l.
Proof.
  intros E. induction s as [|y s IH]; intros l; simpl.
  - intuition.
  - destruct (contains eqb l y) eqn:C.
    + split; [discriminate|]. intros H. apply (contains_iff eqb E) in C. exfalso. apply (H y); auto.
    + apply (contains_false eqb E) in C. rewrite IH. split.
      * intros H x [<-|Hx]; auto.
      * intros H x Hx. apply H. auto.
Qed.
Lemma c_disjoint_ok {A} (eqb : A -> A -> bool) : equality eqb -> forall s o,
  c_is_disjoint eqb s o = true <-> forall x, ~ (In x s /\ In x o).
Proof.
  intros E s o. unfold c_is_disjoint. cbv zeta. destruct (Nat.ltb _ _);
  rewrite (disjoint_loop_iff eqb E); split; intros H x; specialize (H x); tauto.
Qed.
Lemma f_disjoint_ok {A} (eqb : A -> A -> bool) : equality eqb -> forall s o,
  f_is_disjoint eqb s o = true <-> forall x, ~ (In x s /\ In x o).
Proof.
  intros E s o. unfold f_is_disjoint. destruct (Nat.ltb _ _);
  rewrite (disjoint_loop_iff eqb E); split; intros H x; specialize (H x); tauto.
Qed.

Lemma min_loop_least {A} (less : A -> A -> bool) : strict_order less -> forall l m,
  (In (min_loop less l m) (m :: l)) /\ (forall y, In y (m :: l) -> less y (min_loop less l m) = false).
Proof.
  intros (Hi & Ht & Hc). induction l as [|x r IH]; intros m.
  - simpl. split; auto. intros y [<-|[]]. auto.
  - simpl min_loop. destruct (IH (if less x m then x else m)) as (I1 & I2). split.
    + destruct I1 as [I1|I1]; [|right; right; auto].
      rewrite <- I1. destruct (less x m); simpl; auto.
    + intros y Hy. set (w := min_loop less r (if less x m then x else m)) in *.
      assert (Hw: less (if less x m then x else m) w = false) by (apply I2; left; auto).
      destruct Hy as [<-|[<-|Hy]]; [| |apply I2; right; auto].
      * destruct (less x m) eqn:L; auto. destruct (less m w) eqn:M; auto.
        rewrite (Ht _ _ _ L M) in Hw. discriminate.
      * destruct (less x m) eqn:L; auto. destruct (less x w) eqn:M; auto.
        destruct (Hc m x) as [H|[->|H]]; [|congruence|congruence].
        rewrite (Ht _ _ _ H M) in Hw. discriminate.
Qed.
Lemma max_loop_greatest {A} (less : A -> A -> bool) : strict_order less -> forall l m,
  (In (max_loop less l m) (m :: l)) /\ (forall y, In y (m :: l) -> less (max_loop less l m) y = false).
Proof.
  intros (Hi & Ht & Hc). induction l as [|x r IH]; intros m.
  - simpl. split; auto. intros y [<-|[]]. auto.
  - simpl max_loop. destruct (IH (if less m x then x else m)) as (I1 & I2). split.
    + destruct I1 as [I1|I1]; [|right; right; auto].
      rewrite <- I1. destruct (less m x); simpl; auto.
    + intros y Hy. set (w := max_loop less r (if less m x then x else m)) in *.
      assert (Hw: less w (if less m x then x else m) = false) by (apply I2; left; auto).
      destruct Hy as [<-|[<-|Hy]]; [| |apply I2; right; auto].
      * destruct (less m x) eqn:L; auto. destruct (less w m) eqn:M; auto.
        rewrite (Ht _ _ _ M L) in Hw. discriminate.
      * destruct (less m x) eqn:L; auto. destruct (less w x) eqn:M; auto.
        destruct (Hc m x) as [H|[->|H]]; [congruence|congruence|].
        rewrite (Ht _ _ _ M H) in Hw. discriminate.
Qed.
Lemma c_set_min_ok {A} (less : A -> A -> bool) : strict_order less -> forall s, s <> [] ->
  exists v, c_set_min less s = Ret v /\ In v s /\ forall y, In y s -> less y v = false.
Proof.
  intros O s H. destruct s as [|x r]; [congruence|].
  unfold c_set_min. destruct (min_loop_least less O (x :: r) x) as (H1 & H2).
  eexists. split; [reflexivity|]. split.
  - destruct H1 as [<-|H1]; [left; auto|auto].
  - intros y Hy. apply H2. right; auto.
Qed.
Lemma c_set_max_ok {A} (less : A -> A -> bool) : strict_order less -> forall s, s <> [] ->
  exists v, c_set_max less s = Ret v /\ In v s /\ forall y, In y s -> less v y = false.
Proof.
  intros O s H. destruct s as [|x r]; [congruence|].
  unfold c_set_max. destruct (max_loop_greatest less O (x :: r) x) as (H1 & H2).
  eexists. split; [reflexivity|]. split.
  - destruct H1 as [<-|H1]; [left; auto|auto].
  - intros y Hy. apply H2. right; auto.
Qed.
Lemma asym {A} (less : A -> A -> bool) : strict_order less -> forall x y, less x y = true -> less y x = false.
Proof.
  intros (Hi & Ht & _) x y H. destruct (less y x) eqn:E; auto.
  rewrite <- (Hi x). symmetry. eauto.
Qed.
Lemma f_set_min_ok {A} (less : A -> A -> bool) : strict_order less -> forall s, s <> [] -> sorted less s ->
  exists v, f_set_min s = Ret v /\ In v s /\ forall y, In y s -> less y v = false.
Proof.
  intros O s H Hs. destruct s as [|x r]; [congruence|]. exists x. simpl in *.
  split; auto. split; auto. intros y [<-|Hy]; [apply O|]. apply asym; auto. apply Hs. auto.
Qed.
Lemma sorted_app_last {A} (less : A -> A -> bool) : forall l x, sorted less (l ++ [x]) ->
  forall y, In y l -> less y x = true.
Proof.
  induction l as [|z l IH]; intros x H y; simpl in *; [tauto|]. destruct H as (H1 & H2).
  intros [<-|Hy]; [apply H1; apply in_or_app; right; left; auto|auto].
Qed.
Lemma f_set_max_ok {A} (less : A -> A -> bool) : strict_order less -> forall s, s <> [] -> sorted less s ->
  exists v, f_set_max s = Ret v /\ In v s /\ forall y, In y s -> less v y = false.
Proof.
  intros O s H Hs. destruct (rev s) as [|x r] eqn:E.
  - apply (f_equal (@rev A)) in E. rewrite rev_involutive in E. simpl in E. congruence.
  - unfold f_set_max. rewrite E. exists x. split; auto.
    apply (f_equal (@rev A)) in E. rewrite rev_involutive in E. simpl in E. rewrite E in Hs |- *.
    split; [apply in_or_app; right; left; auto|].
    intros y Hy. apply in_app_or in Hy as [Hy|[<-|[]]]; [|apply O].
    apply asym; auto. eapply sorted_app_last; eauto.
Qed.

Lemma set_pop_ok {A} (s : list A) : NoDup s -> s <> [] ->
  exists v r, set_pop s = Ret (v, r) /\ In v s /\ NoDup r /\ forall y, In y r <-> In y s /\ y <> v.
Proof.
  destruct s as [|x r]; intros N H; [congruence|]. exists x, r. simpl. inversion N; subst.
  split; auto. split; auto. split; auto. intros y. split.
  - intros Hy. split; auto. intros ->. auto.
  - intros [[->|Hy] Hn]; [congruence|auto].
Qed.

(* ---- dicts ---- *)
Section D.
Context {K V : Type} (eqb : K -> K -> bool) (E : equality eqb).
Lemma find_has (m : list (K * V)) k v : NoDup (keys m) -> (m_find eqb m k = Some v <-> has m k v).
Proof.
  unfold keys, has. induction m as [|[k' v'] r IH]; intros N; simpl in *; [split; [discriminate|tauto]|].
  inversion N; subst. destruct (eqb k k') eqn:Ek.
  - apply E in Ek. subst. split.
    + intros H; injection H as ->. auto.
    + intros [H|H]; [congruence|]. exfalso. apply H1. apply (in_map fst) in H. exact H.
  - rewrite IH by auto. split; auto. intros [H|H]; auto. injection H as -> ->.
    assert (eqb k k = true) by (apply E; auto). congruence.
Qed.
Lemma find_none (m : list (K * V)) k : m_find eqb m k = None <-> ~ In k (keys m).
Proof.
  unfold keys. induction m as [|[k' v'] r IH]; simpl; [intuition|].
  destruct (eqb k k') eqn:Ek.
  - apply E in Ek. subst. split; [discriminate|]. intros H. exfalso. apply H. auto.
  - rewrite IH. split; [|tauto]. intros H [->|H']; auto.
    assert (eqb k k = true) by (apply E; auto). congruence.
Qed.
Lemma erase_has (m : list (K * V)) k : NoDup (keys m) ->
  NoDup (keys (m_erase eqb m k)) /\
  forall k' v', has (m_erase eqb m k) k' v' <-> k' <> k /\ has m k' v'.
Proof.
  unfold keys, has. induction m as [|[k1 v1] r IH]; intros N; simpl in *; [split; [constructor|tauto]|].
  inversion N; subst. destruct (IH H2) as (N' & I'). destruct (eqb k k1) eqn:Ek.
  - apply E in Ek. subst. split; auto. intros k' v'. split.
    + intros H. split; auto. intros ->. apply H1. apply (in_map fst) in H. exact H.
    + intros [Hn [H|H]]; auto. congruence.
  - split.
    + simpl. constructor; auto. intros H. apply in_map_iff in H as ([k2 v2] & E2 & H). simpl in E2. subst k2.
      apply I' in H as [_ H]. apply H1. apply (in_map fst) in H. exact H.
    + intros k' v'. simpl. rewrite I'. split.
      * intros [H|H]; [|tauto]. injection H as -> ->. split; auto. intros ->.
        assert (eqb k k = true) by (apply E; auto). congruence.
      * intros [Hn [H|H]]; auto.
Qed.
Lemma pop_ok (m : list (K * V)) k v : NoDup (keys m) -> has m k v ->
  exists m', dict_pop eqb m k = Ret (v, m') /\ NoDup (keys m') /\
  forall k' v', has m' k' v' <-> k' <> k /\ has m k' v'.
Proof.
  intros N H. unfold dict_pop. apply (find_has m k v N) in H. rewrite H.
  exists (m_erase eqb m k). split; auto. apply erase_has; auto.
Qed.
Lemma pop_default_ok (m : list (K * V)) k d : NoDup (keys m) ->
  (forall v, has m k v -> exists m', dict_pop_default eqb m k d = Ret (v, m') /\ NoDup (keys m') /\
     forall k' v', has m' k' v' <-> k' <> k /\ has m k' v') /\
  (~ In k (keys m) -> dict_pop_default eqb m k d = Ret (d, m)).
Proof.
  intros N. split.
  - intros v H. unfold dict_pop_default. pose proof H as H'. apply (find_has m k v N) in H'. rewrite H'.
    apply pop_ok; auto.
  - intros H. unfold dict_pop_default. apply find_none in H. rewrite H. reflexivity.
Qed.
Lemma get_ok (m : list (K * V)) k d : NoDup (keys m) ->
  (forall v, has m k v -> c_dict_get eqb m k d = Ret v) /\
  (~ In k (keys m) -> c_dict_get eqb m k d = Ret d).
Proof.
  intros N. unfold c_dict_get. split.
  - intros v H. apply (find_has m k v N) in H. rewrite H. reflexivity.
  - intros H. apply find_none in H. rewrite H. reflexivity.
Qed.
Lemma popitem_ok (m : list (K * V)) : NoDup (keys m) -> m <> [] ->
  exists k v m', dict_popitem m = Ret ((k, v), m') /\ has m k v /\ NoDup (keys m') /\
  forall k' v', has m' k' v' <-> k' <> k /\ has m k' v'.
Proof.
  intros N H. destruct m as [|[k v] r]; [congruence|]. exists k, v, r. unfold has in *. simpl in *.
  inversion N; subst. split; auto. split; auto. split; auto. intros k' v'. split.
  - intros Hr. split; auto. intros ->. apply H2. apply (in_map fst) in Hr. exact Hr.
  - intros [Hn [Hr|Hr]]; auto. congruence.
Qed.
End D.

(* ---- managed memory ---- *)
Lemma mrun_app ops1 ops2 m : mrun m (ops1 ++ ops2) = bind (mrun m ops1) (fun m' => mrun m' ops2).
Proof.
  revert m. induction ops1 as [|o r IH]; intros m; simpl; auto.
  destruct (mstep m o); simpl; auto.
Qed.

Definition owned_by (s : mgd) : option nat := if owns s then get s else None.
Definition minv (ops : list mop) (m : mem) : Prop :=
  map owned_by (ptrs m) = owned ops /\
  List.length (cells m) = nmakes ops /\
  (forall s, In s (ptrs m) -> owns s = true -> get s <> None) /\
  (forall p c, nth_error (owned ops) p = Some (Some c) -> (c < nmakes ops)%nat) /\
  (forall c, nth_error (cells m) c = Some true <-> has_owner ops c) /\
  (forall p q c, nth_error (owned ops) p = Some (Some c) -> nth_error (owned ops) q = Some (Some c) ->
     ~ used_up ops p -> ~ used_up ops q -> p = q).

Lemma owned_snoc ops o : owned (ops ++ [o]) = fst (own_step (owned ops, nmakes ops) o).
Proof. unfold owned, nmakes. rewrite fold_left_app. simpl. destruct (fold_left _ _ _). reflexivity. Qed.
Lemma nmakes_snoc ops o : nmakes (ops ++ [o]) = snd (own_step (owned ops, nmakes ops) o).
Proof. unfold owned, nmakes. rewrite fold_left_app. simpl. destruct (fold_left _ _ _). reflexivity. Qed.
Lemma owned_length ops : List.length (owned ops) = npointers ops.
Proof.
  induction ops as [|o ops IH] using rev_ind; auto.
  rewrite owned_snoc. unfold npointers in *. rewrite filter_app, app_length.
  destruct o; simpl; rewrite ?app_length; simpl; lia.
Qed.
Lemma used_up_snoc ops o p : used_up (ops ++ [o]) p <-> used_up ops p \/ uses_up o = Some p.
Proof.
  unfold used_up. split.
  - intros (x & Hx & U). apply in_app_or in Hx as [Hx|[<-|[]]]; eauto.
  - intros [(x & Hx & U)|U]; [exists x|exists o]; split; auto; apply in_or_app; simpl; auto.
Qed.
Lemma nth_snoc {A} (l : list A) x p y : nth_error (l ++ [x]) p = Some y <->
  nth_error l p = Some y \/ (p = List.length l /\ x = y).
Proof.
  destruct (Nat.lt_ge_cases p (List.length l)).
  - rewrite nth_error_app1 by auto. split; auto. intros [H1|[-> _]]; auto. lia.
  - rewrite nth_error_app2 by auto. rewrite (proj2 (nth_error_None l p)) by auto.
    destruct (p - List.length l)%nat eqn:D; simpl.
    + split; [intros H1; injection H1 as ->; right; split; auto; lia|].
      intros [H1|[_ ->]]; auto; discriminate.
    + replace (nth_error (@nil A) n) with (@None A) by (destruct n; auto).
      split; [discriminate|]. intros [H1|[-> _]]; [discriminate|lia].
Qed.
Lemma used_lt ops p : well_scoped ops -> used_up ops p -> (p < npointers ops)%nat.
Proof.
  intros W (o & Ho & U). apply in_split in Ho as (b & a & E).
  assert (M: mentions o = Some p) by (destruct o; simpl in *; congruence).
  pose proof (W b o a p E M). subst ops. unfold npointers in *. rewrite filter_app, app_length. lia.
Qed.

(* a pointer that owns nothing is created *)
Lemma minv_none ops m o s :
  minv ops m -> uses_up o = None -> owned_by s = None -> (owns s = true -> get s <> None) ->
  own_step (owned ops, nmakes ops) o = (owned ops ++ [None], nmakes ops) ->
  minv (ops ++ [o]) (push m s).
Proof.
  intros (I1 & I2 & I3 & I4 & I5 & I6) U S S' O.
  unfold minv. rewrite owned_snoc, nmakes_snoc, O. simpl.
  assert (NU: forall p, used_up (ops ++ [o]) p <-> used_up ops p).
  { intros p. rewrite used_up_snoc. rewrite U. split; auto. intros [?|?]; auto. discriminate. }
  split; [rewrite map_app, I1; simpl; rewrite S; auto|].
  split; [auto|].
  split; [intros x Hx; apply in_app_or in Hx as [Hx|[<-|[]]]; auto|].
  split; [intros p c Hp; apply nth_snoc in Hp as [Hp|[_ Hp]]; [eauto|discriminate]|].
  split.
  - intros c. rewrite I5. unfold has_owner. rewrite owned_snoc, O. simpl. split.
    + intros (p & Hp & Hu). exists p. rewrite NU, nth_snoc. auto.
    + intros (p & Hp & Hu). exists p. rewrite NU in Hu. apply nth_snoc in Hp as [Hp|[_ Hp]]; [auto|discriminate].
  - intros p q c Hp Hq. rewrite !NU. apply nth_snoc in Hp as [Hp|[_ Hp]]; [|discriminate].
    apply nth_snoc in Hq as [Hq|[_ Hq]]; [|discriminate]. eauto.
Qed.

(* an owner is dropped or released *)
Lemma minv_free ops m o p c :
  minv ops m -> uses_up o = Some p -> ~ used_up ops p ->
  nth_error (owned ops) p = Some (Some c) ->
  own_step (owned ops, nmakes ops) o = (owned ops, nmakes ops) ->
  exists m', free m (Some c) = Ret m' /\ minv (ops ++ [o]) m'.
Proof.
  intros (I1 & I2 & I3 & I4 & I5 & I6) U N Hp O.
  assert (L: nth_error (cells m) c = Some true) by (apply I5; exists p; auto).
  simpl. rewrite L. eexists. split; [reflexivity|].
  unfold minv. rewrite owned_snoc, nmakes_snoc, O. simpl.
  split; [auto|]. split; [rewrite set_nth_length; auto|]. split; [auto|]. split; [auto|].
  assert (NU: forall q, ~ used_up (ops ++ [o]) q <-> ~ used_up ops q /\ q <> p).
  { intros q. rewrite used_up_snoc, U. split.
    - intros H. split; [tauto|]. intros ->. tauto.
    - intros [H1 H2] [H|H]; [tauto|congruence]. }
  split.
  - intros d. rewrite nth_error_set_nth. unfold has_owner. rewrite owned_snoc, O. simpl.
    destruct (Nat.eqb_spec d c) as [->|Hd].
    + split; [destruct (Nat.ltb _ _); discriminate|].
      intros (q & Hq & Hu). apply NU in Hu as [Hu Hn]. exfalso. apply Hn. eapply I6; eauto.
    + rewrite I5. split; intros (q & Hq & Hu); exists q.
      * split; auto. apply NU. split; auto. intros ->. congruence.
      * split; auto. apply NU in Hu. tauto.
  - intros q r d Hq Hr H1 H2. apply NU in H1, H2. eapply I6; eauto; tauto.
Qed.

(* nothing happens to memory: a non-owner is dropped *)
Lemma minv_nothing ops m o p :
  minv ops m -> uses_up o = Some p -> nth_error (owned ops) p = Some None ->
  own_step (owned ops, nmakes ops) o = (owned ops, nmakes ops) ->
  minv (ops ++ [o]) m.
Proof.
  intros (I1 & I2 & I3 & I4 & I5 & I6) U Hp O.
  unfold minv. rewrite owned_snoc, nmakes_snoc, O. simpl.
  do 4 (split; [auto|]). split.
  - intros d. rewrite I5. unfold has_owner. rewrite owned_snoc, O. simpl.
    split; intros (q & Hq & Hu); exists q; (split; [auto|]).
    + rewrite used_up_snoc, U. intros [H|H]; [tauto|]. congruence.
    + rewrite used_up_snoc in Hu. tauto.
  - intros q r d Hq Hr H1 H2. rewrite used_up_snoc in H1, H2. eapply I6; eauto; tauto.
Qed.

Lemma ptr_of ops m p : minv ops m -> (p < npointers ops)%nat ->
  exists s, nth_error (ptrs m) p = Some s /\ nth_error (owned ops) p = Some (owned_by s)
    /\ (owns s = true -> exists c, get s = Some c /\ owned_by s = Some c).
Proof.
  intros (I1 & _ & I3 & _) H. rewrite <- owned_length, <- I1, map_length in H.
  destruct (nth_error (ptrs m) p) as [s|] eqn:E.
  - exists s. split; auto. split; [rewrite <- I1; apply map_nth_error; auto|].
    intros Ho. assert (G: get s <> None) by (apply I3; auto; eapply nth_error_In; eauto).
    destruct (get s) as [c|] eqn:Eg; [|congruence]. exists c. unfold owned_by. rewrite Ho. auto.
  - apply nth_error_None in E. lia.
Qed.

Lemma mrun_linear : forall ops, linear ops -> well_scoped ops -> releases_owners ops ->
  exists m, mrun mem0 ops = Ret m /\ minv ops m.
Proof.
  induction ops as [|o ops IH] using rev_ind; intros L W R.
  - exists mem0. split; auto. unfold minv. simpl. do 3 (split; [auto; try tauto|]).
    split; [intros [|p] c H; discriminate|].
    split; [|intros [|p] q c H; discriminate].
    intros c. split; [destruct c; discriminate|]. intros ([|p] & H & _); discriminate.
  - assert (L': linear ops).
    { intros b x a p E. apply (L b x (a ++ [o])). rewrite E, <- app_assoc. reflexivity. }
    assert (W': well_scoped ops).
    { intros b x a p E. apply (W b x (a ++ [o])). rewrite E, <- app_assoc. reflexivity. }
    assert (R': releases_owners ops).
    { intros b p a E. apply (R b p (a ++ [o])). rewrite E, <- app_assoc. reflexivity. }
    destruct (IH L' W' R') as (m & Em & I).
    assert (Lo: forall p, uses_up o = Some p -> ~ used_up ops p) by (intros p; apply (L ops o []); auto).
    assert (Wo: forall p, mentions o = Some p -> (p < npointers ops)%nat)
      by (intros p; apply (W ops o []); auto).
    assert (Ro: forall p, o = MRelease p -> exists c, nth_error (owned ops) p = Some (Some c))
      by (intros p ->; apply (R ops p []); auto).
    assert (G: exists m', mstep m o = Ret m' /\ minv (ops ++ [o]) m').
    2:{ destruct G as (m' & S & I'). exists m'. split; auto. rewrite mrun_app, Em. simpl. rewrite S. reflexivity. }
    assert (UL: ~ used_up ops (List.length (owned ops))).
    { intros H. apply used_lt in H; auto. rewrite owned_length in H. lia. }
    clear L W R L' W' R' IH Em. destruct o as [| |c|p|p|p|p]; simpl mstep.
    + eexists. split; [reflexivity|]. apply minv_none; auto. simpl. discriminate.
    + eexists. split; [reflexivity|]. destruct I as (I1 & I2 & I3 & I4 & I5 & I6).
      unfold minv. rewrite owned_snoc, nmakes_snoc. simpl.
      assert (NU: forall p, used_up (ops ++ [MMake]) p <-> used_up ops p).
      { intros p. rewrite used_up_snoc. simpl. split; auto. intros [?|?]; auto. discriminate. }
      assert (F: forall p, nth_error (owned ops) p <> Some (Some (nmakes ops))).
      { intros p Hp. apply I4 in Hp. lia. }
      split; [rewrite map_app, I1; simpl; rewrite I2; reflexivity|].
      split; [rewrite app_length; simpl; lia|].
      split; [intros s Hs; apply in_app_or in Hs as [Hs|[<-|[]]]; auto; simpl; discriminate|].
      split; [intros p c Hp; apply nth_snoc in Hp as [Hp|[_ Hp]]; [apply I4 in Hp; lia|injection Hp as <-; lia]|].
      split.
      * intros c. unfold has_owner. rewrite owned_snoc. simpl. rewrite nth_snoc, I5, I2. split.
        -- intros [(p & Hp & Hu)|[-> _]].
           ++ exists p. rewrite nth_snoc, NU. auto.
           ++ exists (List.length (owned ops)). rewrite nth_snoc, NU. split; auto.
        -- intros (p & Hp & Hu). rewrite NU in Hu. apply nth_snoc in Hp as [Hp|[_ Hp]].
           ++ left. exists p. auto.
           ++ right. injection Hp as <-. auto.
      * intros p q c Hp Hq. rewrite !NU. intros Up Uq.
        apply nth_snoc in Hp as [Hp|[-> Hp]]; apply nth_snoc in Hq as [Hq|[-> Hq]]; auto.
        -- eauto.
        -- injection Hq as <-. exfalso. eapply F; eauto.
        -- injection Hp as <-. exfalso. eapply F; eauto.
    + eexists. split; [reflexivity|]. apply minv_none; auto. simpl. discriminate.
    + destruct (ptr_of ops m p I) as (s & Es & _); [auto|]. rewrite Es. eexists. split; [reflexivity|].
      apply minv_none; auto. simpl. discriminate.
    + (* steal *)
      destruct (ptr_of ops m p I) as (s & Es & Eo & Hs); [auto|]. rewrite Es. eexists. split; [reflexivity|].
      pose proof (Lo p eq_refl) as Up. destruct I as (I1 & I2 & I3 & I4 & I5 & I6).
      unfold minv. rewrite owned_snoc, nmakes_snoc. simpl.
      replace (nth p (owned ops) None) with (owned_by s)
        by (symmetry; apply nth_error_nth; exact Eo).
      assert (NU: forall q, ~ used_up (ops ++ [MSteal p]) q <-> ~ used_up ops q /\ q <> p).
      { intros q. rewrite used_up_snoc. simpl. split.
        - intros H. split; [tauto|]. intros ->. tauto.
        - intros [H1 H2] [H|H]; [tauto|congruence]. }
      assert (Pl: (p < List.length (owned ops))%nat) by (apply nth_error_Some; congruence).
      split; [rewrite map_app, I1; reflexivity|].
      split; [auto|].
      split; [intros x Hx; apply in_app_or in Hx as [Hx|[<-|[]]]; auto;
              apply I3; eapply nth_error_In; eauto|].
      split; [intros q c Hq; apply nth_snoc in Hq as [Hq|[_ Hq]]; [eauto|];
              rewrite Hq in Eo; eauto|].
      split.
      * intros c. rewrite I5. unfold has_owner. rewrite owned_snoc. simpl.
        replace (nth p (owned ops) None) with (owned_by s)
          by (symmetry; apply nth_error_nth; exact Eo).
        split.
        -- intros (q & Hq & Hu). destruct (Nat.eq_dec q p) as [->|Hn].
           ++ exists (List.length (owned ops)). rewrite nth_snoc, NU. split; [|split; [auto|lia]].
              right. split; auto. congruence.
           ++ exists q. rewrite nth_snoc, NU. auto.
        -- intros (q & Hq & Hu). apply NU in Hu as [Hu Hn]. apply nth_snoc in Hq as [Hq|[-> Hq]].
           ++ exists q. auto.
           ++ exists p. split; auto. congruence.
      * intros q r c Hq Hr H1 H2. apply NU in H1 as [H1 N1]. apply NU in H2 as [H2 N2].
        apply nth_snoc in Hq as [Hq|[-> Hq]]; apply nth_snoc in Hr as [Hr|[-> Hr]]; auto.
        -- eauto.
        -- exfalso. apply N1. eapply I6; eauto. congruence.
        -- exfalso. apply N2. eapply I6; eauto. congruence.
    + (* drop *)
      destruct (ptr_of ops m p I) as (s & Es & Eo & Hs); [auto|]. rewrite Es.
      destruct (owns s) eqn:Ow.
      * destruct (Hs eq_refl) as (c & Eg & Ec). rewrite Eg. rewrite Ec in Eo.
        exact (minv_free ops m (MDrop p) p c I eq_refl (Lo p eq_refl) Eo eq_refl).
      * exists m. split; auto. apply (minv_nothing ops m (MDrop p) p); auto.
        rewrite Eo. unfold owned_by. rewrite Ow. reflexivity.
    + (* release *)
      destruct (ptr_of ops m p I) as (s & Es & Eo & Hs); [auto|]. rewrite Es.
      destruct (Ro p eq_refl) as (c & Ec). rewrite Eo in Ec. injection Ec as Ec.
      destruct (owns s) eqn:Ow.
      * destruct (Hs eq_refl) as (c' & Eg & Ec'). rewrite Eg. rewrite Ec' in Eo.
        exact (minv_free ops m (MRelease p) p c' I eq_refl (Lo p eq_refl) Eo eq_refl).
      * unfold owned_by in Ec. rewrite Ow in Ec. discriminate.
Qed.

Lemma mrun_linear_ok : forall ops, linear ops -> well_scoped ops -> releases_owners ops ->
  exists m, mrun mem0 ops = Ret m /\ List.length (cells m) = nmakes ops /\
  forall c, nth_error (cells m) c = Some true <-> has_owner ops c.
Proof.
  intros ops L W R. destruct (mrun_linear ops L W R) as (m & E & I1 & I2 & I3 & I4 & I5 & I6).
  exists m. auto.
Qed.

Section DictRun.
Context {K V : Type} (eqb : K -> K -> bool) (E : equality eqb).
Variable put : list (K * V) -> K -> V -> list (K * V).
Hypothesis put_ok : forall m k v, NoDup (keys m) -> NoDup (keys (put m k v)) /\
  forall k' v', has (put m k v) k' v' <-> (k' = k /\ v' = v) \/ (k' <> k /\ has m k' v').

Lemma eqb_cases k k' : (eqb k k' = true /\ k = k') \/ (eqb k k' = false /\ k <> k').
Proof.
  destruct (eqb k k') eqn:H; [left; split; auto; apply E; auto|right; split; auto].
  intros ->. assert (eqb k' k' = true) by (apply E; auto). congruence.
Qed.
Lemma holds_find (m : list (K * V)) (d : K -> option V) k : holds m d -> m_find eqb m k = d k.
Proof.
  intros (N & H). destruct (d k) as [v|] eqn:D.
  - apply (find_has eqb E); auto. apply H. auto.
  - apply (find_none eqb E). intros Hk. apply in_map_iff in Hk as ([k' v] & Ek & Hk). simpl in Ek. subst.
    apply H in Hk. congruence.
Qed.
Lemma holds_erase (m : list (K * V)) (d : K -> option V) k : holds m d -> holds (m_erase eqb m k) (fn_set eqb d k None).
Proof.
  intros (N & H). destruct (erase_has eqb E m k N) as (N' & H'). split; auto.
  intros k' v'. rewrite H'. unfold fn_set. destruct (eqb_cases k' k) as [[-> ->]|[-> Hn]].
  - split; [tauto|discriminate].
  - rewrite H. tauto.
Qed.
Lemma erase_none (m : list (K * V)) k : m_find eqb m k = None -> m_erase eqb m k = m.
Proof.
  induction m as [|[k' v'] r IH]; simpl; auto. destruct (eqb k k'); [discriminate|].
  intros H. rewrite IH; auto.
Qed.
Lemma dict_run_ok : forall ops m d d' out, holds m d -> py_dict_run eqb d ops = Some (d', out) ->
  exists m', dict_run eqb put m ops = Ret (m', out) /\ holds m' d'.
Proof.
  induction ops as [|o ops IH]; intros m d d' out Hm H; simpl in H.
  - injection H as <- <-. exists m. simpl. auto.
  - destruct o as [k v|k|k dv|k dv]; simpl dict_run.
    + assert (Hp: holds (put m k v) (fn_set eqb d k (Some v))).
      { destruct Hm as (N & Hm). destruct (put_ok m k v N) as (N' & H'). split; auto.
        intros k' v'. rewrite H'. unfold fn_set.
        destruct (eqb_cases k' k) as [[-> ->]|[-> Hn]]; [|rewrite Hm; tauto].
        split; [intros [[_ ->]|[? _]]; [auto|congruence]|intros H1; injection H1 as ->; auto]. }
      destruct (IH _ _ _ _ Hp H) as (m' & Er & Hm'). simpl. rewrite Er. simpl. eauto.
    + unfold dict_pop. rewrite (holds_find m d k Hm). destruct (d k) as [v|] eqn:D; [|discriminate].
      destruct (py_dict_run eqb (fn_set eqb d k None) ops) as [[d1 o1]|] eqn:R; [|discriminate].
      injection H as <- <-. destruct (IH _ _ _ _ (holds_erase m d k Hm) R) as (m' & Er & Hm').
      simpl. rewrite Er. simpl. eauto.
    + destruct (py_dict_run eqb (fn_set eqb d k None) ops) as [[d1 o1]|] eqn:R; [|discriminate].
      injection H as <- <-. destruct (IH _ _ _ _ (holds_erase m d k Hm) R) as (m' & Er & Hm').
      unfold dict_pop_default, dict_pop. pose proof (holds_find m d k Hm) as F. rewrite F.
      destruct (d k) as [v|] eqn:D; simpl.
      * rewrite Er. simpl. eauto.
      * rewrite (erase_none m k F) in Er. rewrite Er. simpl. eauto.
    + destruct (py_dict_run eqb d ops) as [[d1 o1]|] eqn:R; [|discriminate].
      injection H as <- <-. destruct (IH _ _ _ _ Hm R) as (m' & Er & Hm').
      unfold c_dict_get. rewrite (holds_find m d k Hm). destruct (d k); simpl; rewrite Er; simpl; eauto.
Qed.
End DictRun.

(* popitem against insertion order *)
Lemma popitem_order {K V} (m : list (K * V)) kv kv' r : m = kv :: r -> kv' = List.last m kv -> kv <> kv' ->
  exists m', Permutation m' m /\ forall x, dict_popitem m' = Ret x -> py_popitem m <> Some x.
Proof.
  intros -> -> Hn. exists (kv :: r). split; [apply Permutation_refl|]. intros x. simpl.
  intros H; injection H as <-. unfold py_popitem. intros H.
  destruct (exists_last (l:=kv :: r) ltac:(discriminate)) as (a & z & Ea). rewrite Ea in *.
  rewrite rev_app_distr in H. simpl in H. injection H as H _. rewrite last_last in Hn. congruence.
Qed.

(* a copied container *)
Definition own_of (i : nat) : mgd := mkMgd (Some i) true.
Lemma run_makes : forall n, mrun mem0 (repeat MMake n) = Ret (mkMem (repeat true n) (map own_of (seq 0 n))).
Proof.
  induction n as [|n IH]; auto.
  replace (repeat MMake (S n)) with (repeat MMake n ++ [MMake])
    by (symmetry; rewrite <- (repeat_cons n MMake); reflexivity).
  rewrite mrun_app, IH. simpl bind. rewrite repeat_length.
  replace (S n) with (n + 1)%nat by lia. rewrite repeat_app, seq_app, map_app. reflexivity.
Qed.
Lemma run_steals cs ps : forall els new, (forall i, In i els -> exists s, nth_error ps i = Some s) ->
  mrun (mkMem cs (ps ++ new)) (map MSteal els) =
  Ret (mkMem cs (ps ++ new ++ map (fun i => nth i ps (mkMgd None false)) els)).
Proof.
  induction els as [|i els IH]; intros new H; simpl.
  - rewrite app_nil_r. reflexivity.
  - destruct (H i ltac:(left; auto)) as (s & Es).
    assert (L: (i < List.length ps)%nat) by (apply nth_error_Some; congruence).
    rewrite nth_error_app1, Es by auto. simpl. unfold push. simpl. rewrite <- app_assoc.
    rewrite IH by (intros; apply H; right; auto). rewrite (nth_error_nth ps i _ Es), <- app_assoc. reflexivity.
Qed.
Lemma run_drops n more : forall j k, (j + k = n)%nat ->
  mrun (mkMem (repeat false k ++ repeat true j) (map own_of (seq 0 n) ++ more)) (map MDrop (seq k j)) =
  Ret (mkMem (repeat false n) (map own_of (seq 0 n) ++ more)).
Proof.
  induction j as [|j IH]; intros k H.
  - simpl. rewrite app_nil_r. simpl in H. subst. reflexivity.
  - simpl seq. simpl map. simpl mrun.
    rewrite nth_error_app1 by (rewrite map_length, seq_length; lia).
    rewrite (map_nth_error own_of k (seq 0 n) (d:=k)).
    2:{ rewrite (nth_error_nth' _ 0%nat) by (rewrite seq_length; lia). rewrite seq_nth by lia. reflexivity. }
    simpl. rewrite nth_error_app2 by (rewrite repeat_length; lia). rewrite repeat_length, Nat.sub_diag. simpl.
    replace (set_nth (repeat false k ++ true :: repeat true j) k false) with (repeat false (S k) ++ repeat true j).
    + apply IH. lia.
    + clear. induction k as [|k IH]; simpl; auto. f_equal. rewrite <- IH. reflexivity.
Qed.
Lemma one_copy n :
  mrun mem0 (repeat MMake n ++ copy_elements (seq 0 n) ++ drop_elements (seq 0 n)) =
  Ret (mkMem (repeat false n) (map own_of (seq 0 n) ++ map own_of (seq 0 n))).
Proof.
  rewrite mrun_app, run_makes. simpl bind. rewrite mrun_app. unfold copy_elements, drop_elements.
  rewrite <- (app_nil_r (map own_of (seq 0 n))) at 1.
  assert (N: forall i, (i < n)%nat -> nth_error (map own_of (seq 0 n)) i = Some (own_of i)).
  { intros i H. apply (map_nth_error own_of i (seq 0 n) (d:=i)).
    rewrite (nth_error_nth' _ 0%nat) by (rewrite seq_length; lia). rewrite seq_nth by lia. reflexivity. }
  rewrite run_steals.
  2:{ intros i H. apply in_seq in H. exists (own_of i). apply N. lia. }
  simpl bind. simpl app.
  replace (map (fun i : nat => nth i (map own_of (seq 0 n)) {| get := None; owns := false |}) (seq 0 n))
    with (map own_of (seq 0 n)).
  2:{ apply map_ext_in. intros i H. apply in_seq in H. symmetry. apply nth_error_nth. apply N. lia. }
  apply (run_drops n (map own_of (seq 0 n)) n 0). lia.
Qed.
Lemma copied_container n : (0 < n)%nat ->
  mrun mem0 (repeat MMake n ++ copy_elements (seq 0 n) ++ drop_elements (seq 0 n)) <> Undef /\
  mrun mem0 (repeat MMake n ++ copy_elements (seq 0 n) ++ drop_elements (seq 0 n)
             ++ drop_elements (seq n n)) = Undef.
Proof.
  intros H. split; [rewrite one_copy; discriminate|].
  rewrite (app_assoc (copy_elements _)), (app_assoc (repeat MMake n)), mrun_app, one_copy. simpl bind.
  destruct n as [|n]; [lia|]. unfold drop_elements. simpl seq at 3. simpl map at 3. simpl mrun.
  change (own_of 0 :: map own_of (seq 1 n)) with (map own_of (seq 0 (S n))).
  rewrite nth_error_app2 by (rewrite map_length, seq_length; lia). rewrite map_length, seq_length, Nat.sub_diag.
  reflexivity.
Qed.
