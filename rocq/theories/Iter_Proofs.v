(* Proofs about loops. *)
From Coq Require Import Bool Arith ZArith Lia List FunctionalExtensionality.
From Verif Require Import Iter_Model Iter_Spec.
Import ListNotations.
Open Scope Z_scope.
Open Scope list_scope.

(* ------------------------------ states ------------------------------ *)

Lemma state_eq : forall s s', (forall y, vars s y = vars s' y) -> (forall c, seqs s c = seqs s' c) -> s = s'.
Proof. intros [v q] [v' q'] H1 H2. cbn in *. f_equal; apply functional_extensionality; assumption. Qed.
Lemma set_var_same : forall s x v w, set_var (set_var s x v) x w = set_var s x w.
Proof. intros s x v w. apply state_eq; intros y; cbn; [destruct (Nat.eqb y x); reflexivity|reflexivity]. Qed.
Lemma set_var_swap : forall s x y v w, x <> y -> set_var (set_var s x v) y w = set_var (set_var s y w) x v.
Proof.
  intros s x y v w N. apply state_eq; intros z; cbn; [|reflexivity]. destruct (Nat.eqb z y) eqn:E; destruct (Nat.eqb z x) eqn:F; try reflexivity.
  apply Nat.eqb_eq in E. apply Nat.eqb_eq in F. congruence.
Qed.
Lemma get_set : forall s x v, vars (set_var s x v) x = v.
Proof. intros s x v. cbn. rewrite Nat.eqb_refl. reflexivity. Qed.
Lemma get_other : forall s x y v, x <> y -> vars (set_var s x v) y = vars s y.
Proof. intros s x y v N. cbn. destruct (Nat.eqb y x) eqn:E; [apply Nat.eqb_eq in E; congruence|reflexivity]. Qed.
Lemma set_var_id : forall s x, set_var s x (vars s x) = s.
Proof. intros s x. apply state_eq; intros y; cbn; [|reflexivity]. destruct (Nat.eqb y x) eqn:E; [apply Nat.eqb_eq in E; congruence|reflexivity]. Qed.
Lemma put_seqs : forall x v s c, seqs (put x v s) c = seqs s c.
Proof. intros [x|] v s c; reflexivity. Qed.
Lemma put_put : forall x v w s, put x v (put x w s) = put x v s.
Proof. intros [x|] v w s; [apply set_var_same|reflexivity]. Qed.
Lemma put_len : forall x v s c, len (put x v s) c = len s c.
Proof. intros. unfold len. rewrite put_seqs. reflexivity. Qed.
Lemma set_vars_seqs : forall ts vs s c, seqs (set_vars ts vs s) c = seqs s c.
Proof. induction ts as [|x ts IH]; intros [|v vs] s c; try reflexivity. cbn [set_vars]. rewrite IH. reflexivity. Qed.
Lemma set_vars_other : forall ts vs s y, ~ In y ts -> vars (set_vars ts vs s) y = vars s y.
Proof.
  induction ts as [|x ts IH]; intros [|v vs] s y N; try reflexivity. cbn [set_vars]. rewrite IH; [|intros I; apply N; right; exact I].
  apply get_other. intros ->. apply N. left. reflexivity.
Qed.
(* setting a target before does not matter *)
Lemma set_vars_over : forall ts vs s x v, List.length ts = List.length vs -> In x ts -> set_vars ts vs (set_var s x v) = set_vars ts vs s.
Proof.
  induction ts as [|y ts IH]; intros [|w vs] s x v L I; try discriminate; [destruct I|]. cbn [set_vars]. destruct (Nat.eq_dec x y) as [->|N].
  - rewrite set_var_same. reflexivity.
  - destruct I as [I|I]; [congruence|]. rewrite set_var_swap by exact N. apply IH; [cbn in L; lia|exact I].
Qed.
Lemma set_vars_swap : forall ts vs s x v, ~ In x ts -> set_vars ts vs (set_var s x v) = set_var (set_vars ts vs s) x v.
Proof.
  induction ts as [|y ts IH]; intros [|w vs] s x v N; try reflexivity. cbn [set_vars].
  rewrite set_var_swap; [|intros ->; apply N; left; reflexivity]. apply IH. intros I. apply N. right. exact I.
Qed.

Lemma same_but_refl : forall x s, same_but x s s.
Proof. intros x s. split; reflexivity. Qed.
Lemma same_but_put : forall x v s, same_but x (put x v s) s.
Proof. intros x v s. split; [apply put_seqs|]. intros y N. destruct x as [x|]; [|reflexivity]. cbn [put]. apply get_other. congruence. Qed.

(* ------------------------------ arithmetic ------------------------------ *)

Lemma range_test : forall a b st k, st <> 0 -> ((k < range_length a b st)%nat <-> (if st <? 0 then b <? a + Z.of_nat k * st else a + Z.of_nat k * st <? b) = true).
Proof.
  intros a b st k N. unfold range_length, ceil_div. pose proof (Z.div_mod (- (b - a)) st N) as D. set (q := - (b - a) / st) in *. set (r := - (b - a) mod st) in *.
  assert (X : (k < Z.to_nat (- q))%nat <-> Z.of_nat k < - q) by lia. rewrite X. clear X.
  destruct (Z.ltb_spec st 0) as [S|S].
  - pose proof (Z.mod_neg_bound (- (b - a)) st S) as B. fold r in B. rewrite Z.ltb_lt. split; intros H; nia.
  - pose proof (Z.mod_pos_bound (- (b - a)) st ltac:(lia)) as B. fold r in B. rewrite Z.ltb_lt. split; intros H; nia.
Qed.

Lemma quot_test : forall a b st k, st <> 0 ->
  (Nat.lt k (Z.to_nat (Z.quot ((if st <? 0 then b + 1 else b - 1) - a + st) st)) <-> (if st <? 0 then b <? a + Z.of_nat k * st else a + Z.of_nat k * st <? b) = true).
Proof.
  intros a b st k N. destruct (Z.ltb_spec st 0) as [S|S].
  - set (n := b + 1 - a + st). pose proof (Z.quot_rem' n st) as D. set (q := Z.quot n st) in *. set (r := Z.rem n st) in *. rewrite Z.ltb_lt.
    destruct (Z_lt_le_dec 0 n) as [P|P].
    + assert (R : r = 0 \/ 0 < r) by (pose proof (Z.rem_nonneg n st N ltac:(lia)); fold r in H; lia).
      assert (q <= 0) by (pose proof (Z.rem_bound_abs n st N) as B; fold r in B; nia).
      assert (Z.to_nat q = O) by lia. rewrite H0. split; [lia|]. intros. unfold n in *. nia.
    + pose proof (Z.rem_nonpos n st N P). fold r in H. pose proof (Z.rem_bound_abs n st N) as B. fold r in B.
      assert (Q : 0 <= q) by nia. assert (X : (k < Z.to_nat q)%nat <-> Z.of_nat k < q) by lia. rewrite X. unfold n in *. split; intros; nia.
  - set (n := b - 1 - a + st). pose proof (Z.quot_rem' n st) as D. set (q := Z.quot n st) in *. set (r := Z.rem n st) in *. rewrite Z.ltb_lt.
    pose proof (Z.rem_bound_abs n st N) as B. fold r in B.
    destruct (Z_lt_le_dec n 0) as [P|P].
    + pose proof (Z.rem_nonpos n st N ltac:(lia)). fold r in H. assert (q <= 0) by nia.
      assert (Z.to_nat q = O) by lia. rewrite H1. split; [lia|]. intros. unfold n in *. nia.
    + pose proof (Z.rem_nonneg n st N P). fold r in H. assert (Q : 0 <= q) by nia. assert (X : (k < Z.to_nat q)%nat <-> Z.of_nat k < q) by lia. rewrite X. unfold n in *. split; intros; nia.
Qed.

Lemma count_unique : forall a b st, st <> 0 -> Z.to_nat (Z.quot ((if st <? 0 then b + 1 else b - 1) - a + st) st) = range_length a b st.
Proof.
  intros a b st N. set (m := Z.to_nat _). set (n := range_length a b st).
  destruct (Nat.lt_trichotomy m n) as [H|[H|H]]; [|exact H|].
  - apply (range_test a b st m N) in H. apply (quot_test a b st m N) in H. fold m in H. lia.
  - apply (quot_test a b st n N) in H. apply (range_test a b st n N) in H. fold n in H. lia.
Qed.

Lemma fold_min : forall l x k, k < fold_left Z.min l x <-> (k < x /\ forall y, In y l -> k < y).
Proof.
  induction l as [|a l IH]; intros x k; cbn [fold_left].
  - split; [intros H; split; [exact H|intros y []]|intros [H _]; exact H].
  - rewrite IH. split.
    + intros [H1 H2]. split; [lia|]. intros y [<-|I]; [lia|apply H2; exact I].
    + intros [H1 H2]. split; [|intros y I; apply H2; right; exact I]. pose proof (H2 a (or_introl eq_refl)). lia.
Qed.
Lemma minimum_lt : forall l k, l <> [] -> (k < minimum l <-> forall y, In y l -> k < y).
Proof.
  intros [|x l] k N; [contradiction|]. cbn [minimum]. rewrite fold_min. split.
  - intros [H1 H2] y [<-|I]; [exact H1|apply H2; exact I].
  - intros H. split; [apply H; left; reflexivity|]. intros y I. apply H. right. exact I.
Qed.
Lemma minimum_ext : forall l l', l <> [] -> l' <> [] -> (forall k, (forall y, In y l -> k < y) <-> (forall y, In y l' -> k < y)) -> minimum l = minimum l'.
Proof.
  intros l l' N N' H. destruct (Z.lt_trichotomy (minimum l) (minimum l')) as [C|[C|C]]; [|exact C|].
  - pose proof (proj2 (minimum_lt l _ N) (proj2 (H _) (proj1 (minimum_lt l' _ N') C))). lia.
  - pose proof (proj2 (minimum_lt l' _ N') (proj1 (H _) (proj1 (minimum_lt l _ N) C))). lia.
Qed.

(* ------------------------------ one iteration ------------------------------ *)

Record inv (it : iter) (e s : state) : Prop := {
  v_len : forall c, In c (containers it) -> len s c = len e c;
  v_bound : forall f, In f (bounds it) -> f s = f e
}.

Lemma nth_error_len : forall s c k, (Z.of_nat k < len s c) <-> exists x, nth_error (seqs s c) k = Some x.
Proof.
  intros s c k. unfold len. split.
  - intros H. destruct (nth_error (seqs s c) k) as [x|] eqn:E; [exists x; reflexivity|]. apply nth_error_None in E. lia.
  - intros (x & E). assert (k < List.length (seqs s c))%nat by (apply nth_error_Some; congruence). lia.
Qed.

Lemma all_some_iff : forall (A : Type) (l : list (option A)), (exists r, all_some l = Some r /\ List.length r = List.length l) <-> (forall o, In o l -> exists x, o = Some x).
Proof.
  intros A. induction l as [|o l IH]; cbn [all_some].
  - split; [intros _ o []|intros _; exists []; split; reflexivity].
  - split.
    + intros (r & E & L) p [<-|I].
      * destruct o as [x|]; [exists x; reflexivity|discriminate].
      * destruct o as [x|]; [|discriminate]. destruct (all_some l) as [r'|] eqn:E'; [|discriminate]. injection E as <-. apply IH; [|exact I]. exists r'. split; [reflexivity|]. cbn in L. lia.
    + intros H. destruct (H o (or_introl eq_refl)) as (x & ->). destruct IH as [_ IH]. destruct IH as (r & -> & L); [intros p I; apply H; right; exact I|].
      exists (x :: r). split; [reflexivity|]. cbn. lia.
Qed.
Lemma all_some_len : forall (A : Type) (l : list (option A)) r, all_some l = Some r -> List.length r = List.length l.
Proof.
  intros A. induction l as [|o l IH]; intros r E; cbn [all_some] in E; [injection E as <-; reflexivity|]. destruct o as [x|]; [|discriminate].
  destruct (all_some l) as [r'|]; [|discriminate]. injection E as <-. cbn. rewrite (IH r'); reflexivity.
Qed.

(* the iterator gives a value exactly in the first iterations *)
Lemma next_some : forall it ts b e k s, steady it ts b e -> inv it e s -> (k < iterations it e)%nat -> exists vs, py_next it e k s = Some vs /\ List.length vs = width it.
Proof.
  intros it ts b e k s St Iv H. destruct it as [lst c|a bb st|c start|cs|f c]; cbn [iterations py_next width] in *.
  - assert (L : Z.of_nat k < len s c) by (rewrite (v_len _ _ _ Iv c (or_introl eq_refl)); unfold len; lia). apply nth_error_len in L. destruct L as (x & ->). eexists. split; reflexivity.
  - apply range_test in H; [|apply (st_step _ _ _ _ St)]. rewrite H. eexists. split; reflexivity.
  - assert (L : Z.of_nat k < len s c) by (rewrite (v_len _ _ _ Iv c (or_introl eq_refl)); unfold len; lia). apply nth_error_len in L. destruct L as (x & ->). eexists. split; reflexivity.
  - assert (N : map (fun p : nat * option Z => len e (fst p)) cs <> []) by (pose proof (st_nonempty _ _ _ _ St cs eq_refl); destruct cs; [contradiction|discriminate]).
    assert (H' : Z.of_nat k < minimum (map (fun p : nat * option Z => len e (fst p)) cs)) by lia. rewrite (minimum_lt _ _ N) in H'.
    assert (X : exists r, all_some (map (fun p : nat * option Z => nth_error (seqs s (fst p)) k) cs) = Some r /\ List.length r = List.length (map (fun p : nat * option Z => nth_error (seqs s (fst p)) k) cs)).
    { apply all_some_iff. intros o I. apply in_map_iff in I. destruct I as (p & <- & I). destruct (proj1 (nth_error_len s (fst p) k)) as (x & E).
      - rewrite (v_len _ _ _ Iv). + apply H'. apply in_map_iff. exists p. split; [reflexivity|exact I]. + apply in_map. exact I.
      - exists x. exact E. }
    destruct X as (r & E & L). rewrite map_length in L. exists r. split; assumption.
  - assert (L : Z.of_nat k < len s c) by (rewrite (v_len _ _ _ Iv c (or_introl eq_refl)); unfold len; lia). apply nth_error_len in L. destruct L as (x & ->). eexists. split; reflexivity.
Qed.

Lemma next_none : forall it ts b e k s, steady it ts b e -> inv it e s -> (iterations it e <= k)%nat -> py_next it e k s = None.
Proof.
  intros it ts b e k s St Iv H. destruct it as [lst c|a bb st|c start|cs|f c]; cbn [iterations py_next] in *.
  - assert (E : nth_error (seqs s c) k = None); [|rewrite E; reflexivity]. apply nth_error_None. pose proof (v_len _ _ _ Iv c (or_introl eq_refl)) as L. unfold len in L. lia.
  - destruct (if st <? 0 then bb e <? a e + Z.of_nat k * st else a e + Z.of_nat k * st <? bb e) eqn:E; [|reflexivity]. apply range_test in E; [lia|apply (st_step _ _ _ _ St)].
  - assert (E : nth_error (seqs s c) k = None); [|rewrite E; reflexivity]. apply nth_error_None. pose proof (v_len _ _ _ Iv c (or_introl eq_refl)) as L. unfold len in L. lia.
  - destruct (all_some (map (fun p : nat * option Z => nth_error (seqs s (fst p)) k) cs)) as [r|] eqn:E; [|reflexivity]. exfalso.
    assert (N : map (fun p : nat * option Z => len e (fst p)) cs <> []) by (pose proof (st_nonempty _ _ _ _ St cs eq_refl); destruct cs; [contradiction|discriminate]).
    assert (X : Z.of_nat k < minimum (map (fun p : nat * option Z => len e (fst p)) cs)); [|lia].
    apply (minimum_lt _ _ N). intros y I. apply in_map_iff in I. destruct I as (p & <- & I).
    pose proof (proj1 (all_some_iff _ (map (fun p : nat * option Z => nth_error (seqs s (fst p)) k) cs))) as Q.
    destruct (Q ltac:(exists r; split; [exact E|apply all_some_len; exact E]) (nth_error (seqs s (fst p)) k)) as (x & Ex); [apply in_map_iff; exists p; split; [reflexivity|exact I]|].
    rewrite <- (v_len _ _ _ Iv (fst p)) by (apply in_map; exact I). apply nth_error_len. exists x. exact Ex.
  - assert (E : nth_error (seqs s c) k = None); [|rewrite E; reflexivity]. apply nth_error_None. pose proof (v_len _ _ _ Iv c (or_introl eq_refl)) as L. unfold len in L. lia.
Qed.

Lemma zip_length_ok : forall cs ts b e s, steady (IZip cs) ts b e -> inv (IZip cs) e s -> zip_length cs s = minimum (map (fun p => len e (fst p)) cs).
Proof.
  intros cs ts b e s St Iv. pose proof (st_nonempty _ _ _ _ St cs eq_refl) as N.
  assert (M : map (fun p : nat * option Z => len s (fst p)) cs = map (fun p => len e (fst p)) cs).
  { apply map_ext_in. intros p I. apply (v_len _ _ _ Iv). apply in_map. exact I. }
  unfold zip_length. destruct (literals cs) as [|n0 l0] eqn:L; [rewrite M; reflexivity|]. rewrite <- L.
  assert (IL : forall n, In n (literals cs) <-> exists c, In (c, Some n) cs).
  { intros n. unfold literals. rewrite in_flat_map. split.
    - intros ((c & o) & I & J). cbn in J. destruct o as [m|]; [|destruct J]. destruct J as [J|[]]. subst m. exists c. exact I.
    - intros (c & I). exists (c, Some n). split; [exact I|left; reflexivity]. }
  apply minimum_ext; [rewrite L; discriminate|destruct cs; [contradiction|discriminate]|]. intros k. split.
  - intros H y I. destruct (st_shortest _ _ _ _ St cs eq_refl) as (c & n & In1 & Mn); [rewrite L; discriminate|]. apply in_map_iff in I. destruct I as (p & <- & I).
    pose proof (Mn (fst p) (in_map fst cs p I)). pose proof (H n (proj2 (IL n) (ex_intro _ c In1))). lia.
  - intros H y I. apply IL in I. destruct I as (c & I). rewrite (st_known _ _ _ _ St cs c y eq_refl I). apply H. apply in_map_iff. exists (c, Some y). split; [reflexivity|exact I].
Qed.

Lemma counter_in : forall it ts x, counter it ts = Some x -> In x ts.
Proof. intros it ts x E. destruct it as [| | ? [?|]| |]; cbn in E; try discriminate; destruct ts as [|y ts]; try discriminate; injection E as ->; left; reflexivity. Qed.

Lemma bound_put : forall it ts b e f v s, steady it ts b e -> In f (bounds it) -> f (put (counter it ts) v s) = f s.
Proof.
  intros it ts b e f v s St I. destruct (counter it ts) as [x|] eqn:C; [|reflexivity]. cbn [put]. apply (st_targets _ _ _ _ St); [exact I|]. apply (counter_in it). exact C.
Qed.

(* the counter in iteration k *)
Definition at_k (it : iter) (e : state) (k : nat) : Z := first it e + Z.of_nat k * step it.

Lemma test_ok : forall it ts b e k s w, steady it ts b e -> inv it e s -> c_test it (at_k it e k) (put (counter it ts) w s) = Nat.ltb k (iterations it e).
Proof.
  intros it ts b e k s w St Iv. unfold c_test, at_k. apply eq_true_iff_eq. rewrite Nat.ltb_lt.
  destruct it as [lst c|a bb st|c start|cs|f c]; cbn [step first stop iterations].
  - change (1 <? 0) with false. cbn iota. rewrite put_len, (v_len _ _ _ Iv c (or_introl eq_refl)), Z.ltb_lt. unfold len. lia.
  - rewrite range_test by (apply (st_step _ _ _ _ St)). rewrite (bound_put (IRange a bb st) ts b e bb w s St) by (right; left; reflexivity). rewrite (v_bound _ _ _ Iv bb) by (right; left; reflexivity).
    destruct (st <? 0); [rewrite Z.gtb_ltb|]; reflexivity.
  - change (1 <? 0) with false. cbn iota. rewrite put_len, (v_len _ _ _ Iv c (or_introl eq_refl)), Z.ltb_lt. unfold len. lia.
  - change (1 <? 0) with false. cbn iota. cbn [counter put]. rewrite (zip_length_ok cs ts b e s St Iv), Z.ltb_lt. lia.
  - change (1 <? 0) with false. cbn iota. rewrite put_len, (v_len _ _ _ Iv c (or_introl eq_refl)), Z.ltb_lt. unfold len. lia.
Qed.

Lemma f_count_ok : forall it ts b e, steady it ts b e -> f_count it e = iterations it e.
Proof.
  intros it ts b e St. assert (Iv : inv it e e) by (split; reflexivity). unfold f_count. destruct it as [lst c|a bb st|c start|cs|f c]; cbn [step first stop iterations].
  - change (1 <? 0) with false. cbn iota. rewrite Z.quot_1_r. unfold len. lia.
  - apply count_unique. apply (st_step _ _ _ _ St).
  - change (1 <? 0) with false. cbn iota. rewrite Z.quot_1_r. unfold len. lia.
  - change (1 <? 0) with false. cbn iota. rewrite Z.quot_1_r, (zip_length_ok cs ts b e e St Iv). f_equal. lia.
  - change (1 <? 0) with false. cbn iota. rewrite Z.quot_1_r. unfold len. lia.
Qed.

Lemma elem_k : forall c k s, elem c (Z.of_nat k) s = nth_error (seqs s c) k.
Proof. intros c k s. unfold elem. destruct (Z.ltb_spec (Z.of_nat k) 0); [lia|]. rewrite Nat2Z.id. reflexivity. Qed.

Lemma zip_assigns : forall k cs ts vs s, List.length ts = List.length cs -> all_some (map (fun p : nat * option Z => nth_error (seqs s (fst p)) k) cs) = Some vs ->
  do_assigns (combine ts (map (fun p : nat * option Z => elem (fst p) (Z.of_nat k)) cs)) s = Some (set_vars ts vs s).
Proof.
  intros k. induction cs as [|p cs IH]; intros [|x ts] vs s L E; try discriminate.
  - injection E as <-. reflexivity.
  - cbn [map all_some] in E. destruct (nth_error (seqs s (fst p)) k) as [v|] eqn:En; [|discriminate]. destruct (all_some (map (fun p0 : nat * option Z => nth_error (seqs s (fst p0)) k) cs)) as [vs'|] eqn:Ea; [|discriminate].
    injection E as <-. cbn [map combine do_assigns set_vars]. rewrite elem_k, En. apply IH; [cbn in L; lia|]. exact Ea.
Qed.

Lemma assigns_ok : forall it ts b e k s vs w, steady it ts b e -> inv it e s -> py_next it e k s = Some vs ->
  do_assigns (assigns it ts (at_k it e k)) (put (counter it ts) (at_k it e k) (put (counter it ts) w s)) = Some (set_vars ts vs s).
Proof.
  intros it ts b e k s vs w St Iv E. rewrite put_put. pose proof (st_width _ _ _ _ St) as W. unfold assigns, at_k. destruct it as [lst c|a bb st|c [start|]|cs|f c]; cbn [py_next width first step counter put assign_targets] in *.
  - destruct ts as [|x [|y ts]]; try discriminate. destruct (nth_error (seqs s c) k) as [v|] eqn:En; [|discriminate]. injection E as <-.
    cbn [List.length skipn Nat.sub combine do_assigns set_vars]. replace (0 + Z.of_nat k * 1) with (Z.of_nat k) by lia. rewrite elem_k, En. reflexivity.
  - destruct ts as [|x [|y ts]]; try discriminate. cbn [List.length skipn Nat.sub combine do_assigns nth_error put]. destruct (if st <? 0 then _ else _); [|discriminate]. injection E as <-. reflexivity.
  - destruct ts as [|i [|x [|y ts]]]; try discriminate. destruct (nth_error (seqs s c) k) as [v|] eqn:En; [|discriminate]. injection E as <-.
    cbn [List.length skipn Nat.sub combine do_assigns set_vars nth_error put]. replace (0 + Z.of_nat k * 1) with (Z.of_nat k) by lia. rewrite elem_k. cbn [set_var seqs]. rewrite En.
    rewrite (v_bound _ _ _ Iv start) by (left; reflexivity). rewrite Z.add_comm. reflexivity.
  - destruct ts as [|i [|x [|y ts]]]; try discriminate. destruct (nth_error (seqs s c) k) as [v|] eqn:En; [|discriminate]. injection E as <-.
    cbn [List.length skipn Nat.sub combine do_assigns set_vars nth_error put]. replace (0 + Z.of_nat k * 1) with (Z.of_nat k) by lia. rewrite elem_k. cbn [set_var seqs]. rewrite En. reflexivity.
  - rewrite map_length. replace (List.length ts - List.length cs)%nat with O by lia. cbn [skipn]. replace (0 + Z.of_nat k * 1) with (Z.of_nat k) by lia. apply zip_assigns; assumption.
  - destruct ts as [|x [|y ts]]; try discriminate. destruct (nth_error (seqs s c) k) as [v|] eqn:En; [|discriminate]. injection E as <-.
    cbn [List.length skipn Nat.sub combine do_assigns set_vars]. replace (0 + Z.of_nat k * 1) with (Z.of_nat k) by lia. rewrite elem_k, En. reflexivity.
Qed.

(* the targets get their values, then the body runs *)
Lemma inv_targets : forall it ts b e vs s, steady it ts b e -> inv it e s -> inv it e (set_vars ts vs s).
Proof.
  intros it ts b e vs s St Iv. split.
  - intros c I. unfold len. rewrite set_vars_seqs. apply (v_len _ _ _ Iv c I).
  - intros f I. rewrite <- (v_bound _ _ _ Iv f I). pose proof (st_targets _ _ _ _ St f) as T. clear - T I.
    assert (X : forall l vs s, incl l ts -> f (set_vars l vs s) = f s); [|apply X; apply incl_refl].
    induction l as [|x l IH]; intros [|v vs'] s' N; try reflexivity. cbn [set_vars]. rewrite IH by (intros y J; apply N; right; exact J). apply T; [exact I|]. apply N. left. reflexivity.
Qed.
Lemma inv_body : forall it ts b e s s', steady it ts b e -> inv it e s -> b s = RNext s' -> inv it e s'.
Proof.
  intros it ts b e s s' St Iv E. split.
  - intros c I. rewrite (st_lengths _ _ _ _ St c s s' I E). apply (v_len _ _ _ Iv c I).
  - intros f I. rewrite (st_bounds _ _ _ _ St f s s' I E). apply (v_bound _ _ _ Iv f I).
Qed.

(* the value of the counter after the targets are set *)
Lemma counter_value : forall it ts b e k s vs x, steady it ts b e -> py_next it e k s = Some vs -> counter it ts = Some x -> vars (set_vars ts vs s) x = at_k it e k.
Proof.
  intros it ts b e k s vs x St E C. pose proof (st_width _ _ _ _ St) as W. pose proof (st_distinct _ _ _ _ St) as D. unfold at_k.
  destruct it as [lst c|a bb st|c [start|]|cs|f c]; cbn [counter width py_next first step] in *; try discriminate.
  - destruct ts as [|y [|z ts]]; try discriminate. injection C as ->. destruct (if st <? 0 then _ else _); [|discriminate]. injection E as <-. cbn [set_vars]. apply get_set.
  - destruct ts as [|i [|y [|z ts]]]; try discriminate. injection C as ->. destruct (nth_error (seqs s c) k) as [v|]; [|discriminate]. injection E as <-. cbn [set_vars].
    rewrite get_other; [rewrite get_set; lia|]. inversion D as [|? ? N _]; subst. intros ->. apply N. left. reflexivity.
Qed.

(* ------------------------------ the loops ------------------------------ *)

Lemma c_loop_ok : forall it ts b e, steady it ts b e -> forall fuel k s w, inv it e s ->
  same_result (counter it ts) (c_loop fuel it ts b (at_k it e k) (put (counter it ts) (at_k it e k) (put (counter it ts) w s))) (py_loop fuel it e ts b k s).
Proof.
  intros it ts b e St. induction fuel as [|f IH]; intros k s w Iv; [exact I|]. cbn [c_loop py_loop]. rewrite put_put, (test_ok it ts b e k s _ St Iv).
  destruct (Nat.ltb_spec k (iterations it e)) as [L|L].
  - destruct (next_some it ts b e k s St Iv L) as (vs & E & Wd). rewrite E. pose proof (assigns_ok it ts b e k s vs w St Iv E) as A. rewrite put_put in A. rewrite A.
    rewrite Wd, (st_width _ _ _ _ St), Nat.eqb_refl. destruct (b (set_vars ts vs s)) as [s2|s2|s2| | |] eqn:B; try exact I; try (apply same_but_refl).
    set (v' := match counter it ts with Some x => vars s2 x | None => at_k it e k end + step it).
    assert (V : v' = at_k it e (S k)).
    { unfold v'. destruct (counter it ts) as [x|] eqn:C; [|unfold at_k; lia]. rewrite (st_counter _ _ _ _ St x _ s2 C B), (counter_value it ts b e k s vs x St E C). unfold at_k. lia. }
    rewrite V. pose proof (IH (S k) s2 0 (inv_body _ _ _ _ _ _ St (inv_targets _ _ _ _ vs s St Iv) B)) as R. rewrite put_put in R. exact R.
  - rewrite (next_none it ts b e k s St Iv L). cbn [same_result]. apply same_but_put.
Qed.

Lemma each_loop_ok : forall c x b e, steady (ISeq true c) [x] b e -> forall fuel k s, inv (ISeq true c) e s ->
  same_result None (each_loop fuel c (len e c) x b k s) (py_loop fuel (ISeq true c) e [x] b k s).
Proof.
  intros c x b e St. induction fuel as [|f IH]; intros k s Iv; [exact I|]. cbn [each_loop py_loop py_next]. rewrite (v_len _ _ _ Iv c (or_introl eq_refl)), Z.eqb_refl.
  destruct (nth_error (seqs s c) k) as [v|]; cbn [option_map]; [|apply same_but_refl]. cbn [List.length Nat.eqb set_vars].
  destruct (b (set_var s x v)) as [s2|s2|s2| | |] eqn:B; try exact I; try (apply same_but_refl). apply IH.
  apply (inv_body _ _ _ _ _ _ St (inv_targets _ _ _ _ [v] s St Iv) B).
Qed.

Lemma f_loop_ok : forall it ts b e, steady it ts b e -> forall n fuel k s, inv it e s -> (k + n = iterations it e)%nat -> (n < fuel)%nat ->
  same_result (counter it ts) (f_loop n it ts b (at_k it e k) s) (py_loop fuel it e ts b k s).
Proof.
  intros it ts b e St. induction n as [|n IH]; intros fuel k s Iv K F; (destruct fuel as [|fuel]; [lia|]); cbn [f_loop py_loop].
  - rewrite (next_none it ts b e k s St Iv) by lia. cbn [same_result]. apply same_but_put.
  - destruct (next_some it ts b e k s St Iv) as (vs & E & Wd); [lia|]. rewrite E. pose proof (assigns_ok it ts b e k s vs 0 St Iv E) as A. rewrite put_put in A. rewrite A.
    rewrite Wd, (st_width _ _ _ _ St), Nat.eqb_refl. destruct (b (set_vars ts vs s)) as [s2|s2|s2| | |] eqn:B; try exact I; try (apply same_but_refl).
    replace (at_k it e k + step it) with (at_k it e (S k)) by (unfold at_k; lia). apply IH; [|lia|lia]. apply (inv_body _ _ _ _ _ _ St (inv_targets _ _ _ _ vs s St Iv) B).
Qed.

Theorem gen_for_ok : forall l fuel it ts b s, steady it ts b s -> (iterations it s < fuel)%nat -> same_result (counter it ts) (gen_for l fuel it ts b s) (py_for fuel it ts b s).
Proof.
  intros l fuel it ts b s St F. assert (Iv : inv it s s) by (split; reflexivity). unfold py_for. destruct l; cbn [gen_for].
  - assert (X : same_result (counter it ts) (c_loop fuel it ts b (first it s) (put (counter it ts) (first it s) s)) (py_loop fuel it s ts b 0 s)).
    { pose proof (c_loop_ok it ts b s St fuel 0 s 0 Iv) as R. rewrite put_put in R. unfold at_k in R. replace (first it s + Z.of_nat 0 * step it) with (first it s) in R by lia. exact R. }
    destruct it as [[|] c|a bb st|c start|cs|f c]; try exact X. destruct ts as [|x [|y ts]]; try (pose proof (st_width _ _ _ _ St); discriminate).
    apply (each_loop_ok c x b s St fuel 0 s Iv).
  - rewrite (f_count_ok it ts b s St). pose proof (f_loop_ok it ts b s St (iterations it s) fuel 0 s Iv) as R. unfold at_k in R.
    replace (first it s + Z.of_nat 0 * step it) with (first it s) in R by lia. apply R; [lia|exact F].
Qed.

(* the loop of Python ends *)
Theorem py_for_ends : forall fuel it ts b s, steady it ts b s -> (iterations it s < fuel)%nat -> (forall s, b s <> RFuel) -> py_for fuel it ts b s <> RFuel.
Proof.
  intros fuel it ts b s St F NB. assert (Iv : inv it s s) by (split; reflexivity). unfold py_for.
  assert (X : forall n fuel k s', inv it s s' -> (iterations it s <= k + n)%nat -> (n < fuel)%nat -> py_loop fuel it s ts b k s' <> RFuel); [|apply (X (iterations it s)); auto].
  induction n as [|n IH]; intros fu k s' Iv' K L; (destruct fu as [|fu]; [lia|]); cbn [py_loop].
  - rewrite (next_none it ts b s k s' St Iv') by lia. discriminate.
  - destruct (py_next it s k s') as [vs|]; [|discriminate]. destruct (Nat.eqb (List.length vs) (List.length ts)); [|discriminate].
    pose proof (NB (set_vars ts vs s')) as N. destruct (b (set_vars ts vs s')) as [s2|s2|s2| | |] eqn:B; try discriminate; [|contradiction].
    apply IH; [|lia|lia]. apply (inv_body _ _ _ _ _ _ St (inv_targets _ _ _ _ vs s' St Iv') B).
Qed.
