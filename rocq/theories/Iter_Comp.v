(* Proofs about products and comprehensions. *)
From Coq Require Import Bool Arith ZArith Lia List FunctionalExtensionality.
From Verif Require Import Iter_Model Iter_Spec Iter_Proofs.
Import ListNotations.
Open Scope Z_scope.
Open Scope list_scope.

(* ------------------------------ what a loop keeps ------------------------------ *)

Lemma do_assigns_keeps : forall (R : state -> state -> Prop) ts, (forall s, R s s) -> (forall a b c, R a b -> R b c -> R a c) -> (forall s x v, In x ts -> R s (set_var s x v)) ->
  forall l s s', (forall p, In p l -> In (fst p) ts) -> do_assigns l s = Some s' -> R s s'.
Proof.
  intros R ts Rr Rt Rs. induction l as [|(x & e) l IH]; intros s s' H E; cbn [do_assigns] in E; [injection E as <-; apply Rr|].
  destruct (e s) as [v|]; [|discriminate]. apply (Rt s (set_var s x v)); [apply Rs; apply (H (x, e)); left; reflexivity|]. apply IH; [|exact E]. intros p I. apply H. right. exact I.
Qed.
Lemma assigns_targets : forall it ts v p, In p (assigns it ts v) -> In (fst p) ts.
Proof.
  intros it ts v [x e] I. unfold assigns in I. apply in_combine_l in I. cbn. revert I. generalize (List.length ts - List.length (assign_targets it v))%nat. intros n I.
  rewrite <- (firstn_skipn n ts). apply in_or_app. right. exact I.
Qed.
Lemma put_keeps : forall (R : state -> state -> Prop) it ts v s, (forall s, R s s) -> (forall s x v, In x ts -> R s (set_var s x v)) -> R s (put (counter it ts) v s).
Proof. intros R it ts v s Rr Rs. destruct (counter it ts) as [x|] eqn:C; [|apply Rr]. cbn [put]. apply Rs. apply (counter_in it). exact C. Qed.

Lemma gen_for_keeps : forall (R : state -> state -> Prop) ts (b : body), (forall s, R s s) -> (forall a b c, R a b -> R b c -> R a c) -> (forall s x v, In x ts -> R s (set_var s x v)) ->
  (forall s s', b s = RNext s' -> R s s') -> (forall s s', b s = RBreak s' -> R s s') ->
  forall l fuel it s s', gen_for l fuel it ts b s = RNext s' -> R s s'.
Proof.
  intros R ts b Rr Rt Rs Rb Rk l fuel it s s'.
  assert (C : forall fu v s0, c_loop fu it ts b v s0 = RNext s' -> R s0 s').
  { induction fu as [|f IH]; intros v s0 E; cbn [c_loop] in E; [discriminate|]. destruct (c_test it v s0); [|injection E as <-; apply Rr].
    destruct (do_assigns (assigns it ts v) s0) as [s1|] eqn:D; [|discriminate]. pose proof (do_assigns_keeps R ts Rr Rt Rs _ _ _ (assigns_targets it ts v) D) as R1.
    destruct (b s1) as [s2|s2|s2| | |] eqn:B; try discriminate.
    - apply (Rt s0 s1); [exact R1|]. apply (Rt s1 s2); [apply Rb; exact B|]. eapply Rt; [|apply (IH _ _ E)]. apply put_keeps; assumption.
    - injection E as <-. apply (Rt s0 s1); [exact R1|]. apply Rk. exact B. }
  assert (X : c_loop fuel it ts b (first it s) (put (counter it ts) (first it s) s) = RNext s' -> R s s').
  { intros E. eapply Rt; [|apply (C _ _ _ E)]. apply put_keeps; assumption. }
  destruct l; cbn [gen_for].
  - destruct it as [[|] c|a bb st|c start|cs|f c]; try exact X. destruct ts as [|x ts']; [exact X|]. clear X C.
    assert (Y : forall fu n k s0, each_loop fu c n x b k s0 = RNext s' -> R s0 s'); [|apply Y].
    induction fu as [|f IH]; intros n k s0 E; cbn [each_loop] in E; [discriminate|]. destruct (len s0 c =? n); [|discriminate]. destruct (nth_error (seqs s0 c) k) as [v|]; [|injection E as <-; apply Rr].
    assert (R1 : R s0 (set_var s0 x v)) by (apply Rs; left; reflexivity).
    destruct (b (set_var s0 x v)) as [s2|s2|s2| | |] eqn:B; try discriminate.
    + apply (Rt s0 (set_var s0 x v)); [exact R1|]. apply (Rt _ s2); [apply Rb; exact B|]. apply (IH _ _ _ E).
    + injection E as <-. apply (Rt s0 (set_var s0 x v)); [exact R1|]. apply Rk. exact B.
  - clear X C. generalize (f_count it s) as n, (first it s) as v. intros n. revert s. induction n as [|n IH]; intros s v E; cbn [f_loop] in E.
    + injection E as <-. apply put_keeps; assumption.
    + destruct (do_assigns (assigns it ts v) (put (counter it ts) v s)) as [s1|] eqn:D; [|discriminate].
      assert (R1 : R s s1). { eapply Rt; [|apply (do_assigns_keeps R ts Rr Rt Rs _ _ _ (assigns_targets it ts v) D)]. apply put_keeps; assumption. }
      destruct (b s1) as [s2|s2|s2| | |] eqn:B; try discriminate.
      * apply (Rt s s1); [exact R1|]. apply (Rt s1 s2); [apply Rb; exact B|]. apply (IH _ _ E).
      * injection E as <-. apply (Rt s s1); [exact R1|]. apply Rk. exact B.
Qed.

Lemma gen_for_no_break : forall ts b l fuel it s s', (forall s s', b s <> RBreak s') -> gen_for l fuel it ts b s <> RBreak s'.
Proof.
  intros ts b l fuel it s s' N.
  assert (C : forall fu v s0, c_loop fu it ts b v s0 <> RBreak s').
  { induction fu as [|f IH]; intros v s0; cbn [c_loop]; [discriminate|]. destruct (c_test it v s0); [|discriminate]. destruct (do_assigns (assigns it ts v) s0) as [s1|]; [|discriminate].
    destruct (b s1) as [s2|s2|s2| | |] eqn:B; try discriminate. apply IH. }
  destruct l; cbn [gen_for].
  - destruct it as [[|] c|a bb st|c start|cs|f c]; try apply C. destruct ts as [|x ts']; [apply C|].
    clear C. assert (Y : forall fu n k s0, each_loop fu c n x b k s0 <> RBreak s'); [|apply Y]. induction fu as [|f IH]; intros n k s0; cbn [each_loop]; [discriminate|]. destruct (len s0 c =? n); [|discriminate].
    destruct (nth_error (seqs s0 c) k) as [v|]; [|discriminate]. destruct (b (set_var s0 x v)) as [s2|s2|s2| | |] eqn:B; try discriminate. apply IH.
  - generalize (f_count it s) as n, (first it s) as v. intros n. revert s. induction n as [|n IH]; intros s v; cbn [f_loop]; [discriminate|].
    destruct (do_assigns (assigns it ts v) (put (counter it ts) v s)) as [s1|]; [|discriminate]. destruct (b s1) as [s2|s2|s2| | |] eqn:B; try discriminate. apply IH.
Qed.

(* ------------------------------ a loop over fixed items ------------------------------ *)

Lemma zip_lists_nth : forall l k, l <> [] -> nth_error (zip_lists l) k = all_some (map (fun d => nth_error d k) l).
Proof.
  induction l as [|d l IH]; intros k N; [contradiction|]. destruct l as [|d' l].
  - cbn [zip_lists map all_some]. clear N IH. revert k. induction d as [|x d IHd]; intros [|k]; try reflexivity. cbn [map nth_error]. rewrite IHd. reflexivity.
  - change (zip_lists (d :: d' :: l)) with (map (fun p : Z * list Z => fst p :: snd p) (combine d (zip_lists (d' :: l)))).
    change (all_some (map (fun d0 => nth_error d0 k) (d :: d' :: l))) with (match nth_error d k with None => None | Some x => match all_some (map (fun d0 => nth_error d0 k) (d' :: l)) with Some r => Some (x :: r) | None => None end end).
    rewrite <- IH by discriminate. generalize (zip_lists (d' :: l)). clear. intros z. revert k z. induction d as [|x d IHd]; intros k z.
    + destruct k; reflexivity.
    + destruct z as [|y z]; [destruct k; cbn; [reflexivity|destruct (nth_error d k); reflexivity]|]. destruct k; cbn; [reflexivity|]. apply IHd.
Qed.

Lemma items_nth : forall it e k s, step it <> 0 -> (forall cs, it = IZip cs -> cs <> []) -> (forall c, seqs s c = seqs e c) -> py_next it e k s = nth_error (py_items it e) k.
Proof.
  intros it e k s N NZ Q. destruct it as [lst c|a b st|c start|cs|f c]; cbn [py_next py_items].
  - rewrite Q. revert k. induction (seqs e c) as [|x d IH]; intros [|k]; try reflexivity. apply IH.
  - set (n := range_length (a e) (b e) st). pose proof (range_test (a e) (b e) st k N) as T. fold n in T.
    destruct (if st <? 0 then b e <? a e + Z.of_nat k * st else a e + Z.of_nat k * st <? b e).
    + assert (L : (k < n)%nat) by (apply T; reflexivity). symmetry. rewrite (map_nth_error (fun k => [a e + Z.of_nat k * st]) k (seq 0 n) (d := k)); [reflexivity|].
      clear - L. rewrite (nth_error_nth' (seq 0 n) O) by (rewrite seq_length; exact L). rewrite seq_nth by exact L. reflexivity.
    + symmetry. apply nth_error_None. rewrite map_length, seq_length. assert (~ (k < n)%nat) by (intros L; apply T in L; discriminate). lia.
  - rewrite Q. set (n := match start with None => 0 | Some st => st e end). clearbody n.
    assert (X : forall d j k, option_map (fun x => [n + Z.of_nat (j + k); x]) (nth_error d k) = nth_error (map (fun p : nat * Z => [n + Z.of_nat (fst p); snd p]) (combine (seq j (List.length d)) d)) k).
    { induction d as [|x d IH]; intros j [|k0]; try reflexivity.
      - cbn. rewrite Nat.add_0_r. reflexivity.
      - cbn [List.length seq combine map nth_error]. rewrite <- (IH (S j) k0). replace (S j + k0)%nat with (j + S k0)%nat by lia. reflexivity. }
    apply (X (seqs e c) O k).
  - rewrite zip_lists_nth.
    + rewrite map_map. f_equal. apply map_ext. intros p. rewrite Q. reflexivity.
    + specialize (NZ cs eq_refl). destruct cs; [contradiction|discriminate].
  - rewrite Q. revert k. induction (seqs e c) as [|x d IH]; intros [|k]; try reflexivity. apply IH.
Qed.

Lemma items_width : forall it e vs, In vs (py_items it e) -> List.length vs = width it.
Proof.
  intros it e vs I. destruct it as [lst c|a b st|c start|cs|f c]; cbn [py_items width] in *.
  - apply in_map_iff in I. destruct I as (x & <- & _). reflexivity.
  - apply in_map_iff in I. destruct I as (x & <- & _). reflexivity.
  - apply in_map_iff in I. destruct I as (x & <- & _). reflexivity.
  - rewrite <- (map_length (fun p : nat * option Z => seqs e (fst p))). revert vs I. induction (map (fun p : nat * option Z => seqs e (fst p)) cs) as [|d l IH]; intros vs I; [destruct I|].
    destruct l as [|d' l].
    + apply in_map_iff in I. destruct I as (x & <- & _). reflexivity.
    + change (zip_lists (d :: d' :: l)) with (map (fun p : Z * list Z => fst p :: snd p) (combine d (zip_lists (d' :: l)))) in I. apply in_map_iff in I. destruct I as ((x & y) & <- & I).
      apply in_combine_r in I. cbn [fst snd List.length]. rewrite (IH y I). reflexivity.
  - apply in_map_iff in I. destruct I as (x & <- & _). reflexivity.
Qed.

Lemma items_length : forall it ts b e, steady it ts b e -> List.length (py_items it e) = iterations it e.
Proof.
  intros it ts b e St. assert (Iv : inv it e e) by (split; reflexivity).
  assert (Q : forall k, py_next it e k e = nth_error (py_items it e) k) by (intros k; apply items_nth; [apply (st_step _ _ _ _ St)|apply (st_nonempty _ _ _ _ St)|reflexivity]).
  apply Nat.le_antisymm.
  - apply Nat.nlt_ge. intros L. pose proof (next_none it ts b e (iterations it e) e St Iv (le_n _)) as E. rewrite Q in E. apply nth_error_None in E. lia.
  - apply Nat.nlt_ge. intros L. destruct (next_some it ts b e _ e St Iv L) as (vs & E & _). rewrite Q in E. assert (nth_error (py_items it e) (List.length (py_items it e)) <> None) by congruence. apply nth_error_Some in H. lia.
Qed.

Lemma skipn_nth : forall (A : Type) (l : list A) k x, nth_error l k = Some x -> skipn k l = x :: skipn (S k) l.
Proof. intros A. induction l as [|y l IH]; intros [|k] x E; try discriminate; [injection E as ->; reflexivity|]. cbn [skipn]. rewrite (IH k x E). reflexivity. Qed.

Lemma py_for_each : forall it ts b e fuel, steady it ts b e -> (iterations it e < fuel)%nat -> (forall s s', b s = RNext s' -> forall c, seqs s' c = seqs s c) ->
  py_for fuel it ts b e = py_each ts (py_items it e) b e.
Proof.
  intros it ts b e fuel St F Kp. unfold py_for. pose proof (items_length it ts b e St) as Ln.
  assert (X : forall n fuel k s, (forall c, seqs s c = seqs e c) -> (k + n = List.length (py_items it e))%nat -> (n < fuel)%nat -> py_loop fuel it e ts b k s = py_each ts (skipn k (py_items it e)) b s).
  { induction n as [|n IH]; intros fu k s Q K L; (destruct fu as [|fu]; [lia|]); cbn [py_loop]; rewrite (items_nth it e k s (st_step _ _ _ _ St) (st_nonempty _ _ _ _ St) Q).
    - assert (E : nth_error (py_items it e) k = None) by (apply nth_error_None; lia). rewrite E. rewrite skipn_all2 by lia. reflexivity.
    - destruct (nth_error (py_items it e) k) as [vs|] eqn:E; [|apply nth_error_None in E; lia]. rewrite (skipn_nth _ _ _ _ E). cbn [py_each].
      rewrite (items_width it e vs (nth_error_In _ _ E)), (st_width _ _ _ _ St), Nat.eqb_refl.
      destruct (b (set_vars ts vs s)) as [s2|s2|s2| | |] eqn:B; try reflexivity. apply IH; [|lia|lia]. intros c. rewrite (Kp _ _ B), set_vars_seqs. apply Q. }
  rewrite (X (List.length (py_items it e)) fuel O e); [reflexivity|reflexivity|lia|lia].
Qed.

(* ------------------------------ product ------------------------------ *)

Lemma same_result_eq : forall r r', same_result None r r' -> r = r'.
Proof.
  intros r r' H. assert (E : forall s s', same_but None s s' -> s = s') by (intros s s' [Q V]; apply state_eq; [intros y; apply V; discriminate|exact Q]).
  destruct r, r'; cbn in H; try contradiction; try reflexivity; f_equal; apply E; exact H.
Qed.

Lemma gen_product_keeps : forall (R : state -> state -> Prop) (b : body) l fuel cs, (forall s, R s s) -> (forall a b c, R a b -> R b c -> R a c) -> (forall s x v, In x (map fst cs) -> R s (set_var s x v)) ->
  (forall s s', b s = RNext s' -> R s s') -> (forall s s', b s <> RBreak s') ->
  (forall s s', gen_product l fuel cs b s = RNext s' -> R s s') /\ (forall s s', gen_product l fuel cs b s <> RBreak s').
Proof.
  intros R b l fuel. induction cs as [|(x & c) cs IH]; intros Rr Rt Rs Rb Nb; [split; assumption|]. destruct IH as [I1 I2]; auto. { intros s y v I. apply Rs. right. exact I. }
  cbn [gen_product]. split.
  - intros s s' E. apply (gen_for_keeps R [x] (gen_product l fuel cs b) Rr Rt) with (4 := E); auto.
    + intros s0 y v [<-|[]]. apply Rs. left. reflexivity.
    + intros s0 s1 E1. elim (I2 _ _ E1).
  - intros s s'. apply gen_for_no_break. exact I2.
Qed.

Lemma py_each_app : forall ts b, (forall s s', b s <> RBreak s') -> forall l1 l2 s, py_each ts (l1 ++ l2) b s = match py_each ts l1 b s with RNext s2 => py_each ts l2 b s2 | r => r end.
Proof.
  intros ts b Nb. induction l1 as [|vs l1 IH]; intros l2 s; [reflexivity|]. cbn [app py_each]. destruct (b (set_vars ts vs s)) as [s2|s2|s2| | |] eqn:B; try reflexivity; [apply IH|elim (Nb _ _ B)].
Qed.

(* the outer target keeps its value *)
Lemma py_each_outer : forall x v ts b, (forall s s', b s = RNext s' -> vars s' x = vars s x) -> ~ In x ts -> forall items s, items <> [] ->
  py_each (x :: ts) (map (cons v) items) b s = py_each ts items b (set_var s x v).
Proof.
  intros x v ts b Kx Nx. assert (X : forall items s, vars s x = v -> py_each (x :: ts) (map (cons v) items) b s = py_each ts items b s).
  { induction items as [|vs items IH]; intros s E; [reflexivity|]. cbn [map py_each set_vars]. replace (set_var s x v) with s by (rewrite <- E; symmetry; apply set_var_id).
    destruct (b (set_vars ts vs s)) as [s2|s2|s2| | |] eqn:B; try reflexivity. apply IH. rewrite (Kx _ _ B), set_vars_other by exact Nx. exact E. }
  intros [|vs items] s N; [contradiction|]. cbn [map py_each set_vars]. destruct (b (set_vars ts vs (set_var s x v))) as [s2|s2|s2| | |] eqn:B; try reflexivity. apply X.
  rewrite (Kx _ _ B), set_vars_other by exact Nx. apply get_set.
Qed.

Lemma tuples_nonempty : forall l, (forall d, In d l -> d <> []) -> tuples l <> [].
Proof.
  induction l as [|d l IH]; intros H; cbn [tuples]; [discriminate|]. assert (N : tuples l <> []) by (apply IH; intros d' I; apply H; right; exact I).
  destruct d as [|v d]; [elim (H [] (or_introl eq_refl)); reflexivity|]. cbn [flat_map]. destruct (tuples l); [contradiction|]. discriminate.
Qed.

Theorem product_ok : forall l fuel cs b s, NoDup (map fst cs) ->
  (forall s s', b s <> RBreak s') ->
  (forall s s' p, In p cs -> b s = RNext s' -> seqs s' (snd p) = seqs s (snd p) /\ vars s' (fst p) = vars s (fst p)) ->
  (forall p, In p cs -> seqs s (snd p) <> [] /\ (List.length (seqs s (snd p)) < fuel)%nat) ->
  gen_product l fuel cs b s = py_product cs b s.
Proof.
  intros l fuel cs b s ND Nb. revert s. induction cs as [|(x & c) cs IH]; intros s Kp Sz.
  - unfold py_product. cbn. destruct (b s) as [s2|s2|s2| | |] eqn:B; try reflexivity. elim (Nb _ _ B).
  - inversion ND as [|? ? Nx ND']; subst. cbn [gen_product]. set (B := gen_product l fuel cs b).
    assert (Kb : forall R : state -> state -> Prop, (forall s, R s s) -> (forall a b c, R a b -> R b c -> R a c) -> (forall s y v, In y (map fst cs) -> R s (set_var s y v)) ->
      (forall s s', b s = RNext s' -> R s s') -> forall s s', B s = RNext s' -> R s s').
    { intros R Rr Rt Rs Rb. apply (gen_product_keeps R b l fuel cs Rr Rt Rs Rb Nb). }
    assert (NB : forall s s', B s <> RBreak s').
    { apply (gen_product_keeps (fun _ _ => True) b l fuel cs); auto. }
    assert (Kc : forall s s', B s = RNext s' -> forall p, In p ((x, c) :: cs) -> seqs s' (snd p) = seqs s (snd p)).
    { intros s1 s2 E p I. apply (Kb (fun a b => seqs b (snd p) = seqs a (snd p))) with (5 := E); try reflexivity; [congruence|]. intros a a' E'. apply (Kp a a' p I E'). }
    assert (Kx : forall s s', B s = RNext s' -> vars s' x = vars s x).
    { intros s1 s2 E. apply (Kb (fun a b => vars b x = vars a x)) with (5 := E); [reflexivity|congruence| |].
      - intros s0 y v I. apply get_other. intros ->. contradiction.
      - intros a a' E'. apply (Kp a a' (x, c) (or_introl eq_refl) E'). }
    (* the outer loop *)
    assert (St : steady (ISeq false c) [x] B s).
    { split; try discriminate.
      - reflexivity.
      - constructor; [intros []|constructor].
      - intros c0 s1 s2 [<-|[]] E. unfold len. pose proof (Kc _ _ E (x, c) (or_introl eq_refl)) as Ec. cbn in Ec. rewrite Ec. reflexivity.
      - intros f s1 s2 [].
      - intros f y v s1 []. }
    pose proof (gen_for_ok l fuel (ISeq false c) [x] B s St) as G. cbn [iterations counter] in G. specialize (G (proj2 (Sz (x, c) (or_introl eq_refl)))). apply same_result_eq in G. rewrite G.
    clear G. unfold py_for.
    (* iterations *)
    assert (Pl : forall fu k s1, (forall p, In p ((x, c) :: cs) -> seqs s1 (snd p) = seqs s (snd p)) -> (List.length (skipn k (seqs s c)) < fu)%nat ->
      py_loop fu (ISeq false c) s [x] B k s1 = py_each (x :: map fst cs) (flat_map (fun v => map (cons v) (tuples (map (fun p => seqs s (snd p)) cs))) (skipn k (seqs s c))) b s1).
    { induction fu as [|fu IHf]; intros k s1 Q L; [lia|]. cbn [py_loop py_next]. pose proof (Q (x, c) (or_introl eq_refl)) as Qc. cbn in Qc. rewrite Qc.
      destruct (nth_error (seqs s c) k) as [v|] eqn:E; cbn [option_map].
      - rewrite (skipn_nth _ _ _ _ E) in *. cbn [flat_map List.length Nat.eqb set_vars] in *.
        rewrite (py_each_app (x :: map fst cs) b Nb). rewrite py_each_outer; [| |exact Nx|].
        + assert (EB : B (set_var s1 x v) = py_each (map fst cs) (tuples (map (fun p => seqs s (snd p)) cs)) b (set_var s1 x v)).
          { unfold B. rewrite (IH ND').
            - unfold py_product. do 2 f_equal. apply map_ext_in. intros p I. cbn. apply Q. right. exact I.
            - intros a a' p I. apply Kp. right. exact I.
            - intros p I. cbn [set_var seqs]. rewrite (Q p (or_intror I)). apply (Sz p (or_intror I)). }
          rewrite <- EB. destruct (B (set_var s1 x v)) as [s2|s2|s2| | |] eqn:E2; try reflexivity; [|elim (NB _ _ E2)].
          apply IHf; [|lia]. intros p I. rewrite (Kc _ _ E2 p I). cbn [set_var seqs]. apply Q. exact I.
        + intros a a' E'. apply (Kp a a' (x, c) (or_introl eq_refl) E').
        + apply tuples_nonempty. intros d I. apply in_map_iff in I. destruct I as (p & <- & I). apply (Sz p (or_intror I)).
      - apply nth_error_None in E. rewrite skipn_all2 by exact E. reflexivity. }
    rewrite (Pl fuel O s); [reflexivity|reflexivity|]. cbn [skipn]. apply (Sz (x, c) (or_introl eq_refl)).
Qed.

(* ------------------------------ reductions ------------------------------ *)

Definition agree (X : list nat) (s s' : state) : Prop := (forall c, seqs s c = seqs s' c) /\ (forall y, ~ In y X -> vars s y = vars s' y).

Lemma agree_refl : forall X s, agree X s s.
Proof. intros X s. split; reflexivity. Qed.
Lemma agree_trans : forall X a b c, agree X a b -> agree X b c -> agree X a c.
Proof. intros X a b c [Q V] [Q' V']. split; [intros d; rewrite Q; apply Q'|]. intros y N. rewrite (V y N). apply V'. exact N. Qed.
Lemma agree_sym : forall X a b, agree X a b -> agree X b a.
Proof. intros X a b [Q V]. split; [intros d; symmetry; apply Q|]. intros y N. symmetry. apply V. exact N. Qed.
Lemma agree_set : forall X s x v, In x X -> agree X s (set_var s x v).
Proof. intros X s x v I. split; [reflexivity|]. intros y N. symmetry. apply get_other. intros ->. contradiction. Qed.
Lemma agree_incl : forall X Y s s', incl X Y -> agree X s s' -> agree Y s s'.
Proof. intros X Y s s' I [Q V]. split; [exact Q|]. intros y N. apply V. intros J. apply N. apply I. exact J. Qed.

Lemma agree_unused : forall (A : Type) (f : state -> A) X s s', (forall x, In x X -> unused x f) -> agree X s s' -> f s = f s'.
Proof.
  intros A f X. induction X as [|x X IH]; intros s s' U [Q V].
  - f_equal. apply state_eq; [intros y; apply V; intros []|exact Q].
  - rewrite <- (U x (or_introl eq_refl) s (vars s' x)). apply IH; [intros y I; apply U; right; exact I|]. split; [exact Q|].
    intros y N. destruct (Nat.eq_dec x y) as [->|D]; [apply get_set|]. rewrite get_other by exact D. apply V. intros [E|E]; contradiction.
Qed.

Lemma set_vars_in : forall ts vs s s' y, List.length ts = List.length vs -> In y ts -> vars (set_vars ts vs s) y = vars (set_vars ts vs s') y.
Proof.
  induction ts as [|x ts IH]; intros [|v vs] s s' y L I; try discriminate; [destruct I|]. cbn [set_vars]. destruct (in_dec Nat.eq_dec y ts) as [J|J]; [apply IH; [cbn in L; lia|exact J]|].
  destruct I as [->|I]; [|contradiction]. rewrite !set_vars_other by exact J. rewrite !get_set. reflexivity.
Qed.
Lemma set_vars_agree : forall ts vs X s s', List.length ts = List.length vs -> agree (ts ++ X) s s' -> agree X (set_vars ts vs s) (set_vars ts vs s').
Proof.
  intros ts vs X s s' L [Q V]. split; [intros c; rewrite !set_vars_seqs; apply Q|]. intros y N. destruct (in_dec Nat.eq_dec y ts) as [J|J]; [apply set_vars_in; assumption|].
  rewrite !set_vars_other by exact J. apply V. intros I. apply in_app_or in I. destruct I; contradiction.
Qed.
Lemma set_vars_frame : forall ts vs s, agree ts s (set_vars ts vs s).
Proof. intros ts vs s. split; [intros c; rewrite set_vars_seqs; reflexivity|]. intros y N. rewrite set_vars_other by exact N. reflexivity. Qed.

Lemma items_agree : forall it X s s', (forall f x, In f (bounds it) -> In x X -> unused x f) -> agree X s s' -> py_items it s = py_items it s'.
Proof.
  intros it X s s' U A. assert (B : forall f, In f (bounds it) -> f s = f s') by (intros f I; apply (agree_unused _ f X); [intros x J; apply U; assumption|exact A]).
  destruct A as [Q V]. destruct it as [lst c|a b st|c [start|]|cs|f c]; cbn [py_items bounds] in *.
  - rewrite Q. reflexivity.
  - rewrite (B a), (B b); [reflexivity|right; left; reflexivity|left; reflexivity].
  - rewrite Q, (B start); [reflexivity|left; reflexivity].
  - rewrite Q. reflexivity.
  - f_equal. apply map_ext. intros p. apply Q.
  - rewrite Q. reflexivity.
Qed.

Lemma values_agree : forall lhs e ls s0 s s', unused lhs e -> tidy lhs ls s0 -> agree (lhs :: flat_map g_targets ls) s s' -> py_values ls e s = py_values ls e s'.
Proof.
  intros lhs e. induction ls as [|g ls IH]; intros s0 s s' Ue T A; cbn [py_values].
  - f_equal. apply (agree_unused _ e [lhs]); [intros x [<-|[]]; exact Ue|exact A].
  - cbn [tidy] in T. destruct T as (W & _ & Ub & Uc & _ & T). cbn [flat_map] in A.
    rewrite (items_agree (g_iter g) (lhs :: g_targets g ++ flat_map g_targets ls) s s' Ub A). rewrite !flat_map_concat_map. f_equal. apply map_ext_in. intros vs I.
    pose proof (items_width _ _ _ I) as Wv.
    assert (A' : agree (lhs :: flat_map g_targets ls) (set_vars (g_targets g) vs s) (set_vars (g_targets g) vs s')).
    { apply set_vars_agree; [congruence|]. apply (agree_incl (lhs :: g_targets g ++ flat_map g_targets ls)); [|exact A]. intros y [<-|J]; [apply in_or_app; right; left; reflexivity|].
      apply in_app_or in J. apply in_or_app. destruct J as [J|J]; [left; exact J|right; right; exact J]. }
    rewrite (agree_unused _ (g_cond g) _ _ _ Uc A'). destruct (g_cond g (set_vars (g_targets g) vs s')); [|reflexivity]. apply (IH s0); assumption.
Qed.

Definition red_body (r : reduction) (lhs : nat) (e : state -> Z) : body := fun s1 => RNext (set_var s1 lhs (combine_value r (vars s1 lhs) (e s1))).

Lemma nest_keeps : forall l fuel r lhs e ls, (forall s s', gen_nest l fuel ls (red_body r lhs e) s = RNext s' -> agree (lhs :: flat_map g_targets ls) s s') /\ (forall s s', gen_nest l fuel ls (red_body r lhs e) s <> RBreak s').
Proof.
  intros l fuel r lhs e. induction ls as [|g ls [I1 I2]]; cbn [gen_nest flat_map].
  - split; [|discriminate]. intros s s' E. injection E as <-. apply agree_set. left. reflexivity.
  - split.
    + intros s s' E.
      assert (N : forall s0 s1, (if g_cond g s0 then gen_nest l fuel ls (red_body r lhs e) s0 else RNext s0) = RBreak s1 -> False).
      { intros s0 s1 E1. destruct (g_cond g s0); [elim (I2 _ _ E1)|discriminate]. }
      apply (gen_for_keeps (agree (lhs :: g_targets g ++ flat_map g_targets ls)) (g_targets g) _ (agree_refl _) (agree_trans _)) with (4 := E).
      * intros s0 x v I. apply agree_set. right. apply in_or_app. left. exact I.
      * intros s0 s1 E1. destruct (g_cond g s0).
        -- apply (agree_incl (lhs :: flat_map g_targets ls)); [|apply I1; exact E1]. intros y [<-|J]; [left; reflexivity|right; apply in_or_app; right; exact J].
        -- injection E1 as <-. apply agree_refl.
      * intros s0 s1 E1. elim (N _ _ E1).
    + intros s s'. apply gen_for_no_break. intros s0 s1 E1. destruct (g_cond g s0); [elim (I2 _ _ E1)|discriminate].
Qed.

Fixpoint enough (fuel : nat) (ls : list gen_loop) (s : state) : Prop :=
  match ls with
  | [] => True
  | g :: ls' => (List.length (py_items (g_iter g) s) < fuel)%nat /\ forall vs, In vs (py_items (g_iter g) s) -> enough fuel ls' (set_vars (g_targets g) vs s)
  end.
Lemma enough_mono : forall n m ls s, (n <= m)%nat -> enough n ls s -> enough m ls s.
Proof. intros n m. induction ls as [|g ls IH]; intros s L E; [exact I|]. destruct E as [E1 E2]. split; [lia|]. intros vs I. apply IH; [exact L|]. apply E2. exact I. Qed.
Lemma enough_exists : forall ls s, exists n, enough n ls s.
Proof.
  induction ls as [|g ls IH]; intros s; [exists O; exact I|].
  assert (X : forall items, exists n, forall vs, In vs items -> enough n ls (set_vars (g_targets g) vs s)).
  { induction items as [|vs items (n & H)]; [exists O; intros vs []|]. destruct (IH (set_vars (g_targets g) vs s)) as (m & E). exists (Nat.max n m).
    intros vs' [<-|I]; [apply (enough_mono m); [lia|exact E]|apply (enough_mono n); [lia|apply H; exact I]]. }
  destruct (X (py_items (g_iter g) s)) as (n & H). exists (S (Nat.max n (List.length (py_items (g_iter g) s)))). split; [lia|]. intros vs I. apply (enough_mono n); [lia|apply H; exact I].
Qed.
Lemma enough_agree : forall lhs n ls s0 s s', tidy lhs ls s0 -> agree (lhs :: flat_map g_targets ls) s s' -> enough n ls s -> enough n ls s'.
Proof.
  intros lhs n. induction ls as [|g ls IH]; intros s0 s s' T A E; [exact I|]. cbn [tidy flat_map] in *. destruct T as (W & _ & Ub & Uc & _ & T). destruct E as [E1 E2].
  pose proof (items_agree (g_iter g) (lhs :: g_targets g ++ flat_map g_targets ls) s s' Ub A) as Ei. cbn [enough]. rewrite <- Ei. split; [exact E1|]. intros vs I. apply (IH s0 (set_vars (g_targets g) vs s)); [exact T| |apply E2; exact I].
  apply set_vars_agree; [rewrite (items_width _ _ _ I); exact W|]. apply (agree_incl (lhs :: g_targets g ++ flat_map g_targets ls)); [|exact A]. intros y [<-|J]; [apply in_or_app; right; left; reflexivity|].
  apply in_app_or in J. apply in_or_app. destruct J as [J|J]; [left; exact J|right; right; exact J].
Qed.

Lemma nest_ok : forall l fuel r lhs e, unused lhs e -> forall ls s0 s, NoDup (lhs :: flat_map g_targets ls) -> tidy lhs ls s0 -> (forall c, seqs s c = seqs s0 c) -> enough fuel ls s ->
  exists s', gen_nest l fuel ls (red_body r lhs e) s = RNext s' /\ vars s' lhs = fold_left (combine_value r) (py_values ls e s) (vars s lhs) /\ agree (lhs :: flat_map g_targets ls) s s'.
Proof.
  intros l fuel r lhs e Ue. induction ls as [|g ls IH]; intros s0 s ND T Q En.
  - cbn. eexists. split; [reflexivity|]. split; [apply get_set|]. apply agree_set. left. reflexivity.
  - cbn [tidy flat_map enough] in *. destruct T as (W & Sp & Ub & Uc & Zk & T). destruct En as [F En].
    set (it := g_iter g) in *. set (ts := g_targets g) in *. set (inner := flat_map g_targets ls) in *.
    assert (NDt : NoDup ts). { inversion ND as [|? ? _ N]; subst. clear - N. induction ts as [|x ts IHt]; [constructor|]. inversion N; subst. constructor; [intros I; apply H1; apply in_or_app; left; exact I|apply IHt; assumption]. }
    assert (Nl : ~ In lhs ts) by (inversion ND; subst; intros I; apply H1; apply in_or_app; left; exact I).
    assert (NDi : NoDup (lhs :: inner)). { inversion ND as [|? ? N1 N2]; subst. constructor; [intros I; apply N1; apply in_or_app; right; exact I|]. clear - N2. induction ts as [|x ts IHt]; [exact N2|]. inversion N2; subst. apply IHt; assumption. }
    assert (Dis : forall x, In x ts -> ~ In x (lhs :: inner)).
    { intros x I [<-|J]; [contradiction|]. inversion ND as [|? ? _ N]; subst. clear - N I J. induction ts as [|y ts IHt]; [destruct I|]. inversion N; subst. destruct I as [->|I]; [apply H1; apply in_or_app; right; exact J|apply IHt; assumption]. }
    set (B := fun s1 => if g_cond g s1 then gen_nest l fuel ls (red_body r lhs e) s1 else RNext s1).
    assert (KB : forall s1 s2, B s1 = RNext s2 -> agree (lhs :: inner) s1 s2).
    { intros s1 s2 E. unfold B in E. destruct (g_cond g s1); [apply (nest_keeps l fuel r lhs e ls); exact E|injection E as <-; apply agree_refl]. }
    assert (St : steady it ts B s).
    { split; auto.
      - intros c s1 s2 _ E. unfold len. destruct (KB _ _ E) as [Q1 _]. rewrite Q1. reflexivity.
      - intros f s1 s2 I E. symmetry. apply (agree_unused _ f (lhs :: inner)); [|apply KB; exact E]. intros x J. apply Ub; [exact I|]. destruct J as [<-|J]; [left; reflexivity|right; apply in_or_app; right; exact J].
      - intros x s1 s2 C E. destruct (KB _ _ E) as [_ V]. symmetry. apply V. apply Dis. apply (counter_in it ts x C).
      - intros f x v s1 I J. apply (Ub f x I). right. apply in_or_app. left. exact J.
      - intros cs c n E I. destruct (Zk cs E) as (_ & H & _). rewrite (H c n I). unfold len. rewrite Q. reflexivity.
      - intros cs E L. destruct (Zk cs E) as (_ & _ & H). destruct (H L) as (c & n & I & M). exists c, n. split; [exact I|]. intros d J. unfold len. rewrite Q. apply (M d J).
      - intros cs E. apply (Zk cs E). }
    pose proof (items_length it ts B s St) as Ln.
    pose proof (gen_for_ok l fuel it ts B s St ltac:(lia)) as G.
    rewrite (py_for_each it ts B s fuel St ltac:(lia)) in G; [|intros s1 s2 E c; destruct (KB _ _ E) as [Q1 _]; symmetry; apply Q1].
    (* over the items *)
    assert (X : forall items s1, (forall vs, In vs items -> In vs (py_items it s)) -> agree (lhs :: ts ++ inner) s s1 ->
      exists s2, py_each ts items B s1 = RNext s2 /\ agree (lhs :: ts ++ inner) s s2 /\
        vars s2 lhs = fold_left (combine_value r) (flat_map (fun vs => if g_cond g (set_vars ts vs s) then py_values ls e (set_vars ts vs s) else []) items) (vars s1 lhs)).
    { induction items as [|vs items IHi]; intros s1 Sub A; [exists s1; repeat split; try apply A; reflexivity|]. cbn [py_each flat_map].
      pose proof (Sub vs (or_introl eq_refl)) as Iv. pose proof (items_width _ _ _ Iv) as Wv.
      assert (A' : agree (lhs :: inner) (set_vars ts vs s) (set_vars ts vs s1)).
      { apply set_vars_agree; [congruence|]. apply (agree_incl (lhs :: ts ++ inner)); [|exact A]. intros y [<-|J]; [apply in_or_app; right; left; reflexivity|].
        apply in_app_or in J. apply in_or_app. destruct J as [J|J]; [left; exact J|right; right; exact J]. }
      assert (Lh : vars (set_vars ts vs s1) lhs = vars s1 lhs) by (apply set_vars_other; exact Nl).
      assert (Y : exists s2, B (set_vars ts vs s1) = RNext s2 /\ agree (lhs :: inner) (set_vars ts vs s1) s2 /\
        vars s2 lhs = fold_left (combine_value r) (if g_cond g (set_vars ts vs s) then py_values ls e (set_vars ts vs s) else []) (vars s1 lhs)).
      { unfold B. rewrite <- (agree_unused _ (g_cond g) _ _ _ Uc A'). destruct (g_cond g (set_vars ts vs s)).
        - destruct (IH s0 (set_vars ts vs s1)) as (s2 & E2 & V2 & A2).
          + exact NDi.
          + exact T.
          + intros c. rewrite set_vars_seqs. destruct A as [A0 _]. rewrite <- A0. apply Q.
          + apply (enough_agree lhs fuel ls s0 (set_vars ts vs s)); [exact T|exact A'|apply En; exact Iv].
          + exists s2. split; [exact E2|]. split; [exact A2|]. rewrite V2, Lh. rewrite (values_agree lhs e ls s0 _ _ Ue T A'). reflexivity.
        - exists (set_vars ts vs s1). split; [reflexivity|]. split; [apply agree_refl|]. cbn. exact Lh. }
      destruct Y as (s2 & -> & A2 & V2). destruct (IHi s2) as (s3 & E3 & A3 & V3).
      - intros vs' I. apply Sub. right. exact I.
      - apply (agree_trans _ s s1); [exact A|]. apply (agree_trans _ s1 (set_vars ts vs s1)).
        + apply (agree_incl ts); [|apply set_vars_frame]. intros y J. right. apply in_or_app. left. exact J.
        + apply (agree_incl (lhs :: inner)); [|exact A2]. intros y [<-|J]; [left; reflexivity|right; apply in_or_app; right; exact J].
      - exists s3. split; [exact E3|]. split; [exact A3|]. rewrite V3, V2, fold_left_app. reflexivity. }
    destruct (X (py_items it s) s (fun _ I => I) (agree_refl _ s)) as (s2 & E2 & A2 & V2). rewrite E2 in G. cbn [gen_nest]. fold it ts B.
    destruct (gen_for l fuel it ts B s) as [s3| | | | |] eqn:Eg; cbn in G; try contradiction. destruct G as [Gq Gv]. exists s3. split; [reflexivity|].
    assert (Cn : forall y, ~ In y ts -> vars s3 y = vars s2 y). { intros y N. apply Gv. intros E. apply N. apply (counter_in it ts y E). }
    split.
    + rewrite (Cn lhs Nl), V2. reflexivity.
    + apply (agree_trans _ s s2); [exact A2|]. split; [intros c; symmetry; apply Gq|]. intros y N. symmetry. apply Cn. intros I. apply N. right. apply in_or_app. left. exact I.
Qed.

Lemma fold_sum : forall l a, fold_left Z.add l a = a + py_sum l.
Proof. induction l as [|x l IH]; intros a; cbn [fold_left py_sum fold_right]; [lia|]. rewrite IH. unfold py_sum. lia. Qed.

Lemma fold_limit : forall (f : Z -> Z -> Z) n l, (forall a b c, f (f a b) c = f a (f b c)) -> l <> [] -> (forall x, In x l -> f n x = x) -> fold_left f l n = match l with [] => n | x :: l' => fold_left f l' x end.
Proof. intros f n [|x l] _ N H; [contradiction|]. cbn [fold_left]. rewrite (H x (or_introl eq_refl)). reflexivity. Qed.

Theorem reduce_ok : forall l r lhs e ls s v, unused lhs e -> NoDup (lhs :: flat_map g_targets ls) -> tidy lhs ls s ->
  (r = RSum \/ Forall (in_range l) (py_values ls e s)) -> py_reduce r (py_values ls e s) = Some v ->
  exists n, forall fuel, (n <= fuel)%nat -> exists s', gen_reduce l fuel r lhs e ls s = RNext s' /\ vars s' lhs = v /\ (forall c, seqs s' c = seqs s c) /\
    (forall y, y <> lhs -> ~ In y (flat_map g_targets ls) -> vars s' y = vars s y).
Proof.
  intros l r lhs e ls s v Ue ND T Rg Py. set (s1 := set_var s lhs (neutral l r)).
  assert (A1 : agree (lhs :: flat_map g_targets ls) s s1) by (apply agree_set; left; reflexivity).
  destruct (enough_exists ls s1) as (n & En). exists n. intros fuel L.
  destruct (nest_ok l fuel r lhs e Ue ls s s1 ND T (fun _ => eq_refl) (enough_mono n fuel ls s1 L En)) as (s2 & E & V & A). exists s2. split; [exact E|].
  rewrite <- (values_agree lhs e ls s s s1 Ue T A1) in V. unfold s1 in V. rewrite get_set in V. split; [|split].
  - rewrite V. destruct r; cbn [combine_value neutral py_reduce] in *.
    + injection Py as <-. apply fold_sum.
    + destruct Rg as [Rg|Rg]; [discriminate|]. destruct (py_values ls e s) as [|x vs] eqn:Ev; [discriminate|]. injection Py as <-. cbn [fold_left]. f_equal. inversion Rg as [|? ? [_ Hx] _]; subst. apply Z.min_r. unfold int_max. lia.
    + destruct Rg as [Rg|Rg]; [discriminate|]. destruct (py_values ls e s) as [|x vs] eqn:Ev; [discriminate|]. injection Py as <-. cbn [fold_left]. f_equal. inversion Rg as [|? ? [Hx _] _]; subst. apply Z.max_r. unfold int_max. destruct l; lia.
  - intros c. destruct A as [Q _]. rewrite <- Q. reflexivity.
  - intros y N1 N2. destruct A as [_ V']. rewrite <- (V' y); [|intros [E'|I]; congruence]. apply get_other. congruence.
Qed.

(* ------------------------------ the number of elements ------------------------------ *)

Lemma upd_eq : forall g x v, upd g x v x = v.
Proof. intros. unfold upd. rewrite Nat.eqb_refl. reflexivity. Qed.
Lemma env_but : forall (g g' : env) x, (forall y, y <> x -> g y = g' y) -> g' = upd g x (g' x).
Proof. intros g g' x H. apply functional_extensionality. intros y. unfold upd. destruct (Nat.eqb y x) eqn:E; [apply Nat.eqb_eq in E; congruence|]. symmetry. apply H. apply Nat.eqb_neq. exact E. Qed.
Lemma bind_but : forall xs vs (g g' : env) x, (forall y, y <> x -> g y = g' y) -> forall y, y <> x -> bind xs vs g y = bind xs vs g' y.
Proof.
  induction xs as [|z xs IH]; intros [|v vs] g g' x H y N; cbn [bind]; try (apply H; exact N). apply (IH vs _ _ x); [|exact N].
  intros w Nw. unfold upd. destruct (Nat.eqb w z); [reflexivity|]. apply H. exact Nw.
Qed.
Lemma free_items : forall x c g g', free_of x c -> (forall y, y <> x -> g y = g' y) -> comp_items c g = comp_items c g'.
Proof.
  intros x c g g' F H. destruct c as [y a b st|y d|i y d st|ys ds]; cbn [comp_items]; try reflexivity. cbn in F. rewrite (env_but g g' x H). destruct (F g (g' x)) as [-> ->]. reflexivity.
Qed.
Lemma count_but : forall x l g g', Forall (free_of x) l -> (forall y, y <> x -> g y = g' y) -> py_count l g = py_count l g'.
Proof.
  intros x. induction l as [|c l IH]; intros g g' F H; [reflexivity|]. inversion F as [|? ? Fc Fl]; subst. cbn [py_count]. rewrite (free_items x c g g' Fc H). f_equal. apply map_ext. intros vs.
  apply IH; [exact Fl|]. apply bind_but. exact H.
Qed.
Lemma nonneg_but : forall x l g g', Forall (free_of x) l -> (forall y, y <> x -> g y = g' y) -> nonnegative l g -> nonnegative l g'.
Proof.
  intros x. induction l as [|c l IH]; intros g g' F H N; [exact I|]. inversion F as [|? ? Fc Fl]; subst. destruct N as [N1 N2]. cbn [nonnegative]. split.
  - destruct c as [y a b st|y d|i y d st|ys ds]; auto. cbn in Fc. rewrite (env_but g g' x H). destruct (Fc g (g' x)) as [-> ->]. exact N1.
  - intros vs I. rewrite <- (free_items x c g g' Fc H) in I. apply (IH (bind (comp_names c) vs g)); [exact Fl| |apply N2; exact I]. apply bind_but. exact H.
Qed.

Lemma sum_to_ext : forall f h n, (forall k, (k < n)%nat -> f (Z.of_nat k) = h (Z.of_nat k)) -> sum_to f n = sum_to h n.
Proof. intros f h. induction n as [|n IH]; intros H; [reflexivity|]. cbn [sum_to]. rewrite IH, H by (try intros; try apply H; lia). reflexivity. Qed.
Lemma sum_to_const : forall n, sum_to (fun _ => 1) n = Z.of_nat n.
Proof. induction n as [|n IH]; [reflexivity|]. cbn [sum_to]. rewrite IH. lia. Qed.
Lemma sum_app : forall l l', fold_right Z.add 0 (l ++ l') = fold_right Z.add 0 l + fold_right Z.add 0 l'.
Proof. induction l as [|x l IH]; intros l'; cbn [app fold_right]; [lia|]. rewrite IH. lia. Qed.
Lemma sum_seq : forall (h : nat -> Z) n, fold_right Z.add 0 (map h (seq 0 n)) = sum_to (fun v => h (Z.to_nat v)) n.
Proof. intros h. induction n as [|n IH]; [reflexivity|]. rewrite seq_S, map_app, sum_app, IH. cbn [sum_to map fold_right]. rewrite Nat2Z.id. cbn. lia. Qed.
Lemma sum_ones : forall (A : Type) (l : list A), fold_right Z.add 0 (map (fun _ => 1) l) = Z.of_nat (List.length l).
Proof. intros A. induction l as [|x l IH]; [reflexivity|]. cbn [map fold_right List.length]. rewrite IH. lia. Qed.
Lemma sum_same : forall (A : Type) (h : A -> Z) c l, (forall x, In x l -> h x = c) -> fold_right Z.add 0 (map h l) = Z.of_nat (List.length l) * c.
Proof. intros A h c. induction l as [|x l IH]; intros H; [reflexivity|]. cbn [map fold_right]. rewrite IH by (intros y I; apply H; right; exact I). rewrite (H x (or_introl eq_refl)). cbn [List.length]. lia. Qed.
Lemma sum_to_same : forall f c n, (forall k, (k < n)%nat -> f (Z.of_nat k) = c) -> sum_to f n = Z.of_nat n * c.
Proof. intros f c. induction n as [|n IH]; intros H; [reflexivity|]. cbn [sum_to]. rewrite IH, H by (try intros; try apply H; lia). lia. Qed.

Lemma size_items : forall c g, match c with CRange _ a b st => 0 < st /\ a g <= b g | _ => True end -> 0 <= comp_size c g /\ List.length (comp_items c g) = Z.to_nat (comp_size c g).
Proof.
  intros c g H. destruct c as [y a b st|y d|i y d st|ys ds]; cbn [comp_size comp_items].
  - destruct H as [H1 H2]. rewrite map_length, seq_length. unfold range_length. assert (C : 0 <= ceil_div (b g - a g) st).
    { unfold ceil_div. pose proof (Z.div_le_upper_bound (- (b g - a g)) st 0 H1 ltac:(lia)). lia. }
    destruct (Z.eqb_spec st 1) as [->|N]; [|split; [exact C|reflexivity]]. unfold ceil_div. rewrite Z.div_1_r. split; [lia|]. f_equal. lia.
  - rewrite map_length. lia.
  - rewrite map_length, combine_length, seq_length. lia.
  - assert (X : 0 <= zip_len ds).
    { unfold zip_len. destruct ds as [|d ds]; [cbn; lia|]. assert (-1 < minimum (map (fun d0 => Z.of_nat (List.length d0)) (d :: ds))); [|lia]. apply minimum_lt; [discriminate|]. intros y I. apply in_map_iff in I. destruct I as (z & <- & _). lia. }
    split; [exact X|]. generalize (Z.to_nat (zip_len ds)). clear. intros n. revert ds. induction n as [|n IH]; intros ds; [reflexivity|]. cbn [zip_rows List.length]. rewrite IH. reflexivity.
Qed.

Lemma orderly_cons : forall c c' l, orderly (c :: c' :: l) -> match c with CRange x a b st => free_of x (CRange x a b st) /\ orderly (c' :: l) | CIter x d => Forall (free_of x) (c' :: l) /\ orderly (c' :: l) | _ => False end.
Proof. intros c c' l O. destruct c; exact O. Qed.

Theorem alloc_ok : forall l g, orderly l -> nonnegative l g -> alloc l g = py_count l g.
Proof.
  intros l g0 O0 N0. unfold alloc.
  assert (X : forall l pre post g, orderly l -> nonnegative l g -> alloc_from (pre ++ flat_map comp_names l ++ post) (List.length pre) l g = py_count l g).
  { clear. induction l as [|c l IH]; intros pre post g O N; [reflexivity|]. destruct N as [N1 N2]. destruct (size_items c g N1) as [Sz Ln].
    destruct l as [|c' l].
    - cbn [alloc_from py_count]. unfold summation. destruct (Z.leb_spec 0 (comp_size c g)) as [_|]; [|lia]. cbn [alloc_from py_count]. rewrite sum_to_const, sum_ones, Ln. lia.
    - apply orderly_cons in O. remember (c' :: l) as tail eqn:Et. clear Et c' l. cbn [alloc_from py_count]. unfold summation. destruct (Z.leb_spec 0 (comp_size c g)) as [_|]; [|lia]. destruct c as [x a b st|x d|i x d st|xs ds]; try contradiction; destruct O as [F O].
      + cbn [flat_map comp_names app]. rewrite app_nth2, Nat.sub_diag by lia. cbn [nth].
        assert (E : alloc_from (pre ++ x :: flat_map comp_names tail ++ post) (S (List.length pre)) tail = alloc_from ((pre ++ [x]) ++ flat_map comp_names tail ++ post) (List.length (pre ++ [x])) tail).
        { rewrite app_length. cbn [List.length]. rewrite Nat.add_1_r, <- app_assoc. reflexivity. }
        rewrite E. cbn [comp_items] in *. rewrite map_map. rewrite map_length, seq_length in Ln. rewrite sum_seq, <- Ln. apply sum_to_ext. intros k Lk. cbn [comp_start comp_step bind comp_names].
        cbn in F. destruct (F g (Z.of_nat k)) as [-> _]. rewrite Nat2Z.id. replace (a g + st * Z.of_nat k) with (a g + Z.of_nat k * st) by lia. apply IH; [exact O|].
        apply (N2 [a g + Z.of_nat k * st]). apply in_map_iff. exists k. split; [reflexivity|]. apply in_seq. lia.
      + cbn [flat_map comp_names app]. rewrite app_nth2, Nat.sub_diag by lia. cbn [nth].
        assert (E : alloc_from (pre ++ x :: flat_map comp_names tail ++ post) (S (List.length pre)) tail = alloc_from ((pre ++ [x]) ++ flat_map comp_names tail ++ post) (List.length (pre ++ [x])) tail).
        { rewrite app_length. cbn [List.length]. rewrite Nat.add_1_r, <- app_assoc. reflexivity. }
        rewrite E. cbn [comp_start comp_step comp_size comp_items] in *. rewrite map_map. cbn [bind comp_names].
        rewrite (sum_same _ _ (py_count tail g)); [|intros y _; apply (count_but x); [exact F|]; intros z Nz; unfold upd; apply Nat.eqb_neq in Nz; rewrite Nz; reflexivity].
        rewrite Nat2Z.id. apply sum_to_same. intros k Lk. rewrite IH; [|exact O|].
        * apply (count_but x); [exact F|]. intros z Nz. unfold upd. apply Nat.eqb_neq in Nz. rewrite Nz. reflexivity.
        * destruct d as [|y d]; [cbn in Lk; lia|]. apply (nonneg_but x _ (bind [x] [y] g)); [exact F| |].
          -- intros z Nz. cbn [bind]. unfold upd. apply Nat.eqb_neq in Nz. rewrite Nz. reflexivity.
          -- apply N2. left. reflexivity. }
  pose proof (X l [] [] g0 O0 N0) as R. rewrite app_nil_r in R. exact R.
Qed.
