From Coq Require Import ZArith List Bool Lia Sorted.
From Verif Require Import Tidx_Model Tidx_Spec.
Import ListNotations.
Open Scope Z_scope.

Lemma expr_ind' (P : expr -> Prop) : (forall z, P (ENum z)) -> (forall x, P (EVar x)) ->
  (forall l, Forall P l -> P (ETup l)) -> (forall e i, P e -> P (EIdx e i)) -> forall e, P e.
Proof.
  intros H1 H2 H3 H4. fix F 1. intros [z|x|l|e i].
  - apply H1.
  - apply H2.
  - apply H3. induction l as [|a l IH]; constructor; [apply F|exact IH].
  - apply H4. apply F.
Qed.

Lemma to_int_number b : to_int b = number b.
Proof. now destruct b. Qed.
Lemma to_int_map o : option_map to_int o = option_map number o.
Proof. destruct o as [[]|]; reflexivity. Qed.

(* ---- one element ---- *)
Lemma host_at_ok {A : Type} (l : list A) i : host_at l i = py_at l i.
Proof.
  unfold host_at, py_at, from_end. cbv zeta. destruct (Z.ltb_spec i 0).
  - replace (i + Z.of_nat (length l)) with (Z.of_nat (length l) + i) by lia.
    destruct (Z.ltb_spec (Z.of_nat (length l) + i) 0), (Z.leb_spec 0 (Z.of_nat (length l) + i)); cbn; try lia; [reflexivity|].
    destruct (Z.leb_spec (Z.of_nat (length l)) (Z.of_nat (length l) + i)); [lia|reflexivity].
  - destruct (Z.ltb_spec i 0), (Z.leb_spec 0 i); cbn; try lia.
    destruct (Z.leb_spec (Z.of_nat (length l)) i); [|reflexivity].
    symmetry. apply nth_error_None. lia.
Qed.

(* ---- slices ---- *)
Section Unique.
Variables (A : Type) (R : A -> A -> Prop).
Hypothesis irr : forall x, ~ R x x.
Hypothesis asym : forall x y, R x y -> ~ R y x.
Lemma sorted_unique : forall l m, StronglySorted R l -> StronglySorted R m -> (forall x, In x l <-> In x m) -> l = m.
Proof.
  induction l as [|a l IH]; intros [|b m] S1 S2 H.
  - reflexivity.
  - destruct (proj2 (H b) (or_introl eq_refl)).
  - destruct (proj1 (H a) (or_introl eq_refl)).
  - inversion S1 as [|? ? S1' F1]; subst. inversion S2 as [|? ? S2' F2]; subst.
    rewrite Forall_forall in F1, F2.
    assert (E : a = b).
    { destruct (proj1 (H a) (or_introl eq_refl)) as [E|I1]; [now symmetry|].
      destruct (proj2 (H b) (or_introl eq_refl)) as [E|I2]; [assumption|].
      exfalso. exact (asym _ _ (F1 _ I2) (F2 _ I1)). }
    subst b. f_equal. apply IH; [assumption|assumption|]. intros x. split; intros I1.
    + destruct (proj1 (H x) (or_intror I1)) as [E|I2]; [|assumption]. subst x. destruct (irr _ (F1 _ I1)).
    + destruct (proj2 (H x) (or_intror I1)) as [E|I2]; [|assumption]. subst x. destruct (irr _ (F2 _ I1)).
Qed.
End Unique.

Fixpoint walk (fuel : nat) (cur stop s : Z) : list nat :=
  match fuel with
  | O => []
  | S f => if if s <? 0 then stop <? cur else cur <? stop then Z.to_nat cur :: walk f (cur + s) stop s else []
  end.

Lemma loop_walk {A : Type} (l : list A) s : forall f cur stop,
  (0 < s -> 0 <= cur /\ stop <= Z.of_nat (length l)) -> (s < 0 -> cur < Z.of_nat (length l) /\ -1 <= stop) -> s <> 0 ->
  host_loop l f cur stop s = elements l (walk f cur stop s).
Proof.
  induction f as [|f IH]; intros cur stop P N S; [reflexivity|]. cbn [host_loop walk].
  destruct (if s <? 0 then stop <? cur else cur <? stop) eqn:C; [|reflexivity]. cbn [elements flat_map].
  destruct (nth_error l (Z.to_nat cur)) as [a|] eqn:E.
  - cbn [app]. f_equal. apply IH; [intros Q; specialize (P Q); lia|intros Q; specialize (N Q); lia|assumption].
  - exfalso. apply nth_error_None in E. destruct (Z.ltb_spec s 0).
    + apply Z.ltb_lt in C. specialize (N H). lia.
    + apply Z.ltb_lt in C. specialize (P ltac:(lia)). lia.
Qed.

Lemma walk_up s stop : 0 < s -> forall f cur p, 0 <= cur -> stop - cur <= Z.of_nat f ->
  (In p (walk f cur stop s) <-> exists k, 0 <= k /\ Z.of_nat p = cur + k * s /\ Z.of_nat p < stop).
Proof.
  intros S. induction f as [|f IH]; intros cur p C F; cbn [walk].
  - split; [intros []|]. intros [k [K1 [K2 K3]]]. nia.
  - destruct (Z.ltb_spec s 0); [lia|]. destruct (Z.ltb_spec cur stop).
    + cbn [In]. rewrite IH by lia. split.
      * intros [E|[k [K1 [K2 K3]]]]; [exists 0; lia|exists (k + 1); lia].
      * intros [k [K1 [K2 K3]]]. destruct (Z.eq_dec k 0); [left; subst; lia|right; exists (k - 1); lia].
    + split; [intros []|]. intros [k [K1 [K2 K3]]]. nia.
Qed.
Lemma walk_down s stop : s < 0 -> -1 <= stop -> forall f cur p, cur - stop <= Z.of_nat f ->
  (In p (walk f cur stop s) <-> exists k, 0 <= k /\ Z.of_nat p = cur + k * s /\ stop < Z.of_nat p).
Proof.
  intros S B. induction f as [|f IH]; intros cur p F; cbn [walk].
  - split; [intros []|]. intros [k [K1 [K2 K3]]]. nia.
  - destruct (Z.ltb_spec s 0); [|lia]. destruct (Z.ltb_spec stop cur).
    + cbn [In]. rewrite IH by lia. split.
      * intros [E|[k [K1 [K2 K3]]]]; [exists 0; lia|exists (k + 1); lia].
      * intros [k [K1 [K2 K3]]]. destruct (Z.eq_dec k 0); [left; subst; lia|right; exists (k - 1); lia].
    + split; [intros []|]. intros [k [K1 [K2 K3]]]. nia.
Qed.
Lemma walk_up_sorted s stop : 0 < s -> forall f cur, 0 <= cur -> stop - cur <= Z.of_nat f ->
  StronglySorted lt (walk f cur stop s).
Proof.
  intros S. induction f as [|f IH]; intros cur C F; cbn [walk]; [constructor|].
  destruct (Z.ltb_spec s 0); [lia|]. destruct (Z.ltb_spec cur stop); constructor.
  - apply IH; lia.
  - apply Forall_forall. intros p I. apply walk_up in I; [|lia|lia|lia]. destruct I as [k [K1 [K2 K3]]]. nia.
Qed.
Lemma walk_down_sorted s stop : s < 0 -> -1 <= stop -> forall f cur, cur - stop <= Z.of_nat f ->
  StronglySorted gt (walk f cur stop s).
Proof.
  intros S B. induction f as [|f IH]; intros cur F; cbn [walk]; [constructor|].
  destruct (Z.ltb_spec s 0); [|lia]. destruct (Z.ltb_spec stop cur); constructor.
  - apply IH; lia.
  - apply Forall_forall. intros p I. apply walk_down in I; [|lia|lia|lia]. destruct I as [k [K1 [K2 K3]]]. nia.
Qed.

Lemma seq_sorted : forall n a, StronglySorted lt (seq a n).
Proof.
  induction n as [|n IH]; intros a; cbn; constructor; [apply IH|]. apply Forall_forall. intros p I. apply in_seq in I. lia.
Qed.
Lemma filter_sorted {A : Type} (R : A -> A -> Prop) f l : StronglySorted R l -> StronglySorted R (filter f l).
Proof.
  induction 1 as [|a l S IH F]; cbn; [constructor|]. destruct (f a); [|assumption]. constructor; [assumption|].
  rewrite Forall_forall in *. intros x I. apply filter_In in I. now apply F.
Qed.
Lemma snoc_sorted {A : Type} (R : A -> A -> Prop) a l : StronglySorted R l -> Forall (fun x => R x a) l -> StronglySorted R (l ++ [a]).
Proof.
  induction 1 as [|b l S IH F]; cbn; intros G; [repeat constructor|]. inversion G; subst. constructor; [now apply IH|].
  rewrite Forall_forall in *. intros x I. apply in_app_iff in I as [I|[<-|[]]]; [now apply F|assumption].
Qed.
Lemma rev_sorted l : StronglySorted lt l -> StronglySorted gt (rev l).
Proof.
  induction 1 as [|a l S IH F]; cbn; [constructor|]. apply snoc_sorted; [assumption|].
  rewrite Forall_forall in *. intros x I. apply in_rev in I. specialize (F x I). lia.
Qed.

Lemma step_iff s d : 0 < s -> (0 <= d /\ d mod s = 0 <-> exists k, 0 <= k /\ d = k * s).
Proof.
  intros S. split.
  - intros [D M]. exists (d / s). split; [now apply Z.div_pos|]. pose proof (Z.div_mod d s ltac:(lia)). lia.
  - intros [k [K ->]]. split; [nia|]. apply Z.mod_mul. lia.
Qed.

Definition start_of (n st : Z) (a : option Z) : Z := match a with Some i => adjust n st i | None => if st <? 0 then n - 1 else 0 end.
Definition stop_of (n st : Z) (b : option Z) : Z := match b with Some i => adjust n st i | None => if st <? 0 then -1 else n end.

Lemma walk_positions n a b s : s <> 0 ->
  walk n (start_of (Z.of_nat n) s a) (stop_of (Z.of_nat n) s b) s = positions n a b s.
Proof.
  intros S. set (N := Z.of_nat n). assert (N0 : 0 <= N) by (unfold N; lia). unfold positions. cbv zeta. fold N.
  destruct (Z.ltb_spec 0 s) as [P|P].
  - assert (B1 : 0 <= start_of N s a <= N).
    { unfold start_of, adjust. destruct a as [i|]; repeat match goal with |- context [?x <? ?y] => destruct (Z.ltb_spec x y)
        | |- context [?x <=? ?y] => destruct (Z.leb_spec x y) end; lia. }
    assert (B2 : 0 <= stop_of N s b <= N).
    { unfold stop_of, adjust. destruct b as [i|]; repeat match goal with |- context [?x <? ?y] => destruct (Z.ltb_spec x y)
        | |- context [?x <=? ?y] => destruct (Z.leb_spec x y) end; lia. }
    apply (sorted_unique nat lt); [intros; lia|intros; lia|apply walk_up_sorted; lia|apply filter_sorted, seq_sorted|].
    intros p. rewrite walk_up by lia. rewrite filter_In, in_seq. unfold selected. destruct (Z.ltb_spec 0 s); [|lia].
    rewrite !andb_true_iff, Z.leb_le, Z.eqb_eq.
    assert (E1 : Z.of_nat p < N -> (start_of N s a <= Z.of_nat p <-> first N s a <= Z.of_nat p) /\
      (start_of N s a <= Z.of_nat p -> start_of N s a = first N s a)).
    { unfold start_of, first, adjust, from_end. destruct (Z.ltb_spec 0 s); [|lia].
      destruct a as [i|]; repeat match goal with |- context [?x <? ?y] => destruct (Z.ltb_spec x y)
        | |- context [?x <=? ?y] => destruct (Z.leb_spec x y) end; lia. }
    assert (E2 : Z.of_nat p < N -> (Z.of_nat p < stop_of N s b <-> match b with Some j => Z.of_nat p <? from_end N j | None => true end = true)).
    { unfold stop_of, adjust, from_end. destruct b as [j|].
      - rewrite Z.ltb_lt. repeat match goal with |- context [?x <? ?y] => destruct (Z.ltb_spec x y)
          | |- context [?x <=? ?y] => destruct (Z.leb_spec x y) end; lia.
      - destruct (Z.ltb_spec s 0); [lia|]. tauto. }
    split.
    + intros [k [K1 [K2 K3]]]. assert (L : Z.of_nat p < N) by lia. destruct (E1 L) as [E3 E4].
      assert (L2 : start_of N s a <= Z.of_nat p) by nia. specialize (E4 L2). split; [unfold N in L; lia|].
      split; [split; [now apply E3|]|now apply E2]. rewrite <- E4.
      apply (step_iff s (Z.of_nat p - start_of N s a) P). exists k. lia.
    + intros [L0 [[F1 F2] F3]]. assert (L : Z.of_nat p < N) by (unfold N; lia). destruct (E1 L) as [E3 E4].
      apply E3 in F1 as F0. specialize (E4 F0). apply E2 in F3; [|assumption].
      destruct (proj1 (step_iff s (Z.of_nat p - first N s a) P) ltac:(split; [lia|assumption])) as [k [K1 K2]].
      exists k. lia.
  - assert (Q : s < 0) by lia.
    assert (B1 : -1 <= start_of N s a <= N - 1).
    { unfold start_of, adjust. destruct a as [i|]; repeat match goal with |- context [?x <? ?y] => destruct (Z.ltb_spec x y)
        | |- context [?x <=? ?y] => destruct (Z.leb_spec x y) end; lia. }
    assert (B2 : -1 <= stop_of N s b <= N - 1).
    { unfold stop_of, adjust. destruct b as [i|]; repeat match goal with |- context [?x <? ?y] => destruct (Z.ltb_spec x y)
        | |- context [?x <=? ?y] => destruct (Z.leb_spec x y) end; lia. }
    apply (sorted_unique nat gt); [intros; lia|intros; lia|apply walk_down_sorted; lia|apply rev_sorted, filter_sorted, seq_sorted|].
    intros p. rewrite walk_down by lia. rewrite <- in_rev, filter_In, in_seq. unfold selected. destruct (Z.ltb_spec 0 s); [lia|].
    rewrite !andb_true_iff, Z.leb_le, Z.eqb_eq.
    assert (E1 : Z.of_nat p < N -> (Z.of_nat p <= start_of N s a <-> Z.of_nat p <= first N s a) /\
      (Z.of_nat p <= start_of N s a -> start_of N s a = first N s a)).
    { unfold start_of, first, adjust, from_end. destruct (Z.ltb_spec 0 s); [lia|].
      destruct a as [i|]; repeat match goal with |- context [?x <? ?y] => destruct (Z.ltb_spec x y)
        | |- context [?x <=? ?y] => destruct (Z.leb_spec x y) end; lia. }
    assert (E2 : Z.of_nat p < N -> (stop_of N s b < Z.of_nat p <-> match b with Some j => from_end N j <? Z.of_nat p | None => true end = true)).
    { unfold stop_of, adjust, from_end. destruct b as [j|].
      - rewrite Z.ltb_lt. repeat match goal with |- context [?x <? ?y] => destruct (Z.ltb_spec x y)
          | |- context [?x <=? ?y] => destruct (Z.leb_spec x y) end; lia.
      - destruct (Z.ltb_spec s 0); [|lia]. intros; split; [reflexivity|lia]. }
    split.
    + intros [k [K1 [K2 K3]]]. assert (L2 : Z.of_nat p <= start_of N s a) by nia. assert (L : Z.of_nat p < N) by lia.
      destruct (E1 L) as [E3 E4]. specialize (E4 L2). split; [unfold N in L; lia|].
      split; [split; [now apply E3|]|now apply E2]. rewrite <- E4.
      apply (step_iff (- s) (start_of N s a - Z.of_nat p) ltac:(lia)). exists k. lia.
    + intros [L0 [[F1 F2] F3]]. assert (L : Z.of_nat p < N) by (unfold N; lia). destruct (E1 L) as [E3 E4].
      apply E3 in F1 as F0. specialize (E4 F0). apply E2 in F3; [|assumption].
      destruct (proj1 (step_iff (- s) (first N s a - Z.of_nat p) ltac:(lia)) ltac:(split; [lia|assumption])) as [k [K1 K2]].
      exists k. lia.
Qed.

Lemma host_slice_ok {A : Type} (l : list A) a b s : host_slice l a b s = py_slice l a b s.
Proof.
  unfold host_slice, py_slice. cbv zeta. set (st := match s with Some s => s | None => 1 end).
  destruct (Z.eqb_spec st 0) as [E|E]; [reflexivity|]. f_equal. rewrite <- walk_positions by assumption.
  change (host_loop l (length l) (start_of (Z.of_nat (length l)) st a) (stop_of (Z.of_nat (length l)) st b) st =
    elements l (walk (length l) (start_of (Z.of_nat (length l)) st a) (stop_of (Z.of_nat (length l)) st b) st)).
  apply loop_walk; [| |assumption]; intros H; unfold start_of, stop_of, adjust; destruct a as [i|], b as [j|];
    repeat match goal with |- context [?x <? ?y] => destruct (Z.ltb_spec x y)
        | |- context [?x <=? ?y] => destruct (Z.leb_spec x y) end; lia.
Qed.

(* ---- values ---- *)
Lemma elements_map {A B : Type} (f : A -> B) l ps : elements (map f l) ps = map f (elements l ps).
Proof.
  unfold elements. induction ps as [|p ps IH]; [reflexivity|]. cbn. rewrite map_app, IH, nth_error_map.
  destruct (nth_error l p); reflexivity.
Qed.
Lemma py_slice_map {A B : Type} (f : A -> B) l a b s : py_slice (map f l) a b s = option_map (map f) (py_slice l a b s).
Proof.
  unfold py_slice. cbv zeta. destruct (_ =? 0); [reflexivity|]. cbn. rewrite map_length, elements_map. reflexivity.
Qed.
Lemma py_at_map {A B : Type} (f : A -> B) l i : py_at (map f l) i = option_map f (py_at l i).
Proof.
  unfold py_at. rewrite map_length. destruct (0 <=? _); [|reflexivity]. apply nth_error_map.
Qed.

Definition agree (r : res) (v : option val) : Prop :=
  match r with Ok o => v = Some (value o) | Rejected => True | Unmodelled => True end.

Lemma tuple_item_ok l i : agree (tuple_item l i) (py_item (Tup (map value l)) i).
Proof.
  destruct i as [b|a b s]; cbn [tuple_item py_item].
  - destruct (literal (Some b)); [|exact I]. rewrite host_at_ok, to_int_number, py_at_map.
    destruct (py_at l (number b)); cbn; [reflexivity|exact I].
  - destruct (_ && _); [|exact I]. rewrite host_slice_ok, !to_int_map, py_slice_map.
    destruct (py_slice l _ _ _); cbn; [reflexivity|exact I].
Qed.
Lemma py_at_nat {A : Type} (l : list A) n : py_at l (Z.of_nat n) = nth_error l n.
Proof.
  unfold py_at, from_end. destruct (Z.ltb_spec (Z.of_nat n) 0); [lia|]. destruct (Z.leb_spec 0 (Z.of_nat n)); [|lia].
  now rewrite Nat2Z.id.
Qed.
Lemma var_item_ok l i : match i with Sl _ _ (Some _) => False | _ => True end ->
  agree (var_item l i) (py_item (Tup (map value l)) i).
Proof.
  destruct i as [b|a b [s|]]; [|intros []|]; intros _; cbn [var_item py_item].
  - destruct b as [n| |]; [|exact I|exact I]. cbn [number]. rewrite py_at_map, py_at_nat.
    destruct (nth_error l n); cbn; [reflexivity|exact I].
  - destruct (_ && _); [|exact I]. rewrite host_slice_ok, !to_int_map, py_slice_map.
    change (option_map number None) with (@None Z).
    destruct (py_slice l _ _ _); cbn; [reflexivity|exact I].
Qed.
Lemma all_ok_value env l : Forall (fun e => no_steps e = true -> agree (visit env e) (python (values env) e)) l ->
  forallb no_steps l = true -> agree (all_ok (map (visit env) l)) (option_map Tup (all_some (map (python (values env)) l))).
Proof.
  induction 1 as [|e l H F IH]; cbn [map all_ok all_some forallb]; intros N; [reflexivity|].
  apply andb_true_iff in N as [N1 N2]. specialize (H N1). specialize (IH N2).
  destruct (visit env e) as [o| |]; [|exact I|exact I]. cbn [agree] in H. rewrite H.
  destruct (all_ok (map (visit env) l)) as [[z|m|m]| |]; try exact I. cbn [agree] in IH |- *.
  destruct (all_some (map (python (values env)) l)) as [vs|]; [|discriminate]. cbn in IH |- *. injection IH as ->. reflexivity.
Qed.
Lemma visit_value env e : no_steps e = true -> agree (visit env e) (python (values env) e).
Proof.
  induction e as [z|x|l F|e i IH] using expr_ind'.
  - reflexivity.
  - intros _. cbn. unfold values. destruct (env x); [reflexivity|exact I].
  - cbn [no_steps visit python]. now apply all_ok_value.
  - intros N. assert (N1 : no_steps e = true /\ match i with Sl _ _ (Some _) => False | _ => True end).
    { cbn in N. destruct i as [b|a b [s|]]; [tauto|discriminate|tauto]. }
    destruct N1 as [N1 N2]. specialize (IH N1). cbn [visit python].
    destruct (visit env e) as [o| |]; [|exact I|exact I]. cbn [agree] in IH. rewrite IH.
    destruct o as [z|m|m]; [exact I|now apply var_item_ok|apply tuple_item_ok].
Qed.

(* acceptance *)
Lemma lit_literal b : lit b = literal b.
Proof. now destruct b as [[]|]. Qed.
Lemma item_some o i : plain i = true -> match i with Sl _ _ (Some _) => False | _ => True end ->
  (py_item (value o) i <> None -> exists o', item o i = Ok o') /\ item o i <> Unmodelled.
Proof.
  intros P N. destruct o as [z|m|m]; cbn [value item].
  - split; [now intros []|discriminate].
  - destruct i as [[n|n|z]|a b [s|]]; try discriminate P; try destruct N; cbn [var_item py_item number].
    + rewrite py_at_map, py_at_nat. destruct (nth_error m n); cbn; split; try discriminate; eauto. now intros [].
    + cbn in P. rewrite (lit_literal a), (lit_literal b), !andb_true_r in P. rewrite P, host_slice_ok. unfold py_slice. cbn.
      split; [eauto|discriminate].
  - destruct i as [[n|n|z]|a b [s|]]; try discriminate P; try destruct N; cbn [tuple_item py_item number literal to_int].
    + rewrite host_at_ok, py_at_map, py_at_nat. destruct (nth_error m n); cbn; split; try discriminate; eauto. now intros [].
    + cbn in P. rewrite (lit_literal a), (lit_literal b), !andb_true_r in P. rewrite andb_true_r, P, host_slice_ok. unfold py_slice. cbn.
      split; [eauto|discriminate].
Qed.
Lemma all_ok_tup : forall l o, all_ok l = Ok o -> exists m, o = OTup m.
Proof.
  induction l as [|[o'| |] l IH]; intros o; cbn; intros E; try discriminate.
  - injection E as <-. eauto.
  - destruct (all_ok l) as [[z|m|m]| |]; try discriminate. injection E as <-. eauto.
Qed.
Lemma visit_accepts env e : no_steps e = true -> plain_indices e = true ->
  (python (values env) e <> None -> exists o, visit env e = Ok o) /\ visit env e <> Unmodelled.
Proof.
  induction e as [z|x|l F|e i IH] using expr_ind'; intros N P.
  - cbn. split; [eauto|discriminate].
  - cbn. unfold values. destruct (env x); cbn; (split; [|discriminate]); [eauto|now intros []].
  - cbn [no_steps plain_indices visit python] in *.
    assert (G : (all_some (map (python (values env)) l) <> None -> exists o, all_ok (map (visit env) l) = Ok o) /\ all_ok (map (visit env) l) <> Unmodelled).
    { induction F as [|e l H F IH]; cbn [map all_ok all_some]; [split; [eauto|discriminate]|].
      cbn [forallb] in N, P. apply andb_true_iff in N as [N1 N2]. apply andb_true_iff in P as [P1 P2].
      destruct (H N1 P1) as [H1 H2]. destruct (IH N2 P2) as [I1 I2].
      destruct (visit env e) as [o| |].
      - destruct (all_ok (map (visit env) l)) as [o'| |] eqn:E.
        + destruct (all_ok_tup _ _ E) as [m ->]. split; [eauto|discriminate].
        + split; [|discriminate]. intros Q. destruct (python (values env) e); [|now destruct Q].
          destruct (all_some (map (python (values env)) l)); [|now destruct Q]. destruct I1 as [o' ?]; [discriminate|discriminate].
        + now destruct I2.
      - split; [|discriminate]. intros Q. destruct (python (values env) e); [|now destruct Q].
        destruct H1 as [o ?]; [discriminate|discriminate].
      - now destruct H2. }
    destruct G as [G1 G2]. split; [|exact G2]. intros Q. apply G1. intros E. rewrite E in Q. now apply Q.
  - cbn [plain_indices] in P. apply andb_true_iff in P as [P1 P2].
    assert (N1 : no_steps e = true /\ match i with Sl _ _ (Some _) => False | _ => True end).
    { cbn in N. destruct i as [b|a b [s|]]; [tauto|discriminate|tauto]. }
    destruct N1 as [N1 N2]. destruct (IH N1 P1) as [H1 H2]. pose proof (visit_value env e N1) as V.
    cbn [visit python]. destruct (visit env e) as [o| |].
    + cbn [agree] in V. rewrite V. apply item_some; assumption.
    + split; [|discriminate]. intros Q. destruct (python (values env) e); [|now destruct Q]. destruct H1 as [o ?]; [discriminate|discriminate].
    + now destruct H2.
Qed.

(* ---- steps ---- *)
Lemma filter_true {A : Type} (f : A -> bool) l : (forall x, In x l -> f x = true) -> filter f l = l.
Proof. induction l as [|a l IH]; cbn; intros H; [reflexivity|]. rewrite (H a) by now left. f_equal. apply IH. auto. Qed.
Lemma positions_all n : positions n None None 1 = seq 0 n.
Proof.
  unfold positions, selected, first. cbn [Z.ltb Z.compare]. apply filter_true. intros p _. rewrite Z.mod_1_r.
  destruct (Z.leb_spec 0 (Z.of_nat p)); [reflexivity|lia].
Qed.
Lemma positions_back n : positions n None None (-1) = rev (seq 0 n).
Proof.
  unfold positions, selected, first. cbn [Z.ltb Z.compare]. f_equal. apply filter_true. intros p I. apply in_seq in I.
  change (- -1) with 1. rewrite Z.mod_1_r.
  destruct (Z.leb_spec (Z.of_nat p) (Z.of_nat n - 1)); [reflexivity|lia].
Qed.
Lemma elements_app {A : Type} (l : list A) p q : elements l (p ++ q) = elements l p ++ elements l q.
Proof. apply flat_map_app. Qed.
Lemma elements_seq {A : Type} : forall (l p : list A), elements (p ++ l) (seq (length p) (length l)) = l.
Proof.
  induction l as [|a l IH]; intros p; [reflexivity|]. cbn [length seq]. unfold elements. cbn [flat_map].
  rewrite nth_error_app2, Nat.sub_diag by lia. cbn. f_equal. specialize (IH (p ++ [a])). rewrite <- app_assoc in IH.
  rewrite app_length, Nat.add_1_r in IH. exact IH.
Qed.
Lemma elements_all {A : Type} (l : list A) : elements l (seq 0 (length l)) = l.
Proof. exact (elements_seq l []). Qed.
Lemma elements_rev {A : Type} (l : list A) ps : elements l (rev ps) = rev (elements l ps).
Proof.
  induction ps as [|p ps IH]; [reflexivity|]. cbn [rev]. rewrite elements_app, IH. cbn.
destruct (nth_error l p); cbn; rewrite ?app_nil_r; reflexivity.
Qed.
Lemma elements_length {A : Type} (l : list A) ps : (forall p, In p ps -> (p < length l)%nat) -> length (elements l ps) = length ps.
Proof.
  induction ps as [|p ps IH]; intros H; [reflexivity|]. unfold elements. cbn [flat_map]. rewrite app_length.
  change (length (match nth_error l p with Some a => [a] | None => [] end) + length (elements l ps) = length (p :: ps))%nat.
  rewrite IH by (intros q I; apply H; now right). specialize (H p (or_introl eq_refl)).
  destruct (nth_error l p) eqn:E; [reflexivity|]. apply nth_error_None in E. lia.
Qed.
Lemma positions_in n a b s p : In p (positions n a b s) -> (p < n)%nat.
Proof.
  unfold positions. cbv zeta. destruct (0 <? s); intros I; [|apply in_rev in I]; apply filter_In in I as [I _]; apply in_seq in I; lia.
Qed.
Lemma filter_lt {A : Type} (f g : A -> bool) l : (forall x, f x = true -> g x = true) -> (exists x, In x l /\ g x = true /\ f x = false) ->
  (length (filter f l) < length (filter g l))%nat.
Proof.
  intros H. assert (L : forall l, (length (filter f l) <= length (filter g l))%nat).
  { induction l0 as [|a m IH]; cbn; [lia|]. specialize (H a). destruct (f a), (g a); cbn; try lia; now discriminate H. }
  induction l as [|a l IH]; intros [x [I [G F]]]; [destruct I|]. cbn. specialize (L l). destruct I as [->|I].
  - rewrite F, G. cbn. lia.
  - specialize (IH ltac:(eauto)). specialize (H a). destruct (f a), (g a); cbn; try lia; now discriminate H.
Qed.
Lemma two_distinct : forall (l : list nat), StronglySorted lt l -> (2 <= length l)%nat -> exists x y, In x l /\ In y l /\ (x < y)%nat.
Proof.
  intros [|x [|y l]] S H; cbn in H; try lia. exists x, y. inversion S as [|? ? S1 F]; subst. inversion F; subst. cbn. tauto.
Qed.
Lemma selected_step n s a b i : 0 < s -> selected n s a b i = true -> selected n 1 a b i = true.
Proof.
  intros S. unfold selected, first. destruct (Z.ltb_spec 0 s); [|lia]. cbn [Z.ltb Z.compare]. rewrite !andb_true_iff, Z.mod_1_r.
  intuition.
Qed.
Lemma step_shorter n a b s : 1 < s -> (2 <= length (positions n a b 1))%nat ->
  (length (positions n a b s) < length (positions n a b 1))%nat.
Proof.
  intros S H. unfold positions in *. cbv zeta in *. change (0 <? 1) with true in *. cbv iota in *.
  destruct (Z.ltb_spec 0 s); [|lia].
  destruct (two_distinct _ (filter_sorted lt _ _ (seq_sorted n 0)) H) as [x [y [X [Y L]]]].
  apply filter_In in X as [X1 X2]. apply filter_In in Y as [Y1 Y2]. apply in_seq in X1. apply in_seq in Y1.
  apply filter_lt; [intros p; apply selected_step; lia|].
  assert (Y3 : selected (Z.of_nat n) 1 a b (Z.of_nat (y - 1)) = true).
  { unfold selected, first in *. cbn [Z.ltb Z.compare] in *. rewrite !andb_true_iff, Z.mod_1_r, Z.leb_le in *.
    destruct X2 as [[X2 _] _]. destruct Y2 as [[_ _] Y2]. split; [split; [|reflexivity]|].
    - destruct a; lia.
    - destruct b as [j|]; [|reflexivity]. apply Z.ltb_lt in Y2. apply Z.ltb_lt. lia. }
  destruct (selected (Z.of_nat n) s a b (Z.of_nat y)) eqn:E1.
  - exists (y - 1)%nat. split; [apply in_seq; lia|]. split; [exact Y3|].
    destruct (selected (Z.of_nat n) s a b (Z.of_nat (y - 1))) eqn:E2; [|reflexivity]. exfalso.
    unfold selected in E1, E2. destruct (Z.ltb_spec 0 s); [|lia]. rewrite !andb_true_iff, !Z.eqb_eq in E1, E2.
    destruct E1 as [[_ M1] _]. destruct E2 as [[_ M2] _].
    apply Z.mod_divide in M1; [|lia]. apply Z.mod_divide in M2; [|lia]. destruct M1 as [k1 M1]. destruct M2 as [k2 M2].
    assert (D : (k1 - k2) * s = 1) by lia. destruct (Z_le_gt_dec (k1 - k2) 0); nia.
  - exists y. split; [apply in_seq; lia|]. split; [exact Y2|exact E1].
Qed.

Lemma var_slice env e l a b s : visit env e = Ok (OVar l) -> lit a = true -> lit b = true ->
  visit env (EIdx e (Sl a b s)) = Ok (OTup (elements l (positions (length l) (option_map number a) (option_map number b) 1))).
Proof.
  intros V A B. cbn [visit]. rewrite V. cbn [item var_item]. rewrite <- (lit_literal a), <- (lit_literal b), A, B. cbn [andb].
  rewrite host_slice_ok, !to_int_map. reflexivity.
Qed.
Lemma step_wrong env e l a b s v : visit env e = Ok (OVar l) -> python (values env) e = Some v -> v = value (OVar l) ->
  lit a = true -> lit b = true -> 1 < number s -> forall r, visit env (EIdx e (Sl a b None)) = Ok (OTup r) -> (2 <= length r)%nat ->
  visit env (EIdx e (Sl a b (Some s))) = Ok (OTup r) /\ 
  exists vs, python (values env) (EIdx e (Sl a b (Some s))) = Some (Tup vs) /\ (length vs < length r)%nat.
Proof.
  intros V P E A B S r R L. rewrite (var_slice env e l a b None V A B) in R. injection R as R. subst r.
  split; [now apply var_slice|]. cbn [python]. rewrite P. subst v. cbn [value py_item option_map]. unfold py_slice. cbv zeta.
  destruct (Z.eqb_spec (number s) 0); [lia|]. eexists. split; [reflexivity|]. rewrite map_length.
  rewrite elements_length in L by (intros p; apply positions_in).
  rewrite !elements_length by (try rewrite map_length; intros p; apply positions_in).
  now apply step_shorter.
Qed.
