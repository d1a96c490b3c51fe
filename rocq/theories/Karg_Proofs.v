From Coq Require Import Bool Arith ZArith List Lia.
From Verif Require Import Karg_Model Karg_Spec.
Import ListNotations.

Lemma positional_app a b : positional (a ++ b) = positional a ++ positional b.
Proof. induction a as [|[[k|] v] a IH]; cbn; [reflexivity|exact IH|now rewrite IH]. Qed.
Lemma keywords_app a b : keywords (a ++ b) = keywords a ++ keywords b.
Proof. induction a as [|[[k|] v] a IH]; cbn; [reflexivity|now rewrite IH|exact IH]. Qed.

Lemma visit_pos pos : positional (map visit_arg (map (fun e => (None, e)) pos)) = map value pos /\
  keywords (map visit_arg (map (fun e => (None, e)) pos)) = [].
Proof. induction pos as [|e pos [IH1 IH2]]; [now split|]. destruct e; cbn; rewrite IH1, IH2; now split. Qed.

Definition vkws (kws : list (nat * expr)) : list (nat * val) := map (fun k => (fst k, value (snd k))) kws.
Lemma visit_kws kws : no_array_keyword kws ->
  positional (map visit_arg (map (fun k => (Some (fst k), snd k)) kws)) = [] /\
  keywords (map visit_arg (map (fun k => (Some (fst k), snd k)) kws)) = vkws kws.
Proof.
  induction kws as [|[n e] kws IH]; intros H; [now split|].
  destruct IH as [IH1 IH2]; [intros k I; apply H; now right|].
  pose proof (H (n, e) (or_introl eq_refl)) as E. destruct e; try discriminate E; cbn; rewrite IH1, IH2; now split.
Qed.

Lemma lookup_find kws n : lookup n (vkws kws) = option_map (fun k => value (snd k)) (find (fun k => Nat.eqb (fst k) n) kws).
Proof. induction kws as [|[m e] kws IH]; cbn; [reflexivity|]. destruct (Nat.eqb m n); [reflexivity|exact IH]. Qed.

Lemma lookup_remove n m kws : n <> m -> lookup n (remove_key m kws) = lookup n kws.
Proof.
  intros N. induction kws as [|[k v] kws IH]; cbn; [reflexivity|].
  destruct (Nat.eqb_spec k m) as [->|D]; cbn.
  - destruct (Nat.eqb_spec m n); [congruence|exact IH].
  - destruct (Nat.eqb k n); [reflexivity|exact IH].
Qed.

Definition getp (kws : list (nat * val)) (p : param) : option val :=
  match lookup (name p) kws with Some v => Some v | None => default p end.

Lemma fill_spec ps : forall kws vs, NoDup (map name ps) -> (forall k, In k kws -> In (fst k) (map name ps)) ->
  Forall2 (fun p v => getp kws p = Some v) ps vs -> fill ps kws = Some (combine (map (fun p => Some (name p)) ps) vs).
Proof.
  induction ps as [|p ps IH]; intros kws vs ND K F.
  - inversion F; subst. cbn. destruct kws as [|k kws]; [reflexivity|]. destruct (K k (or_introl eq_refl)).
  - inversion F as [|? v ? vs' G F']; subst. inversion ND as [|? ? NI ND']; subst. cbn.
    unfold getp in G. rewrite G. rewrite (IH (remove_key (name p) kws) vs'); [reflexivity|exact ND'| |].
    + intros k I. unfold remove_key in I. apply filter_In in I as [I N]. destruct (K k I) as [E|I']; [|exact I'].
      rewrite E, Nat.eqb_refl in N. discriminate N.
    + clear -F' NI. induction F' as [|q w qs ws Q F IH]; constructor.
      * unfold getp in *. rewrite lookup_remove; [exact Q|]. intros E. apply NI. left. exact E.
      * apply IH. intros I. apply NI. now right.
Qed.

Lemma Forall2_nth {A B} (R : A -> B -> Prop) l : forall l', length l = length l' ->
  (forall i a, nth_error l i = Some a -> exists b, nth_error l' i = Some b /\ R a b) -> Forall2 R l l'.
Proof.
  induction l as [|a l IH]; intros [|b l'] L H; try discriminate L; constructor.
  - destruct (H 0 a eq_refl) as (b' & [= <-] & Q). exact Q.
  - apply IH; [now injection L|]. intros i x E. exact (H (S i) x E).
Qed.

Lemma nth_skip {A} n : forall (l : list A) i, nth_error (skipn n l) i = nth_error l (n + i).
Proof. induction n as [|n IH]; intros [|a l] i; cbn; try reflexivity; [now destruct i|apply IH]. Qed.

Lemma list_ext {A} (l : list A) : forall l', (forall i, nth_error l i = nth_error l' i) -> l = l'.
Proof.
  induction l as [|a l IH]; intros [|b l'] H; try reflexivity; try discriminate (H 0).
  pose proof (H 0) as E. injection E as ->. f_equal. apply IH. intros i. exact (H (S i)).
Qed.
Lemma nth_first {A} n : forall (l : list A) i, i < n -> nth_error (firstn n l) i = nth_error l i.
Proof. induction n as [|n IH]; intros [|a l] [|i] H; cbn; try reflexivity; try lia. apply IH. lia. Qed.

Definition expected (ps : list param) (n : nat) (vs : list val) : list (option nat * val) :=
  map (fun v => (None, v)) (firstn n vs) ++ combine (map (fun p => Some (name p)) (skipn n ps)) (skipn n vs).

Lemma binding_first ps pos kws vs : is_binding ps pos kws vs -> firstn (length pos) vs = map value pos.
Proof.
  intros (L & _ & LV & H). apply list_ext. intros i. destruct (Nat.lt_ge_cases i (length pos)) as [I|I].
  - rewrite nth_error_map. assert (i < length ps) as I' by lia. apply nth_error_Some in I'.
    destruct (nth_error ps i) as [p|] eqn:E; [|congruence]. destruct (H i p E) as (v & Hv & Nv).
    rewrite nth_first by exact I. rewrite Nv.
    unfold py_param in Hv. apply nth_error_Some in I. destruct (nth_error pos i) as [e|]; [|congruence].
    destruct (find _ kws); [discriminate Hv|]. now injection Hv as <-.
  - rewrite !(proj2 (nth_error_None _ _)); [reflexivity|rewrite map_length; exact I|rewrite firstn_length; lia].
Qed.

Lemma binding_keys ps pos kws vs : is_binding ps pos kws vs ->
  forall k, In k (vkws kws) -> In (fst k) (map name (skipn (length pos) ps)).
Proof.
  intros (L & K & LV & H) k I. unfold vkws in I. apply in_map_iff in I as (k' & <- & I). cbn.
  pose proof (K k' I) as J. apply in_map_iff in J as (p & Ep & J). apply In_nth_error in J as (i & Ei).
  destruct (Nat.lt_ge_cases i (length pos)) as [Li|Li].
  - exfalso. destruct (H i p Ei) as (v & Hv & _). unfold py_param in Hv. apply nth_error_Some in Li.
    destruct (nth_error pos i) as [e|]; [|congruence].
    destruct (find (fun k0 => Nat.eqb (fst k0) (name p)) kws) eqn:F; [discriminate Hv|].
    pose proof (find_none _ _ F k' I) as N. cbn in N. rewrite Ep, Nat.eqb_refl in N. discriminate N.
  - apply in_map_iff. exists p. split; [exact Ep|]. apply (nth_error_In _ (i - length pos)).
    rewrite nth_skip. replace (length pos + (i - length pos)) with i by lia. exact Ei.
Qed.

Lemma nodup_skip {A} (l : list A) n : NoDup l -> NoDup (skipn n l).
Proof. revert l. induction n as [|n IH]; intros [|a l] H; cbn; auto. inversion H; auto. Qed.

Lemma sorted_ok ps pos kws vs : NoDup (map name ps) -> no_array_keyword kws -> is_binding ps pos kws vs ->
  sorted_call ps (written pos kws) = Some (expected ps (length pos) vs).
Proof.
  intros ND NA B. unfold sorted_call, sort_args, written. rewrite map_app, positional_app, keywords_app.
  destruct (visit_pos pos) as [-> ->]. destruct (visit_kws kws NA) as [-> ->]. rewrite app_nil_r. cbn [app].
  pose proof B as (L & _ & LV & H). rewrite map_length.
  destruct (Nat.ltb_spec (length ps) (length pos)); [lia|].
  rewrite (fill_spec _ _ (skipn (length pos) vs)).
  - unfold expected. now rewrite (binding_first _ _ _ _ B).
  - rewrite <- skipn_map. now apply nodup_skip.
  - now apply binding_keys with (vs := vs).
  - apply Forall2_nth; [rewrite !skipn_length; lia|]. intros i p E. rewrite nth_skip in E.
    destruct (H _ p E) as (v & Hv & Nv). exists v. rewrite nth_skip. split; [exact Nv|].
    unfold getp. rewrite lookup_find. unfold py_param in Hv.
    rewrite (proj2 (nth_error_None pos (length pos + i))) in Hv by lia.
    destruct (find _ kws); exact Hv.
Qed.

Lemma expected_snd ps n vs : length vs = length ps -> map snd (expected ps n vs) = vs.
Proof.
  intros L. unfold expected. rewrite map_app, map_map. cbn. rewrite map_id.
  rewrite <- (firstn_skipn n vs) at 3. f_equal.
  assert (length (map (fun p => Some (name p)) (skipn n ps)) = length (skipn n vs)) as E by (rewrite map_length, !skipn_length; lia).
  revert E. generalize (map (fun p => Some (name p)) (skipn n ps)). induction (skipn n vs) as [|v l IH]; intros [|k ks] E; cbn in *; try discriminate; [reflexivity|].
  f_equal. apply IH. lia.
Qed.

Lemma c_main ps pos kws vs : NoDup (map name ps) -> no_array_keyword kws -> is_binding ps pos kws vs -> none_allowed ps vs ->
  c_call ps (written pos kws) = Some vs.
Proof.
  intros ND NA B NO. unfold c_call. rewrite (sorted_ok _ _ _ _ ND NA B). pose proof B as (_ & _ & LV & _).
  rewrite expected_snd by exact LV.
  assert (forallb (fun q => c_ok (fst q) (snd q)) (combine ps vs) = true) as ->; [|reflexivity].
  apply forallb_forall. intros [p v] I. apply In_nth_error in I as (i & E). cbn.
  assert (nth_error ps i = Some p /\ nth_error vs i = Some v) as [Ep Ev].
  { clear -E. revert ps vs E. induction i as [|i IH]; intros [|a l] [|b l'] E; try discriminate E; [now injection E as <- <-|]. exact (IH l l' E). }
  destruct v; [|reflexivity]. exact (NO i p Ep Ev).
Qed.

(* ------------------------------ Fortran ------------------------------ *)

Lemma f_print_app a b : f_print (a ++ b) = f_print a ++ f_print b.
Proof. unfold f_print. apply flat_map_app. Qed.

Lemma named_out rs : forall ws n, ~ In n (map name rs) -> f_named n (f_print (combine (map (fun p => Some (name p)) rs) ws)) = None.
Proof.
  induction rs as [|r rs IH]; intros [|w ws] n N; cbn; try reflexivity.
  destruct w as [|z]; cbn.
  - apply IH. intros I. apply N. now right.
  - destruct (Nat.eqb_spec (name r) n) as [E|_]; [exfalso; apply N; now left|]. apply IH. intros I. apply N. now right.
Qed.

Lemma named_in rs : forall ws i p v, NoDup (map name rs) -> nth_error rs i = Some p -> nth_error ws i = Some v ->
  f_named (name p) (f_print (combine (map (fun p => Some (name p)) rs) ws)) = match v with VVal z => Some z | VNone => None end.
Proof.
  induction rs as [|r rs IH]; intros [|w ws] [|i] p v ND Ep Ev; try discriminate Ep; try discriminate Ev.
  - injection Ep as ->. injection Ev as ->. inversion ND; subst. cbn. destruct v as [|z]; cbn.
    + now apply named_out.
    + now rewrite Nat.eqb_refl.
  - inversion ND as [|? ? NI ND']; subst. cbn. cbn in Ep, Ev. specialize (IH ws i p v ND' Ep Ev). destruct w as [|z]; cbn; [exact IH|].
    destruct (Nat.eqb_spec (name r) (name p)) as [E|_]; [|exact IH]. exfalso. apply NI. rewrite E.
    apply in_map. eapply nth_error_In. exact Ep.
Qed.

Lemma f_keywords_ok l ps vs :
  Forall2 (fun p v => match f_named (name p) l with Some z => v = VVal z | None => v = VNone /\ optional p = true end) ps vs ->
  f_keywords ps l = Some vs.
Proof.
  induction 1 as [|p v ps vs H F IH]; cbn; [reflexivity|]. rewrite IH.
  destruct (f_named (name p) l); [now subst v|]. destruct H as [-> ->]. reflexivity.
Qed.

Lemma bind_pos zs : forall ps l, length zs <= length ps ->
  f_bind ps (map (fun z => (None, z)) zs ++ l) = option_map (app (map VVal zs)) (f_bind (skipn (length zs) ps) l).
Proof.
  induction zs as [|z zs IH]; intros ps l L; cbn [map app length skipn].
  - now destruct (f_bind ps l).
  - destruct ps as [|p ps]; cbn in L; [lia|]. cbn [f_bind skipn]. rewrite IH by lia. now destruct (f_bind _ l).
Qed.

Lemma bind_kw ps l : (forall a, In a l -> exists n, fst a = Some n /\ In n (map name ps)) -> f_bind ps l = f_keywords ps l.
Proof.
  intros H.
  assert (existsb is_pos l = false) as E1.
  { destruct (existsb is_pos l) eqn:E; [|reflexivity]. apply existsb_exists in E as (a & I & E). destruct (H a I) as (n & F & _).
    unfold is_pos in E. now rewrite F in E. }
  assert (forallb (fun a => match fst a with Some n => existsb (fun p => Nat.eqb (name p) n) ps | None => false end) l = true) as E2.
  { apply forallb_forall. intros a I. destruct (H a I) as (n & -> & J). apply in_map_iff in J as (p & <- & J).
    apply existsb_exists. exists p. split; [exact J|apply Nat.eqb_refl]. }
  destruct l as [|[[n|] z] l]; [destruct ps; reflexivity| |discriminate E1].
  destruct ps as [|p ps]; cbn [f_bind]; rewrite E1, E2; reflexivity.
Qed.

Lemma skipn_add {A} a b : forall (l : list A), skipn (a + b) l = skipn b (skipn a l).
Proof. induction a as [|a IH]; intros [|x l]; cbn; try reflexivity; [now rewrite !skipn_nil|apply IH]. Qed.

Lemma f_main ps pos kws vs : NoDup (map name ps) -> no_array_keyword kws -> none_last pos -> is_binding ps pos kws vs ->
  none_allowed ps vs -> f_call ps (written pos kws) = Some vs.
Proof.
  intros ND NA (a & b & EP & NN) B NO. unfold f_call. rewrite (sorted_ok _ _ _ _ ND NA B). unfold expected.
  pose proof B as (L & _ & LV & _). rewrite f_print_app.
  assert (exists zs, f_print (map (fun v => (None, v)) (firstn (length pos) vs)) = map (fun z => (None, z)) zs /\
    length zs = length a /\ map value a = map VVal zs) as (zs & -> & LZ & VA).
  { rewrite (binding_first _ _ _ _ B), EP, !map_app, f_print_app. clear -NN.
    assert (f_print (map (fun v => (None, v)) (map value (repeat ENone b))) = []) as -> by (induction b; [reflexivity|exact IHb]).
    rewrite app_nil_r. induction a as [|e a IH]; [exists []; now repeat split|].
    destruct IH as (zs & E & Lz & V); [intros x I; apply NN; now right|].
    pose proof (NN e (or_introl eq_refl)) as N. destruct e as [|z|z]; [discriminate N| |];
      (exists (z :: zs); cbn; unfold f_print in E; rewrite E, Lz, V; now repeat split). }
  assert (length pos = length a + b) as LP by (rewrite EP, app_length, repeat_length; reflexivity).
  rewrite bind_pos by lia. rewrite LZ.
  set (K := f_print _).
  assert (forall x, In x K -> exists n, fst x = Some n /\ In n (map name (skipn (length a) ps))) as HK.
  { intros x I. unfold K, f_print in I. apply in_flat_map in I as ([k v] & I & J).
    apply in_combine_l in I. apply in_map_iff in I as (p & Ep & I). destruct v as [|z]; [destruct J|]. destruct J as [<-|[]].
    cbn. exists (name p). split; [now symmetry|]. apply in_map. rewrite LP, skipn_add in I. eapply (proj1 (in_app_iff _ _ _) (or_intror I)) || (rewrite <- (firstn_skipn b); apply in_or_app; now right). }
  rewrite bind_kw by exact HK.
  rewrite (f_keywords_ok K _ (skipn (length a) vs)).
  - cbn. f_equal. rewrite <- VA. rewrite <- (firstn_skipn (length a) vs) at 2. f_equal.
    pose proof (binding_first _ _ _ _ B) as F. rewrite EP, map_app in F.
    apply (f_equal (firstn (length a))) in F. rewrite firstn_firstn in F.
    rewrite <- EP in F. replace (Nat.min (length a) (length pos)) with (length a) in F by lia. rewrite F.
    rewrite firstn_app, map_length, Nat.sub_diag. cbn. rewrite app_nil_r.
    rewrite <- (map_length value a). now rewrite firstn_all.
  - apply Forall2_nth; [rewrite !skipn_length; lia|]. intros i p E. rewrite nth_skip in E.
    assert (length a + i < length vs) as I by (rewrite LV; apply nth_error_Some; congruence).
    apply nth_error_Some in I. destruct (nth_error vs (length a + i)) as [v|] eqn:Ev; [|congruence].
    exists v. rewrite nth_skip. split; [exact Ev|].
    assert (v = VNone -> optional p = true) as O by (intros ->; exact (NO _ p E Ev)).
    destruct (Nat.lt_ge_cases i b) as [Ib|Ib].
    + unfold K. rewrite named_out.
      * assert (v = VNone) as ->; [|split; [reflexivity|now apply O]].
        pose proof (binding_first _ _ _ _ B) as F. apply (f_equal (fun l => nth_error l (length a + i))) in F.
        rewrite nth_first in F by lia. rewrite Ev, nth_error_map, EP, nth_error_app2 in F by lia.
        replace (length a + i - length a) with i in F by lia. rewrite nth_error_repeat in F by exact Ib. now injection F as ->.
      * intros J. rewrite <- skipn_map in J. rewrite LP in J. apply In_nth_error in J as (j & J). rewrite nth_skip in J.
        assert (nth_error (map name ps) (length a + i) = Some (name p)) as E' by (rewrite nth_error_map, E; reflexivity).
        assert (length a + i = length a + b + j); [|lia].
        eapply NoDup_nth_error; [exact ND|apply nth_error_Some; congruence|congruence].
    + unfold K. rewrite (named_in _ _ (i - b) p v).
      * destruct v; [split; [reflexivity|now apply O]|reflexivity].
      * rewrite <- skipn_map. now apply nodup_skip.
      * rewrite nth_skip, LP. now replace (length a + b + (i - b)) with (length a + i) by lia.
      * rewrite nth_skip, LP. now replace (length a + b + (i - b)) with (length a + i) by lia.
Qed.

(* ------------------------------ what goes wrong ------------------------------ *)

Lemma keyword_lost ps pos kws q z kws' : no_array_keyword kws ->
  sorted_call ps (written pos (kws ++ (q, EArray z) :: kws')) = sorted_call ps (written (pos ++ [EArray z]) (kws ++ kws')).
Proof.
  intros NA. unfold sorted_call, sort_args, written. rewrite !map_app, !positional_app, !keywords_app. cbn [map].
  destruct (visit_kws kws NA) as [E1 E2]. rewrite E1, E2. cbn [visit_arg fst snd positional keywords app].
  destruct (visit_pos pos) as [P1 P2]. rewrite P2. cbn [app].
  rewrite <- !app_assoc. cbn [app]. reflexivity.
Qed.

Lemma pos_call ps pos : length pos <= length ps -> (forall p, In p ps -> optional p = true) ->
  sorted_call ps (written pos []) = Some (map (fun v => (None, v)) (map value pos) ++
    combine (map (fun p => Some (name p)) (skipn (length pos) ps)) (repeat VNone (length ps - length pos))).
Proof.
  intros L O. unfold sorted_call, sort_args, written. cbn [map]. rewrite app_nil_r. destruct (visit_pos pos) as [-> ->].
  rewrite map_length. destruct (Nat.ltb_spec (length ps) (length pos)); [lia|].
  rewrite <- skipn_length.
  assert (forall p, In p (skipn (length pos) ps) -> optional p = true) as O'.
  { intros p I. apply O. rewrite <- (firstn_skipn (length pos)). apply in_or_app. now right. }
  revert O'. generalize (skipn (length pos) ps) as qs. intros qs O'.
  assert (fill qs [] = Some (combine (map (fun p => Some (name p)) qs) (repeat VNone (length qs)))) as ->; [|reflexivity].
  induction qs as [|q qs IH]; [reflexivity|]. cbn. rewrite IH by (intros p I; apply O'; now right).
  pose proof (O' q (or_introl eq_refl)) as Q. unfold optional in Q. destruct (default q) as [[|]|]; try discriminate Q. reflexivity.
Qed.

Lemma none_combine (ks : list (option nat)) n : f_print (combine ks (repeat VNone n)) = [].
Proof. revert n. induction ks as [|k ks IH]; intros [|n]; try reflexivity. cbn. apply IH. Qed.


Lemma present_len pos : length (present pos) <= length pos.
Proof. induction pos as [|e pos IH]; cbn; [lia|]. destruct (negb (is_none e)); cbn; unfold present in *; lia. Qed.

Lemma none_shift ps pos : length pos <= length ps -> (forall p, In p ps -> optional p = true) ->
  f_call ps (written pos []) = Some (map value (present pos) ++ repeat VNone (length ps - length (present pos))).
Proof.
  intros L O. unfold f_call. rewrite (pos_call ps pos L O), f_print_app, none_combine, app_nil_r.
  assert (exists zs, f_print (map (fun v => (None, v)) (map value pos)) = map (fun z => (None, z)) zs /\ map value (present pos) = map VVal zs) as (zs & -> & E).
  { clear. induction pos as [|e pos (zs & E1 & E2)]; [now exists []|].
    destruct e as [|z|z]; [exists zs; now split| |]; (exists (z :: zs); cbn; unfold f_print in E1; rewrite E1; unfold present in E2; cbn; rewrite E2; now split). }
  assert (length zs = length (present pos)) as LZ by (apply (f_equal (@length val)) in E; now rewrite !map_length in E).
  pose proof (present_len pos). rewrite <- (app_nil_r (map _ zs)). rewrite bind_pos by lia. rewrite E, LZ.
  assert (forall p, In p (skipn (length (present pos)) ps) -> optional p = true) as O'.
  { intros p I. apply O. rewrite <- (firstn_skipn (length (present pos))). apply in_or_app. now right. }
  rewrite bind_kw by (intros a []). rewrite (f_keywords_ok [] _ (repeat VNone (length ps - length (present pos)))); [reflexivity|].
  apply Forall2_nth; [now rewrite repeat_length, skipn_length|]. intros i p Ei. exists VNone. cbn.
  split; [|split; [reflexivity|apply O'; eapply nth_error_In; exact Ei]].
  apply nth_error_repeat. rewrite <- skipn_length. apply nth_error_Some. congruence.
Qed.

Lemma py_positional ps pos : length pos <= length ps -> (forall p, In p ps -> optional p = true) ->
  is_binding ps pos [] (map value pos ++ repeat VNone (length ps - length pos)).
Proof.
  intros L O. split; [exact L|]. split; [intros k []|]. split; [rewrite app_length, map_length, repeat_length; lia|].
  intros i p E. unfold py_param. cbn. assert (i < length ps) as Li by (apply nth_error_Some; congruence).
  destruct (nth_error pos i) as [e|] eqn:Ee.
  - exists (value e). split; [reflexivity|]. rewrite nth_error_app1; [now rewrite nth_error_map, Ee|]. rewrite map_length. apply nth_error_Some. congruence.
  - apply nth_error_None in Ee. exists VNone. split.
    + pose proof (O p (nth_error_In _ _ E)) as Q. unfold optional in Q. destruct (default p) as [[|]|]; try discriminate Q. reflexivity.
    + rewrite nth_error_app2 by (rewrite map_length; lia). rewrite map_length. apply nth_error_repeat. lia.
Qed.

Lemma shift_wrong (ps : list param) pos : length pos <= length ps -> ~ none_last pos ->
  map value (present pos) ++ repeat VNone (length ps - length (present pos)) <> map value pos ++ repeat VNone (length ps - length pos).
Proof.
  intros L N E. apply N. exists (firstn (length (present pos)) pos), (length pos - length (present pos)).
  pose proof (present_len pos) as P.
  apply (f_equal (firstn (length pos))) in E.
  rewrite (firstn_app (length pos) (map value pos)), map_length, Nat.sub_diag in E. cbn [firstn] in E.
  rewrite app_nil_r in E. rewrite (firstn_all2 (map value pos)) in E by (rewrite map_length; lia).
  rewrite firstn_app, map_length in E.
  rewrite (firstn_all2 (map value (present pos))) in E by (rewrite map_length; exact P).
  assert (forall e, In e (firstn (length (present pos)) pos) -> is_none e = false) as A.
  { intros e I. apply In_nth_error in I as (i & Ei).
    assert (i < length (present pos)) as Li.
    { assert (i < length (firstn (length (present pos)) pos)) by (apply nth_error_Some; congruence). rewrite firstn_length in H. lia. }
    rewrite nth_first in Ei by exact Li. apply (f_equal (fun l => nth_error l i)) in E.
    rewrite nth_error_app1 in E by (rewrite map_length; exact Li). rewrite !nth_error_map, Ei in E.
    destruct (nth_error (present pos) i) as [e'|] eqn:E'; [|discriminate E]. cbn in E. injection E as E.
    apply nth_error_In in E'. unfold present in E'. apply filter_In in E' as [_ E']. destruct e', e; cbn in *; congruence. }
  split; [|exact A].
  rewrite <- (firstn_skipn (length (present pos)) pos) at 1. f_equal.
  apply list_ext. intros i. rewrite nth_skip. destruct (Nat.lt_ge_cases i (length pos - length (present pos))) as [Li|Li].
  - rewrite nth_error_repeat by exact Li. apply (f_equal (fun l => nth_error l (length (present pos) + i))) in E.
    rewrite nth_error_app2 in E by (rewrite map_length; lia). rewrite map_length in E.
    replace (length (present pos) + i - length (present pos)) with i in E by lia.
    rewrite nth_first in E by lia. rewrite nth_error_repeat in E by lia. rewrite nth_error_map in E.
    destruct (nth_error pos (length (present pos) + i)) as [e|]; [|discriminate E]. cbn in E. injection E as E. now destruct e.
  - rewrite !(proj2 (nth_error_None _ _)); [reflexivity|rewrite repeat_length; exact Li|lia].
Qed.

Lemma keyword_any ps pos kws q z kws' vs : no_array_keyword kws ->
  c_call ps (written pos (kws ++ (q, EArray z) :: kws')) = Some vs -> nth_error vs (length pos) = Some (VVal z).
Proof.
  intros NA. unfold c_call. rewrite (keyword_lost _ _ _ _ _ _ NA). unfold sorted_call, sort_args, written.
  rewrite map_app, positional_app, keywords_app. destruct (visit_pos (pos ++ [EArray z])) as [-> ->]. rewrite map_app. cbn [map value].
  destruct (_ <? _); [discriminate|]. destruct (fill _ _) as [r|]; [|discriminate].
  match goal with |- context [forallb ?f ?l] => destruct (forallb f l); [|discriminate] end.
  intros H. injection H as <-. rewrite !map_app, map_map. cbn [snd]. rewrite map_id. rewrite <- !app_assoc.
  rewrite nth_error_app2 by (rewrite map_length; lia). rewrite map_length, Nat.sub_diag. reflexivity.
Qed.

Lemma optional_allowed ps vs : (forall p, In p ps -> optional p = true) -> none_allowed ps vs.
Proof. intros O i p E _. apply O. eapply nth_error_In. exact E. Qed.

Lemma keyword_wrong ps pos p z i : NoDup (map name ps) -> (forall p, In p ps -> optional p = true) ->
  nth_error ps i = Some p -> length pos < i ->
  (exists vs, is_binding ps pos [(name p, EArray z)] vs /\ nth_error vs i = Some (VVal z) /\ nth_error vs (length pos) = Some VNone) /\
  c_call ps (written pos [(name p, EArray z)]) = Some (map value pos ++ VVal z :: repeat VNone (length ps - S (length pos))).
Proof.
  intros ND O E L. assert (i < length ps) as Li by (apply nth_error_Some; congruence). split.
  - exists (map value pos ++ repeat VNone (i - length pos) ++ VVal z :: repeat VNone (length ps - S i)).
    split; [|split].
    + split; [lia|]. split; [intros k [<-|[]]; cbn; apply in_map; eapply nth_error_In; exact E|].
      split; [rewrite !app_length, map_length; cbn; rewrite !repeat_length; lia|].
      intros j r Ej. assert (j < length ps) as Lj by (apply nth_error_Some; congruence).
      unfold py_param. cbn [find fst snd].
      assert (Nat.eqb (name p) (name r) = Nat.eqb i j) as ->.
      { destruct (Nat.eqb_spec i j) as [<-|D].
        - rewrite E in Ej. injection Ej as ->. apply Nat.eqb_refl.
        - apply Nat.eqb_neq. intros N. apply D. eapply NoDup_nth_error; [exact ND|now rewrite map_length|].
          rewrite !nth_error_map, E, Ej. cbn. now rewrite N. }
      destruct (Nat.eqb_spec i j) as [<-|D].
      * rewrite (proj2 (nth_error_None pos i)) by lia. exists (VVal z). split; [reflexivity|].
        rewrite nth_error_app2 by (rewrite map_length; lia). rewrite map_length.
        rewrite nth_error_app2 by (rewrite repeat_length; lia). now rewrite repeat_length, Nat.sub_diag.
      * destruct (nth_error pos j) as [e|] eqn:Ee.
        -- exists (value e). split; [reflexivity|]. rewrite nth_error_app1; [now rewrite nth_error_map, Ee|].
           rewrite map_length. apply nth_error_Some. congruence.
        -- apply nth_error_None in Ee. exists VNone. split.
           { pose proof (O r (nth_error_In _ _ Ej)) as Q. unfold optional in Q. destruct (default r) as [[|]|]; try discriminate Q. reflexivity. }
           rewrite nth_error_app2 by (rewrite map_length; lia). rewrite map_length.
           destruct (Nat.lt_ge_cases j i).
           ++ rewrite nth_error_app1 by (rewrite repeat_length; lia). apply nth_error_repeat. lia.
           ++ rewrite nth_error_app2 by (rewrite repeat_length; lia). rewrite repeat_length.
              replace (j - length pos - (i - length pos)) with (S (j - S i)) by lia. cbn. apply nth_error_repeat. lia.
    + rewrite nth_error_app2 by (rewrite map_length; lia). rewrite map_length.
      rewrite nth_error_app2 by (rewrite repeat_length; lia). now rewrite repeat_length, Nat.sub_diag.
    + rewrite nth_error_app2 by (rewrite map_length; lia). rewrite map_length, Nat.sub_diag.
      rewrite nth_error_app1 by (rewrite repeat_length; lia). apply nth_error_repeat. lia.
  - unfold c_call. assert (no_array_keyword []) as NA by (intros k []).
    pose proof (keyword_lost ps pos [] (name p) z [] NA) as KL. cbn [app] in KL. rewrite KL. change (c_call ps (written (pos ++ [EArray z]) []) = Some (map value pos ++ VVal z :: repeat VNone (length ps - S (length pos)))).
    apply c_main; [exact ND|exact NA| |now apply optional_allowed].
    assert (length (pos ++ [EArray z]) = S (length pos)) as LL by (rewrite app_length; cbn; lia).
    pose proof (py_positional ps (pos ++ [EArray z])) as P. rewrite LL, map_app, <- app_assoc in P. cbn [map value app] in P.
    apply P; [lia|exact O].
Qed.

Lemma fill_unknown ps : forall kws k, In k kws -> ~ In (fst k) (map name ps) -> fill ps kws = None.
Proof.
  induction ps as [|p ps IH]; intros kws k I N; cbn.
  - destruct kws; [destruct I|reflexivity].
  - rewrite (IH (remove_key (name p) kws) k).
    + destruct (match lookup (name p) kws with Some v => Some v | None => default p end); reflexivity.
    + unfold remove_key. apply filter_In. split; [exact I|]. destruct (Nat.eqb_spec (fst k) (name p)) as [E|]; [|reflexivity].
      exfalso. apply N. left. now symmetry.
    + intros J. apply N. now right.
Qed.
Lemma rejected ps pos kws k : no_array_keyword kws -> In k kws -> ~ In (fst k) (map name (skipn (length pos) ps)) ->
  sorted_call ps (written pos kws) = None.
Proof.
  intros NA I N. unfold sorted_call, sort_args, written. rewrite map_app, positional_app, keywords_app.
  destruct (visit_pos pos) as [-> ->]. destruct (visit_kws kws NA) as [-> ->]. rewrite app_nil_r, map_length. cbn [app].
  destruct (_ <? _); [reflexivity|]. rewrite (fill_unknown _ (vkws kws) (fst k, value (snd k))); [reflexivity| |exact N].
  unfold vkws. now apply (in_map (fun k => (fst k, value (snd k)))).
Qed.
