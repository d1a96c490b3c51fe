(** Proofs about the lifetime of wrapped objects. *)

From Coq Require Import List Bool Arith Lia Relations.
From Verif Require Import Life_Model Life_Spec.
Import ListNotations.

Notation cnt := (count_occ Nat.eq_dec).

Fixpoint total (f : nat -> option obj) (n : nat) (o : nat) : nat :=
  match n with
  | 0 => 0
  | S k => total f k o + match f k with Some ob => cnt (kids (pay ob)) o | None => 0 end
  end.

Definition own_of (ms : nat -> option cell) (p : pobj) : list nat :=
  match p with
  | PArr d true _ | PCap d => [d]
  | PArr _ false _ | PInst _ true _ => []
  | PInst i false _ =>
      match ms i with
      | Some (CStruct fs) => flat_map owned_field fs ++ [i]
      | _ => [i]
      end
  end.

Definition owned (st : state) (q : nat) : list nat :=
  match objs st q with Some ob => own_of (mems st) (pay ob) | None => [] end.

Definition addr (p : pobj) (m : nat) : Prop :=
  match p with PArr d _ _ => m = d | PCap d => m = d | PInst i _ _ => m = i end.

Definition refers (f : field) (m : nat) : Prop :=
  match f with FArr n | FInst n | FPtr _ (Some n) => m = n | FPtr _ None => False end.

Definition kept (st : state) (o m : nat) : Prop :=
  exists q, holds st o q /\ In m (owned st q).

Record inv (st : state) (W X : list nat) : Prop := {
  i_bo : forall o ob, objs st o = Some ob -> o < nobj st;
  i_bm : forall m c, mems st m = Some c -> m < nmem st;
  i_rc : forall o ob, objs st o = Some ob ->
         rc ob = cnt W o + cnt (names st) o + total (objs st) (nobj st) o /\ 1 <= rc ob;
  i_dead : forall o, objs st o = None ->
         cnt W o + cnt (names st) o + total (objs st) (nobj st) o = 0;
  i_own : forall q m, In m (owned st q) -> mems st m <> None;
  i_uniq : forall q q' m, In m (owned st q) -> In m (owned st q') -> q = q';
  i_nodup : forall q, NoDup (owned st q);
  i_struct : forall q c i refs, objs st q = Some (Obj c (PInst i false refs)) ->
         exists fs, mems st i = Some (CStruct fs);
  i_kept : forall o ob m, objs st o = Some ob -> addr (pay ob) m -> kept st o m;
  i_fld : forall q m fs f m', In m (owned st q) -> mems st m = Some (CStruct fs) ->
         In f fs -> refers f m' -> kept st q m';
  i_leak : forall m, mems st m <> None -> In m X \/ exists q, In m (owned st q)
}.

(** ** Counting *)

Lemma total_upd f n k v o : k < n ->
  total (upd f k v) n o + match f k with Some ob => cnt (kids (pay ob)) o | None => 0 end
  = total f n o + match v with Some ob => cnt (kids (pay ob)) o | None => 0 end.
Proof.
  induction n; intros H; [lia|]. cbn [total].
  destruct (Nat.eq_dec k n) as [->|Hn].
  - assert (E : total (upd f n v) n o = total f n o).
    { assert (G : forall j, j <= n -> total (upd f n v) j o = total f j o).
      { induction j; intros Hj; cbn [total]; auto. rewrite IHj by lia.
        unfold upd. destruct (j =? n) eqn:E; auto. apply Nat.eqb_eq in E. lia. }
      apply G; lia. }
    rewrite E. unfold upd at 1. rewrite Nat.eqb_refl. lia.
  - assert (Hk : k < n) by lia. specialize (IHn Hk).
    unfold upd at 2. destruct (n =? k) eqn:E; [apply Nat.eqb_eq in E; lia|]. lia.
Qed.

Lemma total_ext f g n o : (forall x, x < n -> f x = g x) -> total f n o = total g n o.
Proof.
  induction n; intros H; cbn [total]; auto.
  rewrite IHn by (intros; apply H; lia). rewrite H by lia. reflexivity.
Qed.

Lemma total_in f n x ob k : f x = Some ob -> x < n -> In k (kids (pay ob)) ->
  1 <= total f n k.
Proof.
  induction n; intros H L I; [lia|]. cbn [total].
  destruct (Nat.eq_dec x n) as [->|]; [|specialize (IHn H ltac:(lia) I); lia].
  rewrite H. apply (count_occ_In Nat.eq_dec) in I. lia.
Qed.

Lemma total_ex f n k : 1 <= total f n k ->
  exists x ob, f x = Some ob /\ In k (kids (pay ob)).
Proof.
  induction n; cbn [total]; intros H; [lia|].
  destruct (f n) eqn:E.
  - destruct (cnt (kids (pay o)) k) eqn:C.
    + apply IHn. lia.
    + exists n, o. split; auto. apply (count_occ_In Nat.eq_dec). lia.
  - apply IHn. lia.
Qed.

Lemma upd_eq {A} (f : nat -> option A) k v : upd f k v k = v.
Proof. unfold upd. rewrite Nat.eqb_refl. reflexivity. Qed.

Lemma upd_ne {A} (f : nat -> option A) k v x : x <> k -> upd f k v x = f x.
Proof. intros H. unfold upd. apply Nat.eqb_neq in H. rewrite H. reflexivity. Qed.

(** ** States that only grow *)

Definition skel (p : pobj) : pobj :=
  match p with PInst i al _ => PInst i al [] | p => p end.

Record ext (st st' : state) : Prop := {
  e_obj : forall x ob, objs st x = Some ob ->
          exists ob', objs st' x = Some ob' /\ skel (pay ob') = skel (pay ob) /\
                      incl (kids (pay ob)) (kids (pay ob'));
  e_own : forall q m, In m (owned st q) -> In m (owned st' q);
  e_mem : forall m, alive st m -> alive st' m
}.

Lemma ext_refl st : ext st st.
Proof.
  split; auto. intros x ob H. exists ob. repeat split; auto. apply incl_refl.
Qed.

Lemma ext_trans a b c : ext a b -> ext b c -> ext a c.
Proof.
  intros [A1 A2 A3] [B1 B2 B3]. split; auto.
  intros x ob H. destruct (A1 _ _ H) as (ob1 & H1 & S1 & I1).
  destruct (B1 _ _ H1) as (ob2 & H2 & S2 & I2).
  exists ob2. split; [auto|split; [congruence|eapply incl_tran; eauto]].
Qed.

Lemma holds_ext st st' x y : ext st st' -> holds st x y -> holds st' x y.
Proof.
  intros E H. induction H; [|apply rt_refl|eapply rt_trans; eauto].
  apply rt_step. destruct H as (ob & H & I).
  destruct (e_obj _ _ E _ _ H) as (ob' & H' & _ & Hi). exists ob'. auto.
Qed.

Lemma kept_ext st st' o m : ext st st' -> kept st o m -> kept st' o m.
Proof.
  intros E (q & H & I). exists q. split; [eapply holds_ext; eauto|eapply e_own; eauto].
Qed.

Lemma kept_trans st a b m : holds st a b -> kept st b m -> kept st a m.
Proof. intros H (q & K & I). exists q. split; auto. eapply rt_trans; eauto. Qed.

Lemma kept_alive st W X o m : inv st W X -> kept st o m -> alive st m.
Proof.
  intros I (q & _ & H). pose proof (i_own _ _ _ I _ _ H) as N.
  destruct (mems st m) eqn:E; [exists c; auto|congruence].
Qed.

Lemma live_count st W X o : inv st W X ->
  1 <= cnt W o + cnt (names st) o + total (objs st) (nobj st) o ->
  exists ob, objs st o = Some ob.
Proof.
  intros I H. destruct (objs st o) eqn:E; eauto.
  pose proof (i_dead _ _ _ I _ E). lia.
Qed.

Lemma live_name st W X o : inv st W X -> In o (names st) -> exists ob, objs st o = Some ob.
Proof.
  intros I H. eapply live_count; eauto. apply (count_occ_In Nat.eq_dec) in H. lia.
Qed.

Lemma live_work st W X o : inv st W X -> In o W -> exists ob, objs st o = Some ob.
Proof.
  intros I H. eapply live_count; eauto. apply (count_occ_In Nat.eq_dec) in H. lia.
Qed.

(** ** The elementary steps *)

(** Changing an object without its payload, or adding to its references. *)
Lemma inv_obj st W W' X o ob ob' :
  inv st W X -> objs st o = Some ob ->
  skel (pay ob') = skel (pay ob) -> incl (kids (pay ob)) (kids (pay ob')) ->
  (forall x, cnt W' x + cnt (kids (pay ob')) x + (if x =? o then rc ob else 0)
             = cnt W x + cnt (kids (pay ob)) x + (if x =? o then rc ob' else 0)) ->
  1 <= rc ob' ->
  inv (set_objs st (upd (objs st) o (Some ob'))) W' X
  /\ ext st (set_objs st (upd (objs st) o (Some ob'))).
Proof.
  intros I Ho Hs Hk Hc Hp.
  assert (OW : forall q, owned (set_objs st (upd (objs st) o (Some ob'))) q = owned st q).
  { intros q. unfold owned; cbn. destruct (Nat.eq_dec q o) as [->|N].
    - rewrite upd_eq, Ho. destruct (pay ob), (pay ob'); cbn in Hs; try discriminate;
        injection Hs; intros; subst; reflexivity.
    - rewrite upd_ne by auto. reflexivity. }
  assert (E : ext st (set_objs st (upd (objs st) o (Some ob')))).
  { split; cbn.
    - intros x obx Hx. destruct (Nat.eq_dec x o) as [->|N].
      + rewrite upd_eq. rewrite Ho in Hx. injection Hx as <-. exists ob'. auto.
      + rewrite upd_ne by auto. exists obx. repeat split; auto. apply incl_refl.
    - intros q m. rewrite OW. auto.
    - auto. }
  split; [|exact E].
  pose proof (i_bo _ _ _ I _ _ Ho) as Bo.
  assert (T : forall x, total (upd (objs st) o (Some ob')) (nobj st) x + cnt (kids (pay ob)) x
              = total (objs st) (nobj st) x + cnt (kids (pay ob')) x).
  { intros x. pose proof (total_upd (objs st) (nobj st) o (Some ob') x Bo) as H.
    rewrite Ho in H. exact H. }
  destruct I as [BO BM RC DE OWN UN ND STR KE FL LE].
  split; cbn.
  - intros x obx. destruct (Nat.eq_dec x o) as [->|N].
    + rewrite upd_eq. intros _. exact Bo.
    + rewrite upd_ne by auto. apply BO.
  - exact BM.
  - intros x obx. destruct (Nat.eq_dec x o) as [->|N].
    + rewrite upd_eq. intros Hx. injection Hx as <-. specialize (T o). specialize (Hc o).
      rewrite Nat.eqb_refl in Hc. destruct (RC _ _ Ho). lia.
    + rewrite upd_ne by auto. intros Hx. specialize (T x). specialize (Hc x).
      destruct (x =? o) eqn:E1; [apply Nat.eqb_eq in E1; congruence|].
      destruct (RC _ _ Hx). lia.
  - intros x. destruct (Nat.eq_dec x o) as [->|N].
    + rewrite upd_eq. discriminate.
    + rewrite upd_ne by auto. intros Hx. specialize (T x). specialize (Hc x).
      destruct (x =? o) eqn:E1; [apply Nat.eqb_eq in E1; congruence|].
      pose proof (DE _ Hx). lia.
  - intros q m. rewrite OW. apply OWN.
  - intros q q' m. rewrite !OW. apply UN.
  - intros q. rewrite OW. apply ND.
  - intros q c i refs. destruct (Nat.eq_dec q o) as [->|N].
    + rewrite upd_eq. intros Hx. injection Hx as ->. cbn in Hs.
      destruct ob as [c0 p0]; cbn in *. destruct p0; try discriminate.
      injection Hs; intros; subst. eapply STR; eauto.
    + rewrite upd_ne by auto. apply STR.
  - intros x obx m. destruct (Nat.eq_dec x o) as [->|N].
    + rewrite upd_eq. intros Hx. injection Hx as <-. intros A.
      eapply kept_ext; [exact E|]. eapply KE; [exact Ho|].
      destruct (pay ob), (pay ob'); cbn in *; try discriminate;
        injection Hs; intros; subst; auto.
    + rewrite upd_ne by auto. intros Hx A. eapply kept_ext; [exact E|]. eauto.
  - intros q m fs f m'. rewrite OW. intros. eapply kept_ext; [exact E|]. eauto.
  - intros m Hm. destruct (LE m Hm) as [|(q & Hq)]; auto. right. exists q. rewrite OW. auto.
Qed.

Lemma incref_ok st W X o : inv st W X -> (exists ob, objs st o = Some ob) ->
  exists st', incref o st = Ok st' /\ inv st' (o :: W) X /\ ext st st' /\
              names st' = names st /\ mems st' = mems st.
Proof.
  intros I (ob & Ho). unfold incref. rewrite Ho. eexists. split; [reflexivity|].
  destruct (inv_obj st W (o :: W) X o ob (Obj (S (rc ob)) (pay ob)) I Ho) as [A B]; cbn.
  - reflexivity.
  - apply incl_refl.
  - intros x. destruct (Nat.eq_dec o x) as [->|N].
    + rewrite Nat.eqb_refl. lia.
    + assert (x =? o = false) as -> by (apply Nat.eqb_neq; auto). lia.
  - lia.
  - auto.
Qed.

Lemma cnt_perm (a b : list nat) x : cnt (a ++ b) x = cnt a x + cnt b x.
Proof. apply count_occ_app. Qed.

Lemma give_ok st W X o : inv st (o :: W) X -> inv (give o st) W X.
Proof.
  intros [BO BM RC DE OWN UN ND STR KE FL LE].
  assert (C : forall x, cnt (o :: W) x + cnt (names st) x = cnt W x + cnt (o :: names st) x).
  { intros x. cbn. destruct (Nat.eq_dec o x); lia. }
  split; auto; cbn [give set_names objs mems names nobj nmem].
  - intros x obx H. destruct (RC _ _ H). specialize (C x). lia.
  - intros x H. pose proof (DE _ H). specialize (C x). lia.
Qed.

Lemma give_ext st o : ext st (give o st).
Proof.
  split; cbn; auto. intros x ob H. exists ob. repeat split; auto. apply incl_refl.
Qed.

Lemma add_ref_ok st W X self o c i al refs : inv st W X -> (exists ob, objs st o = Some ob) ->
  objs st self = Some (Obj c (PInst i al refs)) ->
  exists st', add_ref self o st = Ok st' /\ inv st' W X /\ ext st st' /\
              names st' = names st /\ mems st' = mems st /\
              exists c' refs', objs st' self = Some (Obj c' (PInst i al refs')) /\
                               In o refs' /\ incl refs refs'.
Proof.
  intros I Ho Hs. unfold add_ref.
  destruct (incref_ok _ _ _ _ I Ho) as (st1 & -> & I1 & E1 & N1 & M1). cbn [bind].
  destruct (e_obj _ _ E1 _ _ Hs) as ([c1 p1] & Hs1 & Sk & In1). cbn in Sk, In1.
  destruct p1; cbn in Sk; try discriminate. injection Sk as -> ->. cbn in In1.
  rewrite Hs1. eexists. split; [reflexivity|].
  destruct (inv_obj st1 (o :: W) W X self _ (Obj c1 (PInst i al (refs0 ++ [o]))) I1 Hs1) as [A B]; cbn.
  - reflexivity.
  - apply incl_appl, incl_refl.
  - intros x. rewrite count_occ_app. cbn. destruct (Nat.eq_dec o x); lia.
  - destruct (i_rc _ _ _ I1 _ _ Hs1) as [_ H]. exact H.
  - split; [exact A|]. split; [eapply ext_trans; eauto|]. split; [exact N1|]. split; [exact M1|].
    exists c1, (refs0 ++ [o]). split; [apply upd_eq|]. split.
    + apply in_or_app. cbn. auto.
    + apply incl_appl. exact In1.
Qed.

Lemma add_refs_ok l : forall st W X self c i al refs, inv st W X ->
  (forall o, In o l -> exists ob, objs st o = Some ob) ->
  objs st self = Some (Obj c (PInst i al refs)) ->
  exists st', add_refs self l st = Ok st' /\ inv st' W X /\ ext st st' /\
              names st' = names st /\ mems st' = mems st /\
              exists c' refs', objs st' self = Some (Obj c' (PInst i al refs')) /\
                               incl l refs' /\ incl refs refs'.
Proof.
  induction l as [|o l IH]; intros st W X self c i al refs I Hl Hs; cbn [add_refs].
  - exists st. split; auto. split; auto. split; [apply ext_refl|]. split; auto. split; auto.
    exists c, refs. repeat split; auto. intros x [].
    apply incl_refl.
  - destruct (add_ref_ok st W X self o c i al refs I (Hl o (or_introl eq_refl)) Hs)
      as (st1 & -> & I1 & E1 & N1 & M1 & c1 & r1 & H1 & In1 & Inc1). cbn [bind].
    destruct (IH st1 W X self c1 i al r1 I1) as (st2 & -> & I2 & E2 & N2 & M2 & c2 & r2 & H2 & In2 & Inc2); auto.
    + intros x Hx. destruct (Hl x (or_intror Hx)) as (ob & Hob).
      destruct (e_obj _ _ E1 _ _ Hob) as (ob' & ? & _). eauto.
    + exists st2. split; auto. split; auto. split; [eapply ext_trans; eauto|].
      split; [congruence|]. split; [congruence|]. exists c2, r2. split; auto. split.
      * intros x [<-|Hx]; auto.
      * eapply incl_tran; eauto.
Qed.

Lemma own_of_upd ms k v p : (forall i refs, p = PInst i false refs -> i <> k) ->
  own_of (upd ms k v) p = own_of ms p.
Proof.
  intros H. destruct p as [d [] b|d|i [] refs]; cbn; auto.
  rewrite upd_ne; auto. eapply H; eauto.
Qed.

Lemma nmem_dead st W X : inv st W X -> mems st (nmem st) = None.
Proof.
  intros I. destruct (mems st (nmem st)) eqn:E; auto.
  apply (i_bm _ _ _ I) in E. lia.
Qed.

Lemma nobj_dead st W X : inv st W X -> objs st (nobj st) = None.
Proof.
  intros I. destruct (objs st (nobj st)) eqn:E; auto.
  apply (i_bo _ _ _ I) in E. lia.
Qed.

Lemma new_mem_ok st W X c : inv st W X ->
  inv (snd (new_mem c st)) W (nmem st :: X) /\ ext st (snd (new_mem c st)) /\
  (forall q, owned (snd (new_mem c st)) q = owned st q).
Proof.
  intros I. pose proof (nmem_dead _ _ _ I) as Dn.
  assert (OW : forall q, owned (snd (new_mem c st)) q = owned st q).
  { intros q. unfold owned; cbn. destruct (objs st q) as [[cc p]|] eqn:E; auto. cbn [pay].
    apply own_of_upd. intros i refs ->. destruct (i_struct _ _ _ I _ _ _ _ E) as (fs & H).
    apply (i_bm _ _ _ I) in H. lia. }
  assert (E : ext st (snd (new_mem c st))).
  { split.
    - cbn. intros x ob H. exists ob. repeat split; auto. apply incl_refl.
    - intros q m. rewrite OW. auto.
    - intros m (c0 & H). pose proof (i_bm _ _ _ I _ _ H). exists c0. cbn. rewrite upd_ne by lia. exact H. }
  split; [|split; [exact E|exact OW]].
  destruct I as [BO BM RC DE OWN UN ND STR KE FL LE].
  split.
  - cbn. exact BO.
  - cbn. intros m c0. destruct (Nat.eq_dec m (nmem st)) as [->|N]; [lia|].
    rewrite upd_ne by auto. intros H. apply BM in H. lia.
  - cbn. exact RC.
  - cbn. exact DE.
  - intros q m. rewrite OW. intros H. apply OWN in H. cbn.
    rewrite upd_ne; auto. intros ->. congruence.
  - intros q q' m. rewrite !OW. apply UN.
  - intros q. rewrite OW. apply ND.
  - intros q c0 i refs H. destruct (STR q c0 i refs H) as (fs & Hf). exists fs. cbn.
    rewrite upd_ne; auto. intros ->. congruence.
  - intros o ob m H A. eapply kept_ext; [exact E|]. eapply KE; eauto.
  - intros q m fs f m'. rewrite OW. intros H1 H2 H3 H4. eapply kept_ext; [exact E|].
    eapply FL; eauto. cbn in H2. rewrite upd_ne in H2; auto.
    intros ->. apply OWN in H1. congruence.
  - intros m H. cbn in H. destruct (Nat.eq_dec m (nmem st)) as [->|N]; [left; cbn; auto|].
    rewrite upd_ne in H by auto. destruct (LE m H) as [|(q & Hq)]; [left; cbn; auto|].
    right. exists q. rewrite OW. exact Hq.
Qed.

Lemma flat_set_nth fs : forall j a v w, nth_error fs j = Some (FPtr a v) ->
  flat_map owned_field (set_nth fs j (FPtr a w)) = flat_map owned_field fs.
Proof.
  induction fs as [|f fs IH]; intros [|j] a v w H; cbn in *; try discriminate.
  - injection H as ->. reflexivity.
  - f_equal. eapply IH; eauto.
Qed.

Lemma in_set_nth {A} (l : list A) : forall k a x, In x (set_nth l k a) -> x = a \/ In x l.
Proof.
  induction l as [|b l IH]; intros [|k] a x H; cbn in *; auto.
  - destruct H; auto.
  - destruct H as [|H]; auto. destruct (IH _ _ _ H); auto.
Qed.

Lemma set_ptr_ok st W X o c i refs fs j a v m :
  inv st W X -> objs st o = Some (Obj c (PInst i false refs)) ->
  mems st i = Some (CStruct fs) -> nth_error fs j = Some (FPtr a v) -> kept st o m ->
  inv (set_mems st (upd (mems st) i (Some (CStruct (set_nth fs j (FPtr a (Some m))))))) W X
  /\ ext st (set_mems st (upd (mems st) i (Some (CStruct (set_nth fs j (FPtr a (Some m))))))).
Proof.
  intros I Ho Hi Hj K.
  set (st' := set_mems st _).
  assert (OW : forall q, owned st' q = owned st q).
  { intros q. unfold owned, st'; cbn. destruct (objs st q) as [[cc p]|] eqn:E; auto. cbn [pay].
    destruct p as [d [] b|d|i0 [] r0]; cbn; auto.
    destruct (Nat.eq_dec i0 i) as [->|N].
    - rewrite upd_eq, Hi. erewrite flat_set_nth; eauto.
    - rewrite upd_ne by auto. reflexivity. }
  assert (AL : forall x, mems st' x <> None <-> mems st x <> None).
  { intros x. unfold st'; cbn. destruct (Nat.eq_dec x i) as [->|N].
    - rewrite upd_eq, Hi. split; discriminate.
    - rewrite upd_ne by auto. reflexivity. }
  assert (E : ext st st').
  { split.
    - intros x ob H. exists ob. repeat split; auto. apply incl_refl.
    - intros q x. rewrite OW. auto.
    - intros x (c0 & H). destruct (mems st' x) eqn:Ex; [eexists; eauto|].
      exfalso. apply (proj2 (AL x)); congruence. }
  split; [|exact E].
  assert (Own_i : In i (owned st o)).
  { unfold owned. rewrite Ho. cbn. rewrite Hi. apply in_or_app. cbn. auto. }
  destruct I as [BO BM RC DE OWN UN ND STR KE FL LE].
  split.
  - exact BO.
  - intros x c0. unfold st'; cbn. destruct (Nat.eq_dec x i) as [->|N].
    + intros _. eapply BM; eauto.
    + rewrite upd_ne by auto. apply BM.
  - exact RC.
  - exact DE.
  - intros q x. rewrite OW. intros H. apply AL. eauto.
  - intros q q' x. rewrite !OW. apply UN.
  - intros q. rewrite OW. apply ND.
  - intros q c0 i0 r0 H. destruct (STR q c0 i0 r0 H) as (fs0 & Hf).
    unfold st'; cbn. destruct (Nat.eq_dec i0 i) as [->|N].
    + rewrite upd_eq. eauto.
    + rewrite upd_ne by auto. eauto.
  - intros x ob y H A. eapply kept_ext; [exact E|]. eapply KE; eauto.
  - intros q x fs0 f m'. rewrite OW. intros H1 H2 H3 H4. eapply kept_ext; [exact E|].
    unfold st' in H2; cbn in H2. destruct (Nat.eq_dec x i) as [->|N].
    + rewrite upd_eq in H2. injection H2 as <-.
      assert (q = o) as -> by (eapply UN; eauto).
      apply in_set_nth in H3. destruct H3 as [->|H3].
      * cbn in H4. subst. exact K.
      * eapply FL; eauto.
    + rewrite upd_ne in H2 by auto. eapply FL; eauto.
  - intros x H. apply AL in H. destruct (LE x H) as [|(q & Hq)]; auto.
    right. exists q. rewrite OW. exact Hq.
Qed.

(** A new object, whose references were already counted. *)
Lemma new_obj_ok st W X X' p :
  inv st (kids p ++ W) X ->
  (forall m, In m (own_of (mems st) p) -> mems st m <> None) ->
  (forall m q, In m (own_of (mems st) p) -> In m (owned st q) -> False) ->
  NoDup (own_of (mems st) p) ->
  (forall i refs, p = PInst i false refs -> exists fs, mems st i = Some (CStruct fs)) ->
  (forall m, addr p m -> In m (own_of (mems st) p) \/ exists k, In k (kids p) /\ kept st k m) ->
  (forall m fs f m', In m (own_of (mems st) p) -> mems st m = Some (CStruct fs) ->
     In f fs -> refers f m' ->
     In m' (own_of (mems st) p) \/ exists k, In k (kids p) /\ kept st k m') ->
  (forall m, In m X -> In m X' \/ In m (own_of (mems st) p)) ->
  inv (snd (new_obj p st)) (nobj st :: W) X' /\ ext st (snd (new_obj p st)) /\
  objs (snd (new_obj p st)) (nobj st) = Some (Obj 1 p).
Proof.
  intros I A1 A2 A3 A4 A5 A6 A7.
  pose proof (nobj_dead _ _ _ I) as Dn.
  set (st' := snd (new_obj p st)).
  assert (Q0 : owned st (nobj st) = []) by (unfold owned; rewrite Dn; reflexivity).
  assert (Q1 : owned st' (nobj st) = own_of (mems st) p).
  { unfold owned, st'; cbn. rewrite upd_eq. reflexivity. }
  assert (QN : forall q, q <> nobj st -> owned st' q = owned st q).
  { intros q N. unfold owned, st'; cbn. rewrite upd_ne by auto. reflexivity. }
  assert (E : ext st st').
  { split.
    - intros x ob H. exists ob. unfold st'; cbn. rewrite upd_ne.
      + repeat split; auto. apply incl_refl.
      + intros ->. congruence.
    - intros q m. destruct (Nat.eq_dec q (nobj st)) as [->|N].
      + rewrite Q0. intros [].
      + rewrite QN by auto. auto.
    - auto. }
  assert (Hn : objs st' (nobj st) = Some (Obj 1 p)) by (unfold st'; cbn; apply upd_eq).
  assert (KID : forall k m, In k (kids p) -> kept st k m -> kept st' (nobj st) m).
  { intros k m Hk K. eapply kept_trans; [|eapply kept_ext; [exact E|exact K]].
    apply rt_step. exists (Obj 1 p). split; auto. }
  assert (SELF : forall m, In m (own_of (mems st) p) -> kept st' (nobj st) m).
  { intros m H. exists (nobj st). split; [apply rt_refl|]. rewrite Q1. exact H. }
  split; [|split; [exact E|exact Hn]].
  assert (T : forall x, total (objs st') (nobj st') x = total (objs st) (nobj st) x + cnt (kids p) x).
  { intros x. unfold st'; cbn [new_obj snd objs nobj total]. rewrite upd_eq. cbn [pay].
    f_equal. apply total_ext. intros y Hy. apply upd_ne. lia. }
  destruct I as [BO BM RC DE OWN UN ND STR KE FL LE].
  split.
  - intros x ob. unfold st'; cbn. destruct (Nat.eq_dec x (nobj st)) as [->|N]; [lia|].
    rewrite upd_ne by auto. intros H. apply BO in H. lia.
  - exact BM.
  - intros x ob H. rewrite T. change (names st') with (names st).
    destruct (Nat.eq_dec x (nobj st)) as [->|N].
    + rewrite Hn in H. injection H as <-. cbn [rc]. pose proof (DE _ Dn) as Z.
      rewrite count_occ_app in Z. cbn. destruct (Nat.eq_dec (nobj st) (nobj st)); [lia|congruence].
    + unfold st' in H; cbn in H. rewrite upd_ne in H by auto. destruct (RC _ _ H) as [R1 R2].
      rewrite count_occ_app in R1. cbn. destruct (Nat.eq_dec (nobj st) x); [congruence|lia].
  - intros x H. rewrite T. change (names st') with (names st).
    destruct (Nat.eq_dec x (nobj st)) as [->|N]; [rewrite Hn in H; discriminate|].
    unfold st' in H; cbn in H. rewrite upd_ne in H by auto. pose proof (DE _ H) as R1.
    rewrite count_occ_app in R1. cbn. destruct (Nat.eq_dec (nobj st) x); [congruence|lia].
  - intros q m. change (mems st') with (mems st). destruct (Nat.eq_dec q (nobj st)) as [->|N].
    + rewrite Q1. apply A1.
    + rewrite QN by auto. apply OWN.
  - intros q q' m. destruct (Nat.eq_dec q (nobj st)) as [->|N], (Nat.eq_dec q' (nobj st)) as [->|N'];
      rewrite ?Q1, ?QN by auto; auto.
    + intros H1 H2. exfalso. eauto.
    + intros H1 H2. exfalso. eauto.
    + apply UN.
  - intros q. destruct (Nat.eq_dec q (nobj st)) as [->|N].
    + rewrite Q1. exact A3.
    + rewrite QN by auto. apply ND.
  - intros q c i refs H. change (mems st') with (mems st).
    destruct (Nat.eq_dec q (nobj st)) as [->|N].
    + rewrite Hn in H. injection H as ? Hp. eapply A4; eauto.
    + unfold st' in H; cbn in H. rewrite upd_ne in H by auto. eapply STR; eauto.
  - intros x ob m H A. destruct (Nat.eq_dec x (nobj st)) as [->|N].
    + rewrite Hn in H. injection H as <-. cbn in A.
      destruct (A5 _ A) as [B|(k & B & C)]; eauto.
    + unfold st' in H; cbn in H. rewrite upd_ne in H by auto. eapply kept_ext; [exact E|]. eauto.
  - intros q m fs f m' H. change (mems st') with (mems st). intros H2 H3 H4.
    destruct (Nat.eq_dec q (nobj st)) as [->|N].
    + rewrite Q1 in H. destruct (A6 _ _ _ _ H H2 H3 H4) as [B|(k & B & C)]; eauto.
    + rewrite QN in H by auto. eapply kept_ext; [exact E|]. eauto.
  - intros m H. change (mems st') with (mems st) in H.
    destruct (LE m H) as [B|(q & Hq)].
    + destruct (A7 _ B) as [|C]; auto. right. exists (nobj st). rewrite Q1. exact C.
    + right. exists q. rewrite QN; auto. intros ->. rewrite Q0 in Hq. exact Hq.
Qed.

(** A new array which refers to the owner of its memory. *)
Lemma new_view_ok st W X m o : inv st (o :: W) X -> kept st o m ->
  inv (snd (new_obj (PArr m false (Some o)) st)) (nobj st :: W) X /\
  ext st (snd (new_obj (PArr m false (Some o)) st)).
Proof.
  intros I K.
  assert (H := new_obj_ok st W X X (PArr m false (Some o)) I).
  cbn [own_of addr kids] in H.
  destruct H as (A & B & _); try (intros; contradiction); try discriminate.
  - constructor.
  - intros x ->. right. exists o. cbn. auto.
  - auto.
  - exact (conj A B).
Qed.

(** ** Building an instance *)

Lemma build_ok c : forall st W X fs st', inv st W X -> build c st = (fs, st') ->
  inv st' W (flat_map owned_field fs ++ X) /\ ext st st' /\
  (forall q, owned st' q = owned st q) /\
  objs st' = objs st /\ nobj st' = nobj st /\ names st' = names st /\ nmem st <= nmem st' /\
  (forall m, m < nmem st -> mems st' m = mems st m) /\
  NoDup (flat_map owned_field fs) /\
  (forall m, In m (flat_map owned_field fs) -> nmem st <= m < nmem st' /\
             (mems st' m = Some CData \/ mems st' m = Some (CStruct []))) /\
  (forall f m, In f fs -> refers f m -> In m (flat_map owned_field fs)).
Proof.
  induction c as [|k c IH]; intros st W X fs st' I; cbn [build].
  - intros H. injection H as <- <-. cbn. split; [exact I|]. split; [apply ext_refl|].
    repeat (split; [now auto|]). split; [constructor|]. split; [intros ? []|intros ? ? []].
  - destruct k as [| |a].
    1,2: unfold new_mem.
    + destruct (new_mem_ok st W X CData I) as (I1 & E1 & O1). unfold new_mem in I1, E1, O1; cbn [snd] in I1, E1, O1.
      set (st1 := St _ _ _ _ _) in *.
      destruct (build c st1) as [fs1 st2] eqn:B. intros H. injection H as <- <-.
      destruct (IH _ _ _ _ _ I1 B) as (I2 & E2 & O2 & Ob & No & Na & Le & Lo & Nd & Ow & Rf).
      assert (Lt : nmem st1 = S (nmem st)) by reflexivity.
      cbn [flat_map owned_field app].
      split; [|split; [eapply ext_trans; eauto|]].
      { destruct I2. split; auto. intros m Hm. destruct (i_leak0 m Hm) as [Q|]; auto.
        left. apply in_app_or in Q. cbn. rewrite in_app_iff. cbn in Q. tauto. }
      split; [intros; rewrite O2, O1; reflexivity|].
      split; [rewrite Ob; reflexivity|]. split; [rewrite No; reflexivity|].
      split; [rewrite Na; reflexivity|]. split; [lia|].
      split; [intros m Hm; rewrite Lo by lia; cbn; apply upd_ne; lia|].
      split; [constructor; auto; intros Hin; apply Ow in Hin; lia|].
      split.
      { intros m [<-|Hm].
        - split; [lia|]. left. rewrite Lo by lia. cbn. apply upd_eq.
        - destruct (Ow _ Hm). split; [lia|auto]. }
      intros f m [<-|Hf] R; cbn in *; auto. right. eauto.
    + destruct (new_mem_ok st W X (CStruct []) I) as (I1 & E1 & O1). unfold new_mem in I1, E1, O1; cbn [snd] in I1, E1, O1.
      set (st1 := St _ _ _ _ _) in *.
      destruct (build c st1) as [fs1 st2] eqn:B. intros H. injection H as <- <-.
      destruct (IH _ _ _ _ _ I1 B) as (I2 & E2 & O2 & Ob & No & Na & Le & Lo & Nd & Ow & Rf).
      assert (Lt : nmem st1 = S (nmem st)) by reflexivity.
      cbn [flat_map owned_field app].
      split; [|split; [eapply ext_trans; eauto|]].
      { destruct I2. split; auto. intros m Hm. destruct (i_leak0 m Hm) as [Q|]; auto.
        left. apply in_app_or in Q. cbn. rewrite in_app_iff. cbn in Q. tauto. }
      split; [intros; rewrite O2, O1; reflexivity|].
      split; [rewrite Ob; reflexivity|]. split; [rewrite No; reflexivity|].
      split; [rewrite Na; reflexivity|]. split; [lia|].
      split; [intros m Hm; rewrite Lo by lia; cbn; apply upd_ne; lia|].
      split; [constructor; auto; intros Hin; apply Ow in Hin; lia|].
      split.
      { intros m [<-|Hm].
        - split; [lia|]. right. rewrite Lo by lia. cbn. apply upd_eq.
        - destruct (Ow _ Hm). split; [lia|auto]. }
      intros f m [<-|Hf] R; cbn in *; auto. right. eauto.
    + destruct (build c st) as [fs1 st2] eqn:B. intros H. injection H as <- <-.
      destruct (IH _ _ _ _ _ I B) as (I2 & E2 & O2 & Ob & No & Na & Le & Lo & Nd & Ow & Rf).
      cbn [flat_map owned_field app].
      repeat (split; [now auto|]).
      intros f m [<-|Hf] R; cbn in *; [destruct R|eauto].
Qed.

Lemma nodup_snoc (l : list nat) m : NoDup l -> ~ In m l -> NoDup (l ++ [m]).
Proof.
  induction 1; cbn; intros N.
  - constructor; [intros []|constructor].
  - constructor; [|apply IHNoDup; tauto].
    rewrite in_app_iff. cbn. intros [|[->|[]]]; tauto.
Qed.

Lemma new_inst_ok c st W X : inv st W X ->
  exists m st', new_inst c st = (m, st') /\
  inv (snd (new_obj (PInst m false []) st')) (nobj st' :: W) X /\
  ext st (snd (new_obj (PInst m false []) st')) /\
  objs (snd (new_obj (PInst m false []) st')) (nobj st') = Some (Obj 1 (PInst m false [])) /\
  nobj st' = nobj st /\ names st' = names st /\ objs st' = objs st.
Proof.
  intros I. unfold new_inst. destruct (build c st) as [fs st1] eqn:B.
  destruct (build_ok c st W X fs st1 I B) as (I1 & E1 & O1 & Ob & No & Na & Le & Lo & Nd & Ow & Rf).
  destruct (new_mem_ok st1 W _ (CStruct fs) I1) as (I2 & E2 & O2).
  exists (nmem st1), (snd (new_mem (CStruct fs) st1)). split; [reflexivity|].
  set (st2 := snd (new_mem (CStruct fs) st1)) in *.
  assert (Hi : mems st2 (nmem st1) = Some (CStruct fs)) by (unfold st2; cbn; apply upd_eq).
  assert (OW : own_of (mems st2) (PInst (nmem st1) false []) = flat_map owned_field fs ++ [nmem st1]).
  { cbn [own_of]. rewrite Hi. reflexivity. }
  destruct (new_obj_ok st2 W (nmem st1 :: flat_map owned_field fs ++ X) X (PInst (nmem st1) false []))
    as (A & C & D); rewrite ?OW.
  - exact I2.
  - intros m H. apply in_app_or in H. destruct H as [H|[<-|[]]]; [|congruence].
    destruct (Ow _ H) as [Hl Hm]. unfold st2; cbn. rewrite upd_ne by lia. destruct Hm; congruence.
  - intros m q H Hq. rewrite O2, O1 in Hq. pose proof (i_own _ _ _ I _ _ Hq) as Al.
    destruct (mems st m) eqn:Em; [|congruence]. apply (i_bm _ _ _ I) in Em.
    apply in_app_or in H. destruct H as [H|[<-|[]]]; [|lia]. apply Ow in H. lia.
  - apply nodup_snoc; auto. intros H. apply Ow in H. lia.
  - intros i refs H. injection H as <- _. eauto.
  - cbn. intros m ->. left. apply in_or_app. cbn. auto.
  - intros m fs0 f m' H Hm Hf R. apply in_app_or in H. destruct H as [H|[<-|[]]].
    + destruct (Ow _ H) as [Hl Hc]. unfold st2 in Hm; cbn in Hm. rewrite upd_ne in Hm by lia.
      destruct Hc as [Hc|Hc]; rewrite Hc in Hm; try discriminate. injection Hm as <-. destruct Hf.
    + rewrite Hi in Hm. injection Hm as <-. left. apply in_or_app. left. eauto.
  - intros m [<-|H]; [right; apply in_or_app; cbn; auto|]. apply in_app_or in H.
    destruct H; auto. right. apply in_or_app. auto.
  - split; [exact A|]. split; [eapply ext_trans; [exact E1|eapply ext_trans; eauto]|].
    split; [exact D|]. split; [unfold st2; cbn; exact No|]. split; [exact Na|exact Ob].
Qed.

(** ** Releasing *)

Lemma free_all_ok l : forall st, NoDup l -> (forall m, In m l -> mems st m <> None) ->
  exists ms, free_all l st = Ok (set_mems st ms) /\
             (forall m, In m l -> ms m = None) /\ (forall m, ~ In m l -> ms m = mems st m).
Proof.
  induction l as [|m l IH]; intros st N A; cbn [free_all].
  - exists (mems st). destruct st; cbn. repeat split; auto. intros ? [].
  - inversion N as [|? ? N1 N2]; subst.
    unfold free. destruct (mems st m) eqn:E; [|exfalso; apply (A m); cbn; auto]. cbn [bind].
    destruct (IH (set_mems st (upd (mems st) m None)) N2) as (ms & -> & B1 & B2).
    { intros x Hx. cbn. rewrite upd_ne; [apply A; cbn; auto|]. intros ->. contradiction. }
    exists ms. split; [reflexivity|]. split.
    + intros x [<-|Hx]; [|auto]. rewrite B2 by auto. cbn. apply upd_eq.
    + intros x Hx. cbn in Hx. rewrite B2 by tauto. cbn. apply upd_ne. intros ->. tauto.
Qed.

Lemma free_own_ok p st : NoDup (own_of (mems st) p) ->
  (forall m, In m (own_of (mems st) p) -> mems st m <> None) ->
  (forall i refs, p = PInst i false refs -> exists fs, mems st i = Some (CStruct fs)) ->
  exists ms, free_own p st = Ok (set_mems st ms) /\
             (forall m, In m (own_of (mems st) p) -> ms m = None) /\
             (forall m, ~ In m (own_of (mems st) p) -> ms m = mems st m).
Proof.
  intros N A S. destruct p as [d [] b|d|i [] refs]; cbn [free_own own_of] in *.
  1,3: destruct (free_all_ok [d] st N A) as (ms & H & H1 & H2); exists ms;
       cbn in H; destruct (free d st); cbn in H; try discriminate; auto.
  1,2: exists (mems st); destruct st; cbn; repeat split; auto; intros ? [].
  destruct (S i refs eq_refl) as (fs & E). rewrite E in *. apply free_all_ok; auto.
Qed.

Lemma total_zero f n k x ob : total f n k = 0 -> x < n -> f x = Some ob ->
  ~ In k (kids (pay ob)).
Proof. intros H L E I. pose proof (total_in f n x ob k E L I). lia. Qed.

Lemma holds_last st x y : holds st x y -> x = y \/ exists p, refers_to st p y.
Proof.
  intros H. apply clos_rt_rtn1 in H. destruct H; eauto.
Qed.

Lemma kill_ok st w X o ob : inv st (o :: w) X -> objs st o = Some ob -> rc ob = 1 ->
  exists st', free_own (pay ob) (set_objs st (upd (objs st) o None)) = Ok st' /\
              inv st' (kids (pay ob) ++ w) X /\
              objs st' = upd (objs st) o None /\ nobj st' = nobj st.
Proof.
  intros I Ho R1.
  assert (Oo : owned st o = own_of (mems st) (pay ob)) by (unfold owned; rewrite Ho; reflexivity).
  destruct (free_own_ok (pay ob) (set_objs st (upd (objs st) o None))) as (ms & F & F1 & F2).
  { cbn [mems set_objs]. rewrite <- Oo. apply (i_nodup _ _ _ I). }
  { cbn [mems set_objs]. rewrite <- Oo. apply (i_own _ _ _ I). }
  { cbn [mems set_objs]. intros i refs E. destruct ob as [c p]; cbn in E; subst.
    eapply (i_struct _ _ _ I); eauto. }
  cbn [mems set_objs] in F1, F2. rewrite <- Oo in F1, F2.
  eexists. split; [exact F|].
  split; [|split; reflexivity].
  set (st' := set_mems _ ms).
  pose proof (i_bo _ _ _ I _ _ Ho) as Bo.
  destruct (i_rc _ _ _ I _ _ Ho) as [Rc _]. rewrite R1 in Rc. cbn in Rc.
  destruct (Nat.eq_dec o o) as [_|]; [|congruence].
  assert (Z1 : cnt w o = 0) by lia. assert (Z2 : cnt (names st) o = 0) by lia.
  assert (Z3 : total (objs st) (nobj st) o = 0) by lia.
  assert (NP : forall p, ~ refers_to st p o).
  { intros p (obp & Hp & Hk).
    exact (total_zero _ _ _ _ _ Z3 (i_bo _ _ _ I _ _ Hp) Hp Hk). }
  assert (T : forall x, total (objs st') (nobj st') x + cnt (kids (pay ob)) x
              = total (objs st) (nobj st) x).
  { intros x. pose proof (total_upd (objs st) (nobj st) o None x Bo) as H.
    rewrite Ho in H. cbn. lia. }
  assert (OW : forall q, q <> o -> owned st' q = owned st q).
  { intros q N. unfold owned, st'; cbn [set_mems set_objs objs mems]. rewrite upd_ne by auto.
    destruct (objs st q) as [[cq pq]|] eqn:Eq; auto. cbn [pay].
    destruct pq as [d [] b|d|i [] refs]; cbn; auto.
    destruct (i_struct _ _ _ I _ _ _ _ Eq) as (fs & E).
    rewrite F2; auto. intros Hi. apply N. eapply (i_uniq _ _ _ I); [|exact Hi].
    unfold owned. rewrite Eq. cbn. rewrite E. apply in_or_app. cbn. auto. }
  assert (OO : owned st' o = []).
  { unfold owned, st'; cbn [set_mems set_objs objs]. rewrite upd_eq. reflexivity. }
  assert (ALV : forall q m, q <> o -> In m (owned st q) -> mems st' m = mems st m).
  { intros q m N H. cbn. apply F2. intros H'. apply N. eapply (i_uniq _ _ _ I); eauto. }
  assert (HO : forall x y, holds st x y -> x <> o -> holds st' x y /\ y <> o).
  { intros x y H. apply clos_rt_rt1n in H. induction H as [x|x z y H1 H2 IH]; intros N.
    - split; [apply rt_refl|exact N].
    - assert (Nz : z <> o) by (intros ->; eapply NP; eauto).
      destruct (IH Nz) as [A B]. split; [|exact B].
      eapply rt_trans; [|exact A]. apply rt_step. destruct H1 as (obx & E1 & E2).
      exists obx. split; [|exact E2]. unfold st'; cbn. rewrite upd_ne by auto. exact E1. }
  assert (KP : forall x m, x <> o -> kept st x m -> kept st' x m).
  { intros x m N (q & H & Q). destruct (HO _ _ H N) as [A B]. exists q. split; [exact A|].
    rewrite OW by auto. exact Q. }
  destruct I as [BO BM RC DE OWN UN ND STR KE FL LE].
  split.
  - intros x obx. unfold st'; cbn. destruct (Nat.eq_dec x o) as [->|N].
    + rewrite upd_eq. discriminate.
    + rewrite upd_ne by auto. apply BO.
  - intros m c H. cbn in H. destruct (in_dec Nat.eq_dec m (owned st o)) as [Hi|Hi].
    + rewrite F1 in H by auto. discriminate.
    + rewrite F2 in H by auto. eapply BM; eauto.
  - intros x obx H. specialize (T x). rewrite count_occ_app. change (names st') with (names st).
    destruct (Nat.eq_dec x o) as [->|N].
    + unfold st' in H; cbn in H. rewrite upd_eq in H. discriminate.
    + unfold st' in H; cbn in H. rewrite upd_ne in H by auto. destruct (RC _ _ H) as [R2 R3].
      cbn in R2. destruct (Nat.eq_dec o x); [congruence|]. lia.
  - intros x H. specialize (T x). rewrite count_occ_app. change (names st') with (names st).
    destruct (Nat.eq_dec x o) as [->|N]; [lia|].
    unfold st' in H; cbn in H. rewrite upd_ne in H by auto. pose proof (DE _ H) as R2.
    cbn in R2. destruct (Nat.eq_dec o x); [congruence|]. lia.
  - intros q m. destruct (Nat.eq_dec q o) as [->|N]; [rewrite OO; intros []|].
    rewrite OW by auto. intros H. rewrite (ALV q m N H). eauto.
  - intros q q' m. destruct (Nat.eq_dec q o) as [->|N]; [rewrite OO; intros []|].
    destruct (Nat.eq_dec q' o) as [->|N']; [rewrite OO; intros ? []|].
    rewrite !OW by auto. apply UN.
  - intros q. destruct (Nat.eq_dec q o) as [->|N]; [rewrite OO; constructor|].
    rewrite OW by auto. apply ND.
  - intros q c i refs H. destruct (Nat.eq_dec q o) as [->|N].
    + unfold st' in H; cbn in H. rewrite upd_eq in H. discriminate.
    + unfold st' in H; cbn in H. rewrite upd_ne in H by auto.
      destruct (STR _ _ _ _ H) as (fs & E). exists fs. rewrite (ALV q i N); auto.
      unfold owned. rewrite H. cbn. rewrite E. apply in_or_app. cbn. auto.
  - intros x obx m H A. destruct (Nat.eq_dec x o) as [->|N].
    + unfold st' in H; cbn in H. rewrite upd_eq in H. discriminate.
    + unfold st' in H; cbn in H. rewrite upd_ne in H by auto. apply KP; eauto.
  - intros q m fs f m'. destruct (Nat.eq_dec q o) as [->|N]; [rewrite OO; intros []|].
    rewrite OW by auto. intros H1 H2 H3 H4. apply KP; auto. eapply FL; eauto.
    rewrite <- (ALV q m N H1). exact H2.
  - intros m H. cbn in H. destruct (in_dec Nat.eq_dec m (owned st o)) as [Hi|Hi].
    + rewrite F1 in H by auto. congruence.
    + rewrite F2 in H by auto. destruct (LE m H) as [|(q & Hq)]; auto.
      right. exists q. rewrite OW; auto. intros ->. contradiction.
Qed.

Lemma count_rc_upd f n k v : k < n ->
  count_rc (upd f k v) n + match f k with Some ob => rc ob | None => 0 end
  = count_rc f n + match v with Some ob => rc ob | None => 0 end.
Proof.
  induction n; intros H; [lia|]. cbn [count_rc].
  destruct (Nat.eq_dec k n) as [->|Hn].
  - assert (E : count_rc (upd f n v) n = count_rc f n).
    { assert (G : forall j, j <= n -> count_rc (upd f n v) j = count_rc f j).
      { induction j; intros Hj; cbn [count_rc]; auto. rewrite IHj by lia.
        rewrite upd_ne by lia. reflexivity. }
      apply G; lia. }
    rewrite E, upd_eq. lia.
  - specialize (IHn ltac:(lia)). rewrite upd_ne by lia. lia.
Qed.

Lemma release_ok fuel : forall W st X, inv st W X -> count_rc (objs st) (nobj st) <= fuel ->
  exists st', release fuel W st = Ok st' /\ inv st' [] X.
Proof.
  induction fuel as [|k IH]; intros [|o w] st X I L; cbn [release]; eauto.
  - exfalso. destruct (live_work _ _ _ o I) as (ob & Ho); [cbn; auto|].
    pose proof (i_bo _ _ _ I _ _ Ho) as Bo. destruct (i_rc _ _ _ I _ _ Ho) as [_ R].
    pose proof (count_rc_upd (objs st) (nobj st) o None Bo) as C. rewrite Ho in C. lia.
  - destruct (live_work _ _ _ o I) as (ob & Ho); [cbn; auto|]. rewrite Ho.
    pose proof (i_bo _ _ _ I _ _ Ho) as Bo. destruct (i_rc _ _ _ I _ _ Ho) as [_ R].
    destruct (rc ob) as [|[|n]] eqn:Er; [lia| |].
    + destruct (kill_ok _ _ _ _ _ I Ho Er) as (st' & -> & I' & Oe & Ne). cbn [bind].
      apply IH; auto. rewrite Oe, Ne.
      pose proof (count_rc_upd (objs st) (nobj st) o None Bo) as C. rewrite Ho in C. lia.
    + destruct (inv_obj st (o :: w) w X o ob (Obj (S n) (pay ob)) I Ho) as [A _]; cbn.
      * reflexivity.
      * apply incl_refl.
      * intros x. rewrite Er. destruct (Nat.eq_dec o x) as [->|N].
        -- rewrite Nat.eqb_refl. lia.
        -- assert (x =? o = false) as -> by (apply Nat.eqb_neq; auto). lia.
      * lia.
      * apply IH; auto. cbn.
        pose proof (count_rc_upd (objs st) (nobj st) o (Some (Obj (S n) (pay ob))) Bo) as C.
        rewrite Ho in C. cbn in C. lia.
Qed.

Lemma remove1_cnt o l x : In o l -> cnt (o :: remove1 o l) x = cnt l x.
Proof.
  induction l as [|y l IH]; intros H; [destruct H|]. cbn [remove1].
  destruct (y =? o) eqn:E.
  - apply Nat.eqb_eq in E. subst. reflexivity.
  - apply Nat.eqb_neq in E. destruct H as [|H]; [congruence|]. specialize (IH H).
    cbn in *. destruct (Nat.eq_dec y x), (Nat.eq_dec o x); lia.
Qed.

Lemma drop_ok st X o : inv st [] X -> In o (names st) ->
  inv (set_names st (remove1 o (names st))) [o] X.
Proof.
  intros [BO BM RC DE OWN UN ND STR KE FL LE] Hin.
  assert (C : forall x, cnt [o] x + cnt (remove1 o (names st)) x = cnt (names st) x).
  { intros x. rewrite <- (remove1_cnt o (names st) x Hin). cbn. destruct (Nat.eq_dec o x); lia. }
  split; auto; cbn [set_names objs nobj names].
  - intros x ob H. destruct (RC _ _ H). specialize (C x). cbn [count_occ] in *. lia.
  - intros x H. pose proof (DE _ H). specialize (C x). cbn [count_occ] in *. lia.
Qed.

Lemma del_ok st X o : inv st [] X -> In o (names st) ->
  exists st', decref o (set_names st (remove1 o (names st))) = Ok st' /\ inv st' [] X.
Proof.
  intros I H. apply release_ok; [apply drop_ok; auto|]. lia.
Qed.

(** ** The operations *)

Definition good {A} (P : A -> Prop) (r : res A) : Prop :=
  match r with Ok a => P a | Reject => True | Fault | Fuel => False end.

Lemma good_bind {A B} (P : A -> Prop) (Q : B -> Prop) r f :
  good P r -> (forall a, P a -> good Q (f a)) -> good Q (bind r f).
Proof. destruct r; cbn; auto. Qed.

Definition lives (st : state) (l : list nat) : Prop :=
  forall o, In o l -> exists ob, objs st o = Some ob.

Lemma lives_ext st st' l : ext st st' -> lives st l -> lives st' l.
Proof.
  intros E H o Ho. destruct (H o Ho) as (ob & Hb).
  destruct (e_obj _ _ E _ _ Hb) as (ob' & ? & _). eauto.
Qed.

Lemma mem_of_ok st W X o : inv st W X -> (exists ob, objs st o = Some ob) ->
  good (fun r => kept st o (fst r)) (mem_of st o).
Proof.
  intros I (ob & H). unfold mem_of. rewrite H. destruct ob as [c [d own b|d|i al refs]]; cbn; auto.
  - eapply (i_kept _ _ _ I); eauto. reflexivity.
  - eapply (i_kept _ _ _ I); eauto. reflexivity.
Qed.

Lemma fields_of_ok st W X o : inv st W X -> (exists ob, objs st o = Some ob) ->
  good (fun r => exists c al refs, objs st o = Some (Obj c (PInst (fst r) al refs)) /\
                                   mems st (fst r) = Some (CStruct (snd r))) (fields_of st o).
Proof.
  intros I (ob & H). unfold fields_of. rewrite H.
  destruct ob as [c [d own b|d|i al refs]]; cbn; auto.
  assert (K : kept st o i) by (eapply (i_kept _ _ _ I); eauto; reflexivity).
  destruct (kept_alive _ _ _ _ _ I K) as (cl & E). rewrite E. destruct cl; cbn; eauto 6.
Qed.

Lemma fields_kept st W X o i fs f m c al refs : inv st W X ->
  objs st o = Some (Obj c (PInst i al refs)) -> mems st i = Some (CStruct fs) ->
  In f fs -> refers f m -> kept st o m.
Proof.
  intros I Ho Hi Hf R.
  assert (K : kept st o i) by (eapply (i_kept _ _ _ I); eauto; reflexivity).
  destruct K as (q & H & Q). eapply kept_trans; [exact H|]. eapply (i_fld _ _ _ I); eauto.
Qed.

Lemma field_mem_in fs j m a : field_mem (nth_error fs j) = Ok (m, a) ->
  exists f, In f fs /\ refers f m.
Proof.
  destruct (nth_error fs j) as [[n|n|b [n|]]|] eqn:E; cbn; intros H; try discriminate;
    injection H as -> _; apply nth_error_In in E; eexists; split; eauto; reflexivity.
Qed.

Lemma field_mem_good fs j : good (fun _ => True) (field_mem (nth_error fs j)).
Proof. destruct (nth_error fs j) as [[n|n|b [n|]]|]; cbn; auto. Qed.

Lemma resolve_ok st W X args s : inv st W X -> lives st args ->
  good (fun r => exists o, nth_error args (src_arg s) = Some o /\ kept st o (fst r))
       (resolve st args s).
Proof.
  intros I L. destruct s as [i|i j]; cbn [resolve src_arg]; unfold nth_obj.
  - destruct (nth_error args i) as [o|] eqn:E; cbn; auto.
    pose proof (mem_of_ok st W X o I (L o (nth_error_In _ _ E))) as G.
    destruct (mem_of st o); cbn in *; auto. eauto.
  - destruct (nth_error args i) as [o|] eqn:E; cbn; auto.
    pose proof (fields_of_ok st W X o I (L o (nth_error_In _ _ E))) as G.
    destruct (fields_of st o) as [[m fs]| | |]; cbn in *; auto.
    destruct G as (c & al & refs & G1 & G2).
    pose proof (field_mem_good fs j) as FG.
    destruct (field_mem (nth_error fs j)) as [[m' a]| | |] eqn:Ef; cbn in *; auto.
    destruct (field_mem_in _ _ _ _ Ef) as (f & F1 & F2). exists o. split; auto.
    eapply fields_kept; eauto.
Qed.

(** Storing a pointer which is kept. *)
Lemma point_ok st W X o c i refs fs j tgt : inv st W X ->
  objs st o = Some (Obj c (PInst i false refs)) -> mems st i = Some (CStruct fs) ->
  kept st o (fst tgt) ->
  good (fun st' => inv st' W X /\ ext st st' /\ objs st' = objs st /\ names st' = names st)
       (point i fs j tgt st).
Proof.
  intros I Ho Hi K. unfold point.
  destruct (nth_error fs j) as [[n|n|a v]|] eqn:E; cbn; auto.
  destruct (Bool.eqb a (snd tgt)); cbn; auto.
  destruct (set_ptr_ok st W X o c i refs fs j a v (fst tgt) I Ho Hi E K) as [A B]. auto.
Qed.

Definition safe_src (args refs : list nat) (s : src) : Prop :=
  forall o, nth_error args (src_arg s) = Some o -> In o refs \/ nth_error args 0 = Some o.

Lemma exec_ok l : forall args st W X self rest c i refs,
  args = self :: rest -> inv st W X -> lives st args ->
  objs st self = Some (Obj c (PInst i false refs)) ->
  (forall s, In s l -> exists j s', s = SPoint 0 j s' /\ safe_src args refs s') ->
  good (fun st' => inv st' W X /\ ext st st' /\ objs st' = objs st /\ names st' = names st)
       (exec args l st).
Proof.
  induction l as [|s l IH]; intros args st W X self rest c i refs Ea I L Ho Hs; cbn [exec].
  - cbn. split; auto. split; [apply ext_refl|]. auto.
  - destruct (Hs s (or_introl eq_refl)) as (j & s' & -> & Sf).
    apply (good_bind (fun st' => inv st' W X /\ ext st st' /\ objs st' = objs st /\
                                 names st' = names st)).
    + cbn [exec1]. subst args. cbn [nth_obj nth_error bind].
      pose proof (fields_of_ok st W X self I (ex_intro _ _ Ho)) as G.
      destruct (fields_of st self) as [[m fs]| | |] eqn:Ef; cbn in G |- *; auto.
      destruct G as (c' & al & r' & G1 & G2). rewrite Ho in G1. injection G1 as <- <- <- <-.
      pose proof (resolve_ok st W X (self :: rest) s' I L) as R.
      destruct (resolve st (self :: rest) s') as [tgt| | |]; cbn in R |- *; auto.
      destruct R as (o & R1 & R2). eapply point_ok; eauto.
      destruct (Sf o R1) as [Hin|H0].
      * eapply kept_trans; [|exact R2]. apply rt_step. eexists. split; eauto.
      * cbn in H0. injection H0 as <-. exact R2.
    + intros st1 (I1 & E1 & O1 & N1).
      assert (G : good (fun st' => inv st' W X /\ ext st1 st' /\ objs st' = objs st1 /\
                                   names st' = names st1) (exec args l st1)).
      { eapply (IH args st1 W X self rest c i refs); auto.
        - eapply lives_ext; eauto.
        - rewrite O1. exact Ho.
        - intros s0 H. apply Hs. cbn. auto. }
      clear IH. rename G into IH.
      destruct (exec args l st1); cbn in *; auto.
      destruct IH as (A & B & C & D). split; auto. split; [eapply ext_trans; eauto|].
      split; congruence.
Qed.

Lemma inv_work st W W' X : (forall x, cnt W' x = cnt W x) -> inv st W X -> inv st W' X.
Proof.
  intros C [BO BM RC DE OWN UN ND STR KE FL LE]. split; auto.
  - intros x ob H. rewrite C. auto.
  - intros x H. rewrite C. auto.
Qed.

Lemma increfs_ok l : forall st W X, inv st W X -> lives st l ->
  exists st', increfs l st = Ok st' /\ inv st' (l ++ W) X /\ ext st st' /\
              names st' = names st /\ mems st' = mems st.
Proof.
  induction l as [|o l IH]; intros st W X I L; cbn [increfs].
  - exists st. split; auto. split; auto. split; [apply ext_refl|auto].
  - destruct (incref_ok st W X o I (L o (or_introl eq_refl))) as (st1 & -> & I1 & E1 & N1 & M1).
    cbn [bind]. destruct (IH st1 (o :: W) X I1) as (st2 & -> & I2 & E2 & N2 & M2).
    { eapply lives_ext; eauto. intros x Hx. apply L. cbn. auto. }
    exists st2. split; auto. split.
    { eapply inv_work; [|exact I2]. intros x. cbn. rewrite !count_occ_app. cbn.
      destruct (Nat.eq_dec o x); lia. }
    split; [eapply ext_trans; eauto|]. split; congruence.
Qed.

(** An alias for an instance which one of the references keeps. *)
Lemma new_alias_ok st X m ts k : inv st [] X -> lives st ts -> In k ts -> kept st k m ->
  good (fun r => inv (give (fst r) (snd r)) [] X) (new_pinst m true ts st).
Proof.
  intros I L Hk K. unfold new_pinst.
  destruct (increfs_ok ts st [] X I L) as (st1 & -> & I1 & E1 & _ & _). cbn [bind good].
  assert (H := new_obj_ok st1 [] X X (PInst m true ts) I1).
  cbn [own_of addr kids] in H.
  destruct H as (A & B & C); try (intros; contradiction); try discriminate.
  - constructor.
  - intros x ->. right. exists k. split; auto. eapply kept_ext; eauto.
  - auto.
  - apply give_ok. exact A.
Qed.

Lemma view_ok st X o m : inv st [] X -> (exists ob, objs st o = Some ob) -> kept st o m ->
  good (fun st' => inv st' [] X)
       (bind (incref o st) (fun st =>
          let (a, st) := new_obj (PArr m false (Some o)) st in Ok (give a st))).
Proof.
  intros I L K. destruct (incref_ok st [] X o I L) as (st1 & -> & I1 & E1 & _ & _).
  cbn [bind]. destruct (new_view_ok st1 [] X m o I1 (kept_ext _ _ _ _ E1 K)) as [A B].
  apply give_ok. exact A.
Qed.

Lemma new_arr_ok st X : inv st [] X ->
  good (fun st' => inv st' [] X)
       (let (m, st) := new_mem CData st in
        let (c, st) := new_obj (PCap m) st in
        let (a, st) := new_obj (PArr m false (Some c)) st in
        Ok (give a st)).
Proof.
  intros I. destruct (new_mem_ok st [] X CData I) as (I1 & E1 & O1).
  unfold new_mem in *. cbn [snd] in *. set (st1 := St _ _ _ _ _) in *.
  assert (Hm : mems st1 (nmem st) = Some CData) by (cbn; apply upd_eq).
  assert (H := new_obj_ok st1 [] (nmem st :: X) X (PCap (nmem st)) I1).
  cbn [own_of addr kids] in H.
  destruct H as (A & B & C); try discriminate.
  - intros m [<-|[]]. congruence.
  - intros m q [<-|[]] Hq. rewrite O1 in Hq. apply (i_own _ _ _ I) in Hq.
    apply Hq. eapply nmem_dead; eauto.
  - constructor; [intros []|constructor].
  - intros m ->. left. cbn. auto.
  - intros m fs f m' [<-|[]] Q. congruence.
  - intros m [<-|Hx]; auto. right. cbn. auto.
  - change (new_obj (PCap (nmem st)) st1) with (nobj st1, snd (new_obj (PCap (nmem st)) st1)).
    set (st2 := snd (new_obj (PCap (nmem st)) st1)) in *. cbv zeta beta iota.
    destruct (new_view_ok st2 [] X (nmem st) (nobj st1) A) as [D F].
    + eapply (i_kept _ _ _ A); [exact C|]. reflexivity.
    + apply give_ok. exact D.
Qed.

Lemma own_arr_ok st X : inv st [] X ->
  good (fun st' => inv st' [] X)
       (let (m, st) := new_mem CData st in
        let (a, st) := new_obj (PArr m true None) st in
        Ok (give a st)).
Proof.
  intros I. destruct (new_mem_ok st [] X CData I) as (I1 & E1 & O1).
  unfold new_mem in *. cbn [snd] in *. set (st1 := St _ _ _ _ _) in *.
  assert (Hm : mems st1 (nmem st) = Some CData) by (cbn; apply upd_eq).
  assert (H := new_obj_ok st1 [] (nmem st :: X) X (PArr (nmem st) true None) I1).
  cbn [own_of addr kids] in H.
  destruct H as (A & B & C); try discriminate.
  - intros m [<-|[]]. congruence.
  - intros m q [<-|[]] Hq. rewrite O1 in Hq. apply (i_own _ _ _ I) in Hq.
    apply Hq. eapply nmem_dead; eauto.
  - constructor; [intros []|constructor].
  - intros m ->. left. cbn. auto.
  - intros m fs f m' [<-|[]] Q. congruence.
  - intros m [<-|Hx]; auto. right. cbn. auto.
  - apply give_ok. exact A.
Qed.

Lemma in_targets (args : list nat) srcs s o : In s srcs -> nth_error args (src_arg s) = Some o ->
  In o (flat_map (fun t : nat => match nth_error args t with Some a => [a] | None => [] end)
                 (targets srcs)).
Proof.
  intros H E. apply in_flat_map. exists (src_arg s). split.
  - unfold targets. apply in_map. exact H.
  - rewrite E. cbn. auto.
Qed.

Lemma targets_lives st (args : list nat) (ts : list nat) : lives st args ->
  lives st (flat_map (fun t : nat => match nth_error args t with Some a => [a] | None => [] end) ts).
Proof.
  intros L o H. apply in_flat_map in H. destruct H as (t & _ & H).
  destruct (nth_error args t) eqn:E; [|destruct H]. destruct H as [<-|[]].
  apply L. eapply nth_error_In; eauto.
Qed.

Lemma wrap_result_ok st X args r : inv st [] X -> lives st args ->
  (forall c inits, r = RNewInst c inits -> inits = []) ->
  good (fun st' => inv st' [] X) (wrap_result args r st).
Proof.
  intros I L T. destruct r as [| | |srcs k|c inits|srcs k]; cbn [wrap_result].
  - exact I.
  - unfold nth_obj. destruct (nth_error args 0) as [o|] eqn:E; cbn [bind good]; auto.
    destruct (incref_ok st [] X o I (L o (nth_error_In _ _ E))) as (st1 & -> & I1 & _).
    cbn [bind good]. apply give_ok. exact I1.
  - apply new_arr_ok. exact I.
  - destruct (targets srcs) as [|t [|]] eqn:Et; cbn; auto.
    destruct (nth_error srcs k) as [s|] eqn:Es; cbn; auto.
    pose proof (resolve_ok st [] X args s I L) as R.
    destruct (resolve st args s) as [[m arr]| | |]; cbn in R |- *; auto.
    destruct arr; cbn; auto. destruct R as (o & R1 & R2).
    assert (t = src_arg s) as ->.
    { destruct srcs as [|s0 [|]]; cbn in Et; try discriminate. injection Et as <-.
      destruct k as [|k]; [cbn in Es; congruence|destruct k; discriminate]. }
    unfold nth_obj. rewrite R1. cbn [bind]. apply view_ok; auto.
    apply L. eapply nth_error_In; eauto.
  - rewrite (T _ _ eq_refl).
    destruct (new_inst_ok c st [] X I) as (m & st1 & E & A & B & C & D). rewrite E.
    cbn [init_ptrs bind]. apply give_ok. exact A.
  - destruct (nth_error srcs k) as [s|] eqn:Es; cbn; auto.
    pose proof (resolve_ok st [] X args s I L) as R.
    destruct (resolve st args s) as [[m arr]| | |]; cbn in R |- *; auto.
    destruct arr; cbn; auto. destruct R as (o & R1 & R2).
    pose proof (new_alias_ok st X m _ o I (targets_lives st args (targets srcs) L)
                  (in_targets args srcs s o (nth_error_In _ _ Es) R1) R2) as G.
    destruct (new_pinst m true _ st) as [[a b]| | |]; cbn in *; auto.
Qed.

Lemma has_in st o : has st o = true -> In o (names st).
Proof.
  unfold has. intros H. apply existsb_exists in H. destruct H as (x & H & E).
  apply Nat.eqb_eq in E. congruence.
Qed.

Lemma names_lives st W X : inv st W X -> lives st (names st).
Proof. intros I o H. eapply live_name; eauto. Qed.

Lemma has_lives st W X args : inv st W X -> forallb (has st) args = true -> lives st args.
Proof.
  intros I H o Ho. rewrite forallb_forall in H. eapply live_name; eauto.
  apply has_in. auto.
Qed.

Lemma saved_lives st f args : lives st args -> lives st (saved f args).
Proof.
  intros L o H. unfold saved in H. apply in_flat_map in H. destruct H as (i & _ & H).
  destruct (persistent f i); [|destruct H].
  destruct (nth_error args i) eqn:E; [|destruct H]. destruct H as [<-|[]].
  apply L. eapply nth_error_In; eauto.
Qed.

Lemma saved_safe f args j s : bound f = true -> In (SPoint 0 j s) (body f) ->
  safe_src args (saved f args) s.
Proof.
  intros B H o E. destruct (Nat.eq_dec (src_arg s) 0) as [Z|N].
  - right. congruence.
  - left. unfold saved. apply in_flat_map. exists (src_arg s). split.
    + apply in_seq. split; [lia|]. cbn. apply nth_error_Some. congruence.
    + assert (persistent f (src_arg s) = true) as ->.
      { unfold persistent. rewrite B. apply Nat.eqb_neq in N. rewrite N. cbn.
        apply existsb_exists. eexists. split; [exact H|]. apply Nat.eqb_refl. }
      rewrite E. cbn. auto.
Qed.

Definition pend (st : state) (X X' : list nat) : Prop := exists l, X' = l ++ X.

Lemma setup_ok L st X : inv st [] X ->
  exists X', inv (setup_inst L st) [] X' /\ ext st (setup_inst L st) /\
             names (setup_inst L st) = names st /\ objs (setup_inst L st) = objs st /\
             (L = LFortran -> X' = X).
Proof.
  intros I. destruct L; cbn [setup_inst].
  - destruct (new_mem_ok st [] X (CStruct []) I) as (A & B & C).
    exists (nmem st :: X). split; auto. split; auto. split; auto. split; auto. discriminate.
  - exists X. split; auto. split; [apply ext_refl|]. auto.
Qed.

Lemma call_ok L f args st X : inv st [] X -> lives st args -> tame_func f ->
  (body f <> [] -> exists self rest, args = self :: rest /\ owner st self) ->
  good (fun st' => exists X', inv st' [] X' /\
                    (L = LFortran \/ is_ptr_inst (out f) = false -> X' = X))
       (call L f args st).
Proof.
  intros I Lv (T1 & T2 & T3) Ow. unfold call.
  assert (exists X0 st0, (if is_ptr_inst (out f) then setup_inst L st else st) = st0 /\
            inv st0 [] X0 /\ ext st st0 /\ objs st0 = objs st /\
            (L = LFortran \/ is_ptr_inst (out f) = false -> X0 = X)) as (X0 & st0 & -> & I0 & E0 & O0 & Q0).
  { destruct (is_ptr_inst (out f)) eqn:Ep.
    - destruct (setup_ok L st X I) as (X' & A & B & C & D & E). exists X'. eexists.
      split; [reflexivity|]. split; [exact A|]. split; [exact B|]. split; [exact D|].
      intros [|]; [auto|discriminate].
    - exists X. eexists. split; [reflexivity|]. split; auto. split; [apply ext_refl|]. auto. }
  assert (L0 : lives st0 args) by (eapply lives_ext; eauto).
  set (r1 := match args with self :: _ => _ | [] => _ end).
  assert (G1 : good (fun st1 => inv st1 [] X0 /\ ext st0 st1 /\
                (body f <> [] -> exists self rest c i refs, args = self :: rest /\
                   objs st1 self = Some (Obj c (PInst i false refs)) /\
                   incl (saved f args) refs)) r1).
  { unfold r1. destruct args as [|self rest].
    - cbn. split; auto. split; [apply ext_refl|]. intros Hb.
      destruct (Ow Hb) as (? & ? & ? & _). discriminate.
    - destruct (bound f) eqn:Bf.
      + destruct (saved f (self :: rest)) as [|s0 sl] eqn:Es.
        * cbn. split; auto. split; [apply ext_refl|]. intros Hb.
          destruct (Ow Hb) as (? & ? & Ea & c & i & refs & Ho). injection Ea as <- <-.
          exists self, rest, c, i, refs. split; auto. rewrite O0. split; auto. intros ? [].
        * rewrite <- Es.
          assert (Hb : body f <> []).
          { intros Hb. unfold saved in Es. assert (In s0 (s0 :: sl)) by (cbn; auto).
            rewrite <- Es in H. apply in_flat_map in H. destruct H as (i & _ & H).
            unfold persistent in H. rewrite Hb in H. cbn in H. rewrite andb_false_r in H. destruct H. }
          destruct (Ow Hb) as (? & ? & Ea & c & i & refs & Ho). injection Ea as <- <-.
          rewrite <- O0 in Ho.
          destruct (add_refs_ok (saved f (self :: rest)) st0 [] X0 self c i false refs I0)
            as (st1 & -> & I1 & E1 & N1 & M1 & c1 & r1' & H1 & In1 & Inc1); auto.
          { apply saved_lives. exact L0. }
          cbn. split; auto. split; auto. intros _. exists self, rest, c1, i, r1'. auto.
      + cbn. split; auto. split; [apply ext_refl|]. intros Hb.
        pose proof (T2 Hb). congruence. }
  apply (good_bind _ _ _ _ G1). intros st1 (I1 & E1 & S1).
  assert (L1 : lives st1 args) by (eapply lives_ext; eauto).
  assert (G2 : good (fun st2 => inv st2 [] X0 /\ ext st1 st2) (exec args (body f) st1)).
  { destruct (body f) as [|s l] eqn:Eb; [cbn; split; auto; apply ext_refl|]. rewrite <- Eb in *.
    destruct S1 as (self & rest & c & i & refs & Ea & Ho & Inc); [congruence|].
    assert (HS : forall s1, In s1 (body f) ->
              exists j s', s1 = SPoint 0 j s' /\ safe_src args refs s').
    { intros s1 Hs. destruct (T1 s1 Hs) as (j & s' & ->).
      exists j, s'. split; auto. intros o Ho'.
      destruct (saved_safe f args j s' (T2 ltac:(congruence)) Hs o Ho') as [|]; auto. }
    pose proof (exec_ok (body f) args st1 [] X0 self rest c i refs Ea I1 L1 Ho HS) as G.
    destruct (exec args (body f) st1); cbn in *; auto. split; apply G. }
  apply (good_bind _ _ _ _ G2). intros st2 (I2 & E2).
  pose proof (wrap_result_ok st2 X0 args (out f) I2 (lives_ext _ _ _ E2 L1) T3) as G3.
  destruct (wrap_result args (out f) st2); cbn in *; auto. exists X0. auto.
Qed.

Lemma step_ok L p st X : inv st [] X -> tame st p ->
  good (fun st' => exists X', inv st' [] X' /\ (quiet L st p -> X' = X)) (step L p st).
Proof.
  intros I T.
  assert (W : forall r, good (fun st' => inv st' [] X) r ->
              good (fun st' => exists X', inv st' [] X' /\ (quiet L st p -> X' = X)) r).
  { intros [] G; cbn in *; eauto. }
  destruct p as [|o|c f args|f args|o j|o j v|o|o]; cbn [step].
  - apply W. apply own_arr_ok. exact I.
  - destruct (has st o) eqn:H; cbn [ret_if]; [|exact Logic.I]. apply W.
    pose proof (live_name _ _ _ _ I (has_in _ _ H)) as Lo.
    pose proof (mem_of_ok st [] X o I Lo) as G.
    destruct (mem_of st o) as [[m arr]| | |]; cbn [bind] in *; auto.
    destruct arr; cbn [ret_if]; [|exact Logic.I]. apply view_ok; auto.
  - destruct (forallb (has st) args && bound f) eqn:H; cbn [ret_if]; [|exact Logic.I].
    apply andb_prop in H. destruct H as [H Hb].
    destruct (new_inst_ok c st [] X I) as (m & st1 & E & A & B & C & D & N & O). rewrite E.
    change (new_obj (PInst m false []) st1) with (nobj st1, snd (new_obj (PInst m false []) st1)).
    set (st2 := snd (new_obj (PInst m false []) st1)) in *. cbv zeta beta iota.
    pose proof (give_ok st2 [] X (nobj st1) A) as I3.
    assert (G : good (fun st' => exists X', inv st' [] X' /\
                    (L = LFortran \/ is_ptr_inst (out (Fn true (body f) RNone)) = false -> X' = X))
       (call L (Fn true (body f) RNone) (nobj st1 :: args) (give (nobj st1) st2))).
    { apply call_ok; auto.
      - intros x [<-|Hx].
        + eapply live_name; [exact I3|]. cbn. auto.
        + eapply (lives_ext st (give (nobj st1) st2)); [|eapply has_lives; eauto|exact Hx].
          eapply ext_trans; [exact B|apply give_ext].
      - destruct T as (T1 & T2 & T3). split; [exact T1|]. split; [intros; reflexivity|intros ? ? Hz; discriminate Hz].
      - intros _. exists (nobj st1), args. split; auto. exists 1, m, []. exact C. }
    destruct (call L _ _ _); cbn in *; auto. destruct G as (X' & G1 & G2). exists X'. split; auto.
  - destruct (forallb (has st) args) eqn:H; cbn [ret_if]; [|exact Logic.I].
    destruct T as [T1 T2].
    pose proof (call_ok L f args st X I (has_lives _ _ _ _ I H) T1 T2) as G.
    destruct (call L f args st); cbn in *; auto. 
  - destruct (has st o) eqn:H; cbn [ret_if]; [|exact Logic.I].
    pose proof (live_name _ _ _ _ I (has_in _ _ H)) as Lo. unfold getter.
    pose proof (fields_of_ok st [] X o I Lo) as G. cbn [tame quiet] in *.
    destruct (fields_of st o) as [[i fs]| | |] eqn:Ef; cbn [bind good fst snd] in *; auto.
    destruct G as (c & al & refs & Ho & Hi).
    destruct (nth_error fs j) as [[m|m|[|] [m|]]|] eqn:Ej; cbn [good]; auto.
    + apply W. apply view_ok; auto. eapply fields_kept; eauto using nth_error_In. reflexivity.
    + exfalso. eapply T; eauto.
    + apply W. apply view_ok; auto. eapply fields_kept; eauto using nth_error_In. reflexivity.
    + destruct (setup_ok L st X I) as (X' & A & B & C & D & E).
      pose proof (new_alias_ok (setup_inst L st) X' m [o] o A) as G.
      destruct (new_pinst m true [o] (setup_inst L st)) as [[r st']| | |]; cbn in *; auto.
      * exists X'. split.
        -- apply G; auto.
           ++ intros x [<-|[]]. rewrite D. exact Lo.
           ++ eapply kept_ext; [exact B|]. eapply fields_kept; eauto using nth_error_In. reflexivity.
        -- intros [Q|Q]; auto. exfalso. eapply Q; eauto.
      * apply G; auto.
        -- intros x [<-|[]]. rewrite D. exact Lo.
        -- eapply kept_ext; [exact B|]. eapply fields_kept; eauto using nth_error_In. reflexivity.
      * apply G; auto.
        -- intros x [<-|[]]. rewrite D. exact Lo.
        -- eapply kept_ext; [exact B|]. eapply fields_kept; eauto using nth_error_In. reflexivity.
  - destruct (has st o && has st v) eqn:H; cbn [ret_if]; [|exact Logic.I]. apply W.
    apply andb_prop in H. destruct H as [H1 H2].
    pose proof (live_name _ _ _ _ I (has_in _ _ H1)) as Lo.
    pose proof (live_name _ _ _ _ I (has_in _ _ H2)) as Lv. unfold setter.
    destruct T as (c & i & refs & Ho).
    pose proof (fields_of_ok st [] X o I Lo) as G.
    destruct (fields_of st o) as [[i' fs]| | |] eqn:Ef; cbn [bind good fst snd] in *; auto.
    destruct G as (c' & al & refs' & Ho' & Hi). rewrite Ho in Ho'. injection Ho' as <- <- <- <-.
    pose proof (mem_of_ok st [] X v I Lv) as G.
    destruct (mem_of st v) as [tgt| | |]; cbn [bind good] in *; auto.
    destruct (add_ref_ok st [] X o v c i false refs I Lv Ho)
      as (st1 & -> & I1 & E1 & N1 & M1 & c1 & r1 & Hs1 & In1 & _). cbn [bind].
    pose proof (point_ok st1 [] X o c1 i r1 fs j tgt I1 Hs1) as P.
    assert (K1 : kept st1 o (fst tgt)).
    { eapply kept_trans; [|eapply kept_ext; [exact E1|exact G]]. apply rt_step.
      eexists. split; eauto. }
    rewrite M1 in P. specialize (P Hi K1). destruct (point i fs j tgt st1); cbn in *; auto.
    apply P.
  - destruct (has st o) eqn:H; cbn [ret_if]; [|exact Logic.I]. apply W.
    pose proof (live_name _ _ _ _ I (has_in _ _ H)) as Lo.
    destruct (incref_ok st [] X o I Lo) as (st1 & -> & I1 & _). cbn [bind good].
    apply give_ok. exact I1.
  - destruct (has st o) eqn:H; cbn [ret_if]; [|exact Logic.I]. apply W.
    destruct (del_ok st X o I (has_in _ _ H)) as (st1 & -> & I1). exact I1.
Qed.

Lemma run_ok L ops : forall st X, inv st [] X -> tame_run L ops st ->
  exists st' X', run L ops st = Ok st' /\ inv st' [] X' /\ (quiet_run L ops st -> X' = X).
Proof.
  induction ops as [|p ops IH]; intros st X I T; cbn [run tame_run quiet_run] in *.
  - exists st, X. auto.
  - destruct T as [T1 T2]. pose proof (step_ok L p st X I T1) as G.
    destruct (step L p st) as [st1| | |]; cbn in G; try contradiction.
    + destruct G as (X1 & I1 & Q1). destruct (IH _ _ I1 T2) as (st' & X' & A & B & C).
      exists st', X'. split; auto. split; auto. intros [Q2 Q3]. rewrite (C Q3). auto.
    + destruct (IH _ _ I T2) as (st' & X' & A & B & C).
      exists st', X'. split; auto. split; auto. intros [Q2 Q3]. auto.
Qed.

Lemma inv_empty : inv empty [] [].
Proof.
  split; cbn; try discriminate; auto; try (intros; contradiction).
  - intros; constructor.
Qed.

(** ** The statements *)

Lemma sees_alive st X : inv st [] X ->
  forall o m, exists_obj st o -> sees st o m -> alive st m.
Proof.
  intros I o m _ (m0 & S & C).
  assert (K : exists q, In m0 (owned st q)).
  { destruct S as [c d own b H|c i al refs H|c d H];
      edestruct (i_kept _ _ _ I _ _ _ H eq_refl) as (q & _ & Q); eauto. }
  assert (exists q, In m (owned st q)) as (q & Q).
  { clear S. apply clos_rt_rt1n in C. induction C as [x|x y z H1 H2 IH]; auto.
    apply IH. destruct K as (q & Q).
    destruct H1 as [x fs n E F|x fs n E F|x fs a n E F];
      destruct (i_fld _ _ _ I _ _ _ _ n Q E F eq_refl) as (q' & _ & Q'); eauto. }
  pose proof (i_own _ _ _ I _ _ Q). destruct (mems st m) eqn:E; [eexists; eauto|congruence].
Qed.

Lemma alive_lemma L ops : tame_run L ops empty ->
  exists st, run L ops empty = Ok st /\
    (forall o, In o (names st) -> exists_obj st o) /\
    (forall o m, exists_obj st o -> sees st o m -> alive st m).
Proof.
  intros T. destruct (run_ok L ops empty [] inv_empty T) as (st & X & R & I & _).
  exists st. split; auto. split.
  - intros o H. exact (live_name _ _ _ _ I H).
  - exact (sees_alive st X I).
Qed.

Lemma owned_sees st q m : In m (owned st q) -> sees st q m.
Proof.
  unfold owned. destruct (objs st q) as [[c p]|] eqn:E; [|intros []]. cbn [pay].
  destruct p as [d [] b|d|i [] refs]; cbn [own_of].
  - intros [<-|[]]. exists d. split; [eapply shows_arr; eauto|apply rt_refl].
  - intros [].
  - intros [<-|[]]. exists d. split; [eapply shows_cap; eauto|apply rt_refl].
  - intros [].
  - destruct (mems st i) as [[|fs]|] eqn:Ei.
    1,3: intros [<-|[]]; exists i; split; [eapply shows_inst; eauto|apply rt_refl].
    intros H. exists i. split; [eapply shows_inst; eauto|].
    apply in_app_or in H. destruct H as [H|[<-|[]]]; [|apply rt_refl].
    apply in_flat_map in H. destruct H as (f & Hf & H). apply rt_step.
    destruct f; cbn in H; try contradiction; destruct H as [<-|[]].
    + eapply leads_arr; eauto.
    + eapply leads_inst; eauto.
Qed.

Lemma max_rank (rank : nat -> nat) n : exists M, forall x, x < n -> rank x <= M.
Proof.
  induction n as [|n (M & H)]; [exists 0; lia|].
  exists (M + rank n). intros x Hx. destruct (Nat.eq_dec x n) as [->|]; [lia|].
  specialize (H x ltac:(lia)). lia.
Qed.

Lemma reachable st X : inv st [] X -> acyclic st ->
  forall o, exists_obj st o -> exists n, In n (names st) /\ holds st n o.
Proof.
  intros I (rank & A). destruct (max_rank rank (nobj st)) as (M & HM).
  assert (G : forall d o, M - rank o <= d -> exists_obj st o ->
              exists n, In n (names st) /\ holds st n o).
  { induction d as [|d IH]; intros o Hd (ob & Ho);
      destruct (i_rc _ _ _ I _ _ Ho) as [R1 R2]; cbn [count_occ] in R1;
      (destruct (cnt (names st) o) eqn:Ec;
       [|exists o; split; [apply (count_occ_In Nat.eq_dec); lia|apply rt_refl]]);
      destruct (total_ex (objs st) (nobj st) o) as (p & obp & Hp & Hk); try lia;
      assert (Rp : refers_to st p o) by (exists obp; auto);
      pose proof (A _ _ Rp); pose proof (HM _ (i_bo _ _ _ I _ _ Hp)).
    - lia.
    - destruct (IH p) as (n & N1 & N2); [lia|exists obp; auto|].
      exists n. split; auto. eapply rt_trans; [exact N2|]. apply rt_step. exact Rp. }
  intros o Ho. eapply G; eauto.
Qed.

Lemma release_lemma L ops st : tame_run L ops empty -> quiet_run L ops empty ->
  run L ops empty = Ok st -> acyclic st ->
  (forall o, exists_obj st o -> exists n, In n (names st) /\ holds st n o) /\
  (forall m, alive st m -> exists n o, In n (names st) /\ holds st n o /\ sees st o m).
Proof.
  intros T Q R A. destruct (run_ok L ops empty [] inv_empty T) as (st' & X & R' & I & E).
  rewrite R in R'. injection R' as <-. rewrite (E Q) in I.
  pose proof (reachable st [] I A) as Re. split; auto.
  intros m (c & Hm). destruct (i_leak _ _ _ I m) as [[]|(q & Hq)]; [congruence|].
  assert (Eq : exists_obj st q).
  { unfold owned in Hq. destruct (objs st q) eqn:Eq; [exists o; auto|destruct Hq]. }
  destruct (Re q Eq) as (n & N1 & N2). exists n, q. split; auto. split; auto.
  apply owned_sees. exact Hq.
Qed.


(** ** References which are never given back *)

(** a.x = np.zeros(n), again and again. *)
Fixpoint assign_again (k n : nat) : list op :=
  match n with
  | 0 => []
  | S n' => NewArr :: Set_ 0 0 k :: Del k :: assign_again (S k) n'
  end.

Definition held_arrays (st : state) (k : nat) (ds : list nat) : Prop :=
  nobj st = k /\ names st = [0] /\ length ds = k - 1 /\ 1 <= k /\
  (exists m refs v,
     objs st 0 = Some (Obj 1 (PInst m false refs)) /\
     mems st m = Some (CStruct [FPtr true v]) /\ m < nmem st /\
     (forall d, In d ds -> d <> m) /\
     (v = None \/ exists d, v = Some d /\ nth_error (rev ds) 0 = Some d)) /\
  (forall j d, nth_error ds j = Some d -> objs st (S j) = Some (Obj 1 (PArr d true None)) /\
                                         mems st d = Some CData /\ d < nmem st) /\
  NoDup ds.

Lemma run_app L a : forall b st st', run L a st = Ok st' -> run L (a ++ b) st = run L b st'.
Proof.
  induction a as [|p a IH]; intros b st st' H; cbn in *; [congruence|].
  destruct (step L p st); auto; discriminate.
Qed.

Lemma stale_step L st k ds : held_arrays st k ds ->
  exists st', run L [NewArr; Set_ 0 0 k; Del k] st = Ok st' /\
              held_arrays st' (S k) (ds ++ [nmem st]).
Proof.
  intros (Hk & Hn & Hl & H1 & (m & refs & v & H0 & Hm & Lm & Dm & Hv) & Ha & Nd).
  destruct k as [|k]; [lia|].
  pose (O1 := upd (objs st) (S k) (Some (Obj 1 (PArr (nmem st) true None)))).
  pose (M1 := upd (mems st) (nmem st) (Some CData)).
  assert (E1 : step L NewArr st = Ok (St O1 (S (S k)) M1 (S (nmem st)) [S k; 0])).
  { cbn. rewrite Hk, Hn. reflexivity. }
  pose (O := upd (upd O1 (S k) (Some (Obj 2 (PArr (nmem st) true None)))) 0
                 (Some (Obj 1 (PInst m false (refs ++ [S k]))))).
  pose (M := upd M1 m (Some (CStruct [FPtr true (Some (nmem st))]))).
  assert (E2 : step L (Set_ 0 0 (S k)) (St O1 (S (S k)) M1 (S (nmem st)) [S k; 0])
               = Ok (St O (S (S k)) M (S (nmem st)) [S k; 0])).
  { assert (A1 : O1 0 = Some (Obj 1 (PInst m false refs))).
    { unfold O1. rewrite upd_ne by lia. exact H0. }
    assert (A2 : O1 (S k) = Some (Obj 1 (PArr (nmem st) true None))) by apply upd_eq.
    assert (A3 : M1 m = Some (CStruct [FPtr true v])).
    { unfold M1. rewrite upd_ne by lia. exact Hm. }
    assert (A4 : has (St O1 (S (S k)) M1 (S (nmem st)) [S k; 0]) (S k) = true).
    { unfold has. cbn [names existsb]. rewrite Nat.eqb_refl. reflexivity. }
    unfold step. rewrite A4. unfold has. cbn [names existsb Nat.eqb orb andb ret_if].
    unfold setter, fields_of, mem_of. cbn [objs mems]. rewrite A1, A3, A2. cbn [bind].
    unfold add_ref, incref. cbn [objs]. rewrite A2. cbn [bind pay rc set_objs objs].
    rewrite upd_ne by lia. rewrite A1. reflexivity. }
  assert (OS : O (S k) = Some (Obj 2 (PArr (nmem st) true None))).
  { unfold O. rewrite upd_ne by lia. rewrite upd_eq. reflexivity. }
  assert (E3 : step L (Del (S k)) (St O (S (S k)) M (S (nmem st)) [S k; 0])
               = Ok (St (upd O (S k) (Some (Obj 1 (PArr (nmem st) true None)))) (S (S k)) M
                        (S (nmem st)) [0])).
  { unfold step, has. cbn [names existsb]. rewrite Nat.eqb_refl. cbn [orb ret_if remove1].
    rewrite Nat.eqb_refl. unfold decref. cbn [set_names objs nobj].
    assert (exists n, count_rc O (S (S k)) = S n) as (n & ->).
    { change (exists n, count_rc O (S k) + match O (S k) with Some ob => rc ob | None => 0 end = S n).
      rewrite OS. cbn [rc]. exists (S (count_rc O (S k))). lia. }
    cbn [release set_names objs]. rewrite OS. cbn [rc pay].
    destruct n; reflexivity. }
  cbn [run]. rewrite E1, E2, E3.
  eexists. split; [reflexivity|].
  unfold held_arrays. cbn [set_objs objs nobj mems nmem names].
  split; [reflexivity|]. split; [reflexivity|].
  split; [rewrite app_length; cbn; lia|]. split; [lia|].
  split; [|split].
  - exists m, (refs ++ [S k]), (Some (nmem st)).
    split; [rewrite upd_ne by lia; unfold O; apply upd_eq|].
    split; [apply upd_eq|]. split; [lia|]. split.
    + intros d Hd. apply in_app_or in Hd. destruct Hd as [Hd|[<-|[]]]; [auto|lia].
    + right. exists (nmem st). split; auto. rewrite rev_app_distr. reflexivity.
  - intros j d Hj. destruct (Nat.eq_dec j k) as [->|Nj].
    + assert (El : length ds = k) by lia.
      rewrite nth_error_app2 in Hj by lia. rewrite El, Nat.sub_diag in Hj. injection Hj as <-.
      rewrite upd_eq. split; [reflexivity|]. split; [|lia].
      unfold M. rewrite upd_ne by lia. apply upd_eq.
    + assert (Hlt : j < length (ds ++ [nmem st])) by (apply nth_error_Some; congruence).
      rewrite app_length in Hlt. cbn in Hlt.
      rewrite nth_error_app1 in Hj by lia. destruct (Ha _ _ Hj) as (A1 & A2 & A3).
      rewrite upd_ne by lia. unfold O, O1. rewrite !upd_ne by lia. split; auto.
      split; [|lia]. assert (d <> m) by (apply Dm; eapply nth_error_In; eauto).
      unfold M, M1. rewrite !upd_ne by lia. exact A2.
  - apply nodup_snoc; auto. intros Hd. apply In_nth_error in Hd. destruct Hd as (j & Hj).
    destruct (Ha _ _ Hj) as (_ & _ & ?). lia.
Qed.

Lemma stale_run L n : forall st k ds, held_arrays st k ds ->
  exists st' ds', run L (assign_again k n) st = Ok st' /\ held_arrays st' (k + n) (ds ++ ds').
Proof.
  induction n as [|n IH]; intros st k ds H.
  - exists st, []. rewrite app_nil_r, Nat.add_0_r. auto.
  - destruct (stale_step L st k ds H) as (st1 & R1 & H1).
    destruct (IH _ _ _ H1) as (st2 & ds2 & R2 & H2).
    exists st2, (nmem st :: ds2). split.
    + cbn [assign_again]. change (run L ([NewArr; Set_ 0 0 k; Del k] ++ assign_again (S k) n) st = Ok st2).
      rewrite (run_app L _ _ _ _ R1). exact R2.
    + rewrite Nat.add_succ_r. rewrite <- app_assoc in H2. exact H2.
Qed.

Lemma stale_lemma L n : exists st,
  run L (New [KPtr true] (Fn true [] RNone) [] :: assign_again 1 n) empty = Ok st /\
  names st = [0] /\
  forall j, S j < n -> exists m, shows st (S j) m /\ alive st m /\ ~ sees st 0 m.
Proof.
  set (s0 := St (upd (fun _ => None) 0 (Some (Obj 1 (PInst 0 false [])))) 1
                (upd (fun _ => None) 0 (Some (CStruct [FPtr true None]))) 1 [0]).
  assert (E : step L (New [KPtr true] (Fn true [] RNone) []) empty = Ok s0).
  { destruct L; reflexivity. }
  assert (H0 : held_arrays s0 1 []).
  { repeat (split; [cbn; auto; lia|]). split; [|split; [|constructor]].
    - exists 0, [], None. repeat (split; [cbn; auto; lia|]). auto.
    - intros [|j] d H; discriminate. }
  destruct (stale_run L n s0 1 [] H0) as (st & ds & R & H). cbn [app] in H.
  exists st. split; [|destruct H as (Hk & Hn & Hl & H1 & (m & refs & v & A0 & Am & Lm & Dm & Hv) & Ha & Nd)].
  { cbn [run]. rewrite E. exact R. }
  split; [exact Hn|]. intros j Hj.
  destruct (nth_error ds j) as [d|] eqn:Ed.
  2:{ apply nth_error_None in Ed. lia. }
  destruct (Ha _ _ Ed) as (B1 & B2 & B3). exists d.
  split; [eapply shows_arr; eauto|]. split; [eexists; eauto|].
  intros (m0 & S0 & C). assert (m0 = m) as ->.
  { destruct S0 as [? ? ? ? Z|? ? ? ? Z|? ? Z]; rewrite A0 in Z; congruence. }
  apply clos_rt_rt1n in C. destruct C as [|y z C1 C2].
  { apply (Dm m); auto. eapply nth_error_In; eauto. }
  assert (Hy : v = Some y).
  { destruct C1 as [x fs n0 Z F|x fs n0 Z F|x fs a n0 Z F]; rewrite Am in Z; injection Z as <-;
      destruct F as [F|[]]; congruence. }
  destruct Hv as [Hv|(d' & Hv & Hd')]; [congruence|].
  assert (y = d') as -> by congruence.
  assert (Ld : nth_error ds (length ds - 1) = Some d').
  { destruct (@exists_last _ ds) as (l & a & ->); [intros ->; discriminate|].
    rewrite rev_app_distr in Hd'. cbn in Hd'. injection Hd' as <-.
    rewrite app_length. cbn. rewrite Nat.add_sub, nth_error_app2, Nat.sub_diag by lia. reflexivity. }
  destruct (Ha _ _ Ld) as (_ & B4 & _).
  destruct C2 as [|y z C3 C4].
  - assert (j = length ds - 1).
    { eapply (proj1 (NoDup_nth_error ds) Nd); [apply nth_error_Some; congruence|congruence]. }
    lia.
  - destruct C3 as [? ? ? Z|? ? ? Z|? ? ? ? Z]; congruence.
Qed.

(** ** Deciding the hypotheses, for the examples *)

Definition tame_funcb (f : func) : bool :=
  forallb (fun s => match s with SPoint 0 _ _ => true | _ => false end) (body f)
  && match body f with [] => true | _ => bound f end
  && match out f with RNewInst _ (_ :: _) => false | _ => true end.

Definition ownerb (st : state) (o : nat) : bool :=
  match objs st o with Some (Obj _ (PInst _ false _)) => true | _ => false end.

Definition tameb (st : state) (p : op) : bool :=
  match p with
  | New _ f _ => tame_funcb f
  | Call f args =>
      tame_funcb f
      && match body f, args with
         | [], _ => true
         | _, self :: _ => ownerb st self
         | _, [] => false
         end
  | Get o j =>
      match fields_of st o with
      | Ok (_, fs) => match nth_error fs j with Some (FInst _) => false | _ => true end
      | _ => true
      end
  | Set_ o _ _ => ownerb st o
  | _ => true
  end.

Fixpoint tame_runb (L : lang) (ops : list op) (st : state) : bool :=
  match ops with
  | [] => true
  | p :: ops' =>
      tameb st p &&
      match step L p st with
      | Ok st' => tame_runb L ops' st'
      | _ => tame_runb L ops' st
      end
  end.

Lemma ownerb_ok st o : ownerb st o = true -> owner st o.
Proof.
  unfold ownerb, owner. destruct (objs st o) as [[c [| |i [] refs]]|]; try discriminate. eauto.
Qed.

Lemma tame_funcb_ok f : tame_funcb f = true -> tame_func f.
Proof.
  unfold tame_funcb. intros H. apply andb_prop in H. destruct H as [H H3].
  apply andb_prop in H. destruct H as [H1 H2]. rewrite forallb_forall in H1. split; [|split].
  - intros s Hs. specialize (H1 s Hs). destruct s as [[|i] j s'|]; try discriminate. eauto.
  - intros Hb. destruct (body f); congruence.
  - intros c inits E. rewrite E in H3. destruct inits; [auto|discriminate].
Qed.

Lemma tameb_ok st p : tameb st p = true -> tame st p.
Proof.
  destruct p; cbn; auto.
  - apply tame_funcb_ok.
  - intros H. apply andb_prop in H. destruct H as [H1 H2]. split; [apply tame_funcb_ok; auto|].
    intros Hb. destruct (body f); [congruence|]. destruct args as [|self rest]; [discriminate|].
    exists self, rest. split; auto. apply ownerb_ok. auto.
  - intros H i fs m E N. rewrite E, N in H. discriminate.
  - apply ownerb_ok.
Qed.

Lemma tame_runb_ok L ops : forall st, tame_runb L ops st = true -> tame_run L ops st.
Proof.
  induction ops as [|p ops IH]; intros st H; cbn [tame_runb tame_run] in *; auto.
  apply andb_prop in H. destruct H as [H1 H2]. split; [apply tameb_ok; auto|].
  destruct (step L p st); auto.
Qed.

Lemma quiet_fortran ops : forall st, quiet_run LFortran ops st.
Proof.
  induction ops as [|p ops IH]; intros st; cbn [quiet_run]; auto.
  split; [left; reflexivity|]. destruct (step LFortran p st); auto.
Qed.
