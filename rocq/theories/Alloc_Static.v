(* Proofs for Alloc: what the analysis knows while it visits a program that check_block accepts. *)
From Coq Require Import Bool Arith ZArith Lia List.
From Verif Require Import Alloc_Model Alloc_Spec.
Import ListNotations.
Open Scope list_scope.

Lemma mem_spec x l : mem x l = true <-> In x l.
Proof.
  unfold mem. rewrite existsb_exists. split.
  - intros (y & H & E). apply Nat.eqb_eq in E. subst. exact H.
  - intros H. exists x. split; [exact H|apply Nat.eqb_refl].
Qed.
Lemma mem_no x l : mem x l = false <-> ~ In x l.
Proof. rewrite <- mem_spec. destruct (mem x l); split; intros; congruence. Qed.
Lemma in_minus x l l' : In x (minus l l') <-> In x l /\ ~ In x l'.
Proof. unfold minus. rewrite filter_In, negb_true_iff, mem_no. tauto. Qed.
Lemma in_both x l l' : In x (both l l') <-> In x l /\ In x l'.
Proof. unfold both. rewrite filter_In, mem_spec. tauto. Qed.
Lemma in_loose kind x l : In x (loose_names kind l) <-> In x l /\ is_fixed (kind x) = false.
Proof. unfold loose_names. rewrite filter_In, negb_true_iff. tauto. Qed.
Lemma all_in_spec l l' : all_in l l' = true <-> (forall x, In x l -> In x l').
Proof. unfold all_in. rewrite forallb_forall. split; intros H x I; [apply mem_spec|apply mem_spec]; auto. Qed.

(* ------------------------------ the nodes above an Allocate ------------------------------ *)

Inductive closed : list frame -> Prop :=
| cl_nil : closed []
| cl_loop p : closed p -> closed (p ++ [FLoop])
| cl_if p : closed p -> closed (p ++ [FSec; FIf]).

Inductive closedl : list frame -> Prop :=
| cll_nil : closedl []
| cll_loop p : closedl p -> closedl (FLoop :: p)
| cll_if p : closedl p -> closedl (FSec :: FIf :: p).
Lemma closedl_app p q : closedl p -> closedl q -> closedl (p ++ q).
Proof. induction 1; intros; cbn; try constructor; auto. Qed.
Lemma closed_l p : closed p -> closedl p.
Proof. induction 1; [constructor|apply closedl_app; auto; repeat constructor|apply closedl_app; auto; repeat constructor]. Qed.
Lemma closed_open p : closed p -> open_path p = false.
Proof. intros C. apply closed_l in C. induction C; cbn; auto. Qed.

Definition intro_status (lp : bool) : status := if lp then Unknown else Unallocated.
Definition ok_info (i : info) : Prop := i_status i <> Unallocated \/ (closed (i_path i) /\ i_orphan i = false).
Definition semi_ok (i : info) : Prop := i_status i <> Unallocated \/ (exists p, closed p /\ i_path i = p ++ [FSec] /\ i_orphan i = false).
Definition clean (i : info) : Prop := has_sec i && negb (has_if i) = false.
Definition no_literal (sh : list (option Z)) : Prop := Forall (fun o => o = None) sh.
Definition weaker (s s' : list (option Z)) : Prop := s' = s \/ s' = map (fun _ => None) s.

Lemma weaker_refl s : weaker s s.
Proof. left; reflexivity. Qed.
Lemma weaker_trans a b c : weaker a b -> weaker b c -> weaker a c.
Proof.
  intros [->| ->] [->| ->]; unfold weaker; auto. right. rewrite map_map. reflexivity.
Qed.
Lemma weaker_length s s' : weaker s s' -> length s' = length s.
Proof. intros [->| ->]; [reflexivity|apply map_length]. Qed.
Lemma no_literal_map (s : list (option Z)) : no_literal (map (fun _ => None) s).
Proof. induction s; cbn; constructor; auto. Qed.
Lemma weaker_loose s s' : weaker s s' -> no_literal s -> no_literal s'.
Proof. intros [->| ->] H; [exact H|apply no_literal_map]. Qed.

(* ------------------------------ invariant ------------------------------ *)

Record good (kind : nat -> skind) (rank : nat -> nat) (lp : bool) (c : cst) (a : an) : Prop := mk_good {
  s_known : forall x, In x (known c) -> exists i, a_last a x = Some i /\ ok_info i /\ length (a_shape a x) = rank x
      /\ (forall ds, kind x = Fixed ds -> a_shape a x = map Some ds)
      /\ (kind x = Loose -> no_literal (a_shape a x))
      /\ ((is_fixed (kind x) = true \/ ~ In x (dirty c)) -> clean i);
  s_seen : forall x, In x (seen c) <-> a_last a x <> None;
  s_frees : forall x, In x (seen c) -> In x (a_frees a);
  s_sub : forall x, In x (known c) -> In x (seen c);
  s_pend : forall x, In x (pend c) -> ~ In x (known c) /\ In x (seen c) /\ is_fixed (kind x) = false
      /\ length (a_shape a x) = rank x /\ (kind x = Loose -> no_literal (a_shape a x))
      /\ exists i, a_last a x = Some i /\ i_path i = [FSec] /\ i_orphan i = false /\ i_status i = intro_status lp;
  s_once : forall x, In x (once c) -> In x (known c)
      /\ exists i, a_last a x = Some i /\ i_path i = [] /\ i_orphan i = false /\ i_status i = intro_status lp;
  s_id : forall x i, a_last a x = Some i -> (i_id i < a_next a)%nat
}.

Record trans (kind : nat -> skind) (asg alc : list nat) (c : cst) (a : an) (c' : cst) (a' : an) : Prop := mk_trans {
  t_frees : forall x, In x (a_frees a) -> In x (a_frees a');
  t_frees' : forall x, In x (a_frees a') -> In x (a_frees a) \/ In x asg;
  t_next : (a_next a <= a_next a')%nat;
  t_shape : forall x, In x (seen c) -> weaker (a_shape a x) (a_shape a' x);
  t_last : forall x i, a_last a' x = Some i -> a_last a x = Some i \/ ((a_next a <= i_id i)%nat /\ In x alc);
  t_status : forall x i, In x (known c) -> a_last a' x = Some i -> a_last a x = Some i \/ i_status i <> Unallocated;
  t_known : forall x, In x (known c) -> In x (known c');
  t_known' : forall x, In x (known c') -> In x (known c) \/ ((~ In x (seen c) \/ In x (pend c)) /\ exists i, a_last a' x = Some i /\ (a_next a <= i_id i)%nat);
  t_seen : forall x, In x (seen c) -> In x (seen c');
  t_seen' : forall x, In x (seen c') -> In x (seen c) \/ In x asg;
  t_asg : forall x, In x asg -> In x (seen c') /\ (In x (known c) \/ ~ In x (seen c) \/ In x (pend c));
  t_pend : forall x, In x (pend c) -> ~ In x asg -> In x (pend c');
  t_pend' : forall x, In x (pend c') -> In x (pend c);
  t_alc : forall x, In x alc -> In x asg /\ ~ (In x (known c) /\ is_fixed (kind x) = true)
}.

Lemma trans_refl kind rank lp c a : good kind rank lp c a -> trans kind [] [] c a c a.
Proof.
  intros G. constructor; cbn; auto; try tauto; intros; try apply weaker_refl.
Qed.

Lemma trans_trans kind rank lp s1 l1 s2 l2 c a c1 a1 c2 a2 :
  good kind rank lp c a -> good kind rank lp c1 a1 -> good kind rank lp c2 a2 ->
  trans kind s1 l1 c a c1 a1 -> trans kind s2 l2 c1 a1 c2 a2 -> trans kind (s1 ++ s2) (l1 ++ l2) c a c2 a2.
Proof.
  intros G G1 G2 T1 T2. constructor; intros.
  - apply (t_frees _ _ _ _ _ _ _ T2), (t_frees _ _ _ _ _ _ _ T1), H.
  - destruct (t_frees' _ _ _ _ _ _ _ T2 _ H) as [A|A]; [|rewrite in_app_iff; tauto].
    destruct (t_frees' _ _ _ _ _ _ _ T1 _ A); rewrite in_app_iff; tauto.
  - pose proof (t_next _ _ _ _ _ _ _ T1). pose proof (t_next _ _ _ _ _ _ _ T2). lia.
  - eapply weaker_trans; [apply (t_shape _ _ _ _ _ _ _ T1), H|apply (t_shape _ _ _ _ _ _ _ T2), (t_seen _ _ _ _ _ _ _ T1), H].
  - pose proof (t_next _ _ _ _ _ _ _ T1). destruct (t_last _ _ _ _ _ _ _ T2 _ _ H) as [A|[A B]].
    + destruct (t_last _ _ _ _ _ _ _ T1 _ _ A) as [A'|[A' B]]; [tauto|right; rewrite in_app_iff; tauto].
    + right; split; [lia|rewrite in_app_iff; tauto].
  - destruct (t_status _ _ _ _ _ _ _ T2 _ _ (t_known _ _ _ _ _ _ _ T1 _ H) H0) as [A|A]; [|tauto].
    apply (t_status _ _ _ _ _ _ _ T1 _ _ H A).
  - apply (t_known _ _ _ _ _ _ _ T2), (t_known _ _ _ _ _ _ _ T1), H.
  - destruct (t_known' _ _ _ _ _ _ _ T2 _ H) as [A|[A [i [B C]]]].
    + destruct (t_known' _ _ _ _ _ _ _ T1 _ A) as [D|[D [i [B C]]]]; [tauto|]. right. split; [exact D|].
      destruct (s_known _ _ _ _ _ G2 _ H) as (j & J & _). exists j. split; [exact J|].
      pose proof (t_next _ _ _ _ _ _ _ T1).
      destruct (t_last _ _ _ _ _ _ _ T2 _ _ J) as [K|[K _]]; [|lia]. congruence.
    + destruct (in_dec Nat.eq_dec x (known c)) as [K|K]; [tauto|]. right.
      pose proof (t_next _ _ _ _ _ _ _ T1). split.
      * destruct A as [A|A].
        -- left. intros W. apply A, (t_seen _ _ _ _ _ _ _ T1), W.
        -- right. apply (t_pend' _ _ _ _ _ _ _ T1), A.
      * exists i. split; [exact B|lia].
  - apply (t_seen _ _ _ _ _ _ _ T2), (t_seen _ _ _ _ _ _ _ T1), H.
  - destruct (t_seen' _ _ _ _ _ _ _ T2 _ H) as [A|A]; [|rewrite in_app_iff; tauto].
    destruct (t_seen' _ _ _ _ _ _ _ T1 _ A); rewrite in_app_iff; tauto.
  - apply in_app_iff in H. destruct H as [H|H].
    + destruct (t_asg _ _ _ _ _ _ _ T1 _ H) as [A B]. split; [apply (t_seen _ _ _ _ _ _ _ T2), A|exact B].
    + destruct (t_asg _ _ _ _ _ _ _ T2 _ H) as [A [B|[B|B]]]; split; auto.
      * destruct (t_known' _ _ _ _ _ _ _ T1 _ B) as [C|[[C|C] _]]; tauto.
      * right. left. intros W. apply B, (t_seen _ _ _ _ _ _ _ T1), W.
      * right. right. apply (t_pend' _ _ _ _ _ _ _ T1), B.
  - rewrite in_app_iff in H0. apply (t_pend _ _ _ _ _ _ _ T2); [|tauto]. apply (t_pend _ _ _ _ _ _ _ T1); tauto.
  - apply (t_pend' _ _ _ _ _ _ _ T1), (t_pend' _ _ _ _ _ _ _ T2), H.
  - apply in_app_iff in H. rewrite in_app_iff. destruct H as [H|H].
    + destruct (t_alc _ _ _ _ _ _ _ T1 _ H). tauto.
    + destruct (t_alc _ _ _ _ _ _ _ T2 _ H) as [A B]. split; [tauto|]. intros [C D]. apply B. split; [|exact D].
      apply (t_known _ _ _ _ _ _ _ T1), C.
Qed.

(* ------------------------------ an assignment ------------------------------ *)

Lemma dim_eqb_refl d : dim_eqb d d = true.
Proof. destruct d; cbn; rewrite ?Z.eqb_refl, ?Nat.eqb_refl; reflexivity. Qed.
Lemma dims_eqb_refl l : dims_eqb l l = true.
Proof. induction l; cbn; rewrite ?dim_eqb_refl; auto. Qed.
Lemma dim_eqb_eq a b : dim_eqb a b = true -> a = b.
Proof.
  destruct a, b; cbn; intros H; try discriminate.
  - apply Z.eqb_eq in H. congruence.
  - apply Nat.eqb_eq in H. congruence.
  - apply andb_true_iff in H. destruct H as [A B]. apply Nat.eqb_eq in A, B. congruence.
Qed.
Lemma dims_eqb_eq a : forall b, dims_eqb a b = true -> a = b.
Proof.
  induction a; destruct b; cbn; intros H; try discriminate; [reflexivity|].
  apply andb_true_iff in H. destruct H as [A B]. apply dim_eqb_eq in A. apply IHa in B. congruence.
Qed.
Lemma own_dims_some y ds : forall i, own_dims y i (map Some ds) = map DLit ds.
Proof. induction ds; intros; cbn; [reflexivity|]. rewrite IHds. reflexivity. Qed.
Lemma own_dims_none y sh : forall i, no_literal sh -> map static_of (own_dims y i sh) = map (fun _ => None) sh.
Proof. induction sh; intros i H; cbn; [reflexivity|]. inversion H; subst. cbn. rewrite IHsh; auto. Qed.
Lemma own_dims_static y sh : forall i, map static_of (own_dims y i sh) = sh.
Proof. induction sh as [|[n|] sh IH]; intros; cbn; [reflexivity| |]; rewrite IH; reflexivity. Qed.
Lemma literals_spec ds : forall ns, literals ds ns = true -> ds = map DLit ns.
Proof.
  induction ds as [|d ds IH]; destruct ns; cbn; intros H; try discriminate; [reflexivity|destruct d; discriminate|].
  destruct d; try discriminate. apply andb_true_iff in H. destruct H as [A B]. apply Z.eqb_eq in A. rewrite (IH _ B). subst. reflexivity.
Qed.
Lemma own_dims_length y sh : forall i, length (own_dims y i sh) = length sh.
Proof. induction sh as [|[n|] sh IH]; intros; cbn; auto. Qed.
Lemma all_lit ds : forallb (fun o : option Z => match o with Some _ => true | None => false end) (map Some ds) = true.
Proof. induction ds; cbn; auto. Qed.

Lemma fixed_dims kind rank lp c a r ns : good kind rank lp c a -> (forall x, In x (rhs_reads r) -> In x (known c)) -> fixed_rhs kind r ns = true ->
  rhs_dims a r = map DLit ns /\ is_user r = false.
Proof.
  intros G R H. destruct r as [ds f|call y ys f|ds f]; cbn in *; [| |discriminate].
  - split; [apply literals_spec, H|reflexivity].
  - destruct (kind y) as [ms| |] eqn:K; try discriminate. destruct (list_eq_dec Z.eq_dec ms ns) as [->|]; [|discriminate].
    destruct (s_known _ _ _ _ _ G y (R _ (or_introl eq_refl))) as (i & _ & _ & _ & F & _). rewrite (F _ K), own_dims_some. auto.
Qed.
Lemma static_lit ns : map static_of (map DLit ns) = map Some ns.
Proof. rewrite map_map. reflexivity. Qed.
Lemma rhs_dims_length kind rank lp c a r : good kind rank lp c a -> (forall x, In x (rhs_reads r) -> In x (known c)) ->
  length (rhs_dims a r) = rhs_rank rank r.
Proof.
  intros G R. destruct r as [ds f|call y ys f|ds f]; cbn in *; auto.
  destruct (s_known _ _ _ _ _ G y (R _ (or_introl eq_refl))) as (i & _ & _ & L & _). rewrite own_dims_length. exact L.
Qed.
Lemma rhs_static_length a r : length (rhs_static a r) = length (rhs_dims a r).
Proof. destruct r; cbn; rewrite ?map_length; reflexivity. Qed.
Lemma loose_static kind rank lp c a r : good kind rank lp c a -> (forall x, In x (rhs_reads r) -> In x (known c)) -> loose_rhs kind r = true ->
  no_literal (rhs_static a r).
Proof.
  intros G R H. destruct r as [ds f|call y ys f|ds f]; cbn in *.
  - clear R. induction ds as [|d ds IH]; cbn in *; [constructor|]. destruct d; try discriminate; constructor; auto; apply IH; exact H.
  - destruct (kind y) eqn:K; try discriminate.
    destruct (s_known _ _ _ _ _ G y (R _ (or_introl eq_refl))) as (i & _ & _ & _ & _ & F & _). rewrite own_dims_static. auto.
  - clear. induction ds; cbn; constructor; auto.
Qed.
(* dimensions that do not read x are not the dimensions of x, unless these are literals *)
Lemma own_reads x sh : forall i, dims_eqb (own_dims x i sh) (own_dims x i sh) = true -> ~ In x (flat_map dim_reads (own_dims x i sh)) ->
  forallb (fun o : option Z => match o with Some _ => true | None => false end) sh = true.
Proof.
  induction sh as [|[n|] sh IH]; intros i _ H; cbn in *; [reflexivity| |tauto].
  apply (IH (S i)); [apply dims_eqb_refl|exact H].
Qed.
Lemma dims_reads a r x : In x (flat_map dim_reads (rhs_dims a r)) -> In x (rhs_reads r).
Proof.
  destruct r as [ds f|call y ys f|ds f]; cbn; auto. generalize 0%nat. induction (a_shape a y) as [|[n|] sh IH]; cbn; intros k H; [tauto| |].
  - apply (IH _ H).
  - destruct H as [H|H]; [auto|apply (IH _ H)].
Qed.

Lemma clean_fresh st n : clean (mk_info st [] false n).
Proof. reflexivity. Qed.

Lemma upd_same {A} (m : nat -> A) x v : upd m x v x = v.
Proof. unfold upd. rewrite Nat.eqb_refl. reflexivity. Qed.
Lemma upd_other {A} (m : nat -> A) x v y : y <> x -> upd m x v y = m y.
Proof. unfold upd. intros H. destruct (Nat.eqb y x) eqn:E; [apply Nat.eqb_eq in E; tauto|reflexivity]. Qed.

(* what is generated for an assignment *)
Inductive acase (kind : nat -> skind) (rank : nat -> nat) (lp : bool) (x : nat) (r : rhs) (c : cst) (a : an) : gblock -> an -> Prop :=
| ac_keep i : In x (known c) -> a_last a x = Some i -> clean i ->
    dims_eqb (rhs_dims a r) (own_dims x 0 (a_shape a x)) = true -> is_user r = false ->
    acase kind rank lp x r c a (GCons (GAssign x r) GNil) a
| ac_alloc st sh fr : ~ In x (rhs_reads r) -> weaker (map static_of (rhs_dims a r)) sh ->
    (In x (seen c) -> weaker (a_shape a x) sh) ->
    (forall y, In y (a_frees a) -> In y fr) -> (forall y, In y fr -> In y (a_frees a) \/ y = x) -> In x fr ->
    (In x (known c) /\ st <> Unallocated /\ is_fixed (kind x) = false
     \/ ~ In x (known c) /\ (~ In x (seen c) \/ In x (pend c)) /\ st = intro_status lp) ->
    (forall ns, kind x = Fixed ns -> sh = map Some ns) -> (kind x = Loose -> no_literal sh) -> length sh = rank x ->
    acase kind rank lp x r c a (GCons (GAlloc x (rhs_dims a r) st (is_user r)) (GCons (GAssign x r) GNil)) (add_alloc x st sh fr a).

Lemma closed_clean i : closed (i_path i) -> i_orphan i = false -> clean i.
Proof.
  unfold clean, has_sec, has_if. intros C ->. cbn. apply closed_l in C. induction C; cbn; auto.
Qed.
Lemma reopen_ok i : ok_info i -> (if open_sec i then i_status i else if has_if_or_loop i then Unknown else Allocated) <> Unallocated.
Proof.
  intros [H|[C O']].
  - destruct (open_sec i); [exact H|destruct (has_if_or_loop i); discriminate].
  - unfold open_sec. rewrite (closed_open _ C), O'. cbn. destruct (has_if_or_loop i); discriminate.
Qed.
Lemma not_user_static a r : is_user r = false -> rhs_static a r = map static_of (rhs_dims a r).
Proof. destruct r; cbn; auto; discriminate. Qed.
Lemma rhs_static_weaker a r : weaker (map static_of (rhs_dims a r)) (rhs_static a r).
Proof. destruct r; cbn; [left|left|right]; try reflexivity. rewrite map_map. reflexivity. Qed.
Lemma none_weaker ds (sh : list (option Z)) : length ds = length sh -> weaker (map static_of ds) (map (fun _ => None) sh).
Proof. intros H. right. rewrite map_map. revert sh H. induction ds; destruct sh; cbn; intros; try discriminate; f_equal; auto. Qed.

Lemma assign_cases kind rank lp fz x r c a c' : check_assign kind rank fz x r c = Some c' -> good kind rank lp c a ->
  acase kind rank lp x r c a (fst (visit_assign lp x r a)) (snd (visit_assign lp x r a))
  /\ (c' = c /\ (exists i, a_last a x = Some i /\ clean i /\ snd (visit_assign lp x r a) = a) /\ In x (known c) /\ (forall y, In y (rhs_reads r) -> In y (known c))
        /\ (kind x = Free -> own_update x r = true)
      \/ In x (known c) /\ c' = mk_cst (known c) (seen c) (pend c) (minus (once c) [x]) (minus (dirty c) [x]) /\ (kind x = Free -> ~ In x fz) /\ (forall y, In y (rhs_reads r) -> In y (known c)) /\ is_fixed (kind x) = false
      \/ ~ In x (known c) /\ c' = mk_cst (x :: known c) (x :: seen c) (minus (pend c) [x]) (x :: once c) (minus (dirty c) [x]) /\ (forall y, In y (rhs_reads r) -> In y (known c))
          /\ exists sh fr, snd (visit_assign lp x r a) = add_alloc x (intro_status lp) sh fr a).
Proof.
  intros H G. unfold check_assign in H. destruct (all_in (rhs_reads r) (known c)) eqn:R; [|discriminate].
  destruct (Nat.eqb (rhs_rank rank r) (rank x)) eqn:K; [|discriminate]. cbn [andb] in H.
  pose proof (proj1 (all_in_spec _ _) R) as R'. clear R. apply Nat.eqb_eq in K.
  pose proof (rhs_dims_length _ _ _ _ _ _ G R') as L. rewrite K in L.
  destruct (mem x (known c)) eqn:M.
  - apply mem_spec in M. destruct (s_known _ _ _ _ _ G x M) as (i & I & OK & SL & FX & LS & CL).
    pose proof (s_frees _ _ _ _ _ G _ (s_sub _ _ _ _ _ G _ M)) as FR.
    destruct (is_fixed (kind x)) eqn:FK.
    + destruct (kind x) as [ns| |] eqn:KX; try discriminate. destruct (fixed_rhs kind r ns) eqn:F; [|discriminate]. injection H as H; subst c'.
      destruct (fixed_dims _ _ _ _ _ _ _ G R' F) as [D U]. pose proof (FX _ eq_refl) as S. pose proof (CL (or_introl eq_refl)) as C.
      assert (V : visit_assign lp x r a = (GCons (GAssign x r) GNil, a)).
      { unfold visit_assign. rewrite I, D, S, own_dims_some, dims_eqb_refl, all_lit, U. cbn [negb orb andb]. rewrite C. reflexivity. }
      rewrite V. cbn [fst snd]. split.
      * apply (ac_keep _ _ _ _ _ _ _ i); auto. rewrite D, S, own_dims_some. apply dims_eqb_refl.
      * left. repeat split; auto; [exists i; auto|discriminate].
    + assert (H' : (if own_update x r && negb (mem x (dirty c)) then Some c
              else if negb (mem x (rhs_reads r)) && match kind x with Free => negb (mem x fz) | _ => true end
                   then Some (mk_cst (known c) (seen c) (pend c) (minus (once c) [x]) (minus (dirty c) [x])) else None) = Some c')
        by (destruct (kind x); [discriminate|exact H|exact H]). clear H.
      destruct (own_update x r && negb (mem x (dirty c))) eqn:OU.
      * injection H' as H'; subst c'. apply andb_true_iff in OU. destruct OU as [OU ND]. apply negb_true_iff, mem_no in ND.
        destruct r as [ds f|[|] y ys f|ds f]; cbn in OU; try discriminate. apply Nat.eqb_eq in OU. subst y.
        assert (V : visit_assign lp x (RElem false x ys f) a = (GCons (GAssign x (RElem false x ys f)) GNil, a)).
        { unfold visit_assign. rewrite I. cbn [rhs_dims is_user is_call]. rewrite dims_eqb_refl, andb_false_r. cbn [negb orb]. rewrite (CL (or_intror ND)). reflexivity. }
        rewrite V. cbn [fst snd]. split.
        -- apply (ac_keep _ _ _ _ _ _ _ i); auto; [cbn; apply dims_eqb_refl].
        -- left. repeat split; auto; [exists i; auto|]. intros _. cbn. apply Nat.eqb_refl.
      * destruct (negb (mem x (rhs_reads r)) && match kind x with Free => negb (mem x fz) | _ => true end) eqn:N; [|discriminate].
        injection H' as H'; subst c'. apply andb_true_iff in N. destruct N as [N NF]. apply negb_true_iff, mem_no in N.
        split.
        -- unfold visit_assign. rewrite I.
           set (same := dims_eqb (rhs_dims a r) (own_dims x 0 (a_shape a x))).
           set (lit := forallb (fun o => match o with Some _ => true | None => false end) (a_shape a x)).
           destruct (negb same || is_user r || (negb lit && is_call r)) eqn:B; cbn [fst snd].
           ++ pose proof (reopen_ok _ OK) as ST.
              set (st := if open_sec i then i_status i else if has_if_or_loop i then Unknown else Allocated) in *.
              assert (Efr : (match st with Unallocated => x :: a_frees a | _ => a_frees a end) = a_frees a) by (destruct st; tauto). rewrite Efr.
              apply ac_alloc; auto.
              ** apply none_weaker. congruence.
              ** intros _. right. reflexivity.
              ** intros ns E. rewrite E in FK. discriminate.
              ** intros _. apply no_literal_map.
              ** rewrite map_length. exact SL.
           ++ apply orb_false_iff in B. destruct B as [B _]. apply orb_false_iff in B. destruct B as [B U]. apply negb_false_iff in B.
              destruct (has_sec i && negb (has_if i)) eqn:Q; cbn [fst snd].
              ** assert (ST : i_status i <> Unallocated).
                 { destruct OK as [OK|[OK1 OK2]]; [exact OK|]. pose proof (closed_clean _ OK1 OK2) as Z. unfold clean in Z. congruence. }
                 rewrite <- U. apply ac_alloc; auto.
                 --- left. apply dims_eqb_eq in B. rewrite B, own_dims_static. reflexivity.
                 --- intros _. left. reflexivity.
              ** apply (ac_keep _ _ _ _ _ _ _ i); auto.
        -- right. left. repeat split; auto. intros E. rewrite E in NF. apply negb_true_iff, mem_no in NF. exact NF.
  - destruct ((negb (mem x (seen c)) || mem x (pend c)) &&
      match kind x with Fixed ns => negb (mem x (seen c)) && fixed_rhs kind r ns | Loose => loose_rhs kind r | Free => true end) eqn:B; [|discriminate].
    injection H as H; subst c'. apply mem_no in M. apply andb_true_iff in B. destruct B as [B KX].
    assert (B' : ~ In x (seen c) \/ In x (pend c)).
    { apply orb_true_iff in B. destruct B as [B|B]; [left; apply negb_true_iff, mem_no in B; exact B|right; apply mem_spec, B]. }
    assert (N : ~ In x (rhs_reads r)) by (intros Q; apply M, R', Q).
    assert (Goal' : acase kind rank lp x r c a (fst (visit_assign lp x r a)) (snd (visit_assign lp x r a))
       /\ exists sh fr, snd (visit_assign lp x r a) = add_alloc x (intro_status lp) sh fr a).
    { destruct (a_last a x) as [i|] eqn:I.
      - assert (W : In x (seen c)) by (apply (s_seen _ _ _ _ _ G); congruence).
        assert (P : In x (pend c)) by tauto.
        destruct (s_pend _ _ _ _ _ G _ P) as (_ & _ & FK & SL & LS & j & J & P1 & P2 & P3). rewrite I in J. injection J as <-.
        assert (O1 : open_sec i = true) by (unfold open_sec; rewrite P1; reflexivity).
        assert (O2 : has_sec i && negb (has_if i) = true) by (unfold has_sec, has_if; rewrite P1, P2; reflexivity).
        pose proof (s_frees _ _ _ _ _ G _ W) as FR.
        unfold visit_assign. rewrite I, O1, O2, P3.
        set (same := dims_eqb (rhs_dims a r) (own_dims x 0 (a_shape a x))).
        set (lit := forallb (fun o => match o with Some _ => true | None => false end) (a_shape a x)).
        destruct (negb same || is_user r || (negb lit && is_call r)) eqn:Q; cbn [fst snd].
        + split; [|eexists; eexists; reflexivity]. apply ac_alloc; auto.
          * apply none_weaker. congruence.
          * intros _. right. reflexivity.
          * intros y Y. destruct (intro_status lp); [right; exact Y|exact Y|exact Y].
          * intros y Y. destruct (intro_status lp); [destruct Y as [Y|Y]; auto|auto|auto].
          * destruct (intro_status lp); [left; reflexivity|exact FR|exact FR].
          * intros ns E. rewrite E in FK. discriminate.
          * intros _. apply no_literal_map.
          * rewrite map_length. exact SL.
        + apply orb_false_iff in Q. destruct Q as [Q _]. apply orb_false_iff in Q. destruct Q as [Q U]. apply negb_false_iff in Q.
          split; [|eexists; eexists; reflexivity]. rewrite <- U. apply ac_alloc; auto.
          * left. apply dims_eqb_eq in Q. rewrite Q, own_dims_static. reflexivity.
          * intros _. left. reflexivity.
          * intros ns E. rewrite E in FK. discriminate.
      - assert (W : ~ In x (seen c)) by (rewrite (s_seen _ _ _ _ _ G); congruence).
        unfold visit_assign. rewrite I. cbn [fst snd]. fold (intro_status lp). split; [|eexists; eexists; reflexivity].
        apply ac_alloc; auto.
        + apply rhs_static_weaker.
        + tauto.
        + intros y Y. right. exact Y.
        + intros y [Y|Y]; auto.
        + left. reflexivity.
        + intros ns E. rewrite E in KX. apply andb_true_iff in KX. destruct KX as [_ KX].
          destruct (fixed_dims _ _ _ _ _ _ _ G R' KX) as [D U]. rewrite (not_user_static _ _ U), D. apply static_lit.
        + intros E. rewrite E in KX. apply (loose_static _ _ _ _ _ _ G R' KX).
        + rewrite rhs_static_length. exact L. }
    split; [apply Goal'|]. right. right. split; [exact M|]. split; [reflexivity|]. split; [exact R'|]. exact (proj2 Goal').
Qed.

Lemma assign_static kind rank lp fz x r c a c' g a' : check_assign kind rank fz x r c = Some c' -> good kind rank lp c a ->
  visit_assign lp x r a = (g, a') -> good kind rank lp c' a' /\ trans kind [x] (map fst (allocs_block g)) c a c' a'.
Proof.
  intros H G V. destruct (assign_cases _ _ _ _ _ _ _ _ _ H G) as [A B]. rewrite V in A, B. cbn [fst snd] in A, B. clear V H.
  assert (KS : In x (known c) -> In x (seen c)) by apply (s_sub _ _ _ _ _ G).
  destruct A as [i K I C D U|st sh fr N W W' F1 F2 F3 Q KF KL SL].
  - (* no Allocate *)
    cbn [allocs_block allocs_stmt map app].
    assert (T : forall d o, trans kind [x] [] c a (mk_cst (known c) (seen c) (pend c) o d) a).
    { intros. constructor; cbn; auto; try tauto; intros; try apply weaker_refl.
      destruct H as [<-|[]]. auto. }
    destruct B as [(-> & _)|[(_ & -> & _)|(Z & _)]].
    + split; [exact G|]. destruct c; apply T.
    + split; [|apply T]. constructor; cbn; try apply G.
      * intros y Y. destruct (s_known _ _ _ _ _ G y Y) as (j & J & A1 & A2 & A3 & A4 & A5). exists j. repeat split; auto.
        intros [Z|Z]; [apply A5; auto|]. destruct (Nat.eq_dec y x) as [->|E]; [congruence|]. apply A5. right. intros Q. apply Z. apply in_minus. cbn. split; [exact Q|intuition].
      * intros y Y. apply in_minus in Y. apply (s_once _ _ _ _ _ G y (proj1 Y)).
    + tauto.
  - cbn [allocs_block allocs_stmt map app fst].
    assert (E1 : a_last (add_alloc x st sh fr a) x = Some (mk_info st [] false (a_next a))) by (cbn; apply upd_same).
    assert (E2 : forall y, y <> x -> a_last (add_alloc x st sh fr a) y = a_last a y) by (intros; cbn; apply upd_other; auto).
    assert (E3 : a_shape (add_alloc x st sh fr a) x = sh) by (cbn; apply upd_same).
    assert (E4 : forall y, y <> x -> a_shape (add_alloc x st sh fr a) y = a_shape a y) by (intros; cbn; apply upd_other; auto).
    assert (E5 : a_frees (add_alloc x st sh fr a) = fr) by reflexivity.
    assert (E6 : a_next (add_alloc x st sh fr a) = S (a_next a)) by reflexivity.
    assert (OKI : st <> Unallocated \/ (closed [] /\ false = false)) by (right; split; [constructor|reflexivity]).
    assert (IDS : forall y i, a_last (add_alloc x st sh fr a) y = Some i -> (i_id i < S (a_next a))%nat).
    { intros y i Y. destruct (Nat.eq_dec y x) as [->|E]; [rewrite E1 in Y; injection Y as <-; cbn; lia|].
      rewrite E2 in Y by exact E. pose proof (s_id _ _ _ _ _ G _ _ Y). lia. }
    assert (TL : forall y i, a_last (add_alloc x st sh fr a) y = Some i -> a_last a y = Some i \/ (a_next a <= i_id i)%nat /\ In y [x]).
    { intros y i Y. destruct (Nat.eq_dec y x) as [->|E]; [rewrite E1 in Y; injection Y as <-; cbn; right; split; [lia|auto]|].
      rewrite E2 in Y by exact E. auto. }
    assert (TS : forall y, In y (seen c) -> weaker (a_shape a y) (a_shape (add_alloc x st sh fr a) y)).
    { intros y Y. destruct (Nat.eq_dec y x) as [->|E]; [rewrite E3; auto|rewrite E4 by exact E; apply weaker_refl]. }
    assert (TF : forall y, In y fr -> In y (a_frees a) \/ In y [x]).
    { intros y Y. destruct (F2 _ Y) as [Z| ->]; cbn; auto. }
    clear W' F2.
    destruct B as [(-> & (i & I & C & Z) & Kx & _)|[(Kx & -> & _ & _ & NF)|(Kx & -> & _ & sh' & fr' & Z)]].
    + exfalso. assert (Z' := f_equal a_next Z). cbn in Z'. lia.
    + destruct Q as [(_ & ST & FK)|(Q & _)]; [|tauto].
      split.
      * constructor; cbn [known seen pend once dirty]; rewrite ?E5, ?E6; try apply G; auto.
        -- intros y Y. destruct (Nat.eq_dec y x) as [->|E].
           ++ exists (mk_info st [] false (a_next a)). rewrite E1, E3. repeat split; auto.
           ++ rewrite E2, E4 by exact E. destruct (s_known _ _ _ _ _ G y Y) as (j & J & A1 & A2 & A3 & A4 & A5). exists j. repeat split; auto.
              intros [P|P]; apply A5; [auto|right]. intros P'. apply P. apply in_minus. cbn. split; [exact P'|intuition].
        -- intros y. destruct (Nat.eq_dec y x) as [->|E]; [rewrite E1; split; [discriminate|auto]|]. rewrite E2 by exact E. apply (s_seen _ _ _ _ _ G).
        -- intros y Y. apply F1, (s_frees _ _ _ _ _ G), Y.
        -- intros y Y. destruct (s_pend _ _ _ _ _ G y Y) as (A1 & A2 & A3 & A4 & A5 & j & A6).
           assert (E : y <> x) by (intros ->; tauto). rewrite E2, E4 by exact E. repeat split; auto. exists j. exact A6.
        -- intros y Y. apply in_minus in Y. destruct Y as [Y Y']. assert (E : y <> x) by (intros ->; apply Y'; left; reflexivity).
           rewrite E2 by exact E. apply (s_once _ _ _ _ _ G), Y.
      * constructor; cbn [known seen pend once dirty]; rewrite ?E5, ?E6; auto.
        -- intros y i Y L. destruct (Nat.eq_dec y x) as [->|E]; [rewrite E1 in L; injection L as <-; auto|rewrite E2 in L by exact E; auto].
        -- intros y [<-|[]]. split; auto.
        -- intros y [<-|[]]. split; [left; reflexivity|]. intros [_ P]. congruence.
    + destruct Q as [(Q & _)|(_ & P & ->)]; [tauto|].
      split.
      * constructor; cbn [known seen pend once dirty]; rewrite ?E5, ?E6; auto.
        -- intros y Y. destruct (Nat.eq_dec y x) as [->|E].
           ++ exists (mk_info (intro_status lp) [] false (a_next a)). rewrite E1, E3. repeat split; auto.
           ++ rewrite E2, E4 by exact E. destruct Y as [Y|Y]; [congruence|]. destruct (s_known _ _ _ _ _ G y Y) as (j & J & A1 & A2 & A3 & A4 & A5). exists j. repeat split; auto.
              intros [P'|P']; apply A5; [auto|right]. intros P2. apply P'. apply in_minus. cbn. split; [exact P2|intuition].
        -- intros y. destruct (Nat.eq_dec y x) as [->|E]; [rewrite E1; split; [discriminate|left; reflexivity]|]. rewrite E2 by exact E.
           rewrite <- (s_seen _ _ _ _ _ G). cbn. intuition congruence.
        -- intros y [<-|Y]; [exact F3|]. apply F1, (s_frees _ _ _ _ _ G), Y.
        -- intros y [<-|Y]; [left; reflexivity|right; apply (s_sub _ _ _ _ _ G), Y].
        -- intros y Y. apply in_minus in Y. destruct Y as [Y Y']. assert (E : y <> x) by (intros ->; apply Y'; left; reflexivity).
           destruct (s_pend _ _ _ _ _ G y Y) as (A1 & A2 & A3 & A4 & A5 & j & A6).
           rewrite E2, E4 by exact E. repeat split; auto; [intros [?|?]; [congruence|tauto]|right; exact A2|]. exists j. exact A6.
        -- intros y [<-|Y].
           ++ split; [left; reflexivity|]. exists (mk_info (intro_status lp) [] false (a_next a)). rewrite E1. auto.
           ++ destruct (s_once _ _ _ _ _ G _ Y) as [A1 A2]. assert (E : y <> x) by congruence. rewrite E2 by exact E. split; [right; exact A1|exact A2].
      * constructor; cbn [known seen pend once dirty]; rewrite ?E5, ?E6; auto.
        -- intros y i Y L. assert (E : y <> x) by congruence. rewrite E2 in L by exact E; auto.
        -- intros y Y. right. exact Y.
        -- intros y [<-|Y]; [|auto]. right. split; [exact P|]. rewrite E1. eexists; split; [reflexivity|cbn; lia].
        -- intros y Y. right. exact Y.
        -- intros y [<-|Y]; [right; left; reflexivity|auto].
        -- intros y [<-|[]]. split; [left; reflexivity|]. auto.
        -- intros y Y1 Y2. apply in_minus. split; [exact Y1|exact Y2].
        -- intros y Y. apply in_minus in Y. tauto.
        -- intros y [<-|[]]. split; [left; reflexivity|]. tauto.
Qed.

(* ------------------------------ nodes that are closed ------------------------------ *)

Lemma close_id n f o i : i_id (close_info n f o i) = i_id i.
Proof. unfold close_info. destruct (i_id i <? n)%nat; [reflexivity|]. destruct o; reflexivity. Qed.
Lemma close_status n f o i : i_status (close_info n f o i) = i_status i.
Proof. unfold close_info. destruct (i_id i <? n)%nat; [reflexivity|]. destruct o; reflexivity. Qed.
Lemma close_old n f o i : (i_id i < n)%nat -> close_info n f o i = i.
Proof. unfold close_info. intros H. apply Nat.ltb_lt in H. rewrite H. reflexivity. Qed.
Lemma close_new n f i : (n <= i_id i)%nat -> close_info n f false i = mk_info (i_status i) (i_path i ++ [f]) (i_orphan i) (i_id i).
Proof. unfold close_info. intros H. apply Nat.ltb_ge in H. rewrite H. reflexivity. Qed.
Lemma close_last n f o a x i : a_last (close n f o a) x = Some i <-> exists j, a_last a x = Some j /\ i = close_info n f o j.
Proof.
  cbn. destruct (a_last a x) as [j|]; cbn; split.
  - intros H. injection H as <-. eauto.
  - intros (k & H & ->). congruence.
  - discriminate.
  - intros (k & H & _). discriminate.
Qed.

Lemma recast kind rank lp asg alc c0 a c1 a1 c c2 :
  good kind rank lp c0 a ->
  trans kind asg alc c0 a c1 a1 -> known c0 = known c -> seen c0 = seen c -> (forall x, In x (pend c0) -> In x (pend c)) ->
  (forall x, In x (known c) -> In x (known c2)) -> (forall x, In x (known c2) -> In x (known c) \/ In x (known c1)) -> seen c2 = seen c1 ->
  (forall x, In x (pend c) -> ~ In x asg -> In x (pend c2)) -> (forall x, In x (pend c2) -> In x (pend c)) ->
  forall n f o, n = a_next a -> trans kind asg alc c a c2 (close n f o a1) /\ trans kind asg alc c a c2 a1.
Proof.
  intros G T EK ES EP K1 K2 S2 P1 P2 n f o ->.
  assert (B : trans kind asg alc c a c2 a1).
  { constructor; intros.
    - apply (t_frees _ _ _ _ _ _ _ T), H.
    - apply (t_frees' _ _ _ _ _ _ _ T), H.
    - apply (t_next _ _ _ _ _ _ _ T).
    - apply (t_shape _ _ _ _ _ _ _ T). congruence.
    - apply (t_last _ _ _ _ _ _ _ T), H.
    - apply (t_status _ _ _ _ _ _ _ T x); [congruence|exact H0].
    - auto.
    - destruct (K2 _ H) as [A|A]; [auto|]. destruct (t_known' _ _ _ _ _ _ _ T _ A) as [B|[[B|B] C]].
      + left. congruence.
      + right. split; [left; congruence|exact C].
      + right. split; [right; auto|exact C].
    - rewrite S2. apply (t_seen _ _ _ _ _ _ _ T). congruence.
    - rewrite S2 in H. rewrite <- ES. apply (t_seen' _ _ _ _ _ _ _ T), H.
    - rewrite S2, <- ES, <- EK. destruct (t_asg _ _ _ _ _ _ _ T _ H) as [A [B|[B|B]]]; auto.
    - auto.
    - auto.
    - rewrite <- EK. apply (t_alc _ _ _ _ _ _ _ T), H. }
  split; [|exact B]. constructor; try apply B.
  - intros x i H. apply close_last in H. destruct H as (j & J & ->). rewrite close_id.
    destruct (t_last _ _ _ _ _ _ _ B _ _ J) as [A|A]; [|auto]. left. rewrite close_old; [exact A|]. apply (s_id _ _ _ _ _ G _ _ A).
  - intros x i K H. apply close_last in H. destruct H as (j & J & ->). rewrite close_status.
    destruct (t_status _ _ _ _ _ _ _ B _ _ K J) as [A|A]; [|auto]. left. rewrite close_old; [exact A|]. apply (s_id _ _ _ _ _ G _ _ A).
  - intros x H. destruct (t_known' _ _ _ _ _ _ _ B _ H) as [A|[A (i & I & L)]]; [auto|]. right. split; [exact A|].
    exists (close_info (a_next a) f o i). rewrite close_id. split; [|exact L]. apply close_last. eauto.
Qed.

(* an info that has not changed since *)
Lemma unchanged kind rank lp lp1 asg alc c a c1 a1 x f o : good kind rank lp c a -> good kind rank lp1 c1 a1 -> trans kind asg alc c a c1 a1 ->
  In x (seen c) -> ~ In x alc -> exists i, a_last a x = Some i /\ a_last a1 x = Some i /\ a_last (close (a_next a) f o a1) x = Some i.
Proof.
  intros G G1 T S N. pose proof (proj1 (s_seen _ _ _ _ _ G1 x) (t_seen _ _ _ _ _ _ _ T _ S)) as S1.
  destruct (a_last a1 x) as [j|] eqn:J; [|tauto].
  destruct (t_last _ _ _ _ _ _ _ T _ _ J) as [A|[_ A]]; [|tauto]. exists j. repeat split; [exact A|].
  apply close_last. exists j. rewrite close_old; [auto|]. apply (s_id _ _ _ _ _ G _ _ A).
Qed.

Lemma close_seen n f o a x : a_last (close n f o a) x <> None <-> a_last a x <> None.
Proof. cbn. destruct (a_last a x); cbn; split; congruence. Qed.
Lemma close_idlt n f o a m : (forall x i, a_last a x = Some i -> (i_id i < m)%nat) -> forall x i, a_last (close n f o a) x = Some i -> (i_id i < m)%nat.
Proof. intros H x i L. apply close_last in L. destruct L as (j & J & ->). rewrite close_id. apply (H _ _ J). Qed.

Lemma clean_loop i : clean i -> clean (mk_info (i_status i) (i_path i ++ [FLoop]) (i_orphan i) (i_id i)).
Proof. unfold clean, has_sec, has_if. cbn. rewrite !existsb_app. cbn. rewrite !orb_false_r. auto. Qed.
Lemma clean_if i : clean (mk_info (i_status i) (i_path i ++ [FIf]) (i_orphan i) (i_id i)).
Proof. unfold clean, has_sec, has_if. cbn. rewrite !existsb_app. cbn. rewrite orb_true_r, andb_false_r. reflexivity. Qed.

Lemma loop_static kind rank lp b c a c1 g a1 :
  good kind rank lp c a -> good kind rank true c1 a1 -> good kind rank true (enter_loop c) a ->
  trans kind (assigned b) (map fst (allocs_block g)) (enter_loop c) a c1 a1 ->
  let c2 := mk_cst (known c) (seen c1) (pend c) (minus (once c) (assigned b)) (dirty c1) in
  good kind rank lp c2 (close (a_next a) FLoop false a1)
  /\ trans kind (assigned b) (map fst (allocs_block g)) c a c2 (close (a_next a) FLoop false a1).
Proof.
  intros G G1 G0 T c2.
  assert (NP : forall x, In x (pend c) -> ~ In x (assigned b)).
  { intros x P A. destruct (s_pend _ _ _ _ _ G x P) as (N1 & N2 & _). destruct (t_asg _ _ _ _ _ _ _ T _ A) as [_ [B|[B|B]]]; cbn in B; tauto. }
  assert (NA : forall x, ~ In x (assigned b) -> ~ In x (map fst (allocs_block g))).
  { intros x N A. apply N, (t_alc _ _ _ _ _ _ _ T _ A). }
  split.
  - constructor; unfold c2; cbn [known seen pend once dirty].
    + intros x K. destruct (s_known _ _ _ _ _ G1 x (t_known _ _ _ _ _ _ _ T x K)) as (i & I & A1 & A2 & A3 & A4 & A5).
      exists (close_info (a_next a) FLoop false i). split; [apply close_last; eauto|]. cbn [a_shape close].
      unfold close_info. destruct (i_id i <? a_next a)%nat; [repeat split; auto|]. repeat split; auto.
      * unfold ok_info in *. cbn. destruct A1 as [A1|[A1 A1']]; [auto|right; split; [constructor; exact A1|exact A1']].
      * intros D. apply clean_loop, A5, D.
    + intros x. rewrite close_seen. apply (s_seen _ _ _ _ _ G1).
    + apply (s_frees _ _ _ _ _ G1).
    + intros x K. apply (s_sub _ _ _ _ _ G1), (t_known _ _ _ _ _ _ _ T), K.
    + intros x P. destruct (s_pend _ _ _ _ _ G x P) as (A1 & A2 & A3 & A4 & A5 & i & A6).
      pose proof (t_shape _ _ _ _ _ _ _ T x A2) as W. cbn [a_shape close].
      destruct (unchanged _ _ _ _ _ _ _ _ _ _ x FLoop false G0 G1 T A2 (NA _ (NP _ P))) as (j & J & _ & J2).
      repeat split; auto.
      * apply (t_seen _ _ _ _ _ _ _ T), A2.
      * rewrite (weaker_length _ _ W). exact A4.
      * intros E. apply (weaker_loose _ _ W), A5, E.
      * exists j. assert (j = i) by (destruct A6; congruence). subst j. split; [exact J2|apply A6].
    + intros x O'. apply in_minus in O'. destruct O' as [O1 O2]. destruct (s_once _ _ _ _ _ G x O1) as [A1 (i & A2)]. split; [exact A1|].
      destruct (unchanged _ _ _ _ _ _ _ _ _ _ x FLoop false G0 G1 T (s_sub _ _ _ _ _ G _ A1) (NA _ O2)) as (j & J & _ & J2).
      exists j. assert (j = i) by (destruct A2; congruence). subst j. split; [exact J2|apply A2].
    + apply close_idlt. apply (s_id _ _ _ _ _ G1).
  - apply (recast _ _ _ _ _ _ _ _ _ c c2 G0 T); auto; cbn; auto; try tauto.
Qed.

Lemma next_static kind rank lp b c a c1 g a1 :
  good kind rank lp c a -> good kind rank lp c1 a1 -> good kind rank lp (enter_branch c) a ->
  trans kind (assigned b) (map fst (allocs_block g)) (enter_branch c) a c1 a1 ->
  let c2 := next_branch kind b c c1 in
  good kind rank lp c2 (close (a_next a) FSec false a1).
Proof.
  intros G G1 G0 T c2.
  assert (NA : forall x, ~ In x (assigned b) -> ~ In x (map fst (allocs_block g))).
  { intros x N A. apply N, (t_alc _ _ _ _ _ _ _ T _ A). }
  constructor; unfold c2, next_branch; cbn [known seen pend once dirty].
  - intros x K. destruct (s_known _ _ _ _ _ G x K) as (i0 & I0 & B1 & B2 & B3 & B4 & B5).
    destruct (s_known _ _ _ _ _ G1 x (t_known _ _ _ _ _ _ _ T x K)) as (i & I & A1 & A2 & A3 & A4 & A5).
    exists (close_info (a_next a) FSec false i). split; [apply close_last; eauto|]. cbn [a_shape close]. repeat split; auto.
    + destruct (t_status _ _ _ _ _ _ _ T x i K I) as [E|E].
      * rewrite close_old; [exact A1|apply (s_id _ _ _ _ _ G _ _ E)].
      * left. rewrite close_status. exact E.
    + intros D. assert (N : ~ In x (map fst (allocs_block g))).
      { destruct D as [D|D].
        - intros A. apply (proj2 (t_alc _ _ _ _ _ _ _ T _ A)). split; [exact K|exact D].
        - destruct (is_fixed (kind x)) eqn:F.
          + intros A. apply (proj2 (t_alc _ _ _ _ _ _ _ T _ A)). split; [exact K|exact F].
          + apply NA. intros A. apply D. apply in_app_iff. right. apply in_loose. auto. }
      destruct (unchanged _ _ _ _ _ _ _ _ _ _ x FSec false G0 G1 T (s_sub _ _ _ _ _ G _ K) N) as (j & J & J1 & J2).
      assert (j = i) by congruence. assert (j = i0) by congruence. subst i i0.
      rewrite close_old by apply (s_id _ _ _ _ _ G _ _ J). apply B5. destruct D as [D|D]; [auto|]. right. intros Q. apply D, in_app_iff. auto.
  - intros x. rewrite close_seen. apply (s_seen _ _ _ _ _ G1).
  - apply (s_frees _ _ _ _ _ G1).
  - intros x K. apply (s_sub _ _ _ _ _ G1), (t_known _ _ _ _ _ _ _ T), K.
  - intros x P. apply in_app_iff in P. destruct P as [P|P].
    + apply in_minus in P. destruct P as [P N]. destruct (s_pend _ _ _ _ _ G x P) as (A1 & A2 & A3 & A4 & A5 & i & A6).
      pose proof (t_shape _ _ _ _ _ _ _ T x A2) as W. cbn [a_shape close].
      destruct (unchanged _ _ _ _ _ _ _ _ _ _ x FSec false G0 G1 T A2 (NA _ N)) as (j & J & _ & J2).
      repeat split; auto.
      * apply (t_seen _ _ _ _ _ _ _ T), A2.
      * rewrite (weaker_length _ _ W). exact A4.
      * intros E. apply (weaker_loose _ _ W), A5, E.
      * exists j. assert (j = i) by (destruct A6; congruence). subst j. split; [exact J2|apply A6].
    + apply in_loose in P. destruct P as [P F]. apply in_minus in P. destruct P as [P N].
      destruct (s_once _ _ _ _ _ G1 x P) as (K1 & i & A1 & A2 & A3 & A4).
      destruct (t_known' _ _ _ _ _ _ _ T x K1) as [Q|[_ (i' & I' & L)]]; [cbn in Q; tauto|]. assert (i' = i) by congruence. subst i'.
      destruct (s_known _ _ _ _ _ G1 x K1) as (i' & I2 & _ & B2 & _ & B4 & _).
      repeat split; auto.
      * apply (s_sub _ _ _ _ _ G1), K1.
      * exists (close_info (a_next a) FSec false i). split; [apply close_last; eauto|]. rewrite close_new by exact L. cbn. rewrite A2. auto.
  - intros x O'. apply in_minus in O'. destruct O' as [O1 O2]. destruct (s_once _ _ _ _ _ G x O1) as [A1 (i & A2)]. split; [exact A1|].
    destruct (unchanged _ _ _ _ _ _ _ _ _ _ x FSec false G0 G1 T (s_sub _ _ _ _ _ G _ A1) (NA _ O2)) as (j & J & _ & J2).
    exists j. assert (j = i) by (destruct A2; congruence). subst j. split; [exact J2|apply A2].
  - apply close_idlt. apply (s_id _ _ _ _ _ G1).
Qed.

Lemma orphan_static kind rank lp b c a c1 g a1 :
  good kind rank lp c a -> good kind rank lp c1 a1 -> good kind rank lp (enter_branch c) a ->
  trans kind (assigned b) (map fst (allocs_block g)) (enter_branch c) a c1 a1 ->
  let c2 := mk_cst (known c) (seen c1) (minus (pend c) (assigned b)) (minus (once c) (assigned b)) (dirty c1 ++ loose_names kind (assigned b)) in
  good kind rank lp c2 (close (a_next a) FSec true a1)
  /\ trans kind (assigned b) (map fst (allocs_block g)) c a c2 (close (a_next a) FSec true a1).
Proof.
  intros G G1 G0 T c2.
  assert (NA : forall x, ~ In x (assigned b) -> ~ In x (map fst (allocs_block g))).
  { intros x N A. apply N, (t_alc _ _ _ _ _ _ _ T _ A). }
  split.
  - constructor; unfold c2; cbn [known seen pend once dirty].
    + intros x K. destruct (s_known _ _ _ _ _ G1 x (t_known _ _ _ _ _ _ _ T x K)) as (i & I & A1 & A2 & A3 & A4 & A5).
      exists (close_info (a_next a) FSec true i). split; [apply close_last; eauto|]. cbn [a_shape close]. repeat split; auto.
      * destruct (t_status _ _ _ _ _ _ _ T x i K I) as [E|E].
        -- rewrite close_old; [exact A1|apply (s_id _ _ _ _ _ G _ _ E)].
        -- left. rewrite close_status. exact E.
      * intros D. assert (N : ~ In x (map fst (allocs_block g))).
        { destruct D as [D|D].
          - intros A. apply (proj2 (t_alc _ _ _ _ _ _ _ T _ A)). split; [exact K|exact D].
          - destruct (is_fixed (kind x)) eqn:F.
            + intros A. apply (proj2 (t_alc _ _ _ _ _ _ _ T _ A)). split; [exact K|exact F].
            + apply NA. intros A. apply D. apply in_app_iff. right. apply in_loose. auto. }
        destruct (unchanged _ _ _ _ _ _ _ _ _ _ x FSec true G0 G1 T (s_sub _ _ _ _ _ G _ K) N) as (j & J & J1 & J2).
        assert (j = i) by congruence. subst i.
        rewrite close_old by apply (s_id _ _ _ _ _ G _ _ J). apply A5. destruct D as [D|D]; [auto|]. right. intros Q. apply D, in_app_iff. auto.
    + intros x. rewrite close_seen. apply (s_seen _ _ _ _ _ G1).
    + apply (s_frees _ _ _ _ _ G1).
    + intros x K. apply (s_sub _ _ _ _ _ G1), (t_known _ _ _ _ _ _ _ T), K.
    + intros x P. apply in_minus in P. destruct P as [P N]. destruct (s_pend _ _ _ _ _ G x P) as (A1 & A2 & A3 & A4 & A5 & i & A6).
      pose proof (t_shape _ _ _ _ _ _ _ T x A2) as W. cbn [a_shape close].
      destruct (unchanged _ _ _ _ _ _ _ _ _ _ x FSec true G0 G1 T A2 (NA _ N)) as (j & J & _ & J2).
      repeat split; auto.
      * apply (t_seen _ _ _ _ _ _ _ T), A2.
      * rewrite (weaker_length _ _ W). exact A4.
      * intros E. apply (weaker_loose _ _ W), A5, E.
      * exists j. assert (j = i) by (destruct A6; congruence). subst j. split; [exact J2|apply A6].
    + intros x O'. apply in_minus in O'. destruct O' as [O1 O2]. destruct (s_once _ _ _ _ _ G x O1) as [A1 (i & A2)]. split; [exact A1|].
      destruct (unchanged _ _ _ _ _ _ _ _ _ _ x FSec true G0 G1 T (s_sub _ _ _ _ _ G _ A1) (NA _ O2)) as (j & J & _ & J2).
      exists j. assert (j = i) by (destruct A2; congruence). subst j. split; [exact J2|apply A2].
    + apply close_idlt. apply (s_id _ _ _ _ _ G1).
  - apply (recast _ _ _ _ _ _ _ _ _ c c2 G0 T); auto; cbn; auto.
    + intros x P N. apply in_minus. auto.
    + intros x P. apply in_minus in P. tauto.
Qed.

(* ------------------------------ programs ------------------------------ *)

Lemma allocs_app g g' : allocs_block (gapp g g') = allocs_block g ++ allocs_block g'.
Proof. induction g; cbn; [reflexivity|]. rewrite IHg, app_assoc. reflexivity. Qed.
Lemma concat_branch_allocs g : concat (branch_allocs g) = allocs_branches g.
Proof. induction g as [|c b g IH]; cbn; [reflexivity|]. rewrite IH. reflexivity. Qed.

Definition bout (c c' : cst) (asg : list nat) : cst := mk_cst (known c) (seen c') (minus (pend c) asg) [] [].

Lemma branch_compose kind rank lp s1 l1 s2 l2 c a cn an c' a' :
  trans kind s1 l1 c a (bout c cn s1) an -> good kind rank lp cn an -> known cn = known c ->
  (forall x, In x (pend cn) -> In x (pend c) \/ ~ In x (seen c)) ->
  trans kind s2 l2 cn an (bout cn c' s2) a' -> trans kind (s1 ++ s2) (l1 ++ l2) c a (bout c c' (s1 ++ s2)) a'.
Proof.
  intros T1 Gn EK HP T2. constructor; intros; cbn [bout known seen pend] in *.
  - apply (t_frees _ _ _ _ _ _ _ T2), (t_frees _ _ _ _ _ _ _ T1), H.
  - destruct (t_frees' _ _ _ _ _ _ _ T2 _ H) as [A|A]; [|rewrite in_app_iff; tauto].
    destruct (t_frees' _ _ _ _ _ _ _ T1 _ A); rewrite in_app_iff; tauto.
  - pose proof (t_next _ _ _ _ _ _ _ T1). pose proof (t_next _ _ _ _ _ _ _ T2). lia.
  - eapply weaker_trans; [apply (t_shape _ _ _ _ _ _ _ T1), H|apply (t_shape _ _ _ _ _ _ _ T2), (t_seen _ _ _ _ _ _ _ T1 x H)].
  - pose proof (t_next _ _ _ _ _ _ _ T1). destruct (t_last _ _ _ _ _ _ _ T2 _ _ H) as [A|[A B]].
    + destruct (t_last _ _ _ _ _ _ _ T1 _ _ A) as [A'|[A' B]]; [tauto|right; rewrite in_app_iff; tauto].
    + right; split; [lia|rewrite in_app_iff; tauto].
  - destruct (t_status _ _ _ _ _ _ _ T2 x i) as [A|A]; [congruence|exact H0| |tauto].
    apply (t_status _ _ _ _ _ _ _ T1 _ _ H A).
  - exact H.
  - auto.
  - apply (t_seen _ _ _ _ _ _ _ T2), (t_seen _ _ _ _ _ _ _ T1 x H).
  - destruct (t_seen' _ _ _ _ _ _ _ T2 x H) as [A|A]; [|rewrite in_app_iff; tauto].
    destruct (t_seen' _ _ _ _ _ _ _ T1 x A); rewrite in_app_iff; tauto.
  - apply in_app_iff in H. destruct H as [H|H].
    + destruct (t_asg _ _ _ _ _ _ _ T1 _ H) as [A B]. split; [apply (t_seen _ _ _ _ _ _ _ T2 x A)|exact B].
    + destruct (t_asg _ _ _ _ _ _ _ T2 _ H) as [A [B|[B|B]]]; split; auto.
      * left. congruence.
      * right. left. intros W. apply B, (t_seen _ _ _ _ _ _ _ T1 x W).
      * destruct (HP _ B); auto.
  - apply in_minus. auto.
  - apply in_minus in H. tauto.
  - apply in_app_iff in H. rewrite in_app_iff. destruct H as [H|H].
    + destruct (t_alc _ _ _ _ _ _ _ T1 _ H). tauto.
    + destruct (t_alc _ _ _ _ _ _ _ T2 _ H) as [A B]. split; [tauto|]. rewrite <- EK. exact B.
Qed.

Definition exported (kind : nat -> skind) (rank : nat -> nat) (n : nat) (c c' : cst) (a' : an) (x : nat) : Prop :=
  ~ In x (known c) /\ In x (seen c') /\ (~ In x (seen c) \/ In x (pend c))
  /\ exists i, a_last a' x = Some i /\ (n <= i_id i)%nat /\ semi_ok i /\ length (a_shape a' x) = rank x /\ (kind x = Loose -> no_literal (a_shape a' x)).

Definition branches_out (kind : nat -> skind) (rank : nat -> nat) (lp first : bool) (asg : list nat) (c : cst) (a : an) (c' : cst) (res : unit + list nat) (v : vbranches) (a' : an) : Prop :=
  match res, v with
  | inl _, VBody g => first = true /\ good kind rank lp c' a' /\ trans kind asg (map fst (allocs_block g)) c a c' a'
  | inr E, VIf g =>
    good kind rank lp c' a' /\ known c' = known c /\ trans kind asg (map fst (allocs_branches g)) c a (bout c c' asg) a'
    /\ forall x, In x E -> exported kind rank (a_next a) c c' a' x
  | _, _ => False
  end.

Lemma good_recast kind rank lp lp' c a c0 : good kind rank lp c a -> known c0 = known c -> seen c0 = seen c -> dirty c0 = dirty c ->
  (lp' = lp /\ pend c0 = pend c \/ pend c0 = []) -> once c0 = [] -> good kind rank lp' c0 a.
Proof.
  intros G EK ES ED EP EO. constructor.
  - intros x K. rewrite EK in K. rewrite ED. apply (s_known _ _ _ _ _ G), K.
  - rewrite ES. apply G.
  - rewrite ES. apply G.
  - rewrite EK, ES. apply G.
  - intros x P. destruct EP as [[-> EP]|EP]; rewrite EP in P; [|destruct P]. rewrite EK, ES. apply (s_pend _ _ _ _ _ G _ P).
  - rewrite EO. intros x [].
  - apply G.
Qed.

Lemma if_static kind rank lp asg c a c' E g a' :
  good kind rank lp c a -> branches_out kind rank lp true asg c a c' (inr E) (VIf g) a' ->
  let E' := loose_names kind E in
  let c2 := mk_cst (E' ++ known c) (seen c') (minus (pend c) asg) (minus (once c) asg) (minus (dirty c) E') in
  let a2 := merge_shapes g (close (a_next a) FIf false a') in
  good kind rank lp c2 a2 /\ trans kind asg (map fst (allocs_branches g)) c a c2 a2
  /\ (forall x, weaker (a_shape a' x) (a_shape a2 x)).
Proof.
  intros G (G1 & EK & T & EX) E' c2 a2.
  assert (NA : forall x, ~ In x asg -> ~ In x (map fst (allocs_branches g))).
  { intros x N A. apply N, (t_alc _ _ _ _ _ _ _ T _ A). }
  assert (W : forall x, weaker (a_shape a' x) (a_shape a2 x)).
  { intros x. unfold a2, merge_shapes, close. cbn.
    destruct (existsb (fun p => Nat.eqb (fst p) x) (concat (branch_allocs g)) && negb (same_shapes x (branch_allocs g))); [right|left]; reflexivity. }
  assert (WF : forall x, ~ In x (map fst (allocs_branches g)) -> a_shape a2 x = a_shape a' x).
  { intros x N. unfold a2, merge_shapes, close. cbn. rewrite concat_branch_allocs.
    destruct (existsb (fun p => Nat.eqb (fst p) x) (allocs_branches g)) eqn:Q; [|reflexivity].
    exfalso. apply N. apply existsb_exists in Q. destruct Q as (p & P1 & P2). apply Nat.eqb_eq in P2. subst x. apply in_map, P1. }
  assert (L2 : a_last a2 = a_last (close (a_next a) FIf false a')) by reflexivity.
  assert (NO : forall x, In x (seen c) -> ~ In x asg -> exists i, a_last a x = Some i /\ a_last a2 x = Some i).
  { intros x S N. pose proof (proj1 (s_seen _ _ _ _ _ G1 x) (t_seen _ _ _ _ _ _ _ T x S)) as S1.
    destruct (a_last a' x) as [j|] eqn:J; [|tauto]. destruct (t_last _ _ _ _ _ _ _ T _ _ J) as [A|[_ A]]; [|destruct (NA _ N A)].
    exists j. split; [exact A|]. rewrite L2. apply close_last. exists j. split; [exact J|]. symmetry. apply close_old, (s_id _ _ _ _ _ G _ _ A). }
  assert (GG : good kind rank lp c2 a2).
  { constructor; unfold c2; cbn [known seen pend once dirty].
    - intros x K. apply in_app_iff in K. destruct K as [K|K].
      + unfold E' in K. apply in_loose in K. destruct K as [K F]. destruct (EX _ K) as (_ & _ & _ & i & I & L & SO & SL & LS).
        exists (close_info (a_next a) FIf false i). split; [rewrite L2; apply close_last; eauto|]. rewrite close_new by exact L. repeat split.
        * unfold ok_info. cbn. destruct SO as [SO|(p & P1 & P2 & P3)]; [auto|]. right. rewrite P2, <- app_assoc. split; [constructor; exact P1|exact P3].
        * rewrite (weaker_length _ _ (W x)). exact SL.
        * intros ds D. rewrite D in F. discriminate.
        * intros D. apply (weaker_loose _ _ (W x)), LS, D.
        * intros _. apply clean_if.
      + destruct (s_known _ _ _ _ _ G x K) as (i0 & I0 & B1 & B2 & B3 & B4 & B5).
        assert (K' : In x (known c')) by congruence.
        destruct (s_known _ _ _ _ _ G1 x K') as (i & I & A1 & A2 & A3 & A4 & A5).
        exists (close_info (a_next a) FIf false i). split; [rewrite L2; apply close_last; eauto|]. repeat split.
        * destruct (t_status _ _ _ _ _ _ _ T x i K I) as [Q|Q].
          -- rewrite close_old; [exact A1|apply (s_id _ _ _ _ _ G _ _ Q)].
          -- left. rewrite close_status. exact Q.
        * rewrite (weaker_length _ _ (W x)). exact A2.
        * intros ds D. rewrite WF; [apply A3, D|]. intros A. apply (proj2 (t_alc _ _ _ _ _ _ _ T _ A)). rewrite D. auto.
        * intros D. apply (weaker_loose _ _ (W x)), A4, D.
        * intros D. destruct (t_last _ _ _ _ _ _ _ T _ _ I) as [Q|[Q _]].
          -- rewrite close_old by apply (s_id _ _ _ _ _ G _ _ Q). assert (i0 = i) by congruence. subst i0. apply B5.
             destruct D as [D|D]; [auto|]. right. intros D'. apply D. apply in_minus. split; [exact D'|].
             unfold E'. rewrite in_loose. intros [Z _]. destruct (EX _ Z) as (Z' & _). tauto.
          -- rewrite close_new by exact Q. apply clean_if.
    - intros x. rewrite L2, close_seen. apply (s_seen _ _ _ _ _ G1).
    - apply (s_frees _ _ _ _ _ G1).
    - intros x K. apply in_app_iff in K. destruct K as [K|K].
      + unfold E' in K. apply in_loose in K. destruct K as [K F]. apply (EX _ K).
      + apply (s_sub _ _ _ _ _ G1). congruence.
    - intros x P. apply in_minus in P. destruct P as [P N]. destruct (s_pend _ _ _ _ _ G x P) as (A1 & A2 & A3 & A4 & A5 & i & A6).
      pose proof (weaker_trans _ _ _ (t_shape _ _ _ _ _ _ _ T x A2) (W x)) as W'.
      destruct (NO _ A2 N) as (j & J & J2). repeat split; auto.
      + rewrite in_app_iff. intros [Z|Z]; [|tauto]. unfold E' in Z. apply in_loose in Z. destruct Z as [Z _].
        destruct (EX _ Z) as (_ & _ & _ & k & K & L & _). destruct (t_last _ _ _ _ _ _ _ T _ _ K) as [Q|[_ Q]]; [|destruct (NA _ N Q)].
        pose proof (s_id _ _ _ _ _ G _ _ Q). lia.
      + apply (t_seen _ _ _ _ _ _ _ T x A2).
      + rewrite (weaker_length _ _ W'). exact A4.
      + intros D. apply (weaker_loose _ _ W'), A5, D.
      + exists j. assert (j = i) by (destruct A6; congruence). subst j. split; [exact J2|apply A6].
    - intros x O'. apply in_minus in O'. destruct O' as [O1 O2]. destruct (s_once _ _ _ _ _ G x O1) as [A1 (i & A2)].
      split; [apply in_app_iff; auto|]. destruct (NO _ (s_sub _ _ _ _ _ G _ A1) O2) as (j & J & J2).
      exists j. assert (j = i) by (destruct A2; congruence). subst j. split; [exact J2|apply A2].
    - rewrite L2. apply close_idlt, (s_id _ _ _ _ _ G1). }
  split; [exact GG|split; [|exact W]].
  destruct (recast _ _ _ _ _ _ _ _ _ c (bout c c' asg) G T eq_refl eq_refl (fun x h => h) (fun x h => h) (fun x h => or_introl h) eq_refl (t_pend _ _ _ _ _ _ _ T) (t_pend' _ _ _ _ _ _ _ T) (a_next a) FIf false eq_refl) as [T2 _].
  constructor; unfold c2; cbn [known seen pend].
  - apply (t_frees _ _ _ _ _ _ _ T2).
  - apply (t_frees' _ _ _ _ _ _ _ T2).
  - apply (t_next _ _ _ _ _ _ _ T2).
  - intros x S. eapply weaker_trans; [apply (t_shape _ _ _ _ _ _ _ T x S)|apply W].
  - apply (t_last _ _ _ _ _ _ _ T2).
  - apply (t_status _ _ _ _ _ _ _ T2).
  - intros x K. apply in_app_iff. auto.
  - intros x K. apply in_app_iff in K. destruct K as [K|K]; [|auto]. right. unfold E' in K. apply in_loose in K. destruct K as [K _].
    destruct (EX _ K) as (_ & _ & P & i & I & L & _). split; [exact P|]. exists (close_info (a_next a) FIf false i). rewrite close_id. split; [|exact L].
    rewrite L2. apply close_last. eauto.
  - apply (t_seen _ _ _ _ _ _ _ T2).
  - apply (t_seen' _ _ _ _ _ _ _ T2).
  - apply (t_asg _ _ _ _ _ _ _ T2).
  - intros x P N. apply in_minus. auto.
  - intros x P. apply in_minus in P. tauto.
  - apply (t_alc _ _ _ _ _ _ _ T2).
Qed.

Scheme stmt_rec' := Induction for stmt Sort Prop
with block_rec' := Induction for block Sort Prop
with branches_rec' := Induction for branches Sort Prop.
Combined Scheme program_ind from stmt_rec', block_rec', branches_rec'.

Theorem static_all kind rank :
  (forall s lp fz U c a c' g a', check_stmt kind rank lp fz U s c = Some c' -> good kind rank lp c a -> visit_stmt lp s a = (g, a') ->
     good kind rank lp c' a' /\ trans kind (assigned_stmt s) (map fst (allocs_block g)) c a c' a')
  /\ (forall b lp fz U c a c' g a', check_block kind rank lp fz U b c = Some c' -> good kind rank lp c a -> visit_block lp b a = (g, a') ->
     good kind rank lp c' a' /\ trans kind (assigned b) (map fst (allocs_block g)) c a c' a')
  /\ (forall b lp fz U first c a c' res v a', check_branches kind rank lp fz U first b c = Some (c', res) -> good kind rank lp c a -> visit_branches lp first b a = (v, a') ->
     branches_out kind rank lp first (assigned_branches b) c a c' res v a').
Proof.
  apply program_ind.
  - intros x r lp fz U c a c' g a' H G V. apply (assign_static _ _ _ _ _ _ _ _ _ _ _ H G V).
  - intros x f lp fz U c a c' g a' H G V. cbn in *. destruct (mem x (known c)); [|discriminate]. injection H as <-. injection V as <- <-.
    split; [exact G|apply (trans_refl _ _ _ _ _ G)].
  - intros v x lp fz U c a c' g a' H G V. cbn in *. destruct (mem x (known c)); [|discriminate]. injection H as <-. injection V as <- <-.
    split; [exact G|apply (trans_refl _ _ _ _ _ G)].
  - intros v x i lp fz U c a c' g a' H G V. cbn in *. destruct (mem x (known c)); [|discriminate]. injection H as <-. injection V as <- <-.
    split; [exact G|apply (trans_refl _ _ _ _ _ G)].
  - intros v f lp fz U c a c' g a' H G V. cbn in *. injection H as <-. injection V as <- <-.
    split; [exact G|apply (trans_refl _ _ _ _ _ G)].
  - (* if *)
    intros b IH lp fz U c a c' g a' H G V. cbn [check_stmt visit_stmt assigned_stmt] in *.
    destruct (check_branches kind rank lp fz U true b c) as [[c1 res]|] eqn:C; [|discriminate].
    destruct (visit_branches lp true b a) as [v a1] eqn:B. pose proof (IH _ _ _ _ _ _ _ _ _ _ C G B) as O'.
    destruct res as [u|E], v as [g1|g1]; try (destruct O'; fail).
    + injection H as <-. injection V as <- <-. destruct O' as (_ & G1 & T). auto.
    + injection H as <-. injection V as <- <-. destruct (if_static _ _ _ _ _ _ _ _ _ _ G O') as (G2 & T2 & _).
      split; [exact G2|]. cbn [allocs_block allocs_stmt]. rewrite app_nil_r. exact T2.
  - (* loop *)
    intros f b IH lp fz U c a c' g a' H G V. cbn [check_stmt visit_stmt assigned_stmt] in *.
    destruct (check_block kind rank true (fz ++ known c) (U ++ assigned b) b (enter_loop c)) as [c1|] eqn:C; [|discriminate].
    destruct (visit_block true b a) as [g1 a1] eqn:B. injection H as <-. injection V as <- <-.
    assert (G0 : good kind rank true (enter_loop c) a) by (apply (good_recast _ _ _ _ _ _ _ G); auto).
    destruct (IH _ _ _ _ _ _ _ _ C G0 B) as [G1 T]. cbn [allocs_block allocs_stmt]. rewrite app_nil_r.
    apply (loop_static _ _ _ _ _ _ _ _ _ G G1 G0 T).
  - intros lp fz U c a c' g a' H G V. cbn in *. destruct lp; [|discriminate]. injection H as <-. injection V as <- <-.
    split; [exact G|apply (trans_refl _ _ _ _ _ G)].
  - intros xs lp fz U c a c' g a' H G V. cbn in *. destruct (all_in _ (known c) && all_in U (seen c)); [|discriminate]. injection H as <-. injection V as <- <-.
    split; [exact G|apply (trans_refl _ _ _ _ _ G)].
  - intros lp fz U c a c' g a' H G V. cbn in *. injection H as <-. injection V as <- <-.
    split; [exact G|apply (trans_refl _ _ _ _ _ G)].
  - intros s IHs b IHb lp fz U c a c' g a' H G V. cbn [check_block visit_block assigned] in *.
    destruct (check_stmt kind rank lp fz U s c) as [c1|] eqn:C1; [|discriminate].
    destruct (visit_stmt lp s a) as [g1 a1] eqn:V1. destruct (visit_block lp b a1) as [g2 a2] eqn:V2. injection V as <- <-.
    destruct (IHs _ _ _ _ _ _ _ _ C1 G V1) as [G1 T1]. destruct (IHb _ _ _ _ _ _ _ _ H G1 V2) as [G2 T2].
    split; [exact G2|]. rewrite allocs_app, map_app. apply (trans_trans _ _ _ _ _ _ _ _ _ _ _ _ _ G G1 G2 T1 T2).
  - intros lp fz U first c a c' res v a' H G V. cbn in *. injection H as <- <-. injection V as <- <-. cbn.
    split; [exact G|]. split; [reflexivity|]. split; [|intros x []].
    assert (R : forall x, In x (pend c) -> ~ In x [] -> In x (pend (bout c c []))) by (intros x P N; apply in_minus; auto).
    assert (R' : forall x, In x (pend (bout c c [])) -> In x (pend c)) by (intros x P; apply in_minus in P; tauto).
    exact (proj2 (recast _ _ _ _ _ _ _ _ _ c (bout c c []) G (trans_refl _ _ _ _ _ G) eq_refl eq_refl (fun x h => h) (fun x h => h) (fun x h => or_introl h) eq_refl R R' (a_next a) FIf false eq_refl)).
  - intros cd b1 IH1 rest IHr lp fz U first c a c' res v a' H G V.
    destruct cd as [| |f]; cbn [check_branches visit_branches assigned_branches] in *.
    + (* True *)
      destruct (check_block kind rank lp fz U b1 (enter_branch c)) as [c1|] eqn:C; [|discriminate].
      destruct (visit_block lp b1 a) as [g1 a1] eqn:B.
      assert (G0 : good kind rank lp (enter_branch c) a) by (apply (good_recast _ _ _ _ _ _ _ G); auto).
      destruct (IH1 _ _ _ _ _ _ _ _ C G0 B) as [G1 T]. destruct first.
      * injection H as <- <-. injection V as <- <-. split; [reflexivity|]. apply (orphan_static _ _ _ _ _ _ _ _ _ G G1 G0 T).
      * injection H as <- <-. injection V as <- <-. split; [apply (next_static _ _ _ _ _ _ _ _ _ G G1 G0 T)|]. split; [reflexivity|]. split.
        -- cbn [allocs_branches]. rewrite app_nil_r.
           apply (recast _ _ _ _ _ _ _ _ _ c (bout c (next_branch kind b1 c c1) (assigned b1)) G0 T eq_refl eq_refl); cbn; auto.
           ++ intros x P N. apply in_minus. auto.
           ++ intros x P. apply in_minus in P. tauto.
        -- intros x K. apply in_minus in K. destruct K as [K N].
           destruct (t_known' _ _ _ _ _ _ _ T x K) as [Q|[P (i & I & L)]]; [cbn in Q; tauto|].
           destruct (s_known _ _ _ _ _ G1 x K) as (j & J & OK & SL & _ & LS & _). assert (j = i) by congruence. subst j.
           split; [exact N|]. split; [apply (s_sub _ _ _ _ _ G1 x K)|]. split; [exact P|].
           exists (close_info (a_next a) FSec false i). rewrite close_id. split; [apply close_last; eauto|]. split; [exact L|].
           rewrite close_new by exact L. split; [|split; [exact SL|exact LS]].
           unfold semi_ok. cbn. destruct OK as [OK|[OK1 OK2]]; [auto|]. right. exists (i_path i). auto.
    + apply (IHr _ _ _ _ _ _ _ _ _ _ H G V).
    + destruct (check_block kind rank lp fz U b1 (enter_branch c)) as [c1|] eqn:C; [|discriminate].
      destruct (visit_block lp b1 a) as [g1 a1] eqn:B.
      assert (G0 : good kind rank lp (enter_branch c) a) by (apply (good_recast _ _ _ _ _ _ _ G); auto).
      destruct (IH1 _ _ _ _ _ _ _ _ C G0 B) as [G1 T].
      destruct (check_branches kind rank lp fz U false rest (next_branch kind b1 c c1)) as [[c2 [u|E]]|] eqn:C2; try discriminate.
      injection H as <- <-.
      destruct (visit_branches lp false rest (close (a_next a) FSec false a1)) as [v2 a2] eqn:B2.
      pose proof (next_static _ _ _ _ _ _ _ _ _ G G1 G0 T) as Gn. cbn zeta in Gn.
      pose proof (IHr _ _ _ _ _ _ _ _ _ _ C2 Gn B2) as O'. destruct v2 as [g2|g2]; [destruct O'|]. injection V as <- <-.
      destruct O' as (G2 & EK & T2 & EX). split; [exact G2|]. split; [exact EK|].
      assert (Tn : trans kind (assigned b1) (map fst (allocs_block g1)) c a (bout c (next_branch kind b1 c c1) (assigned b1)) (close (a_next a) FSec false a1)).
      { apply (recast _ _ _ _ _ _ _ _ _ c (bout c (next_branch kind b1 c c1) (assigned b1)) G0 T eq_refl eq_refl); cbn; auto.
        - intros x P N. apply in_minus. auto.
        - intros x P. apply in_minus in P. tauto. }
      assert (HP : forall x, In x (pend (next_branch kind b1 c c1)) -> In x (pend c) \/ ~ In x (seen c)).
      { intros x P. cbn in P. apply in_app_iff in P. destruct P as [P|P]; [apply in_minus in P; tauto|].
        apply in_loose in P. destruct P as [P _]. apply in_minus in P. destruct P as [P N].
        destruct (t_known' _ _ _ _ _ _ _ T x (proj1 (s_once _ _ _ _ _ G1 x P))) as [Q|[Q _]]; [cbn in Q; tauto|]. cbn in Q. tauto. }
      split.
      * cbn [allocs_branches]. rewrite map_app. apply (branch_compose _ _ _ _ _ _ _ _ _ _ _ _ _ Tn Gn eq_refl HP T2).
      * intros x K. apply in_both in K. destruct K as [K K2]. destruct (EX _ K2) as (_ & S2 & _ & i & I & L & X).
        apply in_minus in K. destruct K as [K N]. split; [exact N|]. split; [exact S2|].
        destruct (t_known' _ _ _ _ _ _ _ T x K) as [Q|[P _]]; [cbn in Q; tauto|]. split; [exact P|].
        exists i. split; [exact I|]. split; [|exact X]. pose proof (t_next _ _ _ _ _ _ _ Tn). lia.
Qed.

Lemma good0 kind rank : good kind rank false (mk_cst [] [] [] [] []) an0.
Proof. constructor; cbn; try tauto; try discriminate. Qed.
