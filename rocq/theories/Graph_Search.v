(* Proofs about the links of the syntax tree: searches, and what is freed. *)
From Coq Require Import Bool Arith Lia List.
From Verif Require Import Graph_Model Graph_Spec Graph_Proofs Graph_Subst Graph_Walk.
Import ListNotations.
Open Scope list_scope.

(* ---------------------- paths -------------------------- *)
Fixpoint path (next : id -> list id) (stop : id -> bool) (i : id) (l : list id) : Prop :=
  match l with
  | [] => True
  | j :: l' => In j (next i) /\ stop j = false /\ path next stop j l'
  end.

Lemma path_app : forall next stop l1 i l2, path next stop i (l1 ++ l2) <-> path next stop i l1 /\ path next stop (last l1 i) l2.
Proof.
  intros next stop. induction l1 as [|x l1 IH]; intros i l2.
  - cbn. tauto.
  - cbn [app path]. rewrite IH, last_cons. tauto.
Qed.

Lemma path_simple : forall next stop n i l, List.length l <= n -> path next stop i l ->
  exists l', path next stop i l' /\ NoDup (i :: l') /\ last l' i = last l i.
Proof.
  intros next stop. induction n as [|n IH]; intros i l L R.
  - destruct l; [|cbn in L; lia]. exists []. split; [exact I|]. split; [constructor; [auto|constructor]|reflexivity].
  - destruct l as [|j l]; [exists []; split; [exact I|]; split; [constructor; [auto|constructor]|reflexivity]|].
    destruct (in_dec Nat.eq_dec i (j :: l)) as [In1|NIn].
    + apply in_split in In1. destruct In1 as (a & b & E). rewrite E in R, L. apply path_app in R. destruct R as [_ R].
      destruct R as (_ & _ & R). destruct (IH i b) as (l' & R' & N' & E').
      * rewrite app_length in L. cbn [List.length] in L. lia.
      * exact R.
      * exists l'. split; [exact R'|]. split; [exact N'|]. rewrite E', E. rewrite last_app_cons. reflexivity.
    + destruct R as (K & X & R). destruct (IH j l) as (l' & R' & N' & E'); [cbn in L; lia|exact R|].
      destruct (in_dec Nat.eq_dec i l') as [I2|N2].
      * apply in_split in I2. destruct I2 as (a & b & E2). subst l'. apply path_app in R'. destruct R' as [_ (_ & _ & R')].
        exists b. split; [exact R'|]. inversion N' as [|? ? Nj Nl]; subst. apply NoDup_remove in Nl. destruct Nl as [Nl Ni].
        assert (Nb : NoDup (i :: b)). { constructor; [intros Ib; apply Ni; apply in_or_app; right; exact Ib|]. clear - Nl. induction a; [exact Nl|]. inversion Nl; auto. }
        split; [exact Nb|]. rewrite last_cons, <- E', last_app_cons. reflexivity.
      * exists (j :: l'). split; [split; [exact K|split; [exact X|exact R']]|]. split.
        -- constructor; [|exact N']. intros [<-|I2]; [apply NIn; left; reflexivity|contradiction].
        -- rewrite !last_cons. exact E'.
Qed.

Lemma way_path : forall next stop i p, way next stop i p -> exists l, path next stop i l /\ last l i = p.
Proof.
  intros next stop i p H. induction H as [i|i j x K X H (l & R & E)].
  - exists []. split; [exact I|reflexivity].
  - exists (j :: l). split; [split; [exact K|split; [exact X|exact R]]|]. rewrite last_cons. exact E.
Qed.

(* ------------------ a depth first search --------------- *)
Lemma dfs_ok : forall (X : Type) (N : nat) (next : id -> list id) (stop : id -> bool) (hit : id -> X -> Prop)
  (f : nat -> list id -> id -> option (list X)),
  (forall i j, In j (next i) -> j < N) ->
  (forall k busy i, In i busy -> f (S k) busy i = Some []) ->
  (forall k busy i, ~ In i busy -> (forall j, In j (next i) -> stop j = false -> exists o, f k (i :: busy) j = Some o) ->
     exists out, f (S k) busy i = Some out /\ forall x, In x out <-> hit i x \/ exists j o, In j (next i) /\ stop j = false /\ f k (i :: busy) j = Some o /\ In x o) ->
  forall fuel busy i, NoDup busy -> (forall b, In b busy -> b < N) -> N < fuel + List.length busy -> i < N ->
  exists out, f fuel busy i = Some out /\
    (forall x, In x out -> exists p, way next stop i p /\ hit p x) /\
    (forall l x, path next stop i l -> NoDup (i :: l) -> free busy (i :: l) -> hit (last l i) x -> In x out).
Proof.
  intros X N next stop hit f RG F0 F1. induction fuel as [|k IH]; intros busy i ND LT FU Li.
  - exfalso. assert (J : incl busy (seq 0 N)) by (intros b B; apply in_seq; specialize (LT b B); lia).
    apply (NoDup_incl_length ND) in J. rewrite seq_length in J. lia.
  - destruct (in_dec Nat.eq_dec i busy) as [B|B].
    + exists []. split; [apply F0; exact B|]. split; [intros x []|]. intros l x _ _ F _. exfalso. exact (F i (or_introl eq_refl) B).
    + assert (REC : forall j, In j (next i) -> exists out, f k (i :: busy) j = Some out /\
        (forall x, In x out -> exists p, way next stop j p /\ hit p x) /\
        (forall l x, path next stop j l -> NoDup (j :: l) -> free (i :: busy) (j :: l) -> hit (last l j) x -> In x out)).
      { intros j Ij. apply IH.
        - constructor; assumption.
        - intros b [<-|Ib]; [exact Li|apply LT; exact Ib].
        - cbn [List.length]. lia.
        - apply (RG i). exact Ij. }
      destruct (F1 k busy i B) as (out & E & M).
      { intros j Ij _. destruct (REC j Ij) as (o & Eo & _). exists o. exact Eo. }
      exists out. split; [exact E|]. split.
      * intros x Ix. apply M in Ix. destruct Ix as [H|(j & o & Ij & Sj & Eo & Ix)].
        -- exists i. split; [constructor|exact H].
        -- destruct (REC j Ij) as (o' & Eo' & S1 & _). rewrite Eo in Eo'. injection Eo' as <-. destruct (S1 x Ix) as (p & W & H).
           exists p. split; [|exact H]. apply way_step with j; assumption.
      * intros l x P NL F H. apply M. destruct l as [|j l]; [left; exact H|]. destruct P as (Ij & Sj & P). right.
        destruct (REC j Ij) as (o & Eo & _ & C1). exists j, o. split; [exact Ij|]. split; [exact Sj|]. split; [exact Eo|].
        rewrite last_cons in H. apply (C1 l x P); [inversion NL; assumption| |exact H].
        intros y Iy [<-|Ib]; [inversion NL; contradiction|]. exact (F y (or_intror Iy) Ib).
Qed.

Lemma dfs_exact : forall (X : Type) (N : nat) (next : id -> list id) (stop : id -> bool) (hit : id -> X -> Prop)
  (f : nat -> list id -> id -> option (list X)),
  (forall i j, In j (next i) -> j < N) ->
  (forall k busy i, In i busy -> f (S k) busy i = Some []) ->
  (forall k busy i, ~ In i busy -> (forall j, In j (next i) -> stop j = false -> exists o, f k (i :: busy) j = Some o) ->
     exists out, f (S k) busy i = Some out /\ forall x, In x out <-> hit i x \/ exists j o, In j (next i) /\ stop j = false /\ f k (i :: busy) j = Some o /\ In x o) ->
  forall i, i < N -> exists out, f (S N) [] i = Some out /\ forall x, In x out <-> exists p, way next stop i p /\ hit p x.
Proof.
  intros X N next stop hit f RG F0 F1 i Li.
  destruct (dfs_ok X N next stop hit f RG F0 F1 (S N) [] i (NoDup_nil _)) as (out & E & S1 & C1).
  - intros b [].
  - cbn. lia.
  - exact Li.
  - exists out. split; [exact E|]. intros x. split; [apply S1|]. intros (p & W & H). destruct (way_path _ _ _ _ W) as (l & P & L).
    destruct (path_simple next stop (List.length l) i l (le_n _) P) as (l' & P' & N' & L'). apply (C1 l' x P' N').
    + intros y _ [].
    + rewrite L', L. exact H.
Qed.

Lemma fold_gather : forall (A B : Type) (F : option (list B) -> A -> option (list B)) (g : A -> option (list B)),
  (forall r c, F (Some r) c = option_map (app r) (g c)) ->
  forall l r, (forall c, In c l -> exists o, g c = Some o) ->
  exists out, fold_left F l (Some r) = Some out /\ forall x, In x out <-> In x r \/ exists c o, In c l /\ g c = Some o /\ In x o.
Proof.
  intros A B F g FS. induction l as [|c l IH]; intros r G.
  - exists r. split; [reflexivity|]. intros x. split; [auto|]. intros [H|(c & o & [] & _)]. exact H.
  - cbn [fold_left]. rewrite FS. destruct (G c (or_introl eq_refl)) as (o & Eo). rewrite Eo. cbn [option_map].
    destruct (IH (r ++ o)) as (out & E & M); [intros d I; apply G; right; exact I|].
    exists out. split; [exact E|]. intros x. rewrite M, in_app_iff. split.
    + intros [[H|H]|(d & o' & I & Ed & H)]; [left; exact H|right; exists c, o; split; [left; reflexivity|auto]|right; exists d, o'; split; [right; exact I|auto]].
    + intros [H|(d & o' & [<-|I] & Ed & H)]; [auto| |right; exists d, o'; auto]. rewrite Eo in Ed. injection Ed as <-. auto.
Qed.

Lemma busy_true : forall (i : id) busy, In i busy -> existsb (Nat.eqb i) busy = true.
Proof. intros i busy I. apply existsb_exists. exists i. split; [exact I|apply Nat.eqb_refl]. Qed.

Lemma busy_false : forall (i : id) busy, ~ In i busy -> existsb (Nat.eqb i) busy = false.
Proof.
  intros i busy N. destruct (existsb (Nat.eqb i) busy) eqn:E; [|reflexivity]. apply existsb_exists in E. destruct E as (b & I & Eb).
  apply Nat.eqb_eq in Eb. subst b. contradiction.
Qed.

Lemma attribute_nodes_ok : forall search excl h i, one_stage h -> i < List.length h ->
  exists l, attribute_nodes search excl h (S (List.length h)) [] i = Some l /\
  forall c, In c l <-> exists p, way (kids h) (fun j => search (CNode j) || excl (CNode j)) i p /\
    In c (flat_map attr_children (attrs_of h p)) /\ search c = true /\ excl c = false.
Proof.
  intros search excl h i O L.
  apply (dfs_exact child (List.length h) (kids h) (fun j => search (CNode j) || excl (CNode j))
    (fun p c => In c (flat_map attr_children (attrs_of h p)) /\ search c = true /\ excl c = false) (attribute_nodes search excl h)).
  - intros p j I. apply (O p j I).
  - intros k busy p B. cbn [attribute_nodes]. rewrite busy_true by exact B. reflexivity.
  - intros k busy p B REC. cbn [attribute_nodes]. rewrite busy_false by exact B.
    set (g := fun c => if excl c then Some [] else if search c then Some [c] else match c with CSym _ => Some [] | CNode j => attribute_nodes search excl h k (p :: busy) j end).
    match goal with |- context [fold_left ?F ?cs (Some [])] => destruct (fold_gather child child F g) with (l := cs) (r := @nil child) as (out & E & M) end.
    + intros r c. unfold g. destruct (excl c); [cbn; rewrite app_nil_r; reflexivity|]. destruct (search c); [reflexivity|]. destruct c; [cbn; rewrite app_nil_r; reflexivity|reflexivity].
    + intros c I. unfold g. destruct (excl c) eqn:X; [eauto|]. destruct (search c) eqn:Sc; [eauto|]. destruct c as [sy|j]; [eauto|]. apply REC.
      * apply kid_child. exact I.
      * rewrite X, Sc. reflexivity.
    + exists out. split; [exact E|]. intros x. rewrite M. split.
      * intros [[]|(c & o & I & Ec & Ix)]. unfold g in Ec. destruct (excl c) eqn:X; [injection Ec as <-; destruct Ix|].
        destruct (search c) eqn:Sc; [injection Ec as <-; destruct Ix as [<-|[]]; left; auto|].
        destruct c as [sy|j]; [injection Ec as <-; destruct Ix|]. right. exists j, o. split; [apply kid_child; exact I|]. rewrite X, Sc. auto.
      * intros [(I & Sx & X)|(j & o & I & St & Eo & Ix)]; right.
        -- exists x, [x]. split; [exact I|]. unfold g. rewrite X, Sx. split; [reflexivity|left; reflexivity].
        -- apply orb_false_elim in St. destruct St as [Sx X]. exists (CNode j), o. split; [apply kid_child; exact I|]. unfold g. rewrite X, Sx. auto.
  - exact L.
Qed.

Lemma users_lt : forall h i p, consistent h -> In p (users_of h i) -> p < List.length h.
Proof. intros h i p (_ & B & _) I. apply alive_lt. apply (B p i I). Qed.

Lemma user_nodes_ok : forall search excl h i, consistent h -> i < List.length h ->
  exists l, user_nodes search excl h (S (List.length h)) [] i = Some l /\
  forall p, In p l <-> exists q, way (users_of h) (fun j => search j || excl j) i q /\ In p (users_of h q) /\ search p = true /\ excl p = false.
Proof.
  intros search excl h i C L.
  apply (dfs_exact nat (List.length h) (users_of h) (fun j => search j || excl j)
    (fun q p => In p (users_of h q) /\ search p = true /\ excl p = false) (user_nodes search excl h)).
  - intros q j I. apply (users_lt h q j C I).
  - intros k busy q B. cbn [user_nodes]. rewrite busy_true by exact B. reflexivity.
  - intros k busy q B REC. cbn [user_nodes]. rewrite busy_false by exact B.
    set (g := fun p => if search p || excl p then Some [] else user_nodes search excl h k (q :: busy) p).
    match goal with |- context [fold_left ?F ?cs (Some ?r0)] => destruct (fold_gather nat nat F g) with (l := cs) (r := r0) as (out & E & M) end.
    + intros r p. unfold g. destruct (search p || excl p); [cbn; rewrite app_nil_r; reflexivity|reflexivity].
    + intros p I. unfold g. destruct (search p || excl p) eqn:X; [eauto|]. apply REC; assumption.
    + exists out. split; [exact E|]. intros x. rewrite M, filter_In, andb_true_iff, negb_true_iff. split.
      * intros [H|(p & o & I & Ep & Ix)]; [left; tauto|]. unfold g in Ep. destruct (search p || excl p) eqn:X; [injection Ep as <-; destruct Ix|].
        right. exists p, o. auto.
      * intros [H|(p & o & I & St & Eo & Ix)]; [left; tauto|]. right. exists p, o. unfold g. rewrite St. auto.
  - exact L.
Qed.

(* the search for one user, as a list *)
Lemma fold_bool : forall (F : option bool -> id -> option bool) (g : id -> option bool),
  (forall v, F (Some false) v = g v) -> (forall v, F (Some true) v = Some true) ->
  forall l, (forall v, In v l -> exists b, g v = Some b) ->
  exists b, fold_left F l (Some false) = Some b /\ (b = true <-> exists v, In v l /\ g v = Some true).
Proof.
  intros F g FF FT.
  assert (T : forall l, fold_left F l (Some true) = Some true) by (induction l as [|v l IH]; [reflexivity|cbn [fold_left]; rewrite FT; exact IH]).
  induction l as [|v l IH]; intros G.
  - exists false. split; [reflexivity|]. split; [discriminate|]. intros (v & [] & _).
  - cbn [fold_left]. rewrite FF. destruct (G v (or_introl eq_refl)) as ([|] & Ev); rewrite Ev.
    + exists true. split; [apply T|]. split; [|reflexivity]. intros _. exists v. split; [left; reflexivity|exact Ev].
    + destruct IH as (b & E & M); [intros w I; apply G; right; exact I|]. exists b. split; [exact E|]. rewrite M. split.
      * intros (w & I & Ew). exists w. split; [right; exact I|exact Ew].
      * intros (w & [<-|I] & Ew); [congruence|]. exists w. auto.
Qed.

Lemma is_user_of_ok : forall excl h self i, consistent h -> i < List.length h ->
  exists b, is_user_of excl h self (S (List.length h)) [] i = Some b /\
  (b = true <-> exists q, way (users_of h) excl i q /\ In self (users_of h q)).
Proof.
  intros excl h self i C L.
  set (f := fun fuel busy j => option_map (fun b : bool => if b then [tt] else []) (is_user_of excl h self fuel busy j)).
  destruct (dfs_exact unit (List.length h) (users_of h) excl (fun q _ => In self (users_of h q)) f) with (i := i) as (out & E & M).
  - intros q j I. apply (users_lt h q j C I).
  - intros k busy q B. unfold f. cbn [is_user_of]. rewrite busy_true by exact B. reflexivity.
  - intros k busy q B REC. unfold f. cbn [is_user_of]. rewrite busy_false by exact B.
    set (g := fun v => if Nat.eqb v self then Some true else if excl v then Some false else is_user_of excl h self k (q :: busy) v).
    match goal with |- context [fold_left ?F ?cs (Some false)] => destruct (fold_bool F g) with (l := cs) as (b & E & M) end.
    + reflexivity.
    + reflexivity.
    + intros v I. unfold g. destruct (Nat.eqb v self); [eauto|]. destruct (excl v) eqn:X; [eauto|].
      destruct (REC v I X) as (o & Eo). unfold f in Eo. destruct (is_user_of excl h self k (q :: busy) v) as [b|]; [eauto|discriminate].
    + exists (if b then [tt] else []). rewrite E. split; [reflexivity|]. intros []. 
      assert (T : In tt (if b then [tt] else []) <-> b = true) by (destruct b; cbn; split; [auto|auto|intros []|discriminate]).
      rewrite T, M. split.
      * intros (v & I & Ev). unfold g in Ev. destruct (Nat.eqb_spec v self) as [Es|Es]; [left; rewrite <- Es; exact I|].
        destruct (excl v) eqn:X; [discriminate|]. right. exists v, [tt]. split; [exact I|]. split; [exact X|]. rewrite Ev. split; [reflexivity|left; reflexivity].
      * intros [I|(v & o & I & X & Eo & Ix)]; [exists self; unfold g; rewrite Nat.eqb_refl; auto|]. exists v. split; [exact I|]. unfold g.
        destruct (Nat.eqb v self); [reflexivity|]. rewrite X. destruct (is_user_of excl h self k (q :: busy) v) as [[|]|]; [reflexivity| |discriminate].
        injection Eo as <-. destruct Ix.
  - exact L.
  - unfold f in E. destruct (is_user_of excl h self (S (List.length h)) [] i) as [b|]; [|discriminate]. exists b. split; [reflexivity|].
    cbn in E. injection E as <-. specialize (M tt). split.
    + intros ->. apply M. left. reflexivity.
    + intros H. apply M in H. destruct b; [reflexivity|destruct H].
Qed.

(* users and attributes are the same relation *)
Lemma users_kids : forall h p c, consistent h -> one_stage h -> (In p (users_of h c) <-> alive h p /\ In c (kids h p)).
Proof.
  intros h p c (A & B & _) O. split.
  - intros I. pose proof (B p c I) as Ap. split; [exact Ap|]. 
    assert (L : c < List.length h). { unfold users_of in I. destruct (nth_error h c) eqn:E; [|destruct I]. apply nth_error_Some. rewrite E. discriminate. }
    apply (count_occ_In Nat.eq_dec). rewrite <- (A p c L Ap). apply (count_occ_In Nat.eq_dec). exact I.
  - intros [Ap I]. destruct (O p c I) as [L _]. apply (count_occ_In Nat.eq_dec). rewrite (A p c L Ap). apply (count_occ_In Nat.eq_dec). exact I.
Qed.

Lemma uses_end : forall h p c x, uses h p c -> alive h c -> In x (kids h c) -> uses h p x.
Proof.
  intros h p c x U Ac I. induction U as [p c Ap Ic|p c d Ap Ic U IH].
  - apply uses_step with c; [exact Ap|exact Ic|]. apply uses_one; assumption.
  - apply uses_step with c; [exact Ap|exact Ic|]. apply IH; assumption.
Qed.

Lemma way_uses : forall h self i, consistent h -> one_stage h ->
  ((exists q, way (users_of h) (fun _ => false) i q /\ In self (users_of h q)) <-> uses h self i).
Proof.
  intros h self i C O. split.
  - intros (q & W & I). apply (users_kids h self q C O) in I. destruct I as [As I]. revert As I. induction W as [q|i j q K _ W IH]; intros As I.
    + apply uses_one; assumption.
    + apply (users_kids h j i C O) in K. destruct K as [Aj K]. apply uses_end with j; [|exact Aj|exact K]. apply IH; assumption.
  - intros U. induction U as [p c Ap Ic|p c x Ap Ic U (q & W & I)].
    + exists c. split; [constructor|]. apply users_kids; auto.
    + exists c. split; [|apply users_kids; auto]. clear - W I. induction W as [q|i j q K S W IH].
      * apply way_step with c; [exact I|reflexivity|constructor].
      * apply way_step with j; [exact K|reflexivity|]. apply IH. exact I.
Qed.

Lemma is_user_of_uses : forall h self i, consistent h -> one_stage h -> i < List.length h ->
  exists b, is_user_of (fun _ => false) h self (S (List.length h)) [] i = Some b /\ (b = true <-> uses h self i).
Proof.
  intros h self i C O L. destruct (is_user_of_ok (fun _ => false) h self i C L) as (b & E & M). exists b. split; [exact E|].
  rewrite M. apply way_uses; assumption.
Qed.

(* ---------------- nothing is left behind -------------------- *)

(* a node that loses its last user is discarded, and stays so *)
Definition Swept (h h' : heap) : Prop :=
  (forall x, users_of h x <> [] -> users_of h' x = [] -> dead_of h' x = true) /\ (forall x, dead_of h x = true -> dead_of h' x = true).

Lemma swept_refl : forall h, Swept h h.
Proof. intros h. split; [congruence|auto]. Qed.

Lemma swept_trans : forall a b c, Swept a b -> Swept b c -> Swept a c.
Proof.
  intros a b c [A1 A2] [B1 B2]. split; [|auto]. intros x Ua Uc. destruct (users_of b x) as [|u us] eqn:E.
  - apply B2, A1; assumption.
  - apply B1; [rewrite E; discriminate|exact Uc].
Qed.

Lemma swept_kill : forall h i, Swept h (update h i kill).
Proof.
  intros h i. split.
  - intros x A B. rewrite users_kill in B. contradiction.
  - intros x D. rewrite dead_kill. destruct (Nat.eqb x i); [reflexivity|exact D].
Qed.

Lemma swept_remove : forall eq inval p h j h', remove_user eq inval p true h j = Ok h' ->
  (forall h1 h2, inval h1 j = Ok h2 -> Swept h1 h2 /\ (j < List.length h1 -> dead_of h2 j = true)) -> Swept h h'.
Proof.
  intros eq inval p h j h' E IV. unfold remove_user in E. destruct (nth_error h j) as [m|] eqn:Em; [|discriminate].
  assert (L : j < List.length h) by (apply nth_error_Some; rewrite Em; discriminate).
  destruct (remove_first _ (n_users m)) as [us|] eqn:Er; [|discriminate].
  assert (G : forall x, x <> j -> users_of (update h j (with_users us)) x = users_of h x).
  { intros x N. rewrite users_update by exact L. destruct (Nat.eqb_spec x j); [congruence|reflexivity]. }
  destruct us as [|u us].
  - destruct (IV _ _ E) as [[S1 S2] Dj]. rewrite length_update in Dj. split.
    + intros x A B. destruct (Nat.eq_dec x j) as [->|N]; [apply Dj; exact L|]. apply S1; [rewrite G by exact N; exact A|exact B].
    + intros x D. apply S2. rewrite dead_users. exact D.
  - injection E as <-. split.
    + intros x A B. destruct (Nat.eq_dec x j) as [->|N]; [|rewrite G in B by exact N; contradiction].
      rewrite users_update, Nat.eqb_refl in B by exact L. discriminate.
    + intros x D. rewrite dead_users. exact D.
Qed.

Lemma swept_invalidate : forall fuel h i h', invalidate same fuel h i = Ok h' -> Swept h h' /\ (i < List.length h -> dead_of h' i = true).
Proof.
  induction fuel as [|k IH]; intros h i h' E; [discriminate|]. destruct (nth_error h i) as [n|] eqn:En; [|cbn in E; rewrite En in E; discriminate].
  rewrite (invalidate_step _ _ _ _ En) in E.
  assert (LOOP : forall cs h1 h2, inval_loop k i (n_stage n) cs h1 = Ok h2 -> Swept h1 h2).
  { induction cs as [|[sy|j] cs IHc]; intros h1 h2 E1; cbn [inval_loop] in E1.
    - injection E1 as <-. apply swept_refl.
    - exact (IHc _ _ E1).
    - destruct (nth_error h1 j) as [m|]; [|discriminate]. destruct (Nat.eqb (n_stage m) (n_stage n)); [|exact (IHc _ _ E1)].
      destruct (remove_user same (invalidate same k) i true h1 j) as [h3| |] eqn:Er; try discriminate.
      apply swept_trans with h3; [|exact (IHc _ _ E1)]. apply (swept_remove _ _ _ _ _ _ Er). intros a b. apply IH. }
  pose proof (LOOP _ _ _ E) as S1. split.
  - apply swept_trans with (update h i kill); [apply swept_kill|exact S1].
  - intros _. apply S1. rewrite dead_kill, Nat.eqb_refl. reflexivity.
Qed.

Lemma swept_add : forall p l h, Swept h (fold_left (add_user p) l h).
Proof.
  intros p. induction l as [|c l IH]; intros h; [apply swept_refl|]. cbn [fold_left]. apply swept_trans with (add_user p h c); [|apply IH].
  destruct c as [sy|i]; cbn [add_user]; [apply swept_refl|]. split.
  - intros x A B. exfalso. apply A. look. rewrite nth_update in B. destruct (Nat.eqb_spec x i) as [->|]; [|exact B]. destruct (nth_error h i) as [n|]; [|reflexivity].
    cbn in B. destruct (n_users n); discriminate.
  - intros x D. look. destruct (Nat.eqb_spec x i) as [->|]; [|exact D]. destruct (nth_error h i); [exact D|reflexivity].
Qed.

Lemma swept_set : forall h i n a, Swept h (set_attr h i n a).
Proof.
  intros h i n a. split.
  - intros x A B. exfalso. apply A. unfold set_attr in B. look. rewrite nth_update in B. destruct (Nat.eqb_spec x i) as [->|]; [|exact B]. destruct (nth_error h i); [exact B|reflexivity].
  - intros x D. unfold set_attr. look. destruct (Nat.eqb_spec x i) as [->|]; [|exact D]. destruct (nth_error h i); [exact D|reflexivity].
Qed.

Lemma swept_prepare : forall s i h c h' rep, s_invalidate s = true -> prepare_sub same s i h c = Ok2 h' rep -> Swept h h'.
Proof.
  intros s i h c h' rep V E. unfold prepare_sub in E. destruct (index_of _ (s_from s)) as [k|]; [|discriminate].
  destruct (nth_error (s_to s) k) as [r|]; [|discriminate]. destruct c as [sy|j].
  - injection E as <- <-. apply swept_add.
  - rewrite V in E. destruct (remove_user same (invalidate_node same) i true _ j) as [h2| |] eqn:Er; try discriminate. injection E as <- <-.
    eapply swept_trans; [apply swept_add|]. apply (swept_remove _ _ _ _ _ _ Er). intros a b. unfold invalidate_node. apply swept_invalidate.
Qed.

Lemma swept_tuple : forall s visit i, s_invalidate s = true -> (forall h j h', visit h j = Ok h' -> Swept h h') ->
  forall l acc h h' out, sub_tuple same s visit i l acc h = Ok2 h' out -> Swept h h'.
Proof.
  intros s visit i V VIS. induction l as [|c l IH]; intros acc h h' out E; cbn [sub_tuple] in E.
  - injection E as <- _. apply swept_refl.
  - destruct (s_excl s c); [exact (IH _ _ _ _ E)|]. destruct (existsb _ _).
    + destruct (prepare_sub same s i h c) as [h1 rep| |] eqn:Ep; try discriminate. apply swept_trans with h1; [|exact (IH _ _ _ _ E)].
      exact (swept_prepare _ _ _ _ _ _ V Ep).
    + destruct c as [sy|j]; [exact (IH _ _ _ _ E)|]. destruct (visit h j) as [h1| |] eqn:Ev; try discriminate.
      apply swept_trans with h1; [exact (VIS _ _ _ Ev)|exact (IH _ _ _ _ E)].
Qed.

Lemma swept_attrs : forall s visit i, s_invalidate s = true -> (forall h j h', visit h j = Ok h' -> Swept h h') ->
  forall cnt n h h', sub_attrs same s visit i n cnt h = Ok h' -> Swept h h'.
Proof.
  intros s visit i V VIS. induction cnt as [|cnt IH]; intros n h h' E; cbn [sub_attrs] in E.
  - injection E as <-. apply swept_refl.
  - destruct (nth_error (attrs_of h i) n) as [[c|l]|]; [| |discriminate].
    + destruct (s_excl s c); [exact (IH _ _ _ E)|]. destruct (existsb _ _).
      * destruct (prepare_sub same s i h c) as [h1 rep| |] eqn:Ep; try discriminate. apply swept_trans with h1; [exact (swept_prepare _ _ _ _ _ _ V Ep)|].
        eapply swept_trans; [apply swept_set|exact (IH _ _ _ E)].
      * destruct c as [sy|j]; [exact (IH _ _ _ E)|]. destruct (visit h j) as [h1| |] eqn:Ev; try discriminate.
        apply swept_trans with h1; [exact (VIS _ _ _ Ev)|exact (IH _ _ _ E)].
    + destruct (sub_tuple same s visit i l [] h) as [h1 out| |] eqn:Et; try discriminate.
      apply swept_trans with h1; [exact (swept_tuple _ _ _ V VIS _ _ _ _ _ Et)|]. eapply swept_trans; [apply swept_set|exact (IH _ _ _ E)].
Qed.

Lemma swept_subst : forall s, s_invalidate s = true -> forall fuel busy h i h', subst_from same s fuel busy h i = Ok h' -> Swept h h'.
Proof.
  intros s V. induction fuel as [|k IH]; intros busy h i h' E; [discriminate|]. cbn [subst_from] in E.
  destruct (existsb _ busy); [injection E as <-; apply swept_refl|]. destruct (s_from s); [injection E as <-; apply swept_refl|].
  apply (swept_attrs _ _ _ V (fun h j h' => IH (i :: busy) h j h') _ _ _ _ E).
Qed.

(* ------------------------------ histories --------------------------- *)

Lemma good_pre : forall h s r, one_stage h -> consistent h -> good_sub h s r -> Pre h s r.
Proof.
  intros h s r O C [G1 G2 G3 G4 G5 G6 G7 G8]. split; try assumption.
  - apply consistent_inv; assumption.
  - apply alive_dead. exact G1.
  - intros t T. destruct (G3 t T) as [A B]. split; [apply alive_dead; exact A|exact B].
Qed.

Lemma drop_ok : forall h i, one_stage h -> consistent h -> alive h i -> users_of h i = [] ->
  exists h', invalidate_node same h i = Ok h' /\ one_stage h' /\ consistent h' /\ ~ alive h' i /\
    (forall x, attrs_of h' x = attrs_of h x) /\ List.length h' = List.length h /\
    (forall x, alive h x -> ~ alive h' x -> reaches h i x).
Proof.
  intros h i O C A U. pose proof (proj1 (consistent_inv h O) C) as IV.
  destruct (invalidate_ok (fun _ => False) (fun x => reaches h i x) (S (links h)) h i none none) as (h' & E & I' & K & D); try assumption.
  - lia.
  - split; try contradiction.
    + intros x c R _ J. clear - R J. induction R as [p|p q x K R IH]; [apply reach_step with c; [exact J|constructor]|]. apply reach_step with q; [exact K|]. apply IH. exact J.
  - constructor.
  - auto.
  - exists h'. assert (O' : one_stage h') by exact (inv_kids _ _ _ I'). split; [exact E|]. split; [exact O'|].
    split; [apply consistent_inv; assumption|]. split; [intros X; apply alive_dead in X; congruence|].
    destruct (k_shape _ _ _ _ K) as (Ln & At & _). split; [exact At|]. split; [exact Ln|].
    intros x Ax Nx. assert (Dx : dead_of h' x = true). { destruct (dead_of h' x) eqn:Z; [reflexivity|]. elim Nx. apply alive_dead. exact Z. }
    destruct (k_only _ _ _ _ K x Dx) as [Z|[R _]]; [|exact R]. apply alive_dead in Ax. congruence.
Qed.

Lemma op_ok : forall h o, one_stage h -> consistent h -> allowed h o -> exists h', do_op same h o = Ok h' /\ one_stage h' /\ consistent h'.
Proof.
  intros h [st attrs|i|s r] O C A; cbn [allowed do_op] in *.
  - exists (construct h st attrs). destruct (construct_ok h st attrs O C A) as (O' & C' & _). auto.
  - destruct A as [A U]. destruct (drop_ok h i O C A U) as (h' & E & O' & C' & _). exists h'. auto.
  - destruct (substitute_ok h s r (good_pre h s r O C A)) as (h' & E & I' & _). exists h'. split; [exact E|].
    split; [exact (inv_kids _ _ _ I')|]. apply consistent_inv; [exact (inv_kids _ _ _ I')|exact I'].
Qed.

Lemma history_ok : forall h, history h -> one_stage h /\ consistent h.
Proof.
  intros h H. induction H as [|h o h' H (O & C) A E].
  - split; [intros p c I; unfold kids, attrs_of in I; destruct p; destruct I|]. split; [|split].
    + intros p c L. cbn in L. lia.
    + intros p c I. unfold users_of in I. destruct c; destruct I.
    + intros c L. cbn in L. lia.
  - destruct (op_ok h o O C A) as (h2 & E2 & O2 & C2). rewrite E in E2. injection E2 as <-. auto.
Qed.

Lemma freed_unused : forall h p c, one_stage h -> consistent h -> alive h p -> In c (kids h p) -> alive h c.
Proof.
  intros h p c O C A I. assert (U : In p (users_of h c)) by (apply users_kids; auto). destruct C as (_ & _ & D).
  apply alive_dead. destruct (dead_of h c) eqn:Z; [|reflexivity]. destruct (O p c I) as [L _].
  rewrite (D c L) in U; [destruct U|]. intros X. apply alive_dead in X. congruence.
Qed.

Lemma swept_op : forall h o h', consistent h -> match o with Sub s _ => s_invalidate s = true | _ => True end -> do_op same h o = Ok h' ->
  forall x, x < List.length h -> users_of h x <> [] -> users_of h' x = [] -> ~ alive h' x.
Proof.
  intros h [st attrs|i|s r] h' C V E x Lx A B X; cbn [do_op] in E; apply alive_dead in X.
  - injection E as <-. unfold construct in *. destruct (swept_add (List.length h) (flat_map attr_children attrs) (h ++ [mk_node attrs [] st false])) as [S1 _].
    rewrite (S1 x) in X; [discriminate| |exact B]. unfold users_of in *. rewrite nth_error_app1 by exact Lx. exact A.
  - destruct (swept_invalidate _ _ _ _ E) as [[S1 _] _]. rewrite (S1 x A B) in X. discriminate.
  - destruct (swept_subst s V _ _ _ _ _ E) as [S1 _]. rewrite (S1 x A B) in X. discriminate.
Qed.

(* ----------------------------- undoing a substitution --------------------------- *)

Lemma replaced_in : forall from to c a, replaced from to c = Some a -> In c from /\ In a to.
Proof.
  induction from as [|o from IH]; intros [|b to] c a H; cbn in H; try discriminate.
  destruct (same c o) eqn:E.
  - injection H as ->. apply same_eq in E. subst o. split; left; reflexivity.
  - destruct (IH to c a H). split; right; assumption.
Qed.

Lemma replaced_back : forall from to c t, NoDup from -> NoDup to -> List.length from = List.length to ->
  replaced from (map One to) c = Some (One t) -> replaced to (map One from) t = Some (One c).
Proof.
  induction from as [|o from IH]; intros [|b to] c t Nf Nt L H; cbn in H, L; try discriminate.
  inversion Nf as [|? ? Nf1 Nf2]; subst. inversion Nt as [|? ? Nt1 Nt2]; subst. cbn [replaced map].
  destruct (same c o) eqn:E.
  - injection H as ->. apply same_eq in E. subst o. rewrite same_refl. reflexivity.
  - destruct (same t b) eqn:E2.
    + apply same_eq in E2. subst b. apply replaced_in in H. destruct H as [_ H]. apply in_map_iff in H. destruct H as (x & Ex & Ix). injection Ex as ->. contradiction.
    + apply IH; auto.
Qed.

Lemma single_map : forall l, Forall single l -> l = map One (flat_map attr_children l).
Proof. induction l as [|a l IH]; intros F; [reflexivity|]. inversion F as [|? ? [c ->] F']; subst. cbn. f_equal. apply IH. exact F'. Qed.

Lemma undo_child : forall s b c, (forall x, s_excl s x = false) -> Forall single (s_to s) -> List.length (s_from s) = List.length (s_to s) ->
  NoDup (s_from s) -> NoDup (flat_map attr_children (s_to s)) -> ~ In c (flat_map attr_children (s_to s)) ->
  flat_map (sub_child (undo s b)) (sub_child s c) = [c].
Proof.
  intros s b c X F L Nf Nt NI. set (to := flat_map attr_children (s_to s)) in *. assert (E : s_to s = map One to) by (apply single_map; exact F).
  assert (L2 : List.length to = List.length (s_from s)) by (pose proof (f_equal (@List.length attr) E) as L3; rewrite map_length in L3; lia).
  unfold sub_child at 2. rewrite X. destruct (replaced (s_from s) (s_to s) c) as [a|] eqn:R.
  - rewrite E in R. destruct (replaced_in _ _ _ _ R) as [_ I]. apply in_map_iff in I. destruct I as (t & <- & It).
    cbn [attr_children flat_map]. rewrite app_nil_r. unfold sub_child, undo. cbn [s_excl s_from s_to]. rewrite X. fold to.
    rewrite (replaced_back _ _ _ _ Nf Nt (eq_sym L2) R). reflexivity.
  - cbn [flat_map]. rewrite app_nil_r. apply sub_child_id.
    + exact NI.
    + cbn [undo s_from s_to]. fold to. rewrite map_length. exact L2.
Qed.

Lemma undo_attr : forall s b a, (forall x, s_excl s x = false) -> Forall single (s_to s) -> List.length (s_from s) = List.length (s_to s) ->
  NoDup (s_from s) -> NoDup (flat_map attr_children (s_to s)) ->
  (forall c, In c (attr_children a) -> ~ In c (flat_map attr_children (s_to s))) ->
  sub_attr (undo s b) (sub_attr s a) = a.
Proof.
  intros s b a X F L Nf Nt NI. destruct a as [c|l].
  - pose proof (undo_child s b c X F L Nf Nt (NI c (or_introl eq_refl))) as H. cbn [sub_attr]. unfold sub_child at 2 in H. rewrite X in *.
    destruct (replaced (s_from s) (s_to s) c) as [a|] eqn:R.
    + destruct (replaced_in _ _ _ _ R) as [_ I]. rewrite Forall_forall in F. destruct (F a I) as (t & ->).
      cbn [attr_children flat_map] in H. rewrite app_nil_r in H. unfold sub_child in H. cbn [sub_attr].
      change (s_excl (undo s b) t) with (s_excl s t) in *. rewrite X in *.
      destruct (replaced (s_from (undo s b)) (s_to (undo s b)) t) as [a'|] eqn:R'; [|congruence].
      destruct (replaced_in _ _ _ _ R') as [_ I']. cbn [undo s_to] in I'. apply in_map_iff in I'. destruct I' as (o & <- & _). cbn in H. congruence.
    + cbn [flat_map] in H. rewrite app_nil_r in H. unfold sub_child in H. cbn [sub_attr].
      change (s_excl (undo s b) c) with (s_excl s c) in *. rewrite X in *.
      destruct (replaced (s_from (undo s b)) (s_to (undo s b)) c) as [a'|] eqn:R'; [|reflexivity].
      destruct (replaced_in _ _ _ _ R') as [_ I']. cbn [undo s_to] in I'. apply in_map_iff in I'. destruct I' as (o & <- & _). cbn in H. congruence.
  - cbn [sub_attr]. f_equal. cbn [attr_children] in NI. induction l as [|c l IH]; [reflexivity|]. cbn [flat_map]. rewrite flat_map_app.
    rewrite (undo_child s b c X F L Nf Nt (NI c (or_introl eq_refl))). cbn [app]. f_equal. apply IH. intros d I. apply NI. right. exact I.
Qed.

Lemma restore_ok : forall h s r b h', one_stage h -> consistent h -> good_sub h s r -> (forall x, s_excl s x = false) ->
  Forall single (s_to s) -> NoDup (s_from s) -> NoDup (flat_map attr_children (s_to s)) ->
  (forall p c, region h s r p -> In c (flat_map attr_children (attrs_of h p)) -> ~ In c (flat_map attr_children (s_to s))) ->
  substitute same s h r = Ok h' -> good_sub h' (undo s b) r ->
  exists h2, substitute same (undo s b) h' r = Ok h2 /\ forall p, attrs_of h2 p = attrs_of h p.
Proof.
  intros h s r b h' O C G X F Nf Nt FR E G'.
  destruct (substitute_ok h s r (good_pre h s r O C G)) as (h1 & E1 & I1 & L1 & A1 & _ & _ & _ & B1). rewrite E in E1. injection E1 as <-.
  assert (O' : one_stage h') by exact (inv_kids _ _ _ I1). assert (C' : consistent h') by (apply consistent_inv; assumption).
  destruct (substitute_ok h' (undo s b) r (good_pre h' (undo s b) r O' C' G')) as (h2 & E2 & _ & _ & A2 & _ & _ & _ & B2).
  exists h2. split; [exact E2|].
  pose proof (gs_len _ _ _ G) as L.
  assert (to : s_to s = map One (flat_map attr_children (s_to s))) by (apply single_map; exact F).
  assert (R1 : forall p, region h s r p -> region h' (undo s b) r p).
  { intros p R. induction R as [|p c R IH K Xc Nc]; [constructor|]. apply region_step with p; [exact IH| |apply X|].
    - apply kid_child. rewrite (A1 p R). apply kid_child in K. apply in_flat_map in K. destruct K as (a & Ia & Ic). apply in_flat_map.
      exists (sub_attr s a). split; [apply in_map; exact Ia|]. apply sub_attr_keeps; auto.
    - cbn [undo s_from]. apply (FR p); [exact R|]. apply kid_child. exact K. }
  assert (R2 : forall p, region h' (undo s b) r p -> region h s r p).
  { intros p R. induction R as [|p c R IH K Xc Nc]; [constructor|]. apply kid_child in K. rewrite (A1 p IH) in K.
    apply in_flat_map in K. destruct K as (a & Ia & Ic). apply in_map_iff in Ia. destruct Ia as (a0 & <- & Ia). cbn [undo s_from] in Nc.
    destruct (sub_attr_in s a0 _ Ic) as [J|J]; [|contradiction].
    apply region_step with p; [exact IH| |apply X|].
    - apply kid_child. apply in_flat_map. exists a0. auto.
    - intros If. apply Nc. clear - Ic If X L. (* a replaced child is not a child of the result *)
      destruct a0 as [d|l]; cbn [sub_attr attr_children] in Ic.
      + rewrite X in Ic. destruct (replaced (s_from s) (s_to s) d) as [a'|] eqn:R.
        * destruct (replaced_in _ _ _ _ R) as [_ I]. apply in_flat_map. exists a'. auto.
        * destruct Ic as [->|[]]. exfalso. apply (replaced_none _ _ _ L) in R. contradiction.
      + apply in_flat_map in Ic. destruct Ic as (d & Id & Ic). unfold sub_child in Ic. rewrite X in Ic.
        destruct (replaced (s_from s) (s_to s) d) as [a'|] eqn:R.
        * destruct (replaced_in _ _ _ _ R) as [_ I]. apply in_flat_map. exists a'. auto.
        * destruct Ic as [->|[]]. exfalso. apply (replaced_none _ _ _ L) in R. contradiction. }
  intros p. assert (DEC : region h s r p \/ attrs_of h2 p = attrs_of h p).
  { destruct (B1 p) as [E3|R]; [|left; exact R]. destruct (B2 p) as [E4|R]; [right; congruence|left; apply R2; exact R]. }
  destruct DEC as [R|E3]; [|exact E3].
  rewrite (A2 p (R1 p R)), (A1 p R), map_map. rewrite <- (map_id (attrs_of h p)) at 2. apply map_ext_in. intros a Ia.
  apply undo_attr; auto. intros c Ic. apply (FR p c R). apply in_flat_map. exists a. auto.
Qed.
