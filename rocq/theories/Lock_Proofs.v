(* Proofs about the file locks. *)
From Coq Require Import Bool String Ascii Arith Lia List.
From Verif Require Import Lock_Model Lock_Spec.
Import ListNotations.
Open Scope list_scope.

Lemma inst_eqb_spec a b : reflect (a = b) (inst_eqb a b).
Proof.
  destruct a, b; cbn; try (constructor; congruence);
    match goal with |- reflect _ (Nat.eqb ?x ?y) => destruct (Nat.eqb_spec x y); constructor; congruence end.
Qed.

Lemma inst_eqb_refl a : inst_eqb a a = true.
Proof. destruct (inst_eqb_spec a a); congruence. Qed.

(* How often a lock has been acquired after a list of actions. *)
Definition one (a : inst) (n : nat) (x : action) : nat :=
  match x with
  | Acquire b => if inst_eqb a b then S n else n
  | Release b => if inst_eqb a b then pred n else n
  | Work _ => n
  end.
Definition tally (l : list action) (a : inst) (n : nat) : nat := fold_left (one a) l n.

Lemma tally_app l1 l2 a n : tally (l1 ++ l2) a n = tally l2 a (tally l1 a n).
Proof. unfold tally. apply fold_left_app. Qed.

(* ---- the invariant ---- *)

Definition inv (system : nat -> proc) (s : state) : Prop :=
  (forall p a, 0 < cnt s p a -> owner s (path (system p) a) = Some (p, a))
  /\ (forall x p a, owner s x = Some (p, a) -> path (system p) a = x /\ 0 < cnt s p a)
  /\ (forall p, (todo s p = [] /\ forall a, cnt s p a = 0)
        \/ exists d, flat_map (code (system p)) (sections (system p)) = d ++ todo s p /\ forall a, cnt s p a = tally d a 0).

Lemma set_todo_same t p l : set_todo t p l p = l.
Proof. unfold set_todo. rewrite Nat.eqb_refl. reflexivity. Qed.
Lemma set_todo_other t p l q : q <> p -> set_todo t p l q = t q.
Proof. unfold set_todo. intros N. destruct (Nat.eqb_spec q p); [contradiction|reflexivity]. Qed.

Lemma set_cnt_spec c p a n q b : set_cnt c p a n q b = if Nat.eqb q p && inst_eqb b a then n else c q b.
Proof. reflexivity. Qed.

Lemma set_cnt_same c p a n : set_cnt c p a n p a = n.
Proof. rewrite set_cnt_spec, Nat.eqb_refl, inst_eqb_refl. reflexivity. Qed.

Lemma set_cnt_other c p a n q b : (q, b) <> (p, a) -> set_cnt c p a n q b = c q b.
Proof.
  intros N. rewrite set_cnt_spec. destruct (Nat.eqb_spec q p), (inst_eqb_spec b a); cbn; try reflexivity. congruence.
Qed.

Lemma pair_dec (q : nat) (b : inst) p a : (q, b) = (p, a) \/ (q, b) <> (p, a).
Proof. destruct (Nat.eq_dec q p), (inst_eqb_spec b a); [left|right|right|right]; congruence. Qed.

(* The third part, when p executes x. *)
Lemma inv3 (system : nat -> proc) s p x l c : todo s p = x :: l ->
  (forall p, (todo s p = [] /\ forall a, cnt s p a = 0)
        \/ exists d, flat_map (code (system p)) (sections (system p)) = d ++ todo s p /\ forall a, cnt s p a = tally d a 0) ->
  (forall q, q <> p -> forall a, c q a = cnt s q a) -> (forall a, c p a = one a (cnt s p a) x) ->
  forall q, (set_todo (todo s) p l q = [] /\ forall a, c q a = 0)
        \/ exists d, flat_map (code (system q)) (sections (system q)) = d ++ set_todo (todo s) p l q /\ forall a, c q a = tally d a 0.
Proof.
  intros T I O C q. destruct (Nat.eq_dec q p) as [->|N].
  - right. rewrite set_todo_same. destruct (I p) as [(E & _)|(d & E & F)]; [congruence|].
    exists (d ++ [x]). split; [rewrite <- app_assoc, E, T; reflexivity|]. intros a. rewrite tally_app, C, F. reflexivity.
  - rewrite (set_todo_other _ _ _ _ N). destruct (I q) as [(E & F)|(d & E & F)]; [left|right].
    + split; [exact E|]. intros a. rewrite (O q N). apply F.
    + exists d. split; [exact E|]. intros a. rewrite (O q N). apply F.
Qed.

Lemma exec_inv system s p s' : inv system s -> exec system s p = Some s' -> inv system s'.
Proof.
  intros (A & B & C) E. unfold exec in E. destruct (todo s p) as [|[a|a|w] l] eqn:T; [discriminate| | |].
  - destruct (cnt s p a) as [|n] eqn:N.
    + destruct (owner s (path (system p) a)) as [z|] eqn:W; [discriminate|]. injection E as <-. split; [|split]; cbn.
      * intros q b H. unfold set_owner. destruct (pair_dec q b p a) as [Q|Q].
        -- injection Q as -> ->. rewrite String.eqb_refl. reflexivity.
        -- rewrite set_cnt_other in H by exact Q. pose proof (A q b H) as X.
           destruct (String.eqb_spec (path (system q) b) (path (system p) a)) as [Y|Y]; [|exact X]. rewrite Y in X. congruence.
      * intros x q b H. unfold set_owner in H. destruct (String.eqb_spec x (path (system p) a)) as [->|Y].
        -- injection H as <- <-. split; [reflexivity|]. rewrite set_cnt_same. lia.
        -- destruct (B x q b H) as (X & Z). split; [exact X|]. rewrite set_cnt_other; [exact Z|]. intros Q. injection Q as -> ->. congruence.
      * apply (inv3 system s p (Acquire a) l _ T C).
        -- intros q Q b. apply set_cnt_other. congruence.
        -- intros b. cbn. destruct (inst_eqb_spec b a) as [->|Q]; [rewrite set_cnt_same, N; reflexivity|apply set_cnt_other; congruence].
    + injection E as <-. split; [|split]; cbn.
      * intros q b H. destruct (pair_dec q b p a) as [Q|Q].
        -- injection Q as -> ->. apply A. lia.
        -- rewrite set_cnt_other in H by exact Q. apply A, H.
      * intros x q b H. destruct (B x q b H) as (X & Z). split; [exact X|]. destruct (pair_dec q b p a) as [Q|Q].
        -- injection Q as -> ->. rewrite set_cnt_same. lia.
        -- rewrite set_cnt_other by exact Q. exact Z.
      * apply (inv3 system s p (Acquire a) l _ T C).
        -- intros q Q b. apply set_cnt_other. congruence.
        -- intros b. cbn. destruct (inst_eqb_spec b a) as [->|Q]; [rewrite set_cnt_same, N; reflexivity|apply set_cnt_other; congruence].
  - destruct (cnt s p a) as [|[|n]] eqn:N.
    + injection E as <-. split; [|split]; cbn; auto. apply (inv3 system s p (Release a) l _ T C); [auto|].
      intros b. cbn. destruct (inst_eqb_spec b a) as [->|Q]; [rewrite N; reflexivity|reflexivity].
    + injection E as <-. split; [|split]; cbn.
      * intros q b H. destruct (pair_dec q b p a) as [Q|Q].
        -- injection Q as -> ->. rewrite set_cnt_same in H. lia.
        -- rewrite set_cnt_other in H by exact Q. pose proof (A q b H) as X. unfold set_owner.
           destruct (String.eqb_spec (path (system q) b) (path (system p) a)) as [Y|Y]; [|exact X].
           exfalso. apply Q. rewrite Y in X. rewrite (A p a) in X by lia. congruence.
      * intros x q b H. unfold set_owner in H. destruct (String.eqb_spec x (path (system p) a)) as [->|Y]; [discriminate|].
        destruct (B x q b H) as (X & Z). split; [exact X|]. rewrite set_cnt_other; [exact Z|]. intros Q. injection Q as -> ->. congruence.
      * apply (inv3 system s p (Release a) l _ T C).
        -- intros q Q b. apply set_cnt_other. congruence.
        -- intros b. cbn. destruct (inst_eqb_spec b a) as [->|Q]; [rewrite set_cnt_same, N; reflexivity|apply set_cnt_other; congruence].
    + injection E as <-. split; [|split]; cbn.
      * intros q b H. destruct (pair_dec q b p a) as [Q|Q].
        -- injection Q as -> ->. apply A. lia.
        -- rewrite set_cnt_other in H by exact Q. apply A, H.
      * intros x q b H. destruct (B x q b H) as (X & Z). split; [exact X|]. destruct (pair_dec q b p a) as [Q|Q].
        -- injection Q as -> ->. rewrite set_cnt_same. lia.
        -- rewrite set_cnt_other by exact Q. exact Z.
      * apply (inv3 system s p (Release a) l _ T C).
        -- intros q Q b. apply set_cnt_other. congruence.
        -- intros b. cbn. destruct (inst_eqb_spec b a) as [->|Q]; [rewrite set_cnt_same, N; reflexivity|apply set_cnt_other; congruence].
  - injection E as <-. split; [|split]; cbn; auto. apply (inv3 system s p (Work w) l _ T C); auto.
Qed.

Lemma kill_inv system s p : inv system s -> inv system (kill s p).
Proof.
  intros (A & B & C). split; [|split]; cbn.
  - intros q a H. destruct (Nat.eqb_spec q p) as [->|N]; [lia|]. rewrite (A q a H).
    destruct (Nat.eqb_spec q p); [contradiction|reflexivity].
  - intros x q a H. destruct (owner s x) as [(r & b)|] eqn:E; [|discriminate]. destruct (Nat.eqb_spec r p) as [->|N]; [discriminate|].
    injection H as <- <-. destruct (Nat.eqb_spec r p); [contradiction|]. exact (B x r b E).
  - intros q. destruct (Nat.eq_dec q p) as [->|N].
    + left. rewrite set_todo_same, Nat.eqb_refl. auto.
    + rewrite (set_todo_other _ _ _ _ N). destruct (Nat.eqb_spec q p); [contradiction|]. apply C.
Qed.

Lemma init_inv system : inv system (init system).
Proof.
  split; [|split]; cbn; [lia|discriminate|]. intros p. right. exists []. split; reflexivity.
Qed.

Lemma runs_inv system s h s' : runs system s h s' -> inv system s -> inv system s'.
Proof.
  induction 1 as [s|s p s1 h s2 E R IH|s p h s2 R IH]; intros I; [exact I| |].
  - exact (IH (exec_inv system s p s1 I E)).
  - exact (IH (kill_inv system s p I)).
Qed.

Lemma reachable_inv system s : reachable system s -> inv system s.
Proof. intros (h & R). exact (runs_inv _ _ _ _ R (init_inv system)). Qed.

(* ---- mutual exclusion ---- *)

Lemma exclusion system s p q x : reachable system s -> holds system s p x -> holds system s q x -> p = q.
Proof.
  intros R (a & A & E) (b & B & F). destruct (reachable_inv _ _ R) as (I & _ & _).
  pose proof (I p a A) as X. pose proof (I q b B) as Y. rewrite E in X. rewrite F in Y. congruence.
Qed.

(* ---- the position of a process ---- *)

Lemma position {A B} (f : A -> list B) l : forall d t, flat_map f l = d ++ t -> t <> [] ->
  exists l1 w l2 d' t', l = l1 ++ w :: l2 /\ f w = d' ++ t' /\ t' <> [] /\ d = flat_map f l1 ++ d' /\ t = t' ++ flat_map f l2.
Proof.
  induction l as [|w l IH]; intros d t E N; cbn in E.
  - symmetry in E. apply app_eq_nil in E. destruct E. contradiction.
  - assert (X : (exists t', f w = d ++ t' /\ t' <> [] /\ t = t' ++ flat_map f l) \/ (exists d', d = f w ++ d' /\ flat_map f l = d' ++ t)).
    { clear IH. revert d E. generalize (flat_map f l). induction (f w) as [|x k IHk]; intros r d E; cbn in E.
      - right. exists d. auto.
      - destruct d as [|y d]; cbn in E.
        + left. exists (x :: k). cbn. split; [reflexivity|]. split; [discriminate|]. auto.
        + injection E as -> E. destruct (IHk r d E) as [(t' & X & Y & Z)|(d' & X & Y)].
          * left. exists t'. cbn. rewrite X. auto.
          * right. exists d'. rewrite X. auto. }
    destruct X as [(t' & X & Y & Z)|(d' & X & Y)].
    + exists [], w, l, d, t'. auto.
    + destruct (IH d' t Y N) as (l1 & w' & l2 & d'' & t' & -> & P & Q & -> & ->).
      exists (w :: l1), w', l2, d'', t'. cbn. rewrite X, app_assoc. auto.
Qed.

(* ---- the code of a section ---- *)

(* How often the lock is acquired by enter. *)
Fixpoint acquired (a : inst) (l : list action) : nat :=
  match l with
  | [] => 0
  | Acquire b :: l' => if inst_eqb a b then S (acquired a l') else acquired a l'
  | _ :: l' => acquired a l'
  end.
Fixpoint released (a : inst) (l : list action) : nat :=
  match l with
  | [] => 0
  | Release b :: l' => if inst_eqb a b then S (released a l') else released a l'
  | _ :: l' => released a l'
  end.

Lemma acquired_app a l1 l2 : acquired a (l1 ++ l2) = acquired a l1 + acquired a l2.
Proof. induction l1 as [|[b|b|w] l IH]; cbn; auto. destruct (inst_eqb a b); cbn; lia. Qed.
Lemma released_app a l1 l2 : released a (l1 ++ l2) = released a l1 + released a l2.
Proof. induction l1 as [|[b|b|w] l IH]; cbn; auto. destruct (inst_eqb a b); cbn; lia. Qed.

Definition only_acquires (l : list action) : Prop := forall x, In x l -> exists a, x = Acquire a.
Definition only_releases (l : list action) : Prop := forall x, In x l -> exists a, x = Release a.

Lemma tally_acquires l : only_acquires l -> forall a n, tally l a n = n + acquired a l.
Proof.
  induction l as [|x l IH]; intros H a n; cbn; [lia|].
  destruct (H x (or_introl eq_refl)) as (b & ->). change (fold_left (one a) l ?m) with (tally l a m).
  rewrite IH by (intros y I; apply H; right; exact I). cbn. destruct (inst_eqb a b); lia.
Qed.

Lemma tally_releases l : only_releases l -> forall a n, tally l a n = n - released a l.
Proof.
  induction l as [|x l IH]; intros H a n; cbn; [lia|].
  destruct (H x (or_introl eq_refl)) as (b & ->). change (fold_left (one a) l ?m) with (tally l a m).
  rewrite IH by (intros y I; apply H; right; exact I). cbn. destruct (inst_eqb a b); lia.
Qed.

Lemma simple_in f P i x : In x (simple f P i) <-> o_has (objs P i) = true /\ x = f (TargetL i).
Proof. unfold simple. destruct (o_has (objs P i)); cbn; split; [intros [<-|[]]; auto|intros (_ & ->); auto|intros []|intros (H & _); discriminate]. Qed.

Lemma simples_in f P l x : In x (flat_map (simple f P) l) <-> exists j, In j l /\ o_has (objs P j) = true /\ x = f (TargetL j).
Proof. rewrite in_flat_map. split; intros (j & I & H); exists j; rewrite simple_in in *; tauto. Qed.

Lemma enter_acquires P i : only_acquires (enter P i).
Proof.
  intros x [<-|[<-|H]]; [eauto|eauto|]. apply in_app_or in H. destruct H as [H|H].
  - apply simple_in in H. destruct H as (_ & ->). eauto.
  - apply simples_in in H. destruct H as (j & _ & _ & ->). eauto.
Qed.

Lemma leave_releases P i : only_releases (leave P i).
Proof.
  intros x H. unfold leave in H. apply in_app_or in H. destruct H as [H|[<-|H]]; [|eauto|].
  - apply simples_in in H. destruct H as (j & _ & _ & ->). eauto.
  - apply in_app_or in H. destruct H as [H|[<-|[]]]; [|eauto]. apply simple_in in H. destruct H as (_ & ->). eauto.
Qed.

Lemma simple_balance a P i : acquired a (simple Acquire P i) = released a (simple Release P i).
Proof. unfold simple. destruct (o_has (objs P i)); reflexivity. Qed.

Lemma simples_balance a P l : acquired a (flat_map (simple Acquire P) l) = released a (flat_map (simple Release P) l).
Proof. induction l as [|i l IH]; cbn; [reflexivity|]. rewrite acquired_app, released_app, simple_balance, IH. reflexivity. Qed.

Lemma session_balance a P i : acquired a (enter P i) = released a (leave P i).
Proof.
  unfold enter, leave. cbn [acquired]. rewrite !acquired_app, !released_app. cbn [released]. rewrite released_app. cbn [released].
  rewrite simple_balance, simples_balance. destruct (inst_eqb a GlobalL), (inst_eqb a (SourceL i)); lia.
Qed.

Lemma code_balance P w a n : tally (code P w) a n = n.
Proof.
  destruct w as [i|m]; cbn [code].
  - rewrite tally_app. change (tally (Work (Compile i) :: leave P i) a ?m) with (tally (leave P i) a m).
    rewrite (tally_acquires _ (enter_acquires P i)), (tally_releases _ (leave_releases P i)), session_balance. lia.
  - cbn. destruct (inst_eqb a (LibL m)); reflexivity.
Qed.

Lemma codes_balance P l a n : tally (flat_map (code P) l) a n = n.
Proof. induction l as [|w l IH]; cbn [flat_map]; [reflexivity|]. rewrite tally_app, code_balance. exact IH. Qed.

Lemma tally_pos l a : forall n, 0 < tally l a n -> 0 < n \/ In (Acquire a) l.
Proof.
  induction l as [|x l IH]; intros n H; cbn in H; [left; exact H|].
  change (fold_left (one a) l (one a n x)) with (tally l a (one a n x)) in H. apply IH in H.
  destruct H as [H|H]; [|right; right; exact H]. destruct x as [b|b|w]; cbn in H.
  - destruct (inst_eqb_spec a b) as [->|N]; [right; left; reflexivity|auto].
  - destruct (inst_eqb a b); [left; lia|auto].
  - auto.
Qed.

(* The middle of a session does not touch the global lock. *)
Definition middle (P : proc) (i : nat) : list action :=
  Acquire (SourceL i) :: simple Acquire P i ++ flat_map (simple Acquire P) (o_deps (objs P i))
  ++ Work (Compile i) :: flat_map (simple Release P) (o_deps (objs P i)) ++ Release (SourceL i) :: simple Release P i.

Lemma code_middle P i : code P (Compile i) = Acquire GlobalL :: middle P i ++ [Release GlobalL].
Proof.
  unfold middle. cbn [code enter leave app]. f_equal. f_equal. unfold leave.
  rewrite <- !app_assoc. cbn [app]. rewrite <- !app_assoc. reflexivity.
Qed.

Lemma middle_global P i x : In x (middle P i) -> x <> Acquire GlobalL /\ x <> Release GlobalL.
Proof.
  unfold middle. cbn [In]. rewrite !in_app_iff. cbn [In]. rewrite in_app_iff. cbn [In]. rewrite !simple_in, !simples_in.
  intros [<-|[(_ & ->)|[(j & _ & _ & ->)|[<-|[(j & _ & _ & ->)|[<-|(_ & ->)]]]]]]; split; discriminate.
Qed.

Lemma tally_global l : (forall x, In x l -> x <> Acquire GlobalL /\ x <> Release GlobalL) -> forall n, tally l GlobalL n = n.
Proof.
  induction l as [|x l IH]; intros H n; [reflexivity|]. cbn. change (fold_left (one GlobalL) l ?m) with (tally l GlobalL m).
  rewrite IH by (intros y I; apply H; right; exact I). destruct (H x (or_introl eq_refl)) as (A & B).
  destruct x as [b|b|w]; cbn; [| |reflexivity]; destruct b; try reflexivity; congruence.
Qed.

(* Inside a session. *)
Lemma inside P i d t : code P (Compile i) = d ++ t -> t <> [] -> d <> [] -> tally d GlobalL 0 = 1.
Proof.
  intros E T D. rewrite code_middle in E. destruct d as [|x d]; [congruence|].
  assert (X : x = Acquire GlobalL) by (cbn [app] in E; congruence). apply (f_equal (@tl _)) in E. cbn [tl app] in E. subst x.
  destruct (exists_last T) as (t' & y & ->). rewrite (app_assoc d) in E. apply app_inj_tail in E. destruct E as (E & _).
  cbn. change (fold_left (one GlobalL) d 1) with (tally d GlobalL 1). apply tally_global.
  intros z Z. apply (middle_global P i). rewrite E. apply in_or_app. auto.
Qed.

(* The locks of a session. *)
Definition session_inst (P : proc) (i : nat) (a : inst) : Prop :=
  a = GlobalL \/ a = SourceL i \/ exists j, In j (i :: o_deps (objs P i)) /\ o_has (objs P j) = true /\ a = TargetL j.

Lemma acquire_session P i a : In (Acquire a) (code P (Compile i)) <-> session_inst P i a.
Proof.
  unfold session_inst. cbn [code]. rewrite in_app_iff. cbn [In].
  assert (L : ~ In (Acquire a) (leave P i)) by (intros H; apply leave_releases in H; destruct H; discriminate).
  unfold enter. cbn [In]. rewrite in_app_iff, simple_in, simples_in. split.
  - intros [[H|[H|[(H & E)|(j & I & H & E)]]]|[H|H]]; [injection H as <-; auto|injection H as <-; auto| | |discriminate|contradiction].
    + injection E as ->. right. right. exists i. auto.
    + injection E as ->. right. right. exists j. auto.
  - intros [->|[->|(j & [<-|I] & H & ->)]]; [auto|auto|auto 6|]. left. right. right. right. exists j. auto.
Qed.

(* What a process that is not finished does. *)
Lemma state_of system s p : inv system s -> todo s p <> [] ->
  exists w d t l, In w (sections (system p)) /\ code (system p) w = d ++ t /\ t <> [] /\ todo s p = t ++ l
    /\ forall a, cnt s p a = tally d a 0.
Proof.
  intros (_ & _ & C) N. destruct (C p) as [(E & _)|(d & E & F)]; [contradiction|].
  destruct (position _ _ _ _ E N) as (l1 & w & l2 & d' & t' & S & X & Y & -> & Z).
  exists w, d', t', (flat_map (code (system p)) l2). split; [rewrite S; apply in_or_app; right; left; reflexivity|].
  split; [exact X|]. split; [exact Y|]. split; [exact Z|]. intros a. rewrite F, tally_app, codes_balance. reflexivity.
Qed.

Lemma finished_zero system s p : inv system s -> todo s p = [] -> forall a, cnt s p a = 0.
Proof.
  intros (_ & _ & C) N a. destruct (C p) as [(_ & F)|(d & E & F)]; [apply F|].
  rewrite N, app_nil_r in E. rewrite F, <- E. apply codes_balance.
Qed.

Lemma not_acquire_steps system s p x l : todo s p = x :: l -> (forall a, x <> Acquire a) -> exists s', exec system s p = Some s'.
Proof.
  intros T N. unfold exec. rewrite T. destruct x as [a|a|w]; [destruct (N a eq_refl)| |eauto].
  destruct (cnt s p a) as [|[|n]]; eauto.
Qed.

(* Who holds a lock is in a section; if in an installation, it can go on. *)
Lemma holder system s p a : inv system s -> 0 < cnt s p a ->
  (exists n, a = LibL n /\ In (Install n) (sections (system p)) /\ exists s', exec system s p = Some s')
  \/ (exists i d t l, In (Compile i) (sections (system p)) /\ code (system p) (Compile i) = d ++ t /\ t <> [] /\ todo s p = t ++ l
       /\ (forall b, cnt s p b = tally d b 0) /\ 0 < cnt s p GlobalL /\ session_inst (system p) i a).
Proof.
  intros I H.
  assert (N : todo s p <> []) by (intros E; rewrite (finished_zero system s p I E a) in H; lia).
  destruct (state_of system s p I N) as (w & d & t & l & W & E & T & Z & F). rewrite F in H.
  assert (D : d <> []) by (intros ->; cbn in H; lia).
  destruct (tally_pos d a 0 H) as [X|X]; [lia|].
  destruct w as [i|n].
  - right. exists i, d, t, l. split; [exact W|]. split; [exact E|]. split; [exact T|]. split; [exact Z|]. split; [exact F|].
    split; [rewrite F, (inside _ _ _ _ E T D); lia|]. apply acquire_session. rewrite E. apply in_or_app. auto.
  - left. exists n. cbn in E.
    assert (Q : a = LibL n /\ exists x k, t = x :: k /\ forall b, x <> Acquire b).
    { destruct d as [|x1 d]; [congruence|]. cbn in E. injection E as <- E.
      destruct d as [|x2 d]; cbn in E.
      - destruct X as [X|[]]. injection X as <-. split; [reflexivity|]. destruct t as [|y k]; [congruence|]. injection E as <- E. eexists _, _. split; [reflexivity|]. discriminate.
      - injection E as <- E. destruct d as [|x3 d]; cbn in E.
        + destruct X as [X|[X|[]]]; [|discriminate]. injection X as <-. split; [reflexivity|]. destruct t as [|y k]; [congruence|]. injection E as <- E. eexists _, _. split; [reflexivity|]. discriminate.
        + injection E as <- E. symmetry in E. apply app_eq_nil in E. destruct E. contradiction. }
    destruct Q as (-> & x & k & -> & Q). split; [reflexivity|]. split; [exact W|]. exact (not_acquire_steps system s p x (k ++ l) Z Q).
Qed.

(* The locks of one session use different files. *)
Lemma append_inj_l a b c : (a ++ c)%string = (b ++ c)%string -> a = b.
Proof.
  intros E. apply (f_equal list_ascii_of_string) in E.
  assert (H : forall x y, list_ascii_of_string (x ++ y)%string = list_ascii_of_string x ++ list_ascii_of_string y)
    by (induction x as [|h x IH]; intros y; cbn; [reflexivity|rewrite IH; reflexivity]).
  rewrite !H in E. apply app_inv_tail in E. rewrite <- (string_of_list_ascii_of_string a), E. apply string_of_list_ascii_of_string.
Qed.

Lemma append_assoc a b c : (a ++ b ++ c)%string = ((a ++ b) ++ c)%string.
Proof. induction a as [|h a IH]; cbn; [reflexivity|rewrite IH; reflexivity]. Qed.

Lemma session_paths P i a b : separate P -> In (Compile i) (sections P) -> session_inst P i a -> session_inst P i b ->
  path P a = path P b -> a = b.
Proof.
  intros (S & _) I A B E. destruct (S i I) as (S1 & S2 & S3).
  assert (G : forall x, (x ++ ".lock")%string = (cwd P ++ "/.lock_acquisition.lock")%string -> x = (cwd P ++ "/.lock_acquisition")%string).
  { intros x X. change "/.lock_acquisition.lock"%string with ("/.lock_acquisition" ++ ".lock")%string in X. rewrite append_assoc in X.
    exact (append_inj_l _ _ _ X). }
  destruct A as [->|[->|(j & J & HJ & ->)]], B as [->|[->|(k & K & HK & ->)]]; cbn [path] in E; try reflexivity.
  - symmetry in E. apply G in E. contradiction.
  - symmetry in E. apply G in E. destruct (S2 k K HK). contradiction.
  - apply G in E. contradiction.
  - apply append_inj_l in E. destruct (S2 k K HK). congruence.
  - apply G in E. destruct (S2 j J HJ). contradiction.
  - apply append_inj_l in E. destruct (S2 j J HJ). congruence.
  - apply append_inj_l in E. f_equal. apply S1; assumption.
Qed.

(* ---- progress ---- *)

Lemma app_mid {A} (d1 d2 t1 t2 : list A) : d1 ++ t1 = d2 ++ t2 -> length d1 = length d2 -> d1 = d2 /\ t1 = t2.
Proof.
  revert d2. induction d1 as [|x d1 IH]; intros [|y d2] E L; cbn in *; try discriminate; [auto|].
  injection E as -> E. destruct (IH d2 E) as (-> & ->); [lia|]. auto.
Qed.

Lemma progress system s : (forall p q, cwd (system p) = cwd (system q)) -> (forall p, separate (system p)) -> inv system s ->
  (exists p, ~ finished s p) -> exists p s', exec system s p = Some s'.
Proof.
  intros W S I (p0 & N0). pose proof I as (A & B & _).
  set (g := path (system 0) GlobalL).
  assert (G : forall p, path (system p) GlobalL = g) by (intros p; unfold g; cbn; rewrite (W p 0); reflexivity).
  destruct (owner s g) as [(p & a)|] eqn:O.
  - destruct (B g p a O) as (Pa & Ca). destruct (holder system s p a I Ca) as [(n & -> & In & _)|(i & d & t & l & Ii & E & T & Z & F & Cg & Sa)].
    { exfalso. destruct (S p) as (_ & S2). apply (S2 n In). cbn in Pa. rewrite Pa. unfold g. cbn. rewrite (W 0 p). reflexivity. }
    destruct t as [|x t]; [congruence|]. destruct x as [b|b|w'].
    + destruct (cnt s p b) as [|n] eqn:Cb.
      * destruct (owner s (path (system p) b)) as [(q & c)|] eqn:Q.
        -- destruct (B _ q c Q) as (Pc & Cc). destruct (holder system s q c I Cc) as [(n & _ & _ & X)|(j & d' & t' & l' & Ij & E' & T' & Z' & F' & Cg' & Sc)].
           ++ exists q. exact X.
           ++ exfalso. pose proof (A q GlobalL Cg') as X. rewrite G, O in X. injection X as -> ->.
              assert (Sb : session_inst (system q) i b).
              { apply acquire_session. rewrite E. apply in_or_app. right. left. reflexivity. }
              (* the same session, by the first lock it would take next *)
              assert (Sc' : session_inst (system q) i c).
              { rewrite F in Cc. destruct (tally_pos d c 0 Cc) as [Y|Y]; [lia|]. apply acquire_session. rewrite E. apply in_or_app. auto. }
              assert (b = c) by (apply (session_paths (system q) i); auto). subst c. lia.
        -- exists p. unfold exec. rewrite Z. cbn [app]. rewrite Cb, Q. eauto.
      * exists p. unfold exec. rewrite Z. cbn [app]. rewrite Cb. eauto.
    + exists p. apply (not_acquire_steps system s p _ _ Z). discriminate.
    + exists p. apply (not_acquire_steps system s p _ _ Z). discriminate.
  - destruct (state_of system s p0 I N0) as (w & d & t & l & Iw & E & T & Z & F).
    destruct t as [|x t]; [congruence|]. destruct x as [b|b|w']; [|exists p0; apply (not_acquire_steps system s p0 _ _ Z); discriminate|exists p0; apply (not_acquire_steps system s p0 _ _ Z); discriminate].
    destruct (cnt s p0 b) as [|n] eqn:Cb; [|exists p0; unfold exec; rewrite Z; cbn [app]; rewrite Cb; eauto].
    destruct (owner s (path (system p0) b)) as [(q & c)|] eqn:Q; [|exists p0; unfold exec; rewrite Z; cbn [app]; rewrite Cb, Q; eauto].
    destruct (B _ q c Q) as (Pc & Cc). destruct (holder system s q c I Cc) as [(n & _ & _ & X)|(j & d' & t' & l' & Ij & E' & T' & Z' & F' & Cg' & Sc)].
    + exists q. exact X.
    + exfalso. pose proof (A q GlobalL Cg') as X. rewrite G, O in X. discriminate.
Qed.

(* ---- termination ---- *)

Fixpoint total (n : nat) (s : state) : nat := match n with O => 0 | S m => length (todo s m) + total m s end.

Lemma total_ext n s s' : (forall p, p < n -> length (todo s' p) = length (todo s p)) -> total n s' = total n s.
Proof. induction n as [|n IH]; intros H; cbn; [reflexivity|]. rewrite H, IH by (intros; apply H; lia) || lia. reflexivity. Qed.

Lemma total_step n s s' p l x : p < n -> todo s p = x :: l -> todo s' = set_todo (todo s) p l -> total n s = S (total n s').
Proof.
  induction n as [|n IH]; intros L T E; [lia|]. cbn. rewrite E. destruct (Nat.eq_dec n p) as [->|N].
  - rewrite set_todo_same, T. cbn. f_equal. f_equal. apply total_ext. intros q Q. rewrite E, set_todo_other by lia. reflexivity.
  - rewrite set_todo_other by exact N. rewrite (IH ltac:(lia) T E). lia.
Qed.

Lemma exec_todo system s p s' : exec system s p = Some s' -> exists x l, todo s p = x :: l /\ todo s' = set_todo (todo s) p l.
Proof.
  unfold exec. destruct (todo s p) as [|[a|a|w] l]; [discriminate| | |].
  - destruct (cnt s p a); [destruct (owner s _); [discriminate|]|]; intros E; injection E as <-; cbn; eauto.
  - destruct (cnt s p a) as [|[|n]]; intros E; injection E as <-; cbn; eauto.
  - intros E; injection E as <-; cbn; eauto.
Qed.

Lemma total_kill n s p : total n (kill s p) <= total n s.
Proof.
  induction n as [|n IH]; cbn; [lia|]. unfold set_todo. destruct (Nat.eqb n p); cbn; lia.
Qed.

Definition idle (n : nat) (s : state) : Prop := forall p, n <= p -> todo s p = [].

Lemma exec_idle system n s p s' : idle n s -> exec system s p = Some s' -> p < n /\ idle n s' /\ total n s = S (total n s').
Proof.
  intros H E. destruct (exec_todo _ _ _ _ E) as (x & l & T & T').
  assert (L : p < n) by (destruct (le_lt_dec n p) as [X|X]; [rewrite (H p X) in T; discriminate|exact X]).
  split; [exact L|]. split; [|exact (total_step n s s' p l x L T T')].
  intros q Q. rewrite T', set_todo_other by lia. apply H, Q.
Qed.

Definition steps (h : list event) : nat := length (filter (fun e => match e with Step _ => true | Kill _ => false end) h).

Lemma runs_bound system n s h s' : idle n s -> runs system s h s' -> idle n s' /\ steps h + total n s' <= total n s.
Proof.
  intros H R. revert H. induction R as [s|s p s1 h s2 E R IH|s p h s2 R IH]; intros H; [split; [exact H|cbn; lia]| |].
  - destruct (exec_idle _ _ _ _ _ H E) as (_ & I & T). destruct (IH I) as (J & K). split; [exact J|]. unfold steps in *. cbn. lia.
  - assert (I : idle n (kill s p)) by (intros q Q; cbn; unfold set_todo; destruct (Nat.eqb q p); [reflexivity|apply H, Q]).
    destruct (IH I) as (J & K). split; [exact J|]. pose proof (total_kill n s p). unfold steps in *. cbn in *. lia.
Qed.

Lemma init_idle system n : size system n -> idle n (init system).
Proof. intros H p L. cbn. rewrite (H p L). reflexivity. Qed.

Lemma reachable_idle system n s : size system n -> reachable system s -> idle n s.
Proof. intros H (h & R). exact (proj1 (runs_bound _ _ _ _ _ (init_idle _ _ H) R)). Qed.

Lemma some_unfinished n s : idle n s -> (forall p, finished s p) \/ exists p, ~ finished s p.
Proof.
  intros H. assert (X : (forall p, p < n -> todo s p = []) \/ exists p, todo s p <> []).
  { clear H. induction n as [|n IH]; [left; lia|]. destruct IH as [IH|IH]; [|auto].
    destruct (todo s n) eqn:E; [|right; exists n; congruence]. left. intros p L.
    destruct (Nat.eq_dec p n) as [->|]; [exact E|apply IH; lia]. }
  destruct X as [X|X]; [left|auto]. intros p. destruct (le_lt_dec n p) as [L|L]; [apply H, L|apply X, L].
Qed.

Lemma runs_to_end system n s : (forall p q, cwd (system p) = cwd (system q)) -> (forall p, separate (system p)) ->
  idle n s -> inv system s -> exists h s', runs system s h s' /\ (forall e, In e h -> exists p, e = Step p) /\ forall p, finished s' p.
Proof.
  intros W S. remember (total n s) as k eqn:K. revert s K. induction k as [k IH] using lt_wf_ind; intros s K H I.
  destruct (some_unfinished n s H) as [D|D].
  - exists [], s. split; [constructor|]. split; [intros e []|exact D].
  - destruct (progress system s W S I D) as (p & s1 & E). destruct (exec_idle _ _ _ _ _ H E) as (_ & H1 & T).
    destruct (IH (total n s1)) with (s := s1) as (h & s2 & R & Q & F); [lia|reflexivity|exact H1|exact (exec_inv _ _ _ _ I E)|].
    exists (Step p :: h), s2. split; [econstructor; eassumption|]. split; [intros e [<-|X]; eauto|exact F].
Qed.

Lemma runs_app system s1 h1 s2 h2 s3 : runs system s1 h1 s2 -> runs system s2 h2 s3 -> runs system s1 (h1 ++ h2) s3.
Proof. induction 1; intros R; cbn; [exact R| |]; econstructor; eauto. Qed.

(* ---- what is held while a compiler works ---- *)

Lemma work_position P w w' d t : code P w = d ++ Work w' :: t -> w' = w /\ match w with
  | Compile i => d = enter P i /\ t = leave P i
  | Install n => d = [Acquire (LibL n)]
  end.
Proof.
  destruct w as [i|n]; cbn [code].
  - assert (H : forall e, only_acquires e -> forall d, e ++ Work (Compile i) :: leave P i = d ++ Work w' :: t -> w' = Compile i /\ d = e /\ t = leave P i).
    { induction e as [|x e IH]; intros A [|y d'] E; cbn in E.
      - injection E as <- <-. auto.
      - injection E as <- E. exfalso. assert (X : In (Work w') (leave P i)) by (rewrite E; apply in_or_app; right; left; reflexivity).
        apply leave_releases in X. destruct X; discriminate.
      - injection E as -> E. destruct (A (Work w') (or_introl eq_refl)); discriminate.
      - injection E as <- E. destruct (IH (fun z Z => A z (or_intror Z)) d' E) as (X & -> & Y). auto. }
    intros E. exact (H _ (enter_acquires P i) d E).
  - intros E. destruct d as [|x d]; cbn in E; [discriminate|]. injection E as <- E.
    destruct d as [|y d]; cbn in E; [injection E as <- _; auto|]. injection E as <- E.
    destruct d as [|z d]; cbn in E; [discriminate|]. injection E as <- E. destruct d; discriminate.
Qed.

Lemma working_cnt system s p w : inv system s -> working s p w -> match w with
  | Compile i => forall a, session_inst (system p) i a -> 0 < cnt s p a
  | Install n => 0 < cnt s p (LibL n)
  end.
Proof.
  intros I (k & T). assert (N : todo s p <> []) by congruence.
  destruct (state_of system s p I N) as (w0 & d & t & l & _ & E & D & Z & F). rewrite T in Z.
  destruct t as [|x t]; [congruence|]. cbn in Z. injection Z as <- _. apply work_position in E. destruct E as (-> & E).
  destruct w0 as [i|n].
  - destruct E as (-> & _). intros a A. rewrite F, (tally_acquires _ (enter_acquires _ i)).
    apply acquire_session in A. cbn [code] in A. apply in_app_or in A.
    assert (X : In (Acquire a) (enter (system p) i)).
    { destruct A as [A|[A|A]]; [exact A|discriminate|]. apply leave_releases in A. destruct A; discriminate. }
    clear -X. induction (enter (system p) i) as [|y e IH]; [destruct X|]. destruct X as [->|X]; cbn.
    + rewrite inst_eqb_refl. lia.
    + specialize (IH X). destruct y as [b|b|b]; try exact IH. destruct (inst_eqb a b); lia.
  - rewrite E in F. rewrite F. cbn. rewrite Nat.eqb_refl. lia.
Qed.

Lemma working_holds system s p i x : reachable system s -> working s p (Compile i) -> uses (system p) i x ->
  holds system s p (x ++ ".lock").
Proof.
  intros R K U. pose proof (working_cnt _ _ _ _ (reachable_inv _ _ R) K) as C. cbn in C.
  destruct U as [->|(j & J & H & ->)].
  - exists (SourceL i). split; [apply C; right; left; reflexivity|reflexivity].
  - exists (TargetL j). split; [|reflexivity]. apply C. right. right. eauto.
Qed.

Lemma working_exclusive system s p q i j x : reachable system s -> working s p (Compile i) -> working s q (Compile j) ->
  uses (system p) i x -> uses (system q) j x -> p = q.
Proof.
  intros R Kp Kq Up Uq. exact (exclusion system s p q _ R (working_holds _ _ _ _ _ R Kp Up) (working_holds _ _ _ _ _ R Kq Uq)).
Qed.

Lemma one_compiler system s p q i j : cwd (system p) = cwd (system q) -> reachable system s ->
  working s p (Compile i) -> working s q (Compile j) -> p = q.
Proof.
  intros W R Kp Kq. pose proof (reachable_inv _ _ R) as I.
  apply (exclusion system s p q (path (system p) GlobalL) R).
  - exists GlobalL. split; [|reflexivity]. apply (working_cnt _ _ _ _ I Kp). left. reflexivity.
  - exists GlobalL. split; [|cbn; rewrite W; reflexivity]. apply (working_cnt _ _ _ _ I Kq). left. reflexivity.
Qed.

Lemma install_exclusive system s p q n m : lib_lock (system p) n = lib_lock (system q) m -> reachable system s ->
  working s p (Install n) -> working s q (Install m) -> p = q.
Proof.
  intros W R Kp Kq. pose proof (reachable_inv _ _ R) as I.
  apply (exclusion system s p q (lib_lock (system p) n) R).
  - exists (LibL n). split; [|reflexivity]. exact (working_cnt _ _ _ _ I Kp).
  - exists (LibL m). split; [|cbn; rewrite W; reflexivity]. exact (working_cnt _ _ _ _ I Kq).
Qed.

Lemma finished_released system s p x : reachable system s -> finished s p -> ~ holds system s p x.
Proof.
  intros R F (a & C & _). rewrite (finished_zero system s p (reachable_inv _ _ R) F a) in C. lia.
Qed.

Lemma all_released system s x : reachable system s -> (forall p, finished s p) -> owner s x = None.
Proof.
  intros R F. destruct (owner s x) as [(p & a)|] eqn:O; [|reflexivity]. exfalso.
  destruct (reachable_inv _ _ R) as (_ & B & _). destruct (B x p a O) as (E & C).
  apply (finished_released system s p x R (F p)). exists a. auto.
Qed.
