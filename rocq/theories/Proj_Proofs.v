(* Proofs about the order of the build targets. *)
From Coq Require Import Bool String Ascii Arith Lia Relations Permutation List.
From Verif Require Import Proj_Model Proj_Spec.
Import ListNotations.
Open Scope list_scope.

(* ---- paths ------------------------------------------------------------------- *)

Lemma path_eqb_spec p q : reflect (p = q) (path_eqb p q).
Proof. unfold path_eqb. destruct (list_eq_dec string_dec p q); constructor; assumption. Qed.

Lemma path_eqb_refl p : path_eqb p p = true.
Proof. destruct (path_eqb_spec p p); congruence. Qed.

Lemma mem_spec p l : mem p l = true <-> In p l.
Proof.
  unfold mem. rewrite existsb_exists. split.
  - intros (x & H & E). destruct (path_eqb_spec p x); [subst; exact H|discriminate].
  - intros H. exists p. rewrite path_eqb_refl. auto.
Qed.

Lemma mem_false p l : mem p l = false <-> ~ In p l.
Proof. rewrite <- mem_spec. destruct (mem p l); intuition congruence. Qed.

Lemma under_spec F p : under F p = true <-> inside F p.
Proof.
  revert p. induction F as [|x F IH]; intros [|y p]; cbn.
  - split; [discriminate|]. intros (r & N & E). destruct r; [congruence|discriminate].
  - split; [|reflexivity]. intros _. exists (y :: p). split; [discriminate|reflexivity].
  - split; [discriminate|]. intros (r & N & E). discriminate.
  - rewrite andb_true_iff, IH. split.
    + intros (E & r & N & ->). apply String.eqb_eq in E. subst. exists r. auto.
    + intros (r & N & E). cbn in E. injection E as -> ->. split; [apply String.eqb_refl|]. exists r. auto.
Qed.

Lemma under_false F p : under F p = false <-> ~ inside F p.
Proof. rewrite <- under_spec. destruct (under F p); intuition congruence. Qed.

(* p is x or lies in it *)
Definition within (x p : path) : Prop := p = x \/ inside x p.

Lemma within_app x p : within x p <-> exists r, p = x ++ r.
Proof.
  split.
  - intros [->|(r & _ & ->)]; [exists []; now rewrite app_nil_r|exists r; reflexivity].
  - intros ([|u r] & ->); [left; now rewrite app_nil_r|right; exists (u :: r); split; [discriminate|reflexivity]].
Qed.

Lemma inside_child F p : inside F p -> exists u, child F p = F ++ [u] /\ within (F ++ [u]) p.
Proof.
  intros ([|u r] & N & ->); [congruence|]. exists u. split.
  - unfold child. rewrite firstn_app, firstn_all2 by lia.
    replace (S (length F) - length F) with 1 by lia. reflexivity.
  - apply within_app. exists r. rewrite <- app_assoc. reflexivity.
Qed.

Lemma within_child F u p : within (F ++ [u]) p -> inside F p /\ child F p = F ++ [u].
Proof.
  intros H. apply within_app in H. destruct H as (r & ->). rewrite <- app_assoc. split.
  - exists ([u] ++ r). split; [discriminate|reflexivity].
  - unfold child. rewrite firstn_app, firstn_all2 by lia.
    replace (S (length F) - length F) with 1 by lia. reflexivity.
Qed.

Lemma app_one_inj (F : path) u v : F ++ [u] = F ++ [v] -> u = v.
Proof. intros H. apply app_inv_head in H. congruence. Qed.

Lemma parent_one (F : path) u : parent (F ++ [u]) = F.
Proof. unfold parent. apply removelast_last. Qed.

Lemma parent_inv c F : c <> [] -> parent c = F -> exists u, c = F ++ [u].
Proof. intros N <-. exists (last c EmptyString). apply app_removelast_last, N. Qed.

Lemma inside_trans x y z : inside x y -> inside y z -> inside x z.
Proof.
  intros (r & N & ->) (s & M & ->). exists (r ++ s). split; [|apply app_assoc_reverse].
  destruct r; [congruence|discriminate].
Qed.

Lemma inside_irrefl x : ~ inside x x.
Proof. intros (r & N & E). rewrite <- (app_nil_r x) in E at 1. apply app_inv_head in E. congruence. Qed.

Lemma within_inside F u p : inside (F ++ [u]) p -> within (F ++ [u]) p.
Proof. intros H. right. exact H. Qed.

Lemma key_spec F c : inside F (t_file c) ->
  exists u, child F (t_file c) = F ++ [u] /\
    ((t_file c = F ++ [u] /\ key F c = F) \/ (inside (F ++ [u]) (t_file c) /\ key F c = F ++ [u])).
Proof.
  intros ([|u r] & N & E); [congruence|]. exists u. rewrite E.
  assert (W : within (F ++ [u]) (F ++ u :: r)) by (apply within_app; exists r; rewrite <- app_assoc; reflexivity).
  split; [apply (within_child _ _ _ W)|].
  unfold key. rewrite E, skipn_app, skipn_all2, Nat.sub_diag by lia. cbn [skipn app].
  destruct r as [|v r].
  - left. auto.
  - right. split; [|reflexivity]. exists (v :: r). split; [discriminate|]. rewrite <- app_assoc. reflexivity.
Qed.

(* ---- lists --------------------------------------------------------------------- *)

Lemma in_flat_map_iff {A B} (f : A -> list B) l y : In y (flat_map f l) <-> exists x, In x l /\ In y (f x).
Proof. apply in_flat_map. Qed.

Lemma perm_flat_map {A B} (f : A -> list B) l l' : Permutation l l' -> Permutation (flat_map f l) (flat_map f l').
Proof.
  induction 1; cbn.
  - constructor.
  - apply Permutation_app_head; assumption.
  - rewrite !app_assoc. apply Permutation_app_tail, Permutation_app_comm.
  - etransitivity; eassumption.
Qed.

Lemma flat_map_perm {A B} (f g : A -> list B) l : (forall x, In x l -> Permutation (f x) (g x)) ->
  Permutation (flat_map f l) (flat_map g l).
Proof.
  induction l as [|x l IH]; cbn; intros H; [constructor|]. apply Permutation_app; [apply H; auto|apply IH; auto].
Qed.

Lemma flat_map_map {A B C} (f : A -> B) (g : B -> list C) l : flat_map g (map f l) = flat_map (fun x => g (f x)) l.
Proof. induction l as [|x l IH]; cbn; [reflexivity|]. rewrite IH. reflexivity. Qed.

Lemma map_flat_map {A B C} (f : A -> list B) (g : B -> C) l : map g (flat_map f l) = flat_map (fun x => map g (f x)) l.
Proof. induction l as [|x l IH]; cbn; [reflexivity|]. rewrite map_app, IH. reflexivity. Qed.

Lemma NoDup_app_parts {A} (l r : list A) : NoDup (l ++ r) -> NoDup l /\ NoDup r /\ forall x, In x l -> ~ In x r.
Proof.
  induction l as [|x l IH]; cbn; intros H.
  - repeat split; [constructor|exact H|tauto].
  - inversion_clear H as [|? ? N D]. destruct (IH D) as (A1 & A2 & A3). repeat split.
    + constructor; [intros I; apply N, in_app_iff; auto|exact A1].
    + exact A2.
    + intros y [<-|I] J; [apply N, in_app_iff; auto|exact (A3 y I J)].
Qed.

Lemma NoDup_app_join {A} (l r : list A) : NoDup l -> NoDup r -> (forall x, In x l -> ~ In x r) -> NoDup (l ++ r).
Proof.
  induction l as [|x l IH]; cbn; intros H K D; [exact K|]. inversion_clear H as [|? ? N M]. constructor.
  - rewrite in_app_iff. intros [I|I]; [contradiction|]. apply (D x (or_introl eq_refl) I).
  - apply IH; [exact M|exact K|]. intros y I. apply D. right. exact I.
Qed.

Lemma NoDup_flat_map {A B K} (k : A -> K) (f : A -> list B) l :
  NoDup (map k l) -> (forall x, In x l -> NoDup (f x)) ->
  (forall x y b, In x l -> In y l -> In b (f x) -> In b (f y) -> k x = k y) -> NoDup (flat_map f l).
Proof.
  induction l as [|x l IH]; cbn; intros N S D; [constructor|]. inversion_clear N as [|? ? M N'].
  apply NoDup_app_join; [apply S; auto|apply IH; eauto|].
  intros b I J. apply in_flat_map in J. destruct J as (y & Y & J). apply M.
  rewrite (D x y b); auto. apply in_map, Y.
Qed.

(* ---- before --------------------------------------------------------------------- *)

Lemma before_nth c t l : before c t l <-> exists i j, i < j /\ nth_error l i = Some c /\ nth_error l j = Some t.
Proof.
  split.
  - intros (l1 & l2 & l3 & ->). exists (length l1), (length l1 + S (length l2)). split; [lia|]. split.
    + rewrite nth_error_app2, Nat.sub_diag by lia. reflexivity.
    + rewrite nth_error_app2 by lia. replace (length l1 + S (length l2) - length l1) with (S (length l2)) by lia.
      cbn. rewrite nth_error_app2, Nat.sub_diag by lia. reflexivity.
  - intros (i & j & L & I & J). apply nth_error_split in I. destruct I as (l1 & r & -> & <-).
    rewrite nth_error_app2 in J by lia. destruct (j - length l1) as [|k] eqn:E; [lia|]. cbn in J.
    apply nth_error_split in J. destruct J as (l2 & l3 & -> & _). exists l1, l2, l3. reflexivity.
Qed.

Lemma before_trans a b c l : NoDup l -> before a b l -> before b c l -> before a c l.
Proof.
  intros N H K. apply before_nth in H. apply before_nth in K. apply before_nth.
  destruct H as (i & j & L & I & J), K as (j' & k & L' & J' & K).
  assert (j = j'); [|subst; exists i, k; repeat split; auto; lia].
  apply (proj1 (NoDup_nth_error l) N); [apply nth_error_Some; congruence|congruence].
Qed.

Lemma before_irrefl a l : NoDup l -> ~ before a a l.
Proof.
  intros N H. apply before_nth in H. destruct H as (i & j & L & I & J).
  assert (i = j); [|lia]. apply (proj1 (NoDup_nth_error l) N); [apply nth_error_Some; congruence|congruence].
Qed.

Lemma before_app_l a b l r : before a b l -> before a b (l ++ r).
Proof.
  intros (l1 & l2 & l3 & ->). exists l1, l2, (l3 ++ r). repeat (rewrite <- app_assoc; cbn). reflexivity.
Qed.

Lemma before_app_r a b l r : before a b l -> before a b (r ++ l).
Proof. intros (l1 & l2 & l3 & ->). exists (r ++ l1), l2, l3. repeat (rewrite <- app_assoc; cbn). reflexivity. Qed.

Lemma before_two a b l r : In a l -> In b r -> before a b (l ++ r).
Proof.
  intros H K. apply in_split in H. destruct H as (l1 & l2 & ->). apply in_split in K. destruct K as (r1 & r2 & ->).
  exists l1, (l2 ++ r1), r2. repeat (rewrite <- app_assoc; cbn). reflexivity.
Qed.

Lemma before_flat {A} (f : A -> list path) l1 x l2 y l3 a b : In a (f x) -> In b (f y) ->
  before a b (flat_map f (l1 ++ x :: l2 ++ y :: l3)).
Proof.
  intros H K. rewrite flat_map_app. apply before_app_r. cbn. apply before_two; [exact H|].
  rewrite flat_map_app. apply in_app_iff. right. cbn. apply in_app_iff. left. exact K.
Qed.

Lemma before_in_flat {A} (f : A -> list path) l x a b : In x l -> before a b (f x) -> before a b (flat_map f l).
Proof.
  intros H K. apply in_split in H. destruct H as (l1 & l2 & ->). rewrite flat_map_app. apply before_app_r. cbn.
  apply before_app_l, K.
Qed.

(* ---- group ------------------------------------------------------------------------ *)

Definition grouped (F : path) (dirs : list (path * list target)) (ts : list target) : Prop :=
  NoDup (map fst dirs) /\ (forall k cs, In (k, cs) dirs -> cs <> [] /\ forall c, In c cs -> key F c = k)
  /\ Permutation (flat_map snd dirs) ts.

Lemma add_keys k c dirs x : In x (map fst (add_to k c dirs)) <-> x = k \/ In x (map fst dirs).
Proof.
  induction dirs as [|[k' l] dirs IH]; cbn; [intuition|].
  destruct (path_eqb_spec k k') as [->|N]; cbn; [intuition|]. rewrite IH. intuition.
Qed.

Lemma add_grouped F c dirs ts : grouped F dirs ts -> grouped F (add_to (key F c) c dirs) (ts ++ [c]).
Proof.
  intros (N & K & P).
  assert (P' : Permutation (flat_map snd (add_to (key F c) c dirs)) (flat_map snd dirs ++ [c])).
  { clear N K P. induction dirs as [|[k' l] dirs IH]; cbn; [constructor; constructor|].
    destruct (path_eqb_spec (key F c) k'); cbn.
    - rewrite <- !app_assoc. apply Permutation_app_head. cbn. apply Permutation_cons_append.
    - rewrite <- app_assoc. apply Permutation_app_head, IH. }
  split; [|split].
  - clear K P P'. induction dirs as [|[k' l] dirs IH]; cbn; [repeat constructor; intros []|].
    inversion_clear N as [|? ? M N']. destruct (path_eqb_spec (key F c) k') as [E|E]; cbn; constructor; auto.
    rewrite add_keys. intros [H|H]; [congruence|contradiction].
  - clear N P P'. induction dirs as [|[k' l] dirs IH]; cbn; intros k cs H.
    + destruct H as [H|[]]. injection H as <- <-. split; [discriminate|]. intros x [<-|[]]. reflexivity.
    + destruct (path_eqb_spec (key F c) k') as [E|E].
      * destruct H as [H|H]; [|apply K; right; exact H]. injection H as <- <-.
        split; [destruct l; discriminate|]. intros x. rewrite in_app_iff. intros [I|[<-|[]]]; [|congruence].
        apply (K k' l); auto. left. reflexivity.
      * destruct H as [H|H]; [apply K; left; exact H|]. apply IH; [|exact H]. intros k2 cs2 I. apply K. right. exact I.
  - rewrite P', P. reflexivity.
Qed.

Lemma group_spec F ts : grouped F (group F ts) ts.
Proof.
  unfold group. assert (G : forall l dirs done, grouped F dirs done ->
    grouped F (fold_left (fun dirs c => add_to (key F c) c dirs) l dirs) (done ++ l)).
  { induction l as [|c l IH]; cbn; intros dirs done H; [rewrite app_nil_r; exact H|].
    specialize (IH _ (done ++ [c]) (add_grouped F c dirs done H)). rewrite <- app_assoc in IH. exact IH. }
  apply (G ts [] []). split; [constructor|]. split; [intros k cs []|constructor].
Qed.

(* ---- placing ------------------------------------------------------------------------ *)

Lemma pop_perm e l : In e l -> NoDup (map entry_path l) -> Permutation l (e :: pop (entry_path e) l).
Proof.
  induction l as [|x l IH]; cbn; intros H N; [contradiction|]. inversion_clear N as [|? ? M N'].
  destruct H as [->|H].
  - rewrite path_eqb_refl. cbn. constructor. unfold pop. clear IH N'. induction l as [|y l IH]; cbn; [constructor|].
    destruct (path_eqb_spec (entry_path y) (entry_path e)) as [E|E]; cbn.
    + exfalso. apply M. left. exact E.
    + constructor. apply IH. intros I. apply M. right. exact I.
  - destruct (path_eqb_spec (entry_path x) (entry_path e)) as [E|E]; cbn.
    + exfalso. apply M. rewrite E. apply in_map, H.
    + rewrite perm_swap. constructor. apply IH; assumption.
Qed.

Lemma place_spec n : forall deps placed targets rest placed' targets',
  length deps <= n -> NoDup (map entry_path deps) ->
  place n deps placed targets = (rest, placed', targets') ->
  exists new, targets' = targets ++ map fst new /\ placed' = placed ++ map entry_path new
    /\ Permutation deps (new ++ rest)
    /\ (forall l1 e l2, new = l1 ++ e :: l2 -> forall d, In d (snd e) -> In d placed \/ In d (map entry_path l1))
    /\ (forall e, In e rest -> exists d, In d (snd e) /\ ~ In d placed').
Proof.
  induction n as [|n IH]; intros deps placed targets rest placed' targets' L N E; cbn in E.
  - injection E as <- <- <-. destruct deps; [|cbn in L; lia]. exists []. rewrite !app_nil_r.
    repeat split; auto; [|intros e []]. intros [|x l1] e l2 X; discriminate.
  - match goal with E : context [find ?f deps] |- _ => destruct (find f deps) as [e|] eqn:FE end.
    + apply find_some in FE. destruct FE as (I & A). pose proof (pop_perm e deps I N) as P.
      assert (L' : length (pop (entry_path e) deps) <= n).
      { apply Permutation_length in P. cbn in P. lia. }
      assert (N' : NoDup (map entry_path (pop (entry_path e) deps))).
      { apply (Permutation_map entry_path) in P. apply (Permutation_NoDup P) in N. cbn in N. inversion_clear N. assumption. }
      destruct (IH _ _ _ _ _ _ L' N' E) as (new & -> & -> & P' & O & R).
      exists (e :: new). cbn. rewrite <- !app_assoc. repeat split; auto.
      * rewrite P, P'. reflexivity.
      * intros l1 e0 l2 X d D. destruct l1 as [|y l1]; cbn in X; injection X as -> X.
        { left. rewrite forallb_forall in A. apply mem_spec, A, D. }
        destruct (O _ _ _ X d D) as [H|H].
        { apply in_app_iff in H. destruct H as [H|[<-|[]]]; [left; exact H|]. right. left. reflexivity. }
        { right. right. exact H. }
      * intros e0 H. destruct (R e0 H) as (d & D & M). exists d. split; [exact D|]. rewrite <- app_assoc in M. exact M.
    + injection E as <- <- <-. exists []. rewrite !app_nil_r. repeat split; auto.
      * intros [|x l1] e l2 X; discriminate.
      * intros e H. pose proof (find_none _ _ FE e H) as G. cbn in G.
        assert (exists d, In d (snd e) /\ mem d placed = false) as (d & D & M).
        { clear -G. induction (snd e) as [|d l IH]; cbn in G; [discriminate|].
          destruct (mem d placed) eqn:M; cbn in G; [destruct (IH G) as (x & X & Y); exists x; cbn; auto|].
          exists d. cbn; auto. }
        exists d. split; [exact D|]. apply mem_false, M.
Qed.

(* ---- the cycle ------------------------------------------------------------------------ *)

Definition edge (es : list entry) (x y : path) : Prop := exists e, In e es /\ entry_path e = x /\ In y (snd e).

Lemma walk_snoc R l x y : walk R (l ++ [x]) -> R x y -> walk R (l ++ [x; y]).
Proof.
  induction l as [|a l IH]; cbn; intros H K.
  - constructor; [exact K|constructor].
  - destruct l as [|b l]; cbn in *.
    + inversion_clear H. constructor; [assumption|]. constructor; [exact K|constructor].
    + inversion_clear H. constructor; [assumption|]. apply IH; assumption.
Qed.

Lemma walk_mono (R S : path -> path -> Prop) l : (forall x y, R x y -> S x y) -> walk R l -> walk S l.
Proof. intros H. induction 1; constructor; auto. Qed.

Lemma walk_trans R l y : forall x, walk R (x :: l ++ [y]) -> clos_trans path R x y.
Proof.
  induction l as [|a l IH]; cbn; intros x H.
  - inversion_clear H. constructor. assumption.
  - inversion_clear H as [|? ? ? K W]. eapply t_trans; [constructor; exact K|]. apply IH, W.
Qed.

Lemma walk_step R x l : l <> [] -> walk R (x :: l) -> walk R l.
Proof. intros N H. destruct l as [|y l]; [congruence|]. inversion_clear H. assumption. Qed.

Lemma walk_tail R l1 l2 : l2 <> [] -> walk R (l1 ++ l2) -> walk R l2.
Proof.
  intros N. induction l1 as [|x l1 IH]; cbn; intros H; [exact H|]. apply IH, (walk_step R x); [|exact H].
  destruct l1; [exact N|discriminate].
Qed.

Lemma shows_cyclic R l : shows_cycle R l -> exists x, clos_trans path R x x.
Proof.
  intros (W & l1 & x & l2 & ->). exists x. apply (walk_trans R l2). apply (walk_tail R l1); [discriminate|exact W].
Qed.

Lemma find_cycle_spec n : forall deps placed e seen,
  (forall e, In e deps -> exists d, In d (snd e) /\ ~ In d placed) ->
  (forall e d, In e deps -> In d (snd e) -> ~ In d placed -> exists e', In e' deps /\ entry_path e' = d) ->
  In e deps -> walk (edge deps) (rev (entry_path e :: seen)) ->
  NoDup seen -> incl seen (map entry_path deps) -> length deps <= n + length seen ->
  exists l, find_cycle n deps placed e seen = Cycle l /\ shows_cycle (edge deps) l.
Proof.
  induction n as [|n IH]; intros deps placed e seen U C I W N S L; cbn [find_cycle].
  - destruct (mem (entry_path e) seen) eqn:M.
    { eexists. split; [reflexivity|]. split; [exact W|]. apply mem_spec, in_split in M. destruct M as (a & b & ->).
      exists (rev b), (entry_path e), (rev a). cbn. rewrite rev_app_distr. cbn. rewrite <- !app_assoc. reflexivity. }
    exfalso. apply mem_false in M.
    assert (K : length (entry_path e :: seen) <= length (map entry_path deps)).
    { apply NoDup_incl_length; [constructor; assumption|]. intros x [<-|X]; [apply in_map, I|apply S, X]. }
    rewrite map_length in K. cbn in K. unfold entry, path in *. lia.
  - destruct (mem (entry_path e) seen) eqn:M.
    { eexists. split; [reflexivity|]. split; [exact W|]. apply mem_spec, in_split in M. destruct M as (a & b & ->).
      exists (rev b), (entry_path e), (rev a). cbn. rewrite rev_app_distr. cbn. rewrite <- !app_assoc. reflexivity. }
    apply mem_false in M.
    destruct (find (fun d => negb (mem d placed)) (snd e)) as [d|] eqn:FD.
    2: { exfalso. destruct (U e I) as (d & D & P). pose proof (find_none _ _ FD d D) as Q. cbn in Q.
         apply mem_false in P. rewrite P in Q. discriminate. }
    apply find_some in FD. destruct FD as (D & P). apply negb_true_iff, mem_false in P.
    destruct (find (fun e' => path_eqb (entry_path e') d) deps) as [e'|] eqn:FE.
    2: { exfalso. destruct (C e d I D P) as (e' & I' & E'). pose proof (find_none _ _ FE e' I') as Q. cbn in Q.
         rewrite E', path_eqb_refl in Q. discriminate. }
    apply find_some in FE. destruct FE as (I' & E'). destruct (path_eqb_spec (entry_path e') d) as [E2|]; [|discriminate].
    apply IH; auto.
    + cbn [rev] in *. rewrite <- app_assoc. cbn. apply walk_snoc; [exact W|]. exists e. rewrite E2. auto.
    + constructor; assumption.
    + intros x [<-|X]; [apply in_map, I|apply S, X].
    + cbn. lia.
Qed.

(* ---- the parts of a folder ---------------------------------------------------------------- *)

Definition OK (F : path) (ts : list target) (i : item) : Prop :=
  item_path i = F
  /\ (forall c, In c (item_deps i) <-> (exists t, In t ts /\ In c (t_deps t)) /\ ~ inside F c)
  /\ Permutation (emit i) (map t_file ts)
  /\ (forall t c, In t ts -> In c (t_deps t) -> inside F c -> before c (t_file t) (emit i))
  /\ (forall r x, ~ clos_trans path (needs ts (F ++ r)) x x).

Record part := mk_part { p_item : item; p_cur : path; p_ts : list target }.

Definition part_ok (F : path) (p : part) : Prop :=
  (p_cur p = F /\ exists t u, p_item p = IFile t /\ p_ts p = [t] /\ t_file t = F ++ [u])
  \/ (exists u, p_cur p = F ++ [u] /\ OK (F ++ [u]) (p_ts p) (p_item p)
                /\ p_ts p <> [] /\ forall t, In t (p_ts p) -> inside (F ++ [u]) (t_file t)).

(* The hypotheses on the targets of a folder. *)
Definition Good (F : path) (ts : list target) : Prop :=
  NoDup (map t_file ts)
  /\ (forall t, In t ts -> inside F (t_file t))
  /\ (forall t t', In t ts -> In t' ts -> ~ inside (t_file t) (t_file t'))
  /\ (forall t t' c, In t ts -> In t' ts -> In c (t_deps t) -> c <> [] /\ ~ inside c (t_file t'))
  /\ (forall t c, In t ts -> In c (t_deps t) -> inside F c -> exists t', In t' ts /\ t_file t' = c).

Definition verdict (F : path) (ts : list target) (o : outcome) : Prop :=
  match o with
  | Tree i => OK F ts i
  | Cycle l => exists r, shows_cycle (needs ts (F ++ r)) l
  | _ => False
  end.

(* The path of a part is the child of F that contains its targets. *)
Lemma part_path F p t : part_ok F p -> In t (p_ts p) ->
  inside F (t_file t) /\ child F (t_file t) = item_path (p_item p) /\ within (item_path (p_item p)) (t_file t).
Proof.
  intros [(C & t' & u & E & T & P)|(u & C & (P & _) & _ & I)] H.
  - rewrite T in H. destruct H as [<-|[]]. rewrite E. cbn [item_path].
    assert (W : within (F ++ [u]) (t_file t')) by (left; exact P).
    destruct (within_child _ _ _ W) as (A & B). repeat split; [exact A|congruence|left; reflexivity].
  - rewrite P. assert (W : within (F ++ [u]) (t_file t)) by (right; apply I, H).
    destruct (within_child _ _ _ W). auto.
Qed.

(* The dependencies of a part. *)
Lemma part_deps F ts p : part_ok F p -> Good F ts -> incl (p_ts p) ts -> forall y,
  In y (deps_of F (p_cur p) (p_item p)) <->
  exists t c, In t (p_ts p) /\ In c (t_deps t) /\ inside F c /\ y = child F c
              /\ (item_path (p_item p) <> y \/ t_file t = item_path (p_item p)).
Proof.
  intros K (_ & _ & NI & ND & _) S y. unfold deps_of. rewrite in_flat_map.
  destruct K as [(C & t & u & E & T & P)|(u & C & (P & D & _) & NE & I)].
  - rewrite E, T, C. cbn [item_deps item_path]. split.
    + intros (c & H & Y). exists t, c. destruct (path_eqb_spec (parent c) F) as [Q|Q].
      * destruct Y as [<-|[]].
        assert (c <> []) as CN by (apply (ND t t c); auto; apply S; rewrite T; left; reflexivity).
        destruct (parent_inv c F CN Q) as (v & ->).
        destruct (within_child F v (F ++ [v]) (or_introl eq_refl)) as (A & B).
        rewrite B. repeat split; auto. left. reflexivity.
      * destruct (under F c) eqn:UF; [|destruct Y]. destruct Y as [<-|[]]. apply under_spec in UF.
        repeat split; auto. left. reflexivity.
    + intros (t' & c & [<-|[]] & H & IF & -> & _). exists c. split; [exact H|].
      destruct (path_eqb_spec (parent c) F) as [Q|Q].
      * left. destruct (inside_child F c IF) as (v & -> & [W|W]); [exact W|].
        exfalso. assert (c <> []) as CN by (destruct IF as (r & N & ->); destruct F, r; [congruence|discriminate..]).
        destruct (parent_inv c F CN Q) as (v' & ->). destruct W as (r & N & W). rewrite <- app_assoc in W.
        apply app_inv_head in W. destruct r; [congruence|discriminate].
      * apply under_spec in IF. rewrite IF. left. reflexivity.
  - rewrite C, P. assert (IP : p_item p = p_item p) by reflexivity.
    assert (NC : forall t c, In t (p_ts p) -> In c (t_deps t) -> c <> F ++ [u]).
    { intros t c H J ->. destruct (ND t t (F ++ [u]) (S _ H) (S _ H) J) as (_ & X). apply X, I, H. }
    split.
    + intros (c & H & Y). apply D in H. destruct H as ((t & H & J) & NF). exists t, c.
      assert (CN : c <> []) by (apply (ND t t c); auto).
      destruct (path_eqb_spec (parent c) (F ++ [u])) as [Q|Q].
      * exfalso. destruct (parent_inv c _ CN Q) as (v & ->). apply NF. exists [v]. split; [discriminate|reflexivity].
      * destruct (under F c) eqn:UF; [|destruct Y]. destruct Y as [<-|[]]. apply under_spec in UF.
        repeat split; auto. left. intros X. destruct (inside_child F c UF) as (v & X' & W).
        rewrite X' in X. rewrite <- X in W. destruct W as [W|W]; [|exact (NF W)]. exact (NC t c H J W).
    + intros (t & c & H & J & IF & -> & X). exists c.
      assert (NF : ~ inside (F ++ [u]) c).
      { intros W. destruct (within_child F u c (or_intror W)) as (_ & Z). destruct X as [X|X]; [congruence|].
        apply (inside_irrefl (F ++ [u])). rewrite <- X at 2. apply I, H. }
      split; [apply D; split; [exists t; auto|exact NF]|].
      destruct (path_eqb_spec (parent c) (F ++ [u])) as [Q|Q].
      * exfalso. assert (CN : c <> []) by (apply (ND t t c); auto).
        destruct (parent_inv c _ CN Q) as (v & ->). apply NF. exists [v]. split; [discriminate|reflexivity].
      * apply under_spec in IF. rewrite IF. left. reflexivity.
Qed.

Definition to_entry (order : list path -> list path) (F : path) (p : part) : entry :=
  (p_item p, order (deps_of F (p_cur p) (p_item p))).

(* The targets of a folder are divided into parts. *)
Definition divided (F : path) (ts : list target) (ps : list part) : Prop :=
  (forall p, In p ps -> part_ok F p) /\ Permutation (flat_map p_ts ps) ts
  /\ NoDup (map (fun p => item_path (p_item p)) ps).

Lemma divided_in F ts ps t : divided F ts ps -> In t ts -> exists p, In p ps /\ In t (p_ts p).
Proof.
  intros (_ & P & _) H. apply (Permutation_in _ (Permutation_sym P)) in H. apply in_flat_map in H. exact H.
Qed.

Lemma divided_incl F ts ps p : divided F ts ps -> In p ps -> incl (p_ts p) ts.
Proof. intros (_ & P & _) H t T. apply (Permutation_in _ P), in_flat_map. eauto. Qed.

(* The relation of the entries is that of the specification. *)
Lemma edge_needs order F ts ps x y : set_order order -> Good F ts -> divided F ts ps ->
  edge (map (to_entry order F) ps) x y <-> needs ts F x y.
Proof.
  intros SO G DV. split.
  - intros (e & E & <- & Y). apply in_map_iff in E. destruct E as (p & <- & Ip). cbn in Y. apply (proj1 (SO _ _)) in Y.
    pose proof (proj1 DV p Ip) as OKp. pose proof (divided_incl _ _ _ _ DV Ip) as S.
    apply (part_deps F ts p OKp G S) in Y. destruct Y as (t & c & H & J & IF & -> & X).
    destruct (part_path F p t OKp H) as (A & B & W). destruct (inside_child F c IF) as (v & V & WC).
    destruct (inside_child F (t_file t) A) as (u & U & _).
    exists t, c, u, v. change (entry_path (to_entry order F p)) with (item_path (p_item p)).
    split; [apply S, H|]. split; [exact J|]. split; [congruence|]. split; [exact V|].
    split; [exact W|]. split; [rewrite V; exact WC|exact X].
  - intros (t & c & u & v & H & J & -> & -> & WT & WC & X).
    destruct (divided_in F ts ps t DV H) as (p & Ip & Hp).
    pose proof (proj1 DV p Ip) as OKp. pose proof (divided_incl _ _ _ _ DV Ip) as S.
    destruct (part_path F p t OKp Hp) as (A & B & _).
    assert (WT' : within (F ++ [u]) (t_file t)) by (destruct WT as [WT|WT]; [left|right]; exact WT).
    assert (WC' : within (F ++ [v]) c) by (destruct WC as [WC|WC]; [left|right]; exact WC).
    destruct (within_child F u _ WT') as (_ & B'). destruct (within_child F v _ WC') as (IF & CV).
    exists (to_entry order F p). split; [apply in_map, Ip|]. split; [unfold entry_path; cbn [fst to_entry]; congruence|].
    unfold to_entry; cbn [snd]. apply (proj2 (SO _ _)). apply (part_deps F ts p OKp G S). exists t, c. rewrite <- B, B'. repeat split; auto.
Qed.

Lemma NoDup_same {A B} (f : A -> B) l p q : NoDup (map f l) -> In p l -> In q l -> f p = f q -> p = q.
Proof.
  induction l as [|x l IH]; cbn; intros N Ip Iq E; [contradiction|]. inversion_clear N as [|? ? M N'].
  destruct Ip as [->|Ip], Iq as [->|Iq]; auto; exfalso; apply M.
  - rewrite E. apply in_map, Iq.
  - rewrite <- E. apply in_map, Ip.
Qed.

(* ---- one level ---------------------------------------------------------------------------- *)

Lemma needs_mono ts ts' F x y : incl ts ts' -> needs ts F x y -> needs ts' F x y.
Proof. intros S (t & c & u & v & H & R). exists t, c, u, v. split; [apply S, H|exact R]. Qed.

Lemma closed_entries order F ts ps : set_order order -> Good F ts -> divided F ts ps ->
  forall p y, In p ps -> In y (snd (to_entry order F p)) -> In y (map (fun p => item_path (p_item p)) ps).
Proof.
  intros SO G DV p y Ip Y. cbn in Y. apply (proj1 (SO _ _)) in Y.
  pose proof (proj1 DV p Ip) as OKp. pose proof (divided_incl _ _ _ _ DV Ip) as S.
  apply (part_deps F ts p OKp G S) in Y. destruct Y as (t & c & H & J & IF & -> & _).
  destruct G as (_ & _ & _ & _ & CL). destruct (CL t c (S t H) J IF) as (t' & T' & <-).
  destruct (divided_in F ts ps t' DV T') as (p' & Ip' & Hp').
  destruct (part_path F p' t' (proj1 DV p' Ip') Hp') as (_ & -> & _).
  apply in_map_iff. exists p'. auto.
Qed.

Lemma level order F ts ps : set_order order -> Good F ts -> divided F ts ps ->
  verdict F ts
    (let es := map (to_entry order F) ps in
     match place (length es) es [] [] with
     | ([], _, targets) =>
       Tree (IDir F targets (filter (fun d => negb (under F d)) (flat_map item_deps targets)))
     | (e :: rest, placed, _) => find_cycle (S (length (e :: rest))) (e :: rest) placed e []
     end).
Proof.
  intros SO G DV. cbv zeta. set (es := map (to_entry order F) ps).
  assert (EP : map entry_path es = map (fun p => item_path (p_item p)) ps) by (unfold es; rewrite map_map; reflexivity).
  assert (ND : NoDup (map entry_path es)) by (rewrite EP; apply DV).
  destruct (place (length es) es [] []) as [[rest placed] targets] eqn:E.
  destruct (place_spec (length es) es [] [] rest placed targets (le_n _) ND E) as (new & -> & -> & P & O & R).
  cbn [app] in *.
  destruct rest as [|e rest].
  - rewrite app_nil_r in P.
    assert (NN : NoDup (map entry_path new)) by (eapply Permutation_NoDup; [apply Permutation_map, P|exact ND]).
    assert (NB : forall x y, needs ts F x y -> before y x (map entry_path new)).
    { intros x y H. apply (edge_needs order F ts ps x y SO G DV) in H. destruct H as (e & Ie & <- & Y).
      apply (Permutation_in _ P) in Ie. apply in_split in Ie. destruct Ie as (l1 & l2 & ->).
      destruct (O l1 e l2 eq_refl y Y) as [[]|H]. rewrite map_app. cbn [map].
      apply before_two; [exact H|left; reflexivity]. }
    assert (PE : Permutation (map fst new) (map p_item ps)).
    { apply (Permutation_map fst) in P. rewrite <- P. unfold es. rewrite map_map. apply Permutation_refl. }
    cbn [verdict]. split; [reflexivity|]. split; [|split; [|split]].
    + intros c. cbn [item_deps]. rewrite filter_In, negb_true_iff, under_false, in_flat_map. split.
      * intros ((i & Ii & C) & NF). split; [|exact NF]. apply (Permutation_in _ PE), in_map_iff in Ii.
        destruct Ii as (p & <- & Ip). destruct (proj1 DV p Ip) as [(_ & t & u & X & T & _)|(u & _ & (_ & D & _) & _)].
        { rewrite X in C. exists t. split; [|exact C]. apply (divided_incl _ _ _ _ DV Ip). rewrite T. left. reflexivity. }
        apply D in C. destruct C as ((t & H & J) & _). exists t. split; [apply (divided_incl _ _ _ _ DV Ip), H|exact J].
      * intros ((t & H & J) & NF). split; [|exact NF]. destruct (divided_in F ts ps t DV H) as (p & Ip & Hp).
        exists (p_item p). split; [apply (Permutation_in _ (Permutation_sym PE)), in_map, Ip|].
        destruct (proj1 DV p Ip) as [(_ & t' & u & X & T & _)|(u & _ & (_ & D & _) & _ & I)].
        { rewrite X. rewrite T in Hp. destruct Hp as [<-|[]]. exact J. }
        apply D. split; [eauto|]. intros W. apply NF. eapply inside_trans; [|exact W]. exists [u]. split; [discriminate|reflexivity].
    + cbn [emit]. rewrite (perm_flat_map emit _ _ PE), flat_map_map.
      rewrite <- (Permutation_map t_file (proj1 (proj2 DV))). rewrite map_flat_map.
      apply flat_map_perm. intros p Ip.
      destruct (proj1 DV p Ip) as [(_ & t & u & X & T & _)|(u & _ & (_ & _ & PM & _) & _)]; [rewrite X, T; reflexivity|exact PM].
    + intros t c H J IF. cbn [emit].
      destruct (divided_in F ts ps t DV H) as (p & Ip & Hp).
      destruct (proj2 (proj2 (proj2 (proj2 G))) t c H J IF) as (t' & H' & <-).
      destruct (divided_in F ts ps t' DV H') as (p' & Ip' & Hp').
      destruct (part_path F p t (proj1 DV p Ip) Hp) as (A & B & W).
      destruct (part_path F p' t' (proj1 DV p' Ip') Hp') as (A' & B' & W').
      destruct (inside_child F _ A) as (u & U & WU). destruct (inside_child F _ A') as (v & V & WV).
      destruct (path_eqb_spec (F ++ [u]) (F ++ [v])) as [Q|Q].
      * (* in the same part *)
        assert (p = p') by (apply (NoDup_same _ ps p p' (proj2 (proj2 DV)) Ip Ip'); congruence).
        subst p'.
        destruct (proj1 DV p Ip) as [(_ & t0 & u0 & X & T & PT)|(u0 & C & (P0 & _ & _ & BF & _) & _ & I)].
        { exfalso. rewrite T in Hp, Hp'. destruct Hp as [<-|[]], Hp' as [<-|[]].
          apply (before_irrefl (F ++ [u]) _ NN), NB. exists t0, (t_file t0), u, u. repeat split; auto.
          right. rewrite PT in *. destruct (within_child F u0 (F ++ [u0]) (or_introl eq_refl)). congruence. }
        apply (before_in_flat emit _ (p_item p)); [apply (Permutation_in _ (Permutation_sym PE)), in_map, Ip|].
        apply BF; auto.
      * (* in different parts *)
        assert (NE : needs ts F (F ++ [u]) (F ++ [v])) by (exists t, (t_file t'), u, v; repeat split; auto).
        apply (edge_needs order F ts ps _ _ SO G DV) in NE. destruct NE as (e & Ie & Pe & Y).
        apply (Permutation_in _ P) in Ie. apply in_split in Ie. destruct Ie as (l1 & l2 & ->).
        destruct (O l1 e l2 eq_refl _ Y) as [[]|Hv]. apply in_map_iff in Hv. destruct Hv as (e' & Pe' & Ie').
        apply in_split in Ie'. destruct Ie' as (m1 & m2 & ->).
        assert (same : forall p e w, In p ps -> In e es -> entry_path e = w -> item_path (p_item p) = w -> fst e = p_item p).
        { intros q f w Iq If Pf Pq. apply in_map_iff in If. destruct If as (q' & <- & Iq'). cbn in *.
          assert (q' = q); [|congruence]. unfold entry_path in Pf. cbn in Pf.
          apply (NoDup_same _ ps q' q (proj2 (proj2 DV)) Iq' Iq). congruence. }
        assert (E1 : fst e = p_item p).
        { apply (same p e (F ++ [u])); auto; [|congruence]. apply (Permutation_in _ (Permutation_sym P)).
          apply in_app_iff. right. left. reflexivity. }
        assert (E2 : fst e' = p_item p').
        { apply (same p' e' (F ++ [v])); auto; [|congruence]. apply (Permutation_in _ (Permutation_sym P)).
          apply in_app_iff. left. apply in_app_iff. right. left. reflexivity. }
        assert (em : forall q s, In q ps -> In s (p_ts q) -> In (t_file s) (emit (p_item q))).
        { intros q s Iq Hs. destruct (proj1 DV q Iq) as [(_ & t0 & u0 & X & T & _)|(u0 & _ & (_ & _ & PM & _) & _)].
          - rewrite X. rewrite T in Hs. destruct Hs as [<-|[]]. left. reflexivity.
          - apply (Permutation_in _ (Permutation_sym PM)), in_map, Hs. }
        rewrite <- app_assoc. cbn [app]. rewrite map_app. cbn [map]. rewrite map_app. cbn [map]. rewrite E1, E2.
        apply before_flat; apply em; assumption.
    + intros r x H. destruct r as [|u r].
      * rewrite app_nil_r in H. assert (B : before x x (map entry_path new)); [|exact (before_irrefl x _ NN B)].
        assert (BT : forall a b, clos_trans path (needs ts F) a b -> before b a (map entry_path new)).
        { induction 1 as [a b H'|a b c _ I1 _ I2]; [apply NB, H'|eapply before_trans; eauto]. }
        apply BT, H.
      * (* inside a sub-folder *)
        assert (IN : forall t a, within (F ++ u :: r ++ [a]) (t_file t) -> inside (F ++ [u]) (t_file t)).
        { intros t a W. apply within_app in W. destruct W as (s & ->). exists (r ++ [a] ++ s). split; [destruct r; discriminate|].
          rewrite <- !app_assoc. cbn. rewrite <- !app_assoc. reflexivity. }
        assert (CUT : forall p, In p ps -> item_path (p_item p) = F ++ [u] -> forall a b,
          needs ts (F ++ u :: r) a b -> needs (p_ts p) (F ++ u :: r) a b).
        { intros p Ip Pp a b (t & c & s & v & T & C & -> & -> & WT & WC & X). exists t, c, s, v. repeat split; auto.
          destruct (divided_in F ts ps t DV T) as (q & Iq & Hq).
          destruct (part_path F q t (proj1 DV q Iq) Hq) as (_ & B & _).
          assert (WI : inside (F ++ [u]) (t_file t)).
          { apply (IN t s). replace (F ++ u :: r ++ [s]) with ((F ++ u :: r) ++ [s]) by (rewrite <- app_assoc; reflexivity).
            destruct WT as [WT|WT]; [left|right]; exact WT. }
          destruct (within_child F u _ (or_intror WI)) as (_ & B').
          assert (q = p) by (apply (NoDup_same _ ps q p (proj2 (proj2 DV)) Iq Ip); congruence). subst. exact Hq. }
        assert (SOME : exists a b, needs ts (F ++ u :: r) a b) by (clear -H; induction H; eauto).
        destruct SOME as (a & b & t & c & s & v & T & C & -> & -> & WT & WC & X).
        assert (WI : inside (F ++ [u]) (t_file t)).
        { apply (IN t s). replace (F ++ u :: r ++ [s]) with ((F ++ u :: r) ++ [s]) by (rewrite <- app_assoc; reflexivity).
          destruct WT as [WT|WT]; [left|right]; exact WT. }
        destruct (divided_in F ts ps t DV T) as (p & Ip & Hp).
        destruct (part_path F p t (proj1 DV p Ip) Hp) as (_ & B & _).
        destruct (within_child F u _ (or_intror WI)) as (_ & B').
        destruct (proj1 DV p Ip) as [(_ & t0 & u0 & Y & T0 & PT)|(u0 & C0 & (P0 & _ & _ & _ & AC) & _ & I)].
        { rewrite T0 in Hp. destruct Hp as [<-|[]]. rewrite Y in B. cbn [item_path] in B.
          assert (Q : t_file t0 = F ++ [u]) by congruence. rewrite Q in WI. exact (inside_irrefl _ WI). }
        assert (U : F ++ [u0] = F ++ [u]) by congruence.
        apply (AC r x). rewrite U. rewrite <- app_assoc. cbn [app].
        assert (PP : item_path (p_item p) = F ++ [u]) by congruence.
        assert (MONO : forall a b, clos_trans path (needs ts (F ++ u :: r)) a b -> clos_trans path (needs (p_ts p) (F ++ u :: r)) a b).
        { induction 1 as [a b K|a b d _ I1 _ I2]; [constructor; apply (CUT p); auto|eapply t_trans; eauto]. }
        apply MONO, H.
  - assert (U : forall e0, In e0 (e :: rest) -> exists d, In d (snd e0) /\ ~ In d (map entry_path new)) by exact R.
    destruct (find_cycle_spec (S (length (e :: rest))) (e :: rest) (map entry_path new) e []) as (l & -> & SC).
    + exact U.
    + intros e0 d I0 D ND0.
      assert (In e0 es) by (apply (Permutation_in _ (Permutation_sym P)), in_app_iff; right; exact I0).
      apply in_map_iff in H. destruct H as (p & <- & Ip).
      pose proof (closed_entries order F ts ps SO G DV p d Ip D) as K. rewrite <- EP in K.
      apply (Permutation_in _ (Permutation_map entry_path P)) in K. rewrite map_app, in_app_iff in K.
      destruct K as [K|K]; [contradiction|]. apply in_map_iff in K. destruct K as (e' & X & Y). eauto.
    + left. reflexivity.
    + constructor.
    + constructor.
    + intros x [].
    + cbn. unfold entry in *. lia.
    + cbn [verdict]. exists []. rewrite app_nil_r. destruct SC as (W & X). split; [|exact X].
      apply (walk_mono (edge (e :: rest))); [|exact W]. intros a b (e0 & I0 & A & B).
      apply (edge_needs order F ts ps a b SO G DV). exists e0. split; [|auto].
      apply (Permutation_in _ (Permutation_sym P)), in_app_iff. right. exact I0.
Qed.

(* ---- the whole tree ------------------------------------------------------------------------ *)

Definition gpart (F k : path) (i : item) (cs : list target) : part := mk_part i k cs.

(* The parts of a group that has been built. *)
Inductive group_parts (n : nat) (order : list path -> list path) (F : path) : list (path * list target) -> list (path * list item) -> list part -> Prop :=
| gp_nil : group_parts n order F [] [] []
| gp_files k cs gs r ps : k = F -> group_parts n order F gs r ps ->
    group_parts n order F ((k, cs) :: gs) ((k, map IFile cs) :: r) (map (fun t => mk_part (IFile t) k [t]) cs ++ ps)
| gp_dir k cs gs r ps i : k <> F -> build order n k cs = Tree i -> group_parts n order F gs r ps ->
    group_parts n order F ((k, cs) :: gs) ((k, [i]) :: r) (mk_part i k cs :: ps).

Lemma build_groups_spec n order F gs :
  match build_groups (build order n) F gs with
  | inl r => exists ps, group_parts n order F gs r ps
  | inr x => exists k cs, In (k, cs) gs /\ k <> F /\ build order n k cs = x /\ forall i, x <> Tree i
  end.
Proof.
  induction gs as [|[k cs] gs IH]; cbn [build_groups]; [exists []; constructor|].
  destruct (path_eqb_spec k F) as [E|E].
  - destruct (build_groups (build order n) F gs) as [r|x].
    + destruct IH as (ps & G). eexists. apply gp_files; eauto.
    + destruct IH as (k' & cs' & I & R). exists k', cs'. split; [right; exact I|exact R].
  - destruct (build order n k cs) as [i|l| |] eqn:B.
    + destruct (build_groups (build order n) F gs) as [r|x].
      * destruct IH as (ps & G). eexists. apply gp_dir; eauto.
      * destruct IH as (k' & cs' & I & R). exists k', cs'. split; [right; exact I|exact R].
    + exists k, cs. repeat split; auto; [left; reflexivity|discriminate].
    + exists k, cs. repeat split; auto; [left; reflexivity|discriminate].
    + exists k, cs. repeat split; auto; [left; reflexivity|discriminate].
Qed.

Lemma group_parts_entries n order F gs r ps : group_parts n order F gs r ps ->
  entries order F r = map (to_entry order F) ps.
Proof.
  induction 1 as [|k cs gs r ps E G IH|k cs gs r ps i E B G IH]; cbn; [reflexivity| |].
  - unfold entries in IH. rewrite IH, map_app, !map_map. reflexivity.
  - unfold entries in IH. rewrite IH. reflexivity.
Qed.

Lemma group_parts_ts n order F gs r ps : group_parts n order F gs r ps -> flat_map p_ts ps = flat_map snd gs.
Proof.
  induction 1 as [|k cs gs r ps E G IH|k cs gs r ps i E B G IH]; cbn; [reflexivity| |rewrite IH; reflexivity].
  rewrite flat_map_app, IH, flat_map_map. cbn. f_equal. clear. induction cs; cbn; congruence.
Qed.

Lemma group_parts_in n order F gs r ps p : group_parts n order F gs r ps -> In p ps ->
  exists k cs, In (k, cs) gs /\
    ((k = F /\ exists t, In t cs /\ p = mk_part (IFile t) k [t])
     \/ (k <> F /\ exists i, build order n k cs = Tree i /\ p = mk_part i k cs)).
Proof.
  induction 1 as [|k cs gs r ps E G IH|k cs gs r ps i E B G IH]; cbn; [contradiction| |].
  - rewrite in_app_iff, in_map_iff. intros [(t & <- & T)|H].
    + exists k, cs. split; [left; reflexivity|]. left. eauto.
    + destruct (IH H) as (k' & cs' & I & R). exists k', cs'. split; [right; exact I|exact R].
  - intros [<-|H].
    + exists k, cs. split; [left; reflexivity|]. right. eauto.
    + destruct (IH H) as (k' & cs' & I & R). exists k', cs'. split; [right; exact I|exact R].
Qed.

(* The hypotheses hold for the groups. *)
Lemma group_key F ts k cs t : Good F ts -> In (k, cs) (group F ts) -> In t cs ->
  In t ts /\ ((k = F /\ exists u, t_file t = F ++ [u]) \/ (exists u, k = F ++ [u] /\ inside k (t_file t))).
Proof.
  intros (_ & I & _) H T. destruct (group_spec F ts) as (_ & K & P).
  assert (In t ts) by (apply (Permutation_in _ P), in_flat_map; eauto). split; [assumption|].
  destruct (K k cs H) as (_ & KT). specialize (KT t T).
  destruct (key_spec F t (I t H0)) as (u & _ & [(A & B)|(A & B)]).
  - left. split; [congruence|]. eauto.
  - right. exists u. rewrite <- KT, B. auto.
Qed.

Lemma group_all F ts k cs t : In (k, cs) (group F ts) -> In t ts -> key F t = k -> In t cs.
Proof.
  intros H T E. destruct (group_spec F ts) as (N & K & P).
  apply (Permutation_in _ (Permutation_sym P)), in_flat_map in T. destruct T as ((k' & cs') & I & T). cbn in T.
  assert (k' = k) by (rewrite <- E; symmetry; apply (K k' cs' I), T). subst k'.
  assert ((k, cs') = (k, cs)) as X by (apply (NoDup_same fst (group F ts)); auto). congruence.
Qed.

Lemma app_neq (F : path) u : F ++ [u] <> F.
Proof. intros H. rewrite <- (app_nil_r F) in H at 2. apply app_inv_head in H. discriminate. Qed.

Lemma sub_good F ts k cs : Good F ts -> In (k, cs) (group F ts) -> k <> F -> Good k cs /\ incl cs ts /\ cs <> [] /\ exists u, k = F ++ [u].
Proof.
  intros G H NE. pose proof G as (N & I & NI & ND & CL). destruct (group_spec F ts) as (_ & K & P).
  assert (S : incl cs ts) by (intros t T; apply (group_key F ts k cs t G H T)).
  assert (IK : forall t, In t cs -> inside k (t_file t)).
  { intros t T. destruct (group_key F ts k cs t G H T) as (_ & [(E & _)|(u & _ & X)]); [congruence|exact X]. }
  destruct (K k cs H) as (NN & KT).
  assert (exists u, k = F ++ [u]) as (u & ->).
  { destruct cs as [|t cs]; [congruence|].
    destruct (group_key F ts k (t :: cs) t G H (or_introl eq_refl)) as (_ & [(E & _)|(u & E & _)]); [congruence|eauto]. }
  split; [|split; [exact S|split; [exact NN|eauto]]].
  split; [|split; [exact IK|split; [|split]]].
  - apply (Permutation_NoDup (Permutation_sym (Permutation_map t_file P))) in N.
    apply in_split in H. destruct H as (l1 & l2 & H). rewrite H in N. rewrite flat_map_app in N. cbn in N. rewrite !map_app in N.
    apply NoDup_app_parts in N. destruct N as (_ & N & _). apply NoDup_app_parts in N. apply N.
  - intros t t' T T'. apply NI; apply S; assumption.
  - intros t t' c T T' C. apply (ND t t' c); auto.
  - intros t c T C IC. destruct (CL t c (S t T) C) as (t' & T' & E').
    { apply (within_child F u c (or_intror IC)). }
    exists t'. split; [|exact E']. apply (group_all F ts (F ++ [u])); auto.
    destruct (key_spec F t' (I t' T')) as (v & CV & [(A & B)|(A & B)]).
    + exfalso. rewrite <- E', A in IC. destruct IC as (r & NR & IC). rewrite <- app_assoc in IC. apply app_inv_head in IC.
      destruct r; [congruence|discriminate].
    + rewrite B. destruct (within_child F v _ (or_intror A)) as (_ & X).
      destruct (within_child F u c (or_intror IC)) as (_ & Y). rewrite <- E', X in Y. exact Y.
Qed.

Lemma divided_parts n order F ts r ps : Good F ts -> group_parts n order F (group F ts) r ps ->
  (forall k cs i, In (k, cs) (group F ts) -> k <> F -> build order n k cs = Tree i -> OK k cs i) ->
  divided F ts ps.
Proof.
  intros G GP IH. pose proof G as (N & I & NI & ND & CL). split; [|split].
  - intros p H. destruct (group_parts_in _ _ _ _ _ _ _ GP H) as (k & cs & HK & [(E & t & T & ->)|(E & i & B & ->)]).
    + left. cbn. split; [exact E|]. destruct (group_key F ts k cs t G HK T) as (_ & [(_ & u & X)|(u & X & _)]).
      * exists t, u. auto.
      * exfalso. rewrite E in X. symmetry in X. exact (app_neq F u X).
    + right. destruct (sub_good F ts k cs G HK E) as (GK & S & NN & u & ->). exists u. cbn.
      split; [reflexivity|]. split; [exact (IH _ _ _ HK E B)|]. split; [exact NN|apply GK].
  - rewrite (group_parts_ts _ _ _ _ _ _ GP). apply group_spec.
  - set (names := fun g : path * list target => if path_eqb (fst g) F then map t_file (snd g) else [fst g]).
    assert (E : map (fun p => item_path (p_item p)) ps = flat_map names (group F ts)).
    { assert (OKs : forall k cs i, In (k, cs) (group F ts) -> k <> F -> build order n k cs = Tree i -> item_path i = k)
        by (intros; eapply IH; eauto).
      clear -GP OKs. revert OKs. generalize (group F ts) GP. clear GP. intros gs GP.
      induction GP as [|k cs gs r ps E G IH|k cs gs r ps i E B G IH]; intros OKs; cbn [map flat_map]; [reflexivity| |].
      - rewrite map_app, map_map, IH by (intros; eapply OKs; eauto; right; eauto). f_equal.
        unfold names. cbn. destruct (path_eqb_spec k F); [reflexivity|congruence].
      - rewrite IH by (intros; eapply OKs; eauto; right; eauto). cbn.
        rewrite (OKs k cs i) by (auto; left; reflexivity). unfold names at 2. cbn.
        destruct (path_eqb_spec k F); [congruence|reflexivity]. }
    rewrite E. apply (NoDup_flat_map fst).
    + apply group_spec.
    + intros (k & cs) H. unfold names. cbn. destruct (path_eqb_spec k F) as [->|X]; [|repeat constructor; intros []].
      destruct (group_spec F ts) as (_ & _ & P).
      apply (Permutation_NoDup (Permutation_sym (Permutation_map t_file P))) in N.
      apply in_split in H. destruct H as (l1 & l2 & H). rewrite H in N. rewrite flat_map_app in N. cbn in N. rewrite !map_app in N.
      apply NoDup_app_parts in N. destruct N as (_ & N & _). apply NoDup_app_parts in N. apply N.
    + assert (MIX : forall k cs k' cs' b, In (k, cs) (group F ts) -> In (k', cs') (group F ts) -> k = F -> k' <> F ->
        In b (map t_file cs) -> b = k' -> False).
      { intros k cs k' cs' b H H' E1 E2 HB ->. apply in_map_iff in HB. destruct HB as (t & TB & T).
        destruct (sub_good F ts k' cs' G H' E2) as (GK & S & NN & _). destruct cs' as [|t' cs']; [congruence|].
        apply (NI t t'); [apply (group_key F ts k cs t G H T)|apply S; left; reflexivity|].
        rewrite TB. apply GK. left. reflexivity. }
      intros (k & cs) (k' & cs') b H H'. unfold names. cbn.
      destruct (path_eqb_spec k F) as [E1|E1], (path_eqb_spec k' F) as [E2|E2]; intros B1 B2.
      * congruence.
      * exfalso. destruct B2 as [B2|[]]. apply (MIX k cs k' cs' b); auto.
      * exfalso. destruct B1 as [B1|[]]. apply (MIX k' cs' k cs b); auto.
      * destruct B1 as [<-|[]], B2 as [<-|[]]. reflexivity.
Qed.

Lemma inside_length F p : inside F p -> length F < length p.
Proof. intros ([|x r] & N & ->); [congruence|]. rewrite app_length. cbn. lia. Qed.

Lemma build_spec order : set_order order -> forall n F ts, Good F ts -> 0 < n ->
  (forall t, In t ts -> length (t_file t) <= length F + n) -> verdict F ts (build order n F ts).
Proof.
  intros SO. induction n as [|n IH]; intros F ts G L D; [lia|]. cbn [build].
  assert (SUB : forall k cs, In (k, cs) (group F ts) -> k <> F -> verdict k cs (build order n k cs)).
  { intros k cs H NE. destruct (sub_good F ts k cs G H NE) as (GK & S & NN & u & E).
    assert (LK : forall t, In t cs -> length (t_file t) <= length k + n).
    { intros t T. specialize (D t (S t T)). rewrite E, app_length. cbn. lia. }
    apply IH; auto. destruct cs as [|t cs]; [congruence|].
    pose proof (inside_length k (t_file t) (proj1 (proj2 GK) t (or_introl eq_refl))).
    specialize (LK t (or_introl eq_refl)). lia. }
  pose proof (build_groups_spec n order F (group F ts)) as B.
  destruct (build_groups (build order n) F (group F ts)) as [r|x].
  - destruct B as (ps & GP). rewrite (group_parts_entries _ _ _ _ _ _ GP). apply level; auto.
    eapply divided_parts; eauto. intros k cs i H NE E. specialize (SUB k cs H NE). rewrite E in SUB. exact SUB.
  - destruct B as (k & cs & H & NE & E & NT). specialize (SUB k cs H NE). rewrite E in SUB.
    destruct (sub_good F ts k cs G H NE) as (_ & S & _ & u & Ek).
    destruct x as [i|l| |]; cbn in *; [exfalso; eapply NT; reflexivity| |contradiction|contradiction].
    destruct SUB as (r & W & X). exists (u :: r). subst k. rewrite <- app_assoc in W. cbn in W. split; [|exact X].
    eapply walk_mono; [|exact W]. intros a b. apply needs_mono, S.
Qed.

Lemma valid_good ts : valid ts -> Good [] ts.
Proof.
  intros (N & E & I & C). split; [exact N|]. split; [|split; [exact I|split]].
  - intros t T. exists (t_file t). split; [apply E, T|reflexivity].
  - intros t t' c T T' H. destruct (C t c T H) as (t2 & T2 & <-). split; [apply E, T2|apply I; assumption].
  - intros t c T H _. apply (C t c T H).
Qed.

Lemma project_spec order ts : set_order order -> valid ts -> verdict [] ts (project order ts).
Proof.
  intros SO V. unfold project. apply build_spec; [exact SO|apply valid_good, V|lia|].
  intros t T. cbn. unfold depth. apply Nat.le_le_succ_r.
  pose proof (proj1 (list_max_le (map (fun t => length (t_file t)) ts) (list_max (map (fun t => length (t_file t)) ts))) (le_n _)) as M.
  rewrite Forall_forall in M. apply M. apply (in_map (fun t => length (t_file t))), T.
Qed.

Lemma project_tree order ts i : set_order order -> valid ts -> project order ts = Tree i ->
  Permutation (emit i) (map t_file ts)
  /\ forall t c, In t ts -> In c (t_deps t) -> before c (t_file t) (emit i).
Proof.
  intros SO V E. pose proof (project_spec order ts SO V) as K. rewrite E in K. destruct K as (_ & _ & P & B & _).
  split; [exact P|]. intros t c T C. apply B; auto. destruct V as (_ & NE & _ & CL).
  destruct (CL t c T C) as (t' & T' & <-). exists (t_file t'). split; [apply NE, T'|reflexivity].
Qed.

Lemma project_iff order ts : set_order order -> valid ts ->
  (exists i, project order ts = Tree i) <-> forall F, ~ cyclic ts F.
Proof.
  intros SO V. pose proof (project_spec order ts SO V) as K. split.
  - intros (i & E) F (x & X). rewrite E in K. destruct K as (_ & _ & _ & _ & A). apply (A F x X).
  - intros A. destruct (project order ts) as [i|l| |]; cbn in K; [eauto| |contradiction|contradiction].
    exfalso. destruct K as (F & S). apply (A F), (shows_cyclic _ l), S.
Qed.

Lemma project_cycle order ts : set_order order -> valid ts -> (forall i, project order ts <> Tree i) ->
  exists l F, project order ts = Cycle l /\ shows_cycle (needs ts F) l.
Proof.
  intros SO V N. pose proof (project_spec order ts SO V) as K.
  destruct (project order ts) as [i|l| |]; cbn in K; [exfalso; eapply N; reflexivity| |contradiction|contradiction].
  destruct K as (F & S). exists l, F. auto.
Qed.

(* A project without sub-folders fails exactly if the imports are circular. *)
Lemma project_flat order ts : set_order order -> valid ts -> (forall t, In t ts -> length (t_file t) = 1) ->
  (exists i, project order ts = Tree i) <-> ~ exists x, clos_trans path (imports ts) x x.
Proof.
  intros SO V L. rewrite (project_iff order ts SO V).
  assert (ONE : forall p, length p = 1 -> forall F x, x = F ++ [last x EmptyString] -> (p = x \/ inside x p) -> F = [] /\ p = x).
  { intros p LP F x -> [->|(r & NR & E)].
    - rewrite app_length in LP. cbn in LP. destruct F; [split; reflexivity|cbn in LP; lia].
    - exfalso. apply (f_equal (@length string)) in E. rewrite !app_length in E. cbn in E. destruct r; [congruence|cbn in *; lia]. }
  assert (EQ : forall x y, needs ts [] x y <-> imports ts x y).
  { intros x y. split.
    - intros (t & c & u & v & T & C & X & Y & WT & WC & _).
      destruct (proj2 (proj2 (proj2 V)) t c T C) as (t' & T' & E').
      destruct (ONE (t_file t) (L t T) [] x) as (_ & A); [rewrite X; reflexivity|exact WT|].
      destruct (ONE c (eq_trans (f_equal (@length string) (eq_sym E')) (L t' T')) [] y) as (_ & B); [rewrite Y; reflexivity|exact WC|].
      exists t. split; [exact T|]. split; [exact A|]. rewrite <- B. exact C.
    - intros (t & T & X & C). destruct (proj2 (proj2 (proj2 V)) t y T C) as (t' & T' & E').
      pose proof (L t T) as L1. pose proof (L t' T') as L2. rewrite X in L1. rewrite E' in L2.
      destruct x as [|u [|? ?]]; try discriminate. destruct y as [|v [|? ?]]; try discriminate.
      exists t, [v], u, v. repeat split; auto. }
  assert (TR : forall x y, clos_trans path (needs ts []) x y <-> clos_trans path (imports ts) x y).
  { split; induction 1; [constructor; apply EQ; assumption|eapply t_trans; eauto|constructor; apply EQ; assumption|eapply t_trans; eauto]. }
  split.
  - intros A (x & X). apply (A []). exists x. apply TR, X.
  - intros A F (x & X). apply A. destruct F as [|f F]; [exists x; apply TR, X|]. exfalso.
    assert (exists a b, needs ts (f :: F) a b) as (a & b & t & c & u & v & T & C & X' & Y' & WT & _) by (clear -X; induction X; eauto).
    pose proof (L t T) as LT. destruct WT as [WT|(r & NR & WT)]; rewrite WT, X' in LT; rewrite ?app_length in LT; cbn in LT; rewrite ?app_length in LT; cbn in LT; lia.
Qed.

(* ---- names ---------------------------------------------------------------------------------- *)

Lemma distinctb_spec l : distinctb l = true <-> NoDup l.
Proof.
  induction l as [|x l IH]; cbn; [split; [constructor|reflexivity]|].
  rewrite andb_true_iff, negb_true_iff, IH. split.
  - intros (E & N). constructor; [|exact N]. intros I.
    assert (existsb (String.eqb x) l = true) by (apply existsb_exists; exists x; split; [exact I|apply String.eqb_refl]). congruence.
  - intros N. inversion_clear N as [|? ? M N']. split; [|exact N'].
    destruct (existsb (String.eqb x) l) eqn:E; [|reflexivity]. apply existsb_exists in E. destruct E as (y & I & Q).
    apply String.eqb_eq in Q. subst. contradiction.
Qed.

Lemma names_without_conflict ps : NoDup (map stem ps) -> NoDup (map (target_name ps) ps).
Proof.
  intros N. assert (C : has_conflicting_modules ps = false).
  { unfold has_conflicting_modules. apply distinctb_spec in N. rewrite N. reflexivity. }
  erewrite map_ext; [exact N|]. intros p. unfold target_name. rewrite C. reflexivity.
Qed.

(* A component and what follows it are determined by the text. *)
Definition follows (s : string) : Prop := s = EmptyString \/ exists x t, plain x /\ s = ("__" ++ x ++ t)%string.

Lemma component_unique x : forall y s t, no_double x -> no_double y -> follows s -> follows t ->
  (x ++ s = y ++ t)%string -> x = y /\ s = t.
Proof.
  induction x as [|a x IH]; intros y s t PX PY FS FT E.
  - destruct y as [|b y]; [cbn in E; auto|]. exfalso. cbn in E.
    destruct FS as [->|(z & w & Z & ->)]; [discriminate|]. cbn in E. injection E as <- E.
    destruct y as [|c y]; cbn in E.
    + destruct FT as [->|(z' & w' & Z' & ->)]; [discriminate|]. cbn in E. injection E as E.
      destruct z as [|c z]; [contradiction|]. cbn in E. injection E as -> E. destruct Z as (Z & _). congruence.
    + injection E as <- E. cbn in PY. apply PY. auto.
  - destruct y as [|b y].
    + exfalso. cbn in E. destruct FT as [->|(z & w & Z & ->)]; [discriminate|]. cbn in E. injection E as -> E.
      destruct x as [|c x]; cbn in E.
      * destruct FS as [->|(z' & w' & Z' & ->)]; [discriminate|]. cbn in E. injection E as E.
        destruct z as [|c z]; [contradiction|]. cbn in E. injection E as <- E. destruct Z as (Z & _). congruence.
      * injection E as -> E. cbn in PX. apply PX. auto.
    + cbn in E. injection E as <- E. cbn in PX, PY. destruct (IH y s t) as (-> & ->); tauto.
Qed.

Lemma plain_no_double x : plain x -> no_double x.
Proof. destruct x; cbn; [contradiction|]. intros (_ & H). exact H. Qed.

Lemma join_cons x l : l <> [] -> join "__" (x :: l) = (x ++ "__" ++ join "__" l)%string.
Proof. destruct l; [congruence|reflexivity]. Qed.

Lemma string_app_nil (s : string) : (s ++ "")%string = s.
Proof. induction s as [|c s IH]; cbn; [reflexivity|]. rewrite IH. reflexivity. Qed.

Lemma join_split x l : exists s, join "__" (x :: l) = (x ++ s)%string /\ s = match l with [] => EmptyString | _ => ("__" ++ join "__" l)%string end.
Proof.
  destruct l as [|y l]; [exists EmptyString; split; [cbn; rewrite string_app_nil; reflexivity|reflexivity]|].
  eexists. split; [apply join_cons; discriminate|reflexivity].
Qed.

Lemma join_follows l : Forall plain l -> follows (match l with [] => EmptyString | _ => ("__" ++ join "__" l)%string end).
Proof.
  intros H. destruct l as [|y l]; [left; reflexivity|]. inversion_clear H as [|? ? P Q]. right.
  destruct (join_split y l) as (s & E & _). exists y, s. rewrite E. auto.
Qed.

Lemma join_injective p : forall q, p <> [] -> q <> [] -> Forall plain p -> Forall plain q ->
  join "__" p = join "__" q -> p = q.
Proof.
  induction p as [|x p IH]; intros [|y q] NP NQ FP FQ E; try congruence.
  inversion_clear FP as [|? ? X FP']. inversion_clear FQ as [|? ? Y FQ'].
  destruct (join_split x p) as (s & E1 & S1), (join_split y q) as (t & E2 & S2). rewrite E1, E2 in E.
  destruct (component_unique x y s t) as (-> & EST); auto using plain_no_double.
  { rewrite S1. apply join_follows, FP'. } { rewrite S2. apply join_follows, FQ'. }
  f_equal. rewrite S1, S2 in EST. destruct p as [|x1 p], q as [|y1 q]; [reflexivity|discriminate|discriminate|].
  apply IH; auto; [discriminate..|]. cbn [append] in EST. injection EST as EST. exact EST.
Qed.

Lemma names_with_conflict ps : NoDup ps -> (forall p, In p ps -> p <> [] /\ Forall plain p) -> NoDup (map (target_name ps) ps).
Proof.
  intros N H. destruct (has_conflicting_modules ps) eqn:C.
  2: { apply names_without_conflict. unfold has_conflicting_modules in C. apply negb_false_iff, distinctb_spec in C. exact C. }
  assert (E : map (target_name ps) ps = map (join "__") ps) by (apply map_ext; intros p; unfold target_name; rewrite C; reflexivity).
  rewrite E. clear E C. induction ps as [|p ps IH]; cbn; [constructor|]. inversion_clear N as [|? ? M N'].
  constructor; [|apply IH; auto; intros q Q; apply H; right; exact Q].
  intros I. apply in_map_iff in I. destruct I as (q & E & Q). apply M.
  destruct (H p (or_introl eq_refl)) as (A & B), (H q (or_intror Q)) as (A' & B').
  rewrite <- (join_injective q p); auto.
Qed.
