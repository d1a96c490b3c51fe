(* Proofs about the files pyccel leaves. *)
From Coq Require Import Bool String Ascii Arith Lia List.
From Verif Require Import Files_Model Files_Spec.
Import ListNotations.
Open Scope list_scope.

(* ---- installation ---- *)

Lemma get_put n f d m : get m (put n f d) = if String.eqb m n then Some f else get m d.
Proof.
  induction d as [|(k & g) d IH]; cbn [put get].
  - reflexivity.
  - destruct (String.eqb_spec n k) as [<-|N]; cbn [get].
    + destruct (String.eqb m n); reflexivity.
    + destruct (String.eqb_spec m k) as [->|M]; [|exact IH]. destruct (String.eqb_spec k n) as [E|_]; [congruence|reflexivity].
Qed.

Lemma run_app a b d : run (a ++ b) d = run b (run a d).
Proof. unfold run. apply fold_left_app. Qed.

Lemma run_mkdir l : run (Mkdir :: l) None = run l (Some []).
Proof. reflexivity. Qed.

Lemma run_writes n l : (forall o, In o l -> exists f, o = Write n f) -> forall d, exists d', run l (Some d) = Some d'
  /\ forall m, m <> n -> get m d' = get m d.
Proof.
  induction l as [|o l IH]; intros H d; cbn; [eauto|].
  destruct (H o (or_introl eq_refl)) as (f & ->). cbn.
  destruct (IH (fun o I => H o (or_intror I)) (put n f d)) as (d' & R & G). exists d'. split; [exact R|].
  intros m M. rewrite (G m M), get_put. destruct (String.eqb_spec m n); [contradiction|reflexivity].
Qed.

Lemma copy2_run now chunks e d : exists d', run (copy2 now chunks e) (Some d) = Some d'
  /\ get (fst e) d' = Some (snd e) /\ forall m, m <> fst e -> get m d' = get m d.
Proof.
  unfold copy2. rewrite run_app.
  destruct (run_writes (fst e) (map (fun c => Write (fst e) (mk_file c now)) (""%string :: chunks (f_content (snd e))))) with (d := d)
    as (d1 & -> & G1).
  { intros o I. apply in_map_iff in I. destruct I as (c & <- & _). eauto. }
  cbn [run fold_left apply]. eexists. split; [reflexivity|]. split.
  - rewrite get_put, String.eqb_refl. reflexivity.
  - intros m M. rewrite !get_put. destruct (String.eqb_spec m (fst e)); [contradiction|]. apply G1, M.
Qed.

Lemma copies_run now chunks src : NoDup (map fst src) -> forall d, exists d',
  run (flat_map (copy2 now chunks) src) (Some d) = Some d'
  /\ (forall n f, In (n, f) src -> get n d' = Some f)
  /\ forall m, ~ In m (map fst src) -> get m d' = get m d.
Proof.
  induction src as [|e src IH]; intros N d; cbn [flat_map map] in *.
  - exists d. repeat split; auto. intros n f [].
  - inversion_clear N. rewrite run_app. destruct (copy2_run now chunks e d) as (d1 & -> & G & O).
    destruct (IH H0 d1) as (d' & R & A & B). exists d'. split; [exact R|]. split.
    + intros n f [->|I]; [rewrite (B n H); exact G|exact (A n f I)].
    + intros m M. cbn in M. rewrite (B m) by tauto. apply O. intros ->. tauto.
Qed.

Lemma copytree_complete now chunks src : NoDup (map fst src) -> exists d, run (copytree now chunks src) None = Some d
  /\ forall n f, In (n, f) src -> get n d = Some f.
Proof.
  intros N. unfold copytree. rewrite run_mkdir.
  destruct (copies_run now chunks src N []) as (d & R & G & _). exists d. auto.
Qed.

Lemma rmtree_run d : forall d0, run (rmtree d) (Some d0) = None.
Proof.
  unfold rmtree. intros d0. rewrite run_app.
  assert (H : forall l d0, exists d', run (map (fun e : string * file => Remove (fst e)) l) (Some d0) = Some d').
  { induction l as [|e l IH]; intros d1; cbn; [eauto|apply IH]. }
  destruct (H d d0) as (d' & ->). reflexivity.
Qed.

Lemma same_content f g : f_content f = f_content g -> same f g = true.
Proof. intros E. unfold same. rewrite E, Nat.eqb_refl, String.eqb_refl. cbn. destruct (Nat.eqb _ _); reflexivity. Qed.

Lemma install_fresh now chunks src : NoDup (map fst src) -> complete src (install now chunks src None).
Proof.
  intros N. destruct (copytree_complete now chunks src N) as (d & R & G). exists d. split; [exact R|].
  intros n f I. exists f. auto.
Qed.

Lemma install_mismatch now chunks src d : NoDup (map fst src) -> mismatch d src <> [] ->
  complete src (install now chunks src (Some d)).
Proof.
  intros N M. unfold install, install_ops. destruct (mismatch d src) as [|x l]; [congruence|].
  rewrite run_app, rmtree_run. exact (install_fresh now chunks src N).
Qed.

Lemma mismatch_nil d src : mismatch d src = [] <-> forall n f g, In (n, f) src -> get n d = Some g -> same g f = true.
Proof.
  unfold mismatch. split.
  - intros H n f g I G. apply map_eq_nil in H. destruct (same g f) eqn:S; [reflexivity|].
    assert (X : In (n, f) []); [rewrite <- H; apply filter_In; split; [exact I|]; cbn; rewrite G, S; reflexivity|destruct X].
  - intros H. destruct (filter _ src) as [|(n & f) l] eqn:E; [reflexivity|]. exfalso.
    assert (X : In (n, f) (filter (fun e => match get (fst e) d with None => false | Some f => negb (same f (snd e)) end) src))
      by (rewrite E; left; reflexivity).
    apply filter_In in X. destruct X as (I & X). cbn in X. destruct (get n d) as [g|] eqn:G; [|discriminate].
    rewrite (H n f g I G) in X. discriminate.
Qed.

Lemma honest_same src d n f g : honest src d -> In (n, f) src -> get n d = Some g -> same g f = true -> f_content g = f_content f.
Proof.
  intros H I G S. unfold same in S. destruct (Nat.eqb_spec (String.length (f_content g)) (String.length (f_content f))) as [E|E]; cbn in S.
  - destruct (Nat.eqb_spec (f_mtime g) (f_mtime f)) as [T|T]; cbn in S.
    + exact (H n f g I G E T).
    + apply String.eqb_eq in S. exact S.
  - discriminate.
Qed.

(* The installation is complete except if a file is missing and those present
   are current. *)
Lemma install_iff now chunks src d : NoDup (map fst src) -> honest src d ->
  (complete src (install now chunks src (Some d))
   <-> ~ ((exists n f, In (n, f) src /\ get n d = None)
          /\ forall n f g, In (n, f) src -> get n d = Some g -> f_content g = f_content f)).
Proof.
  intros N H. split.
  - intros (d' & E & C) ((n & f & I & G) & P).
    assert (M : mismatch d src = []) by (apply mismatch_nil; intros m g k J K; apply same_content; exact (P m g k J K)).
    unfold install, install_ops in E. rewrite M in E. cbn in E. injection E as <-.
    destruct (C n f I) as (g & G' & _). congruence.
  - intros X. destruct (mismatch d src) as [|x l] eqn:M.
    + unfold install, install_ops. rewrite M. cbn. exists d. split; [reflexivity|]. intros n f I.
      pose proof (proj1 (mismatch_nil d src) M) as S.
      destruct (get n d) as [g|] eqn:G.
      * exists g. split; [reflexivity|]. exact (honest_same src d n f g H I G (S n f g I G)).
      * exfalso. apply X. split; [eauto|]. intros m k g J K. exact (honest_same src d m k g H J K (S m k g J K)).
    + apply install_mismatch; [exact N|congruence].
Qed.

(* A folder with the current content of some of the files stays as it is. *)
Lemma install_stuck src d l : (forall n f g, In (n, f) src -> get n d = Some g -> f_content g = f_content f) ->
  install_again src l (Some d) = Some d.
Proof.
  intros P. induction l as [|(now & chunks) l IH]; cbn [install_again]; [reflexivity|].
  unfold install, install_ops. rewrite (proj2 (mismatch_nil d src)); [exact IH|].
  intros n f g I G. apply same_content. exact (P n f g I G).
Qed.

(* The copy is interrupted between two files. *)
Lemma interrupted_between now chunks s1 e s2 : NoDup (map fst (s1 ++ e :: s2)) ->
  exists k d, run (firstn k (install_ops now chunks (s1 ++ e :: s2) None)) None = Some d
  /\ forall l, ~ complete (s1 ++ e :: s2) (install_again (s1 ++ e :: s2) l (Some d)).
Proof.
  intros N. set (src := s1 ++ e :: s2) in *.
  assert (N1 : NoDup (map fst s1)).
  { unfold src in N. rewrite map_app in N. clear -N. induction s1 as [|x s1 IH]; cbn in *; [constructor|].
    inversion_clear N. constructor; [|auto]. intros X. apply H. apply in_or_app. auto. }
  assert (Ne : ~ In (fst e) (map fst s1)).
  { unfold src in N. rewrite map_app in N. cbn in N. apply NoDup_remove_2 in N. intros X. apply N. apply in_or_app. auto. }
  destruct (copies_run now chunks s1 N1 []) as (d & R & A & B).
  exists (S (length (flat_map (copy2 now chunks) s1))), d. split.
  - unfold install_ops, copytree, src. rewrite flat_map_app. cbn [firstn].
    rewrite firstn_app, Nat.sub_diag, firstn_all, firstn_O, app_nil_r.
    rewrite run_mkdir. exact R.
  - intros l (d' & E & C). rewrite install_stuck in E.
    + injection E as <-. destruct (C (fst e) (snd e)) as (g & G & _).
      * unfold src. apply in_or_app. right. left. destruct e; reflexivity.
      * rewrite (B (fst e) Ne) in G. discriminate.
    + intros n f g I G. destruct (in_dec string_dec n (map fst s1)) as [X|X].
      * apply in_map_iff in X. destruct X as ((n' & f') & En & X). cbn in En. subst n'. rewrite (A _ _ X) in G. injection G as <-.
        assert (f' = f); [|congruence]. unfold src in N, I.
        assert (I' : In (n, f') (s1 ++ e :: s2)) by (apply in_or_app; auto).
        clear -N I I'. revert N I I'. generalize (s1 ++ e :: s2). intros s. induction s as [|(m & h) s IH]; cbn; intros N I I'; [destruct I|].
        inversion_clear N. destruct I as [I|I], I' as [I'|I'].
        -- congruence.
        -- exfalso. injection I as -> ->. apply H. apply in_map_iff. exists (n, f'). auto.
        -- exfalso. injection I' as -> ->. apply H. apply in_map_iff. exists (n, f). auto.
        -- auto.
      * rewrite (B n X) in G. discriminate.
Qed.

(* ... and within a file: the next installation repairs it. *)
Lemma interrupted_within now chunks now' chunks' s1 e s2 c : NoDup (map fst (s1 ++ e :: s2)) ->
  String.length c < String.length (f_content (snd e)) ->
  forall d, run (Mkdir :: flat_map (copy2 now chunks) s1 ++ [Write (fst e) (mk_file c now)]) None = Some d ->
  complete (s1 ++ e :: s2) (install now' chunks' (s1 ++ e :: s2) (Some d)).
Proof.
  intros N L d R. apply install_mismatch; [exact N|]. intros M.
  rewrite mismatch_nil in M. rewrite run_mkdir in R. rewrite run_app in R.
  assert (N1 : NoDup (map fst s1)).
  { rewrite map_app in N. clear -N. induction s1 as [|x s1 IH]; cbn in *; [constructor|].
    inversion_clear N. constructor; [|auto]. intros X. apply H. apply in_or_app. auto. }
  destruct (copies_run now chunks s1 N1 []) as (d1 & R1 & _). unfold folder in *. rewrite R1 in R. cbn in R. injection R as <-.
  specialize (M (fst e) (snd e) (mk_file c now)). rewrite get_put, String.eqb_refl in M.
  assert (X : same (mk_file c now) (snd e) = true).
  { apply M; [|reflexivity]. apply in_or_app. right. left. destruct e; reflexivity. }
  unfold same in X. cbn [f_content] in X. destruct (Nat.eqb_spec (String.length c) (String.length (f_content (snd e)))); [lia|discriminate].
Qed.

(* ---- STC ---- *)

Lemma stc_iff now src s : (exists s', stc_install now src s = StcReady s') <->
  match s_build s with
  | None => True
  | Some t => if Nat.ltb t src then s_install s <> None else s_install s = Some true
  end.
Proof.
  destruct s as [[t|] inst]; unfold stc_install, stc_ops; cbn [s_build].
  - destruct (Nat.ltb t src); cbn.
    + destruct inst as [b|]; cbn; [split; [congruence|eauto]|]. split; [intros (s' & H); discriminate|congruence].
    + destruct inst as [[|]|]; cbn; split; try (intros (s' & H); discriminate); try discriminate; eauto.
  - cbn. split; eauto.
Qed.

(* ---- recompilation ---- *)

Lemma set_same {A} (f : nat -> A) i x : set f i x i = x.
Proof. unfold set. rewrite Nat.eqb_refl. reflexivity. Qed.
Lemma set_other {A} (f : nat -> A) i j x : j <> i -> set f i x j = f j.
Proof. unfold set. intros N. destruct (Nat.eqb_spec j i); [contradiction|reflexivity]. Qed.

(* Objects are current or older than their source. *)
Definition good (w : world) : Prop :=
  (forall i, f_mtime (source w i) <= now w)
  /\ (forall i b t, object w i = Some (b, t) -> b_source b = f_content (source w i) \/ t < f_mtime (source w i))
  /\ (forall i b, pending w i = Some b -> b_source b = f_content (source w i)).

Lemma step_good deps w e : good w ->
  (forall i text, e = Edit i text -> pending w i = None /\ forall b t, object w i = Some (b, t) -> t < now w) ->
  good (step deps w e).
Proof.
  intros (A & B & C) T. destruct e as [n|i text|i|i|i]; cbn [step].
  - split; [|split]; cbn; auto. intros i. specialize (A i). lia.
  - destruct (T i text eq_refl) as (P & O). split; [|split]; cbn.
    + intros j. unfold set. destruct (Nat.eqb_spec j i); cbn; [lia|apply A].
    + intros j b t H. unfold set. destruct (Nat.eqb_spec j i) as [->|N]; cbn; [right; exact (O b t H)|exact (B j b t H)].
    + intros j b H. unfold set. destruct (Nat.eqb_spec j i) as [->|N]; cbn; [congruence|exact (C j b H)].
  - destruct (outdated w i); [|repeat split; assumption]. split; [|split]; cbn; auto.
    intros j b H. unfold set in H. destruct (Nat.eqb_spec j i) as [->|N]; [injection H as <-; reflexivity|exact (C j b H)].
  - destruct (pending w i) as [b0|] eqn:P; [|repeat split; assumption]. split; [|split]; cbn; auto.
    + intros j b t H. unfold set in H. destruct (Nat.eqb_spec j i) as [->|N]; [injection H as <- <-; left; exact (C i b0 P)|exact (B j b t H)].
    + intros j b H. unfold set in H. destruct (Nat.eqb_spec j i) as [->|N]; [discriminate|exact (C j b H)].
  - split; [|split]; cbn; auto. intros j b t H. unfold set in H. destruct (Nat.eqb_spec j i) as [->|N]; [discriminate|exact (B j b t H)].
Qed.

Lemma play_good deps w h : good w -> well_timed deps w h -> good (play deps h w).
Proof.
  induction h as [|e h IH] using rev_ind; intros G W; [exact G|].
  unfold play. rewrite fold_left_app. cbn. apply step_good.
  - apply IH; [exact G|]. intros h1 i text h2 E. apply (W h1 i text (h2 ++ [e])). rewrite E, <- app_assoc. reflexivity.
  - intros i text ->. exact (W h i text [] eq_refl).
Qed.

Lemma clean_good w : clean_start w -> good w.
Proof.
  intros (A & B & C). split; [exact C|]. split; intros i b; [|rewrite B; discriminate].
  intros t. rewrite A. discriminate.
Qed.

Lemma recompile_source deps w h i : clean_start w -> well_timed deps w h ->
  source_current (play deps (h ++ [Begin i; End i]) w) i.
Proof.
  intros S W. pose proof (play_good deps w h (clean_good w S) W) as (A & B & C).
  unfold play. rewrite fold_left_app. fold (play deps h w). set (v := play deps h w) in *. cbn [fold_left step].
  destruct (outdated v i) eqn:O.
  - cbn [step pending]. rewrite set_same. eexists _, _. cbn. rewrite set_same. split; reflexivity.
  - unfold outdated in O. destruct (object v i) as [(b & t)|] eqn:E; [|discriminate]. apply Nat.ltb_ge in O.
    destruct (B i b t E) as [X|X]; [|lia]. unfold step.
    destruct (pending v i) as [b0|] eqn:P.
    + eexists _, _. cbn. rewrite set_same. split; [reflexivity|]. exact (C i b0 P).
    + exists b, t. auto.
Qed.

(* The dependencies are current too, if none was written since the object was absent. *)
Definition good_deps (deps : nat -> list nat) (i : nat) (w : world) : Prop :=
  (forall b t, object w i = Some (b, t) -> b_deps b = map (fun j => f_content (source w j)) (deps i))
  /\ (forall b, pending w i = Some b -> b_deps b = map (fun j => f_content (source w j)) (deps i)).

Lemma step_good_deps deps i w e : good_deps deps i w ->
  (forall j text, e = Edit j text -> ~ In j (deps i)) -> good_deps deps i (step deps w e).
Proof.
  intros (A & B) T. destruct e as [n|j text|j|j|j]; cbn [step].
  - split; cbn; auto.
  - assert (E : map (fun k => f_content (set (source w) j (mk_file text (now w)) k)) (deps i) = map (fun k => f_content (source w k)) (deps i)).
    { apply map_ext_in. intros k K. rewrite set_other; [reflexivity|]. intros ->. exact (T j text eq_refl K). }
    split; cbn; rewrite E; auto.
  - destruct (outdated w j); [|split; assumption]. split; cbn; auto. intros b H. unfold set in H.
    destruct (Nat.eqb_spec i j) as [->|N]; [injection H as <-; reflexivity|auto].
  - destruct (pending w j) as [b0|] eqn:P; [|split; assumption]. split; cbn.
    + intros b t H. unfold set in H. destruct (Nat.eqb_spec i j) as [->|N]; [injection H as <- <-; auto|eauto].
    + intros b H. unfold set in H. destruct (Nat.eqb_spec i j) as [->|N]; [discriminate|auto].
  - split; cbn; auto. intros b t H. unfold set in H. destruct (Nat.eqb_spec i j) as [->|N]; [discriminate|eauto].
Qed.

Lemma recompile_deps deps w h1 h2 i : clean_start w -> well_timed deps w (h1 ++ h2) ->
  object (play deps h1 w) i = None -> pending (play deps h1 w) i = None ->
  (forall j text, In (Edit j text) h2 -> ~ In j (deps i)) ->
  current deps (play deps (h1 ++ h2 ++ [Begin i; End i]) w) i.
Proof.
  intros S W O P T. destruct (recompile_source deps w (h1 ++ h2) i S W) as (b & t & E & F).
  rewrite <- app_assoc in E, F. exists b, t. split; [exact E|]. split; [exact F|].
  assert (G : good_deps deps i (play deps (h2 ++ [Begin i; End i]) (play deps h1 w))).
  { assert (T' : forall j text, In (Edit j text) (h2 ++ [Begin i; End i]) -> ~ In j (deps i)).
    { intros j text I. apply in_app_or in I. destruct I as [I|[I|[I|[]]]]; [exact (T j text I)|discriminate|discriminate]. }
    assert (G0 : good_deps deps i (play deps h1 w)) by (split; intros; congruence).
    revert G0 T'. generalize (play deps h1 w). generalize (h2 ++ [Begin i; End i]). clear.
    induction l as [|e l IH]; intros v G T; [exact G|]. cbn. apply IH.
    - apply step_good_deps; [exact G|]. intros j text ->. apply (T j text). left. reflexivity.
    - intros j text I. apply (T j text). right. exact I. }
  unfold play in *. rewrite fold_left_app in E |- *. exact (proj1 G b t E).
Qed.

(* ---- cleaning ---- *)

Lemma prefix_iff p : forall s, prefix p s = true <-> exists r, s = (p ++ r)%string.
Proof.
  induction p as [|a p IH]; intros s.
  - split; [exists s; reflexivity|]. intros _. destruct s; reflexivity.
  - destruct s as [|b s]; [split; [discriminate|intros (r & E); discriminate]|].
    cbn [prefix]. destruct (ascii_dec a b) as [<-|N].
    + rewrite IH. split; intros (r & E); exists r; [rewrite E; reflexivity|cbn in E; congruence].
    + split; [discriminate|]. intros (r & E). cbn in E. congruence.
Qed.

Lemma generated_iff f : generated_name f = true <-> pyccel_folder f.
Proof. unfold generated_name, pyccel_folder. rewrite orb_true_iff, !prefix_iff. reflexivity. Qed.

Lemma generated_false f : generated_name f = false <-> ~ pyccel_folder f.
Proof. rewrite <- generated_iff. destruct (generated_name f); split; congruence. Qed.

Lemma app_empty_r s : (s ++ "")%string = s.
Proof. induction s as [|a s IH]; cbn; [reflexivity|congruence]. Qed.

Lemma ends_iff suf : forall s, ends_with suf s = true <-> has_suffix suf s.
Proof.
  unfold has_suffix. induction s as [|a s IH]; cbn [ends_with].
  - rewrite orb_false_r, String.eqb_eq. split; [intros <-; exists ""%string; reflexivity|].
    intros (r & E). destruct r; [exact E|discriminate].
  - rewrite orb_true_iff, String.eqb_eq, IH. split.
    + intros [<-|(r & ->)]; [exists ""%string; reflexivity|exists (String a r); reflexivity].
    + intros (r & E). destruct r as [|b r]; [left; rewrite E; reflexivity|]. right. cbn in E. injection E as _ ->. eauto.
Qed.

Lemma removable_file o f x : generated_name f = false -> removable o f (NFile x) = true <-> artefact_file o f x.
Proof.
  intros G. unfold removable, artefact_file. rewrite !orb_true_iff, !andb_true_iff, !ends_iff. cbn [executable_node].
  apply generated_false in G. tauto.
Qed.

Lemma plain_ind' (P : node -> Prop) : (forall x, P (NFile x)) ->
  (forall x l, (forall f n, In (f, n) l -> plain n /\ P n) -> P (NDir x l)) -> forall n, plain n -> P n.
Proof.
  intros F D. fix IH 2. intros n H. destruct H as [x|x l H]; [apply F|]. apply D. intros f n I. split; [apply (H f n I)|].
  exact (IH n (H f n I)).
Qed.

(* The entries that are left, one by one. *)
Lemma clean_each_ok f l : (forall g m, In (g, m) l -> snd (f g m) = true) ->
  exists l', clean_each f l = (l', true)
  /\ forall g m', In (g, m') l' <-> exists m, In (g, m) l /\ fst (f g m) = Some m'.
Proof.
  induction l as [|(g & m) l IH]; intros H.
  - exists []. split; [reflexivity|]. intros h m'. split; [intros []|intros (m & [] & _)].
  - destruct IH as (l' & E & I); [intros; apply H; right; assumption|].
    cbn. change ((fix go l := match l with [] => ([], true) | (g, m) :: l' => _ end) l) with (clean_each f l). rewrite E.
    pose proof (H g m (or_introl eq_refl)) as K. destruct (f g m) as (r & b) eqn:F. cbn in K. subst b.
    eexists. split; [reflexivity|]. intros h m'. rewrite in_app_iff, I. split.
    + intros [X|(k & K & L)]; [|eauto]. destruct r as [m''|]; [|destruct X]. destruct X as [X|[]]. injection X as -> ->.
      exists m. rewrite F. auto.
    + intros (k & [X|X] & L); [|eauto]. injection X as -> ->. rewrite F in L. cbn in L. subst r. left. left. reflexivity.
Qed.

(* Recursive cleaning of files and folders. *)
Lemma at_dir l p n : at_path l p n -> p <> [].
Proof. destruct 1; discriminate. Qed.

Lemma at_single l f n : at_path l [f] n <-> In (f, n) l.
Proof.
  split; [|apply at_here]. intros H. inversion H; subst; [assumption| |]; exfalso; eapply at_dir; eauto.
Qed.

Lemma at_plain l f p n : (forall g m, In (g, m) l -> plain m) -> p <> [] ->
  at_path l (f :: p) n <-> exists x l', In (f, NDir x l') l /\ at_path l' p n.
Proof.
  intros P N. split.
  - intros H. inversion H; subst; [congruence|eauto|]. exfalso. specialize (P _ _ H3). inversion P.
  - intros (x & l' & I & A). eapply at_below; eassumption.
Qed.

(* What becomes of an entry. *)
Definition after (o : clean_options) (f : string) (n n' : node) : Prop :=
  match n, n' with
  | NFile x, NFile x' => x' = x /\ ~ artefact_file o f x
  | NDir x l, NDir x' l' => x' = x /\ ~ pyccel_folder f
      /\ (forall g m', In (g, m') l' <-> exists m, In (g, m) l /\ fst (clean_node o g m) = Some m')
  | _, _ => False
  end.

Lemma clean_node_rec o n : recursive o = true -> plain n -> forall f, snd (clean_node o f n) = true
  /\ (forall n', fst (clean_node o f n) = Some n' -> after o f n n' /\ plain n')
  /\ (fst (clean_node o f n) = None -> match n with NFile x => artefact_file o f x | _ => pyccel_folder f end).
Proof.
  intros R P. induction P as [x|x l IH] using plain_ind'; intros f; cbn [clean_node].
  - destruct (generated_name f) eqn:G.
    + cbn. split; [reflexivity|]. split; [|discriminate]. intros n' E. injection E as <-. split; [|constructor].
      split; [reflexivity|]. intros (A & _). apply A, generated_iff, G.
    + destruct (removable o f (NFile x)) eqn:V; cbn.
      * split; [reflexivity|]. split; [discriminate|]. intros _. apply (removable_file o f x G), V.
      * split; [reflexivity|]. split; [|discriminate]. intros n' E. injection E as <-. split; [|constructor].
        split; [reflexivity|]. rewrite <- (removable_file o f x G). congruence.
  - destruct (generated_name f) eqn:G.
    + cbn. split; [reflexivity|]. split; [discriminate|]. intros _. apply generated_iff, G.
    + rewrite R. destruct (clean_each_ok (fun g m => clean_node o g m) l) as (l' & E & I).
      { intros g m J. apply (IH g m J). }
      rewrite E. cbn. split; [reflexivity|]. split; [|discriminate]. intros n' H. injection H as <-. split.
      * split; [reflexivity|]. split; [apply generated_false, G|exact I].
      * constructor. intros g m' J. apply I in J. destruct J as (m & J & F). destruct (IH g m J) as (_ & Q). apply (Q g), F.
Qed.

Lemma clean_rec o l : recursive o = true -> (forall f n, In (f, n) l -> plain n) ->
  exists l', pyccel_clean o l = (l', true)
  /\ (forall f n, In (f, n) l' -> plain n)
  /\ forall g m', In (g, m') l' <-> exists m, In (g, m) l /\ fst (clean_node o g m) = Some m'.
Proof.
  intros R P. destruct (clean_each_ok (clean_node o) l) as (l' & E & I).
  { intros g m J. apply (clean_node_rec o m R (P g m J)). }
  exists l'. split; [exact E|]. split; [|exact I]. intros f n J. apply I in J. destruct J as (m & J & F).
  apply (clean_node_rec o m R (P f m J) f) in F. apply F.
Qed.

Lemma removelast_cons {A} (x : A) l : l <> [] -> removelast (x :: l) = x :: removelast l.
Proof. destruct l; [congruence|reflexivity]. Qed.

Lemma last_cons {A} (x : A) l d : l <> [] -> last (x :: l) d = last l d.
Proof. destruct l; [congruence|reflexivity]. Qed.

Lemma clean_files o p : recursive o = true -> forall l l', (forall f n, In (f, n) l -> plain n) ->
  (forall f n, In (f, n) l' -> plain n) ->
  (forall g m', In (g, m') l' <-> exists m, In (g, m) l /\ fst (clean_node o g m) = Some m') ->
  (forall x, has_file l' p x <-> has_file l p x /\ ~ in_pyccel_folder p /\ ~ artefact_file o (last p ""%string) x)
  /\ (has_dir l' p <-> has_dir l p /\ ~ in_pyccel_folder p /\ ~ pyccel_folder (last p ""%string)).
Proof.
  intros R. unfold in_pyccel_folder, has_file, has_dir. induction p as [|f p IH]; intros l l' P P' I.
  - split.
    + intros x. split; [intros H; exfalso; eapply at_dir; eauto|intros (H & _); exfalso; eapply at_dir; eauto].
    + split; [intros (x & k & H); exfalso; eapply at_dir; eauto|intros ((x & k & H) & _); exfalso; eapply at_dir; eauto].
  - destruct (list_eq_dec string_dec p []) as [->|N].
    + cbn [removelast last]. split.
      * intros x. rewrite !at_single, I. split.
        -- intros (m & J & F). destruct (clean_node_rec o m R (P f m J) f) as (_ & A & _). apply A in F. destruct F as (F & _).
           destruct m as [y|y k|k|]; cbn in F; try contradiction. destruct F as (-> & F). split; [exact J|]. split; [|exact F].
           intros (g & [] & _).
        -- intros (J & _ & A). exists (NFile x). split; [exact J|]. destruct (clean_node_rec o (NFile x) R (P f _ J) f) as (_ & B & C).
           destruct (fst (clean_node o f (NFile x))) as [n'|]; [|exfalso; auto]. destruct (B n' eq_refl) as (D & _).
           destruct n' as [y|y k|k|]; cbn in D; try contradiction. destruct D as (-> & _). reflexivity.
      * split.
        -- intros (x & k & H). rewrite at_single, I in H. destruct H as (m & J & F).
           destruct (clean_node_rec o m R (P f m J) f) as (_ & A & _). apply A in F. destruct F as (F & _).
           destruct m as [y|y k'|k'|]; cbn in F; try contradiction. destruct F as (-> & F & _).
           split; [exists y, k'; apply at_single, J|]. split; [intros (g & [] & _)|exact F].
        -- intros ((x & k & H) & _ & A). rewrite at_single in H.
           destruct (clean_node_rec o (NDir x k) R (P f _ H) f) as (_ & B & C).
           destruct (fst (clean_node o f (NDir x k))) as [n'|] eqn:F; [|exfalso; auto]. destruct (B n' eq_refl) as (D & _).
           destruct n' as [y|y k'|k'|]; cbn in D; try contradiction. exists y, k'. rewrite at_single, I. eauto.
    + rewrite (removelast_cons f p N), (last_cons f p _ N).
      assert (K : forall n, at_path l' (f :: p) n <-> exists x k k', In (f, NDir x k) l /\ ~ pyccel_folder f
        /\ (forall g m', In (g, m') k' <-> exists m, In (g, m) k /\ fst (clean_node o g m) = Some m')
        /\ (forall g m, In (g, m) k -> plain m) /\ (forall g m, In (g, m) k' -> plain m) /\ at_path k' p n).
      { intros n. rewrite (at_plain l' f p n P' N). split.
        - intros (x & k' & J & A). pose proof (P' _ _ J) as Pk. apply I in J. destruct J as (m & J & F).
          destruct (clean_node_rec o m R (P f m J) f) as (_ & B & _). apply B in F. destruct F as (F & _).
          destruct m as [y|y k|k|]; cbn in F; try contradiction. destruct F as (-> & F & Q). exists y, k, k'.
          split; [exact J|]. split; [exact F|]. split; [exact Q|].
          split; [pose proof (P _ _ J) as Pm; inversion Pm; assumption|]. split; [inversion Pk; assumption|exact A].
        - intros (x & k & k' & J & F & Q & Pk & Pk' & A). destruct (clean_node_rec o (NDir x k) R (P f _ J) f) as (_ & B & C).
          destruct (fst (clean_node o f (NDir x k))) as [n'|] eqn:E; [|exfalso; auto]. destruct (B n' eq_refl) as (D & Pn).
          destruct n' as [y|y k''|k''|]; cbn in D; try contradiction. destruct D as (-> & _ & Q'').
          exists x, k''. split; [apply I; eauto|].
          assert (S : forall g m, In (g, m) k' -> In (g, m) k'') by (intros g m X; apply Q'', Q, X).
          clear -A S. destruct A as [l0 g n0 X|l0 g y l1 q n0 X A|l0 g l1 q n0 X A]; [apply at_here|eapply at_below|eapply at_link]; eauto. }
      assert (G : (exists g, In g (f :: removelast p) /\ pyccel_folder g) <-> pyccel_folder f \/ exists g, In g (removelast p) /\ pyccel_folder g).
      { split; [intros (g & [<-|X] & Y); eauto|]. intros [X|(g & X & Y)]; [exists f|exists g]; cbn; auto. }
      split.
      * intros x. rewrite K, G. split.
        -- intros (y & k & k' & J & F & Q & Pk & Pk' & A). destruct (IH k k' Pk Pk' Q) as (H & _). apply H in A.
           destruct A as (A & B & C). split; [eapply at_below; eassumption|]. tauto.
        -- intros (A & B & C). apply (at_plain l f p _ P N) in A. destruct A as (y & k & J & A).
           assert (Pk : forall g m, In (g, m) k -> plain m) by (pose proof (P _ _ J) as Pm; inversion Pm; assumption).
           destruct (clean_rec o k R Pk) as (k' & _ & Pk' & Q). exists y, k, k'. split; [exact J|]. split; [tauto|].
           split; [exact Q|]. split; [exact Pk|]. split; [exact Pk'|]. apply (IH k k' Pk Pk' Q). tauto.
      * split.
        -- intros (x & k0 & A). apply K in A. destruct A as (y & k & k' & J & F & Q & Pk & Pk' & A).
           destruct (IH k k' Pk Pk' Q) as (_ & H). destruct (proj1 H (ex_intro _ x (ex_intro _ k0 A))) as ((x1 & k1 & B) & C & D).
           split; [exists x1, k1; eapply at_below; eassumption|]. rewrite G. tauto.
        -- intros ((x & k0 & A) & B & C). rewrite G in B. apply (at_plain l f p _ P N) in A. destruct A as (y & k & J & A).
           assert (Pk : forall g m, In (g, m) k -> plain m) by (pose proof (P _ _ J) as Pm; inversion Pm; assumption).
           destruct (clean_rec o k R Pk) as (k' & _ & Pk' & Q). destruct (IH k k' Pk Pk' Q) as (_ & H).
           destruct (proj2 H) as (x1 & k1 & D); [split; [eauto|tauto]|]. exists x1, k1. apply K.
           exists y, k, k'. split; [exact J|]. split; [tauto|]. auto.
Qed.

Lemma clean_recursive o l : recursive o = true -> (forall f n, In (f, n) l -> plain n) ->
  exists l', pyccel_clean o l = (l', true)
  /\ (forall p x, has_file l' p x <-> has_file l p x /\ ~ in_pyccel_folder p /\ ~ artefact_file o (last p ""%string) x)
  /\ (forall p, has_dir l' p <-> has_dir l p /\ ~ in_pyccel_folder p /\ ~ pyccel_folder (last p ""%string)).
Proof.
  intros R P. destruct (clean_rec o l R P) as (l' & E & P' & I). exists l'. split; [exact E|].
  split; intros p; apply (clean_files o p R l l' P P' I).
Qed.

(* Whatever the folder contains, and if an exception is raised too. *)
Lemma clean_each_cons f h k l : clean_each f ((h, k) :: l) =
  match f h k with
  | (r, false) => (match r with Some m' => [(h, m')] | None => [] end ++ l, false)
  | (r, true) => (match r with Some m' => [(h, m')] | None => [] end ++ fst (clean_each f l), snd (clean_each f l))
  end.
Proof. cbn. destruct (f h k) as (r & [|]); [|reflexivity]. fold (clean_each f l). destruct (clean_each f l); reflexivity. Qed.

Lemma clean_each_keep f l g m : In (g, m) l ->
  In (g, m) (fst (clean_each f l)) \/ fst (f g m) = None \/ exists m', fst (f g m) = Some m' /\ In (g, m') (fst (clean_each f l)).
Proof.
  induction l as [|(h & k) l IH]; cbn [In]; intros I; [destruct I|].
  rewrite clean_each_cons. destruct (f h k) as (r & [|]) eqn:F.
  - cbn [fst]. destruct I as [I|I].
    + injection I as -> ->. rewrite F. cbn [fst]. destruct r as [m'|]; [|auto]. right. right. exists m'. split; [reflexivity|].
      left. reflexivity.
    + destruct (IH I) as [X|[X|(m' & X & Y)]]; [|auto|].
      * left. apply in_or_app. auto.
      * right. right. exists m'. split; [exact X|]. apply in_or_app. auto.
  - cbn. destruct I as [I|I].
    + injection I as -> ->. rewrite F. cbn. destruct r as [m'|]; [|auto]. right. right. exists m'. split; [reflexivity|].
      left. reflexivity.
    + left. apply in_or_app. auto.
Qed.

Lemma clean_each_sub f l g m' : In (g, m') (fst (clean_each f l)) ->
  In (g, m') l \/ exists m, In (g, m) l /\ fst (f g m) = Some m'.
Proof.
  induction l as [|(h & k) l IH]; intros I; [destruct I|].
  rewrite clean_each_cons in I. destruct (f h k) as (r & [|]) eqn:F.
  - cbn [fst] in I. apply in_app_or in I. destruct I as [I|I].
    + destruct r as [m|]; [|destruct I]. destruct I as [I|[]]. injection I as -> ->. right. exists k. rewrite F. cbn. auto.
    + destruct (IH I) as [X|(m & X & Y)]; [left; right; exact X|]. right. exists m. cbn. auto.
  - cbn in I. apply in_app_or in I. destruct I as [I|I]; [|left; right; exact I].
    destruct r as [m|]; [|destruct I]. destruct I as [I|[]]. injection I as -> ->. right. exists k. rewrite F. cbn. auto.
Qed.

Lemma clean_safe o : recursive o = true -> forall p l x, has_file l p x -> ~ in_pyccel_folder p ->
  ~ artefact_file o (last p ""%string) x -> has_file (fst (pyccel_clean o l)) p x.
Proof.
  intros R p. unfold has_file, in_pyccel_folder. induction p as [|f p IH]; intros l x H N A.
  - exfalso. eapply at_dir; eauto.
  - destruct (list_eq_dec string_dec p []) as [->|NE].
    + apply at_single in H. apply at_single. cbn in A.
      destruct (clean_each_keep (clean_node o) l f _ H) as [X|[X|(m' & X & Y)]]; [exact X| |].
      * exfalso. cbn [clean_node] in X. destruct (generated_name f) eqn:G; [discriminate|].
        destruct (removable o f (NFile x)) eqn:V; [|discriminate]. apply A, (removable_file o f x G), V.
      * cbn [clean_node] in X. destruct (generated_name f) eqn:G; [injection X as <-; exact Y|].
        destruct (removable o f (NFile x)) eqn:V; [discriminate|]. injection X as <-. exact Y.
    + rewrite (removelast_cons f p NE) in N. rewrite (last_cons f p _ NE) in A.
      assert (Gf : generated_name f = false).
      { apply generated_false. intros G. apply N. exists f. split; [left; reflexivity|exact G]. }
      assert (N' : ~ exists g, In g (removelast p) /\ pyccel_folder g).
      { intros (g & X & Y). apply N. exists g. split; [right; exact X|exact Y]. }
      inversion H as [l0 f0 n0 I E1 E2|l0 f0 y k q n0 I B E1 E2|l0 f0 k q n0 I B]; subst; [congruence| |].
      * destruct (clean_each_keep (clean_node o) l f _ I) as [X|[X|(m' & X & Y)]].
        -- eapply at_below; eassumption.
        -- exfalso. cbn [clean_node] in X. rewrite Gf, R in X. destruct (clean_each _ k); discriminate.
        -- cbn [clean_node] in X. rewrite Gf, R in X. specialize (IH k x B N' A). unfold pyccel_clean in IH.
           change (clean_each (fun g m => clean_node o g m) k) with (clean_each (clean_node o) k) in X.
           destruct (clean_each (clean_node o) k) as (k' & ok) eqn:E. cbn in X, IH. injection X as <-.
           eapply at_below; [exact Y|exact IH].
      * destruct (clean_each_keep (clean_node o) l f _ I) as [X|[X|(m' & X & Y)]].
        -- eapply at_link; eassumption.
        -- exfalso. cbn [clean_node] in X. rewrite Gf, R in X. destruct (clean_each _ k); discriminate.
        -- cbn [clean_node] in X. rewrite Gf, R in X. specialize (IH k x B N' A). unfold pyccel_clean in IH.
           change (clean_each (fun g m => clean_node o g m) k) with (clean_each (clean_node o) k) in X.
           destruct (clean_each (clean_node o) k) as (k' & ok) eqn:E. cbn in X, IH. injection X as <-.
           eapply at_link; [exact Y|exact IH].
Qed.

Lemma clean_node_some o f n n' : fst (clean_node o f n) = Some n' ->
  n' = n \/ (exists y k, n = NDir y k /\ n' = NDir y (fst (clean_each (clean_node o) k)))
  \/ exists k, n = NLink k /\ n' = NLink (fst (clean_each (clean_node o) k)).
Proof.
  destruct n as [y|y k|k|]; cbn [clean_node]; destruct (generated_name f); cbn; try discriminate;
    try (intros E; injection E as <-; auto; fail).
  - destruct (removable _ _ _); cbn; intros E; [discriminate|injection E as <-; auto].
  - destruct (recursive o).
    + change (clean_each (fun g m => clean_node o g m) k) with (clean_each (clean_node o) k).
      destruct (clean_each (clean_node o) k) as (k' & ok) eqn:E. cbn. intros X. injection X as <-. right. left.
      exists y, k. rewrite E. auto.
    + destruct (removable _ _ _); cbn; intros E; injection E as <-; auto.
  - destruct (recursive o).
    + change (clean_each (fun g m => clean_node o g m) k) with (clean_each (clean_node o) k).
      destruct (clean_each (clean_node o) k) as (k' & ok) eqn:E. cbn. intros X. injection X as <-. right. right.
      exists k. rewrite E. auto.
    + destruct (removable _ _ _); cbn; intros E; [discriminate|injection E as <-; auto].
  - destruct (recursive o); cbn; [intros E; injection E as <-; auto|].
    destruct (removable _ _ _); cbn; intros E; [discriminate|injection E as <-; auto].
Qed.

Lemma clean_no_new o : forall p l x, has_file (fst (pyccel_clean o l)) p x -> has_file l p x.
Proof.
  intros p. unfold has_file. induction p as [|f p IH]; intros l x H; [exfalso; eapply at_dir; eauto|].
  inversion H as [l0 f0 n0 I E1 E2|l0 f0 y k q n0 I B E1 E2|l0 f0 k q n0 I B]; subst.
  - apply at_here. apply clean_each_sub in I. destruct I as [I|(m & I & F)]; [exact I|].
    apply clean_node_some in F. destruct F as [<-|[(y & k & -> & F)|(k & -> & F)]]; [exact I|discriminate|discriminate].
  - apply clean_each_sub in I. destruct I as [I|(m & I & F)]; [eapply at_below; eassumption|].
    apply clean_node_some in F. destruct F as [<-|[(y' & k' & -> & F)|(k' & -> & F)]]; [eapply at_below; eassumption| |discriminate].
    injection F as E1 E2. subst. eapply at_below; [exact I|]. apply IH. exact B.
  - apply clean_each_sub in I. destruct I as [I|(m & I & F)]; [eapply at_link; eassumption|].
    apply clean_node_some in F. destruct F as [<-|[(y' & k' & -> & F)|(k' & -> & F)]]; [eapply at_link; eassumption|discriminate|].
    injection F as E1. subst. eapply at_link; [exact I|]. apply IH. exact B.
Qed.

(* Without --recursive: the entries of the folder itself. *)
Lemma clean_flat o l : recursive o = false -> (forall f n, In (f, n) l -> plain n) ->
  (forall f x k, In (f, NDir x k) l -> ~ has_suffix ".pyccel" f
    /\ (remove_shared_libs o = true -> ~ has_suffix (ext_suffix o) f) /\ (remove_programs o = true -> x = false)) ->
  exists l', pyccel_clean o l = (l', true)
  /\ forall f n, In (f, n) l' <-> In (f, n) l /\ match n with NFile x => ~ artefact_file o f x | _ => ~ pyccel_folder f end.
Proof.
  intros R P D.
  assert (K : forall f n, In (f, n) l -> snd (clean_node o f n) = true
    /\ ((fst (clean_node o f n) = Some n /\ match n with NFile x => ~ artefact_file o f x | _ => ~ pyccel_folder f end)
        \/ (fst (clean_node o f n) = None /\ ~ match n with NFile x => ~ artefact_file o f x | _ => ~ pyccel_folder f end))).
  { intros f n I. pose proof (P f n I) as Q. destruct n as [x|x k|k|]; try (inversion Q; fail); cbn [clean_node].
    - destruct (generated_name f) eqn:G; cbn.
      + split; [reflexivity|]. left. split; [reflexivity|]. intros (A & _). apply A, generated_iff, G.
      + pose proof (removable_file o f x G) as V. destruct (removable o f (NFile x)); cbn; (split; [reflexivity|]).
        * right. split; [reflexivity|]. tauto.
        * left. split; [reflexivity|]. intros A. apply V in A. discriminate.
    - destruct (generated_name f) eqn:G; cbn.
      + split; [reflexivity|]. right. split; [reflexivity|]. apply generated_iff in G. tauto.
      + rewrite R. assert (V : removable o f (NDir x k) = false).
        { destruct (D f x k I) as (A & B & C). unfold removable. apply not_true_iff_false. rewrite !orb_true_iff, !andb_true_iff, !ends_iff.
          cbn [executable_node]. intros [[X|(X & Y)]|(X & Y)]; [tauto|exact (B X Y)|specialize (C X); congruence]. }
        rewrite V. cbn. split; [reflexivity|]. left. split; [reflexivity|]. apply generated_false, G. }
  destruct (clean_each_ok (clean_node o) l) as (l' & E & I); [intros g m J; apply (K g m J)|].
  exists l'. split; [exact E|]. intros f n. rewrite I. split.
  - intros (m & J & F). destruct (K f m J) as (_ & [(X & Y)|(X & _)]); [|congruence].
    assert (m = n) by congruence. subst m. auto.
  - intros (J & F). exists n. split; [exact J|]. destruct (K f n J) as (_ & [(X & _)|(_ & X)]); [exact X|contradiction].
Qed.

(* CWrapper *)
Lemma cwrapper_version now chunks src version dest : NoDup (map fst src) ->
  exists d, install_cwrapper now chunks src version dest = Some d
  /\ exists g, get "numpy_version.h" d = Some g /\ f_content g = version.
Proof.
  intros N. unfold install_cwrapper.
  assert (X : exists d, install now chunks src dest = Some d).
  { unfold install, install_ops. destruct dest as [d|].
    - destruct (mismatch d src); [exists d; reflexivity|]. rewrite run_app, rmtree_run.
      destruct (copytree_complete now chunks src N) as (d' & R & _). eauto.
    - destruct (copytree_complete now chunks src N) as (d' & R & _). eauto. }
  destruct X as (d & ->). cbn. eexists. split; [reflexivity|]. rewrite get_put, String.eqb_refl. eauto.
Qed.

Lemma timed_nil deps w : well_timed deps w [].
Proof. intros h1 i text h2 E. destruct h1; discriminate. Qed.

Lemma timed_cons deps w e h :
  (forall i text, e = Edit i text -> pending w i = None /\ forall b t, object w i = Some (b, t) -> t < now w) ->
  well_timed deps (step deps w e) h -> well_timed deps w (e :: h).
Proof.
  intros H W h1 i text h2 E. destruct h1 as [|e1 h1]; cbn in E.
  - injection E as -> ->. exact (H i text eq_refl).
  - injection E as <- ->. exact (W h1 i text h2 eq_refl).
Qed.
