(* Proofs about the register of messages, the pipelines and the commands. *)
From Coq Require Import Bool String Ascii Arith ZArith Lia List.
From Verif Require Import Pipe_Model Pipe_Spec.
Import ListNotations.
Open Scope string_scope.
Open Scope list_scope.

(* ------------------------------------------------------------------------- *)
(* The register                                                                *)
(* ------------------------------------------------------------------------- *)

Fixpoint assoc (f : string) (m : list (string * list info)) : list info :=
  match m with
  | [] => []
  | (g, l) :: m' => if String.eqb f g then l else assoc f m'
  end.

Lemma assoc_add f g i m :
  assoc f (add_info g i m) = if String.eqb f g then assoc f m ++ [i] else assoc f m.
Proof.
  induction m as [|[h l] m IH]; cbn.
  - destruct (String.eqb f g); reflexivity.
  - destruct (String.eqb_spec g h); cbn.
    + subst h. destruct (String.eqb f g); reflexivity.
    + destruct (String.eqb_spec f h).
      * subst h. destruct (String.eqb_spec f g); [subst; contradiction|reflexivity].
      * exact IH.
Qed.

Lemma assoc_split f m i : In i (assoc f m) -> exists m1 m2, m = m1 ++ (f, assoc f m) :: m2.
Proof.
  induction m as [|[g l] m IH]; cbn; [tauto|].
  destruct (String.eqb_spec f g).
  - subst. intros _. exists [], m. reflexivity.
  - intros H. destruct (IH H) as (m1 & m2 & E). exists ((g, l) :: m1), m2. cbn. congruence.
Qed.

Lemma in_add i f j m :
  In i (concat (map snd (add_info f j m))) <-> i = j \/ In i (concat (map snd m)).
Proof.
  induction m as [|[g l] m IH]; cbn.
  - intuition.
  - destruct (String.eqb f g); cbn.
    + rewrite !in_app_iff. cbn. intuition.
    + rewrite !in_app_iff, IH. intuition.
Qed.

Lemma existsb_all P (m : list (string * list info)) :
  existsb (fun p => existsb P (snd p)) m = true <-> exists i, In i (concat (map snd m)) /\ P i = true.
Proof.
  induction m as [|[g l] m IH]; cbn.
  - split; [discriminate|intros (i & [] & _)].
  - rewrite orb_true_iff, IH, existsb_exists. setoid_rewrite in_app_iff.
    split; [intros [(i & H & E)|(i & H & E)]; eauto|intros (i & [H|H] & E); eauto].
Qed.

Lemma do_ops_snoc w l o : do_ops w (l ++ [o]) = do_op (do_ops w l) o.
Proof. unfold do_ops. rewrite fold_left_app. reflexivity. Qed.

Lemma after_snoc {A} (f : A -> op -> A) a l o : fold_left f (l ++ [o]) a = f (fold_left f l a) o.
Proof. rewrite fold_left_app. reflexivity. Qed.

Lemma report_world r w :
  w_mode (fst (report r w)) = w_mode w /\ w_stage (fst (report r w)) = w_stage w
  /\ e_target (w_errs (fst (report r w))) = e_target (w_errs w).
Proof. unfold report. destruct (ignored _ _); cbn; auto. Qed.

Lemma state_after l :
  let w := do_ops start_world l in
  w_mode w = mode_after l /\ w_stage w = stage_after l /\ e_target (w_errs w) = target_after l.
Proof.
  induction l as [|o l IH] using rev_ind; [cbn; auto|].
  rewrite do_ops_snoc. unfold mode_after, stage_after, target_after in *. rewrite !after_snoc.
  destruct IH as (A & B & C). destruct o; cbn; auto.
  destruct (report_world r (do_ops start_world l)) as (E & F & G).
  rewrite E, F, G. auto.
Qed.

Lemma reported_snoc l o pre r :
  reported (l ++ [o]) pre r <->
  (o = OReport r /\ pre = l) \/ (o <> OReset /\ reported l pre r).
Proof.
  split.
  - intros (post & E & N). destruct post as [|x post _] using rev_ind.
    + apply app_inj_tail in E. destruct E; subst. auto.
    + replace (pre ++ OReport r :: post ++ [x]) with ((pre ++ OReport r :: post) ++ [x]) in E
        by (rewrite <- app_assoc; reflexivity).
      apply app_inj_tail in E. destruct E; subst. right. rewrite in_app_iff in N. cbn in N.
      split; [intuition|]. exists post. intuition.
  - intros [[-> ->]|[N (post & -> & M)]].
    + exists []. auto.
    + exists (post ++ [o]). rewrite <- app_assoc. split; [reflexivity|].
      rewrite in_app_iff. cbn. intuition.
Qed.

Lemma ignored_spec m s : ignored m s = false <-> for_the_user m s.
Proof. unfold ignored, for_the_user. destruct m, s; cbn; intuition (try discriminate; try congruence). Qed.

(* What is registered after a history. *)
Lemma infos_after l i :
  In i (all_infos (do_ops start_world l)) <->
  exists pre r, reported l pre r /\ for_the_user (mode_after pre) (r_severity r)
                /\ i = info_of (do_ops start_world pre) r.
Proof.
  induction l as [|o l IH] using rev_ind.
  - cbn. split; [tauto|]. intros (pre & r & (post & E & _) & _). destruct pre; discriminate.
  - rewrite do_ops_snoc. setoid_rewrite reported_snoc.
    assert (K : o <> OReset -> (forall r, o <> OReport r) ->
                all_infos (do_op (do_ops start_world l) o) = all_infos (do_ops start_world l)).
    { intros A B. destruct o; cbn; try reflexivity; [congruence|exfalso; eapply B; reflexivity]. }
    destruct o.
    + cbn. split; [tauto|]. intros (pre & r & [[E _]|[E _]] & _); [discriminate|congruence].
    + rewrite K by (intros; discriminate). rewrite IH.
      split; intros (pre & r & H); exists pre, r; [|destruct H as ([[E _]|[_ H]] & H'); [discriminate|auto]].
      destruct H. split; [right; split; [discriminate|assumption]|assumption].
    + rewrite K by (intros; discriminate). rewrite IH.
      split; intros (pre & r & H); exists pre, r; [|destruct H as ([[E _]|[_ H]] & H'); [discriminate|auto]].
      destruct H. split; [right; split; [discriminate|assumption]|assumption].
    + rewrite K by (intros; discriminate). rewrite IH.
      split; intros (pre & r & H); exists pre, r; [|destruct H as ([[E _]|[_ H]] & H'); [discriminate|auto]].
      destruct H. split; [right; split; [discriminate|assumption]|assumption].
    + rewrite K by (intros; discriminate). rewrite IH.
      split; intros (pre & r & H); exists pre, r; [|destruct H as ([[E _]|[_ H]] & H'); [discriminate|auto]].
      destruct H. split; [right; split; [discriminate|assumption]|assumption].
    + clear K. cbn [do_op]. unfold report.
      destruct (state_after l) as (SM & _).
      destruct (ignored (w_mode (do_ops start_world l)) (r_severity r)) eqn:G; cbn [fst].
      * rewrite IH. split.
        -- intros (pre & q & H & H'). exists pre, q. split; [right; split; [discriminate|assumption]|assumption].
        -- intros (pre & q & [[E ->]|[_ H]] & F & H'); [|eauto].
           injection E as <-. apply ignored_spec in F. rewrite SM in G. congruence.
      * unfold all_infos at 1. cbn [w_errs e_map]. rewrite in_add. fold (all_infos (do_ops start_world l)).
        rewrite IH. split.
        -- intros [->|(pre & q & H & H')].
           ++ exists l, r. split; [auto|]. split; [|reflexivity]. apply ignored_spec. rewrite <- SM. exact G.
           ++ exists pre, q. split; [right; split; [discriminate|assumption]|assumption].
        -- intros (pre & q & [[E ->]|[_ H]] & F & H').
           ++ injection E as <-. left. exact H'.
           ++ right. eauto.
Qed.

Lemma has_errors_spec w :
  has_errors w = true <-> exists i, In i (all_infos w) /\ i_severity i <> Swarning.
Proof.
  unfold has_errors. rewrite existsb_all. unfold all_infos.
  split; intros (i & H & E); exists i; (split; [exact H|]); destruct (i_severity i); cbn in *; congruence.
Qed.

Lemma has_errors_history l :
  has_errors (do_ops start_world l) = true <->
  exists pre r, reported l pre r /\ error_for (mode_after pre) (r_severity r).
Proof.
  rewrite has_errors_spec. setoid_rewrite infos_after. split.
  - intros (i & (pre & r & H & F & ->) & W). exists pre, r. split; [exact H|].
    unfold error_for, for_the_user in *. cbn in W. destruct (r_severity r), (mode_after pre); intuition congruence.
  - intros (pre & r & H & F). exists (info_of (do_ops start_world pre) r). split.
    + exists pre, r. split; [exact H|]. split; [|reflexivity].
      unfold error_for, for_the_user in *. destruct (r_severity r); intuition congruence.
    + cbn. unfold error_for in F. destruct (r_severity r); intuition congruence.
Qed.

Lemma has_warnings_history l :
  has_warnings (do_ops start_world l) = true <->
  exists pre r, reported l pre r /\ r_severity r = Swarning.
Proof.
  unfold has_warnings. rewrite existsb_all. fold (all_infos (do_ops start_world l)).
  setoid_rewrite infos_after. split.
  - intros (i & (pre & r & H & F & ->) & W). exists pre, r. split; [exact H|]. cbn in W. destruct (r_severity r); cbn in W; congruence.
  - intros (pre & r & H & F). exists (info_of (do_ops start_world pre) r). split.
    + exists pre, r. split; [exact H|]. split; [|reflexivity]. right. congruence.
    + cbn. rewrite F. reflexivity.
Qed.

Lemma belongs_info l r : belongs_to l r (i_filename (info_of (do_ops start_world l) r)).
Proof.
  unfold belongs_to. cbn. unfold file_of. destruct (state_after l) as (_ & _ & ->).
  destruct (r_filename r); [reflexivity|]. destruct (target_after l); reflexivity.
Qed.

Lemma belongs_eq l r f : belongs_to l r f -> f = i_filename (info_of (do_ops start_world l) r).
Proof.
  unfold belongs_to. cbn. unfold file_of. destruct (state_after l) as (_ & _ & ->).
  destruct (r_filename r); [auto|]. destruct (target_after l); auto.
Qed.

(* Text. *)
Lemma app_assoc_s (a b c : string) : ((a ++ b) ++ c = a ++ b ++ c)%string.
Proof. induction a; cbn; congruence. Qed.
Lemma app_nil_s (a : string) : (a ++ "" = a)%string.
Proof. induction a; cbn; congruence. Qed.

Lemma cat_app l l' : cat (l ++ l') = (cat l ++ cat l')%string.
Proof. induction l; cbn; [reflexivity|]. fold (cat (l ++ l')). rewrite IHl. fold (cat l). rewrite app_assoc_s. reflexivity. Qed.

Lemma part_of_app_l s a b : part_of s a -> part_of s (a ++ b)%string.
Proof. intros (x & y & ->). exists x, (y ++ b)%string. rewrite !app_assoc_s. reflexivity. Qed.
Lemma part_of_app_r s a b : part_of s b -> part_of s (a ++ b)%string.
Proof. intros (x & y & ->). exists (a ++ x)%string, y. rewrite !app_assoc_s. reflexivity. Qed.
Lemma part_of_refl s : part_of s s.
Proof. exists "", "". cbn. rewrite app_nil_s. reflexivity. Qed.
Lemma part_of_cat s x l : In x l -> part_of s x -> part_of s (cat l).
Proof.
  induction l as [|y l IH]; cbn; [tauto|]. intros [->|H] P.
  - apply part_of_app_l. exact P.
  - apply part_of_app_r. apply IH; assumption.
Qed.
Lemma part_of_trans a b c : part_of a b -> part_of b c -> part_of a c.
Proof. intros (x & y & ->) (u & v & ->). exists (u ++ x)%string, (y ++ v)%string. rewrite !app_assoc_s. reflexivity. Qed.

Lemma before_app_l s1 s2 a b : printed_before s1 s2 a -> printed_before s1 s2 (a ++ b)%string.
Proof. intros (x & y & z & ->). exists x, y, (z ++ b)%string. rewrite !app_assoc_s. reflexivity. Qed.
Lemma before_app_r s1 s2 a b : printed_before s1 s2 b -> printed_before s1 s2 (a ++ b)%string.
Proof. intros (x & y & z & ->). exists (a ++ x)%string, y, z. rewrite !app_assoc_s. reflexivity. Qed.

Lemma info_printed w i : In i (all_infos w) -> part_of (info_text i) (errors_text w).
Proof.
  unfold all_infos, errors_text. intros H. apply in_concat in H. destruct H as (ls & H & K).
  apply in_map_iff in H. destruct H as (p & <- & H).
  apply part_of_app_r, part_of_app_r.
  eapply part_of_cat; [apply in_map; exact H|].
  unfold file_text. apply part_of_app_r.
  eapply part_of_cat; [exact (in_map (fun i => " " ++ info_text i ++ nl)%string _ _ K)|].
  cbn beta. apply part_of_app_r, part_of_app_l, part_of_refl.
Qed.

Lemma message_in_info i : part_of (i_message i) (info_text i).
Proof. unfold info_text. do 9 apply part_of_app_r. apply part_of_app_l, part_of_refl. Qed.

Lemma printed_history l pre r :
  reported l pre r -> for_the_user (mode_after pre) (r_severity r) ->
  exists i, i_message i = r_message r /\ i_severity i = r_severity r /\ i_line i = r_line r /\ i_column i = r_column r
            /\ i_symbol i = r_symbol r /\ i_stage i = stage_after pre /\ belongs_to pre r (i_filename i)
            /\ part_of (info_text i) (errors_text (do_ops start_world l))
            /\ part_of (r_message r) (errors_text (do_ops start_world l)).
Proof.
  intros H F. exists (info_of (do_ops start_world pre) r).
  assert (K : In (info_of (do_ops start_world pre) r) (all_infos (do_ops start_world l))).
  { apply infos_after. eauto. }
  destruct (state_after pre) as (_ & SS & _).
  split; [reflexivity|]. split; [reflexivity|]. split; [reflexivity|]. split; [reflexivity|].
  split; [reflexivity|]. split; [exact SS|]. split; [apply belongs_info|].
  apply info_printed in K. split; [exact K|].
  eapply part_of_trans; [|exact K].
  exact (message_in_info (info_of (do_ops start_world pre) r)).
Qed.

(* Order within a file. *)
Definition ordered (f : string) (i j : info) (w : world) : Prop :=
  exists a b c, assoc f (e_map (w_errs w)) = a ++ i :: b ++ j :: c.

Lemma in_file_after f pre r post :
  ~ In OReset post -> for_the_user (mode_after pre) (r_severity r) -> belongs_to pre r f ->
  In (info_of (do_ops start_world pre) r) (assoc f (e_map (w_errs (do_ops start_world (pre ++ OReport r :: post))))).
Proof.
  intros N F B. apply belongs_eq in B.
  induction post as [|o post IH] using rev_ind.
  - rewrite do_ops_snoc. cbn [do_op]. unfold report.
    destruct (state_after pre) as (SM & _). apply ignored_spec in F. rewrite <- SM in F. rewrite F. cbn [fst w_errs e_map].
    rewrite assoc_add. rewrite <- B, String.eqb_refl. apply in_app_iff. cbn. auto.
  - replace (pre ++ OReport r :: post ++ [o]) with ((pre ++ OReport r :: post) ++ [o]) by (rewrite <- app_assoc; reflexivity).
    rewrite in_app_iff in N. rewrite do_ops_snoc. specialize (IH ltac:(tauto)).
    destruct o; cbn [do_op]; try exact IH.
    + exfalso. apply N. right. left. reflexivity.
    + unfold report. destruct (ignored _ _); cbn [fst w_errs e_map]; [exact IH|].
      rewrite assoc_add. destruct (String.eqb f _); [apply in_app_iff; auto|exact IH].
Qed.

Lemma ordered_after f pre r mid r' post :
  ~ In OReset mid -> ~ In OReset post ->
  for_the_user (mode_after pre) (r_severity r) -> belongs_to pre r f ->
  for_the_user (mode_after (pre ++ OReport r :: mid)) (r_severity r') -> belongs_to (pre ++ OReport r :: mid) r' f ->
  ordered f (info_of (do_ops start_world pre) r) (info_of (do_ops start_world (pre ++ OReport r :: mid)) r')
          (do_ops start_world (pre ++ OReport r :: mid ++ OReport r' :: post)).
Proof.
  intros N N' F B F' B'. pose proof (in_file_after f pre r mid N F B) as K.
  replace (pre ++ OReport r :: mid ++ OReport r' :: post) with ((pre ++ OReport r :: mid) ++ OReport r' :: post)
    by (rewrite <- app_assoc; reflexivity).
  set (p2 := pre ++ OReport r :: mid) in *. clearbody p2.
  apply belongs_eq in B'.
  induction post as [|o post IH] using rev_ind.
  - unfold ordered. rewrite do_ops_snoc. cbn [do_op]. unfold report.
    destruct (state_after p2) as (SM & _). apply ignored_spec in F'. rewrite <- SM in F'. rewrite F'. cbn [fst w_errs e_map].
    rewrite assoc_add. rewrite <- B', String.eqb_refl. apply in_split in K. destruct K as (a & b & ->).
    exists a, b, []. rewrite <- app_assoc. reflexivity.
  - replace (p2 ++ OReport r' :: post ++ [o]) with ((p2 ++ OReport r' :: post) ++ [o]) by (rewrite <- app_assoc; reflexivity).
    rewrite in_app_iff in N'. rewrite do_ops_snoc. specialize (IH ltac:(tauto)). unfold ordered in *.
    destruct o; cbn [do_op]; try exact IH.
    + exfalso. apply N'. right. left. reflexivity.
    + unfold report. destruct (ignored _ _); cbn [fst w_errs e_map]; [exact IH|].
      rewrite assoc_add. destruct (String.eqb f _); [|exact IH].
      destruct IH as (a & b & c & ->). eexists a, b, (c ++ [_]). rewrite <- app_assoc. cbn. rewrite <- app_assoc. cbn. reflexivity.
Qed.

Lemma cat_map_before (g : info -> string) a i b j c :
  printed_before (g i) (g j) (cat (map g (a ++ i :: b ++ j :: c))).
Proof.
  rewrite map_app, cat_app. cbn. fold (cat (map g (b ++ j :: c))).
  rewrite map_app, cat_app. cbn. fold (cat (map g c)).
  exists (cat (map g a)), (cat (map g b)), (cat (map g c)). reflexivity.
Qed.

Lemma ordered_printed f i j w : ordered f i j w -> printed_before (info_text i) (info_text j) (errors_text w).
Proof.
  intros (a & b & c & E).
  assert (I : In i (assoc f (e_map (w_errs w)))) by (rewrite E; apply in_app_iff; cbn; auto).
  apply assoc_split in I. destruct I as (m1 & m2 & M).
  unfold errors_text. apply before_app_r, before_app_r.
  rewrite M at 2. rewrite map_app, cat_app. apply before_app_r. cbn [map cat fold_right]. apply before_app_l.
  unfold file_text. apply before_app_r. cbn [snd]. rewrite E.
  destruct (cat_map_before (fun i => " " ++ info_text i ++ nl)%string a i b j c) as (x & y & z & ->).
  exists (x ++ " ")%string, (nl ++ y ++ " ")%string, (nl ++ z)%string.
  rewrite !app_assoc_s. reflexivity.
Qed.

Lemma order_history pre r mid r' post f :
  ~ In OReset mid -> ~ In OReset post ->
  for_the_user (mode_after pre) (r_severity r) -> belongs_to pre r f ->
  for_the_user (mode_after (pre ++ OReport r :: mid)) (r_severity r') -> belongs_to (pre ++ OReport r :: mid) r' f ->
  printed_before (r_message r) (r_message r')
    (errors_text (do_ops start_world (pre ++ OReport r :: mid ++ OReport r' :: post))).
Proof.
  intros. destruct (ordered_printed _ _ _ _ (ordered_after f pre r mid r' post H H0 H1 H2 H3 H4)) as (a & b & c & E).
  rewrite E.
  destruct (message_in_info (info_of (do_ops start_world pre) r)) as (u & v & ->).
  destruct (message_in_info (info_of (do_ops start_world (pre ++ OReport r :: mid)) r')) as (u' & v' & ->).
  cbn [i_message info_of].
  exists (a ++ u)%string, (v ++ b ++ u')%string, (v' ++ c)%string. rewrite !app_assoc_s. reflexivity.
Qed.

Lemma num_add f i m :
  list_sum (map (fun p => length (snd p)) (add_info f i m)) = S (list_sum (map (fun p : string * list info => length (snd p)) m)).
Proof.
  induction m as [|[g l] m IH]; cbn; [reflexivity|].
  destruct (String.eqb f g); cbn; [rewrite app_length; cbn; lia|]. unfold list_sum in *. lia.
Qed.

Lemma count_mode l : fst (fold_left count_step l (User, 0)) = mode_after l.
Proof.
  induction l as [|o l IH] using rev_ind; [reflexivity|].
  unfold mode_after in *. rewrite !after_snoc, <- IH. destruct o; reflexivity.
Qed.

Lemma num_messages_history l : num_messages (do_ops start_world l) = messages_since_reset l.
Proof.
  induction l as [|o l IH] using rev_ind; [reflexivity|].
  pose proof (count_mode l) as CM. destruct (state_after l) as (SM & _).
  unfold messages_since_reset in *. rewrite do_ops_snoc, after_snoc.
  destruct (fold_left count_step l (User, 0)) as [m k]. cbn [fst snd] in *. subst m.
  destruct o; try exact IH; try reflexivity.
  cbn [do_op count_step fst snd]. unfold report. rewrite SM.
  destruct (ignored (mode_after l) (r_severity r)) eqn:G; cbn [fst].
  - rewrite IH. destruct (mode_after l), (r_severity r); cbn in G; try discriminate; reflexivity.
  - unfold num_messages at 1. cbn [w_errs e_map]. rewrite num_add. fold (num_messages (do_ops start_world l)). rewrite IH.
    destruct (mode_after l), (r_severity r); cbn in G; try discriminate; reflexivity.
Qed.

Lemma exn_of_stage_pyccel s : is_pyccel (exn_of_stage s) = true.
Proof. destruct s as [[]|]; reflexivity. Qed.

Lemma fatal_raises r w : r_severity r = Sfatal ->
  snd (report r w) = Some (exn_of_stage (w_stage w)) /\ is_pyccel (exn_of_stage (w_stage w)) = true.
Proof.
  intros E. split; [|apply exn_of_stage_pyccel].
  unfold report, ignored, info_of, blocker_of. cbn. rewrite E. cbn. rewrite andb_false_r. cbn. rewrite orb_true_r. reflexivity.
Qed.

Lemma warning_returns r w : r_severity r = Swarning -> snd (report r w) = None.
Proof.
  intros E. unfold report, ignored, info_of, blocker_of. cbn. rewrite E. cbn. rewrite !andb_false_r. cbn. reflexivity.
Qed.

Lemma user_error_returns r w : w_mode w = User -> r_severity r <> Sfatal -> snd (report r w) = None.
Proof.
  intros M E. unfold report, ignored, info_of, blocker_of. cbn. rewrite M. cbn. destruct (r_severity r); cbn; congruence.
Qed.

Lemma developer_error_raises r w : w_mode w = Developer -> r_severity r <> Swarning ->
  contains "raise " (r_traceback r) = false -> exists e, snd (report r w) = Some e /\ is_pyccel e = true.
Proof.
  intros M E C. exists (exn_of_stage (w_stage w)). split; [|apply exn_of_stage_pyccel].
  unfold report, ignored, info_of, blocker_of. cbn. rewrite M, C. cbn. destruct (r_severity r); cbn; congruence.
Qed.

(* ------------------------------------------------------------------------- *)
(* A small logic for pipelines                                                 *)
(* ------------------------------------------------------------------------- *)

Definition triple (P : sys -> Prop) (m : sys -> result) (Q R : sys -> Prop) : Prop :=
  forall s, P s -> match m s with (None, s') => Q s' | (Some _, s') => R s' end.

Lemma t_then P Q T R m k : triple P m Q R -> triple Q k T R -> triple P (m ;; k) T R.
Proof.
  intros A B s H. unfold andthen. specialize (A s H). destruct (m s) as [[e|] s']; [exact A|]. exact (B s' A).
Qed.
Lemma t_skip (P R : sys -> Prop) : triple P skip P R.
Proof. intros s H. exact H. Qed.
Lemma t_throw (P Q R : sys -> Prop) e : (forall s, P s -> R s) -> triple P (throw e) Q R.
Proof. intros K s H. exact (K s H). Qed.
Lemma t_weak (P P' Q Q' R R' : sys -> Prop) m :
  triple P' m Q' R' -> (forall s, P s -> P' s) -> (forall s, Q' s -> Q s) -> (forall s, R' s -> R s) -> triple P m Q R.
Proof. intros A B C D s H. specialize (A s (B s H)). destruct (m s) as [[e|] s']; auto. Qed.
Lemma t_foreach {A} (P R : sys -> Prop) (m : A -> sys -> result) l :
  (forall x, In x l -> triple P (m x) P R) -> triple P (foreach m l) P R.
Proof.
  induction l as [|x l IH]; intros H; cbn; [apply t_skip|].
  eapply t_then; [apply H; left; reflexivity|]. apply IH. intros; apply H; right; assumption.
Qed.
Lemma t_when (P R : sys -> Prop) c m : triple P m P R -> triple P (when c m) P R.
Proof. intros H. destruct c; [exact H|apply t_skip]. Qed.

(* An invariant kept by messages and stage changes is kept by an activity. *)
Lemma t_activity (P : sys -> Prop) b :
  (forall st s, P s -> P (on_world (set_stage st) s)) ->
  (forall r s, P s -> P (snd (do_report r s))) ->
  triple P (do_activity b) P P.
Proof.
  intros HS HR s H. unfold do_activity.
  assert (K : P (snd (do_steps (a_steps b) s))).
  { revert s H. induction (a_steps b) as [|st l IH]; intros s H; cbn; [exact H|].
    destruct st as [r c|st].
    - specialize (HR r s H). destruct (do_report r s) as [[e|] s']; cbn in HR; [destruct c|]; auto.
    - apply IH, HS, H. }
  destruct (do_steps (a_steps b) s) as [[e|] s']; cbn in K; [exact K|]. destruct (a_end b); exact K.
Qed.

Lemma trace_stage st s : s_trace (on_world (set_stage st) s) = s_trace s.
Proof. reflexivity. Qed.

Lemma trace_report r s :
  s_trace (snd (do_report r s)) =
  if ignored (w_mode (s_world s)) (r_severity r) then s_trace s else s_trace s ++ [Message (r_severity r)].
Proof.
  unfold do_report. destruct (report r (s_world s)) as [w x]. cbn. destruct (ignored _ _); reflexivity.
Qed.

Lemma world_report r s : s_world (snd (do_report r s)) = fst (report r (s_world s)).
Proof.
  unfold do_report. destruct (report r (s_world s)) as [w x]. cbn. destruct (ignored _ _); reflexivity.
Qed.

Lemma has_errors_stage st s : has_errors (s_world (on_world (set_stage st) s)) = has_errors (s_world s).
Proof. reflexivity. Qed.

Lemma has_errors_report r w :
  has_errors (fst (report r w)) = has_errors w || (negb (ignored (w_mode w) (r_severity r)) && negb (is_warning (r_severity r))).
Proof.
  apply eq_true_iff_eq. rewrite orb_true_iff, andb_true_iff, !has_errors_spec.
  unfold report. destruct (ignored _ _) eqn:G; cbn [fst negb].
  - split; [tauto|]. intros [H|[H _]]; [exact H|discriminate].
  - unfold all_infos at 1. cbn [w_errs e_map]. setoid_rewrite in_add. fold (all_infos w). split.
    + intros (i & [->|H] & E); [right; split; [reflexivity|]; cbn in E; destruct (r_severity r); cbn; congruence|left; eauto].
    + intros [(i & H & E)|[_ H]]; [exists i; auto|]. exists (info_of w r). split; [auto|]. cbn. destruct (r_severity r); cbn in H; congruence.
Qed.

(* ---- which actions may start ---------------------------------------------- *)

Definition starts_in (P : action -> Prop) (s : sys) : Prop := forall a, In (Started a) (s_trace s) -> P a.

Lemma t_start_in (P : action -> Prop) b a : P a -> triple (starts_in P) (start b a) (starts_in P) (starts_in P).
Proof.
  intros H s K. unfold start. apply (t_activity (starts_in P)).
  - intros st s' L. exact L.
  - intros r s' L a' I. rewrite trace_report in I. destruct (ignored _ _); [auto|].
    apply in_app_iff in I. destruct I as [I|[I|[]]]; [auto|discriminate].
  - intros a' I. cbn in I. apply in_app_iff in I. destruct I as [I|[I|[]]]; [auto|]. congruence.
Qed.

Lemma t_report_in P r : triple (starts_in P) (do_report r) (starts_in P) (starts_in P).
Proof.
  intros s H. assert (K : starts_in P (snd (do_report r s))).
  { intros a I. rewrite trace_report in I. destruct (ignored _ _); [auto|].
    apply in_app_iff in I. destruct I as [I|[I|[]]]; [auto|discriminate]. }
  destruct (do_report r s) as [[e|] s']; exact K.
Qed.

Lemma t_same (P : sys -> Prop) (m : sys -> result) (R : sys -> Prop) :
  (forall s, P s -> P (snd (m s))) -> (forall s, P s -> R s) -> triple P m P R.
Proof. intros A B s H. specialize (A s H). destruct (m s) as [[e|] s']; auto. Qed.

Lemma t_stage_in P st : triple (starts_in P) (stage_is st) (starts_in P) (starts_in P).
Proof. intros s H. exact H. Qed.
Lemma t_reset_in P : triple (starts_in P) reset_errors (starts_in P) (starts_in P).
Proof. intros s H. exact H. Qed.
Lemma t_path_in P p : triple (starts_in P) (insert_path p) (starts_in P) (starts_in P).
Proof. intros s H. exact H. Qed.
Lemma t_gate_in P e : triple (starts_in P) (gate e) (starts_in P) (starts_in P).
Proof. intros s H. unfold gate. destruct (has_errors _); exact H. Qed.
Lemma t_throw_in P e : triple (starts_in P) (throw e) (starts_in P) (starts_in P).
Proof. intros s H. exact H. Qed.

Lemma t_wrap_in (P : action -> Prop) b f l k :
  (forall i, P (AWrap f i)) ->
  (forall built, triple (starts_in P) (k built) (starts_in P) (starts_in P)) ->
  triple (starts_in P) (wrap b f l k) (starts_in P) (starts_in P).
Proof.
  intros HW HK. unfold wrap. eapply t_then; [apply t_stage_in|].
  assert (L : forall ws done s, starts_in P s -> starts_in P (snd (fst (wrap_loop b f ws done s)))).
  { induction ws as [|i ws IH]; intros done s H; cbn; [exact H|].
    pose proof (t_start_in P b (AWrap f i) (HW i) s H) as T.
    destruct (start b (AWrap f i) s) as [[e|] s']; [exact T|]. destruct (has_errors _); [exact T|]. apply IH, T. }
  intros s H. specialize (L (wrappers l) [] s H).
  destruct (wrap_loop b f (wrappers l) [] s) as [[[e|] s'] built]; cbn in L; [exact L|]. apply HK, L.
Qed.

Ltac inside :=
  lazymatch goal with
  | |- triple _ (_ ;; _)%pipe _ _ => eapply t_then; [inside|inside]
  | |- triple _ (if ?c then _ else _) _ _ => destruct c; inside
  | |- triple _ (match ?c with _ => _ end) _ _ => destruct c; inside
  | |- triple _ (when false _) _ _ => apply t_skip
  | |- triple _ (when _ _) _ _ => apply t_when; inside
  | |- triple _ (foreach _ _) _ _ => apply t_foreach; intros ? ?; inside
  | |- triple _ skip _ _ => apply t_skip
  | |- triple (starts_in _) (throw _) _ _ => apply t_throw_in
  | |- triple (starts_in _) (gate _) _ _ => apply t_gate_in
  | |- triple (starts_in _) (stage_is _) _ _ => apply t_stage_in
  | |- triple (starts_in _) reset_errors _ _ => apply t_reset_in
  | |- triple (starts_in _) (insert_path _) _ _ => apply t_path_in
  | |- triple (starts_in _) (do_report _) _ _ => apply t_report_in
  | |- triple (starts_in _) (start _ _) _ _ => apply t_start_in
  | |- triple (starts_in _) (wrap _ _ _ _) _ _ => apply t_wrap_in; [intros ?|intros ?; inside]
  | |- _ => idtac
  end.

Lemma outcome_in P m : triple (starts_in P) m (starts_in P) (starts_in P) ->
  forall s, fresh s -> starts_in P (snd (m s)).
Proof.
  intros T s F. assert (H : starts_in P s) by (intros a I; rewrite F in I; destruct I).
  specialize (T s H). destruct (m s) as [[e|] s']; exact T.
Qed.

Lemma semantic_only_in o b : o_semantic_only o = true \/ o_stub o = true ->
  triple (starts_in (fun a => phase a <= 2)) (execute_pyccel o b)
         (starts_in (fun a => phase a <= 2)) (starts_in (fun a => phase a <= 2)).
Proof.
  intros H. unfold execute_pyccel, translate.
  assert (E : o_semantic_only o || o_stub o = true) by (apply orb_true_iff; exact H).
  rewrite E. inside; cbn; lia.
Qed.

Lemma convert_only_in o b : o_convert_only o = true ->
  triple (starts_in (fun a => compiles a = false)) (execute_pyccel o b)
         (starts_in (fun a => compiles a = false)) (starts_in (fun a => compiles a = false)).
Proof.
  intros H. unfold execute_pyccel, translate, build_module. rewrite H. inside; reflexivity.
Qed.

Lemma wrap_convert_only_in o b : v_convert_only o = true ->
  triple (starts_in (fun a => compiles a = false)) (execute_pyccel_wrap o b)
         (starts_in (fun a => compiles a = false)) (starts_in (fun a => compiles a = false)).
Proof.
  intros H. unfold execute_pyccel_wrap, print_wrappers. rewrite H. inside; reflexivity.
Qed.

Lemma make_no_build_in o b : m_build o = false ->
  triple (starts_in (fun a => compiles a = false)) (execute_pyccel_make o b)
         (starts_in (fun a => compiles a = false)) (starts_in (fun a => compiles a = false)).
Proof.
  intros H. unfold execute_pyccel_make, make_one, print_wrappers. rewrite H. inside; reflexivity.
Qed.

Lemma python_in o b : o_language o = LPython ->
  triple (starts_in (fun a => compiles a = false)) (execute_pyccel o b)
         (starts_in (fun a => compiles a = false)) (starts_in (fun a => compiles a = false)).
Proof.
  intros H. unfold execute_pyccel, translate. rewrite H. cbn [is_python]. inside; reflexivity.
Qed.

(* ---- errors stop the run ----------------------------------------------------- *)

(* Reading a trace: the action that runs, and the translating action that reported
   an error; None if something else was started after that error. *)
Definition read_event (st : option (option action * option action)) (e : event) :=
  match st with
  | None => None
  | Some (last, blame) =>
    match e with
    | Started a =>
      match blame with
      | None => Some (Some a, None)
      | Some c => if Nat.eqb (phase a) (phase c) && Nat.eqb (file a) (file c) then Some (Some a, Some c) else None
      end
    | Message s =>
      match blame with
      | Some c => Some (last, Some c)
      | None => if is_warning s then Some (last, None)
                else match last with
                     | Some a => if translating a then Some (last, Some a) else Some (last, None)
                     | None => Some (last, None)
                     end
      end
    end
  end.
Definition read (t : list event) := fold_left read_event t (Some (None, None)).

Lemma read_none t : fold_left read_event t None = None.
Proof. induction t; cbn; auto. Qed.

Lemma read_app t u st : fold_left read_event (t ++ u) st = fold_left read_event u (fold_left read_event t st).
Proof. apply fold_left_app. Qed.

Lemma read_blame t last c st :
  fold_left read_event t (Some (last, Some c)) = Some st ->
  snd st = Some c /\ forall a, In (Started a) t -> phase a = phase c /\ file a = file c.
Proof.
  revert last. induction t as [|e t IH]; intros last H; cbn in H.
  - injection H as <-. split; [reflexivity|intros a []].
  - destruct e as [a|s].
    + destruct (Nat.eqb (phase a) (phase c)) eqn:E1; cbn [andb] in H; [|rewrite read_none in H; discriminate].
      destruct (Nat.eqb (file a) (file c)) eqn:E2; [|rewrite read_none in H; discriminate].
      apply Nat.eqb_eq in E1, E2. destruct (IH _ H) as (A & B). split; [exact A|].
      intros a' [E|I]; [injection E as <-; auto|auto].
    + destruct (IH _ H) as (A & B). split; [exact A|]. intros a' [E|I]; [discriminate|auto].
Qed.

(* While nothing is started the running action stays the same. *)
Lemma read_silent t a st : silent t -> fold_left read_event t (Some (Some a, None)) = Some st ->
  st = (Some a, None) \/ st = (Some a, Some a).
Proof.
  intros N. assert (G : forall last blame, (last = Some a /\ (blame = None \/ blame = Some a)) ->
    fold_left read_event t (Some (last, blame)) = Some st -> st = (Some a, None) \/ st = (Some a, Some a)).
  { induction t as [|e t IH]; intros last blame (-> & B) H; cbn in H.
    - injection H as <-. destruct B as [-> | ->]; auto.
    - assert (N' : silent t) by (intros x I; apply (N x); right; exact I).
      destruct e as [x|s]; [exfalso; apply (N x); left; reflexivity|].
      destruct B as [-> | ->].
      + destruct (is_warning s); [refine (IH N' _ _ _ H); auto|]. destruct (translating a); refine (IH N' _ _ _ H); auto.
      + refine (IH N' _ _ _ H); auto. }
  intros H. eapply G; [|exact H]. auto.
Qed.

Lemma read_stops t st x : read t = Some st -> (x = None -> snd st = None) -> stops_after_errors x t.
Proof.
  intros H HX a s post (pre & mid & -> & N) T W.
  unfold read in H. rewrite read_app in H. cbn [fold_left] in H.
  destruct (fold_left read_event pre (Some (None, None))) as [[last blame]|] eqn:E; [|cbn in H; rewrite read_none in H; discriminate].
  assert (F : exists c, phase c = phase a /\ file c = file a /\
              exists last', fold_left read_event (Message s :: post) (Some (last', Some c)) = Some st \/
                            fold_left read_event post (Some (last', Some c)) = Some st).
  { cbn [read_event] in H. destruct blame as [c|].
    - destruct (Nat.eqb (phase a) (phase c)) eqn:E1; cbn [andb] in H; [|rewrite read_none in H; discriminate].
      destruct (Nat.eqb (file a) (file c)) eqn:E2; [|rewrite read_none in H; discriminate].
      apply Nat.eqb_eq in E1, E2. exists c. split; [auto|]. split; [auto|].
      rewrite read_app in H.
      destruct (fold_left read_event mid (Some (Some a, Some c))) as [[l2 b2]|] eqn:E3;
        [|cbn in H; rewrite read_none in H; discriminate].
      destruct (read_blame _ _ _ _ E3) as (B & _). cbn in B. subst b2. exists l2. left. exact H.
    - rewrite read_app in H.
      destruct (fold_left read_event mid (Some (Some a, None))) as [st2|] eqn:E3;
        [|cbn in H; rewrite read_none in H; discriminate].
      exists a. split; [auto|]. split; [auto|]. exists (Some a).
      destruct (read_silent _ _ _ N E3) as [-> | ->]; [right|left; exact H].
      cbn in H. replace (is_warning s) with false in H by (destruct s; cbn; congruence). rewrite T in H. exact H. }
  destruct F as (c & P & L & last' & G).
  assert (G' : exists l2, fold_left read_event post (Some (l2, Some c)) = Some st).
  { destruct G as [G|G]; [cbn in G|]; eauto. }
  destruct G' as (l2 & G'). destruct (read_blame _ _ _ _ G') as (B & K).
  split.
  - intros a' I. destruct (K a' I). split; congruence.
  - intros X. specialize (HX X). congruence.
Qed.

(* Invariants: Inv: nothing wrong so far and an error of a translating action is in
   the register; Clean: no such error; Within a: such an error only from the stage of a. *)
Definition Within (a : action) (s : sys) : Prop :=
  exists last blame, read (s_trace s) = Some (last, blame) /\
    (blame <> None -> has_errors (s_world s) = true) /\
    (forall c, blame = Some c -> phase c = phase a /\ file c = file a).
Definition Inv (s : sys) : Prop := exists a, Within a s.
Definition Clean (s : sys) : Prop := exists last, read (s_trace s) = Some (last, None).

Lemma clean_within a s : Clean s -> Within a s.
Proof. intros (last & E). exists last, None. split; [exact E|]. split; [congruence|discriminate]. Qed.
Lemma clean_inv s : Clean s -> Inv s.
Proof. intros H. exists AMakeFolder. apply clean_within, H. Qed.

Lemma read_snoc t e : read (t ++ [e]) = read_event (read t) e.
Proof. unfold read. rewrite fold_left_app. reflexivity. Qed.

(* The last action is a: messages blame a. *)
Definition Running (a : action) (s : sys) : Prop :=
  exists blame, read (s_trace s) = Some (Some a, blame) /\
    (blame <> None -> has_errors (s_world s) = true) /\
    (forall c, blame = Some c -> phase c = phase a /\ file c = file a).
Definition RunningClean (a : action) (s : sys) : Prop := read (s_trace s) = Some (Some a, None).

Lemma running_report a r s : Running a s -> Running a (snd (do_report r s)).
Proof.
  intros (blame & E & H & K). unfold Running. rewrite trace_report, world_report, has_errors_report.
  destruct (ignored _ _) eqn:G; cbn [negb andb].
  - exists blame. rewrite orb_false_r. auto.
  - rewrite read_snoc, E. cbn [read_event]. destruct blame as [c|].
    + exists (Some c). rewrite H by discriminate. auto.
    + destruct (is_warning (r_severity r)) eqn:W; cbn [negb].
      * exists None. split; [reflexivity|]. split; [congruence|discriminate].
      * rewrite orb_true_r. destruct (translating a); [exists (Some a)|exists None];
          (split; [reflexivity|]; split; [auto|intros c C; inversion C; auto]).
Qed.

Lemma running_clean_report a r s : translating a = false -> RunningClean a s -> RunningClean a (snd (do_report r s)).
Proof.
  unfold RunningClean. intros T E. rewrite trace_report. destruct (ignored _ _); [exact E|].
  rewrite read_snoc, E. cbn [read_event]. rewrite T. destruct (is_warning _); reflexivity.
Qed.

Lemma t_activity_running a b : triple (Running a) (do_activity b) (Running a) (Running a).
Proof. apply t_activity; [intros st s H; exact H|apply running_report]. Qed.
Lemma t_activity_clean a b : translating a = false -> triple (RunningClean a) (do_activity b) (RunningClean a) (RunningClean a).
Proof. intros T. apply t_activity; [intros st s H; exact H|intros; apply running_clean_report; assumption]. Qed.

Lemma running_within a s : Running a s -> Within a s.
Proof. intros (blame & E & H & K). exists (Some a), blame. auto. Qed.

Lemma start_running a a0 s :
  phase a = phase a0 -> file a = file a0 -> Within a0 s -> Running a (log (Started a) s).
Proof.
  intros P F (last & blame & E & H & K). unfold Running. cbn [s_trace s_world log]. rewrite read_snoc, E. cbn [read_event].
  destruct blame as [c|].
  - destruct (K c eq_refl) as (P1 & F1). exists (Some c).
    replace (Nat.eqb (phase a) (phase c)) with true by (symmetry; apply Nat.eqb_eq; congruence).
    replace (Nat.eqb (file a) (file c)) with true by (symmetry; apply Nat.eqb_eq; congruence).
    cbn. split; [reflexivity|]. split; [exact H|]. intros c' C. injection C as <-. split; congruence.
  - exists None. split; [reflexivity|]. split; [congruence|discriminate].
Qed.

(* Starting an action of the stage in progress. *)
Lemma t_start_within b a a0 : phase a = phase a0 -> file a = file a0 -> triple (Within a0) (start b a) (Within a0) Inv.
Proof.
  intros P F s H. pose proof (t_activity_running a (b a) _ (start_running a a0 s P F H)) as T.
  unfold start. destruct (do_activity (b a) (log (Started a) s)) as [[e|] s'].
  - exists a. apply running_within, T.
  - apply running_within in T. destruct T as (last & blame & E & HE & K). exists last, blame. split; [exact E|]. split; [exact HE|].
    intros c C. destruct (K c C). split; congruence.
Qed.

(* Starting an action of a new stage: nothing must be wrong. *)
Lemma t_start_new b a : triple Clean (start b a) (Within a) Inv.
Proof. eapply t_weak; [apply (t_start_within b a a); reflexivity|apply clean_within|auto|auto]. Qed.

Lemma t_start_plain b a : translating a = false -> triple Clean (start b a) Clean Inv.
Proof.
  intros T s (last & E).
  assert (R : RunningClean a (log (Started a) s)).
  { unfold RunningClean. cbn [s_trace log]. rewrite read_snoc, E. reflexivity. }
  pose proof (t_activity_clean a (b a) T _ R) as H. unfold start.
  destruct (do_activity (b a) (log (Started a) s)) as [[e|] s']; [apply clean_inv|]; exists (Some a); exact H.
Qed.

Lemma within_no_errors a s : Within a s -> has_errors (s_world s) = false -> Clean s.
Proof.
  intros (last & blame & E & H & K) N. exists last. destruct blame; [|exact E].
  rewrite H in N by discriminate. discriminate.
Qed.

Lemma t_gate a e : triple (Within a) (gate e) Clean Inv.
Proof.
  intros s W. unfold gate. destruct (has_errors (s_world s)) eqn:N; [exists a; exact W|].
  eapply within_no_errors; eauto.
Qed.

Lemma t_gate_inv e : triple Inv (gate e) Clean Inv.
Proof. intros s (a & W). exact (t_gate a e s W). Qed.

Lemma t_stage_within a st : triple (Within a) (stage_is st) (Within a) Inv.
Proof. intros s W. exact W. Qed.
Lemma t_stage_clean st : triple Clean (stage_is st) Clean Inv.
Proof. intros s W. exact W. Qed.
Lemma t_throw_clean e (Q : sys -> Prop) : triple Clean (throw e) Q Inv.
Proof. intros s W. apply clean_inv, W. Qed.
Lemma t_path_clean p : triple Clean (insert_path p) Clean Inv.
Proof. intros s W. exact W. Qed.
Lemma t_reset_clean : triple Clean reset_errors Clean Inv.
Proof. intros s W. exact W. Qed.

Lemma t_wrap_clean b f l k Q :
  (forall built, triple (Within (AWrap f 0)) (k built) Q Inv) ->
  triple Clean (wrap b f l k) Q Inv.
Proof.
  intros HK. unfold wrap. eapply t_then; [apply t_stage_clean|].
  assert (L : forall ws done s, Within (AWrap f 0) s ->
     match wrap_loop b f ws done s with (None, s', _) => Within (AWrap f 0) s' | (Some _, s', _) => Inv s' end).
  { induction ws as [|i ws IH]; intros done s H; cbn; [exact H|].
    pose proof (t_start_within b (AWrap f i) (AWrap f 0) eq_refl eq_refl s H) as T.
    destruct (start b (AWrap f i) s) as [[e|] s']; [exact T|]. destruct (has_errors _); [exact T|]. apply IH, T. }
  intros s H. specialize (L (wrappers l) [] s (clean_within _ _ H)).
  destruct (wrap_loop b f (wrappers l) [] s) as [[[e|] s'] built]; [exact L|]. exact (HK built s' L).
Qed.

Lemma t_print_within b f built : triple (Within (AWrap f 0)) (print_wrappers b f built) (Within (AWrap f 0)) Inv.
Proof. unfold print_wrappers. apply t_foreach. intros i _. apply t_start_within; reflexivity. Qed.

Lemma t_plain_all b (g : nat -> action) built : (forall i, translating (g i) = false) ->
  triple Clean (foreach (fun i => start b (g i)) built) Clean Inv.
Proof. intros H. apply t_foreach. intros i _. apply t_start_plain, H. Qed.

Lemma t_library_clean b f l : triple Clean (create_shared_library b f l) Inv Inv.
Proof.
  unfold create_shared_library. apply t_wrap_clean. intros built s H.
  destruct (has_errors (s_world s)) eqn:E; [exists (AWrap f 0); exact H|].
  pose proof (within_no_errors _ _ H E) as C.
  refine (t_then (Within (AWrap f 0)) (Within (AWrap f 0)) Inv Inv _ _ (t_print_within b f built) _ s H).
  clear s H E C. intros s H. destruct (has_errors (s_world s)) eqn:E; [exists (AWrap f 0); exact H|].
  pose proof (within_no_errors _ _ H E) as C.
  refine (t_then Clean Clean Inv Inv _ _ _ _ s C); [apply t_plain_all; reflexivity|].
  refine (t_then Clean Clean Inv Inv _ _ _ _); [apply t_plain_all; reflexivity|].
  eapply t_weak; [apply (t_start_plain b (ALink f)); reflexivity|auto|apply clean_inv|auto].
Qed.

Ltac clean :=
  lazymatch goal with
  | |- triple Clean (start _ (AParse _)) _ _ => apply t_start_new
  | |- triple Clean (start _ (AAnnotate _)) _ _ => apply t_start_new
  | |- triple Clean (start _ (AGenerate _)) _ _ => apply t_start_new
  | |- triple Clean (start _ _) _ _ => apply t_start_plain; reflexivity
  | |- triple _ (_ ;; _)%pipe _ _ => eapply t_then; [clean|clean]
  | |- triple _ (if ?c then _ else _) _ _ => destruct c; clean
  | |- triple _ (when _ _) _ _ => apply t_when; clean
  | |- triple _ skip _ _ => apply t_skip
  | |- triple (Within _) (gate _) _ _ => apply t_gate
  | |- triple Inv (gate _) _ _ => apply t_gate_inv
  | |- triple Clean (stage_is _) _ _ => apply t_stage_clean
  | |- triple Clean (throw _) _ _ => apply t_throw_clean
  | |- triple Clean (insert_path _) _ _ => apply t_path_clean
  | |- triple Clean reset_errors _ _ => apply t_reset_clean
  | |- triple Clean (create_shared_library _ _ _) _ _ => apply t_library_clean
  | |- triple Clean (foreach _ _) _ _ => apply t_foreach; intros ? ?; clean
  | |- triple Clean (wrap _ _ _ _) _ _ => apply t_wrap_clean; intros ?; clean
  | |- triple (Within _) (print_wrappers _ _ _) _ _ => apply t_print_within
  | |- _ => idtac
  end.

Lemma execute_clean o b : triple Clean (execute_pyccel o b) Clean Inv.
Proof.
  unfold execute_pyccel. destruct (o_builtin o); [apply t_throw_clean|].
  eapply t_then; [clean|]. eapply t_then; [clean|]. eapply t_then; [clean|]. eapply t_then; [clean|].
  eapply t_then; [instantiate (1 := Clean); clean|]. eapply t_then; [clean|]. eapply t_then; [clean|].
  destruct (o_export o && o_nofile o); [apply t_skip|].
  unfold translate, build_module. clean.
Qed.

Lemma t_report_clean r : triple (fun s => read (s_trace s) = Some (Some ACompilerSetup, None)) (do_report r) Clean Inv.
Proof.
  intros s E. assert (K : Clean (snd (do_report r s))).
  { unfold Clean. rewrite trace_report. destruct (ignored _ _); [eexists; exact E|].
    rewrite read_snoc, E. cbn. destruct (is_warning _); eexists; reflexivity. }
  destruct (do_report r s) as [[e|] s']; [apply clean_inv|]; exact K.
Qed.

Lemma t_start_setup b : triple Clean (start b ACompilerSetup)
  (fun s => read (s_trace s) = Some (Some ACompilerSetup, None)) Inv.
Proof.
  intros s (last & E).
  assert (R : RunningClean ACompilerSetup (log (Started ACompilerSetup) s)).
  { unfold RunningClean. cbn [s_trace log]. rewrite read_snoc, E. reflexivity. }
  pose proof (t_activity_clean ACompilerSetup (b ACompilerSetup) eq_refl _ R) as H. unfold start.
  destruct (do_activity (b ACompilerSetup) (log (Started ACompilerSetup) s)) as [[e|] s'];
    [apply clean_inv; exists (Some ACompilerSetup)|]; exact H.
Qed.

Lemma make_clean o b : triple Clean (execute_pyccel_make o b) Clean Inv.
Proof.
  unfold execute_pyccel_make.
  eapply t_then; [clean|]. eapply t_then; [clean|]. eapply t_then; [clean|]. eapply t_then; [clean|].
  eapply t_then; [instantiate (1 := Clean); clean|]. eapply t_then; [apply t_start_setup|].
  eapply t_then. { instantiate (1 := Clean). destruct (m_files o); [apply t_report_clean|]. intros s E. eexists; exact E. }
  unfold make_one. clean.
Qed.

Lemma wrap_clean o b : triple Clean (execute_pyccel_wrap o b) Clean Inv.
Proof.
  unfold execute_pyccel_wrap. destruct (v_builtin o); [apply t_throw_clean|].
  eapply t_then; [clean|]. eapply t_then; [clean|]. eapply t_then; [clean|]. eapply t_then; [clean|].
  eapply t_then; [instantiate (1 := Clean); clean|]. eapply t_then; [clean|]. clean.
Qed.

Lemma clean_stops m : triple Clean m Clean Inv ->
  forall s, fresh s -> stops_after_errors (fst (m s)) (s_trace (snd (m s))).
Proof.
  intros T s F. assert (C : Clean s) by (exists None; rewrite F; reflexivity).
  specialize (T s C). destruct (m s) as [[e|] s']; cbn [fst snd].
  - destruct T as (a & last & blame & E & _). eapply read_stops; [exact E|discriminate].
  - destruct T as (last & E). eapply read_stops; [exact E|reflexivity].
Qed.

(* ---- every error is in the register at the end ---------------------------------- *)

Definition Known (s : sys) : Prop := some_error (s_trace s) -> has_errors (s_world s) = true.

Lemma known_report r s : Known s -> Known (snd (do_report r s)).
Proof.
  intros H (sv & I & W). rewrite trace_report in I. rewrite world_report, has_errors_report.
  destruct (ignored _ _) eqn:G; cbn [negb andb].
  - rewrite orb_false_r. apply H. exists sv. auto.
  - apply in_app_iff in I. destruct I as [I|[I|[]]].
    + rewrite H by (exists sv; auto). reflexivity.
    + injection I as E. destruct (r_severity r); cbn; try apply orb_true_r. congruence.
Qed.

Lemma t_start_known b a : triple Known (start b a) Known Known.
Proof.
  intros s H. unfold start. apply (t_activity Known).
  - intros st s' L. exact L.
  - apply known_report.
  - intros (sv & I & W). cbn in I. apply in_app_iff in I. destruct I as [I|[I|[]]]; [|discriminate].
    apply H. exists sv. auto.
Qed.
Lemma t_report_known r : triple Known (do_report r) Known Known.
Proof. intros s H. pose proof (known_report r s H) as K. destruct (do_report r s) as [[e|] s']; exact K. Qed.
Lemma t_gate_known e : triple Known (gate e) Known Known.
Proof. intros s H. unfold gate. destruct (has_errors _); exact H. Qed.
Lemma t_stage_known st : triple Known (stage_is st) Known Known.
Proof. intros s H. exact H. Qed.
Lemma t_path_known p : triple Known (insert_path p) Known Known.
Proof. intros s H. exact H. Qed.
Lemma t_throw_known e : triple Known (throw e) Known Known.
Proof. intros s H. exact H. Qed.
Lemma t_wrap_known b f l k :
  (forall built, triple Known (k built) Known Known) -> triple Known (wrap b f l k) Known Known.
Proof.
  intros HK. unfold wrap. eapply t_then; [apply t_stage_known|].
  assert (L : forall ws done s, Known s -> Known (snd (fst (wrap_loop b f ws done s)))).
  { induction ws as [|i ws IH]; intros done s H; cbn; [exact H|].
    pose proof (t_start_known b (AWrap f i) s H) as T.
    destruct (start b (AWrap f i) s) as [[e|] s']; [exact T|]. destruct (has_errors _); [exact T|]. apply IH, T. }
  intros s H. specialize (L (wrappers l) [] s H).
  destruct (wrap_loop b f (wrappers l) [] s) as [[[e|] s'] built]; cbn in L; [exact L|]. apply HK, L.
Qed.

Create HintDb knowndb.
Ltac known :=
  lazymatch goal with
  | |- triple _ (_ ;; _)%pipe _ _ => eapply t_then; [known|known]
  | |- triple _ (if ?c then _ else _) _ _ => destruct c; known
  | |- triple _ (match ?c with _ => _ end) _ _ => destruct c; known
  | |- triple _ (when _ _) _ _ => apply t_when; known
  | |- triple _ (foreach _ _) _ _ => apply t_foreach; intros ? ?; known
  | |- triple _ skip _ _ => apply t_skip
  | |- triple Known (throw _) _ _ => apply t_throw_known
  | |- triple Known (gate _) _ _ => apply t_gate_known
  | |- triple Known (stage_is _) _ _ => apply t_stage_known
  | |- triple Known (insert_path _) _ _ => apply t_path_known
  | |- triple Known (do_report _) _ _ => apply t_report_known
  | |- triple Known (start _ _) _ _ => apply t_start_known
  | |- triple Known (wrap _ _ _ _) _ _ => apply t_wrap_known; intros ?; known
  | |- triple Known (create_shared_library _ _ _) _ _ => solve [eauto with knowndb]
  | |- _ => idtac
  end.

Lemma t_library_known b f l : triple Known (create_shared_library b f l) Known Known.
Proof.
  unfold create_shared_library. apply t_wrap_known. intros built s H.
  destruct (has_errors (s_world s)); [exact H|].
  refine (t_then Known Known Known Known _ _ _ _ s H); [unfold print_wrappers; known|].
  intros s' H'. destruct (has_errors (s_world s')); [exact H'|].
  revert s' H'. change (triple Known (foreach (fun i => start b (AWrapperDependencies f i)) built;;
    foreach (fun i => start b (ACompileWrapper f i)) built;; start b (ALink f))%pipe Known Known). known.
Qed.

#[local] Hint Resolve t_library_known : knowndb.

Lemma t_reset_known : triple fresh reset_errors Known Known.
Proof. intros s F (sv & I & _). cbn in I. rewrite F in I. destruct I. Qed.
Lemma fresh_known s : fresh s -> Known s.
Proof. intros F (sv & I & _). rewrite F in I. destruct I. Qed.

Lemma execute_known o b : triple fresh (execute_pyccel o b) Known Known.
Proof.
  unfold execute_pyccel. destruct (o_builtin o); [intros s F; apply fresh_known, F|].
  eapply t_then; [apply t_reset_known|]. unfold translate, build_module. known.
Qed.
Lemma make_known o b : triple fresh (execute_pyccel_make o b) Known Known.
Proof.
  unfold execute_pyccel_make. eapply t_then; [apply t_reset_known|]. unfold make_one, print_wrappers. known.
Qed.
Lemma wrap_known o b : triple fresh (execute_pyccel_wrap o b) Known Known.
Proof.
  unfold execute_pyccel_wrap. destruct (v_builtin o); [intros s F; apply fresh_known, F|].
  eapply t_then; [apply t_reset_known|]. unfold print_wrappers. known.
Qed.

Lemma status_zero m s : triple fresh m Known Known -> fresh s ->
  v_status (fst (run_command m s)) = 0 -> ~ some_error (s_trace (snd (run_command m s))).
Proof.
  intros T F. specialize (T s F). unfold run_command. destruct (m s) as [x s'].
  assert (K : Known s') by (destruct x; exact T). clear T.
  destruct (match x with Some e => negb (is_pyccel e) | None => false end); cbn [fst snd v_status]; [discriminate|].
  intros E S. cbn in S. specialize (K S).
  assert (G : has_errors (s_world (on_world pyccel_finished s')) = true) by exact K.
  rewrite G in E. discriminate.
Qed.

(* When the run returns or raises a PyccelError all messages are printed. *)
Lemma command_prints m s : (forall e, fst (m s) = Some e -> is_pyccel e = true) ->
  v_text (fst (run_command m s)) = errors_text (s_world (snd (run_command m s)))
  /\ w_errs (s_world (snd (run_command m s))) = w_errs (s_world (snd (m s))).
Proof.
  intros H. unfold run_command. destruct (m s) as [[e|] s']; cbn [fst snd] in *.
  - rewrite (H e eq_refl). cbn. auto.
  - cbn. auto.
Qed.

(* ---- order ---------------------------------------------------------------------- *)

Definition Upto (k : nat) (s : sys) : Prop := in_order (s_trace s) /\ forall a, In (Started a) (s_trace s) -> phase a <= k.
Definition Sorted (s : sys) : Prop := in_order (s_trace s).

Lemma in_order_message t sv : in_order t -> in_order (t ++ [Message sv]).
Proof.
  intros H pre a mid a' post E. destruct post as [|x post _] using rev_ind.
  - replace (pre ++ Started a :: mid ++ [Started a']) with ((pre ++ Started a :: mid) ++ [Started a']) in E
      by (rewrite <- app_assoc; reflexivity). apply app_inj_tail in E. destruct E; discriminate.
  - replace (pre ++ Started a :: mid ++ Started a' :: post ++ [x]) with ((pre ++ Started a :: mid ++ Started a' :: post) ++ [x]) in E
      by (rewrite <- app_assoc; cbn; rewrite <- app_assoc; reflexivity).
    apply app_inj_tail in E. destruct E as [E _]. eapply H, E.
Qed.

Lemma in_order_started t a0 : in_order t -> (forall a, In (Started a) t -> phase a <= phase a0) -> in_order (t ++ [Started a0]).
Proof.
  intros H U pre a mid a' post E. destruct post as [|x post _] using rev_ind.
  - replace (pre ++ Started a :: mid ++ [Started a']) with ((pre ++ Started a :: mid) ++ [Started a']) in E
      by (rewrite <- app_assoc; reflexivity). apply app_inj_tail in E. destruct E as [E X]. injection X as <-.
    apply U. rewrite E. apply in_app_iff. cbn. auto.
  - replace (pre ++ Started a :: mid ++ Started a' :: post ++ [x]) with ((pre ++ Started a :: mid ++ Started a' :: post) ++ [x]) in E
      by (rewrite <- app_assoc; cbn; rewrite <- app_assoc; reflexivity).
    apply app_inj_tail in E. destruct E as [E _]. eapply H, E.
Qed.

Lemma upto_sorted k s : Upto k s -> Sorted s.
Proof. intros [H _]. exact H. Qed.
Lemma upto_le j k s : j <= k -> Upto j s -> Upto k s.
Proof. intros L [H U]. split; [exact H|]. intros a I. specialize (U a I). lia. Qed.

Lemma t_start_upto b k a : k <= phase a -> triple (Upto k) (start b a) (Upto (phase a)) Sorted.
Proof.
  intros L s [H U].
  assert (T : triple (Upto (phase a)) (do_activity (b a)) (Upto (phase a)) Sorted).
  { eapply t_weak; [apply (t_activity (Upto (phase a)))|auto|auto|apply upto_sorted].
    - intros st s' K. exact K.
    - intros r s' [K V]. unfold Upto. rewrite trace_report. destruct (ignored _ _); [split; assumption|].
      split; [apply in_order_message, K|]. intros a' I. apply in_app_iff in I. destruct I as [I|[I|[]]]; [auto|discriminate]. }
  apply (T (log (Started a) s)).
  - split; cbn.
    + apply in_order_started; [exact H|]. intros a' I. specialize (U a' I). lia.
    + intros a' I. apply in_app_iff in I. destruct I as [I|[I|[]]]; [specialize (U a' I); lia|injection I as <-; lia].
Qed.
Lemma t_start_same b k a : k = phase a -> triple (Upto k) (start b a) (Upto k) Sorted.
Proof. intros ->. apply t_start_upto. lia. Qed.
Lemma t_gate_upto k e : triple (Upto k) (gate e) (Upto k) Sorted.
Proof. intros s H. unfold gate. destruct (has_errors _); [eapply upto_sorted|]; exact H. Qed.
Lemma t_stage_upto k st : triple (Upto k) (stage_is st) (Upto k) Sorted.
Proof. intros s H. exact H. Qed.

Lemma t_wrap_upto b f l k :
  (forall built, triple (Upto 5) (k built) Sorted Sorted) ->
  triple (Upto 4) (wrap b f l k) Sorted Sorted.
Proof.
  intros HK. unfold wrap. eapply t_then; [apply t_stage_upto|].
  assert (L : forall ws done s, Upto 5 s ->
     match wrap_loop b f ws done s with (None, s', _) => Upto 5 s' | (Some _, s', _) => Sorted s' end).
  { induction ws as [|i ws IH]; intros done s H; cbn; [exact H|].
    pose proof (t_start_same b 5 (AWrap f i) eq_refl s H) as T.
    destruct (start b (AWrap f i) s) as [[e|] s']; [exact T|]. destruct (has_errors _); [exact T|]. apply IH, T. }
  intros s H. specialize (L (wrappers l) [] s (upto_le 4 5 s ltac:(lia) H)).
  destruct (wrap_loop b f (wrappers l) [] s) as [[[e|] s'] built]; [exact L|]. exact (HK built s' L).
Qed.

Lemma t_library_upto b f l : triple (Upto 4) (create_shared_library b f l) Sorted Sorted.
Proof.
  unfold create_shared_library. apply t_wrap_upto. intros built s H.
  destruct (has_errors (s_world s)); [eapply upto_sorted; exact H|].
  refine (t_then (Upto 5) (Upto 5) Sorted Sorted _ _ _ _ s H).
  { unfold print_wrappers. apply t_foreach. intros i _. apply t_start_same; reflexivity. }
  intros s' H'. destruct (has_errors (s_world s')); [eapply upto_sorted; exact H'|].
  apply (upto_le 5 6) in H'; [|lia]. revert s' H'.
  refine (t_then (Upto 6) (Upto 6) Sorted Sorted _ _ _ _).
  { apply t_foreach. intros i _. apply t_start_same; reflexivity. }
  refine (t_then (Upto 6) (Upto 6) Sorted Sorted _ _ _ _).
  { apply t_foreach. intros i _. apply t_start_same; reflexivity. }
  eapply t_weak; [apply (t_start_same b 6 (ALink f)); reflexivity|auto|apply upto_sorted|auto].
Qed.

Lemma execute_sorted o b : triple fresh (execute_pyccel o b) Sorted Sorted.
Proof.
  unfold execute_pyccel. destruct (o_builtin o).
  { intros s F. cbn. unfold Sorted. rewrite F. intros pre a mid a' post E. destruct pre; discriminate. }
  eapply t_then with (Q := Upto 0).
  { intros s F. cbn. split; cbn; rewrite F; [|intros a []]. intros pre a mid a' post E. destruct pre; discriminate. }
  eapply t_then with (Q := Upto 0); [intros s H; exact H|].
  eapply t_then with (Q := Upto 0); [apply t_start_same; reflexivity|].
  eapply t_then with (Q := Upto 0); [apply t_when, t_start_same; reflexivity|].
  eapply t_then with (Q := Upto 0); [destruct (o_conda o); [apply t_skip|intros s H; eapply upto_sorted; exact H]|].
  eapply t_then with (Q := Upto 0); [apply t_start_same; reflexivity|].
  eapply t_then with (Q := Upto 0); [apply t_when, t_start_same; reflexivity|].
  destruct (o_export o && o_nofile o); [intros s H; eapply upto_sorted; exact H|].
  unfold translate.
  eapply t_then; [apply t_stage_upto|]. eapply t_then; [apply (t_start_upto b 0 (AParse 0)); cbn; lia|].
  eapply t_then; [apply t_gate_upto|].
  eapply t_then; [apply t_stage_upto|]. eapply t_then; [apply (t_start_upto b 1 (AAnnotate 0)); cbn; lia|].
  eapply t_then; [apply t_gate_upto|].
  destruct (o_semantic_only o || o_stub o); [intros s H; eapply upto_sorted; exact H|].
  eapply t_then; [apply t_stage_upto|]. eapply t_then; [apply (t_start_upto b 2 (AGenerate 0)); cbn; lia|].
  eapply t_then; [apply t_gate_upto|].
  destruct (is_python (o_language o)).
  { eapply t_weak; [apply (t_start_upto b 3 (ACopy 0)); cbn; lia|auto|apply upto_sorted|auto]. }
  unfold build_module. eapply t_then; [apply (t_start_upto b 3 (ADependencies 0)); cbn; lia|].
  cbn [phase]. destruct (o_convert_only o); [intros s H; eapply upto_sorted; exact H|].
  eapply t_then; [apply t_stage_upto|]. eapply t_then; [apply (t_start_same b 4 (ACompile 0)); reflexivity|].
  eapply t_then; [apply t_when, t_start_same; reflexivity|].
  eapply t_then; [apply t_library_upto|]. intros s H. unfold gate. destruct (has_errors _); exact H.
Qed.

(* ---- a full run that returns has done everything --------------------------------- *)

Definition Has (l : list action) (s : sys) : Prop := forall a, In a l -> In (Started a) (s_trace s).
Definition Any (_ : sys) : Prop := True.

Lemma t_start_has b l a : triple (Has l) (start b a) (Has (a :: l)) Any.
Proof.
  intros s H.
  assert (T : triple (Has (a :: l)) (do_activity (b a)) (Has (a :: l)) Any).
  { eapply t_weak; [apply (t_activity (Has (a :: l)))|auto|auto|intros s' _; exact I].
    - intros st s' K. exact K.
    - intros r s' K x J. rewrite trace_report. destruct (ignored _ _); [auto|]. apply in_app_iff. left. auto. }
  apply (T (log (Started a) s)).
  - intros x I. cbn. apply in_app_iff. destruct I as [<-|I]; [right; left; reflexivity|left; auto].
Qed.
Lemma t_gate_has l e : triple (Has l) (gate e) (fun s => Has l s /\ has_errors (s_world s) = false) Any.
Proof. intros s H. unfold gate. destruct (has_errors _) eqn:E; [exact I|auto]. Qed.
Lemma t_stage_has l st : triple (Has l) (stage_is st) (Has l) Any.
Proof. intros s H. exact H. Qed.
Lemma t_all_has {A} b l (g : A -> action) xs : triple (Has l) (foreach (fun i => start b (g i)) xs) (Has (map g xs ++ l)) Any.
Proof.
  revert l. induction xs as [|x xs IH]; intros l; cbn [foreach map app].
  - intros s H. exact H.
  - eapply t_then; [apply t_start_has|]. eapply t_weak; [apply (IH (g x :: l))|auto| |auto].
    intros s H a I. apply H. cbn in I. apply in_app_iff. cbn. rewrite in_app_iff in I. tauto.
Qed.

Lemma wrap_loop_has b f ws done l s : Has (map (AWrap f) done ++ l) s ->
  match wrap_loop b f ws done s with
  | (None, s', built) => Has (map (AWrap f) built ++ l) s' /\ (has_errors (s_world s') = true \/ built = done ++ ws)
  | _ => True
  end.
Proof.
  revert done s. induction ws as [|i ws IH]; intros done s H; cbn.
  - split; [exact H|]. right. rewrite app_nil_r. reflexivity.
  - pose proof (t_start_has b _ (AWrap f i) s H) as T.
    destruct (start b (AWrap f i) s) as [[e|] s']; [exact Logic.I|].
    assert (T' : Has (map (AWrap f) (done ++ [i]) ++ l) s').
    { intros a J. apply T. rewrite map_app in J. cbn. rewrite !in_app_iff in *. cbn in J. tauto. }
    destruct (has_errors (s_world s')) eqn:E; [auto|].
    specialize (IH (done ++ [i]) s' T'). rewrite <- app_assoc in IH. exact IH.
Qed.

Lemma library_has b f lg l :
  triple (Has l) (create_shared_library b f lg)
    (fun s => has_errors (s_world s) = true \/
              Has (ALink f :: map (ACompileWrapper f) (wrappers lg) ++ map (APrintWrapper f) (wrappers lg) ++ map (AWrap f) (wrappers lg) ++ l) s)
    Any.
Proof.
  unfold create_shared_library, wrap. eapply t_then; [apply t_stage_has|]. intros s H.
  pose proof (wrap_loop_has b f (wrappers lg) [] l s H) as L.
  destruct (wrap_loop b f (wrappers lg) [] s) as [[[e|] s1] built]; [exact Logic.I|].
  destruct L as (HW & L). destruct (has_errors (s_world s1)) eqn:E; [left; exact E|].
  destruct L as [L|L]; [discriminate|]. cbn [app] in L. subst built.
  set (l1 := map (AWrap f) (wrappers lg) ++ l) in *.
  refine (t_then (Has l1) (Has (map (APrintWrapper f) (wrappers lg) ++ l1)) _ Any _ _ _ _ s1 HW).
  { unfold print_wrappers. apply t_all_has. }
  set (l2 := map (APrintWrapper f) (wrappers lg) ++ l1) in *.
  intros s2 H2. destruct (has_errors (s_world s2)) eqn:E2; [exact Logic.I|].
  refine (t_weak (Has l2) (Has l2) _ (Has (ALink f :: map (ACompileWrapper f) (wrappers lg) ++ (map (AWrapperDependencies f) (wrappers lg) ++ l2))) Any Any _ _ _ _ _ s2 H2).
  - eapply t_then; [apply t_all_has|]. eapply t_then; [apply t_all_has|]. apply t_start_has.
  - auto.
  - intros s3 K. right. intros a J. apply K. cbn in *. rewrite !in_app_iff in *. tauto.
  - auto.
Qed.

Lemma full_run_complete o b : full_run o ->
  triple Any (execute_pyccel o b) (fun s => Has (all_stages o) s /\ has_errors (s_world s) = false) Any.
Proof.
  intros (S1 & S2 & S3 & S4 & S5). unfold execute_pyccel. destruct (o_builtin o); [intros s F; exact I|].
  assert (E0 : forall s, Has [] s) by (intros s a []).
  eapply t_then with (Q := Has []); [intros s F; apply E0|].
  eapply t_then with (Q := Has []); [intros s F; apply E0|].
  eapply t_then with (Q := Has []); [intros s F; destruct (start _ _ _) as [[]]; [exact I|apply E0]|].
  eapply t_then with (Q := Has []); [intros s F; destruct (when _ _ _) as [[]]; [exact I|apply E0]|].
  eapply t_then with (Q := Has []); [intros s F; destruct ((if o_conda o then _ else _) s) as [[]]; [exact I|apply E0]|].
  eapply t_then with (Q := Has []); [intros s F; destruct (start _ _ _) as [[]]; [exact I|apply E0]|].
  eapply t_then with (Q := Has []); [intros s F; destruct (when _ _ _) as [[]]; [exact I|apply E0]|].
  rewrite S5. unfold translate. rewrite S1, S2. cbn [orb].
  assert (G : forall l e, triple (Has l) (gate e) (Has l) Any).
  { intros l e s H. unfold gate. destruct (has_errors _); [exact I|exact H]. }
  eapply t_then; [apply t_stage_has|]. eapply t_then; [apply t_start_has|]. eapply t_then; [apply G|].
  eapply t_then; [apply t_stage_has|]. eapply t_then; [apply t_start_has|]. eapply t_then; [apply G|].
  eapply t_then; [apply t_stage_has|]. eapply t_then; [apply t_start_has|]. eapply t_then; [apply G|].
  replace (is_python (o_language o)) with false by (revert S4; destruct (o_language o); cbn; congruence).
  unfold build_module. rewrite S3.
  eapply t_then; [apply t_start_has|]. eapply t_then; [apply t_stage_has|]. eapply t_then; [apply t_start_has|].
  eapply t_then with (Q := Has ((if o_program o then [ACompileProgram 0] else []) ++ [ACompile 0; ADependencies 0; AGenerate 0; AAnnotate 0; AParse 0])).
  { destruct (o_program o); cbn [when app]; [apply t_start_has|]. intros s H. exact H. }
  eapply t_then; [apply library_has|]. intros s H. unfold gate. destruct (has_errors (s_world s)) eqn:E; [exact I|].
  split; [|exact E]. destruct H as [H|H]; [discriminate|].
  intros a J. apply H. unfold all_stages in J. cbn. rewrite !in_app_iff in *.
  destruct (o_language o); [| |congruence]; destruct (o_program o); cbn in *; intuition.
Qed.

(* ---- visitors --------------------------------------------------------------------- *)

Lemma visit_reports e s : w_mode (s_world s) = User -> is_pyccel e = false ->
  let out := do_activity (visit_handler User e) s in
  (exists e', fst out = Some e' /\ is_pyccel e' = true) /\ has_errors (s_world (snd out)) = true
  /\ exists i, In i (all_infos (s_world (snd out))) /\ i_severity i = Sfatal.
Proof.
  intros M N. cbv zeta.
  assert (G : forall r, r_severity r = Sfatal ->
     let out := do_activity (mk_activity [SReport r false] None) s in
     (exists e', fst out = Some e' /\ is_pyccel e' = true) /\ has_errors (s_world (snd out)) = true
     /\ exists i, In i (all_infos (s_world (snd out))) /\ i_severity i = Sfatal).
  { intros r R. cbv zeta. unfold do_activity. cbn [a_steps do_steps].
    pose proof (world_report r s) as W. pose proof (fatal_raises r (s_world s) R) as (X & P).
    unfold do_report in *. pose proof (has_errors_report r (s_world s)) as H.
    assert (IG : ignored (w_mode (s_world s)) (r_severity r) = false).
    { rewrite R. unfold ignored. cbn. apply andb_false_r. }
    assert (IN : In (info_of (s_world s) r) (all_infos (fst (report r (s_world s))))).
    { unfold report. rewrite IG. cbn [fst]. unfold all_infos. cbn [w_errs e_map]. apply in_add. auto. }
    destruct (report r (s_world s)) as [w x]. cbn [fst snd] in *. subst x.
    rewrite IG in *. cbn [fst snd s_world] in *.
    split; [eexists; split; [reflexivity|exact P]|].
    rewrite R in H. split; [change (has_errors w = true); rewrite H; apply orb_true_r|].
    exists (info_of (s_world s) r). split; [exact IN|exact R]. }
  unfold visit_handler. rewrite N. destruct e; cbn in N; try discriminate; apply G; reflexivity.
Qed.

(* ---- processes ---------------------------------------------------------------------- *)

Lemma calls_agree x bcast : (forall e, x = Some e -> is_pyccel e = false) -> root_calls x bcast = other_calls x bcast.
Proof. intros H. unfold root_calls, other_calls. destruct x as [e|]; [rewrite (H e eq_refl)|]; reflexivity. Qed.

Lemma reach_bound n x bcast d k : reachable n x bcast d k ->
  d 0 <= length (root_calls x bcast) /\ forall r, d (S r) <= length (other_calls x bcast) /\ d (S r) <= d 0.
Proof.
  induction 1 as [|d d' k H IH S]; [split; [cbn; lia|intros; cbn; lia]|].
  destruct IH as (A & B). destruct S as [d P L|d r P L M]; unfold upd; cbn.
  - split; [lia|]. intros q. destruct (B q). lia.
  - destruct r as [|r]; [lia|]. split; [exact A|]. intros q. specialize (B q).
    destruct (Nat.eqb_spec q r); [subst; lia|exact B].
Qed.

Lemma progress n x bcast d k : (forall e, x = Some e -> is_pyccel e = false) ->
  reachable n x bcast d k ->
  (forall r, r < n -> finished x bcast d r) \/ exists d', mpi_step n x bcast d d'.
Proof.
  intros NP H. pose proof (calls_agree x bcast NP) as C. destruct (reach_bound _ _ _ _ _ H) as (A & B).
  assert (D : forall m, m <= n -> (forall r, r < m -> finished x bcast d r) \/ exists d', mpi_step n x bcast d d').
  { induction m as [|m IH]; intros M; [left; intros; lia|].
    destruct (IH ltac:(lia)) as [F|F]; [|right; exact F].
    destruct m as [|m].
    - destruct (Nat.eq_dec (d 0) (length (root_calls x bcast))) as [E|E].
      + left. intros r R. assert (r = 0) by lia. subst. exact E.
      + right. eexists. apply step_root; lia.
    - destruct (Nat.eq_dec (d (S m)) (length (other_calls x bcast))) as [E|E].
      + left. intros r R. destruct (Nat.eq_dec r (S m)); [subst; exact E|apply F; lia].
      + right. eexists. apply step_other with (r := S m); [lia| |].
        * destruct (B m). lia.
        * destruct (B m). pose proof (F 0 ltac:(lia)) as F0. unfold finished, total in F0. rewrite F0, C. lia. }
  apply D. lia.
Qed.

Definition sum_to (d : nat -> nat) (n : nat) : nat := list_sum (map d (seq 0 n)).

Lemma sum_upd d r v n : sum_to (upd d r v) n + (if Nat.ltb r n then d r else 0) = sum_to d n + (if Nat.ltb r n then v else 0).
Proof.
  unfold sum_to. induction n as [|n IH]; [cbn; lia|].
  rewrite seq_S, !map_app, !list_sum_app. cbn [map list_sum fold_right Nat.add]. unfold upd at 2.
  destruct (Nat.ltb_spec r n), (Nat.ltb_spec r (S n)), (Nat.eqb_spec n r); try lia; subst; unfold list_sum in *; cbn in *; lia.
Qed.

Lemma sum_bound d n c : (forall r, d r <= c) -> sum_to d n <= n * c.
Proof.
  intros H. unfold sum_to. induction n as [|n IH]; [cbn; lia|].
  rewrite seq_S, map_app, list_sum_app. cbn [map Nat.add]. specialize (H n). unfold list_sum in *. cbn. lia.
Qed.

Lemma reach_sum n x bcast d k : reachable n x bcast d k -> sum_to d n = k.
Proof.
  induction 1 as [|d d' k H IH S].
  - unfold sum_to. induction n as [|n IH]; [reflexivity|].
    rewrite seq_S, map_app, list_sum_app, IH. reflexivity.
  - destruct S as [d P L|d r P L M].
    + pose proof (sum_upd d 0 (S (d 0)) n) as U. replace (Nat.ltb 0 n) with true in U by (symmetry; apply Nat.ltb_lt; lia). lia.
    + pose proof (sum_upd d r (S (d r)) n) as U. replace (Nat.ltb r n) with true in U by (symmetry; apply Nat.ltb_lt; lia). lia.
Qed.

Lemma bounded n x bcast d k : reachable n x bcast d k -> k <= n * 4.
Proof.
  intros H. rewrite <- (reach_sum _ _ _ _ _ H). apply sum_bound.
  destruct (reach_bound _ _ _ _ _ H) as (A & B).
  assert (R : length (root_calls x bcast) <= 4).
  { unfold root_calls, shared. destruct x as [e|]; [destruct (is_pyccel e)|destruct bcast]; cbn; lia. }
  intros [|r]; [lia|]. destruct (B r). lia.
Qed.

Lemma stuck_for_ever n e bcast d k r : is_pyccel e = true -> 0 < r ->
  reachable n (Some e) bcast d k -> d r = 0 /\ ~ finished (Some e) bcast d r.
Proof.
  intros P R H. destruct (reach_bound _ _ _ _ _ H) as (A & B).
  unfold root_calls in A. rewrite P in A. cbn in A. destruct r as [|r]; [lia|]. destruct (B r).
  assert (d (S r) = 0) by lia. split; [assumption|]. unfold finished. rewrite H2. cbn. discriminate.
Qed.

(* ---- epyccel -------------------------------------------------------------------------- *)

Lemma seq_leaves o b dir src wr imp chk s : q_lock s = false ->
  q_lock (snd (epyccel_seq o b dir src wr imp chk s)) = false.
Proof.
  intros L. unfold epyccel_seq, ethen at 1, ethrow at 1. destruct src as [e|]; [exact L|].
  unfold efinally at 1. destruct (ethen _ _ _) as [x s']. reflexivity.
Qed.

Lemma seq_prints o b dir imp chk s :
  let out := epyccel_seq o b dir None None imp chk s in
  w_stage (s_world (q_sys (snd out))) = None
  /\ q_printed (snd out) = q_printed s ++ [errors_text (s_world (q_sys (snd out)))]
  /\ w_errs (s_world (q_sys (snd out))) = w_errs (s_world (snd (execute_pyccel o b (q_sys s)))).
Proof.
  cbv zeta. unfold epyccel_seq, ethen, efinally, ethrow, run_pyccel, acquire. cbn [q_sys].
  destruct (execute_pyccel o b (q_sys s)) as [[e|] s']; cbn; [auto|].
  destruct imp; cbn; auto.
Qed.

Lemma remove_head d l : remove_first d (d :: l) = l.
Proof. cbn. rewrite String.eqb_refl. reflexivity. Qed.

Definition At (p : list string) (s : sys) : Prop := s_path s = p.

Lemma at_report p r s : At p s -> At p (snd (do_report r s)).
Proof. unfold At, do_report. destruct (report r (s_world s)) as [w x]. cbn. destruct (ignored _ _); auto. Qed.
Lemma t_start_at p b a : triple (At p) (start b a) (At p) (At p).
Proof. intros s H. unfold start. apply (t_activity (At p)); [intros st s' L; exact L|apply at_report|exact H]. Qed.
Lemma t_gate_at p e : triple (At p) (gate e) (At p) (At p).
Proof. intros s H. unfold gate. destruct (has_errors _); exact H. Qed.
Lemma t_id_at p st : triple (At p) (stage_is st) (At p) (At p).
Proof. intros s H. exact H. Qed.
Lemma t_throw_at p e : triple (At p) (throw e) (At p) (At p).
Proof. intros s H. exact H. Qed.
Lemma t_library_at p b f l : triple (At p) (create_shared_library b f l) (At p) (At p).
Proof.
  unfold create_shared_library, wrap. eapply t_then; [apply t_id_at|].
  assert (L : forall ws done s, At p s -> At p (snd (fst (wrap_loop b f ws done s)))).
  { induction ws as [|i ws IH]; intros done s H; cbn; [exact H|].
    pose proof (t_start_at p b (AWrap f i) s H) as T.
    destruct (start b (AWrap f i) s) as [[e|] s']; [exact T|]. destruct (has_errors _); [exact T|]. apply IH, T. }
  intros s H. specialize (L (wrappers l) [] s H).
  destruct (wrap_loop b f (wrappers l) [] s) as [[[e|] s'] built]; cbn in L; [exact L|].
  destruct (has_errors (s_world s')); [exact L|].
  refine (t_then (At p) (At p) (At p) (At p) _ _ _ _ s' L).
  { unfold print_wrappers. apply t_foreach. intros; apply t_start_at. }
  intros s2 H2. destruct (has_errors (s_world s2)); [exact H2|]. revert s2 H2.
  refine (t_then (At p) (At p) (At p) (At p) _ _ _ _); [apply t_foreach; intros; apply t_start_at|].
  refine (t_then (At p) (At p) (At p) (At p) _ _ _ _); [apply t_foreach; intros; apply t_start_at|apply t_start_at].
Qed.

Ltac att :=
  lazymatch goal with
  | |- triple _ (_ ;; _)%pipe _ _ => eapply t_then; [att|att]
  | |- triple _ (if ?c then _ else _) _ _ => destruct c; att
  | |- triple _ (when _ _) _ _ => apply t_when; att
  | |- triple _ skip _ _ => apply t_skip
  | |- triple _ (throw _) _ _ => apply t_throw_at
  | |- triple _ (gate _) _ _ => apply t_gate_at
  | |- triple _ (stage_is _) _ _ => apply t_id_at
  | |- triple _ (start _ _) _ _ => apply t_start_at
  | |- triple _ (create_shared_library _ _ _) _ _ => apply t_library_at
  | |- _ => idtac
  end.

Lemma execute_path o b s : o_builtin o = false -> s_path (snd (execute_pyccel o b s)) = o_cwd o :: s_path s.
Proof.
  intros B. assert (T : triple (At (s_path s)) (execute_pyccel o b) (At (o_cwd o :: s_path s)) (At (o_cwd o :: s_path s))).
  { unfold execute_pyccel. rewrite B.
    eapply t_then with (Q := At (s_path s)); [intros s0 H; exact H|].
    eapply t_then with (Q := At (o_cwd o :: s_path s)); [intros s0 H; unfold At in *; cbn; congruence|].
    unfold translate, build_module. att. }
  specialize (T s eq_refl). destruct (execute_pyccel o b s) as [[e|] s']; exact T.
Qed.

Lemma seq_path o b dir chk s : o_builtin o = false -> fst (execute_pyccel o b (q_sys s)) = None ->
  s_path (q_sys (snd (epyccel_seq o b dir None None None chk s))) = o_cwd o :: s_path (q_sys s).
Proof.
  intros B X. pose proof (execute_path o b (q_sys s) B) as P.
  unfold epyccel_seq, ethen, efinally, ethrow, run_pyccel, acquire. cbn [q_sys].
  destruct (execute_pyccel o b (q_sys s)) as [x s']. cbn [fst snd] in *. subst x. cbn.
  rewrite String.eqb_refl. exact P.
Qed.

Lemma seq_path_import o b dir e chk s : o_builtin o = false -> fst (execute_pyccel o b (q_sys s)) = None ->
  s_path (q_sys (snd (epyccel_seq o b dir None None (Some e) chk s))) = dir :: o_cwd o :: s_path (q_sys s).
Proof.
  intros B X. pose proof (execute_path o b (q_sys s) B) as P.
  unfold epyccel_seq, ethen, efinally, ethrow, run_pyccel, acquire. cbn [q_sys].
  destruct (execute_pyccel o b (q_sys s)) as [x s']. cbn [fst snd] in *. subst x. cbn. congruence.
Qed.

(* ---- the compile command --------------------------------------------------------------- *)

(* A check: either nothing happens, or an error of known class is recorded. *)
Definition Checked (s0 : sys) (p : result) : Prop :=
  (forall a, In (Started a) (s_trace (snd p)) -> In (Started a) (s_trace s0))
  /\ (forall e, fst p = Some e -> is_pyccel e = true)
  /\ (has_errors (s_world s0) = true -> has_errors (s_world (snd p)) = true).

Lemma exn_of_stage_known st : is_pyccel (exn_of_stage st) = true.
Proof. destruct st as [[]|]; reflexivity. Qed.

Lemma check_one (c : bool) r s : r_severity r = Serror ->
  Checked s (when c (do_report r) s) /\ (c = true -> has_errors (s_world (snd (when c (do_report r) s))) = true).
Proof.
  intros R. destruct c; cbn [when]; [|repeat split; auto; discriminate].
  assert (G : has_errors (s_world (snd (do_report r s))) = true).
  { rewrite world_report, has_errors_report. unfold ignored. rewrite R. cbn. rewrite andb_false_r. cbn. apply orb_true_r. }
  repeat split; auto.
  - intros a. rewrite trace_report. destruct (ignored _ _); [auto|]. rewrite in_app_iff. intros [H|[H|[]]]; [exact H|discriminate].
  - intros e. unfold do_report. destruct (report r (s_world s)) as [w x] eqn:E. cbn. intros ->.
    assert (X : snd (report r (s_world s)) = Some e) by (rewrite E; reflexivity).
    unfold report in X. destruct (ignored _ _); [discriminate|]. cbn in X.
    destruct (blocker_of _ _ _); [injection X as <-; apply exn_of_stage_known|discriminate].
Qed.

Lemma checks_result c s : Checked s (compile_checks c s) /\ (unusable c -> has_errors (s_world (snd (compile_checks c s))) = true).
Proof.
  unfold compile_checks, andthen.
  destruct (check_one (negb (c_py_extension c)) wrong_extension s eq_refl) as ((A1 & B1 & C1) & D1).
  destruct (when _ _ s) as [[e|] s1] eqn:E1; cbn [fst snd] in *.
  { assert (X : c_py_extension c = false).
    { destruct (c_py_extension c); [discriminate|reflexivity]. }
    rewrite X in D1. split; [repeat split; auto|]. intros _. apply D1. reflexivity. }
  destruct (check_one (negb (c_exists c)) file_not_found s1 eq_refl) as ((A2 & B2 & C2) & D2).
  destruct (when _ _ s1) as [[e|] s2] eqn:E2; cbn [fst snd] in *.
  { assert (X : c_exists c = false).
    { destruct (c_exists c); [discriminate|reflexivity]. }
    rewrite X in D2. split; [repeat split; auto|]. intros _. apply D2. reflexivity. }
  destruct (check_one (c_overwrites c) would_overwrite s2 eq_refl) as ((A3 & B3 & C3) & D3).
  split; [repeat split; auto|]. intros [H|[H|H]].
  - apply C3, C2, D1. rewrite H. reflexivity.
  - apply C3, D2. rewrite H. reflexivity.
  - apply D3, H.
Qed.

Lemma unusable_refused c b s : unusable c ->
  v_status (fst (pyccel_compile_command c b s)) = 1 /\ v_escaped (fst (pyccel_compile_command c b s)) = None
  /\ v_text (fst (pyccel_compile_command c b s)) = errors_text (s_world (snd (pyccel_compile_command c b s)))
  /\ forall a, In (Started a) (s_trace (snd (pyccel_compile_command c b s))) -> In (Started a) (s_trace s).
Proof.
  intros U. unfold pyccel_compile_command. destruct (checks_result c s) as ((A & B & _) & D). specialize (D U).
  destruct (compile_checks c s) as [[e|] s']; cbn [fst snd] in *.
  - unfold run_command, throw. rewrite (B e eq_refl). cbn [negb].
    change (has_errors (s_world (on_world pyccel_finished s'))) with (has_errors (s_world s')). rewrite D. cbn. auto.
  - rewrite D. cbn. auto.
Qed.

Lemma checks_pass c s : ~ unusable c -> compile_checks c s = (None, s).
Proof.
  intros H. unfold unusable in H. unfold compile_checks. destruct (c_py_extension c), (c_exists c), (c_overwrites c); try reflexivity; exfalso; apply H; auto.
Qed.

Lemma compile_status c b s : fresh s -> v_status (fst (pyccel_compile_command c b s)) = 0 ->
  ~ unusable c /\ ~ some_error (s_trace (snd (pyccel_compile_command c b s))).
Proof.
  intros F Z. assert (U : ~ unusable c).
  { intros U. destruct (unusable_refused c b s U) as (E & _). rewrite E in Z. discriminate. }
  split; [exact U|]. unfold pyccel_compile_command in *. rewrite (checks_pass c s U) in *.
  destruct (has_errors (s_world s)); [discriminate|]. revert Z. apply status_zero; [apply execute_known|exact F].
Qed.
