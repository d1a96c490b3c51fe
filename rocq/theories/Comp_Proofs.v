(* Proofs about the compiler commands. *)
From Coq Require Import Bool String Ascii Arith Lia Relations List.
From Verif Require Import Comp_Model Comp_Spec.
Import ListNotations.
Open Scope list_scope.

(* ---- walks in finite graphs ---- *)

Inductive walk (R : nat -> nat -> Prop) : nat -> list nat -> Prop :=
| walk_nil x : walk R x []
| walk_cons x y l : R x y -> walk R y l -> walk R x (y :: l).

Lemma walk_app R x l1 y l2 : walk R x (l1 ++ y :: l2) -> clos_trans nat R x y /\ walk R y l2.
Proof.
  revert x. induction l1 as [|z l1 IH]; intros x H; cbn in H; inversion H; subst.
  - split; [constructor; assumption|assumption].
  - destruct (IH _ H4) as (A & B). split; [|exact B]. eapply t_trans; [constructor; eassumption|exact A].
Qed.

Lemma not_NoDup_split (l : list nat) : ~ NoDup l -> exists x l1 l2 l3, l = l1 ++ x :: l2 ++ x :: l3.
Proof.
  induction l as [|x l IH]; intros H; [exfalso; apply H; constructor|].
  destruct (in_dec Nat.eq_dec x l) as [I|I].
  - apply in_split in I. destruct I as (a & b & ->). exists x, [], a, b. reflexivity.
  - destruct IH as (y & a & b & c & ->).
    + intros N. apply H. constructor; assumption.
    + exists y, (x :: a), b, c. reflexivity.
Qed.

Lemma bounded_NoDup (l : list nat) n : (forall x, In x l -> x < n) -> NoDup l -> length l <= n.
Proof.
  intros B N. assert (I : incl l (seq 0 n)) by (intros x X; apply in_seq; specialize (B x X); lia).
  apply (NoDup_incl_length N) in I. rewrite seq_length in I. exact I.
Qed.

Lemma long_walk R n i l : (forall x, In x (i :: l) -> x < n) -> walk R i l -> n <= length l ->
  exists j, clos_refl_trans nat R i j /\ clos_trans nat R j j.
Proof.
  intros B W L. destruct (not_NoDup_split (i :: l)) as (x & l1 & l2 & l3 & E).
  - intros N. apply (bounded_NoDup _ n B) in N. cbn in N. lia.
  - destruct l1 as [|y l1]; cbn in E; injection E; intros E1 E2; subst.
    + apply walk_app in W. destruct W as (A & _). exists x. split; [apply rt_refl|exact A].
    + apply walk_app in W. destruct W as (A & W). apply walk_app in W. destruct W as (C & _).
      exists x. split; [|exact C]. clear -A. induction A; [apply rt_step; assumption|eapply rt_trans; eassumption].
Qed.

Lemma ct_step (R : nat -> nat -> Prop) i c : clos_trans nat R i c -> exists j, R i j /\ clos_refl_trans nat R j c.
Proof.
  intros H. apply clos_trans_t1n in H. inversion H; subst; [exists c; split; [assumption|apply rt_refl]|].
  exists y. split; [assumption|]. apply clos_t1n_trans in H1. clear -H1.
  induction H1; [apply rt_step; assumption|eapply rt_trans; eassumption].
Qed.

Lemma rt_ct (R : nat -> nat -> Prop) i j k : clos_refl_trans nat R i j -> clos_trans nat R j k -> clos_trans nat R i k.
Proof.
  intros H. revert k. induction H; intros w W; auto.
  eapply t_trans; [apply t_step; eassumption|exact W].
Qed.

(* ---- collect ---- *)

Lemma collect_some {A} (f : A -> option (list string)) l r : collect f l = Some r ->
  (forall a, In a l -> exists s, f a = Some s)
  /\ forall x, In x r <-> exists a s, In a l /\ f a = Some s /\ In x s.
Proof.
  revert r. induction l as [|a l IH]; cbn; intros r H.
  - injection H as <-. split; [intros a []|]. intros x. split; [intros []|intros (a & _ & [] & _)].
  - destruct (f a) as [s|] eqn:E; [|discriminate]. destruct (collect f l) as [t|] eqn:F; [|discriminate].
    injection H as <-. destruct (IH t eq_refl) as (B & C). split.
    + intros b [<-|I]; [eauto|auto].
    + intros x. rewrite in_app_iff, C. split.
      * intros [X|(b & u & I & J & K)]; [exists a, s; auto|exists b, u; auto].
      * intros (b & u & [<-|I] & J & K); [left; congruence|right; exists b, u; auto].
Qed.

Lemma collect_none {A} (f : A -> option (list string)) l : collect f l = None -> exists a, In a l /\ f a = None.
Proof.
  induction l as [|a l IH]; cbn; [discriminate|]. destruct (f a) as [s|] eqn:E.
  - destruct (collect f l) as [t|]; [discriminate|]. intros _. destruct (IH eq_refl) as (b & B & C). eauto.
  - intros _. eauto.
Qed.

Lemma depends_dep h i o j : nth_error h i = Some o -> In j (map snd (o_deps o)) <-> depends h i j.
Proof.
  intros E. rewrite in_map_iff. split.
  - intros ((k & j') & <- & I). exists o, k. auto.
  - intros (o' & k & E' & I). rewrite E in E'. injection E' as <-. exists (k, j). auto.
Qed.

Lemma depends_bound h i j : closed h -> depends h i j -> j < length h.
Proof. intros C (o & k & E & I). apply nth_error_In in E. eapply C; eassumption. Qed.

(* ---- gather ---- *)

Lemma gather_has own fuel : forall h i l, gather own fuel h i = Some l -> forall x, In x l <-> has own h i x.
Proof.
  induction fuel as [|n IH]; cbn; intros h i l H x; [discriminate|].
  destruct (nth_error h i) as [o|] eqn:E; [|discriminate].
  destruct (collect _ _) as [r|] eqn:C; [|discriminate]. injection H as <-.
  apply collect_some in C. destruct C as (D & C). rewrite in_app_iff, C. split.
  - intros [I|(j & s & J & G & X)].
    + exists i, o. repeat split; auto. apply rt_refl.
    + apply (IH _ _ _ G) in X. destruct X as (k & o' & U & K & X). exists k, o'. repeat split; auto.
      eapply rt_trans; [apply rt_step; apply (depends_dep _ _ _ _ E); eassumption|exact U].
  - intros (k & o' & U & K & X). apply clos_rt_rt1n in U. inversion U; subst.
    + left. congruence.
    + right. rename y into j. apply (depends_dep _ _ _ _ E) in H.
      destruct (D j H) as (s & S). exists j, s. repeat split; auto. apply (IH _ _ _ S).
      exists k, o'. repeat split; auto. apply clos_rt1n_rt. assumption.
Qed.

Lemma gather_none own fuel : forall h i, closed h -> i < length h -> gather own fuel h i = None ->
  exists l, length l = fuel /\ walk (depends h) i l /\ forall x, In x (i :: l) -> x < length h.
Proof.
  induction fuel as [|n IH]; cbn; intros h i C L H.
  - exists []. repeat split; [constructor|]. intros x [<-|[]]. exact L.
  - destruct (nth_error h i) as [o|] eqn:E; [|apply nth_error_None in E; lia].
    destruct (collect _ _) as [r|] eqn:K; [discriminate|]. apply collect_none in K.
    destruct K as (j & J & G). apply (depends_dep _ _ _ _ E) in J.
    destruct (IH h j C (depends_bound _ _ _ C J) G) as (l & A & B & D).
    exists (j :: l). split; [cbn; lia|]. split; [constructor; assumption|].
    intros x [<-|X]; [exact L|apply D, X].
Qed.

Lemma gather_total own fuel h i : closed h -> i < length h -> acyclic_from h i -> length h <= fuel ->
  exists l, gather own fuel h i = Some l.
Proof.
  intros C L A F. destruct (gather own fuel h i) as [l|] eqn:G; [eauto|]. exfalso.
  destruct (gather_none _ _ _ _ C L G) as (l & E & W & B).
  destruct (long_walk _ _ _ _ B W ltac:(lia)) as (j & U & N). exact (A j U N).
Qed.

Lemma gather_cyclic own fuel : forall h i j, uses h i j -> needs h j j -> gather own fuel h i = None.
Proof.
  induction fuel as [|n IH]; intros h i j U N; [reflexivity|]. cbn.
  destruct (nth_error h i) as [o|] eqn:E; [|reflexivity].
  destruct (ct_step _ _ _ (rt_ct _ _ _ _ U N)) as (k & K & V).
  apply (depends_dep _ _ _ _ E) in K. destruct (collect _ _) as [r|] eqn:C; [|reflexivity].
  apply collect_some in C. destruct (proj1 C k K) as (s & S). rewrite (IH h k j V N) in S. discriminate.
Qed.

(* ---- extra_modules ---- *)

Lemma linked_needs h i j : linked h i j -> needs h i j.
Proof. induction 1; [apply t_step; assumption|eapply t_trans; [apply t_step; eassumption|assumption]]. Qed.

Lemma extra_in fuel : forall h i l, extra_modules fuel h i = Some l ->
  forall x, In x l <-> object_file (linked h) h i x.
Proof.
  induction fuel as [|n IH]; cbn; intros h i l H x; [discriminate|].
  destruct (nth_error h i) as [o|] eqn:E; [|discriminate].
  apply collect_some in H. destruct H as (D & C). rewrite C. split.
  - intros (j & s & J & G & X). apply (depends_dep _ _ _ _ E) in J.
    destruct (nth_error h j) as [d|] eqn:F; [|discriminate]. destruct (o_has_target d) eqn:T.
    + destruct (extra_modules n h j) as [r|] eqn:M; [|discriminate]. injection G as <-. destruct X as [<-|X].
      * exists j, d. repeat split; auto. econstructor 1; eassumption.
      * apply (IH _ _ _ M) in X. destruct X as (k & o' & U & K & P & Q). exists k, o'. repeat split; auto.
        econstructor 2; eassumption.
    + injection G as <-. destruct X.
  - intros (k & o' & U & K & P & Q). inversion U; subst.
    + pose proof (proj2 (depends_dep _ _ _ _ E) H) as J. destruct (D k J) as (s & S). exists k, s. repeat split; auto.
      rewrite H0, H1 in S. destruct (extra_modules n h k) as [r|]; [|discriminate]. injection S as <-.
      left. congruence.
    + pose proof (proj2 (depends_dep _ _ _ _ E) H) as J. destruct (D j J) as (s & S). exists j, s. repeat split; auto.
      rewrite H0, H1 in S. destruct (extra_modules n h j) as [r|] eqn:M; [|discriminate]. injection S as <-.
      right. apply (IH _ _ _ M). exists k, o'. repeat split; auto.
Qed.

Lemma extra_none fuel : forall h i, closed h -> i < length h -> extra_modules fuel h i = None ->
  exists l, length l = fuel /\ walk (depends h) i l /\ forall x, In x (i :: l) -> x < length h.
Proof.
  induction fuel as [|n IH]; cbn; intros h i C L H.
  - exists []. repeat split; [constructor|]. intros x [<-|[]]. exact L.
  - destruct (nth_error h i) as [o|] eqn:E; [|apply nth_error_None in E; lia].
    apply collect_none in H. destruct H as (j & J & G). apply (depends_dep _ _ _ _ E) in J.
    pose proof (depends_bound _ _ _ C J) as JB.
    destruct (nth_error h j) as [d|] eqn:F; [|apply nth_error_None in F; lia].
    destruct (o_has_target d); [|discriminate]. destruct (extra_modules n h j) as [r|] eqn:M; [discriminate|].
    destruct (IH h j C JB M) as (l & A & B & D).
    exists (j :: l). split; [cbn; lia|]. split; [constructor; assumption|].
    intros x [<-|X]; [exact L|apply D, X].
Qed.

Lemma extra_total fuel h i : closed h -> i < length h -> acyclic_from h i -> length h <= fuel ->
  exists l, extra_modules fuel h i = Some l.
Proof.
  intros C L A F. destruct (extra_modules fuel h i) as [l|] eqn:G; [eauto|]. exfalso.
  destruct (extra_none _ _ _ C L G) as (l & E & W & B).
  destruct (long_walk _ _ _ _ B W ltac:(lia)) as (j & U & N). exact (A j U N).
Qed.

(* If objects without a target depend on such objects only, all object files
   of the dependencies are linked. *)
Lemma linked_all h i j o : (forall a b p q, nth_error h a = Some p -> o_has_target p = false -> depends h a b ->
    nth_error h b = Some q -> o_has_target q = false) ->
  closed h ->
  needs h i j -> nth_error h j = Some o -> o_has_target o = true -> linked h i j.
Proof.
  intros P C N E T. apply clos_trans_t1n in N. revert o E T. induction N as [i j D|i j k D N IH]; intros o E T.
  - econstructor 1; eassumption.
  - specialize (IH o E T). pose proof (depends_bound _ _ _ C D) as B.
    destruct (nth_error h j) as [p|] eqn:F; [|apply nth_error_None in F; lia].
    destruct (o_has_target p) eqn:Tp; [econstructor 2; eassumption|]. exfalso.
    clear -P IH F Tp E T. inversion IH; subst; rewrite (P _ _ _ _ F Tp H H0) in H1; discriminate.
Qed.

(* ---- first_occurrences ---- *)

Lemma mem_spec x l : mem x l = true <-> In x l.
Proof.
  unfold mem. rewrite existsb_exists. split.
  - intros (y & I & E). apply String.eqb_eq in E. subst. exact I.
  - intros I. exists x. split; [exact I|apply String.eqb_refl].
Qed.

Lemma mem_false x l : mem x l = false <-> ~ In x l.
Proof. rewrite <- mem_spec. destruct (mem x l); split; congruence. Qed.

Lemma first_in l : forall seen x, In x (first_occurrences seen l) <-> In x l /\ ~ In x seen.
Proof.
  induction l as [|y l IH]; intros seen x; cbn; [tauto|].
  destruct (mem y seen) eqn:E.
  - rewrite IH. apply mem_spec in E. split; [intros (A & B); auto|]. intros ([<-|A] & B); [contradiction|auto].
  - apply mem_false in E. cbn. rewrite IH. cbn. split.
    + intros [<-|(A & B)]; [auto|split; [auto|tauto]].
    + intros ([<-|A] & B); [auto|]. destruct (string_dec y x) as [<-|N]; [auto|]. right. split; [exact A|tauto].
Qed.

Lemma first_NoDup l : forall seen, NoDup (first_occurrences seen l).
Proof.
  induction l as [|y l IH]; intros seen; cbn; [constructor|]. destruct (mem y seen); [apply IH|].
  constructor; [|apply IH]. rewrite first_in. cbn. tauto.
Qed.

Lemma first_id l : forall seen, NoDup l -> (forall x, In x l -> ~ In x seen) -> first_occurrences seen l = l.
Proof.
  induction l as [|y l IH]; intros seen N D; cbn; [reflexivity|]. inversion_clear N.
  rewrite (proj2 (mem_false y seen)) by (apply D; left; reflexivity). f_equal. apply IH; [assumption|].
  intros x X [<-|S]; [contradiction|]. exact (D x (or_intror X) S).
Qed.

Lemma get_property_exactly own key L h i ps ts : (forall x, In x ps <-> has own h i x) -> (forall x, In x ts <-> has o_tools h i x) ->
  exactly (get_property key L ps ts) (wanted own key L h i).
Proof.
  intros P T. split; [apply first_NoDup|]. intros x. unfold get_property, wanted. rewrite first_in, !in_app_iff, in_flat_map, P.
  split.
  - intros ([A|[A|(a & A & B)]] & _); auto. right. right. exists a. rewrite <- T. auto.
  - intros H. split; [|auto]. destruct H as [A|[A|(a & A & B)]]; auto. right. right. exists a. rewrite T. auto.
Qed.

Lemma get_property_files L h i ps ts : (forall x, In x ps <-> object_file (linked h) h i x) -> (forall x, In x ts <-> has o_tools h i x) ->
  exactly (get_property g_dependencies L ps ts) (wanted_file (linked h) L h i).
Proof.
  intros P T. split; [apply first_NoDup|]. intros x. unfold get_property, wanted_file. rewrite first_in, !in_app_iff, in_flat_map, P.
  split.
  - intros ([A|[A|(a & A & B)]] & _); auto. right. right. exists a. rewrite <- T. auto.
  - intros H. split; [|auto]. destruct H as [A|[A|(a & A & B)]]; auto. right. right. exists a. rewrite T. auto.
Qed.

Lemma each_insert flag l : insert_prefix flag l = each flag l.
Proof. unfold insert_prefix. induction l as [|x l IH]; cbn; [reflexivity|]. rewrite IH. reflexivity. Qed.

Lemma flags_flat debug L o ts : flags_for debug L o ts (get_flags debug L (o_flags o) ts).
Proof. unfold flags_for, get_flags. rewrite flat_map_concat_map. reflexivity. Qed.

Lemma exec_spec L h i ts : (forall x, In x ts <-> has o_tools h i x) -> executable L h i (get_exec L ts).
Proof.
  intros T. unfold executable, get_exec. destruct (mem "mpi" ts) eqn:E.
  - apply mem_spec, T in E. split; [reflexivity|tauto].
  - rewrite mem_false, T in E. split; [tauto|reflexivity].
Qed.

Lemma lookup_nth h i o : nth_error h i = Some o -> lookup h i = o.
Proof. intros E. unfold lookup. apply nth_error_nth. exact E. Qed.

Lemma rpath_each l : ~ In "-L"%string l -> rpath (each "-L" l) = each "-Wl,-rpath" l.
Proof.
  unfold rpath. induction l as [|x l IH]; intros N; [reflexivity|]. cbn [each map].
  rewrite IH by (intros I; apply N; right; exact I). change (String.eqb "-L" "-L") with true. cbv iota.
  destruct (String.eqb_spec x "-L") as [->|_]; [exfalso; apply N; left; reflexivity|reflexivity].
Qed.

(* ---- the commands ---- *)

Lemma order_has order l (P : string -> Prop) : set_order order -> (forall x, In x l <-> P x) ->
  exactly (order l) P.
Proof. intros S H. destruct (S l) as (N & I). split; [exact N|]. intros x. rewrite I. apply H. Qed.

Lemma module_command order debug L out fuel h i o :
  set_order order -> closed h -> nth_error h i = Some o -> acyclic_from h i -> length h <= fuel -> o_has_target o = true ->
  exists e ts fs inc,
    compile_module order debug L out fuel h i
    = Command (e :: fs ++ ["-c"%string] ++ each "-I" inc ++ [o_source o; "-o"%string; o_target o]
               ++ match l_module_output_flag L with Some f => [f; out] | None => [] end)
    /\ executable L h i e
    /\ exactly ts (has o_tools h i) /\ flags_for debug L o ts fs
    /\ exactly inc (wanted o_include g_include L h i).
Proof.
  intros SO C E A F T. assert (I : i < length h) by (apply nth_error_Some; congruence).
  unfold compile_module. rewrite (lookup_nth _ _ _ E), T.
  destruct (gather_total o_tools fuel h i C I A F) as (t & Gt).
  destruct (gather_total o_include fuel h i C I A F) as (inc & Gi).
  unfold tools, include. rewrite Gt, Gi.
  pose proof (order_has order t _ SO (gather_has _ _ _ _ _ Gt)) as Et.
  pose proof (order_has order inc _ SO (gather_has _ _ _ _ _ Gi)) as Ei.
  exists (get_exec L (order t)), (order t), (get_flags debug L (o_flags o) (order t)), (get_property g_include L (order inc) (order t)).
  split; [rewrite each_insert, <- !app_assoc; reflexivity|].
  split; [apply exec_spec; apply Et|]. split; [exact Et|]. split; [apply flags_flat|].
  apply get_property_exactly; [apply Ei|apply Et].
Qed.

Lemma components order L fuel h i o t :
  set_order order -> closed h -> nth_error h i = Some o -> acyclic_from h i -> length h <= fuel ->
  (forall x, In x t <-> has o_tools h i x) ->
  exists inc ls ld m, get_compile_components order L fuel h i t = Some (each "-I" inc, map lib_flag ls, each "-L" ld, m)
  /\ exactly inc (wanted o_include g_include L h i)
  /\ exactly ls (wanted o_libs g_libs L h i)
  /\ exactly ld (wanted o_libdir g_libdir L h i)
  /\ exactly m (wanted_file (linked h) L h i).
Proof.
  intros SO C E A F T. assert (I : i < length h) by (apply nth_error_Some; congruence).
  destruct (gather_total o_include fuel h i C I A F) as (inc & Gi).
  destruct (gather_total o_libs fuel h i C I A F) as (ls & Gl).
  destruct (gather_total o_libdir fuel h i C I A F) as (ld & Gd).
  destruct (extra_total fuel h i C I A F) as (m & Gm).
  unfold get_compile_components, include, libs, libdir. rewrite Gi, Gl, Gd, Gm, !each_insert.
  eexists _, _, _, _. split; [reflexivity|].
  split; [apply get_property_exactly; [apply (order_has order inc _ SO (gather_has _ _ _ _ _ Gi))|exact T]|].
  split; [apply get_property_exactly; [apply (gather_has _ _ _ _ _ Gl)|exact T]|].
  split; [apply get_property_exactly; [apply (order_has order ld _ SO (gather_has _ _ _ _ _ Gd))|exact T]|].
  apply get_property_files; [apply (order_has order m _ SO (extra_in _ _ _ _ Gm))|exact T].
Qed.

Lemma program_command order debug L out fuel h i o :
  set_order order -> closed h -> nth_error h i = Some o -> acyclic_from h i -> length h <= fuel ->
  ~ wanted o_libdir g_libdir L h i "-L" ->
  exists e ts fs inc ls ld m,
    compile_program order debug L out fuel h i
    = Command (e :: fs ++ each "-I" inc ++ each "-L" ld ++ each "-Wl,-rpath" ld ++ m
               ++ [o_source o; "-o"%string; (out ++ "/" ++ o_program o)%string] ++ map lib_flag ls)
    /\ executable L h i e
    /\ exactly ts (has o_tools h i) /\ flags_for debug L o ts fs
    /\ exactly inc (wanted o_include g_include L h i)
    /\ exactly ls (wanted o_libs g_libs L h i)
    /\ exactly ld (wanted o_libdir g_libdir L h i)
    /\ exactly m (wanted_file (linked h) L h i).
Proof.
  intros SO C E A F N. assert (I : i < length h) by (apply nth_error_Some; congruence).
  unfold compile_program. rewrite (lookup_nth _ _ _ E).
  destruct (gather_total o_tools fuel h i C I A F) as (t & Gt). unfold tools. rewrite Gt.
  pose proof (order_has order t _ SO (gather_has _ _ _ _ _ Gt)) as Et.
  destruct (components order L fuel h i o (order t) SO C E A F (proj2 Et)) as (inc & ls & ld & m & -> & Hi & Hl & Hd & Hm).
  exists (get_exec L (order t)), (order t), (get_flags debug L (o_flags o) (order t)), inc, ls, ld, m.
  split; [rewrite rpath_each by (rewrite (proj2 Hd); exact N); reflexivity|].
  split; [apply exec_spec; apply Et|]. split; [exact Et|]. split; [apply flags_flat|]. repeat split; try apply Hi; try apply Hl; try apply Hd; apply Hm.
Qed.

Lemma library_command order order' debug L out name fuel h i o :
  set_order order -> set_order order' -> closed h -> nth_error h i = Some o -> acyclic_from h i -> length h <= fuel ->
  ~ wanted o_libdir g_libdir L h i "-L" -> has o_tools h i "python" ->
  exists e ts fs ls ld m,
    compile_shared_library order order' debug L out name fuel h i
    = Command (e :: "-shared"%string :: fs ++ each "-L" ld ++ each "-Wl,-rpath" ld ++ [o_target o] ++ m
               ++ ["-o"%string; (out ++ "/" ++ match name with Some s => s | None => o_module o end ++ l_shared_suffix L)%string]
               ++ map lib_flag ls)
    /\ executable L h i e
    /\ exactly ts (fun a => has o_tools h i a /\ a <> "python"%string) /\ flags_for debug L o ts fs
    /\ exactly ls (wanted o_libs g_libs L h i)
    /\ exactly ld (wanted o_libdir g_libdir L h i)
    /\ exactly m (wanted_file (linked h) L h i).
Proof.
  intros SO SO' C E A F N P. assert (I : i < length h) by (apply nth_error_Some; congruence).
  unfold compile_shared_library. rewrite (lookup_nth _ _ _ E).
  destruct (gather_total o_tools fuel h i C I A F) as (t & Gt). unfold tools. rewrite Gt.
  rewrite (proj2 (mem_spec _ t)) by (apply (gather_has _ _ _ _ _ Gt), P).
  pose proof (order_has order' t _ SO' (gather_has _ _ _ _ _ Gt)) as Et.
  destruct (components order L fuel h i o (order' t) SO C E A F (proj2 Et)) as (inc & ls & ld & m & -> & Hi & Hl & Hd & Hm).
  set (t1 := order (filter (fun a => negb (String.eqb a "python")) t)).
  exists (get_exec L (order' t)), t1, (get_flags debug L (o_flags o) t1), ls, ld, m.
  split; [rewrite rpath_each by (rewrite (proj2 Hd); exact N); reflexivity|].
  split; [apply exec_spec; apply Et|]. split.
  - apply order_has; [exact SO|]. intros x. rewrite filter_In, (gather_has _ _ _ _ _ Gt), negb_true_iff, String.eqb_neq. reflexivity.
  - split; [apply flags_flat|]. repeat split; try apply Hl; try apply Hd; apply Hm.
Qed.

Lemma module_recursion order debug L out fuel h i o j :
  nth_error h i = Some o -> o_has_target o = true -> uses h i j -> needs h j j ->
  compile_module order debug L out fuel h i = Recursion.
Proof.
  intros E T U N. unfold compile_module. rewrite (lookup_nth _ _ _ E), T. unfold tools.
  rewrite (gather_cyclic _ _ _ _ _ U N). reflexivity.
Qed.

(* ---- the order of the libraries ---- *)

Lemma gather_lists own fuel : forall h i l, gather own fuel h i = Some l ->
  exists js, l = flat_map (fun j => match nth_error h j with Some o => own o | None => [] end) js
  /\ forall j, In j js <-> uses h i j.
Proof.
  induction fuel as [|n IH]; cbn; intros h i l H; [discriminate|].
  destruct (nth_error h i) as [o|] eqn:E; [|discriminate].
  destruct (collect _ _) as [r|] eqn:C; [|discriminate]. injection H as <-.
  assert (K : forall ds r, collect (gather own n h) ds = Some r -> exists js,
    r = flat_map (fun j => match nth_error h j with Some o => own o | None => [] end) js
    /\ forall j, In j js <-> exists d, In d ds /\ uses h d j).
  { clear -IH. induction ds as [|d ds IHd]; cbn; intros r H.
    - injection H as <-. exists []. split; [reflexivity|]. intros j. split; [intros []|intros (d & [] & _)].
    - destruct (gather own n h d) as [a|] eqn:G; [|discriminate]. destruct (collect _ ds) as [b|] eqn:C; [|discriminate].
      injection H as <-. destruct (IH _ _ _ G) as (js & -> & J). destruct (IHd b eq_refl) as (ks & -> & K).
      exists (js ++ ks). rewrite flat_map_app. split; [reflexivity|]. intros j. rewrite in_app_iff, J, K. split.
      + intros [U|(d' & D & U)]; eauto.
      + intros (d' & [<-|D] & U); eauto. }
  destruct (K _ _ C) as (js & -> & J). exists (i :: js). cbn [flat_map]. rewrite E. split; [reflexivity|].
  intros j. cbn. rewrite J. split.
  - intros [<-|(d & D & U)]; [apply rt_refl|]. eapply rt_trans; [apply rt_step; apply (depends_dep _ _ _ _ E), D|exact U].
  - intros U. apply clos_rt_rt1n in U. inversion U; subst; [auto|]. right. exists y. split; [apply (depends_dep _ _ _ _ E); assumption|].
    apply clos_rt1n_rt. assumption.
Qed.

Lemma first_app l1 : forall seen l2, exists seen', first_occurrences seen (l1 ++ l2) = first_occurrences seen l1 ++ first_occurrences seen' l2
  /\ forall x, In x seen' <-> In x l1 \/ In x seen.
Proof.
  induction l1 as [|y l1 IH]; intros seen l2; cbn.
  - exists seen. split; [reflexivity|tauto].
  - destruct (mem y seen) eqn:E.
    + destruct (IH seen l2) as (s & -> & S). exists s. split; [reflexivity|]. intros x. rewrite S. apply mem_spec in E.
      split; [tauto|]. intros [[<-|H]|H]; auto.
    + destruct (IH (y :: seen) l2) as (s & -> & S). exists s. split; [reflexivity|]. intros x. rewrite S. cbn. tauto.
Qed.

Lemma first_before x y P Q R : ~ In y P -> x <> y -> ~ In y Q ->
  before x y (first_occurrences [] (P ++ x :: Q ++ y :: R)).
Proof.
  intros NP N NQ.
  replace (P ++ x :: Q ++ y :: R) with ((P ++ x :: Q) ++ y :: R) by (rewrite <- app_assoc; reflexivity).
  destruct (first_app (P ++ x :: Q) [] (y :: R)) as (s & -> & S). cbn [first_occurrences].
  rewrite (proj2 (mem_false y s)).
  - assert (X : In x (first_occurrences [] (P ++ x :: Q))) by (rewrite first_in; split; [apply in_or_app; right; left; reflexivity|tauto]).
    apply in_split in X. destruct X as (a & b & ->). exists a, b, (first_occurrences (y :: s) R).
    rewrite <- app_assoc. reflexivity.
  - rewrite S. intros [H|[]]. apply in_app_or in H. destruct H as [H|[H|H]]; [exact (NP H)|congruence|exact (NQ H)].
Qed.

Lemma first_in_split (j : nat) js : In j js -> exists a b, js = a ++ j :: b /\ ~ In j a.
Proof.
  induction js as [|k js IH]; [intros []|]. intros H. destruct (Nat.eq_dec k j) as [->|N].
  - exists [], js. split; [reflexivity|intros []].
  - destruct H as [H|H]; [contradiction|]. destruct (IH H) as (a & b & -> & M). exists (k :: a), b.
    split; [reflexivity|]. intros [E|I]; [congruence|exact (M I)].
Qed.

Lemma libs_order fuel L h i ls ts j o x y :
  libs fuel h i = Some ls -> uses h i j -> nth_error h j = Some o -> NoDup (o_libs o) -> before x y (o_libs o) ->
  (forall k o', uses h i k -> nth_error h k = Some o' -> In y (o_libs o') -> k = j) ->
  before x y (get_property g_libs L ls ts).
Proof.
  intros G U E N (l1 & l2 & l3 & B) Y. destruct (gather_lists _ _ _ _ _ G) as (js & -> & J).
  destruct (first_in_split j js (proj2 (J j) U)) as (a & b & -> & M).
  unfold get_property. rewrite flat_map_app. cbn [flat_map]. rewrite E, B.
  set (A := flat_map _ a). set (Bs := flat_map _ b). rewrite <- !app_assoc. cbn [app]. rewrite <- !app_assoc. cbn [app].
  rewrite app_assoc. rewrite B in N. apply NoDup_remove in N. destruct N as (N & Nx).
  rewrite app_assoc in N. apply NoDup_remove_2 in N.
  apply first_before.
  - intros H. apply in_app_or in H. destruct H as [H|H].
    + apply in_flat_map in H. destruct H as (k & K & H). destruct (nth_error h k) as [o'|] eqn:Ek; [|destruct H].
      apply M. rewrite <- (Y k o'); auto. apply J. apply in_or_app. left. exact K.
    + apply N. apply in_or_app. left. apply in_or_app. left. exact H.
  - intros ->. apply Nx. apply in_or_app. right. apply in_or_app. right. left. reflexivity.
  - intros H. apply N. apply in_or_app. left. apply in_or_app. right. exact H.
Qed.

(* ---- the imported files ---- *)

Definition consistent (ps : list parser) (s : list string * list (string * dependency)) : Prop :=
  NoDup (keys (snd s))
  /\ forall f d, In (f, d) (snd s) -> exists p, In p ps /\ p_file p = f /\ recorded p d.

(* s' is s with the files q of Q *)
Definition extended (ps : list parser) (Q : nat -> Prop) (s s' : list string * list (string * dependency)) : Prop :=
  (forall x, In x (fst s') <-> In x (fst s)
     \/ exists q p, Q q /\ nth_error ps q = Some p /\ p_obj p = None /\ p_ignore p = true /\ In x (p_libs p))
  /\ (forall f d, In (f, d) (snd s') <-> In (f, d) (snd s)
     \/ exists q p, Q q /\ nth_error ps q = Some p /\ p_file p = f /\ recorded p d).

Lemma dict_set_in {A} k (v : A) d : NoDup (keys d) -> forall f w,
  In (f, w) (dict_set k v d) <-> (f = k /\ w = v) \/ (f <> k /\ In (f, w) d).
Proof.
  induction d as [|(k' & v') d IH]; intros N f w; cbn in *.
  - split; [intros [E|[]]; injection E as <- <-; auto|intros [(-> & ->)|(_ & [])]; auto].
  - inversion_clear N. destruct (String.eqb_spec k k') as [<-|D]; cbn.
    + split.
      * intros [E|I]; [injection E as <- <-; auto|]. right. split; [|auto].
        intros ->. apply H. apply in_map_iff. exists (k, w). auto.
      * intros [(-> & ->)|(F & [E|I])]; [auto|injection E as <- <-; congruence|auto].
    + rewrite IH by assumption. split.
      * intros [E|[(-> & ->)|(F & I)]]; [injection E as <- <-; right; split; [congruence|auto]|auto|auto].
      * intros [(-> & ->)|(F & [E|I])]; auto.
Qed.

Lemma dict_set_keys {A} k (v : A) d x : In x (keys (dict_set k v d)) <-> x = k \/ In x (keys d).
Proof.
  induction d as [|(k' & v') d IH]; cbn; [intuition|]. destruct (String.eqb_spec k k') as [<-|D]; cbn; [intuition|].
  rewrite IH. intuition.
Qed.

Lemma dict_set_NoDup {A} k (v : A) d : NoDup (keys d) -> NoDup (keys (dict_set k v d)).
Proof.
  induction d as [|(k' & v') d IH]; cbn; intros N; [repeat constructor; intros []|].
  inversion_clear N. destruct (String.eqb_spec k k') as [<-|D]; cbn; constructor; auto.
  intros X. change (In k' (keys (dict_set k v d))) in X. rewrite dict_set_keys in X.
  destruct X as [E|I]; [congruence|contradiction].
Qed.

Lemma same_file ps p p' : different_files ps -> In p ps -> In p' ps -> p_file p = p_file p' -> p = p'.
Proof.
  unfold different_files. induction ps as [|q ps IH]; cbn; intros N A B E; [destruct A|].
  inversion_clear N. destruct A as [<-|A], B as [<-|B]; auto.
  - exfalso. apply H. rewrite E. apply in_map. exact B.
  - exfalso. apply H. rewrite <- E. apply in_map. exact A.
Qed.

Lemma recorded_det p d d' : recorded p d -> recorded p d' -> d = d'.
Proof. unfold recorded. destruct (p_obj p); [congruence|intros (_ & ->) (_ & ->); reflexivity]. Qed.

Lemma record_extended ps i p s : different_files ps -> nth_error ps i = Some p -> consistent ps s ->
  consistent ps (record_dep p s) /\ extended ps (fun q => q = i) s (record_dep p s).
Proof.
  intros D E (N & C). destruct s as (ls & deps). cbn [fst snd] in *. pose proof (nth_error_In _ _ E) as I.
  assert (X : forall d, recorded p d -> (forall f w, In (f, w) (dict_set (p_file p) d deps) <->
      In (f, w) deps \/ exists q p', q = i /\ nth_error ps q = Some p' /\ p_file p' = f /\ recorded p' w)).
  { intros d R f w. rewrite dict_set_in by exact N. split.
    - intros [(-> & ->)|(F & W)]; [right; exists i, p; auto|auto].
    - intros [W|(q & p' & -> & E' & <- & R')].
      + destruct (string_dec f (p_file p)) as [->|NE]; [|auto]. destruct (C _ _ W) as (p' & I' & F & R').
        left. split; [reflexivity|]. rewrite (same_file ps p' p D I' I F) in R'. exact (recorded_det _ _ _ R' R).
      + rewrite E in E'. injection E' as <-. left. split; [reflexivity|exact (recorded_det _ _ _ R' R)]. }
  assert (Y : forall d, recorded p d -> consistent ps (ls, dict_set (p_file p) d deps)).
  { intros d R. split; cbn [snd]; [apply dict_set_NoDup, N|]. intros f w W. apply (X d R) in W.
    destruct W as [W|(q & p' & -> & E' & <- & R')]; [exact (C _ _ W)|]. exists p'. repeat split; auto. eapply nth_error_In; eassumption. }
  unfold record_dep. destruct (p_obj p) as [o|] eqn:O.
  - assert (R : recorded p (Existing o)) by (unfold recorded; rewrite O; reflexivity).
    split; [apply Y, R|]. split; cbn [fst snd]; [|apply (X _ R)].
    intros x. split; [auto|]. intros [H|(q & p' & -> & E' & O' & _)]; [exact H|congruence].
  - destruct (mem (p_file p) (keys deps)) eqn:M.
    + apply mem_spec, in_map_iff in M. destruct M as ((f & w) & F & W). cbn in F. subst f.
      destruct (C _ _ W) as (p' & I' & F & R'). rewrite (same_file ps p' p D I' I F) in R'.
      split; [split; [exact N|exact C]|]. split; cbn [fst snd].
      * intros x. split; [auto|]. intros [H|(q & p'' & -> & E' & O' & G & _)]; [exact H|].
        rewrite E in E'. injection E' as <-. unfold recorded in R'. rewrite O in R'. destruct R' as (R1 & _). congruence.
      * intros f d. split; [auto|]. intros [H|(q & p'' & -> & E' & <- & R'')]; [exact H|].
        rewrite E in E'. injection E' as <-. rewrite (recorded_det _ _ _ R'' R'). exact W.
    + destruct (p_ignore p) eqn:G.
      * split; [split; [exact N|exact C]|]. split; cbn [fst snd].
        -- intros x. rewrite in_app_iff. split.
           ++ intros [H|H]; [auto|]. right. exists i, p. auto.
           ++ intros [H|(q & p'' & -> & E' & _ & _ & H)]; [auto|]. right. congruence.
        -- intros f d. split; [auto|]. intros [H|(q & p'' & -> & E' & <- & R'')]; [exact H|].
           rewrite E in E'. injection E' as <-. unfold recorded in R''. rewrite O in R''. destruct R'' as (R1 & _). congruence.
      * assert (R : recorded p (Fresh p)) by (unfold recorded; rewrite O; auto).
        split; [apply Y, R|]. split; cbn [fst snd]; [|apply (X _ R)].
        intros x. split; [auto|]. intros [H|(q & p' & -> & E' & _ & G' & _)]; [exact H|congruence].
Qed.

Lemma extended_trans ps P Q s1 s2 s3 : extended ps P s1 s2 -> extended ps Q s2 s3 -> extended ps (fun q => P q \/ Q q) s1 s3.
Proof.
  intros (A & B) (C & D). split.
  - intros x. rewrite C, A. split.
    + intros [[H|(q & p & H & R)]|(q & p & H & R)]; [auto|right; exists q, p; tauto|right; exists q, p; tauto].
    + intros [H|(q & p & [H|H] & R)]; [auto|left; right; exists q, p; tauto|right; exists q, p; tauto].
  - intros f d. rewrite D, B. split.
    + intros [[H|(q & p & H & R)]|(q & p & H & R)]; [auto|right; exists q, p; tauto|right; exists q, p; tauto].
    + intros [H|(q & p & [H|H] & R)]; [auto|left; right; exists q, p; tauto|right; exists q, p; tauto].
Qed.

Lemma extended_iff ps P Q s s' : (forall q, P q <-> Q q) -> extended ps P s s' -> extended ps Q s s'.
Proof.
  intros E (A & B). split; intros; [rewrite A|rewrite B]; split; (intros [H|(q & p & H & R)]; [auto|right; exists q, p; rewrite ?E, <- ?E in *; auto]).
Qed.

Lemma extended_refl ps s : extended ps (fun _ => False) s s.
Proof. split; intros; (split; [auto|intros [H|(q & p & [] & _)]; exact H]). Qed.

(* q is i or reached from i, through files that are not omp_lib *)
Definition from (ps : list parser) (i q : nat) : Prop :=
  exists p pq, nth_error ps i = Some p /\ p_omp p = false /\ nth_error ps q = Some pq /\ p_omp pq = false
  /\ (q = i \/ reaches ps i q).

Lemma reaches_head ps i j p : imports_file ps i j -> nth_error ps j = Some p -> p_omp p = false ->
  forall k, reaches ps j k -> reaches ps i k.
Proof.
  intros I E O k R. revert I E O. revert p. induction R as [j k H|j k l q R IH Ek Ok H]; intros p I E O.
  - eapply reaches_more; [apply reaches_one; exact I|exact E|exact O|exact H].
  - eapply reaches_more; [apply (IH p I E O)|exact Ek|exact Ok|exact H].
Qed.

Lemma reaches_split ps i q : reaches ps i q -> exists j, imports_file ps i j
  /\ (q = j \/ exists p, nth_error ps j = Some p /\ p_omp p = false /\ reaches ps j q).
Proof.
  induction 1 as [i j H|i j k p R IH E O H]; [exists j; auto|].
  destruct IH as (m & M & [->|(p' & E' & O' & R')]).
  - exists m. split; [exact M|]. right. exists p. repeat split; auto. apply reaches_one. exact H.
  - exists m. split; [exact M|]. right. exists p'. repeat split; auto. eapply reaches_more; eassumption.
Qed.

Lemma from_sons ps i p q : nth_error ps i = Some p ->
  ((exists j, In j (p_sons p) /\ from ps j q) <-> reaches ps i q /\ exists pq, nth_error ps q = Some pq /\ p_omp pq = false).
Proof.
  intros E. split.
  - intros (j & J & (pj & pq & Ej & Oj & Eq & Oq & H)). assert (I : imports_file ps i j) by (exists p; auto).
    split; [|eauto]. destruct H as [->|H]; [apply reaches_one, I|eapply reaches_head; eassumption].
  - intros (R & pq & Eq & Oq). destruct (reaches_split _ _ _ R) as (j & (p' & E' & J) & H).
    rewrite E in E'. injection E' as <-. exists j. split; [exact J|].
    destruct H as [->|(pj & Ej & Oj & H)]; [exists pq, pq|exists pj, pq]; tauto.
Qed.

Lemma fold_extended ps (f : nat -> list string * list (string * dependency) -> option (list string * list (string * dependency)))
    (Q : nat -> nat -> Prop) l :
  (forall i s s', consistent ps s -> f i s = Some s' -> consistent ps s' /\ extended ps (Q i) s s') ->
  forall s s', consistent ps s -> fold_opt f l s = Some s' ->
  consistent ps s' /\ extended ps (fun q => exists i, In i l /\ Q i q) s s'.
Proof.
  intros F. induction l as [|i l IH]; cbn; intros s s' C H.
  - injection H as <-. split; [exact C|]. eapply extended_iff; [|apply extended_refl]. intros q. split; [intros []|intros (i & [] & _)].
  - destruct (f i s) as [s1|] eqn:E; [|discriminate]. destruct (F _ _ _ C E) as (C1 & X1).
    destruct (IH _ _ C1 H) as (C2 & X2). split; [exact C2|].
    eapply extended_iff; [|exact (extended_trans _ _ _ _ _ _ X1 X2)]. intros q. cbn. split.
    + intros [A|(j & J & A)]; eauto.
    + intros (j & [<-|J] & A); eauto.
Qed.

Lemma visit_extended ps fuel : different_files ps -> forall i s s', consistent ps s -> visit fuel ps i s = Some s' ->
  consistent ps s' /\ extended ps (from ps i) s s'.
Proof.
  intros D. induction fuel as [|n IH]; cbn; intros i s s' C H; [discriminate|].
  destruct (nth_error ps i) as [p|] eqn:E; [|discriminate]. destruct (p_omp p) eqn:O.
  - injection H as <-. split; [exact C|]. eapply extended_iff; [|apply extended_refl].
    intros q. split; [intros []|]. intros (p' & pq & E' & O' & _). congruence.
  - destruct (record_extended ps i p s D E C) as (C1 & X1).
    destruct (fold_extended ps (visit n ps) (from ps) (p_sons p) (fun i s s' => IH i s s') _ _ C1 H) as (C2 & X2).
    split; [exact C2|]. eapply extended_iff; [|exact (extended_trans _ _ _ _ _ _ X1 X2)].
    intros q. cbn. rewrite (from_sons ps i p q E). split.
    + intros [->|(R & pq & Eq & Oq)]; [exists p, p; tauto|exists p, pq; tauto].
    + intros (p' & pq & E' & O' & Eq & Oq & [->|R]); [auto|right; eauto].
Qed.

Lemma module_dependencies_exact ps root fuel ls deps : different_files ps ->
  module_dependencies fuel ps root = Some (ls, deps) ->
  NoDup (keys deps)
  /\ (forall f d, In (f, d) deps <-> exists q p, imported ps root q p /\ p_file p = f /\ recorded p d)
  /\ (forall x, In x ls <-> exists q p, imported ps root q p /\ p_obj p = None /\ p_ignore p = true /\ In x (p_libs p)).
Proof.
  intros D H. unfold module_dependencies in H. destruct (nth_error ps root) as [p|] eqn:E; [|discriminate].
  assert (C : consistent ps ([], [])) by (split; [constructor|intros f d []]).
  destruct (fold_extended ps (visit fuel ps) (from ps) (p_sons p) (visit_extended ps fuel D) _ _ C H) as ((N & C2) & (X & Y)).
  cbn [fst snd] in *. split; [exact N|]. split.
  - intros f d. rewrite Y. split.
    + intros [[]|(q & pq & Q & Eq & F & R)]. exists q, pq. apply (from_sons ps root p q E) in Q. destruct Q as (Q & pq' & Eq' & Oq').
      rewrite Eq in Eq'. injection Eq' as <-. unfold imported. tauto.
    + intros (q & pq & (Q & Eq & Oq) & F & R). right. exists q, pq. split; [|tauto]. apply (from_sons ps root p q E). eauto.
  - intros x. rewrite X. split.
    + intros [[]|(q & pq & Q & Eq & R)]. exists q, pq. apply (from_sons ps root p q E) in Q. destruct Q as (Q & pq' & Eq' & Oq').
      rewrite Eq in Eq'. injection Eq' as <-. unfold imported. tauto.
    + intros (q & pq & (Q & Eq & Oq) & R). right. exists q, pq. split; [|tauto]. apply (from_sons ps root p q E). eauto.
Qed.

(* It ends if imports are not circular. *)
Lemma fold_none {A S} (f : A -> S -> option S) l : forall s, fold_opt f l s = None -> exists a s', In a l /\ f a s' = None.
Proof.
  induction l as [|a l IH]; cbn; intros s H; [discriminate|]. destruct (f a s) as [s'|] eqn:E; [|eauto].
  destruct (IH _ H) as (b & s'' & B & F). eauto.
Qed.

Lemma visit_none fuel : forall ps i s, closed_parsers ps -> i < length ps -> visit fuel ps i s = None ->
  exists l, length l = fuel /\ walk (imports_file ps) i l /\ forall x, In x (i :: l) -> x < length ps.
Proof.
  induction fuel as [|n IH]; cbn; intros ps i s C L H.
  - exists []. repeat split; [constructor|]. intros x [<-|[]]. exact L.
  - destruct (nth_error ps i) as [p|] eqn:E; [|apply nth_error_None in E; lia]. destruct (p_omp p); [discriminate|].
    apply fold_none in H. destruct H as (j & s' & J & V). pose proof (C p j (nth_error_In _ _ E) J) as B.
    destruct (IH ps j s' C B V) as (l & A & W & D). exists (j :: l). split; [cbn; lia|].
    split; [constructor; [exists p; auto|exact W]|]. intros x [<-|X]; [exact L|apply D, X].
Qed.

Lemma module_dependencies_total ps root fuel : closed_parsers ps -> root < length ps -> length ps <= fuel ->
  (forall j, clos_refl_trans nat (imports_file ps) root j -> ~ clos_trans nat (imports_file ps) j j) ->
  exists r, module_dependencies fuel ps root = Some r.
Proof.
  intros C L F A. unfold module_dependencies. destruct (nth_error ps root) as [p|] eqn:E; [|apply nth_error_None in E; lia].
  destruct (fold_opt _ _ _) as [r|] eqn:G; [eauto|]. exfalso. apply fold_none in G. destruct G as (j & s & J & V).
  destruct (visit_none _ _ _ _ C (C p j (nth_error_In _ _ E) J) V) as (l & A1 & W & B).
  destruct (long_walk _ _ _ _ B W ltac:(lia)) as (k & U & N). apply (A k); [|exact N].
  eapply rt_trans; [apply rt_step; exists p; eauto|exact U].
Qed.

(* ---- the object of the file being compiled ---- *)

Lemma alloc_grows ds : forall h h' l, alloc h ds = (h', l) -> exists t, h' = h ++ t.
Proof.
  induction ds as [|[i|p] ds IH]; cbn; intros h h' l H.
  - injection H as <- <-. exists []. rewrite app_nil_r. reflexivity.
  - destruct (alloc h ds) as (h1 & l1) eqn:E. injection H as <- <-. eauto.
  - destruct (alloc (h ++ [fresh_obj p]) ds) as (h1 & l1) eqn:E. injection H as <- <-.
    destruct (IH _ _ _ E) as (t & ->). exists ([fresh_obj p] ++ t). rewrite app_assoc. reflexivity.
Qed.

Lemma alloc_in ds : forall h h' l d, alloc h ds = (h', l) -> In d ds ->
  exists j, In j l /\ match d with Existing i => j = i | Fresh p => nth_error h' j = Some (fresh_obj p) end.
Proof.
  induction ds as [|[i|p] ds IH]; cbn; intros h h' l d H I; [destruct I| |].
  - destruct (alloc h ds) as (h1 & l1) eqn:E. injection H as <- <-. destruct I as [<-|I]; [exists i; cbn; auto|].
    destruct (IH _ _ _ _ E I) as (j & J & K). exists j. cbn. auto.
  - destruct (alloc (h ++ [fresh_obj p]) ds) as (h1 & l1) eqn:E. injection H as <- <-. destruct I as [<-|I].
    + exists (length h). split; [left; reflexivity|]. destruct (alloc_grows _ _ _ _ E) as (t & ->).
      rewrite <- app_assoc, nth_error_app2, Nat.sub_diag by lia. reflexivity.
    + destruct (IH _ _ _ _ E I) as (j & J & K). exists j. cbn. auto.
Qed.

Lemma dep_dict_in h l : NoDup (map (fun j => o_target (lookup h j)) l) -> forall j, In j (map snd (dep_dict h l)) <-> In j l.
Proof.
  intros N. unfold dep_dict.
  assert (G : forall l d, NoDup (keys d ++ map (fun j => o_target (lookup h j)) l) ->
    forall j, In j (map snd (fold_left (fun d j => dict_set (o_target (lookup h j)) j d) l d)) <-> In j (map snd d) \/ In j l).
  { clear. induction l as [|i l IH]; cbn; intros d N j; [tauto|].
    assert (A : ~ In (o_target (lookup h i)) (keys d)).
    { intros H. apply NoDup_remove_2 in N. apply N. apply in_or_app. auto. }
    assert (S : dict_set (o_target (lookup h i)) i d = d ++ [(o_target (lookup h i), i)]).
    { clear -A. induction d as [|(k & v) d IH]; cbn in *; [reflexivity|].
      destruct (String.eqb_spec (o_target (lookup h i)) k) as [E|E]; [exfalso; apply A; auto|]. rewrite IH; auto. }
    rewrite S, IH.
    - rewrite map_app, in_app_iff. cbn. tauto.
    - unfold keys in *. rewrite map_app, <- app_assoc. exact N. }
  intros j. rewrite (G l []) by exact N. cbn. tauto.
Qed.

(* The references and targets of the dependencies in the heap. *)
Definition dep_target (h : heap) (d : dependency) : string :=
  match d with Existing i => o_target (lookup h i) | Fresh p => p_target p end.

Lemma alloc_targets ds : forall h h' l, alloc h ds = (h', l) ->
  (forall i, In (Existing i) ds -> i < length h) ->
  map (fun j => o_target (lookup h' j)) l = map (dep_target h) ds.
Proof.
  assert (P : forall h t j, j < length h -> lookup (h ++ t) j = lookup h j) by (intros; unfold lookup; apply app_nth1; assumption).
  induction ds as [|[i|p] ds IH]; cbn; intros h h' l H B.
  - injection H as <- <-. reflexivity.
  - destruct (alloc h ds) as (h1 & l1) eqn:E. injection H as <- <-. cbn. f_equal; [|apply (IH _ _ _ E); intros; apply B; auto].
    destruct (alloc_grows _ _ _ _ E) as (t & ->). rewrite P by (apply B; auto). reflexivity.
  - destruct (alloc (h ++ [fresh_obj p]) ds) as (h1 & l1) eqn:E. injection H as <- <-. cbn. f_equal.
    + destruct (alloc_grows _ _ _ _ E) as (t & ->). unfold lookup. rewrite <- app_assoc, app_nth2, Nat.sub_diag by lia. reflexivity.
    + rewrite (IH _ _ _ E).
      * apply map_ext_in. intros [i|q] I; cbn; [|reflexivity]. rewrite P by (apply B; auto). reflexivity.
      * intros i I. rewrite app_length. specialize (B i (or_intror I)). lia.
Qed.

Lemma main_depends o h cl deps h' m : main_object o h cl deps = (h', m) ->
  (forall i, In (Existing i) (map snd deps) -> i < length h) ->
  NoDup (map (dep_target h) (map snd deps)) ->
  (exists om, nth_error h' m = Some om /\ o_libs om = cl ++ o_libs o)
  /\ forall d, In d (map snd deps) -> exists j, depends h' m j
     /\ match d with Existing i => j = i | Fresh p => nth_error h' j = Some (fresh_obj p) end.
Proof.
  unfold main_object. destruct (alloc h (map snd deps)) as (h1 & l) eqn:E. intros H B N. injection H as <- <-.
  assert (G : forall x, nth_error (h1 ++ [x]) (length h1) = Some x) by (intros x; rewrite nth_error_app2, Nat.sub_diag by lia; reflexivity).
  split; [eexists; split; [apply G|reflexivity]|]. intros d D.
  destruct (alloc_in _ _ _ _ _ E D) as (j & J & K). exists j. split.
  - rewrite <- (depends_dep _ _ _ j (G _)). cbn [o_deps]. apply dep_dict_in; [|exact J].
    rewrite (alloc_targets _ _ _ _ E B). exact N.
  - destruct d as [i|p]; [exact K|]. rewrite nth_error_app1; [exact K|]. apply nth_error_Some. congruence.
Qed.

(* The libraries of all imported files, and the folders of those not ignored,
   are given to the compiler. *)
Lemma imports_wanted ps root fuel o h cl deps h' m q p :
  different_files ps -> module_dependencies fuel ps root = Some (cl, deps) ->
  (forall p' i, In p' ps -> p_obj p' = Some i -> i < length h) ->
  NoDup (map (dep_target h) (map snd deps)) ->
  main_object o h cl deps = (h', m) ->
  imported ps root q p -> p_obj p = None ->
  (forall x, In x (p_libs p) -> has o_libs h' m x)
  /\ (p_ignore p = false ->
      (forall x, In x (p_includes p) -> has o_include h' m x) /\ (forall x, In x (p_libdirs p) -> has o_libdir h' m x)
      /\ (p_header_only p = false -> has o_include h' m (p_folder p) /\ object_file (linked h') h' m (p_target p))).
Proof.
  intros D M X N MO I O. destruct (module_dependencies_exact _ _ _ _ _ D M) as (ND & DI & LI).
  destruct (main_depends _ _ _ _ _ _ MO) as ((om & Em & Lm) & DD); [|exact N|].
  { intros i J. apply in_map_iff in J. destruct J as ((f & d) & E & J). cbn in E. subst d. apply DI in J.
    destruct J as (q' & p' & (_ & E' & _) & _ & R). unfold recorded in R. destruct (p_obj p') as [i'|] eqn:Oi.
    - injection R as ->. eapply X; [eapply nth_error_In|]; eassumption.
    - destruct R as (_ & R). discriminate R. }
  destruct (p_ignore p) eqn:G.
  - split; [|discriminate]. intros x H. exists m, om. split; [apply rt_refl|]. split; [exact Em|].
    rewrite Lm. apply in_or_app. left. apply LI. exists q, p. auto.
  - assert (R : In (Fresh p) (map snd deps)).
    { apply in_map_iff. exists (p_file p, Fresh p). split; [reflexivity|]. apply DI. exists q, p. split; [exact I|]. split; [reflexivity|].
      unfold recorded. rewrite O. auto. }
    destruct (DD _ R) as (j & J & K).
    assert (U : uses h' m j) by (apply rt_step; exact J).
    split; [intros x H; exists j, (fresh_obj p); auto|]. intros _. split; [|split].
    + intros x H. exists j, (fresh_obj p). repeat split; auto. cbn. apply in_or_app. auto.
    + intros x H. exists j, (fresh_obj p). auto.
    + intros H. split.
      * exists j, (fresh_obj p). repeat split; auto. cbn. rewrite H. cbn. apply in_or_app. right. left. reflexivity.
      * exists j, (fresh_obj p). assert (T : o_has_target (fresh_obj p) = true) by (cbn; rewrite H; reflexivity).
        split; [econstructor 1; eassumption|]. auto.
Qed.

Lemma prefix_is p : forall s, prefix p s = true <-> exists r, s = (p ++ r)%string.
Proof.
  induction p as [|a p IH]; intros s.
  - split; [exists s; reflexivity|]. intros _. destruct s; reflexivity.
  - destruct s as [|b s]; [split; [discriminate|intros (r & E); discriminate]|].
    cbn [prefix]. destruct (Ascii.ascii_dec a b) as [<-|N].
    + rewrite IH. split; intros (r & E); exists r; [rewrite E; reflexivity|cbn in E; congruence].
    + split; [discriminate|]. intros (r & E). cbn in E. congruence.
Qed.

Lemma lib_flag_flag l : library_flag l (lib_flag l).
Proof.
  unfold library_flag, lib_flag. pose proof (prefix_is "-l" l) as X. destruct (prefix "-l" l).
  - left. destruct (proj1 X eq_refl) as (r & E). exists r. auto.
  - right. split; [|reflexivity]. intros n E. assert (false = true) by (apply X; eauto). discriminate.
Qed.

Lemma lib_flags ls : Forall2 library_flag ls (map lib_flag ls).
Proof. induction ls as [|l ls IH]; constructor; [apply lib_flag_flag|exact IH]. Qed.
