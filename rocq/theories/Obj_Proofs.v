(* Proofs about objects. *)
From Coq Require Import Bool Arith ZArith List String Lia Permutation.
From Verif Require Import Alloc_Model Obj_Model Obj_Spec.
Import ListNotations.
Open Scope Z_scope.
Open Scope list_scope.

Lemma mstmt_ind' (P : mstmt -> Prop) :
  (forall x ds f, P (MNew x ds f)) -> (forall x f, P (MUpdate x f)) -> (forall x, P (MPrint x)) ->
  (forall c a b, Forall P a -> Forall P b -> P (MIf c a b)) -> forall s, P s.
Proof.
  intros H1 H2 H3 H4. fix IH 1. intros [x ds f|x f|x|c a b]; [apply H1|apply H2|apply H3|].
  apply H4; [induction a|induction b]; constructor; auto.
Qed.
Lemma gm_ind' (P : gm -> Prop) :
  (forall x al ds f, P (GNew x al ds f)) -> (forall x f, P (GUpdate x f)) -> (forall x, P (GPrint x)) ->
  (forall c a b, Forall P a -> Forall P b -> P (GIf c a b)) -> forall s, P s.
Proof.
  intros H1 H2 H3 H4. fix IH 1. intros [x al ds f|x f|x|c a b]; [apply H1|apply H2|apply H3|].
  apply H4; [induction a|induction b]; constructor; auto.
Qed.
Lemma ostmt_ind' (P : ostmt -> Prop) :
  (forall a args, P (OCreate a args)) -> (forall a m args, P (OCall a m args)) ->
  (forall c p q, Forall P p -> Forall P q -> P (OIf c p q)) -> (forall n p, Forall P p -> P (OLoop n p)) -> forall s, P s.
Proof.
  intros H1 H2 H3 H4. fix IH 1. intros [a args|a m args|c p q|n p]; [apply H1|apply H2|apply H3|apply H4];
  [induction p|induction q|induction p]; constructor; auto.
Qed.
Lemma gstm_ind' (P : gstm -> Prop) :
  (forall a, P (HDel a)) -> (forall a args, P (HInit a args)) -> (forall a m args, P (HCall a m args)) ->
  (forall c p q, Forall P p -> Forall P q -> P (HIf c p q)) -> (forall n p, Forall P p -> P (HLoop n p)) -> forall s, P s.
Proof.
  intros H0 H1 H2 H3 H4. fix IH 1. intros [a|a args|a m args|c p q|n p]; [apply H0|apply H1|apply H2|apply H3|apply H4];
  [induction p|induction q|induction p]; constructor; auto.
Qed.

(* ------------------------------ equations ------------------------------ *)

Lemma mvisits_cons s b st : mvisits (s :: b) st =
  (fst (mvisit s st) :: fst (mvisits b (snd (mvisit s st))), snd (mvisits b (snd (mvisit s st)))).
Proof. cbn [mvisits]. destruct (mvisit s st) as [g st1]. cbn. destruct (mvisits b st1). reflexivity. Qed.
Lemma mvisit_if c a b st : mvisit (MIf c a b) st =
  (GIf c (fst (mvisits a st)) (fst (mvisits b (snd (mvisits a st)))), snd (mvisits b (snd (mvisits a st)))).
Proof.
  change (mvisit (MIf c a b) st) with (let '(g, st1) := mvisits a st in let '(g', st2) := mvisits b st1 in (GIf c g g', st2)).
  destruct (mvisits a st) as [g st1]. cbn. destruct (mvisits b st1). reflexivity.
Qed.
Lemma mvisits_app a b st : mvisits (a ++ b) st =
  (fst (mvisits a st) ++ fst (mvisits b (snd (mvisits a st))), snd (mvisits b (snd (mvisits a st)))).
Proof.
  revert st. induction a as [|s a IH]; intros st; [cbn [app mvisits fst snd]; destruct (mvisits b st); reflexivity|].
  rewrite <- app_comm_cons, !mvisits_cons, IH. reflexivity.
Qed.
Lemma grun_if l args c a b s : grun l args (GIf c a b) s = if c args then gruns l args a s else gruns l args b s.
Proof. reflexivity. Qed.
Lemma gruns_cons l args g b s : gruns l args (g :: b) s = obind (grun l args g s) (gruns l args b).
Proof. reflexivity. Qed.
Lemma gruns_app l args a b s : gruns l args (a ++ b) s = obind (gruns l args a s) (gruns l args b).
Proof. revert s. induction a as [|g a IH]; intros s; [reflexivity|]. rewrite <- app_comm_cons, !gruns_cons. destruct (grun l args g s); cbn; [apply IH|reflexivity]. Qed.
Lemma py_m_if args c a b s : py_m args (MIf c a b) s = if c args then py_ms args a s else py_ms args b s.
Proof. reflexivity. Qed.
Lemma py_ms_cons args g b s : py_ms args (g :: b) s = obind (py_m args g s) (py_ms args b).
Proof. reflexivity. Qed.
Lemma py_ms_app args a b s : py_ms args (a ++ b) s = obind (py_ms args a s) (py_ms args b).
Proof. revert s. induction a as [|g a IH]; intros s; [reflexivity|]. rewrite <- app_comm_cons, !py_ms_cons. destruct (py_m args g s); cbn; [apply IH|reflexivity]. Qed.
Lemma settled_if ms c a b : settled_stmt ms (MIf c a b) <-> settled_code ms a /\ settled_code ms b.
Proof. apply iff_refl. Qed.
Lemma upd_eq {A} (f : nat -> A) x v : upd f x v x = v.
Proof. unfold upd. rewrite Nat.eqb_refl. reflexivity. Qed.
Lemma upd_ne {A} (f : nat -> A) x y v : y <> x -> upd f x v y = f y.
Proof. intros H. unfold upd. destruct (Nat.eqb_spec y x); [contradiction|reflexivity]. Qed.

(* ------------------------------ settled code ------------------------------ *)

Definition shaped (ms : list maker) (sh : shapes) : Prop := forall x ds, maker_of ms x = Some ds -> sh x = Some (map static ds).
Definition agrees (ms : list maker) (o : obj) (po : pobj) : Prop :=
  forall x ds, maker_of ms x = Some ds ->
  exists sh v, o_attr o x = Arr sh v /\ po x = Some (sh, v) /\ (forallb is_lit ds = true -> sh = map (value_of []) ds).

Lemma lit_same ds : forallb is_lit ds = true -> same_shape ds (map static ds) = true.
Proof. induction ds as [|[n|i] ds IH]; cbn; intros H; [reflexivity| |discriminate]. rewrite Z.eqb_refl. auto. Qed.
Lemma lit_other es ds : same_shape (map Lit es) (map static (map Lit ds)) = true <-> es = ds.
Proof.
  revert ds. induction es as [|e es IH]; intros [|d ds]; cbn; try (split; congruence).
  rewrite andb_true_iff, Z.eqb_eq, IH. split; [intros [-> ->]; reflexivity|intros [= -> ->]; auto].
Qed.
Lemma lit_value args ds : forallb is_lit ds = true -> map (value_of args) ds = map (value_of []) ds.
Proof. induction ds as [|[n|i] ds IH]; cbn; intros H; [reflexivity| |discriminate]. f_equal; auto. Qed.
Lemma eval_value args ds : map (eval args) ds = map (value_of args) ds.
Proof. induction ds as [|[n|i] ds IH]; cbn; f_equal; auto. Qed.

Definition stmt_ok (ms : list maker) (s : mstmt) : Prop :=
  settled_stmt ms s -> forall sh al, shaped ms sh ->
  snd (mvisit s (sh, al)) = (sh, al) /\
  forall l args o po m, agrees ms o po ->
  exists o' po' m', grun l args (fst (mvisit s (sh, al))) (o, m) = Some (o', m') /\
    py_m args s (po, g_out m) = Some (po', g_out m') /\ agrees ms o' po' /\ o_freed o' = o_freed o.
Definition code_ok (ms : list maker) (b : list mstmt) : Prop :=
  settled_code ms b -> forall sh al, shaped ms sh ->
  snd (mvisits b (sh, al)) = (sh, al) /\
  forall l args o po m, agrees ms o po ->
  exists o' po' m', gruns l args (fst (mvisits b (sh, al))) (o, m) = Some (o', m') /\
    py_ms args b (po, g_out m) = Some (po', g_out m') /\ agrees ms o' po' /\ o_freed o' = o_freed o.

Lemma code_of_stmts ms b : Forall (stmt_ok ms) b -> code_ok ms b.
Proof.
  induction 1 as [|s b H _ IH]; intros S sh al Hs.
  - split; [reflexivity|]. intros l args o po m A. exists o, po, m. auto.
  - destruct S as [S1 S2]. destruct (H S1 sh al Hs) as [E1 R1]. destruct (IH S2 sh al Hs) as [E2 R2].
    rewrite mvisits_cons, E1. split; [exact E2|]. intros l args o po m A.
    destruct (R1 l args o po m A) as (o1 & po1 & m1 & G1 & P1 & A1 & F1).
    destruct (R2 l args o1 po1 m1 A1) as (o2 & po2 & m2 & G2 & P2 & A2 & F2).
    exists o2, po2, m2. cbn [fst]. rewrite gruns_cons, py_ms_cons, G1, P1. cbn [obind]. rewrite F1 in F2. auto.
Qed.

Lemma agrees_set ms o po x sh v :
  agrees ms o po -> (forall ds, maker_of ms x = Some ds -> forallb is_lit ds = true -> sh = map (value_of []) ds) ->
  agrees ms (set_attr x (Arr sh v) o) (upd po x (Some (sh, v))).
Proof.
  intros A H y ds E. destruct (Nat.eq_dec y x) as [->|N].
  - exists sh, v. cbn. rewrite !upd_eq. split; [reflexivity|]. split; [reflexivity|]. apply (H ds E).
  - cbn. rewrite !upd_ne by exact N. apply A. exact E.
Qed.

Lemma stmt_is_ok ms s : stmt_ok ms s.
Proof.
  induction s as [x ds f|x f|x|c a b Ha Hb] using mstmt_ind'; intros S sh al Hs;
  [change (maker_of ms x = Some ds /\ forallb is_lit ds = true) in S|change (maker_of ms x <> None) in S|change (maker_of ms x <> None) in S|].
  - destruct S as [E L]. cbn [mvisit fst snd]. rewrite (Hs x ds E). cbn [needs_alloc].
    rewrite (lit_same ds L). cbn [negb fst snd]. split; [reflexivity|]. intros l args o po m A.
    destruct (A x ds E) as (s & v & Ax & Px & Lx). cbn [grun fst snd py_m]. rewrite Ax.
    exists (set_attr x (Arr s (f args)) o), (upd po x (Some (s, f args))), m.
    split; [reflexivity|]. rewrite (lit_value args ds L), <- (Lx L). split; [reflexivity|]. split; [|reflexivity].
    apply agrees_set; [exact A|]. intros ds' E' _. rewrite E in E'. injection E' as <-. apply Lx. exact L.
  - split; [reflexivity|]. intros l args o po m A.
    destruct (maker_of ms x) as [ds|] eqn:E; [|congruence].
    destruct (A x ds E) as (s & v & Ax & Px & Lx). cbn [mvisit fst snd grun py_m]. rewrite Ax, Px.
    eexists _, _, m. split; [reflexivity|]. split; [reflexivity|]. split; [|reflexivity].
    apply agrees_set; [exact A|]. intros ds' E' L. rewrite E in E'. injection E' as <-. apply Lx. exact L.
  - split; [reflexivity|]. intros l args o po m A.
    destruct (maker_of ms x) as [ds|] eqn:E; [|congruence].
    destruct (A x ds E) as (s & v & Ax & Px & Lx). cbn [mvisit fst snd grun py_m]. rewrite Ax, Px.
    exists o, po, (say (s, v) m). auto.
  - change (settled_code ms a /\ settled_code ms b) in S. destruct S as [Sa Sb].
    destruct (code_of_stmts ms a Ha Sa sh al Hs) as [E1 R1]. destruct (code_of_stmts ms b Hb Sb sh al Hs) as [E2 R2].
    rewrite mvisit_if, E1, E2. split; [reflexivity|]. intros l args o po m A. cbn [fst]. rewrite grun_if, py_m_if.
    destruct (c args); [apply R1; exact A|apply R2; exact A].
Qed.
Lemma code_is_ok ms b : code_ok ms b.
Proof. apply code_of_stmts. induction b; constructor; auto using stmt_is_ok. Qed.

(* ------------------------------ the constructor ------------------------------ *)

Lemma maker_of_cons m ms x : maker_of (m :: ms) x = if Nat.eqb (maker_name m) x then Some (snd (fst m)) else maker_of ms x.
Proof. unfold maker_of. cbn. destruct (Nat.eqb (maker_name m) x); reflexivity. Qed.
Lemma maker_of_none ms x : ~ In x (map maker_name ms) -> maker_of ms x = None.
Proof.
  induction ms as [|m ms IH]; intros H; [reflexivity|]. rewrite maker_of_cons.
  destruct (Nat.eqb_spec (maker_name m) x); [exfalso; apply H; left; assumption|]. apply IH. intros I. apply H. right. exact I.
Qed.

Lemma makers_visit ms : NoDup (map maker_name ms) -> forall (sh : shapes) (al : list nat), (forall x, In x (map maker_name ms) -> sh x = None) ->
  fst (mvisits (map make ms) (sh, al)) = map (fun m => GNew (maker_name m) true (snd (fst m)) (snd m)) ms /\
  (forall x, fst (snd (mvisits (map make ms) (sh, al))) x =
    match maker_of ms x with Some ds => Some (map static ds) | None => sh x end).
Proof.
  induction ms as [|[[y ds] f] ms IH]; intros ND sh al H; [split; reflexivity|].
  cbn [map maker_name fst] in ND. apply NoDup_cons_iff in ND. destruct ND as [NI ND].
  assert (Hy : sh y = None) by (apply H; left; reflexivity).
  cbn [map make fst snd maker_name]. rewrite mvisits_cons. change (make (y, ds, f)) with (MNew y ds f).
  assert (V : mvisit (MNew y ds f) (sh, al) = (GNew y true ds f, (upd sh y (Some (map static ds)), y :: al))) by (cbn; rewrite Hy; reflexivity).
  rewrite V. cbn [fst snd].
  destruct (IH ND (upd sh y (Some (map static ds))) (y :: al)) as [I1 I2].
  { intros x Hx. rewrite upd_ne by (intros ->; contradiction). apply H. right. exact Hx. }
  split; [f_equal; exact I1|]. intros x. etransitivity; [exact (I2 x)|]. rewrite maker_of_cons. cbn [maker_name fst snd].
  destruct (Nat.eqb_spec y x) as [->|N].
  - rewrite (maker_of_none ms x NI), upd_eq. reflexivity.
  - destruct (maker_of ms x); [reflexivity|]. apply upd_ne. congruence.
Qed.

Definition fresh (l : lang) (o : obj) : Prop := l = LFortran -> forall x sh v, o_attr o x <> Arr sh v.
Lemma makers_run ms : NoDup (map maker_name ms) -> forall (l : lang) (args : list Z) (o : obj) (po : pobj) (m : mem),
  (l = LFortran -> forall x sh v, In x (map maker_name ms) -> o_attr o x <> Arr sh v) ->
  exists o' po' m',
  gruns l args (map (fun m => GNew (maker_name m) true (snd (fst m)) (snd m)) ms) (o, m) = Some (o', m') /\
  py_ms args (map make ms) (po, g_out m) = Some (po', g_out m') /\ o_freed o' = o_freed o /\
  (forall x, match maker_of ms x with
    | Some ds => exists v, o_attr o' x = Arr (map (value_of args) ds) v /\ po' x = Some (map (value_of args) ds, v)
    | None => o_attr o' x = o_attr o x /\ po' x = po x end).
Proof.
  induction ms as [|[[y ds] f] ms IH]; intros ND l args o po m H.
  - exists o, po, m. split; [reflexivity|]. split; [reflexivity|]. split; [reflexivity|]. intros x. split; reflexivity.
  - cbn [map maker_name fst] in ND. apply NoDup_cons_iff in ND. destruct ND as [NI ND].
    cbn [map fst snd maker_name]. change (make (y, ds, f)) with (MNew y ds f). rewrite gruns_cons, py_ms_cons.
    assert (G : grun l args (GNew y true ds f) (o, m) = Some (set_attr y (Arr (map (eval args) ds) (f args)) o, alloc_one m)).
    { cbn [grun fst snd]. destruct l; [reflexivity|].
      destruct (o_attr o y) as [| |sh v] eqn:E; [reflexivity|reflexivity|]. exfalso. apply (H eq_refl y sh v); [left; reflexivity|exact E]. }
    rewrite G, eval_value. cbn [obind py_m fst snd].
    destruct (IH ND l args (set_attr y (Arr (map (value_of args) ds) (f args)) o) (upd po y (Some (map (value_of args) ds, f args))) (alloc_one m))
      as (o' & po' & m' & G' & P' & F' & X').
    { intros L x sh v Hx. cbn. rewrite upd_ne by (intros ->; contradiction). apply (H L). right. exact Hx. }
    exists o', po', m'. split; [exact G'|]. split; [exact P'|]. split; [exact F'|]. intros x. specialize (X' x).
    rewrite maker_of_cons. cbn [maker_name fst snd]. destruct (Nat.eqb_spec y x) as [->|N].
    + rewrite (maker_of_none ms x NI) in X'. cbn in X'. rewrite !upd_eq in X'. exists (f args). exact X'.
    + destruct (maker_of ms x); [exact X'|]. cbn in X'. rewrite !upd_ne in X' by congruence. exact X'.
Qed.

(* the shapes after the constructor *)
Definition init_shapes (k : class) : shapes := snd (visit_method (k_init k) (fun _ => None)).
Lemma init_shaped l ms k : settled l ms k -> shaped ms (init_shapes k).
Proof.
  intros (ND & (rest & E & S) & _). unfold init_shapes, visit_method. rewrite E, mvisits_app.
  destruct (makers_visit ms ND (fun _ => None) []) as [_ V]; [reflexivity|].
  destruct (snd (mvisits (map make ms) _)) as [sh al] eqn:Es. cbn [fst] in V.
  assert (Hs : shaped ms sh) by (intros x ds M; rewrite V, M; reflexivity).
  destruct (code_is_ok ms rest S sh al Hs) as [E2 _]. cbn [fst snd]. rewrite E2. exact Hs.
Qed.

Lemma init_ok l ms k : settled l ms k -> forall args o m, fresh l o ->
  exists o' po' m', run_init l (visit_class l k) args (o, m) = Some (o', m') /\
    py_ms args (m_body (k_init k)) (blank, g_out m) = Some (po', g_out m') /\ agrees ms o' po' /\ o_freed o' = Some false.
Proof.
  intros Hk args o m Fr. pose proof Hk as (ND & (rest & E & S) & En & _).
  unfold run_init, visit_class.
  destruct (visit_method (k_init k) (fun _ => None)) as [gi sh1] eqn:Ev.
  destruct (visit_methods (k_methods k) sh1) as [gs sh2]. destruct (mvisits (k_del k) (sh2, [])) as [gd st2]. cbn [gk_init].
  unfold visit_method in Ev. rewrite E, mvisits_app in Ev.
  destruct (makers_visit ms ND (fun _ => None) []) as [V1 V]; [reflexivity|]. rewrite V1 in Ev.
  destruct (snd (mvisits (map make ms) _)) as [sh al] eqn:Es. cbn [fst] in V.
  assert (Hs : shaped ms sh) by (intros x ds M; rewrite V, M; reflexivity).
  destruct (code_is_ok ms rest S sh al Hs) as [E2 R2]. cbn [fst snd] in Ev. rewrite E2 in Ev. injection Ev as <- <-.
  unfold run_method. cbn [fst snd].
  destruct (makers_run ms ND l args (mk_obj (Some false) (o_attr o)) blank m) as (o1 & po1 & m1 & G1 & P1 & F1 & X1).
  { intros L x s v _. cbn. apply Fr. exact L. }
  assert (A1 : agrees ms o1 po1).
  { intros x ds M. specialize (X1 x). rewrite M in X1. destruct X1 as (v & X & Y). exists (map (value_of args) ds), v.
    split; [exact X|]. split; [exact Y|]. intros L. apply lit_value. exact L. }
  destruct (R2 l args o1 po1 m1 A1) as (o2 & po2 & m2 & G2 & P2 & A2 & F2).
  rewrite gruns_app, G1. cbn [obind]. rewrite G2. cbn [obind].
  rewrite E, py_ms_app.
  match goal with |- context [obind (py_ms args (map make ms) ?s) _] =>
    replace (py_ms args (map make ms) s) with (Some (po1, g_out m1)) by (symmetry; exact P1) end.
  cbn [obind]. rewrite P2.
  exists o2, po2, m2. rewrite F2, F1. cbn [o_freed].
  destruct En as [->|[-> ->]]; auto.
Qed.

(* ------------------------------ methods and the destructor ------------------------------ *)

Lemma methods_visit ms sh l : shaped ms sh -> Forall (fun m => settled_code ms (m_body m)) l ->
  visit_methods l sh = (map (fun m => (fst (mvisits (m_body m) (sh, [])), m_end m, [])) l, sh).
Proof.
  intros Hs. induction 1 as [|m l S _ IH]; [reflexivity|]. cbn [visit_methods map]. unfold visit_method.
  destruct (code_is_ok ms (m_body m) S sh [] Hs) as [E _].
  destruct (mvisits (m_body m) (sh, [])) as [g st]. cbn [snd] in E. subst st. cbn [fst snd nodup]. rewrite IH. reflexivity.
Qed.
Lemma no_frees l attrs : del_frees l attrs = [].
Proof. destruct l; reflexivity. Qed.

Lemma class_parts l ms k : settled l ms k ->
  gk_methods (visit_class l k) = map (fun m => (fst (mvisits (m_body m) (init_shapes k, [])), m_end m, [])) (k_methods k) /\
  gk_del (visit_class l k) = fst (mvisits (k_del k) (init_shapes k, [])) /\ gk_frees (visit_class l k) = [].
Proof.
  intros Hk. pose proof (init_shaped l ms k Hk) as Hs. destruct Hk as (_ & _ & _ & Hm & _). unfold visit_class, init_shapes in *.
  destruct (visit_method (k_init k) (fun _ => None)) as [gi sh1]. cbn [snd] in Hs.
  rewrite (methods_visit ms sh1 (k_methods k) Hs Hm). destruct (mvisits (k_del k) (sh1, [])) as [gd st2] eqn:Ed. cbn [gk_methods gk_del gk_frees fst snd]. split; [reflexivity|]. split; [exact (eq_sym (f_equal fst Ed))|]. apply no_frees.
Qed.

Lemma method_ok l ms k n me : settled l ms k -> nth_error (k_methods k) n = Some me ->
  exists gme, nth_error (gk_methods (visit_class l k)) n = Some gme /\
  forall args o po m, agrees ms o po -> exists o' po' m', run_method l gme args (o, m) = Some (o', m') /\
    py_ms args (m_body me) (po, g_out m) = Some (po', g_out m') /\ agrees ms o' po' /\ o_freed o' = o_freed o.
Proof.
  intros Hk Hn. destruct (class_parts l ms k Hk) as (E & _ & _). rewrite E.
  rewrite (map_nth_error _ _ _ Hn). eexists. split; [reflexivity|]. intros args o po m A.
  pose proof (init_shaped l ms k Hk) as Hs. destruct Hk as (_ & _ & _ & Hm & _).
  rewrite Forall_forall in Hm. specialize (Hm me (nth_error_In _ _ Hn)).
  destruct (code_is_ok ms (m_body me) Hm (init_shapes k) [] Hs) as [_ R].
  destruct (R l args o po m A) as (o' & po' & m' & G & P & A' & F'). exists o', po', m'.
  unfold run_method. rewrite G. cbn [obind]. destruct (m_end me), l; auto.
Qed.
Lemma method_none l ms k n : settled l ms k -> nth_error (k_methods k) n = None -> nth_error (gk_methods (visit_class l k)) n = None.
Proof.
  intros Hk Hn. destruct (class_parts l ms k Hk) as (E & _ & _). rewrite E.
  apply nth_error_None. rewrite map_length. apply nth_error_None. exact Hn.
Qed.

Lemma del_ok l ms k o po m : settled l ms k -> agrees ms o po -> o_freed o = Some false ->
  exists o' m', run_del l (visit_class l k) (o, m) = Some (o', m') /\ py_del k (Some po) (g_out m) = Some (g_out m') /\ exists po', agrees ms o' po'.
Proof.
  intros Hk A F. destruct (class_parts l ms k Hk) as (_ & E & E'). unfold run_del. cbn [fst]. rewrite F, E, E'.
  pose proof (init_shaped l ms k Hk) as Hs. destruct Hk as (_ & _ & _ & _ & Hd).
  destruct (code_is_ok ms (k_del k) Hd (init_shapes k) [] Hs) as [_ R].
  destruct (R l [] o po m A) as (o' & po' & m' & G & P & A' & F').
  rewrite G. cbn [obind free_attrs fst snd]. eexists _, m'. split; [reflexivity|]. split; [exact (f_equal (option_map snd) P)|]. exists po'. exact A'.
Qed.

Lemma silent_code b : forallb silent b = true -> forall args o t o' t', py_ms args b (o, t) = Some (o', t') -> t' = t.
Proof.
  assert (X : forall s, silent s = true -> forall args o t o' t', py_m args s (o, t) = Some (o', t') -> t' = t).
  { induction s as [x ds f|x f|x|c a1 b1 Ha Hb] using mstmt_ind'; intros H args o t o' t' P.
    - cbn in P. injection P as _ <-. reflexivity.
    - cbn in P. destruct (o x) as [[s v]|]; [|discriminate]. injection P as _ <-. reflexivity.
    - discriminate.
    - cbn [silent] in H. apply andb_true_iff in H. destruct H as [H1 H2]. rewrite py_m_if in P.
      assert (Y : forall b, Forall (fun s => silent s = true -> forall args o t o' t', py_m args s (o, t) = Some (o', t') -> t' = t) b ->
        forallb silent b = true -> forall o t, py_ms args b (o, t) = Some (o', t') -> t' = t).
      { induction 1 as [|s b2 Hs _ IH]; intros S o2 t2 Q.
        - cbn in Q. congruence.
        - cbn [forallb] in S. apply andb_true_iff in S. destruct S as [S1 S2]. rewrite py_ms_cons in Q.
          destruct (py_m args s (o2, t2)) as [[o3 t3]|] eqn:E; [|discriminate]. cbn [obind] in Q.
          rewrite (IH S2 o3 t3 Q). apply (Hs S1 _ _ _ _ _ E). }
      destruct (c args); [apply (Y a1 Ha H1 o t P)|apply (Y b1 Hb H2 o t P)]. }
  induction b as [|s b IH]; intros S args o t o' t' P.
  - cbn in P. congruence.
  - cbn [forallb] in S. apply andb_true_iff in S. destruct S as [S1 S2]. rewrite py_ms_cons in P.
    destruct (py_m args s (o, t)) as [[o1 t1]|] eqn:E; [|discriminate]. cbn [obind] in P.
    rewrite (IH S2 _ _ _ _ _ P). apply (X s S1 _ _ _ _ _ E).
Qed.
Lemma silent_del k po t t' : forallb silent (k_del k) = true -> py_del k (Some po) t = Some t' -> t' = t.
Proof.
  intros S P. cbn in P. destruct (py_ms [] (k_del k) (po, t)) as [[o1 t1]|] eqn:E; [|discriminate]. cbn in P. injection P as <-.
  apply (silent_code _ S _ _ _ _ _ E).
Qed.

(* ------------------------------ functions ------------------------------ *)

Lemma ovisits_cons s p seen : ovisits (s :: p) seen =
  (fst (ovisit s seen) ++ fst (ovisits p (snd (ovisit s seen))), snd (ovisits p (snd (ovisit s seen)))).
Proof. cbn [ovisits]. destruct (ovisit s seen) as [g s1]. cbn. destruct (ovisits p s1). reflexivity. Qed.
Lemma ovisit_if c p q seen : ovisit (OIf c p q) seen =
  ([HIf c (fst (ovisits p seen)) (fst (ovisits q (snd (ovisits p seen))))], snd (ovisits q (snd (ovisits p seen)))).
Proof.
  change (ovisit (OIf c p q) seen) with (let '(g, s1) := ovisits p seen in let '(g', s2) := ovisits q s1 in ([HIf c g g'], s2)).
  destruct (ovisits p seen) as [g s1]. cbn. destruct (ovisits q s1). reflexivity.
Qed.
Lemma ovisit_loop n p seen : ovisit (OLoop n p) seen = ([HLoop n (fst (ovisits p seen))], snd (ovisits p seen)).
Proof. change (ovisit (OLoop n p) seen) with (let '(g, s1) := ovisits p seen in ([HLoop n g], s1)). destruct (ovisits p seen). reflexivity. Qed.
Lemma hruns_cons l k inp g b h : hruns l k inp (g :: b) h = obind (hrun l k inp g h) (hruns l k inp b).
Proof. reflexivity. Qed.
Lemma hruns_app l k inp a b h : hruns l k inp (a ++ b) h = obind (hruns l k inp a h) (hruns l k inp b).
Proof. revert h. induction a as [|g a IH]; intros h; [reflexivity|]. rewrite <- app_comm_cons, !hruns_cons. destruct (hrun l k inp g h); cbn; [apply IH|reflexivity]. Qed.
Lemma hruns_one l k inp g h : hruns l k inp [g] h = hrun l k inp g h.
Proof. rewrite hruns_cons. destruct (hrun l k inp g h); reflexivity. Qed.
Lemma py_os_cons k inp s p h : py_os k inp (s :: p) h = obind (py_o k inp s h) (py_os k inp p).
Proof. reflexivity. Qed.

Lemma seen_names p : forall seen, snd (ovisits p seen) = fold_left add_name (flat_map creates p) seen.
Proof.
  assert (X : forall s seen, snd (ovisit s seen) = fold_left add_name (creates s) seen).
  { induction s as [a args|a m args|c p1 q1 Hp Hq|n p1 Hp] using ostmt_ind'; intros seen.
    - cbn. unfold add_name. destruct (existsb (Nat.eqb a) seen); reflexivity.
    - reflexivity.
    - rewrite ovisit_if. cbn [snd creates]. rewrite fold_left_app.
      assert (Y : forall b, Forall (fun s => forall seen, snd (ovisit s seen) = fold_left add_name (creates s) seen) b ->
        forall seen, snd (ovisits b seen) = fold_left add_name (flat_map creates b) seen).
      { induction 1 as [|s b Hs _ IH]; intros s0; [reflexivity|]. rewrite ovisits_cons. cbn [snd flat_map]. rewrite fold_left_app, <- Hs. apply IH. }
      rewrite (Y q1 Hq), (Y p1 Hp). reflexivity.
    - rewrite ovisit_loop. cbn [snd creates].
      revert seen. induction Hp as [|s b Hs _ IH]; intros s0; [reflexivity|]. rewrite ovisits_cons. cbn [snd flat_map]. rewrite fold_left_app, <- Hs. apply IH. }
  induction p as [|s p IH]; intros seen; [reflexivity|]. rewrite ovisits_cons. cbn [snd flat_map]. rewrite fold_left_app, <- X. apply IH.
Qed.

Lemma existsb_In a l : existsb (Nat.eqb a) l = true <-> In a l.
Proof. rewrite existsb_exists. split; [intros (x & H & E); apply Nat.eqb_eq in E; subst; exact H|intros H; exists a; split; [exact H|apply Nat.eqb_refl]]. Qed.
Lemma names_nodup l : forall acc, NoDup acc -> NoDup (fold_left add_name l acc).
Proof.
  induction l as [|a l IH]; intros acc H; [exact H|]. cbn. apply IH. unfold add_name.
  destruct (existsb (Nat.eqb a) acc) eqn:E; [exact H|].
  apply (Permutation_NoDup (Permutation_cons_append acc a)). constructor; [|exact H]. intros I. apply existsb_In in I. congruence.
Qed.

Definition linked (l : lang) (ms : list maker) (seen : list nat) (h : hst) (ph : pst) : Prop :=
  g_out (snd h) = snd ph /\
  (forall a, In a seen -> o_freed (fst h a) = Some false /\ exists po, fst ph a = Some po /\ agrees ms (fst h a) po) /\
  (forall a, ~ In a seen -> fst h a = declared l /\ fst ph a = None).
Definition both (R : hst -> pst -> Prop) (r : option hst) (q : option pst) : Prop :=
  match r, q with Some h, Some ph => R h ph | None, None => True | _, _ => False end.
Lemma both_bind R R' r q f g : both R r q -> (forall h ph, R h ph -> both R' (f h) (g ph)) -> both R' (obind r f) (obind q g).
Proof. destruct r, q; cbn; intros H H'; try contradiction; auto. Qed.

Lemma linked_set l ms seen h ph a o po m t : linked l ms seen h ph -> In a seen -> o_freed o = Some false -> agrees ms o po -> g_out m = t ->
  linked l ms seen (upd (fst h) a o, m) (upd (fst ph) a (Some po), t).
Proof.
  intros (_ & L2 & L3) I F A E. split; [exact E|]. split; intros b Hb; cbn [fst].
  - destruct (Nat.eq_dec b a) as [->|N]; [rewrite !upd_eq; split; [exact F|]; exists po; auto|]. rewrite !upd_ne by exact N. apply L2. exact Hb.
  - rewrite !upd_ne by (intros ->; contradiction). apply L3. exact Hb.
Qed.
Lemma linked_new l ms seen h ph a o po m t : linked l ms seen h ph -> o_freed o = Some false -> agrees ms o po -> g_out m = t ->
  linked l ms (seen ++ [a]) (upd (fst h) a o, m) (upd (fst ph) a (Some po), t).
Proof.
  intros (_ & L2 & L3) F A E. split; [exact E|]. split; intros b Hb; cbn [fst].
  - destruct (Nat.eq_dec b a) as [->|N]; [rewrite !upd_eq; split; [exact F|]; exists po; auto|]. rewrite !upd_ne by exact N.
    apply L2. apply in_app_or in Hb. destruct Hb as [Hb|[Hb|[]]]; [exact Hb|congruence].
  - rewrite !upd_ne by (intros ->; apply Hb, in_or_app; right; left; reflexivity). apply L3. intros I. apply Hb, in_or_app. left. exact I.
Qed.


Lemma fresh_declared l : fresh l (declared l).
Proof. intros -> x sh v. discriminate. Qed.

(* replacing an object in C *)
Lemma again_ok ms k inp seen a args h ph : settled LC ms k -> forallb silent (k_del k) = true -> In a seen -> linked LC ms seen h ph ->
  both (linked LC ms seen) (hruns LC (visit_class LC k) inp [HDel a; HInit a args] h) (py_o k inp (OCreate a args) ph).
Proof.
  intros Hk S I L. pose proof L as (L1 & L2 & L3). destruct (L2 a I) as (F & po & P & A).
  rewrite hruns_cons. cbn [hrun]. unfold on at 1.
  destruct (del_ok LC ms k (fst h a) po (snd h) Hk A F) as (o1 & m1 & G1 & D1 & _). rewrite G1. cbn [obind].
  pose proof (silent_del k po _ _ S D1) as E1. rewrite hruns_one. cbn [hrun]. unfold on. cbn [fst snd]. rewrite upd_eq.
  destruct (init_ok LC ms k Hk (args inp) o1 m1) as (o2 & po2 & m2 & G2 & P2 & A2 & F2); [intros X; discriminate|].
  rewrite G2. cbn [py_o]. rewrite <- L1. rewrite <- E1, P2. cbn [obind fst snd]. rewrite P.
  destruct (del_ok LC ms k (fst h a) po m2 Hk A F) as (o3 & m3 & G3 & D3 & _). rewrite D3. cbn [obind both].
  pose proof (silent_del k po _ _ S D3) as E3. rewrite E3.
  assert (X : linked LC ms seen (upd (fst h) a o2, m2) (upd (fst ph) a (Some po2), g_out m2)) by (apply linked_set; auto).
  destruct X as (X1 & X2 & X3). split; [exact X1|]. cbn [fst snd] in *. split.
  - intros b Hb. specialize (X2 b Hb). destruct (Nat.eq_dec b a) as [->|N]; [rewrite !upd_eq in *; exact X2|]. rewrite !upd_ne in * by exact N. exact X2.
  - intros b Hb. specialize (X3 b Hb). assert (N : b <> a) by (intros ->; contradiction). rewrite !upd_ne in * by exact N. exact X3.
Qed.

Definition may (l : lang) (k : class) (again : bool) : Prop := again = true -> l = LC /\ forallb silent (k_del k) = true.
Definition inner_ok (l : lang) (ms : list maker) (k : class) (again : bool) (inp : list Z) (seen : list nat) (s : ostmt) : Prop :=
  placed_in again seen s = true -> snd (ovisit s seen) = seen /\
  forall h ph, linked l ms seen h ph -> both (linked l ms seen) (hruns l (visit_class l k) inp (fst (ovisit s seen)) h) (py_o k inp s ph).

Lemma inner_list l ms k again inp seen p : Forall (inner_ok l ms k again inp seen) p -> forallb (placed_in again seen) p = true ->
  snd (ovisits p seen) = seen /\
  forall h ph, linked l ms seen h ph -> both (linked l ms seen) (hruns l (visit_class l k) inp (fst (ovisits p seen)) h) (py_os k inp p ph).
Proof.
  induction 1 as [|s p Hs _ IH]; intros B.
  - split; [reflexivity|]. intros h ph L. exact L.
  - cbn [forallb] in B. apply andb_true_iff in B. destruct B as [B1 B2].
    destruct (Hs B1) as [E1 R1]. destruct (IH B2) as [E2 R2]. rewrite ovisits_cons, E1. split; [exact E2|].
    intros h ph L. cbn [fst]. rewrite hruns_app, py_os_cons. eapply both_bind; [apply R1; exact L|exact R2].
Qed.
Lemma both_iter (R : hst -> pst -> Prop) n f g : (forall h ph, R h ph -> both R (f h) (g ph)) -> forall h ph, R h ph -> both R (iter_o n f h) (iter_o n g ph).
Proof. intros H. induction n as [|n IH]; intros h ph L; [exact L|]. cbn. eapply both_bind; [apply H; exact L|exact IH]. Qed.

Lemma inner_is_ok l ms k again inp seen s : settled l ms k -> may l k again -> inner_ok l ms k again inp seen s.
Proof.
  intros Hk Hg. induction s as [a args|a m args|c p q Hp Hq|n p Hp] using ostmt_ind'; intros B.
  - cbn [placed_in] in B. apply andb_true_iff in B. destruct B as [B1 B2]. cbn [ovisit]. rewrite B2. split; [reflexivity|].
    intros h ph L. destruct (Hg B1) as [-> S]. cbn [fst]. apply again_ok; auto. apply existsb_In. exact B2.
  - cbn [placed_in] in B. apply existsb_In in B. split; [reflexivity|]. intros h ph L. pose proof L as (L1 & L2 & L3).
    destruct (L2 a B) as (F & po & P & A). cbn [ovisit fst]. rewrite hruns_one. cbn [hrun py_o]. rewrite P.
    destruct (nth_error (k_methods k) m) as [me|] eqn:En.
    + destruct (method_ok l ms k m me Hk En) as (gme & Eg & R). rewrite Eg. unfold on.
      destruct (R (args inp) (fst h a) po (snd h) A) as (o' & po' & m' & G & Q & A' & F'). rewrite G, <- L1, Q. cbn [obind both].
      apply linked_set; auto. rewrite F'. exact F.
    + rewrite (method_none l ms k m Hk En). exact Logic.I.
  - cbn [placed_in] in B. apply andb_true_iff in B. destruct B as [B1 B2].
    destruct (inner_list l ms k again inp seen p Hp B1) as [E1 R1]. destruct (inner_list l ms k again inp seen q Hq B2) as [E2 R2].
    rewrite ovisit_if, E1, E2. split; [reflexivity|]. intros h ph L. cbn [fst]. rewrite hruns_one.
    change (both (linked l ms seen) (if c inp then hruns l (visit_class l k) inp (fst (ovisits p seen)) h else hruns l (visit_class l k) inp (fst (ovisits q seen)) h)
      (if c inp then py_os k inp p ph else py_os k inp q ph)).
    destruct (c inp); [apply R1; exact L|apply R2; exact L].
  - cbn [placed_in] in B. destruct (inner_list l ms k again inp seen p Hp B) as [E1 R1].
    rewrite ovisit_loop, E1. split; [reflexivity|]. intros h ph L. cbn [fst]. rewrite hruns_one.
    change (both (linked l ms seen) (iter_o n (hruns l (visit_class l k) inp (fst (ovisits p seen))) h) (iter_o n (py_os k inp p) ph)).
    apply both_iter; [exact R1|exact L].
Qed.

Lemma body_ok l ms k again inp : settled l ms k -> may l k again -> forall p seen h ph, placed again seen p = true -> linked l ms seen h ph ->
  both (linked l ms (snd (ovisits p seen))) (hruns l (visit_class l k) inp (fst (ovisits p seen)) h) (py_os k inp p ph).
Proof.
  intros Hk Hg. induction p as [|s p IH]; intros seen h ph B L; [exact L|].
  rewrite ovisits_cons. cbn [fst snd]. rewrite hruns_app, py_os_cons.
  assert (Inner : placed_in again seen s = true -> placed again seen p = true ->
    both (linked l ms (snd (ovisits p (snd (ovisit s seen)))))
      (obind (hruns l (visit_class l k) inp (fst (ovisit s seen)) h) (hruns l (visit_class l k) inp (fst (ovisits p (snd (ovisit s seen))))))
      (obind (py_o k inp s ph) (py_os k inp p))).
  { intros B1 B2. destruct (inner_is_ok l ms k again inp seen s Hk Hg B1) as [E1 R1]. rewrite E1.
    eapply both_bind; [apply R1; exact L|]. intros h1 ph1 L1. apply IH; assumption. }
  destruct s as [a args|a m args|c p1 q1|n p1].
  - cbn [placed] in B. destruct (existsb (Nat.eqb a) seen) eqn:Ea.
    + apply andb_true_iff in B. destruct B as [B1 B2]. apply Inner; [|exact B2]. cbn. rewrite B1, Ea. reflexivity.
    + clear Inner. cbn [ovisit]. rewrite Ea. cbn [fst snd]. rewrite hruns_one. pose proof L as (L1 & L2 & L3).
      assert (N : ~ In a seen) by (intros I; apply existsb_In in I; congruence). destruct (L3 a N) as [D P].
      cbn [hrun py_o]. unfold on. rewrite D.
      destruct (init_ok l ms k Hk (args inp) (declared l) (snd h) (fresh_declared l)) as (o' & po' & m' & G & Q & A & F).
      rewrite G, <- L1, Q. cbn [obind fst snd]. rewrite P. cbn [py_del obind]. apply IH; [exact B|]. apply linked_new; auto.
  - cbn [placed] in B. apply andb_true_iff in B. destruct B as [B1 B2]. apply Inner; assumption.
  - cbn [placed] in B. apply andb_true_iff in B. destruct B as [B1 B2]. apply Inner; assumption.
  - cbn [placed] in B. apply andb_true_iff in B. destruct B as [B1 B2]. apply Inner; assumption.
Qed.

Definition alive (ms : list maker) (d : list nat) (h : hst) (ph : pst) : Prop :=
  g_out (snd h) = snd ph /\ forall a, In a d -> o_freed (fst h a) = Some false /\ exists po, fst ph a = Some po /\ agrees ms (fst h a) po.
Lemma dels_ok l ms k inp : settled l ms k -> forall d h ph, NoDup d -> alive ms d h ph ->
  exists h', hruns l (visit_class l k) inp (map HDel d) h = Some h' /\ py_dels k d ph = Some (g_out (snd h')).
Proof.
  intros Hk. induction d as [|a d IH]; intros h ph ND (E & L).
  - exists h. split; [reflexivity|]. cbn. rewrite E. reflexivity.
  - apply NoDup_cons_iff in ND. destruct ND as [NI ND]. destruct (L a (or_introl eq_refl)) as (F & po & P & A).
    destruct (del_ok l ms k (fst h a) po (snd h) Hk A F) as (o' & m' & G & D & _).
    cbn [map]. rewrite hruns_cons. cbn [hrun py_dels]. unfold on. rewrite G, P, <- E, D. cbn [obind].
    apply IH; [exact ND|]. split; [reflexivity|]. intros b Hb. cbn [fst]. rewrite upd_ne by (intros ->; contradiction). apply L. right. exact Hb.
Qed.
Lemma silent_dels l ms k : settled l ms k -> forallb silent (k_del k) = true -> forall d h ph, alive ms d h ph -> py_dels k d ph = Some (snd ph).
Proof.
  intros Hk S. induction d as [|a d IH]; intros h ph (E & L); [reflexivity|].
  destruct (L a (or_introl eq_refl)) as (F & po & P & A).
  destruct (del_ok l ms k (fst h a) po (snd h) Hk A F) as (o' & m' & G & D & _).
  cbn [py_dels]. rewrite P, <- E, D. cbn [obind]. rewrite (silent_del k po _ _ S D).
  rewrite (IH h (fst ph, g_out (snd h))); [reflexivity|]. split; [reflexivity|]. intros b Hb. apply L. right. exact Hb.
Qed.

Lemma same_output l ms k again p inp order :
  settled l ms k -> placed again [] p = true -> (again = true -> l = LC /\ forallb silent (k_del k) = true) ->
  (order (names p) = names p \/ (Permutation (order (names p)) (names p) /\ forallb silent (k_del k) = true)) ->
  option_map (fun h => g_out (snd h)) (g_function l order k p inp) = py_function k p inp.
Proof.
  intros Hk B Hg Ho. unfold g_function, py_function.
  pose proof (seen_names p []) as E. fold (names p) in E.
  assert (L0 : linked l ms [] (fun _ => declared l, mk_mem 0 0 []) (fun _ => None, [])).
  { split; [reflexivity|]. split; [intros a []|]. intros a _. split; reflexivity. }
  pose proof (body_ok l ms k again inp Hk Hg p [] _ _ B L0) as R.
  destruct (ovisits p []) as [g seen]. cbn [fst snd] in *. subst seen.
  destruct (hruns l (visit_class l k) inp g _) as [h|], (py_os k inp p _) as [ph|]; cbn [both] in R; try contradiction; [|reflexivity].
  cbn [obind]. destruct R as (R1 & R2 & _).
  assert (ND : NoDup (names p)) by (apply names_nodup; constructor).
  destruct Ho as [Ho|[Ho S]].
  - rewrite Ho. destruct (dels_ok l ms k inp Hk (names p) h ph ND (conj R1 R2)) as (h' & G & D). rewrite G, D. reflexivity.
  - assert (Al : alive ms (order (names p)) h ph).
    { split; [exact R1|]. intros a Ha. apply R2. apply (Permutation_in _ Ho Ha). }
    destruct (dels_ok l ms k inp Hk (order (names p)) h ph (Permutation_NoDup (Permutation_sym Ho) ND) Al) as (h' & G & D). rewrite G.
    rewrite (silent_dels l ms k Hk S _ h ph Al) in D. rewrite (silent_dels l ms k Hk S (names p) h ph (conj R1 R2)). cbn. congruence.
Qed.

(* ------------------------------ what is never freed ------------------------------ *)

Definition kept (m : mem) : Prop := g_live m = g_made m.
Lemma grun_kept args g : forall s s', grun LC args g s = Some s' -> kept (snd s) -> kept (snd s').
Proof.
  induction g as [x al ds f|x f|x|c a b Ha Hb] using gm_ind'; intros s s' G K.
  - cbn [grun] in G. destruct al.
    + injection G as <-. unfold kept in *. cbn. congruence.
    + destruct (o_attr (fst s) x); try discriminate. injection G as <-. exact K.
  - cbn [grun] in G. destruct (o_attr (fst s) x); try discriminate. injection G as <-. exact K.
  - cbn [grun] in G. destruct (o_attr (fst s) x); try discriminate. injection G as <-. exact K.
  - rewrite grun_if in G.
    assert (X : forall b, Forall (fun g => forall s s', grun LC args g s = Some s' -> kept (snd s) -> kept (snd s')) b ->
      forall s, gruns LC args b s = Some s' -> kept (snd s) -> kept (snd s')).
    { induction 1 as [|g b2 Hg _ IH]; intros s2 Q K2; [injection Q as <-; exact K2|].
      rewrite gruns_cons in Q. destruct (grun LC args g s2) as [s3|] eqn:E; [|discriminate]. apply (IH s3 Q). apply (Hg s2 s3 E K2). }
    destruct (c args); [apply (X a Ha s G K)|apply (X b Hb s G K)].
Qed.
Lemma gruns_kept args b : forall s s', gruns LC args b s = Some s' -> kept (snd s) -> kept (snd s').
Proof.
  induction b as [|g b IH]; intros s s' G K; [injection G as <-; exact K|].
  rewrite gruns_cons in G. destruct (grun LC args g s) as [s1|] eqn:E; [|discriminate]. apply (IH s1 s' G). apply (grun_kept args g s s1 E K).
Qed.
Definition keeps_all (m : gmethod) : Prop := snd (fst m) <> ReturnValue.
Lemma method_kept m args s s' : keeps_all m -> run_method LC m args s = Some s' -> kept (snd s) -> kept (snd s').
Proof.
  destruct m as [[b e] fr]. unfold keeps_all. cbn [fst snd]. intros H R K. unfold run_method in R.
  destruct (gruns LC args b s) as [s1|] eqn:E; [|discriminate]. cbn [obind] in R. pose proof (gruns_kept args b s s1 E K).
  destruct e; try contradiction; injection R as <-; assumption.
Qed.
Lemma visit_methods_end l : forall sh, map (fun m => snd (fst m)) (fst (visit_methods l sh)) = map m_end l.
Proof.
  induction l as [|m l IH]; intros sh; [reflexivity|]. cbn [visit_methods]. unfold visit_method.
  destruct (mvisits (m_body m) (sh, [])) as [g st]. specialize (IH (fst st)).
  destruct (visit_methods l (fst st)) as [gs sh2]. cbn in *. f_equal. exact IH.
Qed.
Lemma class_keeps k : m_end (k_init k) <> ReturnValue -> Forall (fun m => m_end m <> ReturnValue) (k_methods k) ->
  keeps_all (gk_init (visit_class LC k)) /\ Forall keeps_all (gk_methods (visit_class LC k)).
Proof.
  intros H1 H2. unfold visit_class, visit_method. destruct (mvisits (m_body (k_init k)) _) as [g st].
  pose proof (visit_methods_end (k_methods k) (fst st)) as E.
  destruct (visit_methods (k_methods k) (fst st)) as [gs sh2]. destruct (mvisits (k_del k) (sh2, [])) as [gd st2].
  cbn [gk_init gk_methods fst snd] in *. split; [exact H1|].
  apply Forall_forall. intros m Hm. unfold keeps_all. intros C.
  assert (I : In ReturnValue (map (fun m : gmethod => snd (fst m)) gs)) by (rewrite <- C; exact (in_map (fun m : gmethod => snd (fst m)) gs m Hm)).
  replace (map (fun m : gmethod => snd (fst m)) gs) with (map m_end (k_methods k)) in I by (symmetry; exact E). apply in_map_iff in I. destruct I as (me & Ee & Ie). rewrite Forall_forall in H2. exact (H2 me Ie Ee).
Qed.
Lemma init_kept k args s s' : keeps_all (gk_init k) -> run_init LC k args s = Some s' -> kept (snd s) -> kept (snd s').
Proof. intros H R K. unfold run_init in R. apply (method_kept _ _ _ _ H R). exact K. Qed.
Lemma del_kept k s s' : run_del LC (visit_class LC k) s = Some s' -> kept (snd s) -> kept (snd s').
Proof.
  intros R K. unfold run_del in R. destruct (o_freed (fst s)) as [[|]|]; [injection R as <-; exact K| |discriminate].
  destruct (gruns LC [] (gk_del (visit_class LC k)) s) as [s1|] eqn:E; [|discriminate]. cbn [obind] in R.
  assert (F : gk_frees (visit_class LC k) = []).
  { unfold visit_class. destruct (visit_method (k_init k) _) as [gi sh1]. destruct (visit_methods (k_methods k) sh1) as [gs sh2].
    destruct (mvisits (k_del k) (sh2, [])). apply no_frees. }
  rewrite F in R. cbn in R. injection R as <-. apply (gruns_kept [] _ s s1 E K).
Qed.
Lemma on_kept a f h h' : (forall s s', f s = Some s' -> kept (snd s) -> kept (snd s')) -> on a f h = Some h' -> kept (snd h) -> kept (snd h').
Proof.
  intros H R K. unfold on in R. destruct (f (fst h a, snd h)) as [[o m]|] eqn:E; [|discriminate]. injection R as <-. exact (H _ _ E K).
Qed.
Lemma iter_kept n f : (forall h h' : hst, f h = Some h' -> kept (snd h) -> kept (snd h')) -> forall h h', iter_o n f h = Some h' -> kept (snd h) -> kept (snd h').
Proof.
  intros H. induction n as [|n IH]; intros h h' R K; [injection R as <-; exact K|]. cbn in R.
  destruct (f h) as [h1|] eqn:E; [|discriminate]. cbn in R. apply (IH h1 h' R). apply (H h h1 E K).
Qed.
Lemma hrun_kept k inp g : keeps_all (gk_init (visit_class LC k)) -> Forall keeps_all (gk_methods (visit_class LC k)) ->
  forall h h', hrun LC (visit_class LC k) inp g h = Some h' -> kept (snd h) -> kept (snd h').
Proof.
  intros H1 H2.
  assert (X : forall b, Forall (fun g => forall h h', hrun LC (visit_class LC k) inp g h = Some h' -> kept (snd h) -> kept (snd h')) b ->
      forall h h', hruns LC (visit_class LC k) inp b h = Some h' -> kept (snd h) -> kept (snd h')).
  { induction 1 as [|g2 b2 Hg _ IH]; intros s2 h' Q K2; [injection Q as <-; exact K2|].
    rewrite hruns_cons in Q. destruct (hrun LC (visit_class LC k) inp g2 s2) as [s3|] eqn:E; [|discriminate]. apply (IH s3 h' Q). apply (Hg s2 s3 E K2). }
  induction g as [a|a args|a m args|c p q Hp Hq|n p Hp] using gstm_ind'; intros h h' R K.
  - cbn [hrun] in R. apply (on_kept a _ h h' (fun s s' => del_kept k s s') R K).
  - cbn [hrun] in R. apply (on_kept a _ h h' (fun s s' => init_kept _ _ s s' H1) R K).
  - cbn [hrun] in R. destruct (nth_error (gk_methods (visit_class LC k)) m) as [me|] eqn:E; [|discriminate].
    rewrite Forall_forall in H2. apply (on_kept a _ h h' (fun s s' => method_kept me _ s s' (H2 me (nth_error_In _ _ E))) R K).
  - change (hrun LC (visit_class LC k) inp (HIf c p q) h) with
      (if c inp then hruns LC (visit_class LC k) inp p h else hruns LC (visit_class LC k) inp q h) in R.
    destruct (c inp); [apply (X p Hp h h' R K)|apply (X q Hq h h' R K)].
  - change (hrun LC (visit_class LC k) inp (HLoop n p) h) with (iter_o n (hruns LC (visit_class LC k) inp p) h) in R.
    apply (iter_kept n _ (X p Hp) h h' R K).
Qed.
Lemma never_freed order k p inp h : m_end (k_init k) <> ReturnValue -> Forall (fun m => m_end m <> ReturnValue) (k_methods k) ->
  g_function LC order k p inp = Some h -> g_live (snd h) = g_made (snd h).
Proof.
  intros H1 H2 R. destruct (class_keeps k H1 H2) as [K1 K2]. unfold g_function in R. destruct (ovisits p []) as [g seen].
  assert (X : forall b h h', hruns LC (visit_class LC k) inp b h = Some h' -> kept (snd h) -> kept (snd h')).
  { induction b as [|g2 b IH]; intros h1 h2 Q K; [injection Q as <-; exact K|]. rewrite hruns_cons in Q.
    destruct (hrun LC (visit_class LC k) inp g2 h1) as [h3|] eqn:E; [|discriminate]. apply (IH h3 h2 Q). apply (hrun_kept k inp g2 K1 K2 h1 h3 E K). }
  destruct (hruns LC (visit_class LC k) inp g _) as [h1|] eqn:E; [|discriminate]. cbn [obind] in R.
  apply (X _ _ _ R). apply (X _ _ _ E). reflexivity.
Qed.

(* ------------------------------ objects that are replaced in Fortran ------------------------------ *)

Lemma init_again ms k m0 ms' args o m po : settled LFortran ms k -> ms = m0 :: ms' -> agrees ms o po ->
  run_init LFortran (visit_class LFortran k) args (o, m) = None.
Proof.
  intros Hk E A. destruct Hk as (ND & (rest & Ei & S) & _). unfold run_init, visit_class, visit_method. rewrite Ei, mvisits_app.
  destruct (makers_visit ms ND (fun _ => None) []) as [V1 _]; [reflexivity|]. rewrite V1. cbn [fst snd].
  destruct (visit_methods (k_methods k) _) as [gs sh2]. destruct (mvisits (k_del k) (sh2, [])) as [gd st2]. cbn [gk_init].
  unfold run_method. rewrite E. cbn [map app]. rewrite gruns_cons.
  destruct m0 as [[x ds] f]. destruct (A x ds) as (sh & v & Ax & _).
  { rewrite E, maker_of_cons. cbn. rewrite Nat.eqb_refl. reflexivity. }
  cbn [grun maker_name fst snd o_attr]. rewrite Ax. reflexivity.
Qed.
Lemma replaced ms k order a f g p inp : settled LFortran ms k -> ms <> [] ->
  g_function LFortran order k (OCreate a f :: OCreate a g :: p) inp = None.
Proof.
  intros Hk Hm. destruct ms as [|m0 ms']; [congruence|]. unfold g_function. rewrite !ovisits_cons. cbn [ovisit existsb fst snd app].
  rewrite Nat.eqb_refl. cbn [orb fst snd app]. rewrite !hruns_cons. cbn [hrun]. unfold on at 1. cbn [fst snd].
  destruct (init_ok LFortran _ k Hk (f inp) (declared LFortran) (mk_mem 0 0 []) (fresh_declared LFortran)) as (o1 & po1 & m1 & G1 & _ & A1 & F1).
  rewrite G1. cbn [obind]. rewrite hruns_cons. cbn [hrun]. unfold on at 1. cbn [fst snd]. rewrite upd_eq.
  destruct (del_ok LFortran _ k o1 po1 m1 Hk A1 F1) as (o2 & m2 & G2 & _ & po2 & A2). rewrite G2. cbn [obind]. rewrite hruns_cons. cbn [hrun]. unfold on.
  cbn [fst snd]. rewrite upd_eq. rewrite (init_again _ k m0 ms' (g inp) o2 m2 po2 Hk eq_refl A2). reflexivity.
Qed.
Lemma replaced_loop ms k order a f n p inp : settled LFortran ms k -> ms <> [] ->
  g_function LFortran order k (OLoop (S (S n)) [OCreate a f] :: p) inp = None.
Proof.
  intros Hk Hm. destruct ms as [|m0 ms']; [congruence|]. unfold g_function. rewrite ovisits_cons, ovisit_loop, ovisits_cons. cbn [ovisit existsb fst snd app ovisits].
  rewrite hruns_cons.
  change (hrun LFortran (visit_class LFortran k) inp (HLoop (S (S n)) [HInit a f])) with
    (iter_o (S (S n)) (hruns LFortran (visit_class LFortran k) inp [HInit a f])). cbn [iter_o].
  rewrite hruns_one. cbn [hrun]. unfold on at 1. cbn [fst snd].
  destruct (init_ok LFortran _ k Hk (f inp) (declared LFortran) (mk_mem 0 0 []) (fresh_declared LFortran)) as (o1 & po1 & m1 & G1 & _ & A1 & F1).
  rewrite G1. cbn [obind]. rewrite hruns_one. cbn [hrun]. unfold on at 1. cbn [fst snd]. rewrite upd_eq.
  rewrite (init_again _ k m0 ms' (f inp) o1 m1 po1 Hk eq_refl A1). reflexivity.
Qed.
Lemma python_replaces l ms k a f g inp : settled l ms k -> py_function k [OCreate a f; OCreate a g] inp <> None.
Proof.
  intros Hk. unfold py_function. rewrite !py_os_cons. cbn [py_o snd fst].
  destruct (init_ok l ms k Hk (f inp) (declared l) (mk_mem 0 0 []) (fresh_declared l)) as (o1 & po1 & m1 & _ & P1 & A1 & F1).
  cbn [g_out] in P1. rewrite P1. cbn [obind fst snd py_del py_os]. cbn [py_o fst snd]. rewrite upd_eq.
  destruct (init_ok l ms k Hk (g inp) (declared l) m1 (fresh_declared l)) as (o2 & po2 & m2 & _ & P2 & A2 & F2).
  rewrite P2. cbn [obind fst snd].
  destruct (del_ok l ms k o1 po1 m2 Hk A1 F1) as (o3 & m3 & _ & D3 & _). rewrite D3. cbn [obind].
  unfold names. cbn [flat_map creates app fold_left add_name existsb]. unfold add_name at 1. cbn [existsb]. rewrite Nat.eqb_refl. cbn [orb py_dels fst snd]. rewrite upd_eq.
  destruct (del_ok l ms k o2 po2 m3 Hk A2 F2) as (o4 & m4 & _ & D4 & _). rewrite D4. discriminate.
Qed.

(* ------------------------------ destructors that print ------------------------------ *)

Lemma telling_loop inp v a n : forall h : hst, g_out (snd h) = [] ->
  exists h', iter_o (S n) (hruns LC (visit_class LC telling) inp [HInit a (fun _ => [v])]) h = Some h' /\
    g_out (snd h') = [] /\ o_freed (fst h' a) = Some false /\ o_attr (fst h' a) 0%nat = Arr [1] v.
Proof.
  induction n as [|n IH]; intros h H.
  - eexists. split; [reflexivity|]. split; [exact H|]. cbn. rewrite upd_eq. cbn. auto.
  - cbn [iter_o]. 
    assert (X : exists h1, hruns LC (visit_class LC telling) inp [HInit a (fun _ => [v])] h = Some h1 /\ g_out (snd h1) = []).
    { eexists. split; [reflexivity|exact H]. }
    destruct X as (h1 & E & H1). rewrite E. cbn [obind]. apply (IH h1 H1).
Qed.
Lemma python_telling_loop inp v a n : forall (h : pst) (t : out) (po : pobj), fst h a = Some po -> po 0%nat = Some ([1], v) -> snd h = t ->
  exists h' po', iter_o n (py_os telling inp [OCreate a (fun _ => [v])]) h = Some h' /\
    fst h' a = Some po' /\ po' 0%nat = Some ([1], v) /\ snd h' = t ++ repeat ([1], v) n.
Proof.
  induction n as [|n IH]; intros h t po H1 H2 H3.
  - exists h, po. cbn. rewrite app_nil_r. auto.
  - cbn [iter_o].
    assert (X : exists h1 po1, py_os telling inp [OCreate a (fun _ => [v])] h = Some h1 /\ fst h1 a = Some po1 /\ po1 0%nat = Some ([1], v) /\ snd h1 = t ++ [([1], v)]).
    { rewrite py_os_cons. cbn [py_o]. change (m_body (k_init telling)) with [MNew 0 [Lit 1] first_arg]. cbn [py_ms py_m obind fst snd]. rewrite H1. unfold py_del. change (k_del telling) with [MPrint 0]. cbn [py_ms py_m fst snd]. rewrite H2.
      cbn [obind option_map snd fst py_os]. eexists _, _. split; [reflexivity|]. cbn. rewrite upd_eq. split; [reflexivity|]. cbn. rewrite H3. auto. }
    destruct X as (h1 & po1 & E & P1 & P2 & P3). rewrite E. cbn [obind].
    destruct (IH h1 _ po1 P1 P2 P3) as (h' & po' & E' & Q1 & Q2 & Q3). exists h', po'. split; [exact E'|]. split; [exact Q1|]. split; [exact Q2|].
    rewrite Q3, <- app_assoc. reflexivity.
Qed.
Lemma loop_tells_once order a v n inp : order [a] = [a] ->
  option_map (fun h => g_out (snd h)) (g_function LC order telling [OLoop (S n) [OCreate a (fun _ => [v])]] inp) = Some [([1], v)] /\
  py_function telling [OLoop (S n) [OCreate a (fun _ => [v])]] inp = Some (repeat ([1], v) (S n)).
Proof.
  intros Ho. split.
  - unfold g_function. rewrite ovisits_cons, ovisit_loop, ovisits_cons. cbn [ovisit existsb fst snd app ovisits]. rewrite hruns_one.
    change (hrun LC (visit_class LC telling) inp (HLoop (S n) [HInit a (fun _ => [v])])) with
      (iter_o (S n) (hruns LC (visit_class LC telling) inp [HInit a (fun _ => [v])])).
    destruct (telling_loop inp v a n (fun _ => declared LC, mk_mem 0 0 []) eq_refl) as (h & E & H1 & H2 & H3). rewrite E. cbn [obind].
    rewrite Ho. cbn [map]. rewrite hruns_one. cbn [hrun]. unfold on, run_del. cbn [fst]. rewrite H2. cbn. rewrite H3. cbn. rewrite H1. reflexivity.
  - unfold py_function. cbn [py_os].
    change (py_o telling inp (OLoop (S n) [OCreate a (fun _ => [v])])) with (iter_o (S n) (py_os telling inp [OCreate a (fun _ => [v])])). cbn [iter_o].
    assert (X : exists h1 po1, py_os telling inp [OCreate a (fun _ => [v])] (fun _ => None, []) = Some h1 /\ fst h1 a = Some po1 /\ po1 0%nat = Some ([1], v) /\ snd h1 = []).
    { eexists _, _. split; [reflexivity|]. cbn. rewrite upd_eq. split; [reflexivity|]. cbn. auto. }
    destruct X as (h1 & po1 & E & P1 & P2 & P3). rewrite E. cbn [obind].
    destruct (python_telling_loop inp v a n h1 [] po1 P1 P2 P3) as (h' & po' & E' & Q1 & Q2 & Q3). rewrite E'. cbn [obind].
    unfold names. cbn [flat_map creates app fold_left]. unfold add_name. cbn [existsb app py_dels fst snd]. rewrite Q1.
    unfold py_del. change (k_del telling) with [MPrint 0]. cbn [py_ms py_m fst snd]. rewrite Q2, Q3. cbn [obind option_map snd app].
    f_equal. cbn [repeat]. rewrite repeat_cons. reflexivity.
Qed.
