(* Proofs for C103. *)
From Coq Require Import ZArith List Bool Lia.
From Verif Require Import Ptr_Model Ptr_Spec.
Import ListNotations.

Lemma addr_eqb_spec a b : addr_eqb a b = true <-> a = b.
Proof.
  destruct a as [f x|d i], b as [g y|e j]; cbn; try (split; discriminate); rewrite andb_true_iff, !Nat.eqb_eq; split; intros H;
    [destruct H; congruence|injection H; auto|destruct H; congruence|injection H; auto].
Qed.
Lemma set_same s a v : set s a v a = v.
Proof. unfold set. rewrite (proj2 (addr_eqb_spec a a) eq_refl). reflexivity. Qed.
Lemma set_other s a v b : b <> a -> set s a v b = s b.
Proof. intros N. unfold set. destruct (addr_eqb b a) eqn:E; [apply addr_eqb_spec in E; contradiction|reflexivity]. Qed.

Lemma Forall2_split {A B} (P : A -> B -> Prop) l1 : forall l2 m1 m2, length l1 = length m1 ->
  Forall2 P (l1 ++ l2) (m1 ++ m2) -> Forall2 P l1 m1 /\ Forall2 P l2 m2.
Proof.
  induction l1 as [|x l1 IH]; intros l2 [|y m1] m2 L H; try discriminate; [split; [constructor|exact H]|].
  inversion H; subst. destruct (IH l2 m1 m2) as [H1 H2]; [injection L; auto|assumption|]. split; [constructor; assumption|exact H2].
Qed.
Lemma insert_split {A B} (P : A -> B -> Prop) b rs ps rs' ps' : length rs = length rs' -> length ps = length ps' ->
  Forall2 P (insert_results b rs ps) (insert_results b rs' ps') -> Forall2 P rs rs' /\ Forall2 P ps ps'.
Proof.
  intros L1 L2. unfold insert_results. destruct b; [|apply Forall2_split; exact L1].
  destruct ps as [|p ps], ps' as [|p' ps']; try discriminate; cbn [firstn skipn app].
  - rewrite !app_nil_r. intros H. split; [exact H|constructor].
  - intros H. inversion H; subst. destruct (Forall2_split P rs ps rs' ps' L1) as [H1 H2]; [assumption|].
    split; [exact H1|constructor; assumption].
Qed.
Lemma insert_length {A} b (rs ps : list A) : length (insert_results b rs ps) = length rs + length ps.
Proof. unfold insert_results. destruct b; [|apply app_length]. destruct ps; cbn [firstn skipn app length]; rewrite app_length; cbn; lia. Qed.
Lemma insert_in {A} b (rs ps : list A) x : In x (insert_results b rs ps) <-> In x rs \/ In x ps.
Proof.
  unfold insert_results. destruct b; [|apply in_app_iff]. destruct ps; cbn [firstn skipn app]; [rewrite in_app_iff; tauto|].
  cbn [In]. rewrite in_app_iff. tauto.
Qed.
Lemma F2_impl {A B} (P Q : A -> B -> Prop) l m : (forall x y, In x l -> In y m -> P x y -> Q x y) -> Forall2 P l m -> Forall2 Q l m.
Proof. intros H F. induction F; constructor; [apply H; [left; reflexivity|left; reflexivity|assumption]|]. apply IHF. intros; apply H; try (right; assumption); assumption. Qed.
Lemma F2_map {A B C} (P : A -> C -> Prop) (g : B -> C) l m : Forall2 (fun x y => P x (g y)) l m -> Forall2 P l (map g m).
Proof. induction 1; constructor; assumption. Qed.
Lemma F2_map_inv {A B C} (P : A -> C -> Prop) (g : B -> C) l m : Forall2 P l (map g m) -> Forall2 (fun x y => P x (g y)) l m.
Proof. revert l. induction m as [|y m IH]; cbn; intros l H; inversion H; subst; constructor; auto. Qed.
Lemma F2_len {A B} (P : A -> B -> Prop) l m : Forall2 P l m -> length l = length m.
Proof. induction 1; cbn; congruence. Qed.
Lemma F2_nth {A B} (P : A -> B -> Prop) l m k x y : Forall2 P l m -> nth_error l k = Some x -> nth_error m k = Some y -> P x y.
Proof.
  intros H. revert k. induction H; intros [|k]; cbn; try discriminate; [|apply IHForall2]. intros [= <-] [= <-]. assumption.
Qed.

Section Call.
Variables (fr fr' n : nat) (extra : list nat) (s : store).
Hypothesis (NF : fr <> fr') (CL : clean fr fr' n s).

Definition ref (v : var) : val := match object fr extra s v with Some a => Ptr a | None => Null end.
Definition agrees (s1 : store) : Prop := forall a, old fr fr' n a -> s1 a = s a.

Lemma old_name x : x < n -> old fr fr' n (Cell fr x).
Proof. intros L. split; [exact NF|trivial]. Qed.
Lemma address_val s1 v : agrees s1 -> var_ok fr extra n s v -> rval fr s1 (print_address extra (EVar v)) = Some (ref v).
Proof.
  intros A [L O]. unfold print_address, ref, object. cbn [print is_c_pointer]. unfold print_var. destruct (var_ptr extra v) eqn:P.
  - cbn [address_code rval]. rewrite (A _ (old_name _ L)). destruct O as [[a ->]| ->]; reflexivity.
  - cbn [address_code rval lval]. reflexivity.
Qed.
Lemma print_val s1 v a : agrees s1 -> var_ok fr extra n s v -> object fr extra s v = Some a -> rval fr s1 (print extra (EVar v)) = Some (s a).
Proof.
  intros A [L O]. unfold object. cbn [print]. unfold print_var. destruct (var_ptr extra v) eqn:P.
  - destruct O as [[b E]|E]; rewrite E; [|discriminate]. intros [= <-]. cbn [rval]. rewrite (A _ (old_name _ L)), E. rewrite (A b); [reflexivity|].
    exact (CL _ _ E).
  - intros [= <-]. cbn [rval]. rewrite (A _ (old_name _ L)). reflexivity.
Qed.
Lemma object_old v a : var_ok fr extra n s v -> object fr extra s v = Some a -> old fr fr' n a.
Proof.
  intros [L O]. unfold object. destruct (var_ptr extra v).
  - destruct (s (Cell fr (name v))) eqn:E; try discriminate. intros [= <-]. exact (CL _ _ E).
  - intros [= <-]. apply old_name, L.
Qed.
Lemma elem_val s1 v i d : agrees s1 -> var_ok fr extra n s v -> content fr extra s v = Some (Span d) ->
  rval fr s1 (print extra (EElem v i)) = Some (s (Item d i)).
Proof.
  intros A V C. unfold content in C. destruct (object fr extra s v) as [a|] eqn:O; [|discriminate]. injection C as C.
  cbn [print]. pose proof (address_val s1 v A V) as AV. unfold print_address in AV. cbn [print is_c_pointer] in AV.
  cbn [rval]. rewrite AV. unfold ref. rewrite O. rewrite (A a (object_old v a V O)), C. rewrite (A (Item d i) I). reflexivity.
Qed.

(* what the cell of a parameter receives *)
Definition passed (s1 : store) (p : var) (e : exp) (w : val) : Prop :=
  if var_ptr extra p then
    match e with
    | EVar v => w = ref v
    | ENone => w = Null
    | EVal z => exists m, n <= m /\ w = Ptr (Cell fr m) /\ s1 (Cell fr m) = Num z
    | ECall r u => if var_ptr extra r then w = u else exists m, n <= m /\ w = Ptr (Cell fr m) /\ s1 (Cell fr m) = u
    | EElem v i => exists d, content fr extra s v = Some (Span d) /\ w = s (Item d i)
    end
  else arg_content fr extra s e = Some w.

Local Notation arg_any := (Ptr_Spec.arg_any fr extra n s).
Lemma build_ok : forall ps es k s', n <= k -> agrees s' -> Forall2 arg_any ps es ->
  exists s1, run_temps fr (fst (build_args extra k ps es)) s' = Some s1 /\
    (forall a, (forall m, a = Cell fr m -> m < k) -> s1 a = s' a) /\
    length (snd (build_args extra k ps es)) = length ps /\
    Forall2 (fun pe c => exists w, rval fr s1 c = Some w /\ passed s1 (fst pe) (snd pe) w) (combine ps es) (snd (build_args extra k ps es)).
Proof.
  intros ps es k s' K A F. revert k s' K A. induction F as [|p e ps es Hpe F IH]; intros k s' K A.
  - exists s'. cbn. repeat split; constructor.
  - assert (AG : forall s1 k', n <= k' -> (forall a, (forall m, a = Cell fr m -> m < k') -> s1 a = s' a) -> agrees s1).
    { intros s1 k' K' H a O. rewrite H; [apply A, O|]. intros m ->. destruct O as [_ O]. specialize (O eq_refl). lia. }
    assert (PL : (forall s1, agrees s1 -> exists w, rval fr s1 (print extra e) = Some w /\ passed s1 p e w) ->
      exists s1, run_temps fr (fst (let (t, a) := build_args extra k ps es in (t, print extra e :: a))) s' = Some s1 /\
        (forall a, (forall m, a = Cell fr m -> m < k) -> s1 a = s' a) /\
        length (snd (let (t, a) := build_args extra k ps es in (t, print extra e :: a))) = length (p :: ps) /\
        Forall2 (fun pe c => exists w, rval fr s1 c = Some w /\ passed s1 (fst pe) (snd pe) w) (combine (p :: ps) (e :: es))
          (snd (let (t, a) := build_args extra k ps es in (t, print extra e :: a)))).
    { intros H. destruct (IH k s' K A) as [s1 [R [S1 [L F1]]]]. destruct (build_args extra k ps es) as [t a]. cbn [fst snd] in *.
      exists s1. split; [exact R|]. split; [exact S1|]. split; [cbn; rewrite L; reflexivity|]. cbn [combine]. constructor; [|exact F1].
      cbn [fst snd]. apply H. exact (AG s1 k K S1). }
    assert (TM : forall u, (forall s1, rval fr s1 (print extra e) = Some u) ->
      (forall s1, s1 (Cell fr k) = u -> passed s1 p e (Ptr (Cell fr k))) ->
      exists s1, run_temps fr (fst (let (t, a) := build_args extra (S k) ps es in ((k, print extra e) :: t, CAddr (CName k) :: a))) s' = Some s1 /\
        (forall a, (forall m, a = Cell fr m -> m < k) -> s1 a = s' a) /\
        length (snd (let (t, a) := build_args extra (S k) ps es in ((k, print extra e) :: t, CAddr (CName k) :: a))) = length (p :: ps) /\
        Forall2 (fun pe c => exists w, rval fr s1 c = Some w /\ passed s1 (fst pe) (snd pe) w) (combine (p :: ps) (e :: es))
          (snd (let (t, a) := build_args extra (S k) ps es in ((k, print extra e) :: t, CAddr (CName k) :: a)))).
    { intros u HU HP. destruct (IH (S k) (set s' (Cell fr k) u)) as [s1 [R [S1 [L F1]]]]; [lia| |].
      { intros a O. rewrite set_other; [apply A, O|]. intros ->. destruct O as [_ O]. specialize (O eq_refl). lia. }
      destruct (build_args extra (S k) ps es) as [t a]. cbn [fst snd] in *. exists s1. split; [cbn [run_temps]; rewrite HU; exact R|].
      split; [|split; [cbn; rewrite L; reflexivity|]].
      - intros b Hb. rewrite S1; [|intros m E; specialize (Hb m E); lia]. apply set_other. intros ->. specialize (Hb k eq_refl). lia.
      - cbn [combine]. constructor; [|exact F1]. cbn [fst snd]. exists (Ptr (Cell fr k)). split; [reflexivity|].
        apply HP. rewrite S1; [apply set_same|]. intros m [= ->]. lia. }
    cbn [build_args]. cbv zeta. destruct (var_ptr extra p) eqn:P.
    + destruct e as [v|v i| |z|r w].
      * clear PL TM. destruct Hpe as [[V _]|[v0 [i [d [E _]]]]]; [|discriminate].
        destruct (IH k s' K A) as [s1 [R [S1 [L F1]]]]. destruct (build_args extra k ps es) as [t a]. cbn [fst snd] in *.
        exists s1. split; [exact R|]. split; [exact S1|]. split; [cbn; rewrite L; reflexivity|]. cbn [combine]. constructor; [|exact F1].
        cbn [fst snd]. exists (ref v). split; [apply address_val; [exact (AG s1 k K S1)|exact V]|]. unfold passed. rewrite P. reflexivity.
      * cbn [is_c_pointer]. apply PL. intros s1 A1. destruct Hpe as [[V [Q _]]|[v0 [i0 [d [[= <- <-] [V C]]]]]]; [congruence|].
        exists (s (Item d i)). split; [apply elem_val; assumption|]. unfold passed. rewrite P. exists d. split; [exact C|reflexivity].
      * cbn [is_c_pointer]. apply PL. intros s1 A1. exists Null. split; [reflexivity|]. unfold passed. rewrite P. reflexivity.
      * cbn [is_c_pointer]. apply (TM (Num z)); [reflexivity|]. intros s1 E. unfold passed. rewrite P. exists k. auto.
      * destruct Hpe as [H|[v0 [i [d [E _]]]]]; [|discriminate]. cbn [is_c_pointer]. destruct (var_ptr extra r) eqn:PR.
        -- apply PL. intros s1 A1. exists w. split; [reflexivity|]. unfold passed. rewrite P, PR. reflexivity.
        -- apply (TM w); [reflexivity|]. intros s1 E. unfold passed. rewrite P, PR. exists k. auto.
    + apply PL. intros s1 A1. unfold passed. rewrite P. destruct e as [v|v i| |z|r w].
      * destruct Hpe as [[V O]|[v0 [i [d [E _]]]]]; [|discriminate]. specialize (O P). destruct (object fr extra s v) as [a|] eqn:OB; [|congruence].
        exists (s a). split; [apply print_val; assumption|]. cbn [arg_content]. unfold content. rewrite OB. reflexivity.
      * assert (X : exists d, var_ok fr extra n s v /\ content fr extra s v = Some (Span d)).
        { destruct Hpe as [[V [_ [d C]]]|[v0 [i0 [d [[= <- <-] [V C]]]]]]; exists d; auto. }
        destruct X as [d [V C]]. exists (s (Item d i)). split; [apply elem_val; assumption|]. cbn [arg_content]. rewrite C. reflexivity.
      * destruct Hpe as [H|[v0 [i [d [E _]]]]]; [|discriminate]. cbn [arg_ok] in H. congruence.
      * exists (Num z). split; reflexivity.
      * destruct Hpe as [H|[v0 [i [d [E _]]]]]; [|discriminate]. cbn [arg_ok] in H. exists w. split; [reflexivity|]. cbn [arg_content].
        destruct (var_ptr extra r); [destruct H; congruence|reflexivity].
Qed.

Lemma bind_ok s1 : forall ps cs r, length ps = length cs -> NoDup (map name ps) -> Forall (fun c => exists w, rval fr s1 c = Some w) cs ->
  exists r', bind_params fr fr' s1 ps cs r = Some r' /\ (forall a, (forall p, In p ps -> a <> Cell fr' (name p)) -> r' a = r a) /\
    Forall2 (fun p c => rval fr s1 c = Some (r' (Cell fr' (name p)))) ps cs.
Proof.
  induction ps as [|p ps IH]; intros [|c cs] r L ND F; try discriminate.
  - exists r. split; [reflexivity|]. split; [reflexivity|constructor].
  - inversion F as [|? ? [w W] F']; subst. inversion ND as [|? ? NI ND']; subst. cbn [bind_params]. rewrite W.
    destruct (IH cs (set r (Cell fr' (name p)) w)) as [r' [B [O G]]]; [injection L; auto|assumption|assumption|].
    exists r'. split; [exact B|]. split.
    + intros a Ha. rewrite O; [|intros q Hq; apply Ha; right; exact Hq]. apply set_other, Ha. left. reflexivity.
    + constructor; [|exact G]. rewrite W. f_equal. rewrite O; [symmetry; apply set_same|].
      intros q Hq [= E]. apply NI. rewrite E. apply in_map. exact Hq.
Qed.

Lemma listed_in e v : listed e v = true <-> In (uid v) e.
Proof. unfold listed. rewrite existsb_exists. split; [intros [x [H E]]; apply Nat.eqb_eq in E; congruence|intros H; exists (uid v); split; [exact H|apply Nat.eqb_refl]]. Qed.
Lemma ptr_listed e v : listed e v = true -> var_ptr e v = true.
Proof. unfold var_ptr. intros ->. destruct (kd v); rewrite !orb_true_r; reflexivity. Qed.
Lemma ptr_unlisted e e' v : listed e v = false -> listed e' v = false -> var_ptr e v = var_ptr e' v.
Proof. unfold var_ptr. intros -> ->. reflexivity. Qed.

Section Fun.
Variables (f : func) (lhs : list var) (es : list exp).
Hypothesis (FO : func_ok extra f).
Hypothesis (AO : Forall2 arg_any (params f) es).
Hypothesis (LO : length lhs = length (results f)) (LV : Forall (fun v => var_ok fr extra n s v) lhs).
Hypothesis (GV : Forall (fun v => var_ok fr extra n s v) (globals f)).

Lemma call_run : exists s2 s1, call fr fr' extra n f lhs es s = Some s2 /\ agrees s1 /\
  (forall a, (forall x, a <> Cell fr' x) -> s2 a = s1 a) /\
  Forall2 (fun p e => passed s1 p e (s2 (Cell fr' (name p)))) (params f) es /\
  (multi f = true -> Forall2 (fun r v => s2 (Cell fr' (name r)) = ref v) (results f) lhs) /\
  Forall (fun g => s2 (Cell fr' (name g)) = ref g) (globals f).
Proof.
  destruct (build_ok (params f) es n s (le_n _) (fun a _ => eq_refl) AO) as [s1 [R [S1 [L F]]]].
  unfold call, call_codes. destruct (build_args extra n (params f) es) as [t cs] eqn:B. cbn [fst snd] in *. rewrite R.
  assert (A1 : agrees s1). { intros a O. rewrite S1; [reflexivity|]. intros m ->. destruct O as [_ O]. apply O. reflexivity. }
  set (outs := if multi f then map (fun v => print_address extra (EVar v)) lhs else []).
  set (gl := map (fun v => print_address extra (EVar v)) (globals f)).
  assert (LO' : length (out_vars f) = length outs) by (unfold out_vars, outs; destruct (multi f); [rewrite map_length; lia|reflexivity]).
  destruct FO as [ND [_ _]].
  destruct (bind_ok s1 (signature f) (insert_results (bound f) outs cs ++ gl) s1) as [s2 [BP [O G]]].
  - unfold signature. rewrite !app_length, !insert_length. unfold gl. rewrite map_length. lia.
  - exact ND.
  - apply Forall_forall. intros c Hc. apply in_app_iff in Hc. rewrite insert_in in Hc. destruct Hc as [[Hc|Hc]|Hc].
    + unfold outs in Hc. destruct (multi f); [|contradiction]. apply in_map_iff in Hc. destruct Hc as [v [<- Hv]]. exists (ref v).
      apply address_val; [exact A1|]. rewrite Forall_forall in LV. apply LV, Hv.
    + clear -F Hc. revert Hc. induction F as [|x y l m [w [W _]] F IH]; [contradiction|]. intros [<-|Hc]; [exists w; exact W|exact (IH Hc)].
    + unfold gl in Hc. apply in_map_iff in Hc. destruct Hc as [v [<- Hv]]. exists (ref v). apply address_val; [exact A1|].
      rewrite Forall_forall in GV. apply GV, Hv.
  - exists s2, s1. split; [exact BP|]. split; [exact A1|]. split; [intros a Ha; apply O; intros p _; apply Ha|].
    unfold signature in G. apply Forall2_split in G; [|rewrite !insert_length; lia]. destruct G as [G GG].
    apply insert_split in G; [|exact LO'|lia]. destruct G as [GO GP]. split; [|split].
    + clear -F GP AO. revert es cs F AO GP. induction (params f) as [|p ps IH]; intros es cs F AO GP; inversion AO; subst; [constructor|].
      inversion GP; subst. cbn [combine] in F. inversion F as [|? ? ? ? [w [W P]] F']; subst. cbn [fst snd] in *.
      constructor; [|eapply IH; eassumption]. replace (s2 (Cell fr' (name p))) with w by congruence. exact P.
    + intros M. unfold out_vars, outs in GO. rewrite M in GO. apply F2_map_inv in GO.
      eapply F2_impl; [|exact GO]. cbn beta. intros r v _ Hv E. rewrite address_val in E; [|exact A1|rewrite Forall_forall in LV; apply LV, Hv].
      congruence.
    + unfold gl in GG. apply F2_map_inv in GG. clear -GG A1 GV NF. apply Forall_forall. intros g Hg.
      assert (X : forall l, Forall2 (fun x y => rval fr s1 (print_address extra (EVar y)) = Some (s2 (Cell fr' (name x)))) l l -> In g l ->
        rval fr s1 (print_address extra (EVar g)) = Some (s2 (Cell fr' (name g)))).
      { induction l as [|x l IH]; intros H Hi; [contradiction|]; destruct Hi as [<-|Hi]; inversion H; subst; [assumption|apply IH; assumption]. }
      specialize (X _ GG Hg). rewrite address_val in X; [congruence|exact A1|]. rewrite Forall_forall in GV. apply GV, Hg.
Qed.

Lemma param_unlisted p : In p (params f) -> listed (inner_extra f) p = false.
Proof using FO.
  clear AO LO LV GV. intros Hp. destruct (listed (inner_extra f) p) eqn:L; [|reflexivity]. exfalso. apply listed_in in L. destruct FO as [_ [ND _]].
  unfold inner_extra in L. unfold signature in ND. rewrite map_app in L, ND. apply in_app_iff in L.
  assert (D : forall (l m : list nat), NoDup (l ++ m) -> forall x, In x l -> In x m -> False).
  { induction l as [|y l IH]; intros m H x Hx Hm; [contradiction|]; destruct Hx as [<-|Hx]; inversion H; subst; [apply H2, in_or_app; right; exact Hm|exact (IH m H3 x Hx Hm)]. }
  destruct L as [L|L].
  - assert (ND1 : NoDup (map uid (insert_results (bound f) (out_vars f) (params f)))).
    { clear -ND. induction (map uid (insert_results (bound f) (out_vars f) (params f))) as [|x l IH]; [constructor|].
      cbn in ND. inversion ND; subst. constructor; [intros H; apply H1, in_or_app; left; exact H|apply IH; assumption]. }
    unfold insert_results in ND1. destruct (bound f).
    + destruct (params f) as [|q qs]; [contradiction|]. cbn [firstn skipn app map] in ND1. inversion ND1 as [|? ? NI ND2]; subst.
      destruct Hp as [<-|Hp]; [apply NI; rewrite map_app; apply in_or_app; left; exact L|].
      rewrite map_app in ND2. exact (D _ _ ND2 _ L (in_map uid _ _ Hp)).
    + rewrite map_app in ND1. exact (D _ _ ND1 _ L (in_map uid _ _ Hp)).
  - refine (D _ _ ND (uid p) _ L). apply in_map. apply insert_in. right. exact Hp.
Qed.
Lemma param_ptr p : In p (params f) -> var_ptr (inner_extra f) p = var_ptr extra p.
Proof using FO. intros Hp. destruct FO as [_ [_ U]]. apply ptr_unlisted; [apply param_unlisted, Hp|apply U, Hp]. Qed.

Lemma ref_obj v : match ref v with Ptr a => Some a | _ => None end = object fr extra s v.
Proof using. unfold ref. destruct (object fr extra s v); reflexivity. Qed.
End Fun.

Lemma call_ok f lhs es : func_ok extra f -> Forall2 (arg_ok fr extra n s) (params f) es -> results_clean fr fr' n es ->
  length lhs = length (results f) -> Forall (var_ok fr extra n s) lhs -> Forall (var_ok fr extra n s) (globals f) ->
  exists s2, call fr fr' extra n f lhs es s = Some s2 /\
    Forall2 (fun p e => content fr' (inner_extra f) s2 p = arg_content fr extra s e /\
      (forall v, e = EVar v -> var_ptr extra p = true -> object fr' (inner_extra f) s2 p = object fr extra s v)) (params f) es /\
    (multi f = true -> Forall2 (fun r v => object fr' (inner_extra f) s2 r = object fr extra s v) (results f) lhs) /\
    Forall (fun g => object fr' (inner_extra f) s2 g = object fr extra s g) (globals f) /\
    forall a, old fr fr' n a -> s2 a = s a.
Proof.
  intros FO AO RC LO LV GV.
  assert (AO' : Forall2 arg_any (params f) es) by (eapply F2_impl; [|exact AO]; intros x y _ _ H; left; exact H).
  destruct (call_run f lhs es FO AO' LO LV GV) as [s2 [s1 [C [A1 [O [P [R G]]]]]]]. exists s2. split; [exact C|].
  assert (NEW : forall a, old fr fr' n a -> s2 a = s a).
  { intros a Ha. rewrite O; [apply A1, Ha|]. intros x ->. destruct Ha as [Ha _]. congruence. }
  split; [|split; [|split; [|exact NEW]]].
  - assert (P2 : Forall2 (fun p e => passed s1 p e (s2 (Cell fr' (name p))) /\ arg_ok fr extra n s p e /\ In e es) (params f) es).
    { clear -P AO. assert (X : forall l m, Forall2 (fun p e => passed s1 p e (s2 (Cell fr' (name p)))) l m -> Forall2 (arg_ok fr extra n s) l m ->
        (forall e, In e m -> In e es) -> Forall2 (fun p e => passed s1 p e (s2 (Cell fr' (name p))) /\ arg_ok fr extra n s p e /\ In e es) l m).
      { intros l m H1. induction H1; intros H2 H3; inversion H2; subst; constructor.
        - split; [assumption|]. split; [assumption|]. apply H3. left. reflexivity.
        - apply IHForall2; [assumption|]. intros e He. apply H3. right. exact He. }
      apply X; auto. }
    eapply F2_impl; [|exact P2]. cbn beta. intros p e Hp _ [PS [AK IE]]. unfold content at 1. unfold object. rewrite (param_ptr f FO p Hp).
    unfold passed in PS. destruct (var_ptr extra p) eqn:PP.
    + destruct e as [v|v i| |z|r w].
      * rewrite PS. rewrite ref_obj. split; [|intros u [= ->] _; reflexivity]. cbn [arg_content]. unfold content.
        destruct AK as [V _]. destruct (object fr extra s v) as [a|] eqn:OB; [|reflexivity]. cbn [option_map]. rewrite NEW; [reflexivity|].
        exact (object_old v a V OB).
      * destruct AK as [_ [Q _]]. congruence.
      * rewrite PS. split; [reflexivity|discriminate].
      * destruct PS as [m [K [-> E]]]. split; [|discriminate]. cbn [option_map arg_content]. rewrite O; [congruence|]. intros x [= X _]. congruence.
      * split; [|discriminate]. cbn [arg_content arg_ok] in *. destruct (var_ptr extra r) eqn:PR.
        -- destruct AK as [_ [a ->]]. rewrite PS. cbn [option_map]. rewrite NEW; [reflexivity|]. exact (RC r a IE).
        -- destruct PS as [m [K [-> E]]]. cbn [option_map]. rewrite O; [congruence|]. intros x [= X _]. congruence.
    + split; [symmetry; exact PS|]. intros v -> Q. congruence.
  - intros M. eapply F2_impl; [|exact (R M)]. cbn beta. intros r v Hr _ E. unfold object at 1.
    rewrite ptr_listed; [rewrite E; apply ref_obj|]. apply listed_in. unfold inner_extra. apply in_map. unfold out_vars. rewrite M.
    apply in_or_app. left. exact Hr.
  - apply Forall_forall. intros g Hg. rewrite Forall_forall in G. unfold object at 1.
    rewrite ptr_listed; [rewrite (G g Hg); apply ref_obj|]. apply listed_in. unfold inner_extra. apply in_map, in_or_app. right. exact Hg.
Qed.
(* an element of an array for a parameter that is a pointer: the pointer is a number *)
Lemma element_wrong f lhs es k p v i d z : func_ok extra f -> Forall2 arg_any (params f) es ->
  length lhs = length (results f) -> Forall (var_ok fr extra n s) lhs -> Forall (var_ok fr extra n s) (globals f) ->
  nth_error (params f) k = Some p -> nth_error es k = Some (EElem v i) -> var_ptr extra p = true ->
  content fr extra s v = Some (Span d) -> s (Item d i) = Num z ->
  exists s2, call fr fr' extra n f lhs es s = Some s2 /\ s2 (Cell fr' (name p)) = Num z /\ var_ptr (inner_extra f) p = true /\
    content fr' (inner_extra f) s2 p = None /\ arg_content fr extra s (EElem v i) = Some (Num z).
Proof.
  intros FO AO LO LV GV Np Ne PP CV Z. destruct (call_run f lhs es FO AO LO LV GV) as [s2 [s1 [C [A1 [O [P _]]]]]].
  exists s2. split; [exact C|]. pose proof (F2_nth _ _ _ _ _ _ P Np Ne) as X. unfold passed in X. rewrite PP in X. destruct X as [d' [C' X]].
  assert (d' = d) by congruence. subst d'. rewrite Z in X. pose proof (param_ptr f FO p (nth_error_In _ _ Np)) as PI.
  split; [exact X|]. split; [congruence|]. split.
  - unfold content, object. rewrite PI, PP, X. reflexivity.
  - cbn [arg_content]. rewrite CV, Z. reflexivity.
Qed.
End Call.
