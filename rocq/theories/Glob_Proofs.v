(* Proofs about the names assigned in functions. *)
From Coq Require Import Bool ZArith List Arith Lia.
From Verif Require Import Glob_Model Glob_Spec.
Import ListNotations.
Open Scope list_scope.

Lemma mem_in x l : mem x l = true <-> In x l.
Proof.
  unfold mem. rewrite existsb_exists. split.
  - intros (y & H & E). apply Nat.eqb_eq in E. subst. exact H.
  - intros H. exists x. split; [exact H|apply Nat.eqb_refl].
Qed.
Lemma mem_not x l : mem x l = false <-> ~ In x l.
Proof. rewrite <- mem_in. destruct (mem x l); split; congruence. Qed.

(* the code in which the names are those of Python *)
Definition cls (lc : nat -> bool) (x : nat) : ref := if lc x then L x else G x.
Fixpoint ce (lc : nat -> bool) (e : expr) : rexpr :=
  match e with Lit z => RLit z | Var x => RVar (cls lc x) | Add a b => RAdd (ce lc a) (ce lc b) | Call f a => RCall f (ce lc a) end.
Fixpoint cs (lc : nat -> bool) (s : stmt) : rstmt :=
  match s with
  | Skip => RSkip
  | Seq s t => RSeq (cs lc s) (cs lc t)
  | Assign x e | Decl x e => RAssign (cls lc x) (ce lc e)
  | Print e => RPrint (ce lc e)
  | Do e => RDo (ce lc e)
  | If e s t => RIf (ce lc e) (cs lc s) (cs lc t)
  | While e s => RWhile (ce lc e) (cs lc s)
  | For x n s => RFor (cls lc x) n (cs lc s)
  end.
Definition cf (f : func) : rfunc := {| rparam := param f; rbody := cs (is_local f) (body f); rret := ce (is_local f) (ret f) |}.

Lemma vexpr_conv lc loc glo : (forall x, In x loc -> lc x = true) -> (forall x, In x glo -> ~ In x loc -> lc x = false) ->
  forall e e', vexpr loc glo e = Some e' -> e' = ce lc e.
Proof.
  intros Hl Hg. induction e as [z|x|a IHa b IHb|f a IHa]; cbn [vexpr ce]; intros e' H.
  - injection H as <-. reflexivity.
  - unfold find in H. destruct (mem x loc) eqn:M.
    + injection H as <-. unfold cls. rewrite (Hl x (proj1 (mem_in _ _) M)). reflexivity.
    + destruct (mem x glo) eqn:N; [|discriminate]. injection H as <-. unfold cls.
      rewrite (Hg x (proj1 (mem_in _ _) N) (proj1 (mem_not _ _) M)). reflexivity.
  - destruct (vexpr loc glo a) as [a'|]; [|discriminate]. cbn in H. destruct (vexpr loc glo b) as [b'|]; [|discriminate].
    injection H as <-. rewrite (IHa _ eq_refl), (IHb _ eq_refl). reflexivity.
  - destruct (vexpr loc glo a) as [a'|]; [|discriminate]. injection H as <-. rewrite (IHa _ eq_refl). reflexivity.
Qed.

Section Function.
Context (lc : nat -> bool) (p : nat) (glo : list nat).
Context (Hp : lc p = true) (Hg : forall x, In x glo -> lc x = true -> x = p).
Definition inv (loc : list nat) : Prop := In p loc /\ forall x, In x loc -> lc x = true.
Lemma inv_e loc : inv loc -> forall e e', vexpr loc glo e = Some e' -> e' = ce lc e.
Proof.
  intros [H1 H2]. apply vexpr_conv; [exact H2|]. intros x Hx Nx. destruct (lc x) eqn:E; [|reflexivity].
  rewrite (Hg x Hx E) in Nx. contradiction.
Qed.
Lemma inv_cons loc x : inv loc -> lc x = true -> inv (x :: loc).
Proof. intros [H1 H2] E. split; [right; exact H1|]. intros y [<-|H]; [exact E|exact (H2 y H)]. Qed.
Lemma target_conv loc x v loc' : inv loc -> lc x = true -> target loc glo x = (v, loc') -> v = cls lc x /\ inv loc'.
Proof.
  intros I E. unfold target, find, cls. rewrite E. destruct (mem x loc) eqn:M.
  - intros H. injection H as <- <-. auto.
  - destruct (mem x glo) eqn:N.
    + apply mem_in in N. rewrite (Hg x N E) in M. apply mem_not in M. exfalso. apply M. apply I.
    + intros H. injection H as <- <-. split; [reflexivity|]. apply inv_cons; assumption.
Qed.
Lemma vstmt_conv : forall s loc r loc', inv loc -> (forall x, In x (assigned s) -> lc x = true) -> vstmt loc glo s = Some (r, loc') ->
  r = cs lc s /\ inv loc'.
Proof.
  induction s as [|s IHs t IHt|x e|x e|e|e|e s IHs t IHt|e s IHs|x n s IHs]; cbn [vstmt cs assigned]; intros loc r loc' I A H.
  - injection H as <- <-. auto.
  - destruct (vstmt loc glo s) as [[s' l1]|] eqn:Es; [|discriminate]. cbn in H. destruct (vstmt l1 glo t) as [[t' l2]|] eqn:Et; [|discriminate].
    cbn in H. injection H as <- <-. destruct (IHs _ _ _ I (fun x Hx => A x (in_or_app _ _ _ (or_introl Hx))) Es) as [-> I1].
    destruct (IHt _ _ _ I1 (fun x Hx => A x (in_or_app _ _ _ (or_intror Hx))) Et) as [-> I2]. auto.
  - destruct (vexpr loc glo e) as [e'|] eqn:Ee; [|discriminate]. cbn [obind] in H. destruct (target loc glo x) as [v l1] eqn:T.
    injection H as <- <-. destruct (target_conv _ _ _ _ I (A x (or_introl eq_refl)) T) as [-> I1].
    rewrite (inv_e _ I _ _ Ee). auto.
  - destruct (mem x loc); [discriminate|]. assert (Ex := A x (or_introl eq_refl)).
    destruct (vexpr (x :: loc) glo e) as [e'|] eqn:Ee; [|discriminate]. cbn [obind] in H. injection H as <- <-.
    rewrite (inv_e _ (inv_cons _ _ I Ex) _ _ Ee). unfold cls. rewrite Ex. split; [reflexivity|]. apply inv_cons; assumption.
  - destruct (vexpr loc glo e) as [e'|] eqn:Ee; [|discriminate]. injection H as <- <-. rewrite (inv_e _ I _ _ Ee). auto.
  - destruct (vexpr loc glo e) as [e'|] eqn:Ee; [|discriminate]. injection H as <- <-. rewrite (inv_e _ I _ _ Ee). auto.
  - destruct (vexpr loc glo e) as [e'|] eqn:Ee; [|discriminate]. cbn [obind] in H.
    destruct (vstmt loc glo s) as [[s' l1]|] eqn:Es; [|discriminate]. cbn in H. destruct (vstmt l1 glo t) as [[t' l2]|] eqn:Et; [|discriminate].
    cbn in H. injection H as <- <-. destruct (IHs _ _ _ I (fun x Hx => A x (in_or_app _ _ _ (or_introl Hx))) Es) as [-> I1].
    destruct (IHt _ _ _ I1 (fun x Hx => A x (in_or_app _ _ _ (or_intror Hx))) Et) as [-> I2]. rewrite (inv_e _ I _ _ Ee). auto.
  - destruct (vexpr loc glo e) as [e'|] eqn:Ee; [|discriminate]. cbn [obind] in H.
    destruct (vstmt loc glo s) as [[s' l1]|] eqn:Es; [|discriminate]. cbn in H. injection H as <- <-.
    destruct (IHs _ _ _ I A Es) as [-> I1]. rewrite (inv_e _ I _ _ Ee). auto.
  - destruct (target loc glo x) as [v l0] eqn:T. destruct (target_conv _ _ _ _ I (A x (or_introl eq_refl)) T) as [-> I0].
    destruct (vstmt l0 glo s) as [[s' l1]|] eqn:Es; [|discriminate]. cbn in H. injection H as <- <-.
    destruct (IHs _ _ _ I0 (fun y Hy => A y (or_intror Hy)) Es) as [-> I1]. auto.
Qed.
End Function.

Lemma local_param f : is_local f (param f) = true.
Proof. unfold is_local. cbn. rewrite Nat.eqb_refl. reflexivity. Qed.
Lemma local_iff f x : is_local f x = true <-> x = param f \/ In x (assigned (body f)).
Proof.
  unfold is_local. change (mem x (param f :: assigned (body f)) = true <-> x = param f \/ In x (assigned (body f))).
  rewrite mem_in. cbn. split; intros [H|H]; auto.
Qed.
Lemma vfunc_conv glo f r : (forall x, In x glo -> In x (assigned (body f)) -> x = param f) -> vfunc glo f = Some r -> r = cf f.
Proof.
  intros Hc H. unfold vfunc in H.
  assert (Hg : forall x, In x glo -> is_local f x = true -> x = param f).
  { intros x Hx E. apply local_iff in E. destruct E as [E|E]; [exact E|exact (Hc x Hx E)]. }
  destruct (vstmt [param f] glo (body f)) as [[b l]|] eqn:E; [|discriminate]. cbn [obind fst snd] in H.
  assert (I0 : inv (is_local f) (param f) [param f]).
  { split; [left; reflexivity|]. intros x [<-|[]]. apply local_param. }
  destruct (vstmt_conv (is_local f) (param f) glo Hg _ _ _ _ I0 (fun x Hx => proj2 (local_iff f x) (or_intror Hx)) E) as [-> I1].
  destruct (vexpr l glo (ret f)) as [e|] eqn:Er; [|discriminate]. injection H as <-.
  rewrite (inv_e (is_local f) (param f) glo Hg l I1 _ _ Er). reflexivity.
Qed.

(* ------------------------------ the visits ------------------------------ *)

Definition bounded (all : list nat) (seen : visits) : Prop := forall f glo, seen f = Some glo -> incl glo all.
Lemma bounded_upd all seen f glo : bounded all seen -> incl glo all -> bounded all (upd seen f glo).
Proof. intros H I g gl. unfold upd. destruct (Nat.eqb g f); [intros E; injection E as <-; exact I|apply H]. Qed.
Lemma mark_bounded all fs glo : incl glo all -> forall d f seen seen', bounded all seen -> mark d fs glo f seen = Some seen' -> bounded all seen'.
Proof.
  intros I. induction d as [|d IH]; intros f seen seen' B H; cbn [mark] in H.
  - destruct (seen f); [injection H as <-; exact B|discriminate].
  - destruct (seen f); [injection H as <-; exact B|]. destruct (nth_error fs f) as [fn|]; [|discriminate].
    assert (G : forall l o, (forall s, o = Some s -> bounded all s) -> forall s, fold_left (fun o g => obind o (mark d fs glo g)) l o = Some s -> bounded all s).
    { induction l as [|g l IHl]; intros o Ho s Hs; [exact (Ho s Hs)|]. cbn in Hs. refine (IHl _ _ s Hs).
      intros s1 E1. destruct o as [s0|]; [|discriminate]. cbn in E1. exact (IH g s0 s1 (Ho s0 eq_refl) E1). }
    refine (G _ _ _ _ H). intros s E. injection E as <-. apply bounded_upd; assumption.
Qed.
Lemma mark_all_bounded all fs glo l seen seen' : incl glo all -> bounded all seen -> mark_all fs glo l seen = Some seen' -> bounded all seen'.
Proof.
  intros I B. unfold mark_all. 
  assert (G : forall l o, (forall s, o = Some s -> bounded all s) -> forall s, fold_left (fun o g => obind o (mark (S (length fs)) fs glo g)) l o = Some s -> bounded all s).
  { induction l0 as [|g l0 IHl]; intros o Ho s Hs; [exact (Ho s Hs)|]. cbn [fold_left] in Hs. refine (IHl _ _ s Hs).
    intros s1 E1. destruct o as [s0|]; [|discriminate]. exact (mark_bounded all fs glo I _ g s0 s1 (Ho s0 eq_refl) E1). }
  apply G. intros s E. injection E as <-. exact B.
Qed.
Definition global : nat -> bool := fun _ => false.
Lemma vmain_e glo e e' : vexpr [] glo e = Some e' -> e' = ce global e.
Proof. apply vexpr_conv; [intros x []|reflexivity]. Qed.
Lemma gtarget_incl all glo x : incl glo all -> In x all -> incl (gtarget glo x) all.
Proof. intros I H. unfold gtarget. destruct (mem x glo); [exact I|]. intros y [<-|Hy]; auto. Qed.
Lemma vmain_conv all fs : forall s glo seen r glo' seen', incl glo all -> incl (assigned s) all -> bounded all seen ->
  vmain fs glo seen s = Some (r, glo', seen') -> r = cs global s /\ incl glo' all /\ bounded all seen'.
Proof.
  induction s as [|s IHs t IHt|x e|x e|e|e|e s IHs t IHt|e s IHs|x n s IHs]; cbn [vmain cs assigned]; intros glo seen r glo' seen' I A B H.
  - injection H as <- <- <-. auto.
  - destruct (vmain fs glo seen s) as [[[s' g1] n1]|] eqn:Es; [|discriminate]. cbn [obind] in H.
    destruct (vmain fs g1 n1 t) as [[[t' g2] n2]|] eqn:Et; [|discriminate]. cbn [obind] in H. injection H as <- <- <-.
    destruct (IHs _ _ _ _ _ I (fun y Hy => A y (in_or_app _ _ _ (or_introl Hy))) B Es) as (-> & I1 & B1).
    destruct (IHt _ _ _ _ _ I1 (fun y Hy => A y (in_or_app _ _ _ (or_intror Hy))) B1 Et) as (-> & I2 & B2). auto.
  - destruct (vexpr [] glo e) as [e'|] eqn:Ee; [|discriminate]. cbn [obind] in H. destruct (mark_all fs glo (ecalls e) seen) as [n1|] eqn:M; [|discriminate].
    injection H as <- <- <-. rewrite (vmain_e _ _ _ Ee). split; [reflexivity|]. split; [apply gtarget_incl; [exact I|apply A; left; reflexivity]|].
    exact (mark_all_bounded all fs glo _ _ _ I B M).
  - destruct (mem x glo); [discriminate|]. destruct (vexpr [] (x :: glo) e) as [e'|] eqn:Ee; [|discriminate]. cbn [obind] in H.
    destruct (mark_all fs (x :: glo) (ecalls e) seen) as [n1|] eqn:M; [|discriminate]. cbn [obind] in H. injection H as <- <- <-.
    assert (I' : incl (x :: glo) all) by (intros y [<-|Hy]; [apply A; left; reflexivity|exact (I y Hy)]).
    rewrite (vmain_e _ _ _ Ee). split; [reflexivity|]. split; [exact I'|]. exact (mark_all_bounded all fs (x :: glo) _ _ _ I' B M).
  - destruct (vexpr [] glo e) as [e'|] eqn:Ee; [|discriminate]. cbn [obind] in H. destruct (mark_all fs glo (ecalls e) seen) as [n1|] eqn:M; [|discriminate].
    injection H as <- <- <-. rewrite (vmain_e _ _ _ Ee). split; [reflexivity|]. split; [exact I|]. exact (mark_all_bounded all fs glo _ _ _ I B M).
  - destruct (vexpr [] glo e) as [e'|] eqn:Ee; [|discriminate]. cbn [obind] in H. destruct (mark_all fs glo (ecalls e) seen) as [n1|] eqn:M; [|discriminate].
    injection H as <- <- <-. rewrite (vmain_e _ _ _ Ee). split; [reflexivity|]. split; [exact I|]. exact (mark_all_bounded all fs glo _ _ _ I B M).
  - destruct (vexpr [] glo e) as [e'|] eqn:Ee; [|discriminate]. cbn [obind] in H. destruct (mark_all fs glo (ecalls e) seen) as [n0|] eqn:M; [|discriminate].
    cbn [obind] in H. assert (B0 := mark_all_bounded all fs glo _ _ _ I B M).
    destruct (vmain fs glo n0 s) as [[[s' g1] n1]|] eqn:Es; [|discriminate]. cbn [obind] in H.
    destruct (vmain fs g1 n1 t) as [[[t' g2] n2]|] eqn:Et; [|discriminate]. cbn [obind] in H. injection H as <- <- <-.
    destruct (IHs _ _ _ _ _ I (fun y Hy => A y (in_or_app _ _ _ (or_introl Hy))) B0 Es) as (-> & I1 & B1).
    destruct (IHt _ _ _ _ _ I1 (fun y Hy => A y (in_or_app _ _ _ (or_intror Hy))) B1 Et) as (-> & I2 & B2). rewrite (vmain_e _ _ _ Ee). auto.
  - destruct (vexpr [] glo e) as [e'|] eqn:Ee; [|discriminate]. cbn [obind] in H. destruct (mark_all fs glo (ecalls e) seen) as [n0|] eqn:M; [|discriminate].
    cbn [obind] in H. assert (B0 := mark_all_bounded all fs glo _ _ _ I B M).
    destruct (vmain fs glo n0 s) as [[[s' g1] n1]|] eqn:Es; [|discriminate]. cbn [obind] in H. injection H as <- <- <-.
    destruct (IHs _ _ _ _ _ I A B0 Es) as (-> & I1 & B1). rewrite (vmain_e _ _ _ Ee). auto.
  - destruct (vmain fs (gtarget glo x) seen s) as [[[s' g1] n1]|] eqn:Es; [|discriminate]. cbn [obind] in H. injection H as <- <- <-.
    destruct (IHs _ _ _ _ _ (gtarget_incl all glo x I (A x (or_introl eq_refl))) (fun y Hy => A y (or_intror Hy)) B Es) as (-> & I1 & B1). auto.
Qed.
Lemma vfuncs_conv all seen : bounded all seen -> forall fs i l,
  (forall f x, In f fs -> In x (assigned (body f)) -> x <> param f -> ~ In x all) -> vfuncs seen i fs = Some l -> l = map cf fs.
Proof.
  intros B. induction fs as [|f fs IH]; intros i l Hc H; cbn [vfuncs] in H; [injection H as <-; reflexivity|].
  destruct (seen i) as [glo|] eqn:E; [|discriminate]. cbn [obind] in H. destruct (vfunc glo f) as [r|] eqn:V; [|discriminate]. cbn [obind] in H.
  destruct (vfuncs seen (S i) fs) as [l'|] eqn:Vs; [|discriminate]. injection H as <-. cbn [map].
  rewrite (IH _ _ (fun g x Hg => Hc g x (or_intror Hg)) Vs). f_equal. apply (vfunc_conv glo); [|exact V].
  intros x Hx Ax. destruct (Nat.eq_dec x (param f)) as [?|N]; [assumption|]. exfalso. apply (Hc f x (or_introl eq_refl) Ax N). exact (B i glo E x Hx).
Qed.
Lemma compile_conv p c : no_clash p -> compile p = Some c -> c = {| rfuncs := map cf (funcs p); rmain := cs global (main p) |}.
Proof.
  intros Hc H. unfold compile in H.
  destruct (vmain (funcs p) [] (fun _ => None) (main p)) as [[[s glo] seen]|] eqn:V; [|discriminate]. cbn [obind] in H.
  destruct (vmain_conv (assigned (main p)) _ _ _ _ _ _ _ (fun x (h : In x []) => match h with end) (fun x h => h) (fun f g (e : None = Some g) => ltac:(discriminate)) V) as (-> & I & B).
  destruct (mark_all (funcs p) glo (seq 0 (length (funcs p))) seen) as [seen'|] eqn:M; [|discriminate]. cbn [obind] in H.
  pose proof (mark_all_bounded _ _ _ _ _ _ I B M) as B'.
  destruct (vfuncs seen' 0 (funcs p)) as [l|] eqn:Vs; [|discriminate]. injection H as <-.
  rewrite (vfuncs_conv _ _ B' _ _ _ Hc Vs). reflexivity.
Qed.

(* ------------------------------ the run ------------------------------ *)

Lemma read_cls lc x lo st : read (cls lc x) lo st = if lc x then get lo x else get (glob st) x.
Proof. unfold cls. destruct (lc x); reflexivity. Qed.
Lemma write_cls lc x z lo st : write (cls lc x) z lo st = if lc x then (upd lo x z, st) else (lo, {| glob := upd (glob st) x z; out := out st |}).
Proof. unfold cls. destruct (lc x); reflexivity. Qed.
Lemma bind_ext {A B : Type} (r : result A) (f g : A -> result B) : (forall v, f v = g v) -> bind r f = bind r g.
Proof. intros H. destruct r; cbn; auto. Qed.

Lemma run_conv fs : (forall f, In f fs -> no_for (body f)) -> forall n,
  (forall lc e lo st, ceval n (map cf fs) (ce lc e) lo st = pyeval n fs lc e lo st) /\
  (forall lc s lo st, no_for s -> cexec n (map cf fs) (cs lc s) lo st = pyexec n fs lc s lo st).
Proof.
  intros Hf. induction n as [|n [IHe IHs]]; [split; reflexivity|]. split.
  - intros lc e lo st. destruct e as [z|x|a b|f a]; cbn [ceval ce pyeval].
    + reflexivity.
    + rewrite read_cls. reflexivity.
    + rewrite IHe. apply bind_ext. intros [x st1]. rewrite IHe. reflexivity.
    + rewrite IHe. apply bind_ext. intros [x st1]. rewrite nth_error_map. destruct (nth_error fs f) as [fn|] eqn:N; [|reflexivity].
      cbn [option_map cf rbody rparam rret]. rewrite (IHs _ _ _ _ (Hf fn (nth_error_In _ _ N))). apply bind_ext. intros [lo2 st2]. apply IHe.
  - intros lc s lo st N. destruct s as [|s t|x e|x e|e|e|e s t|e s|x k s]; cbn [cexec cs pyexec]; cbn [no_for] in N.
    + reflexivity.
    + rewrite (IHs _ _ _ _ (proj1 N)). apply bind_ext. intros [lo1 st1]. apply IHs. apply N.
    + rewrite IHe. apply bind_ext. intros [z st1]. rewrite write_cls. reflexivity.
    + rewrite IHe. apply bind_ext. intros [z st1]. rewrite write_cls. reflexivity.
    + rewrite IHe. reflexivity.
    + rewrite IHe. reflexivity.
    + rewrite IHe. apply bind_ext. intros [z st1]. rewrite (IHs _ _ _ _ (proj1 N)), (IHs _ _ _ _ (proj2 N)). reflexivity.
    + rewrite IHe. apply bind_ext. intros [z st1]. destruct (Z.eqb z 0); [reflexivity|]. rewrite (IHs _ _ _ _ N). apply bind_ext. intros [lo2 st2].
      change (RWhile (ce lc e) (cs lc s)) with (cs lc (While e s)). apply IHs. exact N.
    + destruct N.
Qed.
Lemma same_run p c n : compile p = Some c -> no_clash p -> only_while p -> crun n c = pyrun n p.
Proof.
  intros H Hc [Hm Hf]. rewrite (compile_conv p c Hc H). unfold crun, pyrun. cbn [rfuncs rmain].
  rewrite (proj2 (run_conv (funcs p) Hf n) _ _ _ _ Hm). reflexivity.
Qed.

(* ------------------------------ what a name stands for ------------------------------ *)

Definition fine (x : nat) (v : ref) (l : list ref) : Prop := forall w, In w l -> name_of w = x -> w = v.
Lemma fine_app x v l k : fine x v l -> fine x v k -> fine x v (l ++ k).
Proof. intros H K w Hw. apply in_app_or in Hw. destruct Hw; auto. Qed.
Lemma fine_cons x v w l : (name_of w = x -> w = v) -> fine x v l -> fine x v (w :: l).
Proof. intros H K u [<-|Hu]; auto. Qed.
Lemma fine_nil x v : fine x v [].
Proof. intros w []. Qed.

Section Occurrences.
Context (x : nat) (v : ref) (glo : list nat) (P : list nat -> Prop).
Context (Hfind : forall loc w, P loc -> find loc glo x = Some w -> w = v).
Lemma find_name loc y w : find loc glo y = Some w -> name_of w = y.
Proof. unfold find. destruct (mem y loc); [intros H; injection H as <-; reflexivity|]. destruct (mem y glo); [intros H; injection H as <-; reflexivity|discriminate]. Qed.
Lemma vexpr_fine loc : P loc -> forall e e', vexpr loc glo e = Some e' -> fine x v (erefs e').
Proof.
  intros Pl. induction e as [z|y|a IHa b IHb|f a IHa]; cbn [vexpr]; intros e' H.
  - injection H as <-. apply fine_nil.
  - destruct (find loc glo y) as [w|] eqn:F; [|discriminate]. injection H as <-. apply fine_cons; [|apply fine_nil].
    intros N. rewrite (find_name _ _ _ F) in N. subst y. exact (Hfind loc w Pl F).
  - destruct (vexpr loc glo a) as [a'|]; [|discriminate]. cbn in H. destruct (vexpr loc glo b) as [b'|]; [|discriminate].
    injection H as <-. apply fine_app; auto.
  - destruct (vexpr loc glo a) as [a'|]; [|discriminate]. injection H as <-. cbn. auto.
Qed.
Context (ok : stmt -> Prop).
Context (ok_seq : forall s t, ok (Seq s t) -> ok s /\ ok t) (ok_if : forall e s t, ok (If e s t) -> ok s /\ ok t)
        (ok_while : forall e s, ok (While e s) -> ok s) (ok_for : forall y n s, ok (For y n s) -> ok s).
Context (Ptarget : forall loc y w loc', P loc -> target loc glo y = (w, loc') -> P loc' /\ (name_of w = x -> w = v)).
Context (Pdecl : forall loc y e, P loc -> ok (Decl y e) -> P (y :: loc) /\ (y = x -> v = L x)).
Lemma vstmt_fine : forall s loc r loc', P loc -> ok s -> vstmt loc glo s = Some (r, loc') -> fine x v (srefs r) /\ P loc'.
Proof.
  induction s as [|s IHs t IHt|y e|y e|e|e|e s IHs t IHt|e s IHs|y n s IHs]; cbn [vstmt]; intros loc r loc' Pl O H.
  - injection H as <- <-. split; [apply fine_nil|exact Pl].
  - destruct (vstmt loc glo s) as [[s' l1]|] eqn:Es; [|discriminate]. cbn in H. destruct (vstmt l1 glo t) as [[t' l2]|] eqn:Et; [|discriminate].
    cbn in H. injection H as <- <-. destruct (ok_seq _ _ O) as [O1 O2]. destruct (IHs _ _ _ Pl O1 Es) as [F1 P1]. destruct (IHt _ _ _ P1 O2 Et) as [F2 P2].
    split; [apply fine_app; assumption|exact P2].
  - destruct (vexpr loc glo e) as [e'|] eqn:Ee; [|discriminate]. cbn [obind] in H. destruct (target loc glo y) as [w l1] eqn:T.
    injection H as <- <-. destruct (Ptarget _ _ _ _ Pl T) as [P1 Q]. split; [|exact P1]. apply fine_cons; [exact Q|]. exact (vexpr_fine _ Pl _ _ Ee).
  - destruct (mem y loc); [discriminate|]. destruct (vexpr (y :: loc) glo e) as [e'|] eqn:Ee; [|discriminate]. cbn [obind] in H. injection H as <- <-.
    destruct (Pdecl _ _ _ Pl O) as [P1 Q]. split; [|exact P1]. apply fine_cons; [|exact (vexpr_fine _ P1 _ _ Ee)]. cbn. intros ->. symmetry. apply Q. reflexivity.
  - destruct (vexpr loc glo e) as [e'|] eqn:Ee; [|discriminate]. injection H as <- <-. split; [exact (vexpr_fine _ Pl _ _ Ee)|exact Pl].
  - destruct (vexpr loc glo e) as [e'|] eqn:Ee; [|discriminate]. injection H as <- <-. split; [exact (vexpr_fine _ Pl _ _ Ee)|exact Pl].
  - destruct (vexpr loc glo e) as [e'|] eqn:Ee; [|discriminate]. cbn [obind] in H.
    destruct (vstmt loc glo s) as [[s' l1]|] eqn:Es; [|discriminate]. cbn in H. destruct (vstmt l1 glo t) as [[t' l2]|] eqn:Et; [|discriminate].
    cbn in H. injection H as <- <-. destruct (ok_if _ _ _ O) as [O1 O2]. destruct (IHs _ _ _ Pl O1 Es) as [F1 P1]. destruct (IHt _ _ _ P1 O2 Et) as [F2 P2].
    split; [|exact P2]. apply fine_app; [exact (vexpr_fine _ Pl _ _ Ee)|]. apply fine_app; assumption.
  - destruct (vexpr loc glo e) as [e'|] eqn:Ee; [|discriminate]. cbn [obind] in H.
    destruct (vstmt loc glo s) as [[s' l1]|] eqn:Es; [|discriminate]. cbn in H. injection H as <- <-.
    destruct (IHs _ _ _ Pl (ok_while _ _ O) Es) as [F1 P1]. split; [|exact P1]. apply fine_app; [exact (vexpr_fine _ Pl _ _ Ee)|exact F1].
  - destruct (target loc glo y) as [w l0] eqn:T. destruct (Ptarget _ _ _ _ Pl T) as [P0 Q].
    destruct (vstmt l0 glo s) as [[s' l1]|] eqn:Es; [|discriminate]. cbn in H. injection H as <- <-.
    destruct (IHs _ _ _ P0 (ok_for _ _ _ O) Es) as [F1 P1]. split; [|exact P1]. apply fine_cons; [exact Q|exact F1].
Qed.
End Occurrences.

Lemma target_name loc glo y w loc' : target loc glo y = (w, loc') -> name_of w = y.
Proof.
  unfold target. destruct (find loc glo y) as [u|] eqn:F; intros H; injection H as <- <-; [exact (find_name glo loc y u F)|reflexivity].
Qed.
(* a name that the module has, and that is not a parameter nor declared in the function *)
Lemma global_fine glo f r x : vfunc glo f = Some r -> In x glo -> x <> param f -> declares x (body f) = false -> all_are x (G x) r.
Proof.
  intros H Hx Np Nd. unfold vfunc in H. destruct (vstmt [param f] glo (body f)) as [[b l]|] eqn:E; [|discriminate]. cbn [obind fst snd] in H.
  destruct (vexpr l glo (ret f)) as [e|] eqn:Er; [|discriminate]. injection H as <-. apply mem_in in Hx.
  assert (Hfind : forall loc w, ~ In x loc -> find loc glo x = Some w -> w = G x).
  { intros loc w Nl. unfold find. rewrite (proj2 (mem_not _ _) Nl), Hx. intros Q. injection Q as <-. reflexivity. }
  destruct (vstmt_fine x (G x) glo (fun loc => ~ In x loc) Hfind (fun s => declares x s = false)) with (s := body f) (loc := [param f]) (r := b) (loc' := l) as [F P].
  - intros s t O. apply orb_false_iff in O. exact O.
  - intros e0 s t O. apply orb_false_iff in O. exact O.
  - intros e0 s O. exact O.
  - intros y n s O. exact O.
  - intros loc y w loc' Nl T. pose proof (target_name _ _ _ _ _ T) as N. destruct (Nat.eq_dec y x) as [->|Ny].
    + unfold target in T. unfold find in T. rewrite (proj2 (mem_not _ _) Nl), Hx in T. injection T as <- <-. auto.
    + split; [|intros Q; congruence]. unfold target in T. destruct (find loc glo y); injection T as <- <-; [exact Nl|]. intros [Q|Q]; [congruence|contradiction].
  - intros loc y e0 Nl O. cbn in O. apply Nat.eqb_neq in O. split; [|congruence]. intros [Q|Q]; [congruence|contradiction].
  - intros [Q|[]]. congruence.
  - exact Nd.
  - exact E.
  - intros w Hw. unfold refs in Hw. cbn [rbody rret] in Hw. revert w Hw. apply fine_app; [exact F|].
    exact (vexpr_fine x (G x) glo (fun loc => ~ In x loc) Hfind l P _ _ Er).
Qed.
(* a name that the module has not *)
Lemma local_fine glo f r x : vfunc glo f = Some r -> ~ In x glo -> all_are x (L x) r.
Proof.
  intros H Hx. unfold vfunc in H. destruct (vstmt [param f] glo (body f)) as [[b l]|] eqn:E; [|discriminate]. cbn [obind fst snd] in H.
  destruct (vexpr l glo (ret f)) as [e|] eqn:Er; [|discriminate]. injection H as <-. apply mem_not in Hx.
  assert (Hfind : forall loc w, True -> find loc glo x = Some w -> w = L x).
  { intros loc w _. unfold find. rewrite Hx. destruct (mem x loc); [intros Q; injection Q as <-; reflexivity|discriminate]. }
  destruct (vstmt_fine x (L x) glo (fun _ => True) Hfind (fun _ => True)) with (s := body f) (loc := [param f]) (r := b) (loc' := l) as [F _]; auto.
  - intros loc y w loc' _ T. split; [exact Logic.I|]. intros N. pose proof (target_name _ _ _ _ _ T) as N'. assert (Hy : y = x) by congruence. rewrite Hy in T.
    unfold target in T. destruct (find loc glo x) as [u|] eqn:Fi; injection T as <- <-; [exact (Hfind _ _ Logic.I Fi)|reflexivity].
  - intros w Hw. unfold refs in Hw. cbn [rbody rret] in Hw. revert w Hw. apply fine_app; [exact F|].
    exact (vexpr_fine x (L x) glo (fun _ => True) Hfind l Logic.I _ _ Er).
Qed.
(* a parameter, or a name that is declared at the start *)
Lemma bound_fine x glo s loc b l : In x loc -> vstmt loc glo s = Some (b, l) -> fine x (L x) (srefs b) /\ In x l.
Proof.
  intros Hx E.
  assert (Hfind : forall loc w, In x loc -> find loc glo x = Some w -> w = L x).
  { intros loc0 w Hl. unfold find. rewrite (proj2 (mem_in _ _) Hl). intros Q. injection Q as <-. reflexivity. }
  apply (vstmt_fine x (L x) glo (fun loc => In x loc) Hfind (fun _ => True)) with (s := s) (loc := loc); auto.
  - intros loc0 y w loc' Hl T. unfold target in T. destruct (find loc0 glo y) as [u|] eqn:Fi; injection T as <- <-.
    + split; [exact Hl|]. intros N. rewrite (find_name glo loc0 y u Fi) in N. subst y. exact (Hfind loc0 u Hl Fi).
    + split; [right; exact Hl|]. cbn. congruence.
  - intros loc0 y e Hl _. split; [right; exact Hl|reflexivity].
Qed.
Lemma param_fine glo f r : vfunc glo f = Some r -> all_are (param f) (L (param f)) r.
Proof.
  intros H. unfold vfunc in H. destruct (vstmt [param f] glo (body f)) as [[b l]|] eqn:E; [|discriminate]. cbn [obind fst snd] in H.
  destruct (vexpr l glo (ret f)) as [e|] eqn:Er; [|discriminate]. injection H as <-.
  destruct (bound_fine (param f) glo _ [param f] _ _ (or_introl eq_refl) E) as [F P].
  intros w Hw. unfold refs in Hw. cbn [rbody rret] in Hw. revert w Hw. apply fine_app; [exact F|].
  apply (vexpr_fine (param f) (L (param f)) glo (fun loc => In (param f) loc)) with (loc := l) (e := ret f); [|exact P|exact Er].
  intros loc0 w Hl. unfold find. rewrite (proj2 (mem_in _ _) Hl). intros Q. injection Q as <-. reflexivity.
Qed.
Lemma declared_fine glo f r x e s : vfunc glo f = Some r -> body f = Seq (Decl x e) s -> all_are x (L x) r.
Proof.
  intros H Hb. unfold vfunc in H. rewrite Hb in H. cbn [vstmt] in H. destruct (mem x [param f]); [discriminate|].
  destruct (vexpr [x; param f] glo e) as [e'|] eqn:Ee; [|discriminate]. cbn [obind fst snd] in H.
  destruct (vstmt [x; param f] glo s) as [[b l]|] eqn:Es; [|discriminate]. cbn [obind fst snd] in H.
  destruct (vexpr l glo (ret f)) as [er|] eqn:Er; [|discriminate]. injection H as <-.
  assert (Hfind : forall loc w, In x loc -> find loc glo x = Some w -> w = L x).
  { intros loc0 w Hl. unfold find. rewrite (proj2 (mem_in _ _) Hl). intros Q. injection Q as <-. reflexivity. }
  destruct (bound_fine x glo _ [x; param f] _ _ (or_introl eq_refl) Es) as [F P].
  intros w Hw. unfold refs in Hw. cbn [rbody rret srefs] in Hw. revert w Hw. apply fine_app.
  - cbn. apply fine_cons; [reflexivity|]. apply fine_app; [|exact F].
    apply (vexpr_fine x (L x) glo (fun loc => In x loc) Hfind) with (loc := [x; param f]) (e := e); [left; reflexivity|exact Ee].
  - apply (vexpr_fine x (L x) glo (fun loc => In x loc) Hfind) with (loc := l) (e := ret f); [exact P|exact Er].
Qed.

(* ------------------------------ the code of a program ------------------------------ *)

Lemma vfuncs_at seen : forall fs i l k rf, vfuncs seen i fs = Some l -> nth_error l k = Some rf ->
  exists f glo, nth_error fs k = Some f /\ seen (i + k)%nat = Some glo /\ vfunc glo f = Some rf.
Proof.
  induction fs as [|f fs IH]; intros i l k rf H N; cbn [vfuncs] in H; [injection H as <-; destruct k; discriminate|].
  destruct (seen i) as [glo|] eqn:E; [|discriminate]. cbn [obind] in H. destruct (vfunc glo f) as [r|] eqn:V; [|discriminate]. cbn [obind] in H.
  destruct (vfuncs seen (S i) fs) as [l'|] eqn:Vs; [|discriminate]. injection H as <-. destruct k as [|k].
  - injection N as <-. exists f, glo. rewrite Nat.add_0_r. auto.
  - destruct (IH _ _ _ _ Vs N) as (g & gl & A & B & C). exists g, gl. rewrite Nat.add_succ_r. auto.
Qed.
Lemma compile_at p c k f rf : compile p = Some c -> nth_error (funcs p) k = Some f -> nth_error (rfuncs c) k = Some rf ->
  exists s glo seen seen' gl, vmain (funcs p) [] (fun _ => None) (main p) = Some (s, glo, seen)
    /\ mark_all (funcs p) glo (seq 0 (length (funcs p))) seen = Some seen' /\ seen' k = Some gl /\ vfunc gl f = Some rf.
Proof.
  intros H Nf Nr. unfold compile in H.
  destruct (vmain (funcs p) [] (fun _ => None) (main p)) as [[[s glo] seen]|] eqn:V; [|discriminate]. cbn [obind] in H.
  destruct (mark_all (funcs p) glo (seq 0 (length (funcs p))) seen) as [seen'|] eqn:M; [|discriminate]. cbn [obind] in H.
  destruct (vfuncs seen' 0 (funcs p)) as [l|] eqn:Vs; [|discriminate]. injection H as <-. cbn [rfuncs] in Nr.
  destruct (vfuncs_at _ _ _ _ _ _ Vs Nr) as (g & gl & A & B & C). cbn in B. assert (g = f) by congruence. subst g.
  exists s, glo, seen, seen', gl. auto.
Qed.
Lemma own_name p c k f rf x : compile p = Some c -> nth_error (funcs p) k = Some f -> nth_error (rfuncs c) k = Some rf ->
  ~ In x (assigned (main p)) -> all_are x (L x) rf.
Proof.
  intros H Nf Nr Nx. destruct (compile_at _ _ _ _ _ H Nf Nr) as (s & glo & seen & seen' & gl & V & M & E & Vf).
  destruct (vmain_conv (assigned (main p)) _ _ _ _ _ _ _ (fun x (h : In x []) => match h with end) (fun x h => h) (fun f g (e : None = Some g) => ltac:(discriminate)) V) as (_ & I & B).
  apply (local_fine gl f rf x Vf). intros Q. apply Nx. exact (mark_all_bounded _ _ _ _ _ _ I B M k gl E x Q).
Qed.
Lemma param_name p c k f rf : compile p = Some c -> nth_error (funcs p) k = Some f -> nth_error (rfuncs c) k = Some rf -> all_are (param f) (L (param f)) rf.
Proof. intros H Nf Nr. destruct (compile_at _ _ _ _ _ H Nf Nr) as (s & glo & seen & seen' & gl & V & M & E & Vf). exact (param_fine gl f rf Vf). Qed.
Lemma declared_name p c k f rf x e s0 : compile p = Some c -> nth_error (funcs p) k = Some f -> nth_error (rfuncs c) k = Some rf ->
  body f = Seq (Decl x e) s0 -> all_are x (L x) rf.
Proof. intros H Nf Nr Hb. destruct (compile_at _ _ _ _ _ H Nf Nr) as (s & glo & seen & seen' & gl & V & M & E & Vf). exact (declared_fine gl f rf x e s0 Vf Hb). Qed.

(* a module whose body calls nothing *)
Lemma mark_all_nil fs glo seen : mark_all fs glo [] seen = Some seen.
Proof. reflexivity. Qed.
Lemma gtarget_grow glo x : incl glo (gtarget glo x) /\ In x (gtarget glo x).
Proof.
  unfold gtarget. destruct (mem x glo) eqn:M.
  - split; [intros y Hy; exact Hy|apply mem_in; exact M].
  - split; [intros y Hy; right; exact Hy|left; reflexivity].
Qed.
Lemma vmain_grow fs : forall s glo seen r glo' seen', scalls s = [] -> vmain fs glo seen s = Some (r, glo', seen') ->
  seen' = seen /\ incl glo glo' /\ incl (assigned s) glo'.
Proof.
  induction s as [|s IHs t IHt|x e|x e|e|e|e s IHs t IHt|e s IHs|x n s IHs]; cbn [vmain assigned scalls]; intros glo seen r glo' seen' C H.
  - injection H as <- <- <-. repeat split; intros y Hy; [exact Hy|destruct Hy].
  - apply app_eq_nil in C. destruct C as [C1 C2].
    destruct (vmain fs glo seen s) as [[[s' g1] n1]|] eqn:Es; [|discriminate]. cbn [obind] in H.
    destruct (vmain fs g1 n1 t) as [[[t' g2] n2]|] eqn:Et; [|discriminate]. cbn [obind] in H. injection H as <- <- <-.
    destruct (IHs _ _ _ _ _ C1 Es) as (-> & I1 & A1). destruct (IHt _ _ _ _ _ C2 Et) as (-> & I2 & A2).
    split; [reflexivity|]. split; [intros y Hy; auto|]. intros y Hy. apply in_app_or in Hy. destruct Hy; auto.
  - destruct (vexpr [] glo e) as [e'|]; [|discriminate]. cbn [obind] in H. rewrite C in H. cbn in H. injection H as <- <- <-.
    destruct (gtarget_grow glo x) as [I A]. split; [reflexivity|]. split; [exact I|]. intros y [<-|[]]. exact A.
  - destruct (mem x glo); [discriminate|]. destruct (vexpr [] (x :: glo) e) as [e'|]; [|discriminate]. cbn [obind] in H. rewrite C in H. cbn in H.
    injection H as <- <- <-. split; [reflexivity|]. split; [intros y Hy; right; exact Hy|]. intros y [<-|[]]. left. reflexivity.
  - destruct (vexpr [] glo e) as [e'|]; [|discriminate]. cbn [obind] in H. rewrite C in H. cbn in H. injection H as <- <- <-.
    repeat split; intros y Hy; [exact Hy|destruct Hy].
  - destruct (vexpr [] glo e) as [e'|]; [|discriminate]. cbn [obind] in H. rewrite C in H. cbn in H. injection H as <- <- <-.
    repeat split; intros y Hy; [exact Hy|destruct Hy].
  - apply app_eq_nil in C. destruct C as [C0 C]. apply app_eq_nil in C. destruct C as [C1 C2].
    destruct (vexpr [] glo e) as [e'|]; [|discriminate]. cbn [obind] in H. rewrite C0 in H. rewrite mark_all_nil in H. cbn [obind] in H.
    destruct (vmain fs glo seen s) as [[[s' g1] n1]|] eqn:Es; [|discriminate]. cbn [obind] in H.
    destruct (vmain fs g1 n1 t) as [[[t' g2] n2]|] eqn:Et; [|discriminate]. cbn [obind] in H. injection H as <- <- <-.
    destruct (IHs _ _ _ _ _ C1 Es) as (-> & I1 & A1). destruct (IHt _ _ _ _ _ C2 Et) as (-> & I2 & A2).
    split; [reflexivity|]. split; [intros y Hy; auto|]. intros y Hy. apply in_app_or in Hy. destruct Hy; auto.
  - apply app_eq_nil in C. destruct C as [C0 C].
    destruct (vexpr [] glo e) as [e'|]; [|discriminate]. cbn [obind] in H. rewrite C0 in H. rewrite mark_all_nil in H. cbn [obind] in H.
    destruct (vmain fs glo seen s) as [[[s' g1] n1]|] eqn:Es; [|discriminate]. cbn [obind] in H. injection H as <- <- <-. exact (IHs _ _ _ _ _ C Es).
  - destruct (vmain fs (gtarget glo x) seen s) as [[[s' g1] n1]|] eqn:Es; [|discriminate]. cbn [obind] in H. injection H as <- <- <-.
    destruct (IHs _ _ _ _ _ C Es) as (-> & I1 & A1). destruct (gtarget_grow glo x) as [I A]. split; [reflexivity|].
    split; [intros y Hy; auto|]. intros y [<-|Hy]; auto.
Qed.
Definition only (glo : list nat) (seen : visits) : Prop := forall f gl, seen f = Some gl -> gl = glo.
Lemma mark_only fs glo : forall d f seen seen', only glo seen -> mark d fs glo f seen = Some seen' -> only glo seen'.
Proof.
  induction d as [|d IH]; intros f seen seen' B H; cbn [mark] in H.
  - destruct (seen f); [injection H as <-; exact B|discriminate].
  - destruct (seen f); [injection H as <-; exact B|]. destruct (nth_error fs f) as [fn|]; [|discriminate].
    assert (Gf : forall l o, (forall s, o = Some s -> only glo s) -> forall s, fold_left (fun o g => obind o (mark d fs glo g)) l o = Some s -> only glo s).
    { induction l as [|g l IHl]; intros o Ho s Hs; [exact (Ho s Hs)|]. cbn in Hs. refine (IHl _ _ s Hs).
      intros s1 E1. destruct o as [s0|]; [|discriminate]. cbn in E1. exact (IH g s0 s1 (Ho s0 eq_refl) E1). }
    refine (Gf _ _ _ _ H). intros s E. injection E as <-. intros g gl. unfold upd. destruct (Nat.eqb g f); [intros E; injection E as <-; reflexivity|apply B].
Qed.
Lemma mark_all_only fs glo l seen seen' : only glo seen -> mark_all fs glo l seen = Some seen' -> only glo seen'.
Proof.
  intros B. unfold mark_all.
  assert (Gf : forall l o, (forall s, o = Some s -> only glo s) -> forall s, fold_left (fun o g => obind o (mark (S (length fs)) fs glo g)) l o = Some s -> only glo s).
  { induction l0 as [|g l0 IHl]; intros o Ho s Hs; [exact (Ho s Hs)|]. cbn [fold_left] in Hs. refine (IHl _ _ s Hs).
    intros s1 E1. destruct o as [s0|]; [|discriminate]. exact (mark_only fs glo _ g s0 s1 (Ho s0 eq_refl) E1). }
  apply Gf. intros s E. injection E as <-. exact B.
Qed.
Lemma module_name p c k f rf x : compile p = Some c -> nth_error (funcs p) k = Some f -> nth_error (rfuncs c) k = Some rf ->
  scalls (main p) = [] -> In x (assigned (main p)) -> x <> param f -> declares x (body f) = false -> all_are x (G x) rf.
Proof.
  intros H Nf Nr C Hx Np Nd. destruct (compile_at _ _ _ _ _ H Nf Nr) as (s & glo & seen & seen' & gl & V & M & E & Vf).
  destruct (vmain_grow _ _ _ _ _ _ _ C V) as (-> & _ & A).
  assert (gl = glo) as -> by exact (mark_all_only _ _ _ _ _ (fun f g (e : None = Some g) => ltac:(discriminate)) M k gl E).
  exact (global_fine glo f rf x Vf (A x Hx) Np Nd).
Qed.

(* ------------------------------ programs that go wrong ------------------------------ *)

Ltac neq := repeat match goal with
  | H : ?x <> ?y |- context [Nat.eqb ?x ?y] => rewrite (proj2 (Nat.eqb_neq x y) H)
  | H : ?x <> ?y |- context [Nat.eqb ?y ?x] => rewrite (proj2 (Nat.eqb_neq y x) (not_eq_sym H))
  | |- context [Nat.eqb ?x ?x] => rewrite (Nat.eqb_refl x)
  end.
Ltac go := unfold compile, vfuncs, vfunc, vmain, mark_all, vstmt, target, gtarget, find, mem, obind, option_map, upd, crun, pyrun, is_local, write, read, say, get, empty;
  repeat (progress (cbn; unfold get, upd, say, find, mem, option_map; cbn; neq)).
Definition setter (q x : nat) (b r : Z) : func := {| param := q; body := Assign x (Lit b); ret := Lit r |}.
Definition call0 : stmt := Do (Call 0 (Lit 0)).
Definition after (f : func) (x : nat) (a : Z) : prog := {| funcs := [f]; main := Seq (Assign x (Lit a)) (Seq call0 (Print (Var x))) |}.
Lemma assign_wrong q x a b r n : x <> q ->
  exists c, compile (after (setter q x b r) x a) = Some c /\ crun (10 + n) c = Done [b] /\ pyrun (10 + n) (after (setter q x b r) x a) = Done [a].
Proof. intros N. eexists. split; [go; reflexivity|]. split; go; reflexivity. Qed.
Definition twice (f : func) (x : nat) (a : Z) : prog := {| funcs := [f]; main := Seq call0 (Seq (Assign x (Lit a)) (Seq call0 (Print (Var x)))) |}.
Lemma order_right q x a b r n : x <> q ->
  exists c, compile (twice (setter q x b r) x a) = Some c /\ crun (10 + n) c = Done [a] /\ pyrun (10 + n) (twice (setter q x b r) x a) = Done [a].
Proof. intros N. eexists. split; [go; reflexivity|]. split; go; reflexivity. Qed.
Definition later (f : func) (x : nat) (d a : Z) : prog :=
  {| funcs := [f]; main := Seq (Seq (Print (Lit d)) call0) (Seq (Assign x (Lit a)) (Seq call0 (Print (Var x)))) |}.
Lemma order_later q x a b r d n : x <> q ->
  exists c, compile (later (setter q x b r) x d a) = Some c /\ crun (10 + n) c = Done [d; a] /\ pyrun (10 + n) (later (setter q x b r) x d a) = Done [d; a].
Proof. intros N. eexists. split; [go; reflexivity|]. split; go; reflexivity. Qed.
Definition reader (q x : nat) (b r : Z) : func := {| param := q; body := Seq (Print (Var x)) (Assign x (Lit b)); ret := Lit r |}.
Lemma unbound_wrong q x a b r n : x <> q ->
  exists c, compile (after (reader q x b r) x a) = Some c /\ crun (10 + n) c = Done [a; b] /\ pyrun (10 + n) (after (reader q x b r) x a) = Wrong.
Proof. intros N. eexists. split; [go; reflexivity|]. split; go; reflexivity. Qed.

(* the loop of the caller and the loop of the function have the same variable *)
Definition looper (q i m : nat) : func := {| param := q; body := For i m Skip; ret := Lit 0 |}.
Definition caller (q i m n : nat) : prog := {| funcs := [looper q i m]; main := For i n (Seq (Print (Var i)) call0) |}.
Definition rlooper (q i m : nat) : rfunc := {| rparam := q; rbody := RFor (G i) m RSkip; rret := RLit 0 |}.
Definition rloop_body (i : nat) : rstmt := RSeq (RPrint (RVar (G i))) (RDo (RCall 0 (RLit 0))).
Lemma caller_code q i m n : i <> q ->
  compile (caller q i m n) = Some {| rfuncs := [rlooper q i m]; rmain := RFor (G i) n (rloop_body i) |}.
Proof. intros N. go. reflexivity. Qed.
Lemma inner_loop fs i m : forall k fuel z lo st, glob st i = Some z -> (z + Z.of_nat k = Z.of_nat m)%Z ->
  (cloop fuel fs (G i) m RSkip lo st = Late \/ exists st', cloop fuel fs (G i) m RSkip lo st = Done (lo, st') /\ glob st' i = Some (Z.of_nat m) /\ out st' = out st)
  /\ (k + 2 <= fuel -> cloop fuel fs (G i) m RSkip lo st <> Late).
Proof.
  induction k as [|k IH]; intros fuel z lo st Hz E.
  - destruct fuel as [|fuel]; [split; [left; reflexivity|lia]|]. cbn [cloop read]. unfold get. rewrite Hz. cbn [bind].
    rewrite (proj2 (Z.ltb_ge z (Z.of_nat m))) by lia. split; [|discriminate]. right. exists st. repeat split. rewrite Hz. f_equal. lia.
  - destruct fuel as [|fuel]; [split; [left; reflexivity|lia]|]. cbn [cloop read]. unfold get. rewrite Hz. cbn [bind].
    rewrite (proj2 (Z.ltb_lt z (Z.of_nat m))) by lia. destruct fuel as [|fuel]; [split; [left; reflexivity|lia]|]. cbn [cexec bind read write].
    unfold get. rewrite Hz. cbn [bind].
    destruct (IH (S fuel) (z + 1)%Z lo {| glob := upd (glob st) i (z + 1)%Z; out := out st |}) as [H1 H2].
    { unfold upd. cbn. rewrite Nat.eqb_refl. reflexivity. }
    { lia. }
    split; [exact H1|]. intros L. apply H2. lia.
Qed.
Lemma call_loop q i m fuel lo st :
  (cexec fuel [rlooper q i m] (RDo (RCall 0 (RLit 0))) lo st = Late \/
   exists st', cexec fuel [rlooper q i m] (RDo (RCall 0 (RLit 0))) lo st = Done (lo, st') /\ glob st' i = Some (Z.of_nat m) /\ out st' = out st)
  /\ (m + 5 <= fuel -> cexec fuel [rlooper q i m] (RDo (RCall 0 (RLit 0))) lo st <> Late).
Proof.
  destruct fuel as [|[|[|fuel]]]; try (split; [left; reflexivity|lia]). cbn [cexec ceval bind nth_error rlooper rbody rparam rret write].
  destruct (inner_loop [rlooper q i m] i m m fuel 0%Z (upd empty q 0%Z) {| glob := upd (glob st) i 0%Z; out := out st |}) as [H1 H2].
  { unfold upd. cbn. rewrite Nat.eqb_refl. reflexivity. }
  { lia. }
  fold (rlooper q i m). destruct H1 as [H1|(st' & H1 & G1 & O1)].
  - rewrite H1. split; [left; reflexivity|]. intros L. exfalso. apply H2; [lia|exact H1].
  - rewrite H1. cbn [bind]. split; [|discriminate]. right. exists st'. auto.
Qed.
Lemma caller_body q i m fuel z lo st : glob st i = Some z ->
  (cexec fuel [rlooper q i m] (rloop_body i) lo st = Late \/
   exists st', cexec fuel [rlooper q i m] (rloop_body i) lo st = Done (lo, st') /\ glob st' i = Some (Z.of_nat m) /\ out st' = out st ++ [z])
  /\ (m + 6 <= fuel -> cexec fuel [rlooper q i m] (rloop_body i) lo st <> Late).
Proof.
  intros Hz. unfold rloop_body. destruct fuel as [|fuel]; [split; [left; reflexivity|lia]|]. cbn [cexec].
  destruct fuel as [|[|fuel]]; try (split; [left; reflexivity|lia]).
  change (cexec (S (S fuel)) [rlooper q i m] (RPrint (RVar (G i))) lo st)
    with (bind (bind (get (glob st) i) (fun z => Done (z, st))) (fun '(z, st1) => @Done (store * state) (lo, say z st1))).
  unfold get. rewrite Hz. cbn [bind].
  destruct (call_loop q i m (S (S fuel)) lo (say z st)) as [H1 H2]. destruct H1 as [H1|(st' & H1 & G1 & O1)].
  - rewrite H1. split; [left; reflexivity|]. intros L. exfalso. apply H2; [lia|exact H1].
  - rewrite H1. split; [|discriminate]. right. exists st'. auto.
Qed.
Lemma loop_forever q i m n : m + 1 < n -> forall fuel z lo st, glob st i = Some z -> (z < Z.of_nat n)%Z -> cloop fuel [rlooper q i m] (G i) n (rloop_body i) lo st = Late.
Proof.
  intros Hn. induction fuel as [|fuel IH]; intros z lo st Hz Lz; [reflexivity|]. cbn [cloop read]. unfold get at 1. rewrite Hz. cbn [bind].
  rewrite (proj2 (Z.ltb_lt _ _) Lz). destruct (caller_body q i m fuel z lo st Hz) as [[H|(st' & H & G1 & O1)] _]; rewrite H; [reflexivity|].
  cbn [bind read write]. unfold get. rewrite G1. cbn [bind]. apply IH with (z := (Z.of_nat m + 1)%Z).
  - unfold upd. cbn. rewrite Nat.eqb_refl. reflexivity.
  - lia.
Qed.
Lemma never_ends q i m n fuel : i <> q -> m + 1 < n -> exists c, compile (caller q i m n) = Some c /\ crun fuel c = Late.
Proof.
  intros N Hn. eexists. split; [exact (caller_code q i m n N)|]. unfold crun. cbn [rfuncs rmain]. destruct fuel as [|fuel]; [reflexivity|].
  cbn [cexec write]. rewrite (loop_forever q i m n Hn fuel 0%Z); [reflexivity| |lia]. unfold upd. cbn. rewrite Nat.eqb_refl. reflexivity.
Qed.
Lemma cloop_step fuel fs i k s z lo st : glob st i = Some z -> cloop (S fuel) fs (G i) k s lo st =
  if Z.ltb z (Z.of_nat k) then bind (cexec fuel fs s lo st) (fun '(lo1, st1) => bind (read (G i) lo1 st1) (fun y =>
        let (lo2, st2) := write (G i) (y + 1)%Z lo1 st1 in cloop fuel fs (G i) k s lo2 st2))
  else Done (lo, st).
Proof. intros H. cbn [cloop]. unfold read at 1, get. rewrite H. reflexivity. Qed.
Lemma ends_early q i m n fuel : i <> q -> n <> 0 -> n <= m + 1 -> m + 8 <= fuel -> exists c, compile (caller q i m n) = Some c /\ crun fuel c = Done [0%Z].
Proof.
  intros N Hn Hm Hf. eexists. split; [exact (caller_code q i m n N)|]. unfold crun. cbn [rfuncs rmain]. destruct fuel as [|[|fuel]]; [lia|lia|].
  cbn [cexec write]. rewrite (cloop_step _ _ i n _ 0%Z); [|unfold upd; cbn; rewrite Nat.eqb_refl; reflexivity].
  rewrite (proj2 (Z.ltb_lt 0 (Z.of_nat n))) by lia. change (glob {| glob := empty; out := [] |}) with empty. change (out {| glob := empty; out := [] |}) with (@nil Z).
  destruct (caller_body q i m fuel 0%Z empty {| glob := upd empty i 0%Z; out := [] |}) as [[H|(st' & H & G1 & O1)] L].
  { unfold upd. cbn. rewrite Nat.eqb_refl. reflexivity. }
  { exfalso. apply L; [lia|exact H]. }
  rewrite H. cbn [bind read write]. unfold get. rewrite G1. cbn [bind]. destruct fuel as [|fuel]; [lia|]. cbn [cloop read].
  unfold get, upd at 1. cbn [glob]. rewrite Nat.eqb_refl. cbn [bind]. rewrite (proj2 (Z.ltb_ge _ _)) by lia. cbn. rewrite O1. reflexivity.
Qed.
Lemma py_inner fs lc i m : lc i = true -> forall fuel lo st, exists lo', pyexec (S (S fuel)) fs lc (For i m Skip) lo st = Done (lo', st).
Proof.
  intros Li fuel. cbn [pyexec]. rewrite Li. generalize (seq 0 m) as l. induction l as [|k l IH]; intros lo st; [exists lo; reflexivity|]. cbn [bind].
  apply IH.
Qed.
Lemma py_body q i m fuel z lo st : glob st i = Some z ->
  pyexec (6 + fuel) [looper q i m] (fun _ => false) (Seq (Print (Var i)) call0) lo st = Done (lo, {| glob := glob st; out := out st ++ [z] |}).
Proof.
  intros Hz. set (f := looper q i m).
  assert (Li : is_local f i = true) by (apply local_iff; right; left; reflexivity).
  destruct (py_inner [f] (is_local f) i m Li (S fuel) (upd empty (param f) 0%Z) {| glob := glob st; out := out st ++ [z] |}) as [lo' E].
  assert (C : pyexec (5 + fuel) [f] (fun _ => false) call0 lo {| glob := glob st; out := out st ++ [z] |} = Done (lo, {| glob := glob st; out := out st ++ [z] |})).
  { transitivity (bind (bind (pyexec (S (S (S fuel))) [f] (is_local f) (For i m Skip) (upd empty (param f) 0%Z) {| glob := glob st; out := out st ++ [z] |})
      (fun '(lo2, st2) => pyeval (S (S (S fuel))) [f] (is_local f) (ret f) lo2 st2)) (fun '(_, st1) => @Done (store * state) (lo, st1))); [reflexivity|].
    rewrite E. reflexivity. }
  change (pyexec (6 + fuel) [f] (fun _ => false) (Seq (Print (Var i)) call0) lo st)
    with (bind (bind (bind (get (glob st) i) (fun z => Done (z, st))) (fun '(z, st1) => @Done (store * state) (lo, {| glob := glob st1; out := out st1 ++ [z] |})))
      (fun '(lo1, st1) => pyexec (5 + fuel) [f] (fun _ => false) call0 lo1 st1)).
  unfold get. rewrite Hz. cbn [bind]. exact C.
Qed.
Lemma py_caller q i m n fuel : pyrun (7 + fuel) (caller q i m n) = Done (map Z.of_nat (seq 0 n)).
Proof.
  unfold pyrun, caller. cbn [funcs main]. set (f := looper q i m). cbn [Nat.add].
  assert (A : forall l lo st,
    (fix go (l : list nat) (lo : store) (st : state) : result (store * state) :=
           match l with
           | [] => Done (lo, st)
           | k :: l' => bind (pyexec (6 + fuel) [f] (fun _ => false) (Seq (Print (Var i)) call0) lo {| glob := upd (glob st) i (Z.of_nat k); out := out st |}) (fun '(lo2, st2) => go l' lo2 st2)
           end) l lo st = Done (lo, {| glob := fold_left (fun g k => upd g i (Z.of_nat k)) l (glob st); out := out st ++ map Z.of_nat l |})).
  { induction l as [|k l IH]; intros lo st.
    - cbn. rewrite app_nil_r. destruct st. reflexivity.
    - rewrite (py_body q i m fuel (Z.of_nat k)); [|unfold upd; cbn; rewrite Nat.eqb_refl; reflexivity].
      cbn [bind]. rewrite IH. cbn [glob out map fold_left]. rewrite <- app_assoc. reflexivity. }
  cbn [pyexec]. rewrite (A (seq 0 n)). reflexivity.
Qed.
