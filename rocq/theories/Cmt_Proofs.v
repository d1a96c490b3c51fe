(** Proofs about the insertion of comments. *)

From Coq Require Import List Bool Arith Lia.
From Verif Require Import Cmt_Model Cmt_Spec.
Import ListNotations.

Lemma every_list P b :
  fold_right (fun x Q => everywhere P x /\ Q) True b <->
  (forall n, In n b -> everywhere P n).
Proof.
  induction b as [|x b IH]; cbn.
  - split; [intros _ n []|auto].
  - rewrite IH. split.
    + intros [H1 H2] n [<-|H]; auto.
    + intros H; split; [apply H; auto|intros n Hn; apply H; auto].
Qed.

Lemma every_comp P l c i id b o :
  everywhere P (Comp l c i id b o) <->
  P (Comp l c i id b o) /\ (forall n, In n b -> everywhere P n) /\
  (forall n, In n o -> everywhere P n).
Proof. cbn [everywhere]. rewrite !every_list. reflexivity. Qed.

Lemma every_self P n : everywhere P n -> P n.
Proof. destruct n; cbn; tauto. Qed.

Lemma parsed_cons n b : parsed (n :: b) -> parsed b.
Proof. intros H x Hx; apply H; cbn; auto. Qed.

Lemma parsed_comp l c i id body o b :
  parsed (Comp l c i id body o :: b) -> body <> [] /\ parsed body /\ parsed o.
Proof.
  intros H. specialize (H _ (or_introl eq_refl)).
  apply every_comp in H. exact H.
Qed.

Lemma parsed_note c b : parsed (Note c :: b) -> False.
Proof. intros H. specialize (H _ (or_introl eq_refl)). cbn in H. tauto. Qed.

(** Induction on blocks. *)
Lemma depths_cons n b : depths (n :: b) = Nat.max (depth n) (depths b).
Proof. reflexivity. Qed.

Lemma depth_comp l c i id b o :
  depth (Comp l c i id b o) = S (Nat.max (depths b) (depths o)).
Proof. reflexivity. Qed.

Lemma block_ind (P : list node -> Prop) :
  P [] ->
  (forall l c i b, P b -> P (Simple l c i :: b)) ->
  (forall k b, P b -> P (Note k :: b)) ->
  (forall l c i id body o b, P body -> P o -> P b -> P (Comp l c i id body o :: b)) ->
  forall b, P b.
Proof.
  intros H0 H1 H2 H3.
  assert (A : forall d b, depths b < d -> P b).
  { induction d as [|d IH]; [lia|].
    induction b as [|n b IHb]; [auto|].
    rewrite depths_cons. intros Hd.
    destruct n as [l c i|l c i id body o|k].
    - apply H1, IHb; lia.
    - rewrite depth_comp in Hd. apply H3; [apply IH|apply IH|apply IHb]; lia.
    - apply H2, IHb; lia. }
  intros b. exact (A (S (depths b)) b (Nat.lt_succ_diag_r _)).
Qed.

Lemma strip_parsed b : parsed b -> flat_map strip b = b /\ flat_map notes b = [].
Proof.
  induction b as [|l c i b IH|k b IH|l c i id body o b IH1 IH2 IH3] using block_ind; intros H.
  - split; reflexivity.
  - destruct (IH (parsed_cons _ _ H)) as [E1 E2]. cbn. rewrite E1, E2. auto.
  - destruct (parsed_note _ _ H).
  - destruct (parsed_comp _ _ _ _ _ _ _ H) as [_ [Hb Ho]].
    destruct (IH1 Hb) as [A1 A2], (IH2 Ho) as [B1 B2], (IH3 (parsed_cons _ _ H)) as [C1 C2].
    cbn. rewrite A1, A2, B1, B2, C1, C2. auto.
Qed.

Lemma strip_notes cs : flat_map strip (map Note cs) = [].
Proof. induction cs; cbn; auto. Qed.

Lemma notes_notes cs : flat_map notes (map Note cs) = cs.
Proof. induction cs as [|c cs IH]; cbn; [|rewrite IH]; auto. Qed.

Lemma cut_app p cs a b : cut p cs = (a, b) -> cs = a ++ b.
Proof.
  revert a b; induction cs as [|c cs IH]; cbn; intros a b H.
  - now injection H as <- <-.
  - destruct (p c); [now injection H as <- <-|].
    destruct (cut p cs) as [a' b'] eqn:E. injection H as <- <-.
    cbn. f_equal. exact (IH _ _ eq_refl).
Qed.

Lemma cut_none p cs a b : cut p cs = (a, b) -> forall c, In c a -> p c = false.
Proof.
  revert a b; induction cs as [|c cs IH]; cbn; intros a b H.
  - injection H as <- <-. intros c [].
  - destruct (p c) eqn:Ep; [injection H as <- <-; intros x []|].
    destruct (cut p cs) as [a' b'] eqn:E. injection H as <- <-.
    intros x [<-|Hx]; [exact Ep|exact (IH _ _ eq_refl x Hx)].
Qed.

Lemma cut_first p cs a b c b' : cut p cs = (a, b) -> b = c :: b' -> p c = true.
Proof.
  revert a b; induction cs as [|x cs IH]; cbn; intros a b H Hb.
  - injection H as <- <-. discriminate.
  - destruct (p x) eqn:Ep.
    + injection H as <- <-. injection Hb as -> _. exact Ep.
    + destruct (cut p cs) as [a' b''] eqn:E. injection H as <- <-.
      exact (IH _ _ eq_refl Hb).
Qed.

Lemma cut_false p cs : (forall c, In c cs -> p c = false) -> cut p cs = (cs, []).
Proof.
  induction cs as [|c cs IH]; cbn; intros H; [reflexivity|].
  rewrite (H c) by auto. rewrite IH; auto.
Qed.

Lemma cut_true p c cs : p c = true -> cut p (c :: cs) = ([], c :: cs).
Proof. cbn. intros ->. reflexivity. Qed.

Lemma before_else_app elses e a b a' b' :
  before_else elses e a b = (a', b') -> a ++ b = a' ++ b'.
Proof.
  unfold before_else. destruct (rev a) as [|c r]; [now intros [= <- <-]|].
  destruct (rev (filter _ elses)) as [|x xs]; [now intros [= <- <-]|].
  destruct (cut _ a) as [u v] eqn:E. intros [= <- <-].
  rewrite (cut_app _ _ _ _ E). now rewrite app_assoc.
Qed.

(** Nothing is lost: the statements, and the comments. *)
Definition good_ins (d : nat) (ins : option nat -> list node -> list comment -> list node) :=
  forall g b cs, parsed b -> b <> [] -> depths b < d ->
    flat_map strip (ins g b cs) = b /\ flat_map notes (ins g b cs) = cs.

Lemma into_keeps d ins elses col next n cs n' cs' :
  good_ins d ins -> parsed [n] -> depth n <= d ->
  into ins elses col next n cs = (n', cs') ->
  strip n' = [n] /\ notes n' ++ cs' = cs.
Proof.
  intros Hi Hp Hd H. destruct n as [l c i|l c i id body o|k].
  - cbn in H. injection H as <- <-. auto.
  - cbn in Hd. fold (depths body) in Hd. fold (depths o) in Hd.
    destruct (parsed_comp _ _ _ _ _ _ _ Hp) as [Hne [Hb Ho]].
    unfold into in H.
    match type of H with (let '(_, _) := cut ?p cs in _) = _ =>
      destruct (cut p cs) as [a b] eqn:E1 end.
    apply cut_app in E1.
    match type of H with (let '(_, _) := ?p in _) = _ =>
      destruct p as [a1 b1] eqn:E2 end.
    assert (E3 : cs = a1 ++ b1).
    { destruct (negb (length o =? 0) && negb (is_elif o)).
      - apply before_else_app in E2. congruence.
      - injection E2 as <- <-. exact E1. }
    clear E1 E2.
    destruct (Hi None body a1) as [B1 B2]; [auto|auto|lia|].
    destruct o as [|x o].
    + cbn [length Nat.eqb negb] in H. injection H as <- <-.
      cbn [strip notes flat_map]. rewrite B1, B2, app_nil_r. auto.
    + cbn [length Nat.eqb negb] in H.
      match type of H with (let '(_, _) := cut ?p b1 in _) = _ =>
        destruct (cut p b1) as [a2 b2] eqn:E2 end.
      apply cut_app in E2. injection H as <- <-.
      destruct (Hi (Some col) (x :: o) a2) as [C1 C2]; [auto|discriminate|lia|].
      cbn [strip notes]. rewrite B1, B2, C1, C2. split; [reflexivity|].
      rewrite <- app_assoc. congruence.
  - destruct (parsed_note _ _ Hp).
Qed.

Lemma loop_keeps d ins elses col rest : forall prev cs,
  good_ins d ins -> parsed (prev :: rest) -> depths (prev :: rest) <= d ->
  flat_map strip (loop ins elses col prev rest cs) = prev :: rest /\
  flat_map notes (loop ins elses col prev rest cs) = cs.
Proof.
  induction rest as [|next rest IH]; intros prev cs Hi Hp Hd;
    rewrite depths_cons in Hd;
    assert (Hp1 : parsed [prev]) by (intros n [<-|[]]; apply Hp; left; reflexivity).
  - cbn [loop]. destruct (into ins elses col None prev cs) as [p' cs'] eqn:E.
    apply (into_keeps d) in E as [E1 E2]; [|auto|auto|lia].
    cbn [flat_map]. rewrite E1, strip_notes, notes_notes. auto.
  - cbn [loop]. destruct cs as [|c cs].
    + destruct (strip_parsed _ Hp) as [E1 E2]. split; assumption.
    + destruct (line_of next <? c_line c).
      * destruct (IH next (c :: cs) Hi (parsed_cons _ _ Hp)) as [E1 E2]; [lia|].
        destruct (strip_parsed _ Hp1) as [F1 F2].
        cbn [flat_map] in *. rewrite app_nil_r in F1, F2. rewrite F1, F2, E1, E2. auto.
      * destruct (into ins elses col (Some (line_of next)) prev (c :: cs)) as [p' cs1] eqn:E.
        apply (into_keeps d) in E as [E1 E2]; [|auto|auto|lia].
        destruct (cut _ cs1) as [a b] eqn:Ec. apply cut_app in Ec.
        destruct (IH next b Hi (parsed_cons _ _ Hp)) as [F1 F2]; [lia|].
        cbn [flat_map]. rewrite !flat_map_app, E1, strip_notes, notes_notes, F1, F2.
        split; [reflexivity|]. congruence.
Qed.

Lemma insert_keeps elses fuel : good_ins fuel (insert fuel elses).
Proof.
  induction fuel as [|fuel IH]; intros g b cs Hp Hne Hd; [lia|].
  destruct b as [|first rest]; [contradiction|].
  destruct cs as [|c cs].
  - cbn [insert]. apply strip_parsed, Hp.
  - cbn [insert].
    destruct (cut _ (c :: cs)) as [a b'] eqn:Ec. apply cut_app in Ec. rewrite Ec.
    match goal with |- context[loop _ _ ?k _ _ _] => set (col := k) end.
    destruct (loop_keeps fuel (insert fuel elses) elses col rest first b' IH Hp) as [E1 E2];
      [lia|].
    rewrite !flat_map_app, strip_notes, notes_notes, E1, E2. auto.
Qed.

Lemma kept_l elses body cs :
  parsed body ->
  flat_map strip (extend_tree elses body cs) = body /\
  flat_map notes (extend_tree elses body cs) = cs.
Proof.
  intros Hp. unfold extend_tree. destruct body as [|x b].
  - split; [apply strip_notes|apply notes_notes].
  - apply insert_keeps; [exact Hp|discriminate|lia].
Qed.

(** Groups. *)
Lemma group_app l : forall prev g gs, group prev l = (g, gs) ->
  g ++ concat gs = prev :: l /\
  Forall (fun g => g <> []) (g :: gs).
Proof.
  induction l as [|c l IH]; cbn; intros prev g gs H.
  - injection H as <- <-. split; [reflexivity|repeat constructor; discriminate].
  - destruct (group c l) as [g' gs'] eqn:E. destruct (IH _ _ _ E) as [E1 E2].
    destruct (_ && _); injection H as <- <-; cbn; rewrite E1; split; try reflexivity.
    + inversion E2; subst. constructor; [discriminate|assumption].
    + constructor; [discriminate|assumption].
Qed.

(** The order of lines. *)
Lemma inc_app a b :
  increasing (a ++ b) <->
  increasing a /\ increasing b /\ (forall x y, In x a -> In y b -> x < y).
Proof.
  induction a as [|x a IH]; cbn.
  - split; [intros H; repeat split; auto; intros ? ? []|tauto].
  - rewrite IH. split.
    + intros [H1 [H2 [H3 H4]]]. split; [split|split]; auto.
      * intros y Hy; apply H1, in_or_app; auto.
      * intros u y [<-|Hu] Hy; [apply H1, in_or_app; auto|auto].
    + intros [[H1 H2] [H3 H4]]. split; [|split; [|split]]; auto.
      intros y Hy. apply in_app_or in Hy as [Hy|Hy]; auto.
Qed.

Lemma lines_split b y :
  In y (flat_map lines b) <-> In y (flat_map stmts b) \/ In y (map c_line (flat_map notes b)).
Proof.
  induction b as [|l c i b IH|k b IH|l c i id body o b IH1 IH2 IH3] using block_ind; cbn.
  - tauto.
  - rewrite IH. tauto.
  - rewrite IH. tauto.
  - rewrite !in_app_iff, !map_app, !in_app_iff, IH1, IH2, IH3. tauto.
Qed.

Lemma stmts_strip b : flat_map stmts b = flat_map stmts (flat_map strip b).
Proof.
  induction b as [|l c i b IH|k b IH|l c i id body o b IH1 IH2 IH3] using block_ind; cbn.
  - reflexivity.
  - now rewrite IH.
  - exact IH.
  - now rewrite <- IH1, <- IH2, <- IH3.
Qed.

Lemma lines_stmts b : parsed b -> flat_map lines b = flat_map stmts b.
Proof.
  induction b as [|l c i b IH|k b IH|l c i id body o b IH1 IH2 IH3] using block_ind; intros H.
  - reflexivity.
  - cbn. now rewrite (IH (parsed_cons _ _ H)).
  - destruct (parsed_note _ _ H).
  - destruct (parsed_comp _ _ _ _ _ _ _ H) as [_ [Hb Ho]].
    cbn. now rewrite (IH1 Hb), (IH2 Ho), (IH3 (parsed_cons _ _ H)).
Qed.

Fixpoint last_of (d : nat) (b : list node) : nat :=
  match b with [] => d | [x] => last_line x | _ :: b' => last_of d b' end.

Lemma last_line_comp l c i id b o :
  last_line (Comp l c i id b o) = match o with [] => last_of l b | _ => last_of l o end.
Proof. destruct o; reflexivity. Qed.

Lemma last_app {A} (a b : list A) d : b <> [] -> last (a ++ b) d = last b d.
Proof.
  intros Hb. induction a as [|x a IH]; [reflexivity|].
  cbn [app]. destruct (a ++ b) as [|y r] eqn:E.
  - destruct a; cbn in E; [contradiction|discriminate].
  - rewrite <- IH. reflexivity.
Qed.

Lemma stmts_ne b : parsed b -> b <> [] -> flat_map stmts b <> [].
Proof.
  intros H Hb. destruct b as [|[l c i|l c i id body o|k] b].
  - contradiction.
  - discriminate.
  - discriminate.
  - destruct (parsed_note _ _ H).
Qed.

Lemma last_stmts b : parsed b -> b <> [] ->
  forall d d', last (flat_map stmts b) d' = last_of d b.
Proof.
  induction b as [|l c i b IH|k b IH|l c i id body o b IH1 IH2 IH3] using block_ind;
    intros H Hb d d'.
  - contradiction.
  - destruct b as [|x b]; [reflexivity|].
    change (flat_map stmts (Simple l c i :: x :: b)) with ([l] ++ flat_map stmts (x :: b)).
    rewrite last_app by (apply stmts_ne; [exact (parsed_cons _ _ H)|discriminate]).
    exact (IH (parsed_cons _ _ H) ltac:(discriminate) d d').
  - destruct (parsed_note _ _ H).
  - destruct b as [|x b].
    + destruct (parsed_comp _ _ _ _ _ _ _ H) as [Hne [Hp Ho]].
      cbn [flat_map last_of]. rewrite app_nil_r, last_line_comp.
      cbn [stmts].
      change (l :: flat_map stmts body ++ flat_map stmts o)
        with ((l :: flat_map stmts body) ++ flat_map stmts o).
      destruct o as [|y o].
      * cbn [flat_map]. rewrite app_nil_r.
        change (l :: flat_map stmts body) with ([l] ++ flat_map stmts body).
        rewrite last_app by (apply stmts_ne; assumption). apply IH1; assumption.
      * rewrite last_app by (apply stmts_ne; [assumption|discriminate]).
        apply IH2; [assumption|discriminate].
    + change (flat_map stmts (Comp l c i id body o :: x :: b))
        with (stmts (Comp l c i id body o) ++ flat_map stmts (x :: b)).
      rewrite last_app by (apply stmts_ne; [exact (parsed_cons _ _ H)|discriminate]).
      exact (IH3 (parsed_cons _ _ H) ltac:(discriminate) d d').
Qed.

Lemma inc_last l d : increasing l -> forall y, In y l -> y <= last l d.
Proof.
  induction l as [|x l IH]; cbn; intros H y Hy; [destruct Hy|].
  destruct H as [H1 H2]. destruct l as [|z l].
  - destruct Hy as [->|[]]; lia.
  - destruct Hy as [->|Hy]; [|exact (IH H2 y Hy)].
    assert (y < z) by (apply H1; left; reflexivity).
    specialize (IH H2 z (or_introl eq_refl)). lia.
Qed.

Lemma last_in {A} (l : list A) d : l <> [] -> In (last l d) l.
Proof.
  induction l as [|x [|y l] IH]; intros H; [contradiction|left; reflexivity|].
  right. apply IH. discriminate.
Qed.

Lemma last_line_max n : parsed [n] -> increasing (stmts n) ->
  In (last_line n) (stmts n) /\ forall y, In y (stmts n) -> y <= last_line n.
Proof.
  intros Hp Hi.
  assert (E : forall d, last (stmts n) d = last_line n).
  { intros d. pose proof (last_stmts [n] Hp ltac:(discriminate) 0 d) as H.
    cbn [flat_map last_of] in H. rewrite app_nil_r in H. exact H. }
  assert (Hne : stmts n <> []).
  { pose proof (stmts_ne [n] Hp ltac:(discriminate)) as H.
    cbn [flat_map] in H. rewrite app_nil_r in H. exact H. }
  rewrite <- (E 0). split; [apply last_in, Hne|].
  intros y Hy. apply inc_last; assumption.
Qed.

Lemma line_in n : parsed [n] -> In (line_of n) (stmts n).
Proof.
  intros H. destruct n; cbn; auto. destruct (parsed_note _ _ H).
Qed.

Lemma line_min n : parsed [n] -> increasing (stmts n) ->
  forall y, In y (stmts n) -> line_of n <= y.
Proof.
  intros H Hi y Hy. destruct n as [l c i|l c i id b o|k]; cbn in *.
  - destruct Hy as [->|[]]; lia.
  - destruct Hy as [->|Hy]; [lia|]. apply Hi in Hy. lia.
  - destruct Hy.
Qed.

Definition apart (cs : list comment) (l : list nat) : Prop :=
  forall c, In c cs -> ~ In (c_line c) l.

Lemma in_lines c cs : In c cs -> In (c_line c) (map c_line cs).
Proof. apply in_map. Qed.

Lemma inc_cut a b : increasing (map c_line (a ++ b)) ->
  increasing (map c_line a) /\ increasing (map c_line b) /\
  forall x y, In x a -> In y b -> c_line x < c_line y.
Proof.
  rewrite map_app, inc_app. intros [H1 [H2 H3]]. repeat split; auto.
  intros x y Hx Hy. apply H3; apply in_map; assumption.
Qed.

Definition plain (b : list node) : Prop := parsed b /\ without_else b.

Lemma plain_cons n b : plain (n :: b) -> plain [n] /\ plain b.
Proof.
  intros [H1 H2]. split; split; intros x Hx.
  - destruct Hx as [<-|[]]; apply H1; left; reflexivity.
  - destruct Hx as [<-|[]]; apply H2; left; reflexivity.
  - apply H1; right; exact Hx.
  - apply H2; right; exact Hx.
Qed.

Lemma plain_comp l c i id body o :
  plain [Comp l c i id body o] -> body <> [] /\ plain body /\ o = [].
Proof.
  intros [H1 H2]. destruct (parsed_comp _ _ _ _ _ _ _ H1) as [Hne [Hb _]].
  specialize (H2 _ (or_introl eq_refl)). apply every_comp in H2 as [E [H2 _]].
  repeat split; auto.
Qed.

Definition sorted_ins (d : nat) (ins : option nat -> list node -> list comment -> list node) :=
  forall b cs, plain b -> b <> [] -> depths b < d ->
    increasing (flat_map stmts b) -> increasing (map c_line cs) ->
    apart cs (flat_map stmts b) ->
    increasing (flat_map lines (ins None b cs)).

Lemma keeps_lines X b cs :
  flat_map strip X = b -> flat_map notes X = cs ->
  forall y, In y (flat_map lines X) <-> In y (flat_map stmts b) \/ In y (map c_line cs).
Proof.
  intros <- <- y. rewrite lines_split, <- stmts_strip. reflexivity.
Qed.

Lemma into_sorted d ins elses col next n cs n' cs' :
  good_ins d ins -> sorted_ins d ins -> plain [n] -> depth n <= d ->
  increasing (stmts n) -> increasing (map c_line cs) -> apart cs (stmts n) ->
  (forall c, In c cs -> line_of n < c_line c) ->
  (forall m, next = Some m -> last_line n < m /\ forall c, In c cs -> c_line c <> m) ->
  into ins elses col next n cs = (n', cs') ->
  exists a, cs = a ++ cs' /\
    increasing (lines n') /\
    (forall y, In y (lines n') <-> In y (stmts n) \/ In y (map c_line a)) /\
    (forall c, In c cs' -> last_line n < c_line c) /\
    (forall m, next = Some m -> forall c, In c a -> c_line c < m).
Proof.
  intros Hg Hs Hp Hd Hi Hc Ha Hf Hn H.
  destruct n as [l c i|l c i id body o|k].
  - cbn in H. injection H as <- <-. exists []. cbn in *.
    repeat split; auto; try tauto.
  - destruct (plain_comp _ _ _ _ _ _ Hp) as [Hne [Hb ->]].
    destruct (last_line_max _ (proj1 Hp) Hi) as [HL1 HL2].
    unfold into in H.
    set (L := last_line (Comp l c i id body [])) in *.
    cbn [length Nat.eqb negb andb orb is_elif] in H.
    match type of H with (let '(_, _) := cut ?p cs in _) = _ =>
      destruct (cut p cs) as [a b] eqn:E1 end.
    injection H as <- <-.
    pose proof (cut_app _ _ _ _ E1) as E. pose proof (cut_none _ _ _ _ E1) as Ef.
    exists a. subst cs.
    destruct (inc_cut _ _ Hc) as [Hca [Hcb Hcab]].
    rewrite depth_comp in Hd. destruct Hb as [Hb1 Hb2].
    destruct (Hg None body a Hb1 Hne ltac:(lia)) as [K1 K2].
    pose proof (keeps_lines _ _ _ K1 K2) as KL.
    cbn [stmts flat_map] in Hi. rewrite app_nil_r in Hi. destruct Hi as [Hi1 Hi2].
    split; [reflexivity|]. split; [|split; [|split]].
    + cbn [lines flat_map]. rewrite app_nil_r. split.
      * intros y Hy. apply KL in Hy as [Hy|Hy]; [apply Hi1, Hy|].
        apply in_map_iff in Hy as [x [<- Hx]].
        specialize (Hf x (in_or_app _ _ _ (or_introl Hx))). cbn in Hf. exact Hf.
      * apply Hs; [split; assumption|assumption|lia|assumption|assumption|].
        intros x Hx Hin. apply (Ha x (in_or_app _ _ _ (or_introl Hx))).
        cbn [stmts flat_map]. rewrite app_nil_r. right. exact Hin.
    + intros y. cbn [lines stmts flat_map]. rewrite !app_nil_r. cbn [In]. rewrite KL. tauto.
    + intros x Hx. destruct b as [|b0 b]; [destruct Hx|].
      pose proof (cut_first _ _ _ _ _ _ E1 eq_refl) as Hb0.
      apply andb_true_iff in Hb0 as [Hb0 _]. apply Nat.ltb_lt in Hb0.
      destruct Hx as [<-|Hx]; [exact Hb0|].
      cbn in Hcb. destruct Hcb as [Hcb _]. specialize (Hcb _ (in_lines _ _ Hx)). lia.
    + intros m -> x Hx. specialize (Ef x Hx).
      destruct (Hn m eq_refl) as [Hm1 Hm2].
      specialize (Hm2 x (in_or_app _ _ _ (or_introl Hx))).
      destruct (L <? c_line x) eqn:EL; cbn [andb] in Ef.
      * apply orb_false_iff in Ef as [_ Ef]. apply Nat.ltb_ge in Ef. lia.
      * apply Nat.ltb_ge in EL. lia.
  - destruct (parsed_note _ _ (proj1 Hp)).
Qed.

Lemma inc_notes cs : increasing (map c_line cs) -> increasing (flat_map lines (map Note cs)).
Proof.
  intros H. replace (flat_map lines (map Note cs)) with (map c_line cs); [exact H|].
  clear. induction cs as [|c cs IH]; cbn; [|rewrite IH]; reflexivity.
Qed.

Lemma lines_notes cs : flat_map lines (map Note cs) = map c_line cs.
Proof. induction cs as [|c cs IH]; cbn; [|rewrite IH]; reflexivity. Qed.

Lemma loop_sorted d ins elses col rest : forall prev cs,
  good_ins d ins -> sorted_ins d ins -> plain (prev :: rest) ->
  depths (prev :: rest) <= d ->
  increasing (flat_map stmts (prev :: rest)) -> increasing (map c_line cs) ->
  apart cs (flat_map stmts (prev :: rest)) ->
  (forall c, In c cs -> line_of prev < c_line c) ->
  increasing (flat_map lines (loop ins elses col prev rest cs)).
Proof.
  induction rest as [|next rest IH]; intros prev cs Hg Hs Hp Hd Hi Hc Ha Hf.
  - rewrite depths_cons in Hd. cbn [flat_map] in Hi, Ha. rewrite app_nil_r in Hi, Ha.
    cbn [loop]. destruct (into ins elses col None prev cs) as [p' cs'] eqn:E.
    destruct (into_sorted d ins elses col None prev cs p' cs' Hg Hs Hp ltac:(lia) Hi Hc Ha Hf
                ltac:(intros m Hm; discriminate) E) as [a [-> [H1 [H2 [H3 _]]]]].
    destruct (inc_cut _ _ Hc) as [Hca [Hcb Hcab]].
    cbn [flat_map]. rewrite lines_notes. apply inc_app. split; [exact H1|split; [exact Hcb|]].
    destruct (last_line_max _ (proj1 Hp) Hi) as [_ HL].
    intros x y Hx Hy. apply in_map_iff in Hy as [k [<- Hk]].
    apply H2 in Hx as [Hx|Hx].
    + specialize (HL x Hx). specialize (H3 k Hk). lia.
    + apply in_map_iff in Hx as [j [<- Hj]]. auto.
  - destruct (plain_cons _ _ Hp) as [Hp1 Hp2].
    destruct (plain_cons _ _ Hp2) as [Hp3 _].
    rewrite depths_cons in Hd.
    change (flat_map stmts (prev :: next :: rest))
      with (stmts prev ++ flat_map stmts (next :: rest)) in Hi, Ha.
    apply inc_app in Hi as [Hi1 [Hi2 Hi3]].
    assert (Hi2' := Hi2). cbn [flat_map] in Hi2'. apply inc_app in Hi2' as [Hin [_ _]].
    assert (Hnext : In (line_of next) (flat_map stmts (next :: rest))).
    { cbn [flat_map]. apply in_or_app. left. apply line_in, Hp3. }
    assert (Hmin : forall y, In y (flat_map stmts (next :: rest)) -> line_of next <= y).
    { intros y Hy. cbn [flat_map] in Hy, Hi2. apply in_app_or in Hy as [Hy|Hy].
      - exact (line_min _ (proj1 Hp3) Hin y Hy).
      - apply inc_app in Hi2 as [_ [_ Hi4]].
        specialize (Hi4 _ _ (line_in _ (proj1 Hp3)) Hy). lia. }
    destruct (last_line_max _ (proj1 Hp1) Hi1) as [HL1 HL2].
    cbn [loop]. destruct cs as [|c cs].
    + rewrite (lines_stmts _ (proj1 Hp)).
      change (flat_map stmts (prev :: next :: rest))
        with (stmts prev ++ flat_map stmts (next :: rest)).
      apply inc_app. auto.
    + destruct (line_of next <? c_line c) eqn:El.
      * apply Nat.ltb_lt in El.
        assert (Hall : forall k, In k (c :: cs) -> line_of next < c_line k).
        { intros k [<-|Hk]; [exact El|]. cbn in Hc. destruct Hc as [Hc _].
          specialize (Hc _ (in_lines _ _ Hk)). lia. }
        cbn [flat_map].
        assert (E : lines prev = stmts prev).
        { pose proof (lines_stmts [prev] (proj1 Hp1)) as E. cbn in E.
          now rewrite !app_nil_r in E. }
        rewrite E. apply inc_app. split; [exact Hi1|]. split.
        -- apply IH; auto; [lia|].
           intros k Hk Hin'. apply (Ha k Hk), in_or_app. auto.
        -- intros x y Hx Hy.
           destruct (loop_keeps d ins elses col rest next (c :: cs) Hg (proj1 Hp2) ltac:(lia))
             as [K1 K2].
           apply (keeps_lines _ _ _ K1 K2) in Hy as [Hy|Hy].
           ++ auto.
           ++ apply in_map_iff in Hy as [k [<- Hk]]. specialize (Hall k Hk).
              specialize (Hi3 x _ Hx Hnext). lia.
      * apply Nat.ltb_ge in El.
        destruct (into ins elses col (Some (line_of next)) prev (c :: cs)) as [p' cs1] eqn:E.
        assert (Hx : exists a, c :: cs = a ++ cs1 /\ increasing (lines p') /\
          (forall y, In y (lines p') <-> In y (stmts prev) \/ In y (map c_line a)) /\
          (forall c, In c cs1 -> last_line prev < c_line c) /\
          (forall m, Some (line_of next) = Some m -> forall c, In c a -> c_line c < m)).
        { refine (into_sorted d ins elses col _ prev (c :: cs) p' cs1 Hg Hs Hp1 ltac:(lia) Hi1 Hc
                    _ Hf _ E); [intros k Hk Hin'; apply (Ha k Hk), in_or_app; auto|].
          intros m [= <-]. split; [exact (Hi3 _ _ HL1 Hnext)|].
          intros k Hk He. apply (Ha k Hk). rewrite He. apply in_or_app. auto. }
        destruct Hx as [a [Ecs [H1 [H2 [H3 H4]]]]].
        rewrite Ecs in *. clear Ecs E.
        destruct (inc_cut _ _ Hc) as [Hca [Hcb Hcab]].
        destruct (cut _ cs1) as [bt cs2] eqn:Ec.
        pose proof (cut_app _ _ _ _ Ec) as E2. pose proof (cut_none _ _ _ _ Ec) as Ef.
        subst cs1. destruct (inc_cut _ _ Hcb) as [Hb1 [Hb2 Hb12]].
        assert (Hgt : forall k, In k cs2 -> line_of next < c_line k).
        { intros k Hk. destruct cs2 as [|k0 cs2]; [destruct Hk|].
          pose proof (cut_first _ _ _ _ _ _ Ec eq_refl) as H0. apply Nat.ltb_lt in H0.
          destruct Hk as [<-|Hk]; [exact H0|].
          cbn in Hb2. destruct Hb2 as [Hb2 _]. specialize (Hb2 _ (in_lines _ _ Hk)). lia. }
        assert (Hlt : forall k, In k bt -> c_line k < line_of next).
        { intros k Hk. specialize (Ef k Hk). apply Nat.ltb_ge in Ef.
          assert (c_line k <> line_of next); [|lia].
          intros He. apply (Ha k); [apply in_or_app; right; apply in_or_app; auto|].
          rewrite He. apply in_or_app. auto. }
        cbn [flat_map]. rewrite flat_map_app, lines_notes.
        destruct (loop_keeps d ins elses col rest next cs2 Hg (proj1 Hp2) ltac:(lia))
          as [K1 K2].
        pose proof (keeps_lines _ _ _ K1 K2) as KL.
        assert (HLoop : forall y, In y (flat_map lines (loop ins elses col next rest cs2)) ->
                  line_of next <= y).
        { intros y Hy. apply KL in Hy as [Hy|Hy]; [auto|].
          apply in_map_iff in Hy as [k [<- Hk]]. specialize (Hgt k Hk). lia. }
        apply inc_app. split; [exact H1|]. split; [apply inc_app; split; [exact Hb1|split]|].
        -- apply IH; auto; [lia|].
           intros k Hk Hin'. apply (Ha k); [|apply in_or_app; auto].
           apply in_or_app; right; apply in_or_app; auto.
        -- intros x y Hx Hy. apply HLoop in Hy.
           apply in_map_iff in Hx as [k [<- Hk]]. specialize (Hlt k Hk). lia.
        -- intros x y Hx Hy.
           assert (Hxn : x < line_of next).
           { apply H2 in Hx as [Hx|Hx]; [exact (Hi3 _ _ Hx Hnext)|].
             apply in_map_iff in Hx as [j [<- Hj]]. exact (H4 _ eq_refl j Hj). }
           apply in_app_or in Hy as [Hy|Hy]; [|apply HLoop in Hy; lia].
           apply in_map_iff in Hy as [k [<- Hk]].
           apply H2 in Hx as [Hx|Hx].
           ++ specialize (HL2 _ Hx). specialize (H3 k (in_or_app _ _ _ (or_introl Hk))). lia.
           ++ apply in_map_iff in Hx as [j [<- Hj]]. apply Hcab; [exact Hj|].
              apply in_or_app; auto.
Qed.

Lemma insert_sorted elses fuel : sorted_ins fuel (insert fuel elses).
Proof.
  induction fuel as [|fuel IH]; intros b cs Hp Hne Hd Hi Hc Ha; [lia|].
  destruct b as [|first rest]; [contradiction|].
  destruct cs as [|c cs].
  - cbn [insert]. rewrite (lines_stmts _ (proj1 Hp)). exact Hi.
  - cbn [insert].
    destruct (cut _ (c :: cs)) as [a b'] eqn:Ec.
    pose proof (cut_app _ _ _ _ Ec) as E. pose proof (cut_none _ _ _ _ Ec) as Ef.
    rewrite E in Hc, Ha. destruct (inc_cut _ _ Hc) as [Hca [Hcb Hcab]].
    destruct (plain_cons _ _ Hp) as [Hp1 Hp2].
    assert (Hfirst : In (line_of first) (flat_map stmts (first :: rest))).
    { cbn [flat_map]. apply in_or_app. left. apply line_in, Hp1. }
    assert (Hmin : forall y, In y (flat_map stmts (first :: rest)) -> line_of first <= y).
    { intros y Hy. cbn [flat_map] in Hy, Hi. apply inc_app in Hi as [Hi1 [_ Hi3]].
      apply in_app_or in Hy as [Hy|Hy].
      - exact (line_min _ (proj1 Hp1) Hi1 y Hy).
      - specialize (Hi3 _ _ (line_in _ (proj1 Hp1)) Hy). lia. }
    assert (Hgt : forall k, In k b' -> line_of first < c_line k).
    { intros k Hk.
      assert (line_of first <= c_line k).
      { destruct b' as [|k0 b']; [destruct Hk|].
        pose proof (cut_first _ _ _ _ _ _ Ec eq_refl) as H0. apply Nat.leb_le in H0.
        destruct Hk as [<-|Hk]; [exact H0|].
        cbn in Hcb. destruct Hcb as [Hcb _]. specialize (Hcb _ (in_lines _ _ Hk)). lia. }
      assert (c_line k <> line_of first); [|lia].
      intros He. apply (Ha k); [apply in_or_app; auto|]. now rewrite He. }
    match goal with |- context[loop _ _ ?k _ _ _] => set (col := k) end.
    destruct (loop_keeps fuel (insert fuel elses) elses col rest first b'
                (insert_keeps elses fuel) (proj1 Hp) ltac:(lia)) as [K1 K2].
    rewrite flat_map_app, lines_notes. apply inc_app. split; [exact Hca|]. split.
    + apply (loop_sorted fuel); auto; [apply insert_keeps|lia|].
      intros k Hk. apply Ha, in_or_app. auto.
    + intros x y Hx Hy. apply in_map_iff in Hx as [k [<- Hk]].
      pose proof (Ef k Hk) as Hk'. apply Nat.leb_gt in Hk'.
      apply (keeps_lines _ _ _ K1 K2) in Hy as [Hy|Hy].
      * specialize (Hmin _ Hy). lia.
      * apply in_map_iff in Hy as [j [<- Hj]]. auto.
Qed.

Lemma order_l elses body cs :
  parsed body -> without_else body ->
  increasing (flat_map stmts body) -> increasing (map c_line cs) ->
  (forall c, In c cs -> ~ In (c_line c) (flat_map stmts body)) ->
  increasing (flat_map lines (extend_tree elses body cs)).
Proof.
  intros Hp Hw Hi Hc Ha. unfold extend_tree. destruct body as [|x b].
  - rewrite lines_notes. exact Hc.
  - apply insert_sorted; [split; assumption|discriminate|lia|exact Hi|exact Hc|exact Ha].
Qed.

(** The comments at the end of a body. *)
Lemma last_line_in n : parsed [n] -> In (last_line n) (stmts n).
Proof.
  intros Hp.
  pose proof (last_stmts [n] Hp ltac:(discriminate) 0 0) as H.
  pose proof (stmts_ne [n] Hp ltac:(discriminate)) as Hne.
  cbn [flat_map last_of] in H, Hne. rewrite app_nil_r in H, Hne.
  rewrite <- H. apply last_in, Hne.
Qed.

Lemma deeper_cons n b : deeper (n :: b) <-> deeper [n] /\ deeper b.
Proof.
  split.
  - intros H. split; intros x Hx; apply H.
    + destruct Hx as [<-|[]]; left; reflexivity.
    + right; exact Hx.
  - intros [H1 H2] x [<-|Hx]; [apply H1; left; reflexivity|apply H2, Hx].
Qed.

Lemma deeper_app a b : deeper a -> deeper b -> deeper (a ++ b).
Proof.
  intros H1 H2 x Hx. apply in_app_or in Hx as [Hx|Hx]; [apply H1|apply H2]; exact Hx.
Qed.

Lemma deeper_notes cs : deeper (map Note cs).
Proof. intros x Hx. apply in_map_iff in Hx as [c [<- _]]. cbn. auto. Qed.

Lemma deeper_parsed b : parsed b -> deeper b.
Proof.
  induction b as [|l c i b IH|k b IH|l c i id body o b IH1 IH2 IH3] using block_ind; intros H.
  - intros x [].
  - apply deeper_cons. split; [|exact (IH (parsed_cons _ _ H))].
    intros x [<-|[]]. cbn. auto.
  - destruct (parsed_note _ _ H).
  - apply deeper_cons. split; [|exact (IH3 (parsed_cons _ _ H))].
    destruct (parsed_comp _ _ _ _ _ _ _ H) as [Hne [Hb Ho]].
    destruct (strip_parsed _ Hb) as [_ E1]. destruct (strip_parsed _ Ho) as [_ E2].
    intros x [<-|[]]. apply every_comp. split; [|split; [exact (IH1 Hb)|exact (IH2 Ho)]].
    intros k Hk _. cbn [notes] in Hk. rewrite E1, E2 in Hk. destruct Hk.
Qed.

Definition deep_ins (d : nat) (ins : option nat -> list node -> list comment -> list node) :=
  forall b cs, plain b -> aligned b -> b <> [] -> depths b < d -> deeper (ins None b cs).

Lemma aligned_comp l c i id body o b :
  aligned (Comp l c i id body o :: b) -> aligned body.
Proof.
  intros [_ H]. specialize (H _ (or_introl eq_refl)).
  apply every_comp in H as [H1 [H2 _]]. split; assumption.
Qed.

Lemma aligned_cons n b : aligned (n :: b) -> aligned [n] /\ aligned b.
Proof.
  intros [H1 H2]. split; split.
  - intros x y [<-|[]] [<-|[]]. reflexivity.
  - intros x [<-|[]]. apply H2. left; reflexivity.
  - intros x y Hx Hy. apply H1; right; assumption.
  - intros x Hx. apply H2. right; exact Hx.
Qed.

Lemma into_deeper d ins elses col next n cs n' cs' :
  good_ins d ins -> deep_ins d ins -> plain [n] -> aligned [n] -> depth n <= d ->
  col = col_of n ->
  into ins elses col next n cs = (n', cs') -> deeper [n'].
Proof.
  intros Hg Hs Hp Hal Hd Hcol H.
  destruct n as [l c i|l c i id body o|k].
  - cbn in H. injection H as <- <-. apply deeper_parsed, Hp.
  - destruct (plain_comp _ _ _ _ _ _ Hp) as [Hne [Hb ->]].
    pose proof (last_line_in _ (proj1 Hp)) as HL.
    unfold into in H.
    set (L := last_line (Comp l c i id body [])) in *.
    cbn [length Nat.eqb negb andb orb is_elif] in H.
    match type of H with (let '(_, _) := cut ?p cs in _) = _ =>
      destruct (cut p cs) as [a b] eqn:E1 end.
    injection H as <- <-.
    pose proof (cut_none _ _ _ _ E1) as Ef.
    rewrite depth_comp in Hd. destruct Hb as [Hb1 Hb2].
    destruct (Hg None body a Hb1 Hne ltac:(lia)) as [K1 K2].
    intros x [<-|[]]. apply every_comp. split; [|split].
    + intros k Hk Hy. cbn [notes flat_map] in Hk. rewrite K2, app_nil_r in Hk.
      assert (HLk : L < c_line k).
      { apply Hy. cbn [stmts flat_map]. rewrite stmts_strip, K1.
        cbn [stmts flat_map] in HL. exact HL. }
      specialize (Ef k Hk). apply Nat.ltb_lt in HLk. cbv beta zeta in Ef. rewrite HLk in Ef. cbn [andb] in Ef.
      apply orb_false_iff in Ef as [Ef _]. rewrite andb_true_r in Ef.
      apply Nat.leb_gt in Ef. cbn in Hcol. lia.
    + apply Hs; [split; assumption|exact (aligned_comp _ _ _ _ _ _ _ Hal)|assumption|lia].
    + intros x [].
  - destruct (parsed_note _ _ (proj1 Hp)).
Qed.

Lemma loop_deeper d ins elses col rest : forall prev cs,
  good_ins d ins -> deep_ins d ins -> plain (prev :: rest) -> aligned (prev :: rest) ->
  depths (prev :: rest) <= d -> col = col_of prev ->
  deeper (loop ins elses col prev rest cs).
Proof.
  induction rest as [|next rest IH]; intros prev cs Hg Hs Hp Hal Hd Hcol;
    rewrite depths_cons in Hd;
    destruct (plain_cons _ _ Hp) as [Hp1 Hp2]; destruct (aligned_cons _ _ Hal) as [Hal1 Hal2].
  - cbn [loop]. destruct (into ins elses col None prev cs) as [p' cs'] eqn:E.
    apply deeper_cons. split; [|apply deeper_notes].
    eapply into_deeper; [exact Hg|exact Hs|exact Hp1|exact Hal1|lia|exact Hcol|exact E].
  - assert (Hnext : col = col_of next).
    { rewrite Hcol. apply (proj1 Hal); [left|right; left]; reflexivity. }
    cbn [loop]. destruct cs as [|c cs].
    + apply deeper_parsed, Hp.
    + destruct (line_of next <? c_line c).
      * apply deeper_cons. split; [apply deeper_parsed, Hp1|].
        apply IH; auto. lia.
      * destruct (into ins elses col (Some (line_of next)) prev (c :: cs)) as [p' cs1] eqn:E.
        destruct (cut _ cs1) as [bt cs2] eqn:Ec.
        apply deeper_cons. split.
        -- eapply into_deeper; [exact Hg|exact Hs|exact Hp1|exact Hal1|lia|exact Hcol|exact E].
        -- apply deeper_app; [apply deeper_notes|]. apply IH; auto. lia.
Qed.

Lemma insert_deeper elses fuel : deep_ins fuel (insert fuel elses).
Proof.
  induction fuel as [|fuel IH]; intros b cs Hp Hal Hne Hd; [lia|].
  destruct b as [|first rest]; [contradiction|].
  destruct cs as [|c cs].
  - cbn [insert]. apply deeper_parsed, Hp.
  - cbn [insert]. destruct (cut _ (c :: cs)) as [a b'] eqn:Ec.
    apply deeper_app; [apply deeper_notes|].
    apply (loop_deeper fuel); auto; [apply insert_keeps|lia].
Qed.

Lemma deeper_l elses body cs :
  parsed body -> without_else body -> aligned body ->
  deeper (extend_tree elses body cs).
Proof.
  intros Hp Hw Hal. unfold extend_tree. destruct body as [|x b].
  - apply deeper_notes.
  - apply insert_deeper; [split; assumption|assumption|discriminate|lia].
Qed.

(** Where comments go wrong. *)
Lemma loop_nil ins elses col rest : forall prev,
  (forall g b, ins g b [] = b) -> loop ins elses col prev rest [] = prev :: rest.
Proof.
  intros prev Hi. destruct rest as [|x rest]; [|reflexivity].
  cbn [loop]. destruct prev as [l c i|l c i id body o|k]; [reflexivity| |reflexivity].
  unfold into. cbn [cut].
  destruct (negb (length o =? 0) && negb (is_elif o)); cbn [before_else rev];
    destruct (negb (length o =? 0)); cbn [map cut]; rewrite ?Hi; reflexivity.
Qed.

Lemma insert_nil fuel elses g b : insert fuel elses g b [] = b.
Proof. destruct fuel, b; reflexivity. Qed.

Lemma insert_S fuel elses first rest c cs :
  insert (S fuel) elses None (first :: rest) (c :: cs) =
  let '(front, cs1) := cut (fun c => line_of first <=? c_line c) (c :: cs) in
  map Note front ++ loop (insert fuel elses) elses (col_of first) first rest cs1.
Proof. reflexivity. Qed.

Lemma insert_front fuel elses g first rest cs :
  (forall c, In c cs -> c_line c < line_of first) ->
  insert (S fuel) elses g (first :: rest) cs = map Note cs ++ first :: rest.
Proof.
  intros H. destruct cs as [|c cs]; [reflexivity|].
  cbn [insert]. rewrite cut_false.
  - rewrite loop_nil; [reflexivity|apply insert_nil].
  - intros k Hk. apply Nat.leb_gt, H, Hk.
Qed.

Lemma loop_skip ins elses col cs : forall pre prev s,
  cs <> [] ->
  (forall n c, In n pre -> In c cs -> line_of n < c_line c) ->
  (forall c, In c cs -> line_of s < c_line c) ->
  loop ins elses col prev (pre ++ [s]) cs =
  prev :: pre ++ (let '(s', cs') := into ins elses col None s cs in s' :: map Note cs').
Proof.
  induction pre as [|x pre IH]; intros prev s Hne Hpre Hs; cbn [app loop];
    destruct cs as [|c cs]; try contradiction.
  - assert (H : line_of s <? c_line c = true) by (apply Nat.ltb_lt, Hs; left; reflexivity).
    rewrite H. reflexivity.
  - assert (H : line_of x <? c_line c = true)
      by (apply Nat.ltb_lt, Hpre; left; reflexivity).
    rewrite H. f_equal. rewrite IH; [reflexivity|exact Hne| |exact Hs].
    intros n k Hn Hk. apply Hpre; [right; exact Hn|exact Hk].
Qed.

Lemma rev_filter_last p (l : list nat) e :
  In e l -> p e = true -> increasing l ->
  exists x r, rev (filter p l) = x :: r /\ In x l /\ p x = true.
Proof.
  intros H1 H2 _.
  destruct (rev (filter p l)) as [|x r] eqn:E.
  - exfalso. assert (In e (rev (filter p l))) as H by (rewrite <- in_rev; apply filter_In; auto).
    rewrite E in H. destruct H.
  - exists x, r. split; [reflexivity|].
    apply filter_In. rewrite in_rev, E. left; reflexivity.
Qed.

Lemma misplaced_l elses pre l c i id b x o k cs e :
  is_elif (x :: o) = false ->
  (forall n y, In n (pre ++ [Comp l c i id b (x :: o)]) -> In y (k :: cs) ->
     line_of n < c_line y) ->
  (forall y, In y (k :: cs) -> c_line y < line_of x) ->
  (forall y, In y (k :: cs) -> c_line y <= last_line (Comp l c i id b (x :: o))) ->
  increasing (map c_line (k :: cs)) ->
  increasing elses ->
  In e elses -> e <= c_line k ->
  (forall e' y, In e' elses -> In y (k :: cs) -> e' <= c_line y -> e' <= c_line k) ->
  extend_tree elses (pre ++ [Comp l c i id b (x :: o)]) (k :: cs) =
  pre ++ [Comp l c i id b (map Note (k :: cs) ++ x :: o)].
Proof.
  intros Helif Hlines Hx Hl Hinc Hel He Hek Hno.
  set (s := Comp l c i id b (x :: o)) in *.
  assert (Hinto : forall fuel col, into (insert (S fuel) elses) elses col None s (k :: cs) =
            (Comp l c i id b (map Note (k :: cs) ++ x :: o), [])).
  { intros fuel col. subst s. unfold into. rewrite Helif.
    cbn [length Nat.eqb negb andb].
    rewrite cut_false.
    2:{ intros y Hy. specialize (Hx y Hy). apply andb_false_iff. left. apply Nat.ltb_ge. lia. }
    assert (Hbe : before_else elses (line_of x) (k :: cs) [] = ([], k :: cs)).
    { unfold before_else. destruct (rev (k :: cs)) as [|z r] eqn:Er.
      - apply (f_equal (@length _)) in Er. rewrite rev_length in Er. discriminate.
      - assert (Hz : In z (k :: cs)) by (rewrite in_rev, Er; left; reflexivity).
        assert (Hkz : c_line k <= c_line z).
        { destruct Hz as [<-|Hz]; [lia|]. cbn in Hinc. destruct Hinc as [Hinc _].
          specialize (Hinc _ (in_lines _ _ Hz)). lia. }
        destruct (rev_filter_last
          (fun e => (e <=? c_line z) && (e <=? line_of x)) elses e He) as [e1 [r' [E1 [E2 E3]]]].
        { apply andb_true_iff. split; apply Nat.leb_le; [lia|].
          specialize (Hx k (or_introl eq_refl)). lia. }
        { exact Hel. }
        rewrite E1. apply andb_true_iff in E3 as [E3 _]. apply Nat.leb_le in E3.
        rewrite cut_true; [rewrite app_nil_r; reflexivity|].
        apply Nat.leb_le. exact (Hno e1 z E2 Hz E3). }
    rewrite Hbe. rewrite insert_nil.
    rewrite cut_false.
    2:{ intros y Hy. specialize (Hl y Hy). apply andb_false_iff. left. apply Nat.ltb_ge. exact Hl. }
    rewrite insert_front by exact Hx. reflexivity. }
  assert (Hdep : exists d, depths (pre ++ [s]) = S d).
  { assert (1 <= depths (pre ++ [s])).
    { clear. induction pre as [|p pre IH]; cbn [app].
      - subst s. rewrite depths_cons, depth_comp. lia.
      - rewrite depths_cons. lia. }
    destruct (depths (pre ++ [s])); [lia|eauto]. }
  destruct Hdep as [d Hd].
  assert (Hs : forall y, In y (k :: cs) -> line_of s < c_line y).
  { intros y Hy. apply Hlines; [apply in_or_app; right; left; reflexivity|exact Hy]. }
  unfold extend_tree.
  destruct pre as [|p pre]; cbn [app] in *.
  - rewrite Hd, insert_S. rewrite cut_true.
    2:{ apply Nat.leb_le. specialize (Hs k (or_introl eq_refl)). lia. }
    cbn [map app loop]. rewrite Hinto. reflexivity.
  - rewrite Hd, insert_S. rewrite cut_true.
    2:{ apply Nat.leb_le.
        specialize (Hlines p k (or_introl eq_refl) (or_introl eq_refl)). lia. }
    cbn [map app].
    rewrite loop_skip; [rewrite Hinto; reflexivity|discriminate| |exact Hs].
    intros n y Hn Hy. apply Hlines; [|exact Hy]. right. apply in_or_app; auto.
Qed.

Lemma insert_after fuel elses g o cs :
  o <> [] -> cs <> [] -> (forall n, In n o -> simple n) ->
  (forall n c, In n o -> In c cs -> line_of n < c_line c) ->
  insert (S fuel) elses g o cs = o ++ map Note cs.
Proof.
  intros Ho Hc Hs Hl. destruct o as [|x o]; [contradiction|].
  destruct cs as [|c cs]; [contradiction|].
  cbn [insert]. rewrite cut_true.
  2:{ apply Nat.leb_le. specialize (Hl x c (or_introl eq_refl) (or_introl eq_refl)). lia. }
  cbn [map app].
  match goal with |- loop _ _ ?k _ _ _ = _ => generalize k; intros col end.
  destruct (exists_last (l := x :: o)) as [o' [s E]]; [discriminate|].
  assert (Hsimple : simple s).
  { apply Hs. rewrite E. apply in_or_app; right; left; reflexivity. }
  assert (Hi : forall ins cs, into ins elses col None s cs = (s, cs)).
  { intros ins cs'. destruct s; cbn in *; tauto. }
  destruct o' as [|y o'].
  - cbn in E. injection E as -> ->. cbn [loop]. rewrite Hi. reflexivity.
  - cbn in E. injection E as <- ->.
    rewrite loop_skip; [rewrite Hi| discriminate| |].
    + cbn. f_equal. rewrite <- app_assoc. reflexivity.
    + intros n k Hn Hk. apply Hl; [right; apply in_or_app; auto|exact Hk].
    + intros k Hk. apply Hl; [right; apply in_or_app; right; left; reflexivity|exact Hk].
Qed.

Lemma last_simple d o : o <> [] -> (forall n, In n o -> simple n) ->
  exists n, In n o /\ last_of d o = line_of n.
Proof.
  induction o as [|x o IH]; intros Ho Hs; [contradiction|].
  destruct o as [|y o].
  - exists x. split; [left; reflexivity|].
    specialize (Hs x (or_introl eq_refl)). destruct x; cbn in *; tauto.
  - destruct IH as [n [H1 H2]]; [discriminate|intros n Hn; apply Hs; right; exact Hn|].
    exists n. split; [right; exact H1|exact H2].
Qed.

Lemma stolen_l elses l c i id b o next post k cs e :
  o <> [] -> (forall n, In n o -> simple n) ->
  l < c_line k ->
  (forall n y, In n o -> In y (k :: cs) -> line_of n < c_line y) ->
  c_line k < line_of next ->
  (forall y, In y (k :: cs) -> c < c_col y) ->
  In e elses -> (forall n, In n o -> e <= line_of n) -> increasing elses ->
  extend_tree elses (Comp l c i id b o :: next :: post) (k :: cs) =
  Comp l c i id b (o ++ map Note (k :: cs)) :: next :: post.
Proof.
  intros Hne Hs Hlk Hlines Hnext Hcol He Heo Hel.
  set (s := Comp l c i id b o) in *.
  assert (Hdep : exists d, depths (s :: next :: post) = S d).
  { subst s. rewrite depths_cons, depth_comp.
    destruct (depths (next :: post)) as [|n]; eexists; reflexivity. }
  destruct Hdep as [d Hd]. unfold extend_tree. rewrite Hd, insert_S.
  rewrite cut_true by (apply Nat.leb_le; cbn; lia).
  cbn [map app loop].
  assert (E0 : line_of next <? c_line k = false) by (apply Nat.ltb_ge; lia). rewrite E0.
  assert (Hinto : into (insert (S d) elses) elses (col_of s) (Some (line_of next)) s (k :: cs)
                  = (Comp l c i id b (o ++ map Note (k :: cs)), [])).
  { subst s. destruct o as [|x o]; [contradiction|].
    assert (Helif : is_elif (x :: o) = false).
    { specialize (Hs x (or_introl eq_refl)). destruct x, o; cbn in *; tauto. }
    unfold into. rewrite Helif. cbn [length Nat.eqb negb andb orb].
    match goal with |- context[cut ?p (k :: cs)] => destruct (cut p (k :: cs)) as [u v] eqn:Ec end.
    pose proof (cut_app _ _ _ _ Ec) as Euv.
    assert (Hbe : before_else elses (line_of x) u v = ([], k :: cs)).
    { destruct u as [|u0 u]; [cbn in Euv; rewrite Euv; reflexivity|].
      unfold before_else. destruct (rev (u0 :: u)) as [|z r] eqn:Er.
      - apply (f_equal (@length _)) in Er. rewrite rev_length in Er. discriminate.
      - assert (Hz : In z (k :: cs)).
        { rewrite Euv. apply in_or_app. left. rewrite in_rev, Er. left; reflexivity. }
        destruct (rev_filter_last
          (fun e => (e <=? c_line z) && (e <=? line_of x)) elses e He) as [e1 [r' [E1 [E2 E3]]]].
        { apply andb_true_iff. specialize (Heo x (or_introl eq_refl)).
          specialize (Hlines x z (or_introl eq_refl) Hz).
          split; apply Nat.leb_le; lia. }
        { exact Hel. }
        rewrite E1. apply andb_true_iff in E3 as [_ E3]. apply Nat.leb_le in E3.
        rewrite cut_true; [cbn [app]; cbn [app] in Euv; rewrite Euv; reflexivity|].
        apply Nat.leb_le.
        assert (Hu0 : In u0 (k :: cs)) by (rewrite Euv; left; reflexivity).
        specialize (Hlines x u0 (or_introl eq_refl) Hu0). lia. }
    rewrite Hbe. rewrite insert_nil.
    rewrite cut_false.
    2:{ intros y Hy. apply andb_false_iff. right. apply Nat.leb_gt.
        cbn. apply Hcol, Hy. }
    rewrite insert_after; [reflexivity|discriminate|discriminate|exact Hs|exact Hlines]. }
  rewrite Hinto. cbn [cut map app].
  rewrite loop_nil by apply insert_nil. reflexivity.
Qed.

Lemma else_elif o : else_block o -> o <> [] /\ is_elif o = false.
Proof.
  destruct o as [|[l c i|l c [] id b o'|k] [|y o]]; cbn; intros H;
    try contradiction; split; auto; discriminate.
Qed.

Lemma block_last elses pre s cs fuel :
  depths (pre ++ [s]) < S fuel -> cs <> [] ->
  (forall n y, In n (pre ++ [s]) -> In y cs -> line_of n < c_line y) ->
  insert (S fuel) elses None (pre ++ [s]) cs =
  pre ++ (let '(s', cs') :=
            into (insert fuel elses) elses (col_of (hd s pre)) None s cs in
          s' :: map Note cs').
Proof.
  intros Hd Hne Hl. destruct cs as [|k cs]; [contradiction|].
  assert (Hs : forall y, In y (k :: cs) -> line_of s < c_line y).
  { intros y Hy. apply Hl; [apply in_or_app; right; left; reflexivity|exact Hy]. }
  destruct pre as [|p pre]; cbn [app hd] in *; rewrite insert_S, cut_true.
  - reflexivity.
  - apply Nat.leb_le. specialize (Hs k (or_introl eq_refl)). lia.
  - cbn [map app]. rewrite loop_skip; [reflexivity|discriminate| |exact Hs].
    intros n y Hn Hy. apply Hl; [|exact Hy]. right. apply in_or_app; auto.
  - apply Nat.leb_le. specialize (Hl p k (or_introl eq_refl) (or_introl eq_refl)). lia.
Qed.

Lemma before_line pre s : parsed (pre ++ [s]) -> increasing (flat_map stmts (pre ++ [s])) ->
  forall n, In n (pre ++ [s]) -> line_of n <= line_of s.
Proof.
  intros Hp Hi n Hn. rewrite flat_map_app in Hi. apply inc_app in Hi as [_ [_ Hi]].
  apply in_app_or in Hn as [Hn|[<-|[]]]; [|lia].
  assert (Hp1 : forall m, In m (pre ++ [s]) -> parsed [m]).
  { intros m Hm x [<-|[]]. apply Hp, Hm. }
  apply Nat.lt_le_incl, Hi.
  - apply in_flat_map. exists n. split; [exact Hn|]. apply line_in, Hp1, in_or_app. auto.
  - cbn [flat_map]. rewrite app_nil_r. apply line_in, Hp1, in_or_app. right; left; reflexivity.
Qed.

Lemma stmts_last pre s :
  increasing (flat_map stmts (pre ++ [s])) -> increasing (stmts s).
Proof.
  rewrite flat_map_app. intros H. apply inc_app in H as [_ [H _]].
  cbn [flat_map] in H. rewrite app_nil_r in H. exact H.
Qed.

Lemma parsed_last pre s : parsed (pre ++ [s]) -> parsed [s].
Proof. intros H x Hx. apply H, in_or_app. right; exact Hx. Qed.

Lemma depths_last pre s : depth s <= depths (pre ++ [s]).
Proof.
  induction pre as [|p pre IH]; cbn [app]; rewrite depths_cons; lia.
Qed.

Lemma first_in_last l c i id b o :
  parsed [Comp l c i id b o] -> increasing (stmts (Comp l c i id b o)) -> o <> [] ->
  first_line o <= last_line (Comp l c i id b o).
Proof.
  intros Hp Hi Ho. apply last_line_max; [exact Hp|exact Hi|].
  destruct (parsed_comp _ _ _ _ _ _ _ Hp) as [_ [_ Hpo]].
  destruct o as [|x o]; [contradiction|].
  cbn [stmts first_line]. right. apply in_or_app. right. cbn [flat_map]. apply in_or_app. left.
  apply line_in. intros n [<-|[]]. apply Hpo. left; reflexivity.
Qed.

Lemma moved_l elses pre l c i id b o k cs e :
  parsed (pre ++ [Comp l c i id b o]) ->
  increasing (flat_map stmts (pre ++ [Comp l c i id b o])) ->
  else_block o ->
  increasing (map c_line (k :: cs)) -> increasing elses ->
  (forall y, In y (k :: cs) -> l < c_line y < first_line o) ->
  In e elses -> e < c_line k ->
  (forall e' y, In e' elses -> In y (k :: cs) -> ~ c_line k <= e' <= c_line y) ->
  extend_tree elses (pre ++ [Comp l c i id b o]) (k :: cs) =
  pre ++ [Comp l c i id b (map Note (k :: cs) ++ o)].
Proof.
  intros Hp Hi Ho Hc Hel Hl He Hek Hno.
  destruct (else_elif _ Ho) as [Hne Helif].
  pose proof (first_in_last _ _ _ _ _ _ (parsed_last _ _ Hp) (stmts_last _ _ Hi) Hne) as HL.
  destruct o as [|x o]; [contradiction|]. cbn [first_line] in *.
  apply (misplaced_l elses pre l c i id b x o k cs e); auto.
  - intros n y Hn Hy. pose proof (before_line _ _ Hp Hi n Hn) as H. cbn in H.
    specialize (Hl y Hy). lia.
  - intros y Hy. apply Hl, Hy.
  - intros y Hy. specialize (Hl y Hy). lia.
  - lia.
  - intros e' y H1 H2 H3. specialize (Hno e' y H1 H2). lia.
Qed.

Lemma shared_l elses pre l c i id b o before after e :
  parsed (pre ++ [Comp l c i id b o]) ->
  increasing (flat_map stmts (pre ++ [Comp l c i id b o])) ->
  (forall n, In n pre -> col_of n = c) ->
  else_block o ->
  increasing (map c_line (before ++ after)) -> increasing elses ->
  In e elses -> l < e < first_line o ->
  (forall e', In e' elses -> e' <= first_line o -> e' <= e) ->
  (forall y, In y before -> l < c_line y < e) ->
  (forall y, In y after -> e < c_line y /\ c < c_col y) ->
  (after = [] -> forall e' y, In e' elses -> In y before -> c_line y < e') ->
  exists b' o',
    extend_tree elses (pre ++ [Comp l c i id b o]) (before ++ after) =
    pre ++ [Comp l c i id b' o'] /\
    flat_map strip b' = b /\ flat_map notes b' = before /\
    flat_map strip o' = o /\ flat_map notes o' = after.
Proof.
  intros Hp Hi Hcol Ho Hc Hel He Hle Hlast Hb Ha Hfirst.
  destruct (else_elif _ Ho) as [Hne Helif].
  set (s := Comp l c i id b o) in *.
  destruct (parsed_comp _ _ _ _ _ _ _ (parsed_last _ _ Hp)) as [Hbne [Hpb Hpo]].
  destruct (strip_parsed _ Hpb) as [B1 B2]. destruct (strip_parsed _ Hpo) as [O1 O2].
  destruct (before ++ after) as [|k0 cs0] eqn:Ecs.
  - apply app_eq_nil in Ecs as [-> ->].
    exists b, o. unfold extend_tree.
    destruct (pre ++ [s]) as [|p0 r0] eqn:Ep; [destruct pre; discriminate|].
    rewrite insert_nil. auto.
  - pose proof (depths_last pre s) as Hd.
    assert (Hds : depth s = S (Nat.max (depths b) (depths o))) by reflexivity.
    assert (Hgt : forall y, In y (k0 :: cs0) -> l < c_line y).
    { intros y Hy. rewrite <- Ecs in Hy. apply in_app_or in Hy as [Hy|Hy].
      - apply Hb, Hy.
      - specialize (Ha y Hy). lia. }
    assert (Hcol0 : col_of (hd s pre) = c).
    { destruct pre as [|p pre]; [reflexivity|]. apply Hcol. left; reflexivity. }
    unfold extend_tree.
    destruct (pre ++ [s]) as [|p0 r0] eqn:Ep; [destruct pre; discriminate|].
    rewrite <- Ep in *. clear Ep p0 r0.
    rewrite block_last; [|lia|discriminate|].
    2:{ intros n y Hn Hy. pose proof (before_line _ _ Hp Hi n Hn) as H. cbn in H.
        specialize (Hgt y Hy). lia. }
    rewrite Hcol0. rewrite <- Ecs.
    set (f := depths (pre ++ [s])) in *.
    destruct (insert_keeps elses f None b before Hpb Hbne ltac:(lia)) as [K1 K2].
    destruct (insert_keeps elses f (Some c) o after Hpo Hne ltac:(lia)) as [K3 K4].
    exists (insert f elses None b before), (insert f elses (Some c) o after).
    split; [|auto].
    f_equal. subst s. destruct o as [|x o]; [contradiction|]. cbn [first_line] in *.
    unfold into. rewrite Helif. cbn [length Nat.eqb negb andb].
    rewrite cut_false.
    2:{ intros y Hy. apply andb_false_iff. right. rewrite andb_false_r. reflexivity. }
    assert (Hbe : before_else elses (line_of x) (before ++ after) [] = (before, after)).
    { unfold before_else.
      destruct (rev (before ++ after)) as [|z r] eqn:Er.
      { apply (f_equal (@length _)) in Er. rewrite rev_length, Ecs in Er. discriminate. }
      destruct after as [|a0 after].
      - rewrite app_nil_r in *.
        destruct (filter _ elses) as [|e1 l1] eqn:Ef; [reflexivity|]. exfalso.
        assert (Hin : In e1 (filter (fun e => (e <=? c_line z) && (e <=? line_of x)) elses))
          by (rewrite Ef; left; reflexivity).
        apply filter_In in Hin as [Hin Hle1]. apply andb_true_iff in Hle1 as [Hle1 _].
        apply Nat.leb_le in Hle1.
        assert (Hz : In z before) by (rewrite in_rev, Er; left; reflexivity).
        specialize (Hfirst eq_refl e1 z Hin Hz). lia.
      - assert (Hz : In z (a0 :: after)).
        { rewrite rev_app_distr in Er. destruct (rev (a0 :: after)) as [|z' r'] eqn:Er'.
          - apply (f_equal (@length _)) in Er'. rewrite rev_length in Er'. discriminate.
          - cbn in Er. injection Er as <- _. rewrite in_rev, Er'. left; reflexivity. }
        destruct (Ha z Hz) as [Hez _].
        assert (Htop : exists r', rev (filter (fun e => (e <=? c_line z) && (e <=? line_of x)) elses)
                  = e :: r').
        { clear - He Hle Hlast Hez Hel.
          assert (G : forall l, increasing l -> In e l ->
                    (forall e', In e' l -> e' <= line_of x -> e' <= e) ->
                    exists l', filter (fun e => (e <=? c_line z) && (e <=? line_of x)) l
                               = l' ++ [e]).
          { induction l0 as [|y l0 IH]; cbn; intros Hinc Hin Hmax; [destruct Hin|].
            destruct Hinc as [Hinc1 Hinc2]. destruct Hin as [->|Hin].
            - exists [].
              assert (E : (e <=? c_line z) && (e <=? line_of x) = true).
              { apply andb_true_iff; split; apply Nat.leb_le; lia. }
              rewrite E. cbn. f_equal.
              rewrite <- (app_nil_r []). cbn.
              assert (F : forall q, (forall w, In w q -> e < w /\ (w <= line_of x -> w <= e)) ->
                        filter (fun e => (e <=? c_line z) && (e <=? line_of x)) q = []).
              { induction q as [|w q IHq]; cbn; intros Hq; [reflexivity|].
                destruct (Hq w (or_introl eq_refl)) as [Q1 Q2].
                assert (E' : w <=? line_of x = false) by (apply Nat.leb_gt; lia).
                rewrite E', andb_false_r. apply IHq. intros w' Hw'. apply Hq. auto. }
              apply F. intros w Hw. split; [apply Hinc1, Hw|]. apply Hmax. auto.
            - destruct (IH Hinc2 Hin) as [l' E']; [intros e' H1 H2; apply Hmax; auto|].
              rewrite E'. destruct (_ && _).
              + exists (y :: l'). reflexivity.
              + exists l'. reflexivity. }
          destruct (G elses Hel He Hlast) as [l' E']. rewrite E', rev_app_distr.
          cbn. eexists. reflexivity. }
        destruct Htop as [r' Et]. rewrite Et.
        assert (Hcut : cut (fun c => e <=? c_line c) (before ++ a0 :: after)
                       = (before, a0 :: after)).
        { clear - Hb Ha. induction before as [|y before IH]; cbn [app].
          - apply cut_true, Nat.leb_le. specialize (Ha a0 (or_introl eq_refl)). lia.
          - cbn [cut].
            assert (E : e <=? c_line y = false).
            { apply Nat.leb_gt. apply Hb. left; reflexivity. }
            rewrite E, IH; [reflexivity|]. intros w Hw. apply Hb. right; exact Hw. }
        rewrite Hcut, app_nil_r. reflexivity. }
    rewrite Hbe. rewrite cut_false; [reflexivity|].
    intros y Hy. apply andb_false_iff. right. apply Nat.leb_gt. apply Ha, Hy.
Qed.

Lemma group_first l : forall prev g gs, group prev l = (g, gs) -> exists v, g = prev :: v.
Proof.
  destruct l as [|c l]; cbn; intros prev g gs H.
  - injection H as <- _. eexists; reflexivity.
  - destruct (group c l) as [g' gs']. destruct (_ && _); injection H as <- _;
      eexists; reflexivity.
Qed.

Lemma group_linked l : forall prev g gs, group prev l = (g, gs) ->
  Forall (linked follows) (g :: gs) /\ linked separate (g :: gs).
Proof.
  induction l as [|c l IH]; cbn [group]; intros prev g gs H.
  - injection H as <- <-. split; [repeat constructor|constructor].
  - destruct (group c l) as [g' gs'] eqn:E. destruct (IH _ _ _ E) as [E1 E2].
    destruct (group_first _ _ _ _ E) as [v ->].
    destruct ((c_line c =? c_line prev + 1) && (c_col c =? c_col prev)) eqn:Ef;
      injection H as <- <-.
    + apply andb_true_iff in Ef as [F1 F2]. apply Nat.eqb_eq in F1, F2.
      inversion E1 as [|? ? G1 G2]; subst. split.
      * constructor; [|exact G2]. cbn [linked]. split; [split; assumption|exact G1].
      * destruct gs' as [|h gs']; [constructor|].
        cbn [linked] in E2 |- *. destruct E2 as [[u [a [b [w [H1 [H2 H3]]]]]] E2].
        split; [|exact E2]. exists (prev :: u), a, b, w. rewrite H1. auto.
    + split; [constructor; [constructor|exact E1]|].
      cbn [linked]. split; [|exact E2].
      exists [], prev, c, v. split; [reflexivity|]. split; [reflexivity|].
      intros [F1 F2]. apply andb_false_iff in Ef as [Ef|Ef]; apply Nat.eqb_neq in Ef;
        contradiction.
Qed.

Lemma groups_l l :
  concat (groups l) = l /\ Forall (fun g => g <> []) (groups l) /\
  Forall (linked follows) (groups l) /\ linked separate (groups l).
Proof.
  unfold groups. destruct l as [|c l].
  - repeat split; constructor.
  - destruct (group c l) as [g gs] eqn:E.
    destruct (group_app _ _ _ _ E) as [E1 E2]. destruct (group_linked _ _ _ _ E) as [E3 E4].
    auto.
Qed.
