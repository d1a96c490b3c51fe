(* Proofs about print in Fortran. *)
From Coq Require Import Bool String Ascii Arith ZArith Lia List.
From Verif Require Import Text_Model Text_Spec Text_Proofs Print_Model Print_Spec Print_Proofs PrintF_Model PrintF_Spec.
Import ListNotations.
Open Scope list_scope.

(* descriptors, items and the texts they write *)
Inductive shown : list edit -> list fvalue -> list text -> Prop :=
| shown_nil : shown [] [] []
| shown_cons : forall e v s l vs ss, edited e v = Some s -> shown l vs ss -> shown (e :: l) (v :: vs) (s :: ss).

Lemma shown_app : forall l vs ss l' vs' ss', shown l vs ss -> shown l' vs' ss' -> shown (l ++ l') (vs ++ vs') (ss ++ ss').
Proof. intros l vs ss l' vs' ss' H H'. induction H; [exact H'|]. cbn. constructor; assumption. Qed.

Lemma shown_all : forall l vs ss, shown l vs ss -> edited_all l vs = Some (concat ss).
Proof. intros l vs ss H. induction H as [|e v s l vs ss E H IH]; [reflexivity|]. cbn. rewrite E, IH. reflexivity. Qed.

Lemma shown_between : forall l vs ss e v s, edited e v = Some s -> shown l vs ss -> shown (between e l) (between v vs) (between s ss).
Proof.
  intros l vs ss e v s E H. induction H as [|e1 v1 s1 l vs ss E1 H IH]; [constructor|].
  destruct H as [|e2 v2 s2 l vs ss E2 H].
  - constructor; [exact E1|constructor].
  - change (shown (e1 :: e :: between e (e2 :: l)) (v1 :: v :: between v (v2 :: vs)) (s1 :: s :: between s (s2 :: ss))).
    constructor; [exact E1|]. constructor; [exact E|]. exact IH.
Qed.

Lemma concat_between : forall sep l, concat (between sep l) = join sep l.
Proof.
  intros sep. induction l as [|a l IH]; [reflexivity|]. destruct l as [|b l]; [cbn; rewrite app_nil_r; reflexivity|].
  change (concat (between sep (a :: b :: l))) with (a ++ sep ++ concat (between sep (b :: l))). rewrite IH. reflexivity.
Qed.

Lemma text_eqb_eq : forall a b, text_eqb a b = true <-> a = b.
Proof. intros a b. unfold text_eqb. destruct (list_eq_dec ascii_dec a b); split; congruence. Qed.

Lemma literal_newline : forall s, f_literal s = T "ACHAR(10)" -> s = [NL].
Proof.
  intros s H. pose proof (f_read_literal s) as R. rewrite H in R. vm_compute in R. injection R as <-. reflexivity.
Qed.

Lemma written_one : forall l vs ss fend fsep rest, shown l vs ss ->
  written (to_write l vs fend fsep :: rest) = option_map (app (join fsep ss ++ fend)) (written rest).
Proof.
  intros l vs ss fend fsep rest H.
  assert (B : shown (between EA l) (between (FCode (f_literal fsep)) vs) (between fsep ss))
    by (apply shown_between; [apply f_read_literal|exact H]).
  unfold to_write. cbn zeta. destruct (text_eqb (f_literal fend) (T "ACHAR(10)")) eqn:N.
  - apply text_eqb_eq in N. apply literal_newline in N. subst fend. cbn [written w_edits w_items w_advance].
    rewrite (shown_all _ _ _ B), concat_between. destruct (written rest); cbn [option_map]; [rewrite <- app_assoc|]; reflexivity.
  - cbn [written w_edits w_items w_advance].
    assert (C : shown (between EA l ++ [EA]) (between (FCode (f_literal fsep)) vs ++ [FCode (f_literal fend)]) (between fsep ss ++ [fend])).
    { apply shown_app; [exact B|]. constructor; [apply f_read_literal|constructor]. }
    rewrite (shown_all _ _ _ C), concat_app, concat_between. cbn [concat]. rewrite app_nil_r.
    destruct (written rest); cbn [option_map app]; [rewrite <- app_assoc|]; reflexivity.
Qed.

Lemma written_app : forall a b s, written a = Some s -> written (a ++ b) = option_map (app s) (written b).
Proof.
  induction a as [|w a IH]; intros b s H.
  - injection H as <-. cbn [app]. destruct (written b); reflexivity.
  - cbn [app written] in *. destruct (edited_all (w_edits w) (w_items w)); [|discriminate].
    destruct (written a) as [x|]; [|discriminate]. injection H as <-. rewrite (IH b x eq_refl).
    destruct (written b); cbn [option_map]; [rewrite <- !app_assoc|]; reflexivity.
Qed.

Lemma edited_scalar : forall s, printable_f (AScal s) -> edited (fst (scalar_edit s)) (snd (scalar_edit s)) = Some (py_scalar s).
Proof. intros [w z|b|b] H; [reflexivity| |destruct b; reflexivity]. cbn in H. subst b. reflexivity. Qed.

Lemma printable_f_all : forall k l, printable_f (ACont k l) <-> k <> KSet /\ (k = KList -> List.length l <> 1) /\ Forall printable_f l.
Proof.
  intros k l. cbn [printable_f].
  assert (E : (fix all (l0 : list arg) : Prop := match l0 with [] => True | x :: l' => printable_f x /\ all l' end) l <-> Forall printable_f l).
  { induction l as [|x l IH]; [split; constructor|]. rewrite IH. split; [intros [A B]; constructor; assumption|].
    intros F. inversion F; subst. split; assumption. }
  rewrite E. reflexivity.
Qed.

Lemma interleave_printable_f : forall l, Forall printable_f l -> Forall printable_f (interleave l).
Proof.
  induction l as [|a l IH]; intros F; [constructor|]. inversion F as [|? ? A F']; subst. destruct l as [|b l]; [exact F|].
  change (interleave (a :: b :: l)) with (a :: ALit (T ", ") :: interleave (b :: l)).
  constructor; [exact A|]. constructor; [exact I|apply IH; exact F'].
Qed.

Lemma container_printable_f : forall k l, Forall printable_f l -> Forall printable_f (container_args k l).
Proof.
  intros k l F. unfold container_args. apply Forall_app. split; [|apply Forall_app; split; [|apply Forall_app; split]].
  - repeat constructor.
  - apply interleave_printable_f. exact F.
  - destruct (Nat.eqb (List.length l) 1); repeat constructor.
  - repeat constructor.
Qed.

(* the loop of write_call *)
Definition goF (k : nat) (sep end_ : text) : list arg -> list edit -> list fvalue -> option (list write) :=
    fix go (l : list arg) (edits : list edit) (items : list fvalue) : option (list write) :=
       match l with
       | [] => Some [to_write edits items end_ sep]
       | a :: l' =>
         let flush := if edits then [] else [to_write edits items sep sep] in
         match a with
         | ACont c es =>
           match write_call k (container_args c es) [] (if l' then [] else sep), go l' [] [] with
           | Some x, Some y => Some (flush ++ x ++ y)
           | _, _ => None
           end
         | AArr es =>
           match go l' [] [] with
           | Some y => Some (flush ++ write_body es ++ y)
           | None => None
           end
         | ALit s => go l' (edits ++ [EA]) (items ++ [FCode (f_literal s)])
         | AStr s => go l' (edits ++ [EA]) (items ++ [FText s])
         | AScal s => go l' (edits ++ [fst (scalar_edit s)]) (items ++ [snd (scalar_edit s)])
         end
       end.

Lemma join_app : forall sep a b, a <> [] -> b <> [] -> join sep (a ++ b) = join sep a ++ sep ++ join sep b.
Proof.
  intros sep. induction a as [|x a IH]; intros b A B; [congruence|]. destruct a as [|y a].
  - destruct b as [|z b]; [congruence|]. reflexivity.
  - change (join sep ((x :: y :: a) ++ b)) with (x ++ sep ++ join sep ((y :: a) ++ b)). rewrite IH by (discriminate || exact B).
    rewrite join_cons2, <- !app_assoc. reflexivity.
Qed.

Lemma goF_output : forall k sep end_,
  (forall args e, Forall printable_f args -> Forall (fun a => depth a < k) args -> args <> [] ->
     forall ss, all_some (map py_str args) = Some ss ->
     exists ws, write_call k args [] e = Some ws /\ written ws = Some (join [] ss ++ e)) ->
  forall l edits items shows strs, Forall printable_f l -> Forall (fun a => depth a <= k) l -> shown edits items shows ->
  all_some (map py_str l) = Some strs ->
  exists ws, goF k sep end_ l edits items = Some ws /\ written ws = Some (join sep (shows ++ strs) ++ end_).
Proof.
  intros k sep end_ REC. induction l as [|a l IH]; intros edits items shows strs F D P H.
  - cbn in H. injection H as <-. cbn [goF]. eexists. split; [reflexivity|]. rewrite (written_one _ _ _ _ _ _ P), app_nil_r.
    cbn. rewrite app_nil_r. reflexivity.
  - destruct (all_some_cons _ _ _ H) as (s & ss & E & R & ->).
    inversion F as [|? ? A F']; subst. inversion D as [|? ? DA D']; subst.
    assert (SIMPLE : forall e v, edited e v = Some s ->
      exists ws, goF k sep end_ l (edits ++ [e]) (items ++ [v]) = Some ws /\
      written ws = Some (join sep (shows ++ s :: ss) ++ end_)).
    { intros e v Q. replace (shows ++ s :: ss) with ((shows ++ [s]) ++ ss) by (rewrite <- app_assoc; reflexivity).
      apply IH; [exact F'|exact D'| |exact R]. apply shown_app; [exact P|]. constructor; [exact Q|constructor]. }
    destruct a as [t|t|x|c es|es].
    + cbn [py_str] in E. injection E as ->. cbn [goF]. apply SIMPLE. apply f_read_literal.
    + cbn [py_str] in E. injection E as ->. cbn [goF]. apply SIMPLE. reflexivity.
    + cbn [py_str py_repr] in E. injection E as <-. cbn [goF]. apply SIMPLE. apply edited_scalar. exact A.
    + cbn [goF]. apply printable_f_all in A. destruct A as (_ & A1 & A2).
      change (py_str (ACont c es)) with (py_repr (ACont c es)) in E.
      destruct (container_str c es s E A1) as (ms & M1 & M2).
      destruct (REC (container_args c es) (if l then [] else sep)) with (ss := ms) as (ws & G & O).
      * apply container_printable_f. exact A2.
      * cbn [depth] in DA. eapply Forall_impl; [|apply (container_depth c es (k - 1)); lia].
        intros z Hz. cbn in Hz. lia.
      * discriminate.
      * exact M1.
      * rewrite G. destruct (IH [] [] [] ss F' D' shown_nil R) as (ws2 & G2 & O2).
        fold (goF k sep end_). rewrite G2. eexists. split; [reflexivity|].
        assert (TAIL : written (ws ++ ws2) = Some (join sep (s :: ss) ++ end_)).
        { rewrite (written_app _ _ _ O), O2. cbn [option_map app]. rewrite M2. f_equal. destruct l as [|a2 l].
          - cbn in R. injection R as <-. cbn [join app]. rewrite app_nil_r. reflexivity.
          - destruct (all_some_cons _ _ _ R) as (y & r' & _ & _ & ->). rewrite join_cons2, <- !app_assoc. reflexivity. }
        destruct P as [|e0 v0 s0 l0 vs0 ss0 E0 P0].
        -- exact TAIL.
        -- change ([to_write (e0 :: l0) (v0 :: vs0) sep sep] ++ ws ++ ws2) with (to_write (e0 :: l0) (v0 :: vs0) sep sep :: ws ++ ws2).
           rewrite (written_one _ _ (s0 :: ss0)) by (constructor; assumption). rewrite TAIL. cbn [option_map].
           rewrite join_app by discriminate. rewrite <- !app_assoc. reflexivity.
    + contradiction.
Qed.

Lemma write_output : forall fuel args sep end_ ss, Forall printable_f args -> Forall (fun a => depth a < fuel) args -> 0 < fuel ->
  all_some (map py_str args) = Some ss ->
  exists ws, write_call fuel args sep end_ = Some ws /\ written ws = Some (join sep ss ++ end_).
Proof.
  induction fuel as [|k IH]; intros args sep end_ ss F D L H; [lia|].
  change (write_call (S k) args sep end_) with (goF k sep end_ args [] []).
  change (join sep ss) with (join sep ([] ++ ss)). apply goF_output; try assumption.
  - intros args' e Fa Da N ss' H'. destruct args' as [|b args']; [congruence|]. apply IH; try assumption. inversion Da; lia.
  - eapply Forall_impl; [|exact D]. intros z Hz. cbn in Hz. lia.
  - constructor.
Qed.

(* arrays of one dimension *)
Definition an_int (s : scalar) : Prop := match s with SInt _ _ => True | _ => False end.

Lemma written_elem : forall s e rest, an_int s ->
  written (write_elem (Elem s) e ++ rest) = option_map (app (py_scalar s ++ e)) (written rest).
Proof.
  intros [w z|b|b] e rest H; try contradiction. cbn [write_elem app].
  rewrite (written_one _ _ [py_scalar (SInt w z)]); [reflexivity|]. constructor; [reflexivity|constructor].
Qed.

Definition rows := fix rows (l : list arr) : list write :=
  match l with
  | [] => []
  | [x] => write_elem x []
  | x :: l' => write_elem x (match x with Elem _ => T " " | Row _ => [NL] end) ++ rows l'
  end.

Lemma rows_written : forall l rest, Forall an_int l ->
  written (rows (map Elem l) ++ rest) = option_map (app (join (T " ") (map py_scalar l))) (written rest).
Proof.
  induction l as [|x l IH]; intros rest F; [cbn; destruct (written rest); reflexivity|].
  inversion F as [|? ? X F']; subst. destruct l as [|y l].
  - change (rows (map Elem [x])) with (write_elem (Elem x) []). rewrite (written_elem x [] rest X), app_nil_r. reflexivity.
  - change (rows (map Elem (x :: y :: l))) with (write_elem (Elem x) (T " ") ++ rows (map Elem (y :: l))).
    rewrite <- app_assoc, (written_elem x (T " ") _ X), (IH rest F'). cbn [map]. rewrite join_cons2.
    destruct (written rest); cbn [option_map]; [rewrite <- !app_assoc|]; reflexivity.
Qed.

Lemma body_written : forall l, Forall an_int l ->
  written (write_body (map Elem l)) = Some (T "[" ++ join (T " ") (map py_scalar l) ++ T "]").
Proof.
  intros l F. unfold write_body.
  change (write_elem (Row (map Elem l)) []) with
    ((to_write [EA] [FCode (f_literal (T "["))] [] (T " ") :: rows (map Elem l))
     ++ [to_write [] [] (T "]") (T " "); to_write [] [] [] (T " ")]).
  rewrite removelast_app by discriminate. cbn [removelast app].
  rewrite (written_one _ _ [T "["]) by (constructor; [reflexivity|constructor]).
  rewrite (rows_written l _ F). rewrite (written_one _ _ []) by constructor.
  cbn [written option_map join app]. rewrite !app_nil_r. reflexivity.
Qed.

Lemma write_array : forall k n l sep end_, Forall an_int l -> Forall (fun s => List.length (py_scalar s) = n) l ->
  exists ws, write_call (S k) [AArr (map Elem l)] sep end_ = Some ws /\ written ws = Some (np_array l ++ end_).
Proof.
  intros k n l sep end_ F E. eexists. split; [reflexivity|]. cbn [app].
  rewrite (written_app _ _ _ (body_written l F)), (np_array_equal n l E). rewrite (written_one _ _ []) by constructor.
  cbn [written option_map join app]. rewrite app_nil_r. reflexivity.
Qed.
