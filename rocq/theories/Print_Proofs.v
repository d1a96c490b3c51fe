(* Proofs about print. *)
From Coq Require Import Bool String Ascii Arith ZArith Lia List DecimalString.
From Verif Require Import Text_Model Text_Spec Text_Proofs Print_Model Print_Spec.
Import ListNotations.
Open Scope list_scope.

(* A part of a format, the arguments it takes and what it writes *)
Definition piece (f : text) (vs : list value) (s : text) : Prop :=
  forall f' vs', printf (f ++ f') (vs ++ vs') = option_map (app s) (printf f' vs').

Lemma piece_nil : piece [] [] [].
Proof. intros f vs. cbn [app]. destruct (printf f vs); reflexivity. Qed.

Lemma piece_app : forall f1 v1 s1 f2 v2 s2, piece f1 v1 s1 -> piece f2 v2 s2 -> piece (f1 ++ f2) (v1 ++ v2) (s1 ++ s2).
Proof.
  intros f1 v1 s1 f2 v2 s2 P1 P2 f vs. rewrite <- !app_assoc, P1, P2. destruct (printf f vs); cbn [option_map]; [|reflexivity].
  rewrite app_assoc. reflexivity.
Qed.

Lemma piece_text : forall s, plain_text s -> piece s [] s.
Proof.
  induction s as [|c s IH]; intros [P N]; [exact piece_nil|]. intros f vs. cbn [app printf].
  replace (Ascii.eqb c (ch 0)) with false by (symmetry; apply Ascii.eqb_neq; intros ->; apply N; left; reflexivity).
  replace (Ascii.eqb c (ch 37)) with false by (symmetry; apply Ascii.eqb_neq; intros ->; apply P; left; reflexivity).
  assert (I : piece s [] s) by (apply IH; split; intros H; [apply P|apply N]; right; exact H).
  specialize (I f vs). cbn [app] in I. rewrite I. destruct (printf f vs); reflexivity.
Qed.

Lemma wrap_range : forall n z, (0 < n)%Z -> (- 2 ^ (n - 1) <= z < 2 ^ (n - 1))%Z -> wrap n z = z.
Proof.
  intros n z N R. unfold wrap. assert (E : (2 ^ n = 2 * 2 ^ (n - 1))%Z) by (rewrite <- Z.pow_succ_r by lia; f_equal; lia).
  rewrite Z.mod_small; lia.
Qed.

Lemma piece_int : forall w z, in_range w z -> piece (int_format w) [VInt z] (decimal_of z).
Proof.
  intros w z R f vs. destruct w; cbn -[decimal_of wrap printf]; unfold in_range in R; cbn zeta in R.
  - change (printf ("%"%char :: "h"%char :: "h"%char :: "d"%char :: f) (VInt z :: vs)) with (option_map (app (decimal_of (wrap 8 z))) (printf f vs)).
    rewrite wrap_range by (lia || exact R). reflexivity.
  - change (printf ("%"%char :: "h"%char :: "d"%char :: f) (VInt z :: vs)) with (option_map (app (decimal_of (wrap 16 z))) (printf f vs)).
    rewrite wrap_range by (lia || exact R). reflexivity.
  - change (printf ("%"%char :: "d"%char :: f) (VInt z :: vs)) with (option_map (app (decimal_of (wrap 32 z))) (printf f vs)).
    rewrite wrap_range by (lia || exact R). reflexivity.
  - change (printf ("%"%char :: "l"%char :: "d"%char :: f) (VInt z :: vs)) with (option_map (app (decimal_of (wrap 64 z))) (printf f vs)).
    rewrite wrap_range by (lia || exact R). reflexivity.
Qed.

Lemma c_string_all : forall s, no_null s -> c_string s = s.
Proof.
  induction s as [|c s IH]; intros N; [reflexivity|]. cbn [c_string].
  replace (Ascii.eqb c (ch 0)) with false by (symmetry; apply Ascii.eqb_neq; intros ->; apply N; left; reflexivity).
  rewrite IH; [reflexivity|]. intros H. apply N. right. exact H.
Qed.

Lemma piece_str : forall s, no_null s -> piece (T "%s") [VStr s] s.
Proof.
  intros s N f vs.
  change (printf (T "%s" ++ f) ([VStr s] ++ vs)) with (option_map (app (c_string s)) (printf f vs)).
  rewrite c_string_all by exact N. reflexivity.
Qed.

Definition ok_scalar (s : scalar) : Prop := match s with SInt w z => in_range w z | _ => True end.

Lemma piece_scalar : forall s, ok_scalar s -> piece (fst (scalar_format s)) [snd (scalar_format s)] (py_scalar s).
Proof.
  intros [w z|b|b] H; cbn [scalar_format fst snd py_scalar]; [apply piece_int; exact H| |].
  all: apply piece_str; destruct b; intros I; cbn in I; repeat (destruct I as [I|I]; [discriminate|]); contradiction.
Qed.

Lemma piece_all : forall f vs s, piece f vs s -> printf f vs = Some s.
Proof. intros f vs s P. specialize (P [] []). rewrite !app_nil_r in P. rewrite P. cbn. rewrite app_nil_r. reflexivity. Qed.

Lemma output_one : forall sep fmts vals e s rest, piece (join sep fmts ++ e) vals s ->
  output (to_printf sep fmts vals e :: rest) = option_map (app s) (output rest).
Proof.
  intros sep fmts vals e s rest P. cbn [output to_printf c_format c_args]. rewrite c_read_literal, (piece_all _ _ _ P).
  destruct (output rest); reflexivity.
Qed.

Lemma output_app : forall a b s, output a = Some s -> output (a ++ b) = option_map (app s) (output b).
Proof.
  induction a as [|c a IH]; intros b s H.
  - injection H as <-. cbn [app]. destruct (output b); reflexivity.
  - cbn [app output] in *. destruct (c_read (c_format c)); [|discriminate].
    destruct (printf t (c_args c)); [|discriminate]. destruct (output a) as [x|] eqn:E; [|discriminate].
    injection H as <-. rewrite (IH b x eq_refl). destruct (output b); cbn [option_map]; [rewrite app_assoc|]; reflexivity.
Qed.

(* ------------------------------------------------------------------------- *)

Lemma join_snoc : forall sep l x, l <> [] -> join sep (l ++ [x]) = join sep l ++ sep ++ x.
Proof.
  intros sep. induction l as [|a l IH]; intros x N; [congruence|]. destruct l as [|b l].
  - reflexivity.
  - change (join sep ((a :: b :: l) ++ [x])) with (a ++ sep ++ join sep ((b :: l) ++ [x])).
    rewrite IH by discriminate. change (join sep (a :: b :: l)) with (a ++ sep ++ join sep (b :: l)).
    rewrite <- !app_assoc. reflexivity.
Qed.

(* the formats so far *)
Definition pending (sep : text) (fmts : list text) (vals : list value) (out : text) : Prop :=
  piece (join sep fmts) vals out /\ (fmts = [] -> vals = [] /\ out = []).

Lemma pending_add : forall sep fmts vals out f v s, plain_text sep -> pending sep fmts vals out -> piece f v s ->
  pending sep (fmts ++ [f]) (vals ++ v) (match fmts with [] => s | _ => out ++ sep ++ s end).
Proof.
  intros sep fmts vals out f v s PS [P Z] Q. split.
  - destruct fmts as [|f0 fmts].
    + destruct (Z eq_refl) as [-> ->]. exact Q.
    + rewrite join_snoc by discriminate. apply piece_app; [exact P|].
      change v with ([] ++ v). apply piece_app; [apply piece_text; exact PS|exact Q].
  - intros E. apply app_eq_nil in E. destruct E. discriminate.
Qed.

(* what the rest of a print writes *)
Definition expect (sep end_ : text) (fmts : list text) (out : text) (strs : list text) : text :=
  match strs with
  | [] => match fmts with [] => [] | _ => out ++ end_ end
  | _ => out ++ match fmts with [] => [] | _ => sep end ++ join sep strs ++ end_
  end.

Lemma all_some_cons : forall o l ls, all_some (o :: l) = Some ls -> exists x r, o = Some x /\ all_some l = Some r /\ ls = x :: r.
Proof.
  intros o l ls H. unfold all_some in *. cbn [fold_right] in H. destruct o as [x|]; [|discriminate].
  destruct (fold_right _ _ l) as [r|]; [|discriminate]. injection H as <-. exists x, r. auto.
Qed.

Lemma all_some_app : forall a b x y, all_some a = Some x -> all_some b = Some y -> all_some (a ++ b) = Some (x ++ y).
Proof.
  induction a as [|o a IH]; intros b x y A B.
  - cbn in A. injection A as <-. exact B.
  - destruct (all_some_cons _ _ _ A) as (v & r & -> & E & ->). cbn [app].
    pose proof (IH b r y E B) as I. unfold all_some in *. cbn [fold_right]. rewrite I. reflexivity.
Qed.

Lemma printable_all : forall k l, printable (ACont k l) <-> k <> KSet /\ (k = KList -> List.length l <> 1) /\ Forall printable l.
Proof.
  intros k l. cbn [printable].
  assert (E : (fix all (l0 : list arg) : Prop := match l0 with [] => True | x :: l' => printable x /\ all l' end) l <-> Forall printable l).
  { induction l as [|x l IH]; [split; constructor|]. rewrite IH. split; [intros [A B]; constructor; assumption|].
    intros F. inversion F; subst. split; assumption. }
  rewrite E. reflexivity.
Qed.

Lemma join_empty : forall l, join [] l = concat l.
Proof.
  induction l as [|x l IH]; [reflexivity|]. destruct l as [|y l]; [cbn; rewrite app_nil_r; reflexivity|].
  change (join [] (x :: y :: l)) with (x ++ join [] (y :: l)). rewrite IH. reflexivity.
Qed.

Lemma repr_str : forall a s, py_repr a = Some s -> py_str a = Some s.
Proof. intros a s H. destruct a; try discriminate; exact H. Qed.

Lemma interleave_str : forall l ls, all_some (map py_repr l) = Some ls ->
  exists ms, all_some (map py_str (interleave l)) = Some ms /\ concat ms = join (T ", ") ls.
Proof.
  induction l as [|a l IH]; intros ls H.
  - cbn in H. injection H as <-. exists []. split; reflexivity.
  - destruct (all_some_cons _ _ _ H) as (x & r & E & R & ->).
    destruct l as [|b l].
    + cbn in R. injection R as <-. exists [x]. cbn [interleave map]. rewrite (repr_str _ _ E). split; [reflexivity|].
      cbn. rewrite app_nil_r. reflexivity.
    + destruct (IH r R) as (ms & A & B).
      change (interleave (a :: b :: l)) with (a :: ALit (T ", ") :: interleave (b :: l)).
      exists (x :: T ", " :: ms). cbn [map]. rewrite (repr_str _ _ E). split.
      * unfold all_some in *. cbn [fold_right py_str]. rewrite A. reflexivity.
      * destruct (all_some_cons _ _ _ R) as (y & r' & _ & _ & ->).
        change (join (T ", ") (x :: y :: r')) with (x ++ T ", " ++ join (T ", ") (y :: r')).
        cbn [concat]. rewrite B. reflexivity.
Qed.

Lemma interleave_printable : forall l, Forall printable l -> Forall printable (interleave l).
Proof.
  induction l as [|a l IH]; intros F; [constructor|]. inversion F as [|? ? A F']; subst. destruct l as [|b l]; [exact F|].
  change (interleave (a :: b :: l)) with (a :: ALit (T ", ") :: interleave (b :: l)).
  constructor; [exact A|]. constructor; [|apply IH; exact F'].
  cbn. split; intros H; cbn in H; repeat (destruct H as [H|H]; [discriminate|]); contradiction.
Qed.

Lemma interleave_depth : forall n l, Forall (fun a => depth a <= n) l -> Forall (fun a => depth a <= n) (interleave l).
Proof.
  intros n. induction l as [|a l IH]; intros F; [constructor|]. inversion F as [|? ? A F']; subst. destruct l as [|b l]; [exact F|].
  change (interleave (a :: b :: l)) with (a :: ALit (T ", ") :: interleave (b :: l)).
  constructor; [exact A|]. constructor; [cbn; lia|apply IH; exact F'].
Qed.

Lemma container_str : forall k l s, py_repr (ACont k l) = Some s -> (k = KList -> List.length l <> 1) ->
  exists ms, all_some (map py_str (container_args k l)) = Some ms /\ join [] ms = s.
Proof.
  intros k l s H N. cbn [py_repr] in H. destruct (all_some (map py_repr l)) as [ls|] eqn:E; [|discriminate].
  destruct (interleave_str l ls E) as (ms & A & B).
  assert (C : exists cs, all_some (map py_str (if Nat.eqb (List.length l) 1 then [ALit (T ",")] else [])) = Some cs
    /\ concat cs = (if Nat.eqb (List.length l) 1 then T "," else [])).
  { destruct (Nat.eqb (List.length l) 1); [exists [T ","]|exists []]; split; reflexivity. }
  destruct C as (cs & C1 & C2).
  exists ([fst (tags k)] ++ ms ++ cs ++ [snd (tags k)]). split.
  - unfold container_args. rewrite !map_app. apply all_some_app; [reflexivity|]. apply all_some_app; [exact A|].
    apply all_some_app; [exact C1|reflexivity].
  - rewrite join_empty, !concat_app, B, C2. cbn [concat]. rewrite !app_nil_r.
    destruct k; cbn [tags fst snd].
    + injection H as <-. reflexivity.
    + injection H as <-. replace (Nat.eqb (List.length l) 1) with false; [reflexivity|].
      symmetry. apply Nat.eqb_neq. apply N. reflexivity.
    + discriminate.
Qed.

Lemma container_printable : forall k l, Forall printable l -> Forall printable (container_args k l).
Proof.
  intros k l F. unfold container_args. apply Forall_app. split; [|apply Forall_app; split; [|apply Forall_app; split]].
  - constructor; [|constructor]. destruct k; split; intros H; cbn in H; repeat (destruct H as [H|H]; [discriminate|]); contradiction.
  - apply interleave_printable. exact F.
  - destruct (Nat.eqb (List.length l) 1); constructor; [|constructor].
    split; intros H; cbn in H; repeat (destruct H as [H|H]; [discriminate|]); contradiction.
  - constructor; [|constructor]. destruct k; split; intros H; cbn in H; repeat (destruct H as [H|H]; [discriminate|]); contradiction.
Qed.

Lemma max_depth : forall l n, Forall (fun a => depth a <= n) l <-> fold_right Nat.max 0 (map depth l) <= n.
Proof.
  induction l as [|a l IH]; intros n; cbn [map fold_right]; split; intros H.
  - lia.
  - constructor.
  - inversion H; subst. apply IH in H3. lia.
  - constructor; [lia|]. apply IH. lia.
Qed.

Lemma container_depth : forall k l n, fold_right Nat.max 0 (map depth l) <= n -> Forall (fun a => depth a <= n) (container_args k l).
Proof.
  intros k l n H. apply max_depth in H. unfold container_args. apply Forall_app. split; [|apply Forall_app; split; [|apply Forall_app; split]].
  - constructor; [cbn; lia|constructor].
  - apply interleave_depth. exact H.
  - destruct (Nat.eqb (List.length l) 1); constructor; [cbn; lia|constructor].
  - constructor; [cbn; lia|constructor].
Qed.

(* the loop of print_call *)
Definition go (k : nat) (sep end_ : text) : list arg -> list text -> list value -> option (list call) :=
  fix go (l : list arg) (fmts : list text) (vals : list value) : option (list call) :=
    match l with
    | [] => Some (if fmts then [] else [to_printf sep fmts vals end_])
    | a :: l' =>
      let flush := if fmts then [] else [to_printf sep fmts vals sep] in
      match a with
      | ACont c es =>
        match print_call k (container_args c es) [] (if l' then end_ else sep), go l' [] [] with
        | Some x, Some y => Some (flush ++ x ++ y)
        | _, _ => None
        end
      | AArr es =>
        match go l' [] [] with
        | Some y => Some (flush ++ print_arr (Row es) (if l' then end_ else []) ++ y)
        | None => None
        end
      | ALit s => go l' (fmts ++ [s]) vals
      | AStr s => go l' (fmts ++ [T "%s"]) (vals ++ [VStr s])
      | AScal s => go l' (fmts ++ [fst (scalar_format s)]) (vals ++ [snd (scalar_format s)])
      end
    end.

Lemma print_call_go : forall k a l sep end_, print_call (S k) (a :: l) sep end_ = go k sep end_ (a :: l) [] [].
Proof. reflexivity. Qed.

Lemma join_cons2 : forall sep a b l, join sep (a :: b :: l) = a ++ sep ++ join sep (b :: l).
Proof. reflexivity. Qed.

Lemma expect_add : forall sep end_ fmts out s f strs, 
  expect sep end_ (fmts ++ [f]) (match fmts with [] => s | _ => out ++ sep ++ s end) strs
  = out ++ match fmts with [] => [] | _ => sep end ++ join sep (s :: strs) ++ end_ \/ (fmts = [] /\ out <> []).
Proof.
  intros sep end_ fmts out s f strs. destruct out as [|c out]; [|destruct fmts as [|f0 fmts]; [right; split; [reflexivity|discriminate]|]]; left.
  - destruct fmts as [|f0 fmts]; destruct strs as [|x strs]; unfold expect; cbn [app]; rewrite ?join_cons2, <- ?app_assoc; reflexivity.
  - destruct strs as [|x strs]; unfold expect; cbn [app]; rewrite ?join_cons2, <- ?app_assoc; cbn [app]; rewrite <- ?app_assoc; reflexivity.
Qed.

Lemma go_output : forall k sep end_, plain_text sep -> plain_text end_ ->
  (forall args e, args <> [] -> Forall printable args -> Forall (fun a => depth a < k) args -> plain_text e ->
     forall ss, all_some (map py_str args) = Some ss ->
     exists calls, print_call k args [] e = Some calls /\ output calls = Some (join [] ss ++ e)) ->
  forall l fmts vals out strs, Forall printable l -> Forall (fun a => depth a <= k) l -> pending sep fmts vals out ->
  all_some (map py_str l) = Some strs ->
  exists calls, go k sep end_ l fmts vals = Some calls /\ output calls = Some (expect sep end_ fmts out strs).
Proof.
  intros k sep end_ PS PE REC. induction l as [|a l IH]; intros fmts vals out strs F D P H.
  - cbn in H. injection H as <-. cbn [go]. destruct fmts as [|f fmts].
    + exists []. split; reflexivity.
    + eexists. split; [reflexivity|]. rewrite (output_one _ _ _ _ (out ++ end_)).
      * cbn. rewrite app_nil_r. reflexivity.
      * rewrite <- (app_nil_r vals). apply piece_app; [apply P|apply piece_text; exact PE].
  - destruct (all_some_cons _ _ _ H) as (s & ss & E & R & ->).
    inversion F as [|? ? A F']; subst. inversion D as [|? ? DA D']; subst.
    assert (SIMPLE : forall f v, piece f v s ->
      exists calls, go k sep end_ l (fmts ++ [f]) (vals ++ v) = Some calls /\
      output calls = Some (expect sep end_ fmts out (s :: ss))).
    { intros f v Q.
      destruct (IH (fmts ++ [f]) (vals ++ v) _ ss F' D' (pending_add sep fmts vals out f v s PS P Q) R) as (calls & G & O).
      exists calls. split; [exact G|]. rewrite O. f_equal.
      destruct (expect_add sep end_ fmts out s f ss) as [X|[X Y]]; [exact X|].
      elim Y. destruct P as [_ P]. apply P. exact X. }
    assert (FLUSH : forall rest, output ((if fmts then [] else [to_printf sep fmts vals sep]) ++ rest)
      = option_map (app (out ++ match fmts with [] => [] | _ => sep end)) (output rest)).
    { intros rest. destruct fmts as [|f fmts].
      - destruct P as [_ P]. destruct (P eq_refl) as [_ ->]. cbn [app]. destruct (output rest); reflexivity.
      - cbn [app]. apply output_one. rewrite <- (app_nil_r vals). apply piece_app; [apply P|apply piece_text; exact PS]. }
    destruct a as [t|t|x|c es|es].
    + cbn [py_str] in E. injection E as ->. cbn [go]. rewrite <- (app_nil_r vals). apply SIMPLE. apply piece_text. exact A.
    + cbn [py_str] in E. injection E as ->. cbn [go]. apply SIMPLE. apply piece_str. exact A.
    + cbn [py_str py_repr] in E. injection E as <-. cbn [go]. apply SIMPLE. apply piece_scalar. destruct x; exact A.
    + cbn [go]. apply printable_all in A. destruct A as (_ & A1 & A2).
      change (py_str (ACont c es)) with (py_repr (ACont c es)) in E.
      destruct (container_str c es s E A1) as (ms & M1 & M2).
      destruct (REC (container_args c es) (if l then end_ else sep)) with (ss := ms) as (calls & G & O).
      * discriminate.
      * apply container_printable. exact A2.
      * cbn [depth] in DA. eapply Forall_impl; [|apply (container_depth c es (k - 1)); lia].
        intros z Hz. cbn in Hz. lia.
      * destruct l; assumption.
      * exact M1.
      * rewrite G.
        destruct (IH [] [] [] ss F' D') as (calls2 & G2 & O2); [split; [exact piece_nil|auto]|exact R|].
        fold (go k sep end_). rewrite G2. eexists. split; [reflexivity|].
        rewrite FLUSH, (output_app _ _ _ O), O2. cbn [option_map]. rewrite M2. f_equal. unfold expect.
        destruct l as [|a2 l].
        -- cbn in R. injection R as <-. cbn [join]. rewrite app_nil_r, <- !app_assoc. reflexivity.
        -- destruct (all_some_cons _ _ _ R) as (y & r' & _ & _ & ->). cbn [app].
           change (join sep (s :: y :: r')) with (s ++ sep ++ join sep (y :: r')). rewrite <- !app_assoc. reflexivity.
    + contradiction.
Qed.

Lemma print_output : forall fuel args sep end_ ss, Forall printable args -> Forall (fun a => depth a < fuel) args -> 0 < fuel ->
  plain_text sep -> plain_text end_ -> all_some (map py_str args) = Some ss ->
  exists calls, print_call fuel args sep end_ = Some calls /\ output calls = Some (join sep ss ++ end_).
Proof.
  induction fuel as [|k IH]; intros args sep end_ ss F D L PS PE H; [lia|].
  destruct args as [|a l].
  - cbn in H. injection H as <-. eexists. split; [reflexivity|].
    rewrite (output_one _ _ _ _ end_); [cbn; rewrite app_nil_r; reflexivity|]. apply piece_text. exact PE.
  - rewrite print_call_go.
    destruct (go_output k sep end_ PS PE) with (l := a :: l) (fmts := @nil text) (vals := @nil value) (out := @nil ascii) (strs := ss)
      as (calls & G & O).
    + intros args e N Fa Da Pe ss' H'.
      destruct args as [|b args]; [congruence|]. apply IH; try assumption.
      * inversion Da; lia.
      * split; intros I; contradiction.
    + exact F.
    + eapply Forall_impl; [|exact D]. intros z Hz. cbn in Hz. lia.
    + split; [exact piece_nil|auto].
    + exact H.
    + exists calls. split; [exact G|]. rewrite O. f_equal. destruct ss as [|s ss].
      * destruct (all_some_cons _ _ _ H) as (? & ? & _ & _ & E). discriminate.
      * reflexivity.
Qed.

(* arrays of one dimension *)

Lemma piece_call : forall sep f v s e, piece f v s -> plain_text e -> output [to_printf sep [f] v e] = Some (s ++ e).
Proof.
  intros sep f v s e P E. rewrite (output_one _ _ _ _ (s ++ e)); [cbn; rewrite app_nil_r; reflexivity|].
  rewrite <- (app_nil_r v). apply piece_app; [exact P|apply piece_text; exact E].
Qed.

Lemma plain_chars : forall s, forallb (fun c => negb (Ascii.eqb c (ch 37)) && negb (Ascii.eqb c (ch 0))) s = true -> plain_text s.
Proof.
  intros s H. rewrite forallb_forall in H. split; intros I; apply H in I; discriminate.
Qed.

Lemma rows_output : forall l, Forall ok_scalar l ->
  output ((fix rows (l : list arr) : list call :=
          match l with
          | [] => []
          | [x] => print_arr x []
          | x :: l' => print_arr x (match x with Elem _ => T " " | Row _ => [NL] end) ++ rows l'
          end) (map Elem l)) = Some (join (T " ") (map py_scalar l)).
Proof.
  induction l as [|x l IH]; intros F; [reflexivity|]. inversion F as [|? ? X F']; subst. destruct l as [|y l].
  - cbn [map print_arr]. rewrite (piece_call _ _ _ _ _ (piece_scalar _ X)) by (split; intros I; contradiction).
    rewrite app_nil_r. reflexivity.
  - cbn [map] in *. rewrite (output_app _ _ (py_scalar x ++ T " ")).
    + rewrite (IH F'). cbn [option_map]. rewrite join_cons2, <- app_assoc. reflexivity.
    + apply piece_call; [apply piece_scalar; exact X|]. apply plain_chars. reflexivity.
Qed.

Lemma array_output : forall l e, Forall ok_scalar l -> plain_text e ->
  output (print_arr (Row (map Elem l)) e) = Some (T "[" ++ join (T " ") (map py_scalar l) ++ T "]" ++ e).
Proof.
  intros l e F E. cbn [print_arr].
  match goal with |- output (?a :: ?b) = _ => change (a :: b) with ([a] ++ b) end.
  rewrite (output_app _ _ (T "[")).
  - rewrite (output_app _ _ _ (rows_output l F)).
    rewrite (output_one _ _ _ _ (T "]" ++ e)); [cbn [output option_map]; rewrite !app_nil_r; reflexivity|].
    apply piece_text. cbn [join app]. destruct E as [E1 E2]. split; intros I; apply in_app_or in I;
      (destruct I as [I|I]; [cbn in I; destruct I as [I|I]; [discriminate|contradiction]|contradiction]).
  - rewrite (output_one _ _ _ _ (T "[")); [reflexivity|]. apply piece_text. apply plain_chars. reflexivity.
Qed.

Lemma np_array_equal : forall n l, Forall (fun s => List.length (py_scalar s) = n) l ->
  np_array l = T "[" ++ join (T " ") (map py_scalar l) ++ T "]".
Proof.
  intros n l F. unfold np_array. cbn zeta. f_equal. f_equal. f_equal.
  assert (M : fold_right Nat.max 0 (map (fun s => List.length (py_scalar s)) l) <= n).
  { induction F as [|x l X F IH]; cbn; lia. }
  set (m := fold_right Nat.max 0 (map (fun s => List.length (py_scalar s)) l)) in *. clearbody m.
  induction F as [|x l X F IH]; [reflexivity|]. cbn [map]. rewrite IH. f_equal.
  unfold pad_left. replace (m - List.length (py_scalar x)) with 0 by lia. reflexivity.
Qed.

Lemma print_array : forall k n l sep end_, Forall ok_scalar l -> Forall (fun s => List.length (py_scalar s) = n) l -> plain_text end_ ->
  exists calls, print_call (S k) [AArr (map Elem l)] sep end_ = Some calls /\ output calls = Some (np_array l ++ end_).
Proof.
  intros k n l sep end_ F E P. eexists. split; [reflexivity|]. cbn [app]. rewrite app_nil_r.
  rewrite (array_output l end_ F P), (np_array_equal n l E), <- !app_assoc. reflexivity.
Qed.
