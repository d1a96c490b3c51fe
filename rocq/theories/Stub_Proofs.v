(** Proofs about type annotations. *)

From Coq Require Import List String Ascii Bool Arith Lia FinFun.
From Verif Require Import Stub_Model Stub_Spec.
Import ListNotations.
Open Scope string_scope.

(** ** Induction on types *)

Lemma ty_nested : forall P : ty -> Prop,
  (forall s, P (Num s)) -> P Str -> (forall n, P (Class n)) ->
  (forall e r o, P e -> P (Array e r o)) -> (forall e, P e -> P (HTup e)) ->
  (forall l, Forall P l -> P (ITup l)) -> (forall e, P e -> P (Lst e)) ->
  (forall e, P e -> P (SetT e)) -> (forall k v, P k -> P v -> P (Dict k v)) ->
  (forall e, P e -> P (Final e)) -> forall t, P t.
Proof.
  intros P H1 H2 H3 H4 H5 H6 H7 H8 H9 H10. fix IH 1. intros [s| |n|e r o|e|l|e|e|k v|e].
  - apply H1. - apply H2. - apply H3. - apply H4, IH. - apply H5, IH.
  - apply H6. induction l as [|x l IHl]; constructor; [apply IH|exact IHl].
  - apply H7, IH. - apply H8, IH. - apply H9; apply IH. - apply H10, IH.
Qed.

Lemma scalar_eqb_eq : forall a b, scalar_eqb a b = true <-> a = b.
Proof. intros a b. split; [|intros ->; destruct b; reflexivity]. destruct a, b; cbn; congruence. Qed.

Lemma order_eqb_eq : forall a b, order_eqb a b = true <-> a = b.
Proof. intros [[]|] [[]|]; cbn; split; congruence. Qed.

Lemma ty_eqb_eq : forall a b, ty_eqb a b = true <-> a = b.
Proof.
  induction a as [s| |n|e r o IH|e IH|l IH|e IH|e IH|k v IHk IHv|e IH] using ty_nested;
    intros [s'| |n'|e' r' o'|e'|l'|e'|e'|k' v'|e']; cbn; try (split; congruence).
  - rewrite scalar_eqb_eq. split; congruence.
  - rewrite String.eqb_eq. split; congruence.
  - rewrite !andb_true_iff, IH, Nat.eqb_eq, order_eqb_eq. split; [intros [[-> ->] ->]; reflexivity|].
    intros E. injection E as -> -> ->. auto.
  - rewrite IH. split; congruence.
  - revert l'. induction l as [|x l IHl]; intros [|y l']; try (split; congruence).
    inversion IH as [|? ? Hx Hl]; subst. rewrite andb_true_iff, Hx, (IHl Hl l'). split.
    + intros [-> E]. congruence.
    + intros E. injection E as -> ->. auto.
  - rewrite IH. split; congruence.
  - rewrite IH. split; congruence.
  - rewrite andb_true_iff, IHk, IHv. split; [intros [-> ->]; reflexivity|intros E; injection E as -> ->; auto].
  - rewrite IH. split; congruence.
Qed.

Lemma no_final_list : forall l,
  (fix all l := match l with [] => True | x :: r => no_final x /\ all r end) l <-> Forall no_final l.
Proof.
  induction l as [|x l IH]; [split; constructor|]. rewrite IH. split.
  - intros [A B]. constructor; assumption.
  - intros H. inversion H; auto.
Qed.

Lemma erase_no_final : forall t, no_final t -> erase t = t.
Proof.
  induction t as [s| |n|e r o IH|e IH|l IH|e IH|e IH|k v IHk IHv|e IH] using ty_nested; cbn; intros H;
    try reflexivity; try (rewrite IH by exact H; reflexivity).
  - f_equal. apply no_final_list in H. induction l as [|x l IHl]; [reflexivity|]. cbn.
    inversion IH; inversion H; subst. f_equal; auto.
  - destruct H as [H1 H2]. rewrite IHk, IHv by assumption. reflexivity.
  - contradiction.
Qed.

Lemma same_key_tidy : forall a b, tidy a -> tidy b -> same_key a b = true -> a = b.
Proof.
  intros a b Ha Hb H. unfold same_key in H. apply andb_true_iff in H. destruct H as [E H].
  unfold equal in H. apply ty_eqb_eq in H. apply eqb_prop in E.
  assert (forall t, tidy t -> is_final t = false -> erase t = t) as N.
  { intros t Ht F. destruct t; try discriminate; apply erase_no_final; exact Ht. }
  destruct (is_final a) eqn:Fa.
  - destruct a as [ | | | | | | | | |a]; try discriminate.
    destruct b as [ | | | | | | | | |b]; try discriminate. cbn in *.
    rewrite !erase_no_final in H by assumption. congruence.
  - rewrite (N a), (N b) in H by (assumption || congruence). exact H.
Qed.

Lemma same_key_refl : forall a, same_key a a = true.
Proof.
  intros a. unfold same_key, equal. rewrite eqb_reflx. cbn. apply ty_eqb_eq. reflexivity.
Qed.

Lemma get_new_tidy : forall c t, tidy t -> Forall tidy c ->
  exists c', get_new c t = (t, c') /\ Forall tidy c'.
Proof.
  intros c t Ht Hc. unfold get_new. destruct (find (same_key t) c) as [t'|] eqn:F.
  - apply find_some in F. destruct F as [I E]. rewrite Forall_forall in Hc.
    assert (t = t') as <- by (apply same_key_tidy; auto).
    exists c. split; [reflexivity|]. apply Forall_forall. exact Hc.
  - exists (t :: c). split; [reflexivity|]. constructor; assumption.
Qed.

Lemma tidy_no_final : forall t, no_final t -> tidy t.
Proof. intros t H. destruct t; try exact H. contradiction. Qed.

(** ** Strings *)

Lemma app_assoc_s : forall a b c : string, (a ++ b) ++ c = a ++ (b ++ c).
Proof. induction a as [|x a IH]; intros b c; cbn; [reflexivity|]. rewrite IH. reflexivity. Qed.

Lemma app_nil_s : forall a : string, a ++ "" = a.
Proof. induction a as [|x a IH]; cbn; [reflexivity|]. rewrite IH. reflexivity. Qed.

Lemma length_app_s : forall a b : string, String.length (a ++ b) = String.length a + String.length b.
Proof. induction a as [|x a IH]; intros b; cbn; [reflexivity|]. rewrite IH. reflexivity. Qed.

Definition stops (s : string) : Prop :=
  match s with String c _ => is_word c = false | EmptyString => True end.

Definition closed (s : string) : Prop := stops s /\ tok "[" s = None /\ tok "(" s = None.

Lemma word_app : forall n rest, all_word n = true -> stops rest -> word (n ++ rest) = (n, rest).
Proof.
  induction n as [|c n IH]; intros rest H S; cbn in *.
  - destruct rest as [|c rest]; [reflexivity|]. cbn in *. rewrite S. reflexivity.
  - apply andb_true_iff in H. destruct H as [H1 H2]. rewrite H1, (IH rest H2 S). reflexivity.
Qed.

Lemma alpha_word : forall c, is_alpha c = true -> is_word c = true.
Proof. intros c H. unfold is_word. rewrite H. reflexivity. Qed.

Lemma alpha_space : forall c, is_alpha c = true -> is_space c = false.
Proof.
  intros [[] [] [] [] [] [] [] []]; vm_compute; congruence.
Qed.

Lemma ident_app : forall n rest, identifier n = true -> stops rest -> ident (n ++ rest) = Some (n, rest).
Proof.
  intros [|c n] rest H S; [discriminate|]. cbn in H. apply andb_true_iff in H. destruct H as [H1 H2].
  unfold ident. cbn [append skip]. rewrite (alpha_space c H1), H1. cbn [word].
  rewrite (alpha_word c H1), (word_app n rest H2 S). reflexivity.
Qed.

Lemma dtype_app : forall n rest, identifier n = true -> stops rest ->
  p_dtype (n ++ rest) = Some (BName n, rest).
Proof. intros n rest H S. unfold p_dtype. rewrite (ident_app n rest H S). reflexivity. Qed.

Lemma scalar_identifier : forall s, identifier (scalar_name s) = true.
Proof. intros []; reflexivity. Qed.

(** ** A printed type is read *)

Fixpoint syn_of (t : ty) : syn :=
  match t with
  | Num s => SType (BName (scalar_name s)) None
  | Str => SType (BName "str") None
  | Class n => SType (BName n) None
  | Array e r o =>
    SType (BName (print e)) (Some (repeat SSlice r, option_map order_name o))
  | HTup e => SType (BName "tuple") (Some ([syn_of e; SEllipsis], None))
  | ITup l => SType (BName "tuple") (Some (map syn_of l, None))
  | Lst e => SType (BName "list") (Some ([syn_of e], None))
  | SetT e => SType (BName "set") (Some ([syn_of e], None))
  | Dict k v => SType (BName "dict") (Some ([syn_of k; syn_of v], None))
  | Final e => SType (BName "Final") (Some ([syn_of e], None))
  end.

Lemma printable_list : forall sc l,
  (fix all l := match l with [] => True | x :: r => printable sc x /\ all r end) l
  <-> Forall (printable sc) l.
Proof.
  intros sc. induction l as [|x l IH]; [split; constructor|]. rewrite IH. split.
  - intros [A B]. constructor; assumption.
  - intros H. inversion H; auto.
Qed.

(* The printed type begins with a letter. *)
Lemma print_head : forall sc t, printable sc t -> exists c r, print t = String c r /\ is_alpha c = true.
Proof.
  intros sc t H. destruct t as [s| |n|e r o|e|l|e|e|k v|e]; cbn in *;
    try (eexists _, _; split; [reflexivity|reflexivity]).
  - destruct s; eexists _, _; split; reflexivity.
  - destruct H as [H _]. destruct n as [|c n]; [discriminate|]. cbn in H.
    apply andb_true_iff in H. eexists _, _. split; [reflexivity|tauto].
  - destruct H as [(s & -> & _) _]. cbn. destruct s; eexists _, _; split; reflexivity.
  - destruct l as [|x l]; [tauto|]. eexists _, _. split; reflexivity.
Qed.

Lemma index_type : forall sc t f rest, printable sc t ->
  p_index (S f) (print t ++ rest) = p_type f (print t ++ rest).
Proof.
  intros sc t f rest H. destruct (print_head sc t H) as (c & r & E & A). rewrite E.
  cbn [append]. cbn [p_index]. unfold tok. cbn [skip]. rewrite (alpha_space c A). cbn [strip].
  destruct c as [[] [] [] [] [] [] [] []]; vm_compute in A; try discriminate; reflexivity.
Qed.

Lemma closed_bracket : forall s, closed ("]" ++ s).
Proof. intros s. repeat split. Qed.

Lemma closed_comma : forall s, closed (", " ++ s).
Proof. intros s. repeat split. Qed.

Lemma order_closed : forall s, tok "(" s = None -> p_order s = (None, s).
Proof. intros s H. unfold p_order. rewrite H. reflexivity. Qed.

Lemma p_type_unfold : forall f n rest, identifier n = true -> stops rest ->
  p_type (S f) (n ++ rest) =
      match tok "[" rest with
      | None => Some (SType (BName n) None, rest)
      | Some s2 =>
        let '(l, s3) :=
          match p_index f s2 with
          | None => ([], s2)
          | Some (a, s4) => let '(r, s5) := p_more f s4 in (a :: r, s5)
          end in
        match tok "]" s3 with
        | None => Some (SType (BName n) None, rest)
        | Some s6 => let '(o, s7) := p_order s6 in Some (SType (BName n) (Some (l, o)), s7)
        end
      end.
Proof. intros f n rest H S. cbn [p_type]. rewrite (dtype_app n rest H S). reflexivity. Qed.

(* After the name of a container: its arguments. *)
Lemma p_container : forall f n inner l rest, identifier n = true -> closed rest ->
  (exists a r s4, l = a :: r /\ p_index f (inner ++ "]" ++ rest) = Some (a, s4) /\
                  p_more f s4 = (r, "]" ++ rest)) ->
  p_type (S f) ((n ++ "[" ++ inner ++ "]") ++ rest) = Some (SType (BName n) (Some (l, None)), rest).
Proof.
  intros f n inner l rest Hn (S1 & S2 & S3) (a & r & s4 & -> & E & M).
  rewrite app_assoc_s. rewrite p_type_unfold; [|exact Hn|reflexivity].
  rewrite !app_assoc_s.
  change (tok "[" ("[" ++ inner ++ "]" ++ rest)) with (Some (inner ++ "]" ++ rest)). cbv iota beta.
  rewrite E, M. change (tok "]" ("]" ++ rest)) with (Some rest). cbv iota beta.
  rewrite order_closed by exact S3. reflexivity.
Qed.

Fixpoint tail (l : list string) (sep : string) : string :=
  match l with [] => "" | a :: r => sep ++ a ++ tail r sep end.

Lemma join_tail : forall sep l a, join sep (a :: l) = a ++ tail l sep.
Proof.
  intros sep. induction l as [|b l IH]; intros a; [cbn; rewrite app_nil_s; reflexivity|].
  change (join sep (a :: b :: l)) with (a ++ sep ++ join sep (b :: l)). rewrite (IH b). reflexivity.
Qed.

Lemma more_slices : forall k f rest, k < f -> 
  p_more f (tail (repeat ":" k) "," ++ "]" ++ rest) = (repeat SSlice k, "]" ++ rest).
Proof.
  induction k as [|k IH]; intros [|f] rest L; try lia; [reflexivity|]. cbn [repeat tail].
  change ((("," ++ ":" ++ tail (repeat ":" k) ",")) ++ "]" ++ rest)
    with ("," ++ ":" ++ (tail (repeat ":" k) "," ++ "]" ++ rest)).
  cbn [p_more].
  set (X := tail (repeat ":" k) "," ++ "]" ++ rest).
  change (tok "," ("," ++ ":" ++ X)) with (Some (":" ++ X)). cbv iota beta.
  assert (p_index f (":" ++ X) = Some (SSlice, X)) as -> by (destruct f; reflexivity).
  subst X. rewrite (IH f rest) by lia. reflexivity.
Qed.

Lemma more_types : forall sc l f rest, Forall (printable sc) l ->
  Forall (fun t => forall f rest, String.length (print t) < f -> closed rest ->
            p_type f (print t ++ rest) = Some (syn_of t, rest)) l ->
  String.length (tail (map print l) ", ") < f ->
  p_more f (tail (map print l) ", " ++ "]" ++ rest) = (map syn_of l, "]" ++ rest).
Proof.
  intros sc. induction l as [|t l IH]; intros f rest Pr H L.
  - destruct f; reflexivity.
  - apply Forall_cons_iff in Pr. destruct Pr as [P1 P2]. apply Forall_cons_iff in H. destruct H as [H1 H2].
    cbn [map tail] in *. rewrite !length_app_s in L. cbn [String.length] in L.
    destruct f as [|f]; [lia|]. rewrite !app_assoc_s.
    set (X := tail (map print l) ", " ++ "]" ++ rest).
    cbn [p_more]. change (tok "," (", " ++ print t ++ X)) with (Some (" " ++ print t ++ X)). cbv iota beta.
    assert (p_index f (" " ++ print t ++ X) = Some (syn_of t, X)) as ->.
    { destruct f as [|f]; [lia|].
      assert (closed X) as Cx.
      { subst X. destruct l; [apply closed_bracket|cbn [map tail]; rewrite !app_assoc_s; apply closed_comma]. }
      assert (p_index (S f) (" " ++ print t ++ X) = p_index (S f) (print t ++ X)) as ->.
      { cbn [p_index]. unfold tok. cbn [append skip is_space].
        destruct f as [|f]; [lia|]. cbn [p_type]. unfold p_dtype, ident, quoted, tok. cbn [append skip].
        reflexivity. }
      rewrite (index_type sc t f X P1). apply H1; [lia|exact Cx]. }
    subst X. rewrite (IH f rest P2 H2) by lia. reflexivity.
Qed.

Lemma p_printed : forall sc t, printable sc t -> forall f rest,
  String.length (print t) < f -> closed rest -> p_type f (print t ++ rest) = Some (syn_of t, rest).
Proof.
  intros sc. induction t as [s| |n|e r o IH|e IH|l IH|e IH|e IH|k v IHk IHv|e IH] using ty_nested;
    intros Pr f rest L C; destruct f as [|f]; try (cbn in L; lia).
  - rewrite p_type_unfold; [|apply scalar_identifier|apply C]. destruct C as (_ & -> & _). reflexivity.
  - change (print Str) with "str". rewrite p_type_unfold; [|reflexivity|apply C].
    destruct C as (_ & -> & _). reflexivity.
  - cbn [print printable] in *. rewrite p_type_unfold; [|apply Pr|apply C].
    destruct C as (_ & -> & _). reflexivity.
  - destruct Pr as [(s & -> & Hs) Ho]. destruct r as [|r]; [contradiction|].
    cbn [print syn_of]. rewrite !app_assoc_s.
    rewrite p_type_unfold; [|apply scalar_identifier|reflexivity].
    cbn [repeat]. rewrite join_tail, !app_assoc_s.
    set (O := match o with Some o' => "(order=" ++ order_name o' ++ ")" | None => "" end).
    set (X := tail (repeat ":" r) "," ++ "]" ++ O ++ rest).
    change (tok "[" ("[" ++ ":" ++ X)) with (Some (":" ++ X)). cbv iota beta.
    assert (p_index f (":" ++ X) = Some (SSlice, X)) as -> by (destruct f; reflexivity).
    subst X. rewrite more_slices.
    2:{ cbn [print repeat] in L. rewrite join_tail, !length_app_s in L. cbn [String.length] in L.
        assert (forall k, String.length (tail (repeat ":" k) ",") = 2 * k) as T.
        { induction k as [|k IHk]; [reflexivity|]. cbn [repeat tail]. rewrite !length_app_s, IHk.
          cbn [String.length]. lia. }
        rewrite T in L. destruct s; cbn in L; lia. }
    change (tok "]" ("]" ++ O ++ rest)) with (Some (O ++ rest)). cbv iota beta.
    destruct o as [o|]; subst O.
    + destruct o; reflexivity.
    + cbn [append]. rewrite order_closed by apply C. reflexivity.
  - cbn [print syn_of printable] in *.
    replace ("tuple[" ++ print e ++ ", ...]") with ("tuple" ++ "[" ++ (print e ++ ", ...") ++ "]")
      by (rewrite !app_assoc_s; reflexivity).
    apply p_container; [reflexivity|exact C|].
    rewrite !length_app_s in L. cbn [String.length] in L. destruct f as [|f]; [lia|].
    eexists _, _, _. split; [reflexivity|]. rewrite app_assoc_s, (index_type sc e f _ Pr).
    split; [apply IH; [exact Pr|lia|apply (closed_comma ("..." ++ "]" ++ rest))]|].
    destruct f; reflexivity.
  - destruct Pr as [Ne Pr]. apply printable_list in Pr. destruct l as [|x l]; [contradiction|].
    cbn [syn_of]. change (print (ITup (x :: l))) with ("tuple[" ++ join ", " (map print (x :: l)) ++ "]") in *.
    cbn [map] in *. rewrite join_tail in *.
    change ("tuple[" ++ (print x ++ tail (map print l) ", ") ++ "]")
      with ("tuple" ++ "[" ++ (print x ++ tail (map print l) ", ") ++ "]") in *.
    apply Forall_cons_iff in Pr. destruct Pr as [P1 P2]. apply Forall_cons_iff in IH. destruct IH as [H1 H2].
    apply p_container; [reflexivity|exact C|].
    rewrite !length_app_s in L. cbn [String.length] in L. destruct f as [|f]; [lia|].
    eexists _, _, _. split; [reflexivity|]. rewrite app_assoc_s, (index_type sc x f _ P1).
    split; [apply H1; [exact P1|lia|]|].
    + destruct l; [apply closed_bracket|cbn [map tail]; rewrite !app_assoc_s; apply closed_comma].
    + apply (more_types sc); [exact P2| |lia]. rewrite Forall_forall in *.
      intros t Ht f' rest' L' C'. apply H2; auto.
  - cbn [print syn_of printable] in *. change ("list[" ++ print e ++ "]") with ("list" ++ "[" ++ print e ++ "]") in *.
    apply p_container; [reflexivity|exact C|].
    rewrite !length_app_s in L. cbn [String.length] in L. destruct f as [|f]; [lia|].
    eexists _, _, _. split; [reflexivity|]. rewrite (index_type sc e f _ Pr).
    split; [apply IH; [exact Pr|lia|apply closed_bracket]|]. destruct f; reflexivity.
  - cbn [print syn_of printable] in *. change ("set[" ++ print e ++ "]") with ("set" ++ "[" ++ print e ++ "]") in *.
    apply p_container; [reflexivity|exact C|].
    rewrite !length_app_s in L. cbn [String.length] in L. destruct f as [|f]; [lia|].
    eexists _, _, _. split; [reflexivity|]. rewrite (index_type sc e f _ Pr).
    split; [apply IH; [exact Pr|lia|apply closed_bracket]|]. destruct f; reflexivity.
  - cbn [print syn_of printable] in *. destruct Pr as [P1 P2].
    replace ("dict[" ++ print k ++ ", " ++ print v ++ "]")
      with ("dict" ++ "[" ++ (print k ++ tail (map print [v]) ", ") ++ "]") in *
      by (cbn [map tail]; rewrite app_nil_s, !app_assoc_s; reflexivity).
    apply p_container; [reflexivity|exact C|].
    rewrite !length_app_s in L. cbn [String.length] in L. destruct f as [|f]; [lia|].
    eexists _, _, _. split; [reflexivity|]. rewrite app_assoc_s, (index_type sc k f _ P1).
    split; [apply IHk; [exact P1|lia|cbn [map tail]; rewrite !app_assoc_s; apply closed_comma]|].
    apply (more_types sc [v]); [constructor; [exact P2|constructor]| |lia].
    constructor; [|constructor]. intros f' rest' L' C'. apply IHv; assumption.
  - cbn [print syn_of printable] in *. destruct Pr as [Pr _].
    change ("Final[" ++ print e ++ "]") with ("Final" ++ "[" ++ print e ++ "]") in *.
    apply p_container; [reflexivity|exact C|].
    rewrite !length_app_s in L. cbn [String.length] in L. destruct f as [|f]; [lia|].
    eexists _, _, _. split; [reflexivity|]. rewrite (index_type sc e f _ Pr).
    split; [apply IH; [exact Pr|lia|apply closed_bracket]|]. destruct f; reflexivity.
Qed.

(** ** What is made *)

Definition nf (a : ty * option memory) : Prop := no_final (fst a) /\ snd a = None.

Lemma equal_eq : forall a b, no_final a -> no_final b -> equal a b = true <-> a = b.
Proof.
  intros a b Ha Hb. unfold equal. rewrite !erase_no_final by assumption. apply ty_eqb_eq.
Qed.

Lemma ann_eqb_eq : forall a b, nf a -> nf b -> ann_eqb a b = true <-> a = b.
Proof.
  intros [a ma] [b mb] [Ha Ma] [Hb Mb]. cbn in *. subst. unfold ann_eqb. cbn [fst snd].
  rewrite equal_eq by assumption. split; congruence.
Qed.

Lemma dedup_in : forall l seen, Forall nf l -> Forall nf seen ->
  forall a, In a (dedup seen l) <-> In a l /\ ~ In a seen.
Proof.
  induction l as [|x l IH]; intros seen Hl Hs a; [cbn; tauto|].
  apply Forall_cons_iff in Hl. destruct Hl as [Hx Hl]. cbn [dedup].
  assert (existsb (ann_eqb x) seen = true <-> In x seen) as E.
  { rewrite existsb_exists. split.
    - intros (y & I & Q). rewrite Forall_forall in Hs. apply ann_eqb_eq in Q; auto. subst. exact I.
    - intros I. exists x. split; [exact I|]. apply ann_eqb_eq; auto. }
  destruct (existsb (ann_eqb x) seen) eqn:Q.
  - rewrite (IH seen Hl Hs a). assert (In x seen) by tauto. cbn. split; [tauto|].
    intros [[->|I] N]; tauto.
  - assert (~ In x seen) as N by (intros I; apply E in I; congruence).
    cbn [In]. rewrite (IH (x :: seen) Hl) by (constructor; assumption). cbn [In]. split.
    + intros [->|[I N']]; tauto.
    + intros [[->|I] N']; [left; reflexivity|].
      destruct (ann_eqb x a) eqn:X.
      * left. rewrite Forall_forall in Hl. apply ann_eqb_eq in X; auto.
      * right. split; [exact I|]. intros [<-|I']; [|tauto].
        rewrite (proj2 (ann_eqb_eq x x Hx Hx) eq_refl) in X. discriminate.
Qed.

Lemma union_in : forall l a, Forall nf l -> In a (union l) <-> In a l.
Proof. intros l a H. unfold union. rewrite dedup_in by (assumption || constructor). cbn. tauto. Qed.

Lemma union_one : forall a, union [a] = [a].
Proof. reflexivity. Qed.

Lemma plain_some : forall l, Forall nf l -> plain l = Some (map fst l).
Proof.
  induction l as [|[t m] l IH]; intros H; [reflexivity|]. apply Forall_cons_iff in H.
  destruct H as [[_ M] H]. cbn in *. subst m. rewrite (IH H). reflexivity.
Qed.

Lemma make_map : forall f ts c, (forall t, In t ts -> tidy (f t)) -> Forall tidy c ->
  exists c', make f ts c = (map (fun t => (f t, None)) ts, c') /\ Forall tidy c'.
Proof.
  intros f. induction ts as [|t ts IH]; intros c H Hc; [exists c; split; [reflexivity|exact Hc]|].
  cbn [make map]. destruct (get_new_tidy c (f t)) as (c1 & -> & H1); [apply H; left; reflexivity|exact Hc|].
  destruct (IH c1) as (c2 & -> & H2); [intros; apply H; right; assumption|exact H1|].
  exists c2. split; [reflexivity|exact H2].
Qed.

Lemma make_tuples_map : forall ls c, (forall l, In l ls -> Forall no_final l) -> Forall tidy c ->
  exists c', make_tuples ls c = (map (fun l => (ITup l, None)) ls, c') /\ Forall tidy c'.
Proof.
  induction ls as [|t ls IH]; intros c H Hc; [exists c; split; [reflexivity|exact Hc]|].
  cbn [make_tuples map]. destruct (get_new_tidy c (ITup t)) as (c1 & -> & H1);
    [apply no_final_list, H; left; reflexivity|exact Hc|].
  destruct (IH c1) as (c2 & -> & H2); [intros; apply H; right; assumption|exact H1|].
  exists c2. split; [reflexivity|exact H2].
Qed.

Lemma product_in : forall ls l, In l (product ls) <-> Forall2 (@In ty) l ls.
Proof.
  induction ls as [|ts ls IH]; intros l; cbn [product].
  - split; [intros [<-|[]]; constructor|intros H; inversion H; left; reflexivity].
  - rewrite in_flat_map. split.
    + intros (t & I & M). apply in_map_iff in M. destruct M as (l' & <- & I'). constructor; [exact I|].
      apply IH. exact I'.
    + intros H. inversion H as [|t ? l' ? I F]; subst. exists t. split; [exact I|].
      apply in_map_iff. exists l'. split; [reflexivity|]. apply IH. exact F.
Qed.

Lemma product_one : forall ls, Forall (fun l => List.length l = 1%nat) ls -> List.length (product ls) = 1%nat.
Proof.
  induction ls as [|ts ls IH]; intros H; [reflexivity|]. apply Forall_cons_iff in H. destruct H as [H1 H2].
  destruct ts as [|t [|? ?]]; try discriminate. cbn [product flat_map]. rewrite app_nil_r, map_length. auto.
Qed.

Lemma arrays_of_map : forall l r c, Forall nf l -> Forall tidy c -> forall m c',
  arrays_of l r c = Some (m, c') -> Forall tidy c' /\
  exists ss, l = map (fun s => (Num s, None)) ss /\
    m = map (fun s => (Array (Num (numpy_scalar s)) r (if (r <? 2)%nat then None else Some OC), None)) ss.
Proof.
  induction l as [|[t o] l IH]; intros r c H Hc m c' E.
  - injection E as <- <-. split; [exact Hc|]. exists []. split; reflexivity.
  - apply Forall_cons_iff in H. destruct H as [[N M] H]. cbn in N, M. subst o. cbn [arrays_of] in E.
    unfold array_of in E.
    destruct t as [s| | | | | | | | |]; cbn [process_dtype] in E; try discriminate; [|contradiction].
    destruct (get_new_tidy c (Array (Num (numpy_scalar s)) r (if (r <? 2)%nat then None else Some OC)))
      as (c1 & G & H1); [exact I|exact Hc|].
    rewrite G in E. destruct (arrays_of l r c1) as [[m' c2]|] eqn:A; [|discriminate].
    injection E as <- <-. destruct (IH r c1 H H1 m' c2 A) as (T & ss & -> & ->).
    split; [exact T|]. exists (s :: ss). split; reflexivity.
Qed.

(** ** The meaning of annotations *)

Lemma syn_nested : forall P : syn -> Prop,
  P SSlice -> P SEllipsis -> (forall b, P (SType b None)) ->
  (forall b l o, Forall P l -> P (SType b (Some (l, o)))) -> forall s, P s.
Proof.
  intros P H1 H2 H3 H4. fix IH 1. intros [| |b [[l o]|]]; [exact H1|exact H2| |apply H3].
  apply H4. induction l as [|x l IHl]; constructor; [apply IH|exact IHl].
Qed.

Definition types (sc : list (string * meaning)) :=
      (fix go (l : list syn) (c : list ty) : option (list (list ty) * list ty) :=
         match l with
         | [] => Some ([], c)
         | a :: r =>
           match visit sc a c with
           | None => None
           | Some (la, c1) =>
             match plain la with
             | None => None
             | Some ta =>
               match go r c1 with
               | None => None
               | Some (lr, c2) => Some (ta :: lr, c2)
               end
             end
           end
         end).

Lemma simple_list : forall sc l,
  (fix all l := match l with [] => True | x :: r => simple sc x /\ all r end) l <-> Forall (simple sc) l.
Proof.
  intros sc. induction l as [|x l IH]; [split; constructor|]. rewrite IH. split.
  - intros [A B]. constructor; assumption.
  - intros H. inversion H; auto.
Qed.

Lemma single_list : forall sc l,
  (fix all l := match l with [] => True | x :: r => single sc x /\ all r end) l <-> Forall (single sc) l.
Proof.
  intros sc. induction l as [|x l IH]; [split; constructor|]. rewrite IH. split.
  - intros [A B]. constructor; assumption.
  - intros H. inversion H; auto.
Qed.

Definition sound (sc : list (string * meaning)) (s : syn) : Prop :=
  simple sc s -> forall c l c', Forall tidy c -> visit sc s c = Some (l, c') ->
  Forall tidy c' /\ Forall nf l /\ (forall t, In (t, None) l <-> means sc s t) /\
  (single sc s -> List.length l = 1%nat).

Lemma types_sound : forall sc l, Forall (sound sc) l -> Forall (simple sc) l ->
  forall c ls c', Forall tidy c -> types sc l c = Some (ls, c') ->
  Forall tidy c' /\ Forall (Forall no_final) ls /\
  Forall2 (fun ts a => forall t, In t ts <-> means sc a t) ls l /\
  (Forall (single sc) l -> Forall (fun ts => List.length ts = 1%nat) ls).
Proof.
  intros sc. induction l as [|a l IH]; intros Hs Hp c ls c' Hc E.
  - injection E as <- <-. split; [exact Hc|]. split; [constructor|]. split; [constructor|constructor].
  - apply Forall_cons_iff in Hs. destruct Hs as [Sa Sl]. apply Forall_cons_iff in Hp. destruct Hp as [Pa Pl].
    cbn in E. destruct (visit sc a c) as [[la c1]|] eqn:V; [|discriminate].
    destruct (Sa Pa c la c1 Hc V) as (T1 & N1 & M1 & L1). rewrite (plain_some la N1) in E.
    change ((fix go (l : list syn) (c : list ty) : option (list (list ty) * list ty) :=
         match l with
         | [] => Some ([], c)
         | a :: r =>
           match visit sc a c with
           | None => None
           | Some (la, c1) =>
             match plain la with
             | None => None
             | Some ta =>
               match go r c1 with
               | None => None
               | Some (lr, c2) => Some (ta :: lr, c2)
               end
             end
           end
         end) l c1) with (types sc l c1) in E.
    destruct (types sc l c1) as [[lr c2]|] eqn:R; [|discriminate]. injection E as <- <-.
    destruct (IH Sl Pl c1 lr c2 T1 R) as (T2 & N2 & M2 & L2).
    split; [exact T2|]. split; [|split].
    + constructor; [|exact N2]. apply Forall_map. eapply Forall_impl; [|exact N1]. intros x [H _]. exact H.
    + constructor; [|exact M2]. intros t. rewrite <- M1, in_map_iff. split.
      * intros ([t' m] & <- & I). rewrite Forall_forall in N1. destruct (N1 _ I) as [_ Z]. cbn in *. subst m. exact I.
      * intros I. exists (t, None). split; [reflexivity|exact I].
    + intros H. apply Forall_cons_iff in H. destruct H as [Ha Hl]. constructor; [|auto].
      rewrite map_length. auto.
Qed.

Lemma union_nf : forall l, Forall nf l -> Forall nf (union l).
Proof.
  intros l H. apply Forall_forall. intros a I. apply (union_in l a H) in I.
  rewrite Forall_forall in H. auto.
Qed.

Lemma union_length1 : forall l, List.length l = 1%nat -> List.length (union l) = 1%nat.
Proof. intros [|a [|? ?]] H; try discriminate. reflexivity. Qed.

(* One argument, and a type made of each of its types. *)
Lemma one_sound : forall sc f a c l c', (forall t, no_final t -> no_final (f t)) ->
  sound sc a -> simple sc a -> Forall tidy c ->
  match visit sc a c with
  | None => None
  | Some (la, c1) =>
    match plain la with
    | None => None
    | Some ta => let '(l, c2) := make f ta c1 in Some (union l, c2)
    end
  end = Some (l, c') ->
  Forall tidy c' /\ Forall nf l /\
  (forall u, In (u, None) l <-> exists t, u = f t /\ means sc a t) /\
  (single sc a -> List.length l = 1%nat).
Proof.
  intros sc f a c l c' Hf S P Hc E. destruct (visit sc a c) as [[la c1]|] eqn:V; [|discriminate].
  destruct (S P c la c1 Hc V) as (T1 & N1 & M1 & L1). rewrite (plain_some la N1) in E.
  assert (forall t, In t (map fst la) <-> means sc a t) as M.
  { intros t. rewrite <- M1, in_map_iff. split.
    - intros ([t' m] & <- & I). rewrite Forall_forall in N1. destruct (N1 _ I) as [_ Z]. cbn in *. subst m. exact I.
    - intros I. exists (t, None). split; [reflexivity|exact I]. }
  assert (forall t, In t (map fst la) -> no_final t) as N.
  { intros t I. apply in_map_iff in I. destruct I as (x & <- & I). rewrite Forall_forall in N1. apply (N1 _ I). }
  destruct (make_map f (map fst la) c1) as (c2 & G & T2);
    [intros t I; apply tidy_no_final, Hf, N, I|exact T1|].
  rewrite G in E. injection E as <- <-.
  assert (Forall nf (map (fun t => (f t, @None memory)) (map fst la))) as N2.
  { apply Forall_map, Forall_forall. intros t I. split; [apply Hf, N, I|reflexivity]. }
  split; [exact T2|]. split; [apply union_nf, N2|]. split.
  - intros u. rewrite union_in by exact N2. rewrite in_map_iff. split.
    + intros (t & Q & I). injection Q as <-. exists t. split; [reflexivity|]. apply M, I.
    + intros (t & -> & Ht). exists t. split; [reflexivity|]. apply M, Ht.
  - intros H. apply union_length1. rewrite !map_length. auto.
Qed.

Lemma assoc_in : forall {A : Type} (l : list (string * A)) n m, assoc l n = Some m -> In (n, m) l.
Proof.
  intros A l n m H. unfold assoc in H. destruct (find _ l) as [[k x]|] eqn:F; [|discriminate].
  injection H as <-. apply find_some in F. destruct F as [I E]. cbn in *. apply String.eqb_eq in E.
  subst. exact I.
Qed.

Lemma lookup_types : forall sc n l, lookup sc n = Some (MTypes l) -> assoc sc n = Some (MTypes l).
Proof.
  intros sc n l H. unfold lookup in H. destruct (assoc sc n); [exact H|].
  destruct (assoc builtins n) eqn:B.
  - injection H as ->. apply assoc_in in B. cbn in B.
    repeat (destruct B as [B|B]; [discriminate|]). contradiction.
  - apply assoc_in in H. cbn in H. repeat (destruct H as [H|H]; [discriminate|]). contradiction.
Qed.

Lemma slices_repeat : forall l, forallb is_slice l = true -> l = repeat SSlice (List.length l).
Proof.
  induction l as [|[| |] l IH]; intros H; try discriminate; [reflexivity|]. cbn. f_equal. auto.
Qed.

Lemma repeat_slices : forall k, forallb is_slice (repeat SSlice k) = true.
Proof. induction k; [reflexivity|assumption]. Qed.

Lemma means_slice : forall sc t, ~ means sc SSlice t.
Proof. intros sc t H. inversion H. Qed.

Lemma means_ellipsis : forall sc t, ~ means sc SEllipsis t.
Proof. intros sc t H. inversion H. Qed.

Lemma no_slices : forall sc l ts, Forall2 (means sc) l ts -> existsb is_slice l = false.
Proof.
  intros sc l ts H. induction H as [|a t l ts Ha H IH]; [reflexivity|]. cbn. rewrite IH, orb_false_r.
  destruct a; [destruct (means_slice _ _ Ha)|reflexivity|reflexivity].
Qed.

Lemma exists_forall : forall l, l <> [] -> existsb is_slice l = false -> forallb is_slice l = false.
Proof. intros [|a l] N H; [congruence|]. cbn in *. apply orb_false_iff in H. destruct H as [-> _]. reflexivity. Qed.

(* The scalars a name stands for. *)
Definition array (s : scalar) (k : nat) (o : option order) : ty := Array (Num (numpy_scalar s)) k o.

Lemma means_slices : forall sc n k o t, lookup sc n <> Some MTuple -> lookup sc n <> Some MList ->
  lookup sc n <> Some MSet ->
  means sc (SType (BName n) (Some (repeat SSlice (S k), o))) t <->
  exists s, means sc (SType (BName n) None) (Num s) /\
    match k with
    | 0%nat => t = array s 1 None
    | _ => exists o', match o with None => o' = OC | Some w => w = order_name o' end /\ t = array s (S k) (Some o')
    end.
Proof.
  intros sc n k o t N1 N2 N3. split.
  - intros H. inversion H; subst; try congruence.
    + destruct k; [|discriminate]. exists s. split; [assumption|reflexivity].
    + destruct k as [|k]; [discriminate|].
      assert (k0 = k) as ->.
      { match goal with E : _ = _ :> list syn |- _ =>
          apply (f_equal (@List.length syn)) in E; cbn in E; rewrite !repeat_length in E; lia end. }
      exists s. split; [assumption|]. exists o'. split; [assumption|reflexivity].
    + exfalso. eapply means_slice; eassumption.
  - intros (s & M & H). destruct k as [|k].
    + subst t. apply means_vector. exact M.
    + destruct H as (o' & H & ->). apply (means_array sc n s k o o'); assumption.
Qed.

Lemma with_order_sound : forall sc n k o ss c l c', lookup sc n <> Some MTuple -> lookup sc n <> Some MList ->
  lookup sc n <> Some MSet ->
  (forall s, In s ss <-> means sc (SType (BName n) None) (Num s)) ->
  match o with None => True | Some w => (w = "C" \/ w = "F") /\ List.length ss = 1%nat end ->
  Forall tidy c ->
  with_order o (union (map (fun s => (array s (S k) (if (S k <? 2)%nat then None else Some OC), None)) ss)) c = Some (l, c') ->
  Forall tidy c' /\ Forall nf l /\
  (forall t, In (t, None) l <-> means sc (SType (BName n) (Some (repeat SSlice (S k), o))) t) /\
  (List.length ss = 1%nat -> List.length l = 1%nat).
Proof.
  intros sc n k o ss c l c' N1 N2 N3 M Ho Hc E.
  assert (Forall nf (map (fun s => (array s (S k) (if (S k <? 2)%nat then None else Some OC), @None memory)) ss)) as N.
  { apply Forall_map, Forall_forall. intros s _. split; [exact I|reflexivity]. }
  destruct o as [w|].
  - destruct Ho as [Hw L]. destruct ss as [|s [|? ?]]; try discriminate.
    cbn [map] in E. rewrite union_one in E.
    assert (exists o', w = order_name o') as (o' & ->) by (destruct Hw as [->| ->]; [exists OC|exists OF]; reflexivity).
    assert (forall o1 o2, order_name o1 = order_name o2 -> o1 = o2) as Inj by (intros [] []; cbn; congruence).
    assert (exists c1, Some ([(array s (S k) (if (S k <? 2)%nat then None else Some o'), @None memory)], c1) = Some (l, c') /\
              Forall tidy c1) as (c1 & E' & T1).
    { destruct k as [|k].
      - cbn in E |- *. destruct (get_new_tidy c (array s 1 None)) as (c1 & G & T); [exact I|exact Hc|].
        unfold array in *. rewrite G in E. exists c1. split; assumption.
      - change (S (S k) <? 2)%nat with false in *. cbv iota in *. unfold with_order in E.
        change (order_of (array s (S (S k)) (Some OC))) with (Some (order_name OC)) in E. cbv iota beta in E.
        destruct (order_name OC =? order_name o') eqn:Q.
        + apply String.eqb_eq, Inj in Q. subst o'. exists c. split; assumption.
        + destruct o'; [discriminate|]. unfold swap_order, array in E. cbn [swap] in E.
          destruct (get_new_tidy c (array s (S (S k)) (Some OF))) as (c1 & G & T); [exact I|exact Hc|].
          unfold array in G. rewrite G in E. exists c1. split; assumption. }
    injection E' as <- <-. split; [exact T1|]. split; [constructor; [split; [exact I|reflexivity]|constructor]|].
    split; [|intros _; reflexivity]. intros t. rewrite (means_slices sc n k (Some (order_name o')) t N1 N2 N3).
    cbn [In]. split.
    + intros [Q|[]]. injection Q as <-. exists s. split; [apply M; left; reflexivity|].
      destruct k; [reflexivity|]. exists o'. split; reflexivity.
    + intros (s' & Ms & H). apply M in Ms. destruct Ms as [<-|[]]. left.
      destruct k as [|k]; [subst; reflexivity|]. destruct H as (o2 & Q & ->). apply Inj in Q. subst. reflexivity.
  - injection E as <- <-. split; [exact Hc|]. split; [apply union_nf, N|]. split.
    + intros t. rewrite (means_slices sc n k None t N1 N2 N3), union_in by exact N. rewrite in_map_iff. split.
      * intros (s & Q & I). injection Q as <-. exists s. split; [apply M, I|].
        destruct k; [reflexivity|]. exists OC. split; reflexivity.
      * intros (s & Ms & H). exists s. split; [|apply M, Ms].
        destruct k as [|k]; [subst; reflexivity|]. destruct H as (o2 & -> & ->). reflexivity.
    + intros L. apply union_length1. rewrite map_length. exact L.
Qed.

Lemma with_order_none : forall l c, with_order None l c = Some (l, c).
Proof. reflexivity. Qed.

Lemma means_name : forall sc n t, means sc (SType (BName n) None) t <->
  match lookup sc n with
  | Some (MScalar s) => t = Num s
  | Some MStr => t = Str
  | Some (MClass m) => t = Class m
  | Some (MTypes l) => In (t, None) l
  | _ => False
  end.
Proof.
  intros sc n t. split.
  - intros H. inversion H as [n' s E|n' E|n' m E|n' l t' E| | | | | | | ]; subst; rewrite E; auto.
  - destruct (lookup sc n) as [[s| | | | | | | |l|m]|] eqn:E; try contradiction; intros H.
    + subst. apply means_scalar, E. + subst. apply means_str, E.
    + eapply means_alias; eassumption. + subst. apply means_class, E.
Qed.

Lemma alias_nf : forall sc n l, simple_aliases sc -> lookup sc n = Some (MTypes l) -> Forall nf l.
Proof.
  intros sc n l H E. apply lookup_types in E. apply Forall_forall. intros [t m] I.
  destruct (H n l E t m I). split; assumption.
Qed.

Ltac nothing := intros E; discriminate E.

Lemma visit_sound : forall sc, simple_aliases sc -> forall s, sound sc s.
Proof.
  intros sc Al. induction s as [| |b|b args o IH] using syn_nested; intros Sm c l c' Hc.
  - nothing. - nothing.
  - destruct b as [n|q]; [|contradiction]. cbn [visit]. intros E.
    assert (forall a, nf a -> (forall t, means sc (SType (BName n) None) t <-> t = fst a) -> Some ([a], c) = Some (l, c') ->
      Forall tidy c' /\ Forall nf l /\ (forall t, In (t, None) l <-> means sc (SType (BName n) None) t) /\
      (single sc (SType (BName n) None) -> List.length l = 1%nat)) as One.
    { intros [t m] [N Z] M Q. cbn in N, Z. subst m. injection Q as <- <-. split; [exact Hc|].
      split; [constructor; [split; [exact N|reflexivity]|constructor]|]. split; [|intros _; reflexivity].
      intros u. rewrite M. cbn. split; [intros [U|[]]; congruence|intros ->; left; reflexivity]. }
    destruct (lookup sc n) as [[s| | | | | | | |ts|m]|] eqn:L; try discriminate.
    + apply (One (Num s, None)); [split; [exact I|reflexivity]| |exact E]. intros t. rewrite means_name, L. reflexivity.
    + apply (One (Str, None)); [split; [exact I|reflexivity]| |exact E]. intros t. rewrite means_name, L. reflexivity.
    + injection E as <- <-. split; [exact Hc|]. split; [apply (alias_nf sc n); assumption|]. split.
      * intros t. rewrite means_name, L. reflexivity.
      * cbn. rewrite L. tauto.
    + apply (One (Class m, None)); [split; [exact I|reflexivity]| |exact E]. intros t. rewrite means_name, L. reflexivity.
  - destruct b as [n|q]; [|contradiction]. cbn [simple] in Sm. destruct Sm as (So & Sd & Sl).
    apply simple_list in Sl. cbn [single]. rewrite (single_list sc args).
    (* the parts of the model *)
    cbn [visit].
    change (fix go (l : list syn) (c : list ty) : option (list (list ty) * list ty) :=
         match l with
         | [] => Some ([], c)
         | a :: r =>
           match visit sc a c with
           | None => None
           | Some (la, c1) =>
             match plain la with
             | None => None
             | Some ta =>
               match go r c1 with
               | None => None
               | Some (lr, c2) => Some (ta :: lr, c2)
               end
             end
           end
         end) with (types sc).
    destruct (lookup sc n) as [[s| | | | | | | |ts|m]|] eqn:L; try nothing; try contradiction.
    + (* a scalar *)
      destruct args as [|a args]; [nothing|].
      destruct (forallb is_slice (a :: args)) eqn:F.
      2:{ destruct (existsb is_slice (a :: args)); [nothing|].
          destruct args as [|[| |] [|? ?]]; nothing. }
      unfold array_of. cbn [process_dtype].
      rewrite (slices_repeat _ F). set (k := List.length args). cbn [List.length]. rewrite repeat_length.
      change (SSlice :: repeat SSlice (List.length args)) with (repeat SSlice (S k)).
      change (List.length args) with k.
      destruct (get_new_tidy c (array s (S k) (if (S k <? 2)%nat then None else Some OC))) as (c1 & G & T1);
        [exact I|exact Hc|].
      unfold array in G. rewrite G. intros E.
      destruct (with_order_sound sc n k o [s] c1 l c') as (A & B & C & D); try (rewrite L; congruence); auto.
      * intros u. rewrite means_name, L. cbn. split; [intros [->|[]]; reflexivity|intros Q; left; congruence].
      * destruct o as [w|]; [|exact I]. destruct So as (W & _). split; [exact W|reflexivity].
    + (* str *)
      destruct args as [|a args]; [nothing|]. destruct (forallb is_slice (a :: args)); [nothing|].
      destruct (existsb is_slice (a :: args)); [nothing|]. destruct args as [|[| |] [|? ?]]; nothing.
    + (* tuple *)
      destruct args as [|a args].
      * destruct (get_new_tidy c (ITup [])) as (c1 & -> & T1); [exact I|exact Hc|].
        destruct o as [w|]; [nothing|]. rewrite with_order_none. intros E. injection E as <- <-.
        split; [exact T1|]. split; [constructor; [split; [exact I|reflexivity]|constructor]|].
        split; [|intros _; reflexivity]. intros t. cbn [In]. split.
        { intros [Q|[]]. injection Q as <-. apply means_tuple; [exact L|constructor]. }
        intros H. inversion H as [ | | | | | | n' l' ts' E F | | | | ]; subst; try discriminate.
        inversion F; subst. left. reflexivity.
      * destruct (forallb is_slice (a :: args)) eqn:F; [nothing|].
        destruct (existsb is_slice (a :: args)) eqn:X; [nothing|].
        assert (o = None) as ->. { destruct o; [|reflexivity]. destruct So as (_ & Q & _). congruence. }
        (* the two kinds of tuples *)
        assert (args = [SEllipsis] \/ args <> [SEllipsis]) as [->|Ne].
        { destruct args as [|[| |] [|? ?]]; try (right; congruence). left; reflexivity. }
        { apply Forall_cons_iff in IH. destruct IH as [Ia _]. apply Forall_cons_iff in Sl. destruct Sl as [Sa _].
          match goal with |- context [match ?X with Some _ => _ | None => None end = Some (l, c')] => set (R := X) end.
          intros E. destruct R as [[l1 c1]|] eqn:ER; [|discriminate]. rewrite with_order_none in E.
          injection E as -> ->. subst R.
          destruct (one_sound sc HTup a c l c') as (A & B & C & D); auto.
          split; [exact A|]. split; [exact B|]. split.
          - intros u. rewrite C. split.
            + intros (t & -> & M). apply means_homogeneous; assumption.
            + intros H. inversion H as [ | | | | | | n' l' ts' Q F2 |n' a' t' Q M | | | ]; subst; try congruence.
              * inversion F2 as [|? ? ? ? _ F3]; subst. inversion F3 as [|? ? ? ? Z _]; subst.
                destruct (means_ellipsis _ _ Z).
              * exists t'. split; [reflexivity|exact M].
          - intros (_ & Si). apply D. apply Forall_cons_iff in Si. tauto. }
        assert (forall (A : Type) (x y : A),
          match args with [SEllipsis] => x | _ => y end = y) as Tu.
        { intros A x y. destruct args as [|[| |] [|? ?]]; try reflexivity. congruence. }
        match goal with |- context [match ?X with Some _ => _ | None => None end = Some (l, c')] => set (R := X) end.
        assert (R = match types sc (a :: args) c with
              | Some (ls, c1) => let '(l, c2) := make_tuples (product ls) c1 in Some (union l, c2)
              | None => None
              end) as ->.
        { subst R. destruct args as [|[| |] [|? ?]]; try reflexivity. congruence. }
        destruct (types sc (a :: args) c) as [[ls c1]|] eqn:T; [|nothing].
        destruct (types_sound sc (a :: args) IH Sl c ls c1 Hc T) as (T1 & N1 & M1 & L1).
        assert (forall ts, In ts (product ls) -> Forall no_final ts) as N2.
        { intros ts I. apply product_in in I. clear -I N1. induction I as [|t ts l ls I1 I2 IH]; constructor.
          - apply Forall_cons_iff in N1. destruct N1 as [N1 _]. rewrite Forall_forall in N1. auto.
          - apply IH. apply Forall_cons_iff in N1. tauto. }
        destruct (make_tuples_map (product ls) c1 N2 T1) as (c2 & -> & T2). rewrite with_order_none.
        intros E. injection E as <- <-.
        assert (Forall nf (map (fun ts => (ITup ts, @None memory)) (product ls))) as N3.
        { apply Forall_map, Forall_forall. intros ts I. split; [apply no_final_list, N2, I|reflexivity]. }
        split; [exact T2|]. split; [apply union_nf, N3|]. split.
        { intros t. rewrite union_in by exact N3. rewrite in_map_iff.
          assert (forall ts, In ts (product ls) <-> Forall2 (means sc) (a :: args) ts) as P.
          { intros ts. rewrite product_in. clear -M1. revert M1. generalize (a :: args). intros as0 M1. revert ts.
            induction M1 as [|l0 b ls bs E M IHm]; intros ts.
            - split; intros H; inversion H; constructor.
            - split; intros H; inversion H; subst; (constructor; [apply E; assumption|apply IHm; assumption]). }
          split.
          - intros (ts & Q & I). injection Q as <-. apply means_tuple; [exact L|]. apply P, I.
          - intros H. inversion H as [ | | | | | | n' l' ts' Q F2 |n' a' t' Q M | | | ]; subst; try congruence.
            + discriminate.
            + cbn in F. rewrite repeat_slices in F. discriminate.
            + exists ts'. split; [reflexivity|]. apply P. exact F2. }
        intros (_ & Si). apply union_length1. rewrite map_length. apply product_one, L1, Si.
    + (* list *)
      destruct args as [|a args]; [nothing|].
      destruct (forallb is_slice (a :: args)) eqn:F; [nothing|].
      destruct (existsb is_slice (a :: args)) eqn:X; [nothing|].
      assert (o = None) as ->. { destruct o; [|reflexivity]. destruct So as (_ & Q & _). congruence. }
      destruct args as [|a2 args].
      2:{ destruct a2 as [| |]; destruct args; try nothing.
          destruct (Sd SEllipsis); [right; left; reflexivity|reflexivity]. }
      apply Forall_cons_iff in IH. destruct IH as [Ia _]. apply Forall_cons_iff in Sl. destruct Sl as [Sa _].
      match goal with |- context [match ?X with Some _ => _ | None => None end = Some (l, c')] => set (R := X) end.
      intros E. destruct R as [[l1 c1]|] eqn:ER; [|discriminate]. rewrite with_order_none in E.
      injection E as -> ->. subst R.
      destruct (one_sound sc Lst a c l c') as (A & B & C & D); auto.
      split; [exact A|]. split; [exact B|]. split.
      * intros u. rewrite C. split.
        { intros (t & -> & M). apply means_list; assumption. }
        intros H. inversion H; subst; try congruence; try discriminate. eexists. split; [reflexivity|eassumption].
      * intros (_ & Si). apply D. apply Forall_cons_iff in Si. tauto.
    + (* set *)
      destruct args as [|a args]; [nothing|].
      destruct (forallb is_slice (a :: args)) eqn:F; [nothing|].
      destruct (existsb is_slice (a :: args)) eqn:X; [nothing|].
      assert (o = None) as ->. { destruct o; [|reflexivity]. destruct So as (_ & Q & _). congruence. }
      destruct args as [|a2 args].
      2:{ destruct a2 as [| |]; destruct args; try nothing.
          destruct (Sd SEllipsis); [right; left; reflexivity|reflexivity]. }
      apply Forall_cons_iff in IH. destruct IH as [Ia _]. apply Forall_cons_iff in Sl. destruct Sl as [Sa _].
      match goal with |- context [match ?X with Some _ => _ | None => None end = Some (l, c')] => set (R := X) end.
      intros E. destruct R as [[l1 c1]|] eqn:ER; [|discriminate]. rewrite with_order_none in E.
      injection E as -> ->. subst R.
      destruct (one_sound sc SetT a c l c') as (A & B & C & D); auto.
      split; [exact A|]. split; [exact B|]. split.
      * intros u. rewrite C. split.
        { intros (t & -> & M). apply means_set; assumption. }
        intros H. inversion H; subst; try congruence; try discriminate. eexists. split; [reflexivity|eassumption].
      * intros (_ & Si). apply D. apply Forall_cons_iff in Si. tauto.
    + (* dict *)
      destruct args as [|a args]; [nothing|].
      destruct (forallb is_slice (a :: args)) eqn:F; [nothing|].
      destruct (existsb is_slice (a :: args)) eqn:X; [nothing|].
      assert (o = None) as ->. { destruct o; [|reflexivity]. destruct So as (_ & Q & _). congruence. }
      destruct args as [|b [|? ?]]; [nothing| |destruct b; nothing].
      assert (b = SEllipsis \/ b <> SEllipsis) as [->|Ne] by (destruct b; [right|left|right]; congruence).
      { nothing. }
      match goal with |- context [match ?X with Some _ => _ | None => None end = Some (l, c')] => set (R := X) end.
      assert (R = match types sc [a; b] c with
              | Some ([ks; vs], c1) =>
                let '(l, c2) := make_dicts (combine ks vs) c1 in Some (union l, c2)
              | _ => None
              end) as ->.
      { subst R. destruct b; try reflexivity. congruence. }
      destruct (types sc [a; b] c) as [[ls c1]|] eqn:T; [|nothing].
      destruct (types_sound sc [a; b] IH Sl c ls c1 Hc T) as (T1 & N1 & M1 & L1).
      assert (Forall (single sc) [a; b]) as Si by (apply Forall_forall; exact Sd).
      specialize (L1 Si). inversion M1 as [|ks ? ? ? Mk M2]; subst. inversion M2 as [|vs ? ? ? Mv M3]; subst.
      inversion M3; subst. apply Forall_cons_iff in L1. destruct L1 as [Lk L1]. apply Forall_cons_iff in L1.
      destruct L1 as [Lv _]. destruct ks as [|k [|? ?]]; try discriminate. destruct vs as [|v [|? ?]]; try discriminate.
      apply Forall_cons_iff in N1. destruct N1 as [Nk N1]. apply Forall_cons_iff in N1. destruct N1 as [Nv _].
      apply Forall_cons_iff in Nk. apply Forall_cons_iff in Nv.
      cbn [combine make_dicts].
      destruct (get_new_tidy c1 (Dict k v)) as (c2 & -> & T2); [cbn; tauto|exact T1|].
      rewrite union_one, with_order_none. intros E. injection E as <- <-.
      split; [exact T2|]. split; [constructor; [split; [cbn; tauto|reflexivity]|constructor]|].
      split; [|intros _; reflexivity]. intros t. cbn [In]. split.
      * intros [Q|[]]. injection Q as <-. apply means_dict; [exact L|apply Mk; left; reflexivity|apply Mv; left; reflexivity].
      * intros H. inversion H; subst; try congruence; try discriminate.
        match goal with A : means sc a ?x |- _ => apply Mk in A; destruct A as [<-|[]] end.
        match goal with A : means sc b ?x |- _ => apply Mv in A; destruct A as [<-|[]] end. left. reflexivity.
    + (* an alias *)
      destruct args as [|a args]; [nothing|]. cbn [orb].
      destruct (forallb is_slice (a :: args)) eqn:F; [|nothing]. cbn [negb].
      assert (Forall nf ts) as N by (apply (alias_nf sc n); assumption).
      rewrite (slices_repeat _ F). set (k := List.length args). cbn [List.length]. rewrite repeat_length.
      change (SSlice :: repeat SSlice (List.length args)) with (repeat SSlice (S k)).
      change (List.length args) with k.
      destruct (arrays_of ts (S k) c) as [[m c1]|] eqn:A; [|nothing].
      destruct (arrays_of_map ts (S k) c N Hc m c1 A) as (T1 & ss & -> & ->). rewrite map_length in *.
      intros E.
      destruct (with_order_sound sc n k o ss c1 l c') as (A1 & B & C & D); try (rewrite L; congruence); auto.
      * intros u. rewrite means_name, L, in_map_iff. split; [eauto|].
        intros (x & Q & I). congruence.
      * destruct o as [w|]; [|exact I]. tauto.
      * split; [exact A1|]. split; [exact B|]. split; [exact C|]. intros (Z & _). apply D, Z.
    + (* a class *)
      destruct args as [|a args]; [nothing|]. destruct (forallb is_slice (a :: args)); [nothing|].
      destruct (existsb is_slice (a :: args)); [nothing|]. destruct args as [|[| |] [|? ?]]; nothing.
Qed.

Definition accepts (sc : list (string * meaning)) (s : syn) : Prop :=
  simple sc s -> single sc s -> forall c t, Forall tidy c -> means sc s t -> visit sc s c <> None.

Lemma types_accepts : forall sc, simple_aliases sc -> forall l, Forall (accepts sc) l ->
  Forall (simple sc) l -> Forall (single sc) l -> forall ts c, Forall tidy c -> Forall2 (means sc) l ts ->
  types sc l c <> None.
Proof.
  intros sc Al. induction l as [|a l IH]; intros Ha Hp Hs ts c Hc M; [discriminate|].
  apply Forall_cons_iff in Ha. destruct Ha as [A1 A2]. apply Forall_cons_iff in Hp. destruct Hp as [P1 P2].
  apply Forall_cons_iff in Hs. destruct Hs as [S1 S2]. inversion M as [|? t ? ts' M1 M2]; subst.
  specialize (A1 P1 S1 c t Hc M1). unfold types. destruct (visit sc a c) as [[la c1]|] eqn:V; [|congruence].
  destruct (visit_sound sc Al a P1 c la c1 Hc V) as (T1 & N1 & _ & _). rewrite (plain_some la N1).
  specialize (IH A2 P2 S2 ts' c1 T1 M2). unfold types in IH.
  match goal with |- context [match ?X with Some _ => _ | None => None end] => destruct X as [[lr c2]|] end;
    congruence.
Qed.

Lemma one_accepts : forall sc f a c, simple_aliases sc -> (forall t, no_final t -> tidy (f t)) ->
  simple sc a -> Forall tidy c -> visit sc a c <> None ->
  match visit sc a c with
  | None => None
  | Some (la, c1) =>
    match plain la with
    | None => None
    | Some ta => let '(l, c2) := make f ta c1 in Some (union l, c2)
    end
  end <> None.
Proof.
  intros sc f a c Al Hf P Hc V. destruct (visit sc a c) as [[la c1]|] eqn:E; [|congruence].
  destruct (visit_sound sc Al a P c la c1 Hc E) as (T1 & N1 & _ & _). rewrite (plain_some la N1).
  destruct (make_map f (map fst la) c1) as (c2 & -> & _); [|exact T1|discriminate].
  intros t I. apply in_map_iff in I. destruct I as (x & <- & I). rewrite Forall_forall in N1. apply Hf, N1, I.
Qed.

Lemma with_order_array : forall o s k o1 c, with_order o [(Array s k o1, None)] c <> None.
Proof.
  intros [w|] s k [o1|] c; cbn; try discriminate.
  - destruct (order_name o1 =? w); [discriminate|]. destruct (get_new c _). discriminate.
  - destruct (get_new c _). discriminate.
Qed.

Lemma visit_accepts : forall sc, simple_aliases sc -> forall s, accepts sc s.
Proof.
  intros sc Al. induction s as [| |b|b args o IH] using syn_nested; intros Sm Si c t Hc M; try solve [inversion M].
  - destruct b as [n|q]; [|contradiction]. apply means_name in M. cbn [visit].
    destruct (lookup sc n) as [[s| | | | | | | |ts|m]|]; try contradiction; discriminate.
  - destruct b as [n|q]; [|contradiction]. cbn [simple] in Sm. destruct Sm as (So & Sd & Sl).
    apply simple_list in Sl. cbn [single] in Si. rewrite (single_list sc args) in Si. destruct Si as (Sn & Si).
    cbn [visit].
    change (fix go (l : list syn) (c : list ty) : option (list (list ty) * list ty) :=
         match l with
         | [] => Some ([], c)
         | a :: r =>
           match visit sc a c with
           | None => None
           | Some (la, c1) =>
             match plain la with
             | None => None
             | Some ta =>
               match go r c1 with
               | None => None
               | Some (lr, c2) => Some (ta :: lr, c2)
               end
             end
           end
         end) with (types sc).
    assert (forall (k : nat) s, means sc (SType (BName n) None) (Num s) ->
      lookup sc n = Some (MScalar s) \/ lookup sc n = Some (MTypes [(Num s, None)])) as Name.
    { intros k s H. apply means_name in H. destruct (lookup sc n) as [[s'| | | | | | | |ts|m]|]; try contradiction;
        try discriminate.
      - left. congruence.
      - right. destruct ts as [|a [|? ?]]; try discriminate. destruct H as [->|[]]. reflexivity. }
    inversion M as [ | | | |n' s o' H|n' s k o' o2 H Ho|n' l ts L F|n' a u L H|n' a u L H|n' a u L H|n' a b u v L H1 H2];
      subst; clear M.
    + destruct (Name 1%nat s H) as [L|L]; rewrite L; cbn -[with_order get_new].
      * destruct (get_new_tidy c (array s 1 None)) as (c2 & G' & _); [exact I|exact Hc|].
        unfold array in G'. rewrite G'. apply with_order_array.
      * destruct (get_new_tidy c (array s 1 None)) as (c2 & G' & _); [exact I|exact Hc|].
        unfold array in G'. rewrite G'. apply with_order_array.
    + destruct (Name 1%nat s H) as [L|L]; rewrite L; cbn [repeat forallb is_slice andb orb negb List.length];
        rewrite repeat_slices, repeat_length; cbn [negb arrays_of]; unfold array_of; cbn [process_dtype].
      * destruct (get_new_tidy c (array s (S (S k)) (if (S (S k) <? 2)%nat then None else Some OC))) as (c2 & G' & _);
          [exact I|exact Hc|].
        unfold array in G'. rewrite G'. apply with_order_array.
      * destruct (get_new_tidy c (array s (S (S k)) (if (S (S k) <? 2)%nat then None else Some OC))) as (c2 & G' & _);
          [exact I|exact Hc|].
        unfold array in G'. rewrite G'. apply with_order_array.
    + rewrite L. destruct args as [|a args].
      { destruct (get_new c (ITup [])). discriminate. }
      assert (existsb is_slice (a :: args) = false) as X by (eapply no_slices; eassumption).
      rewrite (exists_forall (a :: args)), X by (discriminate || exact X).
      match goal with |- context [match ?X with Some _ => _ | None => None end] => set (R := X) end.
      assert (R = match types sc (a :: args) c with
              | Some (ls, c1) => let '(l, c2) := make_tuples (product ls) c1 in Some (union l, c2)
              | None => None
              end) as ->.
      { subst R. destruct args as [|[| |] [|? ?]]; try reflexivity.
        inversion F as [|? ? ? ? _ F2]; subst. inversion F2 as [|? ? ? ? Z _]; subst. destruct (means_ellipsis _ _ Z). }
      assert (types sc (a :: args) c <> None) as T by (eapply types_accepts; eassumption).
      destruct (types sc (a :: args) c) as [[ls c1]|]; [|congruence].
      destruct (make_tuples (product ls) c1). discriminate.
    + rewrite L. apply Forall_cons_iff in IH. destruct IH as [Ia _]. apply Forall_cons_iff in Sl. destruct Sl as [Sa _].
      apply Forall_cons_iff in Si. destruct Si as [Si _].
      assert (is_slice a = false) as X by (destruct a; [destruct (means_slice _ _ H)|reflexivity|reflexivity]).
      cbn [forallb existsb is_slice]. rewrite X. cbn [andb orb].
      pose proof (one_accepts sc HTup a c Al (fun t N => N) Sa Hc (Ia Sa Si c u Hc H)) as One.
      match goal with |- context [match ?X with Some _ => _ | None => None end] => destruct X as [[l1 c1]|] end;
        [discriminate|congruence].
    + rewrite L. apply Forall_cons_iff in IH. destruct IH as [Ia _]. apply Forall_cons_iff in Sl. destruct Sl as [Sa _].
      apply Forall_cons_iff in Si. destruct Si as [Si _].
      assert (is_slice a = false) as X by (destruct a; [destruct (means_slice _ _ H)|reflexivity|reflexivity]).
      cbn [forallb existsb is_slice]. rewrite X. cbn [andb orb].
      pose proof (one_accepts sc Lst a c Al (fun t N => N) Sa Hc (Ia Sa Si c u Hc H)) as One.
      match goal with |- context [match ?X with Some _ => _ | None => None end] => destruct X as [[l1 c1]|] end;
        [discriminate|congruence].
    + rewrite L. apply Forall_cons_iff in IH. destruct IH as [Ia _]. apply Forall_cons_iff in Sl. destruct Sl as [Sa _].
      apply Forall_cons_iff in Si. destruct Si as [Si _].
      assert (is_slice a = false) as X by (destruct a; [destruct (means_slice _ _ H)|reflexivity|reflexivity]).
      cbn [forallb existsb is_slice]. rewrite X. cbn [andb orb].
      pose proof (one_accepts sc SetT a c Al (fun t N => N) Sa Hc (Ia Sa Si c u Hc H)) as One.
      match goal with |- context [match ?X with Some _ => _ | None => None end] => destruct X as [[l1 c1]|] end;
        [discriminate|congruence].
    + rewrite L.
      assert (Forall2 (means sc) [a; b] [u; v]) as F by (constructor; [exact H1|constructor; [exact H2|constructor]]).
      assert (existsb is_slice [a; b] = false) as X by (eapply no_slices; eassumption).
      rewrite (exists_forall [a; b]), X by (discriminate || exact X).
      match goal with |- context [match ?X with Some _ => _ | None => None end] => set (R := X) end.
      assert (R = match types sc [a; b] c with
              | Some ([ks; vs], c1) =>
                let '(l, c2) := make_dicts (combine ks vs) c1 in Some (union l, c2)
              | _ => None
              end) as ->.
      { subst R. destruct b; try reflexivity. destruct (means_ellipsis _ _ H2). }
      assert (types sc [a; b] c <> None) as T by (eapply types_accepts; eassumption).
      destruct (types sc [a; b] c) as [[ls c1]|] eqn:E; [|congruence].
      assert (Forall (sound sc) [a; b]) as Sd' by (apply Forall_forall; intros; apply visit_sound, Al).
      destruct (types_sound sc [a; b] Sd' Sl c ls c1 Hc E) as (_ & _ & M & _).
      inversion M as [|ks ? ? ? _ M2]; subst. inversion M2 as [|vs ? ? ? _ M3]; subst. inversion M3; subst.
      destruct (make_dicts (combine ks vs) c1). discriminate.
Qed.

Lemma visit_single : forall sc s t c, simple_aliases sc -> simple sc s -> single sc s -> Forall tidy c ->
  means sc s t -> exists c', visit sc s c = Some ([(t, None)], c') /\ Forall tidy c'.
Proof.
  intros sc s t c Al Sm Si Hc M. pose proof (visit_accepts sc Al s Sm Si c t Hc M) as V.
  destruct (visit sc s c) as [[l c']|] eqn:E; [|congruence].
  destruct (visit_sound sc Al s Sm c l c' Hc E) as (T & N & Me & L). apply Me in M. specialize (L Si).
  destruct l as [|a [|? ?]]; try discriminate. destruct M as [->|[]]. exists c'. split; [reflexivity|exact T].
Qed.

(** ** Round trip *)

Lemma standard_builtin : forall sc n m, standard sc -> assoc builtins n = Some m -> lookup sc n = Some m.
Proof.
  intros sc n m (H & _) B. unfold lookup. destruct (assoc sc n) as [x|] eqn:E; [|rewrite B; reflexivity].
  destruct (H n x E). congruence.
Qed.

Lemma standard_scalar : forall sc s, standard sc -> has_name s = true ->
  lookup sc (scalar_name s) = Some (MScalar s).
Proof.
  intros sc s (H & _) N. unfold lookup. destruct (assoc sc (scalar_name s)) as [x|] eqn:E.
  - destruct (H _ x E). destruct s; discriminate.
  - destruct s; try discriminate; reflexivity.
Qed.

Lemma printed_means : forall sc, standard sc -> forall t, printable sc t -> no_final t ->
  means sc (syn_of t) t /\ simple sc (syn_of t) /\ single sc (syn_of t).
Proof.
  intros sc St. induction t as [s| |n|e r o IH|e IH|l IH|e IH|e IH|k v IHk IHv|e IH] using ty_nested;
    intros Pr Nf; cbn [syn_of].
  - cbn in Pr. pose proof (standard_scalar sc s St Pr) as L. split; [apply means_scalar, L|].
    split; [exact I|]. cbn. rewrite L. split; exact I.
  - pose proof (standard_builtin sc "str" MStr St eq_refl) as L. split; [apply means_str, L|].
    split; [exact I|]. cbn [single]. rewrite L. split; exact I.
  - destruct Pr as [_ A]. assert (lookup sc n = Some (MClass n)) as L by (unfold lookup; rewrite A; reflexivity).
    split; [apply means_class, L|]. split; [exact I|]. cbn. rewrite L. split; exact I.
  - destruct Pr as ((s & -> & Hn & Hs) & Ho). pose proof (standard_scalar sc s St Hn) as L.
    assert (numpy_scalar s = s) as Ns by (destruct s; try reflexivity; cbn in Hs; tauto).
    destruct r as [|r]; [contradiction|]. cbn [print]. split; [|split].
    + pose proof (means_scalar sc (scalar_name s) s L) as M. rewrite <- Ns at 2. destruct r as [|r].
      * subst o. apply means_vector, M.
      * destruct o as [o|]; [|congruence]. apply means_array; [exact M|reflexivity].
    + cbn [simple]. rewrite L. split; [|split; [exact I|]].
      * destruct o as [o|]; [|exact I]. cbn. split; [destruct o; auto|]. split; [apply (repeat_slices (S r))|exact I].
      * apply simple_list, Forall_forall. intros x Hx. apply repeat_spec in Hx. subst. exact I.
    + cbn [single]. rewrite L. split; [exact I|]. apply single_list, Forall_forall. intros x Hx.
      apply repeat_spec in Hx. subst. exact I.
  - destruct (IH Pr Nf) as (M & Sm & Si). pose proof (standard_builtin sc "tuple" MTuple St eq_refl) as L.
    split; [apply means_homogeneous; assumption|]. split.
    + cbn [simple]. rewrite L. cbn. tauto.
    + cbn [single]. rewrite L. cbn. tauto.
  - destruct Pr as [Ne Pr]. apply printable_list in Pr. apply no_final_list in Nf.
    pose proof (standard_builtin sc "tuple" MTuple St eq_refl) as L.
    assert (Forall2 (means sc) (map syn_of l) l /\ Forall (simple sc) (map syn_of l) /\ Forall (single sc) (map syn_of l))
      as (M & Sm & Si).
    { clear Ne. induction l as [|x l IHl]; [repeat split; constructor|].
      apply Forall_cons_iff in IH. destruct IH as [I1 I2]. apply Forall_cons_iff in Pr. destruct Pr as [P1 P2].
      apply Forall_cons_iff in Nf. destruct Nf as [N1 N2]. destruct (I1 P1 N1) as (A & B & C).
      destruct (IHl I2 P2 N2) as (A' & B' & C'). cbn. repeat split; constructor; assumption. }
    split; [apply means_tuple; assumption|]. split.
    + cbn [simple]. rewrite L. split; [exact I|]. split; [exact I|]. apply simple_list, Sm.
    + cbn [single]. rewrite L. split; [exact I|]. apply single_list, Si.
  - destruct (IH Pr Nf) as (M & Sm & Si). pose proof (standard_builtin sc "list" MList St eq_refl) as L.
    split; [apply means_list; assumption|]. split.
    + cbn [simple]. rewrite L. split; [exact I|]. split; [|cbn; tauto]. intros x [<-|[]] Q. rewrite Q in M. inversion M.
    + cbn [single]. rewrite L. cbn. tauto.
  - destruct (IH Pr Nf) as (M & Sm & Si). pose proof (standard_builtin sc "set" MSet St eq_refl) as L.
    split; [apply means_set; assumption|]. split.
    + cbn [simple]. rewrite L. split; [exact I|]. split; [|cbn; tauto]. intros x [<-|[]] Q. rewrite Q in M. inversion M.
    + cbn [single]. rewrite L. cbn. tauto.
  - destruct Pr as [P1 P2]. destruct Nf as [N1 N2]. destruct (IHk P1 N1) as (Mk & Smk & Sik).
    destruct (IHv P2 N2) as (Mv & Smv & Siv). pose proof (standard_builtin sc "dict" MDict St eq_refl) as L.
    split; [apply means_dict; assumption|]. split.
    + cbn [simple]. rewrite L. split; [exact I|]. split; [|cbn; tauto]. intros x [<-|[<-|[]]]; assumption.
    + cbn [single]. rewrite L. cbn. tauto.
  - contradiction.
Qed.

Lemma p_type_space : forall f s, p_type f (" " ++ s) = p_type f s.
Proof. intros [|f] s; reflexivity. Qed.

Lemma bar_types : forall sc l t f, Forall (printable sc) (t :: l) ->
  (String.length (print t) + String.length (tail (map print l) " | ") + 1 < f)%nat ->
  p_union f (print t ++ tail (map print l) " | ") = Some (map syn_of (t :: l)).
Proof.
  intros sc. induction l as [|u l IH]; intros t f Pr L; apply Forall_cons_iff in Pr; destruct Pr as [P1 P2];
    (destruct f as [|f]; [lia|]); cbn [p_union].
  - cbn [map tail]. rewrite (p_printed sc t P1 f "") by (lia || (repeat split)). reflexivity.
  - rewrite (p_printed sc t P1 f); [|lia|repeat split].
    change (tok "|" (tail (map print (u :: l)) " | ")) with (Some (" " ++ print u ++ tail (map print l) " | ")).
    cbv iota beta. cbn [map tail] in L. rewrite !length_app_s in L. cbn [String.length] in L.
    assert (p_union f (" " ++ print u ++ tail (map print l) " | ") = p_union f (print u ++ tail (map print l) " | "))
      as -> by (destruct f; [reflexivity|cbn [p_union]; rewrite p_type_space; reflexivity]).
    rewrite (IH u f P2) by lia. reflexivity.
Qed.

Lemma parse_union : forall sc l, l <> [] -> Forall (printable sc) l -> parse (print_union l) = Some (map syn_of l).
Proof.
  intros sc [|t l] N Pr; [congruence|]. unfold parse, print_union. cbn [map]. rewrite join_tail.
  apply (bar_types sc); [exact Pr|]. rewrite length_app_s. lia.
Qed.

Lemma parse_one : forall sc t, printable sc t -> parse (print t) = Some [syn_of t].
Proof. intros sc t H. apply (parse_union sc [t]); [congruence|constructor; [exact H|constructor]]. Qed.

Lemma visit_printed : forall sc, standard sc -> simple_aliases sc -> forall t c, printable sc t -> tidy t ->
  Forall tidy c -> exists c', visit sc (syn_of t) c = Some ([(t, None)], c') /\ Forall tidy c'.
Proof.
  intros sc St Al t c Pr Ti Hc.
  assert (forall u, printable sc u -> no_final u -> forall c, Forall tidy c ->
    exists c', visit sc (syn_of u) c = Some ([(u, None)], c') /\ Forall tidy c') as Base.
  { intros u Pu Nu c0 H0. destruct (printed_means sc St u Pu Nu) as (M & Sm & Si).
    apply (visit_single sc (syn_of u) u c0); assumption. }
  destruct t as [s| |n|e r o|e|l|e|e|k v|e]; try (apply Base; assumption).
  destruct Pr as [Pr Fi]. cbn [tidy] in Ti. destruct (Base e Pr Ti c Hc) as (c1 & V & T1).
  assert (lookup sc "Final" = Some MFinal) as L.
  { destruct St as (_ & A & _). unfold lookup. rewrite A. reflexivity. }
  cbn [syn_of visit]. rewrite L. cbn [forallb existsb is_slice].
  assert (is_slice (syn_of e) = false) as -> by (destruct e; reflexivity). cbn [andb orb].
  rewrite V. cbn [plain make]. unfold mk_final. rewrite Fi.
  destruct (get_new_tidy c1 (Final e)) as (c2 & -> & T2); [exact Ti|exact T1|].
  exists c2. split; [reflexivity|exact T2].
Qed.

Lemma roundtrip : forall sc t c, standard sc -> simple_aliases sc -> printable sc t -> tidy t ->
  Forall tidy c -> exists c', read sc c (print t) = Some ([(t, None)], c') /\ Forall tidy c'.
Proof.
  intros sc t c St Al Pr Ti Hc. unfold read. rewrite (parse_one sc t Pr). apply visit_printed; assumption.
Qed.

Lemma roundtrip_memory : forall sc t m c, standard sc -> simple_aliases sc -> printable sc t -> tidy t ->
  Forall tidy c -> exists c', read sc c (print_ann (t, m)) = Some ([(t, m)], c') /\ Forall tidy c'.
Proof.
  intros sc t [m|] c St Al Pr Ti Hc; [|apply roundtrip; assumption].
  set (w := match m with MAlias => "alias" | MStack => "stack" end).
  assert (print_ann (t, Some m) = "Annotated" ++ "[" ++ (print t ++ ", """ ++ w ++ """") ++ "]") as E.
  { destruct m; cbn [print_ann fst snd]; rewrite !app_assoc_s; reflexivity. }
  assert (parse (print_ann (t, Some m)) =
          Some [SType (BName "Annotated") (Some ([syn_of t; SType (BQuote w) None], None))]) as P.
  { unfold parse. rewrite E.
    match goal with |- p_union (?n + 4) ?s = _ => set (k := n); set (str := s) end.
    replace (k + 4)%nat with (S (S (S (k + 1)))) by lia. cbn [p_union].
    rewrite <- (app_nil_s str). subst str.
    rewrite (p_container (S (k + 1)) "Annotated" (print t ++ ", """ ++ w ++ """") [syn_of t; SType (BQuote w) None] "").
    - reflexivity.
    - reflexivity.
    - repeat split.
    - exists (syn_of t), [SType (BQuote w) None], (", """ ++ w ++ """" ++ "]" ++ "").
      split; [reflexivity|]. split.
      + rewrite app_assoc_s, (index_type sc t _ _ Pr).
        replace ((", """ ++ w ++ """") ++ "]" ++ "") with (", """ ++ w ++ """" ++ "]" ++ "") by (destruct m; reflexivity).
        apply (p_printed sc t Pr).
        * subst k. rewrite !length_app_s. lia.
        * destruct m; repeat split.
      + assert (exists k', (k + 1 = S (S k'))%nat) as (k' & ->).
        { exists (k - 1)%nat. subst k. rewrite !length_app_s. cbn [String.length]. lia. }
        destruct m; reflexivity. }
  unfold read. rewrite P. cbn [visit].
  assert (lookup sc "Annotated" = Some MAnnotated) as ->.
  { destruct St as (_ & _ & A). unfold lookup. rewrite A. reflexivity. }
  destruct (visit_printed sc St Al t c Pr Ti Hc) as (c' & -> & T).
  exists c'. split; [|exact T]. destruct m; reflexivity.
Qed.

Lemma union_nodup : forall l, Forall nf l -> NoDup l -> union l = l.
Proof.
  assert (forall l seen, Forall nf l -> Forall nf seen -> NoDup l -> (forall x, In x l -> ~ In x seen) ->
            dedup seen l = l) as H.
  { induction l as [|a l IH]; intros seen Hl Hs Nd D; [reflexivity|].
    apply Forall_cons_iff in Hl. destruct Hl as [Ha Hl]. inversion Nd as [|? ? Na Nl]; subst. cbn [dedup].
    destruct (existsb (ann_eqb a) seen) eqn:X.
    - apply existsb_exists in X. destruct X as (y & I & Q). rewrite Forall_forall in Hs.
      apply ann_eqb_eq in Q; auto. subst y. destruct (D a); [left; reflexivity|exact I].
    - f_equal. apply IH; auto.
      intros x I [->|I']; [contradiction|]. apply (D x); [right; exact I|exact I']. }
  intros l Hl Nd. apply H; [exact Hl|constructor|exact Nd|intros x _ []].
Qed.

Lemma roundtrip_union : forall sc l c, standard sc -> simple_aliases sc -> l <> [] -> Forall (printable sc) l ->
  Forall no_final l -> NoDup l -> Forall tidy c ->
  exists c', read sc c (print_union l) = Some (map (fun t => (t, None)) l, c') /\ Forall tidy c'.
Proof.
  intros sc l c St Al Ne Pr Nf Nd Hc.
  assert (forall l c, Forall (printable sc) l -> Forall no_final l -> Forall tidy c ->
    exists c', visit_all sc (map syn_of l) c = Some (map (fun t => (t, None)) l, c') /\ Forall tidy c') as V.
  { clear -St Al. induction l as [|t l IH]; intros c Pr Nf Hc; [exists c; split; [reflexivity|exact Hc]|].
    apply Forall_cons_iff in Pr. destruct Pr as [P1 P2]. apply Forall_cons_iff in Nf. destruct Nf as [N1 N2].
    cbn [map visit_all]. destruct (visit_printed sc St Al t c P1 (tidy_no_final t N1) Hc) as (c1 & -> & T1).
    destruct (IH c1 P2 N2 T1) as (c2 & -> & T2). exists c2. split; [reflexivity|exact T2]. }
  destruct (V l c Pr Nf Hc) as (c' & E & T). exists c'. split; [|exact T].
  unfold read. rewrite (parse_union sc l Ne Pr).
  assert (Forall nf (map (fun t => (t, @None memory)) l)) as N.
  { apply Forall_map. eapply Forall_impl; [|exact Nf]. intros t Ht. split; [exact Ht|reflexivity]. }
  assert (NoDup (map (fun t => (t, @None memory)) l)) as Nd'.
  { apply FinFun.Injective_map_NoDup; [intros x y Q; congruence|exact Nd]. }
  destruct l as [|t [|u l]]; [congruence| |].
  - cbn [map visit_all] in E |- *. destruct (visit sc (syn_of t) c) as [[la c1]|]; [|discriminate].
    rewrite app_nil_r in E. exact E.
  - cbn [map] in E, N, Nd' |- *. rewrite E. rewrite (union_nodup _ N Nd'). reflexivity.
Qed.

Lemma injective : forall sc t u, standard sc -> simple_aliases sc -> printable sc t -> printable sc u ->
  tidy t -> tidy u -> print t = print u -> t = u.
Proof.
  intros sc t u St Al Pt Pu Tt Tu E.
  destruct (roundtrip sc t [] St Al Pt Tt (Forall_nil _)) as (c1 & R1 & _).
  destruct (roundtrip sc u [] St Al Pu Tu (Forall_nil _)) as (c2 & R2 & _).
  rewrite E in R1. congruence.
Qed.

Lemma visit_all_sound : forall sc, simple_aliases sc -> forall ss, Forall (simple sc) ss -> forall c l c',
  Forall tidy c -> visit_all sc ss c = Some (l, c') ->
  Forall tidy c' /\ Forall nf l /\ forall t, In (t, None) l <-> exists s, In s ss /\ means sc s t.
Proof.
  intros sc Al. induction ss as [|s ss IH]; intros Sm c l c' Hc E.
  - injection E as <- <-. split; [exact Hc|]. split; [constructor|]. intros t. cbn. split; [tauto|].
    intros (s & [] & _).
  - apply Forall_cons_iff in Sm. destruct Sm as [S1 S2]. cbn [visit_all] in E.
    destruct (visit sc s c) as [[la c1]|] eqn:V; [|discriminate].
    destruct (visit_all sc ss c1) as [[lr c2]|] eqn:W; [|discriminate]. injection E as <- <-.
    destruct (visit_sound sc Al s S1 c la c1 Hc V) as (T1 & N1 & M1 & _).
    destruct (IH S2 c1 lr c2 T1 W) as (T2 & N2 & M2).
    split; [exact T2|]. split; [apply Forall_app; split; assumption|].
    intros t. rewrite in_app_iff, M1, M2. cbn [In]. split.
    + intros [H|(s' & I & H)]; [exists s; auto|exists s'; auto].
    + intros (s' & [<-|I] & H); [left; exact H|right; exists s'; auto].
Qed.

Lemma meaning_sound : forall sc c str ss l c', simple_aliases sc -> Forall tidy c -> parse str = Some ss ->
  Forall (simple sc) ss -> read sc c str = Some (l, c') ->
  Forall tidy c' /\ (forall t m, In (t, m) l <-> m = None /\ exists s, In s ss /\ means sc s t).
Proof.
  intros sc c str ss l c' Al Hc P Sm E. unfold read in E. rewrite P in E.
  assert (exists l1, (exists c1, visit_all sc ss c = Some (l1, c1) /\ c1 = c') /\ forall a, Forall nf l1 -> In a l <-> In a l1) as (l1 & (c1 & V & ->) & U).
  { destruct ss as [|s [|s2 ss]].
    - cbn in E. injection E as <- <-. exists []. split; [eexists; split; reflexivity|]. intros a _. cbn. tauto.
    - destruct (visit sc s c) as [[la c1]|] eqn:V; [|discriminate]. injection E as -> ->. exists l. split.
      + exists c'. cbn [visit_all]. rewrite V, app_nil_r. split; reflexivity.
      + tauto.
    - destruct (visit_all sc (s :: s2 :: ss) c) as [[l1 c1]|] eqn:V; [|discriminate]. injection E as <- <-.
      exists l1. split; [eexists; split; [reflexivity|reflexivity]|]. intros a N. apply union_in, N. }
  destruct (visit_all_sound sc Al ss Sm c l1 c' Hc V) as (T & N & M). split; [exact T|].
  intros t m. rewrite (U (t, m) N). split.
  - intros I. assert (m = None) as ->. { rewrite Forall_forall in N. apply (N _ I). }
    split; [reflexivity|]. apply M, I.
  - intros (-> & H). apply M, H.
Qed.

(** ** No type twice *)

Lemma dedup_nodup : forall l seen, Forall nf l -> Forall nf seen -> NoDup (dedup seen l).
Proof.
  induction l as [|a l IH]; intros seen Hl Hs; [constructor|].
  apply Forall_cons_iff in Hl. destruct Hl as [Ha Hl]. cbn [dedup].
  destruct (existsb (ann_eqb a) seen); [apply IH; assumption|]. constructor; [|apply IH; [assumption|constructor; assumption]].
  rewrite dedup_in by (assumption || (constructor; assumption)). cbn. tauto.
Qed.

Lemma one_nodup : forall {A : Type} (a : A), NoDup [a].
Proof. intros A a. constructor; [intros []|constructor]. Qed.

Lemma with_order_nodup : forall o l c l' c', NoDup l -> with_order o l c = Some (l', c') -> NoDup l'.
Proof.
  intros o l c l' c' N E. destruct o as [w|]; [|injection E as <- <-; exact N].
  destruct l as [|[t [m|]] [|? ?]]; try (injection E as <- <-; exact N).
  cbn in E. destruct (match order_of t with Some x => (x =? w) | None => false end); [injection E as <- <-; exact N|].
  destruct (swap_order t c) as [[t' c1]|]; [|discriminate]. injection E as <- <-. apply one_nodup.
Qed.

Lemma union_nodup' : forall l, Forall nf l -> NoDup (union l).
Proof. intros l H. apply dedup_nodup; [exact H|constructor]. Qed.

Lemma one_once : forall sc f a c l c', simple_aliases sc -> (forall t, no_final t -> no_final (f t)) ->
  simple sc a -> Forall tidy c ->
  match visit sc a c with
  | None => None
  | Some (la, c1) =>
    match plain la with
    | None => None
    | Some ta => let '(l, c2) := make f ta c1 in Some (union l, c2)
    end
  end = Some (l, c') -> NoDup l.
Proof.
  intros sc f a c l c' Al Hf P Hc E. destruct (visit sc a c) as [[la c1]|] eqn:V; [|discriminate].
  destruct (visit_sound sc Al a P c la c1 Hc V) as (T1 & N1 & _ & _). rewrite (plain_some la N1) in E.
  assert (forall t, In t (map fst la) -> no_final t) as N.
  { intros t I. apply in_map_iff in I. destruct I as (x & <- & I). rewrite Forall_forall in N1. apply (N1 _ I). }
  destruct (make_map f (map fst la) c1) as (c2 & G & T2);
    [intros t I; apply tidy_no_final, Hf, N, I|exact T1|].
  rewrite G in E. injection E as <- <-. apply union_nodup'.
  apply Forall_map, Forall_forall. intros t I. split; [apply Hf, N, I|reflexivity].
Qed.

Lemma visit_once : forall sc s c l c', simple_aliases sc -> distinct_aliases sc -> simple sc s -> Forall tidy c ->
  visit sc s c = Some (l, c') -> NoDup l.
Proof.
  intros sc s c l c' Al Ds Sm Hc. destruct s as [| |[n|q] [[args o]|]]; try nothing; try contradiction.
  - cbn [simple] in Sm. destruct Sm as (_ & Sd & Sl). apply simple_list in Sl. cbn [visit].
    change (fix go (l : list syn) (c : list ty) : option (list (list ty) * list ty) :=
         match l with
         | [] => Some ([], c)
         | a :: r =>
           match visit sc a c with
           | None => None
           | Some (la, c1) =>
             match plain la with
             | None => None
             | Some ta =>
               match go r c1 with
               | None => None
               | Some (lr, c2) => Some (ta :: lr, c2)
               end
             end
           end
         end) with (types sc).
    match goal with |- match ?X with Some _ => _ | None => None end = _ -> _ => set (R := X) end.
    assert (forall l1 c1, R = Some (l1, c1) -> NoDup l1) as H.
    2:{ intros E. destruct R as [[l1 c1]|] eqn:Q; [|discriminate].
        eapply with_order_nodup; [|exact E]. eapply H. reflexivity. }
    intros l1 c1. subst R.
    assert (Forall (sound sc) args) as So by (apply Forall_forall; intros; apply visit_sound, Al).
    destruct (lookup sc n) as [[s| | | | | | | |ts|m]|] eqn:L; try nothing; try contradiction.
    + destruct args as [|a args]; [nothing|]. destruct (forallb is_slice (a :: args)).
      * destruct (array_of _ _ _) as [[t c2]|]; [|nothing]. intros E. injection E as <- <-. apply one_nodup.
      * destruct (existsb is_slice (a :: args)); [nothing|]. destruct args as [|[| |] [|? ?]]; nothing.
    + destruct args as [|a args]; [nothing|]. destruct (forallb is_slice (a :: args)); [nothing|].
      destruct (existsb is_slice (a :: args)); [nothing|]. destruct args as [|[| |] [|? ?]]; nothing.
    + destruct args as [|a args].
      { destruct (get_new c (ITup [])). intros E. injection E as <- <-. apply one_nodup. }
      destruct (forallb is_slice (a :: args)) eqn:F; [nothing|].
      destruct (existsb is_slice (a :: args)) eqn:X; [nothing|].
      assert (args = [SEllipsis] \/ args <> [SEllipsis]) as [->|Ne].
      { destruct args as [|[| |] [|? ?]]; try (right; congruence). left; reflexivity. }
      { intros E. apply Forall_cons_iff in Sl. destruct Sl as [Sa _].
        eapply (one_once sc HTup a c l1 c1); try eassumption. auto. }
      match goal with |- ?X = _ -> _ => set (R := X) end.
      assert (R = match types sc (a :: args) c with
            | Some (ls, c1) => let '(l, c2) := make_tuples (product ls) c1 in Some (union l, c2)
            | None => None
            end) as ->.
      { subst R. destruct args as [|[| |] [|? ?]]; try reflexivity. congruence. }
      destruct (types sc (a :: args) c) as [[ls c2]|] eqn:T; [|nothing].
      destruct (types_sound sc (a :: args) So Sl c ls c2 Hc T) as (T1 & N1 & _ & _).
      assert (forall ts, In ts (product ls) -> Forall no_final ts) as N2.
      { intros ts I. apply product_in in I. clear -I N1. induction I as [|t ts l ls I1 I2 IH]; constructor.
        - apply Forall_cons_iff in N1. destruct N1 as [N1 _]. rewrite Forall_forall in N1. auto.
        - apply IH. apply Forall_cons_iff in N1. tauto. }
      destruct (make_tuples_map (product ls) c2 N2 T1) as (c3 & -> & T2).
      intros E. injection E as <- <-. apply union_nodup'.
      apply Forall_map, Forall_forall. intros ts I. split; [apply no_final_list, N2, I|reflexivity].
    + destruct args as [|a args]; [nothing|].
      destruct (forallb is_slice (a :: args)) eqn:F; [nothing|].
      destruct (existsb is_slice (a :: args)) eqn:X; [nothing|].
      destruct args as [|a2 args].
      2:{ destruct a2 as [| |]; destruct args; try nothing.
          destruct (Sd SEllipsis); [right; left; reflexivity|reflexivity]. }
      intros E. apply Forall_cons_iff in Sl. destruct Sl as [Sa _].
      eapply (one_once sc Lst a c l1 c1); try eassumption. auto.
    + destruct args as [|a args]; [nothing|].
      destruct (forallb is_slice (a :: args)) eqn:F; [nothing|].
      destruct (existsb is_slice (a :: args)) eqn:X; [nothing|].
      destruct args as [|a2 args].
      2:{ destruct a2 as [| |]; destruct args; try nothing.
          destruct (Sd SEllipsis); [right; left; reflexivity|reflexivity]. }
      intros E. apply Forall_cons_iff in Sl. destruct Sl as [Sa _].
      eapply (one_once sc SetT a c l1 c1); try eassumption. auto.
    + destruct args as [|a args]; [nothing|].
      destruct (forallb is_slice (a :: args)) eqn:F; [nothing|].
      destruct (existsb is_slice (a :: args)) eqn:X; [nothing|].
      destruct args as [|b [|? ?]]; [nothing| |destruct b; nothing].
      assert (b = SEllipsis \/ b <> SEllipsis) as [->|Ne] by (destruct b; [right|left|right]; congruence).
      { nothing. }
      match goal with |- ?X = _ -> _ => set (R := X) end.
      assert (R = match types sc [a; b] c with
              | Some ([ks; vs], c1) =>
                let '(l, c2) := make_dicts (combine ks vs) c1 in Some (union l, c2)
              | _ => None
              end) as ->.
      { subst R. destruct b; try reflexivity. congruence. }
      destruct (types sc [a; b] c) as [[ls c2]|] eqn:T; [|nothing].
      destruct (types_sound sc [a; b] So Sl c ls c2 Hc T) as (T1 & N1 & M1 & L1).
      assert (Forall (single sc) [a; b]) as Si by (apply Forall_forall; exact Sd).
      specialize (L1 Si). inversion M1 as [|ks ? ? ? Mk M2]; subst. inversion M2 as [|vs ? ? ? Mv M3]; subst.
      inversion M3; subst. apply Forall_cons_iff in L1. destruct L1 as [Lk L1]. apply Forall_cons_iff in L1.
      destruct L1 as [Lv _]. destruct ks as [|k [|? ?]]; try discriminate. destruct vs as [|v [|? ?]]; try discriminate.
      cbn [combine make_dicts]. destruct (get_new c2 (Dict k v)). rewrite union_one. intros E. injection E as <- <-.
      apply one_nodup.
    + destruct args as [|a args]; [nothing|]. cbn [orb].
      destruct (forallb is_slice (a :: args)) eqn:F; [|nothing]. cbn [negb].
      assert (Forall nf ts) as N by (apply (alias_nf sc n); assumption).
      destruct (arrays_of ts (List.length (a :: args)) c) as [[m c2]|] eqn:A; [|nothing].
      destruct (arrays_of_map ts _ c N Hc m c2 A) as (T1 & ss & -> & ->).
      intros E. injection E as <- <-. apply union_nodup'.
      apply Forall_map, Forall_forall. intros x _. split; [exact I|reflexivity].
    + destruct args as [|a args]; [nothing|]. destruct (forallb is_slice (a :: args)); [nothing|].
      destruct (existsb is_slice (a :: args)); [nothing|]. destruct args as [|[| |] [|? ?]]; nothing.
  - cbn [visit]. destruct (lookup sc n) as [[s| | | | | | | |ts|m]|] eqn:L; try nothing;
      intros E; injection E as <- <-; try apply one_nodup.
    apply lookup_types in L. eapply Ds. exact L.
Qed.

Lemma once : forall sc c str ss l c', simple_aliases sc -> distinct_aliases sc -> Forall tidy c -> parse str = Some ss ->
  Forall (simple sc) ss -> read sc c str = Some (l, c') -> NoDup l.
Proof.
  intros sc c str ss l c' Al Ds Hc P Sm E. unfold read in E. rewrite P in E.
  destruct ss as [|s [|s2 ss]].
  - cbn in E. injection E as <- <-. constructor.
  - apply Forall_cons_iff in Sm. destruct Sm as [Sm _]. eapply visit_once; eassumption.
  - destruct (visit_all sc (s :: s2 :: ss) c) as [[l1 c1]|] eqn:V; [|discriminate]. injection E as <- <-.
    apply union_nodup'. apply (visit_all_sound sc Al _ Sm c l1 c1 Hc V).
Qed.
