(* Proofs about the text of the generated files. *)
From Coq Require Import Bool String Ascii Arith ZArith Lia List.
From Verif Require Import Text_Model Text_Spec.
Import ListNotations.
Open Scope list_scope.

(* ------------------------------------------------------------------------- *)
(* C literals *)

Lemma replace_flat_map : forall c b (f : ascii -> text) s, replace c b (flat_map f s) = flat_map (fun x => replace c b (f x)) s.
Proof.
  intros c b f s. unfold replace. induction s as [|x s IH]; [reflexivity|].
  cbn [flat_map]. rewrite flat_map_app, IH. reflexivity.
Qed.

Definition escaped (x : ascii) : text :=
  let r c b s := replace (ch c) (map ch b) s in
  r 39 [92; 39] (r 34 [92; 34] (r 11 [92; 118] (r 9 [92; 116] (r 13 [92; 114] (r 10 [92; 110]
    (r 12 [92; 102] (r 8 [92; 98] (r 7 [92; 97] (if Ascii.eqb x (ch 92) then [ch 92; ch 92] else [x]))))))))).

Lemma c_literal_escaped : forall s, c_literal s = ch 34 :: flat_map escaped s ++ [ch 34].
Proof.
  intros s. unfold c_literal. unfold replace at 10. repeat rewrite replace_flat_map. reflexivity.
Qed.

Lemma c_chars_escaped : forall x l,
  c_chars (escaped x ++ l) = match c_chars l with Some (s, r) => Some (x :: s, r) | None => None end.
Proof. intros x l. destruct x as [[|] [|] [|] [|] [|] [|] [|] [|]]; cbn; reflexivity. Qed.

Lemma c_chars_all : forall s l, c_chars (flat_map escaped s ++ ch 34 :: l) = Some (s, l).
Proof.
  induction s as [|x s IH]; intros l; [reflexivity|].
  cbn [flat_map]. rewrite <- app_assoc, c_chars_escaped, IH. reflexivity.
Qed.

Lemma c_read_literal : forall s, c_read (c_literal s) = Some s.
Proof.
  intros s. rewrite c_literal_escaped. unfold c_read. cbn -[c_chars].
  rewrite c_chars_all. reflexivity.
Qed.

(* ------------------------------------------------------------------------- *)
(* Fortran literals *)

Definition denotes (p s : text) : Prop :=
  (exists c p', p = c :: p' /\ (Ascii.eqb c (ch 32) || Ascii.eqb c (ch 9)) = false)
  /\ forall rest, rest = [] \/ (exists r, rest = SP :: r) -> f_primary (p ++ rest) = Some (s, rest).

Definition ordinary (c : ascii) : Prop := is_in c sp_chars = false.

Lemma f_chars_ordinary : forall s rest, Forall ordinary s ->
  rest = [] \/ (exists r, rest = SP :: r) -> f_chars (s ++ ch 39 :: rest) = Some (s, rest).
Proof.
  induction s as [|c s IH]; intros rest F R.
  - cbn. destruct R as [->|(r & ->)]; reflexivity.
  - inversion F as [|? ? O F' ]; subst. cbn [app f_chars].
    rewrite (IH rest F' R).
    unfold ordinary, is_in in O. cbn [existsb sp_chars] in O.
    repeat (apply orb_false_iff in O; destruct O as [? O]).
    repeat match goal with H : Ascii.eqb c ?k = false |- _ => rewrite H; clear H end.
    reflexivity.
Qed.

Lemma denotes_quoted : forall s, Forall ordinary s -> denotes (ch 39 :: s ++ [ch 39]) s.
Proof.
  intros s F. split.
  - exists (ch 39), (s ++ [ch 39]). split; reflexivity.
  - intros rest R. change ((ch 39 :: s ++ [ch 39]) ++ rest) with (ch 39 :: ((s ++ [ch 39]) ++ rest)).
    rewrite <- app_assoc. unfold f_primary. cbn -[f_chars ch]. apply f_chars_ordinary; assumption.
Qed.

Lemma denotes_achar : forall c, is_in c sp_chars = true ->
  denotes (T "ACHAR(" ++ decimal (nat_of_ascii c) ++ T ")") [c].
Proof.
  intros c O. unfold is_in in O. apply existsb_exists in O. destruct O as (k & K & E).
  apply Ascii.eqb_eq in E. subst k.
  split.
  - exists "A"%char, (T "CHAR(" ++ decimal (nat_of_ascii c) ++ T ")"). split; reflexivity.
  - intros rest _. cbn in K.
    repeat (destruct K as [<-|K]; [reflexivity|]). contradiction.
Qed.

Lemma f_pieces_denote : forall s sub acc vals, Forall ordinary sub -> Forall2 denotes acc vals ->
  exists vs, Forall2 denotes (f_pieces s sub acc) vs /\ concat vs = concat vals ++ sub ++ s.
Proof.
  induction s as [|c s IH]; intros sub acc vals F D; cbn [f_pieces].
  - destruct sub as [|x sub].
    + exists vals. split; [exact D|]. rewrite app_nil_r. reflexivity.
    + exists (vals ++ [x :: sub]). split.
      * apply Forall2_app; [exact D|]. constructor; [|constructor]. apply denotes_quoted. exact F.
      * rewrite concat_app. cbn [concat]. rewrite !app_nil_r. reflexivity.
  - destruct (is_in c sp_chars) eqn:O.
    + assert (P : exists v2, Forall2 denotes (if sub then acc else acc ++ [ch 39 :: sub ++ [ch 39]]) v2
        /\ concat v2 = concat vals ++ sub).
      { destruct sub as [|x sub].
        - exists vals. split; [exact D|]. rewrite app_nil_r. reflexivity.
        - exists (vals ++ [x :: sub]). split.
          + apply Forall2_app; [exact D|]. constructor; [|constructor]. apply denotes_quoted. exact F.
          + rewrite concat_app. cbn [concat]. rewrite app_nil_r. reflexivity. }
      destruct P as (v2 & D2 & E2).
      destruct (IH [] ((if sub then acc else acc ++ [ch 39 :: sub ++ [ch 39]])
                       ++ [T "ACHAR(" ++ decimal (nat_of_ascii c) ++ T ")"]) (v2 ++ [[c]])) as (vs & D3 & E3).
      * constructor.
      * apply Forall2_app; [exact D2|]. constructor; [|constructor]. apply denotes_achar. exact O.
      * exists vs. split; [exact D3|]. rewrite E3, concat_app, E2. cbn [concat]. rewrite <- !app_assoc. reflexivity.
    + destruct (IH (sub ++ [c]) acc vals) as (vs & D3 & E3).
      * apply Forall_app. split; [exact F|]. constructor; [exact O|constructor].
      * exact D.
      * exists vs. split; [exact D3|]. rewrite E3, <- app_assoc. reflexivity.
Qed.

Lemma f_pieces_some : forall s sub acc, s ++ sub <> [] \/ acc <> [] -> f_pieces s sub acc <> [].
Proof.
  induction s as [|c s IH]; intros sub acc H; cbn [f_pieces].
  - destruct sub as [|x sub].
    + destruct H as [H|H]; [cbn in H; congruence|exact H].
    + intros E. apply app_eq_nil in E. destruct E. discriminate.
  - destruct (is_in c sp_chars).
    + apply IH. right. intros E. apply app_eq_nil in E. destruct E. discriminate.
    + apply IH. left. intros E. apply app_eq_nil in E. destruct E as [_ E]. apply app_eq_nil in E. destruct E. discriminate.
Qed.

Lemma skip_not_blank : forall c l, (Ascii.eqb c (ch 32) || Ascii.eqb c (ch 9)) = false -> skip_blanks (c :: l) = c :: l.
Proof. intros c l H. cbn [skip_blanks]. rewrite H. reflexivity. Qed.

Lemma f_concat_step : forall k l s j,
  f_primary (skip_blanks l) = Some (s, SP :: "/"%char :: "/"%char :: SP :: j) ->
  f_concat (S k) l = match f_concat k (SP :: j) with Some s' => Some (s ++ s') | None => None end.
Proof.
  intros k l s j H. cbn [f_concat]. rewrite H. reflexivity.
Qed.

Lemma f_concat_join : forall ps vs, Forall2 denotes ps vs -> ps <> [] -> forall fuel, List.length ps <= fuel ->
  f_concat fuel (join (T " // ") ps) = Some (concat vs)
  /\ f_concat fuel (SP :: join (T " // ") ps) = Some (concat vs).
Proof.
  intros ps vs D. induction D as [|p v ps vs ((c & p' & -> & B) & P) D IH]; intros N fuel L; [congruence|].
  destruct fuel as [|fuel]; [cbn in L; lia|].
  destruct ps as [|p2 ps].
  - inversion D; subst. cbn [join concat]. rewrite app_nil_r.
    assert (E : f_primary (c :: p') = Some (v, [])).
    { specialize (P [] (or_introl eq_refl)). rewrite app_nil_r in P. exact P. }
    assert (S1 : skip_blanks (c :: p') = c :: p') by (apply skip_not_blank; exact B).
    split; cbn [f_concat].
    + rewrite S1, E. reflexivity.
    + change (skip_blanks (SP :: c :: p')) with (skip_blanks (c :: p')). rewrite S1, E. reflexivity.
  - destruct (IH ltac:(discriminate) fuel ltac:(cbn in L |- *; lia)) as [_ I].
    set (j := join (T " // ") (p2 :: ps)) in *.
    change (join (T " // ") ((c :: p') :: p2 :: ps)) with ((c :: p') ++ SP :: "/"%char :: "/"%char :: SP :: j).
    assert (S1 : forall l, skip_blanks ((c :: p') ++ l) = (c :: p') ++ l) by (intros; apply skip_not_blank; exact B).
    assert (E : f_primary ((c :: p') ++ SP :: "/"%char :: "/"%char :: SP :: j) = Some (v, SP :: "/"%char :: "/"%char :: SP :: j))
      by (apply P; right; eexists; reflexivity).
    cbn [concat].
    split; (rewrite (f_concat_step _ _ v j); [rewrite I; reflexivity|]).
    + rewrite S1. exact E.
    + change (skip_blanks (SP :: (c :: p') ++ SP :: "/"%char :: "/"%char :: SP :: j))
        with (skip_blanks ((c :: p') ++ SP :: "/"%char :: "/"%char :: SP :: j)).
      rewrite S1. exact E.
Qed.

Lemma join_length : forall ps vs, Forall2 denotes ps vs -> List.length ps <= List.length (join (T " // ") ps).
Proof.
  intros ps vs D. induction D as [|p v ps vs ((c & p' & -> & B) & P) D IH]; [cbn; lia|].
  destruct ps as [|p2 ps].
  - cbn. lia.
  - change (join (T " // ") ((c :: p') :: p2 :: ps)) with ((c :: p') ++ T " // " ++ join (T " // ") (p2 :: ps)).
    rewrite !app_length. cbn [List.length] in IH |- *. lia.
Qed.

Lemma f_read_literal : forall s, f_read (f_literal s) = Some s.
Proof.
  intros s. destruct s as [|c s]; [reflexivity|].
  unfold f_literal.
  destruct (f_pieces_denote (c :: s) [] [] [] ltac:(constructor) ltac:(constructor)) as (vs & D & E).
  assert (N : f_pieces (c :: s) [] [] <> []) by (apply f_pieces_some; left; discriminate).
  unfold f_read. rewrite (proj1 (f_concat_join _ _ D N _ (le_S _ _ (join_length _ _ D)))), E. reflexivity.
Qed.

(* ------------------------------------------------------------------------- *)
(* Lines *)

Lemma splitlines_one : forall s acc, forallb (fun c => negb (boundary c)) s = true ->
  splitlines (s ++ [NL]) acc = [acc ++ s ++ [NL]].
Proof.
  induction s as [|c s IH]; intros acc H; [reflexivity|].
  cbn [forallb] in H. apply andb_true_iff in H. destruct H as [B H].
  cbn [app splitlines]. destruct (boundary c); [discriminate|].
  rewrite (IH _ H), <- app_assoc. reflexivity.
Qed.

Lemma lstrip_skip : forall l, lstrip tabs l = skip_blanks l.
Proof.
  induction l as [|c l IH]; [reflexivity|]. cbn [lstrip skip_blanks]. rewrite IH.
  replace (tabs c) with (Ascii.eqb c (ch 32) || Ascii.eqb c (ch 9)); [reflexivity|].
  unfold tabs, is_in. cbn [existsb]. rewrite orb_false_r. reflexivity.
Qed.

Lemma skip_idem : forall l, skip_blanks (skip_blanks l) = skip_blanks l.
Proof.
  induction l as [|c l IH]; [reflexivity|]. cbn [skip_blanks].
  destruct (Ascii.eqb c (ch 32) || Ascii.eqb c (ch 9)) eqn:E; [exact IH|].
  apply skip_not_blank. exact E.
Qed.

Lemma skip_pad : forall n l, skip_blanks (repeat SP n ++ l) = skip_blanks l.
Proof. induction n as [|n IH]; intros l; [reflexivity|exact (IH l)]. Qed.

Lemma skip_app : forall l c r, (Ascii.eqb c (ch 32) || Ascii.eqb c (ch 9)) = false ->
  skip_blanks (l ++ c :: r) = skip_blanks l ++ c :: r.
Proof.
  induction l as [|x l IH]; intros c r H.
  - apply skip_not_blank. exact H.
  - cbn [app skip_blanks]. destruct (Ascii.eqb x (ch 32) || Ascii.eqb x (ch 9)); [apply IH; exact H|reflexivity].
Qed.

Lemma indent_from_skip : forall inc dec kept w ls level,
  map skip_blanks (indent_from inc dec kept w level (map (lstrip tabs) ls)) = map skip_blanks ls.
Proof.
  intros inc dec kept w. induction ls as [|l ls IH]; intros level; [reflexivity|].
  cbn [map indent_from]. destruct (kept (lstrip tabs l)); cbn [map]; rewrite IH.
  - rewrite lstrip_skip, skip_idem. reflexivity.
  - rewrite skip_pad, lstrip_skip, skip_idem. reflexivity.
Qed.

Lemma map_lstrip : forall ls, map (lstrip tabs) ls = map skip_blanks ls.
Proof. intros ls. apply map_ext. exact lstrip_skip. Qed.

Lemma indent_same : forall inc dec kept w ls, same_code (indent_lines inc dec kept w ls) ls.
Proof.
  intros inc dec kept w ls. unfold same_code, indent_lines.
  pose proof (indent_from_skip inc dec kept w ls 0%Z) as E.
  revert E. generalize (indent_from inc dec kept w 0 (map (lstrip tabs) ls)) as m. intros m. revert ls.
  induction m as [|x m IH]; intros [|l ls] E; try discriminate; constructor.
  - exact (f_equal (fun l => hd [] l) E).
  - apply IH. exact (f_equal (@tl _) E).
Qed.

Lemma indent_twice : forall inc dec kept w ls,
  indent_lines inc dec kept w (indent_lines inc dec kept w ls) = indent_lines inc dec kept w ls.
Proof.
  intros inc dec kept w ls. unfold indent_lines. rewrite !map_lstrip.
  pose proof (indent_from_skip inc dec kept w ls 0%Z) as E. rewrite map_lstrip in E. rewrite E. reflexivity.
Qed.

Lemma nested_indent : forall (inc dec kept : text -> bool) (opens closes blank : text -> Prop) w,
  (forall l, kept l = true <-> blank l) -> (forall l, ~ blank l -> (inc l = true <-> opens l)) ->
  (forall l, ~ blank l -> (dec l = true <-> closes l)) ->
  (forall d dl, nested opens closes blank d dl -> forall rest,
     indent_from inc dec kept w (Z.of_nat d) (map snd dl ++ rest)
     = map (fun x => repeat SP (fst x * w) ++ snd x) dl ++ indent_from inc dec kept w (Z.of_nat d) rest)
  /\ (forall d dl, parts opens closes blank d dl -> forall rest,
     indent_from inc dec kept w (Z.of_nat (S d)) (map snd dl ++ rest)
     = map (fun x => repeat SP (fst x * w) ++ snd x) dl ++ indent_from inc dec kept w (Z.of_nat (S d)) rest).
Proof.
  intros inc dec kept opens closes blank w HK HI HD.
  assert (FK : forall l, ~ blank l -> kept l = false).
  { intros l B. destruct (kept l) eqn:E; [|reflexivity]. elim B. apply HK. exact E. }
  assert (FI : forall l, ~ blank l -> ~ opens l -> inc l = false).
  { intros l B O. destruct (inc l) eqn:E; [|reflexivity]. elim O. apply HI; assumption. }
  assert (FD : forall l, ~ blank l -> ~ closes l -> dec l = false).
  { intros l B O. destruct (dec l) eqn:E; [|reflexivity]. elim O. apply HD; assumption. }
  apply nested_parts_ind; intros.
  - reflexivity.
  - cbn [map snd app indent_from fst]. rewrite (proj2 (HK l) b), H. reflexivity.
  - cbn [map snd app indent_from fst]. rewrite (FK l), (FD l), (FI l), H, Nat2Z.id by assumption. reflexivity.
  - cbn [map snd app indent_from fst]. rewrite (FK o), (FD o), (proj2 (HI o n)), Nat2Z.id by assumption.
    f_equal.
    rewrite !map_app, <- !app_assoc.
    replace (Z.of_nat d + 1)%Z with (Z.of_nat (S d)) by lia.
    rewrite H. f_equal. cbn [map snd app indent_from fst].
    rewrite (FK c), (proj2 (HD c n1)), (FI c) by assumption.
    replace (Z.of_nat (S d) - 1)%Z with (Z.of_nat d) by lia. rewrite Nat2Z.id, H0. reflexivity.
  - apply H.
  - rewrite !map_app, <- !app_assoc, H. f_equal. cbn [map snd app indent_from fst].
    rewrite (FK m), (proj2 (HD m n0)), (proj2 (HI m n0)) by assumption.
    replace (Z.of_nat (S d) - 1)%Z with (Z.of_nat d) by lia. rewrite Nat2Z.id.
    replace (Z.of_nat d + 1)%Z with (Z.of_nat (S d)) by lia. rewrite H0. reflexivity.
Qed.

Lemma eqt_eq : forall a b, eqt a b = true <-> a = b.
Proof.
  induction a as [|x a IH]; intros [|y b]; cbn [eqt]; split; intros H; try discriminate; try reflexivity.
  - apply andb_true_iff in H. destruct H as [E H]. apply Ascii.eqb_eq in E. apply IH in H. congruence.
  - injection H as -> ->. rewrite Ascii.eqb_refl. apply IH. reflexivity.
Qed.

Lemma starts_iff : forall p l, starts p l = true <-> exists r, l = p ++ r.
Proof.
  induction p as [|a p IH]; intros l; cbn [starts].
  - split; [intros _; exists l; reflexivity|reflexivity].
  - destruct l as [|b l].
    + split; [discriminate|]. intros (r & E). discriminate.
    + split.
      * intros H. apply andb_true_iff in H. destruct H as [E H]. apply Ascii.eqb_eq in E. subst b.
        apply IH in H. destruct H as (r & ->). exists r. reflexivity.
      * intros (r & E). injection E as -> ->. rewrite Ascii.eqb_refl. apply IH. exists r. reflexivity.
Qed.

Lemma ends_iff : forall p l, ends p l = true <-> exists r, l = r ++ p.
Proof.
  intros p l. unfold ends. rewrite starts_iff. split; intros (r & E).
  - exists (rev r). rewrite <- (rev_involutive l), E, rev_app_distr, rev_involutive. reflexivity.
  - exists (rev r). rewrite E, rev_app_distr. reflexivity.
Qed.

Lemma empty_line_iff : forall l, empty_line l = true <-> c_blank l.
Proof. intros l. unfold empty_line, c_blank. rewrite orb_true_iff, !eqt_eq. reflexivity. Qed.

Lemma c_depth : forall ls dl, map skip_blanks ls = map snd dl -> nested c_opens c_closes c_blank 0 dl ->
  indent_c ls = map (fun x => repeat SP (4 * fst x) ++ snd x) dl.
Proof.
  intros ls dl E N. unfold indent_c, indent_lines. rewrite map_lstrip, E.
  rewrite <- (app_nil_r (map snd dl)).
  destruct (nested_indent c_inc c_dec empty_line c_opens c_closes c_blank 4) as [H _].
  - exact empty_line_iff.
  - intros l _. unfold c_inc, c_opens. apply ends_iff.
  - intros l B. unfold c_dec, c_closes. rewrite orb_true_iff, !starts_iff. split.
    + intros [H|(r & ->)]; [left; exact H|].
      destruct r as [|c r]; [elim B; right; reflexivity|]. right. exists c, r. reflexivity.
    + intros [H|(c & p & ->)]; [left; exact H|right]. exists (c :: p). reflexivity.
  - change 0%Z with (Z.of_nat 0). rewrite (H 0 dl N []). cbn [indent_from]. rewrite app_nil_r.
    apply map_ext. intros [d l]. cbn [fst snd]. rewrite Nat.mul_comm. reflexivity.
Qed.

(* ------------------------------------------------------------------------- *)
(* Fortran blocks *)

Lemma keyword_iff : forall k l r, keyword k l = Some r <-> l = k ++ r /\ word_end r.
Proof.
  intros k l r. unfold keyword. destruct (starts k l) eqn:S.
  - apply starts_iff in S. destruct S as (r' & ->).
    rewrite skipn_app, skipn_all, Nat.sub_diag. cbn [app skipn].
    split.
    + intros H. assert (r' = r) as ->.
      { destruct r' as [|c r']; [congruence|]. destruct (word_char c); congruence. }
      split; [reflexivity|]. intros c r' ->. destruct (word_char c); [discriminate|reflexivity].
    + intros [E W]. apply app_inv_head in E. subst r'.
      destruct r as [|c r]; [reflexivity|]. rewrite (W c r eq_refl). reflexivity.
  - split; [discriminate|]. intros [-> _].
    assert (starts k (k ++ r) = true) by (apply starts_iff; exists r; reflexivity). congruence.
Qed.

Lemma some_keyword : forall k l, some (keyword k l) = true <-> exists r, l = k ++ r /\ word_end r.
Proof.
  intros k l. destruct (keyword k l) as [r|] eqn:E; cbn [some].
  - apply keyword_iff in E. split; [intros _; exists r; exact E|reflexivity].
  - split; [discriminate|]. intros (r & H). apply keyword_iff in H. congruence.
Qed.

Lemma starts_app : forall p r, starts p (p ++ r) = true.
Proof. intros p r. apply starts_iff. exists r. reflexivity. Qed.

Lemma skipn_exact : forall (p r : text), skipn (List.length p) (p ++ r) = r.
Proof. intros p r. rewrite skipn_app, skipn_all, Nat.sub_diag. reflexivity. Qed.

Lemma optional_cases : forall k l, (exists r, l = k ++ r /\ optional k l = r) \/ (starts k l = false /\ optional k l = l).
Proof.
  intros k l. unfold optional. destruct (starts k l) eqn:S; [|right; auto].
  apply starts_iff in S. destruct S as (r & ->). left. exists r. split; [reflexivity|]. apply skipn_exact.
Qed.

Lemma f_closes_iff : forall l, f_dec l = true <-> f_closes l.
Proof.
  intros l. unfold f_dec, f_closes. rewrite orb_true_iff, andb_true_iff, !starts_iff.
  split.
  - intros [[(r & ->) H]|H]; [left|right; exact H].
    change (skipn 3 (T "end" ++ r)) with r in H.
    apply existsb_exists in H. destruct H as (k & K & S). apply starts_iff in S. destruct S as (r2 & S).
    destruct (optional_cases (T " ") r) as [(r3 & -> & E)|[_ E]]; rewrite E in S; subst.
    + exists " "%string, k, r2. split; [right; left; reflexivity|]. split; [exact K|reflexivity].
    + exists ""%string, k, r2. split; [left; reflexivity|]. split; [exact K|reflexivity].
  - intros [(b & k & r & B & K & ->)|H]; [left|right; exact H].
    split; [eexists; reflexivity|].
    change (skipn 3 (T "end" ++ T b ++ T k ++ r)) with (T b ++ T k ++ r).
    apply existsb_exists. exists k. split; [exact K|].
    cbn in B. destruct B as [<-|[<-|[]]].
    + change (T "" ++ T k ++ r) with (T k ++ r).
      replace (optional (T " ") (T k ++ r)) with (T k ++ r); [apply starts_app|].
      cbn [In] in K. repeat (destruct K as [<-|K]; [reflexivity|]). contradiction.
    + change (optional (T " ") (T " " ++ T k ++ r)) with (T k ++ r). apply starts_app.
Qed.

Lemma is_in_iff : forall c l, is_in c l = true <-> In c l.
Proof.
  intros c l. unfold is_in. rewrite existsb_exists. split.
  - intros (x & I & E). apply Ascii.eqb_eq in E. subst. exact I.
  - intros I. exists c. split; [exact I|apply Ascii.eqb_refl].
Qed.

Lemma removelast_snoc : forall (l : text) c, removelast (l ++ [c]) = l.
Proof. intros l c. apply removelast_last. Qed.

Lemma if_then_iff : forall l, if_then l = true <->
  exists c, (l = T "if (" ++ c ++ T ") then" \/ l = T "if (" ++ c ++ T ") then" ++ [NL]) /\ ~ In NL c.
Proof.
  intros l. unfold if_then.
  assert (H : forall m, starts (T "if (") m && ends (T ") then") (skipn 4 m) && negb (is_in NL m) = true <->
    exists c, m = T "if (" ++ c ++ T ") then" /\ ~ In NL c).
  { intros m. rewrite !andb_true_iff, negb_true_iff, starts_iff. split.
    - intros [[(r & ->) E] N]. change (skipn 4 (T "if (" ++ r)) with r in E.
      apply ends_iff in E. destruct E as (c & ->). exists c. split; [reflexivity|].
      intros I. assert (is_in NL (T "if (" ++ c ++ T ") then") = true); [|congruence].
      apply is_in_iff. apply in_or_app. right. apply in_or_app. left. exact I.
    - intros (c & -> & N). split; [split|].
      + eexists; reflexivity.
      + change (skipn 4 (T "if (" ++ c ++ T ") then")) with (c ++ T ") then"). apply ends_iff. exists c. reflexivity.
      + destruct (is_in NL (T "if (" ++ c ++ T ") then")) eqn:E; [|reflexivity].
        apply is_in_iff in E. apply in_app_or in E. destruct E as [E|E].
        * cbn in E. repeat (destruct E as [E|E]; [discriminate|]). contradiction.
        * apply in_app_or in E. destruct E as [E|E]; [contradiction|].
          cbn in E. repeat (destruct E as [E|E]; [discriminate|]). contradiction. }
  destruct (ends [NL] l) eqn:E.
  - apply ends_iff in E. destruct E as (r & ->). rewrite removelast_snoc, H. split.
    + intros (c & -> & N). exists c. split; [right|exact N]. rewrite <- !app_assoc. reflexivity.
    + intros (c & [E|E] & N).
      * exfalso. apply (f_equal (@rev _)) in E. rewrite !rev_app_distr in E. discriminate.
      * exists c. split; [|exact N].
        replace (T "if (" ++ c ++ T ") then" ++ [NL]) with ((T "if (" ++ c ++ T ") then") ++ [NL]) in E by (rewrite <- !app_assoc; reflexivity).
        apply app_inj_tail in E. apply E.
  - rewrite H. split.
    + intros (c & -> & N). exists c. split; [left; reflexivity|exact N].
    + intros (c & [-> | ->] & N); [exists c; split; [reflexivity|exact N]|].
      exfalso. replace (T "if (" ++ c ++ T ") then" ++ [NL]) with ((T "if (" ++ c ++ T ") then") ++ [NL]) in E by (rewrite <- !app_assoc; reflexivity).
      assert (ends [NL] ((T "if (" ++ c ++ T ") then") ++ [NL]) = true); [|congruence].
      apply ends_iff. eexists. reflexivity.
Qed.

Lemma type_def_iff : forall l, type_def l = true <-> exists c r, l = T "type" ++ c :: r /\ word_char c = false /\ c <> ch 40.
Proof.
  intros l. unfold type_def. destruct (keyword (T "type") l) as [r|] eqn:K.
  - apply keyword_iff in K. destruct K as [-> W]. destruct r as [|c r].
    + split; [discriminate|]. intros (c & r & E & _). discriminate.
    + rewrite negb_true_iff, Ascii.eqb_neq. split.
      * intros N. exists c, r. split; [reflexivity|]. split; [exact (W c r eq_refl)|exact N].
      * intros (c' & r' & E & _ & N). apply app_inv_head in E. injection E as -> ->. exact N.
  - split; [discriminate|]. intros (c & r & -> & W & N).
    assert (keyword (T "type") (T "type" ++ c :: r) = Some (c :: r)); [|congruence].
    apply keyword_iff. split; [reflexivity|]. intros c' r' E. congruence.
Qed.

Lemma strip_spaces : forall r p, (forall p', p <> SP :: p') -> 
  (exists n, r = repeat SP n ++ p) -> lstrip (Ascii.eqb SP) r = p.
Proof.
  intros r p N (n & ->). induction n as [|n IH]; [|exact IH].
  cbn [repeat app]. destruct p as [|c p]; [reflexivity|]. cbn [lstrip].
  destruct (Ascii.eqb SP c) eqn:E; [|reflexivity]. apply Ascii.eqb_eq in E. subst c. elim (N p eq_refl).
Qed.

Lemma strip_spaces_inv : forall r, exists n, r = repeat SP n ++ lstrip (Ascii.eqb SP) r.
Proof.
  induction r as [|c r IH]; [exists 0; reflexivity|]. cbn [lstrip].
  destruct (Ascii.eqb SP c) eqn:E; [|exists 0; reflexivity].
  apply Ascii.eqb_eq in E. subst c. destruct IH as (n & E). exists (S n). cbn [repeat app]. rewrite <- E. reflexivity.
Qed.

Lemma module_iff : forall l,
  match keyword (T "module") l with
  | Some r => negb (starts (T "procedure") (lstrip (Ascii.eqb SP) r))
  | None => false
  end = true <->
  exists r, l = T "module" ++ r /\ word_end r /\ ~ (exists n r', r = repeat SP n ++ T "procedure" ++ r').
Proof.
  intros l. destruct (keyword (T "module") l) as [r|] eqn:K.
  - apply keyword_iff in K. destruct K as [-> W]. rewrite negb_true_iff.
    assert (P : starts (T "procedure") (lstrip (Ascii.eqb SP) r) = true <-> exists n r', r = repeat SP n ++ T "procedure" ++ r').
    { rewrite starts_iff. split.
      - intros (r' & E). destruct (strip_spaces_inv r) as (n & E2). exists n, r'. rewrite E in E2. exact E2.
      - intros (n & r' & ->). exists r'. apply strip_spaces; [intros p' E; discriminate|]. exists n. reflexivity. }
    split.
    + intros F. exists r. split; [reflexivity|]. split; [exact W|]. intros H. apply P in H. congruence.
    + intros (r2 & E & _ & N). apply app_inv_head in E. subst r2.
      destruct (starts (T "procedure") (lstrip (Ascii.eqb SP) r)); [elim N; apply P; reflexivity|reflexivity].
  - split; [discriminate|]. intros (r & -> & W & _).
    assert (keyword (T "module") (T "module" ++ r) = Some r) by (apply keyword_iff; auto). congruence.
Qed.

Lemma unit_iff : forall l,
  (let r := optional (T "recursive ") (optional (T "pure ") (optional (T "elemental ") l)) in
   some (keyword (T "subroutine") r) || some (keyword (T "function") r)) = true <->
  exists e p c k r, In e [""; "elemental "]%string /\ In p [""; "pure "]%string /\ In c [""; "recursive "]%string
    /\ In k ["subroutine"; "function"]%string /\ l = T e ++ T p ++ T c ++ T k ++ r /\ word_end r.
Proof.
  intros l. cbn zeta. rewrite orb_true_iff, !some_keyword.
  assert (O : forall k l, exists o, In o [""%string; k] /\ l = T o ++ optional (T k) l).
  { intros k m. destruct (optional_cases (T k) m) as [(r & -> & E)|[_ E]]; rewrite E.
    - exists k. split; [right; left; reflexivity|reflexivity].
    - exists ""%string. split; [left; reflexivity|reflexivity]. }
  destruct (O "elemental "%string l) as (e & He & Ee).
  destruct (O "pure "%string (optional (T "elemental ") l)) as (p & Hp & Ep).
  destruct (O "recursive "%string (optional (T "pure ") (optional (T "elemental ") l))) as (c & Hc & Ec).
  split.
  - intros H. exists e, p, c.
    destruct H as [(r & E & W)|(r & E & W)].
    + exists "subroutine"%string, r. split; [exact He|]. split; [exact Hp|]. split; [exact Hc|].
      split; [left; reflexivity|]. split; [|exact W]. rewrite Ee at 1. f_equal. rewrite Ep at 1. f_equal. rewrite Ec at 1. f_equal. exact E.
    + exists "function"%string, r. split; [exact He|]. split; [exact Hp|]. split; [exact Hc|].
      split; [right; left; reflexivity|]. split; [|exact W]. rewrite Ee at 1. f_equal. rewrite Ep at 1. f_equal. rewrite Ec at 1. f_equal. exact E.
  - clear. intros (e & p & c & k & r & He & Hp & Hc & Hk & -> & W).
    cbn [In] in He, Hp, Hc, Hk.
    repeat (destruct He as [<-|He]; [|]); try contradiction;
    repeat (destruct Hp as [<-|Hp]; [|]); try contradiction;
    repeat (destruct Hc as [<-|Hc]; [|]); try contradiction;
    repeat (destruct Hk as [<-|Hk]; [|]); try contradiction;
    solve [left; exists r; split; [reflexivity|exact W] | right; exists r; split; [reflexivity|exact W]].
Qed.

Lemma f_opens_iff : forall l, f_inc l = true <-> f_opens l.
Proof.
  intros l. unfold f_inc, f_opens.
  pose proof (unit_iff l) as U. cbn zeta in U. cbn zeta. rewrite orb_true_iff in U.
  rewrite !orb_true_iff, U, !some_keyword, if_then_iff, type_def_iff, module_iff. clear U.
  assert (K : forall k, In k ["do"; "else"; "interface"; "program"]%string -> (exists r, l = T k ++ r /\ word_end r) ->
    exists k0 r, In k0 ["do"; "else"; "interface"; "program"]%string /\ l = T k0 ++ r /\ word_end r).
  { intros k I (r & E & W). exists k, r. auto. }
  split.
  - intros [[[[[[[H|H]|H]|H]|H]|H]|H]|H].
    + left. apply (K "do"%string); [cbn; auto|exact H].
    + right. left. exact H.
    + left. apply (K "else"%string); [cbn; auto|exact H].
    + right. right. left. exact H.
    + right. right. right. left. exact H.
    + left. apply (K "interface"%string); [cbn; auto|exact H].
    + right. right. right. right. exact H.
    + left. apply (K "program"%string); [cbn; auto|exact H].
  - intros [(k & r & I & E & W)|[H|[H|[H|H]]]].
    + cbn in I. destruct I as [<-|[<-|[<-|[<-|[]]]]]; 
        [do 7 left|do 5 left; right|do 2 left; right|right]; exists r; split; assumption.
    + do 6 left. right. exact H.
    + do 4 left. right. exact H.
    + do 3 left. right. exact H.
    + left. right. exact H.
Qed.

Lemma f_depth : forall ls dl, map skip_blanks ls = map snd dl -> nested f_opens f_closes f_blank 0 dl ->
  indent_f ls = map (fun x => repeat SP (2 * fst x) ++ snd x) dl.
Proof.
  intros ls dl E N. unfold indent_f, indent_lines. rewrite map_lstrip, E.
  rewrite <- (app_nil_r (map snd dl)).
  destruct (nested_indent f_inc f_dec f_kept f_opens f_closes f_blank 2) as [H _].
  - intros l. unfold f_kept, f_blank. rewrite orb_true_iff, empty_line_iff, starts_iff. unfold c_blank. tauto.
  - intros l _. apply f_opens_iff.
  - intros l _. apply f_closes_iff.
  - change 0%Z with (Z.of_nat 0). rewrite (H 0 dl N []). cbn [indent_from]. rewrite app_nil_r.
    apply map_ext. intros [d l]. cbn [fst snd]. rewrite Nat.mul_comm. reflexivity.
Qed.

(* ------------------------------------------------------------------------- *)
(* Indentation of a text *)

Definition CR : ascii := ch 13.
Definition nob (l : text) : Prop := Forall (fun c => boundary c = false) l.
Definition ended (l : text) : Prop :=
  exists b, nob b /\ ((exists c, boundary c = true /\ l = b ++ [c]) \/ l = b ++ [CR; NL]).

Fixpoint wf (L : list text) : Prop :=
  match L with
  | [] => True
  | l :: L' => (ended l /\ wf L') \/ (L' = [] /\ nob l)
  end.

Lemma splitlines_wf : forall n s acc, List.length s <= n -> nob acc -> wf (splitlines s acc).
Proof.
  induction n as [|n IH]; intros s acc L A.
  - destruct s; [|cbn in L; lia]. cbn [splitlines]. destruct acc as [|x acc]; [exact I|]. right. split; [reflexivity|exact A].
  - destruct s as [|c s].
    + cbn [splitlines]. destruct acc as [|x acc]; [exact I|]. right. split; [reflexivity|exact A].
    + cbn [List.length] in L. cbn [splitlines]. destruct (boundary c) eqn:B.
      * destruct s as [|d s].
        -- left. split; [|exact I]. exists acc. split; [exact A|]. left. exists c. split; [exact B|reflexivity].
        -- destruct (Ascii.eqb c (ch 13) && Ascii.eqb d (ch 10)) eqn:E.
           ++ apply andb_true_iff in E. destruct E as [E1 E2]. apply Ascii.eqb_eq in E1, E2. subst c d.
              left. split.
              ** exists acc. split; [exact A|]. right. reflexivity.
              ** apply IH; [cbn in L; lia|constructor].
           ++ left. split.
              ** exists acc. split; [exact A|]. left. exists c. split; [exact B|reflexivity].
              ** apply IH; [lia|constructor].
      * apply IH; [lia|]. apply Forall_app. split; [exact A|]. constructor; [exact B|constructor].
Qed.

Lemma splitlines_prefix : forall b s acc, nob b -> splitlines (b ++ s) acc = splitlines s (acc ++ b).
Proof.
  induction b as [|c b IH]; intros s acc N; [rewrite app_nil_r; reflexivity|].
  inversion N as [|? ? B N']; subst. cbn [app splitlines]. rewrite B, (IH _ _ N'), <- app_assoc. reflexivity.
Qed.

(* What the lines become when they are joined and split again. *)
Fixpoint merge (L : list text) : list text :=
  match L with
  | [] => []
  | l :: L' =>
    match L' with
    | [] => if l then [] else [l]
    | n :: L'' => if ends [CR] l && eqt n [NL] then (l ++ n) :: merge L'' else l :: merge L'
    end
  end.

Lemma merge_two : forall l n L, merge (l :: n :: L) = if ends [CR] l && eqt n [NL] then (l ++ n) :: merge L else l :: merge (n :: L).
Proof. reflexivity. Qed.

Lemma ends_snoc : forall l c d, ends [c] (l ++ [d]) = Ascii.eqb c d.
Proof. intros l c d. unfold ends. rewrite rev_app_distr. cbn. rewrite andb_true_r. reflexivity. Qed.

Lemma ended_nonempty : forall l, ended l -> l <> [].
Proof. intros l (b & _ & [(c & _ & ->)| ->]) E; apply app_eq_nil in E; destruct E; discriminate. Qed.

Lemma nob_not_nl : forall c l, nob (c :: l) -> Ascii.eqb c (ch 10) = false.
Proof.
  intros c l N. inversion N as [|? ? B _]; subst. destruct (Ascii.eqb c (ch 10)) eqn:E; [|reflexivity].
  apply Ascii.eqb_eq in E. subst c. discriminate.
Qed.

(* the line that starts with a newline *)
Lemma starts_nl : forall l, (ended l \/ nob l) -> match l with c :: _ => Ascii.eqb c (ch 10) | [] => false end = eqt l [NL].
Proof.
  intros l [(b & N & [(c & B & ->)| ->])|N].
  - destruct b as [|x b].
    + cbn [app eqt]. rewrite andb_true_r. reflexivity.
    + cbn [app eqt]. rewrite (nob_not_nl _ _ N). replace (Ascii.eqb x NL) with (Ascii.eqb x (ch 10)) by reflexivity.
      rewrite (nob_not_nl _ _ N). reflexivity.
  - destruct b as [|x b]; [reflexivity|]. cbn [app eqt]. replace (Ascii.eqb x NL) with (Ascii.eqb x (ch 10)) by reflexivity.
    rewrite (nob_not_nl _ _ N). reflexivity.
  - destruct l as [|x l]; [reflexivity|]. cbn [eqt]. replace (Ascii.eqb x NL) with (Ascii.eqb x (ch 10)) by reflexivity.
    rewrite (nob_not_nl _ _ N). reflexivity.
Qed.

Lemma splitlines_concat : forall k L, List.length L <= k -> wf L -> splitlines (concat L) [] = merge L.
Proof.
  induction k as [|k IH]; intros L LE W; [destruct L; [reflexivity|cbn in LE; lia]|].
  destruct L as [|l L]; [reflexivity|]. cbn [List.length] in LE.
  destruct W as [[(b & N & E) W]|[-> N]].
  - cbn [concat].
    destruct E as [(c & B & ->)| ->].
    + rewrite <- app_assoc, splitlines_prefix by exact N. cbn [app].
      destruct L as [|n L].
      * cbn [concat splitlines merge]. rewrite B. destruct (b ++ [c]) eqn:E; [destruct b; discriminate|reflexivity].
      * rewrite merge_two, ends_snoc.
        assert (WN : ended n \/ nob n) by (destruct W as [[? _]|[_ ?]]; [left|right]; assumption).
        assert (S1 : splitlines (c :: concat (n :: L)) b =
          if Ascii.eqb c (ch 13) && match n with x :: _ => Ascii.eqb x (ch 10) | [] => false end
          then (b ++ [c; ch 10]) :: splitlines (tl (concat (n :: L))) [] else (b ++ [c]) :: splitlines (concat (n :: L)) []).
        { cbn [splitlines]. rewrite B. destruct n as [|x n].
          - assert (L = []) as ->. { destruct W as [[W _]|[W _]]; [elim (ended_nonempty _ W eq_refl)|exact W]. }
            cbn. rewrite andb_false_r. reflexivity.
          - cbn [concat app tl]. destruct (Ascii.eqb c (ch 13) && Ascii.eqb x (ch 10)) eqn:E; [|reflexivity].
            apply andb_true_iff in E. destruct E as [_ E]. apply Ascii.eqb_eq in E. subst x. reflexivity. }
        rewrite S1, (starts_nl n WN). change (Ascii.eqb CR c) with (Ascii.eqb (ch 13) c). rewrite (Ascii.eqb_sym (ch 13) c).
        destruct (Ascii.eqb c (ch 13) && eqt n [NL]) eqn:E.
        -- apply andb_true_iff in E. destruct E as [_ E]. apply eqt_eq in E. subst n.
           rewrite <- app_assoc. f_equal. cbn [concat app tl]. apply IH; [cbn in LE; lia|].
           destruct W as [[_ W]|[W _]]; [exact W|subst L; exact I].
        -- f_equal. apply IH; [lia|exact W].
    + rewrite <- app_assoc, splitlines_prefix by exact N. cbn [app].
      assert (S1 : splitlines (CR :: NL :: concat L) b = (b ++ [CR; NL]) :: splitlines (concat L) []) by reflexivity.
      rewrite S1, (IH L ltac:(lia) W).
      destruct L as [|n L].
      * cbn [merge]. destruct (b ++ [CR; NL]) eqn:E; [destruct b; discriminate|reflexivity].
      * rewrite merge_two. replace (b ++ [CR; NL]) with ((b ++ [CR]) ++ [NL]) by (rewrite <- app_assoc; reflexivity).
        rewrite ends_snoc. reflexivity.
  - cbn [concat]. rewrite splitlines_prefix by exact N. cbn [splitlines app merge]. destruct l; reflexivity.
Qed.

Lemma nob_pad : forall n l, nob l -> nob (repeat SP n ++ l).
Proof. intros n l N. apply Forall_app. split; [|exact N]. apply Forall_forall. intros c I. apply repeat_spec in I. subst c. reflexivity. Qed.

Lemma nob_skip : forall l, nob l -> nob (skip_blanks l).
Proof.
  induction l as [|c l IH]; intros N; [exact N|]. cbn [skip_blanks].
  destruct (Ascii.eqb c (ch 32) || Ascii.eqb c (ch 9)); [apply IH; inversion N; assumption|exact N].
Qed.

Lemma boundary_not_blank : forall c, boundary c = true -> (Ascii.eqb c (ch 32) || Ascii.eqb c (ch 9)) = false.
Proof.
  intros c B. apply is_in_iff in B. cbn [In] in B.
  repeat (destruct B as [<-|B]; [reflexivity|]). contradiction.
Qed.

Lemma ended_pad : forall n l, ended l -> ended (repeat SP n ++ skip_blanks l).
Proof.
  intros n l (b & N & H). exists (repeat SP n ++ skip_blanks b). split; [apply nob_pad, nob_skip; exact N|].
  destruct H as [(c & B & ->)| ->].
  - left. exists c. split; [exact B|]. rewrite skip_app by (apply boundary_not_blank; exact B). apply app_assoc.
  - right. rewrite (skip_app b CR [NL]) by reflexivity. apply app_assoc.
Qed.

Lemma indent_wf : forall inc dec kept w L level, wf L -> wf (indent_from inc dec kept w level (map skip_blanks L)).
Proof.
  intros inc dec kept w. induction L as [|l L IH]; intros level W; [exact I|].
  cbn [map indent_from].
  destruct W as [[E W]|[-> N]].
  - destruct (kept (skip_blanks l)); left; (split; [|apply IH; exact W]).
    + exact (ended_pad 0 l E).
    + apply ended_pad. exact E.
  - cbn [map indent_from]. destruct (kept (skip_blanks l)); right; (split; [reflexivity|]).
    + apply nob_skip; exact N.
    + apply nob_pad, nob_skip; exact N.
Qed.

Lemma indent_merge : forall inc dec kept w, kept [] = true -> kept [NL] = true ->
  (forall l, inc (l ++ [CR; NL]) = inc (l ++ [CR])) -> (forall l, dec (l ++ [CR; NL]) = dec (l ++ [CR])) ->
  (forall l, kept (l ++ [CR; NL]) = kept (l ++ [CR])) ->
  forall k L level, List.length L <= k ->
  concat (indent_from inc dec kept w level (map skip_blanks (merge L))) = concat (indent_from inc dec kept w level (map skip_blanks L)).
Proof.
  intros inc dec kept w K0 K1 HI HD HK. induction k as [|k IH]; intros L level LE; [destruct L; [reflexivity|cbn in LE; lia]|].
  destruct L as [|l L]; [reflexivity|]. destruct L as [|n L].
  - cbn [merge]. destruct l; [|reflexivity]. cbn [map skip_blanks indent_from concat]. rewrite K0. reflexivity.
  - rewrite merge_two. destruct (ends [CR] l && eqt n [NL]) eqn:E.
    + apply andb_true_iff in E. destruct E as [E1 E2]. apply eqt_eq in E2. subst n.
      apply ends_iff in E1. destruct E1 as (b & ->). rewrite <- app_assoc. cbn [app map].
      rewrite (skip_app b CR [NL]), (skip_app b CR []) by reflexivity. change (skip_blanks [NL]) with [NL].
      cbn [indent_from]. rewrite HK, HD, HI, K1.
      destruct (kept (skip_blanks b ++ [CR])); cbn [concat]; rewrite (IH L) by (cbn in LE; lia); rewrite <- !app_assoc; reflexivity.
    + cbn [map indent_from]. destruct (kept (skip_blanks l)); cbn [concat].
      * f_equal. apply (IH (n :: L)). cbn in LE |- *. lia.
      * f_equal. apply (IH (n :: L)). cbn in LE |- *. lia.
Qed.

Lemma indent_text_twice : forall inc dec kept w s, kept [] = true -> kept [NL] = true ->
  (forall l, inc (l ++ [CR; NL]) = inc (l ++ [CR])) -> (forall l, dec (l ++ [CR; NL]) = dec (l ++ [CR])) ->
  (forall l, kept (l ++ [CR; NL]) = kept (l ++ [CR])) ->
  indent_text (indent_lines inc dec kept w) (indent_text (indent_lines inc dec kept w) s)
  = indent_text (indent_lines inc dec kept w) s.
Proof.
  intros inc dec kept w s K0 K1 HI HD HK. unfold indent_text.
  pose proof (splitlines_wf _ s [] (Nat.le_refl _) ltac:(constructor)) as W.
  set (L := splitlines s []) in *. clearbody L.
  pose proof (indent_twice inc dec kept w L) as T2.
  assert (W2 : wf (indent_lines inc dec kept w L)).
  { unfold indent_lines. rewrite map_lstrip. apply indent_wf. exact W. }
  rewrite (splitlines_concat _ _ (Nat.le_refl _) W2).
  rewrite <- T2 at 2. unfold indent_lines at 1 3. rewrite !map_lstrip.
  apply (indent_merge inc dec kept w K0 K1 HI HD HK _ _ _ (Nat.le_refl _)).
Qed.

Lemma starts_snoc : forall p l c, ~ In c p -> starts p (l ++ [c]) = starts p l.
Proof.
  induction p as [|a p IH]; intros l c N; [reflexivity|]. destruct l as [|b l].
  - cbn [app starts]. replace (Ascii.eqb a c) with false; [reflexivity|]. symmetry. apply Ascii.eqb_neq. intros ->. apply N. left. reflexivity.
  - cbn [app starts]. f_equal. apply IH. intros H. apply N. right. exact H.
Qed.

Lemma starts_cr : forall p l, ~ In NL p -> starts p (l ++ [CR; NL]) = starts p (l ++ [CR]).
Proof.
  intros p l N. replace (l ++ [CR; NL]) with ((l ++ [CR]) ++ [NL]) by (rewrite <- app_assoc; reflexivity).
  apply starts_snoc. exact N.
Qed.

Lemma skip_cr : forall p l, ~ In CR p -> starts p (l ++ [CR]) = true -> exists l', l = p ++ l'.
Proof.
  intros p l N S. rewrite starts_snoc in S by exact N. apply starts_iff in S. exact S.
Qed.

Lemma keyword_cr : forall k l, ~ In CR k -> ~ In NL k ->
  (keyword k (l ++ [CR]) = None /\ keyword k (l ++ [CR; NL]) = None)
  \/ exists l', l = k ++ l' /\ keyword k (l ++ [CR]) = Some (l' ++ [CR]) /\ keyword k (l ++ [CR; NL]) = Some (l' ++ [CR; NL]).
Proof.
  intros k l N1 N2. unfold keyword. rewrite starts_cr by exact N2.
  destruct (starts k (l ++ [CR])) eqn:S; [|left; split; reflexivity].
  destruct (skip_cr k l N1 S) as (l' & ->). rewrite <- !app_assoc, !skipn_exact.
  destruct l' as [|c l'].
  - right. exists []. split; [reflexivity|]. split; reflexivity.
  - cbn [app]. destruct (word_char c); [left; split; reflexivity|]. right. exists (c :: l'). split; [reflexivity|]. split; reflexivity.
Qed.

Lemma some_keyword_cr : forall k l, ~ In CR k -> ~ In NL k -> some (keyword k (l ++ [CR; NL])) = some (keyword k (l ++ [CR])).
Proof. intros k l N1 N2. destruct (keyword_cr k l N1 N2) as [[-> ->]|(l' & _ & -> & ->)]; reflexivity. Qed.

Lemma optional_cr : forall k l, ~ In CR k -> ~ In NL k ->
  exists l', optional k (l ++ [CR]) = l' ++ [CR] /\ optional k (l ++ [CR; NL]) = l' ++ [CR; NL].
Proof.
  intros k l N1 N2. unfold optional. rewrite starts_cr by exact N2.
  destruct (starts k (l ++ [CR])) eqn:S.
  - destruct (skip_cr k l N1 S) as (l' & ->). exists l'. rewrite <- !app_assoc, !skipn_exact. split; reflexivity.
  - exists l. split; reflexivity.
Qed.

Ltac notin := let H := fresh in intros H; cbn in H; repeat (destruct H as [H|H]; [discriminate H|]); contradiction.

Lemma app_cr : forall (l : text), l ++ [CR; NL] = (l ++ [CR]) ++ [NL].
Proof. intros l. rewrite <- app_assoc. reflexivity. Qed.

Lemma if_then_cr : forall l, if_then (l ++ [CR]) = false /\ if_then (l ++ [CR; NL]) = false.
Proof.
  intros l.
  assert (N : forall m, if_then m = true -> m = [] \/ exists b c, m = b ++ [c] /\ c <> CR /\ (c <> NL \/ exists b', b = b' ++ T ") then")).
  { intros m H. apply if_then_iff in H. destruct H as (c & [-> | ->] & _); right.
    - exists (T "if (" ++ c ++ T ") the"), "n"%char. split; [rewrite <- !app_assoc; reflexivity|]. split; [discriminate|left; discriminate].
    - exists (T "if (" ++ c ++ T ") then"), NL. split; [rewrite <- !app_assoc; reflexivity|]. split; [discriminate|right].
      exists (T "if (" ++ c). rewrite <- app_assoc. reflexivity. }
  split.
  - destruct (if_then (l ++ [CR])) eqn:E; [|reflexivity]. destruct (N _ E) as [Z|(b & c & E2 & C & _)].
    + destruct l; discriminate.
    + apply app_inj_tail in E2. destruct E2. congruence.
  - destruct (if_then (l ++ [CR; NL])) eqn:E; [|reflexivity]. rewrite app_cr in E. destruct (N _ E) as [Z|(b & c & E2 & C & D)].
    + destruct l; discriminate.
    + apply app_inj_tail in E2. destruct E2 as [E2 <-]. destruct D as [D|(b' & ->)]; [congruence|].
      change (T ") then") with (T ") the" ++ ["n"%char]) in E2. rewrite app_assoc in E2. apply app_inj_tail in E2.
      destruct E2 as [_ E2]. discriminate.
Qed.

Lemma f_inc_cr : forall l, f_inc (l ++ [CR; NL]) = f_inc (l ++ [CR]).
Proof.
  intros l. unfold f_inc. destruct (if_then_cr l) as [-> ->].
  destruct (optional_cr (T "elemental ") l ltac:(notin) ltac:(notin)) as (l1 & -> & ->).
  destruct (optional_cr (T "pure ") l1 ltac:(notin) ltac:(notin)) as (l2 & -> & ->).
  destruct (optional_cr (T "recursive ") l2 ltac:(notin) ltac:(notin)) as (l3 & -> & ->).
  cbn zeta. rewrite !some_keyword_cr by notin.
  assert (TD : type_def (l ++ [CR; NL]) = type_def (l ++ [CR])).
  { unfold type_def. destruct (keyword_cr (T "type") l ltac:(notin) ltac:(notin)) as [[-> ->]|(l' & _ & -> & ->)]; [reflexivity|].
    destruct l'; reflexivity. }
  rewrite TD.
  assert (MD : match keyword (T "module") (l ++ [CR; NL]) with Some r => negb (starts (T "procedure") (lstrip (Ascii.eqb SP) r)) | None => false end
    = match keyword (T "module") (l ++ [CR]) with Some r => negb (starts (T "procedure") (lstrip (Ascii.eqb SP) r)) | None => false end).
  { destruct (keyword_cr (T "module") l ltac:(notin) ltac:(notin)) as [[-> ->]|(l' & _ & -> & ->)]; [reflexivity|]. f_equal.
    assert (LS : forall z, z <> [] -> Ascii.eqb SP (hd NL z) = false -> lstrip (Ascii.eqb SP) (l' ++ z) = lstrip (Ascii.eqb SP) l' ++ z).
    { intros z Z H. induction l' as [|x l' IH].
      - destruct z as [|y z]; [congruence|]. cbn [app lstrip hd] in *. rewrite H. reflexivity.
      - cbn [app lstrip]. destruct (Ascii.eqb SP x); [exact IH|reflexivity]. }
    rewrite (LS [CR; NL]), (LS [CR]) by (discriminate || reflexivity). apply starts_cr. notin. }
  rewrite MD. reflexivity.
Qed.

Lemma f_dec_cr : forall l, f_dec (l ++ [CR; NL]) = f_dec (l ++ [CR]).
Proof.
  intros l. unfold f_dec. rewrite !starts_cr by notin. f_equal.
  destruct (starts (T "end") (l ++ [CR])) eqn:S; [|reflexivity]. cbn [andb].
  destruct (skip_cr (T "end") l ltac:(notin) S) as (l' & ->). rewrite <- !app_assoc.
  change (skipn 3 (T "end" ++ l' ++ [CR; NL])) with (l' ++ [CR; NL]).
  change (skipn 3 (T "end" ++ l' ++ [CR])) with (l' ++ [CR]).
  destruct (optional_cr (T " ") l' ltac:(notin) ltac:(notin)) as (l1 & -> & ->).
  cbn zeta. cbn [existsb]. rewrite !starts_cr by notin. reflexivity.
Qed.

Lemma empty_cr : forall l, empty_line (l ++ [CR; NL]) = false /\ empty_line (l ++ [CR]) = false.
Proof.
  intros l. split.
  - destruct (empty_line (l ++ [CR; NL])) eqn:E; [|reflexivity]. apply empty_line_iff in E.
    destruct E as [E|E]; destruct l as [|x l]; try discriminate. destruct l; discriminate.
  - destruct (empty_line (l ++ [CR])) eqn:E; [|reflexivity]. apply empty_line_iff in E.
    destruct E as [E|E]; destruct l as [|x l]; try discriminate. destruct l; discriminate.
Qed.

Lemma indent_c_twice : forall s, indent_text indent_c (indent_text indent_c s) = indent_text indent_c s.
Proof.
  intros s. apply indent_text_twice; try reflexivity.
  - intros l. unfold c_inc. rewrite app_cr. unfold ends. rewrite !rev_app_distr. cbn [rev app starts].
    reflexivity.
  - intros l. unfold c_dec. rewrite starts_cr by notin. f_equal. rewrite app_cr. destruct l; reflexivity.
  - intros l. destruct (empty_cr l) as [-> ->]. reflexivity.
Qed.

Lemma indent_f_twice : forall s, indent_text indent_f (indent_text indent_f s) = indent_text indent_f s.
Proof.
  intros s. apply indent_text_twice; try reflexivity.
  - exact f_inc_cr.
  - exact f_dec_cr.
  - intros l. unfold f_kept. destruct (empty_cr l) as [-> ->]. rewrite starts_cr by notin. reflexivity.
Qed.

(* ------------------------------------------------------------------------- *)
(* Literals in a printed C line *)

Lemma escaped_nob : forall x, ~ In x [ch 28; ch 29; ch 30; ch 133] -> forallb (fun c => negb (boundary c)) (escaped x) = true.
Proof.
  intros x N.
  assert (H : is_in x [ch 28; ch 29; ch 30; ch 133] = false).
  { destruct (is_in x _) eqn:E; [|reflexivity]. elim N. apply is_in_iff. exact E. }
  clear N. revert H. destruct x as [[|] [|] [|] [|] [|] [|] [|] [|]]; vm_compute; congruence.
Qed.

Lemma forallb_app2 : forall (f : ascii -> bool) a b, forallb f (a ++ b) = forallb f a && forallb f b.
Proof. intros f a b. apply forallb_app. Qed.

Lemma c_literal_nob : forall s, (forall c, In c s -> ~ In c [ch 28; ch 29; ch 30; ch 133]) ->
  forallb (fun c => negb (boundary c)) (c_literal s) = true.
Proof.
  intros s N. rewrite c_literal_escaped. cbn [forallb]. rewrite forallb_app2.
  replace (negb (boundary (ch 34))) with true by reflexivity.
  replace (forallb (fun c => negb (boundary c)) [ch 34]) with true by reflexivity.
  rewrite andb_true_r. cbn [andb].
  induction s as [|x s IH]; [reflexivity|]. cbn [flat_map]. rewrite forallb_app2, escaped_nob.
  - apply IH. intros c I. apply N. right. exact I.
  - apply N. left. reflexivity.
Qed.

Lemma c_literal_line : forall pre s post,
  (forall c, In c (pre ++ post) -> boundary c = false) -> (forall c, In c s -> ~ In c [ch 28; ch 29; ch 30; ch 133]) ->
  doprint_c (pre ++ c_literal s ++ post ++ [NL]) = skip_blanks pre ++ c_literal s ++ post ++ [NL].
Proof.
  intros pre s post NB NS. unfold doprint_c.
  replace (pre ++ c_literal s ++ post ++ [NL]) with ((pre ++ c_literal s ++ post) ++ [NL]) by (rewrite <- !app_assoc; reflexivity).
  rewrite splitlines_one.
  - cbn [app]. unfold indent_c, indent_lines. cbn [map]. rewrite <- !app_assoc, lstrip_skip.
    unfold c_literal at 1. cbn zeta. cbn [app]. rewrite skip_app by reflexivity.
    cbn [indent_from].
    match goal with |- context [empty_line ?l] => destruct (empty_line l) eqn:E end.
    + exfalso. apply empty_line_iff in E. destruct E as [E|E].
      * destruct (skip_blanks pre); discriminate.
      * destruct (skip_blanks pre) as [|x p]; [discriminate|]. injection E as _ E. destruct p; discriminate.
    + cbn [concat]. rewrite app_nil_r.
      match goal with |- context [if c_dec ?l then _ else _] => destruct (c_dec l) end; reflexivity.
  - rewrite !forallb_app2, c_literal_nob by exact NS. cbn [andb].
    rewrite <- forallb_app2. apply forallb_forall. intros c I. rewrite (NB c I). reflexivity.
Qed.
