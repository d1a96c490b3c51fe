(* Proofs about the wrapping of Fortran lines. *)
From Coq Require Import Bool String Ascii Arith ZArith Lia List.
From Verif Require Import Text_Model Text_Spec Text_Proofs.
Import ListNotations.
Open Scope list_scope.

(* ------------------------------------------------------------------------- *)
(* Where a line is cut *)

Definition sp (x y : ascii) : bool :=
  (my_alnum y && negb (my_alnum x)) || (negb (my_alnum y) && my_alnum x)
  || (my_white y && negb (my_white x)) || (negb (my_white y) && my_white x).

Lemma class_eq : forall c, class_of c = (if my_alnum c then Word else if my_white c then Blank_or_paren else Operator).
Proof. intros c. destruct c as [[|] [|] [|] [|] [|] [|] [|] [|]]; vm_compute; reflexivity. Qed.

Lemma alnum_white : forall c, my_alnum c && my_white c = false.
Proof. intros c. destruct c as [[|] [|] [|] [|] [|] [|] [|] [|]]; vm_compute; reflexivity. Qed.

Lemma sp_separable : forall x y, sp x y = true <-> separable x y.
Proof.
  intros x y. unfold sp, separable. rewrite !class_eq. pose proof (alnum_white x) as X. pose proof (alnum_white y) as Y.
  destruct (my_alnum x), (my_alnum y), (my_white x), (my_white y); cbn in *; split; intros H; congruence.
Qed.

Definition border (r : text) (i : nat) : Prop := exists x y, nth_error r (i - 1) = Some x /\ nth_error r i = Some y /\ sp x y = true.

Lemma split_at : forall r i, 1 <= i -> i < List.length r ->
  exists x y, nth_error r (i - 1) = Some x /\ nth_error r i = Some y /\ split r (Z.of_nat i) = Some (sp x y).
Proof.
  intros r i A B.
  destruct (nth_error r i) as [y|] eqn:Y; [|apply nth_error_None in Y; lia].
  destruct (nth_error r (i - 1)) as [x|] eqn:X; [|apply nth_error_None in X; lia].
  exists x, y. split; [reflexivity|]. split; [reflexivity|].
  unfold split, at_. cbn zeta.
  replace (0 <=? Z.of_nat i)%Z with true by (symmetry; apply Z.leb_le; lia).
  replace (0 <=? Z.of_nat i - 1)%Z with true by (symmetry; apply Z.leb_le; lia).
  rewrite Nat2Z.id, Y. replace (Z.to_nat (Z.of_nat i - 1)) with (i - 1) by lia. rewrite X. reflexivity.
Qed.

Lemma split_down_spec : forall steps r n i, 1 <= i -> i <= n -> n < List.length r -> i <= steps ->
  (forall k, i < k -> k <= n -> ~ border r k) ->
  exists pos, split_down steps r (Z.of_nat n) (Z.of_nat i) = Some (Z.of_nat pos) /\ 1 <= pos <= n
    /\ (border r pos \/ (pos = n /\ forall k, 1 <= k -> k <= n -> ~ border r k)).
Proof.
  induction steps as [|steps IH]; intros r n i A B L S N; [lia|].
  destruct (split_at r i A ltac:(lia)) as (x & y & X & Y & E).
  cbn [split_down]. rewrite E. destruct (sp x y) eqn:P.
  - exists i. split; [reflexivity|]. split; [lia|]. left. exists x, y. auto.
  - assert (NB : ~ border r i). { intros (x' & y' & X' & Y' & P'). congruence. }
    destruct (Nat.eq_dec i 1) as [->|I1].
    + exists n. split; [reflexivity|]. split; [lia|]. right. split; [reflexivity|].
      intros k K1 K2. destruct (Nat.eq_dec k 1) as [->|]; [exact NB|]. apply N; lia.
    + replace (Z.of_nat i - 1 =? 0)%Z with false by (symmetry; apply Z.eqb_neq; lia).
      replace (Z.of_nat i - 1)%Z with (Z.of_nat (i - 1)) by lia.
      apply IH; try lia. intros k K1 K2. destruct (Nat.eq_dec k i) as [->|]; [exact NB|]. apply N; lia.
Qed.

Lemma split_pos_spec : forall r n, 1 <= n ->
  exists pos, split_pos r (Z.of_nat n) = Some (Z.of_nat pos)
    /\ ((List.length r <= n /\ pos = List.length r)
        \/ (n < List.length r /\ 1 <= pos <= n
            /\ (border r pos \/ (pos = n /\ forall k, 1 <= k -> k <= n -> ~ border r k)))).
Proof.
  intros r n N. unfold split_pos.
  destruct (Z.of_nat (List.length r) <=? Z.of_nat n)%Z eqn:E.
  - apply Z.leb_le in E. exists (List.length r). split; [reflexivity|]. left. lia.
  - apply Z.leb_gt in E.
    destruct (split_down_spec (2 + Z.to_nat (Z.of_nat n) + List.length r) r n n ltac:(lia) ltac:(lia) ltac:(lia) ltac:(lia))
      as (pos & P & B & C).
    + intros k K1 K2. lia.
    + exists pos. split; [exact P|]. right. split; [lia|]. split; assumption.
Qed.

Lemma before_nat : forall l p, before l (Z.of_nat p) = firstn p l.
Proof.
  intros l p. unfold before, slice_at. cbn zeta.
  replace (0 <=? Z.of_nat p)%Z with true by (symmetry; apply Z.leb_le; lia). rewrite Nat2Z.id. reflexivity.
Qed.
Lemma after_nat : forall l p, after l (Z.of_nat p) = skipn p l.
Proof.
  intros l p. unfold after, slice_at. cbn zeta.
  replace (0 <=? Z.of_nat p)%Z with true by (symmetry; apply Z.leb_le; lia). rewrite Nat2Z.id. reflexivity.
Qed.

(* ------------------------------------------------------------------------- *)
(* Positions in literals *)

Fixpoint expected (q : option ascii) (l : text) : list bool :=
  match l with
  | [] => []
  | x :: l' => match q with Some _ => true | None => quote x end :: expected (next_quote q x) l'
  end.

Lemma find_app : forall d a b j, find d a = Some j -> find d (a ++ b) = Some j.
Proof.
  intros d. induction a as [|x a IH]; intros b j H; [discriminate|]. cbn [app find] in *.
  destruct (Ascii.eqb x d); [exact H|]. destruct (find d a) as [k|] eqn:E; [|discriminate].
  rewrite (IH b k eq_refl). exact H.
Qed.

Lemma plain_find : forall l d, plain_from (Some d) l -> exists j, find d l = Some j.
Proof.
  induction l as [|x l IH]; intros d P; [discriminate|]. cbn [plain_from next_quote] in P. destruct P as [_ P].
  cbn [find]. destruct (Ascii.eqb x d); [eexists; reflexivity|].
  destruct (IH d P) as (j & ->). eexists; reflexivity.
Qed.

Lemma quote_is_in : forall c, is_in c [ch 34; ch 39] = quote c.
Proof. intros c. unfold is_in, quote. cbn [existsb]. rewrite orb_false_r. reflexivity. Qed.

Lemma inside_expected : forall l q k, plain_from q l ->
  match q with None => k = 0 | Some d => exists j, find d l = Some j /\ k = S j end ->
  inside_quotes (l ++ [NL]) k = expected q (l ++ [NL]).
Proof.
  induction l as [|x l IH]; intros q k P K.
  - cbn in P. subst q. subst k. reflexivity.
  - destruct q as [d|].
    + destruct K as (j & F & ->). cbn [plain_from] in P. destruct P as [_ P].
      cbn [app inside_quotes expected]. f_equal. apply IH; [exact P|].
      cbn [next_quote] in *. cbn [find] in F. destruct (Ascii.eqb x d) eqn:E.
      * injection F as <-. reflexivity.
      * destruct (find d l) as [j'|]; [|discriminate]. injection F as <-. exists j'. split; reflexivity.
    + subst k. cbn [plain_from] in P. destruct P as (_ & _ & _ & P).
      cbn [app inside_quotes expected]. rewrite quote_is_in. cbn [next_quote] in *.
      destruct (quote x) eqn:Q.
      * destruct (plain_find _ _ P) as (j & F). rewrite (find_app _ _ [NL] _ F). f_equal.
        apply IH; [exact P|]. exists j. split; [exact F|reflexivity].
      * f_equal. apply IH; [exact P|reflexivity].
Qed.

Lemma expected_nth : forall a q x b,
  nth (List.length a) (expected q (a ++ x :: b)) false = match quote_after q a with Some _ => true | None => quote x end.
Proof.
  induction a as [|c a IH]; intros q x b; [reflexivity|]. cbn [app expected List.length nth quote_after]. apply IH.
Qed.

Lemma expected_length : forall l q, List.length (expected q l) = List.length l.
Proof. induction l as [|x l IH]; intros q; [reflexivity|]. cbn [expected List.length]. rewrite IH. reflexivity. Qed.

Lemma quote_after_app : forall a q b, quote_after q (a ++ b) = quote_after (quote_after q a) b.
Proof. induction a as [|x a IH]; intros q b; [reflexivity|]. cbn [app quote_after]. apply IH. Qed.

(* ------------------------------------------------------------------------- *)
(* White characters *)

Lemma space_not_quote : forall c, space c = true -> quote c = false.
Proof. intros c. destruct c as [[|] [|] [|] [|] [|] [|] [|] [|]]; vm_compute; congruence. Qed.

Lemma space_quote_after : forall w q, Forall (fun c => space c = true) w -> q = None \/ (exists d, q = Some d /\ quote d = true) ->
  quote_after q w = q.
Proof.
  induction w as [|c w IH]; intros q F Q; [reflexivity|]. inversion F as [|? ? S F']; subst. cbn [quote_after].
  replace (next_quote q c) with q; [apply IH; assumption|].
  pose proof (space_not_quote c S) as N. destruct Q as [->|(d & -> & D)]; cbn [next_quote].
  - rewrite N. reflexivity.
  - destruct (Ascii.eqb c d) eqn:E; [|reflexivity]. apply Ascii.eqb_eq in E. congruence.
Qed.

Lemma quote_state : forall a q, q = None \/ (exists d, q = Some d /\ quote d = true) ->
  quote_after q a = None \/ (exists d, quote_after q a = Some d /\ quote d = true).
Proof.
  induction a as [|c a IH]; intros q Q; [exact Q|]. cbn [quote_after]. apply IH.
  destruct Q as [->|(d & -> & D)]; cbn [next_quote].
  - destruct (quote c) eqn:E; [right; exists c; auto|left; reflexivity].
  - destruct (Ascii.eqb c d); [left; reflexivity|right; exists d; auto].
Qed.

Lemma lstrip_spec : forall l, exists w, l = w ++ lstrip space l /\ Forall (fun c => space c = true) w
  /\ (forall c r, lstrip space l = c :: r -> space c = false).
Proof.
  induction l as [|c l IH].
  - exists []. split; [reflexivity|]. split; [constructor|discriminate].
  - cbn [lstrip]. destruct (space c) eqn:E.
    + destruct IH as (w & EW & F & N). exists (c :: w). split; [cbn [app]; rewrite <- EW; reflexivity|].
      split; [constructor; assumption|exact N].
    + exists []. split; [reflexivity|]. split; [constructor|]. intros c' r' H. congruence.
Qed.

Lemma rstrip_spec : forall l, exists w, l = rstrip space l ++ w /\ Forall (fun c => space c = true) w
  /\ (rstrip space l = [] \/ exists m x, rstrip space l = m ++ [x] /\ space x = false).
Proof.
  intros l. unfold rstrip. destruct (lstrip_spec (rev l)) as (w & E & F & N).
  exists (rev w). split; [|split].
  - rewrite <- rev_app_distr, <- E, rev_involutive. reflexivity.
  - apply Forall_rev. exact F.
  - destruct (lstrip space (rev l)) as [|x r] eqn:L; [left; reflexivity|].
    right. exists (rev r), x. split; [reflexivity|]. exact (N x r eq_refl).
Qed.

(* ------------------------------------------------------------------------- *)
(* Plain lines *)

Lemma plain_split : forall a q b, plain_from q (a ++ b) -> plain_from (quote_after q a) b.
Proof.
  induction a as [|x a IH]; intros q b P; [exact P|]. cbn [app plain_from] in P. cbn [quote_after]. apply IH.
  destruct q; [apply P|]. destruct P as (_ & _ & _ & P). exact P.
Qed.

Lemma plain_end : forall l q, plain_from q l -> quote_after q l = None.
Proof.
  intros l q P. rewrite <- (app_nil_r l) in P. apply plain_split in P. exact P.
Qed.

Lemma uncomment_plain : forall a q b z, plain_from q (a ++ b) -> uncomment q (a ++ z) = a ++ uncomment (quote_after q a) z.
Proof.
  induction a as [|x a IH]; intros q b z P; [reflexivity|]. cbn [app plain_from uncomment quote_after] in *.
  destruct q as [d|].
  - f_equal. apply (IH _ b). apply P.
  - destruct P as (N & _ & _ & P). replace (Ascii.eqb x (ch 33)) with false by (symmetry; apply Ascii.eqb_neq; exact N).
    f_equal. apply (IH _ b). exact P.
Qed.

Lemma plain_blanks : forall w b, Forall (fun c => space c = true) w -> plain_from None (w ++ b) -> Forall blank w.
Proof.
  induction w as [|c w IH]; intros b F P; [constructor|]. inversion F as [|? ? S F']; subst.
  cbn [app plain_from] in P. destruct P as (_ & _ & B & P).
  constructor; [exact (B S)|]. apply (IH b F'). cbn [next_quote] in P. rewrite (space_not_quote c S) in P. exact P.
Qed.

(* the last character of a piece after which no literal is open is not & *)
Lemma plain_last : forall m q x b, plain_from q (m ++ x :: b) -> quote_after q (m ++ [x]) = None ->
  (q = None \/ (exists d, q = Some d /\ quote d = true)) -> x <> ch 38.
Proof.
  intros m q x b P E Q. apply plain_split in P. rewrite quote_after_app in E.
  destruct (quote_state m q Q) as [N|(d & N & D)]; rewrite N in *; cbn in P, E.
  - apply P.
  - destruct (Ascii.eqb x d) eqn:X; [|discriminate]. apply Ascii.eqb_eq in X. subst d. intros ->. discriminate.
Qed.

Lemma not_blank_iff : forall c, (Ascii.eqb c (ch 32) || Ascii.eqb c (ch 9)) = false <-> ~ blank c.
Proof.
  intros c. unfold blank. rewrite orb_false_iff, !Ascii.eqb_neq. tauto.
Qed.

Lemma space_blank : forall c, space c = false -> (Ascii.eqb c (ch 32) || Ascii.eqb c (ch 9)) = false.
Proof. intros c. destruct c as [[|] [|] [|] [|] [|] [|] [|] [|]]; vm_compute; congruence. Qed.

Lemma continued_amp : forall l, continued (l ++ T "&") = Some l.
Proof.
  intros l. unfold continued. rewrite rev_app_distr. change (rev (T "&")) with [ch 38]. cbn [app].
  rewrite skip_not_blank by reflexivity. change (Ascii.eqb (ch 38) (ch 38)) with true. cbv iota.
  rewrite rev_involutive. reflexivity.
Qed.

Lemma continued_none : forall m x, space x = false -> x <> ch 38 -> continued (m ++ [x]) = None.
Proof.
  intros m x S A. unfold continued. rewrite rev_app_distr. cbn [rev app].
  rewrite skip_not_blank by (apply space_blank; exact S).
  replace (Ascii.eqb x (ch 38)) with false by (symmetry; apply Ascii.eqb_neq; exact A). reflexivity.
Qed.

Lemma without_added : forall m x, x <> NL -> without_newline (newline_at_end (m ++ [x])) = m ++ [x].
Proof.
  intros m x N. unfold newline_at_end.
  assert (E : ends [NL] (m ++ [x]) = false).
  { unfold ends. rewrite rev_app_distr. cbn [rev app starts].
    replace (Ascii.eqb NL x) with false; [reflexivity|]. symmetry. apply Ascii.eqb_neq. congruence. }
  rewrite E. unfold without_newline. rewrite rev_app_distr. cbn [rev app].
  replace (Ascii.eqb NL (ch 10)) with true by reflexivity. rewrite rev_involutive. reflexivity.
Qed.

(* ------------------------------------------------------------------------- *)
(* The same statement *)

Fixpoint last_of (p : option ascii) (m : text) : option ascii :=
  match m with
  | [] => p
  | c :: m' => last_of (Some c) m'
  end.

Lemma last_of_snoc : forall m p x, last_of p (m ++ [x]) = Some x.
Proof. induction m as [|c m IH]; intros p x; [reflexivity|]. cbn [app last_of]. apply IH. Qed.

Lemma respaced_prefix : forall may m q p a b, respaced may (quote_after q m) (last_of p m) a b -> respaced may q p (m ++ a) (m ++ b).
Proof.
  intros may. induction m as [|c m IH]; intros q p a b H; [exact H|].
  cbn [app]. apply rs_char. apply IH. exact H.
Qed.

Lemma respaced_refl : forall may a q p, respaced may q p a a.
Proof.
  intros may. induction a as [|c a IH]; intros q p; [apply rs_nil|]. apply rs_char. apply IH.
Qed.

(* ------------------------------------------------------------------------- *)
(* Reading a continuation line *)

Definition read_body (q : option ascii) (b : text) (rest : list text) : option text :=
  let t := uncomment q b in
  match continued t with
  | Some t' => match statement false (quote_after q t') rest with Some s => Some (t' ++ s) | None => None end
  | None => match quote_after q t, rest with None, [] => Some t | _, _ => None end
  end.

Definition pad (tab : nat) (last : bool) : text := if last then [] else repeat SP (tab + 6).

Lemma hunk_start_plain : forall tab last, hunk_start Plain tab last = if last then repeat SP tab ++ T "&" else repeat SP (tab + 6).
Proof.
  intros tab last. unfold hunk_start. destruct last; [reflexivity|]. rewrite repeat_app. reflexivity.
Qed.

Lemma statement_line : forall tab last q m x rest, x <> NL ->
  (last = false -> q = None /\ exists c r, m ++ [x] = c :: r /\ space c = false /\ c <> ch 38) ->
  statement false q (newline_at_end (hunk_start Plain tab last ++ m ++ [x]) :: rest) = read_body q (pad tab last ++ m ++ [x]) rest.
Proof.
  intros tab last q m x rest N H. cbn [statement]. rewrite app_assoc, without_added by exact N. rewrite <- app_assoc.
  rewrite hunk_start_plain. destruct last.
  - rewrite <- app_assoc, skip_pad. change (T "&" ++ m ++ [x]) with (ch 38 :: (m ++ [x])).
    rewrite skip_not_blank by reflexivity. change (Ascii.eqb (ch 38) (ch 38)) with true. reflexivity.
  - destruct (H eq_refl) as (-> & c & r & E & S & A). rewrite skip_pad, E.
    rewrite skip_not_blank by (apply space_blank; exact S).
    replace (Ascii.eqb c (ch 38)) with false by (symmetry; apply Ascii.eqb_neq; exact A). reflexivity.
Qed.

Lemma pad_uncomment : forall n q z, q = None -> uncomment q (repeat SP n ++ z) = repeat SP n ++ uncomment None z.
Proof. induction n as [|n IH]; intros q z ->; [reflexivity|]. cbn [repeat app uncomment]. cbn -[uncomment repeat]. f_equal. apply IH. reflexivity. Qed.

Lemma pad_quote : forall n, quote_after None (repeat SP n) = None.
Proof. induction n as [|n IH]; [reflexivity|exact IH]. Qed.

Lemma read_amp : forall tab last q a c z rest, plain_from q (a ++ c) -> (last = false -> q = None) ->
  Forall blank z ->
  (z <> [] -> quote_after q a = None) ->
  read_body q (pad tab last ++ a ++ z ++ T "&") rest
  = match statement false (quote_after q a) rest with Some s => Some (pad tab last ++ a ++ z ++ s) | None => None end.
Proof.
  intros tab last q a c z rest P L Z ZN. unfold read_body. cbn zeta.
  assert (UZ : forall q', (z <> [] -> q' = None) -> uncomment q' (z ++ T "&") = z ++ T "&" /\ quote_after q' z = q').
  { clear -Z. induction Z as [|k z B Z IH]; intros q' H.
    - split; [|reflexivity]. destruct q'; reflexivity.
    - rewrite (H ltac:(discriminate)). cbn [app uncomment quote_after].
      destruct (IH None ltac:(auto)) as [E1 E2].
      destruct B as [-> | ->]; cbn -[uncomment quote_after T]; rewrite E1, E2; split; reflexivity. }
  destruct (UZ (quote_after q a) ZN) as [U1 U2].
  assert (U : uncomment q (pad tab last ++ a ++ z ++ T "&") = (pad tab last ++ a ++ z) ++ T "&").
  { destruct last; cbn [pad app].
    - rewrite (uncomment_plain a q c) by exact P. rewrite U1, <- app_assoc. reflexivity.
    - rewrite pad_uncomment by (apply L; reflexivity). rewrite (L eq_refl) in *.
      rewrite (uncomment_plain a None c) by exact P. rewrite U1, <- !app_assoc. reflexivity. }
  rewrite U, continued_amp.
  replace (quote_after q (pad tab last ++ a ++ z)) with (quote_after q a).
  - destruct (statement false (quote_after q a) rest); [|reflexivity]. rewrite <- !app_assoc. reflexivity.
  - destruct last; cbn [pad app].
    + rewrite quote_after_app, U2. reflexivity.
    + rewrite (L eq_refl) in *. rewrite !quote_after_app, pad_quote, U2. reflexivity.
Qed.

Lemma read_last : forall tab last q m x b, plain_from q (m ++ x :: b) -> (last = false -> q = None) ->
  (q = None \/ (exists d, q = Some d /\ quote d = true)) ->
  quote_after q (m ++ [x]) = None -> space x = false ->
  read_body q (pad tab last ++ m ++ [x]) [] = Some (pad tab last ++ m ++ [x]).
Proof.
  intros tab last q m x b P L Q E S. unfold read_body. cbn zeta.
  assert (U : uncomment q (pad tab last ++ m ++ [x]) = pad tab last ++ m ++ [x]).
  { assert (P' : plain_from q ((m ++ [x]) ++ b)) by (rewrite <- app_assoc; exact P).
    pose proof (uncomment_plain (m ++ [x]) q b [] P') as U. rewrite app_nil_r in U. cbn [uncomment] in U. rewrite app_nil_r in U.
    destruct last; cbn [pad app]; [exact U|].
    rewrite pad_uncomment by (apply L; reflexivity). rewrite (L eq_refl) in U. rewrite U. reflexivity. }
  rewrite U. rewrite app_assoc. rewrite continued_none; [|exact S|exact (plain_last m q x b P E Q)].
  rewrite <- app_assoc.
  replace (quote_after q (pad tab last ++ m ++ [x])) with (@None ascii); [reflexivity|].
  destruct last; cbn [pad app]; [symmetry; exact E|].
  rewrite quote_after_app. rewrite (L eq_refl) in *. rewrite pad_quote. symmetry. exact E.
Qed.

(* ------------------------------------------------------------------------- *)
(* One cut *)

Definition allows (may : ascii -> ascii -> Prop) (n : nat) (l0 : text) : Prop :=
  (forall x y, separable x y -> may x y) /\ (breakable n l0 \/ forall x y, may x y).

Lemma breakable_le : forall k n l, k <= n -> breakable k l -> breakable n l.
Proof.
  intros k n l H B u v z w E L.
  rewrite <- (firstn_skipn (n - k) v) in E.
  destruct (B (u ++ firstn (n - k) v) (skipn (n - k) v) z w) as [(v1 & x & y & v2 & E2 & S)|Q].
  - rewrite E, <- !app_assoc. reflexivity.
  - rewrite skipn_length. lia.
  - left. exists (firstn (n - k) v ++ v1), x, y, v2. split; [|exact S].
    rewrite <- app_assoc, <- E2, app_assoc, firstn_skipn. reflexivity.
  - right. rewrite <- app_assoc, firstn_skipn in Q. exact Q.
Qed.

Lemma nth_error_mid : forall (a : text) x b, nth_error (a ++ x :: b) (List.length a) = Some x.
Proof. intros a x b. rewrite nth_error_app2 by lia. rewrite Nat.sub_diag. reflexivity. Qed.

Lemma cut_cases : forall may l0 u r' q n,
  l0 = u ++ r' ++ [NL] -> q = quote_after None u -> plain_from q r' -> 1 <= n -> allows may n l0 ->
  exists pos, split_pos (r' ++ [NL]) (Z.of_nat n) = Some pos /\
  let ins := inside (expected None l0) (pos + Z.of_nat (List.length u)) in
  (ins = true /\ exists a b', r' = a ++ b' /\ a <> [] /\ b' <> [] /\ cut ins (r' ++ [NL]) pos = (a, b' ++ [NL]) /\
     List.length a <= n /\ (quote_after q a <> None \/ exists c b2, b' = c :: b2 /\ quote c = true))
  \/ (ins = false /\ exists m W rest, r' ++ [NL] = m ++ W ++ rest /\ cut ins (r' ++ [NL]) pos = (m, rest)
     /\ Forall (fun c => space c = true) W /\ (m = [] \/ exists m0 x, m = m0 ++ [x] /\ space x = false)
     /\ quote_after q m = None /\ List.length m <= n /\ m ++ W <> []
     /\ (rest = [] \/ exists y r2, rest = y :: r2 ++ [NL] /\ space y = false /\ (W = [] -> exists m0 x, m = m0 ++ [x] /\ may x y))).
Proof.
  intros may l0 u r' q n El Eq P N [M1 M2].
  set (r := r' ++ [NL]) in *.
  destruct (split_pos_spec r n N) as (pos & SP1 & C).
  exists (Z.of_nat pos). split; [exact SP1|].
  assert (QS : q = None \/ (exists d, q = Some d /\ quote d = true)) by (rewrite Eq; apply quote_state; left; reflexivity).
  assert (LR : 1 <= List.length r) by (unfold r; rewrite app_length; cbn; lia).
  assert (PB : 1 <= pos /\ pos <= List.length r /\ pos <= n) by (destruct C as [[? ->]|[? [? _]]]; lia).
  set (a := firstn pos r). set (b := skipn pos r).
  assert (AB : r = a ++ b) by (symmetry; apply firstn_skipn).
  assert (LA : List.length a = pos) by (unfold a; rewrite firstn_length; lia).
  assert (EI : inside (expected None l0) (Z.of_nat pos + Z.of_nat (List.length u))
    = match b with [] => false | x :: _ => match quote_after q a with Some _ => true | None => quote x end end).
  { unfold inside. replace (0 <=? Z.of_nat pos + Z.of_nat (List.length u))%Z with true by (symmetry; apply Z.leb_le; lia).
    replace (Z.to_nat (Z.of_nat pos + Z.of_nat (List.length u))) with (List.length (u ++ a)) by (rewrite app_length; lia).
    rewrite El, AB. destruct b as [|x b2].
    - rewrite app_nil_r. apply nth_overflow. rewrite expected_length. lia.
    - rewrite app_assoc, expected_nth, quote_after_app, <- Eq. reflexivity. }
  cbn zeta. rewrite EI. clear EI. unfold cut. rewrite before_nat, after_nat. fold a b.
  assert (SNL : space NL = true) by reflexivity.
  destruct b as [|x b2] eqn:Eb.
  - (* the rest of the line *)
    right. split; [reflexivity|].
    destruct (rstrip_spec a) as (w & EW & FW & TW).
    exists (rstrip space a), w, []. rewrite app_nil_r in AB.
    assert (QA : quote_after q a = None).
    { rewrite <- AB. unfold r. rewrite quote_after_app, (plain_end _ _ P). reflexivity. }
    split; [rewrite app_nil_r, <- EW; exact AB|]. split; [reflexivity|]. split; [exact FW|]. split; [exact TW|].
    split.
    { rewrite EW, quote_after_app in QA. rewrite space_quote_after in QA; [exact QA|exact FW|apply quote_state; exact QS]. }
    split; [rewrite EW, app_length in LA; lia|].
    split; [rewrite <- EW; intros Z; rewrite Z in LA; cbn in LA; lia|]. left. reflexivity.
  - assert (BL : exists b', x :: b2 = b' ++ [NL] /\ r' = a ++ b').
    { exists (removelast (x :: b2)). assert (D : x :: b2 <> []) by discriminate.
      pose proof (app_removelast_last NL D) as E. unfold r in AB. rewrite E in AB. rewrite app_assoc in AB.
      apply app_inj_tail in AB. destruct AB as [E1 E2]. rewrite <- E2 in E. split; [exact E|exact E1]. }
    destruct BL as (b' & EB & ER).
    destruct (match quote_after q a with Some _ => true | None => quote x end) eqn:I.
    + left. split; [reflexivity|]. exists a, b'.
      assert (NB : b' <> []).
      { intros ->. rewrite app_nil_r in ER. cbn in EB. injection EB as -> ->.
        rewrite ER in P. rewrite (plain_end _ _ P) in I. discriminate. }
      split; [exact ER|]. split; [intros Z; rewrite Z in LA; cbn in LA; lia|]. split; [exact NB|].
      split; [rewrite EB; reflexivity|]. split; [lia|].
      destruct (quote_after q a); [left; discriminate|right].
      destruct b' as [|c b3]; [congruence|]. injection EB as <- _. exists x, b3. split; [reflexivity|exact I].
    + right. split; [reflexivity|].
      assert (QA : quote_after q a = None) by (destruct (quote_after q a); [discriminate|reflexivity]).
      destruct (rstrip_spec a) as (w & EW & FW & TW).
      destruct (lstrip_spec (x :: b2)) as (w2 & EW2 & FW2 & TW2).
      exists (rstrip space a), (w ++ w2), (lstrip space (x :: b2)).
      split; [rewrite <- app_assoc, <- EW2, app_assoc, <- EW; exact AB|]. split; [reflexivity|].
      split; [apply Forall_app; split; assumption|]. split; [exact TW|].
      split.
      { rewrite EW, quote_after_app in QA. rewrite space_quote_after in QA; [exact QA|exact FW|apply quote_state; exact QS]. }
      split; [rewrite EW, app_length in LA; lia|].
      split; [rewrite app_assoc, <- EW; intros Z; apply app_eq_nil in Z; destruct Z as [Z _]; rewrite Z in LA; cbn in LA; lia|].
      destruct (lstrip space (x :: b2)) as [|y z] eqn:EL; [left; reflexivity|right].
      pose proof (TW2 y z eq_refl) as SY.
      assert (EZ : exists z', z = z' ++ [NL]).
      { rewrite EB in EW2. destruct z as [|z1 z2].
        - exfalso. apply app_inj_tail in EW2. destruct EW2 as [_ <-]. discriminate.
        - exists (removelast (z1 :: z2)). assert (D : z1 :: z2 <> []) by discriminate.
          pose proof (app_removelast_last NL D) as E. rewrite E in EW2.
          change (w2 ++ y :: removelast (z1 :: z2) ++ [last (z1 :: z2) NL]) with (w2 ++ (y :: removelast (z1 :: z2)) ++ [last (z1 :: z2) NL]) in EW2.
          rewrite app_assoc in EW2. apply app_inj_tail in EW2. destruct EW2 as [_ E2]. rewrite <- E2 in E. exact E. }
      destruct EZ as (z' & ->). exists y, z'. split; [reflexivity|]. split; [exact SY|].
      intros W0. apply app_eq_nil in W0. destruct W0 as [-> ->]. cbn [app] in EW2. injection EW2 as -> ->.
      rewrite app_nil_r in EW.
      destruct TW as [Z|(m0 & x0 & Em & Sx)]; [rewrite Z in EW; rewrite EW in LA; cbn in LA; lia|].
      exists m0, x0. split; [exact Em|].
      assert (Ea : a = m0 ++ [x0]) by (rewrite EW; exact Em).
      assert (X0 : nth_error r (pos - 1) = Some x0).
      { rewrite AB, Ea, <- app_assoc. cbn [app]. replace (pos - 1) with (List.length m0); [apply nth_error_mid|].
        rewrite Ea, app_length in LA. cbn in LA. lia. }
      assert (Y0 : nth_error r pos = Some y) by (rewrite AB, <- LA; apply nth_error_mid).
      destruct C as [[C1 C2]|(C1 & _ & [(x1 & y1 & X1 & Y1 & S1)|[C2 C3]])].
      * exfalso. assert (pos = List.length r) by exact C2. rewrite AB, app_length in H. cbn in H. lia.
      * apply M1, sp_separable. congruence.
      * destruct M2 as [B|M2]; [|apply M2].
        destruct (B u a y (z' ++ [NL])) as [(v1 & x1 & y1 & v2 & E2 & S)|Q].
        -- rewrite El, AB. reflexivity.
        -- lia.
        -- exfalso.
           assert (LV : List.length v1 + 1 <= n).
           { apply (f_equal (@List.length _)) in E2. rewrite !app_length in E2. cbn in E2. lia. }
           apply (C3 (List.length v1 + 1)); [lia|lia|].
           assert (ERR : r = v1 ++ x1 :: y1 :: v2 ++ z' ++ [NL]).
           { rewrite AB. change (a ++ y :: z' ++ [NL]) with (a ++ [y] ++ z' ++ [NL]). rewrite app_assoc, E2, <- app_assoc. reflexivity. }
           exists x1, y1. rewrite ERR. split; [|split].
           ++ replace (List.length v1 + 1 - 1) with (List.length v1) by lia. apply nth_error_mid.
           ++ replace (v1 ++ x1 :: y1 :: v2 ++ z' ++ [NL]) with ((v1 ++ [x1]) ++ y1 :: v2 ++ z' ++ [NL]) by (rewrite <- app_assoc; reflexivity).
              replace (List.length v1 + 1) with (List.length (v1 ++ [x1])) by (rewrite app_length; reflexivity). apply nth_error_mid.
           ++ apply sp_separable. exact S.
        -- exfalso. rewrite quote_after_app, <- Eq, QA in Q. congruence.
Qed.

(* ------------------------------------------------------------------------- *)
(* All cuts *)

Lemma hunks_nil : forall fuel q i t k last, hunks fuel q i t k last [] = Lines [].
Proof. intros [|fuel]; reflexivity. Qed.

Lemma hunks_step : forall fuel q i t k last line, line <> [] ->
  hunks (S fuel) q i t k last line =
  match split_pos line (65 - Z.of_nat t) with
  | None => Raises
  | Some pos =>
    let ins := inside q (pos + (Z.of_nat i - Z.of_nat (List.length line))) in
    let (hunk, rest) := cut ins line pos in
    match hunks fuel q i t k ins rest with
    | Lines l => Lines ((hunk_start k t last ++ trail ins hunk rest) :: l)
    | r => r
    end
  end.
Proof. intros fuel q i t k last [|c line] H; [congruence|reflexivity]. Qed.

Lemma nonempty_snoc : forall (m : text), m <> [] -> exists m0 x, m = m0 ++ [x].
Proof.
  intros m H. exists (removelast m), (last m NL). apply app_removelast_last. exact H.
Qed.

Lemma snoc_nonempty : forall (m : text) x, m ++ [x] <> [].
Proof. intros m x E. apply app_eq_nil in E. destruct E. discriminate. Qed.

Lemma hunks_read : forall may l0 tab, tab < 65 -> allows may (65 - tab) l0 ->
  forall fuel u r' q last, l0 = u ++ r' ++ [NL] -> q = quote_after None u -> plain_from q r' -> r' <> [] ->
  List.length r' < fuel ->
  (last = false -> q = None /\ exists c r2, r' = c :: r2 /\ space c = false) ->
  (last = true -> q <> None \/ exists c r2, r' = c :: r2 /\ quote c = true) ->
  exists L j, hunks fuel (expected None l0) (List.length l0) tab Plain last (r' ++ [NL]) = Lines L
    /\ statement false q (map newline_at_end L) = Some (pad tab last ++ j)
    /\ (forall p, respaced may q p r' j)
    /\ Forall (fun l => List.length l <= 74) L.
Proof.
  intros may l0 tab TB AL. induction fuel as [|fuel IH]; intros u r' q last El Eq P NE LF HF HT; [lia|].
  rewrite hunks_step by apply snoc_nonempty.
  replace (65 - Z.of_nat tab)%Z with (Z.of_nat (65 - tab)) by lia.
  assert (QS : q = None \/ (exists d, q = Some d /\ quote d = true)) by (rewrite Eq; apply quote_state; left; reflexivity).
  destruct (cut_cases may l0 u r' q (65 - tab) El Eq P ltac:(lia) AL) as (pos & SPOS & C).
  rewrite SPOS.
  replace (Z.of_nat (List.length l0) - Z.of_nat (List.length (r' ++ [NL])))%Z with (Z.of_nat (List.length u))
    by (rewrite El, !app_length; lia).
  cbn zeta in C |- *. set (ins := inside (expected None l0) (pos + Z.of_nat (List.length u))) in *. clearbody ins.
  assert (HS : forall X, List.length (hunk_start Plain tab last ++ X) <= tab + 6 + List.length X).
  { intros X. rewrite app_length, hunk_start_plain. destruct last; rewrite ?app_length, repeat_length; cbn; lia. }
  assert (L1 : last = false -> q = None) by (intros E; apply HF; exact E).
  destruct C as [(-> & a & b' & Er & Na & Nb & EC & La & QB)|(-> & m & W & rest & Er & EC & FW & TM & QM & Lm & NMW & R)];
    rewrite EC; clear EC.
  - (* a cut in a literal *)
    destruct (IH (u ++ a) b' (quote_after q a) true) as (L & j & HL & HSt & HR & HLen).
    + rewrite El, Er, <- !app_assoc. reflexivity.
    + rewrite quote_after_app, <- Eq. reflexivity.
    + apply plain_split. rewrite <- Er. exact P.
    + exact Nb.
    + rewrite Er, app_length in LF. destruct a; [congruence|]. cbn in LF. lia.
    + discriminate.
    + intros _. exact QB.
    + rewrite HL.
      assert (ET : trail true a (b' ++ [NL]) = a ++ T "&").
      { unfold trail. destruct (b' ++ [NL]) eqn:E; [elim (snoc_nonempty _ _ E)|reflexivity]. }
      rewrite ET.
      exists ((hunk_start Plain tab last ++ a ++ T "&") :: L), (a ++ j).
      split; [reflexivity|]. split; [|split].
      * cbn [map]. change (T "&") with [ch 38]. rewrite statement_line.
        -- change [ch 38] with ([] ++ T "&"). rewrite (read_amp tab last q a b' [] _).
           ++ rewrite HSt. reflexivity.
           ++ rewrite <- Er. exact P.
           ++ exact L1.
           ++ constructor.
           ++ congruence.
        -- discriminate.
        -- intros E. split; [apply L1; exact E|]. destruct (HF E) as (_ & c & r2 & E2 & S).
           destruct a as [|c' a]; [congruence|]. rewrite Er in E2. cbn [app] in E2. injection E2 as -> E2.
           exists c, (a ++ [ch 38]). split; [reflexivity|]. split; [exact S|].
           rewrite (L1 E), Er in P. apply P.
      * intros p. rewrite Er. apply respaced_prefix. apply HR.
      * constructor; [|exact HLen]. eapply Nat.le_trans; [apply HS|]. rewrite app_length. cbn. lia.
  - (* a cut between literals *)
    assert (MN : m <> []).
    { intros ->. destruct last.
      - destruct (HT eq_refl) as [NQ|(c & r2 & E2 & Q2)].
        + cbn in QM. congruence.
        + destruct W as [|w W]; [cbn in NMW; congruence|]. rewrite E2 in Er. cbn in Er. injection Er as <- Er.
          inversion FW as [|? ? SW ?]; subst. rewrite (space_not_quote _ SW) in Q2. discriminate.
      - destruct (HF eq_refl) as (_ & c & r2 & E2 & S2).
        destruct W as [|w W]; [cbn in NMW; congruence|]. rewrite E2 in Er. cbn in Er. injection Er as <- Er.
        inversion FW; subst. congruence. }
    destruct TM as [TM|(m0 & x0 & Em & Sx)]; [congruence|].
    assert (FM : last = false -> q = None /\ exists c r, m = c :: r /\ space c = false /\ c <> ch 38).
    { intros E. split; [apply L1; exact E|]. destruct (HF E) as (Q & c & r2 & E2 & S).
      destruct m as [|c' m]; [congruence|]. rewrite E2 in Er. cbn in Er. injection Er as <- Er.
      exists c, m. split; [reflexivity|]. split; [exact S|]. rewrite Q, E2 in P. apply P. }
    destruct R as [->|(y & r2 & -> & Sy & HW)].
    + (* the last line *)
      rewrite hunks_nil. cbn [trail].
      rewrite app_nil_r in Er.
      assert (EW : exists W', W = W' ++ [NL]).
      { destruct W as [|w0 W0].
        - exfalso. rewrite app_nil_r, Em in Er. apply app_inj_tail in Er. destruct Er as [_ <-]. discriminate.
        - exists (removelast (w0 :: W0)). assert (D : w0 :: W0 <> []) by discriminate.
          pose proof (app_removelast_last NL D) as E. rewrite E in Er. rewrite app_assoc in Er.
          apply app_inj_tail in Er. destruct Er as [_ E2]. rewrite <- E2 in E. exact E. }
      destruct EW as (W' & ->). rewrite app_assoc in Er. apply app_inj_tail in Er. destruct Er as [Er _].
      apply Forall_app in FW. destruct FW as [FW _].
      exists [hunk_start Plain tab last ++ m], m. split; [reflexivity|]. split; [|split].
      * cbn [map]. rewrite Em. rewrite statement_line.
        -- apply (read_last tab last q m0 x0 W').
           ++ replace (m0 ++ x0 :: W') with (m ++ W') by (rewrite Em, <- app_assoc; reflexivity). rewrite <- Er. exact P.
           ++ exact L1.
           ++ exact QS.
           ++ rewrite <- Em. exact QM.
           ++ exact Sx.
        -- intros ->. discriminate.
        -- rewrite <- Em. exact FM.
      * intros p. rewrite Er. rewrite <- (app_nil_r m) at 2. apply respaced_prefix. rewrite QM. apply rs_end.
        apply (plain_blanks W' []); [exact FW|]. rewrite app_nil_r. rewrite <- QM. apply plain_split. rewrite <- Er. exact P.
      * constructor; [|constructor]. eapply Nat.le_trans; [apply HS|]. lia.
    + assert (Er' : r' = m ++ W ++ y :: r2).
      { replace (m ++ W ++ y :: r2 ++ [NL]) with ((m ++ W ++ y :: r2) ++ [NL]) in Er by (rewrite <- !app_assoc; reflexivity).
        apply app_inj_tail in Er. apply Er. }
      assert (QW : quote_after q (m ++ W) = None).
      { rewrite quote_after_app, QM. apply space_quote_after; [exact FW|left; reflexivity]. }
      assert (PW : plain_from None (W ++ y :: r2)).
      { rewrite <- QM. apply plain_split. rewrite <- Er'. exact P. }
      destruct (IH (u ++ m ++ W) (y :: r2) None false) as (L & j & HL & HSt & HR & HLen).
      * rewrite El, Er', <- !app_assoc. reflexivity.
      * rewrite quote_after_app, <- Eq, QW. reflexivity.
      * rewrite <- QW. apply plain_split. rewrite <- app_assoc, <- Er'. exact P.
      * discriminate.
      * rewrite Er', app_assoc, app_length in LF. destruct (m ++ W); [congruence|]. cbn in LF |- *. lia.
      * intros _. split; [reflexivity|]. exists y, r2. split; [reflexivity|exact Sy].
      * discriminate.
      * change ((y :: r2) ++ [NL]) with (y :: r2 ++ [NL]) in HL. rewrite HL.
        unfold trail.
        exists ((hunk_start Plain tab last ++ m ++ T " &") :: L), (m ++ [SP] ++ pad tab false ++ j).
        split; [reflexivity|]. split; [|split].
        -- cbn [map]. change (T " &") with ([SP] ++ [ch 38]). rewrite (app_assoc m).
           rewrite statement_line.
           ++ rewrite <- (app_assoc m). change [ch 38] with (T "&"). rewrite (read_amp tab last q m (W ++ y :: r2) [SP] _).
              ** rewrite QM, HSt. reflexivity.
              ** rewrite <- Er'. exact P.
              ** exact L1.
              ** constructor; [left; reflexivity|constructor].
              ** intros _. exact QM.
           ++ discriminate.
           ++ intros E. destruct (FM E) as (Q & c & r & E2 & S & A). split; [exact Q|].
              exists c, (r ++ [SP] ++ [ch 38]). rewrite E2, <- app_assoc. split; [reflexivity|]. split; assumption.
        -- intros p. rewrite Er'. apply respaced_prefix. rewrite QM.
           assert (FB : Forall blank ([SP] ++ pad tab false)).
           { apply Forall_forall. intros c I. apply in_app_or in I. destruct I as [[<-|[]]|I]; [left; reflexivity|].
             apply repeat_spec in I. subst c. left. reflexivity. }
           rewrite app_assoc.
           destruct W as [|w W].
           ++ cbn [app]. apply (rs_insert may _ ([SP] ++ pad tab false)); [exact FB| |apply HR].
              intros x Ex. destruct (HW eq_refl) as (m1 & x1 & E1 & M). rewrite E1, last_of_snoc in Ex. congruence.
           ++ apply rs_blanks; [|exact FB|discriminate|discriminate|apply HR].
              apply (plain_blanks _ (y :: r2)); [exact FW|exact PW].
        -- constructor; [|exact HLen]. eapply Nat.le_trans; [apply HS|]. rewrite app_length. cbn. lia.
Qed.

(* ------------------------------------------------------------------------- *)
(* One line *)

Lemma plain_first : forall tab c r, plain_from None (repeat SP tab ++ c :: r) -> c <> ch 33 /\ c <> ch 38.
Proof.
  intros tab c r P. apply plain_split in P. rewrite pad_quote in P. cbn in P. split; apply P.
Qed.

Lemma find_first : forall tab c r, space c = false -> find c (repeat SP tab ++ c :: r) = Some tab.
Proof.
  induction tab as [|tab IH]; intros c r S.
  - cbn. rewrite Ascii.eqb_refl. reflexivity.
  - cbn [repeat app find]. replace (Ascii.eqb SP c) with false; [rewrite (IH c r S); reflexivity|].
    symmetry. apply Ascii.eqb_neq. intros <-. discriminate.
Qed.

Lemma lstrip_first : forall tab c r, space c = false -> lstrip space (repeat SP tab ++ c :: r) = c :: r.
Proof.
  induction tab as [|tab IH]; intros c r S.
  - cbn [repeat app lstrip]. rewrite S. reflexivity.
  - exact (IH c r S).
Qed.

Lemma plain_no_newline : forall s q, plain_from q s -> ~ In NL s.
Proof.
  induction s as [|c s IH]; intros q P I; [contradiction|]. cbn [plain_from] in P.
  destruct q as [d|].
  - destruct P as [N P]. destruct I as [-> |I]; [congruence|]. exact (IH _ P I).
  - destruct P as (_ & _ & B & P). destruct I as [-> |I]; [|exact (IH _ P I)].
    destruct (B eq_refl) as [H|H]; discriminate.
Qed.

Lemma statement_first : forall q l rest, (forall m, l <> m ++ [NL]) ->
  statement true q (newline_at_end l :: rest) = read_body q l rest.
Proof.
  intros q l rest N. cbn [statement].
  assert (E : without_newline (newline_at_end l) = l).
  { destruct l as [|c l']; [reflexivity|].
    destruct (nonempty_snoc (c :: l') ltac:(discriminate)) as (m & x & E). rewrite E.
    apply without_added. intros ->. exact (N m E). }
  rewrite E. reflexivity.
Qed.

Lemma short_line : forall s, plain_from None s -> s = [] \/ (exists tab, indented tab s) ->
  forall may, exists j, statement true None [newline_at_end (s ++ [NL])] = Some j /\ respaced may None None s j.
Proof.
  intros s P I may. exists s. split; [|apply respaced_refl].
  assert (E1 : newline_at_end (s ++ [NL]) = s ++ [NL]).
  { unfold newline_at_end. replace (ends [NL] (s ++ [NL])) with true; [reflexivity|].
    symmetry. apply ends_iff. exists s. reflexivity. }
  cbn [statement]. rewrite E1.
  assert (E2 : without_newline (s ++ [NL]) = s).
  { unfold without_newline. rewrite rev_app_distr. cbn [rev app]. change (Ascii.eqb NL (ch 10)) with true. cbv iota. apply rev_involutive. }
  rewrite E2.
  pose proof (uncomment_plain s None [] []) as U. rewrite !app_nil_r in U. specialize (U P).
  rewrite U.
  rewrite (plain_end _ _ P).
  destruct (rstrip_spec s) as (w & EW & FW & [Z|(m & x & Em & Sx)]).
  - destruct I as [->|(tab & c & r & Es & S)]; [reflexivity|].
    exfalso. rewrite Z in EW. cbn in EW. rewrite EW in Es. 
    assert (In c w) by (rewrite Es; apply in_or_app; right; left; reflexivity).
    rewrite Forall_forall in FW. specialize (FW _ H). congruence.
  - rewrite Em in EW.
    assert (QM : quote_after None (m ++ [x]) = None).
    { pose proof (plain_end _ _ P) as Q. rewrite EW, quote_after_app in Q.
      rewrite space_quote_after in Q; [exact Q|exact FW|apply quote_state; left; reflexivity]. }
    assert (BW : Forall blank w).
    { apply (plain_blanks w []); [exact FW|]. rewrite app_nil_r, <- QM. apply plain_split. rewrite <- EW. exact P. }
    assert (A : x <> ch 38).
    { apply (plain_last m None x w); [|exact QM|left; reflexivity]. rewrite EW in P. rewrite <- app_assoc in P. exact P. }
    assert (C : continued s = None).
    { unfold continued. rewrite EW, rev_app_distr.
      assert (SB : forall z l, Forall blank z -> skip_blanks (z ++ l) = skip_blanks l).
      { intros z l F. induction F as [|k z B F IH]; [reflexivity|]. cbn [app skip_blanks].
        destruct B as [-> | ->]; exact IH. }
      rewrite SB by (apply Forall_rev; exact BW). rewrite rev_app_distr. cbn [rev app].
      rewrite skip_not_blank by (apply space_blank; exact Sx).
      replace (Ascii.eqb x (ch 38)) with false by (symmetry; apply Ascii.eqb_neq; exact A). reflexivity. }
    rewrite C. reflexivity.
Qed.

Lemma wrap_reads : forall may tab s fuel, plain_from None s -> indented tab s -> tab < 65 ->
  allows may (65 - tab) (s ++ [NL]) -> List.length s < fuel ->
  exists L j, wrap_line fuel (s ++ [NL]) = Lines L /\ statement true None (map newline_at_end L) = Some j
    /\ respaced may None None s j /\ Forall (fun l => List.length l <= 74) L.
Proof.
  intros may tab s fuel P IND TB AL LF. pose proof IND as IND0. destruct IND as (c & r & Es & Sc).
  unfold wrap_line. destruct (Nat.ltb 72 (List.length (s ++ [NL]))) eqn:LB.
  2:{ apply Nat.ltb_ge in LB. destruct (short_line s P ltac:(right; exists tab; exact IND0) may) as (j & St & R).
      exists [s ++ [NL]], j. split; [reflexivity|]. split; [exact St|]. split; [exact R|].
      constructor; [lia|constructor]. }
  apply Nat.ltb_lt in LB.
  assert (CL : exists r2, lstrip space (firstn 72 (s ++ [NL])) = c :: r2).
  { rewrite Es, <- app_assoc. cbn [app]. rewrite firstn_app, repeat_length.
    rewrite firstn_all2 by (rewrite repeat_length; lia).
    replace (72 - tab) with (S (71 - tab)) by lia. cbn [firstn]. rewrite lstrip_first by exact Sc. eexists; reflexivity. }
  destruct CL as (r2 & CL). rewrite CL. cbn zeta.
  destruct (plain_first tab c r ltac:(rewrite <- Es; exact P)) as [NC _].
  assert (NB : forall p, starts (ch 33 :: p) (c :: r2) = false).
  { intros p. cbn [starts]. replace (Ascii.eqb (ch 33) c) with false; [reflexivity|]. symmetry. apply Ascii.eqb_neq. congruence. }
  change (T "!") with [ch 33]. rewrite NB. cbn [andb].
  change (T "!$omp") with (ch 33 :: T "$omp"). change (T "!$acc") with (ch 33 :: T "$acc"). rewrite !NB.
  assert (ET : find c (s ++ [NL]) = Some tab).
  { rewrite Es, <- app_assoc. apply find_first. exact Sc. }
  rewrite ET. cbv iota.
  assert (EQ : inside_quotes (s ++ [NL]) 0 = expected None (s ++ [NL])) by (apply inside_expected; [exact P|reflexivity]).
  rewrite EQ.
  assert (AL2 : allows may 72 (s ++ [NL])).
  { destruct AL as [A1 A2]. split; [exact A1|]. destruct A2 as [A2|A2]; [left|right; exact A2].
    apply (breakable_le (65 - tab)); [lia|exact A2]. }
  destruct (cut_cases may (s ++ [NL]) [] s None 72 eq_refl eq_refl P ltac:(lia) AL2) as (pos & SPOS & C).
  change (Z.of_nat 72) with 72%Z in SPOS. rewrite SPOS. cbn [List.length] in C. change (Z.of_nat 0) with 0%Z in C. rewrite Z.add_0_r in C.
  cbn zeta in C |- *. set (ins := inside (expected None (s ++ [NL])) pos) in *. clearbody ins.
  assert (NLs : forall m n, (s = m ++ n) -> ~ In NL m).
  { intros m n E I. apply (plain_no_newline s None P). rewrite E. apply in_or_app. left. exact I. }
  destruct C as [(-> & a & b' & Er & Na & Nb & EC & La & QB)|(-> & m & W & rest & Er & EC & FW & TM & QM & Lm & NMW & R)];
    rewrite EC; clear EC.
  - destruct (hunks_read may (s ++ [NL]) tab TB AL fuel a b' (quote_after None a) true) as (L & j & HL & HSt & HR & HLen).
    + rewrite Er, <- app_assoc. reflexivity.
    + reflexivity.
    + apply plain_split. rewrite <- Er. exact P.
    + exact Nb.
    + rewrite Er, app_length in LF. lia.
    + discriminate.
    + intros _. exact QB.
    + rewrite HL.
      assert (ETr : trail true a (b' ++ [NL]) = a ++ T "&").
      { unfold trail. destruct (b' ++ [NL]) eqn:E; [elim (snoc_nonempty _ _ E)|reflexivity]. }
      rewrite ETr. exists ((a ++ T "&") :: L), (a ++ j). split; [reflexivity|]. split; [|split].
      * cbn [map]. rewrite statement_first.
        -- change (a ++ T "&") with (pad tab true ++ a ++ [] ++ T "&").
           rewrite (read_amp tab true None a b' []).
           ++ rewrite HSt. reflexivity.
           ++ rewrite <- Er. exact P.
           ++ discriminate.
           ++ constructor.
           ++ congruence.
        -- intros z E. apply app_inj_tail in E. destruct E as [_ E]. discriminate.
      * rewrite Er. apply respaced_prefix. apply HR.
      * constructor; [|exact HLen]. rewrite app_length. cbn. lia.
  - destruct R as [->|(y & r3 & -> & Sy & HW)].
    + (* only blanks after the cut *)
      rewrite hunks_nil. cbn [trail]. rewrite app_nil_r in Er.
      assert (MN : m <> []).
      { intros ->. cbn [app] in Er.
        assert (In c W) by (rewrite <- Er, Es; apply in_or_app; left; apply in_or_app; right; left; reflexivity).
        rewrite Forall_forall in FW. specialize (FW _ H). congruence. }
      destruct TM as [TM|(m0 & x0 & Em & Sx)]; [congruence|].
      assert (EW : exists W', W = W' ++ [NL]).
      { destruct W as [|w0 W0].
        - exfalso. rewrite app_nil_r, Em in Er. apply app_inj_tail in Er. destruct Er as [_ <-]. discriminate.
        - exists (removelast (w0 :: W0)). assert (D : w0 :: W0 <> []) by discriminate.
          pose proof (app_removelast_last NL D) as E. rewrite E in Er. rewrite app_assoc in Er.
          apply app_inj_tail in Er. destruct Er as [_ E2]. rewrite <- E2 in E. exact E. }
      destruct EW as (W' & ->). rewrite app_assoc in Er. apply app_inj_tail in Er. destruct Er as [Er _].
      apply Forall_app in FW. destruct FW as [FW _].
      exists [m], m. split; [reflexivity|]. split; [|split].
      * cbn [map]. rewrite statement_first.
        -- rewrite Em. apply (read_last tab true None m0 x0 W').
           ++ replace (m0 ++ x0 :: W') with (m ++ W') by (rewrite Em, <- app_assoc; reflexivity). rewrite <- Er. exact P.
           ++ discriminate.
           ++ left. reflexivity.
           ++ rewrite <- Em. exact QM.
           ++ exact Sx.
        -- intros z E. rewrite Em in E. apply app_inj_tail in E. destruct E as [_ E]. rewrite E in Sx. discriminate.
      * rewrite Er. rewrite <- (app_nil_r m) at 2. apply respaced_prefix. rewrite QM. apply rs_end.
        apply (plain_blanks W' []); [exact FW|]. rewrite app_nil_r. rewrite <- QM. apply plain_split. rewrite <- Er. exact P.
      * constructor; [lia|constructor].
    + assert (Er' : s = m ++ W ++ y :: r3).
      { replace (m ++ W ++ y :: r3 ++ [NL]) with ((m ++ W ++ y :: r3) ++ [NL]) in Er by (rewrite <- !app_assoc; reflexivity).
        apply app_inj_tail in Er. apply Er. }
      assert (QW : quote_after None (m ++ W) = None).
      { rewrite quote_after_app, QM. apply space_quote_after; [exact FW|left; reflexivity]. }
      assert (PW : plain_from None (W ++ y :: r3)).
      { rewrite <- QM. apply plain_split. rewrite <- Er'. exact P. }
      destruct (hunks_read may (s ++ [NL]) tab TB AL fuel (m ++ W) (y :: r3) None false) as (L & j & HL & HSt & HR & HLen).
      * rewrite Er', <- !app_assoc. reflexivity.
      * rewrite QW. reflexivity.
      * rewrite <- QW. apply plain_split. rewrite <- app_assoc, <- Er'. exact P.
      * discriminate.
      * rewrite Er', app_assoc, app_length in LF. lia.
      * intros _. split; [reflexivity|]. exists y, r3. split; [reflexivity|exact Sy].
      * discriminate.
      * change ((y :: r3) ++ [NL]) with (y :: r3 ++ [NL]) in HL. rewrite HL.
        unfold trail. exists ((m ++ T " &") :: L), (m ++ [SP] ++ pad tab false ++ j).
        split; [reflexivity|]. split; [|split].
        -- cbn [map]. rewrite statement_first.
           ++ change (m ++ T " &") with (pad tab true ++ m ++ [SP] ++ T "&").
              rewrite (read_amp tab true None m (W ++ y :: r3) [SP]).
              ** rewrite QM, HSt. reflexivity.
              ** rewrite <- Er'. exact P.
              ** discriminate.
              ** constructor; [left; reflexivity|constructor].
              ** intros _. exact QM.
           ++ intros z E. change (T " &") with ([SP] ++ [ch 38]) in E. rewrite app_assoc in E.
              apply app_inj_tail in E. destruct E as [_ E]. discriminate.
        -- rewrite Er'. apply respaced_prefix. rewrite QM.
           assert (FB : Forall blank ([SP] ++ pad tab false)).
           { apply Forall_forall. intros k I. apply in_app_or in I. destruct I as [[<-|[]]|I]; [left; reflexivity|].
             apply repeat_spec in I. subst k. left. reflexivity. }
           rewrite app_assoc.
           destruct W as [|w W].
           ++ cbn [app]. apply (rs_insert may _ ([SP] ++ pad tab false)); [exact FB| |apply HR].
              intros x Ex. destruct (HW eq_refl) as (m1 & x1 & E1 & M). rewrite E1, last_of_snoc in Ex. congruence.
           ++ apply rs_blanks; [|exact FB|discriminate|discriminate|apply HR].
              apply (plain_blanks _ (y :: r3)); [exact FW|exact PW].
        -- constructor; [|exact HLen]. rewrite app_length. cbn. lia.
Qed.

(* ------------------------------------------------------------------------- *)
(* All lines *)

Lemma newline_length : forall l, List.length l <= 74 -> List.length (newline_at_end l) <= 75.
Proof. intros l H. unfold newline_at_end. destruct (ends [NL] l); [lia|]. rewrite app_length. cbn. lia. Qed.

Lemma wrap_comment : forall fuel l, comment_line l -> wrap_line fuel l = Lines [l].
Proof.
  intros fuel l (n & r & -> & N & D). unfold wrap_line.
  destruct (Nat.ltb 72 (List.length (repeat SP n ++ ch 33 :: r))) eqn:L; [|reflexivity].
  apply Nat.ltb_lt in L. rewrite app_length, repeat_length in L. cbn in L.
  rewrite firstn_app, repeat_length. rewrite firstn_all2 by (rewrite repeat_length; lia).
  replace (72 - n) with (S (S (70 - n))) by lia. 
  destruct r as [|d r]; [cbn in L; lia|]. cbn [firstn].
  rewrite lstrip_first by reflexivity. cbn zeta.
  change (T "!") with [ch 33]. change (T "!$") with [ch 33; ch 36]. cbn [starts].
  replace (Ascii.eqb (ch 36) d) with false; [reflexivity|].
  symmetry. apply Ascii.eqb_neq. intros <-. exact (D r eq_refl).
Qed.

Lemma wrap_all : forall fuel lines, Forall (fun l => List.length l <= fuel) lines ->
  Forall (fun l => comment_line l \/ exists s, one_statement l s) lines ->
  exists groups, wrap_fortran fuel lines = Lines (concat groups) /\ Forall2 written_for lines groups.
Proof.
  intros fuel lines LF OK. induction OK as [|l lines O OK IH].
  - exists []. split; [reflexivity|constructor].
  - inversion LF as [|? ? LL LF']; subst. destruct (IH LF') as (groups & E & F).
    assert (G : exists a, wrap_line fuel l = Lines a /\ written_for l (map newline_at_end a)).
    { destruct O as [C|(s & EL & P & I)].
      - exists [l]. split; [apply wrap_comment; exact C|]. left. split; [exact C|].
        cbn [map]. unfold newline_at_end. destruct (ends [NL] l); [left|right]; reflexivity.
      - destruct I as [->|(tab & I & TB)].
        + cbn [app] in EL. subst l. exists [[NL]]. split; [reflexivity|]. right. exists [], [].
          split; [split; [reflexivity|split; [exact P|left; reflexivity]]|].
          split; [reflexivity|]. split; [apply rs_nil|]. constructor; [cbn; lia|constructor].
        + destruct (wrap_reads (fun _ _ => True) tab s fuel P I TB) as (L & j & W & St & R & LEN).
          * split; [intros; exact Logic.I|right; intros; exact Logic.I].
          * rewrite EL, app_length in LL. cbn in LL. lia.
          * exists L. rewrite EL. split; [exact W|]. right. exists s, j.
            split; [split; [reflexivity|split; [exact P|right; exists tab; auto]]|].
            split; [exact St|]. split; [exact R|].
            apply Forall_map. apply Forall_forall. intros x Ix. rewrite Forall_forall in LEN. apply newline_length. apply LEN. exact Ix. }
    destruct G as (a & Wa & Wf). exists (map newline_at_end a :: groups). split.
    + cbn [wrap_fortran]. rewrite Wa, E. reflexivity.
    + constructor; assumption.
Qed.

(* ------------------------------------------------------------------------- *)
(* Literals in Fortran lines *)

Lemma plain_app : forall a q b, plain_from q a -> plain_from None b -> plain_from q (a ++ b).
Proof.
  induction a as [|c a IH]; intros q b A B.
  - cbn in A. subst q. exact B.
  - cbn [app plain_from] in *. destruct q.
    + destruct A as [N A]. split; [exact N|]. apply IH; assumption.
    + destruct A as (X & Y & Z & A). split; [exact X|]. split; [exact Y|]. split; [exact Z|]. apply IH; assumption.
Qed.

Lemma plain_quoted : forall s, Forall ordinary s -> plain_from None (ch 39 :: s ++ [ch 39]).
Proof.
  intros s F. cbn [plain_from]. split; [discriminate|]. split; [discriminate|]. split; [discriminate|].
  change (next_quote None (ch 39)) with (Some (ch 39)).
  induction F as [|c s O F IH].
  - cbn. split; [discriminate|reflexivity].
  - unfold ordinary, is_in in O. cbn [existsb sp_chars] in O.
    repeat (apply orb_false_iff in O; destruct O as [? O]).
    cbn [app plain_from next_quote].
    repeat match goal with H : Ascii.eqb c ?k = false |- _ => first [rewrite H | idtac]; apply Ascii.eqb_neq in H end.
    split; [unfold NL; assumption|]. exact IH.
Qed.

Lemma plain_achar : forall c, is_in c sp_chars = true -> plain_from None (T "ACHAR(" ++ decimal (nat_of_ascii c) ++ T ")").
Proof.
  intros c O. apply is_in_iff in O. cbn [In sp_chars] in O.
  repeat (destruct O as [<-|O]; [vm_compute; repeat split; discriminate|]). contradiction.
Qed.

Lemma plain_pieces : forall s sub acc, Forall ordinary sub -> Forall (plain_from None) acc -> Forall (plain_from None) (f_pieces s sub acc).
Proof.
  induction s as [|c s IH]; intros sub acc F A; cbn [f_pieces].
  - destruct sub as [|x sub]; [exact A|]. apply Forall_app. split; [exact A|]. constructor; [|constructor]. apply plain_quoted. exact F.
  - destruct (is_in c sp_chars) eqn:O.
    + apply IH; [constructor|]. apply Forall_app. split.
      * destruct sub as [|x sub]; [exact A|]. apply Forall_app. split; [exact A|]. constructor; [|constructor]. apply plain_quoted. exact F.
      * constructor; [|constructor]. apply plain_achar. exact O.
    + apply IH; [|exact A]. apply Forall_app. split; [exact F|]. constructor; [exact O|constructor].
Qed.

Lemma plain_join : forall ps, Forall (plain_from None) ps -> plain_from None (join (T " // ") ps).
Proof.
  intros ps F. induction F as [|p ps P F IH]; [reflexivity|].
  destruct ps as [|p2 ps]; [exact P|].
  change (join (T " // ") (p :: p2 :: ps)) with (p ++ T " // " ++ join (T " // ") (p2 :: ps)).
  apply plain_app; [exact P|]. apply plain_app; [|exact IH].
  vm_compute; repeat split; try discriminate; intros; left; reflexivity.
Qed.

Lemma plain_literal : forall s, plain_from None (f_literal s).
Proof.
  intros [|c s].
  - vm_compute; repeat split; discriminate.
  - unfold f_literal. apply plain_join. apply plain_pieces; constructor.
Qed.

(* ------------------------------------------------------------------------- *)
(* Lines the wrapper never finishes *)

Lemma hunks_stuck : forall q i t k line, line <> [] ->
  split_pos line (65 - Z.of_nat t) = Some 0%Z -> (forall last, inside q (0 + (Z.of_nat i - Z.of_nat (List.length line))) = last -> last = false) ->
  lstrip space line = line -> forall fuel last, hunks fuel q i t k last line = Running.
Proof.
  intros q i t k line NE SP0 IN LS. induction fuel as [|fuel IH]; intros last.
  - destruct line; [congruence|reflexivity].
  - rewrite hunks_step by exact NE. rewrite SP0. cbn zeta.
    assert (E : inside q (0 + (Z.of_nat i - Z.of_nat (List.length line))) = false) by (apply (IN _ eq_refl)).
    rewrite E. unfold cut. assert (A : after line 0 = line) by reflexivity. rewrite A, LS, IH. reflexivity.
Qed.
