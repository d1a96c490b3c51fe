(* The theorems about literals, indentation and wrapping. *)
From Coq Require Import Bool String Ascii Arith ZArith Lia List.
From Verif Require Import Text_Model Text_Spec Text_Proofs Text_Wrap.
Import ListNotations.
Open Scope list_scope.

(* ------------------------------------------------------------------------- *)
(* C32 *)

(* The C literal printed for a string denotes that string. *)
Theorem C32_c_literal : forall s, c_read (c_literal s) = Some s.
Proof. exact c_read_literal. Qed.
Print Assumptions C32_c_literal.

(* a backslash followed by n, quotes, a newline and a tab *)
Example C32_c_literal_ex :
  c_literal ([ch 92; ch 110; ch 34; ch 39; ch 10; ch 9]) = T """\\n\""\'\n\t""".
Proof. reflexivity. Qed.

(* The Fortran expression printed for a string denotes that string. *)
Theorem C32_fortran_literal : forall s, f_read (f_literal s) = Some s.
Proof. exact f_read_literal. Qed.
Print Assumptions C32_fortran_literal.

Example C32_fortran_literal_ex :
  f_literal (T "it's" ++ [ch 10; ch 9] ++ T "a ""b""") = T "'it' // ACHAR(39) // 's' // ACHAR(10) // ACHAR(9) // 'a ""b""'".
Proof. reflexivity. Qed.

(* The formatting of the generated file leaves the literal as it is, if the string has none
   of the characters 28, 29, 30 and 133. *)
Theorem C32_c_line_partial : forall pre s post,
  (forall c, In c (pre ++ post) -> boundary c = false) -> (forall c, In c s -> ~ In c [ch 28; ch 29; ch 30; ch 133]) ->
  doprint_c (pre ++ c_literal s ++ post ++ [NL]) = skip_blanks pre ++ c_literal s ++ post ++ [NL].
Proof. exact c_literal_line. Qed.
Print Assumptions C32_c_line_partial.

Example C32_c_line_ex :
  doprint_c (T "  f(" ++ c_literal [ch 10; ch 32; ch 32; ch 97] ++ T ");" ++ [NL]) = T "f(" ++ T """\n  a""" ++ T ");" ++ [NL].
Proof. reflexivity. Qed.

(* These four characters are not escaped but end a line for the formatter: in C the blanks
   after them are lost, in Fortran the literal is broken by a newline. *)
Theorem C32_line_refuted : exists s,
  (exists lit, doprint_c (c_literal s ++ [NL]) = lit ++ [NL] /\ c_read lit <> Some s /\ c_read lit <> None)
  /\ (exists l1 l2, doprint_f 10 (f_literal s ++ [NL]) = Some (l1 ++ [NL] ++ l2 ++ [NL]) /\ f_read l1 = None /\ l2 <> []).
Proof.
  exists [ch 97; ch 28; ch 32; ch 32; ch 98]. split.
  - eexists (c_literal [ch 97; ch 28; ch 98]). split; [vm_compute; reflexivity|]. split; vm_compute; discriminate.
  - exists [ch 39; ch 97; ch 28], [ch 98; ch 39]. split; [vm_compute; reflexivity|]. split; [reflexivity|discriminate].
Qed.
Print Assumptions C32_line_refuted.

(* The Fortran literal of any string can stand in a statement that the wrapper handles. *)
Theorem C32_fortran_plain : forall pre s post, plain_from None pre -> plain_from None post ->
  plain_from None (pre ++ f_literal s ++ post).
Proof. intros pre s post A B. apply plain_app; [exact A|]. apply plain_app; [apply plain_literal|exact B]. Qed.
Print Assumptions C32_fortran_plain.

Example C32_fortran_plain_ex : plain_from None (T "x = ") /\ plain_from None (T " // y").
Proof. split; vm_compute; repeat split; try discriminate; intros; left; reflexivity. Qed.

(* ------------------------------------------------------------------------- *)
(* C34 *)

(* Indenting changes only the blanks at the beginning of the lines. *)
Theorem C34_same_code : forall ls, same_code (indent_c ls) ls /\ same_code (indent_f ls) ls.
Proof. intros ls. split; apply indent_same. Qed.
Print Assumptions C34_same_code.

Example C34_same_code_ex :
  indent_c [T "if (a) {" ++ [NL]; T "x = 1;" ++ [NL]; T "} else {" ++ [NL]; T "  y = 1;" ++ [NL]; T "}" ++ [NL]]
  = [T "if (a) {" ++ [NL]; T "    x = 1;" ++ [NL]; T "} else {" ++ [NL]; T "    y = 1;" ++ [NL]; T "}" ++ [NL]].
Proof. reflexivity. Qed.

(* Indenting twice is indenting once. *)
Theorem C34_idempotent : forall ls, indent_c (indent_c ls) = indent_c ls /\ indent_f (indent_f ls) = indent_f ls.
Proof. intros ls. split; apply indent_twice. Qed.
Print Assumptions C34_idempotent.

Theorem C34_idempotent_text : forall s,
  indent_text indent_c (indent_text indent_c s) = indent_text indent_c s
  /\ indent_text indent_f (indent_text indent_f s) = indent_text indent_f s.
Proof. intros s. split; [apply indent_c_twice|apply indent_f_twice]. Qed.
Print Assumptions C34_idempotent_text.

(* a carriage return before a line of blanks: two lines become one, the text does not change *)
Example C34_idempotent_text_ex :
  let s := T "{" ++ [NL] ++ T "x" ++ [ch 13; ch 32; NL] ++ T " y" in
  List.length (splitlines s []) = 4 /\ List.length (splitlines (indent_text indent_c s) []) = 3.
Proof. split; reflexivity. Qed.

(* The indentation is the number of blocks a line is in. *)
Theorem C34_c_depth : forall ls dl, map skip_blanks ls = map snd dl -> nested c_opens c_closes c_blank 0 dl ->
  indent_c ls = map (fun x => repeat SP (4 * fst x) ++ snd x) dl.
Proof. exact c_depth. Qed.
Print Assumptions C34_c_depth.

Lemma ends_false : forall p l, ends p l = false -> ~ exists r, l = r ++ p.
Proof. intros p l E H. apply ends_iff in H. congruence. Qed.

Example C34_c_depth_ex :
  nested c_opens c_closes c_blank 0
    [(0, T "while (a) {" ++ [NL]); (1, T "b();" ++ [NL]); (0, T "}" ++ [NL]); (0, [NL]); (0, T "c();" ++ [NL])].
Proof.
  assert (B : forall c l, c <> NL -> ~ c_blank (c :: l)) by (intros c l N [H|H]; congruence).
  assert (C : forall c l, c <> NL -> c <> ch 125 -> ~ c_closes (c :: l)).
  { intros c l N1 N2 [(p & E)|(d & p & E)]; [injection E as E _; apply N2; exact E|congruence]. }
  apply (nested_block _ _ _ 0 _ [(1, T "b();" ++ [NL])] (T "}" ++ [NL])).
  - apply B. discriminate.
  - exists (T "while (a) "). reflexivity.
  - apply C; discriminate.
  - apply parts_one. apply nested_line.
    + apply B. discriminate.
    + apply ends_false. reflexivity.
    + apply C; discriminate.
    + apply nested_nil.
  - apply B. discriminate.
  - left. exists [NL]. reflexivity.
  - apply (ends_false (T "{" ++ [NL])). reflexivity.
  - apply nested_blank; [right; reflexivity|]. apply nested_line.
    + apply B. discriminate.
    + apply (ends_false (T "{" ++ [NL])). reflexivity.
    + apply C; discriminate.
    + apply nested_nil.
Qed.

Theorem C34_fortran_depth : forall ls dl, map skip_blanks ls = map snd dl -> nested f_opens f_closes f_blank 0 dl ->
  indent_f ls = map (fun x => repeat SP (2 * fst x) ++ snd x) dl.
Proof. exact f_depth. Qed.
Print Assumptions C34_fortran_depth.

Lemma not_opens : forall l, f_inc l = false -> ~ f_opens l.
Proof. intros l E H. apply f_opens_iff in H. congruence. Qed.
Lemma not_closes : forall l, f_dec l = false -> ~ f_closes l.
Proof. intros l E H. apply f_closes_iff in H. congruence. Qed.

Example C34_fortran_depth_ex :
  nested f_opens f_closes f_blank 0
    [(0, T "do i = 1, 3" ++ [NL]); (1, T "a = 1" ++ [NL]); (0, T "#if X" ++ [NL]); (0, T "end do" ++ [NL])].
Proof.
  assert (B : forall c l, c <> NL -> c <> ch 35 -> ~ f_blank (c :: l)).
  { intros c l N M [H|[H|(r & H)]]; [discriminate|congruence|]. injection H as H _. apply M. exact H. }
  apply (nested_block _ _ _ 0 _ [(1, T "a = 1" ++ [NL]); (0, T "#if X" ++ [NL])] (T "end do" ++ [NL]) []).
  - apply B; discriminate.
  - apply f_opens_iff. reflexivity.
  - apply not_closes. reflexivity.
  - apply parts_one. apply nested_line.
    + apply B; discriminate.
    + apply not_opens. reflexivity.
    + apply not_closes. reflexivity.
    + apply nested_blank; [|apply nested_nil]. right. right. exists (T "if X" ++ [NL]). reflexivity.
  - apply B; discriminate.
  - apply f_closes_iff. reflexivity.
  - apply not_opens. reflexivity.
  - apply nested_nil.
Qed.

(* ------------------------------------------------------------------------- *)
(* C33 *)

(* A statement indented by less than 65 blanks is wrapped in finitely many steps; the lines
   have at most 74 characters, and Fortran reads in them the same statement up to blanks
   outside literals. *)
Theorem C33_transparent_partial : forall tab s fuel, plain_from None s -> indented tab s -> tab < 65 -> List.length s < fuel ->
  exists L j, wrap_line fuel (s ++ [NL]) = Lines L /\ statement true None (map newline_at_end L) = Some j
    /\ respaced (fun _ _ => True) None None s j /\ Forall (fun l => List.length l <= 74) L.
Proof.
  intros tab s fuel P I TB LF. apply (wrap_reads _ tab); try assumption.
  split; [intros; exact Logic.I|right; intros; exact Logic.I].
Qed.
Print Assumptions C33_transparent_partial.

(* No name, number or operator is cut if there is a place to cut in every window of 66
   characters less the indentation. *)
Theorem C33_words_partial : forall tab s fuel, plain_from None s -> indented tab s -> tab < 65 -> List.length s < fuel ->
  breakable (65 - tab) (s ++ [NL]) ->
  exists L j, wrap_line fuel (s ++ [NL]) = Lines L /\ statement true None (map newline_at_end L) = Some j
    /\ respaced separable None None s j.
Proof.
  intros tab s fuel P I TB LF B.
  destruct (wrap_reads separable tab s fuel P I TB) as (L & j & A & St & R & _).
  - split; [auto|left; exact B].
  - exact LF.
  - exists L, j. auto.
Qed.
Print Assumptions C33_words_partial.

Definition long_line : text :=
  T "  call f(alpha, beta, 'a literal that is cut here: & and ! are in it, and spaces     ', gamma, delta, epsilon)".

Example C33_transparent_ex : plain_from None long_line /\ indented 2 long_line /\ 72 < List.length long_line.
Proof.
  split; [|split].
  - vm_compute. repeat split; try discriminate; intros; left; reflexivity.
  - exists "c"%char. eexists. split; reflexivity.
  - vm_compute. lia.
Qed.

Example C33_transparent_ex2 :
  wrap_line 200 (long_line ++ [NL]) =
  Lines [T "  call f(alpha, beta, 'a literal that is cut here: & and ! are in it, &";
         T "  &and spaces     ', gamma, delta, epsilon)"].
Proof. vm_compute. reflexivity. Qed.

Fixpoint adjacent (l : text) : bool :=
  match l with
  | x :: ((y :: _) as r) => sp x y || adjacent r
  | _ => false
  end.
Lemma adjacent_some : forall l, adjacent l = true -> exists v1 x y v2, l = v1 ++ x :: y :: v2 /\ separable x y.
Proof.
  induction l as [|x l IH]; intros H; [discriminate|]. destruct l as [|y l]; [discriminate|].
  cbn [adjacent] in H. apply orb_true_iff in H. destruct H as [H|H].
  - exists [], x, y, l. split; [reflexivity|]. apply sp_separable. exact H.
  - destruct (IH H) as (v1 & a & b & v2 & E & S). exists (x :: v1), a, b, v2. rewrite E. split; [reflexivity|exact S].
Qed.
Fixpoint windows (n : nat) (l : text) : bool :=
  (Nat.leb (List.length l) n || adjacent (firstn (S n) l)) && match l with [] => true | _ :: l' => windows n l' end.
Lemma windows_breakable : forall n l, windows n l = true -> breakable n l.
Proof.
  intros n l H u. revert l H. induction u as [|c u IH]; intros l H v z w E L.
  - left. apply adjacent_some. destruct l as [|c l]; [destruct v; discriminate|].
    assert (A : (Nat.leb (List.length (c :: l)) n || adjacent (firstn (S n) (c :: l))) = true).
    { cbn [windows] in H. apply andb_true_iff in H. apply H. }
    cbn [app] in E. rewrite E in A. apply orb_true_iff in A. destruct A as [A|A].
    + apply Nat.leb_le in A. rewrite app_length in A. cbn in A. lia.
    + replace (firstn (S n) (v ++ z :: w)) with (v ++ [z]) in A; [exact A|].
      rewrite firstn_app, L. rewrite firstn_all2 by lia. replace (S n - n) with 1 by lia. reflexivity.
  - destruct l as [|c' l]; [discriminate|]. cbn [app] in E. injection E as -> E.
    cbn [windows] in H. apply andb_true_iff in H. destruct H as [_ H].
    destruct (IH l H v z w E L) as [A|A]; [left; exact A|].
    left. apply adjacent_some.
    rewrite E in H. clear -H L. induction u as [|c u IH].
    + destruct v as [|v0 v]; cbn [app windows] in H.
      * apply andb_true_iff in H. destruct H as [H _]. cbn in L. subst n. cbn in H. discriminate.
      * apply andb_true_iff in H. destruct H as [H _]. apply orb_true_iff in H. destruct H as [H|H].
        -- apply Nat.leb_le in H. cbn in H, L. rewrite app_length in H. cbn in H. lia.
        -- cbn [app firstn] in H |- *. cbn in L. destruct n as [|n]; [discriminate|]. injection L as L.
           replace (firstn (S n) (v ++ z :: w)) with (v ++ [z]) in H; [exact H|].
           rewrite firstn_app, L. rewrite firstn_all2 by lia. replace (S n - n) with 1 by lia. reflexivity.
    + cbn [app windows] in H. apply andb_true_iff in H. destruct H as [_ H]. exact (IH H).
Qed.

Example C33_words_ex : breakable (65 - 2) (long_line ++ [NL]).
Proof. apply windows_breakable. vm_compute. reflexivity. Qed.

(* A whole file of comments, empty lines and statements. *)
Theorem C33_file_partial : forall fuel lines, Forall (fun l => List.length l <= fuel) lines ->
  Forall (fun l => comment_line l \/ exists s, one_statement l s) lines ->
  exists groups, wrap_fortran fuel lines = Lines (concat groups) /\ Forall2 written_for lines groups.
Proof. exact wrap_all. Qed.
Print Assumptions C33_file_partial.

Example C33_file_ex :
  Forall (fun l => comment_line l \/ exists s, one_statement l s) [T "! text" ++ [NL]; [NL]; long_line ++ [NL]].
Proof.
  constructor; [left|constructor; [right|constructor; [right|constructor]]].
  - exists 0, (T " text" ++ [NL]). split; [reflexivity|]. split; [lia|]. intros r'. discriminate.
  - exists []. split; [reflexivity|]. split; [reflexivity|left; reflexivity].
  - exists long_line. split; [reflexivity|]. destruct C33_transparent_ex as (P & I & _).
    split; [exact P|]. right. exists 2. split; [exact I|lia].
Qed.

(* A statement indented by 65 blanks: the loop never ends. *)
Theorem C33_terminates_refuted : exists s, plain_from None s /\ indented 65 s
  /\ forall fuel, wrap_line fuel (s ++ [NL]) = Running.
Proof.
  exists (repeat SP 65 ++ T "x = a + b"). split; [|split].
  - vm_compute. repeat split; try discriminate; intros; left; reflexivity.
  - exists "x"%char. eexists. split; reflexivity.
  - intros fuel. 
    assert (E : wrap_line fuel ((repeat SP 65 ++ T "x = a + b") ++ [NL])
      = match hunks fuel (repeat false 75) 75 65 Plain false (T "b" ++ [NL]) with
        | Lines l => Lines ((repeat SP 65 ++ T "x = a + &") :: l) | r => r end) by reflexivity.
    rewrite E, hunks_stuck; [reflexivity|discriminate|reflexivity| |reflexivity].
    intros l <-. reflexivity.
Qed.
Print Assumptions C33_terminates_refuted.

(* A statement indented by 72 blanks: an exception. *)
Theorem C33_total_refuted : exists s, plain_from None s /\ indented 72 s
  /\ forall fuel, wrap_line fuel (s ++ [NL]) = Raises.
Proof.
  exists (repeat SP 72 ++ T "x = 1"). split; [|split].
  - vm_compute. repeat split; try discriminate; intros; left; reflexivity.
  - exists "x"%char. eexists. split; reflexivity.
  - intros fuel. reflexivity.
Qed.
Print Assumptions C33_total_refuted.

(* A name longer than the line is cut in two, with blanks between the parts. *)
Theorem C33_words_refuted : exists s L j, plain_from None s /\ indented 0 s /\ wrap_line 100 (s ++ [NL]) = Lines L
  /\ statement true None (map newline_at_end L) = Some j /\ ~ In SP s /\ In SP j.
Proof.
  exists (repeat (ch 97) 80). eexists. eexists. split; [|split; [|split; [|split; [|split]]]].
  - vm_compute. repeat split; try discriminate; intros; left; reflexivity.
  - exists (ch 97), (repeat (ch 97) 79). split; reflexivity.
  - vm_compute. reflexivity.
  - vm_compute. reflexivity.
  - intros H. apply repeat_spec in H. discriminate.
  - vm_compute. do 72 right. left. reflexivity.
Qed.
Print Assumptions C33_words_refuted.
