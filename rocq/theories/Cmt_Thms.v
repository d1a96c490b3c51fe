(** C96: comments, and so directives, inserted in the syntax tree. *)

From Coq Require Import List Bool Arith Lia.
From Verif Require Import Cmt_Model Cmt_Spec Cmt_Proofs.
Import ListNotations.

(** A program of two loops:
<<
     1  x
     2  for:
     3      #$ (1)
     4      y
     5      # (2)
     6  #$ (3)
     7  for:
     8      z
     9      # (4)
>> *)
Definition ex_body : list node :=
  [Simple 1 0 0; Comp 2 0 false 1 [Simple 4 4 2] []; Comp 7 0 false 3 [Simple 8 4 4] []].
Definition ex_cs : list comment := [mkc 3 4 1; mkc 5 4 2; mkc 6 0 3; mkc 9 4 4].

Lemma ex_parsed : parsed ex_body.
Proof.
  intros n Hn. cbn in Hn. repeat destruct Hn as [<-|Hn]; cbn; try tauto;
    repeat split; auto; discriminate.
Qed.

(** For every program and comments, the program without its comments is the
    given program, and the comments are the given comments in their order:
    none is lost, none is duplicated. *)
Theorem C96_kept : forall elses body cs,
  parsed body ->
  flat_map strip (extend_tree elses body cs) = body /\
  flat_map notes (extend_tree elses body cs) = cs.
Proof. exact kept_l. Qed.
Print Assumptions C96_kept.

Example C96_kept_ex :
  parsed ex_body /\
  extend_tree [] ex_body ex_cs =
  [Simple 1 0 0;
   Comp 2 0 false 1 [Note (mkc 3 4 1); Simple 4 4 2; Note (mkc 5 4 2)] [];
   Note (mkc 6 0 3);
   Comp 7 0 false 3 [Simple 8 4 4; Note (mkc 9 4 4)] []].
Proof. split; [exact ex_parsed|reflexivity]. Qed.

(** Groups: a group is a run of comments on consecutive lines and at the same
    column, and runs are maximal. *)
Theorem C96_groups : forall l,
  concat (groups l) = l /\ Forall (fun g => g <> []) (groups l) /\
  Forall (linked follows) (groups l) /\ linked separate (groups l).
Proof. exact groups_l. Qed.
Print Assumptions C96_groups.

Example C96_groups_ex :
  groups [mkc 1 0 1; mkc 2 0 2; mkc 3 4 3; mkc 7 4 4] =
  [[mkc 1 0 1; mkc 2 0 2]; [mkc 3 4 3]; [mkc 7 4 4]].
Proof. reflexivity. Qed.

(** Without [else] and [elif], statements and comments are in the order of
    their lines.  Missing: programs with [else], see below. *)
Theorem C96_order_partial : forall elses body cs,
  parsed body -> without_else body ->
  increasing (flat_map stmts body) -> increasing (map c_line cs) ->
  (forall c, In c cs -> ~ In (c_line c) (flat_map stmts body)) ->
  increasing (flat_map lines (extend_tree elses body cs)).
Proof. exact order_l. Qed.
Print Assumptions C96_order_partial.

Example C96_order_ex :
  parsed ex_body /\ without_else ex_body /\ increasing (flat_map stmts ex_body) /\
  increasing (map c_line ex_cs) /\
  (forall c, In c ex_cs -> ~ In (c_line c) (flat_map stmts ex_body)) /\
  flat_map lines (extend_tree [] ex_body ex_cs) = [1; 2; 3; 4; 5; 6; 7; 8; 9].
Proof.
  split; [exact ex_parsed|]. split.
  { intros n Hn. cbn in Hn. repeat destruct Hn as [<-|Hn]; cbn; tauto. }
  split. { cbn. repeat split; intros; lia. }
  split. { cbn. repeat split; intros; lia. }
  split; [|reflexivity].
  intros c Hc H. cbn in Hc, H. repeat destruct Hc as [<-|Hc]; cbn in H; lia.
Qed.

(** Without [else] and [elif], a comment which is not indented deeper than a
    compound statement, after its last statement, is not put in its body: a
    directive at the column of the next statement stays in the block of that
    statement. *)
Theorem C96_block_partial : forall elses body cs,
  parsed body -> without_else body -> aligned body ->
  deeper (extend_tree elses body cs).
Proof. exact deeper_l. Qed.
Print Assumptions C96_block_partial.

Example C96_block_ex :
  aligned ex_body /\
  In (Note (mkc 6 0 3)) (extend_tree [] ex_body ex_cs) /\
  ~ deeper [Comp 2 0 false 1 [Simple 4 4 2; Note (mkc 6 0 3)] []].
Proof.
  split; [|split].
  - split.
    + intros x y Hx Hy. cbn in Hx, Hy.
      repeat destruct Hx as [<-|Hx]; repeat destruct Hy as [<-|Hy]; try tauto; reflexivity.
    + intros n Hn. cbn in Hn. repeat destruct Hn as [<-|Hn]; cbn; try tauto;
        repeat split; auto; intros x y [<-|[]] [<-|[]]; reflexivity.
  - cbn. auto.
  - intros H. specialize (H _ (or_introl eq_refl)). apply every_self in H.
    specialize (H (mkc 6 0 3)). cbn in H.
    enough (0 < 0) by lia. apply H; [auto|]. intros y Hy. lia.
Qed.

(** A statement with an [else], at the end of its block: the comments before
    the line of [else] go in its body and those after it in its [else]
    branch, if there is a comment after it, or if no line [else:] of the file
    comes before the comments.  Missing: the other programs with [else]. *)
Theorem C96_else_partial : forall elses pre l c i id b o before after e,
  parsed (pre ++ [Comp l c i id b o]) ->
  increasing (flat_map stmts (pre ++ [Comp l c i id b o])) ->
  (forall n, In n pre -> col_of n = c) ->
  else_block o ->
  increasing (map c_line (before ++ after)) -> increasing elses ->
  In e elses -> l < e < first_line o ->
  (forall e', In e' elses -> e' <= first_line o -> e' <= e) ->
  (forall y, In y before -> l < c_line y < e) ->
  (forall y, In y after -> e < c_line y /\ c < c_col y) ->
  (after = [] -> forall e' y, In e' elses -> In y before -> c_line y < e') ->
  exists b' o',
    extend_tree elses (pre ++ [Comp l c i id b o]) (before ++ after) =
    pre ++ [Comp l c i id b' o'] /\
    flat_map strip b' = b /\ flat_map notes b' = before /\
    flat_map strip o' = o /\ flat_map notes o' = after.
Proof. exact shared_l. Qed.
Print Assumptions C96_else_partial.

(** <<
     5  if:
     6      #$ (1)
     7      z
     8  else:
     9      # (2)
    10      w
>> after another [else:] at line 3. *)
Example C96_else_ex :
  extend_tree [3; 8]
    [Comp 1 0 true 0 [Simple 2 4 0] [Simple 4 4 0];
     Comp 5 0 true 1 [Simple 7 4 2] [Simple 10 4 3]]
    ([mkc 6 4 1] ++ [mkc 9 4 2]) =
    [Comp 1 0 true 0 [Simple 2 4 0] [Simple 4 4 0];
     Comp 5 0 true 1 [Note (mkc 6 4 1); Simple 7 4 2] [Note (mkc 9 4 2); Simple 10 4 3]] /\
  else_block [Simple 10 4 3] /\ 5 < 8 < first_line [Simple 10 4 3].
Proof. split; [reflexivity|]. cbn. lia. Qed.

(** A statement with an [else], at the end of its block, whose body has
    comments and its [else] branch none, after any other line [else:] of the
    file: all the comments of the body are moved to the [else] branch. *)
Theorem C96_else_refuted : forall elses pre l c i id b o k cs e,
  parsed (pre ++ [Comp l c i id b o]) ->
  increasing (flat_map stmts (pre ++ [Comp l c i id b o])) ->
  else_block o ->
  increasing (map c_line (k :: cs)) -> increasing elses ->
  (forall y, In y (k :: cs) -> l < c_line y < first_line o) ->
  In e elses -> e < c_line k ->
  (forall e' y, In e' elses -> In y (k :: cs) -> ~ c_line k <= e' <= c_line y) ->
  extend_tree elses (pre ++ [Comp l c i id b o]) (k :: cs) =
  pre ++ [Comp l c i id b (map Note (k :: cs) ++ o)].
Proof. exact moved_l. Qed.
Print Assumptions C96_else_refuted.

(** The directive of line 6 is for the body, which starts at line 7. *)
Example C96_else_refuted_ex :
  extend_tree [3; 8]
    [Comp 1 0 true 0 [Simple 2 4 0] [Simple 4 4 0];
     Comp 5 0 true 1 [Simple 7 4 2] [Simple 9 4 3]]
    [mkc 6 4 1] =
    [Comp 1 0 true 0 [Simple 2 4 0] [Simple 4 4 0];
     Comp 5 0 true 1 [Simple 7 4 2] [Note (mkc 6 4 1); Simple 9 4 3]] /\
  parsed [Comp 1 0 true 0 [Simple 2 4 0] [Simple 4 4 0];
          Comp 5 0 true 1 [Simple 7 4 2] [Simple 9 4 3]] /\
  (forall e' y, In e' [3; 8] -> In y [mkc 6 4 1] -> ~ c_line (mkc 6 4 1) <= e' <= c_line y).
Proof.
  split; [reflexivity|]. split.
  - intros n Hn. cbn in Hn. repeat destruct Hn as [<-|Hn]; cbn; try tauto;
      repeat split; auto; discriminate.
  - intros e' y He [<-|[]]. cbn in *. lia.
Qed.

(** A statement with an [else], followed by other statements, with a comment
    at the end of its [else] branch: if the comments which follow, inside the
    next statements, are indented, they are all moved to the [else] branch
    and the next statements lose theirs. *)
Theorem C96_next_refuted : forall elses l c i id b o next post k cs e,
  o <> [] -> (forall n, In n o -> simple n) ->
  l < c_line k ->
  (forall n y, In n o -> In y (k :: cs) -> line_of n < c_line y) ->
  c_line k < line_of next ->
  (forall y, In y (k :: cs) -> c < c_col y) ->
  In e elses -> (forall n, In n o -> e <= line_of n) -> increasing elses ->
  extend_tree elses (Comp l c i id b o :: next :: post) (k :: cs) =
  Comp l c i id b (o ++ map Note (k :: cs)) :: next :: post.
Proof. exact stolen_l. Qed.
Print Assumptions C96_next_refuted.

(** The directive of line 7, in the loop of line 6, is put in the [else]
    branch of line 3, before the loop. *)
Example C96_next_refuted_ex :
  extend_tree [3]
    [Comp 1 0 true 0 [Simple 2 4 0] [Simple 4 4 0]; Comp 6 0 false 1 [Simple 8 4 2] []]
    [mkc 5 4 1; mkc 7 4 2] =
    [Comp 1 0 true 0 [Simple 2 4 0] [Simple 4 4 0; Note (mkc 5 4 1); Note (mkc 7 4 2)];
     Comp 6 0 false 1 [Simple 8 4 2] []].
Proof. reflexivity. Qed.
