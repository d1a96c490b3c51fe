(** The comments of a program, put back into its syntax tree.

    Python's parser drops comments; pyccel finds them in the text and inserts
    them in the tree, because comments starting with [#$] are OpenMP or
    OpenACC directives.  /repo/pyccel/parser/extend_tree.py. *)

From Coq Require Import List Bool Arith.
Import ListNotations.

(** A comment (or a group of comments on consecutive lines): CommentLine,
    CommentMultiLine, lines 22-35.  Line, column, text. *)
Record comment : Type := mkc { c_line : nat; c_col : nat; c_text : nat }.

(** A statement of Python's syntax tree: simple, or compound with a [body]
    and perhaps an [orelse].  Lines and columns are those of its first
    character.  Not modelled: the other blocks of [try]. *)
Inductive node : Type :=
  | Simple (line col id : nat)
  | Comp (line col : nat) (is_if : bool) (id : nat) (body orelse : list node)
  | Note (c : comment).

Definition line_of (n : node) : nat :=
  match n with Simple l _ _ => l | Comp l _ _ _ _ _ => l | Note c => c_line c end.

Definition col_of (n : node) : nat :=
  match n with Simple _ c _ => c | Comp _ c _ _ _ _ => c | Note c => c_col c end.

Definition is_if (n : node) : bool :=
  match n with Comp _ _ b _ _ _ => b | _ => false end.

(** get_comments, lines 52-82: consecutive comment lines of the same column
    are one group, with the line of the first.  [group prev l]: the group which starts with
    [prev], and the next groups.  Not modelled: the text of a group. *)
Fixpoint group (prev : comment) (l : list comment) : list comment * list (list comment) :=
  match l with
  | [] => ([prev], [])
  | c :: l' =>
      let '(g, gs) := group c l' in
      if Nat.eqb (c_line c) (c_line prev + 1) && Nat.eqb (c_col c) (c_col prev)
      then (prev :: g, gs)
      else ([prev], g :: gs)
  end.

Definition groups (l : list comment) : list (list comment) :=
  match l with [] => [] | c :: l' => let '(g, gs) := group c l' in g :: gs end.

(** get_last_lineno, lines 104-110. *)
Fixpoint last_line (n : node) : nat :=
  match n with
  | Comp l _ _ _ body orelse =>
      let fix go (d : nat) (b : list node) : nat :=
        match b with [] => d | [x] => last_line x | _ :: b' => go d b' end in
      match orelse with [] => go l body | _ => go l orelse end
  | _ => line_of n
  end.

(** The comments before the first which satisfies [p], and the others: the
    loops [for k, ... in enumerate(comment_lines_no) ... else: k = k + 1]. *)
Fixpoint cut (p : comment -> bool) (cs : list comment) : list comment * list comment :=
  match cs with
  | [] => ([], [])
  | c :: cs' => if p c then ([], cs) else let '(a, b) := cut p cs' in (c :: a, b)
  end.

(** [orelse[0]] is an [elif], lines 168-170 and 243-245. *)
Definition is_elif (orelse : list node) : bool :=
  match orelse with [x] => is_if x | _ => false end.

(** Lines 189-196 and 259-264, the case of an [else]: the last line of
    [elses] (the lines which start with [else:]) not after the last of the
    comments nor after the first statement of the [orelse]; the comments
    before that line are those of the body. *)
Definition before_else (elses : list nat) (first_orelse : nat)
  (inside rest : list comment) : list comment * list comment :=
  match rev inside with
  | [] => (inside, rest)
  | c :: _ =>
      match rev (filter (fun e => Nat.leb e (c_line c) && Nat.leb e first_orelse) elses) with
      | [] => (inside, rest)
      | e :: _ =>
          let '(a, b) := cut (fun c => Nat.leb e (c_line c)) inside in (a, b ++ rest)
      end
  end.

(** Lines 164-224 (with [next], the line of the next statement of the block)
    and 238-291 (without): the comments inside the compound statement, and
    the comments left.  [ins] is the recursive call. *)
Definition into (ins : option nat -> list node -> list comment -> list node)
  (elses : list nat) (col : nat) (next : option nat) (n : node) (cs : list comment)
  : node * list comment :=
  match n with
  | Comp l c i id body orelse =>
      let has_else := negb (Nat.eqb (length orelse) 0) in
      let elif := is_elif orelse in
      let end_ :=
        match orelse with
        | x :: _ => line_of x
        | [] => last_line (Comp l c i id body [])
        end in
      let stop (c : comment) :=
        Nat.ltb end_ (c_line c) &&
        ((has_else && elif) ||
         (Nat.leb (c_col c) col && negb has_else) ||
         match next with Some m => Nat.ltb m (c_line c) | None => false end) in
      let '(inside, rest) := cut stop cs in
      let '(inside, rest) :=
        if has_else && negb elif then before_else elses end_ inside rest
        else (inside, rest) in
      let body' := ins None body inside in
      if has_else then
        let last := last_line n in
        let '(inside2, rest2) :=
          cut (fun c => Nat.ltb last (c_line c) && Nat.leb (c_col c) col) rest in
        (Comp l c i id body' (ins (Some col) orelse inside2), rest2)
      else (Comp l c i id body' orelse, rest)
  | _ => (n, cs)
  end.

(** insert_comments, the loop of lines 139-235 and the end, lines 237-294.
    [prev] is the current statement of the block, [rest] the statements after
    it.  While there are comments left, those before the next statement are
    put inside [prev] or after it. *)
Fixpoint loop (ins : option nat -> list node -> list comment -> list node)
  (elses : list nat) (col : nat) (prev : node) (rest : list node) (cs : list comment)
  : list node :=
  match rest with
  | [] =>
      let '(prev', cs') := into ins elses col None prev cs in
      prev' :: map Note cs'
  | next :: rest' =>
      match cs with
      | [] => prev :: rest
      | c :: _ =>
          if Nat.ltb (line_of next) (c_line c)
          then prev :: loop ins elses col next rest' cs
          else
            let '(prev', cs1) := into ins elses col (Some (line_of next)) prev cs in
            let '(between, cs2) :=
              cut (fun c => Nat.ltb (line_of next) (c_line c)) cs1 in
            prev' :: map Note between ++ loop ins elses col next rest' cs2
      end
  end.

(** insert_comments, lines 113-136: the comments before the first statement
    (line 130 takes all comments up to the last one before it: the same, as
    comments are sorted), then the loop.  [given]: the column passed by the
    caller, used if the block is an [orelse] which starts with an [if].
    [fuel] bounds the depth of the tree. *)
Fixpoint insert (fuel : nat) (elses : list nat) (given : option nat)
  (body : list node) (cs : list comment) : list node :=
  match cs, body with
  | [], _ => body
  | _, [] => []
  | _, first :: rest =>
      match fuel with
      | O => []
      | S fuel' =>
          let col :=
            match given with
            | Some c => if is_if first then c else col_of first
            | None => col_of first
            end in
          let '(front, cs1) := cut (fun c => Nat.leb (line_of first) (c_line c)) cs in
          map Note front ++ loop (insert fuel' elses) elses col first rest cs1
      end
  end.

(** The depth of a tree, enough fuel. *)
Fixpoint depth (n : node) : nat :=
  match n with
  | Comp _ _ _ _ body orelse =>
      S (Nat.max (fold_right (fun x d => Nat.max (depth x) d) 0 body)
                 (fold_right (fun x d => Nat.max (depth x) d) 0 orelse))
  | _ => 0
  end.

Definition depths (b : list node) : nat := fold_right (fun x d => Nat.max (depth x) d) 0 b.

(** extend_tree, lines 88-101. *)
Definition extend_tree (elses : list nat) (body : list node) (cs : list comment) : list node :=
  match body with
  | [] => map Note cs
  | _ => insert (S (depths body)) elses None body cs
  end.
