(** What the insertion of comments must do. *)

From Coq Require Import List Bool Arith.
From Verif Require Import Cmt_Model.
Import ListNotations.

(** The program without its comments. *)
Fixpoint strip (n : node) : list node :=
  match n with
  | Simple l c i => [Simple l c i]
  | Comp l c b i body orelse => [Comp l c b i (flat_map strip body) (flat_map strip orelse)]
  | Note _ => []
  end.

(** The comments of a tree, in the order of the tree. *)
Fixpoint notes (n : node) : list comment :=
  match n with
  | Simple _ _ _ => []
  | Comp _ _ _ _ body orelse => flat_map notes body ++ flat_map notes orelse
  | Note c => [c]
  end.

(** The lines of the statements and comments of a tree, in its order. *)
Fixpoint lines (n : node) : list nat :=
  match n with
  | Comp l _ _ _ body orelse => l :: flat_map lines body ++ flat_map lines orelse
  | _ => [line_of n]
  end.

(** The lines of the statements only. *)
Fixpoint stmts (n : node) : list nat :=
  match n with
  | Simple l _ _ => [l]
  | Comp l _ _ _ body orelse => l :: flat_map stmts body ++ flat_map stmts orelse
  | Note _ => []
  end.

(** [everywhere P n]: [P] of every statement of the tree. *)
Fixpoint everywhere (P : node -> Prop) (n : node) : Prop :=
  P n /\
  match n with
  | Comp _ _ _ _ body orelse =>
      fold_right (fun x Q => everywhere P x /\ Q) True body /\
      fold_right (fun x Q => everywhere P x /\ Q) True orelse
  | _ => True
  end.

(** Python's parser gives trees without comments; the body of a compound
    statement is not empty. *)
Definition parsed (b : list node) : Prop :=
  forall n, In n b ->
    everywhere (fun m => match m with
                         | Simple _ _ _ => True
                         | Comp _ _ _ _ body _ => body <> []
                         | Note _ => False
                         end) n.

(** A program without [else] and [elif]. *)
Definition without_else (b : list node) : Prop :=
  forall n, In n b ->
    everywhere (fun m => match m with Comp _ _ _ _ _ orelse => orelse = [] | _ => True end) n.

(** The statements of a block start at the same column. *)
Definition aligned (b : list node) : Prop :=
  (forall x y, In x b -> In y b -> col_of x = col_of y) /\
  forall n, In n b ->
    everywhere (fun m => match m with
                         | Comp _ _ _ _ body _ =>
                             forall x y, In x body -> In y body -> col_of x = col_of y
                         | _ => True
                         end) n.

(** Increasing lines. *)
Fixpoint increasing (l : list nat) : Prop :=
  match l with
  | [] => True
  | x :: l' => (forall y, In y l' -> x < y) /\ increasing l'
  end.

(** A comment which is inside a compound statement, after the last of its
    statements, is indented deeper than it. *)
Definition deeper (b : list node) : Prop :=
  forall n, In n b ->
    everywhere (fun m => match m with
                         | Comp _ c _ _ _ _ =>
                             forall k, In k (notes m) ->
                               (forall y, In y (stmts m) -> y < c_line k) ->
                               c < c_col k
                         | _ => True
                         end) n.

Definition simple (n : node) : Prop :=
  match n with Simple _ _ _ => True | _ => False end.

(** The [orelse] of a statement is an [else], not an [elif]. *)
Definition else_block (o : list node) : Prop :=
  match o with
  | [] => False
  | [Comp _ _ true _ _ _] => False
  | _ => True
  end.

(** The lines of a block which come first and last. *)
Definition first_line (o : list node) : nat :=
  match o with x :: _ => line_of x | [] => 0 end.

(** The next line of the text, at the same column. *)
Definition follows (a b : comment) : Prop :=
  c_line b = c_line a + 1 /\ c_col b = c_col a.

(** Every element is related to the next. *)
Fixpoint linked {A : Type} (R : A -> A -> Prop) (l : list A) : Prop :=
  match l with
  | a :: ((b :: _) as l') => R a b /\ linked R l'
  | _ => True
  end.

(** Two groups, one after the other: the second does not continue the first. *)
Definition separate (g h : list comment) : Prop :=
  exists u a b v, g = u ++ [a] /\ h = b :: v /\ ~ follows a b.
