(* What the generated text means: how C and Fortran read it. *)
From Coq Require Import Bool String Ascii Arith ZArith Lia List.
From Verif Require Import Text_Model.
Import ListNotations.
Open Scope list_scope.

(* ------------------------------------------------------------------------- *)
(* C string literals (C11 6.4.5, 6.4.4.4), without octal, hexadecimal and universal
   escapes: they are not read. *)

Definition c_escape (c : ascii) : option ascii :=
  let n := nat_of_ascii c in
  if n =? 39 then Some (ch 39) else if n =? 34 then Some (ch 34) else if n =? 63 then Some (ch 63)
  else if n =? 92 then Some (ch 92) else if n =? 97 then Some (ch 7) else if n =? 98 then Some (ch 8)
  else if n =? 102 then Some (ch 12) else if n =? 110 then Some (ch 10) else if n =? 114 then Some (ch 13)
  else if n =? 116 then Some (ch 9) else if n =? 118 then Some (ch 11) else None.

(* What is after the opening quote; the characters, and the text after the closing quote. *)
Fixpoint c_chars (l : text) : option (text * text) :=
  match l with
  | [] => None
  | c :: l' =>
    if Ascii.eqb c (ch 34) then Some ([], l')
    else if Ascii.eqb c (ch 10) then None
    else if Ascii.eqb c (ch 92) then
      match l' with
      | [] => None
      | e :: l'' =>
        match c_escape e, c_chars l'' with
        | Some x, Some (s, r) => Some (x :: s, r)
        | _, _ => None
        end
      end
    else
      match c_chars l' with
      | Some (s, r) => Some (c :: s, r)
      | None => None
      end
  end.

(* The string a C literal denotes. *)
Definition c_read (l : text) : option text :=
  match l with
  | c :: l' =>
    if Ascii.eqb c (ch 34) then
      match c_chars l' with
      | Some (s, []) => Some s
      | _ => None
      end
    else None
  | [] => None
  end.

(* ------------------------------------------------------------------------- *)
(* Fortran character expressions: literals, ACHAR(n) and // *)

Fixpoint skip_blanks (l : text) : text :=
  match l with
  | c :: l' => if Ascii.eqb c (ch 32) || Ascii.eqb c (ch 9) then skip_blanks l' else l
  | [] => []
  end.

(* After the opening apostrophe; two apostrophes are one character. *)
Fixpoint f_chars (l : text) : option (text * text) :=
  match l with
  | [] => None
  | c :: l' =>
    if Ascii.eqb c (ch 10) || Ascii.eqb c (ch 13) then None
    else if Ascii.eqb c (ch 39) then
      match l' with
      | d :: l'' =>
        if Ascii.eqb d (ch 39) then
          match f_chars l'' with
          | Some (s, r) => Some (ch 39 :: s, r)
          | None => None
          end
        else Some ([], l')
      | [] => Some ([], l')
      end
    else
      match f_chars l' with
      | Some (s, r) => Some (c :: s, r)
      | None => None
      end
  end.

Definition digit_value (c : ascii) : option nat :=
  let n := nat_of_ascii c in if (48 <=? n) && (n <=? 57) then Some (n - 48) else None.

(* The digits of a number, the value so far, and ). *)
Fixpoint f_number (l : text) (v : nat) : option (nat * text) :=
  match l with
  | [] => None
  | c :: l' =>
    if Ascii.eqb c (ch 41) then Some (v, l')
    else match digit_value c with
         | Some d => f_number l' (10 * v + d)
         | None => None
         end
  end.

Definition f_primary (l : text) : option (text * text) :=
  match l with
  | c :: l' =>
    if Ascii.eqb c (ch 39) then f_chars l'
    else if starts (T "ACHAR(") l then
      match f_number (skipn 6 l) 0 with
      | Some (n, r) => if n <? 128 then Some ([ch n], r) else None
      | None => None
      end
    else None
  | [] => None
  end.

(* fuel: more than the number of primaries *)
Fixpoint f_concat (fuel : nat) (l : text) : option text :=
  match fuel with
  | O => None
  | S k =>
    match f_primary (skip_blanks l) with
    | None => None
    | Some (s, r) =>
      match skip_blanks r with
      | [] => Some s
      | r' =>
        if starts (T "//") r' then
          match f_concat k (skipn 2 r') with
          | Some s' => Some (s ++ s')
          | None => None
          end
        else None
      end
    end
  end.

(* The string a Fortran character expression denotes. *)
Definition f_read (l : text) : option text := f_concat (S (List.length l)) l.

(* ------------------------------------------------------------------------- *)
(* Indentation *)

Definition same_code (a b : list text) : Prop := Forall2 (fun x y => skip_blanks x = skip_blanks y) a b.

(* Lines with the number of blocks they are in.  A block is a line that opens it, lines,
   and a line that closes it; lines such as } else { separate its parts. *)
Inductive nested (opens closes blank : text -> Prop) : nat -> list (nat * text) -> Prop :=
| nested_nil : forall d, nested opens closes blank d []
| nested_blank : forall d l r, blank l -> nested opens closes blank d r -> nested opens closes blank d ((0, l) :: r)
| nested_line : forall d l r, ~ blank l -> ~ opens l -> ~ closes l -> nested opens closes blank d r ->
    nested opens closes blank d ((d, l) :: r)
| nested_block : forall d o body c r, ~ blank o -> opens o -> ~ closes o -> parts opens closes blank d body ->
    ~ blank c -> closes c -> ~ opens c -> nested opens closes blank d r ->
    nested opens closes blank d ((d, o) :: body ++ (d, c) :: r)
with parts (opens closes blank : text -> Prop) : nat -> list (nat * text) -> Prop :=
| parts_one : forall d b, nested opens closes blank (S d) b -> parts opens closes blank d b
| parts_more : forall d b m p, nested opens closes blank (S d) b -> ~ blank m -> opens m -> closes m ->
    parts opens closes blank d p -> parts opens closes blank d (b ++ (d, m) :: p).

Scheme nested_ind2 := Induction for nested Sort Prop with parts_ind2 := Induction for parts Sort Prop.
Combined Scheme nested_parts_ind from nested_ind2, parts_ind2.

Definition c_opens (l : text) : Prop := exists p, l = p ++ T "{" ++ [NL].
(* a text with characters after a newline, which is not one line, counts as closing *)
Definition c_closes (l : text) : Prop := (exists p, l = T "}" ++ p) \/ (exists c p, l = NL :: c :: p).
Definition c_blank (l : text) : Prop := l = [] \/ l = [NL].

(* Fortran: the lines that open and close blocks. *)
Definition word_end (r : text) : Prop := forall c r', r = c :: r' -> word_char c = false.
Definition f_opens (l : text) : Prop :=
  (exists k r, In k ["do"; "else"; "interface"; "program"]%string /\ l = T k ++ r /\ word_end r)
  \/ (exists c, (l = T "if (" ++ c ++ T ") then" \/ l = T "if (" ++ c ++ T ") then" ++ [NL]) /\ ~ In NL c)
  \/ (exists c r, l = T "type" ++ c :: r /\ word_char c = false /\ c <> ch 40)
  \/ (exists e p c k r, In e [""; "elemental "]%string /\ In p [""; "pure "]%string /\ In c [""; "recursive "]%string
        /\ In k ["subroutine"; "function"]%string /\ l = T e ++ T p ++ T c ++ T k ++ r /\ word_end r)
  \/ (exists r, l = T "module" ++ r /\ word_end r /\ ~ (exists n r', r = repeat SP n ++ T "procedure" ++ r')).
Definition f_closes (l : text) : Prop :=
  (exists b k r, In b [""; " "]%string
     /\ In k ["do"; "if"; "type"; "function"; "subroutine"; "interface"; "module"; "program"]%string
     /\ l = T "end" ++ T b ++ T k ++ r)
  \/ (exists r, l = T "else" ++ r).
(* empty lines and preprocessor lines *)
Definition f_blank (l : text) : Prop := l = [] \/ l = [NL] \/ (exists r, l = T "#" ++ r).

(* ------------------------------------------------------------------------- *)
(* Fortran free form: continuation lines *)

Definition blank (c : ascii) : Prop := c = ch 32 \/ c = ch 9.
Definition quote (c : ascii) : bool := Ascii.eqb c (ch 34) || Ascii.eqb c (ch 39).

(* The literal in which we are after the character c. *)
Definition next_quote (q : option ascii) (c : ascii) : option ascii :=
  match q with
  | Some d => if Ascii.eqb c d then None else q
  | None => if quote c then Some c else None
  end.

Fixpoint quote_after (q : option ascii) (l : text) : option ascii :=
  match l with
  | [] => q
  | c :: l' => quote_after (next_quote q c) l'
  end.

(* The text of a line up to a comment. *)
Fixpoint uncomment (q : option ascii) (l : text) : text :=
  match l with
  | [] => []
  | c :: l' =>
    match q with
    | None => if Ascii.eqb c (ch 33) then [] else c :: uncomment (next_quote q c) l'
    | Some _ => c :: uncomment (next_quote q c) l'
    end
  end.

(* The line without its final &, if its last character that is not blank is &. *)
Definition continued (l : text) : option text :=
  match skip_blanks (rev l) with
  | c :: r => if Ascii.eqb c (ch 38) then Some (rev r) else None
  | [] => None
  end.

Definition without_newline (l : text) : text :=
  match rev l with
  | c :: r => if Ascii.eqb c (ch 10) then rev r else l
  | [] => l
  end.

(* One statement on several lines (Fortran 2003, 3.3.1).  A continuation line starts after
   its & if its first character that is not blank is &: this is necessary in a literal. *)
Fixpoint statement (first : bool) (q : option ascii) (lines : list text) : option text :=
  match lines with
  | [] => None
  | l :: rest =>
    let l := without_newline l in
    let body :=
      if first then Some l
      else match skip_blanks l with
           | c :: l' => if Ascii.eqb c (ch 38) then Some l' else match q with None => Some l | Some _ => None end
           | [] => match q with None => Some l | Some _ => None end
           end in
    match body with
    | None => None
    | Some b =>
      let t := uncomment q b in
      match continued t with
      | Some t' =>
        match statement false (quote_after q t') rest with
        | Some s => Some (t' ++ s)
        | None => None
        end
      | None =>
        match quote_after q t, rest with
        | None, [] => Some t
        | _, _ => None
        end
      end
    end
  end.

(* A line with one statement and no comment: outside literals there is no ! and no &, the
   only white characters are blanks, and all literals are closed. *)
Fixpoint plain_from (q : option ascii) (l : text) : Prop :=
  match l with
  | [] => q = None
  | c :: l' =>
    match q with
    | Some _ => c <> NL /\ plain_from (next_quote q c) l'
    | None => c <> ch 33 /\ c <> ch 38 /\ (space c = true -> blank c) /\ plain_from (next_quote q c) l'
    end
  end.

(* The line has tab blanks before its first other character. *)
Definition indented (tab : nat) (l : text) : Prop :=
  exists c r, l = repeat SP tab ++ c :: r /\ space c = false.

(* The same statement up to blanks outside literals: blanks are added only between
   characters that may be separated, and removed only if others are there or at the end. *)
Inductive respaced (may : ascii -> ascii -> Prop) : option ascii -> option ascii -> text -> text -> Prop :=
| rs_nil : forall q p, respaced may q p [] []
| rs_char : forall q p c a b, respaced may (next_quote q c) (Some c) a b -> respaced may q p (c :: a) (c :: b)
| rs_blanks : forall p g g' a b, Forall blank g -> Forall blank g' -> g <> [] -> g' <> [] ->
    respaced may None (Some SP) a b -> respaced may None p (g ++ a) (g' ++ b)
| rs_end : forall p g, Forall blank g -> respaced may None p g []
| rs_insert : forall p g' y a b, Forall blank g' -> (forall x, p = Some x -> may x y) ->
    respaced may None (Some SP) (y :: a) b -> respaced may None p (y :: a) (g' ++ b).

(* Names and numbers, blanks and parentheses, and the rest: a blank may be put between
   characters of different classes. *)
Inductive char_class := Word | Blank_or_paren | Operator.
Definition class_of (c : ascii) : char_class :=
  if is_in c (T "ABCDEFGHIJKLMNOPQRSTUVWXYZabcdefghijklmnopqrstuvwxyz0123456789_.+-") then Word
  else if is_in c [ch 32; ch 9; ch 40; ch 41] then Blank_or_paren else Operator.
Definition separable (x y : ascii) : Prop := class_of x <> class_of y.

(* Among any n + 1 consecutive characters there are two that may be separated, or the last
   is in a literal. *)
Definition breakable (n : nat) (l : text) : Prop :=
  forall u v z w, l = u ++ v ++ z :: w -> List.length v = n ->
  (exists v1 x y v2, v ++ [z] = v1 ++ x :: y :: v2 /\ separable x y) \/ quote_after None (u ++ v) <> None.

(* The lines of a file that the wrapper is for: comments, empty lines and statements. *)
Definition comment_line (l : text) : Prop :=
  exists n r, l = repeat SP n ++ ch 33 :: r /\ n < 71 /\ forall r', r <> ch 36 :: r'.
Definition one_statement (l s : text) : Prop :=
  l = s ++ [NL] /\ plain_from None s /\ (s = [] \/ exists tab, indented tab s /\ tab < 65).

(* What the lines written for one line must be. *)
Definition written_for (l : text) (g : list text) : Prop :=
  (comment_line l /\ (g = [l] \/ g = [l ++ [NL]]))
  \/ (exists s j, one_statement l s /\ statement true None g = Some j
        /\ respaced (fun _ _ => True) None None s j /\ Forall (fun x => List.length x <= 75) g).
