(* The text of the generated files: string literals, indentation, wrapping.
   Sources: pyccel/codegen/printing/ccode.py 1622-1636, 4147-4185,
   pyccel/codegen/printing/fcode.py 299-323, 394-412, 2776-2792, 4373-4534,
   pyccel/codegen/printing/codeprinter.py 46-68.
   Simplification: characters are the code points below 256. *)
From Coq Require Import Bool String Ascii Arith ZArith Lia List.
Import ListNotations.
Open Scope list_scope.

Definition text := list ascii.
Definition T (s : string) : text := list_ascii_of_string s.

Definition ch (n : nat) : ascii := ascii_of_nat n.
Definition NL : ascii := ch 10.
Definition SP : ascii := ch 32.

Definition is_in (c : ascii) (l : text) : bool := existsb (Ascii.eqb c) l.

Fixpoint starts (p l : text) : bool :=
  match p, l with
  | [], _ => true
  | a :: p', b :: l' => Ascii.eqb a b && starts p' l'
  | _ :: _, [] => false
  end.

Fixpoint eqt (a b : text) : bool :=
  match a, b with
  | [], [] => true
  | x :: a', y :: b' => Ascii.eqb x y && eqt a' b'
  | _, _ => false
  end.

Definition ends (p l : text) : bool := starts (rev p) (rev l).

(* ------------------------------------------------------------------------- *)
(* String literals                                                              *)
(* ------------------------------------------------------------------------- *)

(* str.replace with a string of one character *)
Definition replace (c : ascii) (by_ : text) (s : text) : text := flat_map (fun x => if Ascii.eqb x c then by_ else [x]) s.

(* ccode.py 1622-1636: _print_LiteralString; the text between cstr_lit( and ). *)
Definition c_literal (s : text) : text :=
  let s := replace (ch 92) [ch 92; ch 92] s in
  let s := replace (ch 7) [ch 92; ch 97] s in
  let s := replace (ch 8) [ch 92; ch 98] s in
  let s := replace (ch 12) [ch 92; ch 102] s in
  let s := replace (ch 10) [ch 92; ch 110] s in
  let s := replace (ch 13) [ch 92; ch 114] s in
  let s := replace (ch 9) [ch 92; ch 116] s in
  let s := replace (ch 11) [ch 92; ch 118] s in
  let s := replace (ch 34) [ch 92; ch 34] s in
  let s := replace (ch 39) [ch 92; ch 39] s in
  ch 34 :: s ++ [ch 34].

(* str of a number below 100 *)
Definition digit (n : nat) : ascii := ch (48 + n).
Definition decimal (n : nat) : text := if Nat.ltb n 10 then [digit n] else [digit (n / 10); digit (n mod 10)].

(* fcode.py 2779 *)
Definition sp_chars : text := [ch 7; ch 8; ch 12; ch 13; ch 9; ch 11; ch 39; ch 10].

(* fcode.py 2782-2791: the loop; formatted_str and sub_str. *)
Fixpoint f_pieces (s : text) (sub : text) (acc : list text) : list text :=
  match s with
  | [] => if sub then acc else acc ++ [ch 39 :: sub ++ [ch 39]]
  | c :: s' =>
    if is_in c sp_chars then
      let acc := if sub then acc else acc ++ [ch 39 :: sub ++ [ch 39]] in
      f_pieces s' [] (acc ++ [T "ACHAR(" ++ decimal (nat_of_ascii c) ++ T ")"])
    else f_pieces s' (sub ++ [c]) acc
  end.

Fixpoint join (sep : text) (l : list text) : text :=
  match l with
  | [] => []
  | [x] => x
  | x :: l' => x ++ sep ++ join sep l'
  end.

(* fcode.py 2776-2792: _print_LiteralString. *)
Definition f_literal (s : text) : text :=
  match s with
  | [] => T "''"
  | _ => join (T " // ") (f_pieces s [] [])
  end.

(* ------------------------------------------------------------------------- *)
(* Lines and indentation                                                        *)
(* ------------------------------------------------------------------------- *)

(* The line boundaries of str.splitlines: \n \v \f \r \x1c \x1d \x1e \x85. *)
Definition boundary (c : ascii) : bool := is_in c [ch 10; ch 11; ch 12; ch 13; ch 28; ch 29; ch 30; ch 133].

(* str.splitlines(True); \r\n is one boundary. *)
Fixpoint splitlines (s : text) (line : text) : list text :=
  match s with
  | [] => if line then [] else [line]
  | c :: s' =>
    if boundary c then
      match s' with
      | d :: s'' => if Ascii.eqb c (ch 13) && Ascii.eqb d (ch 10) then (line ++ [c; d]) :: splitlines s'' []
                    else (line ++ [c]) :: splitlines s' []
      | [] => [line ++ [c]]
      end
    else splitlines s' (line ++ [c])
  end.

(* str.lstrip with a set of characters *)
Fixpoint lstrip (f : ascii -> bool) (l : text) : text :=
  match l with
  | [] => []
  | c :: l' => if f c then lstrip f l' else l
  end.
Definition rstrip (f : ascii -> bool) (l : text) : text := rev (lstrip f (rev l)).

Definition tabs (c : ascii) : bool := is_in c [ch 32; ch 9].

(* The loop of indent_code, for both languages: inc and dec say which lines change the
   level, kept which lines are not indented. *)
Fixpoint indent_from (inc dec kept : text -> bool) (width : nat) (level : Z) (code : list text) : list text :=
  match code with
  | [] => []
  | line :: code' =>
    if kept line then line :: indent_from inc dec kept width level code'
    else
      let level := if dec line then (level - 1)%Z else level in
      (repeat SP (Z.to_nat level * width) ++ line)
      :: indent_from inc dec kept width (if inc line then level + 1 else level)%Z code'
  end.

Definition indent_lines (inc dec kept : text -> bool) (width : nat) (code : list text) : list text :=
  indent_from inc dec kept width 0 (map (lstrip tabs) code).

(* ccode.py 4147-4185: indent_code of a list of lines.  any(map(line.startswith, "}\n"))
   tests for each of the two characters. *)
Definition empty_line (l : text) : bool := eqt l [] || eqt l [NL].
Definition c_inc (l : text) : bool := ends [ch 123; NL] l.
Definition c_dec (l : text) : bool := starts [ch 125] l || starts [NL] l.
Definition indent_c : list text -> list text := indent_lines c_inc c_dec empty_line 4.

(* fcode.py 299-323: inc_regex and dec_regex with re.match. *)
Definition word_char (c : ascii) : bool :=
  let n := nat_of_ascii c in
  (Nat.leb 48 n && Nat.leb n 57) || (Nat.leb 65 n && Nat.leb n 90) || (Nat.leb 97 n && Nat.leb n 122) || Nat.eqb n 95
  (* the letters and digits of Latin-1 *)
  || Nat.eqb n 170 || Nat.eqb n 178 || Nat.eqb n 179 || Nat.eqb n 181 || Nat.eqb n 185 || Nat.eqb n 186
  || (Nat.leb 188 n && Nat.leb n 190) || (Nat.leb 192 n && negb (Nat.eqb n 215) && negb (Nat.eqb n 247)).

(* the keyword followed by \b; what comes after it *)
Definition keyword (k l : text) : option text :=
  if starts k l then
    let r := skipn (List.length k) l in
    match r with
    | c :: _ => if word_char c then None else Some r
    | [] => Some r
    end
  else None.

Definition some {A} (o : option A) : bool := match o with Some _ => true | None => false end.

(* (k )? *)
Definition optional (k l : text) : text := if starts k l then skipn (List.length k) l else l.

(* if \(.*?\) then$ : $ is the end or before a final newline, . is not a newline. *)
Definition if_then (l : text) : bool :=
  let l := if ends [NL] l then removelast l else l in
  starts (T "if (") l && ends (T ") then") (skipn 4 l) && negb (is_in NL l).

(* type\b\s*[^\(] : there is a blank, or a character other than ( and the end; \s* can
   give back a blank. *)
Definition type_def (l : text) : bool :=
  match keyword (T "type") l with
  | Some (c :: _) => negb (Ascii.eqb c (ch 40))
  | _ => false
  end.

Definition f_inc (l : text) : bool :=
  some (keyword (T "do") l) || if_then l || some (keyword (T "else") l) || type_def l
  || (let r := optional (T "recursive ") (optional (T "pure ") (optional (T "elemental ") l)) in
      some (keyword (T "subroutine") r) || some (keyword (T "function") r))
  || some (keyword (T "interface") l)
  || match keyword (T "module") l with
     | Some r => negb (starts (T "procedure") (lstrip (Ascii.eqb SP) r))
     | None => false
     end
  || some (keyword (T "program") l).

Definition f_dec (l : text) : bool :=
  (starts (T "end") l
   && let r := optional (T " ") (skipn 3 l) in
      existsb (fun k => starts (T k) r)
        ["do"; "if"; "type"; "function"; "subroutine"; "interface"; "module"; "program"]%string)
  || starts (T "else") l.

(* fcode.py 4492-4534: indent_code of a list of lines. *)
Definition f_kept (l : text) : bool := empty_line l || starts (T "#") l.
Definition indent_f : list text -> list text := indent_lines f_inc f_dec f_kept 2.

(* ccode.py 4164-4166, fcode.py 4507-4509: indent_code of a string *)
Definition indent_text (f : list text -> list text) (s : text) : text := concat (f (splitlines s [])).

(* codeprinter.py 65-68, ccode.py 448-449: doprint of the C printer. *)
Definition doprint_c (s : text) : text := concat (indent_c (splitlines s [])).

(* ------------------------------------------------------------------------- *)
(* Wrapping                                                                     *)
(* ------------------------------------------------------------------------- *)

(* str.isspace: the characters str.strip() removes. *)
Definition space (c : ascii) : bool :=
  is_in c [ch 9; ch 10; ch 11; ch 12; ch 13; ch 28; ch 29; ch 30; ch 31; ch 32; ch 133; ch 160].

(* fcode.py 4391-4392 *)
Definition my_alnum (c : ascii) : bool :=
  let n := nat_of_ascii c in
  (Nat.leb 48 n && Nat.leb n 57) || (Nat.leb 65 n && Nat.leb n 90) || (Nat.leb 97 n && Nat.leb n 122)
  || is_in c (T "_+-.").
Definition my_white (c : ascii) : bool := is_in c [ch 32; ch 9; ch 40; ch 41].

(* line[p] and slices, with the negative indices of Python *)
Definition at_ (l : text) (p : Z) : option ascii :=
  let n := Z.of_nat (List.length l) in
  if (0 <=? p)%Z then nth_error l (Z.to_nat p)
  else if (- n <=? p)%Z then nth_error l (Z.to_nat (n + p)) else None.

Definition slice_at (l : text) (p : Z) : nat :=
  let n := Z.of_nat (List.length l) in
  if (0 <=? p)%Z then Z.to_nat p else Z.to_nat (n + p).

Definition before (l : text) (p : Z) : text := firstn (slice_at l p) l.
Definition after (l : text) (p : Z) : text := skipn (slice_at l p) l.

(* fcode.py 4398-4403: the lambda. *)
Definition split (l : text) (p : Z) : option bool :=
  match at_ l p, at_ l (p - 1) with
  | Some y, Some x =>
    Some ((my_alnum y && negb (my_alnum x)) || (negb (my_alnum y) && my_alnum x)
          || (my_white y && negb (my_white x)) || (negb (my_white y) && my_white x))
  | _, _ => None                     (* IndexError *)
  end.

(* fcode.py 4404-4408: while not split(pos); it makes at most as many steps as there are
   positions. *)
Fixpoint split_down (steps : nat) (l : text) (endpos pos : Z) : option Z :=
  match steps with
  | O => None
  | S k =>
    match split l pos with
    | None => None
    | Some true => Some pos
    | Some false => if (pos - 1 =? 0)%Z then Some endpos else split_down k l endpos (pos - 1)
    end
  end.

(* fcode.py 4394-4408: split_pos_code. *)
Definition split_pos (l : text) (endpos : Z) : option Z :=
  if (Z.of_nat (List.length l) <=? endpos)%Z then Some (Z.of_nat (List.length l))
  else split_down (2 + Z.to_nat endpos + List.length l) l endpos endpos.

(* The place of the next c. *)
Fixpoint find (c : ascii) (l : text) : option nat :=
  match l with
  | [] => None
  | x :: l' => if Ascii.eqb x c then Some 0 else match find c l' with Some k => Some (S k) | None => None end
  end.

(* fcode.py 4427-4434: inside_quotes_positions, as one boolean for each position.  skip:
   the number of positions that belong to the match in progress. *)
Fixpoint inside_quotes (l : text) (skip : nat) : list bool :=
  match l with
  | [] => []
  | c :: l' =>
    match skip with
    | S k => true :: inside_quotes l' k
    | O =>
      if is_in c [ch 34; ch 39] then
        match find c l' with
        | Some k => true :: inside_quotes l' (S k)
        | None => false :: inside_quotes l' 0
        end
      else false :: inside_quotes l' 0
    end
  end.

Definition inside (q : list bool) (p : Z) : bool := if (0 <=? p)%Z then nth (Z.to_nat p) q false else false.

(* fcode.py 4443-4448, 4461-4466: hunk and the new line. *)
Definition cut (ins : bool) (l : text) (pos : Z) : text * text :=
  if ins then (before l pos, after l pos) else (rstrip space (before l pos), lstrip space (after l pos)).

(* fcode.py 4450-4453, 4467-4472 *)
Definition trail (ins : bool) (hunk line : text) : text :=
  match line with
  | [] => hunk
  | _ => hunk ++ (if ins then T "&" else T " &")
  end.

Inductive kind := Plain | Omp | Acc.

(* fcode.py 4474-4481 *)
Definition hunk_start (k : kind) (tab : nat) (last : bool) : text :=
  repeat SP tab ++ (if last then T "&" else match k with Omp => T "!$omp &" | Acc => T "!$acc &" | Plain => T "      " end).

Inductive result := Lines (l : list text) | Raises | Running.

(* fcode.py 4457-4486: the loop; Running: the loop has not ended after fuel iterations. *)
Fixpoint hunks (fuel : nat) (q : list bool) (initial tab : nat) (k : kind) (last : bool) (line : text) : result :=
  match line with
  | [] => Lines []
  | _ =>
    match fuel with
    | O => Running
    | S fuel' =>
      let removed := (Z.of_nat initial - Z.of_nat (List.length line))%Z in
      match split_pos line (65 - Z.of_nat tab) with
      | None => Raises
      | Some pos =>
        let ins := inside q (pos + removed) in
        let (hunk, rest) := cut ins line pos in
        match hunks fuel' q initial tab k ins rest with
        | Lines l => Lines ((hunk_start k tab last ++ trail ins hunk rest) :: l)
        | r => r
        end
      end
    end
  end.

(* fcode.py 4416-4488: one line. *)
Definition wrap_line (fuel : nat) (line : text) : result :=
  if Nat.ltb 72 (List.length line) then
    let cline := lstrip space (firstn 72 line) in
    if starts (T "!") cline && negb (starts (T "!$") cline) then Lines [line]
    else
      match cline with
      | [] => Raises                        (* IndexError *)
      | c0 :: _ =>
        let tab := match find c0 line with Some n => n | None => 0 end in
        let q := inside_quotes line 0 in
        let k := if starts (T "!$omp") cline then Omp else if starts (T "!$acc") cline then Acc else Plain in
        match split_pos line 72 with
        | None => Raises
        | Some pos =>
          if match k with Plain => false | _ => (pos <? 5)%Z end then Raises       (* AssertionError *)
          else
            let ins := inside q pos in
            let (hunk, rest) := cut ins line pos in
            match hunks fuel q (List.length line) tab k ins rest with
            | Lines l => Lines (trail ins hunk rest :: l)
            | r => r
            end
        end
      end
  else Lines [line].

(* fcode.py 4491 *)
Definition newline_at_end (l : text) : text := if ends [NL] l then l else l ++ [NL].

(* fcode.py 4373-4491: _wrap_fortran. *)
Fixpoint wrap_fortran (fuel : nat) (lines : list text) : result :=
  match lines with
  | [] => Lines []
  | l :: lines' =>
    match wrap_line fuel l, wrap_fortran fuel lines' with
    | Lines a, Lines b => Lines (map newline_at_end a ++ b)
    | Lines _, r => r
    | r, _ => r
    end
  end.

(* codeprinter.py 65-68, fcode.py 394-412: doprint of the Fortran printer. *)
Definition doprint_f (fuel : nat) (s : text) : option text :=
  match wrap_fortran fuel (indent_f (splitlines s [])) with
  | Lines l => Some (concat l)
  | _ => None
  end.
