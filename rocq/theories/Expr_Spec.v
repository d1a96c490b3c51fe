(* How Python, C and Fortran read an expression, and what the text printed for an
   expression should be read as. *)
From Coq Require Import List Bool Arith String.
From Verif Require Import Expr_Model.
Import ListNotations.
Open Scope list_scope.
Open Scope string_scope.
Open Scope nat_scope.

(* ---- reading ---- *)
(* A language: for each infix operator its level and the least levels of its left
   and right operands; for each prefix operator its level and that of its
   operand; whether there is Python's conditional expression (level 3). *)
Record lang := mkLang { infixes : list (string * (nat * nat * nat));
                        prefixes : list (string * (nat * nat));
                        has_if : bool }.
Fixpoint find {A} (o : string) (l : list (string * A)) : option A :=
  match l with [] => None | (k, v) :: r => if String.eqb o k then Some v else find o r end.
Definition infix (L : lang) (o : string) := find o (infixes L).
Definition prefix_ (L : lang) (o : string) := find o (prefixes L).
Section Reader.
Variable L : lang.
(* the level of an expression: 100 if it is closed *)
Definition top (t : txt) : nat :=
  match t with
  | Pre o _ => match prefix_ L o with Some (l, _) => l | None => 0 end
  | In o _ _ => match infix L o with Some (l, _, _) => l | None => 0 end
  | TIf _ _ _ => 3
  | _ => 100
  end.
(* Precedence climbing: read an expression of level at least lvl. *)
Fixpoint rd_expr (fuel lvl : nat) (ts : list tok) : option (txt * list tok) :=
  match fuel with
  | O => None
  | S f => match rd_first f lvl ts with
           | Some (t, r) => rd_more f lvl t r
           | None => None
           end
  end
with rd_first (fuel lvl : nat) (ts : list tok) : option (txt * list tok) :=
  match fuel with
  | O => None
  | S f =>
    match ts with
    | KAt a :: r => Some (At a, r)
    | KOp o :: r =>
        match prefix_ L o with
        | Some (l, arg) =>
            if lvl <=? l then
              match rd_expr f arg r with
              | Some (t, r') => Some (Pre o t, r')
              | None => None
              end
            else None
        | None => None
        end
    | KL :: r =>
        match rd_expr f 0 r with
        | Some (t, KR :: r') => Some (Par t, r')
        | Some (c, KQ :: r') =>
            match rd_expr f 0 r' with
            | Some (a, KColon :: r'') =>
                match rd_expr f 0 r'' with
                | Some (b, KR :: r3) => Some (TQ c a b, r3)
                | _ => None
                end
            | _ => None
            end
        | _ => None
        end
    | KFun g :: KL :: r =>
        match rd_expr f 0 r with
        | Some (a, KR :: r') => Some (Call1 g a, r')
        | Some (a, KComma :: r') =>
            match rd_expr f 0 r' with
            | Some (b, KR :: r2) => Some (Call2 g a b, r2)
            | Some (b, KComma :: r2) =>
                match rd_expr f 0 r2 with
                | Some (c, KR :: r3) => Some (Call3 g a b c, r3)
                | _ => None
                end
            | _ => None
            end
        | _ => None
        end
    | _ => None
    end
  end
with rd_more (fuel lvl : nat) (left : txt) (ts : list tok) : option (txt * list tok) :=
  match fuel with
  | O => None
  | S f =>
    match ts with
    | KOp o :: r =>
        match infix L o with
        | Some (l, ll, rl) =>
            if lvl <=? l then
              if ll <=? top left then
                match rd_expr f rl r with
                | Some (b, r') => rd_more f lvl (In o left b) r'
                | None => None
                end
              else None
            else Some (left, ts)
        | None => Some (left, ts)
        end
    | KIf :: r =>
        if has_if L && (lvl <=? 3) then
          if 4 <=? top left then
            match rd_expr f 4 r with
            | Some (c, KElse :: r') =>
                match rd_expr f 3 r' with
                | Some (b, r2) => rd_more f lvl (TIf left c b) r2
                | None => None
                end
            | _ => None
            end
          else None
        else Some (left, ts)
    | _ => Some (left, ts)
    end
  end.
(* the whole text *)
Definition read (ts : list tok) : option txt :=
  match rd_expr (4 * List.length ts + 4) 0 ts with
  | Some (t, []) => Some t
  | _ => None
  end.
End Reader.

(* without the parentheses *)
Fixpoint strip (t : txt) : txt :=
  match t with
  | At a => At a
  | Par t => strip t
  | Pre o t => Pre o (strip t)
  | In o a b => In o (strip a) (strip b)
  | Call1 f a => Call1 f (strip a)
  | Call2 f a b => Call2 f (strip a) (strip b)
  | Call3 f a b c => Call3 f (strip a) (strip b) (strip c)
  | TQ c a b => TQ (strip c) (strip a) (strip b)
  | TIf a c b => TIf (strip a) (strip c) (strip b)
  end.

(* Python, Language Reference 6.17: or, and, not, comparisons, |, ^, &, shifts,
   + -, * / // %, signs and ~, **.  6.5: the right operand of ** may have a sign. *)
Definition py_lang : lang := mkLang
   [("or", (4, 4, 5)); ("and", (5, 5, 6)); ("==", (7, 7, 8)); ("!=", (7, 7, 8)); ("<", (7, 7, 8));
    ("<=", (7, 7, 8)); (">", (7, 7, 8)); (">=", (7, 7, 8)); ("is", (7, 7, 8));
    ("is not", (7, 7, 8)); ("in", (7, 7, 8)); ("|", (8, 8, 9)); ("^", (9, 9, 10));
    ("&", (10, 10, 11)); ("<<", (11, 11, 12)); (">>", (11, 11, 12)); ("+", (12, 12, 13));
    ("-", (12, 12, 13)); ("*", (13, 13, 14)); ("/", (13, 13, 14)); ("%", (13, 13, 14));
    ("//", (13, 13, 14)); ("**", (15, 16, 14))]
   [("not", (6, 6)); ("+", (14, 14)); ("-", (14, 14)); ("~", (14, 14))]
   true.
(* In Python a comparison directly to the right of a comparison belongs to a chain:
   it is no operand of the next. *)
Definition is_cmp (o : string) : bool :=
  existsb (String.eqb o) ["=="; "!="; "<"; "<="; ">"; ">="; "is"; "is not"; "in"].
Fixpoint py_strip (t : txt) : txt :=
  match t with
  | At a => At a
  | Par t => py_strip t
  | Pre o t => Pre o (py_strip t)
  | In o a b =>
      let chain := match a with In o' _ _ => is_cmp o && is_cmp o' | _ => false end in
      In (if chain then "chained " ++ o else o) (py_strip a) (py_strip b)
  | Call1 f a => Call1 f (py_strip a)
  | Call2 f a b => Call2 f (py_strip a) (py_strip b)
  | Call3 f a b c => Call3 f (py_strip a) (py_strip b) (py_strip c)
  | TQ c a b => TQ (py_strip c) (py_strip a) (py_strip b)
  | TIf a c b => TIf (py_strip a) (py_strip c) (py_strip b)
  end.
(* C17 6.5.3 to 6.5.15, all binary operators from left to right.  A cast is one word. *)
Definition c_lang : lang := mkLang
   [("||", (4, 4, 5)); ("&&", (5, 5, 6)); ("|", (6, 6, 7)); ("^", (7, 7, 8)); ("&", (8, 8, 9));
    ("==", (9, 9, 10)); ("!=", (9, 9, 10)); ("<", (10, 10, 11)); ("<=", (10, 10, 11));
    (">", (10, 10, 11)); (">=", (10, 10, 11)); ("<<", (11, 11, 12)); (">>", (11, 11, 12));
    ("+", (12, 12, 13)); ("-", (12, 12, 13)); ("*", (13, 13, 14)); ("/", (13, 13, 14));
    ("%", (13, 13, 14))]
   [("+", (14, 14)); ("-", (14, 14)); ("!", (14, 14)); ("~", (14, 14)); ("(double)", (14, 14));
    ("(int64_t)", (14, 14))]
   false.
(* Fortran 2018, R1002 to R1022.  Relations do not associate; a sign is at the level
   of addition, its operand at that of multiplication; .not. is not repeated. *)
Definition f_lang : lang := mkLang
   [(".eqv.", (2, 2, 3)); (".neqv.", (2, 2, 3)); (".or.", (4, 4, 5)); (".and.", (5, 5, 6));
    ("==", (7, 8, 8)); ("/=", (7, 8, 8)); ("<", (7, 8, 8)); ("<=", (7, 8, 8)); (">", (7, 8, 8));
    (">=", (7, 8, 8)); ("+", (12, 12, 13)); ("-", (12, 12, 13)); ("*", (13, 13, 14));
    ("/", (13, 13, 14)); ("**", (15, 16, 15))]
   [(".not.", (6, 7)); ("+", (12, 13)); ("-", (12, 13))]
   false.

(* The type of an expression, by the rules of the model (see C25 for Python's). *)
Fixpoint sty (e : se) : ptype :=
  match e with
  | SAt _ t => t
  | SUn (Plus | Minus) x => sty x
  | SUn Not _ => TBool
  | SUn Inv _ => TInt
  | SBin (Pow | Add | Sub | Mul | Mod | FloorDiv | LSh | RSh) a b => tadd (sty a) (sty b)
  | SBin Div _ _ => TFloat
  | SBin (BXor | BOr | BAnd) a b => tand (sty a) (sty b)
  | SBin _ _ _ => TBool
  | SMore _ _ _ => TBool
  | STern _ a b => if same_type (sty a) (sty b) then sty a else tadd (sty a) (sty b)
  | SBool _ => TBool
  end.

(* ---- what is meant ---- *)
(* Several operands joined by and, or by or, are joined from left to right; a chain
   of comparisons is the conjunction of the comparisons of neighbours.  An operand of
   and, or that is not boolean is cast by bool(): for the effect on the value see C11. *)
Definition boolean (e : se) : se := if is_bool (sty e) then e else SBool e.
Fixpoint join (o : bop) (l r : se) : se :=
  match r with
  | SBin o' r1 r2 =>
      match o, o' with And, And | Or, Or => SBin o (join o l r1) r2 | _, _ => SBin o l r end
  | _ => SBin o l r
  end.
Fixpoint canon (e : se) : se :=
  match e with
  | SAt a t => SAt a t
  | SUn o x => SUn o (canon x)
  | SBin And a b => join And (boolean (canon a)) (boolean (canon b))
  | SBin Or a b => join Or (boolean (canon a)) (boolean (canon b))
  | SBin o a b => SBin o (canon a) (canon b)
  | SMore p o b =>
      let last := match p with SBin _ _ x => canon x | SMore _ _ x => canon x | _ => canon p end in
      join And (canon p) (SBin o last (canon b))
  | STern c a b => STern (canon c) (canon a) (canon b)
  | SBool x => SBool (canon x)
  end.
Definition is_cmp_op (o : bop) : bool :=
  match o with Eq | Ne | Lt | Le | Gt | Ge | Is | IsNot | InOp => true | _ => false end.
(* chains are made of comparisons *)
Fixpoint chains_ok (e : se) : Prop :=
  match e with
  | SAt _ _ => True
  | SUn _ x => chains_ok x
  | SBin _ a b => chains_ok a /\ chains_ok b
  | SMore p o b =>
      chains_ok p /\ chains_ok b /\ is_cmp_op o = true /\
      match p with SBin o' _ _ | SMore _ o' _ => is_cmp_op o' = true | _ => False end
  | STern c a b => chains_ok c /\ chains_ok a /\ chains_ok b
  | SBool x => chains_ok x
  end.

(* Python: the same operators.  (canonical expressions, without SMore) *)
Fixpoint py_tree (e : se) : txt :=
  match e with
  | SAt a _ => At a
  | SUn Plus x => Pre "+" (py_tree x)
  | SUn Minus x => Pre "-" (py_tree x)
  | SUn Not x => Pre "not" (py_tree x)
  | SUn Inv x => Pre "~" (py_tree x)
  | SBin o a b => In (match o with
      | Pow => "**" | Add => "+" | Sub => "-" | Mul => "*" | Div => "/" | Mod => "%" | FloorDiv => "//"
      | Eq => "==" | Ne => "!=" | Lt => "<" | Le => "<=" | Gt => ">" | Ge => ">="
      | Is => "is" | IsNot => "is not" | InOp => "in"
      | LSh => "<<" | RSh => ">>" | BXor => "^" | BOr => "|" | BAnd => "&" | And => "and" | Or => "or"
      end) (py_tree a) (py_tree b)
  | SMore _ _ _ => At ""
  | STern c a b => TIf (py_tree a) (py_tree c) (py_tree b)
  | SBool x => Call1 "bool" (py_tree x)
  end.
(* Not reproduced by the printer: a comparison as left operand of a comparison, and a
   conditional expression as condition. *)
Fixpoint py_safe (e : se) : Prop :=
  match e with
  | SAt _ _ => True
  | SUn _ x => py_safe x
  | SBin o a b =>
      py_safe a /\ py_safe b /\
      (is_cmp_op o = true -> match a with SBin o' _ _ => is_cmp_op o' = false | _ => True end)
  | SMore _ _ _ => False
  | STern c a b =>
      py_safe c /\ py_safe a /\ py_safe b /\ match c with STern _ _ _ => False | _ => True end
  | SBool x => py_safe x
  end.

(* C: floating point division casts its operands when both are integers; powers,
   floor division and modulo are functions; and, or, not, and the bitwise operators
   on booleans are the logical operators. *)
Definition to_double (e : se) (x : txt) : txt := if is_float (sty e) then x else Pre "(double)" x.
Definition to_type (t : ptype) (e : se) (x : txt) : txt :=
  if same_type (sty e) t then x else Pre (if is_int t then "(int64_t)" else "(double)") x.
Fixpoint c_tree (e : se) : txt :=
  match e with
  | SAt a _ => At a
  | SUn Plus x => Pre "+" (c_tree x)
  | SUn Minus x => Pre "-" (c_tree x)
  | SUn Not x => Pre "!" (c_tree x)
  | SUn Inv x => Pre "~" (to_type TInt x (c_tree x))
  | SBin o a b =>
      let x := c_tree a in
      let y := c_tree b in
      let t := sty e in
      let ints := negb (is_float (sty a)) && negb (is_float (sty b)) in
      match o with
      | Pow => Call2 "pow" (to_double a x) (to_double b y)
      | Add => In "+" x y | Sub => In "-" x y | Mul => In "*" x y
      | Div => if is_int (sty a) && is_int (sty b) then In "/" (Pre "(double)" x) (Pre "(double)" y) else In "/" x y
      | Mod => if is_int t then Call2 "pyc_modulo" x y
               else Call2 "pyc_fmodulo" (if is_int (sty a) then Pre "(double)" x else x)
                                        (if is_int (sty b) then Pre "(double)" y else y)
      | FloorDiv => if ints then Call2 "py_floor_div_int64_t" x y
                    else Call1 "floor" (In "/" (to_double a x) (to_double b y))
      | Eq | Is => In "==" x y | Ne | IsNot => In "!=" x y
      | Lt => In "<" x y | Le => In "<=" x y | Gt => In ">" x y | Ge => In ">=" x y
      | InOp => Call2 "contains" y x
      | LSh => In "<<" (to_type t a x) (to_type t b y)
      | RSh => In ">>" (to_type t a x) (to_type t b y)
      | BXor => if is_bool t then In "!=" x y else In "^" (to_type t a x) (to_type t b y)
      | BOr => In (if is_bool t then "||" else "|") (to_type t a x) (to_type t b y)
      | BAnd => In (if is_bool t then "&&" else "&") (to_type t a x) (to_type t b y)
      | And => In "&&" x y | Or => In "||" x y
      end
  | SMore _ _ _ => At ""
  | STern c a b => TQ (c_tree c) (c_tree a) (c_tree b)
  | SBool x => In "!=" (c_tree x) (At "0")
  end.
Definition is_bit (e : se) : bool := match e with SBin (BXor | BOr | BAnd) _ _ => true | _ => false end.
Definition is_equality (e : se) : bool := match e with SBin (Eq | Ne | Is | IsNot) _ _ => true | _ => false end.
Definition is_logic (e : se) : bool := match e with SBin (And | Or) _ _ => true | _ => false end.
(* bitwise, and not the != printed for ^ between booleans *)
Definition is_low_bit (e : se) : bool :=
  match e with
  | SBin BXor a b => negb (is_bool (sty a) && is_bool (sty b))
  | SBin (BOr | BAnd) _ _ => true
  | _ => false
  end.
Definition is_band (e : se) : bool := match e with SBin BAnd _ _ => true | _ => false end.
(* Not reproduced by the printer: a bitwise operator as operand of a comparison or of
   bool(); an equality on the left of < <= > >=; & on the side of ^ between booleans;
   and, or inside bool(). *)
Fixpoint c_safe (e : se) : Prop :=
  match e with
  | SAt _ _ => True
  | SUn _ x => c_safe x
  | SBin o a b =>
      c_safe a /\ c_safe b /\
      match o with
      | Eq | Ne | Is | IsNot => is_low_bit a = false /\ is_bit b = false
      | Lt | Le | Gt | Ge => is_bit a = false /\ is_bit b = false /\ is_equality a = false
      | BXor => sty e = TBool -> is_band a = false /\ is_band b = false
      | _ => True
      end
  | SMore _ _ _ => False
  | STern c a b => c_safe c /\ c_safe a /\ c_safe b
  | SBool x => c_safe x /\ is_low_bit x = false /\ is_logic x = false
  end.

(* Fortran: arithmetic on booleans goes through MERGE; shifts, bitwise operators,
   modulo and floor division are functions. *)
Definition as_int (e : se) (x : txt) : txt := if is_bool (sty e) then Call3 "MERGE" (At "1") (At "0") x else x.
Definition as_real (e : se) (x : txt) : txt :=
  match sty e with TBool => Call3 "MERGE" (At "1.0") (At "0.0") x | TInt => Call1 "Real" x | TFloat => x end.
Definition as_type (t : ptype) (e : se) (x : txt) : txt :=
  match t with TFloat => as_real e x | TInt => as_int e x | TBool => x end.
Definition as_bool (e : se) (x : txt) : txt := if is_bool (sty e) then x else In "/=" x (At "0").
Fixpoint f_tree (e : se) : txt :=
  match e with
  | SAt a _ => At a
  | SUn Plus x => Pre "+" (f_tree x)
  | SUn Minus x => Pre "-" (f_tree x)
  | SUn Not x => if is_bool (sty x) then Pre ".not." (f_tree x) else In "==" (f_tree x) (At "0")
  | SUn Inv x => Call1 "NOT" (as_int x (f_tree x))
  | SBin o a b =>
      let x := f_tree a in
      let y := f_tree b in
      let t := sty e in
      let ints := negb (is_float (sty a)) && negb (is_float (sty b)) in
      let bools := is_bool (sty a) && is_bool (sty b) in
      match o with
      | Pow => In "**" x y
      | Add => In "+" (as_int a x) (as_int b y)
      | Sub => In "-" (as_int a x) (as_int b y)
      | Mul => In "*" (as_int a x) (as_int b y)
      | Div => if ints then In "/" (as_real a x) (as_real b y) else In "/" x y
      | Mod => Call2 "MODULO" (if is_float t && is_int (sty a) then Call1 "Real" x else x)
                              (if is_float t && is_int (sty b) then Call1 "Real" y else y)
      | FloorDiv => if ints then Call2 "pyc_floor_div" (as_type t a x) (as_type t b y)
                    else Call1 "real" (Call1 "FLOOR" (In "/" (as_type t a x) (as_type t b y)))
      | Eq => In (if bools then ".eqv." else "==") x y
      | Ne => In (if bools then ".neqv." else "/=") x y
      | Is => In ".eqv." x y | IsNot => In ".neqv." x y
      | Lt => In "<" (as_int a x) (as_int b y) | Le => In "<=" (as_int a x) (as_int b y)
      | Gt => In ">" (as_int a x) (as_int b y) | Ge => In ">=" (as_int a x) (as_int b y)
      | InOp => In "/=" (Call2 "count" y x) (At "0")
      | LSh => Call2 "LSHIFT" (as_int a x) (as_int b y)
      | RSh => Call2 "RSHIFT" (as_int a x) (as_int b y)
      | BXor => if is_bool t then In ".neqv." x y else Call2 "IEOR" (as_int a x) (as_int b y)
      | BOr => if is_bool t then In ".or." x y else Call2 "IOR" (as_int a x) (as_int b y)
      | BAnd => if is_bool t then In ".and." x y else Call2 "IAND" (as_int a x) (as_int b y)
      | And => In ".and." (as_bool a x) (as_bool b y)
      | Or => In ".or." (as_bool a x) (as_bool b y)
      end
  | SMore _ _ _ => At ""
  | STern c a b => Call3 "merge" (as_type (sty e) a (f_tree a)) (as_type (sty e) b (f_tree b)) (as_bool c (f_tree c))
  | SBool x => if is_bool (sty x) then Call1 "logical" (f_tree x) else In "/=" (f_tree x) (At "0")
  end.
(* Printed with .eqv. or .neqv.; with .or. for |; with .and. for &. *)
Definition looks_eqv (e : se) : bool :=
  match e with
  | SBin (Eq | Ne | BXor) a b => is_bool (sty a) && is_bool (sty b)
  | SBin (Is | IsNot) _ _ => true
  | _ => false
  end.
Definition looks_or (e : se) : bool :=
  match e with SBin BOr a b => is_bool (sty a) && is_bool (sty b) | _ => false end.
Definition looks_and (e : se) : bool :=
  match e with SBin BAnd a b => is_bool (sty a) && is_bool (sty b) | _ => false end.
Definition is_not_bool (e : se) : bool := match e with SUn Not x => is_bool (sty x) | _ => false end.
(* Not reproduced by the printer: such expressions under an operator that binds
   tighter in Fortran; not not.  Also left out, because Fortran does not have them:
   an equality between a boolean and a number, a sign or a power on booleans, a
   division of a boolean by a float or a float by a boolean. *)
Fixpoint f_safe (e : se) : Prop :=
  match e with
  | SAt _ _ => True
  | SUn Not x => f_safe x /\ looks_eqv x = false /\ looks_or x = false /\ looks_and x = false
                 /\ is_not_bool x = false
  | SUn (Plus | Minus) x => f_safe x /\ sty x <> TBool
  | SUn Inv x => f_safe x
  | SBin o a b =>
      f_safe a /\ f_safe b /\
      match o with
      | And => (looks_eqv a = false /\ looks_or a = false) /\
               (looks_eqv b = false /\ looks_or b = false /\ looks_and b = false)
      | Or => looks_eqv a = false /\ looks_eqv b = false /\ looks_or b = false
      | Is | IsNot => looks_eqv b = false
      | Eq | Ne => looks_eqv b = false /\ (sty a = TBool <-> sty b = TBool)
      | BOr => sty e = TBool -> looks_eqv a = false /\ looks_eqv b = false
      | Pow => sty a <> TBool /\ sty b <> TBool
      | Div => (sty a = TFloat -> sty b <> TBool) /\ (sty b = TFloat -> sty a <> TBool)
      | _ => True
      end
  | SMore _ _ _ => False
  | STern c a b => f_safe c /\ f_safe a /\ f_safe b
  | SBool x => f_safe x
  end.
