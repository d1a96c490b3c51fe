(* print in the generated C code.
   Sources: pyccel/codegen/printing/ccode.py 384-391, 1638-1863, 4122-4128,
   pyccel/ast/c_concepts.py 199-342.
   Simplifications: values of type float and complex, calls that return tuples and types
   are not modelled; the macros PRId8 ... PRId64 are their expansions hhd ... ld; the
   literals of one format, which C concatenates, are one literal. *)
From Coq Require Import Bool String Ascii Arith ZArith Lia List DecimalString.
From Verif Require Import Text_Model.
Import ListNotations.
Open Scope list_scope.

(* The containers that are written as literals: PythonTuple, PythonList, PythonSet. *)
Inductive container := KTuple | KList | KSet.

(* The types of the integers: precision 1, 2, 4 and 8. *)
Inductive width := W8 | W16 | W32 | W64.

(* A scalar argument and the value it has when it is printed; SLitB is LiteralTrue or
   LiteralFalse. *)
Inductive scalar := SInt (w : width) (z : Z) | SBool (b : bool) | SLitB (b : bool).

(* A variable of rank > 0 and its elements: an array, or a list. *)
Inductive arr := Elem (s : scalar) | Row (l : list arr).

Inductive arg :=
| ALit (s : text)                       (* LiteralString *)
| AStr (s : text)                       (* another expression of type str *)
| AScal (s : scalar)
| ACont (k : container) (l : list arg)
| AArr (l : list arr).                  (* f.rank > 0 *)

(* The arguments of printf *)
Inductive value := VInt (z : Z) | VStr (s : text).

(* One printf: the literal of the format and the arguments. *)
Record call := mk_call { c_format : text; c_args : list value }.

(* ccode.py 384-391: type_to_format *)
Definition int_format (w : width) : text :=
  match w with
  | W8 => T "%hhd"
  | W16 => T "%hd"
  | W32 => T "%d"
  | W64 => T "%ld"
  end.

(* ccode.py 1638-1703: get_print_format_and_arg; a bool is the conditional expression
   b ? "True" : "False". *)
Definition scalar_format (s : scalar) : text * value :=
  match s with
  | SInt w z => (int_format w, VInt z)
  | SBool b | SLitB b => (T "%s", VStr (if b then T "True" else T "False"))
  end.

(* ccode.py 1738-1746: formatted_args_to_printf, with c_concepts.py 279-311 (join) and
   1705-1706 (_print_CStringExpression). *)
Definition to_printf (sep : text) (fmts : list text) (vals : list value) (end_ : text) : call :=
  mk_call (c_literal (join sep fmts ++ end_)) vals.

(* ccode.py 1752-1763: the tags *)
Definition tags (k : container) : text * text :=
  match k with
  | KTuple => (T "(", T ")")
  | KList => (T "[", T "]")
  | KSet => (T "{", T "}")
  end.

(* ccode.py 1778-1782: the elements and container_sep, without the last *)
Fixpoint interleave (l : list arg) : list arg :=
  match l with
  | [] => []
  | [a] => [a]
  | a :: l' => a :: ALit (T ", ") :: interleave l'
  end.

(* ccode.py 1778-1791: the arguments of the print of a container *)
Definition container_args (k : container) (l : list arg) : list arg :=
  [ALit (fst (tags k))] ++ interleave l ++ (if Nat.eqb (List.length l) 1 then [ALit (T ",")] else [])
  ++ [ALit (snd (tags k))].

(* ccode.py 1809-1854: the body for a variable of rank > 0, executed: [, the elements but
   the last, the last, and ] with the end. *)
Fixpoint print_arr (a : arr) (end_ : text) : list call :=
  match a with
  | Elem s => [to_printf (T " ") [fst (scalar_format s)] [snd (scalar_format s)] end_]
  | Row l =>
    to_printf (T " ") [T "["] [] []
    :: (fix rows (l : list arr) : list call :=
          match l with
          | [] => []
          | [x] => print_arr x []
          | x :: l' => print_arr x (match x with Elem _ => T " " | Row _ => [NL] end) ++ rows l'
          end) l
    ++ [to_printf (T " ") [] [] (T "]" ++ end_)]
  end.

(* ccode.py 1711-1863: _print_PythonPrint; the list of the printf that are executed.
   args_format and args are fmts and vals.  fuel: more than the depth of the containers. *)
Fixpoint print_call (fuel : nat) (args : list arg) (sep end_ : text) : option (list call) :=
  match fuel with
  | O => None
  | S k =>
    match args with
    | [] => Some [to_printf sep [] [] end_]
    | _ =>
      (fix go (l : list arg) (fmts : list text) (vals : list value) : option (list call) :=
         match l with
         | [] => Some (if fmts then [] else [to_printf sep fmts vals end_])
         | a :: l' =>
           let flush := if fmts then [] else [to_printf sep fmts vals sep] in
           match a with
           | ACont c es =>
             match print_call k (container_args c es) [] (if l' then end_ else sep), go l' [] [] with
             | Some x, Some y => Some (flush ++ x ++ y)
             | _, _ => None
             end
           | AArr es =>
             match go l' [] [] with
             | Some y => Some (flush ++ print_arr (Row es) (if l' then end_ else []) ++ y)
             | None => None
             end
           | ALit s => go l' (fmts ++ [s]) vals
           | AStr s => go l' (fmts ++ [T "%s"]) (vals ++ [VStr s])
           | AScal s => go l' (fmts ++ [fst (scalar_format s)]) (vals ++ [snd (scalar_format s)])
           end
         end) args [] []
    end
  end.
