(* print in the generated Fortran code.
   Sources: pyccel/codegen/printing/fcode.py 1069-1325.
   Simplifications: floats, complex numbers, types and calls that return tuples are not
   modelled; sep and end are literals, as in the code of C. *)
From Coq Require Import Bool String Ascii Arith ZArith Lia List.
From Verif Require Import Text_Model Print_Model.
Import ListNotations.
Open Scope list_scope.

(* The edit descriptors A and I0 *)
Inductive edit := EA | EI0.

(* The items of a write: the code of a literal, the value of another expression of type
   str, an integer, and merge("True ", "False", b). *)
Inductive fvalue := FCode (code : text) | FText (s : text) | FInt (z : Z) | FMerge (b : bool).

Record write := mk_write { w_edits : list edit; w_items : list fvalue; w_advance : bool }.

(* fcode.py 1236-1241: [af for a in l for af in (a, x)][:-1] *)
Fixpoint between {A : Type} (x : A) (l : list A) : list A :=
  match l with
  | [] => []
  | [a] => [a]
  | a :: l' => a :: x :: between x l'
  end.

Definition text_eqb (a b : text) : bool := if list_eq_dec ascii_dec a b then true else false.

(* fcode.py 1200-1254: _formatted_args_to_print; fsep and fend are the values of the
   literals, their codes are never empty. *)
Definition to_write (edits : list edit) (items : list fvalue) (fend fsep : text) : write :=
  let fend_code := f_literal fend in
  let newline := text_eqb fend_code (T "ACHAR(10)") in
  let edits := between EA edits in
  let items := between (FCode (f_literal fsep)) items in
  if newline then mk_write edits items true
  else mk_write (edits ++ [EA]) (items ++ [FCode fend_code]) false.

(* fcode.py 1256-1331: _get_print_format_and_arg *)
Definition scalar_edit (s : scalar) : edit * fvalue :=
  match s with
  | SInt _ z => (EI0, FInt z)
  | SLitB b => (EA, FCode (if b then T "'True'" else T "'False'"))
  | SBool b => (EA, FMerge b)
  end.

(* fcode.py 1153-1192: a variable of rank > 0, executed: the print (1069-1198) of an element
   with an end.  For a row: [, the elements but the last, the last, ], and the write of the
   end (1197), which the print of several arguments does not have here (write_body). *)
Fixpoint write_elem (a : arr) (end_ : text) : list write :=
  match a with
  | Elem s => [to_write [fst (scalar_edit s)] [snd (scalar_edit s)] end_ (T " ")]
  | Row l =>
    to_write [EA] [FCode (f_literal (T "["))] [] (T " ")
    :: (fix rows (l : list arr) : list write :=
          match l with
          | [] => []
          | [x] => write_elem x []
          | x :: l' => write_elem x (match x with Elem _ => T " " | Row _ => [NL] end) ++ rows l'
          end) l
    ++ [to_write [] [] (T "]") (T " "); to_write [] [] end_ (T " ")]
  end.

(* the body alone *)
Definition write_body (l : list arr) : list write := removelast (write_elem (Row l) []).

(* fcode.py 1069-1198: _print_PythonPrint; the list of the write that are executed.
   args_format and args are edits and items.  fuel: more than the depth of the containers. *)
Fixpoint write_call (fuel : nat) (args : list arg) (sep end_ : text) : option (list write) :=
  match fuel with
  | O => None
  | S k =>
    (fix go (l : list arg) (edits : list edit) (items : list fvalue) : option (list write) :=
       match l with
       | [] => Some [to_write edits items end_ sep]
       | a :: l' =>
         let flush := if edits then [] else [to_write edits items sep sep] in
         match a with
         | ACont c es =>
           match write_call k (container_args c es) [] (if l' then [] else sep), go l' [] [] with
           | Some x, Some y => Some (flush ++ x ++ y)
           | _, _ => None
           end
         | AArr es =>
           match go l' [] [] with
           | Some y => Some (flush ++ write_body es ++ y)
           | None => None
           end
         | ALit s => go l' (edits ++ [EA]) (items ++ [FCode (f_literal s)])
         | AStr s => go l' (edits ++ [EA]) (items ++ [FText s])
         | AScal s => go l' (edits ++ [fst (scalar_edit s)]) (items ++ [snd (scalar_edit s)])
         end
       end) args [] []
  end.
