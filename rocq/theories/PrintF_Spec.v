(* What the write statements of Fortran write. *)
From Coq Require Import Bool String Ascii Arith ZArith Lia List.
From Verif Require Import Text_Model Text_Spec Print_Model Print_Spec PrintF_Model.
Import ListNotations.
Open Scope list_scope.

(* One item under its edit descriptor *)
Definition edited (e : edit) (v : fvalue) : option text :=
  match e, v with
  | EA, FCode code => f_read code
  | EA, FText s => Some s
  | EA, FMerge b => Some (if b then T "True " else T "False")
  | EI0, FInt z => Some (decimal_of z)
  | _, _ => None
  end.

(* The items of a write, one for each descriptor *)
Fixpoint edited_all (l : list edit) (vs : list fvalue) : option text :=
  match l, vs with
  | [], [] => Some []
  | e :: l', v :: vs' =>
    match edited e v, edited_all l' vs' with Some a, Some b => Some (a ++ b) | _, _ => None end
  | _, _ => None
  end.

(* A write that advances ends its record. *)
Fixpoint written (l : list write) : option text :=
  match l with
  | [] => Some []
  | w :: l' =>
    match edited_all (w_edits w) (w_items w), written l' with
    | Some a, Some b => Some (a ++ (if w_advance w then [NL] else []) ++ b)
    | _, _ => None
    end
  end.

(* The arguments for which the generated code is right: a boolean that is not a literal is
   written with a trailing blank when it is true. *)
Fixpoint printable_f (a : arg) : Prop :=
  match a with
  | AScal (SBool b) => b = false
  | ACont k l => k <> KSet /\ (k = KList -> List.length l <> 1)
      /\ (fix all (l : list arg) : Prop := match l with [] => True | x :: l' => printable_f x /\ all l' end) l
  | AArr _ => False
  | _ => True
  end.
