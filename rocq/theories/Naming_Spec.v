(* What it means for identifiers to clash in a target language. *)
From Coq Require Import List String Ascii Arith.
From Verif Require Import Naming_Model.
Import ListNotations.
Open Scope string_scope.
Open Scope list_scope.
Open Scope nat_scope.

(* Equal characters up to the case of ASCII letters. *)
Definition char_ci (a b : ascii) : Prop :=
  a = b
  \/ (65 <= nat_of_ascii a <= 90 /\ nat_of_ascii b = nat_of_ascii a + 32)
  \/ (65 <= nat_of_ascii b <= 90 /\ nat_of_ascii a = nat_of_ascii b + 32).

Inductive string_ci : string -> string -> Prop :=
| ci_nil : string_ci EmptyString EmptyString
| ci_cons a b r s : char_ci a b -> string_ci r s -> string_ci (String a r) (String b s).

(* Two spellings denote the same identifier: Fortran ignores case. *)
Definition same_ident (l : lang) (a b : string) : Prop :=
  match l with
  | LFortran => string_ci a b
  | LC | LPython => a = b
  end.

(* The spelling is one of the words pyccel treats as reserved. *)
Definition reserved (l : lang) (a : string) : Prop :=
  exists k, In k (keywords l) /\ same_ident l a k.

Definition in_use (l : lang) (a : string) (symbols : list string) : Prop :=
  exists s, In s symbols /\ same_ident l a s.

(* ISO C11 6.4.1. *)
Definition c11_keywords : list string := [
  "auto"; "break"; "case"; "char"; "const"; "continue"; "default"; "do"; "double"; "else";
  "enum"; "extern"; "float"; "for"; "goto"; "if"; "inline"; "int"; "long"; "register";
  "restrict"; "return"; "short"; "signed"; "sizeof"; "static"; "struct"; "switch"; "typedef";
  "union"; "unsigned"; "void"; "volatile"; "while"; "_Alignas"; "_Alignof"; "_Atomic"; "_Bool";
  "_Complex"; "_Generic"; "_Imaginary"; "_Noreturn"; "_Static_assert"; "_Thread_local" ].

(* The value of a string of decimal digits. *)
Fixpoint dec_value (s : string) (acc : nat) : nat :=
  match s with
  | EmptyString => acc
  | String c r => dec_value r (10 * acc + (nat_of_ascii c - 48))
  end.
