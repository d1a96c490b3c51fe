(* Choosing identifiers which do not clash.
   Models /repo/pyccel/naming and /repo/pyccel/utilities/strings.py.
   Names are strings of 8-bit characters; str.lower is modelled for ASCII
   letters only. *)
From Coq Require Import List Bool Arith String Ascii.
From Verif Require Import Common.
Import ListNotations.
Open Scope string_scope.
Open Scope list_scope.
Open Scope nat_scope.
Open Scope py_scope.

(* The target languages (pyccel/naming/__init__.py). *)
Inductive lang := LC | LFortran | LPython.

(* naming/cnameclashchecker.py:24-115. *)
Definition c_keywords : list string := [
  "isign"; "fsign"; "csign"; "auto"; "break"; "case"; "char"; "const"; "continue";
  "default"; "do"; "double"; "else"; "enum"; "extern"; "float"; "for"; "goto"; "if";
  "inline"; "int"; "long"; "register"; "restrict"; "return"; "short"; "signed"; "sizeof";
  "static"; "struct"; "switch"; "typedef"; "union"; "unsigned"; "void"; "volatile";
  "whie"; "_Alignas"; "_Alignof"; "_Atomic"; "_Bool"; "_Complex"; "Decimal128";
  "_Decimal32"; "_Decimal64"; "_Generic"; "_Imaginary"; "_Noreturn"; "_Static_assert";
  "_Thread_local"; "I"; "cspan_copy"; "c_foreach"; "c_COLMAJOR"; "c_ROWMAJOR";
  "cspan_md_layout"; "using_cspan"; "STC_CSPAN_INDEX_TYPE"; "array_int64_1d";
  "array_int64_2d"; "array_int64_3d"; "array_int32_1d"; "array_int32_2d";
  "array_int32_3d"; "array_float_1d"; "array_float_2d"; "array_float_3d";
  "array_double_1d"; "array_double_2d"; "array_double_3d"; "array_bool_1d";
  "array_bool_2d"; "array_bool_3d"; "array_float_complex_1d"; "array_float_complex_2d";
  "array_float_complex_3d"; "array_double_complex_1d"; "array_double_complex_2d";
  "array_double_complex_3d"; "c_ALL"; "c_END"; "cspan_slice"; "cspan_transpose";
  "complex_max"; "complex_min"; "expm1"; "complex_expm1"; "main"
].

(* naming/fortrannameclashchecker.py:28-163. *)
Definition f_keywords : list string := [
  "assign"; "backspace"; "block"; "blockdata"; "call"; "close"; "common"; "continue";
  "data"; "dimension"; "do"; "else"; "elseif"; "end"; "endfile"; "endif"; "endfunction";
  "endmodule"; "endprogram"; "endsubroutine"; "entry"; "equivalence"; "external";
  "format"; "function"; "goto"; "if"; "implicit"; "intrinsic"; "open"; "parameter";
  "pause"; "print"; "program"; "read"; "return"; "rewind"; "rewrite"; "save"; "stop";
  "subroutine"; "then"; "write"; "allocatable"; "allocate"; "case"; "contains"; "cycle";
  "deallocate"; "elsewhere"; "exit"; "include"; "interface"; "intent"; "module";
  "namelist"; "nullify"; "only"; "operator"; "optional"; "pointer"; "private";
  "procedure"; "public"; "recursive"; "result"; "select"; "sequence"; "target"; "use";
  "while"; "where"; "elemental"; "forall"; "pure"; "abstract"; "associate";
  "asynchronous"; "bind"; "class"; "deferred"; "enum"; "enumerator"; "extends"; "final";
  "flush"; "generic"; "import"; "non_overridable"; "nopass"; "pass"; "protected"; "value";
  "volatile"; "wait"; "codimension"; "concurrent"; "contiguous"; "critical"; "error";
  "submodule"; "sync"; "lock"; "unlock"; "test"; "abs"; "sqrt"; "sin"; "cos"; "tan";
  "asin"; "acos"; "atan"; "exp"; "log"; "int"; "nint"; "floor"; "fraction"; "real"; "max";
  "mod"; "count"; "pack"; "numpy_sign"; "c_associated"; "c_loc"; "c_f_pointer"; "c_ptr";
  "c_malloc"; "storage_size"; "c_size_t"
].

(* naming/pythonnameclashchecker.py:23. *)
Definition py_keywords : list string := [].

Definition keywords (l : lang) : list string :=
  match l with LC => c_keywords | LFortran => f_keywords | LPython => py_keywords end.

(* str.lower on ASCII. *)
Definition lower_char (a : ascii) : ascii :=
  let n := nat_of_ascii a in
  if (65 <=? n) && (n <=? 90) then ascii_of_nat (n + 32) else a.
Fixpoint lower (s : string) : string :=
  match s with
  | EmptyString => EmptyString
  | String a r => String (lower_char a) (lower r)
  end.

Definition mem (x : string) (l : list string) : bool := existsb (String.eqb x) l.

(* has_clash: cnameclashchecker.py:117-136, fortrannameclashchecker.py:165-186,
   pythonnameclashchecker.py:25-44. *)
Definition has_clash (l : lang) (name : string) (symbols : list string) : bool :=
  match l with
  | LC => mem name c_keywords || mem name symbols
  | LFortran =>
      let name := lower name in
      mem name f_keywords || existsb (fun s => String.eqb name (lower s)) symbols
  | LPython => mem name py_keywords || mem name symbols
  end.

(* Decimal digits of a counter. *)
Definition digit (n : nat) : ascii := ascii_of_nat (48 + n).
Fixpoint digits (fuel n : nat) (acc : string) : string :=
  match fuel with
  | O => acc
  | S f =>
    let acc' := String (digit (n mod 10)) acc in
    if n / 10 =? 0 then acc' else digits f (n / 10) acc'
  end.
Fixpoint zeros (k : nat) : string :=
  match k with O => EmptyString | S k' => String "0"%char (zeros k') end.
(* utilities/strings.py:73,78: the format "{counter:0=4d}" of a counter >= 0. *)
Definition dec4 (n : nat) : string :=
  let d := digits (S n) n "" in (zeros (4 - String.length d) ++ d)%string.

(* strings.py:78-79: "{prefix}_{counter:0=4d}". *)
Definition name_format (prefix : string) (counter : nat) : string :=
  (prefix ++ "_" ++ dec4 counter)%string.

(* strings.py:79-88: the search loop. *)
Fixpoint incr_search (fuel : nat) (clash : string -> bool) (prefix : string) (counter : nat)
  : py (string * nat) :=
  match fuel with
  | O => PFuel
  | S f =>
    let name := name_format prefix counter in
    if clash name then incr_search f clash prefix (S counter)
    else POk (name, S counter)
  end.

(* strings.py:38-90, create_incremented_string.  The fuel bounds the number of
   names that can clash; that it is enough is part of what is proved. *)
Definition create_incremented_string (forbidden : list string) (prefix : option string)
    (counter : nat) (checker : option lang) : py (string * nat) :=
  let prefix := match prefix with Some p => p | None => "Dummy" end in
  match checker with
  | Some l =>
      incr_search (S (List.length (keywords l) + List.length forbidden))
        (fun n => has_clash l n forbidden) prefix counter
  | None =>
      incr_search (S (List.length forbidden)) (fun n => mem n forbidden) prefix counter
  end.

(* naming/languagenameclashchecker.py:30-56, _get_collisionless_name. *)
Definition collisionless (l : lang) (name : string) (symbols : list string) : py string :=
  if has_clash l name symbols
  then r <~ create_incremented_string (keywords l ++ symbols) (Some name) 1 (Some l) ;; POk (fst r)
  else POk name.

Inductive context := CModule | CFunction | CClass | CVariable | CWrapper.
Inductive stype := SModule | SFunction | SClass | SLoop | SProgram.

Definition context_eqb (a b : context) : bool :=
  match a, b with
  | CModule, CModule | CFunction, CFunction | CClass, CClass | CVariable, CVariable
  | CWrapper, CWrapper => true
  | _, _ => false
  end.
Definition is_smodule (t : stype) : bool := match t with SModule => true | _ => false end.

(* name[i] for an in-range i >= 0. *)
Definition char_at (s : string) (i : nat) : ascii :=
  match String.get i s with Some c => c | None => " "%char end.
Definition is_under (a : ascii) : bool := Ascii.eqb a "_"%char.

(* cnameclashchecker.py:174-175 = fortrannameclashchecker.py:228-229:
   __xxx__ becomes operator_xxx (name[1:-2] drops one character in front and
   two at the end). *)
Definition operator_name (name : string) : string :=
  let n := String.length name in
  if (4 <? n) && is_under (char_at name 0) && is_under (char_at name 1)
     && is_under (char_at name (n - 1)) && is_under (char_at name (n - 2))
  then ("operator" ++ String.substring 1 (n - 3) name)%string
  else name.

(* cnameclashchecker.py:176-177 = fortrannameclashchecker.py:230-231; name[0]
   raises IndexError for an empty name. *)
Definition private_name (name : string) : py string :=
  match name with
  | EmptyString => PErr "IndexError"
  | String a _ => POk (if is_under a then ("private" ++ name)%string else name)
  end.

(* cnameclashchecker.py:138-182, fortrannameclashchecker.py:188-239 (the warning
   about long names is not modelled), pythonnameclashchecker.py:46-75. *)
Definition get_collisionless_name (l : lang) (name : string) (symbols : list string)
    (prefix : string) (ctx : context) (parent : stype) : py string :=
  match l with
  | LC =>
      if context_eqb ctx CWrapper then collisionless l name symbols else
      let name := if String.eqb name "__init__" then "init" else name in
      let name := if String.eqb name "__del__" then "drop" else name in
      let name := operator_name name in
      name <~ private_name name ;;
      let name := if context_eqb ctx CFunction
                     || (is_smodule parent && negb (context_eqb ctx CModule))
                  then (prefix ++ name)%string else name in
      collisionless l name symbols
  | LFortran =>
      if context_eqb ctx CWrapper then collisionless l name symbols else
      let name := if String.eqb name "__init__"
                  then (if is_smodule parent then (prefix ++ "init")%string else "init") else name in
      let name := if String.eqb name "__del__"
                  then (if is_smodule parent then (prefix ++ "free")%string else "free") else name in
      let name := operator_name name in
      name <~ private_name name ;;
      collisionless l name symbols
  | LPython =>
      if context_eqb ctx CWrapper then PErr "AssertionError"
      else collisionless l name symbols
  end.
