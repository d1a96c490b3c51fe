(* What printf writes, and what Python prints. *)
From Coq Require Import Bool String Ascii Arith ZArith Lia List DecimalString.
From Verif Require Import Text_Model Text_Spec Print_Model.
Import ListNotations.
Open Scope list_scope.

(* Decimal notation, of Python and of printf *)
Definition decimal_of (z : Z) : text := T (NilZero.string_of_int (Z.to_int z)).

(* The value of a signed type of n bits *)
Definition wrap (n : Z) (z : Z) : Z := ((z + 2 ^ (n - 1)) mod 2 ^ n - 2 ^ (n - 1))%Z.

(* A C string ends at its first null character. *)
Fixpoint c_string (s : text) : text :=
  match s with
  | [] => []
  | c :: s' => if Ascii.eqb c (ch 0) then [] else c :: c_string s'
  end.

(* printf with the conversions s, d, hd, hhd, ld and %%; None: undefined behaviour *)
Fixpoint printf (f : text) (args : list value) : option text :=
  match f with
  | [] => Some []
  | c :: f' =>
    if Ascii.eqb c (ch 0) then Some []
    else if Ascii.eqb c (ch 37) then
      match f' with
      | "%"%char :: g => option_map (cons (ch 37)) (printf g args)
      | "s"%char :: g =>
        match args with VStr s :: r => option_map (app (c_string s)) (printf g r) | _ => None end
      | "d"%char :: g =>
        match args with VInt z :: r => option_map (app (decimal_of (wrap 32 z))) (printf g r) | _ => None end
      | "l"%char :: "d"%char :: g =>
        match args with VInt z :: r => option_map (app (decimal_of (wrap 64 z))) (printf g r) | _ => None end
      | "h"%char :: "d"%char :: g =>
        match args with VInt z :: r => option_map (app (decimal_of (wrap 16 z))) (printf g r) | _ => None end
      | "h"%char :: "h"%char :: "d"%char :: g =>
        match args with VInt z :: r => option_map (app (decimal_of (wrap 8 z))) (printf g r) | _ => None end
      | _ => None
      end
    else option_map (cons c) (printf f' args)
  end.

(* The text that a list of printf writes: the literal is read by the C compiler. *)
Fixpoint output (l : list call) : option text :=
  match l with
  | [] => Some []
  | c :: l' =>
    match c_read (c_format c) with
    | Some f =>
      match printf f (c_args c), output l' with
      | Some a, Some b => Some (a ++ b)
      | _, _ => None
      end
    | None => None
    end
  end.

(* Python: str of the arguments that the theorem is about.  Strings in containers would be
   quoted and sets have no order: they have no str here, like arrays. *)
Definition py_scalar (s : scalar) : text :=
  match s with
  | SInt _ z => decimal_of z
  | SBool b | SLitB b => if b then T "True" else T "False"
  end.

Definition all_some (l : list (option text)) : option (list text) :=
  fold_right (fun o r => match o, r with Some x, Some y => Some (x :: y) | _, _ => None end) (Some []) l.

Fixpoint py_repr (a : arg) : option text :=
  match a with
  | AScal s => Some (py_scalar s)
  | ACont k l =>
    match all_some (map py_repr l) with
    | None => None
    | Some ls =>
      match k with
      | KTuple => Some (T "(" ++ join (T ", ") ls ++ (if Nat.eqb (List.length l) 1 then T "," else []) ++ T ")")
      | KList => Some (T "[" ++ join (T ", ") ls ++ T "]")
      | KSet => None
      end
    end
  | _ => None
  end.

Definition py_str (a : arg) : option text :=
  match a with
  | ALit s => Some s
  | AStr s => Some s
  | _ => py_repr a
  end.

(* print of the arguments with sep and end *)
Definition py_print (args : list arg) (sep end_ : text) : option text :=
  option_map (fun l => join sep l ++ end_) (all_some (map py_str args)).

(* The arguments for which the generated code is right. *)
Definition in_range (w : width) (z : Z) : Prop :=
  let n := match w with W8 => 8 | W16 => 16 | W32 => 32 | W64 => 64 end%Z in (- 2 ^ (n - 1) <= z < 2 ^ (n - 1))%Z.
Definition plain_text (s : text) : Prop := ~ In (ch 37) s /\ ~ In (ch 0) s.
Definition no_null (s : text) : Prop := ~ In (ch 0) s.

Fixpoint printable (a : arg) : Prop :=
  match a with
  | ALit s => plain_text s
  | AStr s => no_null s
  | AScal (SInt w z) => in_range w z
  | AScal (SBool _) | AScal (SLitB _) => True
  | ACont k l => k <> KSet /\ (k = KList -> List.length l <> 1)
      /\ (fix all (l : list arg) : Prop := match l with [] => True | x :: l' => printable x /\ all l' end) l
  | AArr _ => False
  end.

Fixpoint depth (a : arg) : nat :=
  match a with
  | ACont _ l => S (fold_right Nat.max 0 (map depth l))
  | _ => 0
  end.

(* numpy: str of an array of one dimension that fits in one line *)
Definition pad_left (n : nat) (s : text) : text := repeat SP (n - List.length s) ++ s.
Definition np_array (l : list scalar) : text :=
  let n := fold_right Nat.max 0 (map (fun s => List.length (py_scalar s)) l) in
  T "[" ++ join (T " ") (map (fun s => pad_left n (py_scalar s)) l) ++ T "]".
