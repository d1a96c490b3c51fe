(* Expressions with arrays, and None, as arguments of calls in translated code.

   Modelled: SemanticParser._visit_FunctionCallArgument (pyccel/parser/semantic.py 4000-4023),
   _sort_function_call_args (1804-1884) and the number of arguments in _handle_function (1772-1796);
   FunctionDefArgument.default_call_arg (pyccel/ast/core.py 1699-1708); FCodePrinter._print_FunctionCall
   (pyccel/codegen/printing/fcode.py 4305-4307) and _print_FunctionCallArgument (1505-1510);
   CCodePrinter._print_FunctionCall (pyccel/codegen/printing/ccode.py 3114-3152) and _print_Nil (3235-3236).
   As the meaning of the generated Fortran: the association of actual and dummy arguments.

   Simplifications: functions without positional-only and keyword-only parameters, *args and **kwargs (area
   Call); all parameters have the same type, other calls are rejected by _check_argument_compatibility
   (1598-1640), which looks at the arguments after they have been sorted; values are numbers, also for arrays. *)
From Coq Require Import Bool Arith ZArith List.
Import ListNotations.

Inductive val := VNone | VVal (z : Z).

(* The expression of an argument: None; a variable, a literal or an expression without rank; an arithmetic
   expression or a function of NumPy with rank. *)
Inductive expr := ENone | EPlain (z : Z) | EArray (z : Z).
Definition value (e : expr) : val := match e with ENone => VNone | EPlain z | EArray z => VVal z end.

(* FunctionCallArgument: keyword and value *)
Notation carg := (option nat * expr)%type.
(* a parameter: its name and default *)
Record param := { name : nat; default : option val }.
(* is_optional: the default is None, semantic.py 4048 *)
Definition optional (p : param) : bool := match default p with Some VNone => true | _ => false end.

(* semantic.py 4016-4023: an expression with rank is stored in a variable, and the new argument has no
   keyword *)
Definition visit_arg (a : carg) : option nat * val :=
  match snd a with
  | EArray z => (None, VVal z)
  | e => (fst a, value e)
  end.

(* 1830-1846: arguments without and with keyword *)
Fixpoint positional (l : list (option nat * val)) : list val :=
  match l with
  | [] => []
  | (None, v) :: l' => v :: positional l'
  | (Some _, _) :: l' => positional l'
  end.
Fixpoint keywords (l : list (option nat * val)) : list (nat * val) :=
  match l with
  | [] => []
  | (None, _) :: l' => keywords l'
  | (Some k, v) :: l' => (k, v) :: keywords l'
  end.
Fixpoint lookup (n : nat) (kws : list (nat * val)) : option val :=
  match kws with
  | [] => None
  | (m, v) :: kws' => if Nat.eqb m n then Some v else lookup n kws'
  end.
Definition remove_key (n : nat) (kws : list (nat * val)) : list (nat * val) :=
  filter (fun p => negb (Nat.eqb (fst p) n)) kws.

(* 1865-1874: the parameters after the positional arguments; None: an argument is missing (1790-1795) or a
   keyword is left (1876-1877) *)
Fixpoint fill (ps : list param) (kws : list (nat * val)) : option (list (option nat * val)) :=
  match ps with
  | [] => match kws with [] => Some [] | _ :: _ => None end
  | p :: ps' =>
      match (match lookup (name p) kws with Some v => Some v | None => default p end), fill ps' (remove_key (name p) kws) with
      | Some v, Some l => Some ((Some (name p), v) :: l)
      | _, _ => None
      end
  end.
(* too many arguments: 1772-1777 *)
Definition sort_args (ps : list param) (l : list (option nat * val)) : option (list (option nat * val)) :=
  let pos := positional l in
  if length ps <? length pos then None
  else match fill (skipn (length pos) ps) (keywords l) with
       | Some r => Some (map (fun v => (None, v)) pos ++ r)
       | None => None
       end.
Definition sorted_call (ps : list param) (call : list carg) : option (list (option nat * val)) :=
  sort_args ps (map visit_arg call).

(* What the parameters of the function get; None: no code, or code that is not compiled. *)

(* C: the arguments in order; None is NULL.  The parameter of None must be a pointer. *)
Definition c_ok (p : param) (v : val) : bool := match v with VNone => optional p | VVal _ => true end.
Definition c_call (ps : list param) (call : list carg) : option (list val) :=
  match sorted_call ps call with
  | None => None
  | Some l => if forallb (fun q => c_ok (fst q) (snd q)) (combine ps (map snd l)) then Some (map snd l) else None
  end.

(* Fortran: the text of the call, without the arguments that are None *)
Definition f_print (l : list (option nat * val)) : list (option nat * Z) :=
  flat_map (fun a => match snd a with VNone => [] | VVal z => [(fst a, z)] end) l.
(* The association of arguments: those without keyword come first and belong to the first parameters, the
   others to the parameter of this name; an optional parameter may be absent. *)
Fixpoint f_named (n : nat) (l : list (option nat * Z)) : option Z :=
  match l with
  | [] => None
  | (Some m, z) :: l' => if Nat.eqb m n then Some z else f_named n l'
  | (None, _) :: l' => f_named n l'
  end.
Definition is_pos (a : option nat * Z) : bool := match fst a with None => true | Some _ => false end.
Fixpoint f_keywords (ps : list param) (l : list (option nat * Z)) : option (list val) :=
  match ps with
  | [] => Some []
  | p :: ps' =>
      match (match f_named (name p) l with
             | Some z => Some (VVal z)
             | None => if optional p then Some VNone else None
             end), f_keywords ps' l with
      | Some v, Some r => Some (v :: r)
      | _, _ => None
      end
  end.
Fixpoint f_bind (ps : list param) (l : list (option nat * Z)) : option (list val) :=
  match l, ps with
  | (None, z) :: l', p :: ps' => option_map (cons (VVal z)) (f_bind ps' l')
  | (None, _) :: _, [] => None
  | _, _ =>
      if existsb is_pos l then None
      else if forallb (fun a => match fst a with Some n => existsb (fun p => Nat.eqb (name p) n) ps | None => false end) l
      then f_keywords ps l else None
  end.
Definition f_call (ps : list param) (call : list carg) : option (list val) :=
  match sorted_call ps call with
  | None => None
  | Some l => f_bind ps (f_print l)
  end.
