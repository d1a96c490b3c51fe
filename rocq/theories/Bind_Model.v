(** The body of the C-compatible wrapper of a Fortran function.

    A function translated to Fortran is called from Python through a
    [bind(c)] subroutine which receives a C pointer for each optional
    argument, null when the caller passed [None].  This file models how the
    wrapper generator tests these pointers and builds the calls. *)

From Coq Require Import List Bool Arith ZArith.
Import ListNotations.

(** The default of a parameter: [None], or a literal.
    /repo/pyccel/ast/core.py, FunctionDefArgument, [has_default], [value];
    /repo/pyccel/parser/semantic.py, lines 4040-4060: a parameter is
    optional exactly if its default is [None].  Simplification: literal
    defaults are integers. *)
Inductive dflt : Type := DNone | DLit (z : Z).

Record param : Type := mkp { pname : nat; ptype : nat; pdef : option dflt }.

(** [is_optional] of the variable of a parameter, semantic.py line 4048. *)
Definition optional (p : param) : bool :=
  match pdef p with Some DNone => true | _ => false end.

(** The value of a [FunctionCallArgument]: the wrapper's own Fortran
    variable for a parameter ([f_arg] of the dictionaries returned by
    /repo/pyccel/codegen/wrapper/fortran_to_c_wrapper.py, lines 383-467), or
    a default of the called function. *)
Inductive value : Type := VLocal (n : nat) | VNil | VLit (z : Z).

Definition of_dflt (d : dflt) : value :=
  match d with DNone => VNil | DLit z => VLit z end.

(** A call argument: its keyword and its value.  Every argument built by the
    wrapper has a keyword, fortran_to_c_wrapper.py lines 425-428. *)
Definition carg : Type := (nat * value)%type.

(** The dictionary [f_args_dict] of FunctionCall.__init__,
    /repo/pyccel/ast/core.py lines 1975-1992: assignment to a key replaces
    its entry or appends a new one. *)
Fixpoint dict_set (n : nat) (v : value) (d : list (nat * option value))
  : list (nat * option value) :=
  match d with
  | [] => [(n, Some v)]
  | (m, w) :: d' =>
      if Nat.eqb n m then (m, Some v) :: d' else (m, w) :: dict_set n v d'
  end.

(** All the entries, or [None] if one has neither argument nor default (an
    [AttributeError] when the call is printed). *)
Fixpoint dict_values (d : list (nat * option value)) : option (list carg) :=
  match d with
  | [] => Some []
  | (n, Some v) :: d' => option_map (cons (n, v)) (dict_values d')
  | (_, None) :: _ => None
  end.

(** The missing arguments filled in, core.py lines 1972-2002.  Only the
    branch where the arguments have keywords is modelled. *)
Definition fill (ps : list param) (args : list carg) : option (list carg) :=
  if Nat.eqb (length args) (length ps) then Some args
  else
    dict_values
      (fold_left (fun d a => dict_set (fst a) (snd a) d) args
         (map (fun p => (pname p, option_map of_dflt (pdef p))) ps)).

(** Interface.point, core.py lines 3201-3244: the first overload whose types
    are those of the arguments, compared position by position.  Running past
    the end of the parameters is an [IndexError], here a mismatch.
    Simplification: rank and class are one type. *)
Fixpoint types_match (args : list param) (ps : list param) : bool :=
  match args, ps with
  | [], _ => true
  | a :: args', p :: ps' => Nat.eqb (ptype a) (ptype p) && types_match args' ps'
  | _ :: _, [] => false
  end.

(** What is called: a function, or the overloads of a method,
    fortran_to_c_wrapper.py lines 326-333. *)
Inductive target : Type :=
  | Plain (ps : list param)
  | Overloads (fs : list (list param)).

Definition point (t : target) (args : list param) : option (list param) :=
  match t with
  | Plain ps => Some ps
  | Overloads fs => find (types_match args) fs
  end.

(** The generated body.  [Guard n t e] is [if (c_associated(bound_n)) then t
    else e]; [Call setup recv args] runs [c_f_pointer] for the parameters of
    [setup] and calls the function. *)
Inductive body : Type :=
  | Guard (n : nat) (t e : body)
  | Call (setup : list nat) (recv : option value) (args : list carg)
  | Fatal      (* "Arguments types provided to ... are incompatible" *)
  | Crash.     (* a Python exception in the generator *)

(** FCodePrinter._print_FunctionCall,
    /repo/pyccel/codegen/printing/fcode.py lines 4240-4330: the first
    argument of a method is printed before [%], and arguments whose value is
    [Nil] are left out.  Not modelled: the copy of an argument which is also
    the left-hand side (the wrapper's results are new variables). *)
Definition print_call (bound : bool) (setup : list nat) (args : list carg) : body :=
  let keep := filter (fun a => match snd a with VNil => false | _ => true end) in
  if bound then
    match args with
    | [] => Crash
    | a :: args' => Call setup (Some (snd a)) (keep args')
    end
  else Call setup None (keep args).

(** The lines [body] of the dictionaries and the call,
    fortran_to_c_wrapper.py lines 166-179.  An argument has a line
    [C_F_Pointer] if it is optional (lines 442-467).  Simplification: arrays,
    whose pointer is always converted, are like scalars. *)
Definition leaf (t : target) (bound : bool) (wrapped : list param) : body :=
  let setup := map pname (filter optional wrapped) in
  let args := map (fun p => (pname p, VLocal (pname p))) wrapped in
  match point t wrapped with
  | None => Fatal
  | Some ps =>
      match fill ps args with
      | None => Crash
      | Some full => print_call bound setup full
      end
  end.

(** [list.remove]: the first argument of this name. *)
Fixpoint remove_arg (n : nat) (l : list param) : list param :=
  match l with
  | [] => []
  | p :: l' => if Nat.eqb n (pname p) then l' else p :: remove_arg n l'
  end.

(** [_get_function_def_body], fortran_to_c_wrapper.py lines 105-179.
    [handled] are the names of the arguments already tested.  [fuel] bounds
    the depth of the recursion. *)
Fixpoint gen (fuel : nat) (t : target) (bound : bool)
  (wrapped : list param) (handled : list nat) : body :=
  match fuel with
  | O => Crash
  | S fuel' =>
      match find (fun p => optional p && negb (existsb (Nat.eqb (pname p)) handled))
              wrapped with
      | Some p =>
          Guard (pname p)
            (gen fuel' t bound wrapped (handled ++ [pname p]))
            (gen fuel' t bound (remove_arg (pname p) wrapped)
               (handled ++ [pname p]))
      | None => leaf t bound wrapped
      end
  end.

(** The body of the wrapper of the function of parameters [ps],
    [_wrap_FunctionDef], fortran_to_c_wrapper.py lines 286-333. *)
Definition wrapper (t : target) (bound : bool) (ps : list param) : body :=
  gen (S (length ps)) t bound ps [].
