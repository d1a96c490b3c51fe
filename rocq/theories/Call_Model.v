(* The arguments of calls: how the parameters of a function are read, how a call in translated
   code is given its arguments, and how a call from Python is given its arguments by the wrapper.
   Sources: pyccel/parser/syntactic.py 734-827 (_visit_arguments), pyccel/parser/semantic.py
   1765-1800 (_handle_function: number of arguments), 1804-1884 (_sort_function_call_args),
   pyccel/ast/core.py 1703-1717 (default_call_arg, has_default), pyccel/ast/cwrapper.py 225-287
   (PyArg_ParseTupleNode: the format), pyccel/codegen/wrapper/c_to_python_wrapper.py 321-401
   (_unpack_python_args), 2253-2354 (_wrap_FunctionDefArgument: defaults), and, as the meaning of
   the generated call of PyArg_ParseTupleAndKeywords, vgetargskeywords of CPython's
   Python/getargs.c.
   Simplifications: a value is None or an integer, and each parameter has the type int; default
   values are constants; no starred arguments in a call; no methods.  Names are numbers. *)
From Coq Require Import Bool Arith ZArith Lia List.
Import ListNotations.
Open Scope list_scope.

Inductive val := VNone | VInt (z : Z).

(* ast.arguments: the defaults are those of the last parameters of posonlyargs + args *)
Record sig := mk_sig {
  posonly : list nat;
  args : list nat;
  defaults : list val;
  vararg : option nat;
  kwonly : list (nat * option val);
  kwarg : option nat
}.

(* FunctionDefArgument *)
Inductive kind := KPosOnly | KNormal | KVararg | KKwOnly | KKwarg.
Record arg := mk_arg { a_name : nat; a_kind : kind; a_value : option val }.
Definition is_posonly (a : arg) : bool := match a_kind a with KPosOnly => true | _ => false end.
Definition is_vararg (a : arg) : bool := match a_kind a with KVararg => true | _ => false end.
Definition is_kwonly (a : arg) : bool := match a_kind a with KKwOnly => true | _ => false end.
Definition is_kwarg (a : arg) : bool := match a_kind a with KKwarg => true | _ => false end.
Definition has_default (a : arg) : bool := match a_value a with Some _ => true | None => false end.

(* l[:n] and l[n:] with Python's meaning of a negative n *)
Definition py_take {A : Type} (n : Z) (l : list A) : list A :=
  firstn (if (n <? 0)%Z then length l - Z.to_nat (- n) else Z.to_nat n) l.
Definition py_drop {A : Type} (n : Z) (l : list A) : list A :=
  skipn (if (n <? 0)%Z then length l - Z.to_nat (- n) else Z.to_nat n) l.

(* syntactic.py 738-825 *)
Definition visit_arguments (s : sig) : list arg :=
  let n_expl := (Z.of_nat (length (args s)) - Z.of_nat (length (defaults s)))%Z in
  map (fun n => mk_arg n KPosOnly None) (posonly s)
  ++ map (fun n => mk_arg n KNormal None) (py_take n_expl (args s))
  ++ map (fun p => mk_arg (fst p) KNormal (Some (snd p))) (combine (py_drop n_expl (args s)) (defaults s))
  ++ match vararg s with Some n => [mk_arg n KVararg None] | None => [] end
  ++ map (fun p => mk_arg (fst p) KKwOnly (snd p)) (kwonly s)
  ++ match kwarg s with Some n => [mk_arg n KKwarg None] | None => [] end.

(* ------------------------------ calls in translated code ------------------------------ *)

(* what a parameter is given *)
Inductive bound := BVal (v : val) | BTuple (l : list val) | BDict (l : list (nat * val)).

Fixpoint lookup (n : nat) (kws : list (nat * val)) : option val :=
  match kws with
  | [] => None
  | (m, v) :: kws' => if Nat.eqb m n then Some v else lookup n kws'
  end.
Definition remove_key (n : nat) (kws : list (nat * val)) : list (nat * val) := filter (fun p => negb (Nat.eqb (fst p) n)) kws.

(* next((i for i, a in enumerate(func_args) if p(a)), len(func_args)) *)
Fixpoint index_of (p : arg -> bool) (l : list arg) : nat :=
  match l with
  | [] => O
  | a :: l' => if p a then O else S (index_of p l')
  end.

(* semantic.py 1865-1874: None is an argument that is missing *)
Fixpoint fill (fa : list arg) (kws : list (nat * val)) : list (option bound) * list (nat * val) :=
  match fa with
  | [] => ([], kws)
  | a :: fa' =>
    if is_vararg a then let (l, k) := fill fa' kws in (Some (BTuple []) :: l, k)
    else if is_kwarg a then fill fa' kws
    else
      let v := match lookup (a_name a) kws with Some v => Some v | None => a_value a end in
      let (l, k) := fill fa' (remove_key (a_name a) kws) in
      (option_map BVal v :: l, k)
  end.

(* 1804-1884; None: an assert fails *)
Definition sort_call_args (fa : list arg) (pos : list val) (kws : list (nat * val)) : option (list (option bound)) :=
  let n_posonly := index_of (fun a => negb (is_posonly a)) fa in
  let n_possible := index_of is_vararg fa in
  if (length pos <? n_posonly)%nat then None
  else
    let input :=
      if (n_possible <? length pos)%nat
      then map (fun v => Some (BVal v)) (firstn n_possible pos) ++ [Some (BTuple (skipn n_possible pos))]
      else map (fun v => Some (BVal v)) pos in
    let (l, k) := fill (skipn (length input) fa) kws in
    match k with
    | [] => Some (input ++ l)
    | _ :: _ => if existsb is_kwarg (match rev fa with a :: _ => [a] | [] => [] end) then Some (input ++ l ++ [Some (BDict k)]) else None
    end.

Fixpoint all_bound (fa : list arg) (l : list (option bound)) : option (list (nat * bound)) :=
  match fa, l with
  | [], [] => Some []
  | a :: fa', Some b :: l' => option_map (cons (a_name a, b)) (all_bound fa' l')
  | _, _ => None
  end.

(* the parameters of the function that is called and what they are given; None: an error.
   1765-1800: too many arguments, or one is missing (a dictionary that is missing has no value to
   print) *)
Definition translated_call (s : sig) (pos : list val) (kws : list (nat * val)) : option (list (nat * bound)) :=
  let fa := visit_arguments s in
  match sort_call_args fa pos kws with
  | None => None
  | Some l => all_bound fa l
  end.

(* ------------------------------ calls from Python ------------------------------ *)

(* the format "OO|O$O" *)
Inductive fchar := FBar | FDollar | FO.
Fixpoint format (fa : list arg) (has_def has_kw : bool) : list fchar :=
  match fa with
  | [] => []
  | a :: fa' =>
    (if has_default a && negb has_def then [FBar] else [])
    ++ (if is_kwonly a && negb has_kw then [FDollar] else [])
    ++ [FO]
    ++ format fa' (has_def || has_default a) (has_kw || is_kwonly a)
  end.
(* the list of names: "" for a positional-only parameter *)
Definition kwlist (fa : list arg) : list (option nat) := map (fun a => if is_posonly a then None else Some (a_name a)) fa.

Inductive parsed := POk (l : list (option val)) | PTypeError | PSystemError.

Fixpoint leading_empty (names : list (option nat)) : nat :=
  match names with None :: n => S (leading_empty n) | _ => O end.
Definition has_name (n : nat) (names : list (option nat)) : bool := existsb (fun o => match o with Some m => Nat.eqb m n | None => false end) names.

(* the end of vgetargskeywords *)
Definition parse_end (names : list (option nat)) (pos : list val) (kws : list (nat * val)) (fmt : list fchar) (skip : bool) (nk : nat) (out : list (option val)) : parsed :=
  if skip then PTypeError
  else
    match fmt with
    | FO :: _ => PSystemError
    | _ =>
      if Nat.eqb nk 0 then POk out
      else
        let p := leading_empty names in
        (* given by name and position *)
        if existsb (fun o => match o with Some n => existsb (fun q => Nat.eqb (fst q) n) kws | None => false end) (firstn (length pos - p) (skipn p names)) then PTypeError
        (* not a name of a parameter *)
        else if forallb (fun q => has_name (fst q) (skipn p names)) kws then POk out
        else PTypeError
    end.

(* one step of the loop: "|" and "$" in the format.  None: SystemError *)
Definition after_bar (i : nat) (mn mx : option nat) (fmt : list fchar) : option (list fchar * option nat) :=
  match fmt with
  | FBar :: f => match mn, mx with None, None => Some (f, Some i) | _, _ => None end
  | f => Some (f, mn)
  end.
Definition after_dollar (i : nat) (mx : option nat) (fmt : list fchar) : option (list fchar * option nat * bool) :=
  match fmt with
  | FDollar :: f => match mx with None => Some (f, Some i, true) | Some _ => None end
  | f => Some (f, mx, false)
  end.

(* the loop over the parameters; names: all names; rest: those from number i on; mn, mx: numbers
   of positional arguments, None for INT_MAX; nk: keyword arguments that have not been used *)
Fixpoint parse_loop (names : list (option nat)) (pos : list val) (kws : list (nat * val))
  (rest : list (option nat)) (i : nat) (fmt : list fchar) (mn mx : option nat) (skip : bool) (nk : nat) (out : list (option val)) : parsed :=
  match rest with
  | [] => parse_end names pos kws fmt skip nk out
  | nm :: rest' =>
    match after_bar i mn mx fmt with
    | None => PSystemError
    | Some (fmt1, mn1) =>
      match after_dollar i mx fmt1 with
      | None => PSystemError
      | Some (fmt2, mx1, dollar) =>
        if dollar && skip then PTypeError
        else if dollar && (i <? length pos)%nat then PTypeError
        else
          match fmt2 with
          | FO :: fmt3 =>
            if skip then parse_loop names pos kws rest' (S i) fmt3 mn1 mx1 skip nk (out ++ [None])
            else
              let by_name :=
                if Nat.eqb nk 0 then None
                else if (i <? leading_empty names)%nat then None
                else match nm with Some n => lookup n kws | None => None end in
              match nth_error pos i, by_name with
              | Some v, _ => parse_loop names pos kws rest' (S i) fmt3 mn1 mx1 skip nk (out ++ [Some v])
              | None, Some v => parse_loop names pos kws rest' (S i) fmt3 mn1 mx1 skip (nk - 1) (out ++ [Some v])
              | None, None =>
                match mn1 with
                | None =>
                  if (i <? leading_empty names)%nat
                  then parse_loop names pos kws rest' (S i) fmt3 mn1 mx1 true nk (out ++ [None])
                  else PTypeError
                | Some _ =>
                  if Nat.eqb nk 0 then POk (out ++ None :: map (fun _ => None) rest')
                  else parse_loop names pos kws rest' (S i) fmt3 mn1 mx1 skip nk (out ++ [None])
                end
              end
          | _ => PSystemError
          end
      end
    end
  end.

Definition parse (fa : list arg) (pos : list val) (kws : list (nat * val)) : parsed :=
  let names := kwlist fa in
  if (length names <? length pos + length kws)%nat then PTypeError
  else parse_loop names pos kws names O (format fa false false) None None false (length kws) [].

(* Result of the wrapper: the function is called with these values (None: a null pointer for an
   optional argument); an exception; or undefined behaviour, as a pointer that has not been
   initialised is used *)
Inductive called := CCall (l : list (nat * val)) | CTypeError | CSystemError | CUndefined.

(* one argument: 2300-2354.  o: what PyArg_ParseTupleAndKeywords has stored *)
Inductive extracted := XVal (v : val) | XTypeError | XUndefined.
Definition extract (a : arg) (o : option val) : extracted :=
  match a_value a with
  | Some d =>
    match o with
    | None | Some VNone => XVal d
    | Some (VInt z) => XVal (VInt z)
    end
  | None =>
    match o with
    | None => XUndefined
    | Some VNone => XTypeError
    | Some (VInt z) => XVal (VInt z)
    end
  end.
Fixpoint extract_all (fa : list arg) (l : list (option val)) : called :=
  match fa, l with
  | [], [] => CCall []
  | a :: fa', o :: l' =>
    match extract a o with
    | XTypeError => CTypeError
    | XUndefined => CUndefined
    | XVal v => match extract_all fa' l' with CCall r => CCall ((a_name a, v) :: r) | e => e end
    end
  | _, _ => CUndefined
  end.
(* variadic parameters are an error when the wrapper is built (cwrapper.py 276-281) *)
Definition wrapped_call (s : sig) (pos : list val) (kws : list (nat * val)) : option called :=
  match vararg s, kwarg s with
  | None, None =>
    let fa := visit_arguments s in
    Some (match parse fa pos kws with
          | PTypeError => CTypeError
          | PSystemError => CSystemError
          | POk l => extract_all fa l
          end)
  | _, _ => None
  end.
