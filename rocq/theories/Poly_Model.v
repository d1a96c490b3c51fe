(* Functions of several types.

   Modelled: the overloads that are made from the definition of a function whose parameters have unions of
   types and type variables (pyccel/parser/semantic.py 6340-6713 _visit_FunctionDef, 4025-4034
   _visit_UnionTypeAnnotation, 4041-4097 _visit_FunctionDefArgument, 4353-4484 _visit_AnnotatedPyccelSymbol;
   pyccel/ast/type_annotations.py 192-216 UnionTypeAnnotation; pyccel/ast/typingext.py 126-200
   TypingTypeVar), their default values (pyccel/ast/literals.py 478-540 convert_to_literal, 145-260 the
   literals), and calls of them in translated code that leave out arguments (semantic.py 4831-4873
   _visit_FunctionCall, 1735-1800 _handle_function, 1804-1884 _sort_function_call_args; pyccel/ast/core.py
   1698-1714 default_call_arg, 3201-3244 Interface.point, 1567-1650 _check_argument_compatibility).

   Simplifications: parameters are numbers; type variables stand alone or in unions, not inside other types;
   arguments are given by position; float literals are rational numbers and are not rounded. *)
From Coq Require Import Bool ZArith QArith List Arith.
Import ListNotations.
Open Scope list_scope.
Open Scope nat_scope.

(* ------------------------------ types and literals ------------------------------ *)

Inductive prim := PBool | PInt | PFloat | PComplex.
(* prec 0: the type of Python; others: the types of NumPy *)
Record ty := { kind : prim; prec : nat }.
Definition prim_eqb (a b : prim) : bool :=
  match a, b with PBool, PBool | PInt, PInt | PFloat, PFloat | PComplex, PComplex => true | _, _ => false end.
Definition ty_eqb (t u : ty) : bool := prim_eqb (kind t) (kind u) && Nat.eqb (prec t) (prec u).
Definition native (p : prim) : ty := {| kind := p; prec := 0 |}.

(* the literals of Python: the numbers are not negative (a minus sign makes an operator, see Minus) *)
Inductive lit := LBool (b : bool) | LInt (n : nat) | LFloat (q : Q) | LComplex (re im : Q).
Definition prim_of (v : lit) : prim := match v with LBool _ => PBool | LInt _ => PInt | LFloat _ => PFloat | LComplex _ _ => PComplex end.

Definition Qof (n : nat) : Q := inject_Z (Z.of_nat n).
Definition one_if (b : bool) : nat := if b then 1 else 0.
(* literals.py 478-540 and the constructors; None: TypeError. The imaginary unit has no precision (216-224) *)
Definition convert (v : lit) (t : ty) : option (lit * ty) :=
  match kind t with
  | PInt => match v with LBool b => Some (LInt (one_if b), t) | LInt n => Some (LInt n, t) | LFloat _ | LComplex _ _ => None end
  | PFloat => match v with LBool b => Some (LFloat (Qof (one_if b)), t) | LInt n => Some (LFloat (Qof n), t) | LFloat q => Some (LFloat q, t) | LComplex _ _ => None end
  | PComplex =>
      let p := match v with LBool b => (Qof (one_if b), 0) | LInt n => (Qof n, 0) | LFloat q => (q, 0) | LComplex re im => (re, im) end%Q in
      Some (LComplex (fst p) (snd p), if Qeq_bool (fst p) 0 && Qeq_bool (snd p) 1 then native PComplex else t)
  | PBool => Some (LBool (match v with LBool b => b | LInt n => negb (Nat.eqb n 0) | LFloat q => negb (Qeq_bool q 0)
                          | LComplex re im => negb (Qeq_bool re 0 && Qeq_bool im 0) end), t)
  end.

(* ------------------------------ definitions ------------------------------ *)

Inductive item := IT (t : ty) | IV (x : nat).                   (* a type or a type variable *)
Inductive dflt := DNone | DLit (v : lit) (t : ty) | DMinus (n : nat).      (* no default, a literal, -n *)
Record param := { annot : list item; value : dflt }.
Record def := { avail : nat -> list ty; params : list param }.
(* a literal in the source has the type of Python *)
Definition literal (v : lit) : dflt := DLit v (native (prim_of v)).

(* ------------------------------ overloads ------------------------------ *)

Fixpoint dedup {A : Type} (eqb : A -> A -> bool) (l : list A) : list A :=
  match l with [] => [] | a :: l' => a :: filter (fun b => negb (eqb a b)) (dedup eqb l') end.
Definition item_vars (i : item) : list nat := match i with IT _ => [] | IV x => [x] end.
(* 6445-6451: the type variables, in the order in which they are used *)
Definition used (d : def) : list nat := dedup Nat.eqb (flat_map (fun p => flat_map item_vars (annot p)) (params d)).
Definition env : Type := list (nat * ty).
Fixpoint lookup (s : env) (x : nat) : option ty :=
  match s with [] => None | (y, t) :: s' => if Nat.eqb x y then Some t else lookup s' x end.
(* itertools.product: the last element varies first *)
Fixpoint product {A : Type} (l : list (list A)) : list (list A) :=
  match l with [] => [[]] | a :: l' => flat_map (fun x => map (cons x) (product l')) a end.
(* 6464-6466 *)
Definition combinations (d : def) : list env := map (combine (used d)) (product (map (avail d) (used d))).

Fixpoint sequence {A : Type} (l : list (option A)) : option (list A) :=
  match l with [] => Some [] | Some x :: l' => option_map (cons x) (sequence l') | None :: _ => None end.
(* 4025-4034: the types of a union, each once *)
Definition item_type (s : env) (i : item) : option ty := match i with IT t => Some t | IV x => lookup s x end.
Definition types_of (s : env) (p : param) : option (list ty) := option_map (dedup ty_eqb) (sequence (map (item_type s) (annot p))).
(* 4051-4084: the loop over the types; the value is overwritten by each conversion *)
Fixpoint visit_types (v : dflt) (ts : list ty) : option (list (ty * dflt)) :=
  match ts with
  | [] => Some []
  | t :: ts' =>
    match v with
    | DLit l _ => match convert l t with Some (l', t') => option_map (cons (t, DLit l' t')) (visit_types (DLit l' t') ts') | None => None end
    | _ => option_map (cons (t, v)) (visit_types v ts')
    end
  end.
Definition visit_param (s : env) (p : param) : option (list (ty * dflt)) :=
  match types_of s p with Some ts => visit_types (value p) ts | None => None end.
(* 6468-6488; None: a crash *)
Definition visit_params (d : def) (s : env) : option (list (list (ty * dflt))) := option_map product (sequence (map (visit_param s) (params d))).
Definition overloads (d : def) : option (list (list (ty * dflt))) := option_map (@concat _) (sequence (map (visit_params d) (combinations d))).

(* ------------------------------ calls in translated code ------------------------------ *)

Inductive arg := Given (t : ty) | Default (v : dflt).
Definition arg_type (a : arg) : ty :=
  match a with Given t => t | Default (DLit _ t) => t | Default _ => native PInt end.
(* 1865-1874: the defaults of the arguments that are left out; None: too few arguments *)
Fixpoint fill (given : list ty) (defaults : list dflt) : option (list arg) :=
  match given, defaults with
  | [], [] => Some []
  | t :: g', _ :: d' => option_map (cons (Given t)) (fill g' d')
  | [], DNone :: _ => None
  | [], v :: d' => option_map (cons (Default v)) (fill [] d')
  | _ :: _, [] => None
  end.
Fixpoint all_eqb (l k : list ty) : bool :=
  match l, k with [], [] => true | t :: l', u :: k' => ty_eqb t u && all_eqb l' k' | _, _ => false end.
(* core.py 3201-3244 *)
Fixpoint point (fs : list (list (ty * dflt))) (ts : list ty) : option nat :=
  match fs with [] => None | f :: fs' => if all_eqb ts (map fst f) then Some 0 else option_map S (point fs' ts) end.
Inductive outcome := Crash | Refused | Runs (k : nat) (l : list arg).
(* 4853-4873: the defaults are those of the definition at the first call (visited = false), and those of the
   first overload afterwards *)
Definition call (d : def) (visited : bool) (given : list ty) : outcome :=
  match overloads d with
  | None => Crash
  | Some fs =>
    match fill given (if visited then match fs with f :: _ => map snd f | [] => [] end else map value (params d)) with
    | None => Refused
    | Some l => match point fs (map arg_type l) with Some k => Runs k l | None => Refused end
    end
  end.
