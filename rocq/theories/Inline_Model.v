(* Functions with the decorator inline.
   Sources: pyccel/parser/semantic.py 6716-6990 (_visit_InlineFunctionCall), 4099-4128
   (_visit_CodeBlock: empty nodes are dropped); pyccel/parser/syntactic.py 418-473
   (_get_unique_name), 1159-1180 (name of the result); pyccel/parser/scope.py 469-487
   (inline_variable_definition), 756-777 (symbol_in_use).
   Simplifications: values are integers; the calls are the statements y = f(...) and
   y = t + f(...); f has positional arguments, is in the same module, and calls no inline
   function; the only other function reads and increments a counter; conditions are 0 < t.
   A name that is a variable of the caller anywhere is one in the whole caller.  Names of
   arguments are not given back after the call. *)
From Coq Require Import Bool Arith ZArith List String.
Import ListNotations.
Open Scope list_scope.

(* ------------------------------------------------------------------ programs *)

(* A: the names that are read.  Call t: a function with the result t + k, which increments k *)
Inductive term (A : Type) :=
| Const (z : Z) | Var (x : A) | Plus (a b : term A) | Call (t : term A).
Arguments Const {A}. Arguments Var {A}. Arguments Plus {A}. Arguments Call {A}.

Inductive stmt (A : Type) :=
| Set_ (x : string) (t : term A) | If (t : term A) (b1 b2 : block A)
| For (x : string) (t : term A) (b : block A) | Return (t : term A)
with block (A : Type) := Nil | Cons (s : stmt A) (b : block A).
Arguments Set_ {A}. Arguments If {A}. Arguments For {A}. Arguments Return {A}.
Arguments Nil {A}. Arguments Cons {A}.

Fixpoint app_block {A} (b1 b2 : block A) : block A :=
  match b1 with Nil => b2 | Cons c b => Cons c (app_block b b2) end.

Record fdef := { args : list string; body : block string }.

(* The calling function *)
Inductive cstmt :=
| CSet (x : string) (t : term string) | CIf (t : term string) (b1 b2 : cblock)
| CFor (x : string) (t : term string) (b : cblock)
| CCall (y : string) (f : fdef) (ts : list (term string))                    (* y = f(ts) *)
| COp (y : string) (t : term string) (f : fdef) (ts : list (term string))    (* y = t + f(ts) *)
with cblock := CNil | CCons (s : cstmt) (b : cblock).

(* ------------------------------------------------------------------ execution *)

Definition store := string -> option Z.
Definition put (x : string) (z : Z) (s : store) : store :=
  fun y => if String.eqb y x then Some z else s y.

(* k: the counter *)
Fixpoint eval {A} (get : A -> option Z) (k : Z) (t : term A) : option (Z * Z) :=
  match t with
  | Const z => Some (z, k)
  | Var x => match get x with Some z => Some (z, k) | None => None end
  | Plus a b =>
      match eval get k a with
      | Some (x, k1) => match eval get k1 b with Some (y, k2) => Some (x + y, k2)%Z | None => None end
      | None => None
      end
  | Call t => match eval get k t with Some (x, k1) => Some (x + k1, k1 + 1)%Z | None => None end
  end.

Inductive result := Next (s : store) (k : Z) | Left (z : Z) (k : Z) | Fault.

Fixpoint repeat_ (step : Z -> store -> Z -> result) (n : nat) (i : Z) (s : store) (k : Z) : result :=
  match n with
  | O => Next s k
  | Datatypes.S n' =>
      match step i s k with Next s1 k1 => repeat_ step n' (i + 1)%Z s1 k1 | r => r end
  end.

Fixpoint exec {A} (get : A -> store -> option Z) (c : stmt A) (s : store) (k : Z) : result :=
  match c with
  | Set_ x t =>
      match eval (fun a => get a s) k t with Some (z, k1) => Next (put x z s) k1 | None => Fault end
  | If t b1 b2 =>
      match eval (fun a => get a s) k t with
      | Some (z, k1) => if Z.ltb 0 z then exec_block get b1 s k1 else exec_block get b2 s k1
      | None => Fault
      end
  | For x t b =>
      match eval (fun a => get a s) k t with
      | Some (z, k1) =>
          repeat_ (fun i s k => exec_block get b (put x i s) k) (Z.to_nat z) 0%Z s k1
      | None => Fault
      end
  | Return t =>
      match eval (fun a => get a s) k t with Some (z, k1) => Left z k1 | None => Fault end
  end
with exec_block {A} (get : A -> store -> option Z) (b : block A) (s : store) (k : Z) : result :=
  match b with
  | Nil => Next s k
  | Cons c b' => match exec get c s k with Next s1 k1 => exec_block get b' s1 k1 | r => r end
  end.

(* ------------------------------------------------------------------ names *)

Definition mem (x : string) (l : list string) : bool := existsb (String.eqb x) l.

Fixpoint assigned {A} (c : stmt A) : list string :=
  match c with
  | Set_ x _ => [x]
  | If _ b1 b2 => assigned_block b1 ++ assigned_block b2
  | For x _ b => x :: assigned_block b
  | Return _ => []
  end
with assigned_block {A} (b : block A) : list string :=
  match b with Nil => [] | Cons c b' => assigned c ++ assigned_block b' end.

Fixpoint returns {A} (c : stmt A) : list (term A) :=
  match c with
  | Return t => [t]
  | If _ b1 b2 => returns_block b1 ++ returns_block b2
  | For _ _ b => returns_block b
  | Set_ _ _ => []
  end
with returns_block {A} (b : block A) : list (term A) :=
  match b with Nil => [] | Cons c b' => returns c ++ returns_block b' end.

(* The variables of f *)
Definition locals (f : fdef) : list string := args f ++ assigned_block (body f).

(* ------------------------------------------------------------------ Python *)

(* G: the variables of the module; l: the variables of the function *)
Definition py_get (G : store) (l : list string) (x : string) (s : store) : option Z :=
  if mem x l then s x else G x.

Fixpoint bind (xs : list string) (zs : list Z) : option store :=
  match xs, zs with
  | [], [] => Some (fun _ => None)
  | x :: xs', z :: zs' => match bind xs' zs' with Some s => Some (put x z s) | None => None end
  | _, _ => None
  end.

Definition py_call (G : store) (f : fdef) (zs : list Z) (k : Z) : option (Z * Z) :=
  match bind (args f) zs with
  | Some s => match exec_block (py_get G (locals f)) (body f) s k with
              | Left z k1 => Some (z, k1)
              | _ => None
              end
  | None => None
  end.

Fixpoint py_args (get : string -> option Z) (k : Z) (ts : list (term string)) : option (list Z * Z) :=
  match ts with
  | [] => Some ([], k)
  | t :: ts' =>
      match eval get k t with
      | Some (z, k1) =>
          match py_args get k1 ts' with Some (zs, k2) => Some (z :: zs, k2) | None => None end
      | None => None
      end
  end.

Fixpoint py (G : store) (l : list string) (c : cstmt) (s : store) (k : Z) : result :=
  let get x := py_get G l x s in
  match c with
  | CSet x t => match eval get k t with Some (z, k1) => Next (put x z s) k1 | None => Fault end
  | CIf t b1 b2 =>
      match eval get k t with
      | Some (z, k1) => if Z.ltb 0 z then py_block G l b1 s k1 else py_block G l b2 s k1
      | None => Fault
      end
  | CFor x t b =>
      match eval get k t with
      | Some (z, k1) =>
          repeat_ (fun i s k => py_block G l b (put x i s) k) (Z.to_nat z) 0%Z s k1
      | None => Fault
      end
  | CCall y f ts =>
      match py_args get k ts with
      | Some (zs, k1) =>
          match py_call G f zs k1 with Some (z, k2) => Next (put y z s) k2 | None => Fault end
      | None => Fault
      end
  | COp y t f ts =>
      match eval get k t with
      | Some (z0, k0) =>
          match py_args get k0 ts with
          | Some (zs, k1) =>
              match py_call G f zs k1 with
              | Some (z, k2) => Next (put y (z0 + z)%Z s) k2
              | None => Fault
              end
          | None => Fault
          end
      | None => Fault
      end
  end
with py_block (G : store) (l : list string) (b : cblock) (s : store) (k : Z) : result :=
  match b with
  | CNil => Next s k
  | CCons c b' => match py G l c s k with Next s1 k1 => py_block G l b' s1 k1 | r => r end
  end.

(* ------------------------------------------------------------------ syntactic stage *)

(* _get_unique_name: the symbol that is returned, if there is one and it is a variable of the
   function but not an argument; None: a new name *)
Definition symbol {A} (t : term A) : list A := match t with Var x => [x] | _ => [] end.

Definition result_name (f : fdef) : option string :=
  match nodup string_dec (flat_map symbol (returns_block (body f))) with
  | [r] => if negb (mem r (args f)) && mem r (locals f) then Some r else None
  | _ => None
  end.

(* ------------------------------------------------------------------ semantic stage *)

(* A name of the generated function, a name of the module *)
Inductive place := Loc (x : string) | Glob (x : string).

Inductive outcome (A : Type) := Code (a : A) | Refused | Broken.
Arguments Code {A}. Arguments Refused {A}. Arguments Broken {A}.

(* sc: the names in the scope of the caller *)
Definition find (sc : list string) (x : string) : place := if mem x sc then Loc x else Glob x.

Fixpoint visit_term (env : string -> term place) (t : term string) : term place :=
  match t with
  | Const z => Const z
  | Var x => env x
  | Plus a b => Plus (visit_term env a) (visit_term env b)
  | Call t => Call (visit_term env t)
  end.

Definition caller_env (sc : list string) (x : string) : term place := Var (find sc x).

(* 6847-6855: the variables of f get names that are not in use.  gs: the names of the module *)
Fixpoint rename (new : list string -> string -> string) (gs sc : list string) (vs : list string)
  : list (string * string) * list string :=
  match vs with
  | [] => ([], sc)
  | v :: vs' =>
      let v' := if mem v (sc ++ gs) then new (sc ++ gs) v else v in
      let '(m, sc') := rename new gs (v' :: sc) vs' in ((v, v') :: m, sc')
  end.

Fixpoint assoc {B} (x : string) (m : list (string * B)) : option B :=
  match m with
  | [] => None
  | (y, b) :: m' => if String.eqb x y then Some b else assoc x m'
  end.

(* 6857-6893: the arguments stand for the expressions of the call; y: the variable assigned *)
Definition env (f : fdef) (actual : list (term place)) (m : list (string * string))
               (sc : list string) (x : string) : term place :=
  match assoc x (combine (args f) actual) with
  | Some t => t
  | None => match assoc x m with Some x' => Var (Loc x') | None => Var (find sc x) end
  end.

(* An argument that is assigned: the variable of the caller, if it stands for one *)
Definition target (f : fdef) (actual : list (term place)) (m : list (string * string))
                  (x : string) : option string :=
  match assoc x (combine (args f) actual) with
  | Some (Var (Loc v)) => Some v
  | Some _ => None
  | None => assoc x m
  end.

(* 6900-6911: return t becomes y = t; return x becomes nothing *)
Fixpoint visit (y : string) (e : string -> term place) (tg : string -> option string)
               (c : stmt string) : option (block place) :=
  match c with
  | Set_ x t =>
      match tg x with Some x' => Some (Cons (Set_ x' (visit_term e t)) Nil) | None => None end
  | If t b1 b2 =>
      match visit_block y e tg b1, visit_block y e tg b2 with
      | Some b1', Some b2' => Some (Cons (If (visit_term e t) b1' b2') Nil)
      | _, _ => None
      end
  | For x t b =>
      match tg x, visit_block y e tg b with
      | Some x', Some b' => Some (Cons (For x' (visit_term e t) b') Nil)
      | _, _ => None
      end
  | Return (Var _) => Some Nil
  | Return t => Some (Cons (Set_ y (visit_term e t)) Nil)
  end
with visit_block (y : string) (e : string -> term place) (tg : string -> option string)
                 (b : block string) : option (block place) :=
  match b with
  | Nil => Some Nil
  | Cons c b' =>
      match visit y e tg c, visit_block y e tg b' with
      | Some c', Some b'' => Some (app_block c' b'')
      | _, _ => None
      end
  end.

(* The body of f in the place of the call; the new scope *)
Definition expand (new : list string -> string -> string) (gs sc : list string) (y : string)
                  (f : fdef) (ts : list (term string)) : option (block place) * list string :=
  let actual := map (visit_term (caller_env sc)) ts in
  let res := result_name f in
  let others := filter (fun v => match res with Some r => negb (String.eqb v r) | None => true end)
                       (nodup string_dec (locals f)) in
  let '(m, sc') := rename new gs sc others in
  let m' := match res with Some r => (r, y) :: m | None => m end in
  (visit_block y (env f actual m' sc') (target f actual m') (body f), sc').

Fixpoint split_last (b : block place) : option (block place * stmt place) :=
  match b with
  | Nil => None
  | Cons c Nil => Some (Nil, c)
  | Cons c b' => match split_last b' with Some (i, l) => Some (Cons c i, l) | None => None end
  end.

Fixpoint names_term (t : term place) : list string :=
  match t with
  | Const _ => [] | Var (Loc x) => [x] | Var (Glob _) => []
  | Plus a b => names_term a ++ names_term b | Call t => names_term t
  end.
Fixpoint names (c : stmt place) : list string :=
  match c with
  | Set_ x t => x :: names_term t
  | If t b1 b2 => names_term t ++ names_block b1 ++ names_block b2
  | For x t b => x :: names_term t ++ names_block b
  | Return t => names_term t
  end
with names_block (b : block place) : list string :=
  match b with Nil => [] | Cons c b' => names c ++ names_block b' end.

(* 6959-6990: the call is in an expression.  d: the variable for the result.  If there is one
   return and the last statement is an assignment, its right-hand side is used in the expression
   and d is not declared; code in which d is used all the same cannot be compiled *)
Definition use (d : string) (f : fdef) (b : block place) : outcome (block place * term place) :=
  if mem d (assigned_block b) then
    match returns_block (body f), split_last b with
    | [_], Some (i, Set_ p e) =>
        if String.eqb p d && negb (mem d (names_block i ++ names_term e)) then Code (i, e)
        else Broken
    | _, _ => Code (b, Var (Loc d))
    end
  else Refused.

Fixpoint translate (new : list string -> string -> string) (gs sc : list string) (c : cstmt)
  : outcome (block place * list string) :=
  let tr := visit_term (caller_env sc) in
  match c with
  | CSet x t => Code (Cons (Set_ x (tr t)) Nil, sc)
  | CIf t b1 b2 =>
      match translate_block new gs sc b1 with
      | Code (b1', sc1) =>
          match translate_block new gs sc1 b2 with
          | Code (b2', sc2) => Code (Cons (If (tr t) b1' b2') Nil, sc2)
          | Refused => Refused | Broken => Broken
          end
      | Refused => Refused | Broken => Broken
      end
  | CFor x t b =>
      match translate_block new gs sc b with
      | Code (b', sc1) => Code (Cons (For x (tr t) b') Nil, sc1)
      | Refused => Refused | Broken => Broken
      end
  | CCall y f ts =>
      match expand new gs sc y f ts with
      | (Some b, sc1) => Code (b, sc1)
      | (None, _) => Refused
      end
  | COp y t f ts =>
      let d := new (sc ++ gs) "Dummy"%string in
      match expand new gs (d :: sc) d f ts with
      | (Some b, sc1) =>
          match use d f b with
          | Code (b', e) => Code (app_block b' (Cons (Set_ y (Plus (tr t) e)) Nil), sc1)
          | Refused => Refused | Broken => Broken
          end
      | (None, _) => Refused
      end
  end
with translate_block (new : list string -> string -> string) (gs sc : list string) (b : cblock)
  : outcome (block place * list string) :=
  match b with
  | CNil => Code (Nil, sc)
  | CCons c b' =>
      match translate new gs sc c with
      | Code (c', sc1) =>
          match translate_block new gs sc1 b' with
          | Code (b'', sc2) => Code (app_block c' b'', sc2)
          | Refused => Refused | Broken => Broken
          end
      | Refused => Refused | Broken => Broken
      end
  end.

(* ------------------------------------------------------------------ the generated code *)

Definition c_get (G : store) (x : place) (s : store) : option Z :=
  match x with Loc y => s y | Glob y => G y end.

Definition run (G : store) (b : block place) (s : store) (k : Z) : result :=
  exec_block (c_get G) b s k.
