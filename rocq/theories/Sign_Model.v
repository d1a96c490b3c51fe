(* The signature of a function in the stub file of its module (and in the Python code Pyccel writes).
   Sources: pyccel/codegen/printing/pycode.py 578-601 (_print_FunctionDefArgument), 319-397
   (_function_signature; the same lines are in _print_FunctionDef, 719-790),
   pyccel/parser/syntactic.py 734-827 (_visit_arguments, of which Call_Model has the functions; here
   also the methods).
   Simplifications: as in Call_Model; the annotations are in Stub_Model. *)
From Coq Require Import Bool Arith ZArith Lia List.
From Verif Require Import Call_Model.
Import ListNotations.
Open Scope list_scope.

(* what is between the commas: name = default, *name, **name, / and * *)
Inductive item := IParam (n : nat) (d : option val) | IVar (n : nat) | IKw (n : nat) | ISlash | IStar.

(* pycode.py 578-601 *)
Definition print_arg (a : arg) : item :=
  match a_kind a with
  | KVararg => IVar (a_name a)
  | KKwarg => IKw (a_name a)
  | _ => IParam (a_name a) (a_value a)
  end.

(* list.insert *)
Definition insert {A : Type} (i : nat) (x : A) (l : list A) : list A := firstn i l ++ x :: skipn i l.

(* 358-379: both places are counted in the list of the arguments *)
Definition signature (fa : list arg) : list item :=
  let code := map print_arg fa in
  let code1 :=
    if match fa with a :: _ => is_posonly a | [] => false end
    then insert (index_of (fun a => negb (is_posonly a)) fa) ISlash code
    else code in
  if existsb is_kwonly fa && forallb (fun a => negb (is_vararg a)) fa
  then insert (index_of is_kwonly fa) IStar code1
  else code1.

(* syntactic.py 784-796: the first parameter of a method, without annotation, is made again; this
   is done before the keyword-only parameters are there (None: IndexError) *)
Definition visit_method (s : sig) : option (list arg) :=
  match posonly s, args s, vararg s with
  | [], [], None => None
  | _, _, _ =>
    match visit_arguments s with
    | a :: fa => Some (mk_arg (a_name a) KNormal (a_value a) :: fa)
    | [] => None
    end
  end.
