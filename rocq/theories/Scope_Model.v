(* Scopes: declaring names, inventing names, looking names up.
   Models /repo/pyccel/parser/scope.py.  The tree of Scope objects is a list of
   records (the heap); a scope is its position, the parent link a position.
   allow_loop_scoping is the constant False (scope.py:70; nothing sets it). *)
From Coq Require Import List Bool Arith String Ascii.
From Verif Require Import Common Naming_Model.
Import ListNotations.
Open Scope string_scope.
Open Scope list_scope.
Open Scope nat_scope.
Open Scope py_scope.

(* scope.py:89-97. *)
Inductive category := KFunctions | KVariables | KClasses | KImports | KAliases | KDecorators | KConstructs.
Definition categories : list category :=
  [KFunctions; KVariables; KClasses; KImports; KAliases; KDecorators; KConstructs].
Definition category_eqb (a b : category) : bool :=
  match a, b with
  | KFunctions, KFunctions | KVariables, KVariables | KClasses, KClasses | KImports, KImports
  | KAliases, KAliases | KDecorators, KDecorators | KConstructs, KConstructs => true
  | _, _ => false
  end.

(* A Python dictionary with string keys: insertion order, unique keys. *)
Definition dict (V : Type) := list (string * V).
Fixpoint dget {V} (d : dict V) (k : string) : option V :=
  match d with
  | [] => None
  | (k', v) :: d' => if String.eqb k k' then Some v else dget d' k
  end.
Fixpoint dset {V} (d : dict V) (k : string) (v : V) : dict V :=
  match d with
  | [] => [(k, v)]
  | (k', v') :: d' => if String.eqb k k' then (k', v) :: d' else (k', v') :: dset d' k v
  end.
Fixpoint ddel {V} (d : dict V) (k : string) : dict V :=
  match d with
  | [] => []
  | (k', v') :: d' => if String.eqb k k' then d' else (k', v') :: ddel d' k
  end.

(* Scope.__slots__ (scope.py:72-87), restricted to what is modelled.  Objects
   are numbers.  is_loop is the same as scope type "loop" (scope.py:112,
   376-381: the two are only ever set together). *)
Record scope := mkScope {
  sc_type : stype;
  sc_parent : option nat;
  sc_prefix : string;
  sc_used : dict string;
  sc_orig : dict string;
  sc_dummy : nat;
  sc_locals : category -> dict nat;
  sc_imports : category -> dict nat }.

Definition heap := list scope.

Definition is_loop (s : scope) : bool := match sc_type s with SLoop => true | _ => false end.

Definition set_used (s : scope) u := mkScope (sc_type s) (sc_parent s) (sc_prefix s) u (sc_orig s) (sc_dummy s) (sc_locals s) (sc_imports s).
Definition set_orig (s : scope) o := mkScope (sc_type s) (sc_parent s) (sc_prefix s) (sc_used s) o (sc_dummy s) (sc_locals s) (sc_imports s).
Definition set_dummy (s : scope) d := mkScope (sc_type s) (sc_parent s) (sc_prefix s) (sc_used s) (sc_orig s) d (sc_locals s) (sc_imports s).
Definition set_locals (s : scope) l := mkScope (sc_type s) (sc_parent s) (sc_prefix s) (sc_used s) (sc_orig s) (sc_dummy s) l (sc_imports s).

Fixpoint put (h : heap) (i : nat) (s : scope) : heap :=
  match h, i with
  | [], _ => []
  | _ :: t, O => s :: t
  | x :: t, S i' => x :: put t i' s
  end.

(* str.removesuffix("__"). *)
Definition remove_dunder (s : string) : string :=
  let n := String.length s in
  if (2 <=? n) && String.eqb (String.substring (n - 2) 2 s) "__"
  then String.substring 0 (n - 2) s else s.

(* scope.py:121-127, _symbol_prefix. *)
Definition child_prefix (parent_prefix : string) (name : option string) : string :=
  let a := match parent_prefix with EmptyString => "" | _ => (remove_dunder parent_prefix ++ "__")%string end in
  let b := match name with None => "" | Some EmptyString => "" | Some n => (n ++ "__")%string end in
  (a ++ b)%string.

(* scope.py:99-152, a Scope without parent. *)
Definition root_scope (t : stype) (name : option string) : scope :=
  mkScope t None (child_prefix "" name) [] [] 0 (fun _ => []) (fun _ => []).

(* scope.py:154-184, new_child_scope (the _sons_scopes table is not modelled). *)
Definition new_child_scope (h : heap) (i : nat) (name : string) (t : stype) : py (heap * nat) :=
  match nth_error h i with
  | None => PErr "no such scope"
  | Some s =>
    match t with
    | SLoop => PErr "AssertionError"
    | _ =>
      POk (h ++ [mkScope t (Some i) (child_prefix (sc_prefix s) (Some name)) [] [] 0
                   (fun _ => []) (fun _ => [])], List.length h)
    end
  end.

(* scope.py:364-383, create_new_loop_scope: decorators are copied. *)
Definition create_new_loop_scope (h : heap) (i : nat) : py (heap * nat) :=
  match nth_error h i with
  | None => PErr "no such scope"
  | Some s =>
      POk (h ++ [mkScope SLoop (Some i) (child_prefix (sc_prefix s) None) [] [] 0
                   (fun c => if category_eqb c KDecorators then sc_locals s KDecorators else [])
                   (fun _ => [])], List.length h)
  end.

(* The chain of enclosing scopes, innermost first; parents are older than their
   children, so [S i] steps are enough. *)
Fixpoint chain_f (fuel : nat) (h : heap) (i : nat) : list nat :=
  match fuel with
  | O => []
  | S f =>
    match nth_error h i with
    | None => []
    | Some s => i :: match sc_parent s with None => [] | Some p => chain_f f h p end
    end
  end.
Definition chain (h : heap) (i : nat) : list nat := chain_f (S i) h i.

Definition used_at (h : heap) (j : nat) : dict string :=
  match nth_error h j with Some s => sc_used s | None => [] end.
Definition orig_at (h : heap) (j : nat) : dict string :=
  match nth_error h j with Some s => sc_orig s | None => [] end.

(* scope.py:712-725, all_used_symbols. *)
Definition all_used_symbols (h : heap) (i : nat) : list string :=
  flat_map (fun j => map snd (used_at h j)) (chain h i).
(* scope.py:727-740, all_python_symbols. *)
Definition all_python_symbols (h : heap) (i : nat) : list string :=
  flat_map (fun j => map fst (used_at h j)) (chain h i).

(* scope.py:569-618, insert_symbol (dotted and annotated symbols are not
   modelled).  A loop scope hands over to its parent, with the default object
   type "variable" (line 602). *)
Fixpoint insert_symbol_f (fuel : nat) (l : lang) (h : heap) (i : nat) (symbol : string) (ctx : context)
  : py (heap * string) :=
  match fuel with
  | O => PFuel
  | S f =>
    match nth_error h i with
    | None => PErr "no such scope"
    | Some s =>
      if is_loop s
      then match sc_parent s with
           | None => PErr "AttributeError"
           | Some p => insert_symbol_f f l h p symbol CVariable
           end
      else
        match dget (sc_used s) symbol with
        | Some v => POk (h, v)
        | None =>
          n <~ get_collisionless_name l symbol (all_used_symbols h i) (sc_prefix s) ctx (sc_type s) ;;
          let s := set_used s (dset (sc_used s) symbol n) in
          let s := set_orig s (dset (sc_orig s) n symbol) in
          POk (put h i s, n)
        end
    end
  end.
Definition insert_symbol l h i symbol ctx := insert_symbol_f (S i) l h i symbol ctx.

(* scope.py:653-667, remove_symbol. *)
Definition remove_symbol (h : heap) (i : nat) (symbol : string) : py heap :=
  match nth_error h i with
  | None => PErr "no such scope"
  | Some s =>
    match dget (sc_used s) symbol with
    | None => POk h
    | Some v =>
      match dget (sc_orig s) v with
      | None => PErr "KeyError"
      | Some _ =>
        let s := set_used s (ddel (sc_used s) symbol) in
        let s := set_orig s (ddel (sc_orig s) v) in
        POk (put h i s)
      end
    end
  end.

(* scope.py:779-811, get_new_incremented_symbol. *)
Definition get_new_incremented_symbol (l : lang) (h : heap) (i : nat) (prefix : string) (counter : nat)
  : py (heap * (string * nat)) :=
  r <~ create_incremented_string (map snd (used_at h i)) (Some prefix) counter (Some l) ;;
  let (new_name, counter) := r in
  r2 <~ insert_symbol l h i new_name CVariable ;;
  let (h', n) := r2 in
  POk (h', (n, counter)).

(* scope.py:867-877: register the invented name. *)
Definition finish_new_name (l : lang) (h : heap) (i : nat) (new_name : string) (ctx : context)
  : py (heap * string) :=
  match nth_error h i with
  | None => PErr "no such scope"
  | Some s =>
    n <~ get_collisionless_name l new_name (all_used_symbols h i) (sc_prefix s) ctx (sc_type s) ;;
    let s := set_used s (dset (sc_used s) n n) in
    let s := set_orig s (dset (sc_orig s) n n) in
    insert_symbol l (put h i s) i n ctx
  end.

(* scope.py:813-877, get_new_name (the is_temp mark is not modelled). *)
Definition get_new_name (l : lang) (h : heap) (i : nat) (current_name : option string) (ctx : context)
  : py (heap * string) :=
  match nth_error h i with
  | None => PErr "no such scope"
  | Some s =>
    match current_name with
    | Some c =>
      if negb (has_clash l c (all_python_symbols h i))
      then insert_symbol l h i c ctx
      else
        r <~ create_incremented_string (all_used_symbols h i) (Some c) 1 None ;;
        finish_new_name l h i (fst r) ctx
    | None =>
      r <~ create_incremented_string (all_used_symbols h i) None (sc_dummy s) (Some l) ;;
      finish_new_name l (put h i (set_dummy s (snd r))) i (fst r) ctx
    end
  end.

(* Search the dictionaries [d] of the enclosing scopes, innermost first. *)
Fixpoint chain_get (d : nat -> dict string) (js : list nat) (k : string) : option string :=
  match js with
  | [] => None
  | j :: js' => match dget (d j) k with Some v => Some v | None => chain_get d js' k end
  end.

(* scope.py:922-946, get_expected_name; the name "_" asks for a new name. *)
Definition get_expected_name (l : lang) (h : heap) (i : nat) (start_name : string) : py (heap * string) :=
  if String.eqb start_name "_" then get_new_name l h i None CVariable
  else match chain_get (used_at h) (chain h i) start_name with
       | Some v => POk (h, v)
       | None => PErr "RuntimeError"
       end.

(* scope.py:1071-1093, get_python_name. *)
Definition get_python_name (h : heap) (i : nat) (name : string) : py string :=
  match chain_get (orig_at h) (chain h i) name with
  | Some v => POk v
  | None => PErr "RuntimeError"
  end.

(* The operations that change which names exist. *)
Inductive op :=
| OChild (i : nat) (name : string) (t : stype)
| OLoop (i : nat)
| OInsert (i : nat) (symbol : string) (ctx : context)
| ONew (i : nat) (current_name : option string) (ctx : context)
| OIncr (i : nat) (prefix : string) (counter : nat)
| ORemove (i : nat) (symbol : string).

Definition step (l : lang) (h : heap) (o : op) : py heap :=
  match o with
  | OChild i n t => r <~ new_child_scope h i n t ;; POk (fst r)
  | OLoop i => r <~ create_new_loop_scope h i ;; POk (fst r)
  | OInsert i s c => r <~ insert_symbol l h i s c ;; POk (fst r)
  | ONew i n c => r <~ get_new_name l h i n c ;; POk (fst r)
  | OIncr i p k => r <~ get_new_incremented_symbol l h i p k ;; POk (fst r)
  | ORemove i s => remove_symbol h i s
  end.

(* A history; an exception ends it. *)
Fixpoint run_ops (l : lang) (os : list op) (h : heap) : py heap :=
  match os with
  | [] => POk h
  | o :: os' => h' <~ step l h o ;; run_ops l os' h'
  end.

(* ---- objects ---- *)

(* scope.py:311-316: the search of one scope. *)
Fixpoint find_here (s : scope) (cats : list category) (name : string) : option nat :=
  match cats with
  | [] => None
  | c :: cats' =>
    match dget (sc_locals s c) name with
    | Some o => Some o
    | None =>
      match dget (sc_imports s c) name with
      | Some o => Some o
      | None => find_here s cats' name
      end
    end
  end.

(* scope.py:281-324, find (raise_if_missing is not modelled: None stands for
   both outcomes of a failed search). *)
Fixpoint find_f (fuel : nat) (h : heap) (i : nat) (name : string) (category : option category)
    (local_only : bool) : option nat :=
  match fuel with
  | O => None
  | S f =>
    match nth_error h i with
    | None => None
    | Some s =>
      match find_here s (match category with Some c => [c] | None => categories end) name with
      | Some o => Some o
      | None =>
        match sc_parent s with
        | Some p => if is_loop s || negb local_only then find_f f h p name category local_only else None
        | None => None
        end
      end
    end
  end.
Definition find h i name category local_only := find_f (S i) h i name category local_only.

Definition has_key {V} (d : dict V) (k : string) : bool := match dget d k with Some _ => true | None => false end.

(* scope.py:385-437, insert_variable, for a variable which is not an
   inhomogeneous tuple and whose name is not the value of a symbolic alias.
   [var] is the object, [var_name] its low-level name. *)
Fixpoint insert_variable_f (fuel : nat) (h : heap) (i : nat) (var : nat) (var_name : string)
    (name : option string) : py heap :=
  match fuel with
  | O => PFuel
  | S f =>
    match nth_error h i with
    | None => PErr "no such scope"
    | Some s =>
      if String.eqb var_name "_" then PErr "ValueError" else
      name <~ match name with Some n => POk n | None => get_python_name h i var_name end ;;
      if is_loop s
      then match sc_parent s with
           | None => PErr "AttributeError"
           | Some p => insert_variable_f f h p var var_name (Some name)
           end
      else if has_key (sc_locals s KVariables) name then PErr "RuntimeError"
      else if String.eqb name "_" then POk h
      else
        if has_key (sc_used s) name
           || match sc_parent s with None => false | Some p => has_key (used_at h p) name end
        then POk (put h i (set_locals s (fun c =>
               if category_eqb c KVariables then dset (sc_locals s KVariables) name var else sc_locals s c)))
        else PErr "AssertionError"
    end
  end.
Definition insert_variable h i var var_name name := insert_variable_f (S i) h i var var_name name.
