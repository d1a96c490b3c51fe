(* Bookkeeping of inhomogeneous tuples: a tuple variable stands for one variable
   per element, linked by "symbolic aliases".
   Models parts of /repo/pyccel/parser/scope.py.  Variables are numbers, their
   class types are kept in a table.  One scope is modelled: the aliases of
   enclosing scopes, dotted variables and functions as bases are not. *)
From Coq Require Import List Bool Arith String.
From Verif Require Import Common.
Import ListNotations.
Open Scope string_scope.
Open Scope list_scope.
Open Scope nat_scope.
Open Scope py_scope.

(* class_type of a variable: an inhomogeneous tuple type or anything else. *)
Inductive ty := TBase (name : nat) | TTup (elements : list ty).

(* The scope: types of the variables that exist (variable = position), and
   _locals["symbolic_aliases"] from (variable, index) to variable. *)
Record st := mkSt { st_types : list ty; st_alias : list (nat * nat * nat) }.

Fixpoint alias_get (al : list (nat * nat * nat)) (v i : nat) : option nat :=
  match al with
  | [] => None
  | (v', i', w) :: al' => if (v =? v') && (i =? i') then Some w else alias_get al' v i
  end.

Definition type_of (s : st) (v : nat) : option ty := nth_error (st_types s) v.

(* scope.py:1124-1179, collect_tuple_element of v[i]: anything that is not an
   element of an inhomogeneous tuple is returned unchanged (None here: it stays
   the indexed expression). *)
Definition collect_tuple_element (s : st) (v i : nat) : py nat :=
  match type_of s v with
  | Some (TTup _) =>
      match alias_get (st_alias s) v i with
      | Some w => POk w
      | None => PErr "fatal: Tuple element could not be found"
      end
  | Some (TBase _) => PErr "not an inhomogeneous tuple"
  | None => PErr "no such variable"
  end.

(* scope.py:1181-1216, collect_all_tuple_elements.  "for v in tuple_var" runs
   over the indices of the type. *)
Fixpoint collect_all (fuel : nat) (s : st) (v : nat) : py (list nat) :=
  match fuel with
  | O => PFuel
  | S f =>
    match type_of s v with
    | None => PErr "no such variable"
    | Some (TBase _) => POk [v]
    | Some (TTup ts) =>
        (fix go (i : nat) (ts : list ty) : py (list nat) :=
           match ts with
           | [] => POk []
           | _ :: ts' =>
               w <~ collect_tuple_element s v i ;;
               a <~ collect_all f s w ;;
               b <~ go (S i) ts' ;;
               POk (a ++ b)
           end) 0 ts
    end
  end.

(* scope.py:669-694, insert_symbolic_alias (in a scope that is no loop). *)
Definition insert_alias (s : st) (v i w : nat) : py st :=
  match alias_get (st_alias s) v i with
  | Some _ => PErr "fatal: symbol cannot represent multiple static concepts"
  | None => POk (mkSt (st_types s) (st_alias s ++ [(v, i, w)]))
  end.

(* scope.py:879-920, get_temporary_variable of an existing variable, with
   clone_scope the same scope: a new variable of the same type and, for a tuple,
   new variables for its elements. *)
Fixpoint clone (fuel : nat) (s : st) (v : nat) : py (st * nat) :=
  match fuel with
  | O => PFuel
  | S f =>
    match type_of s v with
    | None => PErr "no such variable"
    | Some t =>
      let n := List.length (st_types s) in
      let s := mkSt (st_types s ++ [t]) (st_alias s) in
      match t with
      | TBase _ => POk (s, n)
      | TTup ts =>
        r <~ (fix go (i : nat) (ts : list ty) (s : st) : py st :=
                match ts with
                | [] => POk s
                | _ :: ts' =>
                    w <~ collect_tuple_element s v i ;;
                    r <~ clone f s w ;;
                    s <~ insert_alias (fst r) n i (snd r) ;;
                    go (S i) ts' s
                end) 0 ts s ;;
        POk (r, n)
      end
    end
  end.

(* Indexing a tuple variable along a path, v[i0][i1]..., one element at a time. *)
Fixpoint follow (s : st) (v : nat) (path : list nat) : py nat :=
  match path with
  | [] => POk v
  | i :: path' => w <~ collect_tuple_element s v i ;; follow s w path'
  end.

Fixpoint depth (t : ty) : nat :=
  match t with
  | TBase _ => 1
  | TTup ts => S ((fix go ts := match ts with [] => 0 | t :: ts' => Nat.max (depth t) (go ts') end) ts)
  end.
