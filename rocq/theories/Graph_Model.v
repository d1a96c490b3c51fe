(* The nodes of the syntax tree and the links to their users.
   Sources: pyccel/ast/basic.py 50-549.
   A node is its index in the heap.  A child that is None or Immutable (a symbol, a type) is
   CSym: it is compared but has no users.  Simplifications: the conversion of Python values
   to literals in the constructor is not modelled; the flags _recursion_in_progress are the
   list of the calls in progress; an exception ends the run (Raised). *)
From Coq Require Import Bool Arith Lia List.
Import ListNotations.
Open Scope list_scope.

Notation id := nat (only parsing).
Inductive child := CSym (s : nat) | CNode (i : id).

(* The value of an attribute: a node, or a tuple of nodes. *)
Inductive attr := One (c : child) | Many (l : list child).
Definition attr_children (a : attr) : list child := match a with One c => [c] | Many l => l end.

(* basic.py 69-71: _attribute_nodes, _user_nodes, _pyccel_staging.  n_dead is not in the
   code: it records that invalidate_node has run on the node. *)
Record node := mk_node { n_attrs : list attr; n_users : list id; n_stage : nat; n_dead : bool }.
Definition heap := list node.

Inductive res := Ok (h : heap) | Raised | Fuel.

Definition update (h : heap) (i : id) (f : node -> node) : heap :=
  match nth_error h i with
  | Some n => firstn i h ++ f n :: skipn (S i) h
  | None => h
  end.

Definition with_users (us : list id) (n : node) : node := mk_node (n_attrs n) us (n_stage n) (n_dead n).
Definition with_attrs (l : list attr) (n : node) : node := mk_node l (n_users n) (n_stage n) (n_dead n).
Definition kill (n : node) : node := mk_node (n_attrs n) (n_users n) (n_stage n) true.

(* basic.py 495-497: set_current_user_node *)
Definition add_user (p : id) (h : heap) (c : child) : heap :=
  match c with
  | CSym _ => h
  | CNode i => update h i (fun n => with_users (n_users n ++ [p]) n)
  end.

(* basic.py 73-119: the constructor *)
Definition construct (h : heap) (stage : nat) (attrs : list attr) : heap :=
  fold_left (add_user (List.length h)) (flat_map attr_children attrs) (h ++ [mk_node attrs [] stage false]).

(* list.remove and the test user_node in self._user_nodes *)
Fixpoint remove_first (f : id -> bool) (l : list id) : option (list id) :=
  match l with
  | [] => None
  | x :: l' => if f x then Some l' else option_map (cons x) (remove_first f l')
  end.

(* basic.py 524-547: remove_user_node; eq is == of Python *)
Definition remove_user (eq : child -> child -> bool) (inval : heap -> id -> res) (p : id) (invalidate : bool) (h : heap) (j : id) : res :=
  match nth_error h j with
  | None => Raised
  | Some m =>
    match remove_first (fun u => eq (CNode u) (CNode p)) (n_users m) with
    | None => Raised
    | Some us =>
      let h' := update h j (with_users us) in
      match us with
      | [] => if invalidate then inval h' j else Ok h'
      | _ => Ok h'
      end
    end
  end.

(* basic.py 126-149: invalidate_node.  fuel: more than the number of links. *)
Fixpoint invalidate (eq : child -> child -> bool) (fuel : nat) (h : heap) (i : id) : res :=
  match fuel with
  | O => Fuel
  | S k =>
    match nth_error h i with
    | None => Raised
    | Some n =>
      (fix go (cs : list child) (h : heap) : res :=
         match cs with
         | [] => Ok h
         | CSym _ :: cs' => go cs' h
         | CNode j :: cs' =>
           match nth_error h j with
           | None => Raised
           | Some m =>
             if Nat.eqb (n_stage m) (n_stage n) then
               match remove_user eq (invalidate eq k) i true h j with
               | Ok h' => go cs' h'
               | e => e
               end
             else go cs' h
           end
         end) (flat_map attr_children (n_attrs n)) (update h i kill)
    end
  end.

Definition links (h : heap) : nat := list_sum (map (fun n => List.length (n_users n)) h).

(* invalidate_node with enough fuel *)
Definition invalidate_node (eq : child -> child -> bool) (h : heap) (i : id) : res := invalidate eq (S (links h)) h i.

(* basic.py 294-326: the arguments of substitute; a replacement may be a tuple *)
Record sub := mk_sub {
  s_from : list child;
  s_to : list attr;
  s_excl : child -> bool;              (* isinstance of excluded_nodes *)
  s_invalidate : bool;
  s_equiv : child -> child -> bool     (* is_equivalent *)
}.

Fixpoint index_of (f : child -> bool) (l : list child) : option nat :=
  match l with
  | [] => None
  | x :: l' => if f x then Some 0 else option_map S (index_of f l')
  end.

Inductive res2 (A : Type) := Ok2 (h : heap) (a : A) | Raised2 | Fuel2.
Arguments Ok2 {A} h a.
Arguments Raised2 {A}.
Arguments Fuel2 {A}.

(* basic.py 351-364: prepare_sub *)
Definition prepare_sub (eq : child -> child -> bool) (s : sub) (i : id) (h : heap) (found : child) : res2 attr :=
  match index_of (fun o => eq o found) (s_from s) with
  | None => Raised2
  | Some k =>
    match nth_error (s_to s) k with
    | None => Raised2
    | Some rep =>
      let h1 := fold_left (add_user i) (attr_children rep) h in
      match found with
      | CSym _ => Ok2 h1 rep
      | CNode j =>
        match remove_user eq (invalidate_node eq) i (s_invalidate s) h1 j with
        | Ok h2 => Ok2 h2 rep
        | Raised => Raised2
        | Fuel => Fuel2
        end
      end
    end
  end.

Fixpoint set_nth (l : list attr) (n : nat) (a : attr) : list attr :=
  match l, n with
  | [], _ => []
  | _ :: l', O => a :: l'
  | x :: l', S m => x :: set_nth l' m a
  end.

(* setattr(self, n, a) *)
Definition set_attr (h : heap) (i : id) (n : nat) (a : attr) : heap :=
  update h i (fun m => with_attrs (set_nth (n_attrs m) n a) m).

Definition attrs_of (h : heap) (i : id) : list attr := match nth_error h i with Some n => n_attrs n | None => [] end.

(* basic.py 373-394: the elements of a tuple; acc is new_v *)
Fixpoint sub_tuple (eq : child -> child -> bool) (s : sub) (visit : heap -> id -> res) (i : id) (l : list child) (acc : list child) (h : heap)
  : res2 (list child) :=
  match l with
  | [] => Ok2 h acc
  | c :: l' =>
    if s_excl s c then sub_tuple eq s visit i l' (acc ++ [c]) h
    else if existsb (s_equiv s c) (s_from s) then
      match prepare_sub eq s i h c with
      | Ok2 h' rep => sub_tuple eq s visit i l' (acc ++ attr_children rep) h'
      | Raised2 => Raised2
      | Fuel2 => Fuel2
      end
    else
      match c with
      | CSym _ => sub_tuple eq s visit i l' (acc ++ [c]) h
      | CNode j =>
        match visit h j with
        | Ok h' => sub_tuple eq s visit i l' (acc ++ [c]) h'
        | Raised => Raised2
        | Fuel => Fuel2
        end
      end
  end.

(* basic.py 366-398: the attributes from number n on; cnt of them *)
Fixpoint sub_attrs (eq : child -> child -> bool) (s : sub) (visit : heap -> id -> res) (i : id) (n cnt : nat) (h : heap) : res :=
  match cnt with
  | O => Ok h
  | S cnt' =>
    match nth_error (attrs_of h i) n with
    | None => Raised
    | Some (One c) =>
      if s_excl s c then sub_attrs eq s visit i (S n) cnt' h
      else if existsb (s_equiv s c) (s_from s) then
        match prepare_sub eq s i h c with
        | Ok2 h' rep => sub_attrs eq s visit i (S n) cnt' (set_attr h' i n rep)
        | Raised2 => Raised
        | Fuel2 => Fuel
        end
      else
        match c with
        | CSym _ => sub_attrs eq s visit i (S n) cnt' h
        | CNode j =>
          match visit h j with
          | Ok h' => sub_attrs eq s visit i (S n) cnt' h'
          | e => e
          end
        end
    | Some (Many l) =>
      match sub_tuple eq s visit i l [] h with
      | Ok2 h' acc => sub_attrs eq s visit i (S n) cnt' (set_attr h' i n (Many acc))
      | Raised2 => Raised
      | Fuel2 => Fuel
      end
    end
  end.

(* basic.py 294-399: substitute; busy: the nodes whose _recursion_in_progress is set.
   fuel: more than the number of nodes. *)
Fixpoint subst_from (eq : child -> child -> bool) (s : sub) (fuel : nat) (busy : list id) (h : heap) (i : id) : res :=
  match fuel with
  | O => Fuel
  | S k =>
    if existsb (Nat.eqb i) busy then Ok h
    else
      match s_from s with
      | [] => Ok h
      | _ => sub_attrs eq s (subst_from eq s k (i :: busy)) i 0 (List.length (attrs_of h i)) h
      end
  end.

Definition substitute (eq : child -> child -> bool) (s : sub) (h : heap) (i : id) : res :=
  subst_from eq s (S (List.length h)) [] h i.

(* basic.py 188-240: get_attribute_nodes; search and excl are isinstance tests *)
Fixpoint attribute_nodes (search excl : child -> bool) (h : heap) (fuel : nat) (busy : list id) (i : id) : option (list child) :=
  match fuel with
  | O => None
  | S k =>
    if existsb (Nat.eqb i) busy then Some []
    else
      fold_left (fun acc c =>
        match acc with
        | None => None
        | Some r =>
          if excl c then Some r
          else if search c then Some (r ++ [c])
          else match c with
               | CSym _ => Some r
               | CNode j => option_map (app r) (attribute_nodes search excl h k (i :: busy) j)
               end
        end) (flat_map attr_children (attrs_of h i)) (Some [])
  end.

Definition users_of (h : heap) (i : id) : list id := match nth_error h i with Some n => n_users n | None => [] end.

(* basic.py 151-186: get_user_nodes *)
Fixpoint user_nodes (search excl : id -> bool) (h : heap) (fuel : nat) (busy : list id) (i : id) : option (list id) :=
  match fuel with
  | O => None
  | S k =>
    if existsb (Nat.eqb i) busy then Some []
    else
      fold_left (fun acc p =>
        match acc with
        | None => None
        | Some r => if search p || excl p then Some r else option_map (app r) (user_nodes search excl h k (i :: busy) p)
        end) (users_of h i) (Some (filter (fun p => search p && negb (excl p)) (users_of h i)))
  end.

(* basic.py 257-292: is_user_of; self is a user of node i *)
Fixpoint is_user_of (excl : id -> bool) (h : heap) (self : id) (fuel : nat) (busy : list id) (i : id) : option bool :=
  match fuel with
  | O => None
  | S k =>
    if existsb (Nat.eqb i) busy then Some false
    else
      fold_left (fun acc v =>
        match acc with
        | Some false =>
          if Nat.eqb v self then Some true
          else if excl v then Some false
          else is_user_of excl h self k (i :: busy) v
        | r => r
        end) (users_of h i) (Some false)
  end.
