(* Assignments to several targets.
   Sources: pyccel/parser/semantic.py 5067-5164 (_visit_Assign, the branch of tuples on the
   right), pyccel/ast/basic.py 188-240 (get_attribute_nodes: does not look inside the nodes it
   finds), 293-400 (substitute), pyccel/ast/variable.py 932-936 (IndexedElement.__eq__).
   Simplifications: values are integers; variables are scalars or arrays of one dimension
   (or tuples), and not both; subscripts are built from scalars; no attributes of objects;
   functions have no side effects. *)
From Coq Require Import Bool Arith ZArith Lia List.
Import ListNotations.
Open Scope list_scope.

(* VTemp: the names that scope.get_new_name() returns *)
Inductive var := VUser (n : nat) | VTemp (n : nat).

Inductive idx := ILit (z : Z) | IVar (x : var) | IOp (f : Z -> Z -> Z) (i j : idx).
Inductive expr :=
| ELit (z : Z)
| EVar (x : var)
| EElem (x : var) (i : idx)
| EUn (f : Z -> Z) (e : expr)
| EBin (f : Z -> Z -> Z) (e1 e2 : expr)
| ETup (l : list expr).
Inductive target := TVar (x : var) | TElem (x : var) (i : idx) | TTup (l : list target).

(* A statement of the generated code: a variable or an element gets a value *)
Inductive stmt := SVar (x : var) (e : expr) | SElem (x : var) (i : idx) (e : expr).

Definition var_eqb (a b : var) : bool :=
  match a, b with
  | VUser x, VUser y => Nat.eqb x y
  | VTemp x, VTemp y => Nat.eqb x y
  | _, _ => false
  end.
(* Subscripts that are operations are equal if they are the same object: never here. *)
Definition idx_eqb (a b : idx) : bool :=
  match a, b with
  | ILit x, ILit y => Z.eqb x y
  | IVar x, IVar y => var_eqb x y
  | _, _ => false
  end.

(* The symbols and elements in an expression, semantic.py 5073-5078, 5112-5117 *)
Inductive leaf := LVar (x : var) | LElem (x : var) (i : idx).
Definition leaf_eqb (a b : leaf) : bool :=
  match a, b with
  | LVar x, LVar y => var_eqb x y
  | LElem x i, LElem y j => var_eqb x y && idx_eqb i j
  | _, _ => false
  end.
Fixpoint leaves (e : expr) : list leaf :=
  match e with
  | ELit _ => []
  | EVar x => [LVar x]
  | EElem x i => [LElem x i]
  | EUn _ e1 => leaves e1
  | EBin _ e1 e2 => leaves e1 ++ leaves e2
  | ETup l => flat_map leaves l
  end.
Fixpoint target_leaves (t : target) : list leaf :=
  match t with
  | TVar x => [LVar x]
  | TElem x i => [LElem x i]
  | TTup l => flat_map target_leaves l
  end.
Definition mem_leaf (a : leaf) (l : list leaf) : bool := existsb (leaf_eqb a) l.

(* semantic.py 5095-5102: all_indexed_are_simple *)
Definition simple_idx (i : idx) : bool := match i with IOp _ _ _ => false | _ => true end.
Definition simple_leaf (a : leaf) : bool := match a with LVar _ => true | LElem _ i => simple_idx i end.
(* semantic.py 5080-5111: the statement is not refused *)
Definition accepted (ts : list target) (rs : list expr) : bool :=
  let modified := flat_map target_leaves ts in
  let used := flat_map leaves rs in
  negb (existsb (fun a => mem_leaf a used) modified) || forallb simple_leaf modified.

(* rhs.substitute(l, temp) *)
Fixpoint subst_idx (x : var) (t : var) (i : idx) : idx :=
  match i with
  | ILit z => ILit z
  | IVar y => if var_eqb y x then IVar t else IVar y
  | IOp f a b => IOp f (subst_idx x t a) (subst_idx x t b)
  end.
Fixpoint subst (a : leaf) (t : var) (e : expr) : expr :=
  match e with
  | ELit z => ELit z
  | EVar y => match a with LVar x => if var_eqb y x then EVar t else EVar y | LElem _ _ => EVar y end
  | EElem y i =>
    match a with
    | LVar x => EElem y (subst_idx x t i)
    | LElem x j => if var_eqb y x && idx_eqb i j then EVar t else EElem y i
    end
  | EUn f e1 => EUn f (subst a t e1)
  | EBin f e1 e2 => EBin f (subst a t e1) (subst a t e2)
  | ETup l => ETup (map (subst a t) l)
  end.

Definition leaf_expr (a : leaf) : expr := match a with LVar x => EVar x | LElem x i => EElem x i end.
Definition leaf_of (t : target) : option leaf :=
  match t with TVar x => Some (LVar x) | TElem x i => Some (LElem x i) | TTup _ => None end.

(* semantic.py 5126-5143: a target that is still needed is saved; the statements, the
   expression for this target, the others, the number of the next temporary *)
Definition save (k : nat) (t : target) (r : expr) (rs : list expr) : nat * list stmt * expr * list expr :=
  match leaf_of t with
  | Some a =>
    if mem_leaf a (flat_map leaves rs)
    then (S k, [SVar (VTemp k) (leaf_expr a)], subst a (VTemp k) r, map (subst a (VTemp k)) rs)
    else (k, [], r, rs)
  | None => (k, [], r, rs)
  end.

(* semantic.py 5068-5155; None: an error, or an assignment that is not modelled *)
Fixpoint visit (k : nat) (t : target) (e : expr) {struct t} : option (nat * list stmt) :=
  match t with
  | TVar x => match e with ETup _ => None | _ => Some (k, [SVar x e]) end
  | TElem x i => match e with ETup _ => None | _ => Some (k, [SElem x i e]) end
  | TTup ts =>
    match e with
    | ETup rs =>
      if accepted ts rs then
        (fix loop (k : nat) (ts : list target) (rs : list expr) {struct ts} : option (nat * list stmt) :=
           match ts, rs with
           | [], _ => Some (k, [])
           | _ :: _, [] => None
           | t1 :: ts', r :: rs' =>
             let '(k1, pre, r1, rs1) := save k t1 r rs' in
             match visit k1 t1 r1 with
             | None => None
             | Some (k2, l1) =>
               match loop k2 ts' rs1 with
               | None => None
               | Some (k3, l2) => Some (k3, pre ++ l1 ++ l2)
               end
             end
           end) k ts rs
      else None
    | _ => None
    end
  end.
Definition unpack (ts : list target) (rs : list expr) : option (list stmt) := option_map snd (visit 0 (TTup ts) (ETup rs)).

(* semantic.py 5144-5155: x = (e0, e1, ...) where x is a tuple *)
Definition rebind (x : var) (rs : list expr) : list stmt :=
  map (fun p => SElem x (ILit (Z.of_nat (fst p))) (snd p)) (combine (seq 0 (List.length rs)) rs).

(* ------------------------- execution of the statements ------------------------- *)

Record state := mk_state { scalar : var -> Z; array : var -> Z -> Z }.
Definition set_scalar (s : state) (x : var) (z : Z) : state :=
  mk_state (fun y => if var_eqb y x then z else scalar s y) (array s).
Definition set_elem (s : state) (x : var) (i z : Z) : state :=
  mk_state (scalar s) (fun y j => if var_eqb y x && Z.eqb j i then z else array s y j).

Fixpoint ival (s : state) (i : idx) : Z :=
  match i with
  | ILit z => z
  | IVar x => scalar s x
  | IOp f a b => f (ival s a) (ival s b)
  end.
Fixpoint eval (s : state) (e : expr) : Z :=
  match e with
  | ELit z => z
  | EVar x => scalar s x
  | EElem x i => array s x (ival s i)
  | EUn f e1 => f (eval s e1)
  | EBin f e1 e2 => f (eval s e1) (eval s e2)
  | ETup _ => 0%Z
  end.
Definition exec1 (s : state) (c : stmt) : state :=
  match c with
  | SVar x e => set_scalar s x (eval s e)
  | SElem x i e => set_elem s x (ival s i) (eval s e)
  end.
Definition exec (l : list stmt) (s : state) : state := fold_left exec1 l s.
