(* What Python does with objects, and the classes and functions for which the generated code does the
   same. Independent of the model of pyccel apart from the syntax of the programs. *)
From Coq Require Import Bool Arith ZArith List String.
From Verif Require Import Alloc_Model Obj_Model.
Import ListNotations.
Open Scope Z_scope.
Open Scope list_scope.

(* an object in Python: the attributes that exist, as a shape and the elements *)
Definition pobj : Type := nat -> option (list Z * Z).
Definition blank : pobj := fun _ => None.
Definition value_of (args : list Z) (d : size) : Z := match d with Lit n => n | Arg i => nth i args 0 end.

(* None: an exception *)
Fixpoint py_m (args : list Z) (s : mstmt) (o : pobj * out) : option (pobj * out) :=
  let fix py_ms (b : list mstmt) (o : pobj * out) : option (pobj * out) := match b with [] => Some o | s :: b' => obind (py_m args s o) (py_ms b') end in
  match s with
  | MNew x ds f => Some (upd (fst o) x (Some (map (value_of args) ds, f args)), snd o)
  | MUpdate x f => match fst o x with Some (sh, v) => Some (upd (fst o) x (Some (sh, f args v)), snd o) | None => None end
  | MPrint x => match fst o x with Some c => Some (fst o, snd o ++ [c]) | None => None end
  | MIf c a b => if c args then py_ms a o else py_ms b o
  end.
Definition py_ms (args : list Z) : list mstmt -> pobj * out -> option (pobj * out) :=
  fix py_ms (b : list mstmt) (o : pobj * out) : option (pobj * out) := match b with [] => Some o | s :: b' => obind (py_m args s o) (py_ms b') end.

Definition pst : Type := (nat -> option pobj) * out.
(* the destructor of an object that is not used any more *)
Definition py_del (k : class) (old : option pobj) (t : out) : option out :=
  match old with None => Some t | Some o => option_map snd (py_ms [] (k_del k) (o, t)) end.
Fixpoint py_o (k : class) (inp : list Z) (s : ostmt) (h : pst) : option pst :=
  let fix py_os (p : list ostmt) (h : pst) : option pst := match p with [] => Some h | s :: p' => obind (py_o k inp s h) (py_os p') end in
  match s with
  | OCreate a args =>
    (* the new object is made before the old one goes *)
    obind (py_ms (args inp) (m_body (k_init k)) (blank, snd h)) (fun r =>
    obind (py_del k (fst h a) (snd r)) (fun t =>
    Some (upd (fst h) a (Some (fst r)), t)))
  | OCall a m args =>
    match fst h a, nth_error (k_methods k) m with
    | Some o, Some me => obind (py_ms (args inp) (m_body me) (o, snd h)) (fun r => Some (upd (fst h) a (Some (fst r)), snd r))
    | _, _ => None
    end
  | OIf c p q => if c inp then py_os p h else py_os q h
  | OLoop n p => iter_o n (py_os p) h
  end.
Definition py_os (k : class) (inp : list Z) : list ostmt -> pst -> option pst :=
  fix py_os (p : list ostmt) (h : pst) : option pst := match p with [] => Some h | s :: p' => obind (py_o k inp s h) (py_os p') end.

(* the variables that hold objects, in the order of the text *)
Fixpoint creates (s : ostmt) : list nat :=
  match s with
  | OCreate a _ => [a]
  | OCall _ _ _ => []
  | OIf _ p q => flat_map creates p ++ flat_map creates q
  | OLoop _ p => flat_map creates p
  end.
Definition add_name (l : list nat) (a : nat) : list nat := if existsb (Nat.eqb a) l then l else l ++ [a].
Definition names (p : list ostmt) : list nat := fold_left add_name (flat_map creates p) [].
(* what is printed by a call of the function: at the end the objects go in the order of the variables *)
Fixpoint py_dels (k : class) (l : list nat) (h : pst) : option out :=
  match l with [] => Some (snd h) | a :: l' => obind (py_del k (fst h a) (snd h)) (fun t => py_dels k l' (fst h, t)) end.
Definition py_function (k : class) (p : list ostmt) (inp : list Z) : option out :=
  obind (py_os k inp p (fun _ => None, [])) (fun h => py_dels k (names p) h).

(* ------------------------------ the classes with settled attributes ------------------------------ *)

(* the constructor first makes the attributes, each once *)
Definition maker : Type := nat * list size * (list Z -> Z).
Definition make (m : maker) : mstmt := MNew (fst (fst m)) (snd (fst m)) (snd m).
Definition maker_name (m : maker) : nat := fst (fst m).
Definition maker_of (ms : list maker) (x : nat) : option (list size) :=
  option_map (fun m => snd (fst m)) (find (fun m => Nat.eqb (maker_name m) x) ms).
Definition is_lit (d : size) : bool := match d with Lit _ => true | Arg _ => false end.
(* all other code uses these attributes, and assigns only arrays of the same literal shape to them *)
Fixpoint settled_stmt (ms : list maker) (s : mstmt) : Prop :=
  let fix all (b : list mstmt) : Prop := match b with [] => True | s :: b' => settled_stmt ms s /\ all b' end in
  match s with
  | MNew x ds _ => maker_of ms x = Some ds /\ forallb is_lit ds = true
  | MUpdate x _ | MPrint x => maker_of ms x <> None
  | MIf _ a b => all a /\ all b
  end.
Definition settled_code (ms : list maker) : list mstmt -> Prop :=
  fix all (b : list mstmt) : Prop := match b with [] => True | s :: b' => settled_stmt ms s /\ all b' end.
Definition settled (l : lang) (ms : list maker) (k : class) : Prop :=
  NoDup (map maker_name ms) /\
  (exists rest, m_body (k_init k) = map make ms ++ rest /\ settled_code ms rest) /\
  (m_end (k_init k) = NoReturn \/ (m_end (k_init k) = ReturnNone /\ l = LC)) /\
  Forall (fun m => settled_code ms (m_body m)) (k_methods k) /\
  settled_code ms (k_del k).

(* the destructor prints nothing *)
Fixpoint silent (s : mstmt) : bool :=
  match s with
  | MNew _ _ _ | MUpdate _ _ => true
  | MPrint _ => false
  | MIf _ a b => forallb silent a && forallb silent b
  end.

(* every object is created by a statement of the function that is not in a branch or loop before it is
   used; "again" tells whether it may be replaced by another *)
Fixpoint placed_in (again : bool) (seen : list nat) (s : ostmt) : bool :=
  match s with
  | OCreate a _ => again && existsb (Nat.eqb a) seen
  | OCall a _ _ => existsb (Nat.eqb a) seen
  | OIf _ p q => forallb (placed_in again seen) p && forallb (placed_in again seen) q
  | OLoop _ p => forallb (placed_in again seen) p
  end.
Fixpoint placed (again : bool) (seen : list nat) (p : list ostmt) : bool :=
  match p with
  | [] => true
  | OCreate a args :: p' =>
    if existsb (Nat.eqb a) seen then again && placed again seen p' else placed again (seen ++ [a]) p'
  | s :: p' => placed_in again seen s && placed again seen p'
  end.

(* def __init__(self, v): self.x = np.full(1, v)
   def __del__(self): print(self.x) *)
Definition first_arg (args : list Z) : Z := nth 0 args 0.
Definition telling : class := mk_class (mk_method [MNew 0 [Lit 1] first_arg] NoReturn) [] [MPrint 0].
