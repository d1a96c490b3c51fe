(* The meaning of targets = f(args) in Python, and conditions on the statement. *)
From stdpp Require Import gmap.
From Coq Require Import ZArith List.
From Verif Require Import Reuse_Model.

(* The function runs with its own variables; it fails where a variable has no value, or not the type it has
   in the translated function. *)
Definition py_step (ts : list target) (vs : list value) (ls : locals) (s : step) : option locals :=
  match all_some (map ls (rds s)), ts !! dst s with
  | Some rs, Some t => if Bool.eqb (num_target t) (is_num (fn s vs rs)) then Some (set ls (dst s) (fn s vs rs)) else None
  | _, _ => None
  end.
Fixpoint py_body (ts : list target) (vs : list value) (ls : locals) (b : list step) : option locals :=
  match b with
  | [] => Some ls
  | s :: b' => match py_step ts vs ls s with Some ls' => py_body ts vs ls' b' | None => None end
  end.
(* Then the targets are assigned from left to right. *)
Fixpoint py_assign (e : env) (ts : list target) (rs : list value) : option env :=
  match ts, rs with
  | [], [] => Some e
  | t :: ts', r :: rs' => match store e t r with Some e' => py_assign e' ts' rs' | None => None end
  | _, _ => None
  end.
Definition py (e : env) (s : stmt) : option env :=
  match all_some (map (get_arg e) (args s)) with
  | None => None
  | Some vs =>
      match py_body (targets s) vs (fun _ => None) (body s) with
      | None => None
      | Some ls =>
          match all_some (map ls (seq 0 (length (targets s)))) with
          | Some rs => py_assign e (targets s) rs
          | None => None
          end
      end
  end.

(* The variables in an argument. *)
Definition vars (a : arg) : list nat :=
  match a with AVar x _ | ACont x | ASlice x _ | AElem x _ => [x] | AExp xs _ => xs end.

(* The statuses are right: what area Alloc is about. *)
Definition status_ok (st : nat -> status) (m : env) (t : target) : Prop :=
  match t with
  | TVar x k => k <> Scalar ->
      match st x with
      | Unallocated => m !! x = None
      | Allocated => m !! x <> None
      | Unknown => k = Lst -> m !! x <> None
      end
  | _ => True
  end.

(* Two targets are different places. *)
Definition apart (t t' : target) : Prop :=
  match t, t' with
  | TVar x _, TVar y _ | TVar x _, TElem y _ | TElem x _, TVar y _ => x <> y
  | TElem x i, TElem y j => x <> y \/ i <> j
  | _, _ => False
  end.
(* No memory of the argument is at the place of the target. *)
Definition away (a : arg) (t : target) : Prop :=
  match a, t with
  | ASlice x i, TElem y j => x <> y \/ j < i
  | _, TVar y _ | _, TElem y _ | _, TAll y => ~ In y (vars a)
  end.

(* No array or list that is assigned is in an argument. *)
Definition containers_new (s : stmt) : Prop :=
  forall x k, In (TVar x k) (targets s) -> k <> Scalar -> forall a, In a (args s) -> ~ In x (vars a).
(* An element x[i] that is assigned is not the argument x[i]. *)
Definition elements_new (s : stmt) : Prop := forall x i, In (TElem x i) (targets s) -> ~ In (AElem x i) (args s).
Definition one_target (s : stmt) : Prop := exists t, targets s = [t].
(* Several targets: they are apart from each other and from the arguments that
   are passed by reference; in Fortran optional arguments may be among the targets. *)
Definition separate (l : lang) (s : stmt) : Prop :=
  ForallOrdPairs apart (targets s) /\ (forall x, ~ In (TAll x) (targets s)) /\
  forall a t, In a (args s) -> In t (targets s) -> by_ref a = true ->
    away a t \/ l = Fortran /\ exists x, a = AVar x true /\ exists k, In (TVar x k) (targets s).

(* x, y = f(x)    def f(p : int = None): a = g0(p); b = g1(p); return a, b *)
Definition with_number (g : Z -> Z) (ps rs : list value) : value := match ps with VZ z :: _ => VZ (g z) | _ => VZ 0 end.
Definition optional_stmt (x y : nat) (g0 g1 : Z -> Z) : stmt :=
  {| targets := [TVar x Scalar; TVar y Scalar]; args := [AVar x true];
     body := [{| dst := 0; rds := []; fn := with_number g0 |}; {| dst := 1; rds := []; fn := with_number g1 |}] |}.
(* v[0], v[1] = f(v)    def f(p : 'int[:]'): a = g0(p); b = g1(p); return a, b *)
Definition with_list (g : list Z -> Z) (ps rs : list value) : value := match ps with VL l :: _ => VZ (g l) | _ => VZ 0 end.
Definition element_stmt (v : nat) (g0 g1 : list Z -> Z) : stmt :=
  {| targets := [TElem v 0; TElem v 1]; args := [ACont v];
     body := [{| dst := 0; rds := []; fn := with_list g0 |}; {| dst := 1; rds := []; fn := with_list g1 |}] |}.
(* x, x = f()    def f(): b = c1; a = c0; return a, b *)
Definition twice_stmt (x : nat) (c0 c1 : Z) : stmt :=
  {| targets := [TVar x Scalar; TVar x Scalar]; args := [];
     body := [{| dst := 1; rds := []; fn := fun _ _ => VZ c1 |}; {| dst := 0; rds := []; fn := fun _ _ => VZ c0 |}] |}.
