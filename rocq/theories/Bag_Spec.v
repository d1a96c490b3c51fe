(** Lists and sets in Python. *)

From Coq Require Import List Bool Arith ZArith Sorted.
From Verif Require Import Bag_Model.
Import ListNotations.

(** The variables which have been assigned, and their values.  A set is the sorted
    list of its elements. *)
Definition env := nat -> option (list Z).

Definition set_of (l r : list Z) : Prop := StronglySorted Z.lt r /\ forall z, In z r <-> In z l.

(** Sorting without the duplicates. *)
Fixpoint norm (l : list Z) : list Z :=
  match l with
  | [] => []
  | z :: r => filter (fun y => Z.ltb y z) (norm r) ++ z :: filter (fun y => Z.ltb z y) (norm r)
  end.

Definition value (k : kind) (l : list Z) : list Z := match k with KList => l | KSet => norm l end.

Definition is_in (z : Z) (l : list Z) : bool := if in_dec Z.eq_dec z l then true else false.

Definition eval (s : env) (e : elem) : option Z :=
  match e with
  | EInt z => Some z
  | ELen v => option_map (fun l => Z.of_nat (length l)) (s v)
  | EAt v i => match s v with Some l => nth_error l i | None => None end
  end.

Fixpoint all {A B} (f : A -> option B) (l : list A) : option (list B) :=
  match l with
  | [] => Some []
  | x :: r => match f x, all f r with Some y, Some ys => Some (y :: ys) | _, _ => None end
  end.

Definition elements (s : env) (it : iter) : option (list Z) :=
  match it with
  | IVar v => s v
  | ILit k l => option_map (value k) (all (eval s) l)
  end.

Definition assign (s : env) (x : nat) (l : list Z) : env := fun v => if v =? x then Some l else s v.

(** The arguments are evaluated, then the value is computed, then it is assigned.
    None: an error in Python. *)
Definition py (K : nat -> kind) (st : stmt) (s : env) : option env :=
  match st with
  | SLit x l => option_map (fun zs => assign s x (value (K x) zs)) (all (eval s) l)
  | SCopy x y => option_map (assign s x) (s y)
  | SCall x args f => option_map (fun ls => assign s x (value (K x) (f ls))) (all s args)
  | SComp x y f c => option_map (fun l => assign s x (map f (filter c l))) (s y)
  | SUnion x y its =>
      match s y, all (elements s) its with
      | Some l, Some ls => Some (assign s x (norm (l ++ concat ls)))
      | _, _ => None
      end
  | SInter x i its =>
      match elements s i, all (elements s) its with
      | Some l, Some ls => Some (assign s x (filter (fun z => forallb (is_in z) ls) l))
      | _, _ => None
      end
  | SDiff x i its =>
      match elements s i, all (elements s) its with
      | Some l, Some ls => Some (assign s x (filter (fun z => negb (is_in z (concat ls))) l))
      | _, _ => None
      end
  | SSetOf x it => option_map (fun l => assign s x (norm l)) (elements s it)
  | SAdd x e =>
      match s x, eval s e with
      | Some l, Some z => Some (assign s x (value (K x) (l ++ [z])))
      | _, _ => None
      end
  | SExtend x its =>
      match s x, all (elements s) its with
      | Some l, Some ls => Some (assign s x (value (K x) (l ++ concat ls)))
      | _, _ => None
      end
  | SInterU x its =>
      match s x, all (elements s) its with
      | Some l, Some ls => Some (assign s x (filter (fun z => forallb (is_in z) ls) l))
      | _, _ => None
      end
  | SDiffU x its =>
      match s x, all (elements s) its with
      | Some l, Some ls => Some (assign s x (filter (fun z => negb (is_in z (concat ls))) l))
      | _, _ => None
      end
  end.

Definition then_ {A} (r : option A) (f : A -> option A) : option A := match r with Some a => f a | None => None end.

Fixpoint py_all (K : nat -> kind) (p : list stmt) (s : env) : option env :=
  match p with
  | [] => Some s
  | st :: r => then_ (py K st s) (py_all K r)
  end.

Fixpoint py_times (n : nat) (K : nat -> kind) (p : list stmt) (s : env) : option env :=
  match n with
  | 0 => Some s
  | S n' => then_ (py_all K p s) (py_times n' K p)
  end.

Fixpoint py_run (K : nat -> kind) (p : list item) (s : env) : option env :=
  match p with
  | [] => Some s
  | One st :: r => then_ (py K st s) (py_run K r)
  | Repeat n b :: r => then_ (py_times n K b s) (py_run K r)
  end.

Definition nothing : env := fun _ => None.

(** The types. *)
Definition typed (K : nat -> kind) (st : stmt) : Prop :=
  match st with
  | SLit _ _ | SCall _ _ _ | SAdd _ _ => True
  | SCopy x y => K x = KSet /\ K y = KSet
  | SComp x y _ _ => K x = KList /\ K y = KList
  | SUnion x y _ => K x = KSet /\ K y = KSet
  | SInter x i its | SDiff x i its =>
      K x = KSet /\ is_set K i = true /\ forall it, In it its -> is_set K it = true
  | SSetOf x _ => K x = KSet
  | SExtend x its =>
      K x = KList -> length its = 1 /\ forall it, In it its -> is_set K it = false
  | SInterU x its | SDiffU x its => K x = KSet /\ forall it, In it its -> is_set K it = true
  end.

(** The variable is used by the expression. *)
Definition in_elem (x : nat) (e : elem) : Prop :=
  match e with EInt _ => False | ELen v => v = x | EAt v _ => v = x end.
Definition in_elems (x : nat) (l : list elem) : Prop := exists e, In e l /\ in_elem x e.
Definition in_iter (x : nat) (it : iter) : Prop :=
  match it with IVar v => v = x | ILit _ l => in_elems x l end.
Definition in_literal (x : nat) (it : iter) : Prop :=
  match it with IVar v => False | ILit _ l => in_elems x l end.

(** x is assigned by one of the statements. *)
Definition assigned (x : nat) (p : list stmt) : Prop := exists s, In s p /\ target s = Some x.

(** The statements for which Python and the generated code agree: earlier are the
    statements before this one, loop tells if it is in a loop. *)
Definition safe_c (earlier : list stmt) (st : stmt) : Prop :=
  match st with
  | SLit x l => ~ in_elems x l
  | SCopy x y => x <> y
  | SCall x args _ => ~ In x args
  | SComp x y _ c => x = y -> assigned x earlier /\ forall z, c z = true
  | SUnion x y its => x <> y /\ forall it, In it its -> ~ in_iter x it
  | SInter x i its | SDiff x i its => ~ in_iter x i /\ forall it, In it its -> ~ in_iter x it
  | SSetOf x it => ~ in_iter x it
  | SAdd _ _ | SInterU _ _ | SDiffU _ _ => True
  | SExtend x its => forall it, In it its -> ~ in_iter x it
  end.

Definition safe_fortran (K : nat -> kind) (earlier : list stmt) (loop : bool) (st : stmt) : Prop :=
  match st with
  | SLit _ _ | SCopy _ _ | SAdd _ _ => True
  | SCall x args _ => K x = KList -> ~ In x args
  | SComp x y _ c => x = y -> assigned x earlier /\ forall z, c z = true
  | SUnion x _ its =>
      forall it, In it its -> it <> IVar x /\ ((exists a, In a its /\ is_set K a = false) -> ~ in_iter x it)
  | SInter x _ its | SDiff x _ its => forall it, In it its -> ~ in_iter x it
  | SSetOf x it =>
      match it with
      | IVar v => K v = KList -> loop = false /\ ~ assigned x earlier
      | ILit _ _ => True
      end
  | SExtend x its | SInterU x its | SDiffU x its => forall it, In it its -> ~ in_literal x it
  end.

Fixpoint each_stmt (P : list stmt -> stmt -> Prop) (earlier : list stmt) (p : list stmt) : Prop :=
  match p with
  | [] => True
  | s :: r => P earlier s /\ each_stmt P (earlier ++ [s]) r
  end.

Fixpoint each (P : list stmt -> bool -> stmt -> Prop) (earlier : list stmt) (p : list item) : Prop :=
  match p with
  | [] => True
  | One s :: r => P earlier false s /\ each P (earlier ++ [s]) r
  | Repeat _ b :: r => each_stmt (fun e s => P e true s) earlier b /\ each P (earlier ++ b) r
  end.

(** The copies of sets which are made. *)
Definition copies (K : nat -> kind) (st : stmt) : nat :=
  match st with
  | SCopy _ _ => 1
  | SUnion _ _ its => if forallb (is_set K) its then 0 else 1
  | SInter _ (IVar _) _ | SDiff _ (IVar _) _ => 1
  | SSetOf _ (IVar v) => match K v with KSet => 1 | KList => 0 end
  | _ => 0
  end.

Definition copies_all (K : nat -> kind) (p : list stmt) : nat := list_sum (map (copies K) p).

Fixpoint copies_run (K : nat -> kind) (p : list item) : nat :=
  match p with
  | [] => 0
  | One s :: r => copies K s + copies_run K r
  | Repeat n b :: r => n * copies_all K b + copies_run K r
  end.

(** The memory shows the values of the variables. *)
Definition shows (st : state) (s : env) : Prop :=
  forall v l, s v = Some l -> exists o, cells st v = Live o l.

(** The statements generated for an assignment to a variable which has been assigned before. *)
Definition again (L : lang) (K : nat -> kind) (s : stmt) (st : state) : option state :=
  exec_all L K (compile K true true s) st.

(** It does not use memory which has been released, and x has the value l after it. *)
Definition gives (r : option state) (x : nat) (l : list Z) : Prop :=
  exists st o, r = Some st /\ cells st x = Live o l.
