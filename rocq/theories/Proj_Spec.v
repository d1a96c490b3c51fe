(* What C39 and C54 say, in terms of files, folders and imports. *)
From Coq Require Import Bool String Ascii Arith Relations Permutation List.
From Verif Require Import Proj_Model.
Import ListNotations.
Open Scope list_scope.

(* q lies in the folder p, at any depth *)
Definition inside (p q : path) : Prop := exists r, r <> [] /\ q = p ++ r.

(* A project on a file system: the files are different, a file is not a folder,
   and imports are imports of files of the project. *)
Definition valid (ts : list target) : Prop :=
  NoDup (map t_file ts)
  /\ (forall t, In t ts -> t_file t <> [])
  /\ (forall t t', In t ts -> In t' ts -> ~ inside (t_file t) (t_file t'))
  /\ (forall t c, In t ts -> In c (t_deps t) -> exists t', In t' ts /\ t_file t' = c).

(* Among the files and sub-folders of the folder F: x needs y because the file t
   in (or equal to) x imports the file c in (or equal to) y. *)
Definition needs (ts : list target) (F x y : path) : Prop :=
  exists t c u v, In t ts /\ In c (t_deps t)
    /\ x = F ++ [u] /\ y = F ++ [v]
    /\ (t_file t = x \/ inside x (t_file t)) /\ (c = y \/ inside y c)
    /\ (x <> y \/ t_file t = x).

Definition cyclic (ts : list target) (F : path) : Prop := exists x, clos_trans path (needs ts F) x x.

(* A walk along the relation R that comes back to a place. *)
Inductive walk (R : path -> path -> Prop) : list path -> Prop :=
| walk_one x : walk R [x]
| walk_cons x y l : R x y -> walk R (y :: l) -> walk R (x :: y :: l).
Definition shows_cycle (R : path -> path -> Prop) (l : list path) : Prop :=
  walk R l /\ exists l1 x l2, l = l1 ++ x :: l2 ++ [x].

(* c is declared before t. *)
Definition before (c t : path) (l : list path) : Prop :=
  exists l1 l2 l3, l = l1 ++ c :: l2 ++ t :: l3.

(* The iteration order of a set. *)
Definition set_order (order : list path -> list path) : Prop := forall l x, In x (order l) <-> In x l.

(* The imports between files, folders aside. *)
Definition imports (ts : list target) (x y : path) : Prop :=
  exists t, In t ts /\ t_file t = x /\ In y (t_deps t).

(* ---- names ---- *)

(* A component that cannot be confused with the separator. *)
Fixpoint no_double (s : string) : Prop :=
  match s with
  | EmptyString => True
  | String c s' => (match s' with String d _ => ~ (c = "_"%char /\ d = "_"%char) | EmptyString => True end) /\ no_double s'
  end.
Definition plain (s : string) : Prop :=
  match s with
  | EmptyString => False
  | String c _ => c <> "_"%char /\ no_double s
  end.
