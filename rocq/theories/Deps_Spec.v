(* The imports of Python, and the order in which files can be analysed. *)
From Coq Require Import Bool ZArith List Arith.
From Verif Require Import Deps_Model.
Import ListNotations.
Open Scope list_scope.
Open Scope nat_scope.

(* The file that Python imports, if the program is started in the folder root and all modules are .py files below: relative imports start at
   the folder of the file, absolute ones at root *)
Definition python_import (root : list nat) (f : file) (n : name) : option file :=
  match n with
  | (0, parts) => Some (root ++ parts)
  | (S k, parts) => if k <=? length (removelast f) then Some (firstn (length (removelast f) - k) (removelast f) ++ parts) else None
  end.

(* f imports g *)
Definition edge (w : world) (files : list file) (f g : file) : Prop := exists n, In n (imports w files f) /\ resolve w f n = Some g.
(* f imports g, directly or through other files *)
Inductive reach (w : world) (files : list file) : file -> file -> Prop :=
| r_one f g : edge w files f g -> reach w files f g
| r_more f g h : edge w files f g -> reach w files g h -> reach w files f h.
(* all imports are found, and those that are not in files have been translated since they were changed *)
Definition usable (w : world) (files : list file) (g : file) : Prop :=
  In g files \/ exists t, stub_time w g = Some t /\ (py_time w g <= t)%Z.
Definition imports_found (w : world) (files : list file) (f : file) (imps : list name) : Prop :=
  forall n, In n imps -> exists g, resolve w f n = Some g /\ usable w files g.
(* g does not import itself, directly or through other files, and all imports are found *)
Definition sound (w : world) (files : list file) (g : file) : Prop :=
  Acc (fun b a => edge w files a b) g /\ imports_found w files g (imports w files g) /\
  forall h, reach w files g h -> imports_found w files h (imports w files h).
(* the files below a file with the imports imps *)
Definition below (w : world) (files : list file) (f : file) (imps : list name) (g : file) : Prop :=
  exists n h, In n imps /\ resolve w f n = Some h /\ (h = g \/ reach w files h g).
(* each file comes after those it imports *)
Definition in_order (w : world) (files : list file) (l : list file) : Prop :=
  forall l1 g l2, l = l1 ++ g :: l2 -> forall h, edge w files g h -> In h l1.
(* an import in one of the files below means the same file as in f *)
Definition same_meaning (w : world) (files : list file) (f : file) (imps : list name) : Prop :=
  forall n g, In n imps -> below w files f imps g -> In n (imports w files g) -> resolve w g n = resolve w f n.
