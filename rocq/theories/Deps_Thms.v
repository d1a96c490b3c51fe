(* C92: the files of a program and their imports. *)
From Coq Require Import Bool ZArith List Arith Lia.
From Verif Require Import Deps_Model Deps_Spec Deps_Proofs.
Import ListNotations.
Open Scope list_scope.
Open Scope nat_scope.

(* ------------------------------ the meaning of imports ------------------------------ *)

(* Relative imports are those of Python. *)
Theorem C92_relative : forall w root f k parts g,
  resolve w f (S k, parts) = Some g <-> python_import root f (S k, parts) = Some g /\ parts <> [] /\ is_file w g = true.
Proof. exact relative. Qed.
Print Assumptions C92_relative.
(* Absolute imports are those of Python in the folder in which Python was started. *)
Theorem C92_absolute_partial : forall w f parts, parts <> [] -> is_file w (removelast f ++ parts) = true ->
  resolve w f (0, parts) = python_import (removelast f) f (0, parts).
Proof. exact absolute. Qed.
Print Assumptions C92_absolute_partial.
(* In all other folders import a means another file. *)
Theorem C92_absolute_refuted : forall w root f a, removelast f <> root -> resolve w f (0, [a]) <> python_import root f (0, [a]).
Proof. exact absolute_below. Qed.
Print Assumptions C92_absolute_refuted.

(* The files: 0 main.py, 1 utils.py, 2 a package with 3 solver.py and 1 utils.py. Everything has a stub that is newer.
   main: import utils; from pkg.solver import f. solver: from .utils import h *)
Definition ex_world : world :=
  mk_world (fun f => match f with [0] => [(0, [1]); (0, [2; 3])] | [2; 3] => [(1, [1])] | _ => [] end)
    (fun f => match f with [2; 3] => [(1, [1])] | _ => [] end)
    (fun f => mem f [[0]; [1]; [2; 3]; [2; 1]]) (fun _ => None) (fun _ => Some 1%Z) (fun _ => 0%Z).
Example relative_used : resolve ex_world [2; 3] (1, [1]) = Some [2; 1].
Proof. reflexivity. Qed.
Example absolute_used : resolve ex_world [0] (0, [2; 3]) = Some [2; 3] /\ is_file ex_world (removelast [0] ++ [2; 3]) = true.
Proof. split; reflexivity. Qed.
Example absolute_wrong : removelast [2; 3] <> [] /\ resolve ex_world [2; 3] (0, [1]) = Some [2; 1] /\ python_import [] [2; 3] (0, [1]) = Some [1].
Proof. split; [discriminate|split; reflexivity]. Qed.

(* ------------------------------ pyccel file ------------------------------ *)

(* The parsers of all files are found in finite time exactly if all imports are found, have been translated since they were changed, and no
   file imports itself through others. *)
Theorem C92_loads : forall w f, (exists n d p, pyccel n w f = Done d p) <->
  imports_found w [] f (src w f) /\ forall g, below w [] f (src w f) g -> sound w [] g.
Proof. exact pyccel_iff. Qed.
Print Assumptions C92_loads.
(* Each file below is read once, after those it imports; no other file is read. *)
Theorem C92_once : forall w n f d p, pyccel n w f = Done d p ->
  NoDup (map fst d) /\ in_order w [] (map fst d) /\ forall g, In g (map fst d) <-> below w [] f (src w f) g.
Proof. exact pyccel_once. Qed.
Print Assumptions C92_once.
(* A stub that is older than its file is never used. *)
Theorem C92_fresh : forall w n f d p, pyccel n w f = Done d p ->
  forall g, below w [] f (src w f) g -> exists t, stub_time w g = Some t /\ (py_time w g <= t)%Z.
Proof. exact pyccel_fresh. Qed.
Print Assumptions C92_fresh.
(* Each file is annotated once, after those it imports. *)
Theorem C92_annotated : forall w n f d p, pyccel n w f = Done d p ->
  exists N, forall m, N <= m -> exists st, annotate_sons m d (p_sons p) [] = Some st /\ NoDup st /\ in_order w [] st /\
    forall g, In g st <-> below w [] f (src w f) g.
Proof. exact pyccel_annotate. Qed.
Print Assumptions C92_annotated.
(* The names in import statements mean the files they should, if no file below uses the same name for another file. *)
Theorem C92_names_partial : forall w n f d p, pyccel n w f = Done d p -> same_meaning w [] f (src w f) ->
  forall m, In m (src w f) -> lookup (p_names p) m = resolve w f m.
Proof. exact pyccel_names. Qed.
Print Assumptions C92_names_partial.

Example loads_used : exists d p, pyccel 3 ex_world [0] = Done d p /\ map fst d = [[1]; [2; 1]; [2; 3]] /\
  lookup (p_names p) (0, [1]) = Some [1] /\ annotate_sons 3 d (p_sons p) [] = Some [[1]; [2; 1]; [2; 3]].
Proof. eexists _, _. split; [vm_compute; reflexivity|]. split; [reflexivity|]. split; vm_compute; reflexivity. Qed.
Example names_used : same_meaning ex_world [] [0] (src ex_world [0]).
Proof.
  intros n g Hn [m [h [Hm [Rm R]]]] Hg. exfalso.
  assert (X : forall x, edge ex_world [] [1] x -> False) by (intros x [k [[] _]]).
  assert (Y : forall x, edge ex_world [] [2; 1] x -> False) by (intros x [k [[] _]]).
  assert (Z : forall x, edge ex_world [] [2; 3] x -> x = [2; 1]) by (intros x [k [[<-|[]] E]]; vm_compute in E; congruence).
  assert (C : g = [1] \/ g = [2; 3] \/ g = [2; 1]).
  { cbn in Hm. destruct Hm as [<-|[<-|[]]]; vm_compute in Rm; injection Rm as <-; (destruct R as [<-|R]; [tauto|]); inversion R as [x y E|x y z E R']; subst.
    - destruct (X _ E).
    - destruct (X _ E).
    - right. right. exact (Z _ E).
    - apply Z in E. subst y. inversion R' as [x y E'|x y z' E' R'']; subst; destruct (Y _ E'). }
  destruct C as [->|[->| ->]]; cbn in Hn, Hg; intuition congruence.
Qed.

(* A program in which a file imports itself through others is never translated. *)
Theorem C92_cycle_refuted : forall w n f g d p, below w [] f (src w f) g -> reach w [] g g -> pyccel n w f <> Done d p.
Proof. exact pyccel_cycle. Qed.
Print Assumptions C92_cycle_refuted.
(* a.py: from b import g, in a function; b.py: from a import f *)
Definition cyclic : world :=
  let i := fun f => match f with [0] => [(0, [1])] | [1] => [(0, [0])] | _ => [] end in
  mk_world i i (fun f => mem f [[0]; [1]]) (fun _ => None) (fun _ => Some 1%Z) (fun _ => 0%Z).
Example cycle_used : below cyclic [] [0] (src cyclic [0]) [1] /\ reach cyclic [] [1] [1] /\ pyccel 100 cyclic [0] = Deep.
Proof.
  split; [exists (0, [1]), [1]; cbn; tauto|]. split; [|vm_compute; reflexivity].
  apply r_more with [0]; [exists (0, [0])|apply r_one; exists (0, [1])]; cbn; tauto.
Qed.
(* A name that the last import uses for another file gets that meaning: the import of this file is taken from the wrong file. *)
Theorem C92_names_refuted : forall w n f d p pre b y a, pyccel n w f = Done d p -> src w f = pre ++ [b] -> resolve w f b = Some y ->
  In a (stub w y) -> same_meaning w [] y (stub w y) -> lookup (p_names p) a = resolve w y a.
Proof. exact last_decides. Qed.
Print Assumptions C92_names_refuted.
(* a.py: from .utils import f; from .sub.b import g. sub/b.py: from .utils import h *)
Definition clash : world :=
  let i := fun f => match f with [0] => [(1, [1]); (1, [2; 3])] | [2; 3] => [(1, [1])] | _ => [] end in
  mk_world i i (fun f => mem f [[0]; [1]; [2; 3]; [2; 1]]) (fun _ => None) (fun _ => Some 1%Z) (fun _ => 0%Z).
Example names_wrong : exists d p, pyccel 3 clash [0] = Done d p /\ resolve clash [0] (1, [1]) = Some [1] /\ lookup (p_names p) (1, [1]) = Some [2; 1].
Proof. eexists _, _. split; [vm_compute; reflexivity|]. split; vm_compute; reflexivity. Qed.

(* ------------------------------ pyccel make files ------------------------------ *)

(* All files are read exactly if their imports are among the files or have stubs, and no file imports itself through others. *)
Theorem C92_make_loads : forall w files, (exists n r, make n w files = Some r) <-> forall f, In f files -> sound w files f.
Proof. exact make_iff. Qed.
Print Assumptions C92_make_loads.
Theorem C92_make_names_partial : forall w files n d ps f p, make n w files = Some (d, ps) -> In (f, p) ps -> same_meaning w files f (src w f) ->
  map fst ps = files /\ forall m, In m (src w f) -> lookup (p_names p) m = resolve w f m.
Proof. exact make_names. Qed.
Print Assumptions C92_make_names_partial.
Theorem C92_make_annotated : forall w files n d ps, make n w files = Some (d, ps) ->
  exists N, forall m, N <= m -> exists st, annotate_all m d ps [] = Some st /\ NoDup st /\ in_order w files st /\
    forall g, In g st <-> exists f, In f files /\ below w files f (src w f) g.
Proof. exact make_annotate. Qed.
Print Assumptions C92_make_annotated.
Example make_used : exists d ps, make 3 ex_world [[0]; [1]; [2; 3]; [2; 1]] = Some (d, ps) /\ map fst d = [[2; 1]; [1]; [2; 3]] /\ map fst ps = [[0]; [1]; [2; 3]; [2; 1]] /\
  annotate_all 3 d ps [] = Some [[1]; [2; 1]; [2; 3]].
Proof. eexists _, _. split; [vm_compute; reflexivity|]. split; [reflexivity|]. split; [reflexivity|]. vm_compute. reflexivity. Qed.
