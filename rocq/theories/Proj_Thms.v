(* C39, C54: order and names of the targets of a build system. *)
From Coq Require Import Bool String Ascii Arith Lia Relations Permutation List.
From Verif Require Import Proj_Model Proj_Spec Proj_Proofs.
Import ListNotations.
Open Scope string_scope.
Open Scope list_scope.

(* main.py imports lib/core.py and lib/io/read.py; lib/io/read.py imports
   util/text.py; lib/core.py imports lib/io/read.py. *)
Definition example : list target :=
  [mk_target ["main.py"] [["lib"; "core.py"]; ["lib"; "io"; "read.py"]];
   mk_target ["lib"; "core.py"] [["lib"; "io"; "read.py"]];
   mk_target ["lib"; "io"; "read.py"] [["util"; "text.py"]];
   mk_target ["util"; "text.py"] []].

Fixpoint nodupb (l : list path) : bool := match l with [] => true | x :: l' => negb (mem x l') && nodupb l' end.

Lemma nodupb_NoDup l : nodupb l = true -> NoDup l.
Proof.
  induction l as [|x l IH]; cbn; [constructor|]. rewrite andb_true_iff, negb_true_iff. intros (A & B).
  constructor; [|exact (IH B)]. intros I. apply mem_spec in I. congruence.
Qed.

Definition validb (ts : list target) : bool :=
  let fs := map t_file ts in
  nodupb fs
  && forallb (fun f => negb (path_eqb f [])) fs
  && forallb (fun f => forallb (fun g => negb (under f g)) fs) fs
  && forallb (fun t => forallb (fun c => mem c fs) (t_deps t)) ts.

Lemma validb_valid ts : validb ts = true -> valid ts.
Proof.
  unfold validb. rewrite !andb_true_iff, !forallb_forall. intros (((A & B) & C) & D).
  apply nodupb_NoDup in A. split; [exact A|]. split; [|split].
  - intros t T E. specialize (B (t_file t) (in_map t_file _ _ T)). rewrite E in B. discriminate.
  - intros t t' T T'. specialize (C (t_file t) (in_map t_file _ _ T)). rewrite forallb_forall in C.
    specialize (C (t_file t') (in_map t_file _ _ T')). apply negb_true_iff, under_false in C. exact C.
  - intros t c T H. specialize (D t T). rewrite forallb_forall in D. specialize (D c H). apply mem_spec, in_map_iff in D.
    destruct D as (t' & E & I). eauto.
Qed.

(* Every file is declared once, and after the files it imports. *)
Theorem C39_dependencies_first : forall order ts i, set_order order -> valid ts -> project order ts = Tree i ->
  Permutation (emit i) (map t_file ts)
  /\ forall t c, In t ts -> In c (t_deps t) -> before c (t_file t) (emit i).
Proof. exact project_tree. Qed.
Print Assumptions C39_dependencies_first.

Example C39_first_ex : set_order (fun l => l) /\ set_order (@rev path) /\ valid example
  /\ exists i, project (fun l => l) example = Tree i
     /\ emit i = [["util"; "text.py"]; ["lib"; "io"; "read.py"]; ["lib"; "core.py"]; ["main.py"]].
Proof.
  split; [intros l x; reflexivity|]. split; [intros l x; symmetry; apply in_rev|].
  split; [apply validb_valid; vm_compute; reflexivity|].
  eexists. split; [vm_compute; reflexivity|]. vm_compute. reflexivity.
Qed.

(* The procedure ends, and it fails exactly if in some folder the files and
   sub-folders need one another in a circle. *)
Theorem C39_fails_iff_cyclic : forall order ts, set_order order -> valid ts ->
  (exists i, project order ts = Tree i) <-> forall F, ~ cyclic ts F.
Proof. exact project_iff. Qed.
Print Assumptions C39_fails_iff_cyclic.

(* When it fails it reports a circle that is there. *)
Theorem C39_reports_a_cycle : forall order ts, set_order order -> valid ts ->
  (forall i, project order ts <> Tree i) ->
  exists l F, project order ts = Cycle l /\ shows_cycle (needs ts F) l.
Proof. exact project_cycle. Qed.
Print Assumptions C39_reports_a_cycle.

Definition circle : list target :=
  [mk_target ["main.py"] [["a"; "x.py"]];
   mk_target ["a"; "x.py"] [["b"; "y.py"]];
   mk_target ["b"; "y.py"] [["a"; "x.py"]]].

Example C39_cycle_ex : valid circle /\ project (fun l => l) circle = Cycle [["main.py"]; ["a"]; ["b"]; ["a"]].
Proof. split; [apply validb_valid; vm_compute; reflexivity|vm_compute; reflexivity]. Qed.

(* Without sub-folders: it fails exactly if the imports are circular. *)
Theorem C39_single_folder : forall order ts, set_order order -> valid ts ->
  (forall t, In t ts -> length (t_file t) = 1) ->
  (exists i, project order ts = Tree i) <-> ~ exists x, clos_trans path (imports ts) x x.
Proof. exact project_flat. Qed.
Print Assumptions C39_single_folder.

Example C39_single_ex :
  let ts := [mk_target ["a.py"] [["b.py"]; ["c.py"]]; mk_target ["b.py"] [["c.py"]]; mk_target ["c.py"] []] in
  valid ts /\ (forall t, In t ts -> length (t_file t) = 1) /\ exists i, project (@rev path) ts = Tree i.
Proof.
  cbv zeta. split; [apply validb_valid; vm_compute; reflexivity|]. split.
  - intros t [<-|[<-|[<-|[]]]]; reflexivity.
  - eexists. vm_compute. reflexivity.
Qed.

(* With sub-folders a project whose imports are not circular may be refused:
   a/x.py imports b/y.py, which imports a/z.py. *)
Definition interleaved : list target :=
  [mk_target ["a"; "x.py"] [["b"; "y.py"]]; mk_target ["b"; "y.py"] [["a"; "z.py"]]; mk_target ["a"; "z.py"] []].

Theorem C39_acyclic_imports_refuted : exists ts, valid ts /\ (~ exists x, clos_trans path (imports ts) x x)
  /\ forall order, set_order order -> exists l, project order ts = Cycle l.
Proof.
  exists interleaved. assert (V : valid interleaved) by (apply validb_valid; vm_compute; reflexivity).
  split; [exact V|]. split.
  - set (rank := fun p : path => if path_eqb p ["a"; "x.py"] then 2 else if path_eqb p ["b"; "y.py"] then 1 else 0).
    assert (D : forall x y, imports interleaved x y -> rank y < rank x).
    { intros x y (t & T & <- & C). cbn in T. destruct T as [<-|[<-|[<-|[]]]]; cbn in C; try contradiction;
        destruct C as [<-|[]]; vm_compute; lia. }
    assert (T : forall x y, clos_trans path (imports interleaved) x y -> rank y < rank x) by (induction 1; [apply D; assumption|lia]).
    intros (x & X). specialize (T x x X). lia.
  - intros order SO. destruct (project_cycle order interleaved SO V) as (l & F & E & _); [|eauto].
    intros i E. assert (A : exists i, project order interleaved = Tree i) by eauto.
    rewrite (project_iff order interleaved SO V) in A. apply (A []). exists ["a"].
    assert (AB : needs interleaved [] ["a"] ["b"]).
    { exists (mk_target ["a"; "x.py"] [["b"; "y.py"]]), ["b"; "y.py"], "a", "b". cbn. repeat split; auto.
      - right. exists ["x.py"]. split; [discriminate|reflexivity].
      - right. exists ["y.py"]. split; [discriminate|reflexivity].
      - left. discriminate. }
    assert (BA : needs interleaved [] ["b"] ["a"]).
    { exists (mk_target ["b"; "y.py"] [["a"; "z.py"]]), ["a"; "z.py"], "b", "a". cbn. repeat split; auto.
      - right. exists ["y.py"]. split; [discriminate|reflexivity].
      - right. exists ["z.py"]. split; [discriminate|reflexivity].
      - left. discriminate. }
    eapply t_trans; constructor; eassumption.
Qed.
Print Assumptions C39_acyclic_imports_refuted.

(* ---- C54: names ---- *)

Lemma app_length_s a b : String.length (a ++ b)%string = String.length a + String.length b.
Proof. induction a as [|c a IH]; cbn; [reflexivity|]. rewrite IH. reflexivity. Qed.

(* The libraries of different files have different names, if the names of the
   files are different, ... *)
Theorem C54_library_names : forall ps, NoDup (map stem ps) -> NoDup (map (target_name ps) ps).
Proof. exact names_without_conflict. Qed.
Print Assumptions C54_library_names.

(* ... or if no component starts with an underscore or contains two in a row. *)
Theorem C54_library_names_partial : forall ps, NoDup ps ->
  (forall p, In p ps -> p <> [] /\ Forall plain p) -> NoDup (map (target_name ps) ps).
Proof. exact names_with_conflict. Qed.
Print Assumptions C54_library_names_partial.

Example C54_names_ex :
  let ps := [["a"; "mod"]; ["b_"; "mod"]; ["main"]] in
  map (target_name ps) ps = ["a__mod"; "b___mod"; "main"]
  /\ (forall p, In p ps -> p <> [] /\ Forall plain p)
  /\ map (target_name [["a"; "m"]; ["n"]]) [["a"; "m"]; ["n"]] = ["m"; "n"].
Proof.
  cbv zeta. split; [vm_compute; reflexivity|]. split; [|vm_compute; reflexivity].
  assert (P : forall s, In s ["a"; "mod"; "b_"; "main"] -> plain s).
  { intros s [<-|[<-|[<-|[<-|[]]]]]; cbn; intuition discriminate. }
  intros p [<-|[<-|[<-|[]]]]; (split; [discriminate|apply Forall_forall; intros s S; apply P; cbn in *; tauto]).
Qed.

(* In general they may be equal: a/m.py, a__m.py and b/m.py. *)
Theorem C54_library_names_refuted : exists ps, NoDup ps /\ (forall p, In p ps -> p <> [])
  /\ ~ NoDup (map (target_name ps) ps).
Proof.
  exists [["a"; "m"]; ["a__m"]; ["b"; "m"]]. split.
  - repeat constructor; cbn; intuition discriminate.
  - split; [intros p [<-|[<-|[<-|[]]]]; discriminate|]. intros H. vm_compute in H.
    inversion_clear H as [|? ? N _]. apply N. left. reflexivity.
Qed.
Print Assumptions C54_library_names_refuted.

(* Even for files with different names the library of one and the Python module
   (or the program) of another may have the same name: a.py and a_so.py; so.py
   with a program and prog.py. *)
Theorem C54_all_names_refuted : exists fs, NoDup (map stem (map fst fs)) /\ ~ NoDup (all_declared fs).
Proof.
  exists [(["a"], false); (["a_so"], false)]. split.
  - repeat constructor; cbn; intuition discriminate.
  - intros H. vm_compute in H. inversion_clear H as [|? ? _ N]. inversion_clear N as [|? ? N' _]. apply N'. left. reflexivity.
Qed.
Print Assumptions C54_all_names_refuted.

Theorem C54_program_names_refuted : exists fs, NoDup (map stem (map fst fs)) /\ ~ NoDup (all_declared fs)
  /\ forall f, In f fs -> ~ exists s, stem (fst f) = (s ++ "_so")%string.
Proof.
  exists [(["so"], true); (["prog"], false)]. split; [|split].
  - repeat constructor; cbn; intuition discriminate.
  - intros H. vm_compute in H. inversion_clear H as [|? ? _ N]. inversion_clear N as [|? ? _ M].
    inversion_clear M as [|? ? K _]. apply K. right. left. reflexivity.
  - intros f [<-|[<-|[]]] (s & E); cbn in E.
    + apply (f_equal String.length) in E. rewrite app_length_s in E. cbn in E. lia.
    + destruct s as [|c1 [|c2 s]]; [discriminate E|discriminate E|].
      apply (f_equal String.length) in E. cbn in E. rewrite app_length_s in E. cbn in E. lia.
Qed.
Print Assumptions C54_program_names_refuted.
