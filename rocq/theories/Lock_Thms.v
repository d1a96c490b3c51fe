(* C40: concurrent compilations. *)
From Coq Require Import Bool String Ascii Arith Lia List.
From Verif Require Import Lock_Model Lock_Spec Lock_Proofs.
Import ListNotations.
Open Scope string_scope.
Open Scope list_scope.

(* For all schedules, with processes killed at any time. *)

(* Two processes never hold the same lock file. *)
Theorem C40_mutual_exclusion : forall system s p q x, reachable system s -> holds system s p x -> holds system s q x -> p = q.
Proof. exact exclusion. Qed.
Print Assumptions C40_mutual_exclusion.

(* While a compiler works, no other process, in whatever folder it was started, compiles
   with the same source, object file, or object file of a direct dependency. *)
Theorem C40_files_not_shared : forall system s p q i j x, reachable system s ->
  working s p (Compile i) -> working s q (Compile j) -> uses (system p) i x -> uses (system q) j x -> p = q.
Proof. exact working_exclusive. Qed.
Print Assumptions C40_files_not_shared.

(* In one folder one compiler works at a time. *)
Theorem C40_one_compiler : forall system s p q i j, cwd (system p) = cwd (system q) -> reachable system s ->
  working s p (Compile i) -> working s q (Compile j) -> p = q.
Proof. exact one_compiler. Qed.
Print Assumptions C40_one_compiler.

(* A library is installed in a folder by one process at a time. *)
Theorem C40_one_installation : forall system s p q n m, lib_lock (system p) n = lib_lock (system q) m -> reachable system s ->
  working s p (Install n) -> working s q (Install m) -> p = q.
Proof. exact install_exclusive. Qed.
Print Assumptions C40_one_installation.

(* Processes in the same folder, whose own lock files do not clash: as long as one has
   not finished, one can go on. *)
Theorem C40_progress_partial : forall system s, (forall p q, cwd (system p) = cwd (system q)) -> (forall p, separate (system p)) ->
  reachable system s -> (exists p, ~ finished s p) -> exists p s', exec system s p = Some s'.
Proof. intros system s W S R. exact (progress system s W S (reachable_inv _ _ R)). Qed.
Print Assumptions C40_progress_partial.

(* No schedule is infinite: there is a bound on the number of steps. *)
Theorem C40_bounded : forall system n, size system n -> exists k, forall h s, runs system (init system) h s ->
  length (filter (fun e => match e with Step _ => true | Kill _ => false end) h) <= k.
Proof.
  intros system n H. exists (total n (init system)). intros h s R.
  destruct (runs_bound system n _ h s (init_idle _ _ H) R) as (_ & L). unfold steps in L. lia.
Qed.
Print Assumptions C40_bounded.

(* Wherever it is, the system can finish. *)
Theorem C40_end_partial : forall system n s, size system n -> (forall p q, cwd (system p) = cwd (system q)) ->
  (forall p, separate (system p)) -> reachable system s ->
  exists h s', runs system s h s' /\ (forall e, In e h -> exists p, e = Step p) /\ forall p, finished s' p.
Proof.
  intros system n s H W S R. exact (runs_to_end system n s W S (reachable_idle _ _ _ H R) (reachable_inv _ _ R)).
Qed.
Print Assumptions C40_end_partial.

(* A process that has finished, or was killed, holds no lock; if all have finished all
   lock files are free. *)
Theorem C40_released : forall system s, reachable system s ->
  (forall p, finished s p -> forall x, ~ holds system s p x) /\ ((forall p, finished s p) -> forall x, owner s x = None).
Proof.
  intros system s R. split; [intros p F x; exact (finished_released system s p x R F)|intros F x; exact (all_released system s x R F)].
Qed.
Print Assumptions C40_released.

(* ---- an example ---- *)

Definition nothing : proc := mk_proc "/w" (fun _ => mk_obj "" "" false []) (fun _ => "") [].

(* The objects of a process: 0 depends on the others. *)
Definition prog (folder name : string) (deps : list nat) : nat -> obj := fun i =>
  match i with
  | 0 => mk_obj (folder ++ "/" ++ name ++ ".c") (folder ++ "/" ++ name ++ ".o") true deps
  | 1 => mk_obj "/l/x.c" "/l/x.o" true []
  | 2 => mk_obj "/l/y.c" "/l/y.o" true []
  | _ => mk_obj "/l/z.h" "/l/z.o" false []
  end%string.

(* Two processes that install a library, compile 1, and 0 with 1, 2 and 3; they take the
   locks of 1 and 2 in different orders. *)
Definition two (f1 f2 : string) : nat -> proc := fun p =>
  match p with
  | 0 => mk_proc f1 (prog f1 "a" [1; 2; 3]) (fun _ => "/l/lib.lock") [Install 0; Compile 1; Compile 0]
  | 1 => mk_proc f2 (prog f2 "b" [2; 1; 3]) (fun _ => "/l/lib.lock") [Install 0; Compile 0]
  | _ => mk_proc f1 (prog f1 "c" []) (fun _ => "") []
  end.

Ltac members := repeat match goal with H : _ = _ \/ _ |- _ => destruct H as [H|H] | H : False |- _ => destruct H end.

Example C40_same_folder_ex : size (two "/w" "/w") 2 /\ (forall p q, cwd (two "/w" "/w" p) = cwd (two "/w" "/w" q))
  /\ (forall p, separate (two "/w" "/w" p)).
Proof.
  split; [intros [|[|p]] L; [lia|lia|reflexivity]|]. split; [intros [|[|p]] [|[|q]]; reflexivity|].
  intros [|[|p]]; (split; [|intros n I; cbn in I; members; discriminate]); intros i I; cbn in I; members; try discriminate;
    injection I as <-; (split; [|split; [|cbn; discriminate]]).
  - intros j k J K. cbn in J, K. members; subst; cbn; intros; congruence.
  - intros j J. cbn in J. members; subst; cbn; intros; split; discriminate.
  - intros j k J K. cbn in J, K. members; subst; cbn; intros; congruence.
  - intros j J. cbn in J. members; subst; cbn; intros; split; discriminate.
  - intros j k J K. cbn in J, K. members; subst; cbn; intros; congruence.
  - intros j J. cbn in J. members; subst; cbn; intros; split; discriminate.
Qed.

(* A schedule given by its processes. *)
Fixpoint follow (system : nat -> proc) (s : state) (l : list nat) : option state :=
  match l with
  | [] => Some s
  | p :: l' => match exec system s p with Some s' => follow system s' l' | None => None end
  end.

Lemma follow_runs system : forall l s s', follow system s l = Some s' -> runs system s (map Step l) s'.
Proof.
  induction l as [|p l IH]; intros s s' H; cbn in *; [injection H as <-; constructor|].
  destruct (exec system s p) as [s1|] eqn:E; [|discriminate]. econstructor; [exact E|auto].
Qed.

Definition final (system : nat -> proc) (l : list nat) : state :=
  match follow system (init system) l with Some s => s | None => init system end.

Lemma final_reachable system l : (if follow system (init system) l then true else false) = true -> reachable system (final system l).
Proof.
  unfold final. intros H. destruct (follow system (init system) l) as [s|] eqn:E; [|discriminate].
  exists (map Step l). apply follow_runs, E.
Qed.

(* The first process works on 0, the second waits. *)
Example C40_working_ex : exists s, reachable (two "/w" "/w") s /\ working s 0 (Compile 1) /\ holds (two "/w" "/w") s 0 "/l/x.o.lock"
  /\ exec (two "/w" "/w") s 1 = None /\ ~ finished s 1.
Proof.
  exists (final (two "/w" "/w") (repeat 0 6 ++ repeat 1 3)). split; [apply final_reachable; vm_compute; reflexivity|].
  split; [eexists; vm_compute; reflexivity|]. split; [exists (TargetL 1); split; [apply Nat.ltb_lt; vm_compute; reflexivity|reflexivity]|].
  split; [vm_compute; reflexivity|]. unfold finished. vm_compute. discriminate.
Qed.

(* ---- what is not excluded ---- *)

(* Processes in different folders can wait for one another for ever. *)
Theorem C40_other_folder_refuted : exists system s, size system 2 /\ (forall p, separate (system p)) /\ reachable system s
  /\ ~ finished s 0 /\ ~ finished s 1 /\ forall p, exec system s p = None.
Proof.
  exists (two "/v" "/w").
  exists (final (two "/v" "/w") (repeat 0 3 ++ repeat 1 3 ++ repeat 0 7 ++ repeat 0 4 ++ repeat 1 4)). split; [intros [|[|p]] L; [lia|lia|reflexivity]|]. split.
  - intros [|[|p]]; (split; [|intros n I; cbn in I; members; discriminate]); intros i I; cbn in I; members; try discriminate;
      injection I as <-; (split; [|split; [|cbn; discriminate]]).
    + intros j k J K. cbn in J, K. members; subst; cbn; intros; congruence.
    + intros j J. cbn in J. members; subst; cbn; intros; split; discriminate.
    + intros j k J K. cbn in J, K. members; subst; cbn; intros; congruence.
    + intros j J. cbn in J. members; subst; cbn; intros; split; discriminate.
    + intros j k J K. cbn in J, K. members; subst; cbn; intros; congruence.
    + intros j J. cbn in J. members; subst; cbn; intros; split; discriminate.
  - split; [apply final_reachable; vm_compute; reflexivity|]. split; [unfold finished; vm_compute; discriminate|].
    split; [unfold finished; vm_compute; discriminate|]. intros [|[|p]]; vm_compute; reflexivity.
Qed.
Print Assumptions C40_other_folder_refuted.

(* A process waits for itself if a dependency is another object with its object file. *)
Theorem C40_same_target_refuted : exists system s, size system 1 /\ reachable system s /\ ~ finished s 0
  /\ (forall p, exec system s p = None)
  /\ sections (system 0) = [Compile 0] /\ o_deps (objs (system 0) 0) = [1] /\ o_source (objs (system 0) 1) <> o_source (objs (system 0) 0).
Proof.
  set (system := fun p : nat => match p with
    | 0 => mk_proc "/w" (fun i => match i with 0 => mk_obj "/w/a.f90" "/w/a.o" true [1] | _ => mk_obj "/w/a.c" "/w/a.o" true [] end) (fun _ => "") [Compile 0]
    | _ => nothing
    end).
  exists system, (final system (repeat 0 3)). split; [intros [|p] L; [lia|reflexivity]|].
  split; [apply final_reachable; vm_compute; reflexivity|]. split; [unfold finished; vm_compute; discriminate|].
  split; [intros [|p]; vm_compute; reflexivity|]. split; [reflexivity|].
  split; [reflexivity|]. discriminate.
Qed.
Print Assumptions C40_same_target_refuted.

(* The object file of a dependency of a dependency, which the linker reads, can be
   written meanwhile by a process in another folder. *)
Theorem C40_indirect_refuted : exists system s j k, reachable system s /\ working s 0 (Compile 0) /\ working s 1 (Compile 0)
  /\ In j (o_deps (objs (system 0) 0)) /\ In k (o_deps (objs (system 0) j))
  /\ o_has (objs (system 0) j) = true /\ o_has (objs (system 0) k) = true
  /\ o_target (objs (system 0) k) = o_target (objs (system 1) 0).
Proof.
  set (system := fun p : nat => match p with
    | 0 => mk_proc "/v" (fun i => match i with
                                  | 0 => mk_obj "/v/a.c" "/v/a.o" true [1]
                                  | 1 => mk_obj "/l/x.c" "/l/x.o" true [2]
                                  | _ => mk_obj "/l/y.c" "/l/y.o" true [] end) (fun _ => "") [Compile 0]
    | 1 => mk_proc "/w" (fun _ => mk_obj "/l/y.c" "/l/y.o" true []) (fun _ => "") [Compile 0]
    | _ => nothing
    end).
  exists system, (final system (repeat 0 4 ++ repeat 1 3)), 1, 2. split; [apply final_reachable; vm_compute; reflexivity|].
  split; [eexists; vm_compute; reflexivity|]. split; [eexists; vm_compute; reflexivity|]. cbn. auto 10.
Qed.
Print Assumptions C40_indirect_refuted.
