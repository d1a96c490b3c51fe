(* C41, C43, C44: installed libraries, cleaning, recompilation. *)
From Coq Require Import Bool String Ascii Arith Lia List.
From Verif Require Import Files_Model Files_Spec Files_Proofs.
Import ListNotations.
Open Scope string_scope.
Open Scope list_scope.

(* ---- C41: support libraries ---- *)

(* A first installation that runs to its end is complete. *)
Theorem C41_first_installation : forall now chunks src, NoDup (map fst src) -> complete src (install now chunks src None).
Proof. exact install_fresh. Qed.
Print Assumptions C41_first_installation.

Example C41_library : exists src, length src = 2 /\ NoDup (map fst src)
  /\ install 7 (fun _ => []) src None = Some src.
Proof.
  exists [("a.h", mk_file "x" 1); ("a.c", mk_file "y" 2)]. split; [reflexivity|]. split; [|reflexivity].
  repeat constructor; cbn; intuition discriminate.
Qed.

(* Over an earlier installation: it ends complete, unless a file is missing
   and all files that are present are current. *)
Theorem C41_next_installation : forall now chunks src d, NoDup (map fst src) -> honest src d ->
  (complete src (install now chunks src (Some d))
   <-> ~ ((exists n f, In (n, f) src /\ get n d = None)
          /\ forall n f g, In (n, f) src -> get n d = Some g -> f_content g = f_content f)).
Proof. exact install_iff. Qed.
Print Assumptions C41_next_installation.

(* In particular an upgrade that changes a file. *)
Theorem C41_upgrade_partial : forall now chunks src d n f g, NoDup (map fst src) -> honest src d ->
  In (n, f) src -> get n d = Some g -> f_content g <> f_content f -> complete src (install now chunks src (Some d)).
Proof. intros * N H I G D. apply install_iff; [exact N|exact H|]. intros (_ & P). exact (D (P n f g I G)). Qed.
Print Assumptions C41_upgrade_partial.

Example C41_upgrade_ex : exists src d, honest src d /\ (exists n f g, In (n, f) src /\ get n d = Some g /\ f_content g <> f_content f)
  /\ install 7 (fun _ => []) src (Some d) = Some src /\ ~ complete src (Some d).
Proof.
  exists [("a.h", mk_file "xx" 3); ("b.h", mk_file "z" 3)], [("a.h", mk_file "x" 1); ("old.h", mk_file "o" 1)].
  split; [|split; [|split; [reflexivity|]]].
  - intros n f g [E|[E|[]]] G; injection E as <- <-; cbn in G; [injection G as <-|discriminate]. intros L. discriminate.
  - exists "a.h", (mk_file "xx" 3), (mk_file "x" 1). cbn. split; [auto|]. split; [reflexivity|discriminate].
  - intros (d & E & C). injection E as <-. destruct (C "b.h" (mk_file "z" 3)) as (g & G & _); [cbn; auto|discriminate].
Qed.

(* A copy that is interrupted between two files: no later installation completes it. *)
Theorem C41_interrupted_refuted : forall now chunks s1 e s2, NoDup (map fst (s1 ++ e :: s2)) ->
  exists k d, run (firstn k (install_ops now chunks (s1 ++ e :: s2) None)) None = Some d
  /\ forall l, ~ complete (s1 ++ e :: s2) (install_again (s1 ++ e :: s2) l (Some d)).
Proof. exact interrupted_between. Qed.
Print Assumptions C41_interrupted_refuted.

(* One that is interrupted while a file is written is repaired by the next. *)
Theorem C41_interrupted_partial : forall now chunks now' chunks' s1 e s2 c, NoDup (map fst (s1 ++ e :: s2)) ->
  String.length c < String.length (f_content (snd e)) ->
  forall d, run (Mkdir :: flat_map (copy2 now chunks) s1 ++ [Write (fst e) (mk_file c now)]) None = Some d ->
  complete (s1 ++ e :: s2) (install now' chunks' (s1 ++ e :: s2) (Some d)).
Proof. exact interrupted_within. Qed.
Print Assumptions C41_interrupted_partial.

Example C41_interrupted_ex : exists k d, let src := [("a.h", mk_file "x" 1); ("a.c", mk_file "yy" 2)] in
  run (firstn k (install_ops 5 (fun _ => ["y"]) src None)) None = Some d
  /\ d = [("a.h", mk_file "x" 1); ("a.c", mk_file "y" 5)] /\ install 9 (fun _ => []) src (Some d) = Some src.
Proof. exists 7. eexists. cbn. split; [reflexivity|]. split; reflexivity. Qed.

(* A new version that only has a file more is not installed. *)
Theorem C41_added_file_refuted : exists src d, NoDup (map fst src) /\ complete [("a.h", mk_file "x" 1)] (Some d)
  /\ In ("a.h", mk_file "x" 1) src /\ forall l, ~ complete src (install_again src l (Some d)).
Proof.
  exists [("a.h", mk_file "x" 1); ("b.h", mk_file "z" 3)], [("a.h", mk_file "x" 1)].
  split; [repeat constructor; cbn; intuition discriminate|]. split.
  - eexists. split; [reflexivity|]. intros n f [E|[]]. injection E as <- <-. eexists. split; reflexivity.
  - split; [cbn; auto|]. intros l. rewrite install_stuck.
    + intros (d & E & C). injection E as <-. destruct (C "b.h" (mk_file "z" 3)) as (g & G & _); [cbn; auto|discriminate].
    + intros n f g [E|[E|[]]] G; injection E as <- <-; cbn in G; [injection G as <-; reflexivity|discriminate].
Qed.
Print Assumptions C41_added_file_refuted.

(* A new version of a file with the size and the time of the old one is not installed. *)
Theorem C41_signature_refuted : exists src d, NoDup (map fst src) /\ length d = length src
  /\ forall now chunks, install now chunks src (Some d) = Some d /\ ~ complete src (Some d).
Proof.
  exists [("a.h", mk_file "x" 1)], [("a.h", mk_file "y" 1)].
  split; [repeat constructor; cbn; intuition discriminate|]. split; [reflexivity|]. intros now chunks. split; [reflexivity|].
  intros (d & E & C). injection E as <-. destruct (C "a.h" (mk_file "x" 1)) as (g & G & F); [cbn; auto|].
  cbn in G. injection G as <-. discriminate.
Qed.
Print Assumptions C41_signature_refuted.

(* The header with the version of NumPy is current after each installation. *)
Theorem C41_numpy_version : forall now chunks src version dest, NoDup (map fst src) ->
  exists d, install_cwrapper now chunks src version dest = Some d
  /\ exists g, get "numpy_version.h" d = Some g /\ f_content g = version.
Proof. exact cwrapper_version. Qed.
Print Assumptions C41_numpy_version.

Example C41_numpy_ex : install_cwrapper 4 (fun _ => []) [("c.h", mk_file "c" 1)] "2.0" (Some [("c.h", mk_file "c" 1); ("numpy_version.h", mk_file "1.9" 2)])
  = Some [("c.h", mk_file "c" 1); ("numpy_version.h", mk_file "2.0" 4)].
Proof. reflexivity. Qed.

(* STC is ready: if it is built for the first time; if the build is outdated and
   there is an install folder to remove; if it is current and installed. *)
Theorem C41_stc_partial : forall now src s, (exists s', stc_install now src s = StcReady s') <->
  match s_build s with
  | None => True
  | Some t => if Nat.ltb t src then s_install s <> None else s_install s = Some true
  end.
Proof. exact stc_iff. Qed.
Print Assumptions C41_stc_partial.

(* After an interruption between set-up and installation all later requests fail. *)
Theorem C41_stc_refuted : forall now src, src <= now ->
  exists k s, stc_run (firstn k (stc_ops now src (mk_stc None None))) (mk_stc None None) = (s, true)
  /\ forall now', stc_install now' src s = StcFailed s.
Proof.
  intros now src L. exists 1, (mk_stc (Some now) None). split; [reflexivity|]. intros now'. unfold stc_install, stc_ops. cbn [s_build].
  rewrite (proj2 (Nat.ltb_ge now src) L). reflexivity.
Qed.
Print Assumptions C41_stc_refuted.

Example C41_stc_ex : stc_install 5 3 (mk_stc None None) = StcReady (mk_stc (Some 5) (Some true))
  /\ stc_install 9 7 (mk_stc (Some 5) (Some true)) = StcReady (mk_stc (Some 9) (Some true))
  /\ stc_install 9 7 (mk_stc (Some 5) None) = StcFailed (mk_stc None None).
Proof. split; [reflexivity|]. split; reflexivity. Qed.

(* ---- C44: recompilation ---- *)

(* Whatever happened before, after a request the object file is compiled from the
   current source, if no source was written while it was compiled or at the time
   stamp of its object file. *)
Theorem C44_source_partial : forall deps w h i, clean_start w -> well_timed deps w h ->
  source_current (play deps (h ++ [Begin i; End i]) w) i.
Proof. exact recompile_source. Qed.
Print Assumptions C44_source_partial.

(* ... and from the current sources of its dependencies, if none of them was written
   since there was no object file. *)
Theorem C44_dependencies_partial : forall deps w h1 h2 i, clean_start w -> well_timed deps w (h1 ++ h2) ->
  object (play deps h1 w) i = None -> pending (play deps h1 w) i = None ->
  (forall j text, In (Edit j text) h2 -> ~ In j (deps i)) ->
  current deps (play deps (h1 ++ h2 ++ [Begin i; End i]) w) i.
Proof. exact recompile_deps. Qed.
Print Assumptions C44_dependencies_partial.

Definition start : world := mk_world 5 (fun i => mk_file (if Nat.eqb i 0 then "main" else "dep") 3) (fun _ => None) (fun _ => None).
Definition one_dep (i : nat) : list nat := if Nat.eqb i 0 then [1] else [].

Lemma start_clean : clean_start start.
Proof. split; [reflexivity|]. split; [reflexivity|]. intros i. cbn. lia. Qed.

Example C44_ex : clean_start start /\ well_timed one_dep start [Begin 0; End 0; Tick 1; Edit 0 "new"]
  /\ object (play one_dep ([Begin 0; End 0; Tick 1; Edit 0 "new"] ++ [Begin 0; End 0]) start) 0 = Some (mk_built "new" ["dep"], 6).
Proof.
  split; [exact start_clean|]. split; [|reflexivity].
  do 3 (apply timed_cons; [discriminate|]). apply timed_cons; [|apply timed_nil].
  intros i text E. injection E as <- <-. cbn. split; [reflexivity|]. intros b t H. injection H as <- <-. lia.
Qed.

(* A source written at the time stamp of its object file is not compiled. *)
Theorem C44_same_time_refuted : exists h, ~ source_current (play one_dep (h ++ [Begin 0; End 0]) start) 0.
Proof.
  exists [Begin 0; End 0; Edit 0 "new"]. intros (b & t & E & F). cbn in E. injection E as <- <-. discriminate.
Qed.
Print Assumptions C44_same_time_refuted.

(* A source written while it is compiled, before the time stamp of the object file. *)
Theorem C44_during_compilation_refuted : exists h, ~ source_current (play one_dep (h ++ [Begin 0; End 0]) start) 0
  /\ h = [Begin 0; Tick 1; Edit 0 "new"; Tick 1; End 0; Tick 1].
Proof.
  eexists. split; [|reflexivity]. intros (b & t & E & F). cbn in E. injection E as <- <-. discriminate.
Qed.
Print Assumptions C44_during_compilation_refuted.

(* A change of a dependency. *)
Theorem C44_dependency_refuted : exists h, well_timed one_dep start h
  /\ ~ current one_dep (play one_dep (h ++ [Begin 1; End 1; Begin 0; End 0]) start) 0.
Proof.
  exists [Begin 0; End 0; Tick 1; Edit 1 "new"; Tick 1]. split.
  - do 3 (apply timed_cons; [discriminate|]). apply timed_cons; [|apply timed_cons; [discriminate|apply timed_nil]].
    intros i text E. injection E as <- <-. cbn. split; [reflexivity|]. intros b t H. discriminate.
  - intros (b & t & E & _ & F). cbn in E. injection E as <- <-. discriminate.
Qed.
Print Assumptions C44_dependency_refuted.

(* ---- C43: pyccel clean ---- *)

(* In a folder of files and folders, with --recursive: it ends, and what it removes is
   the folders of pyccel, with all they contain, and the artefacts, at any depth. *)
Theorem C43_recursive : forall o l, recursive o = true -> (forall f n, In (f, n) l -> plain n) ->
  exists l', pyccel_clean o l = (l', true)
  /\ (forall p x, has_file l' p x <-> has_file l p x /\ ~ in_pyccel_folder p /\ ~ artefact_file o (last p "") x)
  /\ (forall p, has_dir l' p <-> has_dir l p /\ ~ in_pyccel_folder p /\ ~ pyccel_folder (last p "")).
Proof. exact clean_recursive. Qed.
Print Assumptions C43_recursive.

(* Without: only entries of the folder itself, if none of the folders has the name of
   an artefact and, if programs are removed, there is no folder that can be entered. *)
Theorem C43_flat_partial : forall o l, recursive o = false -> (forall f n, In (f, n) l -> plain n) ->
  (forall f x k, In (f, NDir x k) l -> ~ has_suffix ".pyccel" f
    /\ (remove_shared_libs o = true -> ~ has_suffix (ext_suffix o) f) /\ (remove_programs o = true -> x = false)) ->
  exists l', pyccel_clean o l = (l', true)
  /\ forall f n, In (f, n) l' <-> In (f, n) l /\ match n with NFile x => ~ artefact_file o f x | _ => ~ pyccel_folder f end.
Proof. exact clean_flat. Qed.
Print Assumptions C43_flat_partial.

(* Whatever the folder contains, and if it stops with an exception too: other files stay. *)
Theorem C43_other_files_stay : forall o, recursive o = true -> forall p l x, has_file l p x -> ~ in_pyccel_folder p ->
  ~ artefact_file o (last p "") x -> has_file (fst (pyccel_clean o l)) p x.
Proof. exact clean_safe. Qed.
Print Assumptions C43_other_files_stay.

Theorem C43_no_new_files : forall o p l x, has_file (fst (pyccel_clean o l)) p x -> has_file l p x.
Proof. exact clean_no_new. Qed.
Print Assumptions C43_no_new_files.

Definition project : list (string * node) :=
  [("mod.py", NFile false); ("__pyccel__gw0", NDir true [("mod.c", NFile false)]);
   ("sub", NDir true [("m.cpython.so", NFile true); ("x.pyccel", NFile false); ("m.py", NFile false);
                      ("__epyccel__", NDir true [("y.py", NFile false)])]);
   ("run", NFile true)].

Example C43_project_ex : (forall f n, In (f, n) project -> plain n)
  /\ pyccel_clean (mk_clean true true true ".cpython.so") project
     = ([("mod.py", NFile false); ("sub", NDir true [("m.py", NFile false)])], true)
  /\ pyccel_clean (mk_clean false true false ".cpython.so") project
     = ([("mod.py", NFile false);
         ("sub", NDir true [("m.cpython.so", NFile true); ("x.pyccel", NFile false); ("m.py", NFile false);
                            ("__epyccel__", NDir true [("y.py", NFile false)])]);
         ("run", NFile true)], true).
Proof.
  split; [|split; reflexivity]. intros f n H. cbn in H.
  repeat (destruct H as [H|H]; [injection H as <- <-; repeat (constructor; intros ? ? K; cbn in K;
    repeat (destruct K as [K|K]; [injection K as <- <-; try (constructor; intros ? ? J; cbn in J;
      repeat (destruct J as [J|J]; [injection J as <- <-; constructor|]); contradiction); try constructor|]); contradiction); constructor|]).
  contradiction.
Qed.

(* With --remove-programs an executable file of the user is removed: a script. *)
Theorem C43_programs_refuted : forall o f, remove_programs o = true -> ~ pyccel_folder f ->
  pyccel_clean o [(f, NFile true)] = ([], true).
Proof.
  intros o f R G. unfold pyccel_clean. cbn [clean_each clean_node]. rewrite (proj2 (generated_false f) G).
  unfold removable. rewrite R, orb_true_r. reflexivity.
Qed.
Print Assumptions C43_programs_refuted.

(* With --remove-programs and without --recursive a sub-folder stops the command with an
   exception; what comes later stays. *)
Theorem C43_subfolder_refuted : forall o f k l, recursive o = false -> remove_programs o = true -> ~ pyccel_folder f ->
  pyccel_clean o ((f, NDir true k) :: l) = ((f, NDir true k) :: l, false).
Proof.
  intros o f k l R P G. unfold pyccel_clean. cbn [clean_each clean_node]. rewrite (proj2 (generated_false f) G), R.
  unfold removable. rewrite P, orb_true_r. reflexivity.
Qed.
Print Assumptions C43_subfolder_refuted.

(* With --recursive a dangling link stops it. *)
Theorem C43_dangling_link_refuted : forall o f l, recursive o = true -> ~ pyccel_folder f ->
  pyccel_clean o ((f, NOther) :: l) = ((f, NOther) :: l, false).
Proof.
  intros o f l R G. unfold pyccel_clean. cbn [clean_each clean_node]. rewrite (proj2 (generated_false f) G), R. reflexivity.
Qed.
Print Assumptions C43_dangling_link_refuted.

(* It follows links to folders, and removes what is there. *)
Theorem C43_link_refuted : forall o f g k, recursive o = true -> ~ pyccel_folder f -> pyccel_folder g ->
  pyccel_clean o [(f, NLink [(g, NDir true k)])] = ([(f, NLink [])], true).
Proof.
  intros o f g k R F G. unfold pyccel_clean. cbn [clean_each clean_node]. rewrite (proj2 (generated_false f) F), R.
  rewrite (proj2 (generated_iff g) G). reflexivity.
Qed.
Print Assumptions C43_link_refuted.

(* A file whose name begins as that of a folder of pyccel is never removed. *)
Theorem C43_generated_file_refuted : forall o f x, pyccel_folder f -> pyccel_clean o [(f, NFile x)] = ([(f, NFile x)], true).
Proof. intros o f x G. unfold pyccel_clean. cbn [clean_each clean_node]. rewrite (proj2 (generated_iff f) G). reflexivity. Qed.
Print Assumptions C43_generated_file_refuted.

Example C43_refuted_ex : ~ pyccel_folder "tools" /\ pyccel_folder "__epyccel__" /\ has_suffix ".pyccel" "__pyccel__mod.pyccel"
  /\ pyccel_folder "__pyccel__mod.pyccel".
Proof.
  split; [intros [(s & E)|(s & E)]; discriminate|]. split; [right; exists ""; reflexivity|].
  split; [exists "__pyccel__mod"; reflexivity|left; exists "mod.pyccel"; reflexivity].
Qed.
