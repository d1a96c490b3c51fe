(* Proofs about the values that functions return. *)
From Coq Require Import Bool Arith ZArith Lia List String.
From Verif Require Import Ret_Model Ret_Spec.
Import ListNotations.
Open Scope Z_scope.
Open Scope list_scope.

Lemma name_eqb_spec a b : reflect (a = b) (name_eqb a b).
Proof.
  destruct a as [x|x], b as [y|y]; cbn; try (constructor; discriminate);
    destruct (Nat.eqb_spec x y); constructor; congruence.
Qed.
Lemma name_eqb_refl a : name_eqb a a = true.
Proof. destruct (name_eqb_spec a a); auto. Qed.
Lemma mem_spec x l : mem x l = true <-> In x l.
Proof.
  unfold mem. rewrite existsb_exists. split.
  - intros (y & Y & E). destruct (name_eqb_spec x y); [subst; auto|discriminate].
  - intros H. exists x. split; [auto|apply name_eqb_refl].
Qed.
Lemma set_same st x v : set st x v x = v.
Proof. unfold set. rewrite name_eqb_refl. reflexivity. Qed.
Lemma set_other st x v y : y <> x -> set st x v y = st y.
Proof. intros H. unfold set. destruct (name_eqb_spec y x); [contradiction|reflexivity]. Qed.
Lemma itself_spec r e : itself r e = true <-> e = EVar r.
Proof.
  destruct e; cbn; split; try discriminate; intros H.
  - destruct (name_eqb_spec r x); [subst; auto|discriminate].
  - injection H as ->. apply name_eqb_refl.
Qed.

Lemma eval_ext e : forall st st', (forall x, In x (vars e) -> st x = st' x) -> eval st e = eval st' e.
Proof.
  induction e; intros st st' H; cbn in *; auto.
  - rewrite (IHe1 st st'), (IHe2 st st'); auto; intros x X; apply H, in_app_iff; auto.
  - rewrite (IHe st st'), (H x); auto.
  - rewrite (IHe st st'); auto.
Qed.

(* ------------------------------ tuples ------------------------------ *)

Lemma assign_other rs : forall es st st', assign_all rs es st = Some st' -> forall x, ~ In x rs -> st' x = st x.
Proof.
  induction rs as [|r rs IH]; intros es st st' H x X; cbn in H; [injection H as <-; auto|].
  destruct es as [|e es]; [injection H as <-; auto|]. cbn in X.
  destruct (itself r e); [apply (IH _ _ _ H); tauto|].
  destruct (eval st e) as [v|]; [|discriminate]. rewrite (IH _ _ _ H) by tauto. apply set_other. intros ->. tauto.
Qed.

Lemma tuple_ok rs : forall es st, in_order rs es -> List.length rs = List.length es -> (forall e, In e es -> eval st e <> None) ->
  tuple_results rs es st = Some (py_tuple es st).
Proof.
  unfold tuple_results. induction rs as [|r rs IH]; intros [|e es] st O L D; cbn in *; try discriminate; auto.
  destruct O as (N & U & O). injection L as L.
  destruct (itself r e) eqn:I.
  - apply itself_spec in I. subst e. specialize (IH es st O L (fun e' H => D e' (or_intror H))).
    destruct (assign_all rs es st) as [st'|] eqn:A; [|discriminate]. injection IH as IH. cbn. rewrite IH.
    rewrite (assign_other _ _ _ _ A r N). reflexivity.
  - destruct U as [U|U]; [discriminate|]. destruct (eval st e) as [v|] eqn:E; [|destruct (D e (or_introl eq_refl) E)].
    assert (EX : forall e', In e' es -> eval (set st r (Some v)) e' = eval st e').
    { intros e' H. apply eval_ext. intros x X. apply set_other. intros ->. exact (U e' H X). }
    specialize (IH es (set st r (Some v)) O L). destruct (assign_all rs es (set st r (Some v))) as [st'|] eqn:A.
    + assert (Q : Some (map st' rs) = Some (py_tuple es (set st r (Some v)))).
      { apply IH. intros e' H. rewrite (EX e' H). apply D. auto. }
      injection Q as Q. cbn. rewrite Q, (assign_other _ _ _ _ A r N), set_same. do 2 f_equal.
      apply map_ext_in. intros e' H. apply EX, H.
    + assert (Q : None = Some (py_tuple es (set st r (Some v)))); [|discriminate]. apply IH. intros e' H. rewrite (EX e' H). apply D. auto.
Qed.

(* one return: a result is a variable only where the element is that variable *)
Lemma unique_one valid forb e i : unique_name valid forb [e] i = Temp i \/ itself (unique_name valid forb [e] i) e = true.
Proof.
  unfold unique_name. destruct e; cbn; auto. destruct (negb (mem x forb) && mem x valid); [|auto].
  right. cbn. apply name_eqb_refl.
Qed.
Lemma one_return_ok valid forb es : forall st, (forall e, In e es -> user_expr e) -> (forall e, In e es -> eval st e <> None) ->
  tuple_results (result_names valid forb [es]) es st = Some (py_tuple es st).
Proof.
  intros st U D. unfold result_names.
  assert (H : forall k pre, es = pre ++ skipn (List.length pre) es -> forall st',
      (forall x, user x -> st' x = st x) ->
      exists st'', assign_all (map (fun i => unique_name valid forb (column i [es]) i) (seq (List.length pre) k)) (skipn (List.length pre) es) st' = Some st''
        /\ (forall x, user x -> st'' x = st x)
        /\ (forall i, (i < List.length pre)%nat -> st'' (Temp i) = st' (Temp i))
        /\ (k = List.length (skipn (List.length pre) es) -> map st'' (map (fun i => unique_name valid forb (column i [es]) i) (seq (List.length pre) k)) = map (eval st) (skipn (List.length pre) es))).
  { induction k as [|k IH]; intros pre E st' SS; cbn [seq map assign_all].
    - exists st'. repeat split; auto. intros Q. destruct (skipn (List.length pre) es); [reflexivity|discriminate].
    - destruct (skipn (List.length pre) es) as [|e rest] eqn:SK; [exists st'; repeat split; auto; discriminate|].
      assert (IE : In e es) by (rewrite E; apply in_app_iff; right; left; reflexivity).
      assert (NE : nth (List.length pre) es (EInt 0) = e).
      { rewrite E. rewrite app_nth2 by lia. rewrite Nat.sub_diag. reflexivity. }
      assert (E2 : es = (pre ++ [e]) ++ skipn (List.length (pre ++ [e])) es).
      { rewrite E at 2. replace (pre ++ e :: rest) with ((pre ++ [e]) ++ rest) by (rewrite <- app_assoc; reflexivity).
        rewrite skipn_app, skipn_all, Nat.sub_diag. cbn. rewrite <- app_assoc. exact E. }
      assert (SR : skipn (List.length (pre ++ [e])) es = rest).
      { rewrite E. replace (pre ++ e :: rest) with ((pre ++ [e]) ++ rest) by (rewrite <- app_assoc; reflexivity).
        rewrite skipn_app, skipn_all, Nat.sub_diag. reflexivity. }
      assert (LP : List.length (pre ++ [e]) = S (List.length pre)) by (rewrite app_length; cbn; lia).
      change (column (List.length pre) [es]) with [nth (List.length pre) es (EInt 0)]. rewrite NE.
      assert (EE : forall s, (forall x, user x -> s x = st x) -> eval s e = eval st e).
      { intros s H. apply eval_ext. intros x X. apply H, (U e IE x X). }
      destruct (unique_one valid forb e (List.length pre)) as [T|T].
      + rewrite T. assert (IT : itself (Temp (List.length pre)) e = false).
        { destruct (itself (Temp (List.length pre)) e) eqn:Q; [|reflexivity]. apply itself_spec in Q.
          assert (Q2 : user (Temp (List.length pre))) by (apply (U e IE); rewrite Q; cbn; auto). destruct Q2 as (n & Q2). discriminate. }
        rewrite IT, (EE st' SS). destruct (eval st e) as [v|] eqn:EV; [|destruct (D e IE EV)].
        destruct (IH (pre ++ [e]) E2 (set st' (Temp (List.length pre)) (Some v))) as (st'' & A & B & C & M).
        { intros x (n & ->). rewrite set_other by discriminate. apply SS. exists n. reflexivity. }
        rewrite SR, LP in *. exists st''. split; [exact A|]. split; [exact B|]. split.
        * intros i I. rewrite C by lia. apply set_other. intros Q. injection Q as ->. lia.
        * intros Q. cbn in Q. injection Q as Q. cbn [map]. rewrite (M Q), EV. rewrite (C (List.length pre)) by lia. rewrite set_same. reflexivity.
      + rewrite T. destruct (IH (pre ++ [e]) E2 st' SS) as (st'' & A & B & C & M). rewrite SR, LP in *.
        exists st''. split; [exact A|]. split; [exact B|]. split; [intros; apply C; lia|].
        intros Q. cbn in Q. injection Q as Q. cbn [map]. rewrite (M Q).
        apply itself_spec in T. assert (UX : user (unique_name valid forb [e] (List.length pre))).
        { apply (U e IE). rewrite T at 2. cbn. auto. }
        rewrite (B _ UX). rewrite T at 2. reflexivity. }
  destruct (H (List.length es) [] eq_refl st (fun _ _ => eq_refl)) as (st'' & A & _ & _ & M).
  cbn [List.length skipn app] in *. unfold tuple_results. rewrite A, M by reflexivity. reflexivity.
Qed.

(* ------------------------------ one value ------------------------------ *)

Lemma runs_cons s l st : runs (s :: l) st = bind (run s st) (runs l).
Proof. reflexivity. Qed.
Lemma runs_app l : forall l' st, runs (l ++ l') st = bind (runs l st) (runs l').
Proof.
  induction l as [|s l IH]; intros l' st; [reflexivity|]. cbn [app]. rewrite !runs_cons. destruct (run s st); cbn [bind]; auto.
Qed.
Lemma run_gen b st : run (NGen b) st = runs b st.
Proof. reflexivity. Qed.
Lemma run_if c a b st : run (NIf c a b) st = match eval st c with Some (OInt 0) => runs b st | Some (OInt _) => runs a st | _ => None end.
Proof. reflexivity. Qed.
Lemma run_for x n b st : run (NFor x n b) st =
  match eval st n with
  | Some (OInt n) => bind (times (Z.to_nat n) (fun i st => runs b (set st x (Some (OInt i)))) st 0) (fun st' => Some (set st' x (Some (OInt (Z.max 0 n)))))
  | _ => None
  end.
Proof. reflexivity. Qed.

Lemma runs_free l : forall st, exists st', runs (map NFree l) st = Some st' /\ (forall x, In x l -> st' x = None) /\ (forall x, ~ In x l -> st' x = st x).
Proof.
  induction l as [|y l IH]; intros st.
  - exists st. cbn. repeat split; tauto.
  - destruct (IH (set st y None)) as (st' & A & B & C). exists st'. split; [exact A|]. split.
    + intros x [<-|X]; [|auto]. destruct (in_dec (fun a b => reflect_dec _ _ (name_eqb_spec a b)) y l) as [I|I]; [auto|]. rewrite C by exact I. apply set_same.
    + intros x X. cbn in X. rewrite C by tauto. apply set_other. intros ->. tauto.
Qed.

Definition op (k : fold_kind) : Z -> Z -> Z := match k with KSum => Z.add | KMax => Z.max | KMin => Z.min end.
Definition start (k : fold_kind) : Z := match k with KSum => 0 | KMax => lowest | KMin => highest end.
Definition body (r : name) (k : fold_kind) (e : expr) : stmt :=
  match k with KSum => NAug r Z.add e | _ => NAssign r (EOp (op k) (EVar r) e) end.
Lemma fold_node_eq r k x n e : fold_node r k x n e = NGen [NAssign r (EInt (start k)); NFor x n [body r k e]].
Proof. destruct k; reflexivity. Qed.
Lemma run_body r k e st m v : st r = Some (OInt m) -> eval st e = Some (OInt v) -> runs [body r k e] st = Some (set st r (Some (OInt (op k m v)))).
Proof. intros R E. destruct k; cbn; rewrite R, E; reflexivity. Qed.

Lemma times_fold r k x e st : x <> r -> ~ In r (vars e) -> forall c i vs s m, py_values st x e i c = Some vs ->
  s r = Some (OInt m) -> (forall y, y <> r -> y <> x -> s y = st y) ->
  exists s', times c (fun i st => runs [body r k e] (set st x (Some (OInt i)))) s i = Some s'
    /\ s' r = Some (OInt (fold_left (op k) vs m)) /\ (forall y, y <> r -> y <> x -> s' y = st y).
Proof.
  intros XR NR. induction c as [|c IH]; intros i vs s m P R S; cbn [py_values times] in *.
  - injection P as <-. exists s. auto.
  - destruct (eval (at_ st x i) e) as [[v| |]|] eqn:E; try discriminate. destruct (py_values st x e (i + 1) c) as [ws|] eqn:W; [|discriminate].
    injection P as <-.
    assert (E' : eval (set s x (Some (OInt i))) e = Some (OInt v)).
    { rewrite <- E. apply eval_ext. intros y Y. unfold at_. unfold set. destruct (name_eqb_spec y x); [reflexivity|]. apply S; [|assumption]. intros ->. contradiction. }
    assert (R' : set s x (Some (OInt i)) r = Some (OInt m)) by (rewrite set_other; congruence).
    rewrite (run_body r k e _ m v R' E'). cbn [bind].
    destruct (IH (i + 1) ws (set (set s x (Some (OInt i))) r (Some (OInt (op k m v)))) (op k m v) W) as (s' & A & B & C).
    + apply set_same.
    + intros y Y1 Y2. rewrite !set_other by congruence. apply S; auto.
    + exists s'. auto.
Qed.

Lemma run_fold r k x n e st m vs : x <> r -> ~ In r (vars e) -> ~ In r (vars n) -> eval st n = Some (OInt m) -> py_values st x e 0 (Z.to_nat m) = Some vs ->
  exists s', run (fold_node r k x n e) st = Some s' /\ s' r = Some (OInt (fold_left (op k) vs (start k)))
    /\ s' x = Some (OInt (Z.max 0 m)) /\ (forall y, y <> r -> y <> x -> s' y = st y).
Proof.
  intros XR NE NN EN P. rewrite fold_node_eq, run_gen, runs_cons. cbn [run eval bind]. rewrite runs_cons, run_for.
  rewrite (eval_ext n _ st) by (intros y Y; apply set_other; intros ->; contradiction). rewrite EN.
  destruct (times_fold r k x e st XR NE (Z.to_nat m) 0 vs (set st r (Some (OInt (start k)))) (start k) P) as (s' & A & B & C).
  - apply set_same.
  - intros y Y _. apply set_other, Y.
  - rewrite A. cbn [bind runs]. exists (set s' x (Some (OInt (Z.max 0 m)))). split; [reflexivity|]. split; [rewrite set_other by congruence; exact B|].
    split; [apply set_same|]. intros y Y1 Y2. rewrite set_other by exact Y2. auto.
Qed.

Lemma fold_value k vs v : (forall w, In w vs -> lowest <= w <= highest) -> py_fold k vs = Some v -> fold_left (op k) vs (start k) = v.
Proof.
  intros B H.
  assert (A1 : forall x y z, op k x (op k y z) = op k (op k x y) z) by (destruct k; cbn; intros; lia).
  assert (A2 : forall x y, op k x y = op k y x) by (destruct k; cbn; intros; lia).
  destruct k.
  - cbn in *. injection H as <-. apply fold_symmetric; intros; lia.
  - destruct vs as [|w vs]; [discriminate|]. cbn in H. injection H as <-. cbn [fold_left op start].
    rewrite Z.max_r by (apply B; left; reflexivity). apply fold_symmetric; intros; lia.
  - destruct vs as [|w vs]; [discriminate|]. cbn in H. injection H as <-. cbn [fold_left op start].
    rewrite Z.min_r by (apply B; left; reflexivity). apply fold_symmetric; intros; lia.
Qed.

(* the statements in front of the return leave the value in the result *)
Lemma value_ok r p st v : separate r p -> in_range st p -> py_value st p = Some v -> exists s', runs (visit_value r p) st = Some s' /\ s' r = Some v.
Proof.
  intros SE IR H. destruct p as [e|k x n e|c a b]; cbn [py_value visit_value separate in_range] in *.
  - destruct (itself r e) eqn:I.
    + apply itself_spec in I. subst e. exists st. auto.
    + cbn. rewrite H. eexists. split; [reflexivity|]. apply set_same.
  - destruct SE as (XR & NE & NN). destruct (eval st n) as [[m| |]|] eqn:EN; try discriminate.
    destruct (py_values st x e 0 (Z.to_nat m)) as [vs|] eqn:P; [|discriminate]. destruct (py_fold k vs) as [w|] eqn:F; [|discriminate]. injection H as <-.
    destruct (run_fold r k x n e st m vs XR NE NN EN P) as (s' & A & B & _). exists s'. rewrite runs_cons, A. split; [reflexivity|].
    rewrite B. f_equal. f_equal. apply (fold_value k vs w); [|exact F]. intros u U. exact (IR _ _ _ P U).
  - rewrite runs_cons, run_if. destruct (eval st c) as [[m| |]|]; try discriminate.
    destruct m; cbn; rewrite H; eexists; (split; [reflexivity|apply set_same]).
Qed.

Lemma fortran_ok r frees p st : ~ In r frees -> separate r p -> in_range st p -> gives_python st p frees (return_fortran r frees p st).
Proof.
  intros NR SE IR v H. destruct (value_ok r p st v SE IR H) as (s' & A & B).
  unfold return_fortran, visit_return. rewrite runs_app, A. cbn [bind]. destruct (runs_free frees s') as (t & C & D & E). rewrite C.
  rewrite E by exact NR. rewrite B. exists t. auto.
Qed.

(* ------------------------------ what the C printer does ------------------------------ *)

Lemma assigns_free l : flat_map assigns (map NFree l) = [].
Proof. induction l; cbn; auto. Qed.
Lemma freed_free l : freed (map NFree l) = l.
Proof. unfold freed. induction l; cbn; [reflexivity|]. f_equal. auto. Qed.
Lemma last_app l s : last_of (l ++ [s]) = Some s.
Proof. unfold last_of. rewrite rev_app_distr. reflexivity. Qed.
Lemma without_frees l l' : without_last (rev (map NFree l) ++ l') = rev (map NFree l) ++ without_last l'.
Proof. rewrite <- map_rev. induction (rev l); cbn; [reflexivity|]. f_equal. auto. Qed.

Definition dangerous (ty : name -> kind) (frees : list name) (v : name) : bool := mem v frees || has_rank (ty v).
Lemma dangerous_spec ty frees v : dangerous ty frees v = true <-> ty v <> VInt \/ In v frees.
Proof.
  unfold dangerous. rewrite orb_true_iff, mem_spec. destruct (ty v); cbn; split; intros [H|H]; auto; try discriminate; try (left; discriminate); try tauto; congruence.
Qed.
Definition moved (ty : name -> kind) (frees : list name) (r : name) (e : expr) : bool :=
  negb (existsb (dangerous ty frees) (inner_vars e)) && negb (match ty r with VArr => true | _ => false end).

Lemma print_simple ty r frees e : itself r e = false -> print_return ty r (visit_return r frees (PE e)) =
  if moved ty frees r e then (map NFree frees, e, false) else (NAssign r e :: map NFree frees, EVar r, true).
Proof.
  intros I. unfold visit_return, print_return, moved. cbn [visit_value]. rewrite I. cbn [app flat_map assigns]. rewrite assigns_free. cbn [app last_of rev].
  cbn [freed flat_map app]. fold (freed (map NFree frees)). rewrite freed_free. fold (dangerous ty frees).
  destruct (negb (existsb _ _) && _); [|reflexivity]. rewrite without_frees. cbn [without_last]. rewrite app_nil_r, rev_involutive. reflexivity.
Qed.
Lemma print_itself ty r frees : print_return ty r (visit_return r frees (PE (EVar r))) = (map NFree frees, EVar r, false).
Proof.
  unfold visit_return, print_return. cbn [visit_value itself]. rewrite name_eqb_refl. cbn [app]. rewrite assigns_free. reflexivity.
Qed.
Lemma last_fold r k x n e frees : last_of (flat_map assigns (visit_return r frees (PFold k x n e))) = Some (body r k e).
Proof.
  unfold visit_return. cbn [visit_value app flat_map]. rewrite assigns_free, app_nil_r, fold_node_eq. destruct k; reflexivity.
Qed.
Lemma print_fold ty r frees k x n e : print_return ty r (visit_return r frees (PFold k x n e)) =
  if (match k with KSum => false | _ => moved ty frees r (EOp (op k) (EVar r) e) end)
  then (fold_node r k x n e :: map NFree frees, EOp (op k) (EVar r) e, false)
  else (fold_node r k x n e :: map NFree frees, EVar r, true).
Proof.
  unfold print_return. rewrite last_fold.
  assert (FR : freed (visit_return r frees (PFold k x n e)) = frees).
  { unfold visit_return. cbn [visit_value app]. rewrite fold_node_eq. cbn [freed flat_map app]. apply freed_free. }
  assert (WO : rev (without_last (rev (visit_return r frees (PFold k x n e)))) = fold_node r k x n e :: map NFree frees).
  { unfold visit_return. cbn [visit_value app rev]. rewrite without_frees, rev_app_distr, rev_involutive, fold_node_eq. destruct k; reflexivity. }
  unfold moved. rewrite FR, WO. fold (dangerous ty frees). destruct k; [reflexivity|..]; cbn [body].
  - destruct (negb (existsb _ _) && _); reflexivity.
  - destruct (negb (existsb _ _) && _); reflexivity.
Qed.
Lemma print_if ty r frees c a b : print_return ty r (visit_return r frees (PIf c a b)) =
  if moved ty frees r b
  then (NIf c [NAssign r a] [NAssign r b] :: map NFree frees, b, false)
  else (NIf c [NAssign r a] [NAssign r b] :: map NFree frees, EVar r, true).
Proof.
  unfold print_return, visit_return, moved. cbn [visit_value app flat_map assigns]. rewrite assigns_free. cbn [app last_of rev].
  cbn [freed flat_map app]. fold (freed (map NFree frees)). rewrite freed_free. fold (dangerous ty frees).
  destruct (negb (existsb _ _) && _); [|reflexivity]. rewrite without_frees, rev_app_distr, rev_involutive. reflexivity.
Qed.

Lemma not_moved ty frees r e : needs ty frees e -> moved ty frees r e = false.
Proof.
  intros (v & V & H). unfold moved. apply andb_false_iff. left. apply negb_false_iff. apply existsb_exists. exists v. split; [exact V|]. apply dangerous_spec, H.
Qed.
Lemma moved_safe ty frees r e v : moved ty frees r e = true -> In v (inner_vars e) -> ~ In v frees /\ ty v = VInt.
Proof.
  unfold moved. rewrite andb_true_iff, !negb_true_iff. intros [H _] V.
  assert (D : dangerous ty frees v = false).
  { destruct (dangerous ty frees v) eqn:D; [|reflexivity]. rewrite <- H. symmetry. apply existsb_exists. eauto. }
  split; [intros I|destruct (ty v) eqn:T; [reflexivity|..]; exfalso]; rewrite (proj2 (dangerous_spec ty frees v)) in D; try discriminate; auto; left; congruence.
Qed.

(* nothing is moved: as in Fortran *)
Lemma kept_ok ty r frees p st : ~ In r frees -> separate r p -> in_range st p -> (print_return ty r (visit_return r frees p) = (visit_return r frees p, EVar r, true)) ->
  gives_python st p frees (return_c ty r frees p st).
Proof.
  intros NR SE IR PR v H. destruct (fortran_ok r frees p st NR SE IR v H) as (s' & A & B). exists s'. split; [|exact B].
  unfold return_c. rewrite PR. exact A.
Qed.

Lemma c_ok ty r frees p st : ~ In r frees -> separate r p -> in_range st p -> plain_c ty frees p -> gives_python st p frees (return_c ty r frees p st).
Proof.
  intros NR SE IR PC. destruct p as [e|k x n e|c a b].
  - destruct (itself r e) eqn:I.
    + apply itself_spec in I. subst e. intros v H. cbn [py_value eval] in H. unfold return_c. rewrite print_itself.
      destruct (runs_free frees st) as (t & C & D & E). rewrite C. cbn [eval]. rewrite E by exact NR. rewrite H. eauto.
    + destruct (moved ty frees r e) eqn:M.
      * intros v H. cbn [py_value] in H. unfold return_c. rewrite (print_simple ty r frees e I), M.
        destruct (runs_free frees st) as (t & C & D & E). rewrite C. exists t. split; [|exact D].
        replace (eval t e) with (Some v); [reflexivity|]. rewrite <- H. apply eval_ext. intros y Y. symmetry. apply E.
        destruct e; cbn in Y; try (destruct Y; fail); try (apply (moved_safe _ _ _ _ _ M); cbn; exact Y).
        destruct Y as [<-|[]]. exact PC.
      * apply kept_ok; auto. rewrite (print_simple ty r frees e I), M. unfold visit_return. cbn [visit_value]. rewrite I. reflexivity.
  - apply kept_ok; auto. rewrite print_fold. destruct k; [reflexivity|..].
    + rewrite not_moved; [reflexivity|]. destruct PC as (v & V & H). exists v. split; [cbn; auto|exact H].
    + rewrite not_moved; [reflexivity|]. destruct PC as (v & V & H). exists v. split; [cbn; auto|exact H].
  - apply kept_ok; auto. rewrite print_if, not_moved by exact PC. reflexivity.
Qed.

(* ------------------------------ where it fails ------------------------------ *)

Lemma fold_last ty r frees k x n e st m v w : k <> KSum -> ty r = VInt -> ~ In r frees -> ~ In x frees -> separate r (PFold k x n e) -> in_range st (PFold k x n e) ->
  (forall y, In y (vars e) -> ty y = VInt /\ ~ In y frees) ->
  eval st n = Some (OInt m) -> 0 <= m -> py_value st (PFold k x n e) = Some (OInt v) -> eval (at_ st x m) e = Some (OInt w) ->
  exists st', return_c ty r frees (PFold k x n e) st = Some (OInt (op k v w), st').
Proof.
  intros K TR NR NX SE IR SV EN M0 H W. cbn [py_value separate in_range] in *. destruct SE as (XR & NE & NN). rewrite EN in H.
  destruct (py_values st x e 0 (Z.to_nat m)) as [vs|] eqn:P; [|discriminate]. destruct (py_fold k vs) as [u|] eqn:F; [|discriminate]. injection H as <-.
  destruct (run_fold r k x n e st m vs XR NE NN EN P) as (s' & A & B & X & C).
  rewrite (fold_value k vs u) in B; [|intros z Z; exact (IR _ _ _ P Z)|exact F].
  assert (MV : moved ty frees r (EOp (op k) (EVar r) e) = true).
  { unfold moved. rewrite TR. rewrite andb_true_r. apply negb_true_iff. destruct (existsb _ _) eqn:Q; [|reflexivity].
    apply existsb_exists in Q. destruct Q as (y & Y & D). apply dangerous_spec in D. cbn in Y. destruct Y as [<-|Y]; [destruct D; congruence|].
    destruct (SV y Y). destruct D; congruence. }
  unfold return_c. rewrite print_fold, MV. replace (match k with KSum => false | _ => true end) with true by (destruct k; congruence).
  rewrite runs_cons, A. cbn [bind]. destruct (runs_free frees s') as (t & R1 & _ & R3). rewrite R1. cbn [eval]. rewrite (R3 r NR), B.
  rewrite (eval_ext e t (at_ st x m)); [rewrite W; eauto|]. intros y Y. destruct (SV y Y) as [_ NY]. rewrite (R3 y NY). unfold at_, set.
  destruct (name_eqb_spec y x) as [->|E]; [rewrite X; f_equal; f_equal; lia|]. apply C; [intros ->; contradiction|exact E].
Qed.

Lemma fold_undeclared ty i frees k x n e : k <> KSum -> ty (Temp i) = VInt -> ~ In (Temp i) frees ->
  (forall y, In y (vars e) -> ty y = VInt /\ ~ In y frees) ->
  used ty (Temp i) (frees, PFold k x n e) = true /\ declared ty (Temp i) [(frees, PFold k x n e)] = false.
Proof.
  intros K TR NR SV. assert (MV : moved ty frees (Temp i) (EOp (op k) (EVar (Temp i)) e) = true).
  { unfold moved. rewrite TR. rewrite andb_true_r. apply negb_true_iff. destruct (existsb _ _) eqn:Q; [|reflexivity].
    apply existsb_exists in Q. destruct Q as (y & Y & D). apply dangerous_spec in D. cbn in Y. destruct Y as [<-|Y]; [destruct D; congruence|].
    destruct (SV y Y). destruct D; congruence. }
  unfold used, declared. cbn [fst snd existsb]. rewrite print_fold, MV. replace (match k with KSum => false | _ => true end) with true by (destruct k; congruence).
  rewrite TR. split; [|reflexivity]. rewrite fold_node_eq. cbn [existsb mentions]. rewrite name_eqb_refl. reflexivity.
Qed.

Lemma declared_ok ty r returns : (forall q, In q returns -> plain_c ty (fst q) (snd q) /\ ~ In r (fst q) /\ match snd q with PE e => user_expr e | _ => True end) ->
  existsb (used ty r) returns = true -> declared ty r returns = true.
Proof.
  intros H U. unfold declared. destruct r as [x|i]; [cbn; rewrite orb_true_r; reflexivity|]. cbn [is_temp andb]. rewrite negb_involutive.
  apply existsb_exists in U. destruct U as ((frees & p) & Q & U). apply orb_true_iff. right. apply existsb_exists. exists (frees, p). split; [exact Q|].
  destruct (H _ Q) as (PC & NR & UE). cbn [fst snd] in *. unfold used in U. cbn [fst snd] in U.
  destruct p as [e|k x n e|c a b].
  - assert (NE : ~ In (Temp i) (vars e)) by (intros Y; destruct (UE _ Y) as (n & Z); discriminate).
    assert (I : itself (Temp i) e = false).
    { destruct (itself (Temp i) e) eqn:Z; [|reflexivity]. apply itself_spec in Z. destruct NE. rewrite Z. left. reflexivity. }
    rewrite (print_simple ty _ frees e I) in *. destruct (moved ty frees (Temp i) e); [|reflexivity].
    apply orb_true_iff in U. destruct U as [U|U].
    + apply existsb_exists in U. destruct U as (s & S & M). apply in_map_iff in S. destruct S as (y & <- & Y). cbn [mentions] in M.
      destruct (name_eqb_spec (Temp i) y); [subst y; contradiction|discriminate].
    + apply mem_spec in U. contradiction.
  - rewrite print_fold. destruct k; [reflexivity|..].
    + rewrite not_moved; [reflexivity|]. destruct PC as (v & V & D). exists v. split; [cbn; auto|exact D].
    + rewrite not_moved; [reflexivity|]. destruct PC as (v & V & D). exists v. split; [cbn; auto|exact D].
  - rewrite print_if, not_moved by exact PC. reflexivity.
Qed.

Lemma if_wrong ty r frees c a b st m : ty r = VStr -> ~ In r frees -> eval st c = Some (OInt m) -> m <> 0 ->
  exists st', return_c ty r frees (PIf c (EStr a) (EStr b)) st = Some (OStr b, st').
Proof.
  intros TR NR C M. unfold return_c. rewrite print_if. unfold moved. rewrite TR. cbn [inner_vars vars existsb negb andb].
  rewrite runs_cons, run_if, C. 
  replace (match m with 0 => runs [NAssign r (EStr b)] st | _ => runs [NAssign r (EStr a)] st end) with (Some (set st r (Some (OStr a)))) by (destruct m; [congruence|reflexivity|reflexivity]).
  cbn [bind]. destruct (runs_free frees (set st r (Some (OStr a)))) as (t & R1 & _). rewrite R1. cbn [eval]. eauto.
Qed.

Lemma string_wrong ty r frees y st : ty r <> VArr -> y <> r -> In y frees -> return_c ty r frees (PE (EVar y)) st = None.
Proof.
  intros TR YR Y. assert (I : itself r (EVar y) = false) by (cbn; destruct (name_eqb_spec r y); congruence).
  unfold return_c. rewrite (print_simple ty r frees _ I). unfold moved. cbn [inner_vars existsb negb andb].
  replace (negb match ty r with VArr => true | _ => false end) with true by (destruct (ty r); [reflexivity|reflexivity|congruence]).
  destruct (runs_free frees st) as (t & R1 & R2 & _). rewrite R1. cbn [eval]. rewrite (R2 y Y). reflexivity.
Qed.

Lemma times_zero r x : x <> r -> forall c i s, s r = Some (OInt 0) ->
  exists s', times c (fun i st => runs [NAug r Z.add (EVar r)] (set st x (Some (OInt i)))) s i = Some s' /\ s' r = Some (OInt 0).
Proof.
  intros XR. induction c as [|c IH]; intros i s R; cbn [times]; [eauto|].
  cbn [runs run eval]. rewrite set_other by congruence. rewrite R. cbn [bind]. apply IH. apply set_same.
Qed.
Lemma sum_zero r x n st m : x <> r -> ~ In r (vars n) -> eval st n = Some (OInt m) ->
  exists s', run (fold_node r KSum x n (EVar r)) st = Some s' /\ s' r = Some (OInt 0).
Proof.
  intros XR NN EN. cbn [fold_node]. rewrite run_gen, runs_cons. cbn [run eval bind]. rewrite runs_cons, run_for.
  rewrite (eval_ext n _ st) by (intros y Y; apply set_other; intros ->; contradiction). rewrite EN.
  destruct (times_zero r x XR (Z.to_nat m) 0 (set st r (Some (OInt 0))) (set_same _ _ _)) as (s' & A & B). rewrite A. cbn [bind runs].
  eexists. split; [reflexivity|]. rewrite set_other by congruence. exact B.
Qed.
Lemma py_constant st x y v : x <> y -> st y = Some (OInt v) -> forall c i, py_values st x (EVar y) i c = Some (repeat v c).
Proof.
  intros XY S. induction c as [|c IH]; intros i; cbn [py_values repeat]; [reflexivity|].
  cbn [eval]. unfold at_. rewrite set_other by congruence. rewrite S, IH. reflexivity.
Qed.
Lemma sum_repeat v c : fold_right Z.add 0 (repeat v c) = Z.of_nat c * v.
Proof. induction c as [|c IH]; [reflexivity|]. cbn [repeat fold_right]. rewrite IH, Nat2Z.inj_succ. lia. Qed.
Lemma accumulator_wrong ty r frees x n st m v : x <> r -> ~ In r (vars n) -> ~ In r frees -> eval st n = Some (OInt m) -> 0 <= m -> st r = Some (OInt v) ->
  py_value st (PFold KSum x n (EVar r)) = Some (OInt (m * v))
  /\ (exists st', return_c ty r frees (PFold KSum x n (EVar r)) st = Some (OInt 0, st'))
  /\ (exists st', return_fortran r frees (PFold KSum x n (EVar r)) st = Some (OInt 0, st')).
Proof.
  intros XR NN NR EN M0 S. destruct (sum_zero r x n st m XR NN EN) as (s' & A & B). destruct (runs_free frees s') as (t & R1 & _ & R3). repeat split.
  - cbn [py_value]. rewrite EN, (py_constant st x r v XR S). cbn [py_fold]. rewrite sum_repeat, Z2Nat.id by exact M0. reflexivity.
  - unfold return_c. rewrite print_fold. rewrite runs_cons, A. cbn [bind]. rewrite R1. cbn [eval]. rewrite (R3 r NR), B. eauto.
  - unfold return_fortran, visit_return. cbn [visit_value app]. rewrite runs_cons, A. cbn [bind]. rewrite R1, (R3 r NR), B. eauto.
Qed.

Lemma symbols_no e es : no_symbol e -> symbols (e :: es) = symbols es.
Proof. intros H. destruct e; try reflexivity. destruct H. Qed.
Lemma order_names valid forb x y e : x <> y -> In x valid -> ~ In x forb -> no_symbol e ->
  result_names valid forb [[EVar x; EVar y]; [e; EVar x]] = [x; Temp 1].
Proof.
  intros XY V F NS. unfold result_names. cbn [List.length seq map column nth]. unfold unique_name.
  assert (S0 : symbols [EVar x; e] = [x]) by (destruct e; try reflexivity; destruct NS).
  assert (S1 : symbols [EVar y; EVar x] = [y; x]) by (cbn; destruct (name_eqb_spec y x); [congruence|reflexivity]).
  rewrite S0, S1. rewrite (proj2 (mem_spec x valid) V). destruct (mem x forb) eqn:M; [apply mem_spec in M; contradiction|]. reflexivity.
Qed.
Lemma order_wrong valid forb x y e st v : x <> y -> In x valid -> ~ In x forb -> no_symbol e -> eval st e = Some v ->
  tuple_results (result_names valid forb [[EVar x; EVar y]; [e; EVar x]]) [e; EVar x] st = Some [Some v; Some v].
Proof.
  intros XY V F NS E. rewrite (order_names valid forb x y e XY V F NS). unfold tuple_results. cbn [assign_all].
  replace (itself x e) with false by (destruct e; try reflexivity; destruct NS). rewrite E. destruct x as [x|[|[|x]]]; cbn [itself name_eqb Nat.eqb eval assign_all].
  - rewrite set_same. cbn [map]. rewrite set_same, set_other by discriminate. rewrite set_same. reflexivity.
  - rewrite set_same. cbn [map]. rewrite set_same, set_other by discriminate. rewrite set_same. reflexivity.
  - cbn [map]. rewrite set_same. reflexivity.
  - rewrite set_same. cbn [map]. rewrite set_same, set_other by congruence. rewrite set_same. reflexivity.
Qed.
Lemma twice_names valid forb x a b : In x valid -> ~ In x forb -> no_symbol a -> no_symbol b ->
  result_names valid forb [[EVar x; a]; [b; EVar x]] = [x; x].
Proof.
  intros V F NA NB. unfold result_names. cbn [List.length seq map column nth]. unfold unique_name.
  assert (S0 : symbols [EVar x; b] = [x]) by (destruct b; try reflexivity; destruct NB).
  assert (S1 : symbols [a; EVar x] = [x]) by (destruct a; try reflexivity; destruct NA).
  rewrite S0, S1. rewrite (proj2 (mem_spec x valid) V). destruct (mem x forb) eqn:M; [apply mem_spec in M; contradiction|]. reflexivity.
Qed.

(* ------------------------------ the names of one return ------------------------------ *)

Definition name_at (valid forb : list name) (i : nat) (e : expr) : name :=
  match e with EVar x => if negb (mem x forb) && mem x valid then x else Temp i | _ => Temp i end.
Lemma name_at_ok valid forb i e : unique_name valid forb [e] i = name_at valid forb i e.
Proof. destruct e; reflexivity. Qed.
Fixpoint names_at (valid forb : list name) (i : nat) (es : list expr) : list name :=
  match es with [] => [] | e :: es' => name_at valid forb i e :: names_at valid forb (S i) es' end.
Lemma names_at_ok valid forb : forall es pre, map (fun i => unique_name valid forb (column i [pre ++ es]) i) (seq (List.length pre) (List.length es)) = names_at valid forb (List.length pre) es.
Proof.
  induction es as [|e es IH]; intros pre; [reflexivity|]. cbn [List.length seq map names_at]. f_equal.
  - unfold column. cbn [map]. rewrite app_nth2 by lia. rewrite Nat.sub_diag. cbn [nth]. apply name_at_ok.
  - specialize (IH (pre ++ [e])). rewrite app_length in IH. cbn [List.length] in IH. rewrite Nat.add_1_r in IH. rewrite <- app_assoc in IH. exact IH.
Qed.
Lemma result_names_one valid forb es : result_names valid forb [es] = names_at valid forb 0 es.
Proof. exact (names_at_ok valid forb es []). Qed.
Lemma names_at_in valid forb n : forall es i, In n (names_at valid forb i es) -> In n (alone es) \/ exists j, n = Temp j /\ (i <= j)%nat.
Proof.
  induction es as [|e es IH]; intros i H; [destruct H|]. cbn [names_at In] in H. destruct H as [H|H].
  - destruct e; cbn [name_at] in H; try (right; exists i; auto; fail).
    destruct (negb (mem x forb) && mem x valid); [left; cbn; auto|right; exists i; auto].
  - destruct (IH _ H) as [A|(j & -> & L)]; [left; unfold alone; cbn [flat_map]; apply in_or_app; right; exact A|right; exists j; split; [reflexivity|lia]].
Qed.
Lemma names_at_nodup valid forb : forall es i, (forall e, In e es -> user_expr e) -> NoDup (alone es) -> NoDup (names_at valid forb i es).
Proof.
  assert (A : forall es j, (forall e, In e es -> user_expr e) -> ~ In (Temp j) (alone es)).
  { intros es j U H. unfold alone in H. apply in_flat_map in H. destruct H as (e & I & H). destruct e; cbn in H; try tauto. destruct H as [->|[]].
    destruct (U _ I (Temp j)) as (m & Q); [cbn; auto|discriminate]. }
  induction es as [|e es IH]; intros i U D; [constructor|]. cbn [names_at].
  assert (D' : NoDup (alone es)). { unfold alone in *. cbn [flat_map] in D. destruct e; cbn [app] in D; auto. inversion D; auto. }
  constructor; [|apply IH; [intros e' H; apply U; right; exact H|exact D']].
  intros H. apply names_at_in in H. destruct e; cbn [name_at] in H; try (destruct H as [H|(j & Q & L)]; [apply (A es i) in H; [exact H|intros e' Q; apply U; right; exact Q]|injection Q as Q; lia]).
  destruct (negb (mem x forb) && mem x valid).
  - destruct H as [H|(j & -> & L)]; [unfold alone in D; cbn [flat_map app] in D; inversion D; auto|].
    destruct (U _ (or_introl eq_refl) (Temp j)) as (m & Q); [cbn; auto|discriminate].
  - destruct H as [H|(j & Q & L)]; [apply (A es i) in H; [exact H|intros e' Q; apply U; right; exact Q]|injection Q as Q; lia].
Qed.
Lemma one_return_names valid forb es : (forall e, In e es -> user_expr e) -> NoDup (alone es) -> NoDup (result_names valid forb [es]).
Proof. rewrite result_names_one. apply names_at_nodup. Qed.
Lemma names_at_app valid forb : forall es es' i, names_at valid forb i (es ++ es') = names_at valid forb i es ++ names_at valid forb (i + List.length es)%nat es'.
Proof. induction es as [|e es IH]; intros es' i; cbn [app names_at List.length]; [rewrite Nat.add_0_r; reflexivity|]. rewrite IH. rewrite Nat.add_succ_r. reflexivity. Qed.
Lemma twice_one valid forb x a b c : In x valid -> ~ In x forb -> ~ NoDup (result_names valid forb [a ++ EVar x :: b ++ EVar x :: c]).
Proof.
  intros V F. rewrite result_names_one, names_at_app. cbn [names_at]. rewrite names_at_app. cbn [names_at].
  assert (N : forall i, name_at valid forb i (EVar x) = x).
  { intros i. cbn [name_at]. replace (mem x forb) with false; [replace (mem x valid) with true; [reflexivity|]|].
    - symmetry. apply existsb_exists. exists x. split; [exact V|]. destruct x; cbn; apply Nat.eqb_refl.
    - symmetry. apply not_true_iff_false. intros H. apply existsb_exists in H. destruct H as (z & I & H). apply F.
      destruct x, z; cbn in H; try discriminate; apply Nat.eqb_eq in H; subst; exact I. }
  rewrite !N. intros D. apply NoDup_remove_2 in D. apply D. apply in_or_app. right. apply in_or_app. right. left. reflexivity.
Qed.

(* several returns of the same expressions *)
Lemma symbols_repeat e n : symbols (e :: repeat e n) = symbols [e].
Proof.
  induction n as [|n IH]; [reflexivity|]. cbn [repeat]. destruct e; try exact IH.
  cbn [symbols] in IH |- *. rewrite IH. cbn. destruct (name_eqb_spec x x) as [_|N]; [reflexivity|congruence].
Qed.
Lemma same_returns_names valid forb es n : result_names valid forb (es :: repeat es n) = result_names valid forb [es].
Proof.
  unfold result_names. apply map_ext. intros i. unfold unique_name, column. cbn [map].
  replace (map (fun l => nth i l (EInt 0)) (repeat es n)) with (repeat (nth i es (EInt 0)) n) by (clear; induction n; cbn; congruence).
  rewrite symbols_repeat. reflexivity.
Qed.
Lemma own_result_name valid forb es i a : nth_error es i = Some (EVar a) -> In a valid -> ~ In a forb ->
  nth_error (result_names valid forb [es]) i = Some a.
Proof.
  intros H V F. rewrite result_names_one. generalize 0%nat as j. revert i H. induction es as [|e es IH]; intros i H j; [destruct i; discriminate|].
  destruct i as [|i]; cbn [nth_error names_at] in H |- *; [|exact (IH i H (S j))].
  injection H as ->. cbn [name_at].
  replace (mem a valid) with true by (symmetry; unfold mem; apply existsb_exists; exists a; split; [exact V|destruct (name_eqb_spec a a); congruence]).
  replace (mem a forb) with false; [reflexivity|]. symmetry. unfold mem. apply Bool.not_true_iff_false. intros Q. apply existsb_exists in Q.
  destruct Q as (b & B & E). destruct (name_eqb_spec a b); [congruence|discriminate].
Qed.
