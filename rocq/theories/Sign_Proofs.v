(* Proofs about signatures. *)
From Coq Require Import Bool Arith ZArith Lia List.
From Verif Require Import Call_Model Call_Spec Sign_Model Sign_Spec.
Import ListNotations.
Open Scope list_scope.

Definition P1 (s : sig) : list arg := map (fun n => mk_arg n KPosOnly None) (posonly s).
Definition ND (s : sig) : nat := length (args s) - length (defaults s).
Definition pairs (s : sig) : list (nat * option val) :=
  map (fun n => (n, None)) (firstn (ND s) (args s)) ++ map (fun p => (fst p, Some (snd p))) (combine (skipn (ND s) (args s)) (defaults s)).
Definition P2 (s : sig) : list arg := map (fun p => mk_arg (fst p) KNormal (snd p)) (pairs s).
Definition PV (s : sig) : list arg := match vararg s with Some n => [mk_arg n KVararg None] | None => [] end.
Definition PK (s : sig) : list arg := map (fun p => mk_arg (fst p) KKwOnly (snd p)) (kwonly s).
Definition PW (s : sig) : list arg := match kwarg s with Some n => [mk_arg n KKwarg None] | None => [] end.

Lemma visit_parts : forall s, no_posonly_default s -> visit_arguments s = P1 s ++ P2 s ++ PV s ++ PK s ++ PW s.
Proof.
  intros s H. unfold no_posonly_default in H. unfold visit_arguments, P1, P2, PV, PK, PW, pairs. cbv zeta.
  rewrite map_app, !map_map, <- app_assoc. cbn [fst snd].
  unfold py_take, py_drop.
  assert (((Z.of_nat (length (args s)) - Z.of_nat (length (defaults s))) <? 0)%Z = false) as -> by lia.
  replace (Z.to_nat (Z.of_nat (length (args s)) - Z.of_nat (length (defaults s)))) with (ND s) by (unfold ND; lia).
  reflexivity.
Qed.

Definition to_item (p : nat * option val) : item := IParam (fst p) (snd p).

Lemma params_app : forall p l, (forall n d l', l <> IParam n d :: l') -> params (map to_item p ++ l) = (p, l).
Proof.
  induction p as [|[n d] p IH]; intros l H; cbn.
  - destruct l as [|[] l]; try reflexivity. destruct (H n d l). reflexivity.
  - rewrite (IH l H). reflexivity.
Qed.

Lemma index_app : forall p l1 l2, forallb (fun a => negb (p a)) l1 = true ->
  index_of p (l1 ++ l2) = (length l1 + index_of p l2)%nat.
Proof.
  intros p. induction l1 as [|a l1 IH]; intros l2 H; [reflexivity|]. cbn in *.
  apply andb_true_iff in H. destruct H as [H1 H2]. destruct (p a); [discriminate|]. rewrite (IH l2 H2). reflexivity.
Qed.

Lemma forallb_map_kind : forall {A : Type} (f : A -> arg) (p : arg -> bool) l, (forall x, p (f x) = true) -> forallb p (map f l) = true.
Proof. intros A f p l H. induction l as [|x l IH]; [reflexivity|]. cbn. rewrite H, IH. reflexivity. Qed.

Lemma forallb_app' : forall (p : arg -> bool) l1 l2, forallb p (l1 ++ l2) = forallb p l1 && forallb p l2.
Proof. intros p l1 l2. apply forallb_app. Qed.

Lemma insert_app : forall {A : Type} (x : A) l1 l2, insert (length l1) x (l1 ++ l2) = l1 ++ x :: l2.
Proof.
  intros A x l1 l2. unfold insert. rewrite firstn_app, Nat.sub_diag, firstn_all, skipn_app, Nat.sub_diag, skipn_all.
  cbn. rewrite app_nil_r. reflexivity.
Qed.

(* the text of a signature *)
Definition slash (s : sig) : list item := match posonly s with [] => [] | _ => [ISlash] end.
Definition star (s : sig) : list item :=
  match vararg s with
  | Some n => [IVar n]
  | None => match kwonly s with [] => [] | _ => [IStar] end
  end.
Definition written (s : sig) : list item :=
  map to_item (map (fun n => (n, None)) (posonly s)) ++ slash s ++ map to_item (pairs s) ++ star s
  ++ map to_item (kwonly s) ++ match kwarg s with Some n => [IKw n] | None => [] end.

Lemma print_P1 : forall s, map print_arg (P1 s) = map to_item (map (fun n => (n, None)) (posonly s)).
Proof. intros s. unfold P1. rewrite !map_map. reflexivity. Qed.
Lemma print_P2 : forall s, map print_arg (P2 s) = map to_item (pairs s).
Proof. intros s. unfold P2. rewrite !map_map. reflexivity. Qed.
Lemma print_PK : forall s, map print_arg (PK s) = map to_item (kwonly s).
Proof. intros s. unfold PK. rewrite !map_map. reflexivity. Qed.
Lemma print_PW : forall s, map print_arg (PW s) = match kwarg s with Some n => [IKw n] | None => [] end.
Proof. intros s. unfold PW. destruct (kwarg s); reflexivity. Qed.

Lemma posonly_P1 : forall s, forallb (fun a => negb (negb (is_posonly a))) (P1 s) = true.
Proof. intros s. apply forallb_map_kind. reflexivity. Qed.
Lemma kwonly_P1 : forall s, forallb (fun a => negb (is_kwonly a)) (P1 s) = true.
Proof. intros s. apply forallb_map_kind. reflexivity. Qed.
Lemma kwonly_P2 : forall s, forallb (fun a => negb (is_kwonly a)) (P2 s) = true.
Proof. intros s. apply forallb_map_kind. reflexivity. Qed.

Lemma rest_index : forall s, index_of (fun a => negb (is_posonly a)) (P2 s ++ PV s ++ PK s ++ PW s) = O.
Proof.
  intros s. unfold P2, PV, PK, PW.
  destruct (pairs s), (vararg s), (kwonly s), (kwarg s); reflexivity.
Qed.

Lemma slash_step : forall s,
  (if match P1 s ++ P2 s ++ PV s ++ PK s ++ PW s with a :: _ => is_posonly a | [] => false end
   then insert (index_of (fun a => negb (is_posonly a)) (P1 s ++ P2 s ++ PV s ++ PK s ++ PW s)) ISlash
               (map print_arg (P1 s ++ P2 s ++ PV s ++ PK s ++ PW s))
   else map print_arg (P1 s ++ P2 s ++ PV s ++ PK s ++ PW s))
  = map print_arg (P1 s) ++ slash s ++ map print_arg (P2 s ++ PV s ++ PK s ++ PW s).
Proof.
  intros s. destruct (posonly s) as [|n p] eqn:E.
  - unfold slash. rewrite E. assert (P1 s = []) as -> by (unfold P1; rewrite E; reflexivity). cbn [app map].
    destruct (P2 s ++ PV s ++ PK s ++ PW s) as [|a l] eqn:Q; [reflexivity|].
    pose proof (rest_index s) as R. rewrite Q in R. cbn in R. destruct (is_posonly a); [discriminate|reflexivity].
  - assert (match P1 s ++ P2 s ++ PV s ++ PK s ++ PW s with a :: _ => is_posonly a | [] => false end = true) as ->
      by (unfold P1; rewrite E; reflexivity).
    rewrite index_app by apply posonly_P1. rewrite rest_index, Nat.add_0_r, map_app.
    rewrite <- (map_length print_arg (P1 s)), insert_app. unfold slash. rewrite E. reflexivity.
Qed.

Lemma existsb_kwonly : forall s, existsb is_kwonly (P1 s ++ P2 s ++ PV s ++ PK s ++ PW s) = match kwonly s with [] => false | _ => true end.
Proof.
  intros s. rewrite !existsb_app.
  assert (forall l, forallb (fun a => negb (is_kwonly a)) l = true -> existsb is_kwonly l = false) as N.
  { induction l as [|a l IH]; intros H; [reflexivity|]. cbn in *. apply andb_true_iff in H. destruct H as [H1 H2].
    destruct (is_kwonly a); [discriminate|]. auto. }
  rewrite (N _ (kwonly_P1 s)), (N _ (kwonly_P2 s)). unfold PV, PW, PK.
  destruct (kwonly s) as [|k ks]; [|destruct (vararg s); reflexivity].
  destruct (vararg s), (kwarg s); reflexivity.
Qed.

Lemma forallb_vararg : forall s, forallb (fun a => negb (is_vararg a)) (P1 s ++ P2 s ++ PV s ++ PK s ++ PW s)
  = match vararg s with Some _ => false | None => true end.
Proof.
  intros s. rewrite !forallb_app'. unfold P1, P2, PK. rewrite !forallb_map_kind by reflexivity.
  unfold PV, PW. destruct (vararg s), (kwarg s); reflexivity.
Qed.

Lemma signature_parts : forall s, no_posonly_default s ->
  signature (visit_arguments s) =
  let code := map print_arg (P1 s) ++ slash s ++ map print_arg (P2 s ++ PV s ++ PK s ++ PW s) in
  match vararg s, kwonly s with
  | None, _ :: _ => insert (length (P1 s) + length (P2 s)) IStar code
  | _, _ => code
  end.
Proof.
  intros s H. rewrite (visit_parts s H). unfold signature. cbv zeta. rewrite slash_step, existsb_kwonly, forallb_vararg.
  destruct (vararg s) as [v|] eqn:V; [rewrite andb_false_r; reflexivity|]. rewrite andb_true_r.
  destruct (kwonly s) as [|k ks] eqn:K; [reflexivity|].
  f_equal. rewrite index_app by apply kwonly_P1. f_equal. rewrite index_app by apply kwonly_P2.
  unfold PV, PK. rewrite V, K. cbn. lia.
Qed.

Lemma print_PV : forall s, map print_arg (PV s) = match vararg s with Some n => [IVar n] | None => [] end.
Proof. intros s. unfold PV. destruct (vararg s); reflexivity. Qed.

Lemma signature_written : forall s, no_posonly_default s -> one_mark s -> signature (visit_arguments s) = written s.
Proof.
  intros s H O. rewrite (signature_parts s H). cbv zeta. unfold written, star.
  rewrite !map_app, print_P1, print_P2, print_PK, print_PW, print_PV.
  destruct (vararg s) as [v|] eqn:V; [reflexivity|].
  destruct (kwonly s) as [|k ks] eqn:K; [reflexivity|].
  unfold one_mark in O. rewrite V, K in O. destruct O as [O|[O|O]]; try discriminate; [|congruence].
  unfold slash. rewrite O. cbn [map app]. unfold P1. rewrite O. cbn [map length plus].
  unfold P2. rewrite map_length, <- (map_length to_item (pairs s)). apply insert_app.
Qed.

Lemma defaults_skip : forall l1 l2, defaults_of (map (fun n => (n, None)) l1 ++ l2) = defaults_of l2.
Proof. induction l1 as [|a l1 IH]; intros l2; [reflexivity|]. cbn. apply IH. Qed.

Lemma all_defaults_pairs : forall l d, length l = length d ->
  all_defaults (map (fun p => (fst p, Some (snd p))) (combine l d)) = Some d.
Proof.
  induction l as [|a l IH]; intros [|v d] H; try discriminate; [reflexivity|]. cbn. rewrite (IH d); [reflexivity|].
  cbn in H. lia.
Qed.

Lemma defaults_pairs : forall s, no_posonly_default s ->
  defaults_of (map (fun n => (n, None)) (posonly s) ++ pairs s) = Some (defaults s).
Proof.
  intros s H. unfold no_posonly_default in H. rewrite defaults_skip. unfold pairs. rewrite defaults_skip.
  rewrite <- (all_defaults_pairs (skipn (ND s) (args s)) (defaults s)); [|rewrite skipn_length; unfold ND; lia].
  destruct (combine _ _) as [|[a v] l]; reflexivity.
Qed.

Lemma fst_pairs : forall s, no_posonly_default s -> map fst (pairs s) = args s.
Proof.
  intros s H. unfold no_posonly_default in H. unfold pairs. rewrite map_app, !map_map. cbn [fst]. rewrite map_id.
  assert (forall (l : list nat) (d : list val), length l = length d -> map (fun p => fst p) (combine l d) = l) as C.
  { induction l as [|a l IH]; intros [|v d] E; try discriminate; [reflexivity|]. cbn. f_equal. apply IH. cbn in E. lia. }
  rewrite C by (rewrite skipn_length; unfold ND; lia). apply firstn_skipn.
Qed.

Lemma kw_end : forall s n d l', match kwarg s with Some k => [IKw k] | None => [] end <> IParam n d :: l'.
Proof. intros s n d l'. destruct (kwarg s); discriminate. Qed.

Lemma finish_written : forall s k, no_posonly_default s -> k = kwonly s ->
  finish (map (fun n => (n, None)) (posonly s)) (pairs s) (vararg s) k
    match kwarg s with Some n => [IKw n] | None => [] end = Some s.
Proof.
  intros s k H ->. unfold finish. rewrite (defaults_pairs s H), map_map, (fst_pairs s H). cbn [fst]. rewrite map_id.
  destruct s as [p q d v k w]. cbn. destruct w; reflexivity.
Qed.

Lemma star_end : forall s n d l', star s ++ map to_item (kwonly s) ++ match kwarg s with Some k => [IKw k] | None => [] end <> IParam n d :: l'.
Proof.
  intros s n d l'. unfold star. destruct (vararg s); [discriminate|]. destruct (kwonly s); [|discriminate].
  apply kw_end.
Qed.

Lemma read_star_written : forall s, no_posonly_default s ->
  read_star (map (fun n => (n, None)) (posonly s)) (pairs s)
    (star s ++ map to_item (kwonly s) ++ match kwarg s with Some n => [IKw n] | None => [] end) = Some s.
Proof.
  intros s H. unfold star. destruct (vararg s) as [v|] eqn:V.
  - cbn [app read_star]. rewrite params_app by apply kw_end. rewrite <- V. apply finish_written; [exact H|reflexivity].
  - destruct (kwonly s) as [|k ks] eqn:K.
    + cbn [map app]. pose proof (finish_written s [] H (eq_sym K)) as F. rewrite V in F.
      destruct (kwarg s); exact F.
    + cbn [app read_star]. rewrite params_app by apply kw_end. rewrite <- V. apply finish_written; [exact H|auto].
Qed.

Lemma reads_written : forall s, no_posonly_default s -> python_reads (written s) = Some s.
Proof.
  intros s H. unfold written, slash. pose proof (read_star_written s H) as R.
  destruct (posonly s) as [|n p] eqn:E.
  - cbn [map app] in *. unfold python_reads. rewrite params_app by apply star_end.
    pose proof (star_end s) as S. pose proof (fun r => f_equal (fun l => match l with ISlash :: _ => true | _ => false end) (eq_refl r)) as _.
    unfold star in *. destruct (vararg s); [exact R|]. destruct (kwonly s); [|exact R].
    cbn [app map] in *. destruct (kwarg s); exact R.
  - rewrite <- E in *. unfold python_reads.
    rewrite (params_app (map (fun n => (n, None)) (posonly s))) by (intros; discriminate).
    cbn [app]. rewrite params_app by apply star_end. rewrite E at 1. cbn [map]. rewrite <- R, E. reflexivity.
Qed.

Lemma signature_main : forall s, no_posonly_default s -> one_mark s ->
  python_reads (signature (visit_arguments s)) = Some s.
Proof. intros s H O. rewrite (signature_written s H O). apply reads_written, H. Qed.

(* Otherwise the star is put before the last parameter after the slash, or before the slash. *)
Lemma signature_wrong : forall s, no_posonly_default s -> ~ one_mark s ->
  python_reads (signature (visit_arguments s)) <> Some s.
Proof.
  intros s H O. rewrite (signature_parts s H). cbv zeta. unfold one_mark in O.
  destruct (posonly s) as [|n p] eqn:E; [tauto|]. destruct (kwonly s) as [|k ks] eqn:K; [tauto|].
  destruct (vararg s) as [v|] eqn:V; [destruct O; right; right; discriminate|].
  unfold slash. rewrite E. rewrite !map_app, print_P1, print_P2, print_PK, print_PW, print_PV, V. cbn [app].
  set (W := match kwarg s with Some n => [IKw n] | None => [] end).
  assert (length (P1 s) = length (map to_item (map (fun n => (n, None)) (posonly s)))) as L1
    by (unfold P1; rewrite !map_length; reflexivity).
  assert (length (P2 s) = length (pairs s)) as L2 by (unfold P2; rewrite map_length; reflexivity).
  destruct (rev (pairs s)) as [|[m d] q] eqn:Q.
  - assert (pairs s = []) as Z by (rewrite <- (rev_involutive (pairs s)), Q; reflexivity).
    rewrite L2, Z. cbn [length map app]. rewrite Nat.add_0_r, L1, insert_app.
    unfold python_reads. rewrite params_app by (intros; discriminate). cbn [read_star params].
    discriminate.
  - assert (pairs s = rev q ++ [(m, d)]) as Z by (rewrite <- (rev_involutive (pairs s)), Q; reflexivity).
    rewrite L2, Z, app_length. cbn [length].
    replace (length (P1 s) + (length (rev q) + 1))%nat
      with (length (map to_item (map (fun n => (n, None)) (posonly s)) ++ ISlash :: map to_item (rev q)))
      by (rewrite app_length; cbn [length]; rewrite <- L1, map_length; lia).
    rewrite map_app. cbn [map].
    replace (map to_item (map (fun n => (n, None)) (posonly s)) ++ ISlash :: (map to_item (rev q) ++ [to_item (m, d)]) ++ map to_item (kwonly s) ++ W)
      with ((map to_item (map (fun n => (n, None)) (posonly s)) ++ ISlash :: map to_item (rev q)) ++ map to_item ((m, d) :: kwonly s) ++ W)
      by (rewrite <- ?app_assoc; cbn [app map]; rewrite <- ?app_assoc; reflexivity).
    rewrite insert_app, <- app_assoc. cbn [app]. unfold python_reads.
    rewrite params_app by (intros; discriminate).
    rewrite E at 1. cbn [map]. rewrite params_app by (intros; discriminate). cbn [read_star].
    change (to_item (m, d) :: map to_item (kwonly s)) with (map to_item ((m, d) :: kwonly s)).
    rewrite params_app by (intros; subst W; apply kw_end).
    intros R. assert (kwonly s = (m, d) :: kwonly s) as C.
    { revert R. unfold finish. destruct (defaults_of _); [|discriminate]. subst W.
      destruct (kwarg s); intros R; injection R as R; rewrite <- R at 1; reflexivity. }
    apply (f_equal (@length _)) in C. cbn in C. lia.
Qed.

(* methods *)
Lemma method_main : forall s, no_posonly_default s -> posonly s = [] -> args s <> [] ->
  exists fa, visit_method s = Some fa /\ python_reads (signature fa) = Some s.
Proof.
  intros s H E N. exists (visit_arguments s). split.
  - unfold visit_method. rewrite E. destruct (args s) as [|a l] eqn:A; [congruence|].
    rewrite (visit_parts s H). unfold P1. rewrite E. cbn [map app]. unfold P2.
    pose proof (fst_pairs s H) as F. destruct (pairs s) as [|[n d] ps]; [rewrite A in F; discriminate|]. reflexivity.
  - apply signature_main; [exact H|]. left. exact E.
Qed.
