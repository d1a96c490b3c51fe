(** Proofs about the wrapper of a Fortran function. *)

From Coq Require Import List Bool Arith ZArith Lia.
From Verif Require Import Bind_Model Bind_Spec.
Import ListNotations.

Definition unhandled (handled : list nat) (p : param) : bool :=
  optional p && negb (existsb (Nat.eqb (pname p)) handled).

Definition keep (env : passed) (handled : list nat) (p : param) : bool :=
  negb (unhandled handled p && match env (pname p) with None => true | _ => false end).

Lemma existsb_name : forall n l, existsb (Nat.eqb n) l = true <-> In n l.
Proof.
  intros n l. rewrite existsb_exists. split.
  - intros [x [H E]]. apply Nat.eqb_eq in E. subst. exact H.
  - intros H. exists n. split; [exact H|apply Nat.eqb_refl].
Qed.

Lemma unhandled_app : forall h n p,
  unhandled (h ++ [n]) p = unhandled h p && negb (Nat.eqb (pname p) n).
Proof.
  intros h n p. unfold unhandled. rewrite existsb_app. cbn [existsb].
  rewrite orb_false_r, negb_orb. destruct (optional p); reflexivity.
Qed.

Lemma remove_arg_filter : forall n l,
  NoDup (map pname l) ->
  remove_arg n l = filter (fun p => negb (Nat.eqb (pname p) n)) l.
Proof.
  intros n l. induction l as [|p l IH]; intro ND; [reflexivity|].
  cbn [remove_arg filter]. inversion ND as [|x y NI ND']; subst.
  rewrite (Nat.eqb_sym n (pname p)).
  destruct (Nat.eqb (pname p) n) eqn:E; cbn [negb].
  - apply Nat.eqb_eq in E. subst n. clear IH.
    induction l as [|q l IH]; [reflexivity|].
    cbn [filter]. cbn [map In] in NI.
    destruct (Nat.eqb (pname q) (pname p)) eqn:F.
    + apply Nat.eqb_eq in F. exfalso. apply NI. left. exact F.
    + cbn [negb]. f_equal. apply IH.
      * cbn [map]. inversion ND' as [|u v NU NV]; subst.
        constructor; [intro H; apply NI; right; exact H|exact NV].
      * intro H. apply NI. right. exact H.
      * inversion ND'; assumption.
  - f_equal. apply IH. exact ND'.
Qed.

Lemma NoDup_map_filter : forall (f : param -> bool) l,
  NoDup (map pname l) -> NoDup (map pname (filter f l)).
Proof.
  intros f l. induction l as [|p l IH]; intro ND; [constructor|].
  cbn [filter map] in *. inversion ND as [|x y NI ND']; subst.
  destruct (f p); cbn [map]; [|apply IH; exact ND'].
  constructor; [|apply IH; exact ND'].
  intro H. apply NI. apply in_map_iff in H. destruct H as [q [E Hq]].
  apply filter_In in Hq. apply in_map_iff. exists q. split; tauto.
Qed.

Lemma filter_filter : forall (A : Type) (f g : A -> bool) l,
  filter f (filter g l) = filter (fun x => g x && f x) l.
Proof.
  intros A f g l. induction l as [|x l IH]; [reflexivity|].
  cbn [filter]. destruct (g x); cbn [filter andb]; [destruct (f x)|]; rewrite IH; reflexivity.
Qed.

Lemma same_name : forall l p q,
  NoDup (map pname l) -> In p l -> In q l -> pname p = pname q -> p = q.
Proof.
  induction l as [|x l IH]; intros p q ND Hp Hq E; [inversion Hp|].
  inversion ND as [|y z NI ND']; subst. destruct Hp as [Hp|Hp], Hq as [Hq|Hq].
  - congruence.
  - subst x. exfalso. apply NI. rewrite E. apply in_map. exact Hq.
  - subst x. exfalso. apply NI. rewrite <- E. apply in_map. exact Hp.
  - apply IH; assumption.
Qed.

Lemma count_unhandled : forall h p l,
  NoDup (map pname l) -> In p l -> unhandled h p = true ->
  S (length (filter (unhandled (h ++ [pname p])) l)) = length (filter (unhandled h) l).
Proof.
  intros h p l. induction l as [|q l IH]; intros ND Hin U; [inversion Hin|].
  inversion ND as [|x y NI ND']; subst. cbn [filter]. rewrite unhandled_app.
  destruct Hin as [->|Hin].
  - rewrite U, Nat.eqb_refl. cbn [negb andb length]. f_equal. f_equal.
    apply filter_ext_in. intros q Hq. rewrite unhandled_app.
    destruct (Nat.eqb (pname q) (pname p)) eqn:E; [|rewrite andb_true_r; reflexivity].
    apply Nat.eqb_eq in E. exfalso. apply NI. rewrite <- E. apply in_map. exact Hq.
  - destruct (Nat.eqb (pname q) (pname p)) eqn:E.
    + apply Nat.eqb_eq in E. exfalso. apply NI. rewrite E. apply in_map. exact Hin.
    + cbn [negb]. rewrite andb_true_r.
      destruct (unhandled h q); cbn [length]; rewrite (IH ND' Hin U); reflexivity.
Qed.

Lemma remove_count : forall h n l,
  NoDup (map pname l) ->
  length (filter (unhandled (h ++ [n])) (remove_arg n l)) =
  length (filter (unhandled (h ++ [n])) l).
Proof.
  intros h n l ND. rewrite (remove_arg_filter n l ND), filter_filter. f_equal.
  apply filter_ext. intro p. rewrite unhandled_app.
  destruct (Nat.eqb (pname p) n); cbn [negb andb]; [rewrite andb_false_r|]; reflexivity.
Qed.

(** The leaf which is reached has the arguments which are present. *)
Lemma gen_run : forall ps0 t bound env fuel l h,
  NoDup (map pname l) ->
  length (filter (unhandled h) l) < fuel ->
  run ps0 env (gen fuel t bound l h) =
  run ps0 env (leaf t bound (filter (keep env h) l)).
Proof.
  intros ps0 t bound env fuel. induction fuel as [|fuel IH]; intros l h ND Hf; [lia|].
  cbn [gen].
  change (fun p => optional p && negb (existsb (Nat.eqb (pname p)) h)) with (unhandled h).
  destruct (find (unhandled h) l) as [p|] eqn:F.
  - apply find_some in F. destruct F as [Hin U].
    pose proof (count_unhandled h p l ND Hin U) as HC.
    cbn [run]. destruct (env (pname p)) as [z|] eqn:E.
    + rewrite IH; [|exact ND|lia]. do 2 f_equal.
      apply filter_ext. intro q. unfold keep. rewrite unhandled_app.
      destruct (Nat.eqb (pname q) (pname p)) eqn:N; [|rewrite andb_true_r; reflexivity].
      apply Nat.eqb_eq in N. rewrite N, E, !andb_false_r. reflexivity.
    + rewrite IH.
      * do 2 f_equal. rewrite (remove_arg_filter _ _ ND), filter_filter.
        apply filter_ext_in. intros q Hq. unfold keep. rewrite unhandled_app.
        destruct (Nat.eqb (pname q) (pname p)) eqn:N; [|rewrite andb_true_r; reflexivity].
        apply Nat.eqb_eq in N. assert (q = p) by (apply (same_name l); assumption).
        subst q. rewrite U, E. reflexivity.
      * rewrite (remove_arg_filter _ _ ND). apply NoDup_map_filter. exact ND.
      * rewrite (remove_count _ _ _ ND). lia.
  - do 2 f_equal. rewrite <- (filter_ext_in (fun _ => true)).
    + clear. induction l as [|p l IH]; [reflexivity|]. cbn [filter]. f_equal. exact IH.
    + intros q Hq. unfold keep. rewrite (find_none _ _ F q Hq). reflexivity.
Qed.

Lemma gen_calls : forall t bound fuel l h,
  NoDup (map pname l) ->
  length (filter (unhandled h) l) < fuel ->
  fails (gen fuel t bound l h) = false ->
  calls (gen fuel t bound l h) = 2 ^ length (filter (unhandled h) l).
Proof.
  intros t bound fuel. induction fuel as [|fuel IH]; intros l h ND Hf HF; [lia|].
  cbn [gen] in *.
  change (fun p => optional p && negb (existsb (Nat.eqb (pname p)) h)) with (unhandled h) in *.
  destruct (find (unhandled h) l) as [p|] eqn:F.
  - apply find_some in F. destruct F as [Hin U].
    pose proof (count_unhandled h p l ND Hin U) as HC.
    cbn [calls fails] in *. apply orb_false_iff in HF. destruct HF as [HF1 HF2].
    rewrite <- HC. rewrite IH; [|exact ND|lia|exact HF1]. rewrite IH; [| | |exact HF2].
    + rewrite (remove_count _ _ _ ND). cbn [Nat.pow]. lia.
    + rewrite (remove_arg_filter _ _ ND). apply NoDup_map_filter. exact ND.
    + rewrite (remove_count _ _ _ ND). lia.
  - assert (filter (unhandled h) l = []) as ->.
    { clear - F. induction l as [|p l IH]; [reflexivity|]. cbn [find filter] in *.
      destruct (unhandled h p); [discriminate|]. apply IH. exact F. }
    unfold leaf in *. destruct (point t l); [|discriminate].
    destruct (fill l0 _) as [full|]; [|discriminate].
    unfold print_call in *. destruct bound; [destruct full; [discriminate|]|]; reflexivity.
Qed.

(** Every leaf which can be reached is the leaf of the arguments kept by some
    [env]: so the generation fails only if one of these does. *)
Lemma gen_fails : forall t bound fuel l h,
  NoDup (map pname l) ->
  length (filter (unhandled h) l) < fuel ->
  (forall env, fails (leaf t bound (filter (keep env h) l)) = false) ->
  fails (gen fuel t bound l h) = false.
Proof.
  intros t bound fuel. induction fuel as [|fuel IH]; intros l h ND Hf HF; [lia|].
  cbn [gen].
  change (fun p => optional p && negb (existsb (Nat.eqb (pname p)) h)) with (unhandled h).
  destruct (find (unhandled h) l) as [p|] eqn:F.
  - apply find_some in F. destruct F as [Hin U].
    pose proof (count_unhandled h p l ND Hin U) as HC.
    cbn [fails]. apply orb_false_iff. split.
    + apply IH; [exact ND|lia|]. intro env.
      rewrite <- (HF (fun n => if Nat.eqb n (pname p) then Some 0%Z else env n)).
      do 2 f_equal. apply filter_ext. intro q. unfold keep. rewrite unhandled_app.
      destruct (Nat.eqb (pname q) (pname p)); cbn [negb].
      * rewrite !andb_false_r. reflexivity.
      * rewrite andb_true_r. reflexivity.
    + apply IH.
      * rewrite (remove_arg_filter _ _ ND). apply NoDup_map_filter. exact ND.
      * rewrite (remove_count _ _ _ ND). lia.
      * intro env.
        rewrite <- (HF (fun n => if Nat.eqb n (pname p) then None else env n)).
        do 2 f_equal. rewrite (remove_arg_filter _ _ ND), filter_filter.
        apply filter_ext_in. intros q Hq. unfold keep. rewrite unhandled_app.
        destruct (Nat.eqb (pname q) (pname p)) eqn:N; cbn [negb].
        -- apply Nat.eqb_eq in N. assert (q = p) by (apply (same_name l); assumption).
           subst q. rewrite U. reflexivity.
        -- rewrite andb_true_r. reflexivity.
  - specialize (HF (fun _ => Some 0%Z)). rewrite <- HF. do 2 f_equal.
    symmetry. clear. induction l as [|p l IH]; [reflexivity|]. cbn [filter].
    unfold keep at 1. rewrite andb_false_r. cbn [negb]. f_equal. exact IH.
Qed.

(** * The filled call *)

Definition given (env : passed) (p : param) : bool :=
  negb (optional p && match env (pname p) with None => true | _ => false end).

Lemma keep_nil : forall env p, keep env [] p = given env p.
Proof.
  intros env p. unfold keep, given, unhandled. cbn [existsb negb].
  rewrite andb_true_r. reflexivity.
Qed.

Definition full_args (f : param -> bool) (ps : list param) : list carg :=
  map (fun p => (pname p, if f p then VLocal (pname p) else VNil)) ps.

Lemma filter_all_length : forall (A : Type) (f : A -> bool) l,
  length (filter f l) = length l -> filter f l = l /\ forall x, In x l -> f x = true.
Proof.
  intros A f l. induction l as [|x l IH]; intro H.
  - split; [reflexivity|intros x []].
  - cbn [filter length] in *. destruct (f x) eqn:E.
    + cbn [length] in H. injection H as H. destruct (IH H) as [H1 H2].
      split; [f_equal; exact H1|]. intros y [<-|Hy]; auto.
    + exfalso. clear - H.
      assert (length (filter f l) <= length l).
      { clear. induction l; cbn [filter length]; [lia|]. destruct (f a); cbn [length]; lia. }
      lia.
Qed.

Lemma dict_set_skip : forall n v d1 d2,
  ~ In n (map fst d1) -> dict_set n v (d1 ++ d2) = d1 ++ dict_set n v d2.
Proof.
  intros n v d1 d2. induction d1 as [|[m w] d1 IH]; intro H; [reflexivity|].
  cbn [app dict_set]. destruct (Nat.eqb n m) eqn:E.
  - apply Nat.eqb_eq in E. subst. exfalso. apply H. left. reflexivity.
  - f_equal. apply IH. intro K. apply H. right. exact K.
Qed.

Lemma fold_dict : forall (f : param -> bool) l d1,
  NoDup (map fst d1 ++ map pname l) ->
  (forall p, In p l -> f p = false -> optional p = true) ->
  fold_left (fun d a => dict_set (fst a) (snd a) d)
    (map (fun p => (pname p, VLocal (pname p))) (filter f l))
    (d1 ++ map (fun p => (pname p, option_map of_dflt (pdef p))) l) =
  d1 ++ map (fun p => (pname p, Some (if f p then VLocal (pname p) else VNil))) l.
Proof.
  intros f l. induction l as [|p l IH]; intros d1 ND HO; [reflexivity|].
  cbn [filter map]. destruct (f p) eqn:E.
  - cbn [map fold_left fst snd]. rewrite dict_set_skip.
    + cbn [dict_set]. rewrite Nat.eqb_refl.
      change (d1 ++ (pname p, Some (VLocal (pname p))) ::
        map (fun p => (pname p, option_map of_dflt (pdef p))) l) with
        (d1 ++ [(pname p, Some (VLocal (pname p)))] ++
        map (fun p => (pname p, option_map of_dflt (pdef p))) l).
      rewrite app_assoc. rewrite IH.
      * rewrite <- app_assoc. reflexivity.
      * rewrite map_app. cbn [map fst]. rewrite <- app_assoc. exact ND.
      * intros q Hq. apply HO. right. exact Hq.
    + cbn [map] in ND. apply NoDup_remove_2 in ND. intro K. apply ND.
      apply in_or_app. left. exact K.
  - assert (option_map of_dflt (pdef p) = Some VNil) as ->.
    { specialize (HO p (or_introl eq_refl) E). unfold optional in HO.
      destruct (pdef p) as [[|]|]; try discriminate. reflexivity. }
    change (d1 ++ (pname p, Some VNil) ::
      map (fun p => (pname p, option_map of_dflt (pdef p))) l) with
      (d1 ++ [(pname p, Some VNil)] ++
      map (fun p => (pname p, option_map of_dflt (pdef p))) l).
    rewrite app_assoc. rewrite IH.
    + rewrite <- app_assoc. reflexivity.
    + rewrite map_app. cbn [map fst]. rewrite <- app_assoc. exact ND.
    + intros q Hq. apply HO. right. exact Hq.
Qed.

Lemma dict_values_some : forall l,
  dict_values (map (fun a : carg => (fst a, Some (snd a))) l) = Some l.
Proof.
  induction l as [|[n v] l IH]; [reflexivity|]. cbn [map dict_values fst snd].
  rewrite IH. reflexivity.
Qed.

Lemma fill_filter : forall (f : param -> bool) ps,
  NoDup (map pname ps) ->
  (forall p, In p ps -> f p = false -> optional p = true) ->
  fill ps (map (fun p => (pname p, VLocal (pname p))) (filter f ps)) =
  Some (full_args f ps).
Proof.
  intros f ps ND HO. unfold fill. rewrite map_length.
  destruct (Nat.eqb (length (filter f ps)) (length ps)) eqn:E.
  - apply Nat.eqb_eq in E. apply filter_all_length in E. destruct E as [E1 E2].
    rewrite E1. f_equal. unfold full_args. apply map_ext_in. intros p Hp.
    rewrite (E2 p Hp). reflexivity.
  - pose proof (fold_dict f ps [] ND HO) as H. cbn [app] in H. rewrite H.
    rewrite <- (dict_values_some (full_args f ps)). f_equal. unfold full_args.
    rewrite map_map. reflexivity.
Qed.

(** The same with the names and defaults of another overload. *)
Lemma fill_same : forall ps qs args, same_function ps qs -> fill ps args = fill qs args.
Proof.
  intros ps qs args H. unfold same_function in H. unfold fill.
  assert (length ps = length qs) as ->.
  { rewrite <- (map_length (fun p => (pname p, pdef p)) ps), H. apply map_length. }
  assert (map (fun p => (pname p, option_map of_dflt (pdef p))) ps =
          map (fun p => (pname p, option_map of_dflt (pdef p))) qs) as ->.
  { assert (forall l, map (fun p => (pname p, option_map of_dflt (pdef p))) l =
      map (fun x => (fst x, option_map of_dflt (snd x)))
        (map (fun p => (pname p, pdef p)) l)) as K.
    { intro l. rewrite map_map. reflexivity. }
    rewrite !K, H. reflexivity. }
  reflexivity.
Qed.

(** * The run of the leaf *)

Definition kept (f : param -> bool) (ps : list param) : list carg :=
  map (fun p => (pname p, VLocal (pname p))) (filter f ps).

Lemma filter_full : forall f ps,
  filter (fun a : carg => match snd a with VNil => false | _ => true end)
    (full_args f ps) = kept f ps.
Proof.
  intros f ps. unfold full_args, kept. induction ps as [|p ps IH]; [reflexivity|].
  cbn [map filter]. destruct (f p); cbn [snd filter map]; [f_equal|]; exact IH.
Qed.

Lemma find_kept : forall f ps p,
  NoDup (map pname ps) -> In p ps ->
  find (fun a => Nat.eqb (pname p) (fst a)) (kept f ps) =
  (if f p then Some (pname p, VLocal (pname p)) else None).
Proof.
  intros f ps p. unfold kept. induction ps as [|q ps IH]; intros ND Hin; [inversion Hin|].
  inversion ND as [|x y NI ND']; subst. cbn [filter].
  destruct Hin as [->|Hin].
  - destruct (f p) eqn:E.
    + cbn [map find fst]. rewrite Nat.eqb_refl. reflexivity.
    + assert (forall l, ~ In (pname p) (map pname l) ->
        find (fun a : carg => Nat.eqb (pname p) (fst a))
          (map (fun p => (pname p, VLocal (pname p))) (filter f l)) = None) as K.
      { intro l. induction l as [|r l IHl]; intro Hn; [reflexivity|].
        cbn [filter]. assert (~ In (pname p) (map pname l)) as Hn'.
        { intro K. apply Hn. right. exact K. }
        destruct (f r); [|apply IHl; exact Hn'].
        cbn [map find fst]. destruct (Nat.eqb (pname p) (pname r)) eqn:N; [|apply IHl; exact Hn'].
        apply Nat.eqb_eq in N. exfalso. apply Hn. left. symmetry. exact N. }
      apply K. exact NI.
  - destruct (f q); [|apply IH; assumption].
    cbn [map find fst]. destruct (Nat.eqb (pname p) (pname q)) eqn:N; [|apply IH; assumption].
    apply Nat.eqb_eq in N. exfalso. apply NI. rewrite <- N. apply in_map. exact Hin.
Qed.

Lemma find_param : forall ps p,
  NoDup (map pname ps) -> In p ps ->
  find (fun q => Nat.eqb (pname p) (pname q)) ps = Some p.
Proof.
  intros ps p. induction ps as [|q ps IH]; intros ND Hin; [inversion Hin|].
  inversion ND as [|x y NI ND']; subst. cbn [find].
  destruct Hin as [->|Hin]; [rewrite Nat.eqb_refl; reflexivity|].
  destruct (Nat.eqb (pname p) (pname q)) eqn:N; [|apply IH; assumption].
  apply Nat.eqb_eq in N. exfalso. apply NI. rewrite <- N. apply in_map. exact Hin.
Qed.

Lemma eval_given : forall all env p,
  NoDup (map pname all) -> In p all -> complete all env -> given env p = true ->
  exists z, env (pname p) = Some z /\
    eval all env (map pname (filter optional (filter (given env) all))) (VLocal (pname p))
    = GVal z.
Proof.
  intros all env p ND Hin HC G. cbn [eval]. rewrite (find_param all p ND Hin).
  destruct (optional p) eqn:O.
  - assert (existsb (Nat.eqb (pname p))
      (map pname (filter optional (filter (given env) all))) = true) as ->.
    { apply existsb_name. apply in_map. apply filter_In. split; [|exact O].
      apply filter_In. split; assumption. }
    cbn [andb negb]. unfold given in G. rewrite O in G.
    destruct (env (pname p)) as [z|]; [|discriminate]. exists z. split; reflexivity.
  - cbn [andb]. specialize (HC p Hin O). destruct (env (pname p)) as [z|].
    + exists z. split; reflexivity.
    + exfalso. apply HC. reflexivity.
Qed.

Lemma associate_given : forall all env args ps,
  NoDup (map pname all) -> complete all env ->
  (forall p, In p ps -> In p all) ->
  (forall p, In p ps -> find (fun a => Nat.eqb (pname p) (fst a)) args =
     if given env p then Some (pname p, VLocal (pname p)) else None) ->
  associate all env (map pname (filter optional (filter (given env) all))) args ps =
  Received (map (fun p => env (pname p)) ps).
Proof.
  intros all env args ps ND HC. induction ps as [|p ps IH]; intros Hin HF; [reflexivity|].
  cbn [associate map]. rewrite (HF p (or_introl eq_refl)).
  assert (associate all env (map pname (filter optional (filter (given env) all))) args ps
    = Received (map (fun p => env (pname p)) ps)) as ->.
  { apply IH; intros q Hq; [apply Hin|apply HF]; right; exact Hq. }
  destruct (given env p) eqn:G.
  - destruct (eval_given all env p ND (Hin p (or_introl eq_refl)) HC G) as [z [Ez Ev]].
    cbn [snd]. rewrite Ev, Ez. reflexivity.
  - unfold given in G. destruct (optional p); [|discriminate].
    destruct (env (pname p)); [discriminate|reflexivity].
Qed.

Lemma keywords_kept : forall f ps, keywords_ok ps (kept f ps) = true.
Proof.
  intros f ps. unfold keywords_ok, kept. apply forallb_forall. intros a Ha.
  apply in_map_iff in Ha. destruct Ha as [p [<- Hp]]. apply filter_In in Hp.
  apply existsb_exists. exists p. split; [tauto|]. apply Nat.eqb_refl.
Qed.

Lemma given_optional : forall env ps p,
  In p ps -> given env p = false -> optional p = true.
Proof.
  intros env ps p _ H. unfold given in H. destruct (optional p); [reflexivity|discriminate].
Qed.

Lemma run_print : forall bound ps env,
  signature bound ps -> complete ps env ->
  run ps env (print_call bound (map pname (filter optional (filter (given env) ps)))
                (full_args (given env) ps)) =
  Received (map (fun p => env (pname p)) ps).
Proof.
  intros bound ps env [ND HB] HC. unfold print_call. destruct bound.
  - destruct (HB eq_refl) as [p [ps' [-> O]]].
    unfold full_args at 1. cbn [map]. fold (full_args (given env) ps').
    assert (given env p = true) as G.
    { unfold given. rewrite O. reflexivity. }
    rewrite G. cbn [run snd].
    destruct (eval_given (p :: ps') env p ND (or_introl eq_refl) HC G) as [z [Ez Ev]].
    rewrite Ev, filter_full, keywords_kept.
    inversion ND as [|x y NI ND']; subst.
    rewrite (associate_given (p :: ps') env (kept (given env) ps') ps' ND HC).
    + rewrite Ez. reflexivity.
    + intros q Hq. right. exact Hq.
    + intros q Hq. apply find_kept; assumption.
  - cbn [run]. rewrite filter_full, keywords_kept.
    apply associate_given; [exact ND|exact HC|intros; assumption|].
    intros q Hq. apply find_kept; assumption.
Qed.

Lemma wrapper_leaf : forall t bound ps env,
  NoDup (map pname ps) ->
  run ps env (wrapper t bound ps) = run ps env (leaf t bound (filter (given env) ps)).
Proof.
  intros t bound ps env ND. unfold wrapper. rewrite gen_run; [|exact ND|].
  - do 2 f_equal. apply filter_ext. apply keep_nil.
  - assert (forall (f : param -> bool) l, length (filter f l) <= length l) as K.
    { intros f l. induction l as [|x l IH]; cbn [filter length]; [lia|].
      destruct (f x); cbn [length]; lia. }
    specialize (K (unhandled []) ps). lia.
Qed.

Lemma wrapper_plain : forall bound ps env,
  signature bound ps -> complete ps env ->
  run ps env (wrapper (Plain ps) bound ps) = Received (map (fun p => env (pname p)) ps).
Proof.
  intros bound ps env HS HC. rewrite wrapper_leaf; [|apply HS].
  unfold leaf. cbn [point]. rewrite fill_filter; [|apply HS|apply given_optional].
  apply run_print; assumption.
Qed.

Lemma leaf_plain_ok : forall t bound ps env,
  signature bound ps ->
  (exists qs, point t (filter (given env) ps) = Some qs /\ same_function ps qs) ->
  leaf t bound (filter (given env) ps) =
  print_call bound (map pname (filter optional (filter (given env) ps)))
    (full_args (given env) ps).
Proof.
  intros t bound ps env HS [qs [EP HSF]]. unfold leaf. rewrite EP.
  rewrite <- (fill_same ps qs _ HSF).
  rewrite fill_filter; [reflexivity|apply HS|apply given_optional].
Qed.

Lemma print_ok : forall bound ps env setup,
  signature bound ps -> fails (print_call bound setup (full_args (given env) ps)) = false.
Proof.
  intros bound ps env setup [_ HB]. unfold print_call. destruct bound; [|reflexivity].
  destruct (HB eq_refl) as [p [ps' [-> _]]]. reflexivity.
Qed.

Lemma filter_length_le : forall (f : param -> bool) l, length (filter f l) <= length l.
Proof.
  intros f l. induction l as [|x l IH]; cbn [filter length]; [lia|].
  destruct (f x); cbn [length]; lia.
Qed.

Lemma wrapper_fails : forall t bound ps,
  signature bound ps ->
  (forall env, exists qs, point t (filter (given env) ps) = Some qs /\ same_function ps qs) ->
  fails (wrapper t bound ps) = false.
Proof.
  intros t bound ps HS HP. unfold wrapper. apply gen_fails; [apply HS| |].
  - pose proof (filter_length_le (unhandled []) ps). lia.
  - intro env. rewrite (filter_ext _ _ (keep_nil env)).
    rewrite leaf_plain_ok; [|exact HS|apply HP]. apply print_ok. exact HS.
Qed.

Lemma wrapper_calls : forall t bound ps,
  signature bound ps -> fails (wrapper t bound ps) = false ->
  calls (wrapper t bound ps) = 2 ^ length (filter optional ps).
Proof.
  intros t bound ps HS HF. unfold wrapper in *.
  rewrite gen_calls; [|apply HS| |exact HF].
  - do 2 f_equal. apply filter_ext. intro p. unfold unhandled. cbn [existsb negb].
    apply andb_true_r.
  - pose proof (filter_length_le (unhandled []) ps). lia.
Qed.

Lemma wrapper_plain_calls : forall bound ps,
  signature bound ps ->
  fails (wrapper (Plain ps) bound ps) = false /\
  calls (wrapper (Plain ps) bound ps) = 2 ^ length (filter optional ps).
Proof.
  intros bound ps HS.
  assert (fails (wrapper (Plain ps) bound ps) = false) as HF.
  { apply wrapper_fails; [exact HS|]. intro env. exists ps. split; reflexivity. }
  split; [exact HF|]. apply wrapper_calls; assumption.
Qed.

(** * Overloaded methods *)

Lemma types_refl : forall ps qs, types_match ps (ps ++ qs) = true.
Proof.
  intros ps qs. induction ps as [|p ps IH]; [destruct qs; reflexivity|].
  cbn [app types_match]. rewrite Nat.eqb_refl. exact IH.
Qed.

Lemma point_own : forall fs args ps rest,
  In ps fs -> ps = args ++ rest ->
  (forall f, In f fs -> same_function ps f) ->
  exists qs, point (Overloads fs) args = Some qs /\ same_function ps qs.
Proof.
  intros fs args ps rest Hin -> HS. cbn [point].
  destruct (find (types_match args) fs) as [qs|] eqn:F.
  - exists qs. split; [reflexivity|]. apply HS. apply (find_some _ _ F).
  - pose proof (find_none _ _ F _ Hin) as K. cbn beta in K.
    rewrite types_refl in K. discriminate.
Qed.

Lemma filter_given_last : forall env ps0 q,
  (forall p, In p ps0 -> optional p = false) ->
  exists rest, ps0 ++ [q] = filter (given env) (ps0 ++ [q]) ++ rest.
Proof.
  intros env ps0 q H. induction ps0 as [|p ps0 IH].
  - cbn [app filter]. destruct (given env q); [exists []|exists [q]]; reflexivity.
  - cbn [app filter]. assert (given env p = true) as ->.
    { unfold given. rewrite (H p (or_introl eq_refl)). reflexivity. }
    destruct IH as [rest E]; [intros r Hr; apply H; right; exact Hr|].
    exists rest. cbn [app]. f_equal. exact E.
Qed.

Lemma overload_last : forall fs bound ps0 q env,
  let ps := ps0 ++ [q] in
  signature bound ps -> complete ps env ->
  (forall p, In p ps0 -> optional p = false) ->
  In ps fs -> (forall f, In f fs -> same_function ps f) ->
  fails (wrapper (Overloads fs) bound ps) = false /\
  run ps env (wrapper (Overloads fs) bound ps) = Received (map (fun p => env (pname p)) ps).
Proof.
  intros fs bound ps0 q env ps HS HC HO Hin HSF.
  assert (forall e, exists qs, point (Overloads fs) (filter (given e) ps) = Some qs /\
    same_function ps qs) as HP.
  { intro e. destruct (filter_given_last e ps0 q HO) as [rest E].
    apply (point_own fs _ ps rest); assumption. }
  split; [apply wrapper_fails; assumption|].
  rewrite wrapper_leaf; [|apply HS]. rewrite leaf_plain_ok; [|exact HS|apply HP].
  apply run_print; assumption.
Qed.

Lemma types_prefix : forall pre q args ps,
  types_match (pre ++ q :: args) ps = true ->
  exists r, nth_error ps (length pre) = Some r /\ ptype r = ptype q.
Proof.
  induction pre as [|p pre IH]; intros q args ps H.
  - cbn [app types_match length] in *. destruct ps as [|r ps]; [discriminate|].
    apply andb_true_iff in H. destruct H as [H _]. apply Nat.eqb_eq in H.
    exists r. split; [reflexivity|]. symmetry. exact H.
  - cbn [app types_match length] in *. destruct ps as [|r ps]; [discriminate|].
    apply andb_true_iff in H. destruct H as [_ H]. cbn [nth_error].
    apply (IH q args). exact H.
Qed.

Lemma filter_all : forall (f : param -> bool) l,
  (forall x, In x l -> f x = true) -> filter f l = l.
Proof.
  intros f l H. induction l as [|x l IH]; [reflexivity|]. cbn [filter].
  rewrite (H x (or_introl eq_refl)). f_equal. apply IH. intros y Hy. apply H. right. exact Hy.
Qed.

Lemma fails_gen : forall t bound fuel l h env,
  NoDup (map pname l) ->
  length (filter (unhandled h) l) < fuel ->
  fails (leaf t bound (filter (keep env h) l)) = true ->
  fails (gen fuel t bound l h) = true.
Proof.
  intros t bound fuel. induction fuel as [|fuel IH]; intros l h env ND Hf HF; [reflexivity|].
  cbn [gen].
  change (fun p => optional p && negb (existsb (Nat.eqb (pname p)) h)) with (unhandled h).
  destruct (find (unhandled h) l) as [p|] eqn:F.
  - apply find_some in F. destruct F as [Hin U].
    pose proof (count_unhandled h p l ND Hin U) as HC.
    cbn [fails]. apply orb_true_iff. destruct (env (pname p)) as [z|] eqn:E.
    + left. apply (IH l _ env); [exact ND|lia|]. rewrite <- HF. do 2 f_equal.
      apply filter_ext. intro q. unfold keep. rewrite unhandled_app.
      destruct (Nat.eqb (pname q) (pname p)) eqn:N; [|rewrite andb_true_r; reflexivity].
      apply Nat.eqb_eq in N. rewrite N, E, !andb_false_r. reflexivity.
    + right. apply (IH _ _ env).
      * rewrite (remove_arg_filter _ _ ND). apply NoDup_map_filter. exact ND.
      * rewrite (remove_count _ _ _ ND). lia.
      * rewrite <- HF. do 2 f_equal. rewrite (remove_arg_filter _ _ ND), filter_filter.
        apply filter_ext_in. intros q Hq. unfold keep. rewrite unhandled_app.
        destruct (Nat.eqb (pname q) (pname p)) eqn:N; [|rewrite andb_true_r; reflexivity].
        apply Nat.eqb_eq in N. assert (q = p) by (apply (same_name l); assumption).
        subst q. rewrite U, E. reflexivity.
  - rewrite <- HF. do 2 f_equal. symmetry. apply filter_all. intros q Hq.
    unfold keep. rewrite (find_none _ _ F q Hq). reflexivity.
Qed.

Lemma overload_middle : forall fs bound pre p q post,
  NoDup (map pname (pre ++ p :: q :: post)) ->
  optional p = true ->
  (forall f r, In f fs -> nth_error f (length pre) = Some r -> ptype r <> ptype q) ->
  fails (wrapper (Overloads fs) bound (pre ++ p :: q :: post)) = true.
Proof.
  intros fs bound pre p q post ND O HT.
  set (ps := pre ++ p :: q :: post) in *.
  set (env := fun n => if Nat.eqb n (pname p) then None else Some 0%Z).
  unfold wrapper. apply (fails_gen _ _ _ _ _ env); [exact ND| |].
  - pose proof (filter_length_le (unhandled []) ps). lia.
  - assert (filter (keep env []) ps = pre ++ q :: post) as ->.
    { unfold ps. rewrite filter_app. f_equal.
      - apply filter_all. intros x Hx. unfold keep, env.
        destruct (Nat.eqb (pname x) (pname p)) eqn:E; [|rewrite andb_false_r; reflexivity].
        exfalso. apply Nat.eqb_eq in E. unfold ps in ND. rewrite map_app in ND.
        cbn [map] in ND. apply NoDup_remove_2 in ND. apply ND. apply in_or_app. left.
        rewrite <- E. apply in_map. exact Hx.
      - change (p :: q :: post) with ([p] ++ q :: post). rewrite filter_app.
        assert (filter (keep env []) [p] = []) as ->.
        { cbn [filter]. unfold keep, env, unhandled. rewrite O, Nat.eqb_refl. reflexivity. }
        cbn [app]. apply filter_all. intros x Hx. unfold keep, env.
        destruct (Nat.eqb (pname x) (pname p)) eqn:E; [|rewrite andb_false_r; reflexivity].
        exfalso. apply Nat.eqb_eq in E. unfold ps in ND. rewrite map_app in ND.
        cbn [map] in ND. apply NoDup_remove_2 in ND. apply ND. apply in_or_app. right.
        change (pname q :: map pname post) with (map pname (q :: post)).
        rewrite <- E. apply in_map. exact Hx. }
    unfold leaf. cbn [point].
    destruct (find (types_match (pre ++ q :: post)) fs) as [f|] eqn:F; [|reflexivity].
    apply find_some in F. destruct F as [Hin M].
    destruct (types_prefix _ _ _ _ M) as [r [Hr Et]]. exfalso. exact (HT f r Hin Hr Et).
Qed.
