(* Proofs about assignments with several targets. *)
From Coq Require Import ZArith List Bool Arith Lia.
From Verif Require Import Multi_Model Multi_Spec.
Import ListNotations.

Lemma names_map xs : names (map TName xs) = Some xs.
Proof. induction xs as [|x xs IH]; cbn; [reflexivity|now rewrite IH]. Qed.

Lemma targets_names a b xs :
  visit_targets (map Name (a :: b :: xs)) = TTuple (map TName (a :: b :: xs)).
Proof. unfold visit_targets. rewrite map_map. reflexivity. Qed.

Lemma targets_tuple l : visit_targets [Tuple l] = TTuple (map TName l).
Proof. reflexivity. Qed.

Fixpoint vsize (v : value) : nat :=
  match v with
  | Num _ => 1
  | Seq l => S ((fix sum (l : list value) : nat := match l with [] => 0 | u :: l' => vsize u + sum l' end) l)
  end.
Lemma elem_smaller v l : In v l -> vsize v < vsize (Seq l).
Proof.
  induction l as [|u l IH]; [contradiction|]. cbn [vsize] in *. intros [->|H]; [lia|]. specialize (IH H). lia.
Qed.
Lemma elem_differs v l : In v l -> v <> Seq l.
Proof. intros H ->. apply elem_smaller in H. lia. Qed.

Lemma give_in k ts : forall vs w w', give k ts vs w = Ran w' ->
  calls w' = calls w /\
  forall x, vars w' x = vars w x \/ (In x ts /\ exists v, In v vs /\ vars w' x = Some v).
Proof.
  induction ts as [|t ts IH]; intros vs w w' H.
  - injection H as <-. auto.
  - destruct vs as [|v vs]; cbn [give] in H.
    + destruct k; [|discriminate]. injection H as <-. auto.
    + destruct (accepts (vars w) t v); [|discriminate].
      apply IH in H. cbn [calls vars] in H. destruct H as [Hc H]. split; [exact Hc|].
      intros x. destruct (H x) as [E|[I [u [Iu Eu]]]].
      * unfold set in E. destruct (Nat.eqb_spec x t) as [Ext|N]; [subst x|].
        -- right. split; [now left|]. exists v. split; [now left|exact E].
        -- now left.
      * right. split; [now right|]. exists u. split; [now right|exact Eu].
Qed.

Lemma give_all k ts : forall vs w w', length ts <= length vs -> give k ts vs w = Ran w' ->
  vars w' = set_all ts vs (vars w).
Proof.
  induction ts as [|t ts IH]; intros vs w w' L H.
  - injection H as <-. destruct vs; reflexivity.
  - destruct vs as [|v vs]; cbn [length] in L; [lia|]. cbn [give] in H.
    destruct (accepts (vars w) t v); [|discriminate]. apply IH in H; [|lia]. exact H.
Qed.

Lemma give_short ts : forall vs w, NoDup ts -> (forall t, In t ts -> vars w t = None) ->
  length vs < length ts -> give false ts vs w = OutOfBounds.
Proof.
  induction ts as [|t ts IH]; intros vs w N F L; [cbn in L; lia|].
  destruct vs as [|v vs]; [reflexivity|]. cbn [give]. unfold accepts. rewrite F by now left.
  inversion N as [|? ? N1 N2]; subst. apply IH; [exact N2| |cbn in L; lia].
  intros x Hx. cbn [vars]. unfold set. destruct (Nat.eqb_spec x t) as [->|]; [contradiction|]. apply F. now right.
Qed.

(* Python *)
Lemma py_names ts v s : exists s', py_targets (map Name ts) v s = Some s' /\
  (forall x, In x ts -> s' x = Some v) /\ (forall x, ~ In x ts -> s' x = s x).
Proof.
  revert s. induction ts as [|t ts IH]; intros s.
  - exists s. cbn. repeat split; auto. contradiction.
  - destruct (IH (set s t v)) as [s' [E [A B]]]. exists s'. split; [exact E|]. split.
    + intros x [<-|H]; [|auto]. destruct (in_dec Nat.eq_dec t ts) as [I|I]; [auto|].
      rewrite B by exact I. unfold set. now rewrite Nat.eqb_refl.
    + intros x H. cbn in H. rewrite B by tauto. unfold set.
      destruct (Nat.eqb_spec x t) as [->|]; [tauto|reflexivity].
Qed.

Section P.
Variable fn : nat -> state -> value.
Variable tr : nat -> bool.
Variable kl : nat -> bool.

(* the elements that the targets may get *)
Definition elements (v : value) : list value := match v with Num _ => [] | Seq l => l end.

Lemma assign_names_in ts e w w' : assign_names fn tr kl ts e w = Ran w' ->
  exists v, py_value fn e w = Some v /\ calls w' = py_calls e w /\
  forall x, vars w' x = vars w x \/ (In x ts /\ exists u, In u (elements v) /\ vars w' x = Some u).
Proof.
  destruct e as [v|l|x|f]; cbn [assign_names py_value py_calls]; intros H.
  - discriminate.
  - destruct (length l <? length ts); [discriminate|]. apply give_in in H. exists (Seq l). tauto.
  - destruct (existsb (Nat.eqb x) ts); [discriminate|].
    destruct (vars w x) as [[z|vs]|]; [| |discriminate].
    + injection H as <-. exists (Num z). auto.
    + apply give_in in H. exists (Seq vs). tauto.
  - destruct (fn f (vars w)) as [z|vs].
    + injection H as <-. exists (Num z). auto.
    + exists (Seq vs). split; [reflexivity|].
      assert (G : exists k, give k ts vs (mkw (vars w) (calls w ++ [f])) = Ran w').
      { destruct (tr f); [destruct (Nat.eqb _ _); [|discriminate]|]; eexists; exact H. }
      destruct G as [k G]. apply give_in in G. exact G.
Qed.

Lemma element_not v u : In u (elements v) -> u <> v.
Proof. destruct v as [z|l]; [contradiction|]. apply elem_differs. Qed.

Lemma never ts e w w' : assign_names fn tr kl ts e w = Ran w' ->
  exists v, py_value fn e w = Some v /\
  forall x, vars w' x = Some v -> vars w x = Some v.
Proof.
  intros H. apply assign_names_in in H. destruct H as [v [E [_ H]]]. exists v. split; [exact E|].
  intros x Hx. destruct (H x) as [A|[_ [u [Iu A]]]]; [congruence|].
  rewrite A in Hx. injection Hx as ->. exfalso. exact (element_not _ _ Iu eq_refl).
Qed.

Lemma one x e w w' : run fn tr kl [Name x] e w = Ran w' -> py_run fn [Name x] e w = Some w'.
Proof.
  unfold run, visit_targets, py_run. cbn [map visit_target assign py_targets py_target].
  unfold assign_name. destruct e as [v|l|y|f]; cbn [py_value py_calls].
  - destruct (accepts _ _ _); [|discriminate]. intros H. injection H as <-. reflexivity.
  - destruct (accepts _ _ _); [|discriminate]. intros H. injection H as <-. reflexivity.
  - destruct (vars w y) as [v|]; [|discriminate].
    destruct (accepts _ _ _); [|discriminate]. intros H. injection H as <-. reflexivity.
  - destruct (accepts _ _ _); [|discriminate]. intros H. injection H as <-. reflexivity.
Qed.

(* unpacking: right whenever Python has no exception *)
Lemma unpack ts e w w' p : py_run fn [Tuple ts] e w = Some p ->
  run fn tr kl [Tuple ts] e w = Ran w' -> vars w' = vars p /\ calls w' = calls p.
Proof.
  unfold py_run, run. rewrite targets_tuple. cbn [assign]. rewrite names_map. intros P H.
  pose proof (assign_names_in _ _ _ _ H) as [v [E [C _]]]. rewrite E in P. cbn [py_targets py_target] in P.
  destruct v as [z|vs]; [discriminate|].
  destruct (Nat.eqb_spec (length ts) (length vs)) as [L|]; [|discriminate]. injection P as <-.
  cbn [vars calls]. split; [|exact C].
  destruct e as [v|l|x|f]; cbn [assign_names py_value] in *.
  - discriminate.
  - injection E as ->. destruct (length vs <? length ts); [discriminate|]. apply give_all in H; [exact H|lia].
  - destruct (existsb (Nat.eqb x) ts); [discriminate|]. rewrite E in H. apply give_all in H; [exact H|lia].
  - injection E as E. rewrite E in H.
    assert (G : exists k, give k ts vs (mkw (vars w) (calls w ++ [f])) = Ran w').
    { destruct (tr f); [destruct (Nat.eqb _ _); [|discriminate]|]; eexists; exact H. }
    destruct G as [k G]. apply give_all in G; [exact G|lia].
Qed.
(* and accepted, for fresh names *)
Lemma give_fresh k ts : forall vs w, NoDup ts -> (forall t, In t ts -> vars w t = None) -> length ts = length vs ->
  exists w', give k ts vs w = Ran w'.
Proof.
  induction ts as [|t ts IH]; intros vs w N F L; [eexists; reflexivity|].
  destruct vs as [|v vs]; [discriminate|]. cbn [give]. unfold accepts. rewrite F by now left.
  inversion N as [|? ? N1 N2]; subst. apply IH; [exact N2| |now injection L].
  intros x Hx. cbn [vars]. unfold set. destruct (Nat.eqb_spec x t) as [->|]; [contradiction|]. apply F. now right.
Qed.
Lemma unpack_accepted ts e w p : (forall v, e <> RExpr v) ->
  NoDup ts -> (forall t, In t ts -> vars w t = None) ->
  py_run fn [Tuple ts] e w = Some p -> exists w', run fn tr kl [Tuple ts] e w = Ran w'.
Proof.
  intros NE N F P. unfold py_run in P. destruct (py_value fn e w) as [v|] eqn:E; [|discriminate].
  cbn [py_targets py_target] in P. destruct v as [z|vs]; [discriminate|].
  destruct (Nat.eqb_spec (length ts) (length vs)) as [L|]; [|discriminate].
  unfold run. rewrite targets_tuple. cbn [assign]. rewrite names_map.
  destruct e as [v|l|x|f]; cbn [assign_names py_value] in *.
  - exfalso. exact (NE v eq_refl).
  - injection E as ->. destruct (Nat.ltb_spec (length vs) (length ts)); [lia|]. now apply give_fresh.
  - destruct (existsb (Nat.eqb x) ts) eqn:X.
    + apply existsb_exists in X. destruct X as [y [Hy E']]. apply Nat.eqb_eq in E'. subst y.
      rewrite (F x Hy) in E. discriminate.
    + rewrite E. now apply give_fresh.
  - injection E as E. rewrite E. destruct (tr f).
    + rewrite L, Nat.eqb_refl. now apply give_fresh.
    + now apply give_fresh.
Qed.
End P.

Lemma give_beyond ts : NoDup ts -> forall vs w, (length vs < length ts)%nat -> (forall t, In t ts -> vars w t = None) ->
  give false ts vs w = OutOfBounds.
Proof.
  induction 1 as [|t ts Nt N IH]; intros vs w L F; cbn in L; [lia|]. destruct vs as [|v vs]; [reflexivity|]. cbn [give].
  unfold accepts. rewrite F by now left. apply IH; [cbn in L; lia|]. intros y Hy. cbn [vars]. unfold set.
  destruct (Nat.eqb_spec y t) as [->|]; [contradiction|]. apply F. now right.
Qed.
