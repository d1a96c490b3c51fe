From Coq Require Import ZArith List Bool Arith Lia.
From Verif Require Import Common RtArr_Model RtArr_Spec.
Import ListNotations.
Open Scope nat_scope.
Open Scope run_scope.

Definition pr {R} (c : cplx R) : R * R := (re c, im c).

Section Cplx.
  Context {R : Type} (ltb eqb : R -> R -> bool) (TO : total_order ltb eqb).

  Lemma eqb_refl x : eqb x x = true.
  Proof. now apply (to_eq _ _ TO). Qed.

  Lemma ltb_asym x y : ltb x y = true -> ltb y x = false.
  Proof.
    intros H. destruct (ltb y x) eqn:E; trivial.
    pose proof (to_trans _ _ TO _ _ _ H E) as F. now rewrite (to_irrefl _ _ TO) in F.
  Qed.

  Lemma lex_refl a : lex_le ltb a a.
  Proof. right. auto. Qed.

  Lemma lex_trans a b c : lex_le ltb a b -> lex_le ltb b c -> lex_le ltb a c.
  Proof.
    unfold lex_le. intros [H|[H H']] [G|[G G']].
    - left. eapply (to_trans _ _ TO); eauto.
    - left. now rewrite <- G.
    - left. now rewrite H.
    - right. split; [congruence|].
      destruct H' as [H'|H'], G' as [G'|G'].
      + left. eapply (to_trans _ _ TO); eauto.
      + left. now rewrite <- G'.
      + left. now rewrite H'.
      + right. congruence.
  Qed.

  Lemma lex_total a b : lex_le ltb a b \/ lex_le ltb b a.
  Proof.
    unfold lex_le. destruct (to_total _ _ TO (fst a) (fst b)) as [H|[H|H]]; auto.
    destruct (to_total _ _ TO (snd a) (snd b)) as [G|[G|G]]; auto 6.
  Qed.

  (* The test of the C helpers is "strictly before". *)
  Lemma c_lt_spec a b :
    (if eqb (re a) (re b) then ltb (im a) (im b) else ltb (re a) (re b)) = true ->
    lex_le ltb (pr a) (pr b).
  Proof.
    unfold lex_le, pr. simpl. destruct (eqb (re a) (re b)) eqn:E; intros H; auto.
    apply (to_eq _ _ TO) in E. auto.
  Qed.

  Lemma c_nlt_spec a b :
    (if eqb (re a) (re b) then ltb (im a) (im b) else ltb (re a) (re b)) = false ->
    lex_le ltb (pr b) (pr a).
  Proof.
    unfold lex_le, pr. simpl. destruct (eqb (re a) (re b)) eqn:E; intros H.
    - apply (to_eq _ _ TO) in E. right. split; [auto|].
      destruct (to_total _ _ TO (im a) (im b)) as [G|[G|G]]; auto. congruence.
    - destruct (to_total _ _ TO (re a) (re b)) as [G|[G|G]]; auto; [congruence|].
      rewrite G, eqb_refl in E. discriminate.
  Qed.

  Lemma complex_min_ok a b :
    let m := complex_min ltb eqb a b in
    (m = a \/ m = b) /\ lex_le ltb (pr m) (pr a) /\ lex_le ltb (pr m) (pr b).
  Proof.
    unfold complex_min. cbv zeta.
    destruct (if eqb (re a) (re b) then ltb (im a) (im b) else ltb (re a) (re b)) eqn:E.
    - split; [auto|]. split; [apply lex_refl|now apply c_lt_spec].
    - split; [auto|]. split; [now apply c_nlt_spec|apply lex_refl].
  Qed.

  Lemma complex_max_ok a b :
    let m := complex_max ltb eqb a b in
    (m = a \/ m = b) /\ lex_le ltb (pr a) (pr m) /\ lex_le ltb (pr b) (pr m).
  Proof.
    unfold complex_max. cbv zeta.
    destruct (if eqb (re a) (re b) then ltb (im a) (im b) else ltb (re a) (re b)) eqn:E.
    - split; [auto|]. split; [now apply c_lt_spec|apply lex_refl].
    - split; [auto|]. split; [apply lex_refl|now apply c_nlt_spec].
  Qed.

  Lemma f_test_true a b :
    ltb (re b) (re a) || (eqb (re a) (re b) && ltb (im b) (im a)) = true ->
    lex_le ltb (pr b) (pr a).
  Proof.
    unfold lex_le, pr. simpl. intros H. apply orb_prop in H. destruct H as [H|H]; auto.
    apply andb_prop in H. destruct H as [E H]. apply (to_eq _ _ TO) in E. auto.
  Qed.

  Lemma f_test_false a b :
    ltb (re b) (re a) || (eqb (re a) (re b) && ltb (im b) (im a)) = false ->
    lex_le ltb (pr a) (pr b).
  Proof.
    unfold lex_le, pr. simpl. intros H. apply orb_false_elim in H. destruct H as [H1 H2].
    destruct (to_total _ _ TO (re a) (re b)) as [G|[G|G]]; auto; [|congruence].
    rewrite G, eqb_refl in H2. simpl in H2. right. split; [auto|].
    destruct (to_total _ _ TO (im a) (im b)) as [K|[K|K]]; auto. congruence.
  Qed.

  Lemma amax_loop_ok rest m0 :
    let m := amax_loop ltb eqb rest m0 in
    In m (m0 :: rest) /\ forall x, In x (m0 :: rest) -> lex_le ltb (pr x) (pr m).
  Proof.
    revert m0. induction rest as [|a rest IH]; intros m0; simpl.
    - split; [auto|]. intros x [->|[]]. apply lex_refl.
    - match goal with |- context [amax_loop ltb eqb rest ?x] => set (m1 := x) end. destruct (IH m1) as [I1 I2].
      assert (M : (m1 = a \/ m1 = m0) /\ lex_le ltb (pr a) (pr m1) /\ lex_le ltb (pr m0) (pr m1)).
      { unfold m1. match goal with |- context [if ?c then _ else _] => destruct c eqn:E end.
        - split; [auto|]. split; [apply lex_refl|now apply f_test_true].
        - split; [auto|]. split; [now apply f_test_false|apply lex_refl]. }
      destruct M as (M1 & M2 & M3). split.
      + destruct I1 as [I1|I1]; [|auto]. destruct M1 as [M1|M1]; rewrite <- I1, M1; auto.
      + intros x [<-|[<-|Hx]].
        * eapply lex_trans; [exact M3|]. apply I2. left; auto.
        * eapply lex_trans; [exact M2|]. apply I2. left; auto.
        * apply I2. right; auto.
  Qed.

  Lemma amin_loop_ok rest m0 :
    let m := amin_loop ltb eqb rest m0 in
    In m (m0 :: rest) /\ forall x, In x (m0 :: rest) -> lex_le ltb (pr m) (pr x).
  Proof.
    revert m0. induction rest as [|a rest IH]; intros m0; simpl.
    - split; [auto|]. intros x [->|[]]. apply lex_refl.
    - match goal with |- context [amin_loop ltb eqb rest ?x] => set (m1 := x) end. destruct (IH m1) as [I1 I2].
      assert (M : (m1 = a \/ m1 = m0) /\ lex_le ltb (pr m1) (pr a) /\ lex_le ltb (pr m1) (pr m0)).
      { unfold m1. match goal with |- context [if ?c then _ else _] => destruct c eqn:E end.
        - split; [auto|]. split; [apply lex_refl|].
          assert (Q : ltb (re a) (re m0) = true \/ (eqb (re a) (re m0) = true /\ ltb (im a) (im m0) = true)).
          { apply orb_prop in E. destruct E as [E|E]; auto. apply andb_prop in E. auto. }
          unfold lex_le, pr; simpl. destruct Q as [Q|[Q1 Q2]]; auto.
          apply (to_eq _ _ TO) in Q1. auto.
        - split; [auto|]. split; [|apply lex_refl].
          apply orb_false_elim in E. destruct E as [E1 E2]. unfold lex_le, pr; simpl.
          destruct (to_total _ _ TO (re a) (re m0)) as [G|[G|G]]; auto; [congruence|].
          rewrite G, eqb_refl in E2. simpl in E2. right. split; [auto|].
          destruct (to_total _ _ TO (im a) (im m0)) as [K|[K|K]]; auto. congruence. }
      destruct M as (M1 & M2 & M3). split.
      + destruct I1 as [I1|I1]; [|auto]. destruct M1 as [M1|M1]; rewrite <- I1, M1; auto.
      + intros x [<-|[<-|Hx]].
        * eapply lex_trans; [|exact M3]. apply I2. left; auto.
        * eapply lex_trans; [|exact M2]. apply I2. left; auto.
        * apply I2. right; auto.
  Qed.

  Lemma f_amax_ok arr : arr <> [] ->
    exists m, f_amax ltb eqb arr = Ret m /\ In m arr /\ forall x, In x arr -> lex_le ltb (pr x) (pr m).
  Proof.
    destruct arr as [|a rest]; [congruence|]. intros _. exists (amax_loop ltb eqb rest a).
    split; [reflexivity|]. apply amax_loop_ok.
  Qed.

  Lemma f_amin_ok arr : arr <> [] ->
    exists m, f_amin ltb eqb arr = Ret m /\ In m arr /\ forall x, In x arr -> lex_le ltb (pr m) (pr x).
  Proof.
    destruct arr as [|a rest]; [congruence|]. intros _. exists (amin_loop ltb eqb rest a).
    split; [reflexivity|]. apply amin_loop_ok.
  Qed.
End Cplx.

(* ---------------------------------------------------------------- loops -- *)
Lemma for_inv {T} (P : nat -> T -> Prop) (f : nat -> T -> run T) :
  forall n i s, P i s ->
  (forall j s, i <= j < i + n -> P j s -> exists s', f j s = Ret s' /\ P (S j) s') ->
  exists s', for_from i n f s = Ret s' /\ P (i + n) s'.
Proof.
  induction n as [|n IH]; intros i s HP Hf; simpl.
  - exists s. rewrite Nat.add_0_r. auto.
  - destruct (Hf i s) as (s1 & E1 & P1); [lia|exact HP|]. rewrite E1. simpl.
    destruct (IH (S i) s1 P1) as (s2 & E2 & P2).
    + intros j t Hj. apply Hf. lia.
    + exists s2. split; [exact E2|]. now replace (i + S n) with (S i + n) by lia.
Qed.

Section Mat.
  Context {A : Type} (zero : A) (add mul : A -> A -> A).

  Lemma upd_length {B} (l : list B) i v : length (upd l i v) = length l.
  Proof. revert i; induction l as [|h t IH]; intros [|i]; simpl; auto. Qed.

  Lemma upd_same {B} (l : list B) i v : i < length l -> nth_error (upd l i v) i = Some v.
  Proof. revert i; induction l as [|h t IH]; intros [|i]; simpl; intros H; try lia; auto. apply IH. lia. Qed.

  Lemma upd_other {B} (l : list B) i j v : i <> j -> nth_error (upd l i v) j = nth_error l j.
  Proof.
    revert i j; induction l as [|h t IH]; intros [|i] [|j]; simpl; intros H; try congruence; auto.
  Qed.

  Definition wf2 (s : span2 A) := length (data2 s) = rows s * cols s.
  Definition wf1 (s : span1 A) := length (data1 s) = len1 s.

  (* pure view of a span *)
  Definition get2 (s : span2 A) i j : A := nth (i * cols s + j) (data2 s) zero.
  Definition get1 (s : span1 A) i : A := nth i (data1 s) zero.

  Lemma idx_bound n m i j : i < n -> j < m -> i * m + j < n * m.
  Proof. intros. nia. Qed.

  Lemma idx_inj m i j i' j' : j < m -> j' < m -> i * m + j = i' * m + j' -> i = i' /\ j = j'.
  Proof.
    intros Hj Hj' E.
    assert (i = i') by nia. subst. lia.
  Qed.

  Lemma at2_ok s i j : wf2 s -> i < rows s -> j < cols s -> at2 s i j = Ret (get2 s i j).
  Proof.
    intros W Hi Hj. unfold at2, get2.
    apply Nat.ltb_lt in Hi as Hi'. apply Nat.ltb_lt in Hj as Hj'. rewrite Hi', Hj'. simpl.
    rewrite (nth_error_nth' _ zero); [reflexivity|]. rewrite W. now apply idx_bound.
  Qed.

  Lemma at1_ok s i : wf1 s -> i < len1 s -> at1 s i = Ret (get1 s i).
  Proof.
    intros W Hi. unfold at1, get1.
    apply Nat.ltb_lt in Hi as Hi'. rewrite Hi'. simpl.
    rewrite (nth_error_nth' _ zero); [reflexivity|]. now rewrite W.
  Qed.

  Lemma set2_ok s i j v : wf2 s -> i < rows s -> j < cols s ->
    exists s', set2 s i j v = Ret s' /\ wf2 s' /\ rows s' = rows s /\ cols s' = cols s
      /\ get2 s' i j = v
      /\ forall i' j', i' < rows s -> j' < cols s -> (i', j') <> (i, j) -> get2 s' i' j' = get2 s i' j'.
  Proof.
    intros W Hi Hj. unfold set2.
    apply Nat.ltb_lt in Hi as Hi'. apply Nat.ltb_lt in Hj as Hj'. rewrite Hi', Hj'. simpl.
    eexists. split; [reflexivity|]. unfold wf2, get2; simpl. rewrite upd_length.
    repeat split; auto.
    - apply nth_error_nth. apply upd_same. rewrite W. now apply idx_bound.
    - intros i' j' H1 H2 Hne.
      assert (Hn : i * cols s + j <> i' * cols s + j').
      { intros E. apply idx_inj in E; try assumption. destruct E; subst. congruence. }
      pose proof (upd_other (data2 s) _ _ v Hn) as E.
      assert (L : i' * cols s + j' < length (data2 s)) by (rewrite W; now apply idx_bound).
      erewrite nth_error_nth; [|rewrite E; now apply (nth_error_nth' _ zero)]. reflexivity.
  Qed.

  Lemma set1_ok s i v : wf1 s -> i < len1 s ->
    exists s', set1 s i v = Ret s' /\ wf1 s' /\ len1 s' = len1 s
      /\ get1 s' i = v
      /\ forall i', i' < len1 s -> i' <> i -> get1 s' i' = get1 s i'.
  Proof.
    intros W Hi. unfold set1.
    apply Nat.ltb_lt in Hi as Hi'. rewrite Hi'. simpl.
    eexists. split; [reflexivity|]. unfold wf1, get1; simpl. rewrite upd_length.
    repeat split; auto.
    - apply nth_error_nth. apply upd_same. now rewrite W.
    - intros i' H1 Hne.
      pose proof (upd_other (data1 s) i i' v ltac:(auto)) as E.
      erewrite nth_error_nth; [|rewrite E; apply (nth_error_nth' _ zero); now rewrite W]. reflexivity.
  Qed.

  (* partial dot products *)
  Fixpoint dotn (f g : nat -> A) (j : nat) : A :=
    match j with O => zero | S j' => add (dotn f g j') (mul (f j') (g j')) end.

  Lemma c_matmul_loops out a b :
    wf2 out -> wf2 a -> wf2 b ->
    cols a = rows b -> rows a = rows out -> cols b = cols out ->
    exists out', c_matmul zero add mul out a b = Ret out' /\ wf2 out'
      /\ rows out' = rows a /\ cols out' = cols b
      /\ forall i k, i < rows a -> k < cols b ->
           get2 out' i k = dotn (fun j => get2 a i j) (fun j => get2 b j k) (cols a).
  Proof.
    intros Wo Wa Wb E1 E2 E3. unfold c_matmul, c_assert. cbv zeta.
    apply Nat.eqb_eq in E1 as B1. apply Nat.eqb_eq in E2 as B2. apply Nat.eqb_eq in E3 as B3.
    rewrite B1, B2, B3.
    set (D := fun i k => dotn (fun j => get2 a i j) (fun j => get2 b j k) (cols a)).
    set (Inv := fun (s : span2 A) => wf2 s /\ rows s = rows a /\ cols s = cols b).
    destruct (for_inv (fun i s => Inv s /\ forall i' k', i' < i -> k' < cols b -> get2 s i' k' = D i' k')
      (fun i out =>
        for_from 0 (cols b) (fun k out =>
          out0 <- set2 out i k zero ;;
          for_from 0 (cols a) (fun j out =>
            o <- at2 out i k ;; x <- at2 a i j ;; y <- at2 b j k ;;
            set2 out i k (add o (mul x y))) out0) out) (rows a) 0 out)
      as (out' & R & (Inv' & H')).
    - split; [unfold Inv; auto|]. intros; lia.
    - intros i s Hi (I & Hs).
      destruct (for_inv (fun k s => Inv s /\ (forall i' k', i' < i -> k' < cols b -> get2 s i' k' = D i' k')
                                /\ forall k', k' < k -> get2 s i k' = D i k')
        (fun k out =>
          out0 <- set2 out i k zero ;;
          for_from 0 (cols a) (fun j out =>
            o <- at2 out i k ;; x <- at2 a i j ;; y <- at2 b j k ;;
            set2 out i k (add o (mul x y))) out0) (cols b) 0 s) as (s' & R & (I' & Hs1 & Hs2)).
      + split; [exact I|]. split; [exact Hs|]. intros; lia.
      + intros k t Hk (It & Ht1 & Ht2). destruct It as (Wt & Rt & Ct).
        destruct (set2_ok t i k zero Wt) as (t0 & S0 & W0 & R0 & C0 & G0 & O0); [lia|lia|].
        rewrite S0. cbn [bind].
        destruct (for_inv (fun j s => Inv s
             /\ (forall i' k', i' < i -> k' < cols b -> get2 s i' k' = D i' k')
             /\ (forall k', k' < k -> get2 s i k' = D i k')
             /\ get2 s i k = dotn (fun j => get2 a i j) (fun j => get2 b j k) j)
          (fun j out =>
            o <- at2 out i k ;; x <- at2 a i j ;; y <- at2 b j k ;;
            set2 out i k (add o (mul x y))) (cols a) 0 t0) as (t' & R & (I' & A1 & A2 & A3)).
        * unfold Inv. repeat split; try congruence; try exact G0.
          -- intros i' k' H1 H2. rewrite O0 by (try lia; intros E; inversion E; lia). auto.
          -- intros k' H2. rewrite O0 by (try lia; intros E; inversion E; lia). auto.
        * intros j u Hj (Iu & B1' & B2' & B3'). destruct Iu as (Wu & Ru & Cu).
          rewrite (at2_ok u i k Wu) by lia. cbn [bind].
          rewrite (at2_ok a i j Wa) by lia. cbn [bind].
          rewrite (at2_ok b j k Wb) by lia. cbn [bind].
          destruct (set2_ok u i k (add (get2 u i k) (mul (get2 a i j) (get2 b j k))) Wu)
            as (u' & S1 & W1 & R1 & C1 & G1 & O1); [lia|lia|].
          exists u'. split; [exact S1|]. unfold Inv. repeat split; try congruence.
          -- intros i' k' H1 H2. rewrite O1 by (try lia; intros E; inversion E; lia). auto.
          -- intros k' H2. rewrite O1 by (try lia; intros E; inversion E; lia). auto.
          -- rewrite G1, B3'. reflexivity.
        * exists t'. split; [exact R|]. split; [exact I'|]. split; [exact A1|].
          intros k' Hk'. destruct (Nat.eq_dec k' k) as [->|]; [exact A3|]. apply A2. lia.
      + exists s'. split; [exact R|]. split; [exact I'|].
        intros i' k' H1 H2. destruct (Nat.eq_dec i' i) as [->|]; [apply Hs2; lia|]. apply Hs1; lia.
    - exists out'. split; [exact R|]. destruct Inv' as (W' & R' & C').
      repeat split; auto.
  Qed.

  Lemma c_matvecmul_loops out a b :
    wf1 out -> wf2 a -> wf1 b -> cols a = len1 b -> rows a = len1 out ->
    exists out', c_matvecmul zero add mul out a b = Ret out' /\ wf1 out' /\ len1 out' = rows a
      /\ forall i, i < rows a ->
           get1 out' i = dotn (fun j => get2 a i j) (fun j => get1 b j) (cols a).
  Proof.
    intros Wo Wa Wb E1 E2. unfold c_matvecmul, c_assert. cbv zeta.
    apply Nat.eqb_eq in E1 as B1. apply Nat.eqb_eq in E2 as B2. rewrite B1, B2.
    set (D := fun i => dotn (fun j => get2 a i j) (fun j => get1 b j) (cols a)).
    set (Inv := fun (s : span1 A) => wf1 s /\ len1 s = rows a).
    destruct (for_inv (fun i s => Inv s /\ forall i', i' < i -> get1 s i' = D i')
      (fun i out =>
        out0 <- set1 out i zero ;;
        for_from 0 (cols a) (fun j out =>
          o <- at1 out i ;; x <- at2 a i j ;; y <- at1 b j ;;
          set1 out i (add o (mul x y))) out0) (rows a) 0 out)
      as (out' & R & (Inv' & H')).
    - split; [unfold Inv; auto|]. intros; lia.
    - intros i t Hi ((Wt & Rt) & Ht).
      destruct (set1_ok t i zero Wt) as (t0 & S0 & W0 & R0 & G0 & O0); [lia|].
      rewrite S0. cbn [bind].
      destruct (for_inv (fun j s => Inv s /\ (forall i', i' < i -> get1 s i' = D i')
           /\ get1 s i = dotn (fun j => get2 a i j) (fun j => get1 b j) j)
        (fun j out =>
          o <- at1 out i ;; x <- at2 a i j ;; y <- at1 b j ;;
          set1 out i (add o (mul x y))) (cols a) 0 t0) as (t' & R & (I' & A1 & A3)).
      + unfold Inv. repeat split; try congruence; try exact G0.
        intros i' H1. rewrite O0 by lia. auto.
      + intros j u Hj ((Wu & Ru) & B1' & B3').
        rewrite (at1_ok u i Wu) by lia. cbn [bind].
        rewrite (at2_ok a i j Wa) by lia. cbn [bind].
        rewrite (at1_ok b j Wb) by lia. cbn [bind].
        destruct (set1_ok u i (add (get1 u i) (mul (get2 a i j) (get1 b j))) Wu)
          as (u' & S1 & W1 & R1 & G1 & O1); [lia|].
        exists u'. split; [exact S1|]. unfold Inv. repeat split; try congruence.
        * intros i' H1. rewrite O1 by lia. auto.
        * rewrite G1, B3'. reflexivity.
      + exists t'. split; [exact R|]. split; [exact I'|].
        intros i' Hk'. destruct (Nat.eq_dec i' i) as [->|]; [exact A3|]. apply A1. lia.
    - exists out'. split; [exact R|]. destruct Inv' as (W' & R').
      repeat split; auto.
  Qed.

  Lemma c_vecmatmul_loops out a b :
    wf1 out -> wf1 a -> wf2 b -> rows b = len1 a -> cols b = len1 out ->
    exists out', c_vecmatmul zero add mul out a b = Ret out' /\ wf1 out' /\ len1 out' = cols b
      /\ forall i, i < cols b ->
           get1 out' i = dotn (fun j => get1 a j) (fun j => get2 b j i) (rows b).
  Proof.
    intros Wo Wa Wb E1 E2. unfold c_vecmatmul, c_assert. cbv zeta.
    apply Nat.eqb_eq in E1 as B1. apply Nat.eqb_eq in E2 as B2. rewrite B1, B2.
    set (D := fun i => dotn (fun j => get1 a j) (fun j => get2 b j i) (rows b)).
    set (Inv := fun (s : span1 A) => wf1 s /\ len1 s = cols b).
    destruct (for_inv (fun i s => Inv s /\ forall i', i' < i -> get1 s i' = D i')
      (fun i out =>
        out0 <- set1 out i zero ;;
        for_from 0 (rows b) (fun j out =>
          o <- at1 out i ;; x <- at1 a j ;; y <- at2 b j i ;;
          set1 out i (add o (mul x y))) out0) (cols b) 0 out)
      as (out' & R & (Inv' & H')).
    - split; [unfold Inv; auto|]. intros; lia.
    - intros i t Hi ((Wt & Rt) & Ht).
      destruct (set1_ok t i zero Wt) as (t0 & S0 & W0 & R0 & G0 & O0); [lia|].
      rewrite S0. cbn [bind].
      destruct (for_inv (fun j s => Inv s /\ (forall i', i' < i -> get1 s i' = D i')
           /\ get1 s i = dotn (fun j => get1 a j) (fun j => get2 b j i) j)
        (fun j out =>
          o <- at1 out i ;; x <- at1 a j ;; y <- at2 b j i ;;
          set1 out i (add o (mul x y))) (rows b) 0 t0) as (t' & R & (I' & A1 & A3)).
      + unfold Inv. repeat split; try congruence; try exact G0.
        intros i' H1. rewrite O0 by lia. auto.
      + intros j u Hj ((Wu & Ru) & B1' & B3').
        rewrite (at1_ok u i Wu) by lia. cbn [bind].
        rewrite (at1_ok a j Wa) by lia. cbn [bind].
        rewrite (at2_ok b j i Wb) by lia. cbn [bind].
        destruct (set1_ok u i (add (get1 u i) (mul (get1 a j) (get2 b j i))) Wu)
          as (u' & S1 & W1 & R1 & G1 & O1); [lia|].
        exists u'. split; [exact S1|]. unfold Inv. repeat split; try congruence.
        * intros i' H1. rewrite O1 by lia. auto.
        * rewrite G1, B3'. reflexivity.
      + exists t'. split; [exact R|]. split; [exact I'|].
        intros i' Hk'. destruct (Nat.eq_dec i' i) as [->|]; [exact A3|]. apply A1. lia.
    - exists out'. split; [exact R|]. destruct Inv' as (W' & R').
      repeat split; auto.
  Qed.

  (* ---- from spans to lists of rows ---- *)
  Definition of_rows (n m : nat) (M : list (list A)) : span2 A := Span2 n m (concat M).

  Lemma concat_length_mat n m (M : list (list A)) : is_matrix n m M -> length (concat M) = n * m.
  Proof.
    revert n; induction M as [|r M IH]; intros n [L H]; simpl in *; [subst; reflexivity|].
    destruct n as [|n]; [discriminate|]. rewrite app_length, (IH n).
    - rewrite (H r) by auto. simpl. lia.
    - split; [lia|]. auto.
  Qed.

  Lemma nth_concat_mat n m (M : list (list A)) i j d :
    is_matrix n m M -> i < n -> j < m -> nth (i * m + j) (concat M) d = nth j (nth i M []) d.
  Proof.
    revert n i; induction M as [|r M IH]; intros n i [L H] Hi Hj; simpl in *; [lia|].
    assert (Lr : length r = m) by (apply H; auto).
    destruct i as [|i]; simpl.
    - rewrite app_nth1 by lia. reflexivity.
    - rewrite app_nth2 by lia. rewrite Lr. replace (m + i * m + j - m) with (i * m + j) by lia.
      apply (IH (n - 1)); try lia. split; [lia|]. auto.
  Qed.

  Lemma dot_app acc xs ys x y : length xs = length ys ->
    dot add mul acc (xs ++ [x]) (ys ++ [y]) = add (dot add mul acc xs ys) (mul x y).
  Proof.
    revert acc ys; induction xs as [|a xs IH]; intros acc [|b ys] L; simpl in *; try discriminate; auto.
  Qed.

  Lemma firstn_S_snoc (l : list A) j d : j < length l -> firstn (S j) l = firstn j l ++ [nth j l d].
  Proof.
    revert j; induction l as [|a l IH]; intros [|j] H; simpl in *; try lia; auto.
    f_equal. apply IH. lia.
  Qed.

  Lemma dotn_dot (xs ys : list A) f g j :
    length xs = length ys -> j <= length xs ->
    (forall t, t < length xs -> f t = nth t xs zero) -> (forall t, t < length xs -> g t = nth t ys zero) ->
    dotn f g j = dot add mul zero (firstn j xs) (firstn j ys).
  Proof.
    intros L Hj Hf Hg. induction j as [|j IH]; [reflexivity|].
    cbn [dotn]. rewrite IH by lia. rewrite (firstn_S_snoc xs j zero), (firstn_S_snoc ys j zero) by lia.
    rewrite dot_app by (rewrite !firstn_length; lia). rewrite Hf, Hg by lia. reflexivity.
  Qed.

  Lemma list_eq_mat n m (l : list A) (M : list (list A)) :
    is_matrix n m M -> length l = n * m ->
    (forall i j, i < n -> j < m -> nth (i * m + j) l zero = nth j (nth i M []) zero) ->
    l = concat M.
  Proof.
    intros HM L H. apply (nth_ext _ _ zero zero).
    - now rewrite (concat_length_mat n m).
    - intros t Ht. rewrite L in Ht. destruct m as [|m]; [lia|].
      pose proof (Nat.div_mod t (S m) ltac:(lia)) as E.
      pose proof (Nat.mod_upper_bound t (S m) ltac:(lia)) as B.
      assert (t / S m < n) by (apply Nat.div_lt_upper_bound; lia).
      replace t with (t / S m * S m + t mod S m) by lia.
      rewrite H by assumption. symmetry. now apply (nth_concat_mat n).
  Qed.

  Definition mat_product (p : nat) (a b : list (list A)) : list (list A) :=
    map (fun r => map (fun k => dot add mul zero r (column zero b k)) (seq 0 p)) a.

  Lemma mat_product_is n m p a b : is_matrix n m a -> is_matrix n p (mat_product p a b).
  Proof.
    intros [L _]. unfold mat_product. split; [now rewrite map_length|].
    intros r Hr. apply in_map_iff in Hr. destruct Hr as (x & <- & _). now rewrite map_length, seq_length.
  Qed.

  Lemma nth_map_seq {B} (f : nat -> B) p k d : k < p -> nth k (map f (seq 0 p)) d = f k.
  Proof.
    intros H. rewrite (nth_indep _ d (f 0)) by (now rewrite map_length, seq_length).
    rewrite (map_nth f). now rewrite seq_nth.
  Qed.

  Lemma nth_mat_product n m p a b i k :
    is_matrix n m a -> i < n -> k < p ->
    nth k (nth i (mat_product p a b) []) zero = dot add mul zero (row a i) (column zero b k).
  Proof.
    intros [L _] Hi Hk. unfold mat_product, row.
    rewrite (nth_indep _ [] (map (fun k => dot add mul zero [] (column zero b k)) (seq 0 p)))
      by (rewrite map_length; lia).
    rewrite (map_nth (fun r => map (fun k => dot add mul zero r (column zero b k)) (seq 0 p))).
    now rewrite nth_map_seq.
  Qed.

  Lemma matmul_correct n m p a b o :
    is_matrix n m a -> is_matrix m p b -> length o = n * p ->
    c_matmul zero add mul (Span2 n p o) (Span2 n m (concat a)) (Span2 m p (concat b))
    = Ret (Span2 n p (concat (mat_product p a b))).
  Proof.
    intros Ha Hb Ho.
    destruct (c_matmul_loops (Span2 n p o) (Span2 n m (concat a)) (Span2 m p (concat b)))
      as (out' & R & W & Rr & Cc & G); unfold wf2; simpl; auto using concat_length_mat.
    rewrite R. f_equal. destruct out' as [r c d]. simpl in *. subst r c. f_equal.
    unfold wf2 in W; simpl in W.
    apply (list_eq_mat n p); auto; [eapply mat_product_is; eauto|].
    intros i k Hi Hk. specialize (G i k Hi Hk). unfold get2 in G. simpl in G. rewrite G.
    rewrite (nth_mat_product n m) by assumption.
    assert (Lr : length (row a i) = m).
    { destruct Ha as [La Hr]. apply Hr. unfold row. apply nth_In. lia. }
    assert (Lc : length (column zero b k) = m).
    { destruct Hb as [Lb _]. unfold column. now rewrite map_length. }
    rewrite (dotn_dot (row a i) (column zero b k)); try lia.
    - rewrite <- Lr at 1. rewrite firstn_all. rewrite <- Lc at 1. now rewrite firstn_all.
    - intros t Ht. rewrite (nth_concat_mat n) by (auto; lia). reflexivity.
    - intros t Ht. rewrite (nth_concat_mat m) by (auto; lia). unfold column.
      rewrite (nth_indep (map (fun r => nth k r zero) b) zero (nth k [] zero)) by (rewrite map_length; destruct Hb; lia).
      now rewrite (map_nth (fun r => nth k r zero)).
  Qed.

  Lemma matvec_correct n m a v o :
    is_matrix n m a -> length v = m -> length o = n ->
    c_matvecmul zero add mul (Span1 n o) (Span2 n m (concat a)) (Span1 m v)
    = Ret (Span1 n (map (fun r => dot add mul zero r v) a)).
  Proof.
    intros Ha Hv Ho.
    destruct (c_matvecmul_loops (Span1 n o) (Span2 n m (concat a)) (Span1 m v))
      as (out' & R & W & Rr & G); unfold wf1, wf2; simpl; auto using concat_length_mat.
    rewrite R. f_equal. destruct out' as [r d]. simpl in *. subst r. f_equal.
    unfold wf1 in W; simpl in W. destruct Ha as [La Hr]. assert (Ha : is_matrix n m a) by (split; auto).
    apply (nth_ext _ _ zero zero); [rewrite map_length; lia|].
    intros i Hi. rewrite W in Hi. specialize (G i Hi). unfold get1 in G at 1. simpl in G. rewrite G.
    rewrite (nth_indep (map _ a) zero (dot add mul zero [] v)) by (rewrite map_length; lia).
    rewrite (map_nth (fun r => dot add mul zero r v)).
    assert (Lr : length (nth i a []) = m) by (apply Hr, nth_In; lia).
    rewrite (dotn_dot (nth i a []) v); try lia.
    - rewrite <- Lr at 1. rewrite firstn_all. rewrite <- Hv. now rewrite firstn_all.
    - intros t Ht. unfold get2; simpl. rewrite (nth_concat_mat n) by (auto; lia). reflexivity.
    - intros t Ht. reflexivity.
  Qed.

  Lemma vecmat_correct n m v b o :
    is_matrix n m b -> length v = n -> length o = m ->
    c_vecmatmul zero add mul (Span1 m o) (Span1 n v) (Span2 n m (concat b))
    = Ret (Span1 m (map (fun k => dot add mul zero v (column zero b k)) (seq 0 m))).
  Proof.
    intros Hb Hv Ho.
    destruct (c_vecmatmul_loops (Span1 m o) (Span1 n v) (Span2 n m (concat b)))
      as (out' & R & W & Rr & G); unfold wf1, wf2; simpl; auto using concat_length_mat.
    rewrite R. f_equal. destruct out' as [r d]. simpl in *. subst r. f_equal.
    unfold wf1 in W; simpl in W.
    apply (nth_ext _ _ zero zero); [rewrite map_length, seq_length; lia|].
    intros i Hi. rewrite W in Hi. specialize (G i Hi). unfold get1 in G at 1. simpl in G. rewrite G.
    rewrite nth_map_seq by assumption.
    assert (Lc : length (column zero b i) = n).
    { destruct Hb as [Lb _]. unfold column. now rewrite map_length. }
    rewrite (dotn_dot v (column zero b i)); try lia.
    - rewrite <- Hv at 1. rewrite firstn_all. rewrite <- Lc. now rewrite firstn_all.
    - intros t Ht. reflexivity.
    - intros t Ht. unfold get2; simpl. rewrite (nth_concat_mat n) by (auto; lia). unfold column.
      rewrite (nth_indep (map (fun r => nth i r zero) b) zero (nth i [] zero)) by (rewrite map_length; destruct Hb; lia).
      now rewrite (map_nth (fun r => nth i r zero)).
  Qed.

  Lemma matmul_mismatch (out a b : span2 A) :
    cols a <> rows b \/ rows a <> rows out \/ cols b <> cols out ->
    c_matmul zero add mul out a b = Undef.
  Proof.
    intros H. unfold c_matmul, c_assert.
    destruct (Nat.eqb_spec (cols a) (rows b)); [|reflexivity].
    destruct (Nat.eqb_spec (rows a) (rows out)); [|reflexivity].
    destruct (Nat.eqb_spec (cols b) (cols out)); [|reflexivity]. lia.
  Qed.
End Mat.

Open Scope Z_scope.
Lemma cross_ok a1 a2 a3 b1 b2 b3 c :
  length c = 3%nat ->
  exists c1 c2 c3, f_cross_product [a1;a2;a3] [b1;b2;b3] c = Ret [c1;c2;c3] /\
    forall v1 v2 v3, v1 * c1 + v2 * c2 + v3 * c3 = det3 (v1,v2,v3) (a1,a2,a3) (b1,b2,b3).
Proof.
  intros Hc. unfold f_cross_product. rewrite Hc. cbn [length Nat.eqb negb].
  exists (a2*b3-a3*b2), (a3*b1-a1*b3), (a1*b2-a2*b1). split; [reflexivity|].
  intros. unfold det3. ring.
Qed.

Lemma Z_total_order : total_order Z.ltb Z.eqb.
Proof.
  split.
  - apply Z.eqb_eq.
  - apply Z.ltb_irrefl.
  - intros x y z H1 H2. apply Z.ltb_lt in H1, H2. apply Z.ltb_lt. lia.
  - intros x y. rewrite !Z.ltb_lt. lia.
Qed.
