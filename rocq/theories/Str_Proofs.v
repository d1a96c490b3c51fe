(* Proofs about strings. *)
From Coq Require Import Bool Arith ZArith Lia List.
From Verif Require Import Alloc_Model Str_Model Str_Spec.
Import ListNotations.
Open Scope Z_scope.
Open Scope list_scope.

(* ------------------------------ bytes ------------------------------ *)

Lemma bytes_eqb_eq : forall a b, bytes_eqb a b = true <-> a = b.
Proof.
  induction a as [|x a IH]; intros [|y b]; cbn; try (split; [discriminate|congruence]); [tauto|].
  rewrite andb_true_iff, Z.eqb_eq, IH. split; [intros (-> & ->); reflexivity|intros H; injection H; auto].
Qed.
Ltac chars :=
  repeat match goal with |- context [?a <? ?b] => destruct (Z.ltb_spec a b) | H : context [?a <? ?b] |- _ => destruct (Z.ltb_spec a b) end.
Lemma div3 c : c / 4096 = c / 64 / 64.
Proof. rewrite Z.div_div by lia. reflexivity. Qed.
Lemma div4 c : c / 262144 = c / 64 / 64 / 64.
Proof. rewrite !Z.div_div by lia. reflexivity. Qed.
Ltac facts c :=
  pose proof (Z.div_mod c 64 ltac:(lia)); pose proof (Z.div_mod (c / 64) 64 ltac:(lia)); pose proof (Z.div_mod (c / 64 / 64) 64 ltac:(lia));
  pose proof (Z.mod_pos_bound c 64 ltac:(lia)); pose proof (Z.mod_pos_bound (c / 64) 64 ltac:(lia)); pose proof (Z.mod_pos_bound (c / 64 / 64) 64 ltac:(lia)).
Lemma cons_inv {A} (x y : A) a b : x :: a = y :: b -> x = y /\ a = b.
Proof. intros H. injection H. auto. Qed.
Lemma utf8_char_cons c d a b : 0 <= c < 1114112 -> 0 <= d < 1114112 -> utf8_char c ++ a = utf8_char d ++ b -> c = d /\ a = b.
Proof.
  intros C D H. unfold utf8_char in H. rewrite !div3, !div4 in H. chars; cbn [app] in H; repeat match goal with Q : _ :: _ = _ :: _ |- _ => apply cons_inv in Q; destruct Q end; facts c; facts d; try (exfalso; lia);
    (split; [lia|assumption]).
Qed.
Lemma utf8_char_nonempty c : exists b l, utf8_char c = b :: l.
Proof. unfold utf8_char. chars; eauto. Qed.
Lemma code_points_cons c s : code_points (c :: s) -> 0 <= c < 1114112 /\ code_points s.
Proof. intros H. split; [apply H; cbn; auto|intros d I; apply H; right; exact I]. Qed.
Lemma utf8_inj : forall a b, code_points a -> code_points b -> utf8 a = utf8 b -> a = b.
Proof.
  induction a as [|c a IH]; intros [|d b] A B H; auto.
  - unfold utf8 in H. cbn [flat_map] in H. destruct (utf8_char_nonempty d) as (x & l & E). rewrite E in H. discriminate.
  - unfold utf8 in H. cbn [flat_map] in H. destruct (utf8_char_nonempty c) as (x & l & E). rewrite E in H. discriminate.
  - apply code_points_cons in A. apply code_points_cons in B. unfold utf8 in H. cbn [flat_map] in H.
    destruct (utf8_char_cons c d _ _ (proj1 A) (proj1 B) H) as (-> & Q). f_equal. apply IH; tauto.
Qed.
Lemma utf8_char_zero c : 0 <= c < 1114112 -> In 0 (utf8_char c) -> c = 0.
Proof. intros C H. unfold utf8_char in H. chars; cbn [In] in H; Z.div_mod_to_equations; lia. Qed.
Lemma utf8_zero s : code_points s -> In 0 (utf8 s) -> In 0 s.
Proof. intros C H. unfold utf8 in H. apply in_flat_map in H. destruct H as (c & I & H). apply utf8_char_zero in H; [subst; exact I|apply C; exact I]. Qed.
Lemma to_nul_id : forall l, ~ In 0 l -> to_nul l = l.
Proof. induction l as [|c l IH]; intros H; [reflexivity|]. cbn. destruct (Z.eqb_spec c 0); [exfalso; apply H; cbn; auto|]. f_equal. apply IH. intros I. apply H. right. exact I. Qed.
Lemma to_nul_app a b : ~ In 0 a -> to_nul (a ++ 0 :: b) = a.
Proof.
  induction a as [|c a IH]; intros H; [reflexivity|]. cbn. destruct (Z.eqb_spec c 0); [exfalso; apply H; cbn; auto|]. f_equal. apply IH. intros I. apply H. right. exact I.
Qed.
Lemma to_nul_utf8 s : no_nul s -> to_nul (utf8 s) = utf8 s.
Proof. intros (C & N). apply to_nul_id. intros H. apply N. apply utf8_zero; assumption. Qed.
Lemma same_eq s t : same s t = true <-> s = t.
Proof. unfold same. destruct (list_eq_dec Z.eq_dec s t); split; congruence. Qed.
Lemma eq_c_ok s t : no_nul s -> no_nul t -> eq_c s t = same s t.
Proof.
  intros S T. apply eq_true_iff_eq. rewrite same_eq. unfold eq_c. rewrite bytes_eqb_eq, !to_nul_utf8 by assumption. split; [|congruence].
  apply utf8_inj; [apply S|apply T].
Qed.
Lemma utf8_app a b : utf8 (a ++ b) = utf8 a ++ utf8 b.
Proof. unfold utf8. apply flat_map_app. Qed.
Lemma to_nul_first a b : to_nul (a ++ 0 :: b) = to_nul a.
Proof. induction a as [|c a IH]; [reflexivity|]. cbn. destruct (c =? 0); [reflexivity|]. f_equal. exact IH. Qed.
Lemma eq_c_wrong s t u : eq_c (s ++ 0 :: t) (s ++ 0 :: u) = true.
Proof.
  unfold eq_c. apply bytes_eqb_eq. rewrite !utf8_app. change (utf8 (0 :: t)) with (0 :: utf8 t). change (utf8 (0 :: u)) with (0 :: utf8 u). rewrite !to_nul_first. reflexivity.
Qed.

Lemma blank_spec l : blank l = true <-> forall c, In c l -> c = 32.
Proof.
  induction l as [|c l IH]; cbn; [split; auto; intros _ c []|]. rewrite andb_true_iff, Z.eqb_eq, IH. split.
  - intros (-> & H) d [<-|I]; auto.
  - intros H. split; [apply H; auto|intros d I; apply H; auto].
Qed.
Lemma padded_refl a : padded_eqb a a = true.
Proof. induction a as [|c a IH]; [reflexivity|]. cbn. rewrite Z.eqb_refl. exact IH. Qed.
Lemma padded_blank : forall a l, blank l = true -> padded_eqb a (a ++ l) = true.
Proof.
  induction a as [|c a IH]; intros l B; [destruct l; [reflexivity|exact B]|]. cbn. rewrite Z.eqb_refl. apply IH. exact B.
Qed.
Lemma list_end {A} (l : list A) : l = [] \/ exists t c, l = t ++ [c].
Proof. destruct (rev l) as [|c t] eqn:E; [left|right; exists (rev t), c]; rewrite <- (rev_involutive l), E; reflexivity. Qed.
Lemma blank_end l : blank l = true -> l = [] \/ exists t, l = t ++ [32].
Proof.
  intros B. destruct (list_end l) as [->|(t & c & ->)]; [auto|]. right. exists t. rewrite blank_spec in B. rewrite (B c) by (apply in_or_app; cbn; auto). reflexivity.
Qed.
Lemma padded_eq : forall a b, (forall t, a <> t ++ [32]) -> (forall t, b <> t ++ [32]) -> padded_eqb a b = true -> a = b.
Proof.
  induction a as [|c a IH]; intros [|d b] A B H; auto.
  - cbn [padded_eqb] in H. apply blank_end in H. destruct H as [->|(t & H)]; [reflexivity|]. edestruct B. exact H.
  - cbn [padded_eqb] in H. apply blank_end in H. destruct H as [->|(t & H)]; [reflexivity|]. edestruct A. exact H.
  - cbn in H. apply andb_prop in H. destruct H as (E & H). apply Z.eqb_eq in E. subst d. f_equal. apply IH; auto.
    + intros t Q. apply (A (c :: t)). rewrite Q. reflexivity.
    + intros t Q. apply (B (c :: t)). rewrite Q. reflexivity.
Qed.
Lemma utf8_end s : no_blank_end s -> forall t, utf8 s <> t ++ [32].
Proof.
  intros (C & N) t H. destruct (list_end s) as [->|(u & c & ->)]; [destruct t; discriminate|].
  rewrite utf8_app in H. unfold utf8 in H at 2. cbn [flat_map] in H. rewrite app_nil_r in H.
  assert (R : 0 <= c < 1114112) by (apply C; apply in_or_app; cbn; auto).
  assert (L : c <> 32) by (intros ->; exact (N u eq_refl)).
  unfold utf8_char in H. chars.
  - apply app_inj_tail in H. lia.
  - change (utf8 u ++ [192 + c / 64; 128 + c mod 64]) with (utf8 u ++ [192 + c / 64] ++ [128 + c mod 64]) in H. rewrite app_assoc in H. apply app_inj_tail in H. destruct H as (_ & H). Z.div_mod_to_equations; lia.
  - change (utf8 u ++ [224 + c / 4096; 128 + c / 64 mod 64; 128 + c mod 64]) with (utf8 u ++ [224 + c / 4096; 128 + c / 64 mod 64] ++ [128 + c mod 64]) in H. rewrite app_assoc in H. apply app_inj_tail in H. destruct H as (_ & H). Z.div_mod_to_equations; lia.
  - change (utf8 u ++ [240 + c / 262144; 128 + c / 4096 mod 64; 128 + c / 64 mod 64; 128 + c mod 64]) with (utf8 u ++ [240 + c / 262144; 128 + c / 4096 mod 64; 128 + c / 64 mod 64] ++ [128 + c mod 64]) in H. rewrite app_assoc in H. apply app_inj_tail in H. destruct H as (_ & H). Z.div_mod_to_equations; lia.
Qed.
Lemma eq_f_ok s t : no_blank_end s -> no_blank_end t -> eq_f s t = same s t.
Proof.
  intros S T. apply eq_true_iff_eq. rewrite same_eq. unfold eq_f. split; [|intros ->; apply padded_refl]. intros H.
  apply padded_eq in H; [|apply utf8_end; exact S|apply utf8_end; exact T]. apply utf8_inj; [apply S|apply T|exact H].
Qed.
Lemma eq_f_wrong s n : eq_f s (s ++ repeat 32 n) = true.
Proof.
  unfold eq_f. rewrite utf8_app. apply padded_blank. apply blank_spec. intros c H. unfold utf8 in H. apply in_flat_map in H. destruct H as (d & I & H). apply repeat_spec in I. subst d. cbn in H. destruct H as [<-|[]]. reflexivity.
Qed.

(* ------------------------------ wrappers ------------------------------ *)

Lemma utf8_ascii s : ascii s -> utf8 s = s.
Proof.
  induction s as [|c s IH]; intros A; [reflexivity|]. unfold utf8. cbn [flat_map]. unfold utf8_char at 1. destruct (Z.ltb_spec c 128); [|specialize (A c (or_introl eq_refl)); lia].
  cbn [app]. f_equal. apply IH. intros d I. apply A. right. exact I.
Qed.
Lemma utf8_char_length c : (1 <= List.length (utf8_char c))%nat.
Proof. unfold utf8_char. chars; cbn; lia. Qed.
Lemma utf8_length s : (List.length s <= List.length (utf8 s))%nat.
Proof. induction s as [|c s IH]; [cbn; lia|]. unfold utf8. cbn [flat_map]. rewrite app_length. fold (utf8 s). pose proof (utf8_char_length c). cbn [List.length]. lia. Qed.
Lemma utf8_longer s c : In c s -> 128 <= c -> (List.length s < List.length (utf8 s))%nat.
Proof.
  induction s as [|d s IH]; intros I L; [destruct I|]. unfold utf8. cbn [flat_map]. rewrite app_length. fold (utf8 s). cbn [List.length]. destruct I as [->|I].
  - pose proof (utf8_length s). assert (2 <= List.length (utf8_char c))%nat; [|lia]. unfold utf8_char. chars; cbn; lia.
  - pose proof (utf8_char_length d). specialize (IH I L). lia.
Qed.
Lemma argument_c_ok s : no_nul s -> argument_c s = utf8 s.
Proof. exact (to_nul_utf8 s). Qed.
Lemma argument_c_wrong s t : no_nul s -> argument_c (s ++ 0 :: t) = utf8 s.
Proof. intros N. unfold argument_c. rewrite utf8_app. change (utf8 (0 :: t)) with (0 :: utf8 t). rewrite to_nul_first. apply to_nul_utf8. exact N. Qed.
Lemma argument_fortran_ok s : ascii s -> argument_fortran s = utf8 s.
Proof. intros A. unfold argument_fortran. rewrite utf8_ascii by exact A. apply firstn_all. Qed.
Lemma argument_fortran_wrong s c : In c s -> 128 <= c -> (List.length (argument_fortran s) < List.length (utf8 s))%nat.
Proof. intros I L. unfold argument_fortran. rewrite firstn_length. pose proof (utf8_longer s c I L). lia. Qed.
Lemma result_c_ok s : no_nul s -> result_c (utf8 s) = utf8 s.
Proof. exact (to_nul_utf8 s). Qed.
Lemma result_fortran_ok s : no_nul s -> result_fortran (utf8 s) = utf8 s.
Proof. intros N. unfold result_fortran. rewrite to_nul_first. exact (to_nul_utf8 s N). Qed.

(* ------------------------------ statements ------------------------------ *)

Lemma sstmt_ind' (P : sstmt -> Prop) :
  (forall x r, P (TAssign x r)) -> (forall x, P (TPrint x)) ->
  (forall c a b, Forall P a -> Forall P b -> P (TIf c a b)) -> (forall n b, Forall P b -> P (TLoop n b)) -> forall s, P s.
Proof.
  intros A B C D.
  exact (fix F (s : sstmt) : P s :=
    match s with
    | TAssign x r => A x r
    | TPrint x => B x
    | TIf c a b =>
      C c a b ((fix G (l : list sstmt) : Forall P l := match l with [] => Forall_nil P | s :: l' => Forall_cons s (F s) (G l') end) a)
              ((fix G (l : list sstmt) : Forall P l := match l with [] => Forall_nil P | s :: l' => Forall_cons s (F s) (G l') end) b)
    | TLoop n b => D n b ((fix G (l : list sstmt) : Forall P l := match l with [] => Forall_nil P | s :: l' => Forall_cons s (F s) (G l') end) b)
    end).
Qed.
Lemma svisits_cons lp s l a : svisits lp (s :: l) a = let '(c, a1) := svisit lp s a in let '(c', a2) := svisits lp l a1 in (c ++ c', a2).
Proof. reflexivity. Qed.
Lemma svisit_if lp c l l' a : svisit lp (TIf c l l') a =
    let '(g, a1) := svisits lp l a in
    let a1' := close (a_next a) FSec false a1 in
    let '(g', a2) := svisits lp l' a1' in
    let a2' := close (a_next a1') FSec false a2 in
    ([UIf c g g'], close (a_next a) FIf false a2').
Proof. reflexivity. Qed.
Lemma svisit_loop lp n l a : svisit lp (TLoop n l) a = let '(g, a1) := svisits true l a in ([ULoop n g], close (a_next a) FLoop false a1).
Proof. reflexivity. Qed.
Lemma c_runs_app big : forall l l' st, c_runs big (l ++ l') st = obind (c_runs big l st) (c_runs big l').
Proof. induction l as [|s l IH]; intros l' st; [reflexivity|]. cbn [app c_runs]. destruct (c_run big s st); [cbn; apply IH|reflexivity]. Qed.
Lemma c_runs_one big s st : c_runs big [s] st = c_run big s st.
Proof. cbn [c_runs]. destruct (c_run big s st); reflexivity. Qed.
Lemma c_run_if big c a b st : c_run big (UIf c a b) st = match c_cond st c with Some true => c_runs big a st | Some false => c_runs big b st | None => None end.
Proof. reflexivity. Qed.
Lemma c_run_loop big n b st : c_run big (ULoop n b) st = iter_o n (c_runs big b) st.
Proof. reflexivity. Qed.
Lemma p_runs_cons s l st : p_runs (s :: l) st = obind (p_run s st) (p_runs l).
Proof. reflexivity. Qed.

(* ------------------------------ the invariant ------------------------------ *)

(* all variables but those in X have the strings they have in Python, in blocks of their own *)
Record except (X : nat -> Prop) (e : nat -> option str) (out : list str) (st : cst) : Prop := {
  x_read : forall y, ~ X y -> c_read st y = e y;
  x_var : forall y, ~ X y -> (c_var st y = None <-> e y = None);
  x_bound : forall b, c_heap st b <> None -> (b < c_new st)%nat;
  x_inj : forall y z b, ~ X y -> ~ X z -> c_var st y = Some (Block b) -> c_var st z = Some (Block b) -> y = z;
  x_own : forall b, c_heap st b <> None -> exists y, ~ X y /\ c_var st y = Some (Block b);
  x_out : c_out st = out;
  x_good : forall y s, e y = Some s -> no_nul s
}.
Definition nobody (y : nat) : Prop := False.
Definition only (x y : nat) : Prop := y = x.
Definition inv := except nobody.
Definition no_blocks (st : cst) : Prop := (forall y b, c_var st y <> Some (Block b)) /\ forall b, c_heap st b = None.
Definition small (big : str -> bool) : Prop := forall s, big s = false.
Definition J (big : str -> bool) (e : nat -> option str) (out : list str) (st : cst) : Prop := inv e out st /\ (small big -> no_blocks st).

Lemma upd_same {A} (m : nat -> A) x v : upd m x v x = v.
Proof. unfold upd. rewrite Nat.eqb_refl. reflexivity. Qed.
Lemma upd_other {A} (m : nat -> A) x v y : y <> x -> upd m x v y = m y.
Proof. intros N. unfold upd. destruct (Nat.eqb_spec y x); [contradiction|reflexivity]. Qed.
Lemma put_same e x s : put e x s x = Some s.
Proof. unfold put. rewrite Nat.eqb_refl. reflexivity. Qed.
Lemma put_other e x s y : y <> x -> put e x s y = e y.
Proof. intros N. unfold put. destruct (Nat.eqb_spec y x); [contradiction|reflexivity]. Qed.

Lemma inv_except e out st x : inv e out st -> c_var st x = None -> except (only x) e out st.
Proof.
  intros I N. constructor.
  - intros y _. apply (x_read _ _ _ _ I). intros [].
  - intros y _. apply (x_var _ _ _ _ I). intros [].
  - exact (x_bound _ _ _ _ I).
  - intros y z b _ _. apply (x_inj _ _ _ _ I); intros [].
  - intros b H. destruct (x_own _ _ _ _ I b H) as (y & _ & V). exists y. split; [|exact V]. intros ->. congruence.
  - exact (x_out _ _ _ _ I).
  - exact (x_good _ _ _ _ I).
Qed.
Lemma drop_except X e out st x : except X e out st -> ~ X x -> c_var st x <> None ->
  exists st', c_drop x st = Some st' /\ except (fun y => X y \/ y = x) e out st' /\ c_var st' = c_var st.
Proof.
  intros I NX V. unfold c_drop. destruct (c_var st x) as [[s|b]|] eqn:E; [| |contradiction].
  - exists st. split; [reflexivity|]. split; [|reflexivity]. constructor.
    + intros y H. apply (x_read _ _ _ _ I). tauto.
    + intros y H. apply (x_var _ _ _ _ I). tauto.
    + exact (x_bound _ _ _ _ I).
    + intros y z b H H'. apply (x_inj _ _ _ _ I); tauto.
    + intros b H. destruct (x_own _ _ _ _ I b H) as (y & Q & W). exists y. split; [|exact W]. intros [K| ->]; [tauto|congruence].
    + exact (x_out _ _ _ _ I).
    + exact (x_good _ _ _ _ I).
  - pose proof (x_read _ _ _ _ I x NX) as R. pose proof (proj2 (x_var _ _ _ _ I x NX)) as W. unfold c_read in R. rewrite E in R. cbn [c_val] in R. rewrite E in W.
    destruct (c_heap st b) as [s|] eqn:H; [|exfalso; assert (Q : e x = None) by congruence; specialize (W Q); discriminate].
    eexists. split; [reflexivity|]. split; [|reflexivity]. cbn. constructor; cbn.
    + intros y N. rewrite <- (x_read _ _ _ _ I y) by tauto. unfold c_read. cbn. destruct (c_var st y) as [[t|b']|] eqn:Y; auto. cbn.
      apply upd_other. intros ->. apply N. right. apply (x_inj _ _ _ _ I y x b); tauto.
    + intros y N. apply (x_var _ _ _ _ I). tauto.
    + intros b' K. apply (x_bound _ _ _ _ I). intros Q. apply K. unfold upd. destruct (Nat.eqb b' b); auto.
    + intros y z b' N N'. apply (x_inj _ _ _ _ I); tauto.
    + intros b' K. destruct (Nat.eq_dec b' b) as [->|NB]; [rewrite upd_same in K; contradiction|]. rewrite upd_other in K by exact NB.
      destruct (x_own _ _ _ _ I b' K) as (y & Q & Y). exists y. split; [|exact Y]. intros [K'| ->]; [tauto|]. congruence.
    + exact (x_out _ _ _ _ I).
    + exact (x_good _ _ _ _ I).
Qed.
Lemma except_ext X X' e out st : (forall y, X y <-> X' y) -> except X e out st -> except X' e out st.
Proof.
  intros Q I. constructor.
  - intros y H. apply (x_read _ _ _ _ I). rewrite Q. exact H.
  - intros y H. apply (x_var _ _ _ _ I). rewrite Q. exact H.
  - exact (x_bound _ _ _ _ I).
  - intros y z b H H'. apply (x_inj _ _ _ _ I); rewrite Q; assumption.
  - intros b H. destruct (x_own _ _ _ _ I b H) as (y & N & W). exists y. rewrite <- Q. auto.
  - exact (x_out _ _ _ _ I).
  - exact (x_good _ _ _ _ I).
Qed.
Lemma make_inv big e out st x s : except (only x) e out st -> no_nul s -> inv (put e x s) out (c_make big x s st).
Proof.
  intros I G. unfold c_make. destruct (big s).
  - assert (F : c_heap st (c_new st) = None).
    { destruct (c_heap st (c_new st)) eqn:E; [|reflexivity]. exfalso. apply (Nat.lt_irrefl (c_new st)). apply (x_bound _ _ _ _ I). congruence. }
    assert (NB : forall y, y <> x -> c_var st y <> Some (Block (c_new st))).
    { intros y N V. pose proof (x_read _ _ _ _ I y N) as R. unfold c_read in R. rewrite V in R. cbn in R. rewrite F in R.
      symmetry in R. apply (x_var _ _ _ _ I y N) in R. congruence. }
    constructor; cbn.
    + intros y _. unfold c_read. cbn. destruct (Nat.eq_dec y x) as [->|N].
      * rewrite upd_same, put_same. cbn. apply upd_same.
      * rewrite upd_other, put_other by exact N. rewrite <- (x_read _ _ _ _ I y N). unfold c_read. destruct (c_var st y) as [[t|b]|] eqn:Y; auto. cbn. apply upd_other. intros ->. exact (NB y N Y).
    + intros y _. destruct (Nat.eq_dec y x) as [->|N]; [rewrite upd_same, put_same; split; discriminate|]. rewrite upd_other, put_other by exact N. apply (x_var _ _ _ _ I y N).
    + intros b H. destruct (Nat.eq_dec b (c_new st)) as [->|N]; [lia|]. rewrite upd_other in H by exact N. pose proof (x_bound _ _ _ _ I b H). lia.
    + intros y z b _ _ Y Z. destruct (Nat.eq_dec y x) as [->|N], (Nat.eq_dec z x) as [->|N']; auto; rewrite ?upd_same in *; rewrite ?upd_other in * by assumption.
      * injection Y as <-. destruct (NB z N' Z).
      * injection Z as <-. destruct (NB y N Y).
      * exact (x_inj _ _ _ _ I y z b N N' Y Z).
    + intros b H. destruct (Nat.eq_dec b (c_new st)) as [->|N]; [exists x; split; [intros []|apply upd_same]|]. rewrite upd_other in H by exact N.
      destruct (x_own _ _ _ _ I b H) as (y & M & Y). exists y. split; [intros []|]. rewrite upd_other by exact M. exact Y.
    + exact (x_out _ _ _ _ I).
    + intros y t H. destruct (Nat.eq_dec y x) as [->|N]; [rewrite put_same in H; injection H as <-; exact G|]. rewrite put_other in H by exact N. exact (x_good _ _ _ _ I y t H).
  - constructor; cbn.
    + intros y _. unfold c_read. cbn. destruct (Nat.eq_dec y x) as [->|N].
      * rewrite upd_same, put_same. reflexivity.
      * rewrite upd_other, put_other by exact N. rewrite <- (x_read _ _ _ _ I y N). unfold c_read. destruct (c_var st y) as [[t|b]|] eqn:Y; auto.
    + intros y _. destruct (Nat.eq_dec y x) as [->|N]; [rewrite upd_same, put_same; split; discriminate|]. rewrite upd_other, put_other by exact N. apply (x_var _ _ _ _ I y N).
    + exact (x_bound _ _ _ _ I).
    + intros y z b _ _ Y Z. destruct (Nat.eq_dec y x) as [->|N], (Nat.eq_dec z x) as [->|N']; auto; rewrite ?upd_same in *; rewrite ?upd_other in * by assumption; try discriminate.
      exact (x_inj _ _ _ _ I y z b N N' Y Z).
    + intros b H. destruct (x_own _ _ _ _ I b H) as (y & M & Y). exists y. split; [intros []|]. rewrite upd_other by exact M. exact Y.
    + exact (x_out _ _ _ _ I).
    + intros y t H. destruct (Nat.eq_dec y x) as [->|N]; [rewrite put_same in H; injection H as <-; exact G|]. rewrite put_other in H by exact N. exact (x_good _ _ _ _ I y t H).
Qed.
Lemma make_small big x s st : small big -> no_blocks st -> no_blocks (c_make big x s st).
Proof.
  intros B (V & H). unfold c_make. rewrite B. split; [|exact H]. intros y b. cbn. unfold upd. destruct (Nat.eqb y x); [discriminate|apply V].
Qed.
Lemma make_var big x s st y : c_var (c_make big x s st) y = None <-> y <> x /\ c_var st y = None.
Proof.
  unfold c_make. destruct (big s); cbn; unfold upd; destruct (Nat.eqb_spec y x); split; try discriminate; tauto.
Qed.

(* the arguments of calls *)
Lemma args_ok big X e out st : except X e out st -> forall l ss, (forall y, In y (flat_map arg_var l) -> ~ X y) -> (forall s, In s (flat_map arg_lit l) -> big s = false) ->
  p_args e l = Some ss -> c_args big l st = Some (ss, st).
Proof.
  intros I. induction l as [|a l IH]; intros ss NX NB H; [cbn in H; injection H as <-; reflexivity|]. cbn [p_args] in H. destruct (p_arg e a) as [s|] eqn:A; [|discriminate]. destruct (p_args e l) as [ss'|]; [|discriminate]. injection H as <-.
  assert (Q : c_args big l st = Some (ss', st)). { apply IH; [intros y Y; apply NX; cbn; apply in_or_app; auto|intros t T; apply NB; cbn; apply in_or_app; auto|reflexivity]. }
  destruct a as [y|t]; cbn in A |- *.
  - rewrite (x_read _ _ _ _ I y) by (apply NX; cbn; auto). rewrite A, Q. reflexivity.
  - rewrite (NB t) by (cbn; auto). rewrite Q. congruence.
Qed.
Lemma args_good e l ss : (forall y s, e y = Some s -> no_nul s) -> (forall a, In a l -> lit_ok no_nul a) -> p_args e l = Some ss -> List.length ss = List.length l /\ forall s, In s ss -> no_nul s.
Proof.
  intros G. revert ss. induction l as [|a l IH]; intros ss O H; [cbn in H; injection H as <-; split; [reflexivity|intros s []]|]. cbn [p_args] in H. destruct (p_arg e a) as [s|] eqn:A; [|discriminate]. destruct (p_args e l) as [ss'|] eqn:E; [|discriminate]. injection H as <-.
  destruct (IH ss') as (L & I); [intros b B; apply O; right; exact B|reflexivity|]. split; [cbn; lia|]. intros t [<-|T]; [|apply I; exact T].
  destruct a as [y|u]; cbn in A; [exact (G y s A)|]. injection A as <-. apply (O (ALit u)); cbn; auto.
Qed.
Lemma value_good e r s : (forall y s, e y = Some s -> no_nul s) -> rhs_ok no_nul r -> no_cat r -> p_value e r = Some s -> no_nul s.
Proof.
  intros G O C H. destruct r as [t|y|y|f l|y z]; cbn in *; try contradiction.
  - congruence.
  - exact (G y s H).
  - exact (G y s H).
  - destruct (p_args e l) as [ss|] eqn:E; [|discriminate]. injection H as <-. destruct O as (O & F). destruct (args_good e l ss G O E) as (L & I). exact (F ss L I).
Qed.

Definition allowed (big : str -> bool) (x : nat) (r : srhs) : Prop := rhs_ok no_nul r /\ (owned big x r \/ small big /\ no_cat r).

(* an assignment of a new string, the variable being free *)
Lemma assign_owned big e out st x r s : except (only x) e out st -> owned big x r -> rhs_ok no_nul r -> p_value e r = Some s ->
  c_assign big x r st = Some (c_make big x s st) /\ no_nul s.
Proof.
  intros I (NV & O) G H. assert (NC : no_cat r) by (destruct r; cbn in *; tauto). split; [|exact (value_good e r s (x_good _ _ _ _ I) G NC H)].
  destruct r as [t|y|y|f l|y z]; cbn [c_assign p_value rhs_vars] in *; try contradiction.
  - congruence.
  - assert (N : y <> x) by (intros ->; apply NV; cbn; auto). rewrite (x_read _ _ _ _ I y N), H. reflexivity.
  - destruct (p_args e l) as [ss|] eqn:E; [|discriminate]. rewrite (args_ok big (only x) e out st I l ss); auto; [congruence|]. intros y Y. unfold only. intros ->. contradiction.
Qed.
Lemma args_small big e out st : small big -> inv e out st -> forall l ss, p_args e l = Some ss -> c_args big l st = Some (ss, st).
Proof. intros B I l ss H. apply (args_ok big nobody e out st I); auto; intros y _ []. Qed.
Lemma assign_small big e out st x r s : small big -> inv e out st -> no_blocks st -> no_cat r -> rhs_ok no_nul r -> p_value e r = Some s ->
  c_assign big x r st = Some (c_set x (Short s) st).
Proof.
  intros B I (NB & NH) NC G H. assert (M : forall t, c_make big x t st = c_set x (Short t) st) by (intros t; unfold c_make; rewrite B; reflexivity).
  destruct r as [t|y|y|f l|y z]; cbn [c_assign p_value] in *; try contradiction.
  - injection H as <-. rewrite M. reflexivity.
  - pose proof (x_read _ _ _ _ I y (fun f => f)) as R. rewrite H in R. unfold c_read in R. destruct (c_var st y) as [[t|b]|] eqn:E; [|destruct (NB y b E)|discriminate]. cbn in R. congruence.
  - rewrite (x_read _ _ _ _ I y (fun f => f)), H, M. reflexivity.
  - destruct (p_args e l) as [ss|] eqn:E; [|discriminate]. rewrite (args_small big e out st B I l ss E), M. congruence.
Qed.
Lemma set_small e out st x s : inv e out st -> no_blocks st -> no_nul s -> inv (put e x s) out (c_set x (Short s) st).
Proof.
  intros I (NB & NH) G. constructor; cbn.
  - intros y _. unfold c_read. cbn. destruct (Nat.eq_dec y x) as [->|N]; [rewrite upd_same, put_same; reflexivity|]. rewrite upd_other, put_other by exact N. rewrite <- (x_read _ _ _ _ I y (fun f => f)). unfold c_read. destruct (c_var st y) as [[t|b]|]; auto.
  - intros y _. destruct (Nat.eq_dec y x) as [->|N]; [rewrite upd_same, put_same; split; discriminate|]. rewrite upd_other, put_other by exact N. apply (x_var _ _ _ _ I y (fun f => f)).
  - exact (x_bound _ _ _ _ I).
  - intros y z b _ _ Y. exfalso. unfold upd in Y. destruct (Nat.eqb y x); [discriminate|exact (NB y b Y)].
  - intros b H. destruct (H (NH b)).
  - exact (x_out _ _ _ _ I).
  - intros y t H. destruct (Nat.eq_dec y x) as [->|N]; [rewrite put_same in H; injection H as <-; exact G|]. rewrite put_other in H by exact N. exact (x_good _ _ _ _ I y t H).
Qed.
Lemma drop_small st x : no_blocks st -> c_var st x <> None -> c_drop x st = Some st.
Proof. intros (NB & _) V. unfold c_drop. destruct (c_var st x) as [[s|b]|] eqn:E; [reflexivity|destruct (NB x b E)|contradiction]. Qed.

Lemma step_new big e out st x r s : J big e out st -> allowed big x r -> c_var st x = None -> p_value e r = Some s ->
  exists st', c_runs big [UAssign x r] st = Some st' /\ J big (put e x s) out st' /\ forall y, c_var st' y = None <-> y <> x /\ c_var st y = None.
Proof.
  intros (I & SM) (G & [O|(B & NC)]) V H; rewrite c_runs_one; cbn [c_run].
  - destruct (assign_owned big e out st x r s (inv_except e out st x I V) O G H) as (E & GS). rewrite E. eexists. split; [reflexivity|]. split; [|intros y; apply make_var].
    split; [apply make_inv; [apply inv_except; assumption|exact GS]|]. intros B. apply make_small; [exact B|exact (SM B)].
  - rewrite (assign_small big e out st x r s B I (SM B) NC G H). eexists. split; [reflexivity|]. split; [split|].
    + apply set_small; auto. exact (value_good e r s (x_good _ _ _ _ I) G NC H).
    + intros _. destruct (SM B) as (NB & NH). split; [|exact NH]. intros y b. cbn. unfold upd. destruct (Nat.eqb y x); [discriminate|apply NB].
    + intros y. cbn. unfold upd. destruct (Nat.eqb_spec y x); split; try discriminate; tauto.
Qed.
Lemma step_again big e out st x r s : J big e out st -> allowed big x r -> c_var st x <> None -> p_value e r = Some s ->
  exists st', c_runs big [UDrop x; UAssign x r] st = Some st' /\ J big (put e x s) out st' /\ forall y, c_var st' y = None <-> c_var st y = None.
Proof.
  intros (I & SM) (G & [O|(B & NC)]) V H; cbn [c_runs c_run].
  - destruct (drop_except nobody e out st x I (fun f => f) V) as (st1 & D & I1 & V1). rewrite D. cbn [obind].
    assert (I2 : except (only x) e out st1). { apply (except_ext (fun y => nobody y \/ y = x)); [|exact I1]. intros y. unfold nobody, only. tauto. }
    destruct (assign_owned big e out st1 x r s I2 O G H) as (E & GS). rewrite E. cbn [obind]. eexists. split; [reflexivity|]. split.
    + split; [apply make_inv; assumption|]. intros B. apply make_small; [exact B|]. destruct (SM B) as (NB & NH). rewrite (drop_small st x (SM B) V) in D. injection D as <-. exact (SM B).
    + intros y. rewrite make_var, V1. split; [tauto|]. intros Q. split; [|exact Q]. intros ->. contradiction.
  - rewrite (drop_small st x (SM B) V). cbn [obind]. rewrite (assign_small big e out st x r s B I (SM B) NC G H). cbn [obind]. eexists. split; [reflexivity|]. split; [split|].
    + apply set_small; auto. exact (value_good e r s (x_good _ _ _ _ I) G NC H).
    + intros _. destruct (SM B) as (NB & NH). split; [|exact NH]. intros y b. cbn. unfold upd. destruct (Nat.eqb y x); [discriminate|apply NB].
    + intros y. cbn. unfold upd. destruct (Nat.eqb_spec y x) as [->|]; split; try discriminate; tauto.
Qed.
(* x = x, without Allocate *)
Lemma step_self big e out st x s : J big e out st -> allowed big x (RCopy x) -> c_var st x <> None -> e x = Some s ->
  exists st', c_runs big [UAssign x (RCopy x)] st = Some st' /\ J big (put e x s) out st' /\ forall y, c_var st' y = None <-> c_var st y = None.
Proof.
  intros Q A V H. pose proof Q as (I & SM). destruct A as (G & [(N & _)|(B & NC)]); [destruct N; cbn; auto|].
  destruct (step_again big e out st x (RCopy x) s Q (conj G (or_intror (conj B NC))) V H) as (st' & R & R').
  exists st'. split; [|exact R']. cbn [c_runs c_run] in R. rewrite (drop_small st x (SM B) V) in R. exact R.
Qed.

(* ------------------------------ the analysis ------------------------------ *)

(* inside: only strings that have been assigned before the position n are assigned *)
Definition fresh_info (n : nat) (i : info) : Prop := i_status i = Unallocated -> i_path i = [] /\ i_orphan i = false /\ (i_id i < n)%nat.
Definition known (n : nat) (a : an) : Prop := forall x i, a_last a x = Some i -> (i_id i < a_next a)%nat /\ fresh_info n i.

Lemma known_status n a x i : known n a -> a_last a x = Some i -> (if open_sec i then i_status i else if has_if_or_loop i then Unknown else Allocated) <> Unallocated.
Proof.
  intros K E. destruct (K x i E) as (_ & F). destruct (open_sec i) eqn:O; [|destruct (has_if_or_loop i); discriminate].
  intros Q. destruct (F Q) as (P & R & _). unfold open_sec in O. rewrite P, R in O. discriminate.
Qed.
Lemma known_sec n a x i : known n a -> a_last a x = Some i -> has_sec i = true -> i_status i <> Unallocated.
Proof. intros K E S Q. destruct (K x i E) as (_ & F). destruct (F Q) as (P & R & _). unfold has_sec in S. rewrite P, R in S. discriminate. Qed.
Lemma add_known n a x st l : known n a -> st <> Unallocated -> known n (add_alloc x st [] l a).
Proof.
  intros K NU y i H. cbn in *. unfold upd in H. destruct (Nat.eqb y x).
  - injection H as <-. cbn. split; [lia|]. intros Q. contradiction.
  - destruct (K y i H) as (L & F). split; [lia|exact F].
Qed.
Definition dom (a a' : an) : Prop := forall y, a_last a' y = None <-> a_last a y = None.
Lemma add_dom a x st l i : a_last a x = Some i -> dom a (add_alloc x st [] l a).
Proof. intros E y. cbn. unfold upd. destruct (Nat.eqb_spec y x) as [->|]; [|tauto]. rewrite E. split; discriminate. Qed.
Lemma sassign_known n lp x r a i : known n a -> a_last a x = Some i ->
  exists d a', sassign lp x r a = (d ++ [UAssign x r], a') /\ (d = [UDrop x] \/ d = [] /\ r = RCopy x)
    /\ known n a' /\ (a_next a <= a_next a')%nat /\ dom a a' /\ a_frees a' = a_frees a.
Proof.
  intros K E. unfold sassign. rewrite E.
  assert (D : forall st, st <> Unallocated -> drop_if st x = [UDrop x]) by (intros []; intros Q; [contradiction|reflexivity|reflexivity]).
  destruct (negb match r with RCopy y => Nat.eqb y x | _ => false end) eqn:S.
  - pose proof (known_status n a x i K E) as NU. cbv zeta. do 2 eexists. split; [reflexivity|]. split; [left; apply D; exact NU|]. split; [apply add_known; assumption|]. split; [cbn; lia|]. split; [exact (add_dom a x _ _ i E)|reflexivity].
  - assert (r = RCopy x) as ->. { destruct r; try discriminate. destruct (Nat.eqb_spec y x); [congruence|discriminate]. }
    destruct (has_sec i && negb (has_if i)) eqn:H.
    + apply andb_prop in H. destruct H as (H & _). pose proof (known_sec n a x i K E H) as NU. do 2 eexists. split; [reflexivity|]. split; [left; apply D; exact NU|]. split; [apply add_known; assumption|]. split; [cbn; lia|]. split; [exact (add_dom a x _ _ i E)|reflexivity].
    + exists [], a. split; [reflexivity|]. split; [auto|]. split; [exact K|]. split; [lia|]. split; [intros y; tauto|reflexivity].
Qed.
Lemma close_known n m f a : known n a -> (n <= m)%nat -> known n (close m f false a).
Proof.
  intros K L x i H. cbn in *. destruct (a_last a x) as [j|] eqn:E; [|discriminate]. cbn in H. injection H as <-. destruct (K x j E) as (B & F).
  unfold close_info. destruct (Nat.ltb_spec (i_id j) m); [split; assumption|]. cbn. split; [exact B|]. intros Q. cbn in Q. destruct (F Q) as (_ & _ & W). lia.
Qed.
Lemma close_dom m f a : dom a (close m f false a).
Proof. intros y. cbn. destruct (a_last a y); cbn; split; congruence. Qed.
Lemma dom_trans a b c : dom a b -> dom b c -> dom a c.
Proof. intros A B y. rewrite (B y). apply A. Qed.

(* ------------------------------ simulation inside ------------------------------ *)

Definition ok_stmts (big : str -> bool) (l : list sstmt) : Prop :=
  (forall x r, In (x, r) (flat_map assigned l) -> allowed big x r) /\ (forall c, In c (flat_map compared l) -> cond_ok no_nul c).
Definition agree (a : an) (st : cst) : Prop := forall y, a_last a y = None <-> c_var st y = None.
Definition inside (big : str -> bool) (code : list tstmt) (prun : pst -> option pst) (a : an) : Prop :=
  forall e out st, J big e out st -> agree a st -> forall e' out', prun (e, out) = Some (e', out') ->
  exists st', c_runs big code st = Some st' /\ J big e' out' st' /\ agree a st'.
Definition visit_ok (big : str -> bool) (n : nat) (a : an) (res : list tstmt * an) (prun : pst -> option pst) : Prop :=
  known n (snd res) /\ (a_next a <= a_next (snd res))%nat /\ dom a (snd res) /\ a_frees (snd res) = a_frees a /\ inside big (fst res) prun a.

Lemma operand_ok e out st a s : inv e out st -> p_arg e a = Some s -> c_operand st a = Some s.
Proof. intros I H. destruct a as [y|t]; cbn in *; [|congruence]. rewrite (x_read _ _ _ _ I y (fun f => f)). exact H. Qed.
Lemma operand_good e a s : (forall y s, e y = Some s -> no_nul s) -> lit_ok no_nul a -> p_arg e a = Some s -> no_nul s.
Proof. intros G L H. destruct a as [y|t]; cbn in *; [exact (G y s H)|]. injection H as <-. apply L. cbn. auto. Qed.
Lemma compare_agree e out st x y s t : inv e out st -> lit_ok no_nul x -> lit_ok no_nul y -> p_arg e x = Some s -> p_arg e y = Some t ->
  c_operand st x = Some s /\ c_operand st y = Some t /\ eq_c s t = same s t.
Proof.
  intros I L L' X Y. split; [exact (operand_ok e out st x s I X)|]. split; [exact (operand_ok e out st y t I Y)|].
  apply eq_c_ok; [exact (operand_good e x s (x_good _ _ _ _ I) L X)|exact (operand_good e y t (x_good _ _ _ _ I) L' Y)].
Qed.
Lemma cond_agree e out st c b : inv e out st -> cond_ok no_nul c -> p_cond e c = Some b -> c_cond st c = Some b.
Proof.
  intros I O H. destruct c as [x y|x y]; cbn in *; destruct O as (L & L'); destruct (p_arg e x) as [s|] eqn:X; try discriminate; destruct (p_arg e y) as [t|] eqn:Y; try discriminate;
    destruct (compare_agree e out st x y s t I L L' X Y) as (-> & -> & ->); exact H.
Qed.
Lemma agree_dom a a' st : dom a a' -> agree a st -> agree a' st.
Proof. intros D A y. rewrite (D y). apply A. Qed.
Lemma agree_dom' a a' st : dom a a' -> agree a' st -> agree a st.
Proof. intros D A y. rewrite <- (D y). apply A. Qed.

Definition stmt_ok (big : str -> bool) (s : sstmt) : Prop :=
  ok_stmts big [s] -> forall n lp a, known n a -> (n <= a_next a)%nat -> (forall y, In y (map fst (assigned s)) -> a_last a y <> None) ->
  visit_ok big n a (svisit lp s a) (p_run s).
Definition stmts_ok (big : str -> bool) (l : list sstmt) : Prop :=
  ok_stmts big l -> forall n lp a, known n a -> (n <= a_next a)%nat -> (forall y, In y (map fst (flat_map assigned l)) -> a_last a y <> None) ->
  visit_ok big n a (svisits lp l a) (p_runs l).
Lemma ok_cons big s l : ok_stmts big (s :: l) -> ok_stmts big [s] /\ ok_stmts big l.
Proof.
  intros (A & B). cbn [flat_map] in A, B. split.
  - split; [intros x r H; apply A|intros c H; apply B]; cbn [flat_map] in H; rewrite app_nil_r in H; apply in_or_app; auto.
  - split; [intros x r H; apply A|intros c H; apply B]; apply in_or_app; auto.
Qed.
Lemma list_ok big l : Forall (stmt_ok big) l -> stmts_ok big l.
Proof.
  induction l as [|s l IH]; intros F O n lp a K L S.
  - split; [exact K|]. split; [apply le_n|]. split; [intros y; apply iff_refl|]. split; [reflexivity|]. intros e out st Q A e' out' H. cbn in H. injection H as <- <-. exists st. auto.
  - apply Forall_cons_iff in F. destruct F as (F & F'). destruct (ok_cons big s l O) as (O1 & O2). rewrite svisits_cons.
    assert (S1 : forall y, In y (map fst (assigned s)) -> a_last a y <> None). { intros y Y. apply S. cbn [flat_map]. rewrite map_app. apply in_or_app. auto. }
    pose proof (F O1 n lp a K L S1) as V1. destruct (svisit lp s a) as [c a1]. destruct V1 as (K1 & L1 & D1 & R1 & I1). cbn [fst snd] in *.
    assert (S2 : forall y, In y (map fst (flat_map assigned l)) -> a_last a1 y <> None). { intros y Y Q. apply D1 in Q. revert Q. apply S. cbn [flat_map]. rewrite map_app. apply in_or_app. auto. }
    pose proof (IH F' O2 n lp a1 K1 ltac:(lia) S2) as V2. destruct (svisits lp l a1) as [c' a2]. destruct V2 as (K2 & L2 & D2 & R2 & I2). cbn [fst snd] in *.
    split; [exact K2|]. split; [cbn [snd]; lia|]. split; [exact (dom_trans _ _ _ D1 D2)|]. split; [cbn [snd]; congruence|]. cbn [fst].
    intros e out st Q A e' out' H. rewrite p_runs_cons in H. destruct (p_run s (e, out)) as [(e1, out1)|] eqn:P; [|discriminate]. cbn [obind] in H.
    destruct (I1 e out st Q A e1 out1 P) as (st1 & C1 & Q1 & A1). destruct (I2 e1 out1 st1 Q1 (agree_dom a a1 st1 D1 A1) e' out' H) as (st2 & C2 & Q2 & A2).
    exists st2. rewrite c_runs_app, C1. cbn [obind]. split; [exact C2|]. split; [exact Q2|exact (agree_dom' a a1 st2 D1 A2)].
Qed.
Lemma iter_inside big b l a : inside big b (p_runs l) a -> forall n, inside big [ULoop n b] (iter_o n (p_runs l)) a.
Proof.
  intros I. induction n as [|n IH]; intros e out st Q A e' out' H; rewrite c_runs_one, c_run_loop.
  - cbn in *. injection H as <- <-. exists st. auto.
  - cbn [iter_o] in *. destruct (p_runs l (e, out)) as [(e1, out1)|] eqn:P; [|discriminate]. cbn [obind] in H.
    destruct (I e out st Q A e1 out1 P) as (st1 & C1 & Q1 & A1). rewrite C1. cbn [obind]. destruct (IH e1 out1 st1 Q1 A1 e' out' H) as (st2 & C2 & Q2 & A2).
    rewrite c_runs_one, c_run_loop in C2. exists st2. auto.
Qed.
Lemma every_stmt big : forall s, stmt_ok big s.
Proof.
  apply sstmt_ind'.
  - intros x r O n lp a K L S. cbn [svisit]. destruct (a_last a x) as [i|] eqn:E; [|destruct (S x); [cbn; auto|exact E]].
    destruct (sassign_known n lp x r a i K E) as (d & a' & V & D & K' & L' & DM & R). rewrite V. split; [exact K'|]. split; [exact L'|]. split; [exact DM|]. split; [exact R|]. cbn [fst].
    intros e out st Q A e' out' H. cbn [p_run fst snd] in H. destruct (p_value e r) as [s|] eqn:P; [|discriminate]. injection H as <- <-.
    assert (AL : allowed big x r) by (apply O; cbn; auto). assert (VX : c_var st x <> None) by (rewrite <- (A x); congruence).
    destruct D as [->|(-> & ->)].
    + destruct (step_again big e out st x r s Q AL VX P) as (st' & C & Q' & W). exists st'. split; [exact C|]. split; [exact Q'|]. intros y. rewrite W. apply A.
    + destruct (step_self big e out st x s Q AL VX P) as (st' & C & Q' & W). exists st'. split; [exact C|]. split; [exact Q'|]. intros y. rewrite W. apply A.
  - intros x O n lp a K L S. split; [exact K|]. split; [apply le_n|]. split; [intros y; apply iff_refl|]. split; [reflexivity|].
    cbn [svisit fst]. intros e out st Q A e' out' H. cbn [p_run fst snd] in H. destruct (e x) as [s|] eqn:E; [|discriminate]. injection H as <- <-. pose proof Q as (I & SM).
    rewrite c_runs_one. cbn [c_run]. rewrite (x_read _ _ _ _ I x (fun f => f)), E. eexists. split; [reflexivity|]. split; [|exact A]. split; [|exact SM].
    constructor; cbn.
    + exact (x_read _ _ _ _ I).
    + exact (x_var _ _ _ _ I).
    + exact (x_bound _ _ _ _ I).
    + exact (x_inj _ _ _ _ I).
    + exact (x_own _ _ _ _ I).
    + rewrite (x_out _ _ _ _ I). reflexivity.
    + exact (x_good _ _ _ _ I).
  - intros c l l' F F' O n lp a K L S. rewrite svisit_if.
    assert (OC : cond_ok no_nul c) by (apply O; cbn; auto).
    assert (O1 : ok_stmts big l /\ ok_stmts big l').
    { destruct O as (O1 & O2). cbn [flat_map assigned compared] in *. rewrite app_nil_r in *. split; split; intros; try (apply O1; apply in_or_app; auto; fail); apply O2; right; apply in_or_app; auto. }
    destruct O1 as (O1 & O2). cbn [assigned] in S. rewrite map_app in S.
    pose proof (list_ok big l F O1 n lp a K L (fun y Y => S y (in_or_app _ _ _ (or_introl Y)))) as V1. destruct (svisits lp l a) as [g a1]. destruct V1 as (K1 & L1 & D1 & R1 & I1). cbn [fst snd] in *.
    cbv zeta. set (a1' := close (a_next a) FSec false a1).
    assert (K1' : known n a1') by (apply close_known; assumption). assert (D1' : dom a a1') by exact (dom_trans _ _ _ D1 (close_dom _ _ _)).
    assert (S2 : forall y, In y (map fst (flat_map assigned l')) -> a_last a1' y <> None). { intros y Y Q. apply D1' in Q. revert Q. apply S. apply in_or_app. auto. }
    assert (N1 : a_next a1' = a_next a1) by reflexivity.
    pose proof (list_ok big l' F' O2 n lp a1' K1' ltac:(lia) S2) as V2. destruct (svisits lp l' a1') as [g' a2]. destruct V2 as (K2 & L2 & D2 & R2 & I2). cbn [fst snd] in *.
    split; [cbn [snd]; apply close_known; [apply close_known; [exact K2|lia]|exact L]|]. split; [cbn; lia|].
    split; [cbn [snd]; exact (dom_trans _ _ _ (dom_trans _ _ _ D1' D2) (dom_trans _ _ _ (close_dom _ _ _) (close_dom _ _ _)))|]. split; [cbn; rewrite R2; exact R1|].
    cbn [fst]. intros e out st Q A e' out' H. change (p_run (TIf c l l') (e, out)) with (match p_cond e c with Some true => p_runs l (e, out) | Some false => p_runs l' (e, out) | None => None end) in H.
    destruct (p_cond e c) as [b|] eqn:PC; [|discriminate]. rewrite c_runs_one, c_run_if. rewrite (cond_agree e out st c b (proj1 Q) OC PC). destruct b.
    + exact (I1 e out st Q A e' out' H).
    + destruct (I2 e out st Q (agree_dom a a1' st D1' A) e' out' H) as (st' & C & Q' & A'). exists st'. split; [exact C|]. split; [exact Q'|exact (agree_dom' a a1' st' D1' A')].
  - intros m l F O n lp a K L S. rewrite svisit_loop.
    assert (O1 : ok_stmts big l). { destruct O as (O1 & O2). cbn [flat_map assigned compared] in *. rewrite app_nil_r in *. split; assumption. }
    pose proof (list_ok big l F O1 n true a K L S) as V1. destruct (svisits true l a) as [g a1]. destruct V1 as (K1 & L1 & D1 & R1 & I1). cbn [fst snd] in *.
    split; [cbn [snd]; apply close_known; assumption|]. split; [cbn; lia|]. split; [cbn [snd]; exact (dom_trans _ _ _ D1 (close_dom _ _ _))|]. split; [exact R1|]. cbn [fst].
    exact (iter_inside big g l a I1 m).
Qed.

(* ------------------------------ the whole function ------------------------------ *)

Definition listed (a : an) : Prop := forall y, In y (a_frees a) <-> a_last a y <> None.
Lemma known_mono n m a : known n a -> (n <= m)%nat -> known m a.
Proof. intros K L x i E. destruct (K x i E) as (B & F). split; [exact B|]. intros Q. destruct (F Q) as (A & C & D). repeat split; auto. lia. Qed.
Lemma top_ok big : forall p seen a, ok_stmts big p -> top_first seen p -> (forall y, In y seen <-> a_last a y <> None) -> known (a_next a) a -> listed a ->
  let '(code, a') := svisits false p a in
  listed a' /\ forall e out st, J big e out st -> agree a st -> forall e' out', p_runs p (e, out) = Some (e', out') ->
  exists st', c_runs big code st = Some st' /\ J big e' out' st' /\ agree a' st'.
Proof.
  induction p as [|s p IH]; intros seen a O T SE K LS.
  - cbn. split; [exact LS|]. intros e out st Q A e' out' H. injection H as <- <-. exists st. auto.
  - destruct (ok_cons big s p O) as (O1 & O2). rewrite svisits_cons.
    (* a statement that assigns no new variable *)
    assert (OLD : (forall y, In y (map fst (assigned s)) -> a_last a y <> None) -> forall seen', (forall y, In y seen' <-> In y seen) -> top_first seen' p ->
      let '(code, a') := (let '(c, a1) := svisit false s a in let '(c', a2) := svisits false p a1 in (c ++ c', a2)) in
      listed a' /\ forall e out st, J big e out st -> agree a st -> forall e' out', p_runs (s :: p) (e, out) = Some (e', out') ->
      exists st', c_runs big code st = Some st' /\ J big e' out' st' /\ agree a' st').
    { intros S seen' SS T'. pose proof (every_stmt big s O1 (a_next a) false a K (le_n _) S) as V. destruct (svisit false s a) as [c a1]. destruct V as (K1 & L1 & D1 & R1 & I1). cbn [fst snd] in *.
      assert (X : let '(code, a') := svisits false p a1 in listed a' /\ forall e out st, J big e out st -> agree a1 st -> forall e' out', p_runs p (e, out) = Some (e', out') -> exists st', c_runs big code st = Some st' /\ J big e' out' st' /\ agree a' st').
      { apply (IH seen'); auto.
        - intros y. rewrite SS, SE. rewrite (D1 y). tauto.
        - exact (known_mono _ _ _ K1 L1).
        - intros y. rewrite R1, (LS y), (D1 y). tauto. }
      destruct (svisits false p a1) as [c' a2]. destruct X as (X1 & X2). split; [exact X1|]. intros e out st Q A e' out' H. rewrite p_runs_cons in H.
      destruct (p_run s (e, out)) as [(e1, out1)|] eqn:P; [|discriminate]. cbn [obind] in H. destruct (I1 e out st Q A e1 out1 P) as (st1 & C1 & Q1 & A1).
      destruct (X2 e1 out1 st1 Q1 (agree_dom a a1 st1 D1 A1) e' out' H) as (st2 & C2 & Q2 & A2). exists st2. rewrite c_runs_app, C1. auto. }
    destruct s as [x r|x|c l l'|n l]; try (cbn [top_first] in T; destruct T as (T1 & T2); apply (OLD (fun y Y => proj1 (SE y) (T1 y Y)) seen (fun y => iff_refl _) T2)).
    cbn [top_first] in T. destruct (a_last a x) as [i|] eqn:E.
    + apply (OLD) with (seen' := x :: seen); auto.
      * intros y Y. cbn in Y. destruct Y as [<-|[]]. rewrite E. discriminate.
      * intros y. cbn. split; [intros [<-|Y]; [apply SE; rewrite E; discriminate|exact Y]|auto].
    + clear OLD. cbn [svisit]. unfold sassign. rewrite E. cbn [drop_if app]. set (a1 := add_alloc x Unallocated [] (x :: a_frees a) a).
      assert (X : let '(code, a') := svisits false p a1 in listed a' /\ forall e out st, J big e out st -> agree a1 st -> forall e' out', p_runs p (e, out) = Some (e', out') -> exists st', c_runs big code st = Some st' /\ J big e' out' st' /\ agree a' st').
      { apply (IH (x :: seen)); auto.
        - intros y. cbn. unfold upd. destruct (Nat.eqb_spec y x) as [->|N]; [split; [discriminate|auto]|]. rewrite <- SE. split; [intros [Q|Q]; [congruence|exact Q]|auto].
        - intros y i H. cbn in H. unfold upd in H. destruct (Nat.eqb y x); [injection H as <-; cbn; split; [lia|]; intros _; cbn; auto|]. destruct (K y i H) as (B & F). split; [cbn; lia|]. intros Q. destruct (F Q) as (U & W & Z). cbn. repeat split; auto.
        - intros y. cbn. unfold upd. destruct (Nat.eqb_spec y x) as [->|N]; [split; [discriminate|auto]|]. rewrite <- (LS y). split; [intros [Q|Q]; [congruence|exact Q]|auto]. }
      destruct (svisits false p a1) as [c' a2]. destruct X as (X1 & X2). split; [exact X1|]. intros e out st Q A e' out' H. rewrite p_runs_cons in H. cbn [p_run fst snd] in H.
      destruct (p_value e r) as [s|] eqn:P; [|discriminate]. cbn [obind] in H.
      destruct (step_new big e out st x r s Q (proj1 O1 x r (or_introl eq_refl)) (proj1 (A x) E) P) as (st1 & C1 & Q1 & W).
      assert (A1 : agree a1 st1). { intros y. rewrite W. cbn. unfold upd. destruct (Nat.eqb_spec y x) as [->|N]; [split; [discriminate|tauto]|]. rewrite (A y). tauto. }
      destruct (X2 _ _ st1 Q1 A1 e' out' H) as (st2 & C2 & Q2 & A2). exists st2. rewrite c_runs_one in C1. cbn [c_runs]. rewrite C1. auto.
Qed.
Lemma drops_ok e out : forall xs X st, except X e out st -> NoDup xs -> (forall x, In x xs -> ~ X x /\ c_var st x <> None) ->
  exists st', c_drops xs st = Some st' /\ except (fun y => X y \/ In y xs) e out st' /\ c_var st' = c_var st.
Proof.
  induction xs as [|x xs IH]; intros X st I N H.
  - exists st. split; [reflexivity|]. split; [|reflexivity]. apply (except_ext X); [|exact I]. intros y. cbn. tauto.
  - inversion N as [|x' l NI N']. subst. destruct (H x (or_introl eq_refl)) as (NX & V). destruct (drop_except X e out st x I NX V) as (st1 & D & I1 & V1).
    destruct (IH (fun y => X y \/ y = x) st1 I1 N') as (st2 & D2 & I2 & V2).
    { intros y Y. split; [|rewrite V1; apply H; right; exact Y]. intros [Q| ->]; [exact (proj1 (H y (or_intror Y)) Q)|contradiction]. }
    exists st2. cbn [c_drops]. rewrite D. cbn [obind]. split; [exact D2|]. split; [|congruence]. apply (except_ext (fun y => (X y \/ y = x) \/ In y xs)); [|exact I2].
    intros y. cbn. split; [intros [[Q| ->]|Q]; auto|intros [Q|[->|Q]]; auto].
Qed.
Lemma inv0 : inv (fun _ => None) [] cst0.
Proof. constructor; cbn; try reflexivity; try tauto; try discriminate; intros; congruence. Qed.
Lemma function_ok big p x : ok_stmts big p -> top_first [] p -> c_right big p x.
Proof.
  intros O T s out H. unfold p_function in H. unfold c_function.
  assert (X := top_ok big p [] an0 O T). specialize (X ltac:(intros y; cbn; split; [tauto|congruence])).
  specialize (X ltac:(intros y i Q; discriminate)). specialize (X ltac:(intros y; cbn; split; [tauto|congruence])).
  destruct (svisits false p an0) as [code a]. destruct X as (LS & X).
  destruct (p_runs p (fun _ => None, [])) as [(e, o)|] eqn:P; [|discriminate]. destruct (e x) as [t|] eqn:E; [|discriminate]. injection H as <- <-.
  assert (J0 : J big (fun _ => None) [] cst0) by (split; [exact inv0|intros _; split; [discriminate|reflexivity]]).
  destruct (X _ _ cst0 J0 ltac:(intros y; cbn; tauto) e o P) as (st1 & C1 & (I1 & _) & A1). rewrite C1. cbn [obind].
  destruct (drops_ok e o (sfrees x a) nobody st1 I1) as (st2 & D & I2 & V2).
  { apply NoDup_filter. apply NoDup_nodup. }
  { intros y Y. unfold sfrees in Y. apply filter_In in Y. destruct Y as (Y & _). apply nodup_In in Y. split; [intros []|]. rewrite <- (A1 y). apply LS. exact Y. }
  assert (NX : ~ (nobody x \/ In x (sfrees x a))). { intros [[]|Q]. unfold sfrees in Q. apply filter_In in Q. destruct Q as (_ & Q). rewrite Nat.eqb_refl in Q. discriminate. }
  rewrite D, (x_read _ _ _ _ I2 x NX), E. exists st2. split; [reflexivity|]. split; [exact (x_out _ _ _ _ I2)|]. intros b B. destruct (x_own _ _ _ _ I2 b B) as (y & NY & V).
  destruct (Nat.eq_dec y x) as [->|N]; [exact V|]. exfalso. apply NY. right. unfold sfrees. apply filter_In. split; [|destruct (Nat.eqb_spec y x); [contradiction|reflexivity]].
  apply nodup_In. apply LS. rewrite (A1 y), <- V2. congruence.
Qed.

(* ------------------------------ Fortran ------------------------------ *)

Definition F (e : nat -> option str) (out : list str) (st : fst_) : Prop :=
  (forall y, fst st y = e y) /\ snd st = out /\ forall y s, e y = Some s -> no_blank_end s.
Lemma f_runs_app : forall l l' st, f_runs (l ++ l') st = obind (f_runs l st) (f_runs l').
Proof. induction l as [|s l IH]; intros l' st; [reflexivity|]. cbn [app f_runs]. destruct (f_run s st); [cbn; apply IH|reflexivity]. Qed.
Lemma f_runs_one s st : f_runs [s] st = f_run s st.
Proof. cbn [f_runs]. destruct (f_run s st); reflexivity. Qed.
Lemma f_run_if c a b st : f_run (UIf c a b) st = match f_cond (fst st) c with Some true => f_runs a st | Some false => f_runs b st | None => None end.
Proof. reflexivity. Qed.
Lemma f_run_loop n b st : f_run (ULoop n b) st = iter_o n (f_runs b) st.
Proof. reflexivity. Qed.
Lemma f_operand_eq e f a : (forall y, f y = e y) -> f_operand f a = p_arg e a.
Proof. intros E. destruct a; cbn; auto. Qed.
Lemma f_reads_eq e f l : (forall y, f y = e y) -> f_reads f l = p_args e l.
Proof. intros E. induction l as [|a l IH]; [reflexivity|]. cbn. rewrite (f_operand_eq e f a E), IH. reflexivity. Qed.
Lemma f_value_eq e f r : (forall y, f y = e y) -> f_value f r = p_value e r.
Proof. intros E. destruct r; cbn; auto; [rewrite (f_reads_eq e f l E); destruct (p_args e l); reflexivity|rewrite !E; reflexivity]. Qed.
Lemma cat_good s t : no_blank_end s -> no_blank_end t -> no_blank_end (s ++ t).
Proof.
  intros (C & N) (C' & N'). split; [intros c I; apply in_app_or in I; destruct I; [apply C|apply C']; assumption|].
  intros u H. destruct (list_end t) as [->|(v & c & ->)]; [rewrite app_nil_r in H; exact (N u H)|].
  rewrite app_assoc in H. apply app_inj_tail in H. destruct H as (_ & ->). exact (N' v eq_refl).
Qed.
Lemma f_arg_good e a s : (forall y s, e y = Some s -> no_blank_end s) -> lit_ok no_blank_end a -> p_arg e a = Some s -> no_blank_end s.
Proof. intros G L H. destruct a as [y|t]; cbn in *; [exact (G y s H)|]. injection H as <-. apply L. cbn. auto. Qed.
Lemma f_args_good e l ss : (forall y s, e y = Some s -> no_blank_end s) -> (forall a, In a l -> lit_ok no_blank_end a) -> p_args e l = Some ss -> List.length ss = List.length l /\ forall s, In s ss -> no_blank_end s.
Proof.
  intros G. revert ss. induction l as [|a l IH]; intros ss O H; [cbn in H; injection H as <-; split; [reflexivity|intros s []]|]. cbn [p_args] in H. destruct (p_arg e a) as [s|] eqn:A; [|discriminate]. destruct (p_args e l) as [ss'|] eqn:E; [|discriminate]. injection H as <-.
  destruct (IH ss') as (L & I); [intros b B; apply O; right; exact B|reflexivity|]. split; [cbn; lia|]. intros t [<-|T]; [|apply I; exact T].
  exact (f_arg_good e a s G (O a (or_introl eq_refl)) A).
Qed.
Lemma f_value_good e r s : (forall y s, e y = Some s -> no_blank_end s) -> rhs_ok no_blank_end r -> p_value e r = Some s -> no_blank_end s.
Proof.
  intros G O H. destruct r as [t|y|y|f l|y z]; cbn in *.
  - congruence.
  - exact (G y s H).
  - exact (G y s H).
  - destruct (p_args e l) as [ss|] eqn:E; [|discriminate]. injection H as <-. destruct O as (O & FF). destruct (f_args_good e l ss G O E) as (L & I). exact (FF ss L I).
  - destruct (e y) as [t|] eqn:Y; [|discriminate]. destruct (e z) as [u|] eqn:Z; [|discriminate]. injection H as <-. apply cat_good; [exact (G y t Y)|exact (G z u Z)].
Qed.
Lemma f_cond_eq e f c : (forall y, f y = e y) -> (forall y s, e y = Some s -> no_blank_end s) -> cond_ok no_blank_end c -> f_cond f c = p_cond e c.
Proof.
  intros E G O. destruct c as [x y|x y]; cbn [cond_ok f_cond p_cond] in *; destruct O as (L & L'); rewrite !(f_operand_eq e f _ E);
    destruct (p_arg e x) as [s|] eqn:X; [|reflexivity|..]; try (destruct (p_arg e y) as [t|] eqn:Y; [|reflexivity]);
    try (rewrite (eq_f_ok s t); [reflexivity|exact (f_arg_good e x s G L X)|exact (f_arg_good e y t G L' Y)]); reflexivity.
Qed.
Definition f_sim (code : list tstmt) (prun : pst -> option pst) : Prop :=
  forall e out st, F e out st -> forall e' out', prun (e, out) = Some (e', out') -> exists st', f_runs code st = Some st' /\ F e' out' st'.
Definition good_f (l : list sstmt) : Prop := all_strings no_blank_end l.
Definition f_stmt (s : sstmt) : Prop := good_f [s] -> forall lp a, f_sim (fst (svisit lp s a)) (p_run s).
Lemma good_f_cons s l : good_f (s :: l) -> good_f [s] /\ good_f l.
Proof.
  intros (A & B). cbn [flat_map] in A, B. split.
  - split; [intros x r H; apply (A x)|intros c H; apply B]; cbn [flat_map] in H; rewrite app_nil_r in H; apply in_or_app; auto.
  - split; [intros x r H; apply (A x)|intros c H; apply B]; apply in_or_app; auto.
Qed.
Lemma f_list l : Forall f_stmt l -> good_f l -> forall lp a, f_sim (fst (svisits lp l a)) (p_runs l).
Proof.
  induction l as [|s l IH]; intros Q G lp a.
  - intros e out st H e' out' P. cbn in P. injection P as <- <-. exists st. auto.
  - apply Forall_cons_iff in Q. destruct Q as (Q & Q'). destruct (good_f_cons s l G) as (G1 & G2). rewrite svisits_cons. pose proof (Q G1 lp a) as V. destruct (svisit lp s a) as [c a1]. pose proof (IH Q' G2 lp a1) as W. destruct (svisits lp l a1) as [c' a2]. cbn [fst] in *.
    intros e out st H e' out' P. rewrite p_runs_cons in P. destruct (p_run s (e, out)) as [(e1, o1)|] eqn:E; [|discriminate]. cbn [obind] in P.
    destruct (V e out st H e1 o1 E) as (st1 & R1 & H1). destruct (W e1 o1 st1 H1 e' out' P) as (st2 & R2 & H2). exists st2. rewrite f_runs_app, R1. auto.
Qed.
Lemma f_drop_if st x c : forall s, f_runs (drop_if st x ++ c) s = f_runs c s.
Proof. intros s. destruct st; reflexivity. Qed.
Lemma f_assign lp x r a : exists st c, fst (sassign lp x r a) = drop_if st x ++ c /\ c = [UAssign x r].
Proof.
  unfold sassign. destruct (a_last a x) as [i|].
  - destruct (negb _); [cbv zeta; do 2 eexists; split; reflexivity|]. destruct (has_sec i && negb (has_if i)); [do 2 eexists; split; reflexivity|]. exists Unallocated. eexists. split; reflexivity.
  - cbv zeta. do 2 eexists. split; reflexivity.
Qed.
Lemma every_f : forall s, f_stmt s.
Proof.
  apply sstmt_ind'.
  - intros x r G lp a e out st (E & SO & GD) e' out' P. cbn [svisit]. destruct (f_assign lp x r a) as (s & c & -> & ->). rewrite f_drop_if, f_runs_one. cbn [f_run p_run fst snd] in *. rewrite (f_value_eq e (fst st) r E).
    destruct (p_value e r) as [v|] eqn:V; [|discriminate]. injection P as <- <-. eexists. split; [reflexivity|]. split; [|split]; cbn [fst snd].
    + intros y. unfold upd, put. destruct (Nat.eqb y x); auto.
    + exact SO.
    + intros y t H. unfold put in H. destruct (Nat.eqb y x); [injection H as <-|exact (GD y t H)]. apply (f_value_good e r v GD); [|exact V]. destruct G as (G & _). apply (G x). cbn. auto.
  - intros x G lp a e out st (E & SO & GD) e' out' P. cbn [svisit fst]. rewrite f_runs_one. cbn [f_run p_run fst snd] in *. rewrite E. destruct (e x) as [s|]; [|discriminate]. injection P as <- <-.
    eexists. split; [reflexivity|]. split; [exact E|]. split; [cbn; rewrite SO; reflexivity|exact GD].
  - intros c l l' Q Q' G lp a e out st H e' out' P.
    assert (G1 : cond_ok no_blank_end c /\ good_f l /\ good_f l').
    { destruct G as (G1 & G2). cbn [flat_map assigned compared] in G1, G2. rewrite app_nil_r in G1, G2. split; [apply G2; left; reflexivity|]. split; split; intros; try (eapply G1; apply in_or_app; eauto; fail); apply G2; right; apply in_or_app; auto. }
    destruct G1 as (GC & G1 & G2). rewrite svisit_if. pose proof (f_list l Q G1 lp a) as V. destruct (svisits lp l a) as [g a1]. cbv zeta. pose proof (f_list l' Q' G2 lp (close (a_next a) FSec false a1)) as W. destruct (svisits lp l' _) as [g' a2]. cbn [fst] in *.
    change (p_run (TIf c l l') (e, out)) with (match p_cond e c with Some true => p_runs l (e, out) | Some false => p_runs l' (e, out) | None => None end) in P.
    rewrite f_runs_one, f_run_if. pose proof H as (E & _ & GD). rewrite (f_cond_eq e (fst st) c E GD GC). destruct (p_cond e c) as [[|]|]; [exact (V e out st H e' out' P)|exact (W e out st H e' out' P)|discriminate].
  - intros n l Q G lp a. assert (G1 : good_f l). { destruct G as (G1 & G2). cbn [flat_map assigned compared] in G1, G2. rewrite app_nil_r in G1, G2. split; assumption. }
    rewrite svisit_loop. pose proof (f_list l Q G1 true a) as V. destruct (svisits true l a) as [g a1]. cbn [fst] in *.
    change (p_run (TLoop n l)) with (iter_o n (p_runs l)). clear G Q. induction n as [|n IH]; intros e out st H e' out' P; rewrite f_runs_one, f_run_loop.
    + cbn in *. injection P as <- <-. exists st. auto.
    + cbn [iter_o] in *. destruct (p_runs l (e, out)) as [(e1, o1)|] eqn:R; [|discriminate]. cbn [obind] in P. destruct (V e out st H e1 o1 R) as (st1 & C1 & H1). rewrite C1. cbn [obind].
      destruct (IH e1 o1 st1 H1 e' out' P) as (st2 & C2 & H2). rewrite f_runs_one, f_run_loop in C2. exists st2. auto.
Qed.
(* all variables with a string are freed *)
Definition freed_of (a : an) : Prop := forall y, a_last a y <> None -> In y (a_frees a).
Definition covers (l : list (nat * srhs)) (a a' : an) : Prop :=
  freed_of a -> freed_of a' /\ (forall y, a_last a y <> None -> a_last a' y <> None) /\ forall y, In y (map fst l) -> a_last a' y <> None.
Lemma add_covers x r st fr a : (forall y, In y (a_frees a) -> In y fr) -> In x fr \/ a_last a x <> None -> covers [(x, r)] a (add_alloc x st [] fr a).
Proof.
  intros S I FO. split; [|split].
  - intros y H. cbn [add_alloc a_last a_frees] in *. unfold upd in H. destruct (Nat.eqb y x) eqn:E; [|apply S; apply FO; exact H]. apply Nat.eqb_eq in E. rewrite E. destruct I as [I|I]; [exact I|apply S; apply FO; exact I].
  - intros y H. cbn. unfold upd. destruct (Nat.eqb y x); [discriminate|exact H].
  - intros y [<-|[]]. cbn. unfold upd. rewrite Nat.eqb_refl. discriminate.
Qed.
Lemma close_covers l n f a a' : covers l a a' -> covers l a (close n f false a').
Proof.
  intros C FO. destruct (C FO) as (A & B & D). split; [|split].
  - intros y H. cbn in *. apply A. destruct (a_last a' y); [discriminate|exact H].
  - intros y H. cbn. specialize (B y H). destruct (a_last a' y); [discriminate|contradiction].
  - intros y H. cbn. specialize (D y H). destruct (a_last a' y); [discriminate|contradiction].
Qed.
Lemma covers_trans l l' a b c : covers l a b -> covers l' b c -> covers (l ++ l') a c.
Proof.
  intros A B FO. destruct (A FO) as (F1 & K1 & S1). destruct (B F1) as (F2 & K2 & S2). split; [exact F2|]. split; [auto|]. intros y Y. rewrite map_app in Y. apply in_app_or in Y. destruct Y; auto.
Qed.
Lemma covers_refl a : covers [] a a.
Proof. intros FO. split; [exact FO|]. split; [auto|intros y []]. Qed.
Lemma covers_list l : Forall (fun s => forall lp a, covers (assigned s) a (snd (svisit lp s a))) l -> forall lp a, covers (flat_map assigned l) a (snd (svisits lp l a)).
Proof.
  induction l as [|s l IH]; intros Q lp a; [apply covers_refl|]. apply Forall_cons_iff in Q. destruct Q as (Q & Q'). rewrite svisits_cons. pose proof (Q lp a) as V. destruct (svisit lp s a) as [c a1]. pose proof (IH Q' lp a1) as W. destruct (svisits lp l a1) as [c' a2]. cbn [snd flat_map] in *. exact (covers_trans _ _ _ _ _ V W).
Qed.
Lemma covers_stmt : forall s lp a, covers (assigned s) a (snd (svisit lp s a)).
Proof.
  apply (sstmt_ind' (fun s => forall lp a, covers (assigned s) a (snd (svisit lp s a)))).
  - intros x r lp a. cbn [svisit assigned]. unfold sassign. destruct (a_last a x) as [i|] eqn:E.
    + assert (L : a_last a x <> None) by (rewrite E; discriminate). destruct (negb _); [apply add_covers; auto|]. destruct (has_sec i && negb (has_if i)); [apply add_covers; auto|]. cbn [snd]. intros FO. split; [exact FO|]. split; [auto|]. intros y [<-|[]]. exact L.
    + apply add_covers; cbn; auto.
  - intros x lp a. apply covers_refl.
  - intros c l l' Q Q' lp a. rewrite svisit_if. pose proof (covers_list l Q lp a) as V. destruct (svisits lp l a) as [g a1]. cbv zeta. pose proof (covers_list l' Q' lp (close (a_next a) FSec false a1)) as W. destruct (svisits lp l' _) as [g' a2]. cbn [snd assigned] in *.
    apply close_covers, close_covers. exact (covers_trans _ _ _ _ _ (close_covers _ _ _ _ _ V) W).
  - intros n l Q lp a. rewrite svisit_loop. pose proof (covers_list l Q true a) as V. destruct (svisits true l a) as [g a1]. cbn [snd assigned] in *. apply close_covers. exact V.
Qed.
(* only assigned variables get strings *)
Definition changes (prun : pst -> option pst) (l : list (nat * srhs)) : Prop := forall e out e' out' y, prun (e, out) = Some (e', out') -> e' y <> e y -> In y (map fst l).
Lemma str_dec (a b : option str) : {a = b} + {a <> b}.
Proof. decide equality. apply list_eq_dec. exact Z.eq_dec. Qed.
Lemma changes_list l : Forall (fun s => changes (p_run s) (assigned s)) l -> changes (p_runs l) (flat_map assigned l).
Proof.
  induction l as [|s l IH]; intros Q e out e' out' y P N; [cbn in P; injection P as <- <-; contradiction|]. apply Forall_cons_iff in Q. destruct Q as (Q & Q'). rewrite p_runs_cons in P.
  destruct (p_run s (e, out)) as [(e1, o1)|] eqn:E; [|discriminate]. cbn [obind] in P. cbn [flat_map]. rewrite map_app. apply in_or_app.
  destruct (str_dec (e1 y) (e y)) as [S|S]; [right; apply (IH Q' e1 o1 e' out' y P); congruence|left; exact (Q e out e1 o1 y E S)].
Qed.
Lemma changes_iter l b : changes b l -> forall n, changes (iter_o n b) l.
Proof.
  intros C. induction n as [|n IH]; intros e out e' out' y P N; [cbn in P; injection P as <- <-; contradiction|]. cbn [iter_o] in P. destruct (b (e, out)) as [(e1, o1)|] eqn:E; [|discriminate]. cbn [obind] in P.
  destruct (str_dec (e1 y) (e y)) as [S|S]; [apply (IH e1 o1 e' out' y P); congruence|exact (C e out e1 o1 y E S)].
Qed.
Lemma changes_stmt : forall s, changes (p_run s) (assigned s).
Proof.
  apply (sstmt_ind' (fun s => changes (p_run s) (assigned s))).
  - intros x r e out e' out' y P N. cbn [p_run fst snd] in P. destruct (p_value e r); [|discriminate]. injection P as <- <-. unfold put in N. destruct (Nat.eqb_spec y x) as [->|]; [cbn; auto|contradiction].
  - intros x e out e' out' y P N. cbn [p_run fst snd] in P. destruct (e x); [|discriminate]. injection P as <- <-. contradiction.
  - intros c l l' Q Q' e out e' out' y P N. change (p_run (TIf c l l') (e, out)) with (match p_cond e c with Some true => p_runs l (e, out) | Some false => p_runs l' (e, out) | None => None end) in P.
    cbn [assigned]. rewrite map_app. apply in_or_app. destruct (p_cond e c) as [[|]|]; [left; exact (changes_list l Q _ _ _ _ _ P N)|right; exact (changes_list l' Q' _ _ _ _ _ P N)|discriminate].
  - intros n l Q. change (p_run (TLoop n l)) with (iter_o n (p_runs l)). apply changes_iter. apply changes_list. exact Q.
Qed.
Lemma function_f p x : good_f p -> f_right p x.
Proof.
  intros G s out H. unfold p_function in H. unfold f_function.
  pose proof (f_list p (proj2 (Forall_forall _ _) (fun s _ => every_f s)) G false an0) as V. pose proof (covers_list p (proj2 (Forall_forall _ _) (fun s _ => covers_stmt s)) false an0) as W.
  destruct (svisits false p an0) as [code a]. cbn [fst snd] in *.
  destruct (p_runs p (fun _ => None, [])) as [(e, o)|] eqn:P; [|discriminate]. destruct (e x) as [t|] eqn:E; [|discriminate]. injection H as <- <-.
  destruct (V (fun _ => None) [] (fun _ => None, []) ltac:(split; [reflexivity|split; [reflexivity|discriminate]]) e o P) as (st & R & ES & SO & _). rewrite R. cbv zeta.
  destruct (W ltac:(intros y Y; cbn in Y; congruence)) as (W1 & _ & W2).
  assert (N : existsb (Nat.eqb x) (sfrees x a) = false). { apply not_true_iff_false. intros Q. apply existsb_exists in Q. destruct Q as (y & Y & Q). apply Nat.eqb_eq in Q. subst y. unfold sfrees in Y. apply filter_In in Y. rewrite Nat.eqb_refl in Y. destruct Y; discriminate. }
  unfold f_frees. cbn [fst]. rewrite N, ES, E. eexists. split; [reflexivity|]. split; [exact SO|]. intros y Y. cbn [fst]. destruct (existsb (Nat.eqb y) (sfrees x a)) eqn:EX; [reflexivity|].
  rewrite ES. destruct (e y) as [u|] eqn:EY; [|reflexivity]. exfalso. apply not_true_iff_false in EX. apply EX. apply existsb_exists. exists y. split; [|apply Nat.eqb_refl].
  unfold sfrees. apply filter_In. split; [|destruct (Nat.eqb_spec y x); [contradiction|reflexivity]]. apply nodup_In. apply W1. apply W2.
  apply (changes_list p (proj2 (Forall_forall _ _) (fun s _ => changes_stmt s)) (fun _ => None) [] e o y P). congruence.
Qed.


(* ------------------------------ the programs with which C is right ------------------------------ *)

Lemma c_owned big p x : all_strings no_nul p -> top_first [] p -> (forall y r, In (y, r) (flat_map assigned p) -> owned big y r) -> c_right big p x.
Proof. intros (A & B) T O. apply function_ok; [|exact T]. split; [|exact B]. intros y r I. split; [exact (A y r I)|left; exact (O y r I)]. Qed.
Lemma c_small big p x : all_strings no_nul p -> top_first [] p -> (forall s, big s = false) -> (forall y r, In (y, r) (flat_map assigned p) -> no_cat r) -> c_right big p x.
Proof. intros (A & B) T S O. apply function_ok; [|exact T]. split; [|exact B]. intros y r I. split; [exact (A y r I)|right; split; [exact S|exact (O y r I)]]. Qed.

(* ------------------------------ short strings ------------------------------ *)

Definition never (s : str) : bool := false.
Definition W (big : str -> bool) (st : cst) : Prop := no_blocks st /\ forall y s, c_var st y = Some (Short s) -> big s = false.
Definition is_short (big : str -> bool) (s : str) : Prop := big s = false.
Lemma W_read big st x s : W big st -> c_read st x = Some s -> big s = false.
Proof. intros ((NB & _) & H) R. unfold c_read in R. destruct (c_var st x) as [[t|b]|] eqn:E; [|destruct (NB x b E)|discriminate]. cbn in R. injection R as <-. exact (H x t E). Qed.
Lemma W_set big st x s : W big st -> big s = false -> W big (c_set x (Short s) st).
Proof.
  intros ((NB & NH) & H) B. split; [split; [|exact NH]|]; intros y v; cbn; unfold upd; destruct (Nat.eqb y x); try discriminate; [apply NB|intros E; injection E as <-; exact B|apply H].
Qed.
Lemma W_args big l : (forall a, In a l -> lit_ok (is_short big) a) -> forall st ss st', W big st -> c_args never l st = Some (ss, st') ->
  c_args big l st = Some (ss, st') /\ st' = st /\ List.length ss = List.length l /\ forall s, In s ss -> big s = false.
Proof.
  induction l as [|a l IH]; intros O st ss st' V H; [cbn in *; injection H as <- <-; split; [reflexivity|split; [reflexivity|split; [reflexivity|intros s []]]]|].
  assert (O' : forall b, In b l -> lit_ok (is_short big) b) by (intros b B; apply O; right; exact B). destruct a as [y|s]; cbn [c_args] in *.
  - destruct (c_read st y) as [s|] eqn:R; [|discriminate]. destruct (c_args never l st) as [(ss1, st1)|] eqn:E; [|discriminate]. injection H as <- <-. destruct (IH O' st ss1 st1 V E) as (-> & -> & L & I). split; [reflexivity|]. split; [reflexivity|]. split; [cbn; lia|]. intros t [<-|T]; [exact (W_read big st y s V R)|exact (I t T)].
  - cbn [never] in H. assert (B : big s = false) by (apply (O (ALit s) (or_introl eq_refl)); cbn; auto). rewrite B. cbv zeta in *. destruct (c_args never l st) as [(ss1, st1)|] eqn:E; [|discriminate]. injection H as <- <-. destruct (IH O' st ss1 st1 V E) as (-> & -> & L & I). split; [reflexivity|]. split; [reflexivity|]. split; [cbn; lia|]. intros t [<-|T]; [exact B|exact (I t T)].
Qed.
Lemma W_assign big x r st st' : rhs_ok (is_short big) r -> W big st -> c_assign never x r st = Some st' -> c_assign big x r st = Some st' /\ W big st'.
Proof.
  intros O V H. assert (M : forall t, big t = false -> c_make big x t st = c_set x (Short t) st) by (intros t T; unfold c_make; rewrite T; reflexivity).
  destruct r as [t|y|y|f l|y z]; cbn [c_assign] in *.
  - injection H as <-. cbn in O. rewrite (M t O). split; [reflexivity|apply W_set; assumption].
  - destruct (c_var st y) as [[s|b]|] eqn:E; [|destruct (proj1 (proj1 V) y b E)|discriminate]. injection H as <-. split; [reflexivity|]. apply W_set; [exact V|exact (proj2 V y s E)].
  - destruct (c_read st y) as [s|] eqn:E; [|discriminate]. injection H as <-. pose proof (W_read big st y s V E) as B. rewrite (M s B). split; [reflexivity|apply W_set; assumption].
  - destruct O as (O & FF). destruct (c_args never l st) as [(ss, st1)|] eqn:E; [|discriminate]. injection H as <-. destruct (W_args big l O st ss st1 V E) as (-> & -> & L & I). pose proof (FF ss L I) as B. unfold is_short in B. rewrite (M (f ss) B). split; [reflexivity|apply W_set; assumption].
  - discriminate.
Qed.
Lemma W_drop big x st st' : W big st -> c_drop x st = Some st' -> st' = st.
Proof. intros V H. unfold c_drop in H. destruct (c_var st x) as [[s|b]|] eqn:E; [congruence|destruct (proj1 (proj1 V) x b E)|discriminate]. Qed.
Definition W_sim (big : str -> bool) (code : list tstmt) : Prop := forall st st', W big st -> c_runs never code st = Some st' -> c_runs big code st = Some st' /\ W big st'.
Definition short_lits (big : str -> bool) (l : list sstmt) : Prop := forall x r, In (x, r) (flat_map assigned l) -> rhs_ok (is_short big) r.
Definition W_stmt (big : str -> bool) (s : sstmt) : Prop := short_lits big [s] -> forall lp a, W_sim big (fst (svisit lp s a)).
Lemma W_app big c c' : W_sim big c -> W_sim big c' -> W_sim big (c ++ c').
Proof.
  intros A B st st' V H. rewrite !c_runs_app in *. destruct (c_runs never c st) as [st1|] eqn:E; [|discriminate]. destruct (A st st1 V E) as (-> & V1). exact (B st1 st' V1 H).
Qed.
Lemma W_list big l : Forall (W_stmt big) l -> short_lits big l -> forall lp a, W_sim big (fst (svisits lp l a)).
Proof.
  induction l as [|s l IH]; intros Q G lp a; [intros st st' V H; cbn in *; injection H as <-; auto|]. apply Forall_cons_iff in Q. destruct Q as (Q & Q').
  assert (G1 : short_lits big [s]) by (intros x r I; cbn in I; rewrite app_nil_r in I; apply (G x); cbn; apply in_or_app; auto).
  assert (G2 : short_lits big l) by (intros x r I; apply (G x); cbn; apply in_or_app; auto).
  rewrite svisits_cons. pose proof (Q G1 lp a) as V. destruct (svisit lp s a) as [c a1]. pose proof (IH Q' G2 lp a1) as W1. destruct (svisits lp l a1) as [c' a2]. cbn [fst] in *. apply W_app; assumption.
Qed.
Lemma W_every big : forall s, W_stmt big s.
Proof.
  apply sstmt_ind'.
  - intros x r G lp a. cbn [svisit]. destruct (f_assign lp x r a) as (s & c & -> & ->). apply W_app.
    + assert (D : W_sim big [UDrop x]). { intros st st' V H. rewrite c_runs_one in H. rewrite c_runs_one. cbn [c_run] in *. pose proof (W_drop big x st st' V H) as Q. subst st'. split; assumption. }
      assert (D' : W_sim big []) by (intros st st' V H; cbn in H; injection H as <-; split; [reflexivity|exact V]). destruct s; cbn [drop_if]; assumption.
    + intros st st' V H. rewrite c_runs_one in *. cbn [c_run] in *. apply W_assign; auto. apply (G x). cbn. auto.
  - intros x G lp a st st' V H. cbn [svisit fst] in *. rewrite c_runs_one in *. cbn [c_run] in *. destruct (c_read st x); [|discriminate]. injection H as <-. split; [reflexivity|exact V].
  - intros c l l' Q Q' G lp a. assert (G1 : short_lits big l) by (intros x r I; apply (G x); cbn; rewrite app_nil_r; apply in_or_app; auto). assert (G2 : short_lits big l') by (intros x r I; apply (G x); cbn; rewrite app_nil_r; apply in_or_app; auto).
    rewrite svisit_if. pose proof (W_list big l Q G1 lp a) as V. destruct (svisits lp l a) as [g a1]. cbv zeta. pose proof (W_list big l' Q' G2 lp (close (a_next a) FSec false a1)) as W1. destruct (svisits lp l' _) as [g' a2]. cbn [fst] in *.
    intros st st' V1 H. rewrite c_runs_one, c_run_if in *. destruct (c_cond st c) as [[|]|]; [exact (V st st' V1 H)|exact (W1 st st' V1 H)|discriminate].
  - intros n l Q G lp a. assert (G1 : short_lits big l) by (intros x r I; apply (G x); cbn; rewrite app_nil_r; exact I). rewrite svisit_loop. pose proof (W_list big l Q G1 true a) as V. destruct (svisits true l a) as [g a1]. cbn [fst] in *. clear G Q.
    induction n as [|n IH]; intros st st' V1 H; rewrite c_runs_one, c_run_loop in *; cbn [iter_o] in *; [injection H as <-; auto|].
    destruct (c_runs never g st) as [st1|] eqn:E; [|discriminate]. destruct (V st st1 V1 E) as (-> & V2). cbn [obind] in *. specialize (IH st1 st' V2). rewrite !c_runs_one, !c_run_loop in IH. exact (IH H).
Qed.
Lemma W_drops big : forall xs st st', W big st -> c_drops xs st = Some st' -> st' = st.
Proof. induction xs as [|x xs IH]; intros st st' V H; cbn in *; [congruence|]. destruct (c_drop x st) as [st1|] eqn:E; [|discriminate]. rewrite (W_drop big x st st1 V E) in H. exact (IH st st' V H). Qed.
Lemma W_cst0 big : W big cst0.
Proof. split; [split|]; intros; cbn in *; try discriminate; reflexivity. Qed.
Lemma c_short big p x : all_strings no_nul p -> all_strings (fun s => big s = false) p -> top_first [] p -> (forall y r, In (y, r) (flat_map assigned p) -> no_cat r) -> c_right big p x.
Proof.
  intros A B T N s out H. destruct (c_small never p x A T (fun _ => eq_refl) N s out H) as (st & C & O & HP). exists st. split; [|auto].
  unfold c_function in *. pose proof (W_list big p (proj2 (Forall_forall _ _) (fun s _ => W_every big s)) (proj1 B) false an0) as V. destruct (svisits false p an0) as [code a]. cbn [fst] in V.
  destruct (c_runs never code cst0) as [st1|] eqn:E; [|discriminate]. destruct (V cst0 st1 (W_cst0 big) E) as (-> & V1). exact C.
Qed.

(* ------------------------------ the programs with which C is wrong ------------------------------ *)

Ltac vars := repeat (rewrite ?upd_same; rewrite ?upd_other by (congruence || discriminate)).
Lemma copy_wrong big x y s : x <> y -> big s = true -> forall z, z = x \/ z = y ->
  p_function [TAssign x (RLit s); TAssign y (RCopy x)] z = Some (s, []) /\ c_function big [TAssign x (RLit s); TAssign y (RCopy x)] z = None.
Proof.
  intros N B z Z. assert (N' : Nat.eqb y x = false) by (apply Nat.eqb_neq; congruence). assert (N2 : Nat.eqb x y = false) by (apply Nat.eqb_neq; congruence). split.
  - unfold p_function. cbn. unfold put at 1. rewrite Nat.eqb_refl. cbn. unfold put. destruct Z as [->| ->]; rewrite ?N2, !Nat.eqb_refl; reflexivity.
  - unfold c_function. cbn. unfold sassign. cbn. unfold upd at 1. rewrite N'. cbn. unfold c_make. rewrite B. cbn. vars. cbn.
    destruct (Nat.eq_dec y x) as [E|_]; [congruence|]. destruct Z as [->| ->].
    + unfold sfrees. cbn. destruct (Nat.eq_dec x y) as [E|_]; [congruence|]. cbn. rewrite N', Nat.eqb_refl. cbn. unfold c_drop. cbn. vars. cbn. vars. cbn. unfold c_read. cbn. vars. cbn. vars. reflexivity.
    + unfold sfrees. cbn. destruct (Nat.eq_dec x y) as [E|_]; [congruence|]. cbn. rewrite N2, Nat.eqb_refl. cbn. unfold c_drop. cbn. vars. cbn. vars. cbn. unfold c_read. cbn. vars. cbn. vars. reflexivity.
Qed.
Lemma loop_wrong big n x r l p z : c_function big (TLoop (S n) (TAssign x r :: l) :: p) z = None.
Proof.
  unfold c_function. rewrite svisits_cons, svisit_loop, svisits_cons. cbn [svisit]. unfold sassign at 1. cbn [an0 a_last]. cbv zeta. cbn [drop_if].
  destruct (svisits true l _) as [c' a2]. destruct (svisits false p _) as [c a3]. reflexivity.
Qed.
Lemma if_wrong big a b x y s t : x <> y -> eq_c a b = same a b -> a <> b ->
  p_function [TIf (CEq (ALit a) (ALit b)) [TAssign x (RLit s)] []; TAssign y (RLit t)] y = Some (t, []) /\
  c_function big [TIf (CEq (ALit a) (ALit b)) [TAssign x (RLit s)] []; TAssign y (RLit t)] y = None.
Proof.
  intros N E D. assert (Q : same a b = false) by (unfold same; destruct (list_eq_dec Z.eq_dec a b); [contradiction|reflexivity]). split.
  - unfold p_function. cbn. rewrite Q. cbn. unfold put. rewrite Nat.eqb_refl. reflexivity.
  - unfold c_function. cbn. unfold sassign. cbn. unfold upd at 1. assert (N' : Nat.eqb y x = false) by (apply Nat.eqb_neq; congruence). assert (N2 : Nat.eqb x y = false) by (apply Nat.eqb_neq; congruence). rewrite ?N'. cbn. rewrite E, Q. cbn. 
    destruct (Nat.eq_dec x y) as [Z|_]; [congruence|]. destruct (Nat.eq_dec y x) as [Z|_]; [congruence|]. unfold sfrees. cbn. destruct (Nat.eq_dec x y) as [Z|_]; [congruence|]. destruct (Nat.eq_dec y x) as [Z|_]; [congruence|]. cbn. rewrite ?Nat.eqb_refl, ?N', ?N2. cbn. 
    unfold c_drop, c_make. destruct (big t); cbn; vars; reflexivity.
Qed.
Lemma self_wrong big x s f : big s = true ->
  p_function [TAssign x (RLit s); TAssign x (RStr x)] x = Some (s, []) /\ c_function big [TAssign x (RLit s); TAssign x (RStr x)] x = None /\
  p_function [TAssign x (RLit s); TAssign x (RFun f [AVar x])] x = Some (f [s], []) /\ c_function big [TAssign x (RLit s); TAssign x (RFun f [AVar x])] x = None.
Proof.
  intros B. split; [|split; [|split]].
  - unfold p_function. cbn. unfold put at 1. rewrite Nat.eqb_refl. cbn. unfold put. rewrite !Nat.eqb_refl. reflexivity.
  - unfold c_function. cbn. unfold sassign. cbn. unfold upd at 1. rewrite Nat.eqb_refl. cbn. unfold c_make. rewrite B. cbn. unfold c_drop. cbn. vars. cbn. vars. unfold c_read. cbn. vars. cbn. vars. reflexivity.
  - unfold p_function. cbn. unfold put at 1. rewrite Nat.eqb_refl. cbn. unfold put. rewrite !Nat.eqb_refl. reflexivity.
  - unfold c_function. cbn. unfold sassign. cbn. unfold upd at 1. rewrite Nat.eqb_refl. cbn. unfold c_make. rewrite B. cbn. unfold c_drop. cbn. vars. cbn. vars. unfold c_read. cbn. vars. cbn. vars. reflexivity.
Qed.
Lemma leak_wrong big x s f : big s = true -> exists st, c_function big [TAssign x (RFun f [ALit s])] x = Some (f [s], st) /\ c_heap st 0%nat = Some s /\ c_var st x <> Some (Block 0).
Proof.
  intros B. unfold c_function. cbn. unfold sassign. cbn. rewrite B. cbn. unfold sfrees. cbn. rewrite Nat.eqb_refl. cbn. unfold c_make. destruct (big (f [s])) eqn:E; cbn; unfold c_read; cbn; vars; cbn; vars.
  - eexists. split; [reflexivity|]. cbn. vars. split; [reflexivity|]. intros Q. injection Q. discriminate.
  - eexists. split; [reflexivity|]. cbn. vars. split; [reflexivity|discriminate].
Qed.
Lemma cat_wrong big x y z s t : x <> y -> p_function [TAssign x (RLit s); TAssign y (RLit t); TAssign z (RCat x y)] z = Some (s ++ t, []) /\ c_function big [TAssign x (RLit s); TAssign y (RLit t); TAssign z (RCat x y)] z = None.
Proof.
  intros N. split.
  - unfold p_function. cbn. unfold put at 1 2. assert (N2 : Nat.eqb x y = false) by (apply Nat.eqb_neq; congruence). rewrite N2. unfold put at 1. rewrite !Nat.eqb_refl. cbn. unfold put at 1. rewrite Nat.eqb_refl. reflexivity.
  - unfold c_function. rewrite svisits_cons. cbn [svisit]. destruct (sassign false x (RLit s) an0) as [c1 a1] eqn:E1. rewrite svisits_cons. cbn [svisit]. destruct (sassign false y (RLit t) a1) as [c2 a2]. rewrite svisits_cons. cbn [svisit]. destruct (f_assign false z (RCat x y) a2) as (st & c & Q & ->). destruct (sassign false z (RCat x y) a2) as [c3 a3]. cbn [fst] in Q. subst c3.
    change (svisits false [] a3) with (@nil tstmt, a3). cbv beta iota. rewrite app_nil_r. rewrite c_runs_app. destruct (c_runs big c1 cst0) as [s1|]; [|reflexivity]. cbn [obind]. rewrite c_runs_app. destruct (c_runs big c2 s1) as [s2|]; [|reflexivity]. cbn [obind]. rewrite c_runs_app. destruct (c_runs big (drop_if st z) s2) as [s3|]; reflexivity.
Qed.
Lemma else_wrong big a b x s t u : eq_c a b = same a b -> a <> b ->
  p_function [TIf (CEq (ALit a) (ALit b)) [TAssign x (RLit s); TAssign x (RLit t)] [TAssign x (RLit u)]] x = Some (u, []) /\
  c_function big [TIf (CEq (ALit a) (ALit b)) [TAssign x (RLit s); TAssign x (RLit t)] [TAssign x (RLit u)]] x = None.
Proof.
  intros E D. assert (Q : same a b = false) by (unfold same; destruct (list_eq_dec Z.eq_dec a b); [contradiction|reflexivity]). split.
  - unfold p_function. cbn. rewrite Q. cbn. unfold put. rewrite Nat.eqb_refl. reflexivity.
  - unfold c_function. cbn. unfold sassign. cbn. vars. cbn. vars. cbn. rewrite E, Q. reflexivity.
Qed.

(* ------------------------------ exactly which strings ------------------------------ *)

Lemma to_nul_iff l : to_nul l = l -> ~ In 0 l.
Proof. induction l as [|c l IH]; cbn; [auto|]. destruct (Z.eqb_spec c 0); [discriminate|]. intros H [Q|Q]; [congruence|]. injection H as H. exact (IH H Q). Qed.
Lemma argument_c_iff s : code_points s -> (argument_c s = utf8 s <-> ~ In 0 s).
Proof.
  intros C. split; [|intros N; apply argument_c_ok; split; assumption]. intros H I. apply to_nul_iff in H. apply H. unfold utf8. apply in_flat_map. exists 0. split; [exact I|cbn; auto].
Qed.
Lemma argument_fortran_iff s : code_points s -> (argument_fortran s = utf8 s <-> ascii s).
Proof.
  intros C. split; [|apply argument_fortran_ok]. intros H c I. split; [apply C; exact I|]. destruct (Z.lt_ge_cases c 128) as [L|L]; [exact L|]. pose proof (argument_fortran_wrong s c I L). rewrite H in *. lia.
Qed.
Lemma through_c s : no_nul s -> result_c (argument_c s) = utf8 s.
Proof. intros N. rewrite (argument_c_ok s N). apply result_c_ok. exact N. Qed.
Lemma through_fortran s : no_nul s -> ascii s -> result_fortran (argument_fortran s) = utf8 s.
Proof. intros N A. rewrite (argument_fortran_ok s A). apply result_fortran_ok. exact N. Qed.
Lemma calls_leak big calls : (forall args f, In (args, f) calls -> exists s, In s args /\ big s = true) -> (List.length calls <= list_sum (map (fun c => left_over big (fst c) (snd c)) calls))%nat.
Proof.
  induction calls as [|(args, f) calls IH]; intros H; [apply le_n|]. cbn [map List.length fst snd].
  assert (L : (1 <= left_over big args f)%nat). { destruct (H args f (or_introl eq_refl)) as (s & I & B). unfold left_over. assert (Q : In s (filter big (args ++ [f args]))) by (apply filter_In; split; [apply in_or_app; auto|exact B]). destruct (filter big (args ++ [f args])); [destruct Q|cbn; lia]. }
  assert (K := IH (fun a g I => H a g (or_intror I))). cbn [list_sum fold_right]. unfold list_sum in K. lia.
Qed.
