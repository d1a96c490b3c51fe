(* Proofs for C102. *)
From Coq Require Import ZArith List Bool Lia Znumtheory.
From Verif Require Import Common RtInt_Model RtInt_Spec RtInt_Proofs Aug_Model Aug_Spec.
Import ListNotations.
Open Scope Z_scope.
Open Scope run_scope.

Lemma loc_eqb_refl l : loc_eqb l l = true.
Proof. destruct l as [x|a i]; cbn; [apply Nat.eqb_refl|rewrite Nat.eqb_refl, Z.eqb_refl; reflexivity]. Qed.

Lemma div_floor a b : b <> 0 -> py_floordiv a b (a / b).
Proof.
  intros B. split; [exact B|]. pose proof (Z.div_mod a b B) as D. split; intros S.
  - pose proof (Z.mod_pos_bound a b S). lia.
  - pose proof (Z.mod_neg_bound a b S). lia.
Qed.
Lemma mod_py a b : b <> 0 -> py_mod a b (a mod b).
Proof. intros B. exists (a / b). split; [apply div_floor; exact B|]. pose proof (Z.div_mod a b B). lia. Qed.

Lemma py64_inv o a b v : py64 o a b = Ret v -> py_op o a b = Some v /\ in_range 64 a /\ in_range 64 b /\ in_range 64 v /\
  match o with
  | Mod => ~ (a = int_min 64 /\ b = -1)
  | LShift => 0 <= a /\ 0 <= b < 64
  | RShift => 0 <= b < 64
  | _ => True
  end.
Proof.
  unfold py64, fits, py_sem. destruct (py_op o a b) as [w|] eqn:P; [|rewrite andb_false_r; discriminate].
  destruct (in_rangeb 64 a) eqn:A; [|discriminate]. destruct (in_rangeb 64 b) eqn:B; [|discriminate].
  destruct (in_rangeb 64 w) eqn:W; [|discriminate]. cbn [andb]. apply in_rangeb_spec in A, B, W.
  destruct (match o with Mod => _ | LShift => _ | RShift => _ | _ => true end) eqn:O; [|discriminate].
  intros [= <-]. repeat (split; [assumption || reflexivity|]).
  destruct o; try exact I.
  - intros [-> ->]. rewrite !Z.eqb_refl in O. discriminate.
  - cbn [py_op] in P. destruct (Z.ltb_spec b 0); [discriminate|]. apply andb_prop in O. destruct O as [O1 O2].
    apply Z.leb_le in O1. apply Z.ltb_lt in O2. lia.
  - cbn [py_op] in P. destruct (Z.ltb_spec b 0); [discriminate|]. apply Z.ltb_lt in O. lia.
Qed.
Lemma c_op_ok o a b v : py64 o a b = Ret v -> c_op o a b = Ret v.
Proof.
  intros P. destruct (py64_inv _ _ _ _ P) as [Q [A [B [W C]]]]. destruct o; cbn [py_op c_op] in *; try (injection Q as <-).
  - apply chk_in, W.
  - apply chk_in, W.
  - apply chk_in, W.
  - destruct (Z.eqb_spec b 0); [discriminate|]. injection Q as <-. apply c_floor_div_ok; try assumption; [lia|apply div_floor; assumption].
  - destruct (Z.eqb_spec b 0); [discriminate|]. injection Q as <-. apply c_modulo_ok; try assumption. apply mod_py. assumption.
  - reflexivity.
  - reflexivity.
  - destruct (Z.ltb_spec b 0); [discriminate|]. injection Q as <-. destruct (Z.leb_spec 0 a); [|lia]. destruct (Z.leb_spec 0 b); [|lia].
    destruct (Z.ltb_spec b 64); [|lia]. cbn [andb]. rewrite Z.shiftl_mul_pow2 by lia. apply chk_in, W.
  - destruct (Z.ltb_spec b 0); [discriminate|]. injection Q as <-. destruct (Z.leb_spec 0 b); [|lia].
    destruct (Z.ltb_spec b 64); [|lia]. cbn [andb]. rewrite Z.shiftr_div_pow2 by lia. reflexivity.
Qed.
Lemma f_op_ok o a b v : py64 o a b = Ret v -> f_op o a b = Ret v.
Proof.
  intros P. destruct (py64_inv _ _ _ _ P) as [Q [A [B [W C]]]]. destruct o; cbn [py_op f_op] in *; try (injection Q as <-).
  - apply chk_in, W.
  - apply chk_in, W.
  - apply chk_in, W.
  - destruct (Z.eqb_spec b 0); [discriminate|]. injection Q as <-. apply f_floor_div_ok; try assumption; [lia|apply div_floor; assumption].
  - destruct (Z.eqb_spec b 0); [discriminate|]. injection Q as <-. apply f_modulo_ok, mod_py. assumption.
  - reflexivity.
  - reflexivity.
  - destruct (Z.ltb_spec b 0); [discriminate|]. injection Q as <-. destruct (Z.leb_spec 0 b); [|lia].
    destruct (Z.ltb_spec b 64); [|lia]. cbn [andb]. rewrite Z.shiftl_mul_pow2 by lia. rewrite wrap_in; [reflexivity|lia|exact W].
  - destruct (Z.ltb_spec b 0); [discriminate|]. injection Q as <-. destruct (Z.leb_spec 0 b); [|lia].
    destruct (Z.ltb_spec b 64); [|lia]. cbn [andb]. rewrite Z.shiftr_div_pow2 by lia. reflexivity.
Qed.
Lemma py_sem_ok o a b v : py64 o a b = Ret v -> py_sem o a b = Ret v.
Proof. unfold py64. destruct (fits o a b); [trivial|discriminate]. Qed.
Lemma c_aug_ok o a b v : o <> Mod -> py64 o a b = Ret v -> c_aug_op o a b = Ret v.
Proof. intros N P. destruct o; try (apply c_op_ok; exact P). congruence. Qed.

(* ---- the remainder of C ---- *)
Lemma rem_mod a b : b <> 0 -> Z.rem a b = if (a mod b =? 0) || negb (xorb (a <? 0) (b <? 0)) then a mod b else a mod b - b.
Proof.
  intros B. pose proof (Z.div_mod a b B) as D. pose proof (Z.quot_rem' a b) as Q.
  pose proof (Z.rem_bound_abs a b B) as R.
  pose proof (Z.rem_nonneg a b B) as R1. pose proof (Z.rem_nonpos a b B) as R2.
  assert (M : 0 < b /\ 0 <= a mod b < b \/ b < 0 /\ b < a mod b <= 0).
  { destruct (Z.lt_total b 0) as [H|[H|H]]; [right|lia|left]; (split; [exact H|]); [apply Z.mod_neg_bound|apply Z.mod_pos_bound]; lia. }
  set (r := Z.rem a b) in *. set (m := a mod b) in *. set (q := Z.quot a b) in *. set (d := a / b) in *.
  assert (E : (d - q) * b = r - m) by nia.
  assert (K : d - q = 0 \/ d - q = 1 \/ d - q = -1 ).
  { assert (Z.abs (r - m) < 2 * Z.abs b) by lia. assert (Z.abs (d - q) * Z.abs b = Z.abs (r - m)) by (rewrite <- Z.abs_mul, E; reflexivity).
    assert (Z.abs (d - q) < 2) by (apply (Z.mul_lt_mono_pos_r (Z.abs b)); lia). lia. }
  destruct (Z.eqb_spec m 0) as [Z0|Z0]; cbn [orb].
  - destruct K as [K|[K|K]]; rewrite K in E; lia.
  - destruct (Z.ltb_spec a 0), (Z.ltb_spec b 0); cbn [xorb negb]; destruct K as [K|[K|K]]; rewrite K in E; lia.
Qed.
Lemma c_rem_py a b : in_range 64 a -> in_range 64 b -> b <> 0 -> ~ (a = int_min 64 /\ b = -1) ->
  c_aug_op Mod a b = Ret (if (a mod b =? 0) || negb (xorb (a <? 0) (b <? 0)) then a mod b else a mod b - b).
Proof.
  intros A B N M. cbn [c_aug_op]. rewrite <- rem_mod by exact N. apply c_rem_in; [exact N|]. apply quot_range_nonmin; assumption || lia.
Qed.

(* ---- evaluation ---- *)
Section Run.
Variable body : nat -> list nat -> memory -> Z * memory.

Lemma eval_mono (s1 s2 : op -> Z -> Z -> run Z) : (forall o a b v, s1 o a b = Ret v -> s2 o a b = Ret v) ->
  forall e s r, eval body s1 e s = Ret r -> eval body s2 e s = Ret r.
Proof.
  intros H. induction e as [n|x|a i IH|f|o l IHl r IHr]; intros s q; try exact (fun X => X); cbn [eval].
  - destruct (eval body s1 i s) as [w| |] eqn:X; [|discriminate|discriminate]. rewrite (IH _ _ X). trivial.
  - destruct (eval body s1 l s) as [u| |] eqn:X; [|discriminate|discriminate]. rewrite (IHl _ _ X). cbn [bind].
    destruct (eval body s1 r (snd u)) as [v| |] eqn:Y; [|discriminate|discriminate]. rewrite (IHr _ _ Y). cbn [bind].
    destruct (s1 o (fst u) (fst v)) as [w| |] eqn:W; [|discriminate|discriminate]. rewrite (H _ _ _ _ W). trivial.
Qed.
Lemma place_mono (s1 s2 : op -> Z -> Z -> run Z) : (forall o a b v, s1 o a b = Ret v -> s2 o a b = Ret v) ->
  forall t s r, place body s1 t s = Ret r -> place body s2 t s = Ret r.
Proof.
  intros H [x|a i] s r; [trivial|]. cbn [place]. destruct (eval body s1 i s) as [w| |] eqn:X; [|discriminate|discriminate].
  rewrite (eval_mono _ _ H _ _ _ X). trivial.
Qed.
(* without calls nothing changes, and only what is read matters *)
Lemma eval_quiet e : no_calls e -> forall s r, eval body py64 e s = Ret r -> snd r = s.
Proof.
  induction e as [n|x|a i IH|f|o l IHl r IHr]; cbn [no_calls eval]; intros N s q.
  - intros [= <-]. reflexivity.
  - intros [= <-]. reflexivity.
  - destruct (eval body py64 i s) as [w| |] eqn:X; [|discriminate|discriminate]. intros [= <-]. exact (IH N _ _ X).
  - contradiction.
  - destruct N as [N1 N2]. destruct (eval body py64 l s) as [u| |] eqn:X; [|discriminate|discriminate]. cbn [bind].
    destruct (eval body py64 r (snd u)) as [v| |] eqn:Y; [|discriminate|discriminate]. cbn [bind].
    destruct (py64 o (fst u) (fst v)); [|discriminate|discriminate]. intros [= <-]. cbn [snd].
    rewrite (IHr N2 _ _ Y). exact (IHl N1 _ _ X).
Qed.
Lemma eval_frame e : no_calls e -> forall s s' v, (forall p, In p (reads body e s) -> mem s' p = mem s p) ->
  eval body py64 e s = Ret (v, s) -> eval body py64 e s' = Ret (v, s').
Proof.
  induction e as [n|x|a i IH|f|o l IHl r IHr]; cbn [no_calls eval reads]; intros N s s' v H.
  - intros [= <-]. reflexivity.
  - intros [= <-]. rewrite (H (V x)) by (left; reflexivity). reflexivity.
  - destruct (eval body py64 i s) as [[w t]| |] eqn:X; [|discriminate|discriminate].
    pose proof (eval_quiet i N _ _ X) as T. cbn [snd] in T. subst t. cbn [bind fst snd]. intros [= <-].
    rewrite (IH N s s' w); [|intros p Hp; apply H, in_or_app; left; exact Hp|exact X]. cbn [bind fst snd].
    rewrite (H (E a w)) by (apply in_or_app; right; left; reflexivity). reflexivity.
  - contradiction.
  - destruct N as [N1 N2]. destruct (eval body py64 l s) as [[u t]| |] eqn:X; [|discriminate|discriminate].
    pose proof (eval_quiet l N1 _ _ X) as T. cbn [snd] in T. subst t. cbn [bind fst snd].
    destruct (eval body py64 r s) as [[w t]| |] eqn:Y; [|discriminate|discriminate].
    pose proof (eval_quiet r N2 _ _ Y) as T. cbn [snd] in T. subst t. cbn [bind fst snd].
    destruct (py64 o u w) as [z| |] eqn:P; [|discriminate|discriminate]. intros [= <-].
    rewrite (IHl N1 s s' u); [|intros p Hp; apply H, in_or_app; left; exact Hp|exact X]. cbn [bind fst snd].
    rewrite (IHr N2 s s' w); [|intros p Hp; apply H, in_or_app; right; exact Hp|exact Y]. cbn [bind fst snd].
    rewrite P. reflexivity.
Qed.

Lemma target_stable t s s' p : plain t -> (forall q, In q (target_reads body t s) -> mem s' q = mem s q) ->
  place body py64 t s = Ret p -> snd p = s /\ place body py64 t s' = Ret (fst p, s') /\ mem s' (fst p) = mem s (fst p).
Proof.
  destruct t as [x|a i]; cbn [plain target_reads place].
  - intros _ H [= <-]. cbn [fst snd]. split; [reflexivity|]. split; [reflexivity|]. apply H. left. reflexivity.
  - intros N H. cbn [reads] in H. destruct (eval body py64 i s) as [[w t]| |] eqn:X; [|discriminate|discriminate].
    pose proof (eval_quiet i N _ _ X) as T. cbn [snd] in T. subst t. intros [= <-]. cbn [fst snd]. split; [reflexivity|]. split.
    + rewrite (eval_frame i N s s' w); [reflexivity| |exact X]. intros q Hq. apply H, in_or_app. left. exact Hq.
    + apply H, in_or_app. right. left. reflexivity.
Qed.

(* any statement whose parts have the same results *)
Lemma basic_run sem c o t e s l v s' w : place body sem t s = Ret (l, s) -> eval body sem e s = Ret (v, s') ->
  place body sem t s' = Ret (l, s') -> mem s' l = mem s l -> sem o (mem s l) v = Ret w ->
  basic_stmt body sem c o t e s = Ret (store l w s').
Proof.
  intros P1 Ev P2 M W. unfold basic_stmt, value. destruct c as [[] []]; cbn [place_late read_late];
    repeat (first [rewrite P1|rewrite Ev|rewrite P2|rewrite M|rewrite W]; cbn [bind fst snd]); reflexivity.
Qed.
Lemma aug_run sem aug c o t e s l v s' w : place body sem t s = Ret (l, s) -> eval body sem e s = Ret (v, s') ->
  place body sem t s' = Ret (l, s') -> mem s' l = mem s l -> aug o (mem s l) v = Ret w ->
  aug_stmt body sem aug c o t e s = Ret (store l w s').
Proof.
  intros P1 Ev P2 M W. unfold aug_stmt. destruct c as [[] []]; cbn [place_late read_late];
    repeat (first [rewrite P1|rewrite Ev|rewrite P2|rewrite M|rewrite W]; cbn [bind fst snd]); reflexivity.
Qed.

Lemma same o t e s r : plain t -> python body py64 o t e s = Ret r ->
  (forall v s', eval body py64 e s = Ret (v, s') -> forall q, In q (target_reads body t s) -> mem s' q = mem s q) ->
  python body py_sem o t e s = Ret r /\ (forall c, f_stmt body c o t e s = Ret r) /\
  (o <> Mod -> forall c, c_stmt body c o t e s = Ret r).
Proof.
  intros N P H. unfold python in P. destruct (place body py64 t s) as [[l s0]| |] eqn:P1; [|discriminate|discriminate].
  cbn [bind fst snd] in P.
  assert (T : s0 = s).
  { destruct t as [x|a i]; cbn [place] in P1; [congruence|]. destruct (eval body py64 i s) as [q| |] eqn:X; [|discriminate|discriminate].
    injection P1 as _ <-. exact (eval_quiet i N _ _ X). }
  subst s0. destruct (eval body py64 e s) as [[v s']| |] eqn:Ev; [|discriminate|discriminate]. cbn [bind fst snd] in P.
  destruct (py64 o (mem s l) v) as [w| |] eqn:W; [|discriminate|discriminate]. injection P as <-.
  destruct (target_stable t s s' _ N (H v s' eq_refl) P1) as [_ [P2 M]]. cbn [fst] in P2, M.
  split; [|split].
  - unfold python. rewrite (place_mono _ _ py_sem_ok _ _ _ P1). cbn [bind fst snd].
    rewrite (eval_mono _ _ py_sem_ok _ _ _ Ev). cbn [bind fst snd]. rewrite (py_sem_ok _ _ _ _ W). reflexivity.
  - intros c. apply basic_run with (v := v).
    + exact (place_mono _ _ f_op_ok _ _ _ P1).
    + exact (eval_mono _ _ f_op_ok _ _ _ Ev).
    + exact (place_mono _ _ f_op_ok _ _ _ P2).
    + exact M.
    + exact (f_op_ok _ _ _ _ W).
  - intros O c. assert (B : basic_stmt body c_op c o t e s = Ret (store l w s') /\ aug_stmt body c_op c_aug_op c o t e s = Ret (store l w s')).
    { split; [apply basic_run with (v := v)|apply aug_run with (v := v)]; try exact M;
        try exact (place_mono _ _ c_op_ok _ _ _ P1); try exact (eval_mono _ _ c_op_ok _ _ _ Ev); try exact (place_mono _ _ c_op_ok _ _ _ P2).
      - exact (c_op_ok _ _ _ _ W).
      - exact (c_aug_ok _ _ _ _ O W). }
    destruct B as [B1 B2]. destruct o; cbn [c_stmt]; assumption.
Qed.

(* ---- the calls ---- *)
Definition occ (f : nat) (s : st) : nat := count_occ Nat.eq_dec (calls s) f.
Lemma eval_count sem f e : forall s r, eval body sem e s = Ret r -> occ f (snd r) = (occ f s + count f e)%nat.
Proof.
  induction e as [n|x|a i IH|g|o l IHl r IHr]; cbn [eval count]; intros s q.
  - intros [= <-]. cbn [snd]. lia.
  - intros [= <-]. cbn [snd]. lia.
  - destruct (eval body sem i s) as [w| |] eqn:X; [|discriminate|discriminate]. intros [= <-]. exact (IH _ _ X).
  - destruct (body g (calls s) (mem s)) as [v m]. intros [= <-]. cbn [snd]. unfold occ. cbn [calls]. rewrite count_occ_app. cbn [count_occ].
    destruct (Nat.eq_dec g f), (Nat.eqb_spec g f); congruence || lia.
  - destruct (eval body sem l s) as [u| |] eqn:X; [|discriminate|discriminate]. cbn [bind].
    destruct (eval body sem r (snd u)) as [v| |] eqn:Y; [|discriminate|discriminate]. cbn [bind].
    destruct (sem o (fst u) (fst v)); [|discriminate|discriminate]. intros [= <-]. cbn [snd].
    rewrite (IHr _ _ Y), (IHl _ _ X). lia.
Qed.
Lemma place_count sem f t : forall s r, place body sem t s = Ret r -> occ f (snd r) = (occ f s + count_target f t)%nat.
Proof.
  destruct t as [x|a i]; cbn [place count_target]; intros s r.
  - intros [= <-]. cbn [snd]. lia.
  - destruct (eval body sem i s) as [w| |] eqn:X; [|discriminate|discriminate]. intros [= <-]. exact (eval_count _ _ _ _ _ X).
Qed.
Ltac step := match goal with
  | |- context [bind (place body ?sem ?t ?s) _] => let p := fresh "p" in let X := fresh "X" in
      destruct (place body sem t s) as [p| |] eqn:X; [|discriminate|discriminate]; cbn [bind fst snd];
      match goal with f : nat |- _ => pose proof (place_count sem f t s p X) end
  | |- context [bind (eval body ?sem ?e ?s) _] => let p := fresh "v" in let X := fresh "X" in
      destruct (eval body sem e s) as [p| |] eqn:X; [|discriminate|discriminate]; cbn [bind fst snd];
      match goal with f : nat |- _ => pose proof (eval_count sem f e s p X) end
  | |- context [bind (?sem ?o ?a ?b) _] => is_var sem; destruct (sem o a b) as [?| |]; [|discriminate|discriminate]; cbn [bind fst snd]
  end.
Lemma python_count sem f o t e s r : python body sem o t e s = Ret r -> occ f r = (occ f s + count_target f t + count f e)%nat.
Proof. unfold python. repeat step. intros [= <-]. unfold store, occ in *. cbn [calls] in *. lia. Qed.
Lemma aug_count sem aug f c o t e s r : aug_stmt body sem aug c o t e s = Ret r -> occ f r = (occ f s + count_target f t + count f e)%nat.
Proof. unfold aug_stmt. destruct (place_late c); repeat step; intros [= <-]; unfold store, occ in *; cbn [calls] in *; lia. Qed.
Lemma basic_count sem f c o t e s r : basic_stmt body sem c o t e s = Ret r -> occ f r = (occ f s + 2 * count_target f t + count f e)%nat.
Proof.
  unfold basic_stmt, value. destruct (place_late c), (read_late c); repeat step; intros [= <-]; unfold store, occ in *; cbn [calls] in *; lia.
Qed.
End Run.
