From Coq Require Import List Bool Arith String Ascii Lia FinFun.
From Verif Require Import Common Naming_Model Naming_Spec.
Import ListNotations.
Open Scope string_scope.
Open Scope list_scope.
Open Scope nat_scope.
Open Scope py_scope.

(* ---- characters and case ---- *)
Definition all_ascii : list ascii := map ascii_of_nat (seq 0 256).

Lemma all_ascii_complete a : In a all_ascii.
Proof.
  unfold all_ascii. apply in_map_iff. exists (nat_of_ascii a). split.
  - apply ascii_nat_embedding.
  - apply in_seq. pose proof (nat_ascii_bounded a). lia.
Qed.

Definition char_cib (a b : ascii) : bool :=
  let m := nat_of_ascii a in let n := nat_of_ascii b in
  Ascii.eqb a b || ((65 <=? m) && (m <=? 90) && (n =? m + 32))
  || ((65 <=? n) && (n <=? 90) && (m =? n + 32)).

Lemma char_cib_spec a b : char_cib a b = true <-> char_ci a b.
Proof.
  unfold char_cib, char_ci. rewrite !orb_true_iff, !andb_true_iff, !Nat.leb_le, !Nat.eqb_eq, Ascii.eqb_eq.
  tauto.
Qed.

Lemma lower_ci_table :
  forallb (fun a => forallb (fun b => Bool.eqb (char_cib a b) (Ascii.eqb (lower_char a) (lower_char b))) all_ascii) all_ascii = true.
Proof. vm_compute. reflexivity. Qed.

Lemma char_ci_lower a b : char_ci a b <-> lower_char a = lower_char b.
Proof.
  rewrite <- char_cib_spec, <- Ascii.eqb_eq.
  pose proof lower_ci_table as T. rewrite forallb_forall in T.
  specialize (T a (all_ascii_complete a)). rewrite forallb_forall in T.
  specialize (T b (all_ascii_complete b)). apply Bool.eqb_prop in T. now rewrite T.
Qed.

Lemma string_ci_lower a b : string_ci a b <-> lower a = lower b.
Proof.
  split.
  - induction 1 as [|x y r s H _ IH]; simpl; [reflexivity|].
    apply char_ci_lower in H. congruence.
  - revert b; induction a as [|x a IH]; intros [|y b] H; simpl in H; try discriminate; constructor.
    + apply char_ci_lower. congruence.
    + apply IH. congruence.
Qed.

Lemma lower_idem_table : forallb (fun a => Ascii.eqb (lower_char (lower_char a)) (lower_char a)) all_ascii = true.
Proof. vm_compute. reflexivity. Qed.

Lemma lower_app a b : lower (a ++ b)%string = (lower a ++ lower b)%string.
Proof. induction a as [|x a IH]; simpl; congruence. Qed.

(* canonical form of an identifier *)
Definition canon (l : lang) (s : string) : string := match l with LFortran => lower s | _ => s end.

Lemma same_ident_canon l a b : same_ident l a b <-> canon l a = canon l b.
Proof. destruct l; simpl; try tauto. apply string_ci_lower. Qed.

Lemma mem_spec x l : mem x l = true <-> In x l.
Proof.
  unfold mem. rewrite existsb_exists. split.
  - intros (y & H & E). apply String.eqb_eq in E. now subst.
  - intros H. exists x. split; [assumption|apply String.eqb_refl].
Qed.

Lemma keywords_canon l : map (canon l) (keywords l) = keywords l.
Proof. destruct l; vm_compute; reflexivity. Qed.

Lemma has_clash_spec l n symbols :
  has_clash l n symbols = true <-> In (canon l n) (map (canon l) (keywords l ++ symbols)).
Proof.
  rewrite map_app, in_app_iff, keywords_canon.
  destruct l; cbn [has_clash canon keywords]; rewrite orb_true_iff, ?mem_spec, ?map_id; try tauto.
  apply or_iff_compat_l. rewrite existsb_exists, in_map_iff. split.
  - intros (s & H & E). apply String.eqb_eq in E. eauto.
  - intros (s & E & H). exists s. split; [assumption|]. now apply String.eqb_eq.
Qed.

Lemma reserved_or_in_use l n symbols :
  reserved l n \/ in_use l n symbols <-> In (canon l n) (map (canon l) (keywords l ++ symbols)).
Proof.
  unfold reserved, in_use. rewrite map_app, in_app_iff, !in_map_iff.
  split; (intros [(k & H & E)|(k & H & E)]; [left|right]; exists k; split; try assumption;
    try (apply same_ident_canon in E; congruence); try (apply same_ident_canon; congruence)).
Qed.

Lemma has_clash_false l n symbols :
  has_clash l n symbols = false <-> ~ reserved l n /\ ~ in_use l n symbols.
Proof.
  rewrite <- not_true_iff_false, has_clash_spec, <- reserved_or_in_use. tauto.
Qed.

Lemma has_clash_true l n symbols :
  has_clash l n symbols = true <-> reserved l n \/ in_use l n symbols.
Proof. now rewrite has_clash_spec, <- reserved_or_in_use. Qed.

(* ---- decimal names ---- *)
Lemma digit_value k : k < 10 -> nat_of_ascii (digit k) - 48 = k.
Proof. intros H. do 10 (destruct k as [|k]; [reflexivity|]). lia. Qed.

Lemma digits_value fuel n acc : n < fuel -> dec_value (digits fuel n acc) 0 = dec_value acc n.
Proof.
  revert n acc; induction fuel as [|fuel IH]; intros n acc H; [lia|].
  cbn [digits]. pose proof (Nat.div_mod n 10 ltac:(lia)) as D.
  pose proof (Nat.mod_upper_bound n 10 ltac:(lia)) as B.
  destruct (Nat.eqb_spec (n / 10) 0) as [E|E].
  - cbn [dec_value]. rewrite digit_value by assumption. f_equal. lia.
  - rewrite IH by lia. cbn [dec_value]. rewrite digit_value by assumption. f_equal. lia.
Qed.

Lemma zeros_value k s : dec_value (zeros k ++ s)%string 0 = dec_value s 0.
Proof. induction k as [|k IH]; simpl; [reflexivity|exact IH]. Qed.

Lemma dec4_value n : dec_value (dec4 n) 0 = n.
Proof. unfold dec4. rewrite zeros_value, digits_value by lia. reflexivity. Qed.

Fixpoint all_digits (s : string) : bool :=
  match s with
  | EmptyString => true
  | String c r => (48 <=? nat_of_ascii c) && (nat_of_ascii c <=? 57) && all_digits r
  end.

Lemma digit_ok k : k < 10 -> (48 <=? nat_of_ascii (digit k)) && (nat_of_ascii (digit k) <=? 57) = true.
Proof. intros H. do 10 (destruct k as [|k]; [reflexivity|]). lia. Qed.

Lemma digits_all fuel n acc : all_digits acc = true -> all_digits (digits fuel n acc) = true.
Proof.
  revert n acc; induction fuel as [|fuel IH]; intros n acc H; [exact H|].
  cbn [digits]. pose proof (Nat.mod_upper_bound n 10 ltac:(lia)) as B.
  assert (A : all_digits (String (digit (n mod 10)) acc) = true).
  { cbn [all_digits]. rewrite digit_ok by assumption. assumption. }
  destruct (n / 10 =? 0); [assumption|]. now apply IH.
Qed.

Lemma zeros_all k s : all_digits s = true -> all_digits (zeros k ++ s)%string = true.
Proof. intros H. induction k as [|k IH]; simpl; [exact H|exact IH]. Qed.

Lemma dec4_all n : all_digits (dec4 n) = true.
Proof. unfold dec4. apply zeros_all, digits_all. reflexivity. Qed.

Lemma all_digits_lower s : all_digits s = true -> lower s = s.
Proof.
  induction s as [|c s IH]; [reflexivity|]. cbn [all_digits lower]. intros H.
  apply andb_prop in H. destruct H as [H1 H2]. apply andb_prop in H1. destruct H1 as [H1 H3].
  apply Nat.leb_le in H1, H3. rewrite IH by assumption. f_equal.
  unfold lower_char. destruct (Nat.leb_spec 65 (nat_of_ascii c)); [lia|reflexivity].
Qed.

Lemma append_inv_head p a b : (p ++ a)%string = (p ++ b)%string -> a = b.
Proof. induction p as [|c p IH]; simpl; intros H; [exact H|]. apply IH. congruence. Qed.

Lemma canon_name_format l p c :
  canon l (name_format p c) = (canon l p ++ "_" ++ dec4 c)%string.
Proof.
  unfold name_format. destruct l; cbn [canon]; trivial.
  rewrite !lower_app, (all_digits_lower (dec4 c)) by apply dec4_all. reflexivity.
Qed.

Lemma canon_name_format_inj l p c d :
  canon l (name_format p c) = canon l (name_format p d) -> c = d.
Proof.
  rewrite !canon_name_format. intros H. apply append_inv_head in H. apply append_inv_head in H.
  rewrite <- (dec4_value c), <- (dec4_value d). congruence.
Qed.

(* ---- the search terminates ---- *)
Lemma incr_search_sound fuel clash p c n c' :
  incr_search fuel clash p c = POk (n, c') ->
  exists k, c <= k /\ c' = S k /\ n = name_format p k /\ clash n = false
         /\ forall j, c <= j < k -> clash (name_format p j) = true.
Proof.
  revert c; induction fuel as [|fuel IH]; intros c H; cbn [incr_search] in H; [discriminate|].
  destruct (clash (name_format p c)) eqn:E.
  - destruct (IH _ H) as (k & H1 & H2 & H3 & H4 & H5). exists k. repeat split; try assumption; [lia|].
    intros j Hj. destruct (Nat.eq_dec j c) as [->|]; [exact E|]. apply H5. lia.
  - injection H as <- <-. exists c. repeat split; auto. intros; lia.
Qed.

Lemma incr_search_no_fuel fuel clash p c :
  incr_search fuel clash p c = PFuel -> forall j, c <= j < c + fuel -> clash (name_format p j) = true.
Proof.
  revert c; induction fuel as [|fuel IH]; intros c H j Hj; [lia|].
  cbn [incr_search] in H. destruct (clash (name_format p c)) eqn:E; [|discriminate].
  destruct (Nat.eq_dec j c) as [->|]; [exact E|]. eapply IH; [exact H|lia].
Qed.

Lemma incr_search_no_err fuel clash p c e : incr_search fuel clash p c <> PErr e.
Proof.
  revert c; induction fuel as [|fuel IH]; intros c; cbn [incr_search]; [discriminate|].
  destruct (clash (name_format p c)); [apply IH|discriminate].
Qed.

Lemma NoDup_map_seq (f : nat -> string) c n :
  (forall i j, f i = f j -> i = j) -> NoDup (map f (seq c n)).
Proof.
  intros Hf. apply FinFun.Injective_map_NoDup; [exact Hf|apply seq_NoDup].
Qed.

Lemma incr_search_total fuel clash p c l (T : list string) :
  (forall n, clash n = true -> In (canon l n) T) -> List.length T < fuel ->
  incr_search fuel clash p c <> PFuel.
Proof.
  intros HT HL HF. pose proof (incr_search_no_fuel _ _ _ _ HF) as H.
  assert (I : incl (map (fun j => canon l (name_format p j)) (seq c fuel)) T).
  { intros x Hx. apply in_map_iff in Hx. destruct Hx as (j & <- & Hj). apply in_seq in Hj.
    apply HT, H. lia. }
  apply NoDup_incl_length in I.
  - rewrite map_length, seq_length in I. lia.
  - apply NoDup_map_seq. intros i j. apply canon_name_format_inj.
Qed.

Lemma create_checked_ok l forbidden prefix counter :
  let p := match prefix with Some p => p | None => "Dummy" end in
  exists k, counter <= k
    /\ create_incremented_string forbidden prefix counter (Some l) = POk (name_format p k, S k)
    /\ ~ reserved l (name_format p k) /\ ~ in_use l (name_format p k) forbidden
    /\ forall j, counter <= j < k -> reserved l (name_format p j) \/ in_use l (name_format p j) forbidden.
Proof.
  intros p. cbn [create_incremented_string]. fold p.
  destruct (incr_search _ _ p counter) as [[n c']|e|] eqn:E.
  - apply incr_search_sound in E. destruct E as (k & H1 & -> & -> & H4 & H5).
    apply has_clash_false in H4. destruct H4. exists k. repeat split; auto.
    intros j Hj. apply has_clash_true. now apply H5.
  - now apply incr_search_no_err in E.
  - exfalso. revert E. apply (incr_search_total _ _ _ _ l (map (canon l) (keywords l ++ forbidden))).
    + intros n Hn. now apply has_clash_spec.
    + rewrite map_length, app_length. lia.
Qed.

Lemma create_unchecked_ok forbidden prefix counter :
  let p := match prefix with Some p => p | None => "Dummy" end in
  exists k, counter <= k
    /\ create_incremented_string forbidden prefix counter None = POk (name_format p k, S k)
    /\ ~ In (name_format p k) forbidden
    /\ forall j, counter <= j < k -> In (name_format p j) forbidden.
Proof.
  intros p. cbn [create_incremented_string]. fold p.
  destruct (incr_search _ _ p counter) as [[n c']|e|] eqn:E.
  - apply incr_search_sound in E. destruct E as (k & H1 & -> & -> & H4 & H5).
    exists k. repeat split; auto.
    + intros H. apply mem_spec in H. congruence.
    + intros j Hj. apply mem_spec. now apply H5.
  - now apply incr_search_no_err in E.
  - exfalso. revert E. apply (incr_search_total _ _ _ _ LC forbidden).
    + intros n Hn. now apply mem_spec.
    + lia.
Qed.

(* ---- collisionless names ---- *)
Lemma in_use_app l n a b : in_use l n (a ++ b) <-> in_use l n a \/ in_use l n b.
Proof.
  unfold in_use. split.
  - intros (s & H & E). apply in_app_iff in H. destruct H; eauto.
  - intros [(s & H & E)|(s & H & E)]; exists s; rewrite in_app_iff; auto.
Qed.

Lemma collisionless_cases l name symbols :
  exists r, collisionless l name symbols = POk r
    /\ ~ reserved l r /\ ~ in_use l r symbols
    /\ ((r = name /\ has_clash l name symbols = false)
        \/ (has_clash l name symbols = true /\ exists k, r = name_format name k)).
Proof.
  unfold collisionless. destruct (has_clash l name symbols) eqn:E.
  - destruct (create_checked_ok l (keywords l ++ symbols) (Some name) 1) as (k & H1 & H2 & H3 & H4 & _).
    cbv zeta in *. rewrite H2. cbn [pbind fst]. exists (name_format name k).
    rewrite in_use_app in H4. repeat split; eauto.
  - exists name. apply has_clash_false in E as E'. destruct E'. repeat split; auto.
Qed.

Lemma private_name_ok s : s <> "" ->
  exists r, private_name s = POk r /\ r <> ""
    /\ (r = s /\ is_under (char_at s 0) = false \/ r = ("private" ++ s)%string /\ is_under (char_at s 0) = true).
Proof.
  destruct s as [|a s]; [congruence|]. intros _. cbn [private_name]. unfold char_at. cbn [String.get].
  destruct (is_under a) eqn:E.
  - exists ("private" ++ String a s)%string. split; [reflexivity|]. split; [discriminate|]. right; auto.
  - exists (String a s). split; [reflexivity|]. split; [discriminate|]. left; auto.
Qed.

Lemma operator_name_ok s : s <> "" ->
  operator_name s <> "" /\ (operator_name s = s \/ exists t, operator_name s = ("operator" ++ t)%string).
Proof.
  intros H. unfold operator_name.
  match goal with |- context [if ?c then _ else _] => destruct c end.
  - split; [discriminate|]. right. eauto.
  - auto.
Qed.

(* The name tried before clashes are resolved: total on non-empty names. *)
Lemma get_collisionless_cases l name symbols prefix ctx parent :
  name <> "" -> (l = LPython -> ctx <> CWrapper) ->
  exists t, get_collisionless_name l name symbols prefix ctx parent = collisionless l t symbols.
Proof.
  intros Hn Hp. destruct l; cbn [get_collisionless_name].
  - destruct (context_eqb ctx CWrapper); [eauto|].
    set (n1 := if String.eqb name "__init__" then "init" else name).
    set (n2 := if String.eqb n1 "__del__" then "drop" else n1).
    assert (H2 : n2 <> "").
    { unfold n2, n1. destruct (String.eqb name "__init__"); simpl; [discriminate|].
      destruct (String.eqb name "__del__"); [discriminate|assumption]. }
    destruct (operator_name_ok n2 H2) as [H3 _].
    destruct (private_name_ok _ H3) as (r & E & _ & _). rewrite E. cbn [pbind]. eauto.
  - destruct (context_eqb ctx CWrapper); [eauto|].
    set (n1 := if String.eqb name "__init__" then _ else name).
    set (n2 := if String.eqb n1 "__del__" then _ else n1).
    assert (H1 : n1 <> "").
    { unfold n1. destruct (String.eqb name "__init__"); [|assumption].
      destruct (is_smodule parent); [|discriminate]. destruct prefix; discriminate. }
    assert (H2 : n2 <> "").
    { unfold n2. destruct (String.eqb n1 "__del__"); [|assumption].
      destruct (is_smodule parent); [|discriminate]. destruct prefix; discriminate. }
    destruct (operator_name_ok n2 H2) as [H3 _].
    destruct (private_name_ok _ H3) as (r & E & _ & _). rewrite E. cbn [pbind]. eauto.
  - assert (E : context_eqb ctx CWrapper = false) by (destruct ctx; try reflexivity; exfalso; now apply Hp).
    rewrite E. eauto.
Qed.

Lemma get_collisionless_ok l name symbols prefix ctx parent :
  name <> "" -> (l = LPython -> ctx <> CWrapper) ->
  exists r, get_collisionless_name l name symbols prefix ctx parent = POk r
    /\ ~ reserved l r /\ ~ in_use l r symbols.
Proof.
  intros Hn Hp. destruct (get_collisionless_cases l name symbols prefix ctx parent Hn Hp) as (t & E).
  destruct (collisionless_cases l t symbols) as (r & E' & H1 & H2 & _).
  exists r. rewrite E. auto.
Qed.

(* A name that is free and needs no adaptation is kept. *)
Lemma get_collisionless_keeps l name symbols prefix ctx parent :
  name <> "" -> is_under (char_at name 0) = false ->
  (l = LPython -> ctx <> CWrapper) ->
  (l = LC -> ctx <> CFunction /\ (parent = SModule -> ctx = CModule \/ ctx = CWrapper)) ->
  ~ reserved l name -> ~ in_use l name symbols ->
  get_collisionless_name l name symbols prefix ctx parent = POk name.
Proof.
  intros Hn Hu Hp Hc H1 H2.
  assert (C : collisionless l name symbols = POk name).
  { unfold collisionless. now rewrite (proj2 (has_clash_false l name symbols) (conj H1 H2)). }
  assert (D : forall k : string, is_under (char_at k 0) = true -> String.eqb name k = false).
  { intros k Hk. destruct (String.eqb_spec name k); [subst; congruence|reflexivity]. }
  assert (O : operator_name name = name).
  { unfold operator_name. rewrite Hu, andb_false_r. reflexivity. }
  assert (P : private_name name = POk name).
  { destruct name as [|a s]; [congruence|]. unfold private_name. unfold char_at in Hu. simpl in Hu. now rewrite Hu. }
  destruct l; cbn [get_collisionless_name].
  - destruct (context_eqb ctx CWrapper) eqn:W; [exact C|].
    rewrite !D by reflexivity. rewrite O, P. cbn [pbind].
    destruct Hc as [Hc1 Hc2]; [reflexivity|].
    assert (E : context_eqb ctx CFunction || (is_smodule parent && negb (context_eqb ctx CModule)) = false).
    { destruct ctx; try congruence; simpl in *; try rewrite andb_false_r; trivial;
        destruct parent; simpl; trivial; destruct Hc2 as [K|K]; congruence. }
    rewrite E. exact C.
  - destruct (context_eqb ctx CWrapper) eqn:W; [exact C|].
    rewrite !D by reflexivity. rewrite O, P. cbn [pbind]. exact C.
  - assert (E : context_eqb ctx CWrapper = false) by (destruct ctx; try reflexivity; exfalso; now apply Hp).
    rewrite E. exact C.
Qed.

(* ---- ISO C keywords ---- *)
Lemma c11_listed : forall k, In k c11_keywords -> k = "while" \/ In k c_keywords.
Proof.
  assert (T : forallb (fun k => String.eqb k "while" || mem k c_keywords) c11_keywords = true)
    by (vm_compute; reflexivity).
  rewrite forallb_forall in T. intros k H. apply T in H. apply orb_prop in H. destruct H as [H|H].
  - left. now apply String.eqb_eq.
  - right. now apply mem_spec.
Qed.

Lemma name_format_not_while p k : name_format p k <> "while".
Proof.
  unfold name_format. intros H.
  assert (U : forall p s, In "_"%char (list_ascii_of_string (p ++ String "_"%char s)%string)).
  { clear. induction p as [|a p IH]; intros s; simpl; auto. }
  specialize (U p (dec4 k)). simpl in H. rewrite H in U. simpl in U.
  repeat destruct U as [U|U]; try discriminate; contradiction.
Qed.

Lemma underscores_not_while p s : (p ++ "__" ++ s)%string <> "while".
Proof.
  intros H.
  assert (U : forall p s, In "_"%char (list_ascii_of_string (p ++ String "_"%char s)%string)).
  { clear. induction p as [|a p IH]; intros s; simpl; auto. }
  specialize (U p (String "_"%char s)). simpl in H. rewrite H in U. simpl in U.
  repeat destruct U as [U|U]; try discriminate; contradiction.
Qed.

Lemma append_assoc_s a b c : ((a ++ b) ++ c)%string = (a ++ b ++ c)%string.
Proof. induction a as [|x a IH]; simpl; congruence. Qed.

Lemma c11_ok name symbols prefix ctx parent r :
  name <> "while" -> (prefix = "" \/ exists p, prefix = (p ++ "__")%string) ->
  get_collisionless_name LC name symbols prefix ctx parent = POk r ->
  ~ In r c11_keywords.
Proof.
  intros Hn Hp H Hr.
  assert (K : forall t, t <> "while" -> collisionless LC t symbols = POk r -> False).
  { intros t Ht Hc. destruct (collisionless_cases LC t symbols) as (r' & E & N1 & N2 & C).
    rewrite Hc in E. injection E as <-. apply c11_listed in Hr. destruct Hr as [->|Hr].
    - destruct C as [[C _]|[_ (k & C)]]; [congruence|]. symmetry in C. now apply name_format_not_while in C.
    - apply N1. exists r. split; [assumption|reflexivity]. }
  cbn [get_collisionless_name] in H.
  destruct (context_eqb ctx CWrapper); [now apply (K name)|].
  set (n1 := if String.eqb name "__init__" then "init" else name) in *.
  set (n2 := if String.eqb n1 "__del__" then "drop" else n1) in *.
  assert (H2 : n2 <> "while").
  { unfold n2, n1. destruct (String.eqb name "__init__"); simpl; [discriminate|].
    destruct (String.eqb name "__del__"); [discriminate|assumption]. }
  assert (H3 : operator_name n2 <> "while").
  { unfold operator_name. match goal with |- context [if ?c then _ else _] => destruct c end;
      [discriminate|assumption]. }
  destruct (operator_name n2) as [|a s] eqn:EO; [discriminate|].
  cbn [private_name] in H. cbn [pbind] in H.
  set (n3 := if is_under a then _ else String a s) in *.
  assert (H4 : n3 <> "while") by (unfold n3; destruct (is_under a); [discriminate|assumption]).
  match type of H with context [if ?c then _ else _] => destruct c end; [|now apply (K n3)].
  destruct Hp as [->|(p & ->)]; [now apply (K n3)|].
  apply (K ((p ++ "__") ++ n3)%string); [|assumption].
  rewrite append_assoc_s. apply underscores_not_while.
Qed.

Lemma free_name_kept l name symbols prefix ctx parent :
  name <> "" -> String.get 0 name <> Some "_"%char ->
  (l = LPython -> ctx <> CWrapper) ->
  (l = LC -> ctx <> CFunction /\ (parent = SModule -> ctx = CModule \/ ctx = CWrapper)) ->
  ~ reserved l name -> ~ in_use l name symbols ->
  get_collisionless_name l name symbols prefix ctx parent = POk name.
Proof.
  intros Hn Hu. apply get_collisionless_keeps; [assumption|].
  destruct name as [|a s]; [congruence|]. unfold char_at, is_under. simpl in *.
  destruct (Ascii.eqb_spec a "_"%char); [congruence|reflexivity].
Qed.
