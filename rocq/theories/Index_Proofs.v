From Coq Require Import ZArith List Bool Arith Lia.
From Verif Require Import Common Index_Model Index_Spec.
Import ListNotations.
Open Scope list_scope.
Open Scope Z_scope.

(* ---- counting ---- *)
Lemma quot_up x c : 0 < c -> Z.max 0 (Z.quot (x + c) c) = if 0 <=? x then x / c + 1 else 0.
Proof.
  intros H. destruct (Z.leb_spec 0 x).
  - rewrite Z.quot_div_nonneg by lia. replace (x + c) with (x + 1 * c) by ring.
    rewrite Z.div_add by lia. pose proof (Z.div_pos x c). lia.
  - assert (Z.quot (x + c) c <= 0); [|lia].
    destruct (Z.le_gt_cases 0 (x + c)).
    + rewrite Z.quot_small by lia. lia.
    + rewrite <- (Z.opp_involutive (x + c)), Z.quot_opp_l by lia.
      pose proof (Z.quot_pos (- (x + c)) c). lia.
Qed.
Lemma f_count_up a b c : 0 < c -> f_count a (b - 1) c = Z.to_nat (range_len a b c).
Proof.
  intros H. unfold f_count, range_len. rewrite (proj2 (Z.gtb_lt c 0)) by lia.
  replace (b - 1 - a + c) with ((b - a - 1) + c) by ring. rewrite quot_up by lia.
  destruct (Z.leb_spec 0 (b - a - 1)), (Z.ltb_spec a b); try lia. 
Qed.
Lemma gtb_false c : c < 0 -> (c >? 0) = false.
Proof. intros H. rewrite Z.gtb_ltb. apply Z.ltb_ge. lia. Qed.
Lemma f_count_down a b c : c < 0 -> f_count a (b + 1) c = Z.to_nat (range_len a b c).
Proof.
  intros H. unfold f_count, range_len. rewrite gtb_false by lia.
  replace (b + 1 - a + c) with (- ((a - b - 1) + - c)) by ring.
  replace c with (- - c) at 2 by ring. rewrite Z.quot_opp_opp by lia.
  rewrite quot_up by lia.
  destruct (Z.leb_spec 0 (a - b - 1)), (Z.ltb_spec b a); try lia.
Qed.
Lemma range_len_nonneg a b c : c <> 0 -> 0 <= range_len a b c.
Proof.
  intros H. unfold range_len. destruct (Z.gtb_spec c 0).
  - destruct (Z.ltb_spec a b); [|lia]. pose proof (Z.div_pos (b - a - 1) c). lia.
  - destruct (Z.ltb_spec b a); [|lia]. pose proof (Z.div_pos (a - b - 1) (- c)). lia.
Qed.
(* the values of a range are on the near side of its end *)
Lemma range_len_bound a b c j : c <> 0 -> 0 <= j < range_len a b c ->
  if c >? 0 then a + j * c < b else b < a + j * c.
Proof.
  intros H Hj. unfold range_len in Hj. destruct (Z.gtb_spec c 0).
  - destruct (Z.ltb_spec a b); [|lia].
    assert (j <= (b - a - 1) / c) by lia. pose proof (Z.mul_div_le (b - a - 1) c). nia.
  - destruct (Z.ltb_spec b a); [|lia].
    assert (j <= (a - b - 1) / - c) by lia. pose proof (Z.mul_div_le (a - b - 1) (- c)). nia.
Qed.
Lemma range_len_end a b c : c <> 0 ->
  if c >? 0 then b <= a + range_len a b c * c else a + range_len a b c * c <= b.
Proof.
  intros H. unfold range_len. destruct (Z.gtb_spec c 0).
  - destruct (Z.ltb_spec a b); [|lia].
    pose proof (Z.mul_succ_div_gt (b - a - 1) c). nia.
  - destruct (Z.ltb_spec b a); [|lia].
    pose proof (Z.mul_succ_div_gt (a - b - 1) (- c)). nia.
Qed.
Lemma range_len_step a b c : c <> 0 -> (if c >? 0 then a < b else b < a) ->
  range_len a b c = range_len (a + c) b c + 1.
Proof.
  intros H Hab. unfold range_len. destruct (Z.gtb_spec c 0).
  - destruct (Z.ltb_spec a b); [|lia]. destruct (Z.ltb_spec (a + c) b).
    + replace (b - a - 1) with ((b - (a + c) - 1) + 1 * c) by ring. rewrite Z.div_add by lia. lia.
    + rewrite Z.div_small by lia. lia.
  - destruct (Z.ltb_spec b a); [|lia]. destruct (Z.ltb_spec b (a + c)).
    + replace (a - b - 1) with (((a + c) - b - 1) + 1 * (- c)) by ring. rewrite Z.div_add by lia. lia.
    + rewrite Z.div_small by lia. lia.
Qed.
Lemma range_len_0 a b c : (if c >? 0 then b <= a else a <= b) -> range_len a b c = 0.
Proof.
  intros H. unfold range_len. destruct (Z.gtb_spec c 0).
  - destruct (Z.ltb_spec a b); lia.
  - destruct (Z.ltb_spec b a); lia.
Qed.

Lemma py_range_nil a b c : (if c >? 0 then b <= a else a <= b) -> py_range a b c = [].
Proof. intros H. unfold py_range. rewrite range_len_0 by auto. reflexivity. Qed.
Lemma py_range_cons a b c : c <> 0 -> (if c >? 0 then a < b else b < a) ->
  py_range a b c = a :: py_range (a + c) b c.
Proof.
  intros H Hab. unfold py_range. rewrite (range_len_step a b c H Hab).
  pose proof (range_len_nonneg (a + c) b c H).
  replace (Z.to_nat (range_len (a + c) b c + 1)) with (S (Z.to_nat (range_len (a + c) b c))) by lia.
  simpl. f_equal; [lia|]. rewrite <- seq_shift, map_map. apply map_ext. intros i. lia.
Qed.

Lemma progression_range_up a b c : 0 < c -> progression a c (f_count a (b - 1) c) = py_range a b c.
Proof. intros H. unfold progression. rewrite f_count_up by auto. reflexivity. Qed.
Lemma progression_range_down a b c : c < 0 -> progression a c (f_count a (b + 1) c) = py_range a b c.
Proof. intros H. unfold progression. rewrite f_count_down by auto. reflexivity. Qed.

(* ---- bounds ---- *)
Lemma f_bound_ok allow n b : 0 <= n -> usable allow b -> bound_in n b ->
  f_bound allow n (make_positive n b) = py_index n (ix_val b).
Proof.
  unfold usable, bound_in, py_index. intros Hn (W & N0 & Ha) R.
  destruct b as [z|k|v]; simpl in *.
  - destruct (Z.ltb_spec z 0); [lia|auto].
  - destruct (Z.ltb_spec (- k) 0).
    + simpl. destruct allow; [destruct (Z.ltb_spec (n + - k) 0)|]; lia.
    + assert (k = 0) by lia. subst. congruence.
  - destruct allow.
    + destruct (Z.ltb_spec v 0); lia.
    + assert (0 <= v) by (apply Ha; auto). destruct (Z.ltb_spec v 0); lia.
Qed.
Lemma c_bound_ok allow n b : 0 <= n -> usable allow b -> bound_in n b ->
  c_bound allow n (make_positive n b) = py_index n (ix_val b).
Proof. exact (f_bound_ok allow n b). Qed.

Lemma py_start_up n c v : 0 < c -> - n <= v <= n -> py_slice_start n c (Some v) = py_index n v.
Proof.
  intros H R. unfold py_slice_start, py_index. cbv zeta.
  destruct (Z.ltb_spec v 0).
  - destruct (Z.ltb_spec (v + n) 0); lia.
  - destruct (Z.leb_spec n v); destruct (Z.ltb_spec c 0); lia.
Qed.
Lemma py_start_down n c v : - n <= v < n -> py_slice_start n c (Some v) = py_index n v.
Proof.
  intros R. unfold py_slice_start, py_index. cbv zeta.
  destruct (Z.ltb_spec v 0).
  - destruct (Z.ltb_spec (v + n) 0); lia.
  - destruct (Z.leb_spec n v); lia.
Qed.
Lemma py_index_range n v : 0 <= n -> - n <= v <= n -> 0 <= py_index n v <= n.
Proof. intros. unfold py_index. destruct (Z.ltb_spec v 0); lia. Qed.
Lemma py_index_below n v : - n <= v < n -> py_index n v < n.
Proof. intros. unfold py_index. destruct (Z.ltb_spec v 0); lia. Qed.

(* stop going down: past the end is the same as the last element *)
Lemma py_stop_down n c v a : c < 0 -> - n <= v <= n -> a < n ->
  py_range a (py_slice_stop n c (Some v)) c = py_range a (py_index n v) c.
Proof.
  intros H R Ha. unfold py_slice_stop, py_index. cbv zeta.
  rewrite (proj2 (Z.ltb_lt c 0)) by lia.
  destruct (Z.ltb_spec v 0).
  - destruct (Z.ltb_spec (v + n) 0); [lia|reflexivity].
  - destruct (Z.leb_spec n v); [|reflexivity].
    rewrite !py_range_nil; auto; rewrite gtb_false by lia; lia.
Qed.


Lemma opt_start_up allow n o : 0 <= n ->
  (forall b, o = Some b -> usable allow b /\ bound_in n b) -> forall c, 0 < c ->
  match option_map (f_bound allow n) (option_map (make_positive n) o) with Some v => v | None => 0 end
  = py_slice_start n c (option_map ix_val o).
Proof.
  intros Hn H c Hc. destruct o as [b|]; simpl.
  - destruct (H b eq_refl) as (U & R). rewrite (f_bound_ok allow n b); auto.
    symmetry. apply py_start_up; auto.
  - destruct (Z.ltb_spec c 0); lia.
Qed.
Lemma opt_stop_up allow n o : 0 <= n ->
  (forall b, o = Some b -> usable allow b /\ bound_in n b) -> forall c, 0 < c ->
  match option_map (fun v => v - 1) (option_map (f_bound allow n) (option_map (make_positive n) o)) with Some v => v | None => n - 1 end
  = py_slice_stop n c (option_map ix_val o) - 1.
Proof.
  intros Hn H c Hc. destruct o as [b|]; simpl.
  - destruct (H b eq_refl) as (U & R). rewrite (f_bound_ok allow n b); auto.
    f_equal. symmetry. apply (py_start_up n c); auto.
  - destruct (Z.ltb_spec c 0); lia.
Qed.

Lemma f_slice_ok allow n s : 0 <= n -> slice_in_range allow n s ->
  (step_of s < 0 -> start_below n s) ->
  (allow = false -> forall st, s_step s = Some (Ex st) -> 0 < st) ->
  ~ misses_minus_one allow s ->
  f_section n (f_slice allow n s) = py_slice_of n s.
Proof.
  intros Hn (H1 & H2 & H3) Hsb Hex Hm. unfold py_slice_of, py_slice, step_of in *. cbv zeta.
  destruct s as [start stop step]; simpl in *. unfold f_slice. simpl.
  (* going up, in the ordinary way *)
  assert (Up: forall c, 0 < c -> f_section n
     (option_map (f_bound allow n) (option_map (make_positive n) start),
      option_map (fun v => v - 1) (option_map (f_bound allow n) (option_map (make_positive n) stop)), Some c)
     = py_range (py_slice_start n c (option_map ix_val start)) (py_slice_stop n c (option_map ix_val stop)) c).
  { intros c Hc. unfold f_section.
    rewrite (opt_start_up allow n start Hn H1 c Hc), (opt_stop_up allow n stop Hn H2 c Hc).
    apply progression_range_up. auto. }
  (* going down *)
  assert (Down: forall c, c < 0 -> start_below n (mkSlice start stop step) -> f_section n
     (Some (match option_map (f_bound allow n) (option_map (make_positive n) start) with Some v => v | None => n - 1 end),
      Some (match option_map (f_bound allow n) (option_map (make_positive n) stop) with Some v => v + 1 | None => 0 end), Some c)
     = py_range (py_slice_start n c (option_map ix_val start)) (py_slice_stop n c (option_map ix_val stop)) c).
  { intros c Hc Hs. unfold f_section.
    assert (E1: match option_map (f_bound allow n) (option_map (make_positive n) start) with Some v => v | None => n - 1 end
                = py_slice_start n c (option_map ix_val start) /\ py_slice_start n c (option_map ix_val start) < n).
    { destruct start as [b|]; simpl.
      - destruct (H1 b eq_refl) as (U & R). rewrite (f_bound_ok allow n b); auto.
        unfold bound_in in R. specialize (Hs b eq_refl).
        change (py_index n (ix_val b) = py_slice_start n c (Some (ix_val b)) /\ py_slice_start n c (Some (ix_val b)) < n).
        rewrite py_start_down by lia. split; auto. apply py_index_below. lia.
      - rewrite (proj2 (Z.ltb_lt c 0)) by lia. lia. }
    destruct E1 as (E1 & E1'). rewrite E1.
    destruct stop as [b|]; simpl.
    - destruct (H2 b eq_refl) as (U & R). rewrite (f_bound_ok allow n b); auto.
      rewrite progression_range_down by auto.
      change (match ix_val b with | 0 => _ | _ => _ end) with (py_slice_stop n c (Some (ix_val b))) || idtac.
      symmetry. apply (py_stop_down n c (ix_val b)); auto.
    - rewrite (proj2 (Z.ltb_lt c 0)) by lia. replace 0 with (-1 + 1) at 1 by lia.
      replace (f_count (py_slice_start n c (option_map ix_val start)) 0 c)
        with (f_count (py_slice_start n c (option_map ix_val start)) (-1 + 1) c) by reflexivity.
      apply progression_range_down. auto. }
  destruct step as [[z|k|st]|]; simpl in *.
  - destruct (H3 _ eq_refl) as (W & N0). simpl in *. apply Up. lia.
  - destruct (H3 _ eq_refl) as (W & N0). simpl in *. apply Down; [lia|]. apply Hsb. lia.
  - destruct (H3 _ eq_refl) as (W & N0). simpl in *. destruct allow eqn:Eal.
    + destruct (Z.gtb_spec st 0) as [Hg|Hg].
      * destruct stop as [b|].
        -- exfalso. apply Hm. split; auto. split; [discriminate|]. exists st. split; [reflexivity|lia].
        -- rewrite <- (Up st Hg). unfold f_section. simpl.
           destruct start; simpl; reflexivity.
      * rewrite <- (Down st ltac:(lia) ltac:(apply Hsb; lia)). reflexivity.
    + apply Up. apply (Hex eq_refl). reflexivity.
  - apply (Up 1). lia.
Qed.

(* ---- C slices ---- *)
Lemma count_up_range : forall fuel a b c, 0 < c -> b - a <= Z.of_nat fuel ->
  count_up fuel a b c = py_range a b c.
Proof.
  induction fuel as [|f IH]; intros a b c Hc Hf.
  - simpl. rewrite py_range_nil; auto. rewrite (proj2 (Z.gtb_lt c 0)) by lia. lia.
  - simpl. destruct (Z.ltb_spec a b).
    + rewrite (py_range_cons a b c); [|lia|rewrite (proj2 (Z.gtb_lt c 0)) by lia; lia].
      f_equal. apply IH; lia.
    + rewrite py_range_nil; auto. rewrite (proj2 (Z.gtb_lt c 0)) by lia. lia.
Qed.
Lemma c_slice_ok allow n s t : 0 <= n -> slice_in_range allow n s ->
  (allow = false -> forall st, s_step s = Some (Ex st) -> 0 < st) ->
  c_slice allow n s = Some t -> c_section n t = py_slice_of n s.
Proof.
  intros Hn (H1 & H2 & H3) Hex E. unfold py_slice_of, py_slice. cbv zeta.
  destruct s as [start stop step]; simpl in *. unfold c_slice in E. simpl in E.
  assert (Up: forall c, 0 < c -> c_section n
     (match option_map (make_positive n) start with Some b => c_bound allow n b | None => 0 end,
      option_map (c_bound allow n) (option_map (make_positive n) stop), c)
     = py_range (py_slice_start n c (option_map ix_val start)) (py_slice_stop n c (option_map ix_val stop)) c).
  { intros c Hc. unfold c_section.
    replace (match option_map (make_positive n) start with Some b => c_bound allow n b | None => 0 end)
      with (py_slice_start n c (option_map ix_val start)).
    2:{ rewrite <- (opt_start_up allow n start Hn H1 c Hc). destruct start; reflexivity. }
    replace (match option_map (c_bound allow n) (option_map (make_positive n) stop) with Some v => v | None => n end)
      with (py_slice_stop n c (option_map ix_val stop)).
    2:{ pose proof (opt_stop_up allow n stop Hn H2 c Hc) as Q. destruct stop as [b|]; simpl in *.
        - change (c_bound allow n (make_positive n b)) with (f_bound allow n (make_positive n b)). lia.
        - lia. }
    apply count_up_range; lia. }
  destruct step as [[z|k|st]|]; simpl in *; try discriminate.
  - destruct (H3 _ eq_refl) as (W & N0). simpl in *. injection E as <-. apply Up. lia.
  - destruct allow; [discriminate|]. injection E as <-. apply Up. apply (Hex eq_refl). reflexivity.
  - injection E as <-. apply Up. lia.
Qed.
Lemma c_slice_none allow n s : c_slice allow n s = None <->
  (exists k, s_step s = Some (Neg k)) \/ (allow = true /\ exists st, s_step s = Some (Ex st)).
Proof.
  unfold c_slice. simpl. destruct (s_step s) as [[z|k|st]|]; split; try discriminate.
  - intros [(k & E)|(_ & st & E)]; discriminate.
  - eauto.
  - auto.
  - destruct allow; [eauto|discriminate].
  - intros [(k & E)|(-> & _)]; [discriminate|auto].
  - intros [(k & E)|(_ & st & E)]; discriminate.
Qed.

(* ---- single indices ---- *)
Lemma c_index_ok allow n b : written b -> valid_index n (ix_val b) ->
  (allow = false -> forall v, b = Ex v -> 0 <= v) -> c_index allow n b = py_index n (ix_val b).
Proof.
  unfold valid_index, py_index, c_index. cbv zeta. intros W R Ha. destruct b as [z|k|v]; simpl in *.
  - destruct (Z.ltb_spec z 0); lia.
  - destruct (Z.ltb_spec (- k) 0); simpl.
    + destruct allow; [destruct (Z.ltb_spec (n + - k) 0)|]; lia.
    + destruct (Z.ltb_spec (- k) 0); [lia|]. destruct allow; lia.
  - destruct allow.
    + destruct (Z.ltb_spec v 0); lia.
    + specialize (Ha eq_refl v eq_refl). destruct (Z.ltb_spec v 0); lia.
Qed.
Lemma f_index_ok allow n b : usable allow b -> valid_index n (ix_val b) ->
  f_index allow n b = py_index n (ix_val b).
Proof.
  unfold valid_index, py_index, f_index, usable. cbv zeta. intros (W & N0 & Ha) R. destruct b as [z|k|v]; simpl in *.
  - destruct (Z.ltb_spec z 0); lia.
  - destruct (Z.ltb_spec (- k) 0); simpl.
    + destruct allow; [destruct (Z.ltb_spec (n + - k) 0)|]; lia.
    + assert (k = 0) by lia. subst. congruence.
  - destruct allow.
    + destruct (Z.ltb_spec v 0); lia.
    + specialize (Ha eq_refl v eq_refl). destruct (Z.ltb_spec v 0); lia.
Qed.
Lemma c_index_in_slice_ok allow n b : written b -> valid_index n (ix_val b) ->
  (forall v, b = Ex v -> 0 <= v) -> c_index_in_slice allow n b = py_index n (ix_val b).
Proof.
  unfold valid_index, py_index, c_index_in_slice. intros W R Ha. destruct b as [z|k|v]; simpl in *.
  - destruct (Z.ltb_spec z 0); lia.
  - destruct (Z.ltb_spec (- k) 0); simpl; lia.
  - specialize (Ha v eq_refl). destruct (Z.ltb_spec v 0); lia.
Qed.

(* ---- the length of a slice ---- *)
Lemma py_range_length a b c : List.length (py_range a b c) = Z.to_nat (range_len a b c).
Proof. unfold py_range. rewrite map_length, seq_length. reflexivity. Qed.
Lemma ceil_up d c : 0 < c -> 0 <= d -> ceil_div d c = if 0 <? d then (d - 1) / c + 1 else 0.
Proof.
  intros H Hd. unfold ceil_div. destruct (Z.ltb_spec 0 d).
  - pose proof (Z.div_mod (d - 1) c ltac:(lia)) as E. pose proof (Z.mod_pos_bound (d - 1) c H) as B.
    set (q := (d - 1) / c) in *. set (m := (d - 1) mod c) in *.
    assert (- d / c = - (q + 1)); [|lia].
    symmetry. apply Z.div_unique with (c - 1 - m); [lia|]. lia.
  - assert (d = 0) by lia. subst. reflexivity.
Qed.
Lemma unpack_ok allow n d b : 0 <= n -> usable allow b -> bound_in n b ->
  unpack_bound allow n d (Some b) = py_index n (ix_val b).
Proof.
  unfold usable, bound_in, py_index, unpack_bound. intros Hn (W & N0 & Ha) R. destruct b as [z|k|v]; simpl in *.
  - destruct (Z.ltb_spec z 0); lia.
  - destruct (Z.ltb_spec (- k) 0); lia.
  - destruct allow.
    + destruct (Z.ltb_spec v 0); lia.
    + specialize (Ha eq_refl v eq_refl). destruct (Z.ltb_spec v 0); lia.
Qed.
Lemma slice_len_ok allow n s : 0 <= n -> slice_in_range allow n s ->
  (step_of s < 0 -> start_below n s) ->
  (forall st, s_step s = Some (Ex st) -> 0 < st) ->
  forwards n s ->
  slice_len allow n s = Z.of_nat (List.length (py_slice_of n s)).
Proof.
  intros Hn (H1 & H2 & H3) Hsb Hex Hf. unfold py_slice_of, py_slice. cbv zeta. rewrite py_range_length.
  destruct s as [start stop step]; unfold slice_len, forwards, step_of, start_below in *; simpl in *.
  assert (U1: forall d, unpack_bound allow n d start = lo n start d).
  { intros d. destruct start as [b|]; auto. destruct (H1 b eq_refl). apply unpack_ok; auto. }
  assert (U2: forall d, unpack_bound allow n d stop = lo n stop d).
  { intros d. destruct stop as [b|]; auto. destruct (H2 b eq_refl). apply unpack_ok; auto. }
  assert (Up: forall c, 0 < c -> lo n start 0 <= lo n stop n ->
    ceil_div (lo n stop n - lo n start 0) c =
    Z.of_nat (Z.to_nat (range_len (py_slice_start n c (option_map ix_val start)) (py_slice_stop n c (option_map ix_val stop)) c))).
  { intros c Hc Hl. rewrite Z2Nat.id by (apply range_len_nonneg; lia).
    assert (E1: py_slice_start n c (option_map ix_val start) = lo n start 0).
    { destruct start as [b|]; simpl option_map; unfold lo.
      - destruct (H1 b eq_refl). apply py_start_up; auto.
      - simpl. destruct (Z.ltb_spec c 0); lia. }
    assert (E2: py_slice_stop n c (option_map ix_val stop) = lo n stop n).
    { destruct stop as [b|]; simpl option_map; unfold lo.
      - destruct (H2 b eq_refl). apply (py_start_up n c); auto.
      - simpl. destruct (Z.ltb_spec c 0); lia. }
    rewrite E1, E2, ceil_up by lia. unfold range_len. rewrite (proj2 (Z.gtb_lt c 0)) by lia.
    destruct (Z.ltb_spec 0 (lo n stop n - lo n start 0)), (Z.ltb_spec (lo n start 0) (lo n stop n)); try lia. }
  destruct step as [[z|k|st]|]; simpl in *.
  - destruct (H3 _ eq_refl) as (W & N0). simpl in *. rewrite U1, U2.
    destruct (Z.ltb_spec z 0); [lia|]. destruct allow; [rewrite Z.abs_eq by lia|]; apply Up; lia.
  - destruct (H3 _ eq_refl) as (W & N0). simpl in *. rewrite U1, U2.
    destruct (Z.ltb_spec (- k) 0); [|lia]. specialize (Hsb ltac:(lia)).
    rewrite Z2Nat.id by (apply range_len_nonneg; lia).
    assert (E1: py_slice_start n (- k) (option_map ix_val start) = lo n start (n - 1) /\ lo n start (n - 1) < n).
    { destruct start as [b|]; simpl option_map; unfold lo.
      - destruct (H1 b eq_refl) as (_ & B). unfold bound_in in B. specialize (Hsb b eq_refl).
        rewrite py_start_down by lia. split; auto. apply py_index_below. lia.
      - simpl. destruct (Z.ltb_spec (- k) 0); lia. }
    destruct E1 as (E1 & E1').
    assert (E2: py_slice_stop n (- k) (option_map ix_val stop) = lo n stop (-1)).
    { destruct stop as [b|]; simpl option_map; unfold lo in *.
      - destruct (H2 b eq_refl) as (_ & B). unfold bound_in in B.
        apply py_start_down. unfold py_index in *. destruct (Z.ltb_spec (ix_val b) 0); lia.
      - simpl. destruct (Z.ltb_spec (- k) 0); lia. }
    rewrite E1, E2, ceil_up by lia. unfold range_len. rewrite gtb_false by lia.
    rewrite Z.opp_involutive.
    destruct (Z.ltb_spec 0 (lo n start (n - 1) - lo n stop (-1))), (Z.ltb_spec (lo n stop (-1)) (lo n start (n - 1))); try lia.
  - specialize (Hex st eq_refl). rewrite U1, U2.
    destruct (Z.ltb_spec st 0); [lia|]. destruct allow; [rewrite Z.abs_eq by lia|]; apply Up; lia.
  - rewrite U1, U2. rewrite <- (Up 1) by (auto; lia). unfold ceil_div. rewrite Z.div_1_r. lia.
Qed.

(* ---- element k of a slice ---- *)
Lemma nth_py_range a b c k : (k < List.length (py_range a b c))%nat ->
  nth_error (py_range a b c) k = Some (a + Z.of_nat k * c).
Proof.
  intros H. rewrite py_range_length in H. unfold py_range.
  rewrite (map_nth_error _ k (seq 0 (Z.to_nat (range_len a b c))) (d:=k)); auto.
  rewrite (nth_error_nth' _ 0%nat) by (rewrite seq_length; lia). rewrite seq_nth by lia. reflexivity.
Qed.
Lemma py_stop_range n c o : 0 <= n -> -1 <= py_slice_stop n c o <= n /\ (c > 0 -> 0 <= py_slice_stop n c o).
Proof.
  intros Hn. unfold py_slice_stop. destruct o as [v|]; cbv zeta.
  - destruct (Z.ltb_spec v 0).
    + destruct (Z.ltb_spec (v + n) 0); destruct (Z.ltb_spec c 0); lia.
    + destruct (Z.leb_spec n v); destruct (Z.ltb_spec c 0); lia.
  - destruct (Z.ltb_spec c 0); lia.
Qed.
Lemma py_start_range n c o : 0 <= n -> -1 <= py_slice_start n c o <= n /\ (c > 0 -> 0 <= py_slice_start n c o) /\ (c < 0 -> py_slice_start n c o < n).
Proof.
  intros Hn. unfold py_slice_start. destruct o as [v|]; cbv zeta.
  - destruct (Z.ltb_spec v 0).
    + destruct (Z.ltb_spec (v + n) 0); destruct (Z.ltb_spec c 0); lia.
    + destruct (Z.leb_spec n v); destruct (Z.ltb_spec c 0); lia.
  - destruct (Z.ltb_spec c 0); lia.
Qed.
(* positions selected by a slice are positions of the array *)
Lemma py_slice_in n a b c x : 0 <= n -> c <> 0 ->
  In x (py_range (py_slice_start n c a) (py_slice_stop n c b) c) -> 0 <= x < n.
Proof.
  intros Hn Hc H. unfold py_range in H. apply in_map_iff in H as (j & <- & Hj). apply in_seq in Hj.
  pose proof (range_len_nonneg (py_slice_start n c a) (py_slice_stop n c b) c Hc) as L.
  pose proof (range_len_bound (py_slice_start n c a) (py_slice_stop n c b) c (Z.of_nat j) Hc ltac:(lia)) as B.
  destruct (py_start_range n c a Hn) as (S1 & S2 & S3).
  destruct (py_stop_range n c b Hn) as (T1 & T2).
  destruct (Z.gtb_spec c 0); nia.
Qed.

Lemma slice_item_ok allow n s k i : 0 <= n -> slice_in_range allow n s ->
  (step_of s < 0 -> start_below n s) -> item_ok s ->
  ix_val i = Z.of_nat k -> (k < List.length (py_slice_of n s))%nat ->
  nth_error (py_slice_of n s) k = Some (py_index n (ix_val (slice_item n s i))).
Proof.
  intros Hn (H1 & H2 & H3) Hsb Hit Hi Hk.
  assert (Hin: forall x, nth_error (py_slice_of n s) k = Some x -> 0 <= x < n).
  { intros x Hx. apply nth_error_In in Hx. unfold py_slice_of, py_slice in Hx. cbv zeta in Hx.
    eapply py_slice_in; eauto. destruct (s_step s) as [c|] eqn:Es; [|simpl; lia].
    destruct (H3 c eq_refl). auto. }
  assert (E: nth_error (py_slice_of n s) k =
     Some (py_slice_start n (step_of s) (option_map ix_val (s_start s)) + Z.of_nat k * step_of s)).
  { unfold py_slice_of, py_slice in *. cbv zeta in *. unfold step_of.
    rewrite nth_py_range by auto. destruct (s_step s); reflexivity. }
  specialize (Hin _ E). rewrite E. f_equal.
  (* the value of incr *)
  destruct s as [start stop step]. unfold step_of, start_below, item_ok in *. simpl in *.
  unfold slice_item. simpl. cbv zeta.
  set (incr := match step with
    | Some st => if match st with Lit 1 => true | _ => false end then i else Ex (ix_val st * ix_val i)
    | None => i end).
  set (c := match step with Some c => ix_val c | None => 1 end) in *.
  assert (Ei: ix_val incr = Z.of_nat k * c).
  { unfold incr, c. destruct step as [[z|q|v]|]; try (cbn [ix_val]; rewrite Hi; ring).
    destruct z as [|[p|p|]|p]; cbn [ix_val]; rewrite Hi; ring. }
  clearbody incr.
  destruct start as [b|]; simpl in *.
  - destruct (H1 b eq_refl) as (U & R). unfold bound_in in R.
    assert (Es: py_slice_start n c (Some (ix_val b)) = py_index n (ix_val b)).
    { destruct (Z.lt_ge_cases c 0); [apply py_start_down; specialize (Hsb ltac:(lia) b eq_refl); lia|].
      assert (c <> 0) by (unfold c; destruct step as [st|]; [apply H3; auto|lia]).
      apply py_start_up; lia. }
    change (match ix_val b with | 0 => _ | _ => _ end) with (py_slice_start n c (Some (ix_val b))) in Hin || idtac.
    unfold py_slice_start in Es. cbv zeta in Es. rewrite Es in *. clear Es.
    assert (Ev: py_index n (ix_val (make_positive n b)) = py_index n (ix_val b)
             /\ (0 <= ix_val b -> ix_val (make_positive n b) = ix_val b)
             /\ (ix_val b < 0 -> ix_val (make_positive n b) = ix_val b \/ ix_val (make_positive n b) = ix_val b + n)).
    { unfold py_index. destruct b as [z|q|v]; simpl in R |- *; auto.
      destruct (Z.ltb_spec (- q) 0); simpl; split; try (split; lia).
      - destruct (Z.ltb_spec (n + - q) 0); lia.
      - destruct (Z.ltb_spec (- q) 0); lia. }
    destruct Ev as (Ev & E1 & E2).
    assert (V: py_index n (ix_val b) + Z.of_nat k * c = py_index n (ix_val (make_positive n b) + Z.of_nat k * c)).
    { unfold py_index in *. destruct (Z.ltb_spec (ix_val b) 0).
      - destruct (E2 H) as [Q|Q]; rewrite Q in *.
        + destruct (Z.ltb_spec (ix_val b + Z.of_nat k * c) 0); lia.
        + destruct (Z.ltb_spec (ix_val b + n + Z.of_nat k * c) 0); lia.
      - rewrite (E1 H) in *. destruct (Z.ltb_spec (ix_val b + Z.of_nat k * c) 0); lia. }
    destruct (match make_positive n b with Lit 0 => true | _ => false end) eqn:Z0.
    + rewrite Ei. rewrite V. f_equal.
      destruct (make_positive n b) as [z| |]; try discriminate. destruct z; try discriminate. simpl. lia.
    + simpl. rewrite Ei. exact V.
  - assert (Hc: c <> 0) by (unfold c; destruct step as [st|]; [apply H3; auto|lia]).
    destruct (Z.ltb_spec c 0) as [Hneg|Hpos].
    + destruct (Hit Hneg) as [Q|(-> & Q)]; [congruence|].
      destruct step as [[z|q|v]|]; unfold c in *; simpl in *.
      * destruct (H3 _ eq_refl) as (W & _). simpl in W. lia.
      * destruct (Z.ltb_spec (- q) 0); [|lia]. simpl. rewrite Ei. unfold py_index.
        destruct (Z.ltb_spec (n - 1 + Z.of_nat k * - q) 0); lia.
      * exfalso. eapply Q. reflexivity.
      * lia.
    + assert (V: 0 + Z.of_nat k * c = py_index n (ix_val incr)).
      { rewrite Ei. unfold py_index. destruct (Z.ltb_spec (Z.of_nat k * c) 0); lia. }
      rewrite V. destruct step as [[z|q|v]|]; auto. unfold c in *. simpl in *.
      destruct (Z.ltb_spec (- q) 0); [lia|]. auto.
Qed.

(* ---- memory ---- *)
Lemma row_offset_dot : forall shape idx, List.length shape = List.length idx ->
  row_offset shape idx = dot idx (c_strides shape).
Proof.
  induction shape as [|n r IH]; intros [|i idx] H; simpl in *; try discriminate; auto.
  rewrite IH; auto.
Qed.
Lemma dot_f_strides : forall shape idx acc, List.length shape = List.length idx ->
  dot idx (f_strides acc shape) = acc * f_offset shape idx.
Proof.
  induction shape as [|n r IH]; intros [|i idx] acc H; simpl in *; try discriminate; try lia.
  rewrite IH by auto. ring.
Qed.
Lemma row_offset_snoc : forall shape idx n i, List.length shape = List.length idx ->
  row_offset (shape ++ [n]) (idx ++ [i]) = n * row_offset shape idx + i.
Proof.
  induction shape as [|m r IH]; intros [|j idx] n i H; simpl in *; try discriminate; [lia|].
  rewrite IH by auto. rewrite fold_right_app. simpl.
  replace (fold_right Z.mul (n * 1) r) with (n * fold_right Z.mul 1 r); [ring|].
  clear. induction r as [|a r IHr]; simpl; [ring|]. rewrite <- IHr. ring.
Qed.
Lemma row_rev : forall shape idx, List.length shape = List.length idx ->
  row_offset (rev shape) (rev idx) = f_offset shape idx.
Proof.
  induction shape as [|n r IH]; intros [|i idx] H; simpl in *; try discriminate; auto.
  rewrite row_offset_snoc by (rewrite !rev_length; auto). rewrite IH by auto. ring.
Qed.
Lemma f_rev shape idx : List.length shape = List.length idx ->
  f_offset (rev shape) (rev idx) = row_offset shape idx.
Proof.
  intros H. rewrite <- row_rev by (rewrite !rev_length; auto). rewrite !rev_involutive. auto.
Qed.
Lemma offsets_agree o shape idx : List.length shape = List.length idx ->
  c_offset o shape idx = numpy_offset o shape idx /\
  f_array_offset o shape idx = numpy_offset o shape idx.
Proof.
  intros H. destruct o; simpl.
  - rewrite f_rev, row_offset_dot; auto.
  - rewrite row_rev, dot_f_strides; auto. split; ring.
Qed.
Lemma f_offset_bounds : forall shape idx, in_shape shape idx -> 0 <= f_offset shape idx < prod shape.
Proof.
  unfold in_shape. intros shape idx H. induction H as [|n i r idx Hi H IH]; simpl; [lia|]. nia.
Qed.
Lemma f_offset_inj : forall shape a b, in_shape shape a -> in_shape shape b ->
  f_offset shape a = f_offset shape b -> a = b.
Proof.
  unfold in_shape. intros shape a b H. revert b. induction H as [|n i r a Hi H IH]; intros b Hb E.
  - inversion Hb. auto.
  - inversion Hb as [|? j ? b' Hj Hb']; subst. simpl in E.
    assert (i = j).
    { pose proof (Z.mod_unique (i + n * f_offset r a) n (f_offset r a) i ltac:(lia) ltac:(ring)).
      pose proof (Z.mod_unique (i + n * f_offset r a) n (f_offset r b') j ltac:(lia) ltac:(lia)). lia. }
    subst. f_equal. apply IH; auto. nia.
Qed.
Lemma in_shape_rev shape idx : in_shape shape idx -> in_shape (rev shape) (rev idx).
Proof.
  unfold in_shape. induction 1; simpl; [constructor|]. apply Forall2_app; auto.
Qed.
Lemma prod_rev l : prod (rev l) = prod l.
Proof.
  unfold prod. induction l as [|a l IH]; simpl; auto. rewrite fold_right_app. simpl.
  rewrite <- IH. generalize (rev l). clear. induction l as [|b l IH]; simpl; [ring|]. rewrite IH. ring.
Qed.
Lemma numpy_offset_f o shape idx : List.length shape = List.length idx ->
  numpy_offset o shape idx = match o with OrdC => f_offset (rev shape) (rev idx) | OrdF => f_offset shape idx end.
Proof.
  intros H. destruct (offsets_agree o shape idx H) as (_ & <-). destruct o; reflexivity.
Qed.
Lemma in_shape_length shape idx : in_shape shape idx -> List.length shape = List.length idx.
Proof. unfold in_shape. induction 1; simpl; auto. Qed.
Lemma offset_bounds o shape idx : in_shape shape idx -> 0 <= numpy_offset o shape idx < prod shape.
Proof.
  intros H. rewrite numpy_offset_f by (apply in_shape_length; auto). destruct o.
  - rewrite <- prod_rev. apply f_offset_bounds, in_shape_rev; auto.
  - apply f_offset_bounds; auto.
Qed.
Lemma offset_inj o shape a b : in_shape shape a -> in_shape shape b ->
  numpy_offset o shape a = numpy_offset o shape b -> a = b.
Proof.
  intros Ha Hb. rewrite !numpy_offset_f by (apply in_shape_length; auto). destruct o; intros E.
  - apply f_offset_inj in E; try (apply in_shape_rev; auto).
    rewrite <- (rev_involutive a), <- (rev_involutive b), E. auto.
  - eapply f_offset_inj; eauto.
Qed.
Lemma nth_error_rev {A} (l : list A) k : (k < List.length l)%nat ->
  nth_error (rev l) (List.length l - 1 - k) = nth_error l k.
Proof.
  intros H. destruct l as [|d l]; [simpl in H; lia|].
  rewrite (nth_error_nth' (rev (d :: l)) d) by (rewrite rev_length; lia).
  rewrite rev_nth by lia. rewrite (nth_error_nth' (d :: l) d) by auto. do 2 f_equal. lia.
Qed.
Lemma f_shape_element_ok o shape k : (k < List.length shape)%nat ->
  f_shape_element o shape k = nth_error shape k.
Proof.
  intros H. unfold f_shape_element. destruct (Nat.eqb_spec (List.length shape) 1) as [E|E].
  - destruct shape as [|n [|m r]]; try discriminate. assert (k = 0)%nat by (simpl in H; lia). subst.
    destruct o; reflexivity.
  - destruct o.
    + replace (List.length shape - k - 1)%nat with (List.length shape - 1 - k)%nat by lia. apply nth_error_rev; auto.
    + f_equal. lia.
Qed.
(* the i-th printed index belongs to the dimension whose size is used *)
Lemma f_index_dim_ok o (idx : list Z) i : (i < List.length idx)%nat ->
  nth_error (match o with OrdC => rev idx | OrdF => idx end) i = nth_error idx (f_index_dim o (List.length idx) i).
Proof.
  intros H. destruct o; simpl; auto.
  rewrite <- (nth_error_rev idx) by lia. f_equal. lia.
Qed.

(* ---- loops ---- *)
Lemma chk_in' w z : in_range w z -> chk w z = Ret z.
Proof. unfold in_range, chk, in_rangeb. intros H. now replace ((int_min w <=? z) && (z <=? int_max w)) with true by lia. Qed.
Section Loops.
Context {S : Type}.
Lemma py_each_state (body : Z -> S -> Z * S) : forall vals i j s, vals <> [] \/ i = j ->
  py_each vals body i s = py_each vals body j s.
Proof. intros [|v r] i j s [H| ->]; try congruence; auto. Qed.
Lemma py_each_snd (body : Z -> S -> Z * S) : forall vals i j s,
  snd (py_each vals body i s) = snd (py_each vals body j s).
Proof. intros [|v r] i j s; reflexivity. Qed.
Lemma prog_0 a c : progression a c 0 = []. Proof. reflexivity. Qed.
Lemma prog_S a c k : progression a c (Datatypes.S k) = a :: progression (a + c) c k.
Proof.
  unfold progression. simpl. f_equal; [lia|]. rewrite <- seq_shift, map_map.
  apply map_ext. intros x. lia.
Qed.
Lemma f_loop_ok (body : Z -> S -> Z * S) c : keeps_variable body -> forall n a s,
  f_loop n c body a s = Ret (a + Z.of_nat n * c, snd (py_each (progression a c n) body a s)).
Proof.
  intros Hk. induction n as [|n IH]; intros a s.
  - simpl. do 2 f_equal. lia.
  - rewrite prog_S. cbn [f_loop py_each]. specialize (Hk a s).
    destruct (body a s) as (i', s') eqn:Eb. simpl in Hk. subst i'. rewrite Z.eqb_refl, IH.
    rewrite (py_each_snd body _ (a + c) a). do 2 f_equal. lia.
Qed.
Lemma f_stop_ok (r : range S) i s : lit_ok r -> r_step r i s <> 0 ->
  f_stop r i s = if r_step r i s >? 0 then r_stop r i s - 1 else r_stop r i s + 1.
Proof.
  intros Hl H. unfold f_stop. destruct (r_lit r) as [k|] eqn:E; auto.
  rewrite (Hl k E i s) in *. destruct (Z.ltb_spec k 0).
  - rewrite gtb_false by lia. auto.
  - rewrite (proj2 (Z.gtb_lt k 0)) by lia. auto.
Qed.
Lemma py_range_prog a b c : py_range a b c = progression a c (Z.to_nat (range_len a b c)).
Proof. reflexivity. Qed.
Lemma f_for_ok (r : range S) body i0 s0 : keeps_variable body -> lit_ok r -> r_step r i0 s0 <> 0 ->
  f_for r body i0 s0 =
    Ret (r_start r i0 s0 + range_len (r_start r i0 s0) (r_stop r i0 s0) (r_step r i0 s0) * r_step r i0 s0,
         snd (py_for r body i0 s0)).
Proof.
  intros Hk Hl Hc. unfold f_for, py_for. cbv zeta. rewrite f_stop_ok by auto.
  set (a := r_start r i0 s0). set (b := r_stop r i0 s0). set (c := r_step r i0 s0) in *.
  pose proof (range_len_nonneg a b c Hc) as L.
  assert (E: f_count a (if c >? 0 then b - 1 else b + 1) c = Z.to_nat (range_len a b c)).
  { destruct (Z.gtb_spec c 0).
    - rewrite f_count_up by lia. auto.
    - rewrite f_count_down by lia. auto. }
  rewrite E, f_loop_ok by auto. rewrite py_range_prog. rewrite (py_each_snd body _ a i0).
  do 2 f_equal. rewrite Z2Nat.id by lia. auto.
Qed.
Lemma c_cond_ok (r : range S) i s : lit_ok r -> r_step r i s <> 0 ->
  c_cond r i s = if r_step r i s >? 0 then i <? r_stop r i s else r_stop r i s <? i.
Proof.
  intros Hl H. unfold c_cond. destruct (r_lit r) as [k|] eqn:E; auto.
  rewrite (Hl k E i s) in *. destruct (Z.ltb_spec k 0).
  - rewrite gtb_false by lia. auto.
  - rewrite (proj2 (Z.gtb_lt k 0)) by lia. auto.
Qed.
Lemma c_loop_ok w (r : range S) body : keeps_variable body -> lit_ok r -> keeps_bounds r body ->
  forall n fuel a b c s, n = Z.to_nat (range_len a b c) -> (n < fuel)%nat ->
  r_stop r a s = b -> r_step r a s = c -> c <> 0 -> in_range w a -> in_range w (b + c) ->
  c_loop w fuel r body a s = Ret (a + Z.of_nat n * c, snd (py_each (progression a c n) body a s)).
Proof.
  intros Hk Hl (Hb1 & Hb2). induction n as [|n IH]; intros [|fuel] a b c s En Hf Es Ec Hc Ra Rb; try lia.
  - cbn [c_loop]. rewrite c_cond_ok by (rewrite ?Ec; auto). rewrite Es, Ec.
    pose proof (range_len_nonneg a b c Hc) as L.
    assert (Z0: range_len a b c = 0) by lia. pose proof (range_len_end a b c Hc) as Z1. rewrite Z0 in Z1.
    destruct (Z.gtb_spec c 0).
    + rewrite (proj2 (Z.ltb_ge a b)) by lia. simpl. do 2 f_equal. lia.
    + rewrite (proj2 (Z.ltb_ge b a)) by lia. simpl. do 2 f_equal. lia.
  - pose proof (range_len_nonneg a b c Hc) as L.
    assert (N: range_len a b c = Z.of_nat n + 1) by lia.
    pose proof (range_len_bound a b c 0 Hc ltac:(lia)) as B0.
    cbn [c_loop]. rewrite c_cond_ok by (rewrite ?Ec; auto). rewrite Es, Ec.
    rewrite prog_S. cbn [py_each]. pose proof (Hk a s) as Hk'. pose proof (Hb2 a s) as (B1 & B2).
    destruct (body a s) as (i', s') eqn:Eb. simpl in Hk', B1, B2. subst i'.
    assert (T: (if c >? 0 then a <? b else b <? a) = true).
    { destruct (Z.gtb_spec c 0); apply Z.ltb_lt; lia. }
    rewrite T. rewrite B2, Ec.
    assert (Rac: in_range w (a + c)).
    { unfold in_range in *. destruct (Z.gtb_spec c 0); lia. }
    rewrite (chk_in' w (a + c)) by exact Rac. cbn [bind].
    rewrite (IH fuel (a + c) b c s').
    + rewrite (py_each_snd body _ (a + c) a). do 2 f_equal. lia.
    + pose proof (range_len_step a b c Hc) as Q. destruct (Z.gtb_spec c 0); rewrite Q in N; lia.
    + lia.
    + destruct (Hb1 (a + c) a s') as (-> & _). lia.
    + destruct (Hb1 (a + c) a s') as (_ & ->). lia.
    + auto.
    + auto.
    + auto.
Qed.
Lemma c_for_ok w (r : range S) body i0 s0 : keeps_variable body -> lit_ok r -> keeps_bounds r body ->
  let a := r_start r i0 s0 in let b := r_stop r i0 s0 in let c := r_step r i0 s0 in
  c <> 0 -> in_range w a -> in_range w (b + c) ->
  forall fuel, (Z.to_nat (range_len a b c) < fuel)%nat ->
  c_for w fuel r body i0 s0 = Ret (a + range_len a b c * c, snd (py_for r body i0 s0)).
Proof.
  intros Hk Hl Hb a b c Hc Ra Rb fuel Hf. unfold c_for, py_for. fold a b c.
  pose proof (range_len_nonneg a b c Hc) as L.
  rewrite (c_loop_ok w r body Hk Hl Hb (Z.to_nat (range_len a b c)) fuel a b c s0); auto.
  - rewrite py_range_prog, (py_each_snd body _ a i0). do 2 f_equal. rewrite Z2Nat.id by lia. auto.
  - unfold b. destruct Hb as (Hb1 & _). destruct (Hb1 a i0 s0). auto.
  - unfold c. destruct Hb as (Hb1 & _). destruct (Hb1 a i0 s0). auto.
Qed.
End Loops.

Lemma range_values a b c x : c <> 0 -> (In x (py_range a b c) <->
  exists j, 0 <= j /\ x = a + j * c /\ (if c >? 0 then x < b else b < x)).
Proof.
  intros Hc. pose proof (range_len_nonneg a b c Hc) as L. unfold py_range. rewrite in_map_iff. split.
  - intros (j & <- & Hj). apply in_seq in Hj. exists (Z.of_nat j). split; [lia|]. split; auto.
    apply range_len_bound; lia.
  - intros (j & Hj & -> & Hx). exists (Z.to_nat j). rewrite Z2Nat.id by lia. split; auto.
    apply in_seq. pose proof (range_len_end a b c Hc) as E.
    destruct (Z.gtb_spec c 0); nia.
Qed.
