(** Proofs about np.array. *)

From Coq Require Import List Bool Arith Lia.
From Verif Require Import Narr_Model Narr_Spec.
Import ListNotations.

Definition arg_ind' {A} (P : arg A -> Prop)
  (HS : forall b e, P (Scal b e)) (HA : forall o sh elt, P (Arr o sh elt))
  (HL : forall l, Forall P l -> P (Lst l)) : forall a, P a :=
  fix go a :=
    match a with
    | Scal b e => HS b e
    | Arr o sh elt => HA o sh elt
    | Lst l => HL l ((fix all l : Forall P l :=
                        match l with
                        | [] => Forall_nil P
                        | x :: r => Forall_cons x (go x) (all r)
                        end) l)
    end.

(** ** Places *)

Lemma prod_app : forall a b, prod (a ++ b) = prod a * prod b.
Proof.
  induction a as [|x a IH]; intros b; [symmetry; apply Nat.mul_1_l|]. change (x * prod (a ++ b) = x * prod a * prod b). rewrite IH. lia.
Qed.

Lemma prod_cons : forall x l, prod (x :: l) = x * prod l.
Proof. reflexivity. Qed.

Lemma prod_rev : forall l, prod (rev l) = prod l.
Proof. induction l as [|x l IH]; [reflexivity|]. cbn [rev]. rewrite prod_app, IH, !prod_cons. cbn. lia. Qed.

Lemma prod_layout : forall o l, prod (layout o l) = prod l.
Proof. intros [] l; cbn; [apply prod_rev|reflexivity]. Qed.

Lemma off_app : forall a x b y, length a = length x -> off (a ++ b) (x ++ y) = off a x + prod a * off b y.
Proof.
  induction a as [|s a IH]; intros [|i x] b y H; try discriminate; [cbn; lia|].
  cbn [app off]. rewrite IH by (cbn in H; lia). rewrite prod_cons. lia.
Qed.

Lemma off_lt : forall sh idx, in_bounds idx sh -> off sh idx < prod sh.
Proof.
  intros sh idx H. induction H as [|i s idx sh H F IH]; [cbn; lia|]. cbn [off]. rewrite prod_cons. nia.
Qed.

Lemma in_bounds_rev : forall idx sh, in_bounds idx sh -> in_bounds (rev idx) (rev sh).
Proof.
  intros idx sh H. induction H as [|i s idx sh H F IH]; [constructor|]. cbn. apply Forall2_app; [exact IH|].
  repeat constructor. exact H.
Qed.

Lemma in_bounds_layout : forall o idx sh, in_bounds idx sh -> in_bounds (layout o idx) (layout o sh).
Proof. intros [] idx sh H; cbn; [apply in_bounds_rev|]; exact H. Qed.

Lemma layout_layout : forall o l, layout o (layout o l) = l.
Proof. intros [] l; cbn; [apply rev_involutive|reflexivity]. Qed.

Lemma in_bounds_layout_iff : forall o idx sh, in_bounds idx (layout o sh) -> in_bounds (layout o idx) sh.
Proof. intros o idx sh H. apply (in_bounds_layout o) in H. rewrite layout_layout in H. exact H. Qed.

Lemma in_bounds_length : forall idx sh, in_bounds idx sh -> length idx = length sh.
Proof. intros idx sh H. induction H; cbn; lia. Qed.

Lemma in_bounds_cons : forall i idx s sh, in_bounds (i :: idx) (s :: sh) -> i < s /\ in_bounds idx sh.
Proof. intros i idx s sh H. inversion H. auto. Qed.

Lemma nth_blocks : forall (A B : Type) (g : A -> list B) n l k i x,
  (forall y, In y l -> length (g y) = n) -> nth_error l k = Some x -> i < n ->
  nth_error (flat_map g l) (i + n * k) = nth_error (g x) i.
Proof.
  intros A B g n l. induction l as [|y l IH]; intros k i x G E Li; [destruct k; discriminate|].
  cbn [flat_map]. destruct k as [|k]; cbn in E.
  - injection E as ->. rewrite Nat.mul_0_r, Nat.add_0_r. apply nth_error_app1.
    rewrite G by (left; reflexivity). exact Li.
  - rewrite nth_error_app2 by (rewrite (G y (or_introl eq_refl)); nia).
    rewrite (G y (or_introl eq_refl)). replace (i + n * S k - n) with (i + n * k) by nia.
    apply IH; auto. intros z I. apply G. right. exact I.
Qed.

Lemma nth_indices : forall sh idx, in_bounds idx sh -> nth_error (indices sh) (off sh idx) = Some idx.
Proof.
  intros sh idx H. induction H as [|i s idx sh H F IH]; [reflexivity|]. cbn [indices off].
  rewrite (nth_blocks _ _ (fun idx => map (fun i => i :: idx) (seq 0 s)) s (indices sh) (off sh idx) i idx).
  - rewrite nth_error_map. rewrite (nth_error_nth' _ 0) by (rewrite seq_length; exact H).
    rewrite seq_nth by exact H. reflexivity.
  - intros y _. rewrite map_length, seq_length. reflexivity.
  - exact IH.
  - exact H.
Qed.

Lemma indices_length : forall sh, length (indices sh) = prod sh.
Proof.
  induction sh as [|s sh IH]; [reflexivity|]. cbn [indices]. rewrite prod_cons, <- IH. clear IH.
  induction (indices sh) as [|x l IHl]; [cbn; lia|]. cbn [flat_map length]. rewrite app_length, map_length, seq_length, IHl. lia.
Qed.

Lemma in_indices : forall sh idx, In idx (indices sh) -> in_bounds idx sh.
Proof.
  induction sh as [|s sh IH]; intros idx H; cbn in H.
  - destruct H as [<-|[]]. constructor.
  - apply in_flat_map in H. destruct H as (idx' & I & H). apply in_map_iff in H. destruct H as (i & <- & H).
    apply in_seq in H. constructor; [lia|]. apply IH. exact I.
Qed.

Lemma map_off : forall sh, map (off sh) (indices sh) = seq 0 (prod sh).
Proof.
  intros sh. apply nth_ext with (d := 0) (d' := 0).
  - rewrite map_length, seq_length. apply indices_length.
  - intros n L. rewrite map_length, indices_length in L. rewrite seq_nth by exact L. cbn.
    revert n L. induction sh as [|s sh IH]; intros n L.
    + cbn in *. assert (n = 0) as -> by lia. reflexivity.
    + assert (s <> 0) as Hs by (intros ->; cbn in L; lia).
      rewrite prod_cons in L.
      assert (n / s < prod sh) as Lq by (apply Nat.div_lt_upper_bound; lia).
      assert (n mod s < s) as Lr by (apply Nat.mod_upper_bound; lia).
      rewrite (Nat.div_mod n s Hs) at 1. rewrite (Nat.add_comm (s * _)).
      specialize (IH _ Lq).
      destruct (nth_error (indices sh) (n / s)) as [idx|] eqn:E.
      2:{ apply nth_error_None in E. rewrite indices_length in E. lia. }
      assert (nth_error (map (off (s :: sh)) (indices (s :: sh))) (n mod s + s * (n / s)) = Some (n mod s + s * off sh idx)) as G.
      { rewrite nth_error_map. cbn [indices].
        rewrite (nth_blocks _ _ (fun idx => map (fun i => i :: idx) (seq 0 s)) s _ _ _ idx); auto.
        - rewrite nth_error_map. rewrite (nth_error_nth' _ 0) by (rewrite seq_length; exact Lr).
          rewrite seq_nth by exact Lr. reflexivity.
        - intros y _. rewrite map_length, seq_length. reflexivity. }
      rewrite (nth_error_nth _ _ 0 G).
      apply (map_nth_error (off sh)) in E. rewrite (nth_error_nth _ _ 0 E) in IH. rewrite IH.
      rewrite (Nat.div_mod n s Hs) at 3. lia.
Qed.

(** ** traverse *)

Lemma traverse_cons : forall (A B : Type) (f : A -> option B) x r,
  traverse f (x :: r) = bind (f x) (fun y => bind (traverse f r) (fun ys => Some (y :: ys))).
Proof. reflexivity. Qed.

Lemma traverse_map : forall (A B C : Type) (f : B -> option C) (g : A -> B) l,
  traverse f (map g l) = traverse (fun x => f (g x)) l.
Proof. intros A B C f g l. induction l as [|x l IH]; [reflexivity|]. cbn [map]. rewrite !traverse_cons, IH. reflexivity. Qed.

Lemma traverse_nth_all : forall (A : Type) (d pre : list A),
  traverse (nth_error (pre ++ d)) (seq (length pre) (length d)) = Some d.
Proof.
  intros A. induction d as [|x d IH]; intros pre; [reflexivity|]. cbn [length seq]. rewrite traverse_cons.
  rewrite nth_error_app2 by lia. rewrite Nat.sub_diag. cbn [nth_error bind].
  specialize (IH (pre ++ [x])). rewrite <- app_assoc in IH. cbn [app] in IH.
  rewrite app_length in IH. cbn [length] in IH. rewrite Nat.add_1_r in IH. rewrite IH. reflexivity.
Qed.

Lemma traverse_total : forall (A B : Type) (f : A -> option B) l,
  (forall x, In x l -> exists y, f x = Some y) ->
  exists r, traverse f l = Some r /\ length r = length l /\
    forall k x, nth_error l k = Some x -> nth_error r k = f x.
Proof.
  intros A B f. induction l as [|x l IH]; intros H.
  - exists []. split; [reflexivity|]. split; [reflexivity|]. intros [] x E; discriminate.
  - destruct (H x (or_introl eq_refl)) as (y & E). destruct IH as (r & Er & Lr & Nr).
    { intros z I. apply H. right. exact I. }
    exists (y :: r). rewrite traverse_cons, E. cbn [bind]. rewrite Er. cbn [bind]. split; [reflexivity|].
    split; [cbn; lia|]. intros [|k] z Ez; cbn in Ez |- *; [congruence|]. apply Nr. exact Ez.
Qed.

(** ** reshape *)

Lemma reshape_none : forall (A : Type) (f : farr A) sh, length (fdata f) = prod sh ->
  reshape f sh None = Some (Far sh (fdata f)).
Proof.
  intros A f sh L. unfold reshape. rewrite <- (traverse_map _ _ _ (nth_error (fdata f)) (off sh)), map_off, <- L.
  pose proof (traverse_nth_all A (fdata f) []) as E. cbn [app length] in E. rewrite E. reflexivity.
Qed.

Lemma gather : forall (A : Type) (d : list A) (g : list nat -> nat) sh,
  (forall idx, in_bounds idx sh -> g idx < length d) ->
  exists d', traverse (fun idx => nth_error d (g idx)) (indices sh) = Some d' /\ length d' = prod sh /\
    forall idx, in_bounds idx sh -> nth_error d' (off sh idx) = nth_error d (g idx).
Proof.
  intros A d g sh H. destruct (traverse_total _ _ (fun idx => nth_error d (g idx)) (indices sh)) as (d' & E & L & N).
  { intros idx I. apply in_indices, H in I. destruct (nth_error d (g idx)) eqn:E; eauto.
    apply nth_error_None in E. lia. }
  exists d'. split; [exact E|]. split; [rewrite L; apply indices_length|].
  intros idx I. apply N, nth_indices, I.
Qed.

Lemma permute_app : forall p q l, permute (p ++ q) l = permute p l ++ permute q l.
Proof. intros p q l. apply map_app. Qed.

Lemma permute_seq : forall (l pre : list nat), permute (seq (S (length pre)) (length l)) (pre ++ l) = l.
Proof.
  induction l as [|x l IH]; intros pre; [reflexivity|]. cbn [length seq permute map].
  cbn [Nat.sub]. rewrite Nat.sub_0_r, app_nth2, Nat.sub_diag by lia. cbn [nth]. f_equal.
  specialize (IH (pre ++ [x])). rewrite <- app_assoc in IH. cbn [app] in IH. rewrite app_length in IH. cbn [length] in IH.
  rewrite Nat.add_1_r in IH. exact IH.
Qed.

Lemma permute_id : forall l, permute (seq 1 (length l)) l = l.
Proof. intros l. apply (permute_seq l []). Qed.

Lemma permute_rev : forall l n, length l = n -> permute (rev (seq 1 n)) l = rev l.
Proof. intros l n <-. unfold permute. rewrite map_rev. f_equal. apply permute_id. Qed.

Lemma permute_rotated : forall x l n, length (x :: l) = n -> permute (rotated n) (x :: l) = l ++ [x].
Proof.
  intros x l n <-. unfold rotated. cbn [length seq tl firstn]. rewrite permute_app. f_equal.
  apply (permute_seq l [x]).
Qed.

Lemma rotated_length : forall n, length (rotated n) = n.
Proof. intros [|n]; [reflexivity|]. unfold rotated. cbn [seq tl firstn]. rewrite app_length, seq_length. cbn. lia. Qed.

(** ** Fortran arrays for Python arrays *)

Definition rep {A} (o : order) (sh : list nat) (v : list nat -> option A) (d : list A) : Prop :=
  length d = prod sh /\
  forall idx, in_bounds idx sh -> nth_error d (off (layout o sh) (layout o idx)) = v idx.

Lemma rep_ext : forall (A : Type) o sh (v w : list nat -> option A) d,
  (forall idx, in_bounds idx sh -> v idx = w idx) -> rep o sh v d -> rep o sh w d.
Proof. intros A o sh v w d E [L H]. split; [exact L|]. intros idx I. rewrite H by exact I. apply E, I. Qed.

Lemma layout_short : forall o l, length l <= 1 -> layout o l = l.
Proof. intros [] [|x [|y l]] H; cbn in *; try reflexivity. lia. Qed.

Lemma rep_short : forall (A : Type) o o' sh (v : list nat -> option A) d, length sh <= 1 -> rep o sh v d -> rep o' sh v d.
Proof.
  intros A o o' sh v d L [H1 H2]. split; [exact H1|]. intros idx I. pose proof (in_bounds_length _ _ I).
  rewrite <- H2 by exact I. rewrite !layout_short by lia. reflexivity.
Qed.

Lemma fvar_rep : forall (A : Type) o sh (elt : content A),
  rep o sh (fun idx => Some (elt idx)) (fdata (fvar o sh elt)).
Proof.
  intros A o sh elt. unfold fvar. cbn [fdata]. split.
  - rewrite map_length, indices_length. apply prod_layout.
  - intros idx I. rewrite nth_error_map, nth_indices by (apply in_bounds_layout; exact I).
    cbn. rewrite layout_layout. reflexivity.
Qed.

Lemma reorder_ok : forall (A : Type) o ox sh (v : list nat -> option A) f, rep ox sh v (fdata f) ->
  exists f', reorder o (Some ox) sh f = Some f' /\ rep o sh v (fdata f') /\
    (fshape f = layout ox sh -> fshape f' = layout o sh).
Proof.
  intros A o ox sh v f [L H]. unfold reorder. destruct (order_eqb ox (inverse o)) eqn:Q.
  2:{ exists f. split; [reflexivity|]. destruct o, ox; try discriminate; (split; [split; assumption|auto]). }
  assert (match ox with OC => sh | OF => rev sh end = layout o sh) as -> by (destruct o, ox; try discriminate; reflexivity).
  unfold reshape. rewrite rev_length, seq_length.
  assert (length (layout o sh) = length sh) as LL by (destruct o; cbn; [apply rev_length|reflexivity]).
  rewrite LL, Nat.eqb_refl.
  destruct (gather A (fdata f) (fun idx => off (permute (rev (seq 1 (length sh))) (layout o sh))
                                                (permute (rev (seq 1 (length sh))) idx)) (layout o sh)) as (d' & E & L' & N).
  { intros idx I. rewrite L. pose proof (in_bounds_length _ _ I).
    rewrite !permute_rev by congruence. rewrite <- (prod_layout o sh), <- (prod_rev (layout o sh)).
    apply off_lt, in_bounds_rev, I. }
  rewrite E. cbn [bind]. eexists. split; [reflexivity|]. cbn [fdata fshape]. split; [|reflexivity].
  split; [rewrite L'; apply prod_layout|]. intros idx I.
  rewrite N by (apply in_bounds_layout; exact I). rewrite <- (H idx I). pose proof (in_bounds_length _ _ I) as LI.
  assert (length (layout o idx) = length sh) as LJ by (destruct o; cbn; [rewrite rev_length|]; exact LI).
  rewrite !permute_rev by congruence. destruct o, ox; try discriminate; cbn [layout]; rewrite ?rev_involutive; reflexivity.
Qed.

Lemma transpose_ok : forall (A : Type) o ox n m (v : list nat -> option A) f,
  fshape f = layout ox [n; m] -> rep ox [n; m] v (fdata f) -> ox <> o ->
  exists f', transpose f = Some f' /\ rep o [n; m] v (fdata f') /\ fshape f' = layout o [n; m].
Proof.
  intros A o ox n m v f S [L H] D. unfold transpose.
  assert (exists a b, layout ox [n; m] = [a; b] /\ layout o [n; m] = [b; a]) as (a & b & Ea & Eb).
  { destruct o, ox; try congruence; cbn; eauto. }
  rewrite S, Ea.
  destruct (gather A (fdata f) (fun idx => off [a; b] (rev idx)) [b; a]) as (d' & E & L' & N).
  { intros idx I. rewrite L, <- (prod_layout ox), Ea. apply off_lt. apply in_bounds_rev in I. exact I. }
  rewrite E. cbn [bind]. eexists. split; [reflexivity|]. cbn [fdata fshape]. split; [|symmetry; exact Eb].
  split; [rewrite L', <- Eb; apply prod_layout|]. intros idx I. rewrite Eb, N.
  - rewrite <- (H idx I), Ea. f_equal. f_equal. destruct o, ox; try congruence; cbn [layout]; [|reflexivity].
    apply rev_involutive.
  - rewrite <- Eb. apply in_bounds_layout, I.
Qed.

(** Blocks one after the other. *)
Lemma nth_concat : forall (A : Type) (ds : list (list A)) n k i d,
  (forall d, In d ds -> length d = n) -> nth_error ds k = Some d -> i < n ->
  nth_error (concat ds) (i + n * k) = nth_error d i.
Proof.
  intros A ds n k i d H E L. pose proof (nth_blocks _ _ (fun d : list A => d) n ds k i d H E L) as G.
  rewrite flat_map_concat_map, map_id in G. exact G.
Qed.

Lemma concat_length : forall (A : Type) (ds : list (list A)) n,
  (forall d, In d ds -> length d = n) -> length (concat ds) = length ds * n.
Proof.
  intros A ds n H. induction ds as [|d ds IH]; [reflexivity|]. cbn [concat length]. rewrite app_length, IH.
  - rewrite (H d (or_introl eq_refl)). lia.
  - intros e I. apply H. right. exact I.
Qed.

(** The position of an element of a block. *)
Lemma blocks_ok : forall (A : Type) o sh (ds : list (list A)) (vs : list (list nat -> option A)),
  Forall2 (rep o sh) vs ds ->
  length (concat ds) = length vs * prod sh /\
  forall i idx v, nth_error vs i = Some v -> in_bounds idx sh ->
    nth_error (concat ds) (off (layout o sh) (layout o idx) + prod sh * i) = v idx.
Proof.
  intros A o sh ds vs F.
  assert (forall d, In d ds -> length d = prod sh) as HL.
  { induction F as [|v d vs ds R F IH]; intros e []; [subst; apply R|auto]. }
  assert (length ds = length vs) as LL by (clear HL; induction F; cbn; lia).
  split; [rewrite (concat_length _ _ (prod sh)) by exact HL; lia|].
  intros i idx v E I.
  assert (exists d, nth_error ds i = Some d /\ rep o sh v d) as (d & Ed & R).
  { clear - F E. revert i E. induction F as [|w d vs ds R F IH]; intros [|i] E; cbn in E |- *; try discriminate.
    - injection E as ->. eauto.
    - exact (IH i E). }
  rewrite (nth_concat _ _ (prod sh) i _ d HL Ed).
  - apply R, I.
  - rewrite <- (prod_layout o). apply off_lt, in_bounds_layout, I.
Qed.

Definition at_list {A} (vs : list (list nat -> option A)) (idx : list nat) : option A :=
  match idx with
  | i :: idx' => match nth_error vs i with Some f => f idx' | None => None end
  | [] => None
  end.

Lemma blocks_C : forall (A : Type) sh (ds : list (list A)) vs, Forall2 (rep OC sh) vs ds ->
  rep OC (length vs :: sh) (at_list vs) (concat ds).
Proof.
  intros A sh ds vs F. destruct (blocks_ok _ _ _ _ _ F) as [L N]. split; [exact L|].
  intros [|i idx] I; [inversion I|]. apply in_bounds_cons in I. destruct I as [Li I].
  destruct (nth_error vs i) as [v|] eqn:E; [|apply nth_error_None in E; lia].
  cbn [at_list]. rewrite E, <- (N i idx v E I). cbn [layout rev].
  rewrite off_app by (rewrite !rev_length; symmetry; apply in_bounds_length, I).
  rewrite prod_rev. cbn [off]. f_equal. lia.
Qed.

(** Ones in front. *)
Lemma pad_bounds : forall k sh idx, in_bounds idx (repeat 1 k ++ sh) ->
  exists idx', idx = repeat 0 k ++ idx' /\ skipn k idx = idx' /\ in_bounds idx' sh.
Proof.
  induction k as [|k IH]; intros sh idx I; [exists idx; auto|].
  destruct idx as [|i idx]; [inversion I|]. apply in_bounds_cons in I. destruct I as [Li I].
  destruct (IH sh idx I) as (idx' & -> & E & I'). exists idx'. replace i with 0 by lia. auto.
Qed.

Lemma prod_pad : forall k sh, prod (repeat 1 k ++ sh) = prod sh.
Proof. induction k as [|k IH]; intros sh; [reflexivity|]. cbn [repeat app]. rewrite prod_cons, IH. lia. Qed.

Lemma off_pad : forall k sh idx, off (repeat 1 k ++ sh) (repeat 0 k ++ idx) = off sh idx.
Proof. induction k as [|k IH]; intros sh idx; [reflexivity|]. cbn [repeat app off]. rewrite IH. lia. Qed.

Lemma roff_pad : forall k sh idx, length sh = length idx ->
  off (rev (repeat 1 k ++ sh)) (rev (repeat 0 k ++ idx)) = off (rev sh) (rev idx).
Proof.
  intros k sh idx L. rewrite !rev_app_distr, off_app by (rewrite !rev_length; exact L).
  replace (off (rev (repeat 1 k)) (rev (repeat 0 k))) with 0; [lia|].
  clear. induction k as [|k IH]; [reflexivity|]. cbn [repeat rev].
  rewrite off_app by (rewrite !rev_length, !repeat_length; reflexivity). rewrite <- IH. cbn. lia.
Qed.

Lemma rep_pad : forall (A : Type) o k sh (v : list nat -> option A) d, rep o sh v d ->
  rep o (repeat 1 k ++ sh) (fun idx => v (skipn k idx)) d.
Proof.
  intros A o k sh v d [L H]. split; [rewrite prod_pad; exact L|]. intros idx I.
  destruct (pad_bounds _ _ _ I) as (idx' & -> & E & I'). rewrite E, <- (H idx' I').
  destruct o; cbn [layout]; [rewrite roff_pad|rewrite off_pad]; [reflexivity| |reflexivity].
  symmetry. apply in_bounds_length, I'.
Qed.

(** ** Shapes and orders *)

Lemma reg_shape : forall (A : Type) (a : arg A) sh, regular a sh -> shape a = sh.
Proof.
  intros A a. induction a as [b e|o s elt|l IH] using arg_ind'; intros sh H; inversion H; subst; cbn; try reflexivity.
  destruct l as [|x l]; [congruence|]. f_equal. apply Forall_cons_iff in IH. destruct IH as [IH _].
  apply IH. match goal with G : forall x, _ -> regular x _ |- _ => apply G end. left. reflexivity.
Qed.

Lemma order_list : forall (A : Type) (l : list (arg A)) sh, l <> [] -> (forall x, In x l -> regular x sh) ->
  order_of (Lst l) = if (length sh =? 1) || forallb (fun y => is_C (order_of y)) l then Some OC else None.
Proof.
  intros A l sh N H. destruct l as [|x l]; [congruence|]. cbn [order_of].
  unfold rank. rewrite (reg_shape _ _ _ (H x (or_introl eq_refl))). reflexivity.
Qed.

Lemma order_none : forall (A : Type) (a : arg A) sh, regular a sh -> length sh <= 1 -> order_of a = None.
Proof.
  intros A a sh H L. inversion H; subst; [reflexivity| |].
  - cbn [order_of]. replace (length sh <? 2) with true; [reflexivity|]. symmetry. apply Nat.ltb_lt. lia.
  - rewrite (order_list A l sh0) by assumption. cbn in L. destruct sh0; [|cbn in L; lia]. cbn [length Nat.eqb orb].
    destruct l as [|x l]; [congruence|]. cbn [forallb].
    assert (regular x []) as R by (match goal with G : forall x, _ -> regular x _ |- _ => apply G end; left; reflexivity).
    inversion R; subst; reflexivity.
Qed.

(** ** A list without np.array *)

Lemma element_list : forall (A : Type) old (l : list (arg A)) idx,
  element old (Lst l) idx = at_list (map (element old) l) idx.
Proof. intros A old l [|i idx]; reflexivity. Qed.

Lemma fnode_list : forall (A : Type) old (l : list (arg A)), fnode old (Lst l) =
  bind (traverse (fnode old) l) (fun fs =>
    if 1 <? rank (Lst l) then reshape (constr fs) (rev (shape (Lst l))) None else Some (constr fs)).
Proof. reflexivity. Qed.

Lemma fnode_ok : forall (A : Type) old (a : arg A) sh, regular a sh ->
  order_of a = Some OC \/ length sh <= 1 ->
  exists f, fnode old a = Some f /\ fshape f = rev sh /\ rep OC sh (element old a) (fdata f).
Proof.
  intros A old a. induction a as [b e|o s elt|l IH] using arg_ind'; intros sh H O.
  - inversion H; subst. eexists. split; [reflexivity|]. split; [reflexivity|]. split; [reflexivity|].
    intros idx I. inversion I; subst. reflexivity.
  - inversion H; subst. eexists. split; [reflexivity|].
    assert (o = OC \/ length sh <= 1) as D.
    { destruct O as [O|O]; [|auto]. cbn [order_of] in O. destruct (length sh <? 2); [discriminate|]. injection O as ->. auto. }
    destruct D as [->|D].
    + split; [reflexivity|]. apply fvar_rep.
    + split; [cbn; rewrite layout_short by exact D; change (rev sh) with (layout OC sh); rewrite layout_short by exact D; reflexivity|].
      apply (rep_short _ o); [exact D|]. apply fvar_rep.
  - inversion H as [| |l' sh0 NE RG]; subst.
    assert (forall x, In x l -> order_of x = Some OC \/ length sh0 <= 1) as OX.
    { intros x I. destruct O as [O|O]; [|cbn in O; right; lia].
      rewrite (order_list A l sh0 NE RG) in O. destruct (length sh0 =? 1) eqn:Q.
      - apply Nat.eqb_eq in Q. right. lia.
      - cbn [orb] in O. destruct (forallb _ l) eqn:FB; [|discriminate]. rewrite forallb_forall in FB.
        specialize (FB x I). left. destruct (order_of x) as [[]|]; try discriminate. reflexivity. }
    assert (exists fs, traverse (fnode old) l = Some fs /\
              Forall2 (fun v f => rep OC sh0 v (fdata f)) (map (element old) l) fs) as (fs & E & F).
    { clear NE H O. induction l as [|x l IHl]; [exists []; split; [reflexivity|constructor]|].
      apply Forall_cons_iff in IH. destruct IH as [IHx IH].
      destruct (IHx sh0 (RG x (or_introl eq_refl)) (OX x (or_introl eq_refl))) as (f & Ef & _ & Rf).
      destruct IHl as (fs & Efs & Ffs); [exact IH|intros y I; apply RG; right; exact I|intros y I; apply OX; right; exact I|].
      exists (f :: fs). rewrite traverse_cons, Ef. cbn [bind]. rewrite Efs. split; [reflexivity|].
      constructor; assumption. }
    rewrite fnode_list, E. cbn [bind]. rewrite (reg_shape _ _ _ H).
    assert (rep OC (length l :: sh0) (element old (Lst l)) (fdata (constr fs))) as R.
    { eapply rep_ext; [intros idx _; symmetry; apply element_list|].
      rewrite <- (map_length (element old) l). apply blocks_C. cbn [constr fdata].
      clear - F. induction F; constructor; assumption. }
    unfold rank. rewrite (reg_shape _ _ _ H). destruct (1 <? length (length l :: sh0)) eqn:Q.
    + rewrite reshape_none by (rewrite prod_rev; apply R). eexists. split; [reflexivity|]. split; [reflexivity|exact R].
    + eexists. split; [reflexivity|]. split; [|exact R].
      destruct sh0; [|discriminate]. cbn [rev app constr fshape]. destruct R as [R _]. cbn [constr fdata] in R.
      rewrite R. cbn. f_equal. lia.
Qed.

(** ** np.array *)

Definition elem_of {A} (old : content A) (o : order) (x : arg A) : option (farr A) :=
  match order_of x with
  | None => if 1 <? rank x
            then bind (fnp old OC (shape x) x) (reorder o (Some OC) (shape x))
            else fnode old x
  | Some ox => bind (fnode old x) (reorder o (Some ox) (shape x))
  end.

Lemma fnp_eq : forall (A : Type) old o sh (a : arg A), fnp old o sh a =
  if length sh <=? 2 then
    bind (fnode old a) (fun f =>
      bind (match order_of a with
            | Some oa => if order_eqb oa o then Some f else transpose f
            | None => Some f
            end) (fun f =>
        if rank a <? length sh
        then reshape f (match o with OF => sh | OC => rev sh end) None
        else Some f))
  else
    match a with
    | Scal _ _ => None
    | Arr oa _ _ =>
        bind (fnode old a) (fun f =>
          bind (reorder o (order_of a) (shape a) f) (fun f =>
            assemble o sh (rank a <? length sh) [f]))
    | Lst l => bind (traverse (elem_of old o) l) (assemble o sh (rank a <? length sh))
    end.
Proof. intros A old o sh [b e|oa s elt|l]; reflexivity. Qed.

Definition rhs_of {A} (l : list (farr A)) : farr A := match l with [x] => x | _ => constr l end.

Lemma rhs_data : forall (A : Type) (l : list (farr A)), fdata (rhs_of l) = concat (map fdata l).
Proof. intros A [|x [|y l]]; cbn; try reflexivity. symmetry. apply app_nil_r. Qed.

Lemma assemble_eq : forall (A : Type) o sh smaller (l : list (farr A)), assemble o sh smaller l =
  if negb (length l =? 1) || smaller then
    match o with
    | OC => reshape (rhs_of l) (rev sh) None
    | OF => reshape (rhs_of l) sh (Some (rotated (length sh)))
    end
  else Some (rhs_of l).
Proof. reflexivity. Qed.

(** reshape(f, [s, ...], order=[2, ..., r, 1]) *)
Lemma rotate_ok : forall (A : Type) (f : farr A) s sh (v : list nat -> option A),
  length (fdata f) = s * prod sh ->
  (forall i idx, i < s -> in_bounds idx sh -> nth_error (fdata f) (off sh idx + prod sh * i) = v (i :: idx)) ->
  exists f', reshape f (s :: sh) (Some (rotated (length (s :: sh)))) = Some f' /\
    fshape f' = s :: sh /\ rep OF (s :: sh) v (fdata f').
Proof.
  intros A f s sh v L H. unfold reshape. rewrite rotated_length, Nat.eqb_refl.
  rewrite (permute_rotated s sh) by reflexivity.
  destruct (gather A (fdata f) (fun idx => off (sh ++ [s]) (permute (rotated (length (s :: sh))) idx)) (s :: sh))
    as (d & E & Ld & N).
  { intros [|i idx] I; [inversion I|]. pose proof (in_bounds_length _ _ I) as LI.
    rewrite permute_rotated by exact LI. apply in_bounds_cons in I. destruct I as [Li I].
    rewrite off_app by (symmetry; apply in_bounds_length, I). cbn [off]. pose proof (off_lt _ _ I). nia. }
  rewrite E. cbn [bind]. eexists. split; [reflexivity|]. cbn [fshape fdata]. split; [reflexivity|].
  split; [exact Ld|]. cbn [layout]. intros [|i idx] I; [inversion I|]. rewrite N by exact I.
  rewrite permute_rotated by (exact (in_bounds_length _ _ I)). apply in_bounds_cons in I. destruct I as [Li I].
  rewrite off_app by (symmetry; apply in_bounds_length, I). cbn [off]. rewrite Nat.mul_0_r, Nat.add_0_r.
  apply H; assumption.
Qed.

Lemma forall2_map : forall (A B C : Type) (P : A -> C -> Prop) (g : B -> C) l m,
  Forall2 (fun x y => P x (g y)) l m -> Forall2 P l (map g m).
Proof. intros A B C P g l m F. induction F; constructor; assumption. Qed.

Lemma forall2_len : forall (A B : Type) (P : A -> B -> Prop) l m, Forall2 P l m -> length l = length m.
Proof. intros A B P l m F. induction F; cbn; lia. Qed.

Lemma assemble_ok : forall (A : Type) o sh (fs : list (farr A)) vs,
  Forall2 (fun v f => rep o sh v (fdata f)) vs fs ->
  exists f, assemble o (length vs :: sh) false fs = Some f /\ rep o (length vs :: sh) (at_list vs) (fdata f) /\
    (length vs <> 1 -> fshape f = layout o (length vs :: sh)).
Proof.
  intros A o sh fs vs F. pose proof (forall2_len _ _ _ _ _ F) as LL.
  apply forall2_map in F. rewrite assemble_eq, orb_false_r, <- LL.
  destruct (blocks_ok _ _ _ _ _ F) as [L N]. rewrite <- rhs_data in L, N.
  destruct (Nat.eqb_spec (length vs) 1) as [E|E]; cbn [negb].
  - eexists. split; [reflexivity|]. split; [|congruence]. destruct o.
    + rewrite rhs_data. apply blocks_C. exact F.
    + split; [exact L|]. intros [|i idx] I; [inversion I|]. apply in_bounds_cons in I. destruct I as [Li I].
      destruct (nth_error vs i) as [v|] eqn:Ev; [|apply nth_error_None in Ev; lia].
      cbn [at_list layout off]. rewrite Ev, <- (N i idx v Ev I). replace i with 0 by lia. rewrite E. f_equal.
      cbn [layout]. lia.
  - destruct o.
    + pose proof (blocks_C _ _ _ _ F) as R. rewrite <- rhs_data in R.
      rewrite reshape_none by (rewrite prod_rev; apply R). eexists. split; [reflexivity|]. auto.
    + destruct (rotate_ok A (rhs_of fs) (length vs) sh (at_list vs) L) as (f & Ef & Sf & Rf).
      { intros i idx Li I. destruct (nth_error vs i) as [v|] eqn:Ev; [|apply nth_error_None in Ev; lia].
        cbn [at_list]. rewrite Ev. exact (N i idx v Ev I). }
      exists f. auto.
Qed.

Lemma assemble_wide_C : forall (A : Type) sh k (fs : list (farr A)) v,
  rep OC sh v (concat (map fdata fs)) ->
  exists f, assemble OC (repeat 1 k ++ sh) true fs = Some f /\ fshape f = rev (repeat 1 k ++ sh) /\
    rep OC (repeat 1 k ++ sh) (fun idx => v (skipn k idx)) (fdata f).
Proof.
  intros A sh k fs v R. apply (rep_pad _ _ k) in R. rewrite <- rhs_data in R. rewrite assemble_eq, orb_true_r.
  rewrite reshape_none by (rewrite prod_rev; apply R). eexists. split; [reflexivity|]. split; [reflexivity|exact R].
Qed.

Lemma assemble_wide_F : forall (A : Type) sh k (fs : list (farr A)) v,
  rep OF sh v (concat (map fdata fs)) ->
  exists f, assemble OF (repeat 1 (S k) ++ sh) true fs = Some f /\ fshape f = repeat 1 (S k) ++ sh /\
    rep OF (repeat 1 (S k) ++ sh) (fun idx => v (skipn (S k) idx)) (fdata f).
Proof.
  intros A sh k fs v R. rewrite <- rhs_data in R. rewrite assemble_eq, orb_true_r. cbn [repeat app].
  pose proof (rep_pad _ _ k _ _ _ R) as [L N].
  apply rotate_ok; [rewrite L; lia|].
  intros i idx Li I. replace i with 0 by lia. cbn [skipn]. rewrite Nat.mul_0_r, Nat.add_0_r. exact (N idx I).
Qed.

(** No new dimensions. *)
Lemma fnp_ok : forall (A : Type) old (a : arg A) o sh, regular a sh -> sh <> [] ->
  exists f, fnp old o sh a = Some f /\ rep o sh (element old a) (fdata f) /\
    (length sh <= 2 \/ variable a \/ hd 0 sh <> 1 -> fshape f = layout o sh).
Proof.
  intros A old a. induction a as [b e|oa s elt|l IH] using arg_ind'; intros o sh H NE.
  - inversion H; subst. congruence.
  - inversion H; subst. rewrite fnp_eq. unfold rank. rewrite (reg_shape _ _ _ H), Nat.ltb_irrefl.
    pose proof (fvar_rep _ oa sh elt) as R. cbn [fnode bind].
    destruct (Nat.leb_spec (length sh) 2) as [Q|Q].
    + destruct (Nat.ltb_spec (length sh) 2) as [Q2|Q2].
      * rewrite (order_none _ _ _ H) by lia. cbn [bind]. eexists. split; [reflexivity|]. split.
        -- apply (rep_short _ oa); [lia|exact R].
        -- intros _. cbn. rewrite !layout_short by lia. reflexivity.
      * cbn [order_of]. replace (length sh <? 2) with false by (symmetry; apply Nat.ltb_ge; lia).
        destruct sh as [|n [|m [|? ?]]]; cbn in Q, Q2; try lia.
        destruct (order_eqb oa o) eqn:Eo.
        -- assert (oa = o) as -> by (destruct oa, o; try discriminate; reflexivity). cbn [bind].
           eexists. split; [reflexivity|]. split; [exact R|]. reflexivity.
        -- destruct (transpose_ok A o oa n m _ (fvar oa [n; m] elt) eq_refl R) as (f & Ef & Rf & Sf).
           { intros ->. destruct o; discriminate. }
           rewrite Ef. cbn [bind]. exists f. split; [reflexivity|]. split; [exact Rf|]. intros _. exact Sf.
    + cbn [order_of shape]. replace (length sh <? 2) with false by (symmetry; apply Nat.ltb_ge; lia).
      destruct (reorder_ok A o oa sh _ (fvar oa sh elt) R) as (f & Ef & Rf & Sf).
      rewrite Ef. cbn [bind]. exists f. split; [reflexivity|]. split; [exact Rf|]. intros _. apply Sf. reflexivity.
  - inversion H as [| |l' sh0 NL RG]; subst. rewrite fnp_eq. unfold rank. rewrite (reg_shape _ _ _ H), Nat.ltb_irrefl.
    destruct (Nat.leb_spec (length (length l :: sh0)) 2) as [Q|Q].
    + assert (length sh0 <= 1) as L0 by (cbn in Q; lia).
      destruct (fnode_ok A old (Lst l) _ H) as (f & Ef & Sf & Rf).
      { destruct sh0 as [|m sh0]; [right; cbn; lia|left]. rewrite (order_list A l _ NL RG).
        destruct sh0; [reflexivity|cbn in L0; lia]. }
      rewrite Ef. cbn [bind]. destruct sh0 as [|m [|? ?]]; [| |cbn in L0; lia].
      * rewrite (order_none _ _ _ H) by (cbn; lia). cbn [bind]. exists f. split; [reflexivity|]. split.
        -- apply (rep_short _ OC); [cbn; lia|exact Rf].
        -- intros _. rewrite Sf. change (rev [length l]) with (layout OC [length l]).
           rewrite !layout_short by (cbn; lia). reflexivity.
      * rewrite (order_list A l _ NL RG). cbn [length Nat.eqb orb]. destruct o; cbn [order_eqb].
        -- cbn [bind]. exists f. split; [reflexivity|]. split; [exact Rf|]. intros _. exact Sf.
        -- destruct (transpose_ok A OF OC (length l) m _ f Sf Rf) as (f' & Ef' & Rf' & Sf'); [discriminate|].
           rewrite Ef'. cbn [bind]. exists f'. auto.
    + assert (2 <= length sh0) as L0 by (cbn in Q; lia).
      assert (exists fs, traverse (elem_of old o) l = Some fs /\
                Forall2 (fun v f => rep o sh0 v (fdata f)) (map (element old) l) fs) as (fs & E & F).
      { clear NL H NE Q. induction l as [|x l IHl]; [exists []; split; [reflexivity|constructor]|].
        apply Forall_cons_iff in IH. destruct IH as [IHx IH].
        pose proof (RG x (or_introl eq_refl)) as Rx.
        assert (exists f, elem_of old o x = Some f /\ rep o sh0 (element old x) (fdata f)) as (f & Ef & Rf).
        { unfold elem_of. rewrite (reg_shape _ _ _ Rx). destruct (order_of x) as [ox|] eqn:Ox.
          - assert (exists f, fnode old x = Some f /\ rep ox sh0 (element old x) (fdata f)) as (f & Ef & Rf).
            { destruct ox.
              - destruct (fnode_ok A old x sh0 Rx (or_introl Ox)) as (f & Ef & _ & Rf). eauto.
              - destruct x as [b e|o' s elt|q].
                + discriminate.
                + inversion Rx; subst. cbn [order_of] in Ox. destruct (length sh0 <? 2); [discriminate|].
                  injection Ox as ->. eexists. split; [reflexivity|]. apply fvar_rep.
                + inversion Rx; subst. rewrite (order_list A q sh) in Ox by assumption.
                  destruct ((length sh =? 1) || _); discriminate. }
            rewrite Ef. cbn [bind]. destruct (reorder_ok A o ox sh0 _ f Rf) as (f' & Ef' & Rf' & _). eauto.
          - unfold rank. rewrite (reg_shape _ _ _ Rx). replace (1 <? length sh0) with true by (symmetry; apply Nat.ltb_lt; lia).
            destruct (IHx OC sh0 Rx) as (f & Ef & Rf & _); [intros ->; cbn in L0; lia|].
            rewrite Ef. cbn [bind]. destruct (reorder_ok A o OC sh0 _ f Rf) as (f' & Ef' & Rf' & _). eauto. }
        destruct IHl as (fs & Efs & Ffs); [exact IH|intros y I; apply RG; right; exact I|].
        exists (f :: fs). rewrite traverse_cons, Ef. cbn [bind]. rewrite Efs. split; [reflexivity|].
        constructor; assumption. }
      rewrite E. cbn [bind].
      destruct (assemble_ok A o sh0 fs _ F) as (f & Ef & Rf & Sf). rewrite map_length in Ef, Rf, Sf.
      exists f. split; [exact Ef|]. split.
      * eapply rep_ext; [|exact Rf]. intros idx _. symmetry. apply element_list.
      * intros [G|[(? & ? & ? & G)|G]]; [lia|discriminate|]. apply Sf. exact G.
Qed.

Lemma elem_ok : forall (A : Type) old o (x : arg A) sh, regular x sh ->
  exists f, elem_of old o x = Some f /\ rep o sh (element old x) (fdata f).
Proof.
  intros A old o x sh R. unfold elem_of, rank. rewrite (reg_shape _ _ _ R).
  destruct (Nat.ltb_spec 1 (length sh)) as [Q|Q].
  - destruct (order_of x) as [ox|] eqn:Ox.
    + assert (exists f, fnode old x = Some f /\ rep ox sh (element old x) (fdata f)) as (f & Ef & Rf).
      { destruct ox.
        - destruct (fnode_ok A old x sh R (or_introl Ox)) as (f & Ef & _ & Rf). eauto.
        - destruct x as [b e|o' s elt|q].
          + discriminate.
          + inversion R; subst. cbn [order_of] in Ox. destruct (length sh <? 2); [discriminate|].
            injection Ox as ->. eexists. split; [reflexivity|]. apply fvar_rep.
          + inversion R; subst. rewrite (order_list A q sh0) in Ox by assumption.
            destruct ((length sh0 =? 1) || _); discriminate. }
      rewrite Ef. cbn [bind]. destruct (reorder_ok A o ox sh _ f Rf) as (f' & Ef' & Rf' & _). eauto.
    + destruct (fnp_ok A old x OC sh R) as (f & Ef & Rf & _); [intros ->; cbn in Q; lia|].
      rewrite Ef. cbn [bind]. destruct (reorder_ok A o OC sh _ f Rf) as (f' & Ef' & Rf' & _). eauto.
  - rewrite (order_none _ _ _ R) by exact Q.
    destruct (fnode_ok A old x sh R (or_intror Q)) as (f & Ef & _ & Rf). exists f. split; [exact Ef|].
    apply (rep_short _ OC); assumption.
Qed.

Lemma elems_ok : forall (A : Type) old o (l : list (arg A)) sh, (forall x, In x l -> regular x sh) ->
  exists fs, traverse (elem_of old o) l = Some fs /\
    Forall2 (fun v f => rep o sh v (fdata f)) (map (element old) l) fs.
Proof.
  intros A old o l sh RG. induction l as [|x l IHl]; [exists []; split; [reflexivity|constructor]|].
  destruct (elem_ok A old o x sh (RG x (or_introl eq_refl))) as (f & Ef & Rf).
  destruct IHl as (fs & Efs & Ffs); [intros y I; apply RG; right; exact I|].
  exists (f :: fs). rewrite traverse_cons, Ef. cbn [bind]. rewrite Efs. split; [reflexivity|].
  constructor; assumption.
Qed.

Lemma fnp_wide : forall (A : Type) old (a : arg A) o k sh, regular a sh -> sh <> [] ->
  variable a \/ o = OC \/ length sh = 1 ->
  exists f, fnp old o (repeat 1 (S k) ++ sh) a = Some f /\
    rep o (repeat 1 (S k) ++ sh) (fun idx => element old a (skipn (S k) idx)) (fdata f) /\
    fshape f = layout o (repeat 1 (S k) ++ sh).
Proof.
  intros A old a o k sh H NE C. rewrite fnp_eq. unfold rank. rewrite (reg_shape _ _ _ H).
  rewrite app_length, repeat_length.
  replace (length sh <? S k + length sh) with true by (symmetry; apply Nat.ltb_lt; lia).
  destruct (Nat.leb_spec (S k + length sh) 2) as [Q|Q].
  - assert (length sh <= 1) as L1 by lia.
    destruct (fnode_ok A old a sh H (or_intror L1)) as (f & Ef & _ & Rf).
    rewrite Ef. cbn [bind]. rewrite (order_none _ _ _ H L1). cbn [bind].
    apply (rep_short _ OC o) in Rf; [|exact L1]. apply (rep_pad _ _ (S k)) in Rf.
    assert (match o with OC => rev (repeat 1 (S k) ++ sh) | OF => repeat 1 (S k) ++ sh end
            = layout o (repeat 1 (S k) ++ sh)) as -> by (destruct o; reflexivity).
    rewrite reshape_none by (rewrite prod_layout; apply Rf).
    eexists. split; [reflexivity|]. split; [exact Rf|reflexivity].
  - destruct a as [b e|oa s elt|l].
    + inversion H; subst. congruence.
    + inversion H; subst. cbn [fnode bind]. pose proof (fvar_rep _ oa sh elt) as R.
      assert (exists f, reorder o (order_of (Arr oa sh elt)) sh (fvar oa sh elt) = Some f /\
                rep o sh (fun idx => Some (elt idx)) (fdata f)) as (f & Ef & Rf).
      { cbn [order_of]. destruct (Nat.ltb_spec (length sh) 2) as [Q2|Q2].
        - eexists. split; [reflexivity|]. apply (rep_short _ oa); [lia|exact R].
        - destruct (reorder_ok A o oa sh _ _ R) as (f & Ef & Rf & _). eauto. }
      cbn [shape]. rewrite Ef. cbn [bind].
      replace (fdata f) with (concat (map fdata [f])) in Rf by (cbn; apply app_nil_r).
      destruct o.
      * destruct (assemble_wide_C A sh (S k) [f] _ Rf) as (f' & E' & S' & R'). exists f'. auto.
      * destruct (assemble_wide_F A sh k [f] _ Rf) as (f' & E' & S' & R'). exists f'. auto.
    + inversion H as [| |l' sh0 NL RG]; subst.
      destruct (elems_ok A old o l sh0 RG) as (fs & E & F). rewrite E. cbn [bind].
      apply forall2_map in F.
      destruct C as [(? & ? & ? & C)|[->|C]]; [discriminate| |].
      * apply blocks_C in F. rewrite map_length in F.
        apply (rep_ext _ _ _ _ (element old (Lst l))) in F; [|intros idx _; symmetry; apply element_list].
        destruct (assemble_wide_C A _ (S k) fs _ F) as (f' & E' & S' & R'). exists f'. auto.
      * assert (sh0 = []) as -> by (destruct sh0; [reflexivity|cbn in C; lia]).
        assert (Forall2 (rep OC []) (map (element old) l) (map fdata fs)) as F'.
        { clear - F. induction F; constructor; [|assumption]. apply (rep_short _ o); [cbn; lia|assumption]. }
        apply blocks_C in F'. rewrite map_length in F'.
        apply (rep_ext _ _ _ _ (element old (Lst l))) in F'; [|intros idx _; symmetry; apply element_list].
        apply (rep_short _ OC o) in F'; [|cbn; lia]. destruct o.
        -- destruct (assemble_wide_C A _ (S k) fs _ F') as (f' & E' & S' & R'). exists f'. auto.
        -- destruct (assemble_wide_F A _ k fs _ F') as (f' & E' & S' & R'). exists f'. auto.
Qed.

Lemma list_eqb_refl : forall l, list_eqb l l = true.
Proof. induction l as [|x l IH]; [reflexivity|]. cbn. rewrite Nat.eqb_refl. exact IH. Qed.

Lemma list_eqb_eq : forall a b, list_eqb a b = true -> a = b.
Proof.
  induction a as [|x a IH]; intros [|y b] H; try discriminate; [reflexivity|]. cbn in H.
  apply andb_true_iff in H. destruct H as [H1 H2]. apply Nat.eqb_eq in H1. f_equal; auto.
Qed.

Lemma fortran_lemma : forall (A : Type) (old : content A) req ndmin a sh, regular a sh -> sh <> [] ->
  variable a \/
  (ndmin <= length sh /\ (length sh <= 2 \/ hd 0 sh <> 1)) \/
  (length sh < ndmin /\ (np_order req a = OC \/ length sh = 1)) ->
  exists get, in_fortran old req ndmin a = Some get /\
    forall idx, in_bounds idx (wanted_shape ndmin sh) -> get idx = wanted old ndmin a sh idx.
Proof.
  intros A old req ndmin a sh H NE C. unfold in_fortran, np_shape, wanted_shape, wanted. cbv zeta.
  unfold rank. rewrite (reg_shape _ _ _ H). set (o := np_order req a) in *.
  assert (exists f, fnp old o (repeat 1 (ndmin - length sh) ++ sh) a = Some f /\
            rep o (repeat 1 (ndmin - length sh) ++ sh) (fun idx => element old a (skipn (ndmin - length sh) idx)) (fdata f) /\
            fshape f = layout o (repeat 1 (ndmin - length sh) ++ sh)) as (f & Ef & Rf & Sf).
  { destruct (ndmin - length sh) as [|k] eqn:K.
    - cbn [repeat app skipn]. destruct (fnp_ok A old a o sh H NE) as (f & Ef & Rf & Sf).
      exists f. split; [exact Ef|]. split; [exact Rf|]. apply Sf. destruct C as [C|[[_ [C|C]]|[C _]]]; auto. lia.
    - apply fnp_wide; auto. destruct C as [C|[[C _]|[_ [C|C]]]]; auto. lia. }
  rewrite Ef. cbn [bind]. rewrite Sf, list_eqb_refl. eexists. split; [reflexivity|].
  intros idx I. cbn beta. rewrite <- (proj2 Rf idx I). reflexivity.
Qed.

(** The number of dimensions. *)
Lemma reshape_shape : forall (A : Type) (f f' : farr A) sh p, reshape f sh p = Some f' -> fshape f' = sh.
Proof.
  intros A f f' sh [p|] E; unfold reshape in E.
  - destruct (length p =? length sh); [|discriminate].
    destruct (traverse _ (indices sh)) as [d|]; [|discriminate]. injection E as <-. reflexivity.
  - destruct (traverse _ (indices sh)) as [d|]; [|discriminate]. injection E as <-. reflexivity.
Qed.

Lemma layout_length : forall o l, length (layout o l) = length l.
Proof. intros [] l; cbn; [apply rev_length|reflexivity]. Qed.

Lemma fnode_rank : forall (A : Type) old (a : arg A) sh f, regular a sh -> fnode old a = Some f ->
  length (fshape f) = length sh.
Proof.
  intros A old a sh f H E. destruct a as [b e|o s elt|l].
  - inversion H; subst. injection E as <-. reflexivity.
  - inversion H; subst. injection E as <-. apply layout_length.
  - rewrite fnode_list in E. destruct (traverse (fnode old) l) as [fs|]; [|discriminate]. cbn [bind] in E.
    unfold rank in E. rewrite (reg_shape _ _ _ H) in E. destruct (Nat.ltb_spec 1 (length sh)) as [Q|Q].
    + apply reshape_shape in E. rewrite E. apply rev_length.
    + injection E as <-. cbn. inversion H; subst. cbn in *. lia.
Qed.

Lemma reorder_rank : forall (A : Type) o ox sh (f f' : farr A), reorder o ox sh f = Some f' ->
  length (fshape f) <= length sh -> length (fshape f') <= length sh.
Proof.
  intros A o [ox|] sh f f' E L; unfold reorder in E; [|injection E as <-; exact L].
  destruct (order_eqb ox (inverse o)); [|injection E as <-; exact L].
  apply reshape_shape in E. rewrite E. destruct ox; [|rewrite rev_length]; lia.
Qed.

Lemma assemble_rank : forall (A : Type) o sh b (fs : list (farr A)) f, assemble o sh b fs = Some f ->
  (forall g, In g fs -> length (fshape g) <= length sh) -> length (fshape f) <= length sh.
Proof.
  intros A o sh b fs f E H. rewrite assemble_eq in E. destruct (negb (length fs =? 1) || b) eqn:Q.
  - destruct o; apply reshape_shape in E; rewrite E; [rewrite rev_length|]; lia.
  - injection E as <-. destruct fs as [|x [|y fs]]; try discriminate. apply H. left. reflexivity.
Qed.

Lemma fnp_rank : forall (A : Type) old (a : arg A) o sh wide f, regular a sh -> length sh <= length wide ->
  fnp old o wide a = Some f -> length (fshape f) <= length wide.
Proof.
  intros A old a. induction a as [b e|oa s elt|l IH] using arg_ind'; intros o sh wide f H L E; rewrite fnp_eq in E.
  all: destruct (length wide <=? 2) eqn:Q.
  1,3,5: destruct (fnode old _) as [g|] eqn:Eg; [|discriminate]; cbn [bind] in E;
    pose proof (fnode_rank _ _ _ _ _ H Eg) as Lg;
    destruct (match order_of _ with Some oa => _ | None => _ end) as [h|] eqn:Eh; [|discriminate]; cbn [bind] in E;
    assert (length (fshape h) = length sh) as Lh by
      (destruct (order_of _) as [o'|]; [destruct (order_eqb o' o)|]; try (injection Eh as <-; exact Lg);
       unfold transpose in Eh; destruct (fshape g) as [|n [|m [|? ?]]]; try discriminate;
       destruct (traverse _ (indices [m; n])) as [d|]; [|discriminate]; injection Eh as <-; exact Lg);
    destruct (rank _ <? length wide); [apply reshape_shape in E; rewrite E; destruct o; [rewrite rev_length|]; lia|
      injection E as <-; lia].
  - discriminate.
  - destruct (fnode old _) as [g|] eqn:Eg; [|discriminate]. cbn [bind] in E.
    pose proof (fnode_rank _ _ _ _ _ H Eg) as Lg. rewrite (reg_shape _ _ _ H) in E.
    destruct (reorder o _ sh g) as [h|] eqn:Eh; [|discriminate]. cbn [bind] in E.
    apply reorder_rank in Eh; [|lia]. apply assemble_rank in E; [exact E|]. intros x [<-|[]]. lia.
  - destruct (traverse (elem_of old o) l) as [fs|] eqn:Efs; [|discriminate]. cbn [bind] in E.
    apply assemble_rank in E; [exact E|]. inversion H as [| |l' sh0 NL RG]; subst. cbn [length] in L.
    clear E H NL. revert fs Efs. induction l as [|x l IHl]; intros fs Efs g I.
    + injection Efs as <-. destruct I.
    + rewrite traverse_cons in Efs. apply Forall_cons_iff in IH. destruct IH as [IHx IH].
      destruct (elem_of old o x) as [f0|] eqn:E0; [|discriminate]. cbn [bind] in Efs.
      destruct (traverse (elem_of old o) l) as [fs'|] eqn:E1; [|discriminate]. injection Efs as <-.
      destruct I as [<-|I].
      * pose proof (RG x (or_introl eq_refl)) as Rx. unfold elem_of in E0.
        rewrite (reg_shape _ _ _ Rx) in E0.
        assert (length (fshape f0) <= length sh0); [|cbn in *; lia].
        destruct (order_of x) as [ox|].
        -- destruct (fnode old x) as [g0|] eqn:Eg; [|discriminate]. cbn [bind] in E0.
           eapply reorder_rank; [exact E0|]. rewrite (fnode_rank _ _ _ _ _ Rx Eg). lia.
        -- destruct (1 <? rank x).
           ++ destruct (fnp old OC sh0 x) as [g0|] eqn:Eg; [|discriminate]. cbn [bind] in E0.
              eapply reorder_rank; [exact E0|]. eapply IHx; [exact Rx| |exact Eg]. lia.
           ++ rewrite (fnode_rank _ _ _ _ _ Rx E0). lia.
      * apply (IHl IH) with (fs := fs'); auto. intros y Iy. apply RG. right. exact Iy.
Qed.

Lemma elem_rank : forall (A : Type) old o (x : arg A) sh f, regular x sh -> elem_of old o x = Some f ->
  length (fshape f) <= length sh.
Proof.
  intros A old o x sh f Rx E0. unfold elem_of in E0. rewrite (reg_shape _ _ _ Rx) in E0.
  destruct (order_of x) as [ox|].
  - destruct (fnode old x) as [g0|] eqn:Eg; [|discriminate]. cbn [bind] in E0.
    eapply reorder_rank; [exact E0|]. rewrite (fnode_rank _ _ _ _ _ Rx Eg). lia.
  - destruct (1 <? rank x).
    + destruct (fnp old OC sh x) as [g0|] eqn:Eg; [|discriminate]. cbn [bind] in E0.
      eapply reorder_rank; [exact E0|]. eapply fnp_rank; [exact Rx| |exact Eg]. lia.
    + rewrite (fnode_rank _ _ _ _ _ Rx E0). lia.
Qed.

(** A list of one element, with three dimensions or more: the wrong rank. *)
Lemma single_lemma : forall (A : Type) (old : content A) req ndmin x sh, regular (Lst [x]) sh ->
  3 <= length sh -> ndmin <= length sh -> in_fortran old req ndmin (Lst [x]) = None.
Proof.
  intros A old req ndmin x sh H L ND. unfold in_fortran, np_shape. cbv zeta. unfold rank.
  rewrite (reg_shape _ _ _ H). replace (ndmin - length sh) with 0 by lia. cbn [repeat app].
  inversion H as [| |l sh0 NL RG]; subst. set (o := np_order req (Lst [x])).
  pose proof (RG x (or_introl eq_refl)) as Rx.
  rewrite fnp_eq. replace (length (length [x] :: sh0) <=? 2) with false by (symmetry; apply Nat.leb_gt; cbn in *; lia).
  unfold rank. rewrite (reg_shape _ _ _ H), Nat.ltb_irrefl. rewrite traverse_cons.
  destruct (elem_of old o x) as [f|] eqn:E; [|reflexivity]. cbn [traverse bind].
  rewrite assemble_eq. cbn [length Nat.eqb negb orb rhs_of bind].
  destruct (list_eqb (fshape f) (layout o (1 :: sh0))) eqn:Q; [|reflexivity]. exfalso.
  apply list_eqb_eq in Q. pose proof (elem_rank _ _ _ _ _ _ Rx E) as LE.
  rewrite Q, layout_length in LE. cbn in LE. lia.
Qed.

(** ** C *)

Lemma idx_eqb_eq : forall a b, idx_eqb a b = true <-> a = b.
Proof.
  induction a as [|x a IH]; intros [|y b]; cbn; try (split; [discriminate|discriminate]); [tauto|].
  rewrite andb_true_iff, Nat.eqb_eq, IH. split; [intros [-> ->]; reflexivity|intros [= -> ->]; auto].
Qed.

Lemma store_eq : forall (A : Type) k (v : A) m, store k v m k = v.
Proof. intros A k v m. unfold store. replace (idx_eqb k k) with true; [reflexivity|]. symmetry. apply idx_eqb_eq. reflexivity. Qed.

Lemma store_neq : forall (A : Type) k (v : A) m j, j <> k -> store k v m j = m j.
Proof.
  intros A k v m j D. unfold store. destruct (idx_eqb j k) eqn:E; [|reflexivity]. apply idx_eqb_eq in E. congruence.
Qed.

Lemma store_all_out : forall (A : Type) ks (vs : list A) m j, ~ In j ks -> store_all (combine ks vs) m j = m j.
Proof.
  intros A. induction ks as [|k ks IH]; intros [|v vs] m j N; try reflexivity. cbn [combine store_all].
  rewrite IH by (intros I; apply N; right; exact I). apply store_neq. intros ->. apply N. left. reflexivity.
Qed.

Lemma store_all_in : forall (A : Type) (P : list nat -> A -> Prop) ks vs, Forall2 P ks vs -> NoDup ks ->
  forall m k, In k ks -> P k (store_all (combine ks vs) m k).
Proof.
  intros A P ks vs F. induction F as [|k v ks vs H F IH]; intros N m j I; [destruct I|].
  apply NoDup_cons_iff in N. destruct N as [N1 N]. cbn [combine store_all]. destruct I as [<-|I].
  - rewrite store_all_out by exact N1. rewrite store_eq. exact H.
  - apply IH; assumption.
Qed.

Lemma rows_in : forall sh idx, In idx (rows sh) <-> in_bounds idx sh.
Proof.
  induction sh as [|s sh IH]; intros idx; cbn [rows].
  - split; [intros [<-|[]]; constructor|]. intros I. inversion I. left. reflexivity.
  - rewrite in_flat_map. split.
    + intros (i & Ii & H). apply in_map_iff in H. destruct H as (r & <- & H). apply in_seq in Ii.
      constructor; [lia|]. apply IH, H.
    + intros I. destruct idx as [|i idx]; [inversion I|]. apply in_bounds_cons in I. destruct I as [L I].
      exists i. split; [apply in_seq; lia|]. apply in_map, IH, I.
Qed.

Lemma nodup_map : forall (A B : Type) (f : A -> B) l, (forall x y, f x = f y -> x = y) -> NoDup l -> NoDup (map f l).
Proof.
  intros A B f l J N. induction N as [|x l NI N IH]; constructor; [|exact IH].
  intros I. apply in_map_iff in I. destruct I as (y & E & I). apply J in E. congruence.
Qed.

Lemma nodup_app : forall (A : Type) (a b : list A), NoDup a -> NoDup b -> (forall x, In x a -> ~ In x b) -> NoDup (a ++ b).
Proof.
  intros A a b Na Nb D. induction Na as [|x a NI Na IH]; [exact Nb|]. cbn. constructor.
  - intros I. apply in_app_or in I. destruct I as [I|I]; [contradiction|]. apply (D x); [left; reflexivity|exact I].
  - apply IH. intros y I. apply D. right. exact I.
Qed.

Lemma rows_nodup : forall sh, NoDup (rows sh).
Proof.
  induction sh as [|s sh IH]; [repeat constructor; intros []|]. cbn [rows].
  generalize 0 as k. induction s as [|s IHs]; intros k; [constructor|]. cbn [seq flat_map].
  apply nodup_app.
  - apply nodup_map; [congruence|exact IH].
  - apply IHs.
  - intros x I J. apply in_map_iff in I. destruct I as (r & <- & _).
    apply in_flat_map in J. destruct J as (i & Ii & J). apply in_map_iff in J. destruct J as (r' & E & _).
    injection E as -> _. apply in_seq in Ii. lia.
Qed.

(** What was written, and what was not. *)
Definition settled {A} (pre sh : list nat) (v : list nat -> option A) (m m' : content A) : Prop :=
  (forall idx, in_bounds idx sh -> v idx = Some (m' (pre ++ idx))) /\
  (forall j, (forall idx, in_bounds idx sh -> j <> pre ++ idx) -> m' j = m j).

Lemma store_rows : forall (A : Type) pre sh v (vs : list A) m,
  Forall2 (fun idx x => v idx = Some x) (rows sh) vs ->
  settled pre sh v m (store_all (combine (map (app pre) (rows sh)) vs) m).
Proof.
  intros A pre sh v vs m F. split.
  - intros idx I.
    assert (Forall2 (fun k x => exists i, k = pre ++ i /\ v i = Some x) (map (app pre) (rows sh)) vs) as G.
    { clear - F. induction F; constructor; [|assumption]. eauto. }
    assert (NoDup (map (app pre) (rows sh))) as N.
    { apply nodup_map; [|apply rows_nodup]. intros x y E. apply app_inv_head in E. exact E. }
    destruct (store_all_in A _ _ _ G N m (pre ++ idx)) as (i & E & H).
    { apply in_map. apply rows_in. exact I. }
    apply app_inv_head in E. subst i. exact H.
  - intros j D. apply store_all_out. intros I. apply in_map_iff in I. destruct I as (idx & E & I).
    apply rows_in in I. apply (D idx I). symmetry. exact E.
Qed.

Lemma independent_list : forall (A : Type) (l : list (arg A)), independent (Lst l) -> forall x, In x l -> independent x.
Proof.
  intros A l. cbn. induction l as [|y l IH]; intros H x I; [destruct I|]. destruct H as [H1 H2].
  destruct I as [<-|I]; auto.
Qed.

(** The flattened list. *)
Definition is_scal {A} (x : arg A) (v : A) : Prop := exists b e, x = Scal b e /\ forall m, e m = v.

Lemma forall2_app : forall (A B : Type) (P : A -> B -> Prop) a b c d, Forall2 P a b -> Forall2 P c d -> Forall2 P (a ++ c) (b ++ d).
Proof. intros A B P a b c d F G. induction F; [exact G|]. cbn. constructor; assumption. Qed.

Lemma flatten_ok : forall (A : Type) (old : content A) a sh, regular a sh -> independent a -> has_array a = false ->
  exists vs, Forall2 is_scal (flatten a) vs /\ Forall2 (fun idx v => element old a idx = Some v) (rows sh) vs.
Proof.
  intros A old a. induction a as [b e|o s elt|l IH] using arg_ind'; intros sh H D N.
  - inversion H; subst. exists [e old]. split.
    + repeat constructor. exists b, e. split; [reflexivity|]. intros m. apply D.
    + repeat constructor.
  - discriminate.
  - inversion H as [| |l' sh0 NL RG]; subst. cbn [flatten rows].
    assert (forall l', (forall x, In x l' -> In x l) -> forall k,
      (forall j x, nth_error l' j = Some x -> nth_error l (k + j) = Some x) ->
      exists vs, Forall2 is_scal (flat_map flatten l') vs /\
        Forall2 (fun idx v => element old (Lst l) idx = Some v)
                (flat_map (fun i => map (cons i) (rows sh0)) (seq k (length l'))) vs) as G.
    { clear NL H. induction l' as [|x l' IHl]; intros IN k E; [exists []; split; constructor|].
      assert (In x l) as Ix by (apply IN; left; reflexivity).
      rewrite Forall_forall in IH.
      destruct (IH x Ix sh0 (RG x Ix)) as (vs1 & F1 & G1).
      { exact (independent_list _ _ D x Ix). }
      { cbn in N. destruct (has_array x) eqn:Q; [|reflexivity]. rewrite <- N. symmetry. apply existsb_exists. eauto. }
      destruct (IHl (fun y I => IN y (or_intror I)) (S k)) as (vs2 & F2 & G2).
      { intros j y Ey. rewrite Nat.add_succ_comm. apply E. exact Ey. }
      exists (vs1 ++ vs2). split; [apply forall2_app; assumption|]. cbn [length seq flat_map].
      apply forall2_app; [|exact G2].
      assert (nth_error l k = Some x) as Ek by (rewrite <- (Nat.add_0_r k); apply E; reflexivity).
      clear - G1 Ek. induction G1 as [|idx v r vs H F IH]; constructor; [|exact IH].
      rewrite element_list. cbn [at_list]. rewrite nth_error_map, Ek. exact H. }
    exact (G l (fun x I => I) 0 (fun j x E => E)).
Qed.

Lemma assign_all_ok : forall (A : Type) pre (ks : list (list nat)) xs (vs : list A) m, Forall2 is_scal xs vs ->
  assign_all pre (combine ks xs) m = Some (store_all (combine (map (app pre) ks) vs) m).
Proof.
  intros A pre ks xs vs m F. revert ks m. induction F as [|x v xs vs (b & e & -> & E) F IH]; intros [|k ks] m; try reflexivity.
  cbn [combine assign_all scalar map store_all]. rewrite E. apply IH.
Qed.

Definition each_of {A} (pre : list nat) (n : nat) (lsh' : list nat) : nat -> list (arg A) -> content A -> option (content A) :=
  fix each i l m :=
    match l with
    | [] => Some m
    | x :: r =>
        if i <? n then
          bind (match lsh' with
                | [] => match scalar x with
                        | Some e => Some (store (pre ++ [i]) (e m) m)
                        | None => None
                        end
                | _ => copy (pre ++ [i]) lsh' x m
                end) (each (S i) r)
        else Some m
    end.

Lemma copy_list : forall (A : Type) pre lsh (l : list (arg A)) m, copy pre lsh (Lst l) m =
  if has_array (Lst l) then
    match lsh with
    | [] => None
    | n :: lsh' => each_of pre n lsh' 0 l m
    end
  else if rank (Lst l) =? length lsh
  then assign_all pre (combine (rows (shape (Lst l))) (flatten (Lst l))) m
  else None.
Proof. intros A pre [|n lsh] l m; reflexivity. Qed.

Lemma copy_array : forall (A : Type) pre lsh o sh (elt : list nat -> A) m, copy pre lsh (Arr o sh elt) m =
  Some (store_all (combine (map (app pre) (rows lsh)) (map elt (rows sh))) m).
Proof. intros A pre [|n lsh] o sh elt m; reflexivity. Qed.

Lemma each_cons : forall (A : Type) pre n lsh' i (x : arg A) r m, each_of pre n lsh' i (x :: r) m =
  if i <? n then
    bind (match lsh' with
          | [] => match scalar x with
                  | Some e => Some (store (pre ++ [i]) (e m) m)
                  | None => None
                  end
          | _ => copy (pre ++ [i]) lsh' x m
          end) (each_of pre n lsh' (S i) r)
  else Some m.
Proof. reflexivity. Qed.

Lemma copy_ok : forall (A : Type) (old : content A) a sh, regular a sh -> sh <> [] -> independent a ->
  forall pre m, exists m', copy pre sh a m = Some m' /\ settled pre sh (element old a) m m'.
Proof.
  intros A old a. induction a as [b e|o s elt|l IH] using arg_ind'; intros sh H NE D pre m.
  - inversion H; subst. congruence.
  - inversion H; subst. rewrite copy_array. eexists. split; [reflexivity|]. apply store_rows.
    clear. induction (rows sh); cbn; constructor; auto.
  - rewrite copy_list. destruct (has_array (Lst l)) eqn:Q.
    + inversion H as [| |l' sh0 NL RG]; subst.
      assert (forall l', (forall x, In x l' -> In x l) -> forall k m,
        (forall j x, nth_error l' j = Some x -> nth_error l (k + j) = Some x) -> k + length l' = length l ->
        exists m', each_of pre (length l) sh0 k l' m = Some m' /\
          (forall i idx, k <= i -> i < length l -> in_bounds idx sh0 ->
             element old (Lst l) (i :: idx) = Some (m' (pre ++ i :: idx))) /\
          (forall j, (forall i idx, k <= i -> i < length l -> in_bounds idx sh0 -> j <> pre ++ i :: idx) -> m' j = m j)) as G.
      { clear NL H NE. induction l' as [|x l' IHl]; intros IN k m0 E LE.
        - exists m0. split; [reflexivity|]. split; [intros i idx L1 L2; cbn in LE; lia|reflexivity].
        - assert (In x l) as Ix by (apply IN; left; reflexivity).
          assert (nth_error l k = Some x) as Ek by (rewrite <- (Nat.add_0_r k); apply E; reflexivity).
          assert (k < length l) as Lk by (cbn in LE; lia).
          rewrite each_cons. replace (k <? length l) with true by (symmetry; apply Nat.ltb_lt; exact Lk).
          assert (exists m1, (match sh0 with
                              | [] => match scalar x with Some e => Some (store (pre ++ [k]) (e m0) m0) | None => None end
                              | _ => copy (pre ++ [k]) sh0 x m0
                              end) = Some m1 /\ settled (pre ++ [k]) sh0 (element old x) m0 m1) as (m1 & E1 & S1).
          { destruct sh0 as [|s0 sh0].
            - pose proof (RG x Ix) as Rx. inversion Rx as [b e| |]; subst; [|congruence].
              pose proof (independent_list _ _ D _ Ix) as Dx. cbn in Dx. cbn [scalar]. eexists. split; [reflexivity|]. split.
              + intros idx I. inversion I; subst. rewrite app_nil_r, store_eq. cbn. f_equal. apply Dx.
              + intros j N. apply store_neq. intros ->. apply (N []); [constructor|]. rewrite app_nil_r. reflexivity.
            - rewrite Forall_forall in IH. apply (IH x Ix (s0 :: sh0) (RG x Ix)); [discriminate|].
              exact (independent_list _ _ D x Ix). }
          rewrite E1. cbn [bind]. destruct S1 as [S1 S2].
          destruct (IHl (fun y I => IN y (or_intror I)) (S k) m1) as (m2 & E2 & V2 & U2).
          { intros j y Ey. rewrite Nat.add_succ_comm. apply E. exact Ey. } { cbn in LE. lia. }
          exists m2. split; [exact E2|]. split.
          + intros i idx L1 L2 I. destruct (Nat.eq_dec i k) as [->|D1].
            * rewrite U2.
              -- rewrite element_list. cbn [at_list]. rewrite nth_error_map, Ek. cbn [option_map].
                 rewrite (S1 idx I), <- app_assoc. reflexivity.
              -- intros i' idx' L1' _ _ E'. apply app_inv_head in E'. injection E' as E' _. lia.
            * apply V2; [lia|exact L2|exact I].
          + intros j N. rewrite U2.
            * apply S2. intros idx I. rewrite <- app_assoc. apply N; [lia|exact Lk|exact I].
            * intros i idx L1 L2 I. apply N; [lia|exact L2|exact I]. }
      destruct (G l (fun x I => I) 0 m (fun j x E => E) eq_refl) as (m' & E & V & U).
      exists m'. split; [exact E|]. split.
      * intros [|i idx] I; [inversion I|]. apply in_bounds_cons in I. destruct I as [Li I]. apply V; [lia|exact Li|exact I].
      * intros j N. apply U. intros i idx _ L2 I. apply N. constructor; assumption.
    + unfold rank. rewrite (reg_shape _ _ _ H), Nat.eqb_refl.
      destruct (flatten_ok A old (Lst l) sh H D Q) as (vs & F & V).
      rewrite (assign_all_ok A pre _ _ vs m F). eexists. split; [reflexivity|]. apply store_rows. exact V.
Qed.

Lemma rows_pad : forall k sh, rows (repeat 1 k ++ sh) = map (app (repeat 0 k)) (rows sh).
Proof.
  induction k as [|k IH]; intros sh; cbn [repeat app rows]; [symmetry; apply map_id|].
  cbn [seq flat_map]. rewrite app_nil_r, IH, map_map. reflexivity.
Qed.

Lemma c_lemma : forall (A : Type) (old : content A) ndmin a sh, regular a sh -> sh <> [] -> independent a ->
  variable a \/ ndmin <= length sh ->
  exists m, in_C old ndmin a = Some m /\
    forall idx, in_bounds idx (wanted_shape ndmin sh) -> wanted old ndmin a sh idx = Some (m idx).
Proof.
  intros A old ndmin a sh H NE D C. unfold in_C, np_shape, rank, wanted_shape, wanted.
  rewrite (reg_shape _ _ _ H). destruct (ndmin - length sh) as [|k] eqn:K.
  - cbn [repeat app]. destruct (copy_ok A old a sh H NE D [] old) as (m & E & S & _).
    exists m. split; [exact E|]. intros idx I. cbn [skipn]. exact (S idx I).
  - destruct C as [(o & s & elt & ->)|C]; [|lia]. inversion H; subst. rewrite copy_array. eexists. split; [reflexivity|].
    intros idx I.
    destruct (store_rows A [] (repeat 1 (S k) ++ sh) (fun idx => Some (elt (skipn (S k) idx))) (map elt (rows sh)) old)
      as [S _].
    { rewrite rows_pad. clear. induction (rows sh) as [|r l IH]; cbn [map]; constructor; [|exact IH].
      f_equal. f_equal. rewrite skipn_app, repeat_length, Nat.sub_diag.
      rewrite skipn_all2 by (rewrite repeat_length; lia). reflexivity. }
    rewrite (S idx I) || (cbn [element]; exact (S idx I)).
    all: reflexivity || exact (S idx I).
Qed.

Lemma c_ndmin_lemma : forall (A : Type) (old : content A) ndmin l, has_array (Lst l) = false ->
  rank (Lst l) < ndmin -> in_C old ndmin (Lst l) = None.
Proof.
  intros A old ndmin l H L. unfold in_C. rewrite copy_list, H.
  replace (rank (Lst l) =? length (np_shape ndmin (Lst l))) with false; [reflexivity|].
  symmetry. apply Nat.eqb_neq. unfold np_shape. rewrite app_length, repeat_length. unfold rank in *. lia.
Qed.

(** A constant. *)
Definition lit {A} (v : A) : arg A := Scal false (fun _ => v).

Lemma c_row_lemma : forall (A : Type) (old : content A) p q r s, 
  in_bounds [0; 1; 0] (wanted_shape 3 [2; 2]) /\
  wanted old 3 (Lst [Arr OC [2] (fun i => match i with [0] => p | _ => q end);
                     Arr OC [2] (fun i => match i with [0] => r | _ => s end)]) [2; 2] [0; 1; 0] = Some r /\
  exists m, in_C old 3 (Lst [Arr OC [2] (fun i => match i with [0] => p | _ => q end);
                     Arr OC [2] (fun i => match i with [0] => r | _ => s end)]) = Some m /\
    m [0; 1; 0] = old [0; 1; 0].
Proof.
  intros A old p q r s. split; [repeat constructor|]. split; [reflexivity|]. eexists. split; reflexivity.
Qed.

Lemma swap_lemma : forall (A : Type) (old : content A), 
  exists m, in_C old 0 (Lst [Scal true (fun x => x [1]); Scal true (fun x => x [0])]) = Some m /\
    m [0] = old [1] /\ m [1] = old [1] /\
    wanted old 0 (Lst [Scal true (fun x => x [1]); Scal true (fun x => x [0])]) [2] [1] = Some (old [0]).
Proof. intros A old. eexists. split; [reflexivity|]. repeat split; reflexivity. Qed.

Lemma ndmin_fortran_lemma : forall (A : Type) (old : content A) p q r s,
  exists get, in_fortran old (Some OF) 3 (Lst [Lst [lit p; lit q]; Lst [lit r; lit s]]) = Some get /\
    get [0; 0; 1] = Some r /\
    wanted old 3 (Lst [Lst [lit p; lit q]; Lst [lit r; lit s]]) [2; 2] [0; 0; 1] = Some q.
Proof. intros A old p q r s. eexists. split; [reflexivity|]. split; reflexivity. Qed.
