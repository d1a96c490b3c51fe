From Coq Require Import List Bool Arith ZArith Lia Permutation.
From Verif Require Import Cnz_Model Cnz_Spec.
Import ListNotations.

Lemma number_perm {A} (p : A -> bool) l l' : Permutation l l' -> number p l = number p l'.
Proof.
  unfold number. induction 1; simpl; auto; try congruence.
  - destruct (p x); simpl; congruence.
  - destruct (p x), (p y); reflexivity.
Qed.
Lemma number_ext {A} (p q : A -> bool) l : (forall x, In x l -> p x = q x) -> number p l = number q l.
Proof.
  unfold number. induction l as [|x l IH]; simpl; intros H; auto.
  rewrite H by auto. destruct (q x); simpl; rewrite IH; auto.
Qed.
Lemma number_map {A B} (f : A -> B) (p : B -> bool) l : number p (map f l) = number (fun x => p (f x)) l.
Proof. unfold number. induction l; simpl; auto. destruct (p (f a)); simpl; auto. Qed.

Lemma in_indices sh : forall i, In i (indices sh) <-> valid sh i.
Proof.
  unfold valid. induction sh as [|n s IH]; simpl; intros i.
  - split; [intros [<-|[]]; constructor|inversion 1; auto].
  - rewrite in_flat_map. split.
    + intros (k & Hk & Hi). apply in_map_iff in Hi as (j & <- & Hj). apply in_seq in Hk.
      constructor; [lia|]. apply IH; auto.
    + inversion 1; subst. exists x. split; [apply in_seq; lia|]. apply in_map. apply IH; auto.
Qed.
Lemma nodup_map {A B} (f : A -> B) l : (forall x y, f x = f y -> x = y) -> NoDup l -> NoDup (map f l).
Proof. intros Hf. apply FinFun.Injective_map_NoDup. exact Hf. Qed.
Lemma nodup_flat {A B} (g : B -> A) (f : A -> list B) l : NoDup l -> (forall x, In x l -> NoDup (f x)) ->
  (forall x y, In y (f x) -> g y = x) -> NoDup (flat_map f l).
Proof.
  intros Hl Hf Hg. induction Hl as [|x l Hx Hl IH]; simpl; [constructor|].
  assert (D : NoDup (flat_map f l)) by (apply IH; intros; apply Hf; simpl; auto).
  assert (F : NoDup (f x)) by (apply Hf; simpl; auto).
  assert (N : forall y, In y (f x) -> ~ In y (flat_map f l)).
  { intros y Hy H. apply in_flat_map in H as (z & Hz & Hy'). apply Hg in Hy, Hy'. congruence. }
  revert F N. generalize (f x) as u. induction u as [|y u IHu]; simpl; intros F N; auto.
  inversion F; subst. constructor.
  - rewrite in_app_iff. intros [H|H]; [auto|eapply N; eauto].
  - apply IHu; auto.
Qed.
Lemma nodup_indices sh : NoDup (indices sh).
Proof.
  induction sh as [|n s IH]; simpl; [repeat constructor; auto|].
  apply (nodup_flat (fun i => hd 0 i)); [apply seq_NoDup| |].
  - intros k _. apply nodup_map; auto. congruence.
  - intros k i H. apply in_map_iff in H as (j & <- & _). reflexivity.
Qed.
Lemma forall2_rev {A B} (R : A -> B -> Prop) l m : Forall2 R l m -> Forall2 R (rev l) (rev m).
Proof.
  induction 1; simpl; [constructor|]. apply Forall2_app; auto.
Qed.
Lemma valid_rev sh i : valid (rev sh) (rev i) <-> valid sh i.
Proof.
  split; intros H; [|apply forall2_rev; auto].
  apply forall2_rev in H. rewrite !rev_involutive in H. exact H.
Qed.
Lemma indices_rev sh : Permutation (map (@rev nat) (indices sh)) (indices (rev sh)).
Proof.
  apply NoDup_Permutation.
  - apply nodup_map; [|apply nodup_indices]. intros x y H.
    rewrite <- (rev_involutive x), H. apply rev_involutive.
  - apply nodup_indices.
  - intros i. rewrite in_indices, in_map_iff. split.
    + intros (j & <- & Hj). apply in_indices in Hj. apply valid_rev. exact Hj.
    + intros H. exists (rev i). rewrite rev_involutive. split; auto. apply in_indices.
      rewrite <- valid_rev, rev_involutive. exact H.
Qed.
Lemma total_main o sh a i : el (run Count (stored o sh a)) i = np_total sh a.
Proof.
  cbn [run el ext stored]. destruct o; cbn [swap].
  - rewrite <- (number_perm _ _ _ (indices_rev sh)), number_map. unfold np_total.
    apply number_ext. intros j _. rewrite rev_involutive. reflexivity.
  - reflexivity.
Qed.

Lemma rev_insert k j i : k <= length i -> rev (insert_at k j i) = insert_at (length i - k) j (rev i).
Proof.
  intros H. unfold insert_at. rewrite rev_app_distr. cbn [rev]. rewrite <- app_assoc. cbn [app].
  rewrite firstn_rev, skipn_rev. replace (length i - (length i - k)) with k by lia. reflexivity.
Qed.
Lemma rev_remove k i : k < length i -> rev (remove_at k i) = remove_at (length i - 1 - k) (rev i).
Proof.
  intros H. unfold remove_at. rewrite rev_app_distr, firstn_rev, skipn_rev.
  replace (length i - (length i - 1 - k)) with (S k) by lia.
  replace (length i - S (length i - 1 - k)) with k by lia. reflexivity.
Qed.
Lemma rev_set k v i : k < length i -> rev (set_at k v i) = set_at (length i - 1 - k) v (rev i).
Proof.
  intros H. unfold set_at. rewrite rev_app_distr. cbn [rev]. rewrite <- app_assoc. cbn [app].
  rewrite firstn_rev, skipn_rev.
  replace (length i - (length i - 1 - k)) with (S k) by lia.
  replace (length i - S (length i - 1 - k)) with k by lia. reflexivity.
Qed.
Lemma remove_len k i : k < length i -> length (remove_at k i) = length i - 1.
Proof. intros H. unfold remove_at. rewrite app_length, firstn_length, skipn_length. lia. Qed.
(* the dimension counted from 0, and what belongs to it *)
Definition dim0 o rank k := f_dim o rank k - 1.
Lemma dim0_lt o sh k : k < length sh -> dim0 o (length sh) k < length (swap o sh).
Proof. unfold dim0, f_dim. destruct o; cbn [swap]; rewrite ?rev_length; lia. Qed.
Lemma swap_remove o n k i : length i = n -> k < n -> swap o (remove_at k i) = remove_at (dim0 o n k) (swap o i).
Proof.
  intros H Hk. unfold dim0, f_dim. destruct o; cbn [swap].
  - rewrite rev_remove by lia. f_equal. lia.
  - f_equal. lia.
Qed.
Lemma swap_set o sh k v : k < length sh -> swap o (set_at k v sh) = set_at (dim0 o (length sh) k) v (swap o sh).
Proof.
  intros Hk. unfold dim0, f_dim. destruct o; cbn [swap].
  - rewrite rev_set by lia. f_equal. lia.
  - f_equal. lia.
Qed.
Lemma swap_nth o sh k : k < length sh -> nth (dim0 o (length sh) k) (swap o sh) 0 = nth k sh 0.
Proof.
  intros Hk. unfold dim0, f_dim. destruct o; cbn [swap].
  - rewrite rev_nth by lia. f_equal. lia.
  - f_equal. lia.
Qed.
Lemma swap_insert o n k j i : length i = n - 1 -> k < n ->
  swap o (insert_at (dim0 o n k) j (swap o i)) = insert_at k j i.
Proof.
  intros H Hk. unfold dim0, f_dim. destruct o; cbn [swap].
  - rewrite rev_insert by (rewrite rev_length; lia). rewrite rev_involutive, rev_length. f_equal. lia.
  - f_equal. lia.
Qed.
Lemma swap_swap o l : swap o (swap o l) = l.
Proof. destruct o; cbn; auto using rev_involutive. Qed.
Lemma swap_len o l : length (swap o l) = length l.
Proof. destruct o; cbn; auto using rev_length. Qed.
Lemma axis_main o sh a k i : k < length sh -> length i = length sh - 1 ->
  el (run (CountDim (f_dim o (length sh) k)) (stored o sh a)) (swap o i) = np_axis sh a k i.
Proof.
  intros Hk Hi. cbn [run el ext stored]. fold (dim0 o (length sh) k). rewrite swap_nth by auto.
  unfold np_axis. apply number_ext. intros j _. rewrite (swap_insert o (length sh)) by auto. reflexivity.
Qed.
Lemma axis_ext o sh a k : k < length sh ->
  ext (run (CountDim (f_dim o (length sh) k)) (stored o sh a)) = swap o (remove_at k sh).
Proof.
  intros Hk. cbn [run ext stored]. fold (dim0 o (length sh) k).
  rewrite (swap_remove o (length sh)) by auto. reflexivity.
Qed.

Lemma index_position s i : valid s i -> index_of s (position s i) = i.
Proof.
  induction 1 as [|x n i s H _ IH]; simpl; auto. rewrite Nat.mul_comm.
  rewrite Nat.mod_add, Nat.div_add, Nat.mod_small, Nat.div_small by lia. simpl. rewrite IH. reflexivity.
Qed.
Lemma position_drop s : forall d i, d < length s -> valid (set_at d 1 s) i ->
  position (set_at d 1 s) i = position (remove_at d s) (remove_at d i) /\
  valid (remove_at d s) (remove_at d i) /\ length i = length s.
Proof.
  unfold set_at, remove_at, valid.
  induction s as [|n s IH]; simpl; intros d i Hd H; [lia|].
  destruct d as [|d]; simpl in *.
  - inversion H as [|x m i' s' Hx Hi]; subst. simpl. replace x with 0 by lia. 
    repeat split; auto; [lia|]. f_equal. clear -Hi. induction Hi; simpl; auto.
  - inversion H as [|x m i' s' Hx Hi]; subst. simpl.
    destruct (IH d i') as (P & V & Hl); [lia|exact Hi|]. simpl in P. rewrite P. repeat split; auto.
Qed.
Lemma valid_swap o sh i : valid (swap o sh) (swap o i) <-> valid sh i.
Proof. destruct o; cbn; [apply valid_rev|tauto]. Qed.
Lemma keep_main o sh a k i : k < length sh -> valid (set_at k 1 sh) i ->
  el (run (print_count o sh (Some k) true) (stored o sh a)) (swap o i) = np_axis sh a k (remove_at k i).
Proof.
  intros Hk Hv. destruct (position_drop _ _ _ Hk Hv) as (_ & _ & Hl).
  unfold print_count. cbn [keep_shape run]. cbn [el].
  replace (print_shape o (set_at k 1 sh)) with (swap o (set_at k 1 sh)) by (destruct o; reflexivity).
  apply (valid_swap o) in Hv. rewrite swap_set in * by auto.
  destruct (position_drop (swap o sh) _ _ (dim0_lt o sh k Hk) Hv) as (P & V & _).
  rewrite P. fold (dim0 o (length sh) k). cbn [ext]. rewrite index_position by exact V.
  rewrite <- (swap_remove o (length sh)) by auto.
  apply axis_main; auto. rewrite remove_len; lia.
Qed.
Lemma total_keep o sh a i :
  el (run (print_count o sh None true) (stored o sh a)) i = np_total sh a.
Proof. unfold print_count. cbn [run]. cbn [el]. exact (total_main o sh a []). Qed.

Lemma pack_main n (a : nat -> Z) :
  pack (pack_bounds n) (map (fun i => mask (a i)) (seq 0 n)) = Some (map Z.of_nat (np_nonzero n a)).
Proof.
  unfold pack, pack_bounds, np_nonzero. cbn [fst snd].
  replace (Z.to_nat (Z.of_nat n - 1 - 0 + 1)) with n by lia.
  rewrite !map_length, Nat.eqb_refl. f_equal.
  generalize (seq 0 n) as l. induction l as [|x l IH]; [reflexivity|].
  cbn [map combine filter snd]. change (nonzero (a x)) with (mask (a x)).
  destruct (mask (a x)); cbn [map fst]; rewrite IH; [f_equal; lia|reflexivity].
Qed.
Lemma rev_ones n : rev (repeat 1 n) = repeat 1 n.
Proof.
  induction n; simpl; auto. rewrite IHn. clear. induction n; simpl; auto. f_equal. exact IHn.
Qed.
Lemma keep_ones o (sh : list nat) : print_shape o (repeat 1 (length sh)) = repeat 1 (length sh).
Proof. destruct o; cbn; auto using rev_ones. Qed.
Lemma set_insert k v (l : list nat) : k < length l -> set_at k v l = insert_at k v (remove_at k l).
Proof.
  intros H. unfold set_at, insert_at, remove_at.
  rewrite firstn_app, skipn_app, firstn_firstn, Nat.min_id, firstn_length, skipn_firstn_comm.
  replace (k - Nat.min k (length l)) with 0 by lia. rewrite Nat.sub_diag. simpl firstn at 2. rewrite app_nil_r. reflexivity.
Qed.
Lemma keep_spec o sh a k : k < length sh ->
  let r := run (print_count o sh (Some k) true) (stored o sh a) in
  ext r = swap o (insert_at k 1 (remove_at k sh)) /\
  (forall i, valid (insert_at k 1 (remove_at k sh)) i -> el r (swap o i) = np_axis sh a k (remove_at k i)).
Proof.
  intros Hk. rewrite <- set_insert by auto. split; [destruct o; reflexivity|].
  intros i Hi. exact (keep_main o sh a k i Hk Hi).
Qed.
