(* Proofs about the unrolling of array statements: addresses and single statements. *)
From Coq Require Import Bool Arith ZArith Lia List.
From Verif Require Import Loops_Model Loops_Spec.
Import ListNotations.
Open Scope list_scope.

(* --------------------- the inserted indices, in one go ------------------------ *)

Fixpoint ins_dims (lev d : nat) (l : list dim) : list dim :=
  match l with
  | [] => []
  | DSlice st step n base :: l' =>
    (if Nat.ltb lev d then DIdx (if is_one n then None else Some lev) st step base else DSlice st step n base) :: ins_dims (S lev) d l'
  | x :: l' => x :: ins_dims lev d l'
  end.
Definition ins_op (r d : nat) (o : operand) : operand := mk_op (o_var o) (ins_dims (r - rank o) d (o_dims o)).
Fixpoint ins_expr (r d : nat) (e : expr) : expr :=
  match e with
  | ELit z => ELit z
  | EOp o => EOp (ins_op r d o)
  | EUn f e1 => EUn f (ins_expr r d e1)
  | EBin f e1 e2 => EBin f (ins_expr r d e1) (ins_expr r d e2)
  | ERed g sh e1 => ERed g sh e1
  end.
Definition ins_stmt (r d : nat) (s : stmt) : stmt := mk_stmt (ins_op r d (s_lhs s)) (ins_expr r d (s_rhs s)).

Definition src (l : list dim) : Prop := Forall (fun d => match d with DIdx _ _ _ _ => False | _ => True end) l.
Definition src_op (o : operand) : Prop := src (o_dims o).

Lemma shape_app : forall a b, dims_shape (a ++ b) = dims_shape a ++ dims_shape b.
Proof. intros a b. apply flat_map_app. Qed.

Lemma ins_zero : forall l lev, ins_dims lev 0 l = l.
Proof. induction l as [|[k|st step n base|lv st step base] l IH]; intros lev; cbn [ins_dims]; rewrite ?IH; reflexivity. Qed.

Lemma ins_none : forall l lev d, d <= lev -> ins_dims lev d l = l.
Proof.
  induction l as [|[k|st step n base|lv st step base] l IH]; intros lev d L; cbn [ins_dims]; rewrite ?IH by lia; try reflexivity.
  destruct (Nat.ltb_spec lev d); [lia|reflexivity].
Qed.

Lemma ins_shape : forall l lev d, dims_shape (ins_dims lev d l) = skipn (d - lev) (dims_shape l).
Proof.
  induction l as [|[k|st step n base|lv st step base] l IH]; intros lev d.
  - cbn. rewrite skipn_nil. reflexivity.
  - cbn [ins_dims]. apply (IH lev d).
  - cbn [ins_dims]. destruct (Nat.ltb_spec lev d) as [L|L].
    + change (dims_shape (DIdx (if is_one n then None else Some lev) st step base :: ins_dims (S lev) d l)) with (dims_shape (ins_dims (S lev) d l)).
      change (dims_shape (DSlice st step n base :: l)) with (n :: dims_shape l). rewrite IH. replace (d - lev) with (S (d - S lev)) by lia. reflexivity.
    + replace (d - lev) with 0 by lia. rewrite ins_none by lia. reflexivity.
  - cbn [ins_dims]. apply (IH lev d).
Qed.

Definition no_slice (l : list dim) : Prop := dims_shape l = [].

(* the next slice *)
Lemma ins_next : forall l lev d, lev <= d -> d < lev + List.length (dims_shape l) ->
  exists pre st step n base post, ins_dims lev d l = pre ++ DSlice st step n base :: post /\ no_slice pre /\
    ins_dims lev (S d) l = pre ++ DIdx (if is_one n then None else Some d) st step base :: post.
Proof.
  induction l as [|[k|st step n base|lv st step base] l IH]; intros lev d L1 L2.
  - cbn in L2. lia.
  - destruct (IH lev d L1 L2) as (pre & st & step & n & base & post & E1 & N & E2).
    exists (DAt k :: pre), st, step, n, base, post. cbn [ins_dims]. rewrite E1, E2. split; [reflexivity|]. split; [exact N|reflexivity].
  - change (dims_shape (DSlice st step n base :: l)) with (n :: dims_shape l) in L2. cbn [List.length] in L2. cbn [ins_dims].
    destruct (Nat.eq_dec lev d) as [->|Ne].
    + exists [], st, step, n, base, l. destruct (Nat.ltb_spec d d); [lia|]. destruct (Nat.ltb_spec d (S d)); [|lia].
      rewrite !ins_none by lia. split; [reflexivity|]. split; reflexivity.
    + destruct (IH (S lev) d) as (pre & st' & step' & n' & base' & post & E1 & N & E2); [lia|lia|].
      exists (DIdx (if is_one n then None else Some lev) st step base :: pre), st', step', n', base', post.
      destruct (Nat.ltb_spec lev d); [|lia]. destruct (Nat.ltb_spec lev (S d)); [|lia]. rewrite E1, E2. split; [reflexivity|]. split; [exact N|reflexivity].
  - destruct (IH lev d L1 L2) as (pre & st' & step' & n & base' & post & E1 & N & E2).
    exists (DIdx lv st step base :: pre), st', step', n, base', post. cbn [ins_dims]. rewrite E1, E2. split; [reflexivity|]. split; [exact N|reflexivity].
Qed.

Lemma find_last : forall a d b i, is_slice d = true ->
  find_slice (a ++ d :: b) (S i) (i + S (List.length (dims_shape a))) = i + S (List.length a).
Proof.
  induction a as [|x a IH]; intros d b i E.
  - change (List.length (dims_shape [])) with 0. cbn [app find_slice List.length]. destruct (Nat.leb_spec (S i) (i + 1)); [|lia]. rewrite E.
    destruct b as [|y b]; [reflexivity|]. cbn [find_slice]. destruct (Nat.leb_spec (S (S i)) (i + 1)); [lia|]. reflexivity.
  - cbn [app find_slice]. destruct x as [k|st step n base|lv st step base]; cbn [is_slice].
    + change (dims_shape (DAt k :: a)) with (dims_shape a). destruct (Nat.leb_spec (S i) (i + S (List.length (dims_shape a)))); [|lia].
      replace (S (i + S (List.length (dims_shape a)))) with (S i + S (List.length (dims_shape a))) by lia. rewrite IH by exact E. cbn [List.length]. lia.
    + change (dims_shape (DSlice st step n base :: a)) with (n :: dims_shape a). cbn [List.length].
      destruct (Nat.leb_spec (S i) (i + S (S (List.length (dims_shape a))))); [|lia].
      replace (i + S (S (List.length (dims_shape a)))) with (S i + S (List.length (dims_shape a))) by lia. rewrite IH by exact E. lia.
    + change (dims_shape (DIdx lv st step base :: a)) with (dims_shape a). destruct (Nat.leb_spec (S i) (i + S (List.length (dims_shape a)))); [|lia].
      replace (S (i + S (List.length (dims_shape a)))) with (S i + S (List.length (dims_shape a))) by lia. rewrite IH by exact E. cbn [List.length]. lia.
Qed.

Lemma set_dim_app : forall a d b f, set_dim (a ++ d :: b) (List.length a) f = a ++ f d :: b.
Proof. induction a as [|x a IH]; intros d b f; [reflexivity|]. cbn. f_equal. apply IH. Qed.

Lemma length_shape_rev : forall l, List.length (dims_shape (rev l)) = List.length (dims_shape l).
Proof.
  induction l as [|x l IH]; [reflexivity|]. cbn [rev]. rewrite shape_app, app_length, IH. change (x :: l) with ([x] ++ l). rewrite shape_app, app_length. lia.
Qed.

Lemma insert_first : forall x pre st step n base post lev p, no_slice pre -> p = S (List.length (dims_shape post)) ->
  insert_index lev p (mk_op x (pre ++ DSlice st step n base :: post))
  = mk_op x (pre ++ DIdx (if is_one n then None else Some lev) st step base :: post).
Proof.
  intros x pre st step n base post lev p N ->. unfold insert_index, rank, shape. cbn [o_dims o_var].
  rewrite shape_app, N. change (dims_shape (DSlice st step n base :: post)) with (n :: dims_shape post). cbn [app List.length Nat.eqb orb].
  destruct (Nat.ltb_spec (S (List.length (dims_shape post))) (S (List.length (dims_shape post)))); [lia|].
  rewrite rev_app_distr. cbn [rev]. rewrite <- app_assoc. cbn [app].
  pose proof (find_last (rev post) (DSlice st step n base) (rev pre) 0 eq_refl) as F. rewrite length_shape_rev in F. cbn [Nat.add] in F. rewrite F.
  cbn [Nat.sub]. rewrite Nat.sub_0_r. rewrite set_dim_app, rev_app_distr. cbn [rev]. rewrite !rev_involutive, <- app_assoc. reflexivity.
Qed.

Lemma insert_step : forall r d o, d < r -> rank o <= r -> insert_index d (r - d) (ins_op r d o) = ins_op r (S d) o.
Proof.
  intros r d o L R. destruct (Nat.le_gt_cases (r - rank o) d) as [H|H].
  - destruct (ins_next (o_dims o) (r - rank o) d H) as (pre & st & step & n & base & post & E1 & N & E2); [unfold rank, shape in *; lia|].
    unfold ins_op. rewrite E1, E2. apply insert_first; [exact N|].
    pose proof (ins_shape (o_dims o) (r - rank o) d) as Z. rewrite E1, shape_app, N in Z.
    change (dims_shape (DSlice st step n base :: post)) with (n :: dims_shape post) in Z. apply (f_equal (@List.length len)) in Z.
    rewrite skipn_length in Z. cbn [app List.length] in Z. unfold rank, shape in *. lia.
  - unfold ins_op. rewrite !ins_none by lia. unfold insert_index.
    change (rank (mk_op (o_var o) (o_dims o))) with (rank o). destruct (Nat.ltb_spec (rank o) (r - d)); [|lia]. rewrite orb_true_r. reflexivity.
Qed.

Definition ranked (r : nat) (e : expr) : Prop := Forall (fun o => rank o <= r) (operands e).

Lemma insert_expr_step : forall r d e, d < r -> ranked r e -> insert_expr d (r - d) (ins_expr r d e) = ins_expr r (S d) e.
Proof.
  intros r d e L. induction e as [z|o|f e IH|f e1 IH1 e2 IH2|g sh e IH]; intros R; cbn [ins_expr insert_expr].
  - reflexivity.
  - inversion R; subst. rewrite insert_step by assumption. reflexivity.
  - rewrite IH by exact R. reflexivity.
  - apply Forall_app in R. destruct R as [R1 R2]. rewrite IH1, IH2 by assumption. reflexivity.
  - reflexivity.
Qed.

Lemma ins_expr_zero : forall r e, ins_expr r 0 e = e.
Proof.
  intros r. induction e as [z|o|f e IH|f e1 IH1 e2 IH2|g sh e IH]; cbn [ins_expr]; rewrite ?IH, ?IH1, ?IH2; try reflexivity.
  unfold ins_op. rewrite ins_zero. destruct o; reflexivity.
Qed.

Lemma ins_stmt_zero : forall r s, ins_stmt r 0 s = s.
Proof. intros r [l e]. unfold ins_stmt. cbn. rewrite ins_expr_zero. unfold ins_op. rewrite ins_zero. destruct l; reflexivity. Qed.

Lemma levels_ins : forall vectors s r, rank (s_lhs s) = r -> ranked r (s_rhs s) -> forall p lev, lev + p = r ->
  exists d, lev <= d <= r /\ (0 < p -> lev < d) /\ levels vectors p lev (ins_stmt r lev s) = (d, ins_stmt r d s).
Proof.
  intros vectors s r L R. induction p as [|p IH]; intros lev E.
  - exists lev. split; [lia|]. split; [lia|reflexivity].
  - assert (Z : insert_stmt lev (S p) (ins_stmt r lev s) = ins_stmt r (S lev) s).
    { unfold insert_stmt, ins_stmt. cbn [s_lhs s_rhs]. replace (S p) with (r - lev) by lia. rewrite insert_step, insert_expr_step; try assumption; try lia. reflexivity. }
    cbn [levels]. rewrite Z. destruct (compatible vectors (accesses (ins_stmt r (S lev) s))).
    + exists (S lev). split; [lia|]. split; [lia|reflexivity].
    + destruct (IH (S lev)) as (d & D & _ & Ed); [lia|]. exists d. split; [lia|]. split; [lia|exact Ed].
Qed.

(* ------------------------------ addresses --------------------------------- *)

Definition env0 : nat -> nat := fun _ => 0.

Lemma addr_src : forall rho sg env env' l v, src l -> addr rho sg env l v = addr rho sg env' l v.
Proof.
  intros rho sg env env'. induction l as [|[k|st step n base|lv st step base] l IH]; intros v S; inversion S; subst; cbn [addr]; try reflexivity.
  - f_equal. apply IH. assumption.
  - f_equal. apply IH. assumption.
  - contradiction.
Qed.

Definition thin (rho : nat -> nat) (n : len) (i : nat) : Prop := len_val rho n = 1 -> is_one n = true \/ i = 0.

Lemma addr_ins : forall rho sg env l lev d u, src l -> List.length u = List.length (dims_shape l) ->
  (forall q, lev <= q -> q < d -> q - lev < List.length u -> nth_error u (q - lev) = Some (env q)) ->
  Forall2 (thin rho) (dims_shape l) u ->
  addr rho sg env (ins_dims lev d l) (skipn (d - lev) u) = addr rho sg env0 l u.
Proof.
  intros rho sg env. induction l as [|[k|st step n base|lv st step base] l IH]; intros lev d u C L Q T.
  - reflexivity.
  - inversion C; subst. cbn [ins_dims addr]. f_equal. apply IH; assumption.
  - inversion C; subst. change (dims_shape (DSlice st step n base :: l)) with (n :: dims_shape l) in *.
    destruct u as [|i u]; [discriminate|]. inversion T as [|? ? ? ? Ht Tt]; subst. cbn [List.length] in L. injection L as L.
    cbn [ins_dims]. destruct (Nat.ltb_spec lev d) as [Hl|Hl].
    + cbn [addr hd tl]. f_equal.
      * assert (Ei : i = env lev). { specialize (Q lev). rewrite Nat.sub_diag in Q. cbn in Q. assert (X : Some i = Some (env lev)) by (apply Q; lia). congruence. }
        f_equal. f_equal. destruct (is_one n) eqn:O.
        -- assert (Z : len_val rho n = 1). { unfold is_one in O. destruct n as [x|x]; cbn in O; [apply Nat.eqb_eq in O; exact O|discriminate]. }
           rewrite Z. reflexivity.
        -- destruct (Nat.eqb_spec (len_val rho n) 1) as [Z|Z]; [|congruence]. destruct (Ht Z) as [X|X]; [congruence|]. congruence.
      * replace (d - lev) with (S (d - S lev)) by lia. cbn [skipn]. apply IH; try assumption.
        intros q Q1 Q2 Q3. specialize (Q q). replace (q - lev) with (S (q - S lev)) in Q by lia. cbn [nth_error List.length] in Q. apply Q; lia.
    + replace (d - lev) with 0 by lia. rewrite ins_none by lia. cbn [skipn addr hd tl]. f_equal. apply addr_src. assumption.
  - inversion C; subst. contradiction.
Qed.

(* the address of an operand of a statement of rank r, at a position of the statement *)
Definition at_pos (rho : nat -> nat) (sg : nat -> Z) (o : operand) (w : list nat) : list Z := op_addr rho sg env0 o w.

Definition prefix (env : nat -> nat) (d : nat) : list nat := map env (seq 0 d).

Lemma prefix_length : forall env d, List.length (prefix env d) = d.
Proof. intros env d. unfold prefix. rewrite map_length, seq_length. reflexivity. Qed.

Lemma prefix_nth : forall env d q, q < d -> nth_error (prefix env d) q = Some (env q).
Proof.
  intros env d q L. unfold prefix. apply (map_nth_error env q (seq 0 d)). rewrite (nth_error_nth' _ 0) by (rewrite seq_length; exact L).
  rewrite seq_nth by exact L. reflexivity.
Qed.

Lemma nth_skipn : forall (A : Type) n (l : list A) q, nth_error (skipn n l) q = nth_error l (n + q).
Proof. induction n as [|n IH]; intros [|x l] q; try reflexivity; cbn [skipn Nat.add nth_error]; [destruct q; reflexivity|]. apply IH. Qed.

Lemma skipn_skipn : forall (A : Type) a b (l : list A), skipn a (skipn b l) = skipn (b + a) l.
Proof. intros A a b. revert a. induction b as [|b IH]; intros a l; [reflexivity|]. destruct l; cbn [skipn Nat.add]; [apply skipn_nil|apply IH]. Qed.

Lemma op_addr_ins : forall rho sg env r d o v, src_op o -> rank o <= r -> d <= r -> List.length v = r - d ->
  Forall2 (thin rho) (shape o) (skipn (r - rank o) (prefix env d ++ v)) ->
  op_addr rho sg env (ins_op r d o) v = at_pos rho sg o (prefix env d ++ v).
Proof.
  intros rho sg env r d o v S R D L T. unfold at_pos, op_addr. set (w := prefix env d ++ v) in *.
  assert (Lw : List.length w = r) by (unfold w; rewrite app_length, prefix_length; lia). rewrite Lw.
  unfold ins_op at 1. cbn [o_dims].
  rewrite <- (addr_ins rho sg env (o_dims o) (r - rank o) d (skipn (r - rank o) w) S).
  - f_equal. unfold rank, shape, ins_op. cbn [o_dims]. rewrite ins_shape, skipn_length, skipn_skipn, L. fold (shape o) (rank o) in *. unfold rank, shape in *.
    set (k := List.length (dims_shape (o_dims o))) in *. unfold w. rewrite skipn_app, prefix_length.
    rewrite (skipn_all2 (prefix env d)) by (rewrite prefix_length; lia). cbn [app]. f_equal. lia.
  - rewrite skipn_length, Lw. unfold rank, shape in *. lia.
  - intros q Q1 Q2 Q3. rewrite nth_skipn. replace (r - rank o + (q - (r - rank o))) with q by lia. unfold w. rewrite nth_error_app1 by (rewrite prefix_length; lia).
    apply prefix_nth. exact Q2.
  - exact T.
Qed.

(* positions inside *)
Lemma box_inside : forall rho sh v, In v (box (map (len_val rho) sh)) <-> inside rho sh v.
Proof.
  intros rho. induction sh as [|l sh IH]; intros v; cbn [map box].
  - split; [intros [<-|[]]; constructor|]. intros H. inversion H. left. reflexivity.
  - rewrite in_flat_map. split.
    + intros (i & I & J). apply in_map_iff in J. destruct J as (u & <- & J). apply in_seq in I. constructor; [lia|]. apply IH. exact J.
    + intros H. inversion H as [|? i ? u Hi Hu]; subst. exists i. split; [apply in_seq; lia|]. apply in_map. apply IH. exact Hu.
Qed.

Lemma inside_length : forall rho sh v, inside rho sh v -> List.length v = List.length sh.
Proof. intros rho sh v H. induction H; cbn; congruence. Qed.

Lemma inside_app : forall rho a b v w, inside rho a v -> inside rho b w -> inside rho (a ++ b) (v ++ w).
Proof. intros. apply Forall2_app; assumption. Qed.

Lemma forall2_skipn : forall (A B : Type) (P : A -> B -> Prop) n l1 l2, Forall2 P l1 l2 -> Forall2 P (skipn n l1) (skipn n l2).
Proof. intros A B P n l1 l2 H. revert n. induction H as [|x y l1 l2 H H2 IH]; intros [|n]; cbn [skipn]; try constructor; auto. Qed.

Lemma is_one_val : forall rho n, is_one n = true -> len_val rho n = 1.
Proof. intros rho [x|x] O; cbn in O; [apply Nat.eqb_eq in O; exact O|discriminate]. Qed.

(* an operand that fits is thin at positions inside *)
Lemma fits_thin : forall rho sh out w, fits rho sh out -> inside rho out w -> Forall2 (thin rho) sh (skipn (List.length out - List.length sh) w).
Proof.
  intros rho sh out w [_ F] I. apply (forall2_skipn _ _ _ (List.length out - List.length sh)) in I.
  revert I. generalize (skipn (List.length out - List.length sh) w). clear w. induction F as [|l l' a b H F IH]; intros w I.
  - inversion I. constructor.
  - inversion I as [|? i ? u Hi Hu]; subst. constructor; [|apply IH; exact Hu]. intros E. destruct H as [->|H]; [left; reflexivity|]. right. lia.
Qed.

Lemma fits_self : forall rho sh, fits rho sh sh.
Proof. intros rho sh. split; [lia|]. rewrite Nat.sub_diag. cbn [skipn]. induction sh; constructor; auto. Qed.

(* addresses determine positions *)
Definition strided (l : list dim) : Prop := Forall (fun d => match d with DSlice _ (Some z) _ _ => z <> 0%Z | _ => True end) l.

Lemma addr_inj : forall rho sg l u u', strided l -> src l -> List.length u = List.length (dims_shape l) -> List.length u' = List.length u ->
  addr rho sg env0 l u = addr rho sg env0 l u' ->
  forall q n, nth_error (dims_shape l) q = Some n -> len_val rho n <> 1 -> nth_error u q = nth_error u' q.
Proof.
  intros rho sg. induction l as [|[k|st step n base|lv st step base] l IH]; intros u u' S C L L' E q n0 Q N.
  - destruct q; discriminate.
  - inversion S; inversion C; subst. cbn [addr] in E. injection E as E. exact (IH u u' H2 H6 L L' E q n0 Q N).
  - inversion S; inversion C; subst. change (dims_shape (DSlice st step n base :: l)) with (n :: dims_shape l) in *.
    destruct u as [|i u]; [discriminate|]. destruct u' as [|i' u']; [discriminate|]. cbn [List.length] in L, L'. injection L as L. injection L' as L'.
    cbn [addr hd tl] in E. injection E as E1 E2. destruct q as [|q]; cbn [nth_error] in *.
    + injection Q as ->. destruct (Nat.eqb_spec (len_val rho n0) 1); [contradiction|]. f_equal. destruct step as [z|]; cbn [step_val] in E1; nia.
    + exact (IH u u' H2 H6 L L' E2 q n0 Q N).
  - inversion C; subst. contradiction.
Qed.

Lemma addr_full_inj : forall rho sg o w w', strided (o_dims o) -> src_op o -> inside rho (shape o) w -> inside rho (shape o) w' ->
  at_pos rho sg o w = at_pos rho sg o w' -> w = w'.
Proof.
  intros rho sg o w w' S C I I' E. unfold at_pos, op_addr in E. rewrite (inside_length _ _ _ I), (inside_length _ _ _ I') in E.
  unfold rank in E. rewrite Nat.sub_diag in E. cbn [skipn] in E.
  assert (H : forall q, nth_error w q = nth_error w' q).
  { intros q. destruct (nth_error (shape o) q) as [n|] eqn:Q.
    - destruct (Nat.eq_dec (len_val rho n) 1) as [N|N].
      + unfold inside in *. clear E. revert q Q. generalize dependent w'. induction I as [|l i sh w Hi I IH]; intros w' I'; inversion I' as [|? i' ? u' Hi' Hu']; subst; intros [|q] Q; try discriminate; cbn in *.
        * injection Q as ->. f_equal. lia.
        * apply (IH u' Hu' q Q).
      + apply (addr_inj rho sg (o_dims o) w w' S C) with (n := n); auto.
        * rewrite (inside_length _ _ _ I). reflexivity.
        * rewrite (inside_length _ _ _ I), (inside_length _ _ _ I'). reflexivity.
    - apply nth_error_None in Q. rewrite !(proj2 (nth_error_None _ _)); [reflexivity| |].
      + rewrite (inside_length _ _ _ I'). exact Q.
      + rewrite (inside_length _ _ _ I). exact Q. }
  clear - H. revert w' H. induction w as [|x w IH]; intros [|y w'] H.
  - reflexivity.
  - specialize (H 0). discriminate.
  - specialize (H 0). discriminate.
  - pose proof (H 0) as H0. injection H0 as <-. f_equal. apply IH. intros q. exact (H (S q)).
Qed.

(* ----------------------------- expressions -------------------------------- *)

Fixpoint src_expr (e : expr) : Prop :=
  match e with
  | ELit _ => True
  | EOp o => src_op o
  | EUn _ e1 => src_expr e1
  | EBin _ e1 e2 => src_expr e1 /\ src_expr e2
  | ERed _ _ e1 => src_expr e1
  end.

Lemma eval_src : forall rho sg env env' m e v, src_expr e -> eval rho sg env m e v = eval rho sg env' m e v.
Proof.
  intros rho sg env env' m. induction e as [z|o|f e IH|f e1 IH1 e2 IH2|g sh e IH]; intros v S; cbn [eval].
  - reflexivity.
  - unfold op_addr. rewrite (addr_src rho sg env env'); [reflexivity|exact S].
  - rewrite IH; [reflexivity|exact S].
  - destruct S. rewrite IH1, IH2; auto.
  - f_equal. apply map_ext. intros w. apply IH. exact S.
Qed.

(* an expression all of whose operands fit *)
Definition fit_expr (rho : nat -> nat) (out : list len) (e : expr) : Prop := Forall (fun o => src_op o /\ fits rho (shape o) out) (operands e).

Lemma eval_ins : forall rho sg env m out e d v, src_expr e -> fit_expr rho out e -> d <= List.length out -> inside rho out (prefix env d ++ v) ->
  eval rho sg env m (ins_expr (List.length out) d e) v = eval rho sg env0 m e (prefix env d ++ v).
Proof.
  intros rho sg env m out e d v S F D I.
  assert (L : List.length v = List.length out - d). { apply inside_length in I. rewrite app_length, prefix_length in I. lia. }
  induction e as [z|o|f e IH|f e1 IH1 e2 IH2|g sh e IH]; cbn [ins_expr eval].
  - reflexivity.
  - inversion F as [|? ? [So Fo] _]; subst. rewrite op_addr_ins; try assumption.
    + reflexivity.
    + destruct Fo as [Fo _]. exact Fo.
    + apply fits_thin; assumption.
  - rewrite IH; auto.
  - apply Forall_app in F. destruct F. destruct S. rewrite IH1, IH2; auto.
  - f_equal. apply map_ext. intros w. apply eval_src. exact S.
Qed.

Definition meq (m m' : mem) : Prop := forall x a, m x a = m' x a.

(* equal values where they are read *)
Lemma eval_agree : forall rho sg env m m' e v,
  (forall o, In o (operands e) -> m (o_var o) (op_addr rho sg env o v) = m' (o_var o) (op_addr rho sg env o v)) ->
  (forall x a, In x (dependencies e) -> m x a = m' x a) -> eval rho sg env m e v = eval rho sg env m' e v.
Proof.
  intros rho sg env m m'.
  assert (ALL : forall e v, (forall x a, In x (all_vars e) -> m x a = m' x a) -> eval rho sg env m e v = eval rho sg env m' e v).
  { induction e as [z|o|f e IH|f e1 IH1 e2 IH2|g sh e IH]; intros v H; cbn [eval].
    - reflexivity.
    - apply H. left. reflexivity.
    - rewrite IH; [reflexivity|exact H].
    - cbn [all_vars] in H. rewrite IH1, IH2; [reflexivity| |]; intros x a I; apply H; apply in_or_app; auto.
    - f_equal. apply map_ext. intros w. apply IH. exact H. }
  induction e as [z|o|f e IH|f e1 IH1 e2 IH2|g sh e IH]; intros v H D; cbn [eval].
  - reflexivity.
  - apply H. left. reflexivity.
  - rewrite IH; [reflexivity|exact H|exact D].
  - cbn [operands dependencies] in H, D. rewrite IH1, IH2; [reflexivity| | | |].
    + intros o I. apply H. apply in_or_app. auto.
    + intros x a I. apply D. apply in_or_app. auto.
    + intros o I. apply H. apply in_or_app. auto.
    + intros x a I. apply D. apply in_or_app. auto.
  - f_equal. apply map_ext. intros w. apply ALL. exact D.
Qed.

(* -------------------------------- writes ----------------------------------- *)

Lemma var_eqb_eq : forall a b, var_eqb a b = true <-> a = b.
Proof. intros [x|x] [y|y]; cbn; rewrite ?Nat.eqb_eq; split; congruence. Qed.

Lemma zs_eqb_eq : forall a b, zs_eqb a b = true <-> a = b.
Proof.
  induction a as [|x a IH]; intros [|y b]; cbn; try (split; congruence). rewrite andb_true_iff, Z.eqb_eq, IH. split; [intros [-> ->]; reflexivity|]. intros H. injection H. auto.
Qed.

Lemma write_same : forall m x a z, write m x a z x a = z.
Proof. intros. unfold write. rewrite (proj2 (var_eqb_eq x x) eq_refl), (proj2 (zs_eqb_eq a a) eq_refl). reflexivity. Qed.

Lemma write_other : forall m x a z y b, (y <> x \/ b <> a) -> write m x a z y b = m y b.
Proof.
  intros m x a z y b H. unfold write. destruct (var_eqb y x && zs_eqb b a) eqn:E; [|reflexivity]. apply andb_true_iff in E. destruct E as [E1 E2].
  apply var_eqb_eq in E1. apply zs_eqb_eq in E2. destruct H; contradiction.
Qed.

(* writing a list of elements *)
Definition write_all (x : var) (at_ : list nat -> list Z) (val : list nat -> Z) (pts : list (list nat)) (m : mem) : mem :=
  fold_left (fun m1 v => write m1 x (at_ v) (val v)) pts m.

Lemma write_all_frame : forall x at_ val pts m y b, (y = x -> forall v, In v pts -> b <> at_ v) -> write_all x at_ val pts m y b = m y b.
Proof.
  intros x at_ val. induction pts as [|v pts IH]; intros m y b H; [reflexivity|]. unfold write_all in *. cbn [fold_left]. rewrite IH.
  - apply write_other. destruct (var_eqb y x) eqn:E; [apply var_eqb_eq in E; right; apply (H E); left; reflexivity|].
    left. intros ->. assert (X : var_eqb x x = true) by (apply var_eqb_eq; reflexivity). congruence.
  - intros E w I. apply H; [exact E|right; exact I].
Qed.

Lemma write_all_at : forall x at_ val pts m v, In v pts -> (forall w, In w pts -> at_ w = at_ v -> val w = val v) -> write_all x at_ val pts m x (at_ v) = val v.
Proof.
  intros x at_ val pts. induction pts as [|p pts IH] using rev_ind; intros m v I C; [destruct I|]. unfold write_all in *. rewrite fold_left_app. cbn [fold_left].
  destruct (zs_eqb (at_ v) (at_ p)) eqn:E.
  - apply zs_eqb_eq in E. rewrite E, write_same. apply C; [apply in_or_app; right; left; reflexivity|congruence].
  - rewrite write_other.
    + apply in_app_or in I. destruct I as [I|[->|[]]].
      * apply IH; [exact I|]. intros w J. apply C. apply in_or_app. left. exact J.
      * assert (X : zs_eqb (at_ v) (at_ v) = true) by (apply zs_eqb_eq; reflexivity). congruence.
    + right. intros Z. rewrite Z in E. assert (X : zs_eqb (at_ p) (at_ p) = true) by (apply zs_eqb_eq; reflexivity). congruence.
Qed.

Lemma write_all_ext : forall x at1 at2 v1 v2 pts m, (forall v, In v pts -> at1 v = at2 v /\ v1 v = v2 v) -> write_all x at1 v1 pts m = write_all x at2 v2 pts m.
Proof.
  intros x at1 at2 v1 v2. induction pts as [|p pts IH]; intros m H; [reflexivity|]. unfold write_all in *. cbn [fold_left].
  destruct (H p (or_introl eq_refl)) as [-> ->]. apply IH. intros v I. apply H. right. exact I.
Qed.

Lemma exec_line_write : forall rho sg env s m, exec_line rho sg env s m =
  write_all (o_var (s_lhs s)) (op_addr rho sg env (s_lhs s)) (eval rho sg env m (s_rhs s)) (box (map (len_val rho) (shape (s_lhs s)))) m.
Proof. reflexivity. Qed.

(* ------------------------- one statement, partly unrolled -------------------- *)

Definition part (rho : nat -> nat) (sg : nat -> Z) (s : stmt) (pre : list nat) (m : mem) : mem :=
  write_all (o_var (s_lhs s)) (fun v => at_pos rho sg (s_lhs s) (pre ++ v)) (fun v => eval rho sg env0 m (s_rhs s) (pre ++ v))
    (box (map (len_val rho) (skipn (List.length pre) (shape (s_lhs s))))) m.

(* what is needed of a statement: no inserted indices, shapes fit, no stride is zero *)
Record ready (rho : nat -> nat) (s : stmt) : Prop := {
  rd_lhs : src_op (s_lhs s);
  rd_strided : strided (o_dims (s_lhs s));
  rd_rhs : src_expr (s_rhs s);
  rd_fit : fit_expr rho (shape (s_lhs s)) (s_rhs s)
}.

Lemma exec_line_ins : forall rho sg env s d m, ready rho s -> d <= rank (s_lhs s) -> inside rho (firstn d (shape (s_lhs s))) (prefix env d) ->
  exec_line rho sg env (ins_stmt (rank (s_lhs s)) d s) m = part rho sg s (prefix env d) m.
Proof.
  intros rho sg env s d m [R1 R2 R3 R4] D I. rewrite exec_line_write. unfold part, ins_stmt. cbn [s_lhs s_rhs ins_op o_var].
  assert (E : shape (ins_op (rank (s_lhs s)) d (s_lhs s)) = skipn d (shape (s_lhs s))).
  { unfold ins_op, shape at 1. cbn [o_dims]. rewrite Nat.sub_diag, ins_shape, Nat.sub_0_r. reflexivity. }
  rewrite E, prefix_length. apply write_all_ext. intros v Iv. apply box_inside in Iv.
  assert (W : inside rho (shape (s_lhs s)) (prefix env d ++ v)) by (rewrite <- (firstn_skipn d (shape (s_lhs s))); apply inside_app; assumption).
  split.
  - apply op_addr_ins; try assumption; try lia.
    + apply inside_length in Iv. rewrite skipn_length in Iv. unfold rank. exact Iv.
    + unfold rank. rewrite Nat.sub_diag. cbn [skipn]. clear - W. induction W as [|l i sh w H W IH]; constructor; auto. intros E. right. lia.
  - apply (eval_ins rho sg env m (shape (s_lhs s))); assumption.
Qed.

(* reads of the array that is assigned are at the position that is assigned *)
Definition self_step (s : stmt) : Prop := forall o, In o (operands (s_rhs s)) -> o_var o = o_var (s_lhs s) -> o = s_lhs s.

Lemma skip_hd : forall (A : Type) n (l : list A) x, nth_error l n = Some x -> skipn n l = x :: skipn (S n) l.
Proof. intros A. induction n as [|n IH]; intros [|y l] x E; try discriminate; cbn in *; [congruence|]. apply IH. exact E. Qed.

Lemma firstn_snoc : forall (A : Type) k (l : list A) x, nth_error l k = Some x -> firstn (S k) l = firstn k l ++ [x].
Proof.
  intros A. induction k as [|k IH]; intros [|y l] x E; try discriminate; [cbn in *; congruence|]. cbn [nth_error] in E.
  change (firstn (S (S k)) (y :: l)) with (y :: firstn (S k) l). rewrite (IH l x E). reflexivity.
Qed.

Lemma part_frame : forall rho sg s pre m y b,
  (y = o_var (s_lhs s) -> forall v, inside rho (skipn (List.length pre) (shape (s_lhs s))) v -> b <> at_pos rho sg (s_lhs s) (pre ++ v)) ->
  part rho sg s pre m y b = m y b.
Proof. intros rho sg s pre m y b H. apply write_all_frame. intros E v I. apply H; [exact E|]. apply box_inside. exact I. Qed.

Lemma part_at : forall rho sg s pre m v, ready rho s -> inside rho (firstn (List.length pre) (shape (s_lhs s))) pre ->
  inside rho (skipn (List.length pre) (shape (s_lhs s))) v ->
  part rho sg s pre m (o_var (s_lhs s)) (at_pos rho sg (s_lhs s) (pre ++ v)) = eval rho sg env0 m (s_rhs s) (pre ++ v).
Proof.
  intros rho sg s pre m v [R1 R2 R3 R4] Ip Iv. unfold part.
  apply (write_all_at (o_var (s_lhs s)) (fun v => at_pos rho sg (s_lhs s) (pre ++ v)) (fun v => eval rho sg env0 m (s_rhs s) (pre ++ v))).
  - apply box_inside. exact Iv.
  - intros w Iw E. apply box_inside in Iw. f_equal. apply (addr_full_inj rho sg (s_lhs s)); try assumption;
      rewrite <- (firstn_skipn (List.length pre) (shape (s_lhs s))); apply inside_app; assumption.
Qed.

Lemma at_pos_dec : forall rho sg s pre b sh, (exists v, inside rho sh v /\ b = at_pos rho sg (s_lhs s) (pre ++ v)) \/
  (forall v, inside rho sh v -> b <> at_pos rho sg (s_lhs s) (pre ++ v)).
Proof.
  intros rho sg s pre b sh. destruct (in_dec (list_eq_dec Z.eq_dec) b (map (fun v => at_pos rho sg (s_lhs s) (pre ++ v)) (box (map (len_val rho) sh)))) as [I|N].
  - left. apply in_map_iff in I. destruct I as (v & E & I). exists v. split; [apply box_inside; exact I|auto].
  - right. intros v I E. apply N. apply in_map_iff. exists v. split; [auto|apply box_inside; exact I].
Qed.

Lemma var_dec : forall x y : var, {x = y} + {x <> y}.
Proof. decide equality; apply Nat.eq_dec. Qed.

(* one more loop *)
Lemma part_loop : forall rho sg s pre l m, ready rho s -> self_step s -> (forall x, In x (dependencies (s_rhs s)) -> x <> o_var (s_lhs s)) ->
  inside rho (firstn (List.length pre) (shape (s_lhs s))) pre -> nth_error (shape (s_lhs s)) (List.length pre) = Some l ->
  meq (fold_left (fun m1 i => part rho sg s (pre ++ [i]) m1) (seq 0 (len_val rho l)) m) (part rho sg s pre m).
Proof.
  intros rho sg s pre l m R SS DP Ip El. set (x := o_var (s_lhs s)). set (sh := shape (s_lhs s)) in *. set (k := List.length pre) in *.
  assert (Lk : k < List.length sh) by (apply nth_error_Some; rewrite El; discriminate).
  assert (Es : skipn k sh = l :: skipn (S k) sh) by (apply skip_hd; exact El).
  assert (Ip2 : forall i, i < len_val rho l -> inside rho (firstn (S k) sh) (pre ++ [i])).
  { intros i Li. rewrite (firstn_snoc _ k sh l El). apply inside_app; [exact Ip|]. constructor; [exact Li|constructor]. }
  assert (Lp : forall i, List.length (pre ++ [i]) = S k) by (intros i; rewrite app_length; cbn; lia).
  assert (Full : forall i v, i < len_val rho l -> inside rho (skipn (S k) sh) v -> inside rho sh ((pre ++ [i]) ++ v)).
  { intros i v Li Iv. rewrite <- (firstn_skipn (S k) sh). apply inside_app; [apply Ip2; exact Li|exact Iv]. }
  (* the invariant *)
  assert (INV : forall n, n <= len_val rho l ->
    (forall i v, i < n -> inside rho (skipn (S k) sh) v ->
       fold_left (fun m1 i => part rho sg s (pre ++ [i]) m1) (seq 0 n) m x (at_pos rho sg (s_lhs s) ((pre ++ [i]) ++ v)) = eval rho sg env0 m (s_rhs s) ((pre ++ [i]) ++ v)) /\
    (forall y b, (y = x -> forall i v, i < n -> inside rho (skipn (S k) sh) v -> b <> at_pos rho sg (s_lhs s) ((pre ++ [i]) ++ v)) ->
       fold_left (fun m1 i => part rho sg s (pre ++ [i]) m1) (seq 0 n) m y b = m y b)).
  { induction n as [|n IH]; intros Ln; [split; [lia|reflexivity]|]. destruct IH as [IH1 IH2]; [lia|].
    rewrite seq_S, fold_left_app. cbn [fold_left Nat.add]. set (mn := fold_left (fun m1 i => part rho sg s (pre ++ [i]) m1) (seq 0 n) m) in *.
    assert (EV : forall v, inside rho (skipn (S k) sh) v -> eval rho sg env0 mn (s_rhs s) ((pre ++ [n]) ++ v) = eval rho sg env0 m (s_rhs s) ((pre ++ [n]) ++ v)).
    { intros v Iv. apply eval_agree.
      - intros o Io. apply IH2. intros Ex i w Li Iw E. rewrite (SS o Io Ex) in E.
        apply addr_full_inj in E; [|apply R|apply R|apply Full; [lia|exact Iv]|apply Full; [lia|exact Iw]].
        rewrite <- !app_assoc in E. apply app_inv_head in E. cbn in E. injection E as E _. lia.
      - intros y a Iy. apply IH2. intros Ex. elim (DP y Iy Ex). }
    split.
    - intros i v Li Iv. destruct (Nat.eq_dec i n) as [->|Ni].
      + unfold x. rewrite part_at; [apply EV; exact Iv|exact R|rewrite Lp; apply Ip2; lia|rewrite Lp; exact Iv].
      + rewrite part_frame; [apply IH1; [lia|exact Iv]|]. rewrite Lp. intros _ w Iw E.
        apply addr_full_inj in E; [|apply R|apply R|apply Full; [lia|exact Iv]|apply Full; [lia|exact Iw]].
        rewrite <- !app_assoc in E. apply app_inv_head in E. cbn in E. injection E as E _. lia.
    - intros y b H. rewrite part_frame.
      + apply IH2. intros E i v Li Iv. apply H; [exact E|lia|exact Iv].
      + rewrite Lp. intros E v Iv. apply H; [exact E|lia|exact Iv]. }
  destruct (INV (len_val rho l) (le_n _)) as [A B]. intros y b.
  destruct (var_dec y x) as [->|Ny].
  - destruct (at_pos_dec rho sg s pre b (skipn k sh)) as [(v & Iv & ->)|N].
    + unfold x at 2. rewrite part_at by assumption. rewrite Es in Iv. inversion Iv as [|? i ? u Li Iu]; subst.
      replace (pre ++ i :: u) with ((pre ++ [i]) ++ u) by (rewrite <- app_assoc; reflexivity). apply A; assumption.
    + rewrite part_frame by (intros _; exact N). apply B. intros _ i v Li Iv. rewrite <- app_assoc. apply N. rewrite Es. constructor; assumption.
  - rewrite part_frame by (intros E; contradiction). apply B. intros E. contradiction.
Qed.
