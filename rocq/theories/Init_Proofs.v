(** Proofs about the initialisation and release of modules. *)
From Coq Require Import List Arith Bool Lia Permutation.
From Verif Require Import Init_Model Init_Spec.
Import ListNotations.

(** * The compiled modules *)

Lemma compile_from_spec : forall p done im,
  compile_from done p = Some im ->
  length im = length done + length p /\
  firstn (length done) im = done /\
  (forall n s, nth_error p n = Some s ->
     exists c, nth_error im (length done + n) = Some c /\
               visit_module (firstn (length done + n) im) s = Some c).
Proof.
  induction p as [|s p IH]; intros done im E; cbn in E.
  - injection E as <-. rewrite Nat.add_0_r. split; [reflexivity|].
    split; [apply firstn_all|]. intros [|n] s' H; discriminate.
  - destruct (visit_module done s) as [c|] eqn:V; [|discriminate].
    destruct (IH _ _ E) as (L & P & N).
    rewrite app_length in L, P, N. cbn in L, P, N.
    assert (Q : firstn (length done) im = done).
    { assert (firstn (length done) (firstn (length done + 1) im) = firstn (length done) (done ++ [c]))
        as H by (rewrite P; reflexivity).
      rewrite firstn_firstn, Nat.min_l, firstn_app, Nat.sub_diag, firstn_O, app_nil_r, firstn_all in H
        by lia. exact H. }
    split; [cbn; lia|]. split; [exact Q|].
    intros [|n] s' H; cbn in H.
    + injection H as <-. exists c. rewrite Nat.add_0_r, Q. split; [|exact V].
      assert (nth_error (firstn (length done + 1) im) (length done) = Some c) as H.
      { rewrite P, nth_error_app2, Nat.sub_diag by lia. reflexivity. }
      rewrite <- (firstn_skipn (length done + 1) im), nth_error_app1; [exact H|].
      apply nth_error_Some. rewrite H. discriminate.
    + destruct (N _ _ H) as (c' & A & B). exists c'.
      replace (length done + S n) with (length done + 1 + n) by lia. split; assumption.
Qed.

Lemma compile_spec : forall p im, compile p = Some im ->
  length im = length p /\
  (forall n s, nth_error p n = Some s ->
     exists c, nth_error im n = Some c /\ visit_module (firstn n im) s = Some c).
Proof.
  intros p im E. destruct (compile_from_spec _ _ _ E) as (L & _ & N). split; assumption.
Qed.

Lemma nth_firstn : forall {A} n (l : list A) m, m < n -> nth_error (firstn n l) m = nth_error l m.
Proof.
  induction n as [|n IH]; intros [|x l] [|m] H; cbn; try reflexivity; try lia.
  apply IH. lia.
Qed.

Lemma has_init_firstn : forall im n m, m < n -> has_init (firstn n im) m = has_init im m.
Proof. intros. unfold has_init. rewrite nth_firstn by assumption. reflexivity. Qed.

Lemma has_free_firstn : forall im n m, m < n -> has_free (firstn n im) m = has_free im m.
Proof. intros. unfold has_free. rewrite nth_firstn by assumption. reflexivity. Qed.

Lemma imports_in : forall l k m, In (k, m) (imports l) <-> In (Imp k m) l.
Proof.
  induction l as [|c l IH]; intros k m; cbn; [tauto|].
  specialize (IH k m). destruct c; cbn; intuition congruence.
Qed.

Lemma visit_imports_firstn : forall im n l seen,
  Forall (fun i => snd i < n) l ->
  visit_imports (firstn n im) seen l = visit_imports im seen l.
Proof.
  intros im n. induction l as [|[k m] l IH]; intros seen H; [reflexivity|].
  inversion H as [|? ? A B]; subst. cbn in *. rewrite has_init_firstn, IH by assumption.
  reflexivity.
Qed.

Lemma below_imports : forall n l, Forall (stm_below n) l -> Forall (fun i => snd i < n) (imports l).
Proof.
  intros n l H. apply Forall_forall. intros [k m] I. apply imports_in in I.
  rewrite Forall_forall in H. exact (H _ I).
Qed.

Lemma visit_body_firstn : forall im n e l,
  Forall (stm_below n) l -> visit_body (firstn n im) e l = visit_body im e l.
Proof.
  intros. unfold visit_body. rewrite visit_imports_firstn; [reflexivity|].
  apply below_imports. assumption.
Qed.

Lemma put_in : forall l k m i, In i (put k m l) -> i = (k, m) \/ In i l.
Proof.
  induction l as [|[k' m'] l IH]; intros k m i H; cbn in H.
  - destruct H as [<-|[]]. left. reflexivity.
  - destruct (key_eqb k k').
    + destruct H as [<-|H]; [left; reflexivity|]. right. right. exact H.
    + destruct H as [<-|H]; [right; left; reflexivity|].
      destruct (IH _ _ _ H) as [->|G]; [left; reflexivity|]. right. right. exact G.
Qed.

Lemma container_from_in : forall l c i,
  In i (fold_left (fun c i => put (fst i) (snd i) c) l c) -> In i c \/ In i l.
Proof.
  induction l as [|[k m] l IH]; intros c i H; cbn in H; [left; exact H|].
  destruct (IH _ _ H) as [G|G].
  - destruct (put_in _ _ _ _ G) as [->|F]; [right; left; reflexivity|]. left. exact F.
  - right. right. exact G.
Qed.

Lemma container_in : forall l i, In i (container l) -> In i l.
Proof. intros l i H. destruct (container_from_in _ _ _ H) as [[]|G]. exact G. Qed.

Lemma flat_map_ext_in' : forall {A B} (f g : A -> list B) l,
  (forall x, In x l -> f x = g x) -> flat_map f l = flat_map g l.
Proof.
  induction l as [|x l IH]; intros H; [reflexivity|]. cbn.
  rewrite (H x), IH; [reflexivity | |left; reflexivity].
  intros y I. apply H. right. exact I.
Qed.

Lemma import_frees_firstn : forall im n l,
  Forall (fun i => snd i < n) l -> import_frees (firstn n im) l = import_frees im l.
Proof.
  intros im n l H. unfold import_frees. apply flat_map_ext_in'. intros [[m'|a] m] I; [|reflexivity].
  cbn. rewrite has_free_firstn; [reflexivity|].
  apply container_in in I. rewrite Forall_forall in H. exact (H _ I).
Qed.

(** The module number [n] of an image. *)
Definition frees_of (im : list cmod) (n : nat) (s : source) (deallocs : list nat) : list cstm :=
  import_frees im (imports (top s ++ after s)) ++ map (fun v => CDo (Freed n v)) deallocs.

Inductive made (im : list cmod) (n : nat) (s : source) (c : cmod) : Prop :=
| made_none :
    visit_body im (Ran n) (top s ++ after s) = [] ->
    c_init c = None -> c_free c = None ->
    c_funs c = map (visit_body im Did) (funs s) ->
    (forall l, main s = Some l -> c_main c = Some (visit_body im Did l)) ->
    (main s = None -> c_main c = None) ->
    made im n s c
| made_some temps deallocs :
    visit_body im (Ran n) (top s ++ after s) <> [] ->
    split (arrays s) = Some (temps, deallocs) ->
    c_init c = Some (visit_body im (Ran n) (top s ++ after s)
                     ++ map (fun v => CDo (Freed n v)) temps) ->
    c_free c = match frees_of im n s deallocs with [] => None | l => Some l end ->
    c_funs c = map (visit_body im Did) (funs s) ->
    (forall l, main s = Some l ->
       c_main c = Some (CInit n :: visit_body im Did l
                        ++ match frees_of im n s deallocs with [] => [] | _ => [CFree n] end)) ->
    (main s = None -> c_main c = None) ->
    made im n s c.

Lemma compile_made : forall p im, project p -> compile p = Some im ->
  length im = length p /\
  (forall n s, nth_error p n = Some s -> exists c, nth_error im n = Some c /\ made im n s c).
Proof.
  intros p im P E. destruct (compile_spec _ _ E) as (L & N). split; [exact L|].
  intros n s H. destruct (N _ _ H) as (c & A & V). exists c. split; [exact A|].
  destruct (P _ _ H) as ((T & _) & M & F).
  assert (Ln : length (firstn n im) = n).
  { rewrite firstn_length, Nat.min_l; [reflexivity|].
    apply Nat.lt_le_incl. apply nth_error_Some. rewrite A. discriminate. }
  unfold visit_module in V. rewrite Ln, visit_body_firstn in V by exact T.
  rewrite import_frees_firstn in V by (apply below_imports; exact T).
  assert (Fs : map (visit_body (firstn n im) Did) (funs s) = map (visit_body im Did) (funs s)).
  { apply map_ext_in. intros l I. apply visit_body_firstn.
    rewrite Forall_forall in F. exact (proj1 (F _ I)). }
  assert (Ms : forall l, main s = Some l -> visit_body (firstn n im) Did l = visit_body im Did l).
  { intros l I. apply visit_body_firstn. exact (proj1 (M _ I)). }
  rewrite Fs in V.
  destruct (visit_body im (Ran n) (top s ++ after s)) as [|b0 body] eqn:B.
  - injection V as <-. apply made_none; cbn; try reflexivity; try assumption.
    + intros l I. rewrite I, Ms by exact I. reflexivity.
    + intros I. rewrite I. reflexivity.
  - destruct (split (arrays s)) as [[temps deallocs]|] eqn:S; [|discriminate].
    injection V as <-. apply (made_some _ _ _ _ temps deallocs); cbn; try reflexivity.
    + rewrite B. discriminate.
    + exact S.
    + rewrite B. reflexivity.
    + unfold frees_of.
      destruct (import_frees im (imports (top s ++ after s)) ++ map (fun v => CDo (Freed n v)) deallocs);
        reflexivity.
    + intros l I. rewrite I, Ms by exact I. unfold frees_of.
      destruct (import_frees im (imports (top s ++ after s)) ++ map (fun v => CDo (Freed n v)) deallocs);
        reflexivity.
    + intros I. rewrite I. reflexivity.
Qed.

(** * Execution *)

Lemma exec_more : forall n im body st st', exec n im body st = Some st' ->
  forall n', n <= n' -> exec n' im body st = Some st'.
Proof.
  induction n as [|n IH]; intros im body st st' E n' L; [discriminate|].
  destruct n' as [|n']; [lia|]. assert (L' : n <= n') by lia.
  destruct body as [|c body]; cbn in *; [exact E|].
  destruct c as [m|e|m f|m].
  - destruct (nth_error im m) as [c|]; [|discriminate].
    destruct (c_init c) as [b|]; [|discriminate].
    destruct (fst st m); [apply (IH _ _ _ _ E _ L')|].
    destruct (exec n im b st) as [st1|] eqn:E1; [|discriminate].
    rewrite (IH _ _ _ _ E1 _ L'). apply (IH _ _ _ _ E _ L').
  - apply (IH _ _ _ _ E _ L').
  - destruct (nth_error im m) as [c|]; [|discriminate].
    destruct (nth_error (c_funs c) f) as [b|]; [|discriminate].
    destruct (exec n im b st) as [st1|] eqn:E1; [|discriminate].
    rewrite (IH _ _ _ _ E1 _ L'). apply (IH _ _ _ _ E _ L').
  - destruct (nth_error im m) as [c|]; [|discriminate].
    destruct (c_free c) as [b|]; [|discriminate].
    destruct (fst st m); [|apply (IH _ _ _ _ E _ L')].
    destruct (exec n im b st) as [st1|] eqn:E1; [|discriminate].
    rewrite (IH _ _ _ _ E1 _ L'). apply (IH _ _ _ _ E _ L').
Qed.

(** One statement. *)
Definition one (n : nat) (im : list cmod) (c : cstm) (st : state) : option state :=
  match c with
  | CDo e => Some (fst st, snd st ++ [e])
  | CCall m f =>
      match nth_error im m with
      | Some c => match nth_error (c_funs c) f with
                  | Some b => exec n im b st
                  | None => None
                  end
      | None => None
      end
  | CInit m =>
      match nth_error im m with
      | Some c =>
          match c_init c with
          | Some b =>
              if fst st m then Some st
              else match exec n im b st with
                   | Some st' => Some (set_flag m true (fst st'), snd st')
                   | None => None
                   end
          | None => None
          end
      | None => None
      end
  | CFree m =>
      match nth_error im m with
      | Some c =>
          match c_free c with
          | Some b =>
              if fst st m
              then match exec n im b st with
                   | Some st' => Some (set_flag m false (fst st'), snd st')
                   | None => None
                   end
              else Some st
          | None => None
          end
      | None => None
      end
  end.

Lemma exec_cons : forall n im c rest st,
  exec (S n) im (c :: rest) st =
  match one n im c st with Some st' => exec n im rest st' | None => None end.
Proof. reflexivity. Qed.

Lemma one_more : forall n im c st st', one n im c st = Some st' ->
  forall n', n <= n' -> one n' im c st = Some st'.
Proof.
  intros n im c st st' E n' L. destruct c as [m|e|m f|m]; cbn in *.
  - destruct (nth_error im m) as [c|]; [|discriminate].
    destruct (c_init c) as [b|]; [|discriminate].
    destruct (fst st m); [exact E|].
    destruct (exec n im b st) as [st1|] eqn:E1; [|discriminate].
    rewrite (exec_more _ _ _ _ _ E1 _ L). exact E.
  - exact E.
  - destruct (nth_error im m) as [c|]; [|discriminate].
    destruct (nth_error (c_funs c) f) as [b|]; [|discriminate].
    apply (exec_more _ _ _ _ _ E _ L).
  - destruct (nth_error im m) as [c|]; [|discriminate].
    destruct (c_free c) as [b|]; [|discriminate].
    destruct (fst st m); [|exact E].
    destruct (exec n im b st) as [st1|] eqn:E1; [|discriminate].
    rewrite (exec_more _ _ _ _ _ E1 _ L). exact E.
Qed.

(** Fuel which is enough. *)
Definition does (im : list cmod) (body : list cstm) (st st' : state) : Prop :=
  exists n, exec n im body st = Some st'.

Lemma does_nil : forall im st, does im [] st st.
Proof. intros. exists 1. reflexivity. Qed.

Lemma does_cons : forall im c rest st st1 st2,
  (exists n, one n im c st = Some st1) -> does im rest st1 st2 -> does im (c :: rest) st st2.
Proof.
  intros im c rest st st1 st2 [n A] [k B]. exists (S (n + k)). rewrite exec_cons.
  rewrite (one_more _ _ _ _ _ A (n + k)) by lia. apply (exec_more _ _ _ _ _ B). lia.
Qed.

Lemma does_app : forall im b1 b2 st st1 st2,
  does im b1 st st1 -> does im b2 st1 st2 -> does im (b1 ++ b2) st st2.
Proof.
  intros im b1 b2 st st1 st2 [n A] B. revert b1 st A.
  induction n as [|n IH]; intros b1 st A; [discriminate|].
  destruct b1 as [|c b1].
  - cbn in A. injection A as ->. exact B.
  - rewrite exec_cons in A. destruct (one n im c st) as [st3|] eqn:O; [|discriminate].
    apply (does_cons _ _ _ _ st3); [exists n; exact O|]. apply IH. exact A.
Qed.

Lemma exec_app : forall n im b1 b2 st st2, exec n im (b1 ++ b2) st = Some st2 ->
  exists st1, exec n im b1 st = Some st1 /\ exec n im b2 st1 = Some st2.
Proof.
  induction n as [|n IH]; intros im b1 b2 st st2 E; [discriminate|].
  destruct b1 as [|c b1].
  - exists st. split; [reflexivity | exact E].
  - rewrite <- app_comm_cons, exec_cons in E.
    destruct (one n im c st) as [st3|] eqn:O; [|discriminate].
    destruct (IH _ _ _ _ _ E) as (st1 & A & B). exists st1.
    rewrite exec_cons, O. split; [exact A|]. apply (exec_more _ _ _ _ _ B). lia.
Qed.

Lemma set_same : forall m b fl, set_flag m b fl m = b.
Proof. intros. unfold set_flag. rewrite Nat.eqb_refl. reflexivity. Qed.

Lemma set_other : forall m b fl k, k <> m -> set_flag m b fl k = fl k.
Proof. intros m b fl k H. unfold set_flag. apply Nat.eqb_neq in H. rewrite H. reflexivity. Qed.

(** * The statements of each module run once *)

Definition direct (body : list cstm) : list event :=
  flat_map (fun c => match c with CDo e => [e] | _ => [] end) body.

Definition of_module (k : nat) (e : event) : bool :=
  match e with Ran m _ | Freed m _ => Nat.eqb m k | Did _ => false end.

Definition mine (k : nat) (t : list event) : list event := filter (of_module k) t.
Arguments mine : simpl never.

Definition place (b : nat) (e : event) : Prop :=
  match e with Ran m _ | Freed m _ => m = b | Did _ => True end.

Definition cbelow (n : nat) (c : cstm) : Prop :=
  match c with CInit m => m < n | CCall m _ => m <= n | CDo _ => True | CFree _ => False end.

Definition image (p : list source) (im : list cmod) : Prop :=
  project p /\ length im = length p /\
  (forall n s, nth_error p n = Some s -> exists c, nth_error im n = Some c /\ made im n s c).

Lemma compile_image : forall p im, project p -> compile p = Some im -> image p im.
Proof.
  intros p im P E. destruct (compile_made _ _ P E) as (L & H). exact (conj P (conj L H)).
Qed.

Lemma image_source : forall p im m c, image p im -> nth_error im m = Some c ->
  exists s, nth_error p m = Some s /\ made im m s c.
Proof.
  intros p im m c (_ & L & H) E.
  destruct (nth_error p m) as [s|] eqn:S.
  - exists s. split; [reflexivity|]. destruct (H _ _ S) as (c' & A & B).
    rewrite E in A. injection A as <-. exact B.
  - apply nth_error_None in S. assert (nth_error im m <> None) as N by (rewrite E; discriminate).
    apply nth_error_Some in N. lia.
Qed.

Lemma image_init : forall p im m c b, image p im -> nth_error im m = Some c -> c_init c = Some b ->
  exists s temps deallocs, nth_error p m = Some s /\ split (arrays s) = Some (temps, deallocs) /\
    b = visit_body im (Ran m) (top s ++ after s) ++ map (fun v => CDo (Freed m v)) temps.
Proof.
  intros p im m c b I N E. destruct (image_source _ _ _ _ I N) as (s & S & M).
  destruct M as [_ X|temps deallocs _ Sp X]; [congruence|].
  exists s, temps, deallocs. split; [exact S|]. split; [exact Sp|]. congruence.
Qed.

Lemma direct_app : forall a b, direct (a ++ b) = direct a ++ direct b.
Proof. intros. unfold direct. apply flat_map_app. Qed.

Lemma mine_app : forall k a b, mine k (a ++ b) = mine k a ++ mine k b.
Proof. intros. apply filter_app. Qed.

Lemma direct_imports : forall im l seen, direct (visit_imports im seen l) = [].
Proof.
  intros im. induction l as [|[k m] l IH]; intros seen; [reflexivity|].
  cbn. rewrite direct_app, IH. destruct (existsb (key_eqb k) seen); [reflexivity|].
  destruct (has_init im m); reflexivity.
Qed.

Lemma direct_rest : forall e l, direct (visit_rest e l) = map e (labels l).
Proof.
  intros e. induction l as [|[] l IH]; cbn; try reflexivity; try exact IH. f_equal. exact IH.
Qed.

Lemma direct_body : forall im e l, direct (visit_body im e l) = map e (labels l).
Proof. intros. unfold visit_body. rewrite direct_app, direct_imports, direct_rest. reflexivity. Qed.

Lemma direct_freed : forall m l, direct (map (fun v => CDo (Freed m v)) l) = map (Freed m) l.
Proof. intros m. induction l as [|x l IH]; [reflexivity|]. cbn. f_equal. exact IH. Qed.

Lemma imports_below : forall im n l seen, Forall (fun i => snd i < n) l ->
  Forall (cbelow n) (visit_imports im seen l).
Proof.
  intros im n. induction l as [|[k m] l IH]; intros seen H; [constructor|].
  inversion H; subst. cbn in *. apply Forall_app. split; [|apply IH; assumption].
  destruct (existsb (key_eqb k) seen); [constructor|].
  destruct (has_init im m); [constructor; [assumption|constructor] | constructor].
Qed.

Lemma rest_below : forall n e l, Forall (stm_below n) l -> Forall (cbelow n) (visit_rest e l).
Proof.
  intros n e. induction l as [|c l IH]; intros H; [constructor|].
  inversion H as [|? ? A B]; subst.
  destruct c; cbn in *; try (constructor; [|apply IH; assumption]); try assumption; try exact Logic.I;
    apply IH; assumption.
Qed.

Lemma body_below : forall im n e l, Forall (stm_below n) l -> Forall (cbelow n) (visit_body im e l).
Proof.
  intros. apply Forall_app. split; [|apply rest_below; assumption].
  apply imports_below, below_imports. assumption.
Qed.

Lemma freed_below : forall n m l, Forall (cbelow n) (map (fun v => CDo (Freed m v)) l).
Proof. intros n m. induction l; constructor; [exact Logic.I | assumption]. Qed.

Lemma place_map : forall b (e : nat -> event) l, (forall s, place b (e s)) -> Forall (place b) (map e l).
Proof. intros b e l H. induction l; constructor; [apply H | assumption]. Qed.

Lemma mine_place : forall b k t, Forall (place b) t -> k <> b -> mine k t = [].
Proof.
  intros b k t H N. induction H as [|e t A B IH]; [reflexivity|].
  unfold mine in *. cbn. rewrite IH. destruct e as [m s|s|m v]; cbn in *; [|reflexivity|]; subst m;
    (destruct (Nat.eqb_spec b k); [congruence | reflexivity]).
Qed.

Lemma mine_did : forall k l, mine k (map Did l) = [].
Proof. intros k. induction l; [reflexivity | assumption]. Qed.

(** The body of the initialisation function. *)
Definition ibody (im : list cmod) (k : nat) : list cstm :=
  match nth_error im k with
  | Some c => match c_init c with Some b => b | None => [] end
  | None => []
  end.

Definition Inv (im : list cmod) (b : nat) (st : state) : Prop :=
  forall k, k < b -> mine k (snd st) = if fst st k then mine k (direct (ibody im k)) else [].

Definition Post (im : list cmod) (b : nat) (body : list cstm) (st st' : state) : Prop :=
  Inv im b st' /\
  (forall k, b <= k -> fst st' k = fst st k) /\
  (forall k, b <= k -> mine k (snd st') = mine k (snd st) ++ mine k (direct body)) /\
  (forall k, fst st k = true -> fst st' k = true) /\
  (forall d, In (CInit d) body -> fst st' d = true).

Lemma run_inv : forall p im, image p im -> forall n body b st st',
  exec n im body st = Some st' ->
  Forall (cbelow b) body -> Forall (place b) (direct body) -> Inv im b st ->
  Post im b body st st'.
Proof.
  intros p im I. induction n as [|n IH]; intros body b st st' E F D V; [discriminate|].
  destruct body as [|c rest].
  { cbn in E. injection E as <-. split; [exact V|]. split; [reflexivity|].
    split; [intros; cbn; rewrite app_nil_r; reflexivity|]. split; [auto|]. intros d []. }
  rewrite exec_cons in E. destruct (one n im c st) as [st1|] eqn:O; [|discriminate].
  inversion F as [|? ? Fc Fr]; subst.
  change (c :: rest) with ([c] ++ rest) in D. rewrite direct_app in D. apply Forall_app in D.
  destruct D as [Dc Dr].
  assert (Q : Post im b [c] st st1).
  { destruct c as [m|e|m f|m]; cbn in O, Fc, Dc.
    - destruct (nth_error im m) as [c|] eqn:N; [|discriminate].
      destruct (c_init c) as [ib|] eqn:C; [|discriminate].
      destruct (fst st m) eqn:G.
      + injection O as <-. split; [exact V|]. split; [reflexivity|].
        split; [intros; cbn; rewrite app_nil_r; reflexivity|]. split; [auto|].
        intros d [X|[]]. injection X as <-. exact G.
      + destruct (exec n im ib st) as [st2|] eqn:E2; [|discriminate]. injection O as <-.
        destruct (image_init _ _ _ _ _ I N C) as (s & temps & deallocs & S & Sp & B).
        destruct (proj1 I _ _ S) as ((T & _) & _ & _).
        destruct (IH ib m st st2 E2) as (V2 & G2 & M2 & Mo & _).
        { rewrite B. apply Forall_app. split; [apply body_below; exact T | apply freed_below]. }
        { rewrite B, direct_app, direct_body, direct_freed. apply Forall_app.
          split; apply place_map; intros; reflexivity. }
        { intros k L. apply V. lia. }
        assert (P2 : Forall (place m) (direct ib)).
        { rewrite B, direct_app, direct_body, direct_freed. apply Forall_app.
          split; apply place_map; intros; reflexivity. }
        split; [|split; [|split; [|split]]].
        * intros k L. cbn. destruct (Nat.eq_dec k m) as [->|Nk].
          -- rewrite set_same, M2 by lia. rewrite V, G by assumption. cbn.
             unfold ibody. rewrite N, C. reflexivity.
          -- rewrite set_other by exact Nk. destruct (le_lt_dec m k) as [Le|Lt].
             ++ rewrite M2, (mine_place m k (direct ib)), app_nil_r, G2, V by (assumption || lia). reflexivity.
             ++ apply V2. exact Lt.
        * intros k L. cbn. rewrite set_other by lia. apply G2. lia.
        * intros k L. cbn. rewrite app_nil_r, M2, (mine_place m k (direct ib)), app_nil_r by (assumption || lia).
          reflexivity.
        * intros k H. cbn. destruct (Nat.eq_dec k m) as [->|Nk]; [apply set_same|].
          rewrite set_other by exact Nk. apply Mo. exact H.
        * intros d [X|[]]. injection X as <-. apply set_same.
    - injection O as <-. inversion Dc as [|? ? De _]; subst.
      split; [|split; [|split; [|split]]].
      + intros k L. cbn. rewrite mine_app, (mine_place b) with (t := [e]), app_nil_r
          by (constructor; [exact De | constructor] || lia).
        apply V. exact L.
      + reflexivity.
      + intros k L. cbn -[mine]. rewrite mine_app. reflexivity.
      + auto.
      + intros d [X|[]]. discriminate.
    - destruct (nth_error im m) as [c|] eqn:N; [|discriminate].
      destruct (nth_error (c_funs c) f) as [fb|] eqn:C; [|discriminate].
      destruct (image_source _ _ _ _ I N) as (s & S & M).
      destruct (proj1 I _ _ S) as (_ & _ & T).
      assert (exists l, In l (funs s) /\ fb = visit_body im Did l) as (l & Il & ->).
      { assert (c_funs c = map (visit_body im Did) (funs s)) as X by (destruct M; assumption).
        rewrite X in C. apply nth_error_In in C. apply in_map_iff in C.
        destruct C as (l & <- & Il). exists l. split; [exact Il | reflexivity]. }
      rewrite Forall_forall in T. destruct (T _ Il) as (Tb & _).
      destruct (IH _ m st st1 O) as (V2 & G2 & M2 & Mo & _).
      { apply body_below. exact Tb. }
      { rewrite direct_body. apply place_map. intros. exact Logic.I. }
      { intros k L. apply V. lia. }
      rewrite direct_body in M2.
      split; [|split; [|split; [|split]]].
      + intros k L. destruct (le_lt_dec m k) as [Le|Lt]; [|apply V2; exact Lt].
        rewrite M2, mine_did, app_nil_r, G2 by exact Le. apply V. exact L.
      + intros k L. apply G2. lia.
      + intros k L. rewrite M2, mine_did by lia. reflexivity.
      + exact Mo.
      + intros d [X|[]]. discriminate.
    - destruct Fc. }
  destruct Q as (V1 & G1 & M1 & O1 & C1).
  destruct (IH rest b st1 st' E Fr Dr V1) as (V2 & G2 & M2 & O2 & C2).
  split; [exact V2|]. split; [|split; [|split]].
  - intros k L. rewrite G2, G1 by exact L. reflexivity.
  - intros k L. rewrite M2, M1 by exact L. change (c :: rest) with ([c] ++ rest).
    rewrite direct_app, mine_app, app_assoc. reflexivity.
  - intros k H. apply O2, O1. exact H.
  - intros d [X|X]; [|apply C2; exact X]. apply O2, C1. left. exact X.
Qed.

Lemma own_mine : forall k t, own k t = own k (mine k t).
Proof.
  intros k. induction t as [|e t IH]; [reflexivity|]. unfold own, mine in *.
  destruct e as [m s|s|m v]; cbn; [|exact IH|].
  - destruct (Nat.eqb m k) eqn:E; cbn; [rewrite E, <- IH; reflexivity | exact IH].
  - destruct (Nat.eqb m k) eqn:E; cbn; exact IH.
Qed.

Lemma own_app : forall k a b, own k (a ++ b) = own k a ++ own k b.
Proof. intros. apply filter_app. Qed.

Lemma own_ran : forall m l, own m (map (Ran m) l) = map (Ran m) l.
Proof.
  intros m l. unfold own. induction l as [|x l IH]; [reflexivity|]. cbn. rewrite Nat.eqb_refl, IH.
  reflexivity.
Qed.

Lemma own_freed : forall k m l, own k (map (Freed m) l) = [].
Proof. intros. unfold own. induction l as [|x l IH]; [reflexivity|]. exact IH. Qed.

Lemma own_ibody : forall p im k, image p im -> own k (direct (ibody im k)) = all_of p k.
Proof.
  intros p im k I. unfold ibody, all_of.
  destruct (nth_error im k) as [c|] eqn:N.
  - destruct (image_source _ _ _ _ I N) as (s & S & M). rewrite S.
    destruct M as [B C|temps deallocs _ _ C]; rewrite C.
    + assert (map (Ran k) (labels (top s ++ after s)) = []) as ->; [|reflexivity].
      rewrite <- (direct_body im), B. reflexivity.
    + rewrite direct_app, direct_body, direct_freed, own_app, own_ran, own_freed, app_nil_r. reflexivity.
  - destruct (nth_error p k) eqn:S; [|reflexivity]. destruct I as (_ & L & _).
    apply nth_error_None in N. assert (nth_error p k <> None) as X by (rewrite S; discriminate).
    apply nth_error_Some in X. lia.
Qed.

Lemma own_inv : forall p im b st k, image p im -> Inv im b st -> k < b ->
  own k (snd st) = if fst st k then all_of p k else [].
Proof.
  intros p im b st k I V L. rewrite own_mine, V by exact L.
  destruct (fst st k); [|reflexivity]. rewrite <- own_mine. apply own_ibody. exact I.
Qed.

Lemma inv_start : forall im b, Inv im b start.
Proof. intros im b k L. reflexivity. Qed.

Lemma reqs_bound : forall reqs, Forall request reqs ->
  exists b, forall b', b <= b' -> Forall (cbelow b') reqs.
Proof.
  induction reqs as [|c reqs IH]; intros H; [exists 0; constructor|].
  inversion H as [|? ? A B]; subst. destruct (IH B) as (b & Hb).
  destruct c as [m|e|m f|m]; try destruct A.
  - exists (S m + b). intros b' L. constructor; [cbn; lia | apply Hb; lia].
  - exists (m + b). intros b' L. constructor; [cbn; lia | apply Hb; lia].
Qed.

Lemma reqs_direct : forall reqs, Forall request reqs -> direct reqs = [].
Proof.
  induction 1 as [|c reqs A B IH]; [reflexivity|]. destruct c; try destruct A; exact IH.
Qed.

(** * Imported modules first *)

Definition okev (p : list source) (t : list event) (e : event) : Prop :=
  match e with
  | Ran m _ => forall d, imports_of p m d -> own d t = all_of p d
  | _ => True
  end.

Definition Ord (p : list source) (t : list event) : Prop :=
  forall pre e post, t = pre ++ e :: post -> okev p pre e.

Lemma ord_snoc : forall p t e, Ord p t -> okev p t e -> Ord p (t ++ [e]).
Proof.
  intros p t e O K pre e' post E.
  destruct post as [|x post _] using rev_ind.
  - apply app_inj_tail in E. destruct E as [<- <-]. exact K.
  - change (e' :: post ++ [x]) with ((e' :: post) ++ [x]) in E. rewrite app_assoc in E.
    apply app_inj_tail in E. destruct E as [-> <-]. apply (O pre e' post). reflexivity.
Qed.

Lemma key_eqb_eq : forall k k', key_eqb k k' = true <-> k = k'.
Proof.
  intros [m|m] [n|n]; cbn; try rewrite Nat.eqb_eq; split; intros H; try discriminate;
    try (subst; reflexivity); injection H as ->; reflexivity.
Qed.

Lemma visit_imports_in : forall im l seen k m,
  (forall k m m', In (k, m) l -> In (k, m') l -> m = m') ->
  In (k, m) l -> existsb (key_eqb k) seen = false -> has_init im m = true ->
  In (CInit m) (visit_imports im seen l).
Proof.
  intros im. induction l as [|[k0 m0] l IH]; intros seen k m A I X H; [destruct I|].
  cbn. apply in_or_app. destruct (key_eqb k k0) eqn:E.
  - apply key_eqb_eq in E. subst k0. left. rewrite X.
    assert (m0 = m) as ->; [|rewrite H; left; reflexivity].
    apply (A k); [left; reflexivity | exact I].
  - right. apply (IH _ k).
    + intros k1 m1 m2 I1 I2. apply (A k1); right; assumption.
    + destruct I as [I|I]; [|exact I]. injection I as -> ->.
      assert (key_eqb k k = true) as Y by (apply key_eqb_eq; reflexivity). congruence.
    + cbn. rewrite E. exact X.
    + exact H.
Qed.

Lemma no_do_prefix : forall l1 l2 pre e post,
  direct l1 = [] -> l1 ++ l2 = pre ++ CDo e :: post -> exists l, pre = l1 ++ l.
Proof.
  induction l1 as [|c l1 IH]; intros l2 pre e post D E; [exists pre; reflexivity|].
  destruct pre as [|c' pre]; cbn in E.
  - injection E as -> _. discriminate.
  - injection E as -> E. destruct (IH l2 pre e post) as (l & ->); [|exact E|exists l; reflexivity].
    destruct c'; try exact D; discriminate.
Qed.

Definition Ready (p : list source) (im : list cmod) (body : list cstm) (st : state) : Prop :=
  forall pre m s post, body = pre ++ CDo (Ran m s) :: post ->
  forall d, imports_of p m d -> has_init im d = true -> In (CInit d) pre \/ fst st d = true.

Lemma imports_of_lt : forall p m d, project p -> imports_of p m d -> d < m.
Proof.
  intros p m d P (s & k & S & I). destruct (P _ _ S) as ((T & _) & _).
  rewrite Forall_forall in T. exact (T _ I).
Qed.

Lemma no_init_ibody : forall im d, has_init im d = false -> ibody im d = [].
Proof.
  intros im d H. unfold has_init, ibody in *. destruct (nth_error im d) as [c|]; [|reflexivity].
  destruct (c_init c); [discriminate | reflexivity].
Qed.

Lemma run_ord : forall p im, image p im ->
  (forall s, In s p -> keys_agree (top s ++ after s)) ->
  forall n body b st st',
  exec n im body st = Some st' ->
  Forall (cbelow b) body -> Forall (place b) (direct body) -> Inv im b st ->
  Ord p (snd st) -> Ready p im body st -> Ord p (snd st').
Proof.
  intros p im I KA. induction n as [|n IH]; intros body b st st' E F D V O R; [discriminate|].
  destruct body as [|c rest].
  { cbn in E. injection E as <-. exact O. }
  assert (E0 := E).
  rewrite exec_cons in E. destruct (one n im c st) as [st1|] eqn:O1; [|discriminate].
  inversion F as [|? ? Fc Fr]; subst.
  change (c :: rest) with ([c] ++ rest) in D. rewrite direct_app in D. apply Forall_app in D.
  destruct D as [Dc Dr].
  assert (Q : Post im b [c] st st1).
  { apply (run_inv _ _ I (S n)); [|constructor; [exact Fc|constructor]|exact Dc|exact V].
    rewrite exec_cons, O1. destruct n; [discriminate | reflexivity]. }
  assert (Os : Ord p (snd st1)).
  { destruct c as [m|e|m f|m]; cbn in O1, Fc, Dc.
    - destruct (nth_error im m) as [c|] eqn:N; [|discriminate].
      destruct (c_init c) as [ib|] eqn:C; [|discriminate].
      destruct (fst st m) eqn:G; [injection O1 as <-; exact O|].
      destruct (exec n im ib st) as [st2|] eqn:E2; [|discriminate]. injection O1 as <-.
      destruct (image_init _ _ _ _ _ I N C) as (s & temps & deallocs & S & Sp & B).
      destruct (proj1 I _ _ S) as ((T & _) & _ & _). cbn.
      apply (IH ib m st st2 E2).
      + rewrite B. apply Forall_app. split; [apply body_below; exact T | apply freed_below].
      + rewrite B, direct_app, direct_body, direct_freed. apply Forall_app.
        split; apply place_map; intros; reflexivity.
      + intros k L. apply V. lia.
      + exact O.
      + intros pre m' s' post X d Hd Hi. left.
        assert (m' = m) as ->.
        { assert (In (Ran m' s') (direct ib)) as Y.
          { rewrite X, direct_app. apply in_or_app. right. left. reflexivity. }
          rewrite B, direct_app, direct_body, direct_freed in Y. apply in_app_or in Y.
          destruct Y as [Y|Y]; apply in_map_iff in Y; destruct Y as (? & Y & _);
            [injection Y as <- _; reflexivity | discriminate]. }
        destruct Hd as (s1 & k & S1 & Ik). rewrite S in S1. injection S1 as <-.
        rewrite B in X. unfold visit_body in X. rewrite <- app_assoc in X.
        destruct (no_do_prefix _ _ _ _ _ (direct_imports _ _ _) X) as (l & ->).
        apply in_or_app. left. apply (visit_imports_in im _ [] k).
        * intros k1 m1 m2 I1 I2. apply (KA s (nth_error_In _ _ S) k1); apply imports_in; assumption.
        * apply imports_in. exact Ik.
        * reflexivity.
        * exact Hi.
    - injection O1 as <-. cbn. apply ord_snoc; [exact O|].
      destruct e as [m s|s|m v]; try exact Logic.I. cbn. intros d Hd.
      inversion Dc as [|? ? De _]; subst. cbn in De. subst m.
      assert (Lt := imports_of_lt _ _ _ (proj1 I) Hd).
      destruct (has_init im d) eqn:Hi.
      + destruct (R [] b s rest eq_refl d Hd Hi) as [[]|G].
        rewrite (own_inv p im b) by assumption. rewrite G. reflexivity.
      + rewrite (own_inv p im b) by assumption.
        rewrite <- (own_ibody p im d I), (no_init_ibody _ _ Hi). destruct (fst st d); reflexivity.
    - destruct (nth_error im m) as [c|] eqn:N; [|discriminate].
      destruct (nth_error (c_funs c) f) as [fb|] eqn:C; [|discriminate].
      destruct (image_source _ _ _ _ I N) as (s & S & M).
      destruct (proj1 I _ _ S) as (_ & _ & T).
      assert (exists l, In l (funs s) /\ fb = visit_body im Did l) as (l & Il & ->).
      { assert (c_funs c = map (visit_body im Did) (funs s)) as X by (destruct M; assumption).
        rewrite X in C. apply nth_error_In in C. apply in_map_iff in C.
        destruct C as (l & <- & Il). exists l. split; [exact Il | reflexivity]. }
      rewrite Forall_forall in T. destruct (T _ Il) as (Tb & _).
      apply (IH _ m st st1 O1).
      + apply body_below. exact Tb.
      + rewrite direct_body. apply place_map. intros. exact Logic.I.
      + intros k L. apply V. lia.
      + exact O.
      + intros pre m' s' post X. exfalso.
        assert (In (Ran m' s') (direct (visit_body im Did l))) as Y.
        { rewrite X, direct_app. apply in_or_app. right. left. reflexivity. }
        rewrite direct_body in Y. apply in_map_iff in Y. destruct Y as (? & Y & _). discriminate.
    - destruct Fc. }
  destruct Q as (V1 & _ & _ & Mo & C1).
  apply (IH rest b st1 st' E Fr Dr V1 Os).
  intros pre m s post X d Hd Hi.
  destruct (R (c :: pre) m s post) with (d := d) as [[->|G]|G].
  - rewrite X. reflexivity.
  - exact Hd.
  - exact Hi.
  - right. apply C1. left. reflexivity.
  - left. exact G.
  - right. apply Mo. exact G.
Qed.

(** * The release *)

Definition fbody (im : list cmod) (k : nat) : list cstm :=
  match nth_error im k with
  | Some c => match c_free c with Some b => b | None => [] end
  | None => []
  end.

Definition fbelow (im : list cmod) (b : nat) (c : cstm) : Prop :=
  match c with
  | CFree d => d < b /\ has_free im d = true
  | CDo (Freed k _) => k = b
  | _ => False
  end.

Lemma image_free : forall p im m c b, image p im -> nth_error im m = Some c -> c_free c = Some b ->
  exists s temps deallocs, nth_error p m = Some s /\ split (arrays s) = Some (temps, deallocs) /\
    b = frees_of im m s deallocs.
Proof.
  intros p im m c b I N E. destruct (image_source _ _ _ _ I N) as (s & S & M).
  destruct M as [_ _ X|temps deallocs _ Sp _ X]; [congruence|].
  exists s, temps, deallocs. split; [exact S|]. split; [exact Sp|].
  rewrite E in X. destruct (frees_of im m s deallocs); [discriminate|]. congruence.
Qed.

Lemma frees_below : forall p im m s deallocs, image p im -> nth_error p m = Some s ->
  Forall (fbelow im m) (frees_of im m s deallocs).
Proof.
  intros p im m s deallocs I S. destruct (proj1 I _ _ S) as ((T & _) & _ & _).
  apply Forall_app. split.
  - apply Forall_forall. intros c H. apply in_flat_map in H. destruct H as ([k d] & A & B).
    apply container_in, imports_in in A. rewrite Forall_forall in T. specialize (T _ A). cbn in *.
    destruct k; [|destruct B]. destruct (has_free im d) eqn:F; [|destruct B].
    destruct B as [<-|[]]. split; assumption.
  - apply Forall_forall. intros c H. apply in_map_iff in H. destruct H as (v & <- & _). reflexivity.
Qed.

Definition J (im : list cmod) (R : nat -> Prop) (st : state) : Prop :=
  forall j, R j -> fst st j = false -> forall d, In (CFree d) (fbody im j) -> fst st d = false.

Definition Released (im : list cmod) (R : nat -> Prop) (b : nat) (body : list cstm) (st st' : state) : Prop :=
  exists t, snd st' = snd st ++ t /\ seen t = [] /\
  (forall k, k < b -> mine k t =
     if fst st k && negb (fst st' k) then mine k (direct (fbody im k)) else []) /\
  (forall k, b <= k -> fst st' k = fst st k /\ mine k t = mine k (direct body)) /\
  (forall k, fst st k = false -> fst st' k = false) /\
  J im R st' /\
  (forall d, In (CFree d) body -> fst st' d = false).

Lemma seen_app : forall a b, seen (a ++ b) = seen a ++ seen b.
Proof. intros. apply filter_app. Qed.

Lemma fdirect_place : forall im b body, Forall (fbelow im b) body -> Forall (place b) (direct body).
Proof.
  intros im b body H. apply Forall_forall. intros e I. apply in_flat_map in I.
  destruct I as (c & A & B). rewrite Forall_forall in H. specialize (H _ A).
  destruct c as [m|e'|m f|m]; try destruct B as [<-|[]]; try destruct B; destruct e'; try destruct H.
  reflexivity.
Qed.

Lemma run_free : forall p im (R : nat -> Prop), image p im ->
  (forall j d, R j -> In (CFree d) (fbody im j) -> R d) ->
  forall n body b st st',
  exec n im body st = Some st' ->
  Forall (fbelow im b) body -> (forall d, In (CFree d) body -> R d) -> J im R st ->
  Released im R b body st st'.
Proof.
  intros p im R I Rc. induction n as [|n IH]; intros body b st st' E F Rb Js; [discriminate|].
  destruct body as [|c rest].
  { cbn in E. injection E as <-. exists []. rewrite app_nil_r. split; [reflexivity|].
    split; [reflexivity|]. split; [intros k _; destruct (fst st k); reflexivity|].
    split; [intros; split; reflexivity|]. split; [auto|]. split; [exact Js|]. intros d []. }
  rewrite exec_cons in E. destruct (one n im c st) as [st1|] eqn:O; [|discriminate].
  inversion F as [|? ? Fc Fr]; subst.
  assert (Q : Released im R b [c] st st1).
  { destruct c as [m|e|m f|m]; [destruct Fc| |destruct Fc|destruct Fc as [Fm Ff]].
    - injection O as <-. destruct e as [m s|s|m v]; [destruct Fc | destruct Fc|]. cbn in Fc. subst m.
      exists [Freed b v]. split; [reflexivity|]. split; [reflexivity|].
      split; [intros k L; cbn [fst]; rewrite andb_negb_r;
              apply (mine_place b); [constructor; [reflexivity | constructor] | lia]|].
      split; [intros; split; reflexivity|]. split; [auto|]. split; [exact Js|].
      intros d [X|[]]. discriminate.
    - destruct (nth_error im m) as [c|] eqn:N; [|cbn in O; rewrite N in O; discriminate].
      cbn in O. rewrite N in O.
      destruct (c_free c) as [fb|] eqn:C; [|discriminate].
      assert (FB : fbody im m = fb) by (unfold fbody; rewrite N, C; reflexivity).
      destruct (fst st m) eqn:G.
      + destruct (exec n im fb st) as [st2|] eqn:E2; [|discriminate]. injection O as <-.
        destruct (image_free _ _ _ _ _ I N C) as (s & temps & deallocs & S & Sp & B).
        assert (Fb : Forall (fbelow im m) fb) by (rewrite B; apply (frees_below p); assumption).
        destruct (IH fb m st st2 E2 Fb) as (t & Et & Es & Lo & Hi & De & J2 & Cl).
        { intros d Hd. apply (Rc m); [|rewrite FB; exact Hd]. apply Rb. left. reflexivity. }
        { exact Js. }
        assert (Pl := fdirect_place _ _ _ Fb).
        exists t. cbn. split; [exact Et|]. split; [exact Es|]. split; [|split; [|split; [|split]]].
        * intros k L. destruct (Nat.eq_dec k m) as [->|Nk].
          -- rewrite set_same, G. cbn. rewrite FB. apply Hi. lia.
          -- rewrite set_other by exact Nk. destruct (le_lt_dec m k) as [Le|Lt].
             ++ destruct (Hi k Le) as [-> ->]. rewrite andb_negb_r. apply (mine_place m); assumption.
             ++ apply Lo. exact Lt.
        * intros k L. rewrite set_other by lia. destruct (Hi k) as [-> ->]; [lia|].
          split; [reflexivity|]. apply (mine_place m); [exact Pl | lia].
        * intros k H. destruct (Nat.eq_dec k m) as [->|Nk]; [apply set_same|].
          rewrite set_other by exact Nk. apply De. exact H.
        * intros j Rj. cbn. destruct (Nat.eq_dec j m) as [->|Nj].
          -- intros _ d Hd. destruct (Nat.eq_dec d m) as [->|Nd]; [apply set_same|].
             rewrite set_other by exact Nd. apply Cl. rewrite FB in Hd. exact Hd.
          -- rewrite set_other by exact Nj. intros X d Hd.
             destruct (Nat.eq_dec d m) as [->|Nd]; [apply set_same|].
             rewrite set_other by exact Nd. apply (J2 j Rj X d Hd).
        * intros d [X|[]]. injection X as <-. apply set_same.
      + injection O as <-. exists []. rewrite app_nil_r. split; [reflexivity|].
        split; [reflexivity|]. split; [intros k _; destruct (fst st k); reflexivity|].
        split; [intros; split; reflexivity|]. split; [auto|]. split; [exact Js|].
        intros d [X|[]]. injection X as <-. exact G. }
  destruct Q as (t1 & Et1 & Es1 & Lo1 & Hi1 & De1 & J1 & Cl1).
  destruct (IH rest b st1 st' E Fr) as (t2 & Et2 & Es2 & Lo2 & Hi2 & De2 & J2 & Cl2).
  { intros d Hd. apply Rb. right. exact Hd. }
  { exact J1. }
  exists (t1 ++ t2). split; [rewrite Et2, Et1, app_assoc; reflexivity|].
  split; [rewrite seen_app, Es1, Es2; reflexivity|]. split; [|split; [|split; [|split]]].
  - intros k L. rewrite mine_app, Lo1, Lo2 by exact L.
    specialize (De1 k). specialize (De2 k).
    destruct (fst st k), (fst st1 k), (fst st' k); cbn; try rewrite app_nil_r; try reflexivity;
      try (specialize (De1 eq_refl); discriminate); try (specialize (De2 eq_refl); discriminate).
  - intros k L. destruct (Hi1 k L) as [A1 B1]. destruct (Hi2 k L) as [A2 B2].
    split; [congruence|]. rewrite mine_app, B1, B2, <- mine_app, <- direct_app. reflexivity.
  - intros k H. apply De2, De1. exact H.
  - exact J2.
  - intros d [X|X]; [|apply Cl2; exact X]. apply De2, Cl1. left. exact X.
Qed.

Lemma free_total : forall p im, image p im -> forall m, has_free im m = true -> forall st,
  exists n st', one n im (CFree m) st = Some st'.
Proof.
  intros p im I m. induction m as [m IH] using (well_founded_induction lt_wf). intros H st.
  unfold has_free in H. destruct (nth_error im m) as [c|] eqn:N; [|discriminate].
  destruct (c_free c) as [fb|] eqn:C; [|discriminate].
  destruct (image_free _ _ _ _ _ I N C) as (s & temps & deallocs & S & Sp & B).
  assert (Fb : Forall (fbelow im m) fb) by (rewrite B; apply (frees_below p); assumption).
  assert (exists st2, does im fb st st2) as (st2 & n & E).
  { clear B C. revert st. induction Fb as [|x fb A F IHl]; intros st.
    - exists st. apply does_nil.
    - assert (exists n st1, one n im x st = Some st1) as (n & st1 & O).
      { destruct x as [d|e|d f|d]; try destruct A.
        - exists 0, (fst st, snd st ++ [e]). reflexivity.
        - apply IH; assumption. }
      destruct (IHl st1) as (st2 & D). exists st2. apply (does_cons _ _ _ _ st1); [exists n; exact O|].
      exact D. }
  exists n. cbn. rewrite N, C. destruct (fst st m); [|exists st; reflexivity].
  rewrite E. eexists. reflexivity.
Qed.

(** The program. *)
Lemma program_split : forall p im n t fuel, image p im -> run_program fuel im n = Some t ->
  exists s l st1 st2 tail,
    nth_error p n = Some s /\ main s = Some l /\
    exec fuel im ((if has_init im n then [CInit n] else []) ++ visit_body im Did l) start = Some st1 /\
    exec fuel im tail st1 = Some st2 /\ t = snd st2 /\
    tail = (if has_free im n then [CFree n] else []).
Proof.
  intros p im n t fuel I E. unfold run_program in E.
  destruct (nth_error im n) as [c|] eqn:N; [|discriminate].
  destruct (c_main c) as [b|] eqn:C; [|discriminate].
  destruct (exec fuel im b start) as [st2|] eqn:X; [|discriminate]. injection E as <-.
  destruct (image_source _ _ _ _ I N) as (s & S & M).
  assert (exists l, main s = Some l) as (l & Ml).
  { destruct (main s) as [l|] eqn:Y; [exists l; reflexivity|].
    destruct M as [_ _ _ _ _ Z|? ? _ _ _ _ _ _ Z]; rewrite (Z Y) in C; discriminate. }
  unfold has_init, has_free. rewrite N.
  destruct M as [_ Ci Cf _ Z _|temps deallocs _ _ Ci Cf _ Z _]; rewrite (Z _ Ml) in C;
    injection C as <-; rewrite Ci, Cf.
  - exists s, l, st2, st2, []. split; [exact S|]. split; [exact Ml|]. split; [exact X|].
    split; [destruct fuel; [discriminate | reflexivity]|]. split; reflexivity.
  - rewrite app_comm_cons in X. destruct (exec_app _ _ _ _ _ _ X) as (st1 & A & B).
    exists s, l, st1, st2, (match frees_of im n s deallocs with [] => [] | _ => [CFree n] end).
    split; [exact S|]. split; [exact Ml|]. split; [exact A|]. split; [exact B|].
    split; [reflexivity|]. destruct (frees_of im n s deallocs); reflexivity.
Qed.

Lemma ready_none : forall p im body st,
  (forall m s, ~ In (Ran m s) (direct body)) -> Ready p im body st.
Proof.
  intros p im body st H pre m s post X. exfalso. apply (H m s). rewrite X, direct_app.
  apply in_or_app. right. left. reflexivity.
Qed.

Lemma did_no_ran : forall l m s, ~ In (Ran m s) (map Did l).
Proof. intros l m s H. apply in_map_iff in H. destruct H as (? & X & _). discriminate. Qed.

Lemma ord_start : forall p, Ord p [].
Proof. intros p pre e post X. destruct pre; discriminate. Qed.

(** The first part of the program. *)
Lemma main_below : forall p im n s l, image p im -> nth_error p n = Some s -> main s = Some l ->
  Forall (cbelow (S n)) ((if has_init im n then [CInit n] else []) ++ visit_body im Did l) /\
  direct ((if has_init im n then [CInit n] else []) ++ visit_body im Did l) = map Did (labels l).
Proof.
  intros p im n s l I S M. destruct (proj1 I _ _ S) as (_ & Ml & _). destruct (Ml _ M) as (T & _).
  split.
  - apply Forall_app. split.
    + destruct (has_init im n); constructor; [cbn; lia | constructor].
    + apply Forall_forall. intros c Hc. assert (B := body_below im n Did l T).
      rewrite Forall_forall in B. specialize (B _ Hc). destruct c; cbn in *; try lia; exact B.
  - rewrite direct_app, direct_body. destruct (has_init im n); reflexivity.
Qed.

Definition is_freed (e : event) : Prop := match e with Freed _ _ => True | _ => False end.

Lemma run_free_seen : forall p im, image p im -> forall n body b st st',
  exec n im body st = Some st' -> Forall (fbelow im b) body ->
  exists t, snd st' = snd st ++ t /\ Forall is_freed t.
Proof.
  intros p im I. induction n as [|n IH]; intros body b st st' E F; [discriminate|].
  destruct body as [|c rest].
  { cbn in E. injection E as <-. exists []. rewrite app_nil_r. split; [reflexivity | constructor]. }
  rewrite exec_cons in E. destruct (one n im c st) as [st1|] eqn:O; [|discriminate].
  inversion F as [|? ? Fc Fr]; subst.
  assert (exists t, snd st1 = snd st ++ t /\ Forall is_freed t) as (t1 & A1 & B1).
  { destruct c as [m|e|m f|m]; [destruct Fc| |destruct Fc|destruct Fc as [Fm Ff]].
    - injection O as <-. destruct e as [m s|s|m v]; [destruct Fc | destruct Fc|].
      exists [Freed m v]. split; [reflexivity|]. constructor; [exact Logic.I | constructor].
    - cbn in O. destruct (nth_error im m) as [c|] eqn:N; [|discriminate].
      destruct (c_free c) as [fb|] eqn:C; [|discriminate].
      destruct (fst st m) eqn:G.
      + destruct (exec n im fb st) as [st2|] eqn:E2; [|discriminate]. injection O as <-. cbn.
        destruct (image_free _ _ _ _ _ I N C) as (s & temps & deallocs & S & Sp & B).
        apply (IH fb m st st2 E2). rewrite B. apply (frees_below p); assumption.
      + injection O as <-. exists []. rewrite app_nil_r. split; [reflexivity | constructor]. }
  destruct (IH rest b st1 st' E Fr) as (t2 & A2 & B2).
  exists (t1 ++ t2). rewrite A2, A1, app_assoc. split; [reflexivity|]. apply Forall_app.
  split; assumption.
Qed.

Lemma own_is_freed : forall m t, Forall is_freed t -> own m t = [].
Proof.
  induction 1 as [|e t A B IH]; [reflexivity|]. destruct e; try destruct A. exact IH.
Qed.

Lemma seen_is_freed : forall t, Forall is_freed t -> seen t = [].
Proof.
  induction 1 as [|e t A B IH]; [reflexivity|]. destruct e; try destruct A. exact IH.
Qed.

Lemma tail_below : forall im n, Forall (fbelow im (S n)) (if has_free im n then [CFree n] else []).
Proof.
  intros im n. destruct (has_free im n) eqn:H; [|constructor].
  constructor; [split; [lia | exact H] | constructor].
Qed.

(** A trace: a run without releases, then releases. *)
Lemma trace_parts : forall p im t, image p im -> trace_of im t ->
  exists fuel body b st1 t2,
    exec fuel im body start = Some st1 /\ (forall b', b <= b' -> Forall (cbelow b') body) /\
    (forall e, In e (direct body) -> exists s, e = Did s) /\
    t = snd st1 ++ t2 /\ Forall is_freed t2.
Proof.
  intros p im t I [(fuel & reqs & fl & R & E)|(fuel & n & E)].
  - destruct (reqs_bound _ R) as (b & Hb). exists fuel, reqs, b, (fl, t), [].
    split; [exact E|]. split; [exact Hb|]. split; [rewrite (reqs_direct _ R); intros e []|].
    cbn. rewrite app_nil_r. split; [reflexivity | constructor].
  - destruct (program_split _ _ _ _ _ I E) as (s & l & st1 & st2 & tail & S & M & E1 & E2 & -> & Et).
    destruct (main_below _ _ _ _ _ I S M) as (F & D).
    subst tail. destruct (run_free_seen _ _ I _ _ _ _ _ E2 (tail_below im n)) as (t2 & A & B).
    exists fuel, ((if has_init im n then [CInit n] else []) ++ visit_body im Did l),
      (Datatypes.S n), st1, t2.
    split; [exact E1|]. split; [|split; [|split; assumption]].
    + intros b' L. apply Forall_forall. intros c Hc. rewrite Forall_forall in F. specialize (F _ Hc).
      destruct c; cbn in *; try lia; exact F.
    + intros e He. rewrite D in He. apply in_map_iff in He. destruct He as (x & <- & _).
      exists x. reflexivity.
Qed.

Lemma did_place : forall b t, (forall e, In e t -> exists s, e = Did s) -> Forall (place b) t.
Proof.
  intros b t H. apply Forall_forall. intros e He. destruct (H _ He) as (s & ->). exact Logic.I.
Qed.

Lemma trace_once : forall p im t, image p im -> trace_of im t ->
  forall m, own m t = [] \/ own m t = all_of p m.
Proof.
  intros p im t I T m.
  destruct (trace_parts _ _ _ I T) as (fuel & body & b & st1 & t2 & E & F & D & -> & Fr).
  destruct (run_inv _ _ I _ _ (S m + b) _ _ E) as (V & _).
  - apply F. lia.
  - apply did_place. exact D.
  - apply inv_start.
  - rewrite own_app, (own_is_freed m t2 Fr), app_nil_r, (own_inv p im (S m + b)) by (assumption || lia).
    destruct (fst st1 m); [right | left]; reflexivity.
Qed.

Arguments own : simpl never.
Arguments seen : simpl never.

Lemma request_runs : forall p im fuel reqs fl t m, image p im -> Forall request reqs ->
  exec fuel im reqs start = Some (fl, t) -> In (CInit m) reqs -> own m t = all_of p m.
Proof.
  intros p im fuel reqs fl t m I R E H. destruct (reqs_bound _ R) as (b & Hb).
  destruct (run_inv _ _ I _ _ (S m + b) _ _ E) as (V & _ & _ & _ & C).
  - apply Hb. lia.
  - rewrite (reqs_direct _ R). constructor.
  - apply inv_start.
  - assert (X := own_inv p im (S m + b) (fl, t) m I V ltac:(lia)). cbn in X. rewrite X.
    specialize (C _ H). cbn in C. rewrite C. reflexivity.
Qed.

Lemma trace_order : forall p im t, image p im ->
  (forall s, In s p -> keys_agree (top s ++ after s)) -> trace_of im t ->
  forall pre m s post d, t = pre ++ Ran m s :: post -> imports_of p m d -> own d pre = all_of p d.
Proof.
  intros p im t I KA T.
  destruct (trace_parts _ _ _ I T) as (fuel & body & b & st1 & t2 & E & F & D & -> & Fr).
  assert (O : Ord p (snd st1)).
  { apply (run_ord _ _ I KA _ _ b _ _ E).
    - apply F. lia.
    - apply did_place. exact D.
    - apply inv_start.
    - apply ord_start.
    - apply ready_none. intros m s H. destruct (D _ H) as (x & X). discriminate. }
  intros pre m s post d X Hd.
  assert (Ord p (snd st1 ++ t2)) as O2.
  { clear X T. induction t2 as [|e t2 IH] using rev_ind; [rewrite app_nil_r; exact O|].
    apply Forall_app in Fr. destruct Fr as [Fr Fe]. inversion Fe as [|? ? Ge _]; subst.
    rewrite app_assoc. apply ord_snoc; [apply IH; exact Fr|]. destruct e; try destruct Ge. exact Logic.I. }
  exact (O2 _ _ _ X d Hd).
Qed.

(** * The trace of Python *)

Definition Rel (im : list cmod) (b : nat) (st : (nat -> bool) * list event) (cst : state) : Prop :=
  (forall k, k < b -> has_init im k = true -> fst st k = fst cst k) /\ snd st = seen (snd cst).

Definition visit_from (im : list cmod) (sn : list key) (e : nat -> event) (l : list stm) : list cstm :=
  visit_imports im sn (imports l) ++ visit_rest e l.

Lemma no_import_imports : forall l, no_import l -> imports l = [].
Proof. induction l as [|[] l IH]; intros H; try reflexivity; try destruct H; exact (IH H). Qed.

Lemma no_import_first : forall l, no_import l -> imports_first l.
Proof.
  induction l as [|c l IH]; intros H; [exact Logic.I|].
  destruct c; try destruct H; try exact H. apply IH. exact H.
Qed.

Lemma seen_did : forall (e : event), ~ is_freed e -> seen [e] = [e].
Proof. intros [] H; try reflexivity. destruct (H Logic.I). Qed.

Lemma sim : forall p im, image p im -> Forall tidy_source p ->
  forall n e body b st st',
  python n p e body st = Some st' ->
  (forall s, ~ is_freed (e s)) ->
  Forall (stm_below b) body -> imports_first body -> keys_agree body ->
  forall sn cst,
  Rel im b st cst ->
  (forall k m, In (Imp k m) body -> existsb (key_eqb k) sn = true -> fst st m = true) ->
  (forall k m m', existsb (key_eqb k) sn = true -> In (Imp k m) body -> In (Imp k m') body -> m = m') ->
  exists cst', does im (visit_from im sn e body) cst cst' /\ Rel im b st' cst' /\
    (forall k, b <= k -> fst st' k = fst st k) /\
    (forall k, b <= k -> fst cst' k = fst cst k) /\
    (forall k, fst st k = true -> fst st' k = true).
Proof.
  intros p im I Ty. induction n as [|n IH]; intros e body b st st' E Ne B Fi Ka sn cst Rs Sk Sk2;
    [discriminate|].
  destruct body as [|c rest].
  { cbn in E. injection E as <-. exists cst. split; [apply does_nil|]. split; [exact Rs|].
    split; [reflexivity|]. split; [reflexivity|]. auto. }
  assert (Ka' : keys_agree rest).
  { intros k m m' A A'. apply (Ka k); right; assumption. }
  inversion B as [|? ? Bc Br]; subst. cbn in E. destruct c as [k m|s|m f|].
  - (* import *)
    assert (Step : forall sn' st1 cst1 pre,
      (forall k0 m0, In (Imp k0 m0) rest -> existsb (key_eqb k0) (k :: sn) = true -> fst st1 m0 = true) ->
      does im pre cst cst1 -> sn' = k :: sn ->
      visit_from im sn e (Imp k m :: rest) = pre ++ visit_from im sn' e rest ->
      python n p e rest st1 = Some st' -> Rel im b st1 cst1 ->
      (forall k, b <= k -> fst st1 k = fst st k) ->
      (forall k, b <= k -> fst cst1 k = fst cst k) ->
      (forall k, fst st k = true -> fst st1 k = true) ->
      exists cst', does im (visit_from im sn e (Imp k m :: rest)) cst cst' /\ Rel im b st' cst' /\
        (forall k, b <= k -> fst st' k = fst st k) /\
        (forall k, b <= k -> fst cst' k = fst cst k) /\
        (forall k, fst st k = true -> fst st' k = true)).
    { intros sn' st1 cst1 pre Sk' Dp -> Vf Er Rs1 Fp Fc Mo.
      destruct (IH e rest b st1 st' Er Ne Br Fi Ka' (k :: sn) cst1 Rs1 Sk') as (cst2 & D2 & R2 & Fp2 & Fc2 & Mo2).
      { intros k0 m0 m1 _ A1 A2. apply (Ka' k0); assumption. }
      exists cst2. rewrite Vf. split; [apply (does_app _ _ _ _ _ _ Dp D2)|]. split; [exact R2|].
      split; [intros k0 L; rewrite Fp2, Fp by exact L; reflexivity|].
      split; [intros k0 L; rewrite Fc2, Fc by exact L; reflexivity|].
      intros k0 H. apply Mo2, Mo, H. }
    assert (Vf : visit_from im sn e (Imp k m :: rest) =
      (if existsb (key_eqb k) sn then [] else if has_init im m then [CInit m] else [])
      ++ visit_from im (k :: sn) e rest).
    { unfold visit_from. cbn. rewrite <- app_assoc. reflexivity. }
    cbn in Bc.
    assert (Later : forall st1 : (nat -> bool) * list event, fst st1 m = true -> (forall k, fst st k = true -> fst st1 k = true) ->
      forall k0 m0, In (Imp k0 m0) rest -> existsb (key_eqb k0) (k :: sn) = true -> fst st1 m0 = true).
    { intros st1 Lm Mo k0 m0 A X. cbn in X. apply orb_prop in X. destruct X as [X|X].
      - apply key_eqb_eq in X. subst k0. assert (m0 = m) as ->; [|exact Lm].
        apply (Ka k); [right; exact A | left; reflexivity].
      - apply Mo. apply (Sk k0); [right; exact A | exact X]. }
    destruct (fst st m) eqn:Lm.
    + apply (Step (k :: sn) st cst
        (if existsb (key_eqb k) sn then [] else if has_init im m then [CInit m] else []));
        try assumption; try reflexivity; auto; [apply (Later st); [exact Lm | auto]|].
      destruct (existsb (key_eqb k) sn); [apply does_nil|].
      destruct (has_init im m) eqn:Hi; [|apply does_nil].
      apply (does_cons _ _ _ _ cst); [|apply does_nil]. exists 0. cbn.
      unfold has_init in Hi. destruct (nth_error im m) as [c|] eqn:N; [|discriminate].
      destruct (c_init c) eqn:C; [|discriminate]. rewrite <- (proj1 Rs), Lm; [reflexivity|exact Bc|].
      unfold has_init. rewrite N, C. reflexivity.
    + assert (X : existsb (key_eqb k) sn = false).
      { destruct (existsb (key_eqb k) sn) eqn:X; [|reflexivity].
        rewrite (Sk k m (or_introl eq_refl) X) in Lm. discriminate. }
      destruct (nth_error p m) as [s|] eqn:S; [|discriminate].
      destruct (python n p (Ran m) (top s ++ after s) (add m (fst st), snd st)) as [st1|] eqn:E1;
        [|discriminate].
      destruct (proj1 I _ _ S) as ((T & _) & _ & _).
      assert (Ts := proj1 (Forall_forall _ _) Ty s (nth_error_In _ _ S)).
      destruct Ts as ((Fs & Ks) & _ & _).
      destruct (IH (Ran m) (top s ++ after s) m (add m (fst st), snd st) st1 E1)
        with (sn := @nil key) (cst := cst) as (cst1 & D1 & R1 & Fp1 & Fc1 & Mo1); try assumption.
      { intros s0 H. exact H. }
      { split; [|exact (proj2 Rs)]. intros k0 L Hi. cbn. unfold add.
        destruct (Nat.eqb_spec k0 m); [lia|]. apply (proj1 Rs); [lia | exact Hi]. }
      { intros k0 m0 _ Y. discriminate. }
      { intros k0 m0 m1 Y. discriminate. }
      fold (visit_body im (Ran m) (top s ++ after s)) in D1.
      change (visit_from im [] (Ran m) (top s ++ after s))
        with (visit_body im (Ran m) (top s ++ after s)) in D1.
      assert (Lm1 : fst st1 m = true).
      { apply Mo1. cbn. unfold add. rewrite Nat.eqb_refl. reflexivity. }
      assert (Mo : forall k0, fst st k0 = true -> fst st1 k0 = true).
      { intros k0 H. apply Mo1. cbn. unfold add. destruct (Nat.eqb k0 m); [reflexivity | exact H]. }
      assert (Fp : forall k0, m < k0 -> fst st1 k0 = fst st k0).
      { intros k0 L. rewrite Fp1 by lia. cbn. unfold add.
        destruct (Nat.eqb_spec k0 m); [lia | reflexivity]. }
      destruct (proj2 (proj2 I) _ _ S) as (c & N & Md).
      rewrite X in Vf.
      destruct Md as [Bn Ci _ _ _ _|temps deallocs _ Sp Ci _ _ _ _].
      * assert (Hi : has_init im m = false) by (unfold has_init; rewrite N, Ci; reflexivity).
        rewrite Hi in Vf. rewrite Bn in D1. destruct D1 as [n1 D1].
        assert (cst1 = cst) as -> by (destruct n1; [discriminate | cbn in D1; congruence]).
        apply (Step (k :: sn) st1 cst []); try assumption; try reflexivity.
        -- apply (Later st1); assumption.
        -- apply does_nil.
        -- split; [|exact (proj2 R1)]. intros k0 L H0.
           destruct (Nat.lt_trichotomy k0 m) as [Q|[Q|Q]].
           ++ apply (proj1 R1); assumption.
           ++ subst k0. congruence.
           ++ rewrite Fp by exact Q. apply (proj1 Rs); assumption.
        -- intros k0 L. apply Fp. lia.
      * assert (Hi : has_init im m = true) by (unfold has_init; rewrite N, Ci; reflexivity).
        rewrite Hi in Vf.
        assert (exists cst2, does im (map (fun v => CDo (Freed m v)) temps) cst1 cst2 /\
                 fst cst2 = fst cst1 /\ seen (snd cst2) = seen (snd cst1)) as (cst2 & D2 & F2 & S2).
        { clear. revert cst1. induction temps as [|v temps IHt]; intros cst1.
          - exists cst1. split; [apply does_nil|]. split; reflexivity.
          - destruct (IHt (fst cst1, snd cst1 ++ [Freed m v])) as (cst2 & D & A & A2).
            exists cst2. split; [|split].
            + cbn. apply (does_cons _ _ _ _ (fst cst1, snd cst1 ++ [Freed m v])); [|exact D].
              exists 0. reflexivity.
            + rewrite A. reflexivity.
            + rewrite A2. cbn. rewrite seen_app. apply app_nil_r. }
        apply (Step (k :: sn) st1 (set_flag m true (fst cst2), snd cst2) [CInit m]); try assumption;
          try reflexivity.
        -- apply (Later st1); assumption.
        -- apply (does_cons _ _ _ _ (set_flag m true (fst cst2), snd cst2)); [|apply does_nil].
           destruct (does_app _ _ _ _ _ _ D1 D2) as [n2 D3]. exists n2. cbn. rewrite N, Ci, D3.
           rewrite <- (proj1 Rs m Bc Hi), Lm. reflexivity.
        -- split; [|cbn; rewrite S2; exact (proj2 R1)]. intros k0 L H0. cbn.
           destruct (Nat.lt_trichotomy k0 m) as [Q|[Q|Q]].
           ++ rewrite set_other, F2 by lia. apply (proj1 R1); assumption.
           ++ subst k0. rewrite set_same. exact Lm1.
           ++ rewrite set_other, F2, Fc1, Fp by lia. apply (proj1 Rs); assumption.
        -- intros k0 L. apply Fp. lia.
        -- intros k0 L. cbn. rewrite set_other, F2 by lia. apply Fc1. lia.
  - (* statement *)
    assert (Ni : imports rest = []) by (apply no_import_imports; exact Fi).
    destruct (IH e rest b (fst st, snd st ++ [e s]) st' E Ne Br (no_import_first rest Fi) Ka' sn
                (fst cst, snd cst ++ [e s])) as (cst2 & D2 & R2 & Fp2 & Fc2 & Mo2).
    + split; [exact (proj1 Rs)|]. cbn. rewrite seen_app, (proj2 Rs), (seen_did _ (Ne s)). reflexivity.
    + intros k m A. exfalso. apply imports_in in A. rewrite Ni in A. destruct A.
    + intros k m m' _ A. exfalso. apply imports_in in A. rewrite Ni in A. destruct A.
    + exists cst2. split; [|split; [exact R2|split; [exact Fp2|split; [exact Fc2|exact Mo2]]]].
      unfold visit_from in *. cbn. rewrite Ni in *. cbn in *.
      apply (does_cons _ _ _ _ (fst cst, snd cst ++ [e s])); [exists 0; reflexivity | exact D2].
  - (* call *)
    assert (Ni : imports rest = []) by (apply no_import_imports; exact Fi).
    destruct (nth_error p m) as [s|] eqn:S; [|discriminate].
    destruct (nth_error (funs s) f) as [fb|] eqn:C; [|discriminate].
    destruct (python n p Did fb st) as [st1|] eqn:E1; [|discriminate].
    destruct (proj1 I _ _ S) as (_ & _ & T). cbn in Bc.
    assert (Ts := proj1 (Forall_forall _ _) Ty s (nth_error_In _ _ S)).
    destruct Ts as (_ & _ & Tf).
    assert (Tb := proj1 (Forall_forall _ _) T fb (nth_error_In _ _ C)).
    assert (Tt := proj1 (Forall_forall _ _) Tf fb (nth_error_In _ _ C)).
    destruct (IH Did fb m st st1 E1) with (sn := @nil key) (cst := cst)
      as (cst1 & D1 & R1 & Fp1 & Fc1 & Mo1).
    + intros s0 H. exact H.
    + exact (proj1 Tb).
    + exact (proj1 Tt).
    + exact (proj2 Tt).
    + split; [|exact (proj2 Rs)]. intros k L H. apply (proj1 Rs); [lia | exact H].
    + intros k0 m0 _ Y. discriminate.
    + intros k0 m0 m1 Y. discriminate.
    + destruct (IH e rest b st1 st' E Ne Br (no_import_first rest Fi) Ka' sn cst1)
        as (cst2 & D2 & R2 & Fp2 & Fc2 & Mo2).
      * split; [|exact (proj2 R1)]. intros k L H. destruct (le_lt_dec m k) as [Le|Lt].
        -- rewrite Fp1, Fc1 by exact Le. apply (proj1 Rs); assumption.
        -- apply (proj1 R1); assumption.
      * intros k0 m0 A. exfalso. apply imports_in in A. rewrite Ni in A. destruct A.
      * intros k0 m0 m' _ A. exfalso. apply imports_in in A. rewrite Ni in A. destruct A.
      * exists cst2. split; [|split; [exact R2|split; [|split]]].
        -- unfold visit_from in *. cbn. rewrite Ni in *. cbn in *.
           apply (does_cons _ _ _ _ cst1); [|exact D2].
           destruct (proj2 (proj2 I) _ _ S) as (c & N & Md).
           assert (c_funs c = map (visit_body im Did) (funs s)) as Fn by (destruct Md; assumption).
           destruct D1 as [n1 D1]. exists n1. cbn. rewrite N, Fn, nth_error_map, C. exact D1.
        -- intros k L. rewrite Fp2, Fp1 by lia. reflexivity.
        -- intros k L. rewrite Fc2, Fc1 by lia. reflexivity.
        -- intros k H. apply Mo2, Mo1, H.
  - (* comment *)
    destruct (IH e rest b st st' E Ne Br Fi Ka' sn cst Rs) as (cst2 & D2 & Q).
    + intros k m A. apply Sk. right. exact A.
    + intros k m m' Y A A'. apply (Ka' k); assumption.
    + exists cst2. split; [exact D2 | exact Q].
Qed.

Lemma does_frees : forall im m temps cst1,
  exists cst2, does im (map (fun v => CDo (Freed m v)) temps) cst1 cst2 /\
    fst cst2 = fst cst1 /\ seen (snd cst2) = seen (snd cst1).
Proof.
  intros im m. induction temps as [|v temps IHt]; intros cst1.
  - exists cst1. split; [apply does_nil|]. split; reflexivity.
  - destruct (IHt (fst cst1, snd cst1 ++ [Freed m v])) as (cst2 & D & A & A2).
    exists cst2. split; [|split].
    + cbn. apply (does_cons _ _ _ _ (fst cst1, snd cst1 ++ [Freed m v])); [|exact D].
      exists 0. reflexivity.
    + rewrite A. reflexivity.
    + rewrite A2. cbn. rewrite seen_app. apply app_nil_r.
Qed.

Lemma program_python : forall p im n s fuel t, image p im -> Forall tidy_source p ->
  nth_error p n = Some s -> after s = [] ->
  python_program fuel p n = Some t ->
  exists fuel' t', run_program fuel' im n = Some t' /\ seen t' = t.
Proof.
  intros p im n s fuel t I Ty S A E. unfold python_program in E. rewrite S in E.
  destruct (main s) as [l|] eqn:M; [|discriminate].
  destruct (python fuel p (Ran n) (top s) (fun _ => false, [])) as [st|] eqn:E1; [|discriminate].
  destruct (python fuel p Did l st) as [st'|] eqn:E2; [|discriminate].
  rewrite A in E. assert (t = snd st') as ->.
  { destruct fuel; [discriminate|]. cbn in E. congruence. }
  destruct (proj1 I _ _ S) as ((T & _) & Tm & _). destruct (Tm _ M) as (Tl & _).
  assert (Ts := proj1 (Forall_forall _ _) Ty s (nth_error_In _ _ S)).
  destruct Ts as ((Fs & Ks) & Ms & _). destruct (Ms _ M) as (Fl & Kl).
  rewrite A, app_nil_r in *.
  destruct (sim _ _ I Ty _ _ _ n _ _ E1) with (sn := @nil key) (cst := start)
    as (cst1 & D1 & R1 & Fp1 & Fc1 & _); try assumption.
  { intros s0 H. exact H. }
  { split; [reflexivity | reflexivity]. }
  { intros ? ? _ X. discriminate. }
  { intros ? ? ? X. discriminate. }
  change (visit_from im [] (Ran n) (top s)) with (visit_body im (Ran n) (top s)) in D1.
  destruct (proj2 (proj2 I) _ _ S) as (c & N & Md).
  assert (Second : forall cst2, Rel im n st cst2 ->
            exists cst3, does im (visit_body im Did l) cst2 cst3 /\ Rel im n st' cst3).
  { intros cst2 R2.
    destruct (sim _ _ I Ty _ _ _ n _ _ E2) with (sn := @nil key) (cst := cst2)
      as (cst3 & D3 & R3 & _); try assumption.
    - intros s0 H. exact H.
    - intros ? ? _ X. discriminate.
    - intros ? ? ? X. discriminate.
    - exists cst3. split; assumption. }
  destruct Md as [Bn Ci _ _ Cm _|temps deallocs _ Sp Ci Cf _ Cm _]; rewrite A, app_nil_r in *.
  - rewrite Bn in D1. destruct D1 as [n1 D1].
    assert (cst1 = start) as -> by (destruct n1; [discriminate | cbn in D1; congruence]).
    destruct (Second _ R1) as (cst3 & (n3 & D3) & R3).
    exists n3, (snd cst3). unfold run_program. rewrite N, (Cm _ M), D3. split; [reflexivity|].
    symmetry. exact (proj2 R3).
  - destruct (does_frees im n temps cst1) as (cst2 & D2 & F2 & S2).
    destruct (Second (set_flag n true (fst cst2), snd cst2)) as (cst3 & D3 & R3).
    { split; [|cbn; rewrite S2; exact (proj2 R1)]. intros k L H. cbn.
      rewrite set_other, F2 by lia. apply (proj1 R1); assumption. }
    assert (exists cst4, does im (match frees_of im n s deallocs with [] => [] | _ => [CFree n] end)
              cst3 cst4 /\ seen (snd cst4) = seen (snd cst3)) as (cst4 & D4 & S4).
    { destruct (frees_of im n s deallocs) as [|f fs] eqn:Fr.
      - exists cst3. split; [apply does_nil | reflexivity].
      - assert (Hf : has_free im n = true) by (unfold has_free; rewrite N, Cf; reflexivity).
        destruct (free_total _ _ I n Hf cst3) as (n4 & cst4 & O4). exists cst4.
        assert (D4 : does im [CFree n] cst3 cst4).
        { apply (does_cons _ _ _ _ cst4); [exists n4; exact O4 | apply does_nil]. }
        split; [exact D4|]. destruct D4 as [n5 D5].
        destruct (run_free_seen _ _ I _ _ (Datatypes.S n) _ _ D5) as (t4 & E4 & F4).
        { constructor; [split; [lia | exact Hf] | constructor]. }
        rewrite E4, seen_app, (seen_is_freed _ F4), app_nil_r. reflexivity. }
    assert (D : does im (CInit n :: visit_body im Did l ++
              match frees_of im n s deallocs with [] => [] | _ => [CFree n] end) start cst4).
    { apply (does_cons _ _ _ _ (set_flag n true (fst cst2), snd cst2)).
      - destruct (does_app _ _ _ _ _ _ D1 D2) as [n2 D5]. exists n2. cbn. rewrite N, Ci.
        rewrite D5. reflexivity.
      - apply (does_app _ _ _ _ _ _ D3 D4). }
    destruct D as [n5 D5]. exists n5, (snd cst4). unfold run_program. rewrite N, (Cm _ M), D5.
    split; [reflexivity|]. rewrite S4. symmetry. exact (proj2 R3).
Qed.

Lemma extension_python : forall p im m fuel l t, image p im -> Forall tidy_source p ->
  python fuel p Did [Imp (Name m) m] (fun _ => false, []) = Some (l, t) ->
  exists fuel' t', run_imports fuel' im [] [m] = Some t' /\ seen t' = t.
Proof.
  intros p im m fuel l t I Ty E.
  destruct (sim _ _ I Ty _ _ _ (S m) _ _ E) with (sn := @nil key) (cst := start)
    as (cst & (n & D) & R & _).
  - intros s H. exact H.
  - constructor; [cbn; lia | constructor].
  - exact Logic.I.
  - intros k m1 m2 [A|[]] [B|[]]. congruence.
  - split; reflexivity.
  - intros ? ? _ X. discriminate.
  - intros ? ? ? X. discriminate.
  - unfold visit_from in D. cbn in D. exists n. cbn.
    destruct (has_init im m) eqn:H.
    + cbn in D. rewrite D. cbn. exists (snd cst). rewrite app_nil_r. split; [reflexivity|].
      symmetry. exact (proj2 R).
    + exists []. split; [reflexivity|]. cbn in D.
      assert (cst = start) as -> by (destruct n; [discriminate | cbn in D; congruence]).
      symmetry. exact (proj2 R).
Qed.

(** * What is released *)

Lemma pop_perm : forall {A} i (l : list A) x r, pop i l = Some (x, r) -> Permutation (x :: r) l.
Proof.
  induction i as [|i IH]; intros [|y l] x r E; try discriminate; cbn in E.
  - injection E as -> ->. apply Permutation_refl.
  - destruct (pop i l) as [[z q]|] eqn:P; [|discriminate]. injection E as <- <-.
    apply perm_trans with (y :: z :: q); [apply perm_swap|]. apply perm_skip. apply IH. exact P.
Qed.

Lemma split_perm : forall vars i deallocs ds others,
  split_from i vars deallocs = Some (ds, others) -> Permutation (ds ++ others) deallocs.
Proof.
  induction vars as [|[v b] vars IH]; intros i deallocs ds others E; cbn in E.
  - injection E as <- <-. apply Permutation_refl.
  - destruct b; [|exact (IH _ _ _ _ E)].
    destruct (pop i deallocs) as [[d rest]|] eqn:P; [|discriminate].
    destruct (split_from (S i) vars rest) as [[ds' others']|] eqn:Q; [|discriminate].
    injection E as <- <-. apply perm_trans with (d :: rest); [|apply pop_perm with i; exact P].
    cbn. apply perm_skip. exact (IH _ _ _ _ Q).
Qed.

Lemma pop_app : forall {A} (pre : list A) x l, pop (length pre) (pre ++ x :: l) = Some (x, pre ++ l).
Proof. induction pre as [|y pre IH]; intros x l; [reflexivity|]. cbn. rewrite IH. reflexivity. Qed.

Lemma split_none : forall vars i l, filter snd vars = [] -> split_from i vars l = Some ([], l).
Proof.
  induction vars as [|[v b] vars IH]; intros i l H; [reflexivity|].
  destruct b; [discriminate|]. cbn in *. apply IH. exact H.
Qed.

Lemma none_fst : forall vars : list (nat * bool), filter snd vars = [] ->
  map fst (filter (fun x => negb (snd x)) vars) = map fst vars.
Proof.
  induction vars as [|[v b] vars IH]; intros H; [reflexivity|].
  destruct b; [discriminate|]. cbn in *. f_equal. apply IH. exact H.
Qed.

Lemma split_one_from : forall vars pre, length (filter snd vars) <= 1 ->
  split_from (length pre) vars (pre ++ map fst vars) =
  Some (map fst (filter snd vars), pre ++ map fst (filter (fun x => negb (snd x)) vars)).
Proof.
  induction vars as [|[v b] vars IH]; intros pre H; [reflexivity|].
  destruct b; cbn in H |- *.
  - assert (N : filter snd vars = []) by (destruct (filter snd vars); [reflexivity | cbn in H; lia]).
    rewrite pop_app, split_none, N by exact N. cbn. rewrite none_fst by exact N. reflexivity.
  - specialize (IH (pre ++ [v]) H). rewrite app_length, <- !app_assoc in IH. cbn in IH.
    rewrite Nat.add_1_r in IH. exact IH.
Qed.

Lemma split_one : forall vars, length (filter snd vars) <= 1 ->
  split vars = Some (map fst (filter snd vars), map fst (filter (fun x => negb (snd x)) vars)).
Proof. intros vars H. exact (split_one_from vars [] H). Qed.

Lemma freed_app : forall k v a b, freed k v (a ++ b) = freed k v a + freed k v b.
Proof. intros. unfold freed. rewrite filter_app, app_length. reflexivity. Qed.

Lemma freed_mine : forall k v t, freed k v t = freed k v (mine k t).
Proof.
  intros k v. induction t as [|e t IH]; [reflexivity|]. unfold freed, mine in *.
  destruct e as [m s|s|m w]; cbn; [|exact IH|].
  - destruct (Nat.eqb m k); cbn; exact IH.
  - destruct (Nat.eqb m k) eqn:E; cbn; [rewrite E|]; cbn; [|exact IH].
    destruct (Nat.eqb w v); cbn; [f_equal|]; exact IH.
Qed.

Lemma freed_count : forall k v l, freed k v (map (Freed k) l) = count_occ Nat.eq_dec l v.
Proof.
  intros k v. unfold freed. induction l as [|w l IH]; [reflexivity|]. cbn. rewrite Nat.eqb_refl. cbn.
  destruct (Nat.eq_dec w v) as [->|N].
  - rewrite Nat.eqb_refl. cbn. f_equal. exact IH.
  - apply Nat.eqb_neq in N. rewrite N. exact IH.
Qed.

Lemma freed_ran : forall k v m l, freed k v (map (Ran m) l) = 0.
Proof. intros. unfold freed. induction l as [|w l IH]; [reflexivity|]. exact IH. Qed.

Lemma freed_frees : forall im k v l, freed k v (direct (import_frees im l)) = 0.
Proof.
  intros im k v l. assert (direct (import_frees im l) = []) as ->; [|reflexivity].
  unfold import_frees. induction (container l) as [|[[m|a] d] c IH]; [reflexivity| |exact IH].
  cbn. destruct (has_free im d); exact IH.
Qed.

(** The initialised modules are closed under imports. *)
Definition Closed (p : list source) (im : list cmod) (st : state) : Prop :=
  forall m d, fst st m = true -> imports_of p m d -> has_init im d = true -> fst st d = true.

Lemma named_agree : forall l, named l -> keys_agree l.
Proof.
  intros l H k m m' A B. apply H in A. apply H in B. congruence.
Qed.

Lemma body_inits : forall im e l k d, keys_agree l -> In (Imp k d) l -> has_init im d = true ->
  In (CInit d) (visit_body im e l).
Proof.
  intros im e l k d Ka A H. apply in_or_app. left. apply (visit_imports_in im _ [] k).
  - intros k1 m1 m2 I1 I2. apply (Ka k1); apply imports_in; assumption.
  - apply imports_in. exact A.
  - reflexivity.
  - exact H.
Qed.

Lemma run_closed : forall p im, image p im ->
  (forall s, In s p -> keys_agree (top s ++ after s)) ->
  forall n body b st st',
  exec n im body st = Some st' ->
  Forall (cbelow b) body -> Forall (place b) (direct body) -> Inv im b st ->
  Closed p im st -> Closed p im st'.
Proof.
  intros p im I KA. induction n as [|n IH]; intros body b st st' E F D V O; [discriminate|].
  destruct body as [|c rest].
  { cbn in E. injection E as <-. exact O. }
  rewrite exec_cons in E. destruct (one n im c st) as [st1|] eqn:O1; [|discriminate].
  inversion F as [|? ? Fc Fr]; subst.
  change (c :: rest) with ([c] ++ rest) in D. rewrite direct_app in D. apply Forall_app in D.
  destruct D as [Dc Dr].
  assert (Q : Post im b [c] st st1).
  { apply (run_inv _ _ I (S n)); [|constructor; [exact Fc|constructor]|exact Dc|exact V].
    rewrite exec_cons, O1. destruct n; [discriminate | reflexivity]. }
  assert (Os : Closed p im st1).
  { destruct c as [m|e|m f|m]; cbn in O1, Fc, Dc.
    - destruct (nth_error im m) as [c|] eqn:N; [|discriminate].
      destruct (c_init c) as [ib|] eqn:C; [|discriminate].
      destruct (fst st m) eqn:G; [injection O1 as <-; exact O|].
      destruct (exec n im ib st) as [st2|] eqn:E2; [|discriminate]. injection O1 as <-.
      destruct (image_init _ _ _ _ _ I N C) as (s & temps & deallocs & S & Sp & B).
      destruct (proj1 I _ _ S) as ((T & _) & _ & _).
      assert (Fb : Forall (cbelow m) ib).
      { rewrite B. apply Forall_app. split; [apply body_below; exact T | apply freed_below]. }
      assert (Pb : Forall (place m) (direct ib)).
      { rewrite B, direct_app, direct_body, direct_freed. apply Forall_app.
        split; apply place_map; intros; reflexivity. }
      assert (Vm : Inv im m st) by (intros k L; apply V; lia).
      assert (C2 := IH ib m st st2 E2 Fb Pb Vm O).
      destruct (run_inv _ _ I _ _ _ _ _ E2 Fb Pb Vm) as (_ & _ & _ & _ & Ci).
      intros m' d G' Hd Hi. cbn in *.
      assert (d < m') by (apply (imports_of_lt p); [exact (proj1 I) | exact Hd]).
      destruct (Nat.eq_dec d m) as [->|Nd]; [apply set_same|]. rewrite set_other by exact Nd.
      destruct (Nat.eq_dec m' m) as [->|Nm].
      + apply Ci. rewrite B. apply in_or_app. left. destruct Hd as (s1 & k & S1 & Ik).
        rewrite S in S1. injection S1 as <-. apply (body_inits im _ _ k); [|exact Ik|exact Hi].
        apply KA. apply nth_error_In in S. exact S.
      + rewrite set_other in G' by exact Nm. apply (C2 m'); assumption.
    - injection O1 as <-. exact O.
    - destruct (nth_error im m) as [c|] eqn:N; [|discriminate].
      destruct (nth_error (c_funs c) f) as [fb|] eqn:C; [|discriminate].
      destruct (image_source _ _ _ _ I N) as (s & S & M).
      destruct (proj1 I _ _ S) as (_ & _ & T).
      assert (exists l, In l (funs s) /\ fb = visit_body im Did l) as (l & Il & ->).
      { assert (c_funs c = map (visit_body im Did) (funs s)) as X by (destruct M; assumption).
        rewrite X in C. apply nth_error_In in C. apply in_map_iff in C.
        destruct C as (l & <- & Il). exists l. split; [exact Il | reflexivity]. }
      rewrite Forall_forall in T. destruct (T _ Il) as (Tb & _).
      apply (IH _ m st st1 O1).
      + apply body_below. exact Tb.
      + rewrite direct_body. apply place_map. intros. exact Logic.I.
      + intros k L. apply V. lia.
      + exact O.
    - destruct Fc. }
  destruct Q as (V1 & _).
  apply (IH rest b st1 st' E Fr Dr V1 Os).
Qed.

Lemma reaches_le : forall p n k, project p -> reaches p n k -> k <= n.
Proof.
  intros p n k P H. induction H as [|m d k Hd _ IH]; [lia|].
  apply imports_of_lt in Hd; [lia | exact P].
Qed.

Lemma has_init_up : forall p im m d, image p im ->
  (forall s, In s p -> named (top s ++ after s)) ->
  imports_of p m d -> has_init im d = true -> has_init im m = true.
Proof.
  intros p im m d I Nm (s & k & S & Ik) H.
  destruct (proj2 (proj2 I) _ _ S) as (c & N & M). unfold has_init. rewrite N.
  assert (X := body_inits im (Ran m) _ k d (named_agree _ (Nm s (nth_error_In _ _ S))) Ik H).
  destruct M as [B|? ? _ _ C]; [rewrite B in X; destruct X|]. rewrite C. reflexivity.
Qed.

Lemma put_keeps : forall l k m i, In i l -> (forall m', i = (k, m') -> m' = m) -> In i (put k m l).
Proof.
  induction l as [|[k' m'] l IH]; intros k m i H X; [destruct H|]. cbn.
  destruct (key_eqb k k') eqn:E.
  - apply key_eqb_eq in E. subst k'. destruct H as [<-|H]; [|right; exact H].
    left. rewrite (X m' eq_refl). reflexivity.
  - destruct H as [<-|H]; [left; reflexivity|]. right. apply IH; assumption.
Qed.

Lemma put_puts : forall l k m, In (k, m) (put k m l).
Proof.
  induction l as [|[k' m'] l IH]; intros k m; cbn; [left; reflexivity|].
  destruct (key_eqb k k'); [left; reflexivity | right; apply IH].
Qed.

Lemma container_all_from : forall l c,
  (forall k m m', In (k, m) (c ++ l) -> In (k, m') (c ++ l) -> m = m') ->
  forall i, In i (c ++ l) -> In i (fold_left (fun c i => put (fst i) (snd i) c) l c).
Proof.
  induction l as [|[k m] l IH]; intros c A i H; cbn; [rewrite app_nil_r in H; exact H|].
  assert (Sub : forall j, In j (put k m c ++ l) -> In j (c ++ (k, m) :: l)).
  { intros j Hj. apply in_app_or in Hj. apply in_or_app. destruct Hj as [Hj|Hj].
    - destruct (put_in _ _ _ _ Hj) as [->|G]; [right; left; reflexivity | left; exact G].
    - right. right. exact Hj. }
  apply IH.
  - intros k1 m1 m2 I1 I2. apply (A k1); apply Sub; assumption.
  - apply in_app_or in H. apply in_or_app. destruct H as [H|[<-|H]].
    + left. apply put_keeps; [exact H|]. intros m' ->. apply (A k).
      * apply in_or_app. left. exact H.
      * apply in_or_app. right. left. reflexivity.
    + left. apply put_puts.
    + right. exact H.
Qed.

Lemma container_all : forall l, (forall k m m', In (k, m) l -> In (k, m') l -> m = m') ->
  forall i, In i l -> In i (container l).
Proof. intros l A i H. apply (container_all_from l []); assumption. Qed.

Lemma import_frees_in : forall im l d, named l -> (exists k, In (Imp k d) l) -> has_free im d = true ->
  In (CFree d) (import_frees im (imports l)).
Proof.
  intros im l d Nm (k & Ik) H. unfold import_frees. apply in_flat_map. exists (k, d). split.
  - apply container_all; [|apply imports_in; exact Ik].
    intros k1 m1 m2 I1 I2. apply imports_in in I1, I2. apply Nm in I1, I2. congruence.
  - rewrite (Nm _ _ Ik). cbn. rewrite H. left. reflexivity.
Qed.

Lemma has_free_spec : forall p im m, image p im -> has_free im m = true ->
  exists s temps deallocs, nth_error p m = Some s /\ split (arrays s) = Some (temps, deallocs) /\
    fbody im m = frees_of im m s deallocs /\ has_init im m = true.
Proof.
  intros p im m I H. unfold has_free in H. destruct (nth_error im m) as [c|] eqn:N; [|discriminate].
  destruct (c_free c) as [b|] eqn:C; [|discriminate].
  destruct (image_free _ _ _ _ _ I N C) as (s & temps & deallocs & S & Sp & B).
  exists s, temps, deallocs. split; [exact S|]. split; [exact Sp|].
  split; [unfold fbody; rewrite N, C; exact B|].
  unfold has_init. rewrite N. destruct (image_source _ _ _ _ I N) as (s' & S' & M).
  destruct M as [_ _ X|? ? _ _ X]; [congruence|]. rewrite X. reflexivity.
Qed.

Lemma free_edge : forall p im m d, image p im -> In (CFree d) (fbody im m) ->
  imports_of p m d /\ has_free im d = true.
Proof.
  intros p im m d I H.
  assert (Hm : has_free im m = true).
  { unfold fbody in H. unfold has_free. destruct (nth_error im m) as [c|]; [|destruct H].
    destruct (c_free c); [reflexivity | destruct H]. }
  destruct (has_free_spec _ _ _ I Hm) as (s & temps & deallocs & S & _ & B & _).
  rewrite B in H. apply in_app_or in H. destruct H as [H|H].
  - apply in_flat_map in H. destruct H as ([k d'] & A & Q). cbn in Q.
    apply container_in, imports_in in A. destruct k; [|destruct Q].
    destruct (has_free im d') eqn:F; [|destruct Q]. destruct Q as [Q|[]]. injection Q as ->.
    split; [exists s, (Name m0); split; assumption | exact F].
  - apply in_map_iff in H. destruct H as (v & X & _). discriminate.
Qed.

Lemma has_free_up : forall p im m d, image p im ->
  (forall s, In s p -> named (top s ++ after s)) ->
  imports_of p m d -> has_free im d = true ->
  has_free im m = true /\ In (CFree d) (fbody im m).
Proof.
  intros p im m d I Nm Hd H.
  assert (Hi : has_init im m = true).
  { apply (has_init_up p im m d I Nm Hd). destruct (has_free_spec _ _ _ I H) as (? & ? & ? & _ & _ & _ & X).
    exact X. }
  destruct Hd as (s & k & S & Ik). destruct (proj2 (proj2 I) _ _ S) as (c & N & M).
  assert (X := import_frees_in im _ d (Nm s (nth_error_In _ _ S)) (ex_intro _ k Ik) H).
  unfold has_init in Hi. rewrite N in Hi. unfold has_free, fbody. rewrite N.
  destruct M as [_ C|temps deallocs _ _ _ Cf]; [rewrite C in Hi; discriminate|].
  rewrite Cf. assert (Y : In (CFree d) (frees_of im m s deallocs)) by (apply in_or_app; left; exact X).
  destruct (frees_of im m s deallocs); [destruct Y|]. split; [reflexivity | exact Y].
Qed.

Lemma release : forall p im n t fuel, image p im ->
  (forall s, In s p -> named (top s ++ after s)) -> (forall s, In s p -> arrays_ok s) ->
  run_program fuel im n = Some t ->
  forall k s v, reaches p n k -> nth_error p k = Some s ->
  freed k v t = count_occ Nat.eq_dec (map fst (arrays s)) v.
Proof.
  intros p im n t fuel I Nm Ao E k s v Rk S.
  destruct (program_split _ _ _ _ _ I E) as (s0 & l & st1 & st2 & tail & S0 & M & E1 & E2 & -> & Et).
  destruct (main_below _ _ _ _ _ I S0 M) as (F & D).
  assert (Pl : Forall (place (Datatypes.S n))
     (direct ((if has_init im n then [CInit n] else []) ++ visit_body im Did l))).
  { rewrite D. apply place_map. intros. exact Logic.I. }
  assert (KA : forall s, In s p -> keys_agree (top s ++ after s)).
  { intros s1 H. apply named_agree, Nm, H. }
  destruct (run_inv _ _ I _ _ _ _ _ E1 F Pl (inv_start _ _)) as (V & _ & _ & _ & Ci).
  assert (Cl : Closed p im st1).
  { apply (run_closed _ _ I KA _ _ _ _ _ E1 F Pl (inv_start _ _)). intros m d X. discriminate. }
  assert (Fl : forall j, reaches p n j -> has_init im j = true -> has_init im n = true /\ fst st1 j = true).
  { assert (G : forall a j, reaches p a j -> has_init im j = true ->
        has_init im a = true /\ (fst st1 a = true -> fst st1 j = true)).
    { intros a j H. induction H as [a|a d j Hd _ IH]; intros Hj; [auto|].
      destruct (IH Hj) as [A B]. split; [apply (has_init_up p im a d); assumption|].
      intros Ga. apply B. apply (Cl a); assumption. }
    intros j Hj Hi. destruct (G _ _ Hj Hi) as [A B]. split; [exact A|]. apply B. apply Ci.
    rewrite A. left. reflexivity. }
  assert (Lk : k < Datatypes.S n) by (apply reaches_le in Rk; [lia | exact (proj1 I)]).
  destruct (run_free p im (fun j => reaches p n j /\ has_free im j = true) I) with
    (n := fuel) (body := tail) (b := Datatypes.S n) (st := st1) (st' := st2)
    as (t2 & Et2 & Es & Lo & _ & _ & J2 & Cl2).
  { intros j d [Rj _] Hd. destruct (free_edge p im j d I Hd) as [A B]. split; [|exact B].
    clear - Rj A. induction Rj as [j|j d' j' Hd' _ IH]; [apply (reach_step p j d); [exact A | constructor]|].
    apply (reach_step p j d'); [exact Hd' | apply IH; exact A]. }
  { exact E2. }
  { rewrite Et. apply tail_below. }
  { intros d Hd. rewrite Et in Hd. destruct (has_free im n) eqn:Hf; [|destruct Hd].
    destruct Hd as [Hd|[]]. injection Hd as <-. split; [constructor | exact Hf]. }
  { intros j [Rj Hf] Gj. destruct (has_free_spec _ _ _ I Hf) as (? & ? & ? & _ & _ & _ & X).
    destruct (Fl j Rj X) as [_ Y]. congruence. }
  rewrite Et2, freed_mine, mine_app, V, Lo by exact Lk.
  destruct (proj2 (proj2 I) _ _ S) as (c & N & Md).
  destruct (has_init im k) eqn:Hi.
  - destruct (Fl k Rk Hi) as [_ G]. rewrite G.
    unfold has_init in Hi. rewrite N in Hi.
    destruct Md as [_ C|temps deallocs _ Sp C Cf]; [rewrite C in Hi; discriminate|].
    assert (A : freed k v (mine k (direct (ibody im k))) = count_occ Nat.eq_dec temps v).
    { rewrite <- freed_mine. unfold ibody. rewrite N, C, direct_app, direct_body, direct_freed, freed_app.
      rewrite freed_ran, freed_count. reflexivity. }
    assert (B : freed k v (mine k (direct (fbody im k))) = count_occ Nat.eq_dec deallocs v).
    { rewrite <- freed_mine. unfold fbody. rewrite N, Cf.
      assert (X : freed k v (direct (frees_of im k s deallocs)) = count_occ Nat.eq_dec deallocs v).
      { unfold frees_of. rewrite direct_app, direct_freed, freed_app, freed_frees, freed_count. reflexivity. }
      destruct (frees_of im k s deallocs); exact X. }
    assert (P := split_perm _ _ _ _ _ Sp).
    rewrite <- (proj1 (Permutation_count_occ Nat.eq_dec _ _) P v), count_occ_app.
    rewrite freed_app, A. f_equal.
    destruct (has_free im k) eqn:Hf.
    + assert (fst st2 k = false) as ->; [|cbn; exact B].
      assert (G2 : forall a, reaches p a k -> reaches p n a -> has_free im a = true /\ (fst st2 a = false -> fst st2 k = false)).
      { intros a Ra. clear - Ra Hf J2 I Nm. induction Ra as [a|a d j Hd Rd IH]; intros Rn; [auto|].
        assert (Rn' : reaches p n d).
        { clear - Rn Hd. induction Rn as [j|j d' j' Hd' _ IH]; [apply (reach_step p j d); [exact Hd | constructor]|].
          apply (reach_step p j d'); [exact Hd' | apply IH; exact Hd]. }
        destruct (IH Hf Rn') as [A B].
        destruct (has_free_up p im a d I Nm Hd A) as [A2 B2]. split; [exact A2|].
        intros Ga. apply B. apply (J2 a (conj Rn A2) Ga d B2). }
      destruct (G2 n Rk (reach_self p n)) as [A2 B2]. apply B2. apply Cl2. rewrite Et, A2.
      left. reflexivity.
    + assert (X : fbody im k = []).
      { unfold fbody, has_free in *. rewrite N in *. destruct (c_free c); [discriminate | reflexivity]. }
      rewrite X in B. rewrite X. rewrite <- B.
      destruct (true && negb (fst st2 k)); reflexivity.
  - assert (X : ibody im k = []) by (apply no_init_ibody; exact Hi). rewrite X.
    assert (Y : fbody im k = []).
    { destruct (has_free im k) eqn:Hf.
      - destruct (has_free_spec _ _ _ I Hf) as (? & ? & ? & _ & _ & _ & Z). congruence.
      - unfold fbody, has_free in *. rewrite N in *. destruct (c_free c); [discriminate | reflexivity]. }
    rewrite Y. unfold has_init in Hi. rewrite N in Hi.
    destruct Md as [B|? ? _ _ C]; [|rewrite C in Hi; discriminate].
    assert (L0 : labels (top s ++ after s) = []).
    { assert (Z := direct_body im (Ran k) (top s ++ after s)). rewrite B in Z. cbn in Z.
      destruct (labels (top s ++ after s)); [reflexivity | discriminate]. }
    assert (arrays s = []) as ->.
    { destruct (arrays s) as [|a ar] eqn:Ar; [reflexivity|]. exfalso.
      apply (Ao s (nth_error_In _ _ S)); [rewrite Ar; discriminate | exact L0]. }
    destruct (fst st1 k); destruct (fst st2 k); reflexivity.
Qed.

Lemma late : forall p im t, image p im -> trace_of im t ->
  forall k s v pre post, nth_error p k = Some s -> length (filter snd (arrays s)) <= 1 ->
  NoDup (map fst (arrays s)) -> In (v, false) (arrays s) ->
  t = pre ++ Freed k v :: post -> seen post = [].
Proof.
  intros p im t I T k s v pre post S One Nd Iv X.
  destruct (trace_parts _ _ _ I T) as (fuel & body & b & st1 & t2 & E & F & D & -> & Fr).
  destruct (run_inv _ _ I _ _ (Datatypes.S k + b) _ _ E) as (V & _).
  { apply F. lia. }
  { apply did_place. exact D. }
  { apply inv_start. }
  assert (Not : ~ In (Freed k v) (snd st1)).
  { intros H. assert (In (Freed k v) (mine k (snd st1))) as H1.
    { apply filter_In. split; [exact H|]. cbn. apply Nat.eqb_refl. }
    rewrite V in H1 by lia. destruct (fst st1 k); [|destruct H1].
    apply filter_In in H1. destruct H1 as [H1 _]. unfold ibody in H1.
    destruct (proj2 (proj2 I) _ _ S) as (c & N & M). rewrite N in H1.
    destruct M as [_ C|temps deallocs _ Sp C]; rewrite C in H1; [destruct H1|].
    rewrite direct_app, direct_body, direct_freed in H1. apply in_app_or in H1.
    destruct H1 as [H1|H1]; apply in_map_iff in H1; destruct H1 as (w & W & Iw); [discriminate|].
    injection W as ->. rewrite split_one in Sp by exact One. injection Sp as <- <-.
    apply in_map_iff in Iw. destruct Iw as ([v' b'] & W & Iw). cbn in W. subst v'.
    apply filter_In in Iw. destruct Iw as [Iw Tb]. cbn in Tb. subst b'.
    clear - Nd Iv Iw. induction (arrays s) as [|[w b] a IH]; [destruct Iv|].
    inversion Nd as [|? ? A B]; subst. cbn in A.
    destruct Iv as [Iv|Iv], Iw as [Iw|Iw].
    - congruence.
    - injection Iv as -> ->. apply A. apply in_map_iff. exists (v, true). split; [reflexivity | exact Iw].
    - injection Iw as -> ->. apply A. apply in_map_iff. exists (v, false). split; [reflexivity | exact Iv].
    - apply IH; assumption. }
  assert (H : forall a, ~ In (Freed k v) a -> forall pre, a ++ t2 = pre ++ Freed k v :: post ->
    exists q, t2 = q ++ Freed k v :: post).
  { induction a as [|e a IH]; intros Na pre' Q; [exists pre'; exact Q|].
    destruct pre' as [|e' pre']; cbn in Q; injection Q as -> Q.
    - exfalso. apply Na. left. reflexivity.
    - apply (IH (fun Z => Na (or_intror Z)) pre' Q). }
  destruct (H _ Not _ X) as (q & ->). apply Forall_app in Fr. destruct Fr as [_ Fr].
  inversion Fr as [|? ? _ Fp]; subst. apply seen_is_freed. exact Fp.
Qed.

Lemma imports_seen : forall fuel im m k l, In m l -> run_imports fuel im l (repeat m k) = Some [].
Proof.
  intros fuel im m k l H. induction k as [|k IH]; [reflexivity|]. cbn [repeat run_imports].
  assert (existsb (Nat.eqb m) l = true) as ->; [|exact IH].
  apply existsb_exists. exists m. split; [exact H|apply Nat.eqb_refl].
Qed.

Lemma imports_again : forall fuel im m k t, run_imports fuel im [] [m] = Some t ->
  run_imports fuel im [] (m :: repeat m k) = Some t.
Proof.
  intros fuel im m k t H. cbn [run_imports existsb] in *.
  destruct (if has_init im m then _ else _) as [t1|]; [|discriminate].
  rewrite imports_seen by (left; reflexivity). exact H.
Qed.
