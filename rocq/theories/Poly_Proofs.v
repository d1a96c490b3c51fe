(* Proofs about functions of several types. *)
From Coq Require Import Bool ZArith QArith List Arith Lia.
From Verif Require Import Poly_Model Poly_Spec.
Import ListNotations.
Open Scope list_scope.
Open Scope nat_scope.

Lemma ty_eqb_spec t u : reflect (t = u) (ty_eqb t u).
Proof.
  destruct t as [a n], u as [b m]. unfold ty_eqb. cbn. destruct (Nat.eqb_spec n m) as [->|N].
  - destruct a, b; cbn; constructor; congruence.
  - rewrite andb_false_r. constructor. congruence.
Qed.
Lemma ty_dec (t u : ty) : t = u \/ t <> u.
Proof. destruct (ty_eqb_spec t u); auto. Qed.

Definition sound {A : Type} (eqb : A -> A -> bool) : Prop := forall a b, eqb a b = true <-> a = b.
Lemma dedup_in {A} (eqb : A -> A -> bool) : sound eqb -> forall l x, In x (dedup eqb l) <-> In x l.
Proof.
  intros E. induction l as [|a l IH]; intros x; [reflexivity|]. cbn. rewrite filter_In, IH. split.
  - tauto.
  - intros [H|H]; [auto|]. destruct (iff_reflect _ _ (iff_sym (E a x))) as [->|N]; [auto|]. right. auto.
Qed.
Lemma dedup_nodup {A} (eqb : A -> A -> bool) : sound eqb -> forall l, NoDup (dedup eqb l).
Proof.
  intros E. induction l as [|a l IH]; [constructor|]. cbn. constructor.
  - rewrite filter_In. intros [_ H]. destruct (iff_reflect _ _ (iff_sym (E a a))); [discriminate|congruence].
  - apply NoDup_filter. exact IH.
Qed.
Lemma filter_id {A} (f : A -> bool) l : (forall x, In x l -> f x = true) -> filter f l = l.
Proof. induction l as [|a l IH]; intros H; [reflexivity|]. cbn. rewrite (H a (or_introl eq_refl)), IH; auto. intros x Hx. apply H. right. exact Hx. Qed.
Lemma dedup_id {A} (eqb : A -> A -> bool) : sound eqb -> forall l, NoDup l -> dedup eqb l = l.
Proof.
  intros E. induction l as [|a l IH]; intros N; [reflexivity|]. inversion N as [|? ? Na Nl]; subst. cbn. rewrite (IH Nl). f_equal.
  apply filter_id. intros x Hx. destruct (iff_reflect _ _ (iff_sym (E a x))) as [->|_]; [contradiction|reflexivity].
Qed.
Lemma nat_sound : sound Nat.eqb. Proof. exact Nat.eqb_eq. Qed.
Lemma ty_sound : sound ty_eqb. Proof. intros a b. destruct (ty_eqb_spec a b); split; congruence. Qed.

Lemma product_in {A} : forall (ls : list (list A)) l, In l (product ls) <-> Forall2 (@In A) l ls.
Proof.
  induction ls as [|a ls IH]; intros l; cbn [product].
  - split; [intros [<-|[]]; constructor|intros H; inversion H; left; reflexivity].
  - rewrite in_flat_map. split.
    + intros (x & Hx & Hl). apply in_map_iff in Hl. destruct Hl as (k & <- & Hk). constructor; [exact Hx|]. apply IH. exact Hk.
    + intros H. inversion H as [|x ? k ? Hx Hk]; subst. exists x. split; [exact Hx|]. apply in_map. apply IH. exact Hk.
Qed.
Lemma nodup_app {A} (l k : list A) : NoDup l -> NoDup k -> (forall x, In x l -> In x k -> False) -> NoDup (l ++ k).
Proof.
  induction l as [|a l IH]; intros N M D; [exact M|]. inversion N as [|? ? Na Nl]; subst. cbn. constructor.
  - rewrite in_app_iff. intros [H|H]; [contradiction|]. exact (D a (or_introl eq_refl) H).
  - apply IH; auto. intros x Hx. apply D. right. exact Hx.
Qed.
Lemma nodup_flat_map {A B} (f : A -> list B) : forall l, NoDup l -> (forall a, In a l -> NoDup (f a)) ->
  (forall a b x, In a l -> In b l -> In x (f a) -> In x (f b) -> a = b) -> NoDup (flat_map f l).
Proof.
  induction l as [|a l IH]; intros N F D; [constructor|]. inversion N as [|? ? Na Nl]; subst. cbn. apply nodup_app.
  - apply F. left. reflexivity.
  - apply IH; [exact Nl|intros b Hb; apply F; right; exact Hb|]. intros b c x Hb Hc. apply D; right; assumption.
  - intros x Hx Hy. apply in_flat_map in Hy. destruct Hy as (b & Hb & Hxb). assert (a = b) by exact (D a b x (or_introl eq_refl) (or_intror Hb) Hx Hxb). congruence.
Qed.
Lemma nodup_map {A B} (f : A -> B) : forall l, (forall a b, In a l -> In b l -> f a = f b -> a = b) -> NoDup l -> NoDup (map f l).
Proof.
  induction l as [|a l IH]; intros I N; [constructor|]. inversion N as [|? ? Na Nl]; subst. cbn. constructor.
  - rewrite in_map_iff. intros (b & E & Hb). rewrite (I b a (or_intror Hb) (or_introl eq_refl) E) in Hb. contradiction.
  - apply IH; [|exact Nl]. intros x y Hx Hy. apply I; right; assumption.
Qed.
Lemma product_nodup {A} : forall ls : list (list A), (forall l, In l ls -> NoDup l) -> NoDup (product ls).
Proof.
  induction ls as [|a ls IH]; intros H; [repeat constructor; intros []|]. cbn. apply nodup_flat_map.
  - apply H. left. reflexivity.
  - intros x _. apply nodup_map; [intros k k' _ _ E; congruence|]. apply IH. intros l Hl. apply H. right. exact Hl.
  - intros x y l _ _ Hx Hy. apply in_map_iff in Hx. apply in_map_iff in Hy. destruct Hx as (k & <- & _), Hy as (k' & E & _). congruence.
Qed.
Lemma product_map {A B} (f : A -> B) : forall ls, map (map f) (product ls) = product (map (map f) ls).
Proof.
  induction ls as [|a ls IH]; [reflexivity|]. cbn. rewrite <- IH. clear IH. induction a as [|x a IHa]; [reflexivity|]. cbn.
  rewrite map_app, IHa. f_equal. rewrite !map_map. reflexivity.
Qed.
Lemma sequence_some {A} : forall (l : list (option A)) r, sequence l = Some r <-> l = map Some r.
Proof.
  induction l as [|[x|] l IH]; intros r; cbn.
  - split; [intros H; injection H as <-; reflexivity|]. destruct r; [reflexivity|discriminate].
  - destruct (sequence l) as [k|] eqn:E; cbn.
    + split; [intros H; injection H as <-; cbn; rewrite (proj1 (IH k) eq_refl); reflexivity|].
      destruct r as [|y r]; [discriminate|]. cbn. intros H. injection H as -> H. apply IH in H. congruence.
    + split; [discriminate|]. destruct r as [|y r]; [discriminate|]. cbn. intros H. injection H as -> H. apply IH in H. discriminate.
  - split; [discriminate|]. destruct r; discriminate.
Qed.
Lemma sequence_none {A} : forall l : list (option A), sequence l = None <-> In None l.
Proof.
  induction l as [|[x|] l IH]; cbn; [split; [discriminate|intros []]| |tauto].
  destruct (sequence l) as [k|]; cbn; split; try discriminate.
  - intros [H|H]; [discriminate|]. apply IH in H. discriminate.
  - intros _. right. apply IH. reflexivity.
  - reflexivity.
Qed.

(* ------------------------------ the type variables ------------------------------ *)

Lemma used_in d x : In x (used d) <-> exists p, In p (params d) /\ In (IV x) (annot p).
Proof.
  unfold used. rewrite (dedup_in _ nat_sound), in_flat_map. split.
  - intros (p & Hp & H). apply in_flat_map in H. destruct H as (i & Hi & Hx). exists p. split; [exact Hp|]. destruct i; [destruct Hx|].
    destruct Hx as [->|[]]. exact Hi.
  - intros (p & Hp & H). exists p. split; [exact Hp|]. apply in_flat_map. exists (IV x). split; [exact H|left; reflexivity].
Qed.
Lemma used_nodup d : NoDup (used d).
Proof. apply dedup_nodup. exact nat_sound. Qed.
Lemma lookup_combine (s : nat -> ty) : forall xs x, In x xs -> lookup (combine xs (map s xs)) x = Some (s x).
Proof.
  induction xs as [|y xs IH]; intros x H; [destruct H|]. cbn. destruct (Nat.eqb_spec x y) as [->|N]; [reflexivity|].
  destruct H as [H|H]; [congruence|]. exact (IH x H).
Qed.
Lemma combine_fun : forall xs ts, NoDup xs -> length ts = length xs -> exists s : nat -> ty, ts = map s xs.
Proof.
  induction xs as [|x xs IH]; intros ts N L.
  - destruct ts; [|discriminate]. exists (fun _ => native PInt). reflexivity.
  - destruct ts as [|t ts]; [discriminate|]. inversion N as [|? ? Nx Ns]; subst. injection L as L. destruct (IH ts Ns L) as [s E].
    exists (fun y => if Nat.eqb y x then t else s y). cbn. rewrite Nat.eqb_refl. f_equal. rewrite E. apply map_ext_in. intros y Hy.
    destruct (Nat.eqb_spec y x) as [->|_]; [contradiction|reflexivity].
Qed.
Lemma combos_in d s : In s (combinations d) <-> exists f : nat -> ty, s = combine (used d) (map f (used d)) /\ forall x, In x (used d) -> In (f x) (avail d x).
Proof.
  unfold combinations. rewrite in_map_iff. split.
  - intros (ts & <- & H). apply product_in in H.
    assert (L : length ts = length (used d)). { clear -H. revert H. generalize (used d). intros u. revert ts. induction u as [|x u IH]; intros ts H; inversion H; subst; cbn; auto. }
    destruct (combine_fun _ _ (used_nodup d) L) as [f ->]. exists f. split; [reflexivity|]. clear L. revert H. generalize (used d). intros u. induction u as [|y u IH]; intros H x Hx; [destruct Hx|].
    inversion H; subst. destruct Hx as [->|Hx]; auto.
  - intros (f & -> & H). exists (map f (used d)). split; [reflexivity|]. apply product_in. revert H. generalize (used d). intros u.
    induction u as [|y u IH]; intros H; [constructor|]. cbn. constructor; [apply H; left; reflexivity|]. apply IH. intros x Hx. apply H. right. exact Hx.
Qed.
Definition type_at (f : nat -> ty) (i : item) : ty := match i with IT u => u | IV x => f x end.
Lemma types_at d f p : In p (params d) -> types_of (combine (used d) (map f (used d))) p = Some (dedup ty_eqb (map (type_at f) (annot p))).
Proof.
  intros Hp. unfold types_of.
  replace (sequence (map (item_type (combine (used d) (map f (used d)))) (annot p))) with (Some (map (type_at f) (annot p))); [reflexivity|].
  symmetry. apply sequence_some. rewrite map_map. apply map_ext_in. intros i Hi. destruct i as [t|x]; [reflexivity|]. cbn.
  apply lookup_combine. apply used_in. exists p. auto.
Qed.
Lemma visit_types_fst : forall ts v r, visit_types v ts = Some r -> map fst r = ts.
Proof.
  induction ts as [|t ts IH]; intros v r H; cbn in H; [injection H as <-; reflexivity|].
  destruct v as [|l u|n].
  - destruct (visit_types DNone ts) as [k|] eqn:E; [|discriminate]. injection H as <-. cbn. rewrite (IH _ _ E). reflexivity.
  - destruct (convert l t) as [[l' t']|]; [|discriminate]. destruct (visit_types (DLit l' t') ts) as [k|] eqn:E; [|discriminate]. injection H as <-. cbn. rewrite (IH _ _ E). reflexivity.
  - destruct (visit_types (DMinus n) ts) as [k|] eqn:E; [|discriminate]. injection H as <-. cbn. rewrite (IH _ _ E). reflexivity.
Qed.
(* the types of the overloads *)
Definition row (d : def) (f : nat -> ty) : list (list ty) := product (map (fun p => dedup ty_eqb (map (type_at f) (annot p))) (params d)).
Lemma visit_params_fst d f r : visit_params d (combine (used d) (map f (used d))) = Some r -> map (map fst) r = row d f.
Proof.
  unfold visit_params. destruct (sequence (map (visit_param (combine (used d) (map f (used d)))) (params d))) as [ls|] eqn:E; [|discriminate].
  intros H. injection H as <-. rewrite product_map. unfold row. f_equal. apply sequence_some in E.
  assert (A : forall ps, incl ps (params d) -> forall ls, map (visit_param (combine (used d) (map f (used d)))) ps = map Some ls ->
    map (map fst) ls = map (fun p => dedup ty_eqb (map (type_at f) (annot p))) ps).
  { clear E ls. induction ps as [|p ps IH]; intros I [|l ls] E; try discriminate; [reflexivity|]. cbn in E.
    injection E as E1 E2. cbn. f_equal; [|apply IH; [intros q Hq; apply I; right; exact Hq|exact E2]].
    unfold visit_param in E1. rewrite (types_at d f p (I p (or_introl eq_refl))) in E1. exact (visit_types_fst _ _ _ E1). }
  exact (A (params d) (fun p h => h) ls E).
Qed.
Lemma overloads_rows d fs : overloads d = Some fs -> exists rs, sequence (map (visit_params d) (combinations d)) = Some rs /\ fs = concat rs.
Proof. unfold overloads. destruct (sequence (map (visit_params d) (combinations d))) as [rs|]; [|discriminate]. intros H. injection H as <-. eauto. Qed.
Lemma overload_types d fs ts : overloads d = Some fs -> (In ts (map (map fst) fs) <-> exists s, choice d s ts).
Proof.
  intros H. destruct (overloads_rows d fs H) as (rs & E & ->). apply sequence_some in E.
  assert (A : In ts (map (map fst) (concat rs)) <-> exists f, (forall x, In x (used d) -> In (f x) (avail d x)) /\ In ts (row d f)).
  { split.
    - intros Hts. apply in_map_iff in Hts. destruct Hts as (o & <- & Ho). apply in_concat in Ho. destruct Ho as (r & Hr & Ho).
      assert (Hs : In (Some r) (map (visit_params d) (combinations d))) by (rewrite E; apply in_map; exact Hr).
      apply in_map_iff in Hs. destruct Hs as (s & V & Hs). apply combos_in in Hs. destruct Hs as (f & -> & Hf). exists f. split; [exact Hf|].
      rewrite <- (visit_params_fst d f r V). apply in_map. exact Ho.
    - intros (f & Hf & Hts).
      assert (Hs : In (visit_params d (combine (used d) (map f (used d)))) (map Some rs)) by (rewrite <- E; apply in_map; apply combos_in; eauto).
      apply in_map_iff in Hs. destruct Hs as (r & V & Hr). rewrite <- (visit_params_fst d f r (eq_sym V)) in Hts. apply in_map_iff in Hts.
      destruct Hts as (o & <- & Ho). apply in_map. apply in_concat. eauto. }
  rewrite A. clear A E H. split; intros (f & Hf & Hts); exists f.
  - split; [intros p x Hp Hx; apply Hf; apply used_in; eauto|]. apply product_in in Hts. clear Hf. revert ts Hts. generalize (params d). intros ps.
    induction ps as [|p ps IH]; intros ts Hts; inversion Hts as [|t ? k ? Ht Hk]; subst; constructor; [|apply IH; exact Hk].
    apply (proj1 (dedup_in _ ty_sound _ _)) in Ht. apply in_map_iff in Ht. destruct Ht as (i & <- & Hi). exists i. auto.
  - split; [intros x Hx; apply used_in in Hx; destruct Hx as (p & Hp & Hx); exact (Hf p x Hp Hx)|]. apply product_in. clear Hf.
    induction Hts as [|p t ps k Ht Hk IH]; cbn; constructor; [|exact IH].
    destruct Ht as (i & Hi & ->). apply (proj2 (dedup_in _ ty_sound _ _)). apply in_map_iff. exists i. auto.
Qed.

(* ------------------------------ overloads are different ------------------------------ *)

Lemma row_nodup d f : NoDup (row d f).
Proof. apply product_nodup. intros l Hl. apply in_map_iff in Hl. destruct Hl as (p & <- & _). apply dedup_nodup. exact ty_sound. Qed.
Lemma row_alone d f x ts : stands_alone d x -> In ts (row d f) -> exists i, nth_error ts i = Some (f x) /\ (exists p, nth_error (params d) i = Some p /\ annot p = [IV x]).
Proof.
  intros (p & Hp & Ap) H. apply product_in in H. apply In_nth_error in Hp. destruct Hp as [i Hi]. exists i. split; [|eauto].
  revert ts H i Hi. generalize (params d). intros ps. induction ps as [|q ps IH]; intros ts H i Hi; [destruct i; discriminate|].
  inversion H as [|t ? k ? Ht Hk]; subst. destruct i as [|i]; cbn in *.
  - injection Hi as ->. rewrite Ap in Ht. cbn in Ht. destruct Ht as [<-|[]]. reflexivity.
  - exact (IH k Hk i Hi).
Qed.
Lemma row_alone_at d f x ts i p : In ts (row d f) -> nth_error (params d) i = Some p -> annot p = [IV x] -> nth_error ts i = Some (f x).
Proof.
  intros H. apply product_in in H. intros Hi Ap. revert ts H i Hi. generalize (params d). intros ps. induction ps as [|q ps IH]; intros ts H i Hi; [destruct i; discriminate|].
  inversion H as [|t ? k ? Ht Hk]; subst. destruct i as [|i]; cbn in *.
  - injection Hi as ->. rewrite Ap in Ht. cbn in Ht. destruct Ht as [<-|[]]. reflexivity.
  - exact (IH k Hk i Hi).
Qed.
Lemma combine_inj : forall (xs : list nat) (ts us : list ty), length ts = length xs -> length us = length xs -> combine xs ts = combine xs us -> ts = us.
Proof.
  induction xs as [|x xs IH]; intros [|t ts] [|u us] A B E; try discriminate; [reflexivity|]. cbn in *. injection E as -> E. f_equal. apply IH; auto.
Qed.
Lemma combos_nodup d : (forall x, In x (used d) -> NoDup (avail d x)) -> NoDup (combinations d).
Proof.
  intros H. unfold combinations. apply nodup_map.
  - intros a b Ha Hb E. apply product_in in Ha, Hb. apply (combine_inj (used d)); [| |exact E].
    + clear -Ha. revert a Ha. generalize (used d). intros u. induction u; intros l Hl; inversion Hl; subst; cbn; auto.
    + clear -Hb. revert b Hb. generalize (used d). intros u. induction u; intros l Hl; inversion Hl; subst; cbn; auto.
  - apply product_nodup. intros l Hl. apply in_map_iff in Hl. destruct Hl as (x & <- & Hx). exact (H x Hx).
Qed.
Lemma map_flat {A B} (f : A -> B) (ls : list (list A)) : map f (concat ls) = flat_map (map f) ls.
Proof. induction ls as [|l ls IH]; [reflexivity|]. cbn. rewrite map_app, IH. reflexivity. Qed.
Definition row_of (d : def) (s : env) : list (list ty) := row d (fun x => match lookup s x with Some t => t | None => native PInt end).
Lemma row_ext d f g : (forall x, In x (used d) -> f x = g x) -> row d f = row d g.
Proof.
  intros H. unfold row. f_equal. apply map_ext_in. intros p Hp. f_equal. apply map_ext_in. intros [t|x] Hi; [reflexivity|]. cbn. apply H. apply used_in. eauto.
Qed.
Lemma row_of_fun d f : row_of d (combine (used d) (map f (used d))) = row d f.
Proof. apply row_ext. intros x Hx. rewrite (lookup_combine f _ _ Hx). reflexivity. Qed.
Lemma types_list d fs : overloads d = Some fs -> map (map fst) fs = flat_map (row_of d) (combinations d).
Proof.
  intros H. destruct (overloads_rows d fs H) as (rs & E & ->). apply sequence_some in E. rewrite map_flat.
  assert (A : forall ss, incl ss (combinations d) -> forall rs, map (visit_params d) ss = map Some rs -> flat_map (map (map fst)) rs = flat_map (row_of d) ss).
  { clear. induction ss as [|s ss IH]; intros I [|r rs] E; try discriminate; [reflexivity|]. cbn in E. injection E as E1 E2. cbn [flat_map].
    rewrite (IH (fun x h => I x (or_intror h)) rs E2). f_equal. destruct (proj1 (combos_in d s) (I s (or_introl eq_refl))) as (f & -> & _).
    rewrite row_of_fun. exact (visit_params_fst d f r E1). }
  exact (A _ (fun x h => h) rs E).
Qed.
Lemma distinct d fs : overloads d = Some fs -> (forall x, In x (used d) -> stands_alone d x /\ NoDup (avail d x)) -> NoDup (map (map fst) fs).
Proof.
  intros H A. rewrite (types_list d fs H). apply nodup_flat_map.
  - apply combos_nodup. intros x Hx. apply A. exact Hx.
  - intros s _. apply row_nodup.
  - intros s1 s2 ts H1 H2 R1 R2. apply combos_in in H1, H2. destruct H1 as (f & -> & _), H2 as (g & -> & _). rewrite row_of_fun in R1, R2.
    f_equal. apply map_ext_in. intros x Hx. destruct (row_alone d f x ts (proj1 (A x Hx)) R1) as (i & N & p & Np & Ap).
    pose proof (row_alone_at d g x ts i p R2 Np Ap) as M. congruence.
Qed.
Lemma duplicates d fs x t v : params d = [{| annot := [IV x; IT t]; value := v |}] -> 2 <= length (avail d x) -> overloads d = Some fs -> ~ NoDup (map (map fst) fs).
Proof.
  intros P L H. rewrite (types_list d fs H).
  assert (U : used d = [x]) by (unfold used; rewrite P; reflexivity).
  assert (R : forall s, In [t] (row_of d s)).
  { intros s. unfold row_of, row. rewrite P. cbn [map]. apply product_in. constructor; [|constructor].
    apply (proj2 (dedup_in _ ty_sound _ _)). cbn. auto. }
  unfold combinations. rewrite U. cbn [map product]. destruct (avail d x) as [|a [|b l]]; cbn in L; try lia. cbn [flat_map map app].
  intros N. assert (D : forall (k m rest : list (list ty)), NoDup (k ++ m ++ rest) -> In [t] k -> In [t] m -> False).
  { clear. intros k m rest N. induction k as [|y k IH]; [intros []|]. inversion N as [|? ? Ny Nk]; subst. intros [->|Hk] Hm.
    - apply Ny. apply in_or_app. right. apply in_or_app. left. exact Hm.
    - exact (IH Nk Hk Hm). }
  exact (D _ _ _ N (R _) (R _)).
Qed.

(* ------------------------------ defaults ------------------------------ *)

Lemma convert_none v t : convert v t = None <-> bad (prim_of v) (kind t).
Proof.
  unfold convert, bad. destruct v, (kind t); cbn; split; intros H; try discriminate; try reflexivity; intuition discriminate || (auto; fail) || idtac.
  all: try (left; split; reflexivity). all: right; split; [reflexivity|]; auto.
Qed.
Lemma convert_kind v t w u : convert v t = Some (w, u) -> prim_of w = kind t.
Proof. unfold convert. destruct v, (kind t); cbn; intros H; try discriminate; injection H as <- _; reflexivity. Qed.
Lemma convert_number v t : level (prim_of v) <= level (kind t) -> exists w u, convert v t = Some (w, u) /\ same_number w v.
Proof.
  unfold convert, same_number. destruct v as [b|n|q|re im], (kind t); cbn; intros L; try lia; eexists; eexists; (split; [reflexivity|]); cbn; try (split; reflexivity).
  all: destruct b; split; reflexivity.
Qed.
Lemma same_trans u v w : same_number u v -> same_number v w -> same_number u w.
Proof. unfold same_number. intros [A B] [C D]. split; etransitivity; eassumption. Qed.
Lemma visit_crash : forall ts v u, visit_types (DLit v u) ts = None <-> bad_pair (prim_of v) ts.
Proof.
  induction ts as [|t ts IH]; intros v u; cbn; [split; [discriminate|intros []]|].
  destruct (convert v t) as [[w u']|] eqn:E.
  - assert (K := convert_kind _ _ _ _ E). destruct (visit_types (DLit w u') ts) as [r|] eqn:V; cbn.
    + split; [discriminate|]. intros [B|B]; [apply convert_none in B; congruence|]. rewrite <- K in B. apply (IH w u') in B. congruence.
    + split; [|reflexivity]. intros _. right. rewrite <- K. apply (IH w u'). exact V.
  - split; [|reflexivity]. intros _. left. apply convert_none. exact E.
Qed.
Lemma visit_no_crash ts v : (forall l u, v <> DLit l u) -> visit_types v ts = Some (map (fun t => (t, v)) ts).
Proof. intros N. induction ts as [|t ts IH]; [reflexivity|]. cbn. destruct v as [|l u|n]; [rewrite IH; reflexivity|congruence|rewrite IH; reflexivity]. Qed.
Lemma visit_rising : forall ts v u, rising (level (prim_of v)) ts -> exists r, visit_types (DLit v u) ts = Some r /\ forall a, In a r -> same_default (snd a) (DLit v u).
Proof.
  induction ts as [|t ts IH]; intros v u R; cbn; [exists []; split; [reflexivity|intros a []]|].
  destruct R as [L R]. destruct (convert_number v t L) as (w & u' & E & S). rewrite E. rewrite <- (convert_kind _ _ _ _ E) in R.
  destruct (IH w u' R) as (r & V & A). rewrite V. cbn. eexists. split; [reflexivity|]. intros a [<-|Ha]; [exact S|].
  specialize (A a Ha). destruct (snd a); cbn in *; try contradiction. exact (same_trans _ _ _ A S).
Qed.

Lemma types_at_plain f ts : NoDup ts -> dedup ty_eqb (map (type_at f) (map IT ts)) = ts.
Proof. intros N. rewrite map_map. cbn. rewrite map_id. apply dedup_id; [exact ty_sound|exact N]. Qed.
Lemma visit_param_at d f p : In p (params d) -> visit_param (combine (used d) (map f (used d))) p = visit_types (value p) (dedup ty_eqb (map (type_at f) (annot p))).
Proof. intros Hp. unfold visit_param. rewrite (types_at d f p Hp). reflexivity. Qed.
Lemma plain_used d : plain d -> used d = [].
Proof.
  intros P. assert (N : forall x, ~ In x (used d)).
  { intros x Hx. apply used_in in Hx. destruct Hx as (p & Hp & Hx). destruct (P p Hp) as (ts & E & _). rewrite E in Hx. apply in_map_iff in Hx. destruct Hx as (t & E' & _). discriminate. }
  destruct (used d) as [|x l]; [reflexivity|]. exfalso. exact (N x (or_introl eq_refl)).
Qed.
Lemma crash_iff d : plain d ->
  (overloads d = None <-> exists p ts v u, In p (params d) /\ annot p = map IT ts /\ value p = DLit v u /\ bad_pair (prim_of v) ts).
Proof.
  intros P. unfold overloads.
  assert (C : combinations d = [combine (used d) (map (fun _ => native PInt) (used d))]) by (unfold combinations; rewrite (plain_used d P); reflexivity).
  rewrite C. cbn [map]. set (s := combine (used d) (map (fun _ => native PInt) (used d))).
  assert (A : (option_map (@concat (list (ty * dflt))) (sequence [visit_params d s]) = None) <-> In None (map (visit_param s) (params d))).
  { cbn [sequence]. unfold visit_params. rewrite <- sequence_none. destruct (sequence (map (visit_param s) (params d))) as [ls|]; cbn; split; congruence. }
  rewrite A, in_map_iff. split.
  - intros (p & V & Hp). destruct (P p Hp) as (ts & E & N). unfold s in V. rewrite (visit_param_at d _ p Hp), E, (types_at_plain _ ts N) in V.
    destruct (value p) as [|v u|n] eqn:Ev.
    + rewrite (visit_no_crash ts DNone) in V by congruence. discriminate.
    + exists p, ts, v, u. repeat split; auto. apply (visit_crash ts v u). exact V.
    + rewrite (visit_no_crash ts (DMinus n)) in V by congruence. discriminate.
  - intros (p & ts & v & u & Hp & E & Ev & B). exists p. split; [|exact Hp]. destruct (P p Hp) as (ts' & E' & N).
    assert (ts' = ts). { rewrite E in E'. clear -E'. revert ts E'. induction ts' as [|t ts' IH]; intros [|t0 ts] E'; try discriminate; [reflexivity|]. injection E' as -> E'. f_equal. apply IH. exact E'. }
    subst ts'. unfold s. rewrite (visit_param_at d _ p Hp), E, (types_at_plain _ ts N), Ev. apply visit_crash. exact B.
Qed.
Lemma same_refl v : same_default v v.
Proof. destruct v; cbn; auto. split; reflexivity. Qed.
Lemma ordered_visit d s p : ordered d -> In s (combinations d) -> In p (params d) -> exists r, visit_param s p = Some r /\ forall a, In a r -> same_default (snd a) (value p).
Proof.
  intros O Hs Hp. apply combos_in in Hs. destruct Hs as (f & -> & Hf). rewrite (visit_param_at d f p Hp). specialize (O p Hp).
  destruct (value p) as [|v u|n] eqn:Ev.
  - rewrite visit_no_crash by congruence. eexists. split; [reflexivity|]. intros a Ha. apply in_map_iff in Ha. destruct Ha as (t & <- & _). exact Logic.I.
  - destruct O as [(ts & E & N & R)|(x & E & L)].
    + rewrite E, (types_at_plain f ts N). apply visit_rising. exact R.
    + rewrite E. cbn [map type_at dedup filter]. apply visit_rising. cbn. split; [|exact Logic.I]. apply L. apply Hf. apply used_in. exists p. rewrite E. split; [exact Hp|left; reflexivity].
  - rewrite visit_no_crash by congruence. eexists. split; [reflexivity|]. intros a Ha. apply in_map_iff in Ha. destruct Ha as (t & <- & _). reflexivity.
Qed.
Lemma sequence_all {A} (l : list (option A)) : (forall o, In o l -> o <> None) -> exists r, sequence l = Some r.
Proof. intros H. destruct (sequence l) as [r|] eqn:E; [eauto|]. apply sequence_none in E. exfalso. exact (H None E eq_refl). Qed.
Lemma ordered_defaults d : ordered d -> exists fs, overloads d = Some fs /\ forall f, In f fs -> Forall2 (fun p a => same_default (snd a) (value p)) (params d) f.
Proof.
  intros O. unfold overloads.
  assert (V : forall s, In s (combinations d) -> exists r, visit_params d s = Some r /\ forall f, In f r -> Forall2 (fun p a => same_default (snd a) (value p)) (params d) f).
  { intros s Hs. unfold visit_params. destruct (sequence_all (map (visit_param s) (params d))) as [ls E].
    { intros o Ho. apply in_map_iff in Ho. destruct Ho as (p & <- & Hp). destruct (ordered_visit d s p O Hs Hp) as (r & -> & _). discriminate. }
    rewrite E. eexists. split; [reflexivity|]. intros f Hf. apply product_in in Hf. apply sequence_some in E.
    assert (B : forall ps, incl ps (params d) -> forall ls f, map (visit_param s) ps = map Some ls -> Forall2 (@In _) f ls -> Forall2 (fun p a => same_default (snd a) (value p)) ps f).
    { clear f Hf E ls. induction ps as [|p ps IH]; intros I [|l ls] f E F; try discriminate; inversion F as [|a ? k ? Ha Hk]; subst; constructor.
      - cbn in E. injection E as E1 E2. destruct (ordered_visit d s p O Hs (I p (or_introl eq_refl))) as (r & V & A). assert (l = r) by congruence. subst. exact (A a Ha).
      - cbn in E. injection E as E1 E2. exact (IH (fun q h => I q (or_intror h)) ls k E2 Hk). }
    exact (B _ (fun q h => h) ls f E Hf). }
  destruct (sequence_all (map (visit_params d) (combinations d))) as [rs E].
  { intros o Ho. apply in_map_iff in Ho. destruct Ho as (s & <- & Hs). destruct (V s Hs) as (r & -> & _). discriminate. }
  rewrite E. eexists. split; [reflexivity|]. intros f Hf. apply in_concat in Hf. destruct Hf as (r & Hr & Hf).
  apply sequence_some in E. assert (Hs : In (Some r) (map (visit_params d) (combinations d))) by (rewrite E; apply in_map; exact Hr).
  apply in_map_iff in Hs. destruct Hs as (s & Es & Hs). destruct (V s Hs) as (r' & Er & A). assert (r = r') by congruence. subst. exact (A f Hf).
Qed.

(* ------------------------------ calls ------------------------------ *)

Lemma fill_some : forall given ds l, fill given ds = Some l ->
  length given <= length ds /\ l = map Given given ++ map Default (skipn (length given) ds) /\ ~ In DNone (skipn (length given) ds).
Proof.
  assert (Z : forall ds l, fill [] ds = Some l -> l = map Default ds /\ ~ In DNone ds).
  { induction ds as [|v ds IH]; intros l H; cbn in H; [injection H as <-; split; [reflexivity|intros []]|].
    destruct v as [|v u|n]; [discriminate| |]; (destruct (fill [] ds) as [k|] eqn:E; [|discriminate]); injection H as <-; destruct (IH k eq_refl) as [-> N]; (split; [reflexivity|]); intros [Q|Q]; congruence || contradiction. }
  induction given as [|t g IH]; intros ds l H.
  - destruct (Z ds l H) as [-> N]. cbn. split; [lia|]. split; [reflexivity|exact N].
  - destruct ds as [|v ds]; [discriminate|]. cbn in H. destruct (fill g ds) as [k|] eqn:E; [|discriminate]. injection H as <-.
    destruct (IH ds k E) as (L & -> & N). cbn. split; [lia|]. split; [reflexivity|exact N].
Qed.
Lemma all_eqb_ok : forall l k, all_eqb l k = true <-> l = k.
Proof.
  induction l as [|t l IH]; intros [|u k]; cbn; try (split; congruence). rewrite andb_true_iff, IH. split.
  - intros [A ->]. apply ty_sound in A. congruence.
  - intros H. injection H as -> ->. split; [apply ty_sound|]; reflexivity.
Qed.
Lemma point_ok : forall fs ts k, point fs ts = Some k -> exists f, nth_error fs k = Some f /\ map fst f = ts.
Proof.
  induction fs as [|f fs IH]; intros ts k H; [discriminate|]. cbn in H. destruct (all_eqb ts (map fst f)) eqn:E.
  - injection H as <-. exists f. apply all_eqb_ok in E. auto.
  - destruct (point fs ts) as [j|] eqn:P; [|discriminate]. injection H as <-. exact (IH ts j P).
Qed.
Lemma point_none : forall fs ts, (forall f, In f fs -> map fst f <> ts) -> point fs ts = None.
Proof.
  induction fs as [|f fs IH]; intros ts H; [reflexivity|]. cbn. destruct (all_eqb ts (map fst f)) eqn:E.
  - apply all_eqb_ok in E. exfalso. exact (H f (or_introl eq_refl) (eq_sym E)).
  - rewrite IH; [reflexivity|]. intros g Hg. apply H. right. exact Hg.
Qed.
Lemma same_length {A B} (R : A -> B -> Prop) l k : Forall2 R l k -> length l = length k.
Proof. induction 1; cbn; congruence. Qed.
Lemma call_runs d visited given k l : call d visited given = Runs k l ->
  exists fs f, overloads d = Some fs /\ nth_error fs k = Some f /\ map fst f = map arg_type l /\ length given <= length (params d) /\
    exists vs, l = map Given given ++ map Default vs /\ ~ In DNone vs /\
      (visited = false -> vs = skipn (length given) (map value (params d))) /\
      (visited = true -> exists f0 rest, fs = f0 :: rest /\ vs = skipn (length given) (map snd f0)).
Proof.
  unfold call. destruct (overloads d) as [fs|] eqn:O; [|discriminate].
  destruct (fill given _) as [m|] eqn:F; [|discriminate]. destruct (point fs (map arg_type m)) as [j|] eqn:P; [|discriminate].
  intros H. injection H as <- <-. destruct (point_ok _ _ _ P) as (f & N & E). destruct (fill_some _ _ _ F) as (L & -> & ND).
  exists fs, f. split; [reflexivity|]. split; [exact N|]. split; [exact E|]. split.
  - destruct visited; [|rewrite map_length in L; exact L]. destruct fs as [|f0 rest]; [destruct j; discriminate|]. rewrite map_length in L.
    assert (W : length f0 = length (params d)).
    { assert (Q : In (map fst f0) (map (map fst) (f0 :: rest))) by (left; reflexivity). apply (overload_types d _ _ O) in Q. destruct Q as (s & _ & Q).
      apply same_length in Q. rewrite map_length in Q. auto. }
    lia.
  - eexists. split; [reflexivity|]. split; [exact ND|]. split; [intros ->; reflexivity|]. intros ->. destruct fs as [|f0 rest]; [destruct j; discriminate|]. eauto.
Qed.

Lemma skipn_forall2 {A B} (R : A -> B -> Prop) : forall l k n, Forall2 R l k -> Forall2 R (skipn n l) (skipn n k).
Proof. intros l k n H. revert n. induction H as [|a b l k Hab H IH]; intros [|n]; cbn; try apply IH; [apply Forall2_nil|apply Forall2_nil|]; apply Forall2_cons; assumption. Qed.
Lemma first_call d given k l : call d false given = Runs k l -> l = map Given given ++ map Default (skipn (length given) (map value (params d))).
Proof. intros H. destruct (call_runs _ _ _ _ _ H) as (fs & f & O & N & E & L & vs & -> & ND & F & _). rewrite (F eq_refl). reflexivity. Qed.
Lemma any_call d visited given k l : ordered d -> call d visited given = Runs k l ->
  exists vs, l = map Given given ++ map Default vs /\ Forall2 same_default vs (skipn (length given) (map value (params d))).
Proof.
  intros O H. destruct (call_runs _ _ _ _ _ H) as (fs & f & Of & N & E & L & vs & -> & ND & F & T). exists vs. split; [reflexivity|].
  destruct visited.
  - destruct (T eq_refl) as (f0 & rest & -> & ->). destruct (ordered_defaults d O) as (fs & Of' & A). assert (fs = f0 :: rest) by congruence. subst fs.
    specialize (A f0 (or_introl eq_refl)). apply skipn_forall2. clear -A. induction A; cbn; constructor; auto.
  - rewrite (F eq_refl). clear. induction (skipn (length given) (map value (params d))); constructor; auto. apply same_refl.
Qed.
Lemma call_types d visited given k l : call d visited given = Runs k l ->
  exists fs f, overloads d = Some fs /\ nth_error fs k = Some f /\ firstn (length given) (map fst f) = given.
Proof.
  intros H. destruct (call_runs _ _ _ _ _ H) as (fs & f & O & N & E & L & vs & -> & _). exists fs, f. repeat split; auto.
  rewrite E, map_app, map_map. cbn. rewrite map_id, firstn_app, Nat.sub_diag, firstn_all. cbn. apply app_nil_r.
Qed.

(* ------------------------------ definitions that go wrong ------------------------------ *)

Definition tbool := native PBool. Definition tint := native PInt. Definition tfloat := native PFloat.
Definition one_param (ts : list ty) (v : dflt) : def := {| avail := fun _ => []; params := [{| annot := map IT ts; value := v |}] |}.
Lemma bool_int n : overloads (one_param [tbool; tint] (literal (LInt (S (S n))))) =
  Some [[(tbool, DLit (LBool true) tbool)]; [(tint, DLit (LInt 1) tint)]].
Proof. reflexivity. Qed.
Lemma bool_int_calls n : let d := one_param [tbool; tint] (literal (LInt (S (S n)))) in
  call d false [] = Runs 1 [Default (literal (LInt (S (S n))))] /\ call d true [] = Runs 0 [Default (DLit (LBool true) tbool)].
Proof. split; reflexivity. Qed.
Lemma float_int n : let d := one_param [tfloat] (literal (LInt n)) in
  call d false [] = Refused /\ call d true [] = Runs 0 [Default (DLit (LFloat (inject_Z (Z.of_nat n))) tfloat)].
Proof. split; reflexivity. Qed.
Definition two_of (t u : ty) (v : lit) : def :=
  {| avail := fun _ => [t; u]; params := [{| annot := [IV 0]; value := DNone |}; {| annot := [IV 0]; value := literal v |}] |}.
Lemma two_of_refused t u v visited : t = native (prim_of v) -> u <> t -> level (kind t) <= level (kind u) ->
  call (two_of t u v) visited [u] = Refused /\ exists fs, overloads (two_of t u v) = Some fs /\ map (map fst) fs = [[t; t]; [u; u]].
Proof.
  intros Ht N L. assert (Lt : level (prim_of v) <= level (kind t)) by (rewrite Ht; reflexivity). assert (Lu : level (prim_of v) <= level (kind u)) by (rewrite Ht in L; exact L).
  destruct (convert_number v t Lt) as (w & wt & Ew & _). destruct (convert_number v u Lu) as (w' & wt' & Ew' & _).
  assert (O : overloads (two_of t u v) = Some [[(t, DNone); (t, DLit w wt)]; [(u, DNone); (u, DLit w' wt')]]).
  { unfold overloads. change (combinations (two_of t u v)) with [[(0, t)]; [(0, u)]]. cbn [map]. unfold visit_params. cbn [two_of params map].
    unfold visit_param, types_of. cbn [annot value map item_type lookup Nat.eqb sequence option_map dedup filter]. unfold literal. cbn [visit_types option_map].
    rewrite Ew, Ew'. reflexivity. }
  assert (T : wt = t). { rewrite Ht in Ew |- *. unfold convert in Ew. destruct v; cbn in Ew; inversion Ew; try reflexivity. destruct (Qeq_bool re 0 && Qeq_bool im 1); reflexivity. }
  split; [|exists [[(t, DNone); (t, DLit w wt)]; [(u, DNone); (u, DLit w' wt')]]; split; [exact O|reflexivity]].
  unfold call. rewrite O. assert (D : exists x xt, fill [u] (if visited then map snd [(t, DNone); (t, DLit w wt)] else map value (params (two_of t u v))) = Some [Given u; Default (DLit x xt)] /\ xt = t).
  { destruct visited; cbn; [exists w, wt; auto|]. exists v, (native (prim_of v)). auto. }
  destruct D as (x & xt & -> & ->). rewrite point_none; [reflexivity|]. intros f [<-|[<-|[]]]; cbn; intros Q; injection Q; congruence.
Qed.
