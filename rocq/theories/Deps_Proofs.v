(* Proofs for Deps_Thms. *)
From Coq Require Import Bool ZArith List Arith Lia.
From Verif Require Import Deps_Model Deps_Spec.
Import ListNotations.
Open Scope list_scope.
Open Scope nat_scope.

Lemma file_eqb_eq : forall f g, file_eqb f g = true <-> f = g.
Proof. intros f g. unfold file_eqb. destruct (list_eq_dec Nat.eq_dec f g); split; congruence. Qed.
Lemma file_eqb_refl : forall f, file_eqb f f = true.
Proof. intros f. apply file_eqb_eq. reflexivity. Qed.
Lemma name_eqb_eq : forall m n, name_eqb m n = true <-> m = n.
Proof.
  intros [a l] [b k]. unfold name_eqb. cbn. rewrite andb_true_iff, Nat.eqb_eq, file_eqb_eq. split; [intros [-> ->]; reflexivity|intros [= -> ->]; tauto].
Qed.
Lemma mem_in : forall f l, mem f l = true <-> In f l.
Proof.
  intros f l. unfold mem. rewrite existsb_exists. split.
  - intros [g [H E]]. apply file_eqb_eq in E. subst. exact H.
  - intros H. exists f. split; [exact H|apply file_eqb_refl].
Qed.

Section World.
Context (w : world) (files : list file).
Notation edge := (edge w files). Notation reach := (reach w files). Notation imports := (imports w files).

Lemma ready_usable : forall g, mem g files || ready w g = true <-> usable w files g.
Proof.
  intros g. rewrite orb_true_iff, mem_in. unfold usable, ready. split; (intros [H|H]; [left; exact H|right]).
  - destruct (stub_time w g) as [t|]; [|discriminate]. exists t. split; [reflexivity|]. apply negb_true_iff in H. apply Z.ltb_ge in H. exact H.
  - destruct H as [t [-> H]]. apply negb_true_iff. apply Z.ltb_ge. exact H.
Qed.
Lemma targets_ok : forall f imps, imports_found w files f imps <-> exists gs, targets w files f imps = Some gs.
Proof.
  intros f imps. induction imps as [|n imps IH]; cbn [targets].
  - split; [eauto|intros _ n []].
  - split.
    + intros H. destruct (H n (or_introl eq_refl)) as [g [E U]]. rewrite E. apply ready_usable in U. rewrite U.
      destruct (proj1 IH) as [gs ->]; [intros m Hm; apply H; right; exact Hm|]. cbn. eauto.
    + intros [gs E]. destruct (resolve w f n) as [g|] eqn:R; [|discriminate].
      destruct (mem g files || ready w g) eqn:U; [|discriminate]. apply ready_usable in U.
      destruct (targets w files f imps) as [gs'|] eqn:T; [|discriminate].
      intros m [->|Hm]; [eauto|]. apply (proj2 IH); [eauto|exact Hm].
Qed.
(* the pairs of names and files *)
Lemma targets_pairs : forall f imps gs, targets w files f imps = Some gs ->
  length imps = length gs /\ (forall n g, In (n, g) (combine imps gs) -> In n imps /\ resolve w f n = Some g) /\
  (forall n, In n imps -> exists g, In (n, g) (combine imps gs)) /\ (forall g, In g gs <-> exists n, In n imps /\ resolve w f n = Some g).
Proof.
  intros f imps. induction imps as [|n imps IH]; cbn [targets]; intros gs E.
  - injection E as <-. cbn. repeat split; try tauto. intros [n [[] _]].
  - destruct (resolve w f n) as [g|] eqn:R; [|discriminate]. destruct (mem g files || ready w g) eqn:U; [|discriminate].
    destruct (targets w files f imps) as [gs'|]; [|discriminate]. injection E as <-. destruct (IH _ eq_refl) as [L [A [B C]]].
    cbn. split; [lia|]. split; [|split].
    + intros m h [[= -> ->]|H]; [tauto|]. destruct (A m h H). tauto.
    + intros m [->|H]; [eauto|]. destruct (B m H) as [h Hh]. eauto.
    + intros h. split.
      * intros [->|H]; [eauto|]. apply C in H. destruct H as [m [Hm Rm]]. eauto.
      * intros [m [[->|Hm] Rm]]; [left; congruence|]. right. apply C. eauto.
Qed.
Lemma targets_edge : forall g gs h, targets w files g (imports g) = Some gs -> (In h gs <-> edge g h).
Proof. intros g gs h T. destruct (targets_pairs _ _ _ T) as [_ [_ [_ C]]]. exact (C h). Qed.

(* ------------------------------ dictionaries ------------------------------ *)

Lemma get_app : forall d e g, get (d ++ e) g = match get d g with Some p => Some p | None => get e g end.
Proof. intros d e g. induction d as [|[h p] d IH]; [reflexivity|]. cbn. destruct (file_eqb h g); [reflexivity|exact IH]. Qed.
Lemma known_in : forall d g, known d g = true <-> In g (map fst d).
Proof.
  intros d g. unfold known. induction d as [|[h p] d IH]; cbn; [split; [discriminate|tauto]|]. destruct (file_eqb h g) eqn:E.
  - apply file_eqb_eq in E. subst. tauto.
  - rewrite IH. split; [tauto|]. intros [->|H]; [rewrite file_eqb_refl in E; discriminate|exact H].
Qed.
Lemma known_app : forall d e g, known (d ++ e) g = known d g || known e g.
Proof. intros d e g. unfold known. rewrite get_app. destruct (get d g); [reflexivity|]. destruct (get e g); reflexivity. Qed.
Lemma link_names_app : forall d e l acc, (forall n g, In (n, g) l -> known d g = true) -> link_names (d ++ e) l acc = link_names d l acc.
Proof.
  intros d e l. induction l as [|[n g] l IH]; intros acc K; [reflexivity|]. cbn. rewrite get_app.
  pose proof (K n g (or_introl eq_refl)) as Kg. unfold known in Kg. destruct (get d g); [|discriminate]. apply IH. intros m h H. apply (K m h). right. exact H.
Qed.
Lemma link_app : forall d e imps gs, (forall g, In g gs -> known d g = true) -> link (d ++ e) imps gs = link d imps gs.
Proof. intros d e imps gs K. unfold link. rewrite link_names_app; [reflexivity|]. intros n g H. apply K. eapply in_combine_r. exact H. Qed.

(* each parser is complete and comes after those of its imports *)
Definition good (d : dict) : Prop :=
  forall d1 g p d2, d = d1 ++ (g, p) :: d2 -> known d1 g = false /\
    exists gs, targets w files g (imports g) = Some gs /\ (forall h, In h gs -> known d1 h = true) /\ p = link d1 (imports g) gs.
Lemma good_nil : good [].
Proof. intros [|x d1] g p d2 E; discriminate. Qed.
Lemma split_last : forall {A : Type} (d : list A) x d1 y d2, d ++ [x] = d1 ++ y :: d2 -> (d2 = [] /\ d = d1 /\ x = y) \/ exists d3, d2 = d3 ++ [x] /\ d = d1 ++ y :: d3.
Proof.
  intros A d x d1 y d2 E. destruct d2 as [|z d2] using rev_ind.
  - left. apply app_inj_tail in E. destruct E as [-> ->]. tauto.
  - right. clear IHd2. exists d2. rewrite app_comm_cons, app_assoc in E. apply app_inj_tail in E. destruct E as [E ->]. split; [reflexivity|]. exact E.
Qed.
Lemma good_snoc : forall d g gs, good d -> known d g = false -> targets w files g (imports g) = Some gs -> (forall h, In h gs -> known d h = true) ->
  good (d ++ [(g, link d (imports g) gs)]).
Proof.
  intros d g gs G K T H d1 g' p' d2 E. apply split_last in E. destruct E as [[-> [-> [= -> <-]]]|[d3 [-> ->]]].
  - split; [exact K|]. exists gs. tauto.
  - eapply G. reflexivity.
Qed.
Lemma good_prefix : forall d e, good (d ++ e) -> good d.
Proof. intros d e G d1 g p d2 E. apply (G d1 g p (d2 ++ e)). rewrite E, <- app_assoc. reflexivity. Qed.
Lemma known_split : forall d g, known d g = true -> exists d1 p d2, d = d1 ++ (g, p) :: d2.
Proof. intros d g K. apply known_in in K. apply in_map_iff in K. destruct K as [[h p] [E H]]. cbn in E. subst. apply in_split in H. destruct H as [d1 [d2 ->]]. eauto. Qed.
(* the files of a good dictionary are sound, with all files below *)
Lemma good_edge : forall d g h, good d -> known d g = true -> edge g h -> known d h = true.
Proof.
  intros d g h G K E. destruct (known_split _ _ K) as [d1 [p [d2 ->]]]. destruct (G d1 g p d2 eq_refl) as [_ [gs [T [H _]]]].
  rewrite known_app, H; [reflexivity|]. apply (targets_edge _ _ _ T). exact E.
Qed.
Lemma good_reach : forall d g h, good d -> reach g h -> known d g = true -> known d h = true.
Proof. intros d g h G R. induction R as [f g E|f g h E R IH]; intros K; [eapply good_edge; eauto|]. apply IH. eapply good_edge; eauto. Qed.
Lemma good_acc : forall d, good d -> forall g, known d g = true -> Acc (fun b a => edge a b) g.
Proof.
  intros d. induction d as [|[g0 p0] d IH] using rev_ind; intros G g K; [discriminate|].
  rewrite known_app in K. destruct (known d g) eqn:Kg; [apply IH; [eapply good_prefix; exact G|exact Kg]|].
  destruct (G d g0 p0 [] eq_refl) as [_ [gs [T [H _]]]]. unfold known in K. cbn in K.
  destruct (file_eqb g0 g) eqn:E; [|cbn in K; discriminate]. apply file_eqb_eq in E. subst g0.
  constructor. intros h Eh. apply IH; [eapply good_prefix; exact G|]. apply H. apply (targets_edge _ _ _ T). exact Eh.
Qed.
Lemma good_found : forall d g, good d -> known d g = true -> imports_found w files g (imports g).
Proof. intros d g G K. destruct (known_split _ _ K) as [d1 [p [d2 ->]]]. destruct (G d1 g p d2 eq_refl) as [_ [gs [T _]]]. apply targets_ok. eauto. Qed.
Lemma good_sound : forall d g, good d -> known d g = true -> sound w files g.
Proof.
  intros d g G K. split; [eapply good_acc; eauto|]. split; [eapply good_found; eauto|]. intros h R. eapply good_found; [exact G|]. eapply good_reach; eauto.
Qed.
Lemma reach_trans : forall f g h, reach f g -> reach g h -> reach f h.
Proof. intros f g h R R'. induction R; [eapply r_more; eauto|eapply r_more; eauto]. Qed.
Lemma acc_irrefl : forall g, Acc (fun b a => edge a b) g -> ~ reach g g.
Proof.
  intros g A. induction A as [g _ IH]. intros R. inversion R as [f g' E|f h g' E R']; subst; [apply (IH g E); constructor; exact E|].
  apply (IH h E). eapply reach_trans; [exact R'|constructor; exact E].
Qed.

(* ------------------------------ loading ------------------------------ *)

Definition sons (n : nat) (imps : list name) (gs : list file) :=
  fix sons (todo : list file) (d : dict) : outcome :=
    match todo with
    | [] => Done d (link d imps gs)
    | g :: todo' =>
      if known d g then sons todo' d
      else match load n w files g (imports g) d with Done d' p => sons todo' (d' ++ [(g, p)]) | o => o end
    end.
Lemma load_S : forall n f imps d, load (S n) w files f imps d =
  match targets w files f imps with None => Fatal | Some gs => sons n imps gs gs d end.
Proof. reflexivity. Qed.

Lemma load_good : forall n f imps d d' p, good d -> load n w files f imps d = Done d' p ->
  exists gs e, targets w files f imps = Some gs /\ d' = d ++ e /\ good d' /\ (forall g, In g gs -> known d' g = true) /\ p = link d' imps gs /\
    (forall g, In g (map fst e) -> below w files f imps g).
Proof.
  induction n as [|n IH]; intros f imps d d' p G L; [discriminate|]. rewrite load_S in L.
  destruct (targets w files f imps) as [gs|] eqn:T; [|discriminate]. exists gs.
  destruct (targets_pairs _ _ _ T) as [_ [_ [_ C]]].
  assert (X : forall todo d, incl todo gs -> good d -> sons n imps gs todo d = Done d' p ->
    exists e, d' = d ++ e /\ good d' /\ (forall g, In g todo -> known d' g = true) /\ p = link d' imps gs /\ (forall g, In g (map fst e) -> below w files f imps g)).
  { clear d G L. induction todo as [|g todo IHt]; intros d I G L; cbn [sons] in L.
    - injection L as <- <-. exists []. rewrite app_nil_r. split; [reflexivity|]. split; [exact G|]. cbn. tauto.
    - assert (Ig : In g gs) by (apply I; left; reflexivity). assert (It : incl todo gs) by (intros h Hh; apply I; right; exact Hh).
      destruct (proj1 (C g) Ig) as [m [Hm Rm]].
      destruct (known d g) eqn:K.
      + destruct (IHt d It G L) as [e [-> [G' [A [B D]]]]]. exists e. split; [reflexivity|]. split; [exact G'|]. split; [|split; [exact B|exact D]].
        intros h [<-|H]; [rewrite known_app, K; reflexivity|exact (A h H)].
      + destruct (load n w files g (imports g) d) as [d1 p1| |] eqn:L1; try discriminate.
        destruct (IH g (imports g) d d1 p1 G L1) as [gs1 [e1 [T1 [-> [G1 [A1 [-> B1]]]]]]].
        assert (K1 : known (d ++ e1) g = false).
        { rewrite known_app, K. cbn. destruct (known e1 g) eqn:Ke; [|reflexivity]. exfalso.
          assert (Kd : known (d ++ e1) g = true) by (rewrite known_app, Ke; apply orb_true_r).
          apply (acc_irrefl g); [eapply good_acc; [exact G1|exact Kd]|]. apply known_in in Ke. destruct (B1 g Ke) as [n1 [h [Hn [Rn R]]]].
          assert (E : edge g h) by (exists n1; tauto). destruct R as [->|R]; [constructor; exact E|eapply r_more; eauto]. }
        pose proof (good_snoc _ _ _ G1 K1 T1 A1) as G2.
        destruct (IHt _ It G2 L) as [e [-> [G' [A [B D]]]]]. exists (e1 ++ [(g, link (d ++ e1) (imports g) gs1)] ++ e). rewrite !app_assoc.
        split; [reflexivity|]. split; [exact G'|]. split; [|split; [exact B|]].
        * intros h [<-|H]; [|exact (A h H)]. rewrite !known_app. unfold known at 3. cbn. rewrite file_eqb_refl. rewrite !orb_true_r. reflexivity.
        * intros h H. rewrite !map_app, !in_app_iff in H. cbn in H. destruct H as [[H|[<-|[]]]|H]; [|exists m, g; tauto|exact (D h H)].
          exists m, g. split; [exact Hm|]. split; [exact Rm|]. right. destruct (B1 h H) as [n1 [h1 [Hn [Rn R]]]].
          assert (E : edge g h1) by (exists n1; tauto). destruct R as [->|R]; [constructor; exact E|eapply r_more; eauto]. }
  destruct (X gs d (incl_refl gs) G L) as [e [-> [G' [A [B D]]]]]. exists e. tauto.
Qed.

(* files with sound imports are loaded *)
Lemma load_sons : forall N imps gs todo d, good d ->
  (forall g, In g todo -> forall d, good d -> exists d' p, load N w files g (imports g) d = Done d' p) ->
  exists d' p, sons N imps gs todo d = Done d' p.
Proof.
  intros N imps gs todo. induction todo as [|g todo IH]; intros d G H; cbn [sons]; [eauto|].
  destruct (known d g) eqn:K; [apply IH; [exact G|]; intros h Hh; apply H; right; exact Hh|].
  destruct (H g (or_introl eq_refl) d G) as [d1 [p1 L1]]. rewrite L1.
  destruct (load_good _ _ _ _ _ _ G L1) as [gs1 [e1 [T1 [-> [G1 [A1 [-> B1]]]]]]].
  apply IH; [|intros h Hh; apply H; right; exact Hh]. apply good_snoc; [exact G1| |exact T1|exact A1].
  rewrite known_app, K. cbn. destruct (known e1 g) eqn:Ke; [|reflexivity]. exfalso.
  assert (Kd : known (d ++ e1) g = true) by (rewrite known_app, Ke; apply orb_true_r).
  apply (acc_irrefl g); [eapply good_acc; [exact G1|exact Kd]|]. apply known_in in Ke. destruct (B1 g Ke) as [n1 [h [Hn [Rn R]]]].
  assert (E : edge g h) by (exists n1; tauto). destruct R as [->|R]; [constructor; exact E|eapply r_more; eauto].
Qed.
Lemma common : forall (P : nat -> file -> Prop) l, (forall g, In g l -> exists N, forall n, N <= n -> P n g) -> exists N, forall n g, N <= n -> In g l -> P n g.
Proof.
  intros P l. induction l as [|g l IH]; intros H; [exists 0; intros n g _ []|].
  destruct (H g (or_introl eq_refl)) as [N1 H1]. destruct IH as [N2 H2]; [intros h Hh; apply H; right; exact Hh|].
  exists (max N1 N2). intros n h L [<-|Hh]; [apply H1; lia|apply H2; [lia|exact Hh]].
Qed.
Lemma sound_edge : forall f g, sound w files f -> edge f g -> sound w files g.
Proof.
  intros f g [A [F R]] E. split; [exact (Acc_inv A E)|]. split; [apply R; constructor; exact E|]. intros h H. apply R. eapply r_more; eauto.
Qed.
Lemma load_sound : forall f, sound w files f -> exists N, forall n, N <= n -> forall d, good d -> exists d' p, load n w files f (imports f) d = Done d' p.
Proof.
  intros f So. pose proof (proj1 So) as A. induction A as [f _ IH]. pose proof (proj1 (targets_ok f (imports f)) (proj1 (proj2 So))) as [gs T].
  destruct (common (fun n g => forall d, good d -> exists d' p, load n w files g (imports g) d = Done d' p) gs) as [N H].
  { intros g Hg. assert (E : edge f g) by (apply (targets_edge _ _ _ T); exact Hg). apply (IH g E). eapply sound_edge; eauto. }
  exists (S N). intros [|n] Ln d G; [lia|]. rewrite load_S, T. apply load_sons; [exact G|]. intros g Hg d1 G1. apply H; [lia|exact Hg|exact G1].
Qed.
Definition sound_imports (f : file) (imps : list name) : Prop :=
  imports_found w files f imps /\ forall n g, In n imps -> resolve w f n = Some g -> sound w files g.
Lemma load_root : forall f imps, sound_imports f imps -> exists N, forall n, N <= n -> forall d, good d -> exists d' p, load n w files f imps d = Done d' p.
Proof.
  intros f imps [F H]. pose proof (proj1 (targets_ok f imps) F) as [gs T].
  destruct (common (fun n g => forall d, good d -> exists d' p, load n w files g (imports g) d = Done d' p) gs) as [N X].
  { intros g Hg. apply load_sound. destruct (targets_pairs _ _ _ T) as [_ [_ [_ C]]]. apply C in Hg. destruct Hg as [m [Hm Rm]]. eauto. }
  exists (S N). intros [|n] Ln d G; [lia|]. rewrite load_S, T. apply load_sons; [exact G|]. intros g Hg d1 G1. apply X; [lia|exact Hg|exact G1].
Qed.
Lemma load_iff : forall f imps d, good d -> ((exists n d' p, load n w files f imps d = Done d' p) <-> sound_imports f imps).
Proof.
  intros f imps d G. split.
  - intros [n [d' [p L]]]. destruct (load_good _ _ _ _ _ _ G L) as [gs [e [T [-> [G' [A [-> B]]]]]]].
    split; [apply targets_ok; eauto|]. intros m g Hm Rm. eapply good_sound; [exact G'|]. apply A. destruct (targets_pairs _ _ _ T) as [_ [_ [_ C]]]. apply C. eauto.
  - intros So. destruct (load_root f imps So) as [N H]. destruct (H N (le_n N) d G) as [d' [p L]]. eauto.
Qed.
Lemma nodup_snoc : forall {A : Type} (l : list A) x, NoDup l -> ~ In x l -> NoDup (l ++ [x]).
Proof.
  intros A l x N H. induction N as [|y l Hy N IH]; [constructor; [tauto|constructor]|]. cbn. constructor; [|apply IH; intros X; apply H; right; exact X].
  rewrite in_app_iff. intros [X|[->|[]]]; [contradiction|]. apply H. left. reflexivity.
Qed.
Lemma good_nodup : forall d, good d -> NoDup (map fst d).
Proof.
  intros d. induction d as [|[g p] d IH] using rev_ind; intros G; [constructor|]. rewrite map_app. cbn. apply nodup_snoc; [apply IH; eapply good_prefix; exact G|].
  destruct (G d g p [] eq_refl) as [K _]. intros H. apply known_in in H. congruence.
Qed.
Lemma good_order : forall d, good d -> in_order w files (map fst d).
Proof.
  intros d G l1 g l2 E h Eh. apply map_eq_app in E. destruct E as [d1 [d2' [-> [<- E]]]]. destruct d2' as [|[g' p] d2]; [discriminate|]. cbn in E. injection E as -> <-.
  destruct (G d1 g p d2 eq_refl) as [_ [gs [T [H _]]]]. apply known_in. apply H. apply (targets_edge _ _ _ T). exact Eh.
Qed.
Lemma below_known : forall d f imps gs, good d -> targets w files f imps = Some gs -> (forall g, In g gs -> known d g = true) ->
  forall g, below w files f imps g -> known d g = true.
Proof.
  intros d f imps gs G T A g [n [h [Hn [Rn R]]]]. assert (K : known d h = true) by (apply A; destruct (targets_pairs _ _ _ T) as [_ [_ [_ C]]]; apply C; eauto).
  destruct R as [->|R]; [exact K|]. eapply good_reach; eauto.
Qed.

(* ------------------------------ names ------------------------------ *)

Lemma lookup_app : forall l k n, lookup (l ++ k) n = match lookup l n with Some g => Some g | None => lookup k n end.
Proof. intros l k n. induction l as [|[m g] l IH]; [reflexivity|]. cbn. destruct (name_eqb m n); [reflexivity|exact IH]. Qed.
(* the entry of a name comes from an import of the file, or of a son, or was there *)
Lemma link_names_from : forall d l acc n a, lookup (link_names d l acc) n = Some a ->
  In (n, a) l \/ (exists m g p, In (m, g) l /\ get d g = Some p /\ lookup (p_names p) n = Some a) \/ lookup acc n = Some a.
Proof.
  intros d l. induction l as [|[m g] l IH]; intros acc n a H; [tauto|]. cbn in H. apply IH in H.
  destruct H as [H|[[m' [g' [p [H1 H2]]]]|H]]; [left; right; exact H|right; left; exists m', g', p; cbn; tauto|].
  rewrite lookup_app in H. destruct (lookup (match get d g with Some p => p_names p | None => [] end) n) as [b|] eqn:E.
  - injection H as ->. destruct (get d g) as [p|] eqn:Gp; [|discriminate]. right. left. exists m, g, p. cbn. tauto.
  - cbn in H. destruct (name_eqb m n) eqn:En; [|tauto]. apply name_eqb_eq in En. injection H as ->. subst. left. left. reflexivity.
Qed.
Lemma link_names_some : forall d l acc n, ((exists a, In (n, a) l) \/ lookup acc n <> None) -> lookup (link_names d l acc) n <> None.
Proof.
  intros d l. induction l as [|[m g] l IH]; intros acc n H; cbn.
  - destruct H as [[a []]|H]; exact H.
  - apply IH. rewrite lookup_app. destruct H as [[a [[= -> ->]|H]]|H]; [right|left; eauto|right].
    + destruct (lookup (match get d a with Some p => p_names p | None => [] end) n); [discriminate|]. cbn. rewrite (proj2 (name_eqb_eq n n) eq_refl). discriminate.
    + destruct (lookup (match get d g with Some p => p_names p | None => [] end) n); [discriminate|]. cbn. destruct (name_eqb m n); [discriminate|exact H].
Qed.
Lemma names_below : forall d, good d -> forall g p n a, get d g = Some p -> lookup (p_names p) n = Some a ->
  (In n (imports g) /\ resolve w g n = Some a) \/ exists h, reach g h /\ In n (imports h) /\ resolve w h n = Some a.
Proof.
  intros d. induction d as [|[g0 p0] d IH] using rev_ind; intros G g p n a E H; [discriminate|].
  rewrite get_app in E. destruct (get d g) as [q|] eqn:Eg.
  - injection E as ->. eapply IH; eauto. eapply good_prefix; exact G.
  - cbn in E. destruct (file_eqb g0 g) eqn:Ef; [|discriminate]. apply file_eqb_eq in Ef. injection E as ->. subst g0.
    destruct (G d g p [] eq_refl) as [_ [gs [T [A ->]]]]. cbn in H. destruct (targets_pairs _ _ _ T) as [_ [P _]].
    apply link_names_from in H. destruct H as [H|[[m [h [q [Hm [Eh Hq]]]]]|H]]; [left; exact (P _ _ H)| |discriminate].
    right. destruct (P _ _ Hm) as [Im Rm]. assert (Edge : edge g h) by (exists m; tauto).
    destruct (IH (good_prefix _ _ G) h q n a Eh Hq) as [[X Y]|[h' [R [X Y]]]]; [exists h|exists h']; (split; [|tauto]); [constructor; exact Edge|eapply r_more; eauto].
Qed.
Lemma names_ok : forall f imps d gs, good d -> targets w files f imps = Some gs -> (forall g, In g gs -> known d g = true) -> same_meaning w files f imps ->
  forall n, In n imps -> lookup (p_names (link d imps gs)) n = resolve w f n.
Proof.
  intros f imps d gs G T A M n Hn. destruct (targets_pairs _ _ _ T) as [_ [P [Q _]]]. cbn.
  assert (N : lookup (link_names d (combine imps gs) []) n <> None) by (apply link_names_some; left; exact (Q n Hn)).
  destruct (lookup (link_names d (combine imps gs) []) n) as [a|] eqn:E; [|congruence]. clear N. symmetry.
  apply link_names_from in E. destruct E as [E|[[m [g [p [Hm [Eg Hp]]]]]|E]]; [apply (P _ _ E)| |discriminate].
  destruct (P _ _ Hm) as [Im Rm]. destruct (names_below d G g p n a Eg Hp) as [[X Y]|[h [R [X Y]]]].
  - rewrite <- Y. symmetry. apply M; [exact Hn| |exact X]. exists m, g. tauto.
  - rewrite <- Y. symmetry. apply M; [exact Hn| |exact X]. exists m, g. tauto.
Qed.
End World.

(* ------------------------------ annotating ------------------------------ *)

Section Annotate.
Context (w : world) (files : list file).
Notation edge := (edge w files). Notation reach := (reach w files). Notation imports := (imports w files).

Definition walk (n : nat) (d : dict) :=
  fix go (todo : list file) (st : list file) : option (list file) :=
    match todo with
    | [] => Some st
    | g :: todo' =>
      if mem g st then go todo' st
      else match annotate_sons n d (sons_of d g) st with Some st' => go todo' (st' ++ [g]) | None => None end
    end.
Lemma annotate_S : forall n d gs st, annotate_sons (S n) d gs st = walk n d (filter (leaf d) gs ++ filter (fun g => negb (leaf d g)) gs) st.
Proof. reflexivity. Qed.
Lemma in_parts : forall d gs g, In g (filter (leaf d) gs ++ filter (fun g => negb (leaf d g)) gs) <-> In g gs.
Proof. intros d gs g. rewrite in_app_iff, !filter_In. destruct (leaf d g); cbn; tauto. Qed.
Lemma sons_targets : forall d g, good w files d -> known d g = true -> targets w files g (imports g) = Some (sons_of d g).
Proof.
  intros d. induction d as [|[g0 p0] d IH] using rev_ind; intros g G K; [discriminate|]. unfold sons_of. rewrite get_app.
  destruct (get d g) as [q|] eqn:Eg.
  - pose proof (IH g (good_prefix _ _ _ _ G)) as X. unfold known, sons_of in X. rewrite Eg in X. apply X. reflexivity.
  - unfold known in K. rewrite get_app, Eg in K. cbn in *. destruct (file_eqb g0 g) eqn:E; [|discriminate]. apply file_eqb_eq in E. subst g0.
    destruct (G d g p0 [] eq_refl) as [_ [gs [T [_ ->]]]]. exact T.
Qed.
Lemma sons_edge : forall d g h, good w files d -> known d g = true -> (In h (sons_of d g) <-> edge g h).
Proof. intros d g h G K. apply targets_edge. apply sons_targets; assumption. Qed.

Lemma order_snoc : forall st g, in_order w files st -> (forall h, edge g h -> In h st) -> in_order w files (st ++ [g]).
Proof.
  intros st g O H l1 x l2 E h Eh. apply split_last in E. destruct E as [[-> [-> ->]]|[l3 [-> ->]]]; [exact (H h Eh)|]. exact (O l1 x l3 eq_refl h Eh).
Qed.
Definition fine (d : dict) (st : list file) : Prop := NoDup st /\ in_order w files st /\ forall g, In g st -> known d g = true.
Lemma annotate_fine : forall n d gs st st', good w files d -> (forall g, In g gs -> known d g = true) -> fine d st -> annotate_sons n d gs st = Some st' ->
  exists e, st' = st ++ e /\ fine d st' /\ (forall g, In g gs -> In g st') /\ forall g, In g e -> exists h, In h gs /\ (h = g \/ reach h g).
Proof.
  induction n as [|n IH]; intros d gs st st' G K F A; [discriminate|]. rewrite annotate_S in A.
  assert (X : forall todo st, incl todo gs -> fine d st -> walk n d todo st = Some st' ->
    exists e, st' = st ++ e /\ fine d st' /\ (forall g, In g todo -> In g st') /\ forall g, In g e -> exists h, In h gs /\ (h = g \/ reach h g)).
  { clear st F A. induction todo as [|g todo IHt]; intros st Inc F A; cbn [walk] in A.
    - injection A as <-. exists []. rewrite app_nil_r. split; [reflexivity|]. split; [exact F|]. cbn. tauto.
    - assert (Ig : In g gs) by (apply Inc; left; reflexivity). assert (It : incl todo gs) by (intros h Hh; apply Inc; right; exact Hh).
      destruct (mem g st) eqn:M.
      + apply mem_in in M. destruct (IHt st It F A) as [e [-> [F' [B D]]]]. exists e. split; [reflexivity|]. split; [exact F'|]. split; [|exact D].
        intros h [<-|H]; [apply in_app_iff; left; exact M|exact (B h H)].
      + destruct (annotate_sons n d (sons_of d g) st) as [st1|] eqn:A1; [|discriminate].
        assert (Ks : forall h, In h (sons_of d g) -> known d h = true).
        { intros h Hh. eapply good_edge; [exact G|exact (K g Ig)|]. apply (sons_edge d g h G (K g Ig)). exact Hh. }
        destruct (IH d (sons_of d g) st st1 G Ks F A1) as [e1 [-> [F1 [B1 D1]]]].
        assert (Ng : ~ In g (st ++ e1)).
        { rewrite in_app_iff. intros [H|H]; [apply mem_in in H; congruence|]. destruct (D1 g H) as [h [Hh R]]. apply (sons_edge d g h G (K g Ig)) in Hh.
          apply (acc_irrefl w files g); [eapply good_acc; [exact G|exact (K g Ig)]|]. destruct R as [->|R]; [constructor; exact Hh|eapply r_more; eauto]. }
        assert (F2 : fine d ((st ++ e1) ++ [g])).
        { destruct F1 as [N1 [O1 K1]]. split; [apply nodup_snoc; assumption|]. split.
          - apply order_snoc; [exact O1|]. intros h Eh. apply B1. apply (sons_edge d g h G (K g Ig)). exact Eh.
          - intros h H. apply in_app_iff in H. destruct H as [H|[<-|[]]]; [exact (K1 h H)|exact (K g Ig)]. }
        destruct (IHt _ It F2 A) as [e [-> [F' [B D]]]]. exists (e1 ++ [g] ++ e). rewrite !app_assoc. split; [reflexivity|]. split; [exact F'|]. split.
        * intros h [<-|H]; [rewrite !in_app_iff; cbn; tauto|exact (B h H)].
        * intros h H. rewrite !in_app_iff in H. destruct H as [[H|[<-|[]]]|H]; [|exists g; tauto|exact (D h H)].
          exists g. split; [exact Ig|]. right. destruct (D1 h H) as [h1 [H1 R]]. apply (sons_edge d g h1 G (K g Ig)) in H1.
          destruct R as [->|R]; [constructor; exact H1|eapply r_more; eauto]. }
  destruct (X _ st (fun g H => proj1 (in_parts d gs g) H) F A) as [e [-> [F' [B D]]]]. exists e. split; [reflexivity|]. split; [exact F'|]. split; [|exact D].
  intros g Hg. apply B. apply in_parts. exact Hg.
Qed.
Lemma walk_total : forall N d todo st, (forall g, In g todo -> forall st, exists st', annotate_sons N d (sons_of d g) st = Some st') -> exists st', walk N d todo st = Some st'.
Proof.
  intros N d todo. induction todo as [|g todo IH]; intros st H; cbn [walk]; [eauto|].
  destruct (mem g st); [apply IH; intros h Hh; apply H; right; exact Hh|]. destruct (H g (or_introl eq_refl) st) as [st1 ->]. apply IH. intros h Hh. apply H. right. exact Hh.
Qed.
Lemma annotate_total : forall d gs, good w files d -> (forall g, In g gs -> known d g = true) ->
  exists N, forall n, N <= n -> forall st, exists st', annotate_sons n d gs st = Some st'.
Proof.
  intros d gs G.
  assert (T : forall g, known d g = true -> exists N, forall n, N <= n -> forall st, exists st', annotate_sons n d (sons_of d g) st = Some st').
  { intros g K. pose proof (good_acc _ _ _ G g K) as A. induction A as [g _ IH].
    destruct (common (fun n h => forall st, exists st', annotate_sons n d (sons_of d h) st = Some st') (sons_of d g)) as [N H].
    { intros h Hh. apply (sons_edge d g h G K) in Hh. apply (IH h Hh). eapply good_edge; eauto. }
    exists (S N). intros [|n] Ln st; [lia|]. rewrite annotate_S. apply walk_total. intros h Hh. apply in_parts in Hh. apply H; [lia|exact Hh]. }
  intros K. destruct (common (fun n h => forall st, exists st', annotate_sons n d (sons_of d h) st = Some st') gs) as [N H]; [intros h Hh; apply T, K, Hh|].
  exists (S N). intros [|n] Ln st; [lia|]. rewrite annotate_S. apply walk_total. intros h Hh. apply in_parts in Hh. apply H; [lia|exact Hh].
Qed.
End Annotate.

(* ------------------------------ pyccel ------------------------------ *)

Lemma pyccel_files : forall w n f d p, pyccel n w f = Done d p ->
  good w [] d /\ (exists gs, targets w [] f (src w f) = Some gs /\ (forall g, In g gs -> known d g = true) /\ p = link d (src w f) gs) /\
  forall g, In g (map fst d) <-> below w [] f (src w f) g.
Proof.
  intros w n f d p L. destruct (load_good _ _ _ _ _ _ _ _ (good_nil w []) L) as [gs [e [T [-> [G [A [-> B]]]]]]]. cbn [app] in *.
  split; [exact G|]. split; [eauto|]. intros g. split; [exact (B g)|]. intros H. apply known_in. eapply below_known; eauto.
Qed.
Lemma pyccel_once : forall w n f d p, pyccel n w f = Done d p ->
  NoDup (map fst d) /\ in_order w [] (map fst d) /\ forall g, In g (map fst d) <-> below w [] f (src w f) g.
Proof.
  intros w n f d p L. destruct (pyccel_files w n f d p L) as [G [_ B]]. split; [eapply good_nodup; exact G|]. split; [apply good_order; exact G|exact B].
Qed.
Lemma pyccel_annotate : forall w n f d p, pyccel n w f = Done d p ->
  exists N, forall m, N <= m -> exists st, annotate_sons m d (p_sons p) [] = Some st /\ NoDup st /\ in_order w [] st /\
    forall g, In g st <-> below w [] f (src w f) g.
Proof.
  intros w n f d p L. destruct (pyccel_files w n f d p L) as [G [[gs [T [A ->]]] B]]. cbn [link p_sons].
  destruct (annotate_total w [] d gs G A) as [N H]. exists N. intros m Lm. destruct (H m Lm []) as [st E]. exists st. split; [exact E|].
  assert (F : fine w [] d []) by (split; [constructor|split; [intros [|x l] g l2 X; discriminate|intros g []]]).
  destruct (annotate_fine w [] m d gs [] st G A F E) as [e [-> [[N1 [O1 K1]] [B1 D1]]]]. cbn [app] in *. split; [exact N1|]. split; [exact O1|].
  intros g. split.
  - intros Hg. apply B. apply known_in. apply K1. exact Hg.
  - intros [n1 [h [Hn [Rn R]]]]. assert (Hh : In h e) by (apply B1; destruct (targets_pairs _ _ _ _ _ T) as [_ [_ [_ C]]]; apply C; eauto).
    destruct R as [<-|R]; [exact Hh|]. clear - O1 Hh R. induction R as [x y E|x y z E R IH].
    + apply in_split in Hh. destruct Hh as [l1 [l2 ->]]. rewrite in_app_iff. left. eapply O1; [reflexivity|exact E].
    + apply IH. apply in_split in Hh. destruct Hh as [l1 [l2 ->]]. rewrite in_app_iff. left. eapply O1; [reflexivity|exact E].
Qed.
Lemma pyccel_iff : forall w f, (exists n d p, pyccel n w f = Done d p) <-> imports_found w [] f (src w f) /\ forall g, below w [] f (src w f) g -> sound w [] g.
Proof.
  intros w f. unfold pyccel. rewrite (load_iff w [] f (src w f) [] (good_nil w [])). unfold sound_imports. split; intros [F H]; (split; [exact F|]).
  - intros g [n [h [Hn [Rn R]]]]. pose proof (H n h Hn Rn) as S. destruct R as [<-|R]; [exact S|]. clear - S R. induction R as [x y E|x y z E R IH]; [eapply sound_edge; eauto|].
    apply IH. eapply sound_edge; eauto.
  - intros n g Hn Rn. apply H. exists n, g. tauto.
Qed.
Lemma pyccel_fresh : forall w n f d p, pyccel n w f = Done d p -> forall g, below w [] f (src w f) g -> exists t, stub_time w g = Some t /\ (py_time w g <= t)%Z.
Proof.
  intros w n f d p L g B. destruct (proj1 (pyccel_iff w f)) as [F S]; [eauto|].
  assert (U : usable w [] g); [|destruct U as [[]|U]; exact U].
  destruct B as [n1 [h [Hn [Rn R]]]]. destruct R as [<-|R].
  - destruct (F n1 Hn) as [h' [E U]]. congruence.
  - assert (Sh : sound w [] h) by (apply S; exists n1, h; tauto). clear - Sh R. induction R as [x y [m [Im Rm]]|x y z E R IH]; [|apply IH; eapply sound_edge; eauto].
    destruct Sh as [_ [F _]]. destruct (F m Im) as [y' [E U]]. congruence.
Qed.
Lemma pyccel_cycle : forall w n f g d p, below w [] f (src w f) g -> reach w [] g g -> pyccel n w f <> Done d p.
Proof. intros w n f g d p B R L. destruct (proj1 (pyccel_iff w f)) as [_ S]; [eauto|]. exact (acc_irrefl w [] g (proj1 (S g B)) R). Qed.
Lemma pyccel_names : forall w n f d p, pyccel n w f = Done d p -> same_meaning w [] f (src w f) -> forall m, In m (src w f) -> lookup (p_names p) m = resolve w f m.
Proof. intros w n f d p L M m Hm. destruct (pyccel_files w n f d p L) as [G [[gs [T [A ->]]] _]]. eapply names_ok; eauto. Qed.

Lemma link_names_last : forall d l n g acc, link_names d (l ++ [(n, g)]) acc = match get d g with Some p => p_names p | None => [] end ++ (n, g) :: link_names d l acc.
Proof. intros d l n g. induction l as [|[m h] l IH]; intros acc; [reflexivity|]. cbn [app link_names]. apply IH. Qed.
Lemma targets_last : forall w files f imps n gs, targets w files f (imps ++ [n]) = Some gs ->
  exists gs' g, gs = gs' ++ [g] /\ targets w files f imps = Some gs' /\ resolve w f n = Some g.
Proof.
  intros w files f imps n. induction imps as [|m imps IH]; cbn [app targets]; intros gs E.
  - destruct (resolve w f n) as [g|]; [|discriminate]. destruct (mem g files || ready w g); [|discriminate]. injection E as <-. exists [], g. tauto.
  - destruct (resolve w f m) as [g|]; [|discriminate]. destruct (mem g files || ready w g); [|discriminate].
    destruct (targets w files f (imps ++ [n])) as [gs'|]; [|discriminate]. injection E as <-. destruct (IH gs' eq_refl) as [gs1 [h [-> [-> R]]]]. exists (g :: gs1), h. tauto.
Qed.
Lemma combine_last : forall {A B : Type} (l : list A) (k : list B) a b, length l = length k -> combine (l ++ [a]) (k ++ [b]) = combine l k ++ [(a, b)].
Proof. intros A B l. induction l as [|x l IH]; intros [|y k] a b E; try discriminate; [reflexivity|]. cbn. rewrite IH; [reflexivity|]. cbn in E. lia. Qed.
Lemma get_parser : forall w files d g, good w files d -> known d g = true ->
  exists gs d1 d2 p, d = d1 ++ d2 /\ get d g = Some p /\ targets w files g (imports w files g) = Some gs /\ (forall h, In h gs -> known d1 h = true) /\ p = link d1 (imports w files g) gs.
Proof.
  intros w files d g G K. destruct (known_split _ _ K) as [d1 [p [d2 E]]]. destruct (G d1 g p d2 E) as [N [gs [T [A P]]]]. exists gs, d1, ((g, p) :: d2), p.
  split; [exact E|]. split; [|tauto]. rewrite E, get_app. unfold known in N. destruct (get d1 g); [discriminate|]. cbn. rewrite file_eqb_refl. reflexivity.
Qed.
Lemma last_decides : forall w n f d p pre b y a, pyccel n w f = Done d p -> src w f = pre ++ [b] -> resolve w f b = Some y ->
  In a (stub w y) -> same_meaning w [] y (stub w y) -> lookup (p_names p) a = resolve w y a.
Proof.
  intros w n f d p pre b y a L S Rb Ha M. destruct (pyccel_files w n f d p L) as [G [[gs [T [A ->]]] _]]. rewrite S in T.
  destruct (targets_last _ _ _ _ _ _ T) as [gs' [y' [-> [T' R']]]]. rewrite Rb in R'. injection R' as <-.
  assert (K : known d y = true) by (apply A; apply in_app_iff; right; left; reflexivity).
  destruct (get_parser w [] d y G K) as [gy [d1 [d2 [q [E [Eq [Ty [Ay ->]]]]]]]]. cbn [link p_names]. rewrite S.
  rewrite combine_last by (destruct (targets_pairs _ _ _ _ _ T') as [X _]; exact X). rewrite link_names_last, Eq, lookup_app.
  assert (Gd1 : good w [] d1) by (rewrite E in G; eapply good_prefix; exact G).
  assert (X : lookup (p_names (link d1 (stub w y) gy)) a = resolve w y a) by (eapply names_ok; [exact Gd1|exact Ty|exact Ay|exact M|exact Ha]).
  change (imports w [] y) with (stub w y). rewrite X. destruct (resolve w y a) eqn:Ra; [reflexivity|]. exfalso.
  destruct (targets_pairs _ _ _ _ _ Ty) as [_ [P [Q _]]]. destruct (Q a Ha) as [z Hz]. destruct (P _ _ Hz) as [_ Rz]. congruence.
Qed.

(* ------------------------------ pyccel make ------------------------------ *)

Lemma load_all_good : forall n w files todo d d' ps, good w files d -> load_all n w files todo d = Some (d', ps) ->
  good w files d' /\ (exists e, d' = d ++ e) /\ map fst ps = todo /\
  (forall f p, In (f, p) ps -> exists gs, targets w files f (src w f) = Some gs /\ (forall g, In g gs -> known d' g = true) /\ p = link d' (src w f) gs) /\
  (forall g, known d' g = true -> known d g = true \/ exists f, In f todo /\ below w files f (src w f) g).
Proof.
  intros n w files todo. induction todo as [|f todo IH]; intros d d' ps G L; cbn [load_all] in L.
  - injection L as <- <-. split; [exact G|]. split; [exists []; rewrite app_nil_r; reflexivity|]. split; [reflexivity|]. split; [intros f p []|tauto].
  - destruct (load_all n w files todo d) as [[d1 ps1]|] eqn:L1; [|discriminate]. destruct (IH d d1 ps1 G L1) as [G1 [[e1 ->] [M1 [P1 R1]]]].
    destruct (load n w files f (src w f) (d ++ e1)) as [d2 p| |] eqn:L2; try discriminate. injection L as <- <-.
    destruct (load_good _ _ _ _ _ _ _ _ G1 L2) as [gs [e2 [T [-> [G2 [A [-> B]]]]]]].
    split; [exact G2|]. split; [exists (e1 ++ e2); rewrite app_assoc; reflexivity|]. split; [cbn; rewrite M1; reflexivity|]. split.
    + intros h q [[= <- <-]|H]; [eauto|]. destruct (P1 h q H) as [gs1 [T1 [A1 ->]]]. exists gs1. split; [exact T1|]. split.
      * intros g Hg. rewrite known_app, (A1 g Hg). reflexivity.
      * rewrite (link_app (d ++ e1) e2 (src w h) gs1 A1). reflexivity.
    + intros g K. rewrite known_app in K. apply orb_true_iff in K. destruct K as [K|K].
      * destruct (R1 g K) as [X|[h [Hh X]]]; [left; exact X|right; exists h; cbn; tauto].
      * right. exists f. split; [left; reflexivity|]. apply B. apply known_in. exact K.
Qed.
Lemma src_imports : forall w files f, In f files -> imports w files f = src w f.
Proof. intros w files f H. unfold imports. rewrite (proj2 (mem_in f files) H). reflexivity. Qed.
Lemma sound_here : forall w files f, In f files -> sound_imports w files f (src w f) -> sound w files f.
Proof.
  intros w files f H [F S]. pose proof (src_imports w files f H) as E. assert (S' : forall g, edge w files f g -> sound w files g).
  { intros g [n [Hn Rn]]. rewrite E in Hn. eauto. }
  split; [constructor; intros g Eg; exact (proj1 (S' g Eg))|]. split; [rewrite E; exact F|]. intros h R. inversion R as [x y Ed|x y z Ed R']; subst.
  - exact (proj1 (proj2 (S' h Ed))).
  - exact (proj2 (proj2 (S' y Ed)) h R').
Qed.
Lemma make_iff : forall w files, (exists n r, make n w files = Some r) <-> forall f, In f files -> sound w files f.
Proof.
  intros w files. unfold make. split.
  - intros [n [[d ps] L]] f Hf. destruct (load_all_good _ _ _ _ _ _ _ (good_nil w files) L) as [G [_ [M [P _]]]].
    rewrite <- M in Hf. apply in_map_iff in Hf. destruct Hf as [[f' p] [E H]]. cbn in E. subst f'. destruct (P f p H) as [gs [T [A _]]].
    assert (Hf : In f files) by (rewrite <- M; apply in_map_iff; exists (f, p); tauto).
    apply sound_here; [exact Hf|]. split; [apply targets_ok; eauto|]. intros m g Hm Rm. eapply good_sound; [exact G|]. apply A.
    destruct (targets_pairs _ _ _ _ _ T) as [_ [_ [_ C]]]. apply C. eauto.
  - intros H. destruct (common (fun n f => forall d, good w files d -> exists d' p, load n w files f (imports w files f) d = Done d' p) files) as [N X].
    { intros f Hf. apply load_sound. exact (H f Hf). }
    exists N. assert (Y : forall todo d, incl todo files -> good w files d -> exists r, load_all N w files todo d = Some r).
    { induction todo as [|f todo IH]; intros d Inc G; cbn [load_all]; [eauto|].
      destruct (IH d) as [[d1 ps1] L1]; [intros h Hh; apply Inc; right; exact Hh|exact G|]. rewrite L1.
      destruct (load_all_good _ _ _ _ _ _ _ G L1) as [G1 _]. assert (Hf : In f files) by (apply Inc; left; reflexivity).
      destruct (X N f (le_n N) Hf d1 G1) as [d2 [p L2]]. rewrite (src_imports w files f Hf) in L2. rewrite L2. eauto. }
    apply Y; [apply incl_refl|apply good_nil].
Qed.
Lemma make_names : forall w files n d ps f p, make n w files = Some (d, ps) -> In (f, p) ps -> same_meaning w files f (src w f) ->
  map fst ps = files /\ forall m, In m (src w f) -> lookup (p_names p) m = resolve w f m.
Proof.
  intros w files n d ps f p L H M. destruct (load_all_good _ _ _ _ _ _ _ (good_nil w files) L) as [G [_ [E [P _]]]]. split; [exact E|].
  intros m Hm. destruct (P f p H) as [gs [T [A ->]]]. eapply names_ok; eauto.
Qed.
Lemma make_annotate : forall w files n d ps, make n w files = Some (d, ps) ->
  exists N, forall m, N <= m -> exists st, annotate_all m d ps [] = Some st /\ NoDup st /\ in_order w files st /\
    forall g, In g st <-> exists f, In f files /\ below w files f (src w f) g.
Proof.
  intros w files n d ps L. destruct (load_all_good _ _ _ _ _ _ _ (good_nil w files) L) as [G [_ [E [P R]]]].
  assert (X : forall qs, (forall f p, In (f, p) qs -> exists gs, targets w files f (src w f) = Some gs /\ (forall g, In g gs -> known d g = true) /\ p = link d (src w f) gs) ->
    exists N, forall m, N <= m -> forall st, fine w files d st -> exists st', annotate_all m d qs st = Some st' /\ fine w files d st' /\ incl st st' /\
      (forall f p g, In (f, p) qs -> In g (p_sons p) -> In g st')).
  { induction qs as [|[f p] qs IH]; intros Q.
    - exists 0. intros m _ st F. exists st. split; [reflexivity|]. split; [exact F|]. split; [apply incl_refl|]. intros f p g [].
    - destruct IH as [N1 H1]; [intros f' p' H'; apply Q; right; exact H'|]. destruct (Q f p (or_introl eq_refl)) as [gs [T [A ->]]].
      destruct (annotate_total w files d gs G A) as [N2 H2]. exists (max N1 N2). intros m Lm st F. cbn [annotate_all link p_sons].
      destruct (H2 m ltac:(lia) st) as [st1 E1]. rewrite E1. destruct (annotate_fine w files m d gs st st1 G A F E1) as [e [-> [F1 [B1 _]]]].
      destruct (H1 m ltac:(lia) _ F1) as [st2 [E2 [F2 [I2 B2]]]]. exists st2. split; [exact E2|]. split; [exact F2|]. split.
      + intros g Hg. apply I2. apply in_app_iff. left. exact Hg.
      + intros f' p' g [[= <- <-]|H'] Hg; [apply I2; apply B1; exact Hg|eapply B2; eauto]. }
  destruct (X ps P) as [N H]. exists N. intros m Lm.
  assert (F : fine w files d []) by (split; [constructor|split; [intros [|x l] g l2 Y; discriminate|intros g []]]).
  destruct (H m Lm [] F) as [st [Es [[N1 [O1 K1]] [_ B]]]]. exists st. split; [exact Es|]. split; [exact N1|]. split; [exact O1|]. intros g. split.
  - intros Hg. destruct (R g (K1 g Hg)) as [Y|Y]; [discriminate|exact Y].
  - intros [f [Hf [n1 [h [Hn [Rn Rh]]]]]]. rewrite <- E in Hf. apply in_map_iff in Hf. destruct Hf as [[f' p] [Ef Hp]]. cbn in Ef. subst f'.
    destruct (P f p Hp) as [gs [T [A Ep]]]. assert (Hh : In h st).
    { apply (B f p h Hp). rewrite Ep. cbn. destruct (targets_pairs _ _ _ _ _ T) as [_ [_ [_ C]]]. apply C. eauto. }
    destruct Rh as [<-|Rh]; [exact Hh|]. clear - O1 Hh Rh. induction Rh as [x y Ed|x y z Ed R' IH].
    + apply in_split in Hh. destruct Hh as [l1 [l2 ->]]. rewrite in_app_iff. left. eapply O1; [reflexivity|exact Ed].
    + apply IH. apply in_split in Hh. destruct Hh as [l1 [l2 ->]]. rewrite in_app_iff. left. eapply O1; [reflexivity|exact Ed].
Qed.

(* ------------------------------ the files of imports ------------------------------ *)

Lemma found_iff : forall w g h, found w g = Some h <-> g = h /\ is_file w h = true.
Proof. intros w g h. unfold found. destruct (is_file w g) eqn:E; (split; [intros X|intros [-> X]]); try discriminate; [injection X as ->; tauto|congruence|congruence]. Qed.
Lemma relative : forall w root f k parts g, resolve w f (S k, parts) = Some g <-> python_import root f (S k, parts) = Some g /\ parts <> [] /\ is_file w g = true.
Proof.
  intros w root f k parts g. unfold resolve, python_import, up, folder. destruct parts as [|a parts]; [split; [discriminate|tauto]|].
  destruct (k <=? length (removelast f)); [|split; [discriminate|intros [X _]; discriminate]]. rewrite found_iff. split.
  - intros [-> H]. split; [reflexivity|]. split; [discriminate|exact H].
  - intros [[= ->] [_ H]]. tauto.
Qed.
Lemma absolute : forall w f parts, parts <> [] -> is_file w (removelast f ++ parts) = true -> resolve w f (0, parts) = python_import (removelast f) f (0, parts).
Proof.
  intros w f parts N H. unfold resolve, python_import, folder. destruct parts as [|a [|b parts]]; [congruence| |rewrite H; reflexivity].
  unfold found. rewrite H. reflexivity.
Qed.
Lemma absolute_below : forall w root f a, removelast f <> root -> resolve w f (0, [a]) <> python_import root f (0, [a]).
Proof.
  intros w root f a N E. unfold resolve, python_import, folder in E. apply found_iff in E. destruct E as [E _]. apply app_inj_tail in E. destruct E as [E _]. contradiction.
Qed.
