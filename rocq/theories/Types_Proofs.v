From Coq Require Import List Bool ZArith String Lia.
From Verif Require Import Common Types_Model Types_Spec.
Import ListNotations.
Open Scope Z_scope.

(* ---- scalars ---- *)
Lemma add_comm : forall a b, ty_add a b = ty_add b a.
Proof. intros [] []; vm_compute; reflexivity. Qed.
Lemma add_total : forall a b, exists c, ty_add a b = Some c.
Proof. intros [] []; vm_compute; eexists; reflexivity. Qed.
Lemma add_idem : forall a, a <> TBool -> ty_add a a = Some a.
Proof. intros [] H; try reflexivity; congruence. Qed.
Lemma all_types_all : forall t, In t all_types.
Proof. intros []; vm_compute; tauto. Qed.
Definition feqb (a b : option fty) : bool :=
  match a, b with
  | Some TBool, Some TBool | Some TInt, Some TInt | Some TFloat, Some TFloat | Some TComplex, Some TComplex
  | Some I8, Some I8 | Some I16, Some I16 | Some I32, Some I32 | Some I64, Some I64 | Some F32, Some F32
  | Some F64, Some F64 | Some F128, Some F128 | Some C64, Some C64 | Some C128, Some C128 | Some C256, Some C256
  | None, None => true
  | _, _ => false
  end.
Lemma feqb_ok : forall a b, feqb a b = true -> a = b.
Proof. intros [[]|] [[]|] H; try discriminate H; reflexivity. Qed.
Lemma all3 : forall f : fty -> fty -> fty -> bool,
  forallb (fun a => forallb (fun b => forallb (fun c => f a b c) all_types) all_types) all_types = true ->
  forall a b c, f a b c = true.
Proof.
  intros f H a b c. rewrite forallb_forall in H. specialize (H a (all_types_all a)). cbv beta in H.
  rewrite forallb_forall in H. specialize (H b (all_types_all b)). cbv beta in H.
  rewrite forallb_forall in H. exact (H c (all_types_all c)).
Qed.
Lemma add_assoc : forall a b c, mixes [a; b; c] = false ->
  omap2 ty_add (ty_add a b) (Some c) = omap2 ty_add (Some a) (ty_add b c).
Proof.
  intros a b c H. apply feqb_ok.
  assert (G : mixes [a; b; c] || feqb (omap2 ty_add (ty_add a b) (Some c)) (omap2 ty_add (Some a) (ty_add b c)) = true).
  { apply (all3 (fun a b c => mixes [a; b; c] || feqb (omap2 ty_add (ty_add a b) (Some c)) (omap2 ty_add (Some a) (ty_add b c)))).
    vm_compute. reflexivity. }
  rewrite H in G. exact G.
Qed.
Lemma add_assoc_fails : forall a b c, omap2 ty_add (ty_add a b) (Some c) <> omap2 ty_add (Some a) (ty_add b c) ->
  mixes [a; b; c] = true.
Proof. intros a b c H. destruct (mixes [a; b; c]) eqn:E; [reflexivity|]. exfalso. apply H, add_assoc, E. Qed.

Ltac sz := split; [discriminate|split; discriminate].
Definition safeb (a b : fty) : bool :=
  match prim a, prim b with
  | KBool, _ => true
  | KInt, KInt => precision a <=? precision b
  | KInt, (KFloat | KComplex) => (precision a <=? 2) || (8 <=? precision b)
  | KFloat, (KFloat | KComplex) => precision a <=? precision b
  | KComplex, KComplex => precision a <=? precision b
  | _, _ => false
  end.
Lemma safeb_ok : forall a b, safeb a b = true <-> safe a b.
Proof.
  intros a b. unfold safeb, safe. destruct (prim a), (prim b);
    try (split; [discriminate|contradiction]); try (split; [intros; exact I|reflexivity]);
    rewrite ?orb_true_iff, ?Z.leb_le; reflexivity.
Qed.
Definition sizedb (t : fty) : bool := negb (np_weak t).
Lemma sizedb_ok : forall t, sizedb t = true <-> sized t.
Proof.
  intros []; vm_compute; split; intros H; try reflexivity; try discriminate;
    try (split; [discriminate|split; discriminate]); destruct H as [A [B C]]; congruence.
Qed.
Definition luba (a b c : fty) : bool :=
  sizedb c && safeb a c && safeb b c &&
  forallb (fun d => negb (sizedb d && safeb a d && safeb b d) || safeb c d) all_types.
Lemma luba_ok : forall a b c, luba a b c = true -> least_above a b c.
Proof.
  intros a b c H. unfold luba in H. rewrite !andb_true_iff in H. destruct H as [[[H1 H2] H3] H4].
  split; [apply sizedb_ok, H1|]. split; [apply safeb_ok, H2|]. split; [apply safeb_ok, H3|].
  intros d S1 S2 S3. rewrite forallb_forall in H4. specialize (H4 d (all_types_all d)).
  apply sizedb_ok in S1. apply safeb_ok in S2, S3. rewrite S1, S2, S3 in H4. cbn in H4.
  apply safeb_ok, H4.
Qed.
Lemma add_lub : forall a b, sized a -> sized b -> a <> TBool \/ b <> TBool ->
  exists c, ty_add a b = Some c /\ least_above a b c.
Proof.
  intros a b Ha Hb Hn. apply sizedb_ok in Ha, Hb.
  assert (H : match ty_add a b with Some c => luba a b c | None => false end = true).
  { destruct a; try discriminate Ha; destruct b; try discriminate Hb; try (vm_compute; reflexivity).
    destruct Hn; congruence. }
  destruct (ty_add a b) as [c|]; [|discriminate]. exists c. split; [reflexivity|]. apply luba_ok, H.
Qed.
Lemma np_lub : forall a b, sized a -> sized b -> exists c, np_result_type a b = Some c /\ least_above a b c.
Proof.
  intros a b Ha Hb. apply sizedb_ok in Ha, Hb.
  assert (H : match np_result_type a b with Some c => luba a b c | None => false end = true).
  { destruct a; try discriminate Ha; destruct b; try discriminate Hb; vm_compute; reflexivity. }
  destruct (np_result_type a b) as [c|]; [|discriminate]. exists c. split; [reflexivity|]. apply luba_ok, H.
Qed.
Lemma add_kind : forall a b, (a <> TBool \/ b <> TBool) -> exists c, ty_add a b = Some c
  /\ level (prim c) = Nat.max (level (prim a)) (level (prim b)).
Proof. intros [] [] [H|H]; try congruence; vm_compute; eexists; split; reflexivity. Qed.
Lemma add_native : forall a b, native a = true -> native b = true ->
  exists c, ty_add a b = Some c /\ native c = true.
Proof. intros [] [] H1 H2; try discriminate; vm_compute; eexists; split; reflexivity. Qed.
Lemma add_weak : forall a t, native a = true -> native t = false -> (level (prim a) <= level (prim t))%nat ->
  ty_add a t = Some t.
Proof. intros [] [] H1 H2 H3; try discriminate; try reflexivity; vm_compute in H3; lia. Qed.
Lemma and_comm : forall a b, int_like a -> int_like b -> ty_and a b = ty_and b a.
Proof. intros [] [] [H|H] [H'|H']; try discriminate; reflexivity. Qed.
Definition int_likeb (t : fty) : bool := kind_le (prim t) KInt.
Lemma int_likeb_ok : forall t, int_like t -> int_likeb t = true.
Proof. intros t [H|H]; unfold int_likeb; rewrite H; reflexivity. Qed.
Lemma and_assoc' : forall a b c, int_like a -> int_like b -> int_like c ->
  omap2 ty_and (ty_and a b) (Some c) = omap2 ty_and (Some a) (ty_and b c).
Proof.
  intros a b c A B C. apply feqb_ok. apply int_likeb_ok in A, B, C.
  assert (G : negb (int_likeb a && int_likeb b && int_likeb c)
              || feqb (omap2 ty_and (ty_and a b) (Some c)) (omap2 ty_and (Some a) (ty_and b c)) = true).
  { apply (all3 (fun a b c => negb (int_likeb a && int_likeb b && int_likeb c)
              || feqb (omap2 ty_and (ty_and a b) (Some c)) (omap2 ty_and (Some a) (ty_and b c)))).
    vm_compute. reflexivity. }
  rewrite A, B, C in G. exact G.
Qed.
Lemma and_idem : forall a, int_like a -> ty_and a a = Some a.
Proof. intros [] [H|H]; try discriminate; reflexivity. Qed.
Lemma and_above : forall a b, int_like a -> int_like b ->
  exists c, ty_and a b = Some c /\ precision a <= precision c /\ precision b <= precision c
            /\ level (prim c) = Nat.max (level (prim a)) (level (prim b)).
Proof.
  intros [] [] [H|H] [H'|H']; try discriminate; eexists; (split; [reflexivity|]); vm_compute;
    (split; [discriminate|split; [discriminate|reflexivity]]).
Qed.

(* ---- arrays ---- *)
Lemma np_comm : forall a b, np_result_type a b = np_result_type b a.
Proof. intros [] []; vm_compute; reflexivity. Qed.
Lemma add_order_comm : forall r o1 o2, add_order r o1 o2 = add_order r o2 o1.
Proof. intros. unfold add_order. rewrite andb_comm. reflexivity. Qed.
Lemma nd_add_comm : forall a b, nd_add a b = nd_add b a.
Proof.
  intros a b. unfold nd_add. rewrite np_comm. destruct (np_result_type _ _); [|reflexivity].
  rewrite Nat.max_comm, add_order_comm. reflexivity.
Qed.
Lemma nd_add_shape : forall a b, nd_ok a -> nd_ok b ->
  exists c, nd_add a b = Some c /\ least_above (nd_elem a) (nd_elem b) (nd_elem c)
            /\ nd_rank c = Nat.max (nd_rank a) (nd_rank b) /\ nd_ok c.
Proof.
  intros a b (Sa & Ra & Oa & Oa') (Sb & Rb & Ob & Ob'). unfold nd_add.
  destruct (np_lub _ _ Sa Sb) as (c & Hc & L). rewrite Hc. eexists. split; [reflexivity|]. cbn.
  split; [exact L|]. split; [apply Nat.max_comm|]. split; [apply L|]. cbn.
  split; [lia|]. unfold add_order. destruct (Nat.ltb_spec (Nat.max (nd_rank b) (nd_rank a)) 2); split; intros; try lia; try reflexivity; discriminate.
Qed.
Lemma nd_add_f : forall a b c, nd_ok a -> nd_ok b -> nd_add a b = Some c ->
  (nd_order c = Some OF <-> (2 <= nd_rank c)%nat /\ nd_order a <> Some OC /\ nd_order b <> Some OC).
Proof.
  intros a b c _ _. unfold nd_add. destruct (np_result_type _ _) as [e|]; [|discriminate].
  intros H. injection H as <-. cbn. unfold add_order.
  destruct (Nat.ltb_spec (Nat.max (nd_rank b) (nd_rank a)) 2).
  - split; [discriminate|]. intros [H1 _]. lia.
  - destruct (nd_order a) as [[]|], (nd_order b) as [[]|]; cbn; split; intros; try discriminate; try tauto;
      try (split; [lia|split; discriminate]); reflexivity.
Qed.
Definition obind {A B} (o : option A) (f : A -> option B) : option B := match o with Some x => f x | None => None end.
Lemma np_assoc : forall a b c, sized a -> sized b -> sized c ->
  obind (np_result_type a b) (fun x => np_result_type x c) = obind (np_result_type b c) (fun x => np_result_type a x).
Proof.
  intros a b c Ha Hb Hc. apply sizedb_ok in Ha, Hb, Hc. apply feqb_ok.
  assert (G : negb (sizedb a && sizedb b && sizedb c) || feqb (obind (np_result_type a b) (fun x => np_result_type x c))
     (obind (np_result_type b c) (fun x => np_result_type a x)) = true).
  { apply (all3 (fun a b c => negb (sizedb a && sizedb b && sizedb c) || feqb (obind (np_result_type a b) (fun x => np_result_type x c))
     (obind (np_result_type b c) (fun x => np_result_type a x)))). vm_compute. reflexivity. }
  rewrite Ha, Hb, Hc in G. exact G.
Qed.
Lemma nd_add_assoc : forall a b c, nd_ok a -> nd_ok b -> nd_ok c ->
  (match nd_add a b with Some x => nd_add x c | None => None end)
  = (match nd_add b c with Some x => nd_add a x | None => None end).
Proof.
  intros a b c (Sa & Ra & Oa & Oa') (Sb & Rb & Ob & Ob') (Sc_ & Rc & Oc & Oc').
  pose proof (np_assoc _ _ _ Sa Sb Sc_) as HA.
  destruct (np_lub _ _ Sa Sb) as (x & Hx & Lx). destruct (np_lub _ _ Sb Sc_) as (y & Hy & Ly).
  unfold nd_add. rewrite Hx, Hy in *. cbn [obind] in HA. cbn [nd_elem nd_rank nd_order].
  rewrite HA. destruct (np_result_type (nd_elem a) y); [|reflexivity]. f_equal.
  assert (HR : Nat.max (nd_rank c) (Nat.max (nd_rank b) (nd_rank a)) = Nat.max (Nat.max (nd_rank c) (nd_rank b)) (nd_rank a)) by lia.
  rewrite HR. f_equal. unfold add_order.
  destruct (Nat.ltb_spec (Nat.max (Nat.max (nd_rank c) (nd_rank b)) (nd_rank a)) 2); [reflexivity|].
  assert (F : forall d, ((nd_rank d < 2)%nat -> nd_order d = None) -> (nd_rank d < 2)%nat -> ord_f (nd_order d) = true)
    by (intros d D1 D2; rewrite (D1 D2); reflexivity).
  destruct (Nat.ltb_spec (Nat.max (nd_rank b) (nd_rank a)) 2), (Nat.ltb_spec (Nat.max (nd_rank c) (nd_rank b)) 2);
    cbn [ord_f]; f_equal.
  - exfalso. lia.
  - rewrite (F a Oa), (F b Ob) by lia. rewrite andb_true_r.
    destruct (nd_order c) as [[]|]; reflexivity.
  - rewrite (F b Ob), (F c Oc) by lia. destruct (nd_order a) as [[]|]; reflexivity.
  - destruct (nd_order a) as [[]|], (nd_order b) as [[]|], (nd_order c) as [[]|]; reflexivity.
Qed.
Lemma swap_twice : forall a, swap_order (swap_order a) = a.
Proof. intros [e r [[]|]]; reflexivity. Qed.
Lemma nd_scalar : forall a t, nd_ok a ->
  exists c, nd_add_scalar a t = Some c /\ nd_rank c = nd_rank a /\ nd_order c = nd_order a
            /\ np_result_type (nd_elem a) t = Some (nd_elem c) /\ nd_ok c
            /\ ((level (prim t) <= level (prim (nd_elem a)))%nat -> native t = true -> nd_elem c = nd_elem a).
Proof.
  intros [e r o] t (Sa & Ra & Oa & Oa'). cbn [nd_elem nd_rank nd_order] in *. unfold nd_add_scalar. cbn [nd_elem nd_rank nd_order].
  assert (H : exists c, np_result_type e t = Some c /\ sizedb c = true
     /\ ((level (prim t) <= level (prim e))%nat -> native t = true -> c = e)).
  { apply sizedb_ok in Sa. destruct e; try discriminate Sa; destruct t; vm_compute; eexists;
      (split; [reflexivity|split; [reflexivity|]]); intros X Y; try discriminate; try reflexivity; lia. }
  destruct H as (c & Hc & S1 & E). rewrite Hc. eexists. split; [reflexivity|]. cbn.
  split; [reflexivity|].
  assert (Ho : add_order r o None = o).
  { unfold add_order. destruct (Nat.ltb_spec r 2); [symmetry; apply Oa; lia|].
    destruct o as [[]|]; cbn; try reflexivity. exfalso. apply Oa'; [lia|reflexivity]. }
  rewrite Ho. split; [reflexivity|]. split; [reflexivity|]. split; [|exact E].
  split; [apply sizedb_ok; exact S1|]. cbn. auto.
Qed.

(* ---- containers ---- *)
Lemma switch_one : forall t, container_ok t -> (1 <= rank t)%nat ->
  exists t', switch_rank t (Z.of_nat (rank t) - 1) = POk t' /\ container_ok t'
             /\ rank t' = (rank t - 1)%nat /\ datatype t' = datatype t.
Proof.
  assert (H : forall e, (Z.of_nat (1 + rank e) - 1 >=? Z.of_nat (1 + rank e)) = false
     /\ (Z.of_nat (1 + rank e) - (Z.of_nat (1 + rank e) - 1) =? 1) = true).
  { intros e. split; [rewrite Z.geb_leb; apply Z.leb_gt; lia|apply Z.eqb_eq; lia]. }
  intros t W R. destruct t as [f|e|e|e|a]; cbn [rank] in R; [lia| | | |];
  try (exists e; cbn [switch_rank rank]; destruct (H e) as [-> ->]; cbn in W |- *;
       repeat split; try assumption; lia).
  cbn [switch_rank rank]. unfold nd_switch_rank. destruct W as (Sa & Ra & Oa & Oa').
  destruct (Z.eqb_spec (Z.of_nat (nd_rank a) - 1) 0).
  - eexists. split; [reflexivity|]. cbn. repeat split; lia.
  - destruct (Z.ltb_spec (Z.of_nat (nd_rank a) - 1) 0); [lia|].
    eexists. split; [reflexivity|]. cbn [container_ok rank nd_rank datatype nd_elem].
    split; [|split; [lia|reflexivity]].
    split; [exact Sa|]. cbn. split; [lia|].
    destruct (Z.gtb_spec (Z.of_nat (nd_rank a) - 1) 1); split; intros; try lia; try reflexivity.
    apply Oa'. lia.
Qed.
Lemma index_many : forall k t, container_ok t -> (k <= rank t)%nat ->
  exists t', index_times k t = POk t' /\ rank t' = (rank t - k)%nat /\ datatype t' = datatype t.
Proof.
  induction k as [|k IH]; intros t W R; cbn [index_times].
  - exists t. repeat split. lia.
  - destruct (switch_one t W ltac:(lia)) as (t1 & H1 & W1 & R1 & D1). rewrite H1. cbn [pbind].
    destruct (IH t1 W1 ltac:(lia)) as (t2 & H2 & R2 & D2).
    exists t2. split; [exact H2|]. split; [lia|]. congruence.
Qed.
Lemma rank0_scalar : forall t, container_ok t -> rank t = O -> t = Sc (datatype t).
Proof. intros [f|e|e|e|a] W R; cbn in *; try lia; try reflexivity. destruct W as (_ & H & _). lia. Qed.
Lemma index_all : forall t, container_ok t -> index_times (rank t) t = POk (Sc (datatype t)).
Proof.
  enough (H : forall k t, container_ok t -> rank t = k -> index_times k t = POk (Sc (datatype t))) by (intros; apply H; auto).
  induction k as [|k IH]; intros t W R; cbn [index_times].
  - f_equal. apply rank0_scalar; auto.
  - destruct (switch_one t W ltac:(lia)) as (t1 & H1 & W1 & R1 & D1). rewrite H1. cbn [pbind].
    rewrite (IH t1 W1 ltac:(lia)), D1. reflexivity.
Qed.
Lemma switch_array : forall a new, nd_ok a -> (1 <= new <= nd_rank a)%nat ->
  exists b, switch_rank (CND a) (Z.of_nat new) = POk (CND b) /\ nd_rank b = new /\ nd_elem b = nd_elem a /\ nd_ok b
     /\ ((2 <= new)%nat -> nd_order b = nd_order a).
Proof.
  intros a new (Sa & Ra & Oa & Oa') Hn. cbn [switch_rank]. unfold nd_switch_rank.
  destruct (Z.eqb_spec (Z.of_nat new) 0); [lia|]. destruct (Z.ltb_spec (Z.of_nat new) 0); [lia|].
  eexists. split; [reflexivity|]. cbn. rewrite Nat2Z.id. split; [reflexivity|]. split; [reflexivity|].
  destruct (Z.gtb_spec (Z.of_nat new) 1).
  - split; [|reflexivity]. split; [exact Sa|]. cbn. split; [lia|]. split; [lia|]. intros _. apply Oa'. lia.
  - split; [|lia]. split; [exact Sa|]. cbn. split; [lia|]. split; [reflexivity|lia].
Qed.
Lemma order_nested : forall t, nested_lists t -> order t = if (2 <=? rank t)%nat then Some OC else None.
Proof.
  induction t as [f|e IH|e IH|e IH|a]; intros H; cbn [nested_lists] in H; try contradiction; try reflexivity;
    cbn [order rank]; rewrite (IH H); destruct (rank e) as [|[|n]]; reflexivity.
Qed.
Lemma switch_basic_ok : forall t b, container_ok t -> sized b ->
  exists t', switch_basic t b = Some t' /\ rank t' = rank t /\ datatype t' = b /\ container_ok t'.
Proof.
  induction t as [f|e IH|e IH|e IH|a]; intros b W Sb; cbn [switch_basic].
  - exists (Sc b). repeat split.
  - destruct (IH b W Sb) as (t' & -> & R & D & W'). eexists; split; [reflexivity|]; cbn; auto.
  - destruct (IH b W Sb) as (t' & -> & R & D & W'). eexists; split; [reflexivity|]; cbn; auto.
  - destruct (IH b W Sb) as (t' & -> & R & D & W'). eexists; split; [reflexivity|]; cbn; auto.
  - destruct W as (Sa & Ra & Oa). unfold nd_switch_basic.
    assert (H : precision_map (prim b) (precision b) = Some b).
    { apply sizedb_ok in Sb. destruct b; try discriminate Sb; reflexivity. }
    rewrite H. eexists. split; [reflexivity|]. cbn. repeat split; try apply Sb; try apply Oa; exact Ra.
Qed.

(* ---- shapes ---- *)
Definition np1 (x y : Z) : option Z :=
  if x =? y then Some x else if x =? 1 then Some y else if y =? 1 then Some x else None.
Fixpoint zipZ (a b : list Z) : option (list Z) :=
  match a, b with
  | x :: a, y :: b => match np1 x y, zipZ a b with Some z, Some r => Some (z :: r) | _, _ => None end
  | _, _ => Some []
  end.
Lemma zipZ_app : forall a b c d, List.length a = List.length b ->
  zipZ (a ++ c) (b ++ d) = match zipZ a b, zipZ c d with Some r, Some s => Some (r ++ s) | _, _ => None end.
Proof.
  induction a as [|x a IH]; intros [|y b] c d H; cbn [List.length] in H; try lia.
  - cbn [app zipZ]. destruct (zipZ c d); reflexivity.
  - cbn [app zipZ]. destruct (np1 x y); [|reflexivity]. rewrite (IH b c d) by lia.
    destruct (zipZ a b); [|reflexivity]. destruct (zipZ c d); reflexivity.
Qed.
Lemma zipZ_rev : forall a b, List.length a = List.length b -> zipZ (rev a) (rev b) = option_map (@rev Z) (zipZ a b).
Proof.
  induction a as [|x a IH]; intros [|y b] H; cbn [List.length] in H; try lia; [reflexivity|].
  cbn [rev]. rewrite zipZ_app by (rewrite !rev_length; lia). rewrite (IH b) by lia. cbn [zipZ].
  destruct (zipZ a b); cbn [option_map]; destruct (np1 x y); reflexivity.
Qed.
Lemma np_rev_zip : forall a b, (List.length a <= List.length b)%nat ->
  np_rev a b = zipZ (a ++ repeat 1 (List.length b - List.length a)) b.
Proof.
  induction a as [|x a IH]; intros b H.
  - cbn [np_rev app List.length]. rewrite Nat.sub_0_r. clear H.
    induction b as [|y b IHb]; [reflexivity|]. cbn [List.length repeat zipZ]. rewrite <- IHb.
    unfold np1. destruct (Z.eqb_spec 1 y) as [<-|]; reflexivity.
  - destruct b as [|y b]; [cbn in H; lia|]. cbn [np_rev app List.length Nat.sub zipZ].
    rewrite (IH b) by (cbn in H; lia). fold (np1 x y). reflexivity.
Qed.
Lemma np_rev_comm : forall a b, np_rev a b = np_rev b a.
Proof.
  induction a as [|x a IH]; intros [|y b]; try reflexivity. cbn [np_rev]. rewrite (IH b).
  destruct (Z.eqb_spec x y), (Z.eqb_spec y x); try congruence; subst; try reflexivity.
  destruct (Z.eqb_spec x 1), (Z.eqb_spec y 1); try congruence; reflexivity.
Qed.
Lemma rev_repeat : forall (x : Z) n, rev (repeat x n) = repeat x n.
Proof.
  induction n; [reflexivity|]. cbn [repeat rev]. rewrite IHn.
  clear. induction n; cbn; [reflexivity|]. f_equal. exact IHn.
Qed.
Lemma zipZ_comm : forall a b, zipZ a b = zipZ b a.
Proof.
  induction a as [|x a IH]; intros [|y b]; try reflexivity. cbn [zipZ]. rewrite (IH b). unfold np1.
  destruct (Z.eqb_spec x y), (Z.eqb_spec y x); try congruence; subst; try reflexivity.
  destruct (Z.eqb_spec x 1), (Z.eqb_spec y 1); try congruence; reflexivity.
Qed.
Lemma np_b_le : forall a b, (List.length a <= List.length b)%nat ->
  np_broadcast a b = zipZ (repeat 1 (List.length b - List.length a) ++ a) b.
Proof.
  intros a b H. unfold np_broadcast. rewrite np_rev_zip by (rewrite !rev_length; exact H).
  rewrite !rev_length.
  assert (E : rev a ++ repeat 1 (List.length b - List.length a) = rev (repeat 1 (List.length b - List.length a) ++ a))
    by (rewrite rev_app_distr, rev_repeat; reflexivity).
  rewrite E, zipZ_rev by (rewrite app_length, repeat_length; lia).
  destruct (zipZ _ _); cbn [option_map]; [rewrite rev_involutive|]; reflexivity.
Qed.
Lemma np_b_comm : forall a b, np_broadcast a b = np_broadcast b a.
Proof. intros. unfold np_broadcast. rewrite np_rev_comm. reflexivity. Qed.
Lemma sizes_ones : forall env n, sizes env (ones n) = repeat 1 n.
Proof. intros. unfold sizes, ones. induction n; cbn; [reflexivity|]. f_equal; auto. Qed.
Lemma sizes_length : forall env s, List.length (sizes env s) = List.length s.
Proof. intros. apply map_length. Qed.
Lemma sizes_app : forall env a b, sizes env (a ++ b) = sizes env a ++ sizes env b.
Proof. intros. apply map_app. Qed.

Definition known (env : string -> Z) (d : dim) : Prop := match d with Lit _ => True | Sym _ _ => size env d <> 1 end.
Lemma bcast1_some : forall env a b d z, known env a -> known env b ->
  bcast1 a b = Some d -> np1 (size env a) (size env b) = Some z -> size env d = z.
Proof.
  intros env a b d z Ka Kb. unfold bcast1, np1.
  destruct a as [m|x k], b as [n|y l]; cbn [dim_eqb is_one is_const diff_const size known negb andb] in *.
  - destruct (Z.eqb_spec m n); [intros H1 H2; injection H1 as <-; injection H2 as <-; reflexivity|].
    destruct (Z.eqb_spec m 1); [intros H1 H2; injection H1 as <-; injection H2 as <-; reflexivity|].
    destruct (Z.eqb_spec n 1); [intros H1 H2; injection H1 as <-; injection H2 as <-; reflexivity|]. discriminate.
  - destruct (Z.eqb_spec m 1).
    + intros H1; injection H1 as <-. cbn [size]. destruct (Z.eqb_spec m (env y + l)); [congruence|].
      intros H2; injection H2 as <-. reflexivity.
    + intros H1; injection H1 as <-. cbn [size]. destruct (Z.eqb_spec m (env y + l)); [congruence|].
      destruct (Z.eqb_spec (env y + l) 1); congruence.
  - destruct (Z.eqb_spec n 1).
    + intros H1; injection H1 as <-. cbn [size]. destruct (Z.eqb_spec (env x + k) n); [congruence|].
      destruct (Z.eqb_spec (env x + k) 1); congruence.
    + intros H1; injection H1 as <-. cbn [size]. destruct (Z.eqb_spec (env x + k) n); [congruence|].
      destruct (Z.eqb_spec (env x + k) 1); [congruence|discriminate].
  - destruct (String.eqb_spec x y) as [<-|]; cbn [andb].
    + destruct (Z.eqb_spec k l) as [<-|]; [|discriminate].
      intros H1; injection H1 as <-. cbn [size]. rewrite Z.eqb_refl. congruence.
    + intros H1; injection H1 as <-. cbn [size]. destruct (Z.eqb_spec (env x + k) (env y + l)); [congruence|].
      destruct (Z.eqb_spec (env x + k) 1); [congruence|]. destruct (Z.eqb_spec (env y + l) 1); congruence.
Qed.
Lemma bcast1_none : forall env a b, known env a -> known env b ->
  bcast1 a b = None -> np1 (size env a) (size env b) = None.
Proof.
  intros env a b Ka Kb. unfold bcast1, np1.
  destruct a as [m|x k], b as [n|y l]; cbn [dim_eqb is_one is_const diff_const size known negb andb] in *.
  - destruct (m =? n); [intros H; discriminate H|]. destruct (m =? 1); [intros H; discriminate H|].
    destruct (n =? 1); [intros H; discriminate H|reflexivity].
  - destruct (m =? 1); intros H; discriminate H.
  - destruct (n =? 1); intros H; discriminate H.
  - destruct (String.eqb_spec x y) as [<-|]; cbn [andb]; [|intros H; discriminate H].
    destruct (Z.eqb_spec k l); [intros H; discriminate H|]. intros _.
    destruct (Z.eqb_spec (env x + k) (env x + l)); [lia|].
    destruct (Z.eqb_spec (env x + k) 1); [congruence|]. destruct (Z.eqb_spec (env x + l) 1); congruence.
Qed.
Lemma zip_some : forall env s1 s2 s r, Forall (known env) s1 -> Forall (known env) s2 ->
  bcast_zip s1 s2 = Some s -> zipZ (sizes env s1) (sizes env s2) = Some r -> sizes env s = r.
Proof.
  intros env. induction s1 as [|a s1 IH]; intros s2 s r K1 K2; cbn [bcast_zip sizes map zipZ].
  - intros H1 H2. injection H1 as <-. injection H2 as <-. reflexivity.
  - destruct s2 as [|b s2]; [intros H1 H2; injection H1 as <-; injection H2 as <-; reflexivity|].
    inversion K1 as [|? ? Ka Ks]; subst. inversion K2 as [|? ? Kb Kt]; subst. unfold sizes; cbn [map zipZ].
    destruct (bcast1 a b) as [d|] eqn:Ed; [|discriminate].
    destruct (bcast_zip s1 s2) as [q|] eqn:Eq; [|discriminate]. intros H1; injection H1 as <-.
    destruct (np1 (size env a) (size env b)) as [z|] eqn:Ez; [|discriminate].
    fold (sizes env s1). fold (sizes env s2).
    destruct (zipZ (sizes env s1) (sizes env s2)) as [q'|] eqn:Eq'; [|discriminate]. intros H2; injection H2 as <-.
    cbn [sizes map]. f_equal; [exact (bcast1_some env a b d z Ka Kb Ed Ez)|]. apply (IH s2 q q'); assumption.
Qed.
Lemma zip_none : forall env s1 s2, Forall (known env) s1 -> Forall (known env) s2 ->
  bcast_zip s1 s2 = None -> zipZ (sizes env s1) (sizes env s2) = None.
Proof.
  intros env. induction s1 as [|a s1 IH]; intros s2 K1 K2; cbn [bcast_zip]; [discriminate|].
  destruct s2 as [|b s2]; [discriminate|].
  inversion K1 as [|? ? Ka Ks]; subst. inversion K2 as [|? ? Kb Kt]; subst. cbn [sizes map zipZ].
  destruct (bcast1 a b) as [d|] eqn:Ed.
  - destruct (bcast_zip s1 s2) as [q|] eqn:Eq; [discriminate|]. intros _.
    fold (sizes env s1). fold (sizes env s2). rewrite (IH s2 Ks Kt Eq). destruct (np1 _ _); reflexivity.
  - intros _. rewrite (bcast1_none env a b Ka Kb Ed). reflexivity.
Qed.
Lemma known_ones : forall env n, Forall (known env) (ones n).
Proof. intros. apply Forall_forall. intros d H. apply repeat_spec in H. subst. exact I. Qed.
Lemma bcast_cases : forall s1 s2, exists t1 t2,
  broadcast (Some s1) (Some s2) = option_map Some (bcast_zip t1 t2)
  /\ (forall env, np_broadcast (sizes env s1) (sizes env s2) = zipZ (sizes env t1) (sizes env t2))
  /\ (forall P : dim -> Prop, P (Lit 1) -> Forall P s1 -> Forall P t1)
  /\ (forall P : dim -> Prop, P (Lit 1) -> Forall P s2 -> Forall P t2).
Proof.
  intros s1 s2. unfold broadcast.
  assert (HO : forall (P : dim -> Prop) n, P (Lit 1) -> Forall P (ones n)).
  { intros P n H. apply Forall_forall. intros d D. apply repeat_spec in D. subst. exact H. }
  destruct (Nat.ltb_spec (List.length s2) (List.length s1)) as [L|L].
  - exists s1, (ones (List.length s1 - List.length s2) ++ s2). split; [reflexivity|]. split; [|split].
    + intros env. rewrite np_b_comm, np_b_le by (rewrite !sizes_length; lia).
      rewrite sizes_app, sizes_ones, zipZ_comm, !sizes_length. reflexivity.
    + auto.
    + intros P H1 H2. apply Forall_app; auto.
  - destruct (Nat.ltb_spec (List.length s1) (List.length s2)) as [L'|L'].
    + exists (ones (List.length s2 - List.length s1) ++ s1), s2. split; [reflexivity|]. split; [|split].
      * intros env. rewrite np_b_le by (rewrite !sizes_length; lia).
        rewrite sizes_app, sizes_ones, !sizes_length. reflexivity.
      * intros P H1 H2. apply Forall_app; auto.
      * auto.
    + exists s1, s2. split; [reflexivity|]. split; [|auto].
      intros env. rewrite np_b_le by (rewrite !sizes_length; lia). rewrite !sizes_length.
      replace (List.length s2 - List.length s1)%nat with 0%nat by lia. reflexivity.
Qed.
Lemma bcast_sym : forall env s1 s2, unknown_not_one env s1 -> unknown_not_one env s2 ->
  match broadcast (Some s1) (Some s2) with
  | Some (Some s) => forall r, np_broadcast (sizes env s1) (sizes env s2) = Some r -> sizes env s = r
  | Some None => False
  | None => np_broadcast (sizes env s1) (sizes env s2) = None
  end.
Proof.
  intros env s1 s2 K1 K2. destruct (bcast_cases s1 s2) as (t1 & t2 & -> & HN & P1 & P2). rewrite HN.
  assert (Q1 : Forall (known env) t1) by (apply (P1 (known env)); [exact I|exact K1]).
  assert (Q2 : Forall (known env) t2) by (apply (P2 (known env)); [exact I|exact K2]).
  destruct (bcast_zip t1 t2) as [s|] eqn:E; cbn [option_map].
  - intros r. apply (zip_some env t1 t2 s r Q1 Q2 E).
  - apply (zip_none env t1 t2 Q1 Q2 E).
Qed.
Definition islit (d : dim) : Prop := match d with Lit _ => True | _ => False end.
Lemma zip_lit : forall env t1 t2, Forall islit t1 -> Forall islit t2 ->
  bcast_zip t1 t2 = option_map lits (zipZ (sizes env t1) (sizes env t2)).
Proof.
  intros env. induction t1 as [|a t1 IH]; intros t2 K1 K2; [reflexivity|].
  destruct t2 as [|b t2]; [reflexivity|].
  inversion K1 as [|? ? Ka Ks]; subst. inversion K2 as [|? ? Kb Kt]; subst.
  cbn [bcast_zip sizes map zipZ]. rewrite (IH t2 Ks Kt). fold (sizes env t1) (sizes env t2).
  destruct a as [m|]; [|contradiction]. destruct b as [n|]; [|contradiction]. cbn [size].
  assert (E : bcast1 (Lit m) (Lit n) = option_map Lit (np1 m n)).
  { unfold bcast1, np1. cbn [dim_eqb is_one is_const negb andb].
    destruct (m =? n); [reflexivity|]. destruct (m =? 1); [reflexivity|]. destruct (n =? 1); reflexivity. }
  rewrite E. destruct (np1 m n); cbn [option_map]; [|reflexivity].
  destruct (zipZ (sizes env t1) (sizes env t2)); reflexivity.
Qed.
Lemma sizes_lits : forall env l, sizes env (lits l) = l.
Proof. intros. unfold sizes, lits. rewrite map_map. cbn. apply map_id. Qed.
Lemma lits_lit : forall l, Forall islit (lits l).
Proof. intros l. unfold lits. apply Forall_forall. intros d H. apply in_map_iff in H. destruct H as (n & <- & _). exact I. Qed.
Lemma bcast_lit : forall a b,
  broadcast (Some (lits a)) (Some (lits b)) = option_map (fun r => Some (lits r)) (np_broadcast a b).
Proof.
  intros a b. destruct (bcast_cases (lits a) (lits b)) as (t1 & t2 & -> & HN & P1 & P2).
  specialize (HN (fun _ => 0)). rewrite !sizes_lits in HN. rewrite HN.
  rewrite (zip_lit (fun _ => 0) t1 t2); [|apply (P1 islit); [exact I|apply lits_lit]|apply (P2 islit); [exact I|apply lits_lit]].
  destruct (zipZ _ _); reflexivity.
Qed.
Lemma zip_ones_l : forall s, bcast_zip (ones (List.length s)) s = Some s.
Proof.
  induction s as [|d s IH]; [reflexivity|]. unfold ones. cbn [List.length repeat bcast_zip]. fold (ones (List.length s)). rewrite IH.
  unfold bcast1. cbn [is_one]. rewrite Z.eqb_refl.
  destruct d as [n|x k]; cbn [dim_eqb]; [|reflexivity]. destruct (Z.eqb_spec 1 n) as [<-|]; reflexivity.
Qed.
Lemma zip_ones_r : forall s, bcast_zip s (ones (List.length s)) = Some s.
Proof.
  induction s as [|d s IH]; [reflexivity|]. unfold ones. cbn [List.length repeat bcast_zip]. fold (ones (List.length s)). rewrite IH.
  unfold bcast1. destruct d as [n|x k]; cbn [dim_eqb is_one]; [|reflexivity].
  destruct (Z.eqb_spec n 1); reflexivity.
Qed.
Lemma bcast_scalar : forall s, broadcast None (Some s) = Some (Some s) /\ broadcast (Some s) None = Some (Some s).
Proof. intros s. unfold broadcast. rewrite zip_ones_l, zip_ones_r. split; reflexivity. Qed.
