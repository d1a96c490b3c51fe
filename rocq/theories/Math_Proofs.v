(* Proofs about functions of math. *)
From Coq Require Import ZArith List Bool String Lia Arith.
From Verif Require Import Expr_Model Expr_Spec Expr_Proofs Math_Model Math_Spec.
Import ListNotations.
Open Scope Z_scope.

Lemma pow_pos k : 0 < 2 ^ Z.max 0 k.
Proof. apply Z.pow_pos_nonneg; lia. Qed.

Lemma floor_ok x : is_floor x (ffloor x).
Proof.
  destruct x as [m e]. unfold is_floor, le_num, ffloor. cbn [mant expo].
  destruct (Z.leb_spec 0 e) as [H|H].
  - rewrite (Z.max_l 0 (- e)), (Z.max_r 0 e) by lia. rewrite Z.pow_0_r. split; [lia|intros y; lia].
  - rewrite (Z.max_r 0 (- e)), (Z.max_l 0 e) by lia. rewrite Z.pow_0_r, !Z.mul_1_r.
    assert (P : 0 < 2 ^ (- e)) by (apply Z.pow_pos_nonneg; lia). split.
    + rewrite Z.mul_comm. apply Z.mul_div_le, P.
    + intros y Hy. apply Z.div_le_lower_bound; [exact P|]. lia.
Qed.

Lemma ceil_ok x : is_ceil x (fceil x).
Proof.
  destruct x as [m e]. unfold is_ceil, num_le, fceil. cbn [mant expo].
  destruct (Z.leb_spec 0 e) as [H|H].
  - rewrite (Z.max_l 0 (- e)), (Z.max_r 0 e) by lia. rewrite Z.pow_0_r. split; [lia|intros y; lia].
  - rewrite (Z.max_r 0 (- e)), (Z.max_l 0 e) by lia. rewrite Z.pow_0_r, !Z.mul_1_r.
    assert (P : 0 < 2 ^ (- e)) by (apply Z.pow_pos_nonneg; lia). split.
    + pose proof (Z.mul_div_le (- m) _ P). nia.
    + intros y Hy. assert (H1 : - y <= - m / 2 ^ (- e)).
      { apply Z.div_le_lower_bound; [exact P|]. nia. }
      lia.
Qed.

Lemma trunc_ok x : is_trunc x (ftrunc x).
Proof.
  assert (A : le_num 0 x -> ftrunc x = ffloor x).
  { destruct x as [m e]. unfold le_num, ftrunc, ffloor. cbn [mant expo].
    destruct (Z.leb_spec 0 e) as [H|H]; [reflexivity|].
    rewrite (Z.max_l 0 e) by lia. rewrite Z.pow_0_r. intros Hm.
    apply Z.quot_div_nonneg; [lia|]. apply Z.pow_pos_nonneg; lia. }
  assert (B : num_le x 0 -> ftrunc x = fceil x).
  { destruct x as [m e]. unfold num_le, ftrunc, fceil. cbn [mant expo].
    destruct (Z.leb_spec 0 e) as [H|H]; [reflexivity|].
    rewrite (Z.max_l 0 e) by lia. rewrite Z.pow_0_r. intros Hm.
    assert (P : 0 < 2 ^ (- e)) by (apply Z.pow_pos_nonneg; lia).
    rewrite <- (Z.opp_involutive m) at 1. rewrite Z.quot_opp_l by lia.
    rewrite Z.quot_div_nonneg by lia. reflexivity. }
  split; intros H; [rewrite (A H); apply floor_ok|rewrite (B H); apply ceil_ok].
Qed.

Lemma is_floor_fun x y z : is_floor x y -> is_floor x z -> y = z.
Proof. intros [A1 A2] [B1 B2]. specialize (A2 _ B1). specialize (B2 _ A1). lia. Qed.
Lemma is_ceil_fun x y z : is_ceil x y -> is_ceil x z -> y = z.
Proof. intros [A1 A2] [B1 B2]. specialize (A2 _ B1). specialize (B2 _ A1). lia. Qed.
Lemma is_trunc_fun x y z : is_trunc x y -> is_trunc x z -> y = z.
Proof.
  intros [A1 A2] [B1 B2]. destruct (Z_le_gt_dec 0 (mant x * 2 ^ Z.max 0 (expo x))) as [H|H].
  - apply (is_floor_fun x); [apply A1|apply B1]; unfold le_num; lia.
  - apply (is_ceil_fun x); [apply A2|apply B2]; unfold num_le; lia.
Qed.

Lemma whole_floor n : ffloor (whole n) = n.
Proof. unfold ffloor, whole. cbn [mant expo]. rewrite Z.pow_0_r. cbn. lia. Qed.
Lemma whole_ceil n : fceil (whole n) = n.
Proof. unfold fceil, whole. cbn [mant expo]. rewrite Z.pow_0_r. cbn. lia. Qed.
Lemma whole_trunc n : ftrunc (whole n) = n.
Proof. unfold ftrunc, whole. cbn [mant expo]. rewrite Z.pow_0_r. cbn. lia. Qed.

(* nearest *)
Lemma nearest_step n : 2 ^ 53 <= Z.abs n ->
  exists k, k = Z.log2 (Z.abs n) - 52 /\ 1 <= k /\ (2 ^ k | nearest n) /\
  (nearest n = n <-> (2 ^ k | n)).
Proof.
  intros H. set (a := Z.abs n) in *. set (k := Z.log2 a - 52).
  assert (Hk : 1 <= k).
  { assert (53 <= Z.log2 a); [|unfold k; lia].
    apply Z.log2_le_pow2; lia. }
  assert (P : 0 < 2 ^ k) by (apply Z.pow_pos_nonneg; lia).
  exists k. split; [reflexivity|]. split; [exact Hk|].
  assert (E : nearest n = Z.sgn n * ((if 2 * (a mod 2 ^ k) <? 2 ^ k then a / 2 ^ k
      else if 2 ^ k <? 2 * (a mod 2 ^ k) then a / 2 ^ k + 1
      else if Z.even (a / 2 ^ k) then a / 2 ^ k else a / 2 ^ k + 1) * 2 ^ k)).
  { unfold nearest. fold a. destruct (Z.ltb_spec a (2 ^ 53)); [lia|]. reflexivity. }
  assert (D : (2 ^ k | nearest n)).
  { rewrite E. rewrite Z.mul_assoc. apply Z.divide_factor_r. }
  split; [exact D|]. split; [intros <-; exact D|].
  intros Hd. rewrite E.
  assert (M : a mod 2 ^ k = 0).
  { apply Z.mod_divide; [lia|]. apply Z.divide_abs_r. exact Hd. }
  rewrite M. destruct (Z.ltb_spec (2 * 0) (2 ^ k)); [|lia].
  assert (Q : a / 2 ^ k * 2 ^ k = a).
  { rewrite Z.mul_comm. pose proof (Z.div_mod a (2 ^ k)). lia. }
  rewrite Q. unfold a. rewrite Z.mul_comm. apply Z.abs_sgn.
Qed.

Lemma nearest_small n : Z.abs n <= 2 ^ 53 -> nearest n = n.
Proof.
  intros H. destruct (Z.ltb_spec (Z.abs n) (2 ^ 53)) as [H1|H1].
  - unfold nearest. destruct (Z.ltb_spec (Z.abs n) (2 ^ 53)); [reflexivity|lia].
  - assert (E : n = 2 ^ 53 \/ n = - 2 ^ 53) by lia.
    destruct E as [-> | ->]; vm_compute; reflexivity.
Qed.

Lemma nearest_dist n : 2 ^ 53 <= Z.abs n -> 2 * Z.abs (nearest n - n) <= 2 ^ (Z.log2 (Z.abs n) - 52).
Proof.
  intros H. set (a := Z.abs n) in *. set (k := Z.log2 a - 52).
  assert (Hk : 53 <= Z.log2 a) by (apply Z.log2_le_pow2; lia).
  assert (P : 0 < 2 ^ k) by (apply Z.pow_pos_nonneg; unfold k; lia).
  assert (Ha : Z.sgn n * a = n) by (unfold a; rewrite Z.mul_comm; apply Z.abs_sgn).
  assert (G : forall q, nearest n = Z.sgn n * (q * 2 ^ k) -> 2 * Z.abs (q * 2 ^ k - a) <= 2 ^ k ->
              2 * Z.abs (nearest n - n) <= 2 ^ k).
  { intros q -> Hq. rewrite <- Ha at 2. rewrite <- Z.mul_sub_distr_l, Z.abs_mul.
    assert (Z.abs (Z.sgn n) = 1) as -> by (unfold a in H; lia). lia. }
  pose proof (Z.div_mod a (2 ^ k) ltac:(lia)) as D.
  pose proof (Z.mod_pos_bound a (2 ^ k) P) as B.
  unfold nearest in *. fold a in G |- *. destruct (Z.ltb_spec a (2 ^ 53)); [lia|].
  fold k in G |- *. cbv zeta in G |- *. eapply G; [reflexivity|].
  destruct (Z.ltb_spec (2 * (a mod 2 ^ k)) (2 ^ k)); [lia|].
  destruct (Z.ltb_spec (2 ^ k) (2 * (a mod 2 ^ k))); [lia|].
  destruct (Z.even (a / 2 ^ k)); lia.
Qed.

Lemma nearest_odd n : 2 ^ 53 < Z.abs n -> Z.odd n = true -> nearest n <> n.
Proof.
  intros H Ho E. destruct (nearest_step n ltac:(lia)) as [k [_ [Hk [_ Hd]]]].
  apply Hd in E. assert (D : (2 | n)).
  { apply (Z.divide_trans _ (2 ^ k)); [|exact E].
    exists (2 ^ (k - 1)). replace k with (Z.succ (k - 1)) at 1 by lia.
    rewrite Z.pow_succ_r by lia. lia. }
  apply Z.mod_divide in D; [|lia]. rewrite Zmod_odd, Ho in D. discriminate.
Qed.

Section M.
Variable junk32 junk64 : Z -> Z.

Lemma to64_fits z : fits64 z = true -> to64 junk64 z = z.
Proof. unfold to64. intros ->. reflexivity. Qed.

Lemma c_floor_float x z : is_floor x z -> fits64 z = true -> c_floor junk64 (AFloat x) = VInt z.
Proof.
  intros H F. unfold c_floor. cbn [c_arg].
  rewrite (is_floor_fun _ _ _ (floor_ok x) H). now rewrite to64_fits.
Qed.
Lemma c_ceil_float x z : is_ceil x z -> fits64 z = true -> c_ceil junk64 (AFloat x) = VInt z.
Proof.
  intros H F. unfold c_ceil. cbn [c_arg].
  rewrite (is_ceil_fun _ _ _ (ceil_ok x) H). now rewrite to64_fits.
Qed.
Lemma c_trunc_float x z : is_trunc x z -> fits64 z = true ->
  assigned junk64 (c_trunc (AFloat x)) = Some z.
Proof.
  intros H F. unfold c_trunc. cbn [c_arg assigned]. rewrite whole_trunc.
  rewrite (is_trunc_fun _ _ _ (trunc_ok x) H). now rewrite to64_fits.
Qed.
Lemma f_floor_float x z : is_floor x z -> fits64 z = true -> f_floor junk64 (AFloat x) = VInt z.
Proof.
  intros H F. unfold f_floor. rewrite (is_floor_fun _ _ _ (floor_ok x) H). now rewrite to64_fits.
Qed.
Lemma f_trunc_float x z : is_trunc x z -> fits64 z = true ->
  assigned junk64 (f_trunc (AFloat x)) = Some z.
Proof.
  intros H F. unfold f_trunc. cbn [assigned]. rewrite whole_trunc.
  rewrite (is_trunc_fun _ _ _ (trunc_ok x) H). now rewrite to64_fits.
Qed.

Lemma fits_small n : Z.abs n <= 2 ^ 53 -> fits64 n = true.
Proof. intros H. unfold fits64. apply andb_true_iff. split; [apply Z.leb_le|apply Z.ltb_lt]; lia. Qed.

(* a result is an integer of its type *)
Lemma c_int n : fits64 (nearest n) = true ->
  c_floor junk64 (AInt n) = VInt (nearest n) /\ c_ceil junk64 (AInt n) = VInt (nearest n) /\
  assigned junk64 (c_trunc (AInt n)) = Some (nearest n) /\
  assigned junk64 (f_trunc (AInt n)) = Some (nearest n).
Proof.
  intros F. unfold c_floor, c_ceil, c_trunc, f_trunc. cbn [c_arg assigned].
  rewrite whole_floor, whole_ceil, !whole_trunc, to64_fits by exact F. auto.
Qed.

Lemma f_ceil_float x z : is_ceil x z -> fits32 z = true -> f_ceil junk32 (AFloat x) = VInt z.
Proof.
  intros H F. unfold f_ceil. rewrite (is_ceil_fun _ _ _ (ceil_ok x) H). unfold to32. now rewrite F.
Qed.
Lemma f_ceil_large a z : (forall y, fits32 (junk32 y) = true) ->
  f_ceil junk32 a = VInt z -> fits32 z = true.
Proof.
  intros J. destruct a as [n|x|b]; cbn [f_ceil]; intros H; [| |discriminate];
    injection H as <-; unfold to32;
    match goal with |- fits32 (if fits32 ?y then _ else _) = _ => destruct (fits32 y) eqn:E; [exact E|apply J] end.
Qed.
End M.

(* pow *)
Lemma f_table : table_ok f_lang = true.
Proof. reflexivity. Qed.

Open Scope string_scope.
Open Scope nat_scope.
Lemma pow_simple a b :
  ok f_lang a -> ok f_lang b -> 16 <= top f_lang a -> 15 <= top f_lang b ->
  read f_lang (words (In "**" a b)) = Some (In "**" a b).
Proof.
  intros Ha Hb Ta Tb. apply read_ok; [exact f_table|]. cbn. auto.
Qed.

Definition arith_op (o : string) : Prop := o = "+" \/ o = "-" \/ o = "*" \/ o = "/".

Lemma pow_left o u v b : arith_op o ->
  ok f_lang (In o u v) -> ok f_lang b -> 16 <= top f_lang v -> 15 <= top f_lang b ->
  read f_lang (words (In "**" (In o u v) b)) = Some (In o u (In "**" v b)).
Proof.
  intros Ho Hi Hb Tv Tb.
  assert (E : words (In "**" (In o u v) b) = words (In o u (In "**" v b))).
  { cbn. rewrite <- app_assoc. reflexivity. }
  rewrite E. apply read_ok; [exact f_table|].
  destruct Ho as [ -> |[ -> |[ -> | -> ]]]; cbn in Hi |- *; destruct Hi as [H1 [H2 [H3 H4]]];
    repeat split; auto; lia.
Qed.

Lemma pow_right o a u v : arith_op o ->
  ok f_lang a -> ok f_lang (In o u v) -> 16 <= top f_lang a -> 15 <= top f_lang u ->
  read f_lang (words (In "**" a (In o u v))) = Some (In o (In "**" a u) v).
Proof.
  intros Ho Ha Hi Ta Tu.
  assert (E : words (In "**" a (In o u v)) = words (In o (In "**" a u) v)).
  { cbn. rewrite <- app_assoc. reflexivity. }
  rewrite E. apply read_ok; [exact f_table|].
  destruct Ho as [ -> |[ -> |[ -> | -> ]]]; cbn in Hi |- *; destruct Hi as [H1 [H2 [H3 H4]]];
    repeat split; auto; lia.
Qed.

Open Scope Z_scope.
Lemma int_pow_neg a b : 2 <= Z.abs a -> b < 0 -> f_int_pow a b = 0.
Proof.
  intros Ha Hb. unfold f_int_pow. destruct (Z.ltb_spec b 0); [|lia].
  apply Z.quot_small_iff.
  - intros E. apply Z.pow_eq_0_iff in E. lia.
  - assert (H1 : 1 < Z.abs (a ^ (- b))); [|lia].
    rewrite Z.abs_pow. apply Z.pow_gt_1; lia.
Qed.
Open Scope nat_scope.

Lemma c_pow_text a b : ok c_lang (c_print a) -> ok c_lang (c_print b) ->
  read c_lang (words (c_pow a b)) =
    Some (Call2 "pow" (if is_float (ty a) then c_print a else Pre "(double)" (Par (c_print a)))
                      (if is_float (ty b) then c_print b else Pre "(double)" (Par (c_print b)))).
Proof.
  intros Ha Hb. change (read c_lang (words (c_pow a b)) = Some (c_pow a b)).
  apply read_ok; [reflexivity|]. unfold c_pow, c_double.
  assert (C : forall x, ok c_lang x -> ok c_lang (c_cast "(double)" x)) by (intros x Hx; apply c_cast_ok; auto).
  destruct (is_float (ty a)), (is_float (ty b)); cbn [ok]; auto.
Qed.

Definition op_name (o : bop) : string :=
  match o with Add => "+" | Sub => "-" | Mul => "*" | _ => "/" end.
Definition arith (o : bop) : Prop := o = Add \/ o = Sub \/ o = Mul \/ o = Div.

Lemma float_op o u v : arith o -> ty u = TFloat -> ty v = TFloat ->
  f_print (PBin o u v) = In (op_name o) (f_print u) (f_print v) /\ arith_op (op_name o).
Proof.
  intros Ho Tu Tv. unfold arith_op.
  destruct Ho as [ -> |[ -> |[ -> | -> ]]]; cbn; unfold f_int; rewrite ?Tu, ?Tv; cbn; auto.
Qed.

Lemma f_pow_left o u v b : arith o -> ty u = TFloat -> ty v = TFloat ->
  ok f_lang (f_print (PBin o u v)) -> ok f_lang (f_print b) ->
  16 <= top f_lang (f_print v) -> 15 <= top f_lang (f_print b) ->
  read f_lang (words (f_pow (PBin o u v) b)) =
    Some (In (op_name o) (f_print u) (In "**" (f_print v) (f_print b))).
Proof.
  intros Ho Tu Tv Hi Hb Hv Hb'. destruct (float_op o u v Ho Tu Tv) as [E Ho'].
  unfold f_pow. rewrite E in *. apply pow_left; auto.
Qed.
Lemma f_pow_right o a u v : arith o -> ty u = TFloat -> ty v = TFloat ->
  ok f_lang (f_print a) -> ok f_lang (f_print (PBin o u v)) ->
  16 <= top f_lang (f_print a) -> 15 <= top f_lang (f_print u) ->
  read f_lang (words (f_pow a (PBin o u v))) =
    Some (In (op_name o) (In "**" (f_print a) (f_print u)) (f_print v)).
Proof.
  intros Ho Tu Tv Ha Hi Ta Tu'. destruct (float_op o u v Ho Tu Tv) as [E Ho'].
  unfold f_pow. rewrite E in *. apply pow_right; auto.
Qed.
