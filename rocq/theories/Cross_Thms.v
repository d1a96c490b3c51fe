(** C72: np.cross. *)
From Coq Require Import List ZArith Bool Lia.
From Verif Require Import Cross_Model Cross_Spec Cross_Proofs.
Import ListNotations.

(** A block in which only one product needs loops.  Missing: a second product
    with loops, results which are an argument, different axes, and sizes known
    to be 1 when the axis is not the last one (all refuted below). *)
Theorem C72_block_partial : forall b1 s b2 e m,
  Forall (fun s => exists x, written s x) (b1 ++ s :: b2) ->
  vectors b1 -> vectors b2 ->
  chain (b1 ++ s :: b2) m (snd (run_block (unroll_block 0 (b1 ++ s :: b2)) (e, m))).
Proof. intros b1 s b2 e m. exact (block_ok b1 s b2 (e, m)). Qed.
Print Assumptions C72_block_partial.

(** One statement, when the block has no loop index yet. *)
Theorem C72_cross_partial : forall s x e m, written s x ->
  crosses (na s) (nb s) (nc s) (map fst (sa s)) (map fst (sb s)) x x x m
    (snd (run (unroll 0 s) (e, m))).
Proof. intros s x e m W. exact (unroll_ok 0 s x e m W (or_introl eq_refl)). Qed.
Print Assumptions C72_cross_partial.

Definition lit (S : list nat) : list dim := map (fun n => (n, true)) S.
Definition var (S : list nat) : list dim := map (fun n => (n, false)) S.

(** a (4, 1, 3) with b (4, 2, 3), and b (2, 3, 5) along the axis 1. *)
Example C72_cross_example :
  written (Cross 0 1 2 (lit [4; 1; 3]) (lit [4; 2; 3]) (lit [4; 2; 3]) 2 2 2) 2 /\
  written (Cross 0 1 2 (var [2; 3; 5]) (var [2; 3; 5]) (var [2; 3; 5]) 1 1 1) 1 /\
  written (Cross 2 1 5 (lit [3]) (var [3]) (lit [3]) 0 0 0) 0 /\
  (let m := fun l => match l with
                     | (0, [i; j; k]) => Z.of_nat (i + k)
                     | (1, [i; j; k]) => Z.of_nat (j * k + 1)
                     | _ => 0%Z end in
   let m' := snd (run (unroll 0 (Cross 0 1 2 (lit [4; 1; 3]) (lit [4; 2; 3]) (lit [4; 2; 3]) 2 2 2))
                    (fun _ => 7, m)) in
   (m' (2, [3; 1; 0]), m' (2, [3; 1; 1]), m' (2, [3; 1; 2])) = (2, -4, 2)%Z).
Proof.
  split; [|split; [|split; [|reflexivity]]].
  - exists (-1)%Z, (-1)%Z, (-1)%Z, None. split; [reflexivity|].
    split; [right; reflexivity|]. split; [right; reflexivity|]. split; [right; reflexivity|].
    split; [|split; discriminate].
    split; [|cbn; repeat split; (lia || (left; reflexivity))].
    constructor; [left; reflexivity|]. constructor; [right; left; reflexivity|].
    constructor; [left; reflexivity | constructor].
  - exists 0%Z, 0%Z, 0%Z, (Some 1%Z). split; [reflexivity|].
    split; [left; reflexivity|]. split; [left; reflexivity|]. split; [left; reflexivity|].
    split; [|split; discriminate].
    split; [|cbn; repeat split; try lia].
    + constructor; [left; reflexivity|]. constructor; [left; reflexivity|].
      constructor; [left; reflexivity | constructor].
    + right. split; repeat (constructor; [reflexivity|]); constructor.
  - exists (-1)%Z, (-1)%Z, (-1)%Z, None. split; [reflexivity|].
    split; [right; reflexivity|]. split; [right; reflexivity|]. split; [right; reflexivity|].
    split; [|split; discriminate].
    split; [|cbn; repeat split; (lia || (left; reflexivity))].
    constructor; [left; reflexivity | constructor].
Qed.

(** The shape of the result. *)
Theorem C72_shape_partial : forall s x, written s x ->
  np_shape (map fst (sa s)) (map fst (sb s)) x x x = Some (map fst (sc s)).
Proof. exact shape_ok. Qed.
Print Assumptions C72_shape_partial.

Example C72_shape_example :
  np_shape [4; 1; 3] [4; 2; 3] 2 2 2 = Some [4; 2; 3] /\
  np_shape [2; 3; 5] [2; 3; 5] 1 1 1 = Some [2; 3; 5].
Proof. split; reflexivity. Qed.

Lemma plane_written : forall c, c <> 0 -> c <> 1 ->
  written (Cross 0 1 c (lit [2; 3]) (lit [2; 3]) (lit [2; 3]) 1 1 1) 1.
Proof.
  intros c H0 H1. exists (-1)%Z, (-1)%Z, (-1)%Z, None. split; [reflexivity|].
  split; [right; reflexivity|]. split; [right; reflexivity|]. split; [right; reflexivity|].
  split; [|split; assumption].
  split; [|cbn; repeat split; (lia || (left; reflexivity))].
  constructor; [left; reflexivity|]. constructor; [left; reflexivity | constructor].
Qed.

(** [c = np.cross(a, b)] and [d = np.cross(a, b)] in one block: the loop of the
    second one changes another index than the one it uses. *)
Theorem C72_second_refuted : exists s1 s2 e m, written s1 1 /\ written s2 1 /\
  exists e1 m1 m2,
    run_block (unroll_block 0 [s1]) (e, m) = (e1, m1) /\
    snd (run_block (unroll_block 0 [s1; s2]) (e, m)) = m2 /\
    ~ crosses (na s2) (nb s2) (nc s2) (map fst (sa s2)) (map fst (sb s2)) 1 1 1 m1 m2.
Proof.
  exists (Cross 0 1 2 (lit [2; 3]) (lit [2; 3]) (lit [2; 3]) 1 1 1),
    (Cross 0 1 3 (lit [2; 3]) (lit [2; 3]) (lit [2; 3]) 1 1 1), (fun _ => 0),
    (fun l => match l with (0, [_; 0]) => 1%Z | (1, [_; 1]) => 1%Z | _ => 0%Z end).
  split; [apply plane_written; discriminate|]. split; [apply plane_written; discriminate|].
  eexists _, _, _. split; [reflexivity|]. split; [reflexivity|].
  intros [B [EB [H _]]]. cbn in EB. injection EB as <-.
  specialize (H [1] 2 ltac:(cbn; lia) ltac:(lia)). vm_compute in H. discriminate.
Qed.
Print Assumptions C72_second_refuted.

(** [a = np.cross(a, b)]: the first component is overwritten before it is read. *)
Theorem C72_in_place_refuted : exists s e m,
  make 0 1 0 (lit [3]) (lit [3]) (-1) (-1) (-1) None = Some s /\ simple (lit [3]) (lit [3]) 0 /\
  ~ crosses 0 1 0 [3] [3] 0 0 0 m (snd (run (unroll 0 s) (e, m))).
Proof.
  eexists _, (fun _ => 0),
    (fun l => match l with (0, [0]) => 1%Z | (1, [1]) => 1%Z | _ => 0%Z end).
  split; [reflexivity|]. split.
  - split; [|cbn; repeat split; (lia || (left; reflexivity))].
    constructor; [left; reflexivity | constructor].
  - intros [B [EB [H _]]]. cbn in EB. injection EB as <-.
    specialize (H [] 2 Logic.I ltac:(lia)). vm_compute in H. discriminate.
Qed.
Print Assumptions C72_in_place_refuted.

(** [np.cross(a, b, axisa=0, axisb=0)] of arrays of shape (3, 2): the result
    has the shape of [a + b]. *)
Theorem C72_axes_refuted : exists s,
  make 0 1 2 (lit [3; 2]) (lit [3; 2]) 0 0 (-1) None = Some s /\
  np_shape [3; 2] [3; 2] 0 0 1 = Some [2; 3] /\ map fst (sc s) = [3; 2].
Proof. eexists. repeat split; reflexivity. Qed.
Print Assumptions C72_axes_refuted.

(** [np.cross(a, b, axis=0)] of arrays of shape (3, 1, 2): the loop indices are
    compared with the wrong sizes, and the last dimension is not indexed. *)
Theorem C72_axis_one_refuted : exists s e m,
  make 0 1 2 (lit [3; 1; 2]) (lit [3; 1; 2]) (-1) (-1) (-1) (Some 0%Z) = Some s /\
  compatible (lit [3; 1; 2]) (lit [3; 1; 2]) /\
  ~ crosses 0 1 2 [3; 1; 2] [3; 1; 2] 0 0 0 m (snd (run (unroll 0 s) (e, m))).
Proof.
  eexists _, (fun _ => 0),
    (fun l => match l with (0, [0; _; _]) => 1%Z | (1, [1; _; _]) => 1%Z | _ => 0%Z end).
  split; [reflexivity|]. split.
  - constructor; [left; reflexivity|]. constructor; [left; reflexivity|].
    constructor; [left; reflexivity | constructor].
  - intros [B [EB [H _]]]. cbn in EB. injection EB as <-.
    specialize (H [0; 1] 2 ltac:(cbn; lia) ltac:(lia)). vm_compute in H. discriminate.
Qed.
Print Assumptions C72_axis_one_refuted.

(** [np.cross(a, b, axis=0)] with a of shape (3, 1) and b of shape (3, 2): the
    code reads [a[:, 1]], which does not exist. *)
Theorem C72_axis_broadcast_refuted : exists s e m,
  make 0 1 2 (lit [3; 1]) (lit [3; 2]) (-1) (-1) (-1) (Some 0%Z) = Some s /\
  compatible (lit [3; 1]) (lit [3; 2]) /\
  ~ crosses 0 1 2 [3; 1] [3; 2] 0 0 0 m (snd (run (unroll 0 s) (e, m))).
Proof.
  eexists _, (fun _ => 0),
    (fun l => match l with (0, [0; 0]) => 1%Z | (1, [1; _]) => 1%Z | _ => 0%Z end).
  split; [reflexivity|]. split.
  - constructor; [left; reflexivity|]. constructor; [right; left; reflexivity | constructor].
  - intros [B [EB [H _]]]. cbn in EB. injection EB as <-.
    specialize (H [1] 2 ltac:(cbn; lia) ltac:(lia)). vm_compute in H. discriminate.
Qed.
Print Assumptions C72_axis_broadcast_refuted.
