(* C30: array statements unrolled to loops. *)
From Coq Require Import Bool Arith ZArith Lia List.
From Verif Require Import Loops_Model Loops_Spec Loops_Proofs Loops_Fuse Loops_Main.
Import ListNotations.
Open Scope list_scope.

(* whole arrays and slices of them *)
Definition whole (x : nat) (sh : list len) : operand := mk_op (VUser x) (map (fun n => DSlice SNone None n n) sh).
Definition sliced (x : nat) (st : Z) (n base : nat) : operand := mk_op (VUser x) [DSlice (SLit st) None (LConst n) (LConst base)].
Definition total (l : list Z) : Z := fold_right Z.add 0%Z l.

(* a = b + sum(b); c = 2 * a; all of length n *)
Definition ex_block : list stmt :=
  [mk_stmt (whole 0 [LSym 0]) (EBin Z.add (EOp (whole 1 [LSym 0])) (ERed total [LSym 0] (EOp (whole 1 [LSym 0]))));
   mk_stmt (whole 2 [LSym 0]) (EBin Z.mul (ELit 2) (EOp (whole 0 [LSym 0])))].

Example C30_loops_ex : forall rho sg, Forall (good_stmt rho sg) ex_block /\ independent ex_block.
Proof.
  intros rho sg.
  assert (G : forall k, good_op sg (whole k [LSym 0])) by (intros k; split; [constructor; [split; exact I|constructor]|exists k; reflexivity]).
  assert (F : fits rho [LSym 0] [LSym 0]) by apply fits_self.
  split.
  - constructor; [|constructor; [|constructor]]; (split; [apply G|]); cbn [good_expr s_rhs]; repeat split; try apply G; try apply F; exact I.
  - apply all_in_step. intros s t Is It o Io Ev.
    destruct Is as [<-|[<-|[]]]; destruct It as [<-|[<-|[]]]; cbn in Io; repeat (destruct Io as [<-|Io]); try destruct Io; cbn in Ev; try discriminate; split; reflexivity.
Qed.

(* they share one loop *)
Example C30_loops_ex2 : exists b, expand false ex_block =
  CLine (mk_stmt (mk_op (VTemp 0) []) (ERed total [LSym 0] (EOp (whole 1 [LSym 0])))) (CFor 0 (LSym 0) b CNil).
Proof. eexists. reflexivity. Qed.

(* If slices go forward, lengths that are repeated are the literal 1 and statements that may share a
   loop meet only at equal positions, the generated code leaves the memory that NumPy leaves.
   Missing: other statements; see the refutations. *)
Theorem C30_loops_partial : forall vectors rho sg block m m',
  Forall (good_stmt rho sg) block -> independent block -> numpy rho sg block m m' ->
  forall env n a, exec rho sg env (expand vectors block) m (VUser n) a = m' (VUser n) a.
Proof. exact expand_correct. Qed.
Print Assumptions C30_loops_partial.

(* NumPy gives such a block exactly one result. *)
Theorem C30_defined : forall rho sg block m, Forall (good_stmt rho sg) block ->
  exists m', numpy rho sg block m m' /\ forall m'', numpy rho sg block m m'' -> forall x a, m'' x a = m' x a.
Proof. exact numpy_defined. Qed.
Print Assumptions C30_defined.

Example C30_defined_ex : forall rho sg, Forall (good_stmt rho sg) ex_block.
Proof. intros rho sg. apply C30_loops_ex. Qed.

(* the memory in which element i of x is 10 x + i + 1, or the like in two dimensions *)
Definition m_ex : mem := fun x a => match x with VUser n => fold_left (fun z i => 10 * z + i + 1)%Z a (Z.of_nat n) | VTemp _ => 0%Z end.
Definition r0 : nat -> nat := fun _ => 0.
Definition z0 : nat -> Z := fun _ => 0%Z.

Ltac good_ok := repeat first
  [ apply Forall_nil | apply Forall_cons | apply Forall2_nil | apply Forall2_cons | exact I | left; reflexivity | right; reflexivity
  | match goal with |- good_stmt _ _ _ => unfold good_stmt; cbn [s_lhs s_rhs good_expr] | |- good_op _ _ => unfold good_op, whole, sliced; cbn [o_dims o_var map]
    | |- fits _ _ _ => unfold fits; cbn | |- forward _ _ => cbn [forward] | |- is_user _ => eexists; reflexivity | |- _ /\ _ => split | |- _ <= _ => lia end ].
Ltac np_ok := apply np_step_ok; intros v w Iv Iw E; cbn in Iv, Iw; repeat (destruct Iv as [<-|Iv]); try destruct Iv; repeat (destruct Iw as [<-|Iw]); try destruct Iw; try reflexivity; vm_compute in E; discriminate.

(* a[1:4] = a[0:3] repeats a[0]. *)
Theorem C30_overlap_refuted : exists s m m' n a,
  good_stmt r0 z0 s /\ numpy r0 z0 [s] m m' /\ exec r0 z0 env0 (expand false [s]) m (VUser n) a <> m' (VUser n) a.
Proof.
  exists (mk_stmt (sliced 0 1 3 4) (EOp (sliced 0 0 3 4))), m_ex. eexists. exists 0, [2%Z]. split; [good_ok|]. split.
  - econstructor; [np_ok|constructor].
  - vm_compute. discriminate.
Qed.
Print Assumptions C30_overlap_refuted.

(* x[0:3] = y[0:3]; z[0:3] = x[1:4] share a loop, in which the second reads elements that the first has
   not written. *)
Theorem C30_fused_refuted : exists s t m m' n a,
  good_stmt r0 z0 s /\ good_stmt r0 z0 t /\ in_step s s /\ in_step t t /\
  numpy r0 z0 [s; t] m m' /\ exec r0 z0 env0 (expand false [s; t]) m (VUser n) a <> m' (VUser n) a.
Proof.
  exists (mk_stmt (sliced 0 0 3 4) (EOp (sliced 1 0 3 4))), (mk_stmt (sliced 2 0 3 4) (EOp (sliced 0 1 3 4))), m_ex. eexists. exists 2, [0%Z].
  split; [good_ok|]. split; [good_ok|].
  split; [intros o Io Ev; cbn in Io; repeat (destruct Io as [<-|Io]); try destruct Io; cbn in Ev; try discriminate; split; reflexivity|].
  split; [intros o Io Ev; cbn in Io; repeat (destruct Io as [<-|Io]); try destruct Io; cbn in Ev; try discriminate; split; reflexivity|].
  split.
  - econstructor; [np_ok|]. econstructor; [np_ok|constructor].
  - vm_compute. discriminate.
Qed.
Print Assumptions C30_fused_refuted.

(* The same where the target language has array statements: the statements repeat a row. *)
Theorem C30_fused_vectors_refuted : exists s t m m' n a,
  good_stmt r0 z0 s /\ good_stmt r0 z0 t /\ in_step s s /\ in_step t t /\
  numpy r0 z0 [s; t] m m' /\ exec r0 z0 env0 (expand true [s; t]) m (VUser n) a <> m' (VUser n) a.
Proof.
  exists (mk_stmt (mk_op (VUser 0) [DSlice (SLit 0) None (LConst 2) (LConst 3); DSlice SNone None (LConst 2) (LConst 2)]) (EOp (whole 1 [LConst 2]))),
    (mk_stmt (whole 2 [LConst 2; LConst 2]) (EBin Z.add (EOp (mk_op (VUser 0) [DSlice (SLit 1) None (LConst 2) (LConst 3); DSlice SNone None (LConst 2) (LConst 2)])) (EOp (whole 1 [LConst 2])))), m_ex.
  eexists. exists 2, [0%Z; 0%Z]. split; [good_ok|]. split; [good_ok|].
  split; [intros o Io Ev; cbn in Io; repeat (destruct Io as [<-|Io]); try destruct Io; cbn in Ev; try discriminate; split; reflexivity|].
  split; [intros o Io Ev; cbn in Io; repeat (destruct Io as [<-|Io]); try destruct Io; cbn in Ev; try discriminate; split; reflexivity|].
  split.
  - econstructor; [np_ok|]. econstructor; [np_ok|constructor].
  - vm_compute. discriminate.
Qed.
Print Assumptions C30_fused_vectors_refuted.

(* a = a + b; b = 2 * b, a a square matrix: b is doubled in the loop over the rows of a. *)
Theorem C30_broadcast_refuted : exists s t m m' n a,
  good_stmt r0 z0 s /\ good_stmt r0 z0 t /\ in_step s s /\ in_step t t /\
  numpy r0 z0 [s; t] m m' /\ exec r0 z0 env0 (expand false [s; t]) m (VUser n) a <> m' (VUser n) a.
Proof.
  exists (mk_stmt (whole 0 [LConst 2; LConst 2]) (EBin Z.add (EOp (whole 0 [LConst 2; LConst 2])) (EOp (whole 1 [LConst 2])))),
    (mk_stmt (whole 1 [LConst 2]) (EBin Z.mul (ELit 2) (EOp (whole 1 [LConst 2])))), m_ex.
  eexists. exists 0, [1%Z; 0%Z]. split; [good_ok|]. split; [good_ok|].
  split; [intros o Io Ev; cbn in Io; repeat (destruct Io as [<-|Io]); try destruct Io; cbn in Ev; try discriminate; split; reflexivity|].
  split; [intros o Io Ev; cbn in Io; repeat (destruct Io as [<-|Io]); try destruct Io; cbn in Ev; try discriminate; split; reflexivity|].
  split.
  - econstructor; [np_ok|]. econstructor; [np_ok|constructor].
  - vm_compute. discriminate.
Qed.
Print Assumptions C30_broadcast_refuted.

(* b = a[::-1] reads from the beginning of a backwards. *)
Theorem C30_backward_refuted : exists s m m' n a,
  in_step s s /\ fits r0 [LConst 3] (shape (s_lhs s)) /\ numpy r0 z0 [s] m m' /\ exec r0 z0 env0 (expand false [s]) m (VUser n) a <> m' (VUser n) a.
Proof.
  exists (mk_stmt (whole 1 [LConst 3]) (EOp (mk_op (VUser 0) [DSlice SNone (Some (-1)%Z) (LConst 3) (LConst 3)]))), m_ex. eexists. exists 1, [0%Z].
  split; [intros o Io Ev; cbn in Io; repeat (destruct Io as [<-|Io]); try destruct Io; cbn in Ev; try discriminate; split; reflexivity|]. split; [apply fits_self|]. split.
  - econstructor; [np_ok|constructor].
  - vm_compute. discriminate.
Qed.
Print Assumptions C30_backward_refuted.

(* a = b, where b has a length that is not known to the compiler and is 1: b is not repeated. *)
Theorem C30_one_refuted : exists rho s m m' n a,
  Forall (fun o => good_op z0 o) (accesses s) /\ in_step s s /\ numpy rho z0 [s] m m' /\ exec rho z0 env0 (expand false [s]) m (VUser n) a <> m' (VUser n) a.
Proof.
  exists (fun k => if Nat.eqb k 0 then 3 else 1), (mk_stmt (whole 0 [LSym 0]) (EOp (whole 1 [LSym 1]))), m_ex. eexists. exists 0, [2%Z].
  split; [cbn [accesses s_lhs s_rhs operands]; good_ok|].
  split; [intros o Io Ev; cbn in Io; repeat (destruct Io as [<-|Io]); try destruct Io; cbn in Ev; try discriminate; split; reflexivity|]. split.
  - econstructor; [np_ok|constructor].
  - vm_compute. discriminate.
Qed.
Print Assumptions C30_one_refuted.

(* b = a[k:], where k is -3: a is read at -3. *)
Theorem C30_start_refuted : exists sg s m m' n a,
  good_op sg (s_lhs s) /\ in_step s s /\ numpy r0 sg [s] m m' /\ exec r0 sg env0 (expand false [s]) m (VUser n) a <> m' (VUser n) a.
Proof.
  exists (fun _ => (-3)%Z), (mk_stmt (whole 1 [LConst 3]) (EOp (mk_op (VUser 0) [DSlice (SVar 0) None (LConst 3) (LConst 4)]))), m_ex. eexists. exists 1, [0%Z].
  split; [good_ok|].
  split; [intros o Io Ev; cbn in Io; repeat (destruct Io as [<-|Io]); try destruct Io; cbn in Ev; try discriminate; split; reflexivity|]. split.
  - econstructor; [np_ok|constructor].
  - vm_compute. discriminate.
Qed.
Print Assumptions C30_start_refuted.
