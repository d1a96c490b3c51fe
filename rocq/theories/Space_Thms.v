(** Theorems about np.arange (C75) and np.linspace (C76). *)

From Coq Require Import List ZArith Bool Reals Lia QArith Qcanon Qround.
From Verif Require Import Space_Model Space_Spec Space_Proofs.
Import ListNotations.
Local Open Scope Z_scope.

(** ** C75: np.arange *)

(* For integers the size computed with double precision numbers is exact: an
   index is below it exactly if its value is before the stop, for ranges and
   steps below 2^53. *)
Theorem C75_size_partial : forall start stop step k,
  Z.abs (stop - start) < 2 ^ 53 -> step <> 0 -> Z.abs step <= 2 ^ 53 -> 0 <= k ->
  (k < int_size start stop step <-> before_int step (start + k * step) stop).
Proof. exact int_size_spec. Qed.
Print Assumptions C75_size_partial.

Example C75_size_example :
  Z.abs (-3 - 10) < 2 ^ 53 /\ -4 <> 0 /\ Z.abs (-4) <= 2 ^ 53 /\
  before_int (-4) (10 + 3 * -4) (-3) /\ ~ before_int (-4) (10 + 4 * -4) (-3) /\
  int_size 10 (-3) (-4) = 4.
Proof.
  unfold before_int. repeat split; try lia.
  rewrite int_size_exact; [reflexivity|..]; unfold e53; lia.
Qed.

(* The size in double precision is the one of the exact arithmetic used below. *)
Theorem C75_size_exact_partial : forall start stop step,
  Z.abs (stop - start) < 2 ^ 53 -> step <> 0 -> Z.abs step <= 2 ^ 53 ->
  size (num start) (num stop) (num step) = Some (int_size start stop step).
Proof. exact int_size_size. Qed.
Print Assumptions C75_size_exact_partial.

(* C: the elements are those of NumPy, and their number is the length of the
   array, unless that is negative. *)
Theorem C75_c_partial : forall start stop step, step <> 0%Qc ->
  exists r, c_arange Float start stop step = Some r /\
    is_arange start stop step (Z.to_nat (len r)) (items r).
Proof. exact c_arange_float. Qed.
Print Assumptions C75_c_partial.

Theorem C75_c_int_partial : forall start stop step, step <> 0 ->
  exists r, c_arange Int (num start) (num stop) (num step) = Some r /\
    is_arange (num start) (num stop) (num step) (Z.to_nat (len r)) (items r).
Proof. exact c_arange_int. Qed.
Print Assumptions C75_c_int_partial.

Example C75_c_example :
  exists r, c_arange Int (num 7) (num 0) (num (-3)) = Some r /\ len r = 3 /\
    map this (items r) = [7#1; 4#1; 1#1]%Q.
Proof. eexists. split; [reflexivity|]. split; vm_compute; reflexivity. Qed.

(* The arguments left out. *)
Theorem C75_defaults_partial : forall start stop, 
  (exists r, c_call Float stop None None = Some r /\
     is_arange 0 stop 1 (Z.to_nat (len r)) (items r)) /\
  (exists r, c_call Float start (Some stop) None = Some r /\
     is_arange start stop 1 (Z.to_nat (len r)) (items r)).
Proof.
  intros start stop.
  split; apply (c_arange_float _ stop 1%Qc); discriminate.
Qed.
Print Assumptions C75_defaults_partial.

(* Fortran, if the step is not a sum: the array of C, with a length which is
   not negative. *)
Theorem C75_fortran_partial : forall d start stop step r,
  c_arange d start stop step = Some r ->
  f_arange d start stop [step] = Some (Arr (Z.max 0 (len r)) (items r)).
Proof. exact f_arange_c. Qed.
Print Assumptions C75_fortran_partial.

Example C75_fortran_example :
  exists r, f_arange Float (num 5) (num 2) [num 1] = Some r /\ len r = 0 /\ items r = [].
Proof. eexists. split; [reflexivity|]. split; vm_compute; reflexivity. Qed.

(* C: np.arange(5, 2) has the length -3. *)
Theorem C75_empty_refuted : exists start stop step r,
  c_arange Int (num start) (num stop) (num step) = Some r /\
  is_arange (num start) (num stop) (num step) 0 (items r) /\
  len r = -3 /\ int_size start stop step = -3.
Proof.
  exists 5, 2, 1.
  destruct (c_arange_int 5 2 1 ltac:(lia)) as (r & E & A).
  assert (len r = -3) as L.
  { unfold c_arange in E. rewrite size_int in E by lia.
    assert (r = Arr (- ((5 - 2) / 1)) (items r)) as -> by (injection E as <-; reflexivity).
    reflexivity. }
  exists r. split; [exact E|]. rewrite L in A. split; [exact A|]. split; [exact L|].
  rewrite int_size_exact; [reflexivity|..]; unfold e53; lia.
Qed.
Print Assumptions C75_empty_refuted.

(* Fortran: in np.arange(0, 10, a + b) only b is multiplied by the index. *)
Theorem C75_step_refuted : exists start stop a b r,
  (total [a; b] <> 0)%Qc /\
  f_arange Float start stop [a; b] = Some r /\
  ~ is_arange start stop (total [a; b]) (Z.to_nat (len r)) (items r).
Proof.
  exists (num 0), (num 10), (num 1), (num 2). eexists.
  split; [discriminate|]. split; [reflexivity|].
  intros (_ & _ & H). specialize (H 0%nat). vm_compute in H.
  specialize (H ltac:(lia)). discriminate H.
Qed.
Print Assumptions C75_step_refuted.

(* np.arange(0, 2, 0.5, dtype=int) is [0, 0, 0, 0] in NumPy and [0, 0, 1, 1]
   here. *)
Theorem C75_dtype_refuted : exists start stop step r k v,
  c_arange Int start stop step = Some r /\ nth_error (items r) k = Some v /\
  v <> numpy_int_element start step k.
Proof.
  exists (num 0), (num 2), (Q2Qc (1#2)). do 3 eexists.
  split; [reflexivity|]. split.
  - unfold items. rewrite (nth_indices _ _ _ 2%nat); [reflexivity|]. vm_compute. lia.
  - intros E. apply (f_equal this) in E. vm_compute in E. discriminate E.
Qed.
Print Assumptions C75_dtype_refuted.

(** ** C76: np.linspace *)

(* C: the elements are those of NumPy, if the start and the stop do not read
   the array, the endpoint is not the only element, and with an integer type
   the stop is an integer or not negative. *)
Theorem C76_c_partial : forall d n e a b start stop m,
  (forall m', start m' = Some a) -> (forall m', stop m' = Some b) ->
  (includes e = true -> n <> 1%nat) ->
  (includes e = true -> d = Float \/ (0 <= b)%Qc \/ exists z, b = num z) ->
  List.length m = n ->
  exists m', c_linspace d n e start stop m = Some m' /\
             is_linspace d a b n (includes e) m'.
Proof. exact c_linspace_numpy. Qed.
Print Assumptions C76_c_partial.

Example C76_c_example :
  exists m', c_linspace Int 4 Always (fun _ => Some (num 0)) (fun _ => Some (num 10))
               [None; None; None; None] = Some m' /\
    map (option_map this) m' = [Some (0#1); Some (3#1); Some (6#1); Some (10#1)]%Q.
Proof. eexists. split; [reflexivity|]. vm_compute. reflexivity. Qed.

(* Fortran: the start is only read before the array is changed; an empty array
   needs the literal endpoint=False. *)
Theorem C76_fortran_partial : forall d n e a b start stop m,
  start m = Some a -> (forall m', stop m' = Some b) ->
  (includes e = true -> n <> 1%nat) ->
  (includes e = true -> d = Float \/ (0 <= b)%Qc \/ exists z, b = num z) ->
  (n = 0%nat -> e = Never) ->
  exists m', f_linspace d n e start stop m = Some m' /\
             is_linspace d a b n (includes e) m'.
Proof. exact f_linspace_numpy. Qed.
Print Assumptions C76_fortran_partial.

Example C76_fortran_example :
  exists m', f_linspace Float 2 (Value false) (fun m => hd None m) (fun _ => Some (num 1))
               [Some (num 3); None] = Some m' /\
    map (option_map this) m' = [Some (3#1); Some (2#1)]%Q.
Proof. eexists. split; [reflexivity|]. vm_compute. reflexivity. Qed.

(* Arrays of starts and stops: each column is the np.linspace of its start and
   stop. *)
Theorem C76_rows_partial : forall d n e starts stops m,
  List.length m = n -> (includes e = true -> n <> 1%nat) ->
  (includes e = true -> forall b, In b stops ->
     d = Float \/ (0 <= b)%Qc \/ exists z, b = num z) ->
  exists m', linspace_rows d n e starts stops m = Some m' /\ List.length m' = n /\
    forall j a b, nth_error starts j = Some a -> nth_error stops j = Some b ->
    forall k, (k < n)%nat -> exists r, nth_error m' k = Some r /\
      nth_error r j = Some (Some (numpy_cell d (numpy_linspace a b n (includes e) k))).
Proof. exact linspace_rows_numpy. Qed.
Print Assumptions C76_rows_partial.

Example C76_rows_example :
  exists m', linspace_rows Float 3 Always [num 0; num 10] [num 2; num 30] [[]; []; []]
     = Some m' /\
    map (map (option_map this)) m'
    = [[Some (0#1); Some (10#1)]; [Some (1#1); Some (20#1)]; [Some (2#1); Some (30#1)]]%Q.
Proof. eexists. split; [reflexivity|]. vm_compute. reflexivity. Qed.

(* np.linspace(a, b, 1) is [a] in NumPy and [b] here, in both languages. *)
Theorem C76_single_refuted : forall d a b x,
  c_linspace d 1 Always (fun _ => Some a) (fun _ => Some b) [x] = Some [Some (convert d b)] /\
  f_linspace d 1 Always (fun _ => Some a) (fun _ => Some b) [x] = Some [Some (convert d b)] /\
  (convert d b <> numpy_cell d a ->
   ~ is_linspace d a b 1 true [Some (convert d b)]).
Proof.
  intros d a b x. split; [reflexivity|]. split; [reflexivity|].
  intros H [_ I]. specialize (I 0%nat ltac:(lia)). cbn in I. congruence.
Qed.
Print Assumptions C76_single_refuted.

(* Fortran: np.linspace(a, b, n) with n = 0 writes outside of the empty array. *)
Theorem C76_empty_refuted : forall d e start stop m, e <> Never ->
  f_linspace d 0 e start stop m = None /\ c_linspace d 0 e start stop m = Some m.
Proof. intros d e start stop m H. destruct e; try congruence; split; reflexivity. Qed.
Print Assumptions C76_empty_refuted.

(* np.linspace(-4.5, -1.5, 2, dtype=int) is [-5, -2] in NumPy and [-5, -1]
   here, in both languages. *)
Theorem C76_int_refuted : exists a b m' v,
  c_linspace Int 2 Always (fun _ => Some a) (fun _ => Some b) [None; None] = Some m' /\
  f_linspace Int 2 Always (fun _ => Some a) (fun _ => Some b) [None; None] = Some m' /\
  nth_error m' 1 = Some (Some v) /\
  v <> numpy_cell Int (numpy_linspace a b 2 true 1).
Proof.
  exists (Q2Qc (-9#2)), (Q2Qc (-3#2)). do 2 eexists.
  split; [reflexivity|]. split; [reflexivity|]. split; [reflexivity|].
  intros E. apply (f_equal this) in E. vm_compute in E. discriminate E.
Qed.
Print Assumptions C76_int_refuted.

(* x[:] = np.linspace(x[1], x[0], 3): the start is read again in C after it was
   overwritten, and the stop in Fortran. *)
Theorem C76_alias_refuted : exists start stop a b m c f v w,
  start m = Some a /\ stop m = Some b /\
  c_linspace Float 3 Always start stop m = Some c /\
  f_linspace Float 3 Always start stop m = Some f /\
  nth_error c 1 = Some (Some v) /\ v <> numpy_linspace a b 3 true 1 /\
  nth_error f 2 = Some (Some w) /\ w <> numpy_linspace a b 3 true 2.
Proof.
  exists (fun m => nth 1 m None), (fun m => nth 0 m None), (num 2), (num 6),
    [Some (num 6); Some (num 2); Some (num 0)].
  do 4 eexists.
  split; [reflexivity|]. split; [reflexivity|]. split; [reflexivity|].
  split; [reflexivity|]. split; [reflexivity|]. split.
  - intros E. apply (f_equal this) in E. vm_compute in E. discriminate E.
  - split; [reflexivity|].
    intros E. apply (f_equal this) in E. vm_compute in E. discriminate E.
Qed.
Print Assumptions C76_alias_refuted.
