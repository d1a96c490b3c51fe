(** C70: reductions along axes.  *)
From Coq Require Import List ZArith Bool Lia.
From Verif Require Import Reduce_Model Reduce_Spec Reduce_Proofs.
Import ListNotations.
Local Open Scope Z_scope.

(** [out[...] = f(a[...], axis, keepdims, initial)] in C and in Fortran, where
    [out] is another array: the elements of [out] are the sums, minima or
    maxima of NumPy, and [a] is unchanged. The result is repeated along
    additional dimensions in front and along the dimensions which are kept.
    Missing: slices of the reduced dimensions, negative axes with kept
    dimensions, and no axes with kept dimensions (see below). *)
Theorem C70_reduction_partial : forall l o initial D s ax keepdims pre LS m,
  valid_call D s ax keepdims ->
  let S := view_shape D s in
  let f := flags (length S) ax in
  fits keepdims f S LS ->
  (forall i g, in_shape LS i -> group keepdims f S (read_at keepdims f i) g ->
     has_value o initial g) ->
  exists m',
    statement l o initial D s ax keepdims (pre ++ LS) Out m = Some m' /\
    (forall c, m' (A c) = m (A c)) /\
    (forall u i g, in_shape pre u -> in_shape LS i ->
       group keepdims f S (read_at keepdims f i) g ->
       np_value o initial (map (fun v => m (A (source s v))) g)
         (m' (Out (u ++ i)))).
Proof. exact reduction_right. Qed.
Print Assumptions C70_reduction_partial.

(** An array of the shape (5, 2, 3, 4): [np.sum(a[3, :, 1:, ::2], axis=(0, -1))]. *)
Definition D_ex : list dim := [(5%nat, true); (2%nat, false); (3%nat, true); (4%nat, false)].
Definition s_ex : list sub :=
  [At 3 1 Zero; All; Sl (Some 1%nat) None None; Sl None None (Some 2%nat)].

Example C70_reduction_example :
  valid_call D_ex s_ex (Some [0; -1]) false /\
  view_shape D_ex s_ex = [2; 2; 2]%nat /\
  fits false (flags 3 (Some [0; -1])) [2; 2; 2]%nat [2]%nat /\
  (forall m, exists m',
     statement C Sum (Some 7) D_ex s_ex (Some [0; -1]) false [2]%nat Out m = Some m' /\
     m' (Out [1%nat]) = 7 + m (A [3; 0; 2; 0]%nat) + m (A [3; 0; 2; 2]%nat)
        + m (A [3; 1; 2; 0]%nat) + m (A [3; 1; 2; 2]%nat)).
Proof.
  split; [|split; [reflexivity|split; [repeat split|]]].
  - split; [|split; [split; [discriminate|split]|]].
    + constructor; [split; [reflexivity | cbn; lia]|].
      constructor; [cbn; repeat split; (lia || discriminate)|].
      constructor; [cbn; repeat split; (lia || discriminate)|].
      constructor; [cbn; repeat split; (lia || discriminate)|]. constructor.
    + split; [intros a [<-|[<-|[]]]; cbn; lia|]. cbn.
      constructor; [intros [e|[]]; discriminate|].
      constructor; [intros [] | constructor].
    + discriminate.
    + cbn. split; [left; repeat split|]. split; [|exact Logic.I].
      right. split; [reflexivity | constructor].
  - intros m. eexists. split; [reflexivity|]. cbn. lia.
Qed.

(** Every element of the result has its group. *)
Theorem C70_group_partial : forall D s ax keepdims LS i,
  valid_call D s ax keepdims ->
  let S := view_shape D s in
  let f := flags (length S) ax in
  fits keepdims f S LS -> in_shape LS i ->
  exists g, group keepdims f S (read_at keepdims f i) g.
Proof.
  intros D s ax keepdims LS i (hw & _) S f hf hi.
  exists (gl keepdims D s f i). unfold S in *.
  rewrite <- (view_shape_right _ _ hw) in *.
  apply (gl_group keepdims D s f i LS);
    [exact (forall2_len _ _ _ _ _ hw) | | exact hf | exact hi].
  unfold f, S. rewrite flags_length, <- (view_shape_right _ _ hw), map_length.
  apply shape_length. exact (forall2_len _ _ _ _ _ hw).
Qed.
Print Assumptions C70_group_partial.

Example C70_group_example :
  group false [true; false] [2; 2]%nat (read_at false [true; false] [1%nat])
    [[0; 1]; [1; 1]]%nat.
Proof.
  apply (gl_group false [(2%nat, false); (2%nat, false)] [All; All] [true; false]
           [1%nat] [2%nat]); try reflexivity; cbn; repeat split; lia.
Qed.

(** The shape which Pyccel gives to the result is the shape of NumPy, for all
    the axes (also negative), with kept dimensions or not.
    Missing: no axes with kept dimensions. *)
Theorem C70_shape_partial : forall D s l keepdims,
  Forall2 (fun d x => written (fst d) x) D s ->
  let S := view_shape D s in
  valid_axes (length S) l ->
  result_shape D s (Some l) keepdims =
    np_shape keepdims (flags (length S) (Some l)) S /\
  fits keepdims (flags (length S) (Some l)) S
    (result_shape D s (Some l) keepdims).
Proof.
  intros D s l keepdims h S v.
  assert (E := shape_right D s l keepdims h v). split; [exact E|].
  rewrite E. apply fits_itself. apply flags_length.
Qed.
Print Assumptions C70_shape_partial.

Example C70_shape_example :
  result_shape D_ex s_ex (Some [0; -1]) true = [1; 2; 1]%nat /\
  result_shape D_ex s_ex (Some [0; -1]) false = [2]%nat.
Proof. split; reflexivity. Qed.

(** A negative axis with kept dimensions: an assertion of Pyccel fails for
    every element-wise use of [np.sum(a, axis=-1, keepdims=True)]. *)
Theorem C70_negative_keepdims_refuted : exists D s l LS,
  Forall2 (fun d x => written (fst d) x) D s /\
  valid_axes (length (view_shape D s)) l /\
  LS = np_shape true (flags (length (view_shape D s)) (Some l)) (view_shape D s) /\
  forall la o initial m, statement la o initial D s (Some l) true LS Out m = None.
Proof.
  exists [(2%nat, false); (3%nat, false)], [All; All], [-1], [2; 1]%nat.
  split; [|split; [|split; [reflexivity|]]].
  - constructor; [cbn; repeat split; (lia || discriminate)|].
    constructor; [cbn; repeat split; (lia || discriminate) | constructor].
  - split; [intros a [<-|[]]; cbn; lia|]. cbn.
    constructor; [intros [] | constructor].
  - intros la o initial m. reflexivity.
Qed.
Print Assumptions C70_negative_keepdims_refuted.

(** [np.sum(a[:1, :], axis=0)] of an array with two rows: the slice is
    dropped, and both rows are summed. *)
Theorem C70_slice_refuted : exists D s l LS m,
  Forall2 (fun d x => written (fst d) x) D s /\
  valid_axes (length (view_shape D s)) l /\
  LS = np_shape false (flags (length (view_shape D s)) (Some l)) (view_shape D s) /\
  forall la, exists m' i g,
    statement la Sum None D s (Some l) false LS Out m = Some m' /\
    in_shape LS i /\
    group false (flags (length (view_shape D s)) (Some l)) (view_shape D s) i g /\
    ~ np_value Sum None (map (fun v => m (A (source s v))) g) (m' (Out i)).
Proof.
  exists [(2%nat, false); (1%nat, false)], [Sl None (Some 1%nat) None; All], [0], [1%nat],
    (fun _ => 1).
  split; [|split; [|split; [reflexivity|]]].
  - constructor; [cbn; repeat split; (lia || discriminate)|].
    constructor; [cbn; repeat split; (lia || discriminate) | constructor].
  - split; [intros a [<-|[]]; cbn; lia|]. cbn.
    constructor; [intros [] | constructor].
  - intros la. destruct la; eexists; exists [0%nat], [[0; 0]%nat];
    (split; [reflexivity|]; split; [cbn; repeat split; lia|]; split;
     [apply (gl_group false [(2%nat, false); (1%nat, false)]
               [Sl None (Some 1%nat) None; All] [true; false] [0%nat] [1%nat]);
        try reflexivity; cbn; repeat split; lia
     |cbn; discriminate]).
Qed.
Print Assumptions C70_slice_refuted.

(** [np.sum(a[1:, :], axis=0)]: the bound is added to the slice, which stops
    Pyccel. *)
Theorem C70_bound_refuted : exists D s l LS,
  Forall2 (fun d x => written (fst d) x) D s /\
  valid_axes (length (view_shape D s)) l /\
  LS = np_shape false (flags (length (view_shape D s)) (Some l)) (view_shape D s) /\
  forall la o initial m, statement la o initial D s (Some l) false LS Out m = None.
Proof.
  exists [(2%nat, false); (3%nat, false)], [Sl (Some 1%nat) None None; All], [0], [3]%nat.
  split; [|split; [|split; [reflexivity|]]].
  - constructor; [cbn; repeat split; (lia || discriminate)|].
    constructor; [cbn; repeat split; (lia || discriminate) | constructor].
  - split; [intros a [<-|[]]; cbn; lia|]. cbn.
    constructor; [intros [] | constructor].
  - intros la o initial m. reflexivity.
Qed.
Print Assumptions C70_bound_refuted.

(** [np.sum(a, keepdims=True)] is a number, and not an array. *)
Theorem C70_keepdims_refuted : exists D s,
  Forall2 (fun d x => written (fst d) x) D s /\
  result_shape D s None true <>
  np_shape true (flags (length (view_shape D s)) None) (view_shape D s).
Proof.
  exists [(2%nat, false); (3%nat, false)], [All; All]. split.
  - constructor; [cbn; repeat split; (lia || discriminate)|].
    constructor; [cbn; repeat split; (lia || discriminate) | constructor].
  - discriminate.
Qed.
Print Assumptions C70_keepdims_refuted.

(** The result is stored in the array: [a[1, :] = np.sum(a, axis=1)] reads
    elements which it has already changed, in both languages. *)
Theorem C70_in_place_refuted : exists D s l LS (target : list nat -> loc) m,
  valid_call D s (Some l) false /\
  LS = np_shape false (flags (length (view_shape D s)) (Some l)) (view_shape D s) /\
  (forall i j, in_shape LS i -> in_shape LS j -> target i = target j -> i = j) /\
  forall la, exists m' i g,
    statement la Sum None D s (Some l) false LS target m = Some m' /\
    in_shape LS i /\
    group false (flags (length (view_shape D s)) (Some l)) (view_shape D s) i g /\
    ~ np_value Sum None (map (fun v => m (A (source s v))) g) (m' (target i)).
Proof.
  exists [(2%nat, false); (2%nat, false)], [All; All], [1], [2%nat],
    (fun i => A (1%nat :: i)), (fun _ => 1).
  split; [|split; [reflexivity|split; [intros i j _ _ e; congruence|]]].
  - split; [|split; [split; [discriminate|split]|]].
    + constructor; [cbn; repeat split; (lia || discriminate)|].
      constructor; [cbn; repeat split; (lia || discriminate) | constructor].
    + split; [intros a [<-|[]]; cbn; lia|]. cbn.
      constructor; [intros [] | constructor].
    + discriminate.
    + cbn. split; [left; repeat split | exact Logic.I].
  - intros la. destruct la; eexists; exists [1%nat], [[1; 0]; [1; 1]]%nat;
    (split; [reflexivity|]; split; [cbn; repeat split; lia|]; split;
     [apply (gl_group false [(2%nat, false); (2%nat, false)]
               [All; All] [false; true] [1%nat] [2%nat]);
        try reflexivity; cbn; repeat split; lia
     |cbn; discriminate]).
Qed.
Print Assumptions C70_in_place_refuted.

(** [a[0] = np.sum(a)] in C: the element is set to 0 before it is read. *)
Theorem C70_element_refuted : exists D s m m' g,
  valid_call D s None false /\
  statement C Sum None D s None false [] (fun _ => A [0%nat]) m = Some m' /\
  group false (flags (length (view_shape D s)) None) (view_shape D s) [] g /\
  ~ np_value Sum None (map (fun v => m (A (source s v))) g) (m' (A [0%nat])).
Proof.
  exists [(2%nat, false)], [All], (fun _ => 1). eexists. exists [[0%nat]; [1%nat]].
  split; [|split; [reflexivity|split]].
  - split; [|split; [split; [reflexivity | discriminate]|]].
    + constructor; [cbn; repeat split; (lia || discriminate) | constructor].
    + cbn. split; [left; repeat split | exact Logic.I].
  - apply (gl_group false [(2%nat, false)] [All] [true] [] []);
      try reflexivity; cbn; repeat split; lia.
  - cbn. discriminate.
Qed.
Print Assumptions C70_element_refuted.

(** A factor times a sum in Fortran. Missing: an initial value. *)
Theorem C70_product_partial : forall f s initial,
  initial = None \/ initial = Some 0 ->
  f_expression (print_product f initial) s = f * s.
Proof.
  intros f s initial [-> | ->]; unfold f_expression, print_product, print_sum;
    cbn [Z.eqb products]; lia.
Qed.
Print Assumptions C70_product_partial.

Example C70_product_example : f_expression (print_product 2 None) 5 = 10.
Proof. reflexivity. Qed.

(** [2 * np.sum(a, initial=3)] is printed without parentheses. *)
Theorem C70_initial_refuted : exists f initial s,
  f_expression (print_product f (Some initial)) s <> f * (initial + s).
Proof. exists 2, 3, 5. discriminate. Qed.
Print Assumptions C70_initial_refuted.

(** [a[:,:] = a + 1; out[:] = np.sum(a, axis=0)] for a square array in C: the
    sum is put in the loop which changes the rows of [a]. *)
Theorem C70_loop_refuted : exists g n m m' i,
  two_statements g Sum n n 0 m = Some m' /\ (i < n)%nat /\
  m' (Out [i]) <> total (map (fun j => g (m (A [j; i]))) (seq 0 n)).
Proof.
  exists (fun x => x + 1), 2%nat, (fun _ => 0). eexists. exists 0%nat.
  split; [reflexivity|]. split; [lia|]. cbn. discriminate.
Qed.
Print Assumptions C70_loop_refuted.

(** The index of a result: the indices of the argument and the axes which are
    left.  Missing: the index [:], which is taken for a reduced dimension
    (refuted below). *)
Theorem C70_index_partial : forall f idx,
  Forall not_whole idx -> (length idx <= falses f)%nat ->
  process idx (axes_of 0 f) false =
  Some (weave f idx, axes_of 0 (left_over f idx)).
Proof. exact process_index. Qed.
Print Assumptions C70_index_partial.

(** [np.sum(a, axis=(1, 3))[1:, 2]] is the sum of [a[1:, :, 2]] along the axes
    1 and 2. *)
Example C70_index_example :
  let f := [false; true; false; true] in
  let idx := [Sl (Some 1%nat) None None; At 2 0 Zero] in
  Forall not_whole idx /\ (length idx <= falses f)%nat /\ axes_of 0 f = [1; 3] /\
  weave f idx = [Sl (Some 1%nat) None None; Sl None None None; At 2 0 Zero] /\
  axes_of 0 (left_over f idx) = [1; 2].
Proof.
  cbv zeta. split; [|cbn; repeat split; lia].
  constructor; [discriminate|]. constructor; [discriminate | constructor].
Qed.

(** [np.sum(a, axis=0)[:, 1]]: the index 1 is used for the second dimension of
    [a] instead of the third. *)
Theorem C70_colon_refuted : exists f idx, (length idx <= falses f)%nat /\
  weave f idx = [Sl None None None; Sl None None None; At 1 0 Zero] /\
  process idx (axes_of 0 f) false = Some ([Sl None None None; At 1 0 Zero], [0]).
Proof.
  exists [true; false; false], [Sl None None None; At 1 0 Zero].
  split; [cbn; lia|]. split; reflexivity.
Qed.
Print Assumptions C70_colon_refuted.
