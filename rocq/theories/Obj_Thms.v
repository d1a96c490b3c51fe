(* C88: objects of classes. Each theorem is closed by a lemma of Obj_Proofs. *)
From Coq Require Import Bool Arith ZArith List String Permutation Lia.
From Verif Require Import Alloc_Model Obj_Model Obj_Spec Obj_Proofs.
Import ListNotations.
Open Scope Z_scope.
Open Scope list_scope.

(* Programs with settled classes print what they print in Python. *)
Theorem C88_same_partial : forall l ms k again p inp order,
  settled l ms k -> placed again [] p = true -> (again = true -> l = LC /\ forallb silent (k_del k) = true) ->
  (order (names p) = names p \/ (Permutation (order (names p)) (names p) /\ forallb silent (k_del k) = true)) ->
  option_map (fun h => g_out (snd h)) (g_function l order k p inp) = py_function k p inp.
Proof. exact same_output. Qed.
Print Assumptions C88_same_partial.

(* def __init__(self, n, v): self.x = np.full(n, v); self.y = np.full((2, 3), v)
   def scale(self, c):
       if c > 0: self.x[:] *= c
       else: self.y = np.full((2, 3), c)
       print(self.x); return 1
   def __del__(self): print(self.y) *)
Definition ex_makers : list maker := [(0%nat, [Arg 0], fun args => nth 1 args 0); (1%nat, [Lit 2; Lit 3], fun args => nth 1 args 0)].
Definition ex_class : class :=
  mk_class (mk_method (map make ex_makers) NoReturn)
    [mk_method [MIf (fun args => 0 <? first_arg args) [MUpdate 0 (fun args v => v * first_arg args)] [MNew 1 [Lit 2; Lit 3] first_arg]; MPrint 0] ReturnValue]
    [MPrint 1].
Definition ex_prog : list ostmt :=
  [OCreate 0 (fun inp => [4; first_arg inp]); OCreate 1 (fun _ => [2; 7]); OLoop 2 [OCall 0 0 (fun _ => [3])];
   OIf (fun inp => 0 <? first_arg inp) [OCall 1 0 (fun _ => [-1])] []].
Example C88_same_example : settled LFortran ex_makers ex_class /\ placed false [] ex_prog = true /\
  py_function ex_class ex_prog [5] = Some [([4], 15); ([4], 45); ([2], 7); ([2; 3], 5); ([2; 3], -1)].
Proof.
  split; [|split; reflexivity]. unfold settled. split; [cbn; repeat constructor; cbn; intuition discriminate|].
  split; [exists []; split; [rewrite app_nil_r; reflexivity|exact Logic.I]|]. split; [left; reflexivity|].
  split; [|cbn; split; [discriminate|exact Logic.I]]. constructor; [|constructor]. cbn. repeat split; try discriminate; reflexivity.
Qed.

(* In C the memory of attributes is never freed, unless a method that returns a value frees it: the
   destructors free nothing, so that everything is still there at the end. *)
Theorem C88_never_freed_refuted : forall order k p inp h,
  m_end (k_init k) <> ReturnValue -> Forall (fun m => m_end m <> ReturnValue) (k_methods k) ->
  g_function LC order k p inp = Some h -> g_live (snd h) = g_made (snd h).
Proof. exact never_freed. Qed.
Print Assumptions C88_never_freed_refuted.
Example C88_never_freed_example :
  option_map (fun h => g_live (snd h)) (g_function LC (fun l => l) (mk_class (k_init ex_class) [] []) [OCreate 0 (fun _ => [1; 2]); OCreate 0 (fun _ => [3; 4])] []) = Some 4%nat.
Proof. reflexivity. Qed.

(* In Fortran an object with attributes cannot be replaced: the destructor leaves the attributes
   allocated, and the constructor allocates them again. *)
Theorem C88_replaced_refuted : forall ms k order a f g p inp, settled LFortran ms k -> ms <> [] ->
  g_function LFortran order k (OCreate a f :: OCreate a g :: p) inp = None /\ py_function k [OCreate a f; OCreate a g] inp <> None.
Proof. exact (fun ms k order a f g p inp H N => conj (replaced ms k order a f g p inp H N) (python_replaces LFortran ms k a f g inp H)). Qed.
Print Assumptions C88_replaced_refuted.
Theorem C88_replaced_loop_refuted : forall ms k order a f n p inp, settled LFortran ms k -> ms <> [] ->
  g_function LFortran order k (OLoop (S (S n)) [OCreate a f] :: p) inp = None.
Proof. exact replaced_loop. Qed.
Print Assumptions C88_replaced_loop_refuted.
Example C88_replaced_example : settled LFortran ex_makers ex_class /\ ex_makers <> [].
Proof. split; [exact (proj1 C88_same_example)|discriminate]. Qed.

(* An object that is created in a branch that is not taken is destroyed at the end although it does
   not exist. *)
Theorem C88_branch_refuted : forall l order k a f c inp, order [a] = [a] -> c inp = false ->
  g_function l order k [OIf c [OCreate a f] []] inp = None /\ py_function k [OIf c [OCreate a f] []] inp = Some [].
Proof. intros l order k a f c inp Ho Hc. unfold g_function, py_function. cbn. rewrite Hc, Ho. cbn. destruct l; auto. Qed.
Print Assumptions C88_branch_refuted.
(* An object that is created in both branches of an if statement: the second branch destroys the
   object of the first. *)
Theorem C88_else_refuted : forall l order k a f g c p inp, c inp = false ->
  g_function l order k (OIf c [OCreate a f] [OCreate a g] :: p) inp = None.
Proof.
  intros l order k a f g c p inp Hc. unfold g_function. cbn. rewrite Nat.eqb_refl. cbn. destruct (ovisits p [a]). cbn. rewrite Hc. destruct l; reflexivity.
Qed.
Print Assumptions C88_else_refuted.
Example C88_else_example : py_function ex_class [OIf (fun _ => false) [OCreate 0 (fun _ => [1; 2])] [OCreate 0 (fun _ => [1; 3])]] [] = Some [([2; 3], 3)].
Proof. reflexivity. Qed.

(* def __init__(self, n, v): self.x = np.full(n, v)
   def resize(self, n, v): self.x = np.full(n, v); return 1       (or: no return)
   def show(self): print(self.x) *)
Definition sized (e0 e1 : ending) : class :=
  let new := MNew 0 [Arg 0] (fun args => nth 1 args 0) in
  mk_class (mk_method [new] e0) [mk_method [new] e1; mk_method [MPrint 0] NoReturn] [].
Definition resized (n v m w : Z) : list ostmt := [OCreate 0 (fun _ => [n; v]); OCall 0 0 (fun _ => [m; w]); OCall 0 1 (fun _ => [])].
(* A method that assigns to an attribute and returns a value frees the attribute. *)
Theorem C88_return_refuted : forall l order n v m w inp,
  g_function l order (sized NoReturn ReturnValue) (resized n v m w) inp = None /\
  py_function (sized NoReturn ReturnValue) (resized n v m w) inp = Some [([m], w)].
Proof. intros [|] order n v m w inp; split; reflexivity. Qed.
Print Assumptions C88_return_refuted.
(* Without the return it works in C, at the price of the memory, but not in Fortran. *)
Theorem C88_resize_refuted : forall order n v m w inp, order [0%nat] = [0%nat] ->
  option_map (fun h => g_out (snd h)) (g_function LC order (sized NoReturn NoReturn) (resized n v m w) inp) = Some [([m], w)] /\
  g_function LFortran order (sized NoReturn NoReturn) (resized n v m w) inp = None /\
  py_function (sized NoReturn NoReturn) (resized n v m w) inp = Some [([m], w)].
Proof. intros order n v m w inp Ho. split; [|split; reflexivity]. unfold g_function. cbn. rewrite Ho. reflexivity. Qed.
Print Assumptions C88_resize_refuted.
(* In Fortran a constructor that ends with a return statement leaves no attributes. *)
Theorem C88_init_return_refuted : forall order n v inp, order [0%nat] = [0%nat] ->
  let p := [OCreate 0 (fun _ => [n; v]); OCall 0 1 (fun _ => [])] in
  option_map (fun h => g_out (snd h)) (g_function LC order (sized ReturnNone NoReturn) p inp) = Some [([n], v)] /\
  g_function LFortran order (sized ReturnNone NoReturn) p inp = None /\
  py_function (sized ReturnNone NoReturn) p inp = Some [([n], v)].
Proof. intros order n v inp Ho p. split; [|split; reflexivity]. unfold g_function. cbn. rewrite Ho. reflexivity. Qed.
Print Assumptions C88_init_return_refuted.

(* def __init__(self, v): self.x = np.full(n, v)
   def other(self, v): self.x = np.full(m, v)
   def back(self, v): self.x = np.full(n, v)
   def show(self): print(self.x)
   The shape that back compares with is that of the constructor: it allocates nothing and fills the
   array of the other shape. *)
Definition shaped_class (n m : Z) : class :=
  mk_class (mk_method [MNew 0 [Lit n] first_arg] NoReturn)
    [mk_method [MNew 0 [Lit m] first_arg] NoReturn; mk_method [MNew 0 [Lit n] first_arg] NoReturn; mk_method [MPrint 0] NoReturn] [].
Definition back_and_forth (u v w : Z) : list ostmt :=
  [OCreate 0 (fun _ => [u]); OCall 0 0 (fun _ => [v]); OCall 0 1 (fun _ => [w]); OCall 0 2 (fun _ => [])].
Theorem C88_shape_refuted : forall order n m u v w inp, order [0%nat] = [0%nat] -> n <> m ->
  option_map (fun h => g_out (snd h)) (g_function LC order (shaped_class n m) (back_and_forth u v w) inp) = Some [([m], w)] /\
  py_function (shaped_class n m) (back_and_forth u v w) inp = Some [([n], w)].
Proof.
  intros order n m u v w inp Ho N. split; [|reflexivity].
  assert (E1 : (m =? n) = false) by (apply Z.eqb_neq; congruence). unfold g_function, visit_class.
  cbn. rewrite E1, Z.eqb_refl. cbn. rewrite Ho. reflexivity.
Qed.
Print Assumptions C88_shape_refuted.

(* def __init__(self, v): self.x = np.full(ds, v)
   def other(self, v): self.x = np.full(es, v)
   def show(self): print(self.x)
   One change of shape works in C whatever the shapes, and in Fortran exactly if it is no change. *)
Definition reshaped (ds es : list Z) : class :=
  mk_class (mk_method [MNew 0 (map Lit ds) first_arg] NoReturn)
    [mk_method [MNew 0 (map Lit es) first_arg] NoReturn; mk_method [MPrint 0] NoReturn] [].
Theorem C88_reshape : forall l order ds es u v inp, order [0%nat] = [0%nat] ->
  let p := [OCreate 0 (fun _ => [u]); OCall 0 0 (fun _ => [v]); OCall 0 1 (fun _ => [])] in
  option_map (fun h => g_out (snd h)) (g_function l order (reshaped ds es) p inp) =
    (match l with LC => Some [(es, v)] | LFortran => if list_eq_dec Z.eq_dec es ds then Some [(es, v)] else None end) /\
  py_function (reshaped ds es) p inp = Some [(es, v)].
Proof.
  intros l order ds es u v inp Ho p.
  assert (E : forall args (xs : list Z), map (eval args) (map Lit xs) = xs) by (intros args xs; rewrite map_map; apply map_id).
  assert (E' : forall args (xs : list Z), map (value_of args) (map Lit xs) = xs) by (intros args xs; rewrite map_map; apply map_id).
  split; [|unfold py_function; cbn; rewrite !E'; reflexivity].
  unfold g_function, visit_class, reshaped. cbn.
  destruct (same_shape (map Lit es) (map static (map Lit ds))) eqn:S.
  - apply lit_other in S. subst es. destruct (list_eq_dec Z.eq_dec ds ds) as [_|N]; [|congruence].
    destruct l; cbn; rewrite !E; cbn; rewrite Ho; cbn; reflexivity.
  - assert (N : es <> ds) by (intros ->; rewrite (proj2 (lit_other ds ds) eq_refl) in S; discriminate).
    destruct (list_eq_dec Z.eq_dec es ds) as [->|_]; [congruence|].
    destruct l; cbn; rewrite ?E; cbn; rewrite ?Ho; cbn; reflexivity.
Qed.
Print Assumptions C88_reshape.

(* The objects that are replaced in a loop are not destroyed: the destructor of Python runs for each
   of them, here only for the last. *)
Theorem C88_loop_del_refuted : forall order a v n inp, order [a] = [a] ->
  option_map (fun h => g_out (snd h)) (g_function LC order telling [OLoop (S n) [OCreate a (fun _ => [v])]] inp) = Some [([1], v)] /\
  py_function telling [OLoop (S n) [OCreate a (fun _ => [v])]] inp = Some (repeat ([1], v) (S n)).
Proof. exact loop_tells_once. Qed.
Print Assumptions C88_loop_del_refuted.
(* An object that is replaced is destroyed before the new one is made, in Python afterwards. *)
Definition talking : class := mk_class (mk_method [MNew 0 [Lit 1] first_arg; MPrint 0] NoReturn) [] [MPrint 0].
Theorem C88_replace_order_refuted : forall order a v w inp, order [a] = [a] ->
  option_map (fun h => g_out (snd h)) (g_function LC order talking [OCreate a (fun _ => [v]); OCreate a (fun _ => [w])] inp) =
    Some [([1], v); ([1], v); ([1], w); ([1], w)] /\
  py_function talking [OCreate a (fun _ => [v]); OCreate a (fun _ => [w])] inp = Some [([1], v); ([1], w); ([1], v); ([1], w)].
Proof.
  intros order a v w inp Ho. split; [unfold g_function|unfold py_function, names, add_name]; cbn; rewrite Nat.eqb_refl; cbn;
  repeat (unfold upd, on, run_del, run_init; cbn; rewrite ?Nat.eqb_refl, ?Ho; cbn); reflexivity.
Qed.
Print Assumptions C88_replace_order_refuted.
(* At the end the destructors run in the order of a set. *)
Theorem C88_end_order_refuted : forall l order v w inp, order [0; 1]%nat = [1; 0]%nat ->
  let p := [OCreate 0 (fun _ => [v]); OCreate 1 (fun _ => [w])] in
  option_map (fun h => g_out (snd h)) (g_function l order telling p inp) = Some [([1], w); ([1], v)] /\
  py_function telling p inp = Some [([1], v); ([1], w)].
Proof. intros l order v w inp Ho p. split; [|reflexivity]. destruct l; unfold g_function; cbn; rewrite Ho; reflexivity. Qed.
Print Assumptions C88_end_order_refuted.
