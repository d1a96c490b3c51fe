(* What NumPy does with a block of array statements. *)
From Coq Require Import Bool Arith ZArith Lia List.
From Verif Require Import Loops_Model.
Import ListNotations.
Open Scope list_scope.

(* The first element of a slice: a negative start counts from the end, and without a start
   a slice with a negative step begins at the end. *)
Definition first_of (rho : nat -> nat) (sg : nat -> Z) (st : start) (step : option Z) (base : len) : Z :=
  let wrap z := if Z.ltb z 0 then (z + Z.of_nat (len_val rho base))%Z else z in
  match st with
  | SNone => match step with Some z => if Z.ltb z 0 then Z.of_nat (len_val rho base) - 1 else 0 | None => 0 end
  | SLit z => wrap z
  | SVar k => wrap (sg k)
  end%Z.

(* The element of the array that is at position v of a slice of it *)
Fixpoint element (rho : nat -> nat) (sg : nat -> Z) (l : list dim) (v : list nat) : list Z :=
  match l, v with
  | DAt k :: l', _ => Z.of_nat k :: element rho sg l' v
  | DSlice st step _ base :: l', i :: v' =>
    (first_of rho sg st step base + match step with Some z => z | None => 1 end * Z.of_nat i)%Z :: element rho sg l' v'
  | _, _ => []
  end.

(* Broadcasting: positions align on the right, a dimension of length one is repeated *)
Definition broadcast (rho : nat -> nat) (sh : list len) (v : list nat) : list nat :=
  map (fun p => if Nat.eqb (len_val rho (fst p)) 1 then 0 else snd p) (combine sh (skipn (List.length v - List.length sh) v)).

(* The positions in an array *)
Definition inside (rho : nat -> nat) (sh : list len) (v : list nat) : Prop := Forall2 (fun l i => i < len_val rho l) sh v.

(* The value of an expression at a position *)
Fixpoint value (rho : nat -> nat) (sg : nat -> Z) (m : mem) (e : expr) (v : list nat) : Z :=
  match e with
  | ELit z => z
  | EOp o => m (o_var o) (element rho sg (o_dims o) (broadcast rho (shape o) v))
  | EUn f e1 => f (value rho sg m e1 v)
  | EBin f e1 e2 => f (value rho sg m e1 v) (value rho sg m e2 v)
  | ERed g sh e1 => g (map (value rho sg m e1) (box (map (len_val rho) sh)))
  end.

(* One statement: the right-hand side has its values in the old memory. *)
Definition assigned (rho : nat -> nat) (sg : nat -> Z) (s : stmt) (m m' : mem) : Prop :=
  (forall v, inside rho (shape (s_lhs s)) v -> m' (o_var (s_lhs s)) (element rho sg (o_dims (s_lhs s)) v) = value rho sg m (s_rhs s) v) /\
  (forall y a, (y = o_var (s_lhs s) -> forall v, inside rho (shape (s_lhs s)) v -> a <> element rho sg (o_dims (s_lhs s)) v) -> m' y a = m y a).

(* The statements of a block, one after the other *)
Inductive numpy (rho : nat -> nat) (sg : nat -> Z) : list stmt -> mem -> mem -> Prop :=
| numpy_nil : forall m, numpy rho sg [] m m
| numpy_cons : forall s l m m1 m2, assigned rho sg s m m1 -> numpy rho sg l m1 m2 -> numpy rho sg (s :: l) m m2.

(* ----- the statements considered ----- *)

(* Slices go forward and begin at no variable that is negative. *)
Definition forward (sg : nat -> Z) (d : dim) : Prop :=
  match d with
  | DAt _ => True
  | DSlice st step _ _ => match step with Some z => (0 < z)%Z | None => True end /\ match st with SVar k => (0 <= sg k)%Z | _ => True end
  | DIdx _ _ _ _ => False
  end.
Definition is_user (x : var) : Prop := exists n, x = VUser n.
Definition good_op (sg : nat -> Z) (o : operand) : Prop := Forall (forward sg) (o_dims o) /\ is_user (o_var o).

(* The shape fits in the shape of the result: aligned on the right, each length is the
   literal 1 or has the same value. *)
Definition fits (rho : nat -> nat) (sh out : list len) : Prop :=
  List.length sh <= List.length out /\
  Forall2 (fun l l' => l = LConst 1 \/ len_val rho l = len_val rho l') sh (skipn (List.length out - List.length sh) out).

Fixpoint good_expr (rho : nat -> nat) (sg : nat -> Z) (out : list len) (e : expr) : Prop :=
  match e with
  | ELit _ => True
  | EOp o => good_op sg o /\ fits rho (shape o) out
  | EUn _ e1 => good_expr rho sg out e1
  | EBin _ e1 e2 => good_expr rho sg out e1 /\ good_expr rho sg out e2
  | ERed _ sh e1 => good_expr rho sg sh e1
  end.
Definition good_stmt (rho : nat -> nat) (sg : nat -> Z) (s : stmt) : Prop :=
  good_op sg (s_lhs s) /\ good_expr rho sg (shape (s_lhs s)) (s_rhs s).

(* No statement of a loop reads or writes an array that another one (or itself) assigns,
   but at the position that is assigned. *)
Definition in_step (s t : stmt) : Prop :=
  forall o, In o (accesses s) -> o_var o = o_var (s_lhs t) -> o = s_lhs t /\ rank (s_lhs s) = rank (s_lhs t).

(* Statements that may come to share a loop: neighbours with the same outer length, where
   only the first contains a call. *)
Fixpoint has_call (e : expr) : bool :=
  match e with
  | ELit _ | EOp _ => false
  | EUn _ e1 => has_call e1
  | EBin _ e1 e2 => has_call e1 || has_call e2
  | ERed _ _ _ => true
  end.
Definition may_share (g : list stmt) : Prop :=
  (exists l, Forall (fun s => hd_error (shape (s_lhs s)) = Some l) g) /\ Forall (fun s => has_call (s_rhs s) = false) (tl g).

Definition independent (block : list stmt) : Prop :=
  forall pre g post, block = pre ++ g ++ post -> may_share g -> forall s t, In s g -> In t g -> in_step s t.
