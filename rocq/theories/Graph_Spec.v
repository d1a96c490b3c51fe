(* What the links of the syntax tree should be. *)
From Coq Require Import Bool Arith Lia List.
From Verif Require Import Graph_Model.
Import ListNotations.
Open Scope list_scope.

(* The nodes among children, and the attributes of a node that are nodes *)
Definition node_of (c : child) : list id := match c with CNode i => [i] | CSym _ => [] end.
Definition nodes (l : list child) : list id := flat_map node_of l.
Definition kids (h : heap) (i : id) : list id := nodes (flat_map attr_children (attrs_of h i)).

(* A node that has not been discarded *)
Definition alive (h : heap) (i : id) : Prop := exists n, nth_error h i = Some n /\ n_dead n = false.
Definition stage_of (h : heap) (i : id) : option nat := option_map n_stage (nth_error h i).

(* The users of a node are the live nodes that have it as an attribute, as often as they
   have it; a discarded node has none. *)
Definition consistent (h : heap) : Prop :=
  (forall p c, c < List.length h -> alive h p -> count_occ Nat.eq_dec (users_of h c) p = count_occ Nat.eq_dec (kids h p) c)
  /\ (forall p c, In p (users_of h c) -> alive h p)
  /\ (forall c, c < List.length h -> ~ alive h c -> users_of h c = []).

(* All nodes belong to one stage and attributes exist. *)
Definition one_stage (h : heap) : Prop :=
  forall p c, In c (kids h p) -> c < List.length h /\ stage_of h c = stage_of h p.

(* Identity of nodes and equality of symbols *)
Definition same (a b : child) : bool :=
  match a, b with
  | CSym x, CSym y => Nat.eqb x y
  | CNode x, CNode y => Nat.eqb x y
  | _, _ => false
  end.

(* c is below p *)
Inductive reaches (h : heap) : id -> id -> Prop :=
| reach_here : forall p, reaches h p p
| reach_step : forall p c x, In c (kids h p) -> reaches h c x -> reaches h p x.

(* Simultaneous substitution of children *)
Fixpoint replaced (from : list child) (to : list attr) (c : child) : option attr :=
  match from, to with
  | o :: from', a :: to' => if same c o then Some a else replaced from' to' c
  | _, _ => None
  end.
Definition sub_child (s : sub) (c : child) : list child :=
  if s_excl s c then [c] else match replaced (s_from s) (s_to s) c with Some a => attr_children a | None => [c] end.
Definition sub_attr (s : sub) (a : attr) : attr :=
  match a with
  | One c => if s_excl s c then One c else match replaced (s_from s) (s_to s) c with Some a' => a' | None => One c end
  | Many l => Many (flat_map (sub_child s) l)
  end.

(* The nodes that a substitution from r visits: below r, without entering a node that is
   replaced or excluded. *)
Inductive region (h : heap) (s : sub) (r : id) : id -> Prop :=
| region_root : region h s r r
| region_step : forall p c, region h s r p -> In c (kids h p) -> s_excl s (CNode c) = false ->
    ~ In (CNode c) (s_from s) -> region h s r c.

(* A way from i to x through nodes that are neither found nor excluded *)
Inductive way (next : id -> list id) (stop : id -> bool) : id -> id -> Prop :=
| way_here : forall i, way next stop i i
| way_step : forall i j x, In j (next i) -> stop j = false -> way next stop j x -> way next stop i x.

(* What a caller must respect when substituting below r.  The replacements are live and
   of the stage of r; an original is not a replacement, nor held below one; if the
   originals are discarded, r is not below one and, when there are several, neither are
   the replacements.  Nodes are compared by identity. *)
Record good_sub (h : heap) (s : sub) (r : id) : Prop := {
  gs_root : alive h r;
  gs_len : List.length (s_from s) = List.length (s_to s);
  gs_to : forall t, In t (nodes (flat_map attr_children (s_to s))) -> alive h t /\ stage_of h t = stage_of h r;
  gs_direct : forall c, In c (flat_map attr_children (s_to s)) -> ~ In c (s_from s);
  gs_sep : forall t x c, In t (nodes (flat_map attr_children (s_to s))) -> reaches h t x ->
    In c (flat_map attr_children (attrs_of h x)) -> ~ In c (s_from s);
  gs_above : s_invalidate s = true -> forall o, In (CNode o) (s_from s) -> ~ reaches h o r;
  gs_single : s_invalidate s = true -> List.length (s_from s) = 1 \/
    forall o t, In (CNode o) (s_from s) -> In t (nodes (flat_map attr_children (s_to s))) -> ~ reaches h o t;
  gs_equiv : s_equiv s = same
}.

(* What a program does with nodes *)
Inductive op := New (stage : nat) (attrs : list attr) | Drop (i : id) | Sub (s : sub) (r : id).
Definition do_op (eq : child -> child -> bool) (h : heap) (o : op) : res :=
  match o with
  | New st attrs => Ok (construct h st attrs)
  | Drop i => invalidate_node eq h i
  | Sub s r => substitute eq s h r
  end.

(* A node is made of live nodes of its stage; a node is dropped when nothing uses it. *)
Definition allowed (h : heap) (o : op) : Prop :=
  match o with
  | New st attrs => forall c, In c (nodes (flat_map attr_children attrs)) -> alive h c /\ stage_of h c = Some st
  | Drop i => alive h i /\ users_of h i = []
  | Sub s r => good_sub h s r
  end.

Inductive history : heap -> Prop :=
| hist_nil : history []
| hist_op : forall h o h', history h -> allowed h o -> do_op same h o = Ok h' -> history h'.

(* p has c as an attribute, directly or through live nodes *)
Inductive uses (h : heap) : id -> id -> Prop :=
| uses_one : forall p c, alive h p -> In c (kids h p) -> uses h p c
| uses_step : forall p c x, alive h p -> In c (kids h p) -> uses h c x -> uses h p x.

(* The inverse of a substitution of single children *)
Definition undo (s : sub) (invalidate : bool) : sub :=
  mk_sub (flat_map attr_children (s_to s)) (map One (s_from s)) (s_excl s) invalidate (s_equiv s).
Definition single (a : attr) : Prop := exists c, a = One c.
