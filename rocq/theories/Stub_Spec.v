(** What is expected of type annotations. *)

From Coq Require Import List String Ascii Bool Arith.
From Verif Require Import Stub_Model.
Import ListNotations.
Open Scope string_scope.

(* A name of Python. *)
Fixpoint all_word (s : string) : bool :=
  match s with String c r => is_word c && all_word r | EmptyString => true end.
Definition identifier (n : string) : bool :=
  match n with String c r => is_alpha c && all_word r | EmptyString => false end.

(* The predefined names have their meaning, and what the stub imports from
   typing is there. *)
Definition standard (sc : list (string * meaning)) : Prop :=
  (forall n m, assoc sc n = Some m -> assoc builtins n = None /\ assoc numpy_names n = None) /\
  assoc sc "Final" = Some MFinal /\ assoc sc "Annotated" = Some MAnnotated.

(* The types which have a name and an annotation: no float128 nor complex256, no
   empty tuple, arrays of NumPy's scalars with an order from two dimensions on,
   classes which are visible under their name. *)
Definition has_name (s : scalar) : bool :=
  match s with Float128 | Complex256 => false | _ => true end.

Fixpoint printable (sc : list (string * meaning)) (t : ty) : Prop :=
  match t with
  | Num s => has_name s = true
  | Str => True
  | Class n => identifier n = true /\ assoc sc n = Some (MClass n)
  | Array e r o =>
    (exists s, e = Num s /\ has_name s = true /\ ~ In s [Int; Float; Complex]) /\
    match r with
    | 0 => False
    | 1 => o = None
    | _ => o <> None
    end
  | HTup e | Lst e | SetT e => printable sc e
  | ITup l => l <> [] /\ (fix all l := match l with [] => True | x :: r => printable sc x /\ all r end) l
  | Dict k v => printable sc k /\ printable sc v
  | Final e => printable sc e /\ is_final e = false
  end.

(* Nothing is Final but perhaps the whole. *)
Fixpoint no_final (t : ty) : Prop :=
  match t with
  | Num _ | Str | Class _ => True
  | Array e _ _ | HTup e | Lst e | SetT e => no_final e
  | ITup l => (fix all l := match l with [] => True | x :: r => no_final x /\ all r end) l
  | Dict k v => no_final k /\ no_final v
  | Final _ => False
  end.
Definition tidy (t : ty) : Prop :=
  match t with Final e => no_final e | _ => no_final t end.

(** ** The meaning of annotations with type aliases: any choice of types *)

Inductive means (sc : list (string * meaning)) : syn -> ty -> Prop :=
| means_scalar : forall n s, lookup sc n = Some (MScalar s) -> means sc (SType (BName n) None) (Num s)
| means_str : forall n, lookup sc n = Some MStr -> means sc (SType (BName n) None) Str
| means_class : forall n m, lookup sc n = Some (MClass m) -> means sc (SType (BName n) None) (Class m)
| means_alias : forall n l t, lookup sc n = Some (MTypes l) -> In (t, None) l ->
    means sc (SType (BName n) None) t
| means_vector : forall n s o, means sc (SType (BName n) None) (Num s) ->
    means sc (SType (BName n) (Some ([SSlice], o))) (Array (Num (numpy_scalar s)) 1 None)
| means_array : forall n s k o o',
    means sc (SType (BName n) None) (Num s) ->
    match o with None => o' = OC | Some w => w = order_name o' end ->
    means sc (SType (BName n) (Some (repeat SSlice (S (S k)), o)))
             (Array (Num (numpy_scalar s)) (S (S k)) (Some o'))
| means_tuple : forall n l ts, lookup sc n = Some MTuple -> Forall2 (means sc) l ts ->
    means sc (SType (BName n) (Some (l, None))) (ITup ts)
| means_homogeneous : forall n a t, lookup sc n = Some MTuple -> means sc a t ->
    means sc (SType (BName n) (Some ([a; SEllipsis], None))) (HTup t)
| means_list : forall n a t, lookup sc n = Some MList -> means sc a t ->
    means sc (SType (BName n) (Some ([a], None))) (Lst t)
| means_set : forall n a t, lookup sc n = Some MSet -> means sc a t ->
    means sc (SType (BName n) (Some ([a], None))) (SetT t)
| means_dict : forall n a b t u, lookup sc n = Some MDict -> means sc a t -> means sc b u ->
    means sc (SType (BName n) (Some ([a; b], None))) (Dict t u).

(* The types of the aliases have no Final and no memory. *)
Definition simple_aliases (sc : list (string * meaning)) : Prop :=
  forall n l, assoc sc n = Some (MTypes l) -> forall t m, In (t, m) l -> no_final t /\ m = None.

(* No alias stands for several types. *)
Fixpoint single (sc : list (string * meaning)) (s : syn) : Prop :=
  match s with
  | SSlice | SEllipsis => True
  | SType (BQuote _) _ => False
  | SType (BName n) tr =>
    match lookup sc n with Some (MTypes l) => List.length l = 1 | _ => True end /\
    match tr with
    | None => True
    | Some (l, _) => (fix all l := match l with [] => True | x :: r => single sc x /\ all r end) l
    end
  end.

(* What is known to be read rightly: an order is C or F, and is not given for an
   alias of several types; nor is such an alias in a dictionary; no Final, no
   Annotated, no list[int, ...]. *)
Fixpoint simple (sc : list (string * meaning)) (s : syn) : Prop :=
  match s with
  | SSlice | SEllipsis => True
  | SType (BQuote _) _ => False
  | SType (BName n) None => True
  | SType (BName n) (Some (l, o)) =>
    match o with
    | None => True
    | Some w => (w = "C" \/ w = "F") /\ forallb is_slice l = true /\
                match lookup sc n with Some (MTypes l) => List.length l = 1 | _ => True end
    end /\
    match lookup sc n with
    | Some MDict => forall x, In x l -> single sc x
    | Some MFinal | Some MAnnotated => False
    | Some MList | Some MSet => forall x, In x l -> x <> SEllipsis
    | _ => True
    end /\
    (fix all l := match l with [] => True | x :: r => simple sc x /\ all r end) l
  end.

(* An alias has each of its types once. *)
Definition distinct_aliases (sc : list (string * meaning)) : Prop :=
  forall n l, assoc sc n = Some (MTypes l) -> NoDup l.
