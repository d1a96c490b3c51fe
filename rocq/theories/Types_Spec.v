(* What the type rules and shapes should satisfy. *)
From Coq Require Import List Bool ZArith String Lia.
From Verif Require Import Common Types_Model.
Import ListNotations.
Open Scope Z_scope.

(* ---- numeric types ---- *)
Definition all_types : list fty :=
  [TBool; TInt; TFloat; TComplex; I8; I16; I32; I64; F32; F64; F128; C64; C128; C256].
(* Values with a definite size: NumPy's numbers and booleans *)
Definition sized (t : fty) : Prop := t <> TInt /\ t <> TFloat /\ t <> TComplex.
(* NumPy's "safe" conversions: 64-bit integers are deemed to fit in 8-byte floats,
   16-bit integers in 4-byte floats, and complex numbers are pairs of floats. *)
Definition safe (a b : fty) : Prop :=
  match prim a, prim b with
  | KBool, _ => True
  | KInt, KInt => precision a <= precision b
  | KInt, (KFloat | KComplex) => precision a <= 2 \/ 8 <= precision b
  | KFloat, (KFloat | KComplex) => precision a <= precision b
  | KComplex, KComplex => precision a <= precision b
  | _, _ => False
  end.
Definition least_above (a b c : fty) : Prop :=
  sized c /\ safe a c /\ safe b c /\ forall d, sized d -> safe a d -> safe b d -> safe c d.
(* Python's tower of numbers *)
Definition level (k : kind) : nat := match k with KBool => 0 | KInt => 1 | KFloat => 2 | KComplex => 3 end.
Definition omap2 (f : fty -> fty -> option fty) (a b : option fty) : option fty :=
  match a, b with Some x, Some y => f x y | _, _ => None end.
(* A Python float or complex, a small NumPy integer and a 4-byte NumPy float or complex *)
Definition python_inexact (t : fty) : bool := match t with TFloat | TComplex => true | _ => false end.
Definition small_int (t : fty) : bool := match t with I8 | I16 => true | _ => false end.
Definition small_float (t : fty) : bool := match t with F32 | C64 => true | _ => false end.
Definition mixes (l : list fty) : bool :=
  existsb python_inexact l && existsb small_int l && existsb small_float l.
Definition int_like (t : fty) : Prop := prim t = KBool \/ prim t = KInt.

(* ---- arrays ---- *)
(* numpytypes.py:310-318 *)
Definition nd_ok (a : nd) : Prop :=
  sized (nd_elem a) /\ (1 <= nd_rank a)%nat
  /\ ((nd_rank a < 2)%nat -> nd_order a = None) /\ ((2 <= nd_rank a)%nat -> nd_order a <> None).

(* ---- containers ---- *)
Fixpoint container_ok (t : cty) : Prop :=
  match t with
  | Sc _ => True
  | CList t | CTuple t | CSet t => container_ok t
  | CND a => nd_ok a
  end.
Fixpoint nested_lists (t : cty) : Prop :=
  match t with Sc _ => True | CList t | CTuple t => nested_lists t | _ => False end.
(* t[i1][i2]...[ik] *)
Fixpoint index_times (k : nat) (t : cty) : py cty :=
  match k with
  | O => POk t
  | S k => pbind (switch_rank t (Z.of_nat (rank t) - 1)) (index_times k)
  end.

(* ---- shapes: NumPy's rule, from the last dimension to the first ---- *)
Fixpoint np_rev (a b : list Z) : option (list Z) :=
  match a, b with
  | [], _ => Some b
  | _, [] => Some a
  | x :: a, y :: b =>
      match (if x =? y then Some x else if x =? 1 then Some y else if y =? 1 then Some x else None), np_rev a b with
      | Some z, Some r => Some (z :: r)
      | _, _ => None
      end
  end.
Definition np_broadcast (a b : list Z) : option (list Z) := option_map (@rev Z) (np_rev (rev a) (rev b)).
Definition size (env : string -> Z) (d : dim) : Z := match d with Lit n => n | Sym x k => env x + k end.
Definition sizes (env : string -> Z) (s : list dim) : list Z := map (size env) s.
Definition lits (l : list Z) : list dim := map Lit l.
(* no size unknown to the compiler turns out to be one *)
Definition unknown_not_one (env : string -> Z) (s : list dim) : Prop :=
  Forall (fun d => match d with Lit _ => True | Sym _ _ => size env d <> 1 end) s.
