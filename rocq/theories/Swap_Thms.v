(* C68: assignment of a tuple of expressions to a tuple of targets *)
From Coq Require Import Bool Arith ZArith Lia List String.
From Verif Require Import Swap_Model Swap_Spec Swap_Proofs.
Import ListNotations.
Open Scope list_scope.
Open Scope string_scope.

(* Variables, repeated or not, in any number and order, and expressions without arrays: the
   assignment is accepted and every variable ends with its value in Python *)
Theorem C68_scalars : forall n l s s' c,
  source l = true -> scalars l = true -> py l s = Some s' -> agree s c ->
  exists code c', translate n l = Some code /\ run code c = Some c' /\ agree s' c'.
Proof. exact scalars_right. Qed.
Print Assumptions C68_scalars.

(* Partial: arrays and tuples in tuples, when `separate` holds: no later expression reads the
   target under another index of equal value, or reads it in an index only, and no later
   expression reads a target of a tuple in the tuple *)
Theorem C68_assign_partial : forall n l s s' c code,
  source l = true -> py l s = Some s' -> separate s [] s l -> agree s c ->
  translate n l = Some code ->
  exists c', run code c = Some c' /\ agree s' c'.
Proof. exact translate_right. Qed.
Print Assumptions C68_assign_partial.

(* It is accepted if all indices on the left are names or numbers *)
Theorem C68_accepted : forall n l,
  forallb simple (targets l) = true -> exists code, translate n l = Some code.
Proof. exact translate_some. Qed.
Print Assumptions C68_accepted.

Definition v (x : string) : term := Var (Name x).
Definition to (x : string) : place := To (Name x).
Definition el (a x : string) : term := Elem a (v x).
Definition at_ (a x : string) : place := At a (v x).
Fixpoint items_of (l : list (place * term)) : items :=
  match l with [] => INil | (p, t) :: l' => ICons (One p t) (items_of l') end.

(* x = 1, y = 2, z = 3, i = 0, j = 1; a = [10, 11] *)
Definition start : store :=
  {| sc := fun q => match q with
                    | Name "x" => Some 1 | Name "y" => Some 2 | Name "z" => Some 3
                    | Name "i" => Some 0 | Name "j" => Some 1 | _ => None
                    end%Z;
     ar := fun a k => if String.eqb a "a" && (Z.eqb k 0 || Z.eqb k 1)
                      then Some (10 + k)%Z else None |}.
Definition var_of (x : string) (r : option store) : option Z :=
  match r with Some s => sc s (Name x) | None => None end.
Definition elem_of (k : Z) (r : option store) : option Z :=
  match r with Some s => ar s "a" k | None => None end.
Definition code (l : items) : option store :=
  match translate 0 l with Some c => run c start | None => None end.

(* x, y, z = z, x + y, x *)
Definition rotate : items :=
  items_of [(to "x", v "z"); (to "y", Plus (v "x") (v "y")); (to "z", v "x")].
Example C68_scalars_ex :
  source rotate = true /\ scalars rotate = true /\
  (var_of "x" (code rotate), var_of "y" (code rotate), var_of "z" (code rotate)) =
  (Some 3%Z, Some 3%Z, Some 1%Z) /\
  (var_of "x" (py rotate start), var_of "y" (py rotate start), var_of "z" (py rotate start)) =
  (Some 3%Z, Some 3%Z, Some 1%Z).
Proof. vm_compute. repeat split. Qed.

(* a[i], a[j] = a[j], a[i] *)
Definition swap : items := items_of [(at_ "a" "i", el "a" "j"); (at_ "a" "j", el "a" "i")].
Example C68_assign_ex :
  source swap = true /\ separate start [] start swap /\
  (elem_of 0 (py swap start), elem_of 1 (py swap start)) = (Some 11%Z, Some 10%Z) /\
  (elem_of 0 (code swap), elem_of 1 (code swap)) = (Some 11%Z, Some 10%Z).
Proof.
  split; [reflexivity |]. split; [| split; reflexivity].
  split; [| intros; split; [| intros; exact Logic.I]].
  - intros t u [<- | []] [H | []]. injection H as <-. right.
    split; [exists (el "a" "i"); split; left; reflexivity |]. split; [reflexivity |].
    right. exists (Name "i"). split; [reflexivity | intros []].
  - intros t u [].
Qed.

(* a[i], x, a[j] = 5, a[j], x: the value of a[j] is read under another index of another value *)
Definition other : items :=
  items_of [(at_ "a" "i", Const 5); (to "x", el "a" "j"); (at_ "a" "j", v "x")].
Example C68_other_ex :
  source other = true /\ separate start [] start other /\
  (var_of "x" (code other), elem_of 0 (code other), elem_of 1 (code other)) =
  (Some 11%Z, Some 5%Z, Some 1%Z).
Proof.
  split; [reflexivity |]. split; [| reflexivity].
  split; [| intros r s' H1 H2; split; [| intros; split; [| intros; exact Logic.I]]].
  - intros t u [<- | [<- | []]]; [| intros []]. intros [H | []]. injection H as <-. left.
    cbn. intros z w Hz Hw. injection Hz as <-. injection Hw as <-. discriminate.
  - intros _. exists (v "x"). split; left; reflexivity.
  - intros t u [].
Qed.

(* i, x = 1, a[i] *)
Theorem C68_index_refuted : exists l,
  source l = true /\ var_of "x" (py l start) = Some 10%Z /\ var_of "x" (code l) = Some 11%Z.
Proof. exists (items_of [(to "i", Const 1); (to "x", el "a" "i")]). vm_compute. repeat split. Qed.
Print Assumptions C68_index_refuted.

(* a[i], x = 5, a[0] with i = 0 *)
Theorem C68_alias_refuted : exists l,
  source l = true /\ var_of "x" (py l start) = Some 10%Z /\ var_of "x" (code l) = Some 5%Z.
Proof.
  exists (items_of [(at_ "a" "i", Const 5); (to "x", Elem "a" (Const 0))]).
  vm_compute. repeat split.
Qed.
Print Assumptions C68_alias_refuted.

(* (x, y), z = (5, 6), x *)
Theorem C68_nested_refuted : exists l,
  source l = true /\ var_of "z" (py l start) = Some 1%Z /\ var_of "z" (code l) = Some 5%Z.
Proof.
  exists (ICons (Group (items_of [(to "x", Const 5); (to "y", Const 6)]))
         (ICons (One (to "z") (v "x")) INil)).
  vm_compute. repeat split.
Qed.
Print Assumptions C68_nested_refuted.

(* x, y = y, x in a function that is visited twice (for two types of its arguments, semantic.py 6496-6555, or
   an inline function called twice): the second visit finds the variable created in the first
   one, which has no value there *)
Theorem C68_twice_refuted : exists l c,
  source l = true /\ scalars l = true /\
  py l start <> None /\ translate 1 (after 0 l) = Some c /\ run c start = None.
Proof.
  exists (items_of [(to "x", v "y"); (to "y", v "x")]). eexists.
  split; [reflexivity |]. split; [reflexivity |]. split; [vm_compute; discriminate |].
  split; [reflexivity |]. reflexivity.
Qed.
Print Assumptions C68_twice_refuted.
