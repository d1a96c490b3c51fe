(* Property C01: generated names never clash. *)
From Coq Require Import List Bool Arith String Ascii.
From Verif Require Import Common Naming_Model Naming_Spec Naming_Proofs.
Import ListNotations.
Open Scope string_scope.
Open Scope list_scope.
Open Scope nat_scope.

(* The incremented-name search terminates, returns the first free name
   prefix_<counter> at or after the given counter, and the counter to try next. *)
Theorem C01_incremented_name : forall l forbidden prefix counter,
  let p := match prefix with Some p => p | None => "Dummy" end in
  exists k, counter <= k
    /\ create_incremented_string forbidden prefix counter (Some l) = POk (name_format p k, S k)
    /\ ~ reserved l (name_format p k) /\ ~ in_use l (name_format p k) forbidden
    /\ forall j, counter <= j < k -> reserved l (name_format p j) \/ in_use l (name_format p j) forbidden.
Proof. exact create_checked_ok. Qed.
Print Assumptions C01_incremented_name.

Theorem C01_incremented_name_unchecked : forall forbidden prefix counter,
  let p := match prefix with Some p => p | None => "Dummy" end in
  exists k, counter <= k
    /\ create_incremented_string forbidden prefix counter None = POk (name_format p k, S k)
    /\ ~ In (name_format p k) forbidden
    /\ forall j, counter <= j < k -> In (name_format p j) forbidden.
Proof. exact create_unchecked_ok. Qed.
Print Assumptions C01_incremented_name_unchecked.

Example C01_incremented_name_ex :
  create_incremented_string ["X_0007"; "x_0008"] (Some "x") 7 (Some LFortran) = POk ("x_0009", 10)
  /\ create_incremented_string ["X_0007"; "x_0008"] (Some "x") 7 (Some LC) = POk ("x_0007", 8).
Proof. split; vm_compute; reflexivity. Qed.

(* The number in the name is the counter, written in decimal. *)
Theorem C01_name_format : forall p k,
  exists d, name_format p k = (p ++ "_" ++ d)%string /\ dec_value d 0 = k.
Proof. intros p k. exists (dec4 k). split; [reflexivity | exact (dec4_value k)]. Qed.
Print Assumptions C01_name_format.

(* Adapting any non-empty name to any target language terminates with a name
   that is not reserved and not in use.  (The wrapper context does not exist
   for Python output: the code asserts this.) *)
Theorem C01_collisionless_name : forall l name symbols prefix ctx parent,
  name <> "" -> (l = LPython -> ctx <> CWrapper) ->
  exists r, get_collisionless_name l name symbols prefix ctx parent = POk r
    /\ ~ reserved l r /\ ~ in_use l r symbols.
Proof. exact get_collisionless_ok. Qed.
Print Assumptions C01_collisionless_name.

Example C01_collisionless_name_ex :
  get_collisionless_name LFortran "End" ["end_0001"; "x"] "mod__" CVariable SFunction = POk "End_0002"
  /\ get_collisionless_name LC "__add__" ["x"] "mod__C__" CFunction SClass = POk "mod__C__operator_add"
  /\ get_collisionless_name LC "_p" ["private_p"] "f__" CVariable SFunction = POk "private_p_0001".
Proof. repeat split; vm_compute; reflexivity. Qed.

(* In C output no adapted Python identifier is a keyword of ISO C11.  pyccel's
   own table misspells "while"; that is harmless because "while" is a Python
   keyword, hence no identifier. *)
Theorem C01_no_c11_keyword : forall name symbols prefix ctx parent r,
  name <> "while" -> (prefix = "" \/ exists p, prefix = (p ++ "__")%string) ->
  get_collisionless_name LC name symbols prefix ctx parent = POk r ->
  ~ In r c11_keywords.
Proof. exact c11_ok. Qed.
Print Assumptions C01_no_c11_keyword.

Example C01_no_c11_keyword_ex :
  "int" <> "while" /\ get_collisionless_name LC "int" ["int_0001"] "" CVariable SFunction = POk "int_0002".
Proof. split; [discriminate | vm_compute; reflexivity]. Qed.

(* A free name that needs no adaptation is kept as the user wrote it. *)
Theorem C01_free_name_kept : forall l name symbols prefix ctx parent,
  name <> "" -> String.get 0 name <> Some "_"%char ->
  (l = LPython -> ctx <> CWrapper) ->
  (l = LC -> ctx <> CFunction /\ (parent = SModule -> ctx = CModule \/ ctx = CWrapper)) ->
  ~ reserved l name -> ~ in_use l name symbols ->
  get_collisionless_name l name symbols prefix ctx parent = POk name.
Proof. exact free_name_kept. Qed.
Print Assumptions C01_free_name_kept.
